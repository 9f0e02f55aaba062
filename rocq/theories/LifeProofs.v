From Coq Require Import List ZArith NArith Bool Lia.
From Verif Require Import Bytes Server.
Import ListNotations.
Open Scope nat_scope.

Lemma set_worker_same i w l x : nth_error l i = Some x -> nth_error (set_worker i w l) i = Some w.
Proof. unfold set_worker. revert i; induction l as [|y l IH]; intros [|i] H; cbn in *; try discriminate; auto. Qed.
Lemma set_worker_other i w l j x : nth_error l i = Some x -> j <> i -> nth_error (set_worker i w l) j = nth_error l j.
Proof. unfold set_worker. revert i j; induction l as [|y l IH]; intros [|i] [|j] H N; cbn in *; try discriminate; auto; try (now destruct N); apply IH; auto. Qed.
Lemma set_worker_in i w l x : nth_error l i = Some x -> forall y, In y (set_worker i w l) -> y = w \/ In y l.
Proof.
  unfold set_worker. intros H y I. apply in_app_iff in I. destruct I as [I|[<-|I]]; auto; right.
  - rewrite <- (firstn_skipn i l). apply in_app_iff. now left.
  - rewrite <- (firstn_skipn (S i) l). apply in_app_iff. now right.
Qed.

Definition is_stop (o : lop) : Prop := o = LStop \/ o = LClose.
Record LI (s : lstate) : Prop := {
  I_caller : l_lock s = Some OCaller <-> match l_pc s with PcStart _ | PcStop => True | _ => False end;
  I_hold : forall i c, nth_error (l_workers s) i = Some (KHold, c) -> l_lock s = Some (OWorker i);
  I_owner : forall i, l_lock s = Some (OWorker i) -> exists c, nth_error (l_workers s) i = Some (KHold, c);
  I_leak : l_lock s = Some OLeaked -> l_started s = false /\ l_workers s = [] /\ l_pc s = PcIdle;
  I_idle : l_started s = false -> l_pc s <> PcWait -> l_workers s = [];
  I_wait : l_pc s = PcWait -> l_started s = false /\ Forall (fun w : lworker * bool => snd w = true) (l_workers s);
  I_head : match l_pc s with
           | PcIdle => True
           | PcStart ok => exists t, l_todo s = LStart ok :: t
           | PcStop | PcWait => exists o t, l_todo s = o :: t /\ is_stop o
           end }.
Ltac li := cbn [l_lock l_started l_workers l_pc l_todo] in *.
Ltac dum := first [discriminate | congruence | tauto].
Lemma LI_step s s' : lstep s s' -> LI s -> LI s'.
Proof.
  intros St [A B C D E F G]. destruct St; li.
  - (* start_lock *) constructor; li; auto; try (intros; discriminate).
    + tauto.
    + intros i c H. apply B in H. discriminate.
    + intros ? ?. apply E; auto; discriminate.
    + eauto.
  - constructor; li; try (intros; discriminate).
    + split; [discriminate|tauto].
    + intros i c H. apply B in H. discriminate.
    + exact Logic.I.
  - constructor; li; try (intros; discriminate).
    + split; [discriminate|tauto].
    + intros i c H. apply B in H. discriminate.
    + intros _ _. apply E; auto; discriminate.
    + exact Logic.I.
  - constructor; li; try (intros; discriminate).
    + split; [discriminate|tauto].
    + intros i c H. exfalso. rewrite E in H by (auto; discriminate). cbn in H. destruct i as [|[|[|i]]]; cbn in H; try discriminate. destruct i; discriminate.
    + exact Logic.I.
  - constructor; li; try (intros; discriminate).
    + tauto.
    + intros i c K. apply B in K. discriminate.
    + intros K _. apply E; auto; discriminate.
    + exists o, todo. split; auto.
  - assert (ws = []) as -> by (apply E; auto; discriminate). constructor; li; try (intros; discriminate); auto.
    + split; [discriminate|tauto].
    + intros [|i] c K; discriminate.
  - constructor; li; try (intros; discriminate); auto.
    + split; [discriminate|tauto].
    + intros i c K. rewrite nth_error_map in K. destruct (nth_error ws i) as [[k c']|] eqn:J; cbn in K; [|discriminate]. injection K as -> <-. apply B in J. discriminate.
    + intros K1 K2. congruence.
    + intros _. split; auto. apply Forall_forall. intros w I. apply in_map_iff in I. destruct I as (x & <- & _). reflexivity.
  - destruct (F eq_refl) as [-> _]. assert (lk <> Some OCaller) by (intros ->; now apply A).
    assert (forall i, lk <> Some (OWorker i)).
    { intros i ->. destruct (C i eq_refl) as [c K]. apply nth_error_In in K. rewrite Forall_forall in H. apply H in K. discriminate. }
    constructor; li; auto; try (intros; discriminate).
    + intros [|i] c K; discriminate.
    + intros i K. exfalso. eapply H1; eauto.
  - constructor; li.
    + exact A.
    + intros j c' K. destruct (PeanoNat.Nat.eq_dec j i) as [->|N]; [erewrite set_worker_same in K by eauto; discriminate|]. erewrite set_worker_other in K by eauto. eauto.
    + intros j K. destruct (C j K) as [c' J]. exists c'. erewrite set_worker_other; eauto. intros ->. congruence.
    + intros K. destruct (D K) as (_ & -> & _). destruct i; discriminate.
    + intros K1 K2. rewrite (E K1 K2) in H. destruct i; discriminate.
    + intros K. destruct (F K) as [-> F2]. split; auto. apply Forall_forall. rewrite Forall_forall in F2. intros w I. eapply set_worker_in in I; eauto. destruct I as [->|I]; auto. apply nth_error_In in H. apply F2 in H. exact H.
    + exact G.
  - constructor; li.
    + split; [discriminate|]. intros K. exfalso. apply A in K. discriminate.
    + intros j c' K. destruct (PeanoNat.Nat.eq_dec j i) as [->|N]; auto. erewrite set_worker_other in K by eauto. apply B in K. discriminate.
    + intros j [= <-]. exists c. eapply set_worker_same; eauto.
    + discriminate.
    + intros K1 K2. rewrite (E K1 K2) in H. destruct i; discriminate.
    + intros K. destruct (F K) as [-> F2]. split; auto. apply Forall_forall. rewrite Forall_forall in F2. intros w I. eapply set_worker_in in I; eauto. destruct I as [->|I]; auto. apply nth_error_In in H. apply F2 in H. exact H.
    + exact G.
  - constructor; li.
    + split; [discriminate|]. intros K. exfalso. apply A in K. discriminate.
    + intros j c' K. destruct (PeanoNat.Nat.eq_dec j i) as [->|N]; [erewrite set_worker_same in K by eauto; discriminate|]. erewrite set_worker_other in K by eauto. apply B in K. congruence.
    + discriminate.
    + discriminate.
    + intros K1 K2. rewrite (E K1 K2) in H. destruct i; discriminate.
    + intros K. destruct (F K) as [-> F2]. split; auto. apply Forall_forall. rewrite Forall_forall in F2. intros w I. eapply set_worker_in in I; eauto. destruct I as [->|I]; auto. apply nth_error_In in H. apply F2 in H. exact H.
    + exact G.
  - constructor; li.
    + exact A.
    + intros j c' K. destruct (PeanoNat.Nat.eq_dec j i) as [->|N]; [erewrite set_worker_same in K by eauto; discriminate|]. erewrite set_worker_other in K by eauto. eauto.
    + intros j K. destruct (C j K) as [c' J]. exists c'. erewrite set_worker_other; eauto. intros ->. congruence.
    + intros K. destruct (D K) as (_ & -> & _). destruct i; discriminate.
    + intros K1 K2. rewrite (E K1 K2) in H. destruct i; discriminate.
    + intros K. destruct (F K) as [-> F2]. split; auto. apply Forall_forall. rewrite Forall_forall in F2. intros w I. eapply set_worker_in in I; eauto. destruct I as [->|I]; auto.
    + exact G.
Qed.
Lemma lsteps_trans s1 s2 s3 : lsteps s1 s2 -> lsteps s2 s3 -> lsteps s1 s3.
Proof. induction 1; auto. intros. econstructor; eauto. Qed.
Lemma lsteps_one s s' : lstep s s' -> lsteps s s'.
Proof. intros. econstructor; eauto. constructor. Qed.
Lemma LI_steps s s' : lsteps s s' -> LI s -> LI s'.
Proof. induction 1; auto. intros. apply IHlsteps. eapply LI_step; eauto. Qed.
Lemma LI_init todo : LI (linit todo).
Proof.
  constructor; cbn; auto; try (intros; discriminate).
  - split; [discriminate|tauto].
  - intros [|i] c H; discriminate.
Qed.

(** all cancelled workers can leave *)
Definition wm (w : lworker * bool) : nat := match fst w with KGone => 0 | KRun => 1 | KHold => 2 | KWant => 3 end.
Definition wsum (l : list (lworker * bool)) : nat := list_sum (map wm l).
Lemma wsum_set i w l x : nth_error l i = Some x -> wsum (set_worker i w l) + wm x = wsum l + wm w.
Proof.
  intros H. unfold wsum. assert (A : forall l1 l2 : list nat, list_sum (l1 ++ l2) = list_sum l1 + list_sum l2) by apply list_sum_app.
  apply nth_error_split in H. destruct H as (l1 & l2 & -> & <-).
  assert (E : set_worker (length l1) w (l1 ++ x :: l2) = l1 ++ w :: l2).
  { unfold set_worker. rewrite firstn_app, PeanoNat.Nat.sub_diag, firstn_all. cbn [firstn]. rewrite app_nil_r. f_equal. f_equal.
    rewrite skipn_app, skipn_all2 by lia. replace (S (length l1) - length l1) with 1 by lia. reflexivity. }
  rewrite E, !map_app, !A. cbn [map list_sum fold_right]. fold (list_sum (map wm l2)). unfold list_sum. cbn [fold_right]. lia.
Qed.
Lemma not_gone l : Forall (fun w : lworker * bool => fst w = KGone) l \/ exists i k c, nth_error l i = Some (k, c) /\ k <> KGone.
Proof.
  induction l as [|[k c] l [F|(i & k' & c' & H & N)]]; [left; constructor| |right; exists (S i), k', c'; auto].
  destruct k; [right; exists 0, KRun, c; split; [auto|discriminate]|right; exists 0, KWant, c; split; [auto|discriminate]|right; exists 0, KHold, c; split; [auto|discriminate]|left; now constructor].
Qed.
Lemma drain n : forall s, wsum (l_workers s) <= n -> LI s -> l_pc s = PcWait ->
  exists s', lsteps s s' /\ l_pc s' = PcWait /\ l_todo s' = l_todo s /\ Forall (fun w : lworker * bool => fst w = KGone) (l_workers s').
Proof.
  induction n as [|n IH]; intros s L I P; destruct (not_gone (l_workers s)) as [G|(i & k & c & H & N)];
    try (exists s; split; [constructor|auto]; fail).
  - exfalso. pose proof (wsum_set i (KGone, c) _ _ H). destruct k; cbn in *; try lia. contradiction.
  - assert (X : exists s1, lstep s s1 /\ wsum (l_workers s1) < wsum (l_workers s) /\ l_pc s1 = PcWait /\ l_todo s1 = l_todo s).
    { destruct I as [A B C D E F G]. destruct s as [lk st ws pc todo]. li. subst pc.
      destruct lk as [[|j|]|].
      - exfalso. apply A. reflexivity.
      - destruct (C j eq_refl) as [c' J]. eexists. split; [eapply ls_worker_unlock; eauto|]. li. split; auto.
        pose proof (wsum_set j (KRun, c') _ _ J). unfold wm in H0. cbn in H0. lia.
      - exfalso. destruct (D eq_refl) as (_ & _ & ?). discriminate.
      - destruct k; try contradiction.
        + destruct (F eq_refl) as [_ F2]. rewrite Forall_forall in F2. pose proof (nth_error_In _ _ H) as J. apply F2 in J. cbn in J. subst c.
          eexists. split; [eapply ls_worker_exit; eauto|]. li. split; auto. pose proof (wsum_set i (KGone, true) _ _ H). unfold wm in H0. cbn in H0. lia.
        + eexists. split; [eapply ls_worker_lock; eauto|]. li. split; auto. pose proof (wsum_set i (KHold, c) _ _ H). unfold wm in H0. cbn in H0. lia.
        + apply B in H. discriminate. }
    destruct X as (s1 & St & M & P1 & T1). destruct (IH s1) as (s' & Ss & P' & T' & G); auto; [lia|eapply LI_step; eauto|].
    exists s'. split; [econstructor; eauto|]. rewrite T', T1. auto.
Qed.
Lemma unblock s : LI s -> l_pc s = PcIdle -> l_lock s <> Some OLeaked ->
  exists s', lsteps s s' /\ l_lock s' = None /\ l_pc s' = PcIdle /\ l_todo s' = l_todo s /\ l_started s' = l_started s.
Proof.
  intros [A B C D E F G] P N. destruct s as [lk st ws pc todo]. li. subst pc. destruct lk as [[|j|]|].
  - exfalso. apply A. reflexivity.
  - destruct (C j eq_refl) as [c J]. eexists. split; [apply lsteps_one; eapply ls_worker_unlock; eauto|]. li. auto.
  - congruence.
  - eexists. split; [constructor|]. li. auto.
Qed.
(** from the critical section on, a call can complete *)
Lemma finish_call s o t : LI s -> l_todo s = o :: t -> l_pc s <> PcIdle -> exists s', lsteps s s' /\ l_todo s' = t /\ l_pc s' = PcIdle.
Proof.
  intros I T P. destruct (l_pc s) as [|ok| |] eqn:PC; try congruence.
  - destruct s as [lk st ws pc todo]. li. subst. pose proof (I_caller _ I) as A. li. assert (lk = Some OCaller) as -> by (now apply A).
    destruct st; [eexists; split; [apply lsteps_one; apply ls_start_again|]; li; auto|].
    destruct ok; [eexists; split; [apply lsteps_one; apply ls_start_ok|]; li; auto|eexists; split; [apply lsteps_one; apply ls_start_fail|]; li; auto].
  - destruct s as [lk st ws pc todo]. li. subst. pose proof (I_caller _ I) as A. li. assert (lk = Some OCaller) as -> by (now apply A).
    destruct st.
    + assert (St := ls_stop_cancel ws o t). pose proof (LI_step _ _ St I) as I'.
      destruct (drain _ _ (le_n _) I' eq_refl) as ([lk st ws' pc todo] & Ss & P' & T' & G). li. subst.
      eexists. split; [econstructor; [exact St|eapply lsteps_trans; [exact Ss|apply lsteps_one; eapply ls_stop_wait; exact G]]|]. li. auto.
    + eexists. split; [apply lsteps_one; apply ls_stop_idle|]. li. auto.
  - destruct (drain _ _ (le_n _) I PC) as ([lk st ws' pc todo] & Ss & P' & T' & G). li. subst. rewrite T in *.
    eexists. split; [eapply lsteps_trans; [exact Ss|apply lsteps_one; eapply ls_stop_wait; exact G]|]. li. auto.
Qed.
Lemma call_returns todo s o t : lsteps (linit todo) s -> l_lock s <> Some OLeaked -> l_todo s = o :: t ->
  exists s', lsteps s s' /\ l_todo s' = t.
Proof.
  intros R N T. pose proof (LI_steps _ _ R (LI_init todo)) as I.
  destruct (l_pc s) eqn:P.
  2-4: destruct (finish_call s o t I T ltac:(congruence)) as (s' & Ss & T' & _); eauto.
  destruct (unblock s I P N) as (s1 & S1 & L1 & P1 & T1 & _). pose proof (LI_steps _ _ S1 I) as I1. rewrite T in T1.
  assert (X : exists s2, lstep s1 s2 /\ l_todo s2 = o :: t /\ l_pc s2 <> PcIdle).
  { destruct s1 as [lk st ws pc td]. li. subst. destruct o as [ok| |]; eexists; (split; [constructor; auto|]); li; (split; [reflexivity|discriminate]). }
  destruct X as (s2 & S2 & T2 & P2). pose proof (LI_step _ _ S2 I1) as I2. destruct (finish_call s2 o t I2 T2 P2) as (s' & S' & T' & _).
  exists s'. split; auto. eapply lsteps_trans; [exact S1|]. econstructor; eauto.
Qed.
(** the mutex is only lost by stopping a backend that is not started *)
Lemma leak_cause s s' : lstep s s' -> l_lock s' = Some OLeaked -> l_lock s = Some OLeaked \/ (l_pc s = PcStop /\ l_started s = false).
Proof. destruct 1; li; intros K; try discriminate; auto. Qed.

(** after the last stop *)
Definition LastStop (s : lstate) : Prop :=
  (exists t o, l_todo s = t ++ [o] /\ is_stop o) \/ (l_todo s = [] /\ l_started s = false /\ l_workers s = [] /\ l_pc s = PcIdle).
Lemma tail_stop (o : lop) (todo t : list lop) (x : lop) : o :: todo = t ++ [x] -> todo = [] /\ o = x \/ exists t', todo = t' ++ [x].
Proof. destruct t as [|y t]; cbn; intros [= -> ->]; eauto. Qed.
Lemma LastStop_step s s' : lstep s s' -> LI s -> LastStop s -> LastStop s'.
Proof.
  intros St I [(t & x & T & X)|(T & ST & W & P)].
  - pose proof (I_head _ I) as G. pose proof (I_idle _ I) as E. destruct St; li; subst.
    1, 5, 7, 9, 10, 11, 12: (left; exists t, x; li; auto; fail).
    1-3: destruct G as [t' G]; apply tail_stop in T; destruct T as [[-> ->]|[t2 ->]]; [exfalso; injection G as -> _; destruct X; discriminate|left; exists t2, x; auto].
    1: apply tail_stop in T; destruct T as [[-> ->]|[t2 ->]]; [right; li; repeat split; auto; apply E; auto; discriminate|left; exists t2, x; auto].
    destruct (I_wait _ I eq_refl) as [K _]. li. subst. apply tail_stop in T; destruct T as [[-> ->]|[t2 ->]]; [right; li; repeat split; auto|left; exists t2, x; auto].
  - right. destruct St; li; subst; try discriminate; destruct i; discriminate.
Qed.
Lemma stopped_after todo o s : o = LStop \/ o = LClose -> lsteps (linit (todo ++ [o])) s -> l_todo s = [] ->
  l_started s = false /\ l_workers s = [] /\ l_pc s = PcIdle.
Proof.
  intros X R T. assert (H : LastStop (linit (todo ++ [o]))) by (left; exists todo, o; auto). pose proof (LI_init (todo ++ [o])) as I.
  assert (G : LastStop s). { revert H I T. induction R; auto. intros H' I' T. apply IHR; auto; [eapply LastStop_step; eauto|eapply LI_step; eauto]. }
  destruct G as [(t & x & E & _)|G]; [|tauto]. rewrite T in E. destruct t; discriminate.
Qed.
(** a lost mutex blocks every later call forever *)
Lemma leaked_stuck s s' : l_lock s = Some OLeaked -> l_pc s = PcIdle -> l_workers s = [] -> lsteps s s' -> s' = s.
Proof. intros L P W R. induction R; auto. destruct H; li; subst; try discriminate; destruct i; discriminate. Qed.
Lemma stop_twice rest : exists s, lsteps (linit (LStop :: rest)) s /\ l_todo s = rest /\ forall s', lsteps s s' -> l_todo s' = rest.
Proof.
  exists (LState (Some OLeaked) false [] PcIdle rest). split; [|split; auto].
  - econstructor; [apply ls_stop_lock; auto|]. econstructor; [apply ls_stop_idle|]. constructor.
  - intros s' R. apply leaked_stuck in R; auto. now rewrite R.
Qed.
