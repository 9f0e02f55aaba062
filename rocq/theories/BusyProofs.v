(** Retries absorb busy errors. *)
From Coq Require Import List ZArith Bool Lia Arith.
From Verif Require Import Bytes Spec Sql System Prog Backend Limited Busy.
Import ListNotations.
Open Scope Z_scope.

(** [exec], also returning the rest of the schedule *)
Fixpoint execr {A} (p : prog A) (sched : list (list aop * fault)) (w : world) : option (world * A * list (list aop * fault)) :=
  match p with
  | Ret a => Some (w, a, sched)
  | Call c k =>
      match sched with
      | [] => None
      | (env, f) :: rest => let '(w', r) := sem f c (fold_left wapply env w) in execr (k r) rest w'
      end
  end.
Lemma execr_exec {A} (p : prog A) : forall sched w w' a, exec p sched w = (w', Some a) <-> exists rest, execr p sched w = Some (w', a, rest).
Proof.
  induction p as [x|c k IH]; intros sched w w' a; cbn [exec execr].
  - split; [intros [= <- <-]; eauto|intros (rest & [= <- <- _]); reflexivity].
  - destruct sched as [|[env f] rest]; [split; [discriminate|intros (r & [=])]|]. destruct (sem f c (fold_left wapply env w)) as [w1 r]. apply IH.
Qed.
Lemma execr_bind {A B} (p : prog A) (f : A -> prog B) : forall sched w,
  execr (pbind p f) sched w = match execr p sched w with Some (w', a, rest) => execr (f a) rest w' | None => None end.
Proof.
  induction p as [x|c k IH]; intros sched w; cbn [pbind execr]; [reflexivity|]. destruct sched as [|[env g] rest]; [reflexivity|]. destruct (sem g c (fold_left wapply env w)) as [w1 r]. apply IH.
Qed.
Lemma patient_app a b : patient (a ++ b) -> patient b.
Proof.
  intros [P Q]. split; [|intros env I; apply (Q env), in_or_app; auto]. intros pre mid post E F. apply (P (a ++ pre) mid post); [rewrite E; now rewrite app_assoc|exact F].
Qed.
(** a program that does not notice *)
Definition absorbs {A} (p : prog A) : Prop := forall sched w w' a rest, patient sched -> execr p sched w = Some (w', a, rest) ->
  (exists used, sched = used ++ rest) /\ execr p (without_busy [] sched) w = Some (w', a, without_busy [] rest).
Lemma absorbs_ret {A} (a : A) : absorbs (Ret a).
Proof. intros sched w w' x rest P [= <- <- <-]. split; [exists []; reflexivity|reflexivity]. Qed.
Lemma absorbs_bind {A B} (p : prog A) (f : A -> prog B) : absorbs p -> (forall a, absorbs (f a)) -> absorbs (pbind p f).
Proof.
  intros HP HF sched w w' b rest P E. rewrite execr_bind in E. rewrite execr_bind. destruct (execr p sched w) as [[[w1 a] r1]|] eqn:E1; [|discriminate].
  destruct (HP sched w w1 a r1 P E1) as ((u1 & U1) & ->). subst sched. destruct (HF a r1 w1 w' b rest (patient_app _ _ P) E) as ((u2 & ->) & E2). split; [exists (u1 ++ u2); now rewrite app_assoc|exact E2].
Qed.
Lemma absorbs_rbind {A B} (p : prog (result A)) (f : A -> prog (result B)) : absorbs p -> (forall a, absorbs (f a)) -> absorbs (rbind p f).
Proof. intros HP HF. apply absorbs_bind; [exact HP|]. intros [a|e]; [apply HF|apply absorbs_ret]. Qed.
Lemma retry_absorbs n c : forall sched acc w w' a rest,
  (forall mid post, sched = mid ++ post -> forallb busy mid = true -> (length mid < n)%nat) -> (n <= 500)%nat -> patient sched ->
  execr (with_retry n c) sched (fold_left wapply acc w) = Some (w', a, rest) ->
  (exists used, sched = used ++ rest) /\ execr (with_retry 500 c) (without_busy acc sched) w = Some (w', a, without_busy [] rest).
Proof.
  induction n as [|n IH]; intros sched acc w w' a rest FEW LE P E.
  { pose proof (FEW [] sched eq_refl eq_refl) as X. cbn in X. lia. }
  cbn [with_retry execr] in E. destruct sched as [|[env f] sched]; [discriminate|].
  destruct (busy (env, f)) eqn:B.
  - assert (f = FailBefore EBusy) by (unfold busy in B; cbn in B; destruct f as [|[]|e|k e|]; congruence). subst f.
    cbn [sem] in E. pose proof (FEW [(env, FailBefore EBusy)] sched eq_refl eq_refl) as L1. cbn [length] in L1. destruct n as [|n]; [lia|]. cbn [retryable] in E.
    cbn [without_busy]. rewrite B. rewrite <- fold_left_app in E. destruct (IH sched (acc ++ env) w w' a rest) as ((u & ->) & X); auto.
    + intros mid post EQ F. specialize (FEW ((env, FailBefore EBusy) :: mid) post). cbn [app length forallb busy snd] in FEW. rewrite EQ in FEW. specialize (FEW eq_refl F). lia.
    + lia.
    + apply (patient_app [(env, FailBefore EBusy)]). exact P.
    + split; [exists ((env, FailBefore EBusy) :: u); reflexivity|exact X].
  - cbn [without_busy]. rewrite B. change (with_retry 500 c) with (Call c (fun r => match r with Ok _ => Ret r | Err e => if retryable e then with_retry 499 c else Ret r end)). cbn [execr].
    rewrite fold_left_app. destruct (sem f c (fold_left wapply env (fold_left wapply acc w))) as [w1 r] eqn:S.
    assert (NR : forall e, r = Err e -> retryable e = false).
    { intros e ->. destruct f as [|e'|e'|k e'|]; cbn [sem] in S; try discriminate; injection S as _ ->.
      - destruct e; try reflexivity. discriminate B.
      - destruct e; try reflexivity. exfalso. destruct P as [_ P]. apply (P env). left. reflexivity. }
    assert (E2 : execr (Ret (A := result (ret_of c)) r) sched w1 = Some (w', a, rest)).
    { destruct r as [x|e]; [exact E|]. destruct n; [exact E|]. rewrite (NR e eq_refl) in E. exact E. }
    cbn [execr] in E2. injection E2 as <- <- <-. split; [exists [(env, f)]; reflexivity|].
    destruct r as [x|e]; [reflexivity|]. rewrite (NR e eq_refl). reflexivity.
Qed.
Lemma absorbs_retry c : absorbs (with_retry max_retries c).
Proof.
  intros sched w w' a rest P E. apply (retry_absorbs 500 c sched [] w w' a rest); auto. intros mid post EQ F. destruct P as [P _]. apply (P [] mid post); auto.
Qed.
Ltac absorb := repeat first
  [ apply absorbs_ret | match goal with |- absorbs (with_retry max_retries ?c) => exact (absorbs_retry c) end | apply absorbs_rbind | progress intros
  | match goal with |- absorbs (match ?x with _ => _ end) => destruct x end
  | match goal with |- absorbs (if ?x then _ else _) => destruct x end ].
Lemma absorbs_interval : absorbs d_get_compact_revision.
Proof. unfold d_get_compact_revision, d_query. absorb. Qed.
Lemma absorbs_list cfg k re l r : absorbs (b_list cfg k re l r).
Proof. unfold b_list. apply absorbs_rbind; [apply absorbs_interval|]. intros [c0 c1]. unfold d_list, d_query. absorb. Qed.
Lemma absorbs_count cfg k re r : absorbs (b_count cfg k re r).
Proof. unfold b_count. apply absorbs_rbind; [apply absorbs_interval|]. intros [c0 c1]. unfold d_count, d_query. absorb. Qed.
Lemma absorbs_create k v l : absorbs (b_create k v l).
Proof. unfold b_create, d_create, d_current_revision, d_execute, d_query. absorb. Qed.
Lemma absorbs_update k v r l : absorbs (b_update k v r l).
Proof. unfold b_update, d_update, d_current_revision, d_execute, d_query. absorb. Qed.
Lemma absorbs_delete k r : absorbs (b_delete k r).
Proof. unfold b_delete, d_delete, d_current_revision, d_execute, d_query. absorb. Qed.
Lemma absorbs_failure cfg k r : absorbs (l_failure cfg k r).
Proof. unfold l_failure. apply absorbs_rbind; [apply absorbs_list|]. absorb. Qed.
Lemma absorbs_txn cfg t : absorbs (s_txn cfg t).
Proof.
  unfold s_txn, l_txn. destruct (is_create t) as [p|].
  { unfold l_create. destruct (_ || _); [apply absorbs_ret|]. apply absorbs_rbind; [apply absorbs_create|]. absorb. }
  destruct (is_delete t) as [[r k]|].
  { unfold l_delete. apply absorbs_rbind; [apply absorbs_delete|]. intros [r' ok]. destruct ok; [apply absorbs_ret|apply absorbs_failure]. }
  destruct (is_update t) as [[[[r k] v] l]|].
  { unfold l_update. apply absorbs_rbind; [destruct (r =? 0); [apply absorbs_create|apply absorbs_update]|]. intros [r' ok]. destruct ok; [apply absorbs_ret|apply absorbs_failure]. }
  destruct (is_compact t); apply absorbs_ret.
Qed.
Lemma absorbs_range cfg r : absorbs (s_range cfg r).
Proof.
  unfold s_range. repeat (match goal with |- absorbs (if ?x then _ else _) => destruct x; [apply absorbs_ret|] end).
  unfold l_range. destruct (r_range_end r) as [|b bs] eqn:E.
  - unfold l_get. apply absorbs_rbind; [apply absorbs_list|]. absorb.
  - unfold l_list. rewrite E. destruct (r_count_only r).
    + apply absorbs_rbind; [apply absorbs_count|]. absorb.
    + apply absorbs_rbind; [apply absorbs_list|]. intros [rev kvs]. destruct (_ && _); [|apply absorbs_ret]. apply absorbs_rbind; [apply absorbs_count|]. absorb.
Qed.
Lemma absorbs_exec {A} (p : prog A) : absorbs p -> forall sched w w' a, patient sched -> exec p sched w = (w', Some a) -> exec p (without_busy [] sched) w = (w', Some a).
Proof.
  intros H sched w w' a P E. apply execr_exec in E. destruct E as (rest & E). destruct (H sched w w' a rest P E) as (_ & E2). apply execr_exec. eauto.
Qed.
