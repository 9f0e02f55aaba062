(** How much work a request does, and what it does with errors. *)
From Coq Require Import List ZArith Bool Lia.
From Verif Require Import Bytes Spec Sql System Prog Backend Limited Api Observe ProgLemmas.
Import ListNotations.
Open Scope Z_scope.

(** [p] issues at most [n] calls, whatever the answers ([ok] restricts the errors). *)
Fixpoint max_calls {A} (ok : err -> Prop) (n : nat) (p : prog A) : Prop :=
  match p with
  | Ret _ => True
  | Call c k => exists m, n = S m /\ forall r, (forall e, r = Err e -> ok e) -> max_calls ok m (k r)
  end.
Lemma max_calls_le {A} ok (p : prog A) : forall n m, max_calls ok n p -> (n <= m)%nat -> max_calls ok m p.
Proof.
  induction p as [a|c k IH]; intros n m H L; [exact Logic.I|].
  destruct H as (n' & -> & H). destruct m as [|m]; [lia|]. exists m. split; auto. intros r Hr. apply (IH r n' m (H r Hr)). lia.
Qed.
Lemma max_calls_bind {A B} ok (p : prog A) (f : A -> prog B) : forall n m, max_calls ok n p -> (forall a, max_calls ok m (f a)) ->
  max_calls ok (n + m) (pbind p f).
Proof.
  induction p as [a|c k IH]; intros n m H K.
  - apply (max_calls_le ok (f a) m); [apply K|lia].
  - destruct H as (n' & -> & H). exists (n' + m)%nat. split; [reflexivity|]. intros r Hr. apply IH; auto.
Qed.
Lemma max_calls_rbind {A B} ok (p : prog (result A)) (f : A -> prog (result B)) n m : max_calls ok n p -> (forall a, max_calls ok m (f a)) ->
  max_calls ok (n + m) (rbind p f).
Proof. intros H K. unfold rbind. apply max_calls_bind; auto. intros [a|e]; [apply K|exact Logic.I]. Qed.
Lemma max_calls_retry n c : max_calls (fun _ => True) n (with_retry n c).
Proof.
  induction n as [|n IH]; [exact Logic.I|]. exists n. split; auto. intros r _.
  destruct r as [a|e]; [exact Logic.I|]. destruct n; [exact Logic.I|]. destruct (retryable e); [exact IH|exact Logic.I].
Qed.
Definition final (e : err) : Prop := e <> EBusy.
Lemma max_calls_retry1 n c : max_calls final 1 (with_retry n c).
Proof.
  destruct n as [|n]; [exact Logic.I|]. exists 0%nat. split; auto. intros r Hr.
  destruct r as [a|e]; [exact Logic.I|]. destruct n; [exact Logic.I|].
  pose proof (Hr e eq_refl) as N. destruct e; simpl; auto. now destruct N.
Qed.

Section Bounds.
  Variables (ok : err -> Prop) (q : nat).
  Hypothesis Q : forall c, max_calls ok q (with_retry max_retries c).

  Lemma mc_interval : max_calls ok q d_get_compact_revision.
  Proof.
    unfold d_get_compact_revision. apply (max_calls_le ok _ (q + 0)); [|lia].
    apply max_calls_rbind; [apply Q|]. intros; exact Logic.I.
  Qed.
  Lemma mc_list cfg key re limit rev : max_calls ok (q + q) (b_list cfg key re limit rev).
  Proof.
    unfold b_list. apply max_calls_rbind; [apply mc_interval|]. intros [c r].
    destruct (read_revision rev c r); [|exact Logic.I]. apply (max_calls_le ok _ (q + 0)); [|lia].
    apply max_calls_rbind; [apply Q|]. intros; exact Logic.I.
  Qed.
  Lemma mc_count cfg key re rev : max_calls ok (q + q) (b_count cfg key re rev).
  Proof.
    unfold b_count. apply max_calls_rbind; [apply mc_interval|]. intros [c r].
    destruct (read_revision rev c r); [|exact Logic.I]. apply (max_calls_le ok _ ((q + 0) + 0)); [|lia].
    apply max_calls_rbind; [|intros; exact Logic.I]. unfold d_count. apply max_calls_rbind; [apply Q|]. intros; exact Logic.I.
  Qed.
  Lemma mc_range cfg r : max_calls ok (4 * q) (s_range cfg r).
  Proof.
    unfold s_range.
    repeat match goal with |- max_calls _ _ (if ?b then _ else _) => destruct b; [exact Logic.I|] end.
    unfold l_range. destruct (r_range_end r) as [|x0 re0] eqn:RE.
    - unfold l_get. apply (max_calls_le ok _ ((q + q) + 0)); [|lia]. apply max_calls_rbind; [apply mc_list|]. intros [? ?]; exact Logic.I.
    - unfold l_list. rewrite RE. destruct (r_count_only r).
      + apply (max_calls_le ok _ ((q + q) + 0)); [|lia]. apply max_calls_rbind; [apply mc_count|]. intros [? ?]; exact Logic.I.
      + apply (max_calls_le ok _ ((q + q) + ((q + q) + 0))); [|lia]. apply max_calls_rbind; [apply mc_list|].
        intros [rev kvs]. cbv zeta.
        match goal with |- max_calls _ _ (if ?b then _ else _) => destruct b end; [|exact Logic.I].
        apply max_calls_rbind; [apply mc_count|]. intros [? ?]; exact Logic.I.
  Qed.
  Lemma mc_exec (a : aop) (f : Z * Z -> Z * bool) : max_calls ok q (let* x := d_execute a in Ret (Ok (f x))).
  Proof. apply (max_calls_le ok _ (q + 0)); [|lia]. apply max_calls_rbind; [apply (Q (CExec a))|]. intros; exact Logic.I. Qed.
  Lemma mc_failure cfg key rev : max_calls ok (q + q) (l_failure cfg key rev).
  Proof. unfold l_failure. apply (max_calls_le ok _ ((q + q) + 0)); [|lia]. apply max_calls_rbind; [apply mc_list|]. intros [? ?]; exact Logic.I. Qed.
  Lemma mc_txn cfg t : max_calls ok (3 * q) (s_txn cfg t).
  Proof.
    unfold s_txn, l_txn. destruct (is_create t) as [p|].
    { unfold l_create. destruct (_ || _); [exact Logic.I|]. apply (max_calls_le ok _ (q + 0)); [|lia].
      apply max_calls_rbind; [apply mc_exec|]. intros [? ?]; exact Logic.I. }
    destruct (is_delete t) as [[rev key]|].
    { unfold l_delete. apply (max_calls_le ok _ (q + (q + q))); [|lia]. apply max_calls_rbind; [apply mc_exec|].
      intros [r d]. destruct d; [exact Logic.I|apply mc_failure]. }
    destruct (is_update t) as [[[[rev key] v] l]|].
    { unfold l_update. apply (max_calls_le ok _ (q + (q + q))); [|lia]. apply max_calls_rbind.
      - destruct (rev =? 0); apply mc_exec.
      - intros [r d]. destruct d; [exact Logic.I|apply mc_failure]. }
    destruct (is_compact t); exact Logic.I.
  Qed.
End Bounds.

Lemma max_calls_exec {A} (p : prog A) : forall n sched w, max_calls (fun _ => True) n p ->
  (length (calls p sched w) <= n)%nat /\ ((n <= length sched)%nat -> exists a, snd (exec p sched w) = Some a).
Proof.
  induction p as [a|c k IH]; intros n sched w H.
  - simpl. split; [lia|eauto].
  - destruct H as (m & -> & H). destruct sched as [|[env f] sched].
    + simpl. split; [lia|lia].
    + cbn [calls exec length]. destruct (sem f c (fold_left wapply env w)) as [w' r] eqn:S. cbn [fst snd].
      destruct (IH r m sched w' (H r (fun _ _ => Logic.I))) as [A1 A2]. split; [lia|]. intros L. apply A2. lia.
Qed.
Local Transparent max_retries.
(** no call fails with a retryable error *)
Definition not_busy (f : fault) : Prop :=
  match f with FailBefore e | FailAfter e => e <> EBusy | _ => True end.
Lemma sem_error f c w e : snd (sem f c w) = Err e -> f = FailBefore e \/ f = FailAfter e.
Proof. destruct f; simpl; intros H; try discriminate; injection H as <-; auto. Qed.
Lemma max_calls_quick {A} (p : prog A) : forall n sched w, max_calls final n p -> Forall (fun x => not_busy (snd x)) sched ->
  (length (calls p sched w) <= n)%nat.
Proof.
  induction p as [a|c k IH]; intros n sched w H F.
  - simpl. lia.
  - destruct H as (m & -> & H). destruct sched as [|[env f] sched]; [simpl; lia|].
    inversion F as [|? ? F1 F2]; subst. cbn [calls length].
    assert (L : (length (calls (k (snd (sem f c (fold_left wapply env w)))) sched (fst (sem f c (fold_left wapply env w)))) <= m)%nat); [|lia].
    apply IH; auto. apply H. intros e E. apply sem_error in E. unfold final. destruct E as [-> | ->]; exact F1.
Qed.

Lemma range_bounded cfg r sched w :
  (length (calls (s_range cfg r) sched w) <= 2000)%nat /\
  ((2000 <= length sched)%nat -> exists a, snd (exec (s_range cfg r) sched w) = Some a).
Proof. apply max_calls_exec. apply (max_calls_le _ _ (4 * max_retries)); [|vm_compute; lia]. apply mc_range. intros c. apply max_calls_retry. Qed.
Lemma txn_bounded cfg t sched w :
  (length (calls (s_txn cfg t) sched w) <= 1500)%nat /\
  ((1500 <= length sched)%nat -> exists a, snd (exec (s_txn cfg t) sched w) = Some a).
Proof. apply max_calls_exec. apply (max_calls_le _ _ (3 * max_retries)); [|vm_compute; lia]. apply mc_txn. intros c. apply max_calls_retry. Qed.
Lemma range_quick cfg r sched w : Forall (fun x => not_busy (snd x)) sched -> (length (calls (s_range cfg r) sched w) <= 4)%nat.
Proof. apply max_calls_quick. apply (max_calls_le _ _ (4 * 1)); [|lia]. apply mc_range. intros c. apply max_calls_retry1. Qed.
Lemma txn_quick cfg t sched w : Forall (fun x => not_busy (snd x)) sched -> (length (calls (s_txn cfg t) sched w) <= 3)%nat.
Proof. apply max_calls_quick. apply (max_calls_le _ _ (3 * 1)); [|lia]. apply mc_txn. intros c. apply max_calls_retry1. Qed.

(** Errors that are not retried end the request at once. *)
Fixpoint surfaces {A} (p : prog (result A)) : Prop :=
  match p with
  | Ret _ => True
  | Call c k => (forall e, e <> EBusy -> k (Err e) = Ret (Err e)) /\ forall r, surfaces (k r)
  end.
Lemma surfaces_rbind {A B} (p : prog (result A)) (f : A -> prog (result B)) :
  surfaces p -> (forall a, surfaces (f a)) -> surfaces (rbind p f).
Proof.
  intros H K. unfold rbind. induction p as [[a|e]|c k IH]; [apply K|exact Logic.I|].
  destruct H as [H1 H2]. split.
  - intros e N. rewrite (H1 e N). reflexivity.
  - intros r. apply IH, H2.
Qed.
Lemma surfaces_retry n c : surfaces (with_retry n c).
Proof.
  induction n as [|n IH]; [exact Logic.I|]. split.
  - intros e N. destruct n; auto. destruct e; simpl; auto. now destruct N.
  - intros [a|e]; [exact Logic.I|]. destruct n; [exact Logic.I|]. destruct (retryable e); [exact IH|exact Logic.I].
Qed.
Ltac surf := repeat first
  [ exact Logic.I
  | match goal with |- surfaces (with_retry ?n ?c) => exact (surfaces_retry n c) end
  | apply surfaces_rbind; [|intros]
  | match goal with |- surfaces (match ?x with _ => _ end) => destruct x end
  | progress cbv zeta beta
  | progress unfold b_list, b_count, b_create, b_update, b_delete, d_create, d_update, d_delete, d_execute, d_query, d_get_compact_revision, d_list, d_count, l_failure, l_get, l_create, l_update, l_delete, l_compact, l_range ].
Lemma surfaces_range cfg r : surfaces (s_range cfg r).
Proof. unfold s_range. surf; unfold l_list; surf. Qed.
Lemma surfaces_txn cfg t : surfaces (s_txn cfg t).
Proof. unfold s_txn, l_txn. surf. Qed.
Lemma surfaces_exec {A} (p : prog (result A)) : surfaces p -> forall pre w w1 env f e post, e <> EBusy ->
  f = FailBefore e \/ f = FailAfter e ->
  exec p pre w = (w1, None) ->
  snd (exec p (pre ++ (env, f) :: post) w) = Some (Err e) /\
  (f = FailBefore e -> fst (exec p (pre ++ (env, f) :: post) w) = fold_left wapply env w1) /\
  calls p (pre ++ (env, f) :: post) w = calls p (pre ++ [(env, f)]) w.
Proof.
  induction p as [a|c k IH]; intros H pre w w1 env f e post N F E; [discriminate|].
  destruct H as [H1 H2]. destruct pre as [|[env0 f0] pre].
  - cbn [exec] in E. injection E as <-. cbn [app exec calls].
    destruct F as [-> | ->]; cbn [sem fst snd]; rewrite (H1 e N); repeat split; auto; discriminate.
  - cbn [app exec calls] in *. destruct (sem f0 c (fold_left wapply env0 w)) as [w' r] eqn:S. cbn [fst snd].
    destruct (IH r (H2 r) pre w' w1 env f e post N F E) as (X & Y & Z). split; [exact X|]. split; [exact Y|]. f_equal. exact Z.
Qed.
