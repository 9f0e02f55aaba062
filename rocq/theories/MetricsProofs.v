(** Proofs about Metrics.v. *)
From Coq Require Import List ZArith Bool String Lia.
From Verif Require Import Bytes Spec Sql System Prog Backend Metrics.
Import ListNotations.
Open Scope Z_scope.
Open Scope list_scope.

Definition weight (name : string) : nat := if String.eqb name "revision_interval_sql" then 2 else 1.
Lemma counter_app l l' n ok : counter (l ++ l') n ok = (counter l n ok + counter l' n ok)%nat.
Proof. unfold counter. now rewrite filter_app, app_length. Qed.
Lemma bucket_app l l' n ok b : bucket (l ++ l') n ok b = (bucket l n ok b + bucket l' n ok b)%nat.
Proof. unfold bucket. now rewrite filter_app, app_length. Qed.
Lemma name_interval d : tx_name d = "revision_interval_sql"%string -> d = DGetCompactRevision.
Proof. destruct d; cbn; try discriminate; auto; destruct (0 <? _); discriminate. Qed.
Lemma metered_records d sched ns w m : forall w' m' r, metered d sched ns w m = (w', m', r) ->
  match r with
  | None => m' = m
  | Some r => m_op m' = m_op m ++ repeat (tx_name d, succeeded r) (weight (tx_name d)) /\
              m_tx m' = m_tx m ++ repeat (tx_name d, succeeded r) (weight (tx_name d)) /\
              m_latency m' = m_latency m ++ repeat (tx_name d, succeeded r, Z.quot ns 1000000000) (weight (tx_name d))
  end.
Proof.
  intros w' m' r. unfold metered. destruct (exec _ sched w) as [w1 [r1|]]; intros [= <- <- <-]; [|reflexivity].
  unfold weight. destruct (String.eqb_spec (tx_name d) "revision_interval_sql") as [E|E].
  - apply name_interval in E. subst d. cbn. now rewrite <- !app_assoc.
  - destruct d; cbn in *; auto; try congruence.
Qed.
Lemma counter_repeat x k n ok : counter (repeat x k) n ok = (k * counter [x] n ok)%nat.
Proof. induction k as [|k IH]; [reflexivity|]. change (repeat x (S k)) with ([x] ++ repeat x k). rewrite counter_app, IH. lia. Qed.
Lemma bucket_repeat x k n ok b : bucket (repeat x k) n ok b = (k * bucket [x] n ok b)%nat.
Proof. induction k as [|k IH]; [reflexivity|]. change (repeat x (S k)) with ([x] ++ repeat x k). rewrite bucket_app, IH. lia. Qed.
Lemma counter_one a b n ok : (weight a * counter [(a, b)] n ok = weight n * counter [(a, b)] n ok)%nat.
Proof. unfold counter. cbn [filter fst snd]. destruct (String.eqb_spec a n) as [->|]; [reflexivity|cbn; lia]. Qed.
Lemma workload_counts xs : forall w m w' m' done, workload xs w m = (w', m', done) -> forall n ok,
  counter (m_op m') n ok = (counter (m_op m) n ok + weight n * ended done n ok)%nat /\
  counter (m_tx m') n ok = (counter (m_tx m) n ok + weight n * ended done n ok)%nat.
Proof.
  induction xs as [|[[d sched] ns] xs IH]; intros w m w' m' done; cbn [workload].
  - intros [= <- <- <-] n ok. cbn. split; lia.
  - destruct (metered d sched ns w m) as [[w1 m1] r] eqn:M. destruct (workload xs w1 m1) as [[w2 m2] dn] eqn:W. intros [= <- <- <-] n ok.
    pose proof (metered_records _ _ _ _ _ _ _ _ M) as R. destruct (IH _ _ _ _ _ W n ok) as [A B]. rewrite A, B.
    destruct r as [r|]; [|subst m1; auto]. destruct R as (R1 & R2 & _). rewrite R1, R2, !counter_app, !counter_repeat, !counter_one.
    assert (E : ended ((d, worked r, ns) :: dn) n ok = (counter [(tx_name d, succeeded r)] n ok + ended dn n ok)%nat).
    { unfold ended, counter. cbn [filter fst snd]. change (worked r) with (succeeded r). destruct (String.eqb _ _ && _); cbn [List.length]; lia. }
    rewrite E. split; lia.
Qed.
Lemma bucket_one a b z n ok x : (weight a * bucket [(a, b, z)] n ok x = weight n * bucket [(a, b, z)] n ok x)%nat.
Proof. unfold bucket. cbn [filter fst snd]. destruct (String.eqb_spec a n) as [->|]; [reflexivity|cbn; lia]. Qed.
Lemma whole_seconds ns b : 0 <= ns -> 0 <= b -> (Z.quot ns 1000000000 * 1000000000 <=? b) = (ns <=? (b / 1000000000 + 1) * 1000000000 - 1).
Proof.
  intros A B. rewrite Z.quot_div_nonneg by lia. pose proof (Z.div_mod ns 1000000000 ltac:(lia)). pose proof (Z.mod_pos_bound ns 1000000000 ltac:(lia)).
  pose proof (Z.div_mod b 1000000000 ltac:(lia)). pose proof (Z.mod_pos_bound b 1000000000 ltac:(lia)).
  apply Bool.eq_true_iff_eq. rewrite !Z.leb_le. split; intros; nia.
Qed.
Lemma workload_latency xs : forall w m w' m' done, workload xs w m = (w', m', done) -> Forall (fun x => 0 <= snd x) done -> forall n ok b, 0 <= b ->
  bucket (m_latency m') n ok b = (bucket (m_latency m) n ok b + weight n * within done n ok ((b / 1000000000 + 1) * 1000000000 - 1))%nat.
Proof.
  induction xs as [|[[d sched] ns] xs IH]; intros w m w' m' done; cbn [workload].
  - intros [= <- <- <-] _ n ok b B. cbn. lia.
  - destruct (metered d sched ns w m) as [[w1 m1] r] eqn:M. destruct (workload xs w1 m1) as [[w2 m2] dn] eqn:W. intros [= <- <- <-] F n ok b B.
    pose proof (metered_records _ _ _ _ _ _ _ _ M) as R. destruct r as [r|].
    + inversion F as [|? ? P F']; subst. cbn [snd] in P. rewrite (IH _ _ _ _ _ W F' n ok b B). destruct R as (_ & _ & R). rewrite R, bucket_app, bucket_repeat, bucket_one.
      assert (E : forall c, c = (b / 1000000000 + 1) * 1000000000 - 1 -> within ((d, worked r, ns) :: dn) n ok c = (bucket [(tx_name d, succeeded r, Z.quot ns 1000000000)] n ok b + within dn n ok c)%nat).
      { intros c ->. unfold within, bucket. cbn [filter fst snd]. change (worked r) with (succeeded r). rewrite (whole_seconds ns b P B). destruct (String.eqb _ _ && _ && _); cbn [List.length]; lia. }
      rewrite (E _ eq_refl). lia.
    + subst m1. exact (IH _ _ _ _ _ W F n ok b B).
Qed.
Lemma names_distinct d d' : tx_name d = tx_name d' <-> same_operation d d'.
Proof.
  destruct d, d'; cbn; split; intros H; try discriminate H; try contradiction; auto;
    repeat match goal with H : context [Z.ltb 0 ?x] |- _ => destruct (Z.ltb_spec 0 x) | |- context [Z.ltb 0 ?x] => destruct (Z.ltb_spec 0 x) end;
    try discriminate; try reflexivity; try lia.
Qed.
