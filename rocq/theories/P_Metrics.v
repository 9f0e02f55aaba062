(** C197-C200: the metrics a server exports about its database operations.
    [workload xs w no_metrics = (w', m, done)]: a process that has just started makes the calls
    [xs] of its driver, each under the faults and interference of its schedule and with its
    duration; [done] are those that have ended, with success or failure; [m] its metrics.
    [counter l name ok]: the value of a counter with these labels; [ended done name ok]: the
    number of such calls. *)
From Coq Require Import List ZArith Bool String Lia.
From Verif Require Import Bytes Spec Sql System Prog Backend Metrics MetricsProofs Demo.
From Verif Require Import Metrics.
Import ListNotations.
Open Scope Z_scope.
Open Scope list_scope.

(** C197.  The counters count each operation, once, under its outcome, however many times its
    statement was retried (the exception is C198). *)
Theorem C197_counted : forall xs w w' m done name ok, workload xs w no_metrics = (w', m, done) ->
  name <> "revision_interval_sql"%string ->
  counter (m_op m) name ok = ended done name ok /\ counter (m_tx m) name ok = ended done name ok.
Proof.
  intros xs w w' m done name ok W N. destruct (workload_counts xs _ _ _ _ _ W name ok) as [A B]. rewrite A, B.
  unfold weight. apply String.eqb_neq in N. rewrite N. cbn. lia.
Qed.
Print Assumptions C197_counted.
(** Different operations have different counters. *)
Theorem C197_names : forall d d', tx_name d = tx_name d' <-> same_operation d d'.
Proof. exact names_distinct. Qed.
Print Assumptions C197_names.
Example C197_names_nonvacuous : same_operation (DList true ka kc 10 0) (DList false kb kc 1 7) /\ ~ same_operation (DList true ka kc 10 0) (DList true ka kc 0 0).
Proof. cbn. lia. Qed.
(** Two creates of the same key, the first retried twice, an update that fails, a list. *)
Definition load : list (dcall * list (list aop * fault) * Z) :=
  [(DCreate ka v1 0, [([], FailBefore EBusy); ([], FailAfter EBusy); ([], NoFault)], 900000000);
   (DCreate ka v1 0, [([], NoFault)], 20000000);
   (DUpdate kb v2 3 0, [([], FailBefore ECanceled)], 1900000000);
   (DList true ka kc 10 0, [([], NoFault)], 0);
   (DList true ka kc 10 0, [], 0)].
Example C197_nonvacuous : exists w' m done, workload load demo no_metrics = (w', m, done) /\
  ended done "create_sql" true = 2%nat /\ ended done "update_sql" false = 1%nat /\ ended done "list_revision_start_sql_limit" true = 1%nat.
Proof. eexists. eexists. eexists. split; [reflexivity|]. vm_compute. auto. Qed.

(** C198.  Not every operation is counted once: reading the compaction interval counts twice. *)
Definition each_counted_once : Prop := forall xs w w' m done name ok, wreach w -> workload xs w no_metrics = (w', m, done) ->
  counter (m_op m) name ok = ended done name ok.
Theorem C198_refuted : ~ each_counted_once.
Proof.
  intros H. specialize (H [(DGetCompactRevision, [([], NoFault)], 0)] demo _ _ _ "revision_interval_sql"%string true demo_reach eq_refl).
  vm_compute in H. discriminate H.
Qed.
Print Assumptions C198_refuted.
(** It counts twice in all executions. *)
Theorem C198_twice : forall xs w w' m done ok, workload xs w no_metrics = (w', m, done) ->
  counter (m_op m) "revision_interval_sql" ok = (2 * ended done "revision_interval_sql" ok)%nat /\
  counter (m_tx m) "revision_interval_sql" ok = (2 * ended done "revision_interval_sql" ok)%nat.
Proof. intros xs w w' m done ok W. exact (workload_counts xs _ _ _ _ _ W _ ok). Qed.
Print Assumptions C198_twice.

(** C199.  The counter of "individual database transactions" does not count them: a retried
    operation counts as one. *)
Definition transactions_counted : Prop := forall d sched ns w w' m r, wreach w -> d <> DGetCompactRevision ->
  metered d sched ns w no_metrics = (w', m, Some r) ->
  (counter (m_tx m) (tx_name d) true + counter (m_tx m) (tx_name d) false)%nat = statements (with_retry 500 (statement d)) sched w.
Theorem C199_refuted : ~ transactions_counted.
Proof.
  intros H. specialize (H (DCreate ka v1 0) [([], FailBefore EBusy); ([], FailAfter EBusy); ([], NoFault)] 0 demo _ _ _ demo_reach ltac:(discriminate) eq_refl).
  vm_compute in H. discriminate H.
Qed.
Print Assumptions C199_refuted.

(** C200.  The latency histogram does not tell how long operations took to better than a second:
    a bucket does not count the operations within its bound ... *)
Definition latency_told : Prop := forall xs w w' m done name ok b, wreach w -> workload xs w no_metrics = (w', m, done) ->
  Forall (fun x => 0 <= snd x) done -> name <> "revision_interval_sql"%string ->
  In b [0; 50000000; 100000000; 300000000; 500000000; 1000000000; 3000000000; 5000000000; 10000000000] ->
  bucket (m_latency m) name ok b = within done name ok b.
Theorem C200_refuted : ~ latency_told.
Proof.
  intros H. specialize (H load demo _ _ _ "create_sql"%string true 50000000 demo_reach eq_refl ltac:(vm_compute; repeat constructor; discriminate) ltac:(discriminate) ltac:(cbn; auto)).
  vm_compute in H. discriminate H.
Qed.
Print Assumptions C200_refuted.
(** ... but those that took less than the next whole second after it. *)
Theorem C200_seconds : forall xs w w' m done name ok b, workload xs w no_metrics = (w', m, done) ->
  Forall (fun x => 0 <= snd x) done -> name <> "revision_interval_sql"%string -> 0 <= b ->
  bucket (m_latency m) name ok b = within done name ok ((b / 1000000000 + 1) * 1000000000 - 1).
Proof.
  intros xs w w' m done name ok b W F N B. rewrite (workload_latency xs _ _ _ _ _ W F name ok b B).
  unfold weight. apply String.eqb_neq in N. rewrite N. cbn. lia.
Qed.
Print Assumptions C200_seconds.
Example C200_nonvacuous : exists w' m done, workload load demo no_metrics = (w', m, done) /\ Forall (fun x => 0 <= snd x) done /\
  bucket (m_latency m) "create_sql" true 50000000 = 2%nat /\ within done "create_sql" true 50000000 = 1%nat /\ bucket (m_latency m) "update_sql" false 1000000000 = 1%nat.
Proof. eexists. eexists. eexists. split; [reflexivity|]. split; [vm_compute; repeat constructor; discriminate|]. vm_compute. auto. Qed.
