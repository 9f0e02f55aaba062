(** C39, C40, C41: the batching layer, over any database.
    [D]: database contents, [S]: statements, [R]: results, [run]: effect and result of
    a statement.  [batch_reach ok d s]: [s] is reachable from contents [d], any
    callers submitting and cancelling at any time, other users writing in between,
    and database calls failing in ways satisfying [ok].
    [b_log s]: what was executed and committed, in order; [executed]: the callers
    among it, numbered in the order they submitted; [released s i = Some o]: caller
    [i] can return, with answer [o]; [works fs s]: the worker takes |fs| steps, with
    faults [fs]. *)
From Coq Require Import List ZArith Bool Lia Sorting.Sorted.
From Verif Require Import Bytes Spec Sql System Prog Demo Batch BatchProofs.
Import ListNotations.
Open Scope Z_scope.

(** C39.  The contents are what the log gives, every logged caller's result is the
    result of its own statement at its place, and callers are logged at most once, in
    submission order. *)
Theorem C39_log : forall D S R (run : S -> D -> D * R) ok d s, batch_reach D S R run ok d s ->
  replays D S R run (b_log D S R s) d (b_db D S R s) /\ StronglySorted lt (executed S R (b_log D S R s)).
Proof. exact batch_log. Qed.
Print Assumptions C39_log.
(** A caller told of success was executed (once, by the above), and got that result. *)
Theorem C39_success : forall D S R (run : S -> D -> D * R) ok d s i r, batch_reach D S R run ok d s ->
  released D S R s i = Some (Some (Done R r)) ->
  exists j, nth_error (b_jobs D S R s) i = Some j /\ In (LJob S R i (j_stmt S R j) r) (b_log D S R s).
Proof. exact batch_success. Qed.
Print Assumptions C39_success.
(** No caller returns without an answer. *)
Theorem C39_answer : forall D S R (run : S -> D -> D * R) ok d s i, batch_reach D S R run ok d s -> released D S R s i <> Some None.
Proof. exact batch_answer. Qed.
Print Assumptions C39_answer.
(** A batch is executed as a whole or not at all. *)
Theorem C39_atomic : forall D S R (run : S -> D -> D * R) ok d s f, batch_reach D S R run ok d s ->
  executed S R (b_log D S R (batch_step D S R run s (BExecute S f))) = executed S R (b_log D S R s) \/
  exists b, b_worker D S R s = WExec b /\
    executed S R (b_log D S R (batch_step D S R run s (BExecute S f))) = executed S R (b_log D S R s) ++ b.
Proof. exact batch_atomic. Qed.
Print Assumptions C39_atomic.
(** C164 (part of C79).  A caller told of failure was not executed, if no COMMIT is reported failed
    although it happened. *)
Theorem C164_batch : forall D S R (run : S -> D -> D * R) d s i e, batch_reach D S R run reported d s ->
  released D S R s i = Some (Some (Failed R e)) -> ~ In i (executed S R (b_log D S R s)).
Proof. exact batch_failure. Qed.
Print Assumptions C164_batch.

(** an instance: the SQL statements of the driver *)
Definition sql_run (a : aop) (d : db) : db * (Z * Z) := apply d a.
Local Notation brun acts := (batch_run db aop (Z * Z) sql_run acts (batch_init empty_db)).
Local Notation steps acts := (map (fun a : baction aop => a) acts).
Lemma brun_reach (ok : bfault -> Prop) acts : Forall (fault_ok aop ok) acts -> batch_reach db aop (Z * Z) sql_run ok empty_db (brun acts).
Proof.
  intros F. assert (G : forall s, batch_reach db aop (Z * Z) sql_run ok empty_db s -> batch_reach db aop (Z * Z) sql_run ok empty_db (batch_run db aop (Z * Z) sql_run acts s)).
  { induction F as [|a acts H F IH]; intros s Hs; [exact Hs|]. cbn [batch_run fold_left]. apply IH. now apply batch_next. }
  apply G. constructor.
Qed.
(** a: alone, then b and c together, c's statement failing, then a update and b again *)
Definition busy : list (baction aop) :=
  [BSubmit _ (ACreate ka v1 0); BTake _; BSubmit _ (ACreate kb v1 0); BExecute _ BFNone; BSubmit _ (ACreate kc v1 0); BFinish _;
   BOther _ (ACreate [120%N] v1 0); BSubmit _ (AUpdate ka v2 1 0); BExecute _ (BFStmt 1 EBusy); BSubmit _ (ACreate kb v2 0); BFinish _; BExecute _ BFNone; BFinish _].
Example C39_nonvacuous : batch_reach db aop (Z * Z) sql_run reported empty_db (brun busy) /\
  executed aop (Z * Z) (b_log _ _ _ (brun busy)) = [0; 3; 4]%nat /\
  map (released _ _ _ (brun busy)) [0; 1; 2; 3; 4]%nat =
    [Some (Some (Done _ (1, 1))); Some (Some (Failed _ EBusy)); Some (Some (Failed _ EBusy)); Some (Some (Done _ (1, 3))); Some (Some (Done _ (1, 4)))] /\
  map id (rows (b_db _ _ _ (brun busy))) = [1; 2; 3; 4].
Proof. split; [apply brun_reach; repeat constructor|]. split; [vm_compute; reflexivity|]. split; vm_compute; reflexivity. Qed.

(** Otherwise both callers are told of failure although both statements took effect. *)
Definition lost : list (baction aop) :=
  [BSubmit _ (ACreate ka v1 0); BSubmit _ (ACreate kb v1 0); BTake _; BExecute _ (BFCommit EBusy true); BFinish _].
Theorem C79_batch_refuted : exists s, batch_reach db aop (Z * Z) sql_run any_fault empty_db s /\
  map (released _ _ _ s) [0; 1]%nat = [Some (Some (Failed _ EBusy)); Some (Some (Failed _ EBusy))] /\ executed _ _ (b_log _ _ _ s) = [0; 1]%nat.
Proof. exists (brun lost). split; [apply brun_reach; repeat constructor|]. split; vm_compute; reflexivity. Qed.
Print Assumptions C79_batch_refuted.

(** C156 (part of C40).  On a working database that is not being closed, a caller none of whose
    batch mates (nor itself) is cancelled when the batch is executed succeeds; if it
    is alone in its batch that holds whatever the others do. *)
Theorem C156_alone : forall D S R (run : S -> D -> D * R) ok d s b i, batch_reach D S R run ok d s ->
  b_worker D S R s = WExec b -> (b_closed D S R s = false \/ b = [i]) -> In i b ->
  (forall k j, In k b -> nth_error (b_jobs D S R s) k = Some j -> j_cancelled S R j = false) ->
  exists j r, nth_error (b_jobs D S R (batch_step D S R run s (BExecute S BFNone))) i = Some j /\ j_outcome S R j = Some (Done R r).
Proof. exact batch_uncancelled. Qed.
Print Assumptions C156_alone.
Definition mates : list (baction aop) := [BSubmit _ (ACreate ka v1 0); BTake _; BSubmit _ (ACreate kb v1 0); BSubmit _ (ACreate kc v1 0); BExecute _ BFNone; BCancel _ 0%nat; BFinish _].
Example C40_nonvacuous : batch_reach db aop (Z * Z) sql_run reported empty_db (brun mates) /\
  b_worker _ _ _ (brun mates) = WExec [1; 2]%nat /\ b_closed _ _ _ (brun mates) = false /\
  map (j_cancelled _ _) (b_jobs _ _ _ (brun mates)) = [true; false; false].
Proof. split; [apply brun_reach; repeat constructor|]. split; [vm_compute; reflexivity|]. split; vm_compute; reflexivity. Qed.
(** A batch mate's cancellation fails the caller's write on a working database. *)
Theorem C40_refuted : exists s, batch_reach db aop (Z * Z) sql_run (fun f => f = BFNone) empty_db s /\
  (exists j, nth_error (b_jobs _ _ _ s) 2 = Some j /\ j_cancelled _ _ j = false) /\ b_closed _ _ _ s = false /\
  released _ _ _ s 2 = Some (Some (Failed _ ECanceled)) /\ executed _ _ (b_log _ _ _ s) = [0]%nat.
Proof.
  exists (brun (mates ++ [BCancel _ 1%nat; BExecute _ BFNone; BFinish _])). split; [apply brun_reach; repeat constructor|].
  split; [eexists; split; [vm_compute; reflexivity|reflexivity]|]. split; [vm_compute; reflexivity|]. split; vm_compute; reflexivity.
Qed.
Print Assumptions C40_refuted.

(** C41.  After Close has returned nothing is executed, whatever happens. *)
Theorem C41_quiet : forall D S R (run : S -> D -> D * R) ok d s acts, batch_reach D S R run ok d s -> b_dbclosed D S R s = true ->
  Forall (fault_ok S ok) acts ->
  b_log D S R (batch_run D S R run acts s) = b_log D S R s /\ b_db D S R (batch_run D S R run acts s) = b_db D S R s.
Proof. exact batch_closed_quiet. Qed.
Print Assumptions C41_quiet.
(** From the call of Close on, new submissions are refused. *)
Theorem C41_refused : forall D S R (run : S -> D -> D * R) s st, b_closed D S R s = true -> batch_step D S R run s (BSubmit S st) = s.
Proof. exact batch_rejects. Qed.
Print Assumptions C41_refused.
(** From any moment, four steps of the worker release every caller that has submitted, with an
    answer, whatever fails, and leave the worker idle: then Close returns. *)
Theorem C41_released : forall D S R (run : S -> D -> D * R) ok d s fs i, batch_reach D S R run ok d s -> Forall ok fs -> (4 <= length fs)%nat ->
  (i < length (b_jobs D S R s))%nat ->
  b_worker D S R (works D S R run fs s) = WNone /\ exists o, released D S R (works D S R run fs s) i = Some (Some o).
Proof. exact batch_releases. Qed.
Print Assumptions C41_released.
Theorem C41_returns : forall D S R (run : S -> D -> D * R) s, b_closed D S R s = true -> b_worker D S R s = WNone ->
  b_dbclosed D S R (batch_step D S R run s (BClosed S)) = true.
Proof. intros D S R run s C W. cbn. rewrite C, W. reflexivity. Qed.
Print Assumptions C41_returns.
Definition closing : list (baction aop) := mates ++ [BSubmit _ (ACreate [120%N] v1 0); BClose _].
Example C41_nonvacuous : batch_reach db aop (Z * Z) sql_run any_fault empty_db (brun closing) /\ b_closed _ _ _ (brun closing) = true /\ length (b_jobs _ _ _ (brun closing)) = 4%nat /\
  let s := works db aop (Z * Z) sql_run [BFNone; BFNone; BFNone; BFNone] (brun closing) in
  map (released _ _ _ s) [0; 1; 2; 3]%nat = [Some (Some (Done _ (1, 1))); Some (Some (Failed _ ECanceled)); Some (Some (Failed _ ECanceled)); Some (Some (Done _ (1, 2)))] /\
  b_dbclosed _ _ _ (batch_step _ _ _ sql_run s (BClosed _)) = true.
Proof. split; [apply brun_reach; repeat constructor|]. split; [vm_compute; reflexivity|]. split; [vm_compute; reflexivity|]. split; vm_compute; reflexivity. Qed.
