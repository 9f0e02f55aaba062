(** C226: a watch refused as compacted is compacted.
    [kreach cfg okf c s]: [s] can be reached, by any steps of servers, clients, pollers, streams and crashes (Whole.v);
    [creach]: the same with the expiry goroutines and timers (Cluster.v).  [stream_of s j i]: the [i]-th stream of server
    [j] with its connection; [requests conn l], [answers conn l]: the create requests received on a connection, and the
    answers to create requests sent on it, in order (FairWatch.v); [ask]: what a read request would answer now
    (Observe.v); [MCompacted rev]: the refusal "compacted", whose compact revision field is [rev] (watch.go:158-164). *)
From Coq Require Import List ZArith Bool Lia Arith.
From Verif Require Import Bytes Spec Sql System Prog Backend Limited Api Pool Ledger Observe Batch BatchKine Node Fair Watch Stream Resume Whole FairWatch Ttl.
From Verif Require Import Demo SpecLemmas NodeProofs ReadProofs Cluster ClusterProofs ClusterResults ClusterFair ClusterFairProofs TrueRefusalProofs P_Whole P_ClusterCompact P_WatchRefused.
From Verif Require Import Watch Stream Whole FairWatch Observe.
Import ListNotations.
Open Scope Z_scope.

(** C226.  If the [n]-th create request of a connection was answered with "compacted", it asked for a start revision, more than
    100 behind the current one; every read of that revision or of an earlier one is refused too; and the revision told is not
    beyond the current one. *)
Theorem C226_compacted : forall cfg okf c s j i conn st n rev, tolerant okf -> kreach cfg okf c s -> stream_of s j i = Some (conn, st) ->
  nth_error (answers conn (k_log s)) n = Some (MCompacted rev) ->
  exists id lo hi start, nth_error (requests conn (k_log s)) n = Some (id, lo, hi, start) /\ 0 < start /\
    start < revision (commits (dids (k_log s))) - 100 /\ rev <= revision (commits (dids (k_log s))) /\
    forall r, supported_range r -> bounded (n_world (k_node s)) r -> 0 < r_revision r <= start -> ask cfg (n_world (k_node s)) r = Err ECompacted.
Proof. exact refusal_true. Qed.
Print Assumptions C226_compacted.

(** In the whole cluster. *)
Theorem C226_cluster : forall cfg okf c s j i conn st n rev, tolerant okf -> creach cfg okf c s -> stream_of (c_whole s) j i = Some (conn, st) ->
  nth_error (answers conn (k_log (c_whole s))) n = Some (MCompacted rev) ->
  exists id lo hi start, nth_error (requests conn (k_log (c_whole s))) n = Some (id, lo, hi, start) /\ 0 < start /\
    start < revision (commits (c_log s)) - 100 /\ rev <= revision (commits (c_log s)) /\
    forall r, supported_range r -> bounded (c_world s) r -> 0 < r_revision r <= start -> ask cfg (c_world s) r = Err ECompacted.
Proof. intros cfg okf c s j i conn st n rev TO CR. exact (refusal_true cfg okf c (c_whole s) j i conn st n rev TO (cluster_whole cfg okf c TO s CR)). Qed.
Print Assumptions C226_cluster.

(** So a watch from one of the last 100 revisions, or from now on, is not refused as compacted - whoever compacts, and however
    far behind the server is that is asked. *)
Theorem C226_recent : forall cfg okf c s j i conn st n id lo hi start, tolerant okf -> creach cfg okf c s -> stream_of (c_whole s) j i = Some (conn, st) ->
  nth_error (requests conn (k_log (c_whole s))) n = Some (id, lo, hi, start) ->
  start <= 0 \/ revision (commits (c_log s)) - 100 <= start ->
  forall rev, nth_error (answers conn (k_log (c_whole s))) n <> Some (MCompacted rev).
Proof.
  intros cfg okf c s j i conn st n id lo hi start TO CR ST R D rev A.
  destruct (C226_cluster cfg okf c s j i conn st n rev TO CR ST A) as (id' & lo' & hi' & start' & R' & B1 & B2 & _).
  rewrite R in R'. injection R' as _ _ _ ->. lia.
Qed.
Print Assumptions C226_recent.

(** The case of P_WatchRefused.v: the watch from revision 9 at revision 112. *)
Lemma r_reach t : creach cfg0 Prog.any_fault false (r_at t).
Proof. apply cat_reach. exact (proj1 (proj2 C225_nonvacuous)). Qed.
Example C226_nonvacuous : tolerant Prog.any_fault /\ creach cfg0 Prog.any_fault false (r_at (S (S ropen))) /\
  kreach cfg0 Prog.any_fault false (c_whole (r_at (S (S ropen)))) /\
  (exists st, stream_of (c_whole (r_at (S (S ropen)))) 1 0 = Some (0%nat, st)) /\
  answers 0 (k_log (c_whole (r_at (S (S ropen))))) = [MCompacted 112] /\ requests 0 (k_log (c_whole (r_at (S (S ropen))))) = [(1, ka, ka ++ [0%N], 9)] /\
  revision (commits (c_log (r_at (S (S ropen))))) = 112.
Proof.
  assert (TO : tolerant Prog.any_fault) by (unfold tolerant, Prog.any_fault; auto).
  split; [exact TO|]. split; [apply r_reach|]. split; [apply (cluster_whole _ _ _ TO), r_reach|].
  split. { assert (X : match stream_of (c_whole (r_at (S (S ropen)))) 1 0 with Some (0%nat, _) => true | _ => false end = true) by (vm_compute; reflexivity).
    destruct (stream_of _ _ _) as [[[|x] st0]|]; try discriminate X. eauto. }
  split; [vm_compute; reflexivity|]. split; vm_compute; reflexivity.
Qed.
(** The same, from revision 12: exactly 100 behind. *)
Definition later_start (x : cturn) : cturn :=
  match x with CStep (CWhole (KStream j i (SCreate w lo hi _))) => CStep (CWhole (KStream j i (SCreate w lo hi 12))) | _ => x end.
Definition r12_at (t : nat) : cstate := cat cfg0 (fun t => later_start (rfair t)) t.
Example C226_recent_nonvacuous : creach cfg0 Prog.any_fault false (r12_at (ropen + 5)) /\
  (exists st, stream_of (c_whole (r12_at (ropen + 5))) 1 0 = Some (0%nat, st)) /\
  requests 0 (k_log (c_whole (r12_at (ropen + 5)))) = [(1, ka, ka ++ [0%N], 12)] /\ revision (commits (c_log (r12_at (ropen + 5)))) = 112 /\
  answers 0 (k_log (c_whole (r12_at (ropen + 5)))) = [MCreated 1].
Proof.
  split.
  { apply cat_reach. intros t. fold (r12_at t). generalize (r12_at t). intros s. apply (rfair_cases (fun x => cturn_ok Prog.any_fault false s (later_start x))); try (intros X; discriminate).
    - apply gprefix_in; cbn; unfold Prog.any_fault, work_ok; cbn; auto; discriminate.
    - exact Logic.I. }
  split. { assert (X : match stream_of (c_whole (r12_at (ropen + 5))) 1 0 with Some (0%nat, _) => true | _ => false end = true) by (vm_compute; reflexivity).
    destruct (stream_of _ _ _) as [[[|x] st0]|]; try discriminate X. eauto. }
  split; [vm_compute; reflexivity|]. split; vm_compute; reflexivity.
Qed.
