(** A list-and-watch client of a cluster (Kubernetes' reflector; not part of the repository). *)
From Coq Require Import List ZArith Bool.
From Verif Require Import Bytes Spec Prog Backend Limited Api Pool Ledger Node Watch Stream Whole FairWatch Ttl Cluster ClusterFair Reflector.
Import ListNotations.
Open Scope Z_scope.

(** Specification vocabulary (not code): after [T] turns of the schedule, the client that holds connection [conn] has the answer
    [resp] to a list of [lo, hi), during which at most 100 changes were made, and has asked on that connection - the [i]-th stream
    of server [j]; its [n]-th request there, with the watch id [id] - for a watch from the revision after that of the list, and
    is not answered yet. *)
Definition has_asked (cfg : driver_cfg) (sch : nat -> cturn) (T j i conn n : nat) (id : Z) (lo hi : bytes) (resp : range_resp) : Prop :=
  hi <> [] /\
  (exists before during after li, answered_request (c_log (cat cfg sch T)) before during after li (WRange (range lo hi 0 0)) (ReRange (Ok resp)) /\ revision (commits during) <= 100) /\
  wanted (c_whole (cat cfg sch T)) j i conn n id lo hi (rr_header resp + 1) /\
  nth_error (answers conn (k_log (c_whole (cat cfg sch T)))) n = None.
(** Specification vocabulary (not code): from [T] on, that server does not crash, its goroutines get their turns, its poller
    survives, the two reads that answering the request takes do not fail, the answer comes at most 100 changes late, and the
    client does not cancel. *)
Definition is_served (cfg : driver_cfg) (sch : nat -> cturn) (T j i conn n : nat) (id : Z) (resp : range_resp) : Prop :=
  (forall t, (T <= t)%nat -> sch t <> CStep (CWhole (KCrash j))) /\
  (forall t, (T <= t)%nat -> sch t <> CStep (CWhole (KStream j i (SCancel id)))) /\
  (forall t f, (T <= t)%nat -> sch t = CStep (CWhole (KStream j i (SCheck f))) \/ sch t = CStep (CWhole (KStream j i (SQuery f))) -> f = NoFault) /\
  (forall t, (T <= t)%nat -> nth_error (answers conn (k_log (c_whole (cat cfg sch t)))) n = None -> revision (commits (c_log (cat cfg sch (S t)))) <= rr_header resp + 101) /\
  polls j sch /\ consumes cfg j i sch /\ creates j i sch.
(** Specification vocabulary (not code): the client's copy after [t] turns: the list, and the newer events that the watch delivered. *)
Definition held (cfg : driver_cfg) (sch : nat -> cturn) (conn : nat) (id : Z) (resp : range_resp) (t : nat) : copy :=
  mirror (rr_kvs resp) (newer (rr_header resp) (sent (said conn (k_log (c_whole (cat cfg sch t)))) id)).
(** Specification vocabulary (not code): no key of the range is changed after the first [t0] turns. *)
Definition at_rest (cfg : driver_cfg) (sch : nat -> cturn) (t0 : nat) (lo hi : bytes) : Prop :=
  forall t r x, (t0 <= t)%nat -> revision (commits (c_log (cat cfg sch t0))) < r ->
    nth_error (commits (c_log (cat cfg sch t))) (Z.to_nat (r - 1)) = Some x -> ~ in_range lo hi (e_key x).
