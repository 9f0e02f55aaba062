(** Infinite executions of the whole system (Whole.v), for the liveness of watches.
    Specification vocabulary; the steps are those of Whole.v.  What is assumed about the
    Go scheduler, sync.Mutex and channels is written out in [polling] and [consuming]. *)
From Coq Require Import List ZArith Bool.
From Verif Require Import Bytes Spec Sql System Prog Backend Limited Api Pool Ledger Batch BatchKine Node Watch Stream Resume Whole.
From Verif Require Import Watch Stream Whole.
Import ListNotations.
Open Scope Z_scope.

(** A step if it is possible (a goroutine that has to wait waits). *)
Definition ktry (cfg : driver_cfg) (s : kstate) (x : kaction) : kstate :=
  match kstep cfg s x with Some s' => s' | None => s end.
(** The state after the first [t] steps of an infinite schedule. *)
Fixpoint kat (cfg : driver_cfg) (sch : nat -> kaction) (t : nat) : kstate :=
  match t with O => kinit | S t => ktry cfg (kat cfg sch t) (sch t) end.
(** The [i]-th stream of server [j]: its connection and its state. *)
Definition stream_of (s : kstate) (j i : nat) : option (nat * sstate) :=
  match nth_error (k_servers s) j with
  | Some v => match nth_error (k_streams v) i with
              | Some (conn, st) => Some (conn, synced (n_world (k_node s)) v st)
              | None => None
              end
  | None => None
  end.
(** On connection [conn], which is stream [i] of server [j], watch [id] of the range
    [lo, hi) from revision [start] was requested and acknowledged, and not cancelled; the
    poller of the server is running. *)
Definition watching (s : kstate) (j i conn : nat) (id : Z) (lo hi : bytes) (start : Z) : Prop :=
  In (Watched conn id lo hi start) (k_log s) /\ In (Said conn (MCreated id)) (k_log s) /\
  exists st g, stream_of s j i = Some (conn, st) /\ group_of st = Some g /\ ~ In id (g_cancelled g) /\ b_dead (s_b st) = false.
(** The server has closed the channel of the stream: the consumer was too slow
    (watcher.go:222-228), or the client ended the stream (watch.go:53-56). *)
Definition closed (s : kstate) (j i : nat) : Prop :=
  exists conn st g, stream_of s j i = Some (conn, st) /\ group_of st = Some g /\ g_open g = false.
(** The mutex of the stream is free (watch.go:97, 153). *)
Definition idle (s : kstate) (j i : nat) : Prop := exists conn st, stream_of s j i = Some (conn, st) /\ s_creating st = None.
(** A fault the poller survives: the query fails, with an error that is neither a deadline
    nor a cancellation (watcher.go:200-207). *)
Definition bearable (f : fault) : Prop :=
  match f with FailBefore e | FailAfter e => e <> EDeadline /\ e <> ECanceled | CutRows _ _ => False | NoFault | NotLeader => True end.
(** The poller of server [j] (watcher.go:185-214) gets its turns; again and again its query
    succeeds, and when it fails the poller survives. *)
Definition polling (j : nat) (sch : nat -> kaction) : Prop :=
  (forall t, exists t', (t <= t')%nat /\ sch t' = KBack j (AFetch NoFault)) /\
  (forall t, exists t', (t <= t')%nat /\ sch t' = KBack j APublish) /\
  (forall t f, sch t = KBack j (AFetch f) -> bearable f).
(** ServeUpdates of stream [i] of server [j] (watch.go:86-113) gets its turns: again and again
    it looks into its channel, and again and again it gets the mutex. *)
Definition consuming (cfg : driver_cfg) (j i : nat) (sch : nat -> kaction) : Prop :=
  (forall t, exists t', (t <= t')%nat /\ sch t' = KStream j i SRecv) /\
  (forall t, exists t', (t <= t')%nat /\ sch t' = KStream j i SSend /\ idle (kat cfg sch t') j i).
(** The answers to create requests among the messages of a connection, in order. *)
Definition answers (conn : nat) (l : list knote) : list msg :=
  filter (fun m => match m with MCreated _ | MCompacted _ | MUnhealthy _ => true | _ => false end) (said conn l).
(** The create requests received on a connection, in order: the number given, the range, the start. *)
Definition requests (conn : nat) (l : list knote) : list (Z * bytes * bytes * Z) :=
  flat_map (fun x => match x with Watched c id lo hi start => if Nat.eqb c conn then [(id, lo, hi, start)] else [] | _ => [] end) l.
(** ServeRequests of stream [i] of server [j] (watch.go:50-84), when it is inside of Create, gets its
    turns: again and again each of the steps of WatcherGroup.Watch (watcher.go:88-141) is tried; its
    queries succeed or fail. *)
Definition creating (j i : nat) (sch : nat -> kaction) : Prop :=
  (forall t, exists t' f, (t <= t')%nat /\ sch t' = KStream j i (SCheck f)) /\
  (forall t, exists t' f, (t <= t')%nat /\ sch t' = KStream j i (SQuery f)) /\
  (forall t, exists t', (t <= t')%nat /\ sch t' = KStream j i SFinish).
(** The [n]-th create request received on connection [conn], which is stream [i] of server [j], was given
    the number [id] and wants the range [lo, hi) from revision [start]; it may be answered already or not; the watch is
    not cancelled; the poller of the server is running. *)
Definition wanted (s : kstate) (j i conn n : nat) (id : Z) (lo hi : bytes) (start : Z) : Prop :=
  nth_error (requests conn (k_log s)) n = Some (id, lo, hi, start) /\
  exists st g, stream_of s j i = Some (conn, st) /\ group_of st = Some g /\ ~ In id (g_cancelled g) /\ b_dead (s_b st) = false.
