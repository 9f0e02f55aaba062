(** Infinite executions of the cluster (Cluster.v), for the liveness of leases.  Specification vocabulary;
    the steps are those of Cluster.v.  As in Fair.v, what is assumed about the Go scheduler is that
    goroutines get their turns. *)
From Coq Require Import List ZArith Bool.
From Verif Require Import Bytes Spec Sql System Prog Backend Limited Api Pool Ledger Batch BatchKine Node Fair Calm Watch Stream Resume Whole Ttl FairWatch FairTtl Cluster.
Import ListNotations.
Open Scope Z_scope.

(** A turn: of the goroutine of request [pid], whose database call, if it makes one, suffers
    fault [f] (own_step of Fair.v); or anything else that happens in the cluster. *)
Inductive cturn := COwn (pid : nat) (f : fault) | CStep (a : caction).
(** A step if it is possible (a goroutine that has to wait waits). *)
Definition ctry (cfg : driver_cfg) (s : cstate) (a : caction) : cstate := match cstep cfg s a with Some s' => s' | None => s end.
(** The step of the goroutine of request [pid] (server.go:36-135, ttl.go:18-30), if it exists. *)
Definition own_action (s : cstate) (pid : nat) (f : fault) : option caction :=
  match position pid (n_procs (k_node (c_whole s))) with
  | Some i => match nth_error (n_procs (k_node (c_whole s))) i with Some p => Some (CWhole (KNode (own_step i f (np_act p)))) | None => None end
  | None => None
  end.
(** The effect of a turn. *)
Definition take_cturn (cfg : driver_cfg) (s : cstate) (x : cturn) : cstate :=
  match x with
  | CStep a => ctry cfg s a
  | COwn pid f => match own_action s pid f with Some a => ctry cfg s a | None => s end
  end.
(** The state after the first [t] turns of an infinite schedule. *)
Fixpoint cat (cfg : driver_cfg) (sch : nat -> cturn) (t : nat) : cstate :=
  match t with O => cinit | S t => take_cturn cfg (cat cfg sch t) (sch t) end.
(** Requests, faults and provisos as in Cluster.v. *)
Definition cturn_ok (okf : fault -> Prop) (st : bool) (s : cstate) (x : cturn) : Prop :=
  match x with COwn _ f => okf f | CStep a => caction_ok okf st s a end.
(** As [calm] of Calm.v: no database call of a request and no batch fails, nobody cancels a waiting write or
    closes a server.  Nothing is asked of pollers, streams and expiry goroutines. *)
Definition ccalm (x : cturn) : Prop :=
  match x with COwn _ f => f = NoFault | CStep (CWhole (KNode y)) => Calm.calm (Other y) | CStep _ => True end.
(** Turns satisfying [P] come again and again. *)
Definition cagain (sch : nat -> cturn) (P : cturn -> Prop) : Prop := forall t, exists t', (t <= t')%nat /\ P (sch t').
(** The batching goroutine of server [j] (batched.go:92-116) gets its turns. *)
Definition cbatching (j : nat) (sch : nat -> cturn) : Prop :=
  cagain sch (eq (CStep (CWhole (KNode (NBatch j (BTake _)))))) /\
  cagain sch (fun x => exists f, x = CStep (CWhole (KNode (NBatch j (BExecute _ f))))) /\
  cagain sch (eq (CStep (CWhole (KNode (NBatch j (BFinish _)))))).
(** The poller of server [j] (watcher.go:185-214) gets its turns: its queries again and again succeed,
    it publishes again and again, and it survives the queries that fail. *)
Definition polls (j : nat) (sch : nat -> cturn) : Prop :=
  cagain sch (eq (CStep (CWhole (KBack j (AFetch NoFault))))) /\
  cagain sch (eq (CStep (CWhole (KBack j APublish)))) /\
  (forall t f, sch t = CStep (CWhole (KBack j (AFetch f))) -> bearable f).
(** The loop over the updates of the expiry goroutine of server [j] (ttl.go:85-96) gets its turns. *)
Definition hears (j : nat) (sch : nat -> cturn) : Prop := cagain sch (fun x => exists js, x = CStep (CExpiry j (TRecv js))).
(** Time passes: the clock passes every point. *)
Definition time_passes (cfg : driver_cfg) (sch : nat -> cturn) : Prop := forall z, exists t, z <= c_clock (cat cfg sch t).
(** Server [j] has a timer, number [m], for revision [rev] of key [k] (ttl.go:13-36). *)
Definition has_timer (s : cstate) (j m : nat) (k : bytes) (rev : Z) : Prop :=
  exists t tm, view s j = Some t /\ nth_error (t_timers t) m = Some tm /\ tm_key tm = k /\ tm_rev tm = rev.
(** Timer [m] of server [j], for revision [rev] of [k], tries again and again unless an attempt to delete that
    version succeeds (ttl.go:19-41: backoff.Retry with MaxElapsedTime 0). *)
Definition tries (cfg : driver_cfg) (sch : nat -> cturn) (j m : nat) (k : bytes) (rev : Z) : Prop :=
  cagain sch (eq (CStep (CFire j m))) \/
  exists t pid, In (Asked pid (WExpire k rev)) (c_log (cat cfg sch t)) /\ In (Answered pid (ReDone (Ok tt))) (c_log (cat cfg sch t)).
(** ServeUpdates of stream [i] of server [j] (watch.go:86-113) gets its turns, as in FairWatch.v. *)
Definition consumes (cfg : driver_cfg) (j i : nat) (sch : nat -> cturn) : Prop :=
  cagain sch (eq (CStep (CWhole (KStream j i SRecv)))) /\
  (forall t, exists t', (t <= t')%nat /\ sch t' = CStep (CWhole (KStream j i SSend)) /\ idle (c_whole (cat cfg sch t')) j i).
(** ServeRequests of stream [i] of server [j] (watch.go:50-84), when it is inside of Create, gets its turns, as
    in FairWatch.v. *)
Definition creates (j i : nat) (sch : nat -> cturn) : Prop :=
  cagain sch (fun x => exists f, x = CStep (CWhole (KStream j i (SCheck f)))) /\
  cagain sch (fun x => exists f, x = CStep (CWhole (KStream j i (SQuery f)))) /\
  cagain sch (eq (CStep (CWhole (KStream j i SFinish)))).
