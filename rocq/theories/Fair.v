(** Infinite executions of whole servers (Node.v) in which everybody who has something to do
    gets a turn again and again.  Specification vocabulary for liveness; the steps are
    those of Node.v.  The turns of the goroutines are what the Go scheduler gives
    (fairness of the scheduler and of sync.Mutex and sync.Cond is what is assumed). *)
From Coq Require Import List ZArith Bool.
From Verif Require Import Bytes Spec Sql System Prog Backend Limited Api Pool Ledger Batch BatchKine Node.
Import ListNotations.

(** Where request [pid] is in the list of the requests in progress (Node.v). *)
Fixpoint position (pid : nat) (ps : list nproc) : option nat :=
  match ps with
  | [] => None
  | p :: ps => if Nat.eqb (np_id p) pid then Some 0%nat else option_map S (position pid ps)
  end.
(** The next step of a request's own goroutine: a query or transaction (driver.go:405-440,
    616-673) that suffers fault [f], handing a write to the batching layer
    (batched.go:52-75), returning from it (batched.go:76-84), answering. *)
Definition own_step (i : nat) (f : fault) (a : activity) : naction :=
  match a with
  | NRun (Ret _) => NAnswer i
  | NRun (Call c _) => match op_of c with Some a => if batched a then NSubmit i else NCall i f | None => NCall i f end
  | NWait _ _ _ => NReturn i
  end.
(** A turn: of the goroutine of request [pid], whose database call, if it makes one,
    suffers fault [f]; or anything else that happens. *)
Inductive turn := Own (pid : nat) (f : fault) | Other (x : naction).
(** A step if it is possible (a goroutine that has to wait waits). *)
Definition attempt (cfg : driver_cfg) (s : nstate) (x : naction) : nstate :=
  match nstep cfg s x with Some s' => s' | None => s end.
(** The effect of a turn. *)
Definition take_turn (cfg : driver_cfg) (s : nstate) (x : turn) : nstate :=
  match x with
  | Other x => attempt cfg s x
  | Own pid f =>
      match position pid (n_procs s) with
      | Some i => match nth_error (n_procs s) i with Some p => attempt cfg s (own_step i f (np_act p)) | None => s end
      | None => s
      end
  end.
(** Requests and faults as in Node.v. *)
Definition turn_ok (okf : fault -> Prop) (x : turn) : Prop := match x with Own _ f => okf f | Other x => naction_ok okf x end.
(** The state after the first [t] turns of an infinite schedule. *)
Fixpoint at_time (cfg : driver_cfg) (sch : nat -> turn) (t : nat) : nstate :=
  match t with O => ninit | S t => take_turn cfg (at_time cfg sch t) (sch t) end.
(** Turns satisfying [P] come again and again. *)
Definition again (sch : nat -> turn) (P : turn -> Prop) : Prop := forall t, exists t', (t <= t')%nat /\ P (sch t').
(** The batching goroutine of server [j] (batched.go:92-116) gets its turns, whatever faults its
    transactions suffer. *)
Definition batching (j : nat) (sch : nat -> turn) : Prop :=
  again sch (eq (Other (NBatch j (BTake _)))) /\ again sch (fun x => exists f, x = Other (NBatch j (BExecute _ f))) /\ again sch (eq (Other (NBatch j (BFinish _)))).
