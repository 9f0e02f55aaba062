(** pkg/backend/internal/backend/backend.go:282-296: the compaction goroutine of a server,
    next to everything else that happens to the database.
    Simplifications:
    - time.Ticker is a tick that may come at any moment while the goroutine waits in select
      (a tick that comes during a run is kept by the ticker's channel of capacity one or
      dropped: it is then a later tick);
    - a context cancelled during a run makes the call under way fail ([CCall] with a fault);
    - the error of a run is only logged (backend.go:291-293). *)
From Coq Require Import List ZArith Bool.
From Verif Require Import Bytes Spec Sql System Prog Backend.
Import ListNotations.
Open Scope Z_scope.

(** The database, the run of DoCompact under way if any (backend.go:291), and whether the
    goroutine has returned (backend.go:288-289). *)
Record cstate := CState { c_world : world; c_run : option (prog (result unit)); c_over : bool }.

(** One step of the goroutine (backend.go:286-295) or of the rest of the world. *)
Inductive caction :=
| CEnv (a : aop)       (* a statement of a client's request, of expiry, or of another server *)
| CTick                (* <-t.C: DoCompact is called (backend.go:290-291) *)
| CCall (f : fault)    (* the next database call of the run *)
| CReturn              (* DoCompact has returned; back to select (backend.go:291-294) *)
| CStop.               (* <-ctx.Done() (backend.go:288-289) *)

(** Effect of one step (backend.go:282-296). *)
Definition cstep (cfg : driver_cfg) (s : cstate) (a : caction) : cstate :=
  match a with
  | CEnv a => CState (wapply (c_world s) a) (c_run s) (c_over s)
  | CTick =>
      match c_run s with
      | None => if c_over s then s else CState (c_world s) (Some (b_do_compact cfg)) false
      | Some _ => s
      end
  | CCall f =>
      match c_run s with
      | Some (Call c k) => CState (fst (sem f c (c_world s))) (Some (k (snd (sem f c (c_world s))))) (c_over s)
      | _ => s
      end
  | CReturn => match c_run s with Some (Ret _) => CState (c_world s) None (c_over s) | _ => s end
  | CStop => match c_run s with None => CState (c_world s) None true | Some _ => s end
  end.

(** ---- infinite executions: specification vocabulary ---- *)

(** The state after the first [t] steps of an infinite schedule, of a goroutine that waits in
    select on the database [w0]. *)
Fixpoint cat (cfg : driver_cfg) (w0 : world) (sch : nat -> caction) (t : nat) : cstate :=
  match t with O => CState w0 None false | S t => cstep cfg (cat cfg w0 sch t) (sch t) end.
(** The database is that of some execution, and every statement of others is one that servers
    issue (System.v). *)
Definition cpossible (cfg : driver_cfg) (w0 : world) (sch : nat -> caction) : Prop :=
  wreach w0 /\ forall t a, sch t = CEnv a -> allowed (snd (c_world (cat cfg w0 sch t))) a.
(** The goroutine gets its turns, forever. *)
Definition cturns (sch : nat -> caction) : Prop :=
  (forall t, exists t' f, (t <= t')%nat /\ sch t' = CCall f) /\ (forall t, exists t', (t <= t')%nat /\ sch t' = CReturn).
(** A run starts at step [t1]. *)
Definition begins (cfg : driver_cfg) (w0 : world) (sch : nat -> caction) (t1 : nat) : Prop :=
  c_run (cat cfg w0 sch t1) = None /\ c_over (cat cfg w0 sch t1) = false /\ sch t1 = CTick.
(** The run that starts at step [t1] is still under way at step [t]. *)
Definition during (cfg : driver_cfg) (w0 : world) (sch : nat -> caction) (t1 t : nat) : Prop :=
  (t1 < t)%nat /\ forall u, (t1 < u <= t)%nat -> c_run (cat cfg w0 sch u) <> None.
(** It meets no failing statement (and on dqlite the node is the leader). *)
Definition undisturbed (cfg : driver_cfg) (w0 : world) (sch : nat -> caction) (t1 : nat) : Prop :=
  forall t f, during cfg w0 sch t1 t -> sch t = CCall f -> f = NoFault.
(** It meets failing statements perhaps, but on dqlite the node is the leader. *)
Definition led (cfg : driver_cfg) (w0 : world) (sch : nat -> caction) (t1 : nat) : Prop :=
  cfg_dqlite cfg = true -> forall t f, during cfg w0 sch t1 t -> sch t = CCall f -> f <> NotLeader.
(** At step [t2] it has reported [r]. *)
Definition reports (cfg : driver_cfg) (w0 : world) (sch : nat -> caction) (t1 t2 : nat) (r : result unit) : Prop :=
  during cfg w0 sch t1 t2 /\ c_run (cat cfg w0 sch t2) = Some (Ret r).
