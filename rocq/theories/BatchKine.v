(** The batching layer (Batch.v) under the statements of the driver: the stack
    NewBatched(NewPrepared(db)) of pkg/server/server.go:434 and driver.go:462.
    The database is a [world] (System.v): the table, and the specification in lock step. *)
From Coq Require Import List ZArith Bool.
From Verif Require Import Bytes Spec Sql System Prog Batch.
Import ListNotations.
Open Scope Z_scope.

(** one statement: effect, and (rows affected, last insert id) *)
Definition kine_run (a : aop) (w : world) : world * (Z * Z) := (wapply w a, snd (apply (fst w) a)).
(** The batch of batched.go over the kine table. *)
Definition kbatch := batch_state world aop (Z * Z).
(** One step (batched.go:36-225). *)
Definition kstep (s : kbatch) (a : baction aop) : kbatch := batch_step world aop (Z * Z) kine_run s a.
(** Ghost: the log. *)
Definition klog (s : kbatch) := b_log world aop (Z * Z) s.
(** The table. *)
Definition kworld (s : kbatch) : world := b_db world aop (Z * Z) s.
(** The callers' jobs. *)
Definition kjobs (s : kbatch) := b_jobs world aop (Z * Z) s.
(** The batch was closed. *)
Definition kclosed (s : kbatch) : bool := b_closed world aop (Z * Z) s.
(** The caller of job [i] got its answer (batched.go:76-90). *)
Definition kreleased (s : kbatch) (i : nat) := released world aop (Z * Z) s i.

(** A request's write statement (driver.go:509-580); the bookkeeping key is not written
    by clients (C22). *)
Definition client_write (a : aop) : Prop :=
  match a with
  | ACreate k _ _ | AUpdate k _ _ _ | ADelete k _ => k <> compact_rev_key
  | _ => False
  end.
(** what can happen: clients submit writes; other connections and servers execute
    allowed statements, compactions included *)
Definition kpossible (s : kbatch) (a : baction aop) : Prop :=
  match a with
  | BSubmit _ a => client_write a
  | BOther _ a => allowed (snd (kworld s)) a
  | _ => True
  end.
(** [klater s s'] : [s'] comes after [s]; any faults *)
Inductive klater (s : kbatch) : kbatch -> Prop :=
| klater_refl : klater s s
| klater_step s' a : klater s s' -> kpossible s' a -> klater s (kstep s' a).
(** Reachable states, starting on any reachable table. *)
Definition kreach (s : kbatch) : Prop := exists w, wreach w /\ klater (batch_init w) s.
(** The same if no report of a COMMIT or of a single statement gets lost. *)
Inductive klater_reported (s : kbatch) : kbatch -> Prop :=
| klr_refl : klater_reported s s
| klr_step s' a : klater_reported s s' -> kpossible s' a -> fault_ok aop reported a -> klater_reported s (kstep s' a).
