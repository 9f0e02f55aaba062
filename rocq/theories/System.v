(** Atomic database operations: one SQL statement or one transaction each, run
    side by side with the specification. *)
From Coq Require Import List ZArith Bool.
From Verif Require Import Bytes Spec Sql.
Import ListNotations.
Open Scope Z_scope.

(** What the server ever executes against the table as one atomic unit:
    Create/Update/Delete/DeleteRevision statements (driver.go:509-580,708-720)
    and the tryCompact transaction (driver.go:616-673). *)
Inductive aop :=
| ACreate (k v : bytes) (ttl : Z)
| AUpdate (k v : bytes) (rev ttl : Z)
| ADelete (k : bytes) (rev : Z)
| ACompact (start stop : Z)
| ADeleteRev (rev : Z).

(** Effect on the table; result = (rows affected, last insert id). *)
Definition apply (d : db) (a : aop) : db * (Z * Z) :=
  match a with
  | ACreate k v ttl => create_sql k v ttl d
  | AUpdate k v rev ttl => update_sql k v rev ttl d
  | ADelete k rev => delete_sql k rev d
  | ACompact start stop => (try_compact_tx start stop d, (0, 0))
  | ADeleteRev rev => delete_rev_sql rev d
  end.

(** The same operation in the specification. *)
Definition spec_result (r : option Z) : Z * Z :=
  match r with Some n => (1, n) | None => (0, 0) end.
(** Specification vocabulary (not code): what one statement or transaction must do to the store, and its (affected, id). *)
Definition spec_apply (s : store) (a : aop) : store * (Z * Z) :=
  match a with
  | ACreate k v ttl => let '(s', r) := spec_create s k v ttl in (s', spec_result r)
  | AUpdate k v rev ttl => let '(s', r) := spec_update s k v rev ttl in (s', spec_result r)
  | ADelete k rev => let '(s', r) := spec_delete s k rev in (s', spec_result r)
  | ACompact _ stop => (spec_compact s stop, (0, 0))
  | ADeleteRev _ => (s, (0, 0))
  end.

(** Which operations the server issues in store [s].  That every program of the
    server only issues these is a theorem (C16), under the proviso that clients
    do not write the bookkeeping key (what happens otherwise is C22):
    - the bookkeeping key is only ever created, with empty value and no lease
      (backend.go:152-155);
    - a compaction starts at or below the floor, stops strictly below the current
      revision, and the bookkeeping key exists. *)
Definition allowed (s : store) (a : aop) : Prop :=
  match a with
  | ACreate k v ttl => k = compact_rev_key -> v = [] /\ ttl = 0
  | AUpdate k _ _ _ => k <> compact_rev_key
  | ADelete k _ => k <> compact_rev_key
  | ACompact start stop =>
      start <= floor_of s /\ stop < revision (history_of s) /\
      now (history_of s) compact_rev_key <> None
  | ADeleteRev _ => False
  end.

(** Table and specification run in lock step. *)
Definition world := (db * store)%type.
(** One statement on the table (driver.go:211-272, 616-673) and, beside it, on the specification. *)
Definition wapply (w : world) (a : aop) : world :=
  (fst (apply (fst w) a), fst (spec_apply (snd w) a)).
(** The database after setup (driver.go:347-403) and the empty store. *)
Definition init_world : world := (empty_db, empty_store).

(** States reached from the fresh database by any sequence of the operations of driver.go:509-720. *)
Inductive reach : db -> store -> Prop :=
| reach_init : reach empty_db empty_store
| reach_step : forall d s a, reach d s -> allowed s a ->
    reach (fst (apply d a)) (fst (spec_apply s a)).

(** [w] is a state the database can be in. *)
Definition wreach (w : world) : Prop := reach (fst w) (snd w).

(** [w'] is a later state: any number of allowed operations of any processes
    happened since [w]. *)
Inductive wsteps : world -> world -> Prop :=
| wsteps_refl : forall w, wsteps w w
| wsteps_one : forall w w' a, wsteps w w' -> allowed (snd w') a -> wsteps w (wapply w' a).
