(** pkg/backend/sqlite/schema.go and setup (pkg/backend/sqlite/driver.go:347-403):
    schema versions and the migration of a database, by any number of servers.
    Simplifications:
    - the schema of a database is its user_version, the kine table if there is one, and
      which of the three indexes exist;
    - the transaction of setup (driver.go:370-402) is one step: it is atomic (SQLite),
      so a crash inside it is [SFBefore], one right after COMMIT is [SFAfter];
    - DROP INDEX IF EXISTS / CREATE INDEX IF NOT EXISTS only fail when a unique index
      does not fit the rows, or by a fault;
    - NewDriver's retry loop (driver.go:313-333) is repeated setup. *)
From Coq Require Import List ZArith Bool.
From Verif Require Import Bytes Spec Sql System Prog.
Import ListNotations.
Open Scope Z_scope.

(** Go conversion to int16 *)
Definition to_int16 (z : Z) : Z := (z + 2 ^ 15) mod 2 ^ 16 - 2 ^ 15.
(** schema.go:23-25; int16 arguments are sign-extended to int32 *)
Definition new_schema_version (major minor : Z) : Z := Z.lor (Z.shiftl major 16) minor.
(** schema.go:27-35 *)
Definition sv_major (sv : Z) : Z := to_int16 (Z.shiftr sv 16).
(** SchemaVersion.Minor, schema.go:33-35. *)
Definition sv_minor (sv : Z) : Z := to_int16 sv.
(** schema.go:37-46 *)
Definition compatible_with (sv target : Z) : bool :=
  if (sv_major sv =? 0) && (sv_minor sv =? 0) then true
  else sv_major sv =? sv_major target.
(** schema.go:19 *)
Definition database_schema_version : Z := new_schema_version 1 0.

(** What the migrations look at: table, column index, user_version (schema.go:37-112). *)
Record schema := Schema {
  sc_version : Z;               (* PRAGMA user_version *)
  sc_table : option db;         (* the kine table *)
  sc_name : bool;               (* kine_name_index *)
  sc_prev : bool;               (* kine_name_prev_revision_uindex *)
  sc_del : bool }.              (* k8s_dqlite_name_del_index *)

(** does CREATE UNIQUE INDEX ... (prev_revision, name) succeed *)
Fixpoint distinct_pairs (l : list row) : bool :=
  match l with
  | [] => true
  | r :: rest => negb (existsb (fun x => (prev_revision x =? prev_revision r) && beqb (name x) (name r)) rest) && distinct_pairs rest
  end.

(** schema.go:51-93; [None]: error, the transaction is rolled back *)
Definition apply_v0_1 (s : schema) : option schema :=
  match sc_table s with
  | None => Some (Schema (sc_version s) (Some empty_db) true true (sc_del s))
  | Some d => if distinct_pairs (rows d) then Some (Schema (sc_version s) (Some d) true true (sc_del s)) else None
  end.
(** schema.go:96-112; the index on (name, id, deleted) is unique because id is *)
Definition apply_v1_0 (s : schema) : schema := Schema (sc_version s) (sc_table s) false false true.
(** driver.go:393-397 *)
Definition set_version (v : Z) (s : schema) : schema := Schema v (sc_table s) (sc_name s) (sc_prev s) (sc_del s).

(** How a migration step can go wrong: before or after its COMMIT (driver.go:347-403). *)
Inductive sfault := SFNone | SFBefore | SFAfter.
(** driver.go:347-367: what setup does after reading the version without a
    transaction: return it, or go on *)
Definition setup_check (v : Z) : option Z :=
  if negb (compatible_with v database_schema_version) then Some v
  else if database_schema_version <=? v then Some v
  else None.
(** driver.go:369-402.  [inl v]: setup returned v without error; [inr tt]: an error *)
Definition setup_tx (f : sfault) (s : schema) : schema * (Z + unit) :=
  let v := sc_version s in
  match f with
  | SFBefore => (s, inr tt)
  | _ =>
      if negb (compatible_with v database_schema_version) then (s, inr tt)
      else if database_schema_version <=? v then (s, inl v)
      else if v =? new_schema_version 0 0 then
        match apply_v0_1 s with
        | None => (s, inr tt)
        | Some s1 => (set_version database_schema_version (apply_v1_0 s1), match f with SFAfter => inr tt | _ => inl v end)
        end
      else (s, match f with SFAfter => inr tt | _ => inl v end)
  end.

(** Several servers: where each is. *)
Inductive starting := SIdle | SGoOn | SReady (v : Z).
Record cluster := Cluster { c_schema : schema; c_servers : list starting; c_ever : bool (* ghost: some setup has returned without error *) }.
(** One step of one of several servers (driver.go:347-403, pkg/backend/dqlite/driver.go). *)
Inductive caction :=
| CStart (i : nat)                    (* setup up to the transaction *)
| CTx (i : nat) (f : sfault)          (* the transaction *)
| CCrash (i : nat)                    (* the server restarts *)
| CWrite (a : aop).                   (* a server in operation writes *)
Fixpoint set_nth {A} (i : nat) (x : A) (l : list A) : list A :=
  match l, i with [], _ => [] | _ :: r, O => x :: r | y :: r, S j => y :: set_nth j x r end.
(** Effect of one action. *)
Definition cstep (c : cluster) (a : caction) : cluster :=
  match a with
  | CStart i =>
      match nth_error (c_servers c) i with
      | Some SIdle =>
          match setup_check (sc_version (c_schema c)) with
          | Some v => Cluster (c_schema c) (set_nth i (SReady v) (c_servers c)) true
          | None => Cluster (c_schema c) (set_nth i SGoOn (c_servers c)) (c_ever c)
          end
      | _ => c
      end
  | CTx i f =>
      match nth_error (c_servers c) i with
      | Some SGoOn =>
          let '(s, r) := setup_tx f (c_schema c) in
          match r with
          | inl v => Cluster s (set_nth i (SReady v) (c_servers c)) true
          | inr _ => Cluster s (set_nth i SIdle (c_servers c)) (c_ever c)
          end
      | _ => c
      end
  | CCrash i => Cluster (c_schema c) (set_nth i SIdle (c_servers c)) (c_ever c)
  | CWrite a =>
      match sc_table (c_schema c) with
      | Some d => Cluster (Schema (sc_version (c_schema c)) (Some (fst (apply d a))) (sc_name (c_schema c)) (sc_prev (c_schema c)) (sc_del (c_schema c)))
                          (c_servers c) (c_ever c)
      | None => c
      end
  end.
(** A sequence of actions. *)
Definition crun (acts : list caction) (c : cluster) : cluster := fold_left cstep acts c.
(** the rows stored *)
Definition table_rows (s : schema) : list row := match sc_table s with Some d => rows d | None => [] end.
