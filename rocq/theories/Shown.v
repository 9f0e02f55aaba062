(** Specification vocabulary: the versions of keys an answer shows. *)
From Coq Require Import List ZArith Bool.
From Verif Require Import Bytes Spec Sql System Prog Backend Limited Api Pool Ledger.
Import ListNotations.
Open Scope Z_scope.

(** Specification vocabulary (not code): the key values a caller finds in an answer, of
    a Range (list.go:12-84, get.go:11-34) or in the failure branch of a transaction
    (update.go:66-80, delete.go:56-73). *)
Definition shows (o : reply) (x : kv) : Prop :=
  match o with
  | ReRange (Ok a) => In x (rr_kvs a)
  | ReTxn (Ok t) => exists a, In (RespRange a) (tr_responses t) /\ In x (rr_kvs a)
  | _ => False
  end.

(** Specification vocabulary (not code): [x] is something request [q] asks about: a key
    of the requested range at no later revision than asked for, the key of the
    conditional write. *)
Definition asked_about (q : work) (x : kv) : Prop :=
  match q with
  | WRange r =>
      match r_range_end r with [] => kv_key x = r_key r | _ => in_range (r_key r) (r_range_end r) (kv_key x) end /\
      (r_revision r <> 0 -> kv_mod x <= r_revision r)
  | WTxn t => txn_key t = Some (kv_key x)
  | _ => False
  end.

(** Specification vocabulary (not code): the revision an answer with key values claims to be of. *)
Definition told (o : reply) (x : kv) (rev : Z) : Prop :=
  match o with
  | ReRange (Ok a) => In x (rr_kvs a) /\ rev = rr_header a
  | ReTxn (Ok t) => exists a, In (RespRange a) (tr_responses t) /\ In x (rr_kvs a) /\ rev = rr_header a
  | _ => False
  end.
