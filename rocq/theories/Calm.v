(** Calm periods: stretches of an execution of whole servers (Node.v, Fair.v) in which the database
    answers.  Specification vocabulary, not code. *)
From Coq Require Import List ZArith Bool.
From Verif Require Import Bytes Spec Sql System Prog Backend Limited Api Pool Ledger Batch BatchKine Node Fair.
Import ListNotations.
Open Scope Z_scope.

(** Specification vocabulary (not code): in this turn no database call and no batch fails, nobody
    cancels a write that waits in a batching layer (batched.go:52-85), and no server is closed
    (batched.go:163-179).  Crashes, new servers and new requests may happen. *)
Definition calm (x : turn) : Prop :=
  match x with
  | Own _ f | Other (NCall _ f) => f = NoFault
  | Other (NBatch _ (BExecute _ f)) => f = BFNone
  | Other (NBatch _ (BCancel _ _)) | Other (NBatch _ (BClose _)) => False
  | _ => True
  end.
(** Specification vocabulary (not code): no batching layer has been closed, and no write that is still
    to be executed has been cancelled (batched.go:21-34). *)
Definition undisturbed (s : nstate) : Prop :=
  forall j b, nth_error (n_servers s) j = Some b ->
    kclosed b = false /\ forall i jb, nth_error (kjobs b) i = Some jb -> j_outcome _ _ jb = None -> j_cancelled _ _ jb = false.
(** Specification vocabulary (not code): the answer [o] to [q], asked when the history was [h], is not a failure: conditional
    writes report whether their condition held, reads return data - or that they are too late for
    the revision they insist on, which for lists with a limit may be one they chose themselves
    (list.go:67-76) -, and deletions of expired keys, starts and, unless the database is empty,
    compactions are carried out. *)
Definition in_order (h : history) (q : work) (o : reply) : Prop :=
  match q with
  | WTxn t => (exists c, t = request c) -> exists x, o = ReTxn (Ok x)
  | WRange r => supported_range r ->
      (exists x, o = ReRange (Ok x)) \/
      o = ReRange (Err ECompacted) /\ (r_revision r <> 0 \/ r_range_end r <> [] /\ 0 < r_limit r /\ r_count_only r = false)
  | WExpire _ _ | WStart => o = ReDone (Ok tt)
  | WCompact => h <> [] -> o = ReDone (Ok tt)
  end.
