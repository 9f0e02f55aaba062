(** Specification: the etcd semantics of transactions with single-key compares and
    at most one operation per branch (etcd API documentation, rpc.proto Compare,
    TxnRequest).  Used by C20; independent of the server model. *)
From Coq Require Import List ZArith Bool.
From Verif Require Import Bytes Spec Limited.
Import ListNotations.
Open Scope Z_scope.

(** Number of puts since the key was last created; 0 for an absent key. *)
Fixpoint version_from (k : bytes) (h : history) (n : Z) : Z :=
  match h with
  | [] => n
  | e :: h' =>
      version_from k h'
        (if beqb (e_key e) k then match e_change e with Put _ _ => n + 1 | Del => 0 end else n)
  end.
(** Specification vocabulary (not code): etcd's Version field of a key. *)
Definition version (h : history) (k : bytes) : Z := version_from k h 0.

(** Specification vocabulary (not code): etcd's comparison of numbers. *)
Definition compare_z (r : cmp_result) (a b : Z) : bool :=
  match r with
  | CEqual => a =? b | CGreater => b <? a | CLess => a <? b | CNotEqual => negb (a =? b)
  end.
(** Specification vocabulary (not code): etcd's comparison of values. *)
Definition compare_bytes (r : cmp_result) (a b : bytes) : bool :=
  match r with
  | CEqual => beqb a b | CGreater => bltb b a | CLess => bltb a b | CNotEqual => negb (beqb a b)
  end.

(** An absent key has mod revision, create revision, version and lease 0; a
    comparison of the value of an absent key is false. *)
Definition etcd_compare (s : store) (c : compare) : bool :=
  let x := now (history_of s) (c_key c) in
  let num f := match x with Some v => f v | None => 0 end in
  match c_target c with
  | TMod => compare_z (c_result c) (num kv_mod) (match c_union c with UMod z => z | _ => 0 end)
  | TCreate => compare_z (c_result c) (num kv_create) (match c_union c with UCreate z => z | _ => 0 end)
  | TVersion => compare_z (c_result c) (version (history_of s) (c_key c)) (match c_union c with UVersion z => z | _ => 0 end)
  | TLease => compare_z (c_result c) (num kv_lease) (match c_union c with ULease z => z | _ => 0 end)
  | TValue => match x with
              | Some v => compare_bytes (c_result c) (kv_value v) (match c_union c with UValue b => b | _ => [] end)
              | None => false
              end
  end.

(** Put, with the flags that keep the present value or lease; delete of a single
    key (a range deletion changes several keys in one revision: not expressible
    in Spec.v and excluded by [coherent]). *)
Definition etcd_op (s : store) (o : req_op) : store :=
  match o with
  | OpPut p =>
      let put v l := fst (commit s (p_key p) (Put v l)) in
      match now (history_of s) (p_key p) with
      | Some x => put (if p_ignore_value p then kv_value x else p_value p)
                      (if p_ignore_lease p then kv_lease x else p_lease p)
      | None => if p_ignore_value p || p_ignore_lease p then s else put (p_value p) (p_lease p)
      end
  | OpDelete d => match now (history_of s) (d_key d) with
                  | Some _ => fst (commit s (d_key d) Del)
                  | None => s
                  end
  | _ => s
  end.

(** Success flag and resulting store. *)
Definition etcd_txn (s : store) (t : txn_req) : bool * store :=
  let ok := forallb (etcd_compare s) (t_compare t) in
  (ok, fold_left etcd_op (if ok then t_success t else t_failure t) s).

(** Transactions for which the server is expected to agree with etcd: one compare
    of the mod revision, on the key that the single operation writes. *)
Definition plain_put (p : put_req) : Prop :=
  p_prev_kv p = false /\ p_ignore_value p = false /\ p_ignore_lease p = false.
(** The revision a compare asks for, Compare.GetModRevision(). *)
Definition expected (c : compare) : Z := match c_union c with UMod z => z | _ => 0 end.
(** Specification vocabulary (not code): transactions on which server and etcd must agree. *)
Inductive coherent (t : txn_req) : Prop :=
| coherent_create c p :
    t = TxnReq [c] [OpPut p] [] -> c_target c = TMod -> c_result c = CEqual -> expected c = 0 ->
    c_range_end c = [] -> p_key p = c_key c -> plain_put p -> coherent t
| coherent_update c p r :
    t = TxnReq [c] [OpPut p] [OpRange r] -> c_target c = TMod -> c_result c = CEqual ->
    c_range_end c = [] -> p_key p = c_key c -> plain_put p -> coherent t
| coherent_delete c d r :
    t = TxnReq [c] [OpDelete d] [OpRange r] -> c_target c = TMod -> c_result c = CEqual -> expected c <> 0 ->
    c_range_end c = [] -> d_range_end d = [] -> d_key d = c_key c -> coherent t.

(** The transaction shapes the server accepts at all; [ck] is the bookkeeping key. *)
Inductive accepted (ck : bytes) (t : txn_req) : Prop :=
| accept_create c p :
    t = TxnReq [c] [OpPut p] [] -> c_target c = TMod -> c_result c = CEqual -> expected c = 0 ->
    plain_put p -> accepted ck t
| accept_update c p r :
    t = TxnReq [c] [OpPut p] [OpRange r] -> c_target c = TMod -> c_result c = CEqual -> accepted ck t
| accept_delete c d r :
    t = TxnReq [c] [OpDelete d] [OpRange r] -> c_target c = TMod -> c_result c = CEqual -> accepted ck t
| accept_compact c p r :
    t = TxnReq [c] [OpPut p] [OpRange r] -> c_target c = TVersion -> c_result c = CEqual -> c_key c = ck ->
    accepted ck t.
