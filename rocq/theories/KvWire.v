(** What a client of the etcd key-value API receives: the protobuf messages of range,
    transaction and lease answers as built by pkg/limited.  Fields never assigned have
    their zero value. *)
From Coq Require Import List ZArith Bool.
From Verif Require Import Bytes Spec Sql System Prog Backend Limited Api Observe.
Import ListNotations.
Open Scope Z_scope.

(** mvccpb.KeyValue, all fields (types.go:77: KeyValue = mvccpb.KeyValue). *)
Record mvcc := Mvcc {
  m_key : bytes;
  m_create : Z;
  m_mod : Z;
  m_version : Z;
  m_value : bytes;
  m_lease : Z }.
(** scanKeyValue, utils.go:26-39: a row of a listing as a message. *)
Definition scan_kv (x : kv) : mvcc := Mvcc (kv_key x) (kv_create x) (kv_mod x) 0 (kv_value x) (kv_lease x).
(** toKV, server.go:108-119; None is the nil pointer. *)
Definition to_kv (p : option mvcc) : option mvcc :=
  match p with
  | None => None
  | Some m => Some (Mvcc (m_key m) (m_create m) (m_mod m) 0 (m_value m) (m_lease m))
  end.
(** the loop of toKVs, server.go:99-105 *)
Fixpoint to_kvs_loop (l : list (option mvcc)) : list mvcc :=
  match l with
  | [] => []
  | p :: rest => match to_kv p with Some m => m :: to_kvs_loop rest | None => to_kvs_loop rest end
  end.
(** toKVs, server.go:93-106 *)
Definition to_kvs (l : list (option mvcc)) : list mvcc :=
  match l with
  | [] => []
  | None :: _ => []
  | _ => to_kvs_loop l
  end.

(** etcdserverpb.RangeResponse; the header is its revision (txnHeader, limited.go:25-29). *)
Record wrange := WRange { wr_header : Z; wr_kvs : list mvcc; wr_more : bool; wr_count : Z }.
(** etcdserverpb.ResponseOp: PutResponse (header), RangeResponse, DeleteRangeResponse
    (header, deleted). *)
Inductive wop := WPut (header : Z) | WRangeOp (r : wrange) | WDelete (header deleted : Z).
(** etcdserverpb.TxnResponse. *)
Record wtxn := WTxn { wt_header : Z; wt_succeeded : bool; wt_responses : list wop }.

(** The messages of the rows read (utils.go:11-24: none is nil), converted (server.go:87,
    update.go:77, delete.go:68). *)
Definition messages (l : list kv) : list mvcc := to_kvs (map (fun x => Some (scan_kv x)) l).
(** server.go:83-88 *)
Definition wire_range (r : range_resp) : wrange := WRange (rr_header r) (messages (rr_kvs r)) (rr_more r) (rr_count r).
(** create.go:61-69, update.go:60-78, delete.go:48-70, compact.go:28-36 (its empty key
    value is built directly and is the same message); Deleted is never assigned. *)
Definition wire_op (o : resp_op) : wop :=
  match o with
  | RespPut h => WPut h
  | RespRange r => WRangeOp (wire_range r)
  | RespDelete h => WDelete h 0
  end.
(** server.go:129-135 *)
Definition wire_txn (t : txn_resp) : wtxn := WTxn (tr_header t) (tr_succeeded t) (map wire_op (tr_responses t)).
(** An error stays an error (server.go:76-79, 130-134). *)
Definition on_wire {A B} (f : A -> B) (r : result A) : result B := match r with Ok a => Ok (f a) | Err e => Err e end.
(** The messages answering a range request and a transaction executed now
    (server.go:36-91, 129-135). *)
Definition ask_wire (cfg : driver_cfg) (w : world) (r : range_req) : result wrange := on_wire wire_range (ask cfg w r).
(** The message answering a transaction (server.go:129-135). *)
Definition transact_wire (cfg : driver_cfg) (w : world) (t : txn_req) : result wtxn := on_wire wire_txn (transact cfg w t).

(** ---- specification vocabulary (not code) ---- *)
(** The message carries the version [x] (the Version field aside). *)
Definition carries (x : kv) (m : mvcc) : Prop :=
  m_key m = kv_key x /\ m_value m = kv_value x /\ m_lease m = kv_lease x /\ m_create m = kv_create x /\ m_mod m = kv_mod x.
