(** pkg/limited: the etcd API front end (Range, Txn, Put, DeleteRange, Compact, Lease). *)
From Coq Require Import List ZArith Bool.
From Verif Require Import Bytes Spec Sql System Prog Backend.
Import ListNotations.
Open Scope Z_scope.

(** ---- protobuf requests (go.etcd.io/etcd/api/v3/etcdserverpb) ---- *)
Inductive cmp_target := TVersion | TCreate | TMod | TValue | TLease.
(** etcdserverpb.Compare_CompareResult. *)
Inductive cmp_result := CEqual | CGreater | CLess | CNotEqual.
(** oneof target_union *)
Inductive cmp_union := UVersion (z : Z) | UCreate (z : Z) | UMod (z : Z) | UValue (v : bytes) | ULease (z : Z) | UNone.
(** etcdserverpb.Compare: result, target, key, oneof. *)
Record compare := Compare {
  c_target : cmp_target; c_result : cmp_result; c_union : cmp_union;
  c_key : bytes; c_range_end : bytes }.

(** etcdserverpb.PutRequest. *)
Record put_req := PutReq {
  p_key : bytes; p_value : bytes; p_lease : Z;
  p_prev_kv : bool; p_ignore_value : bool; p_ignore_lease : bool }.
(** etcdserverpb.RangeRequest (the fields limited looks at). *)
Record range_req := RangeReq {
  r_key : bytes; r_range_end : bytes; r_limit : Z; r_revision : Z;
  r_sort_order : Z; r_sort_target : Z; r_serializable : bool;
  r_keys_only : bool; r_count_only : bool;
  r_min_mod : Z; r_max_mod : Z; r_min_create : Z; r_max_create : Z }.
(** etcdserverpb.DeleteRangeRequest. *)
Record del_req := DelReq { d_key : bytes; d_range_end : bytes; d_prev_kv : bool }.

(** etcdserverpb.RequestOp. *)
Inductive req_op :=
| OpRange (r : range_req) | OpPut (p : put_req) | OpDelete (d : del_req) | OpOther.
(** etcdserverpb.TxnRequest. *)
Record txn_req := TxnReq { t_compare : list compare; t_success : list req_op; t_failure : list req_op }.

(** A plain range request. *)
Definition range (key re : bytes) (limit rev : Z) : range_req :=
  RangeReq key re limit rev 0 0 false false false 0 0 0 0.

(** ---- responses ---- *)
Record range_resp := RangeResp { rr_header : Z; rr_kvs : list kv; rr_more : bool; rr_count : Z }.
(** etcdserverpb.ResponseOp; put and delete responses carry only a header here (create.go:24-72, update.go:28-84, delete.go:24-76). *)
Inductive resp_op := RespPut (header : Z) | RespRange (r : range_resp) | RespDelete (header : Z).
(** etcdserverpb.TxnResponse. *)
Record txn_resp := TxnResp { tr_header : Z; tr_succeeded : bool; tr_responses : list resp_op }.

(** ---- field access ---- *)
(** Compare.GetModRevision(): 0 unless the union holds a mod revision. *)
Definition get_mod_revision (c : compare) : Z := match c_union c with UMod z => z | _ => 0 end.
(** c.Target == Compare_MOD && c.Result == Compare_EQUAL (create.go:11-22, update.go:11-26, delete.go:11-22). *)
Definition is_mod_equal (c : compare) : bool :=
  match c_target c, c_result c with TMod, CEqual => true | _, _ => false end.
(** c.Target == Compare_VERSION && c.Result == Compare_EQUAL (compact.go:10-20). *)
Definition is_version_equal (c : compare) : bool :=
  match c_target c, c_result c with TVersion, CEqual => true | _, _ => false end.

(** ---- recognisers ---- *)
(** create.go:11-22 *)
Definition is_create (t : txn_req) : option put_req :=
  match t_compare t, t_failure t, t_success t with
  | [c], [], [OpPut p] => if is_mod_equal c && (get_mod_revision c =? 0) then Some p else None
  | _, _, _ => None
  end.
(** delete.go:11-22 *)
Definition is_delete (t : txn_req) : option (Z * bytes) :=
  match t_compare t, t_failure t, t_success t with
  | [c], [OpRange _], [OpDelete d] => if is_mod_equal c then Some (get_mod_revision c, d_key d) else None
  | _, _, _ => None
  end.
(** update.go:11-26 *)
Definition is_update (t : txn_req) : option (Z * bytes * bytes * Z) :=
  match t_compare t, t_success t, t_failure t with
  | [c], [OpPut p], [OpRange _] =>
      if is_mod_equal c then Some (get_mod_revision c, c_key c, p_value p, p_lease p) else None
  | _, _, _ => None
  end.
(** compact.go:10-20 *)
Definition is_compact (t : txn_req) : bool :=
  match t_compare t, t_success t, t_failure t with
  | [c], [OpPut _], [OpRange _] => is_version_equal c && beqb (c_key c) compact_rev_key
  | _, _, _ => false
  end.

(** ---- transactions ---- *)
(** create.go:24-72 *)
Definition l_create (p : put_req) : prog (result txn_resp) :=
  if p_ignore_lease p || p_ignore_value p || p_prev_kv p then Ret (Err EUnsupported)
  else
    let* (rev, ok) := b_create (p_key p) (p_value p) (p_lease p) in
    Ret (Ok (if (ok : bool) then TxnResp rev true [RespPut rev] else TxnResp rev false [])).

(** the failure branch of update (update.go:66-80) and delete (delete.go:56-73) *)
Definition l_failure (cfg : driver_cfg) (key : bytes) (rev : Z) : prog (result txn_resp) :=
  let* (rev', kvs) := b_list cfg key [] 1 rev in
  Ret (Ok (TxnResp rev false [RespRange (RangeResp rev' kvs false 0)])).

(** delete.go:24-76 *)
Definition l_delete (cfg : driver_cfg) (key : bytes) (revision : Z) : prog (result txn_resp) :=
  let* (rev, deleted) := b_delete key revision in
  if (deleted : bool) then Ret (Ok (TxnResp rev true [RespDelete rev]))
  else l_failure cfg key rev.

(** update.go:28-84 *)
Definition l_update (cfg : driver_cfg) (rev0 : Z) (key value : bytes) (lease : Z) : prog (result txn_resp) :=
  let* (rev, ok) := (if rev0 =? 0 then b_create key value lease
                      else b_update key value rev0 lease) in
  if (ok : bool) then Ret (Ok (TxnResp rev true [RespPut rev]))
  else l_failure cfg key rev.

(** compact.go:22-39: a fixed "comparison failed" answer. *)
Definition l_compact : prog (result txn_resp) :=
  Ret (Ok (TxnResp 0 false [RespRange (RangeResp 0 [KV [] [] 0 0 0] false 1)])).

(** limited.go:31-61 *)
Definition l_txn (cfg : driver_cfg) (t : txn_req) : prog (result txn_resp) :=
  match is_create t with
  | Some p => l_create p
  | None =>
      match is_delete t with
      | Some (rev, key) => l_delete cfg key rev
      | None =>
          match is_update t with
          | Some (rev, key, value, lease) => l_update cfg rev key value lease
          | None => if is_compact t then l_compact else Ret (Err EUnsupported)
          end
      end
  end.

(** ---- range ---- *)
(** get.go:11-34 *)
Definition l_get (cfg : driver_cfg) (r : range_req) : prog (result range_resp) :=
  let* (rev, kvs) := b_list cfg (r_key r) [] 1 (r_revision r) in
  Ret (Ok (RangeResp rev kvs false 0)).

(** int64 addition wraps *)
Definition wrap64 (z : Z) : Z :=
  (z + 9223372036854775808) mod 18446744073709551616 - 9223372036854775808.

(** list.go:12-84 *)
Definition l_list (cfg : driver_cfg) (r : range_req) : prog (result range_resp) :=
  match r_range_end r with
  | [] => Ret (Err EUnsupported)
  | _ =>
    if r_count_only r then
      let* (rev, count) := b_count cfg (r_key r) (r_range_end r) (r_revision r) in
      Ret (Ok (RangeResp rev [] false count))
    else
      let limit := if 0 <? r_limit r then wrap64 (r_limit r + 1) else r_limit r in
      let* (rev, kvs) := b_list cfg (r_key r) (r_range_end r) limit (r_revision r) in
      let count := Z.of_nat (length kvs) in
      if (0 <? limit) && (r_limit r <? count) then
        let revision := if r_revision r =? 0 then rev else r_revision r in
        let* (rev2, total) := b_count cfg (r_key r) (r_range_end r) revision in
        Ret (Ok (RangeResp rev2 (ztake (limit - 1) kvs) true total))
      else Ret (Ok (RangeResp rev kvs false count))
  end.

(** limited.go:16-23 *)
Definition l_range (cfg : driver_cfg) (r : range_req) : prog (result range_resp) :=
  match r_range_end r with
  | [] => l_get cfg r
  | _ => l_list cfg r
  end.

(** ---- the gRPC entry points (server.go) ---- *)
(** server.go:36-91 *)
Definition s_range (cfg : driver_cfg) (r : range_req) : prog (result range_resp) :=
  if r_keys_only r then Ret (Err EUnsupported)
  else if negb (r_max_create r =? 0) then Ret (Err EUnsupported)
  else if negb (r_sort_order r =? 0) then Ret (Err EUnsupported)
  else if negb (r_sort_target r =? 0) then Ret (Err EUnsupported)
  else if r_serializable r then Ret (Err EUnsupported)
  else if negb (r_min_mod r =? 0) then Ret (Err EUnsupported)
  else if negb (r_min_create r =? 0) then Ret (Err EUnsupported)
  else if negb (r_max_mod r =? 0) then Ret (Err EUnsupported)
  else l_range cfg r.
(** server.go:129-135 *)
Definition s_txn := l_txn.
(** server.go:121-127 *)
Definition s_put (p : put_req) : prog (result unit) := Ret (Err EUnsupported).
(** DeleteRange, server.go:125-127: refused. *)
Definition s_delete_range (d : del_req) : prog (result unit) := Ret (Err EUnsupported).
(** server.go:137-143: accepted and ignored; echoes the revision *)
Definition s_compact (rev : Z) : prog (result Z) := Ret (Ok rev).
(** lease.go:10-16: the lease id is the TTL *)
Definition s_lease_grant (ttl : Z) : prog (result (Z * Z)) := Ret (Ok (ttl, ttl)).
(** lease.go:18-32, maintenance.go: not supported *)
Definition s_lease_other : prog (result unit) := Ret (Err EUnsupported).
