(** Specification of the client API in terms of the history (Spec.v): requests
    as Kubernetes sends them, and the answers they must get.
    No SQL and no program of the model appears here. *)
From Coq Require Import List ZArith Bool Sorting.Sorted.
From Verif Require Import Bytes Spec Prog Limited.
Import ListNotations.
Open Scope Z_scope.

(** ---- requests (the shapes the API server sends, cf. pkg/limited/limited.go:31-61) ---- *)
Definition create_txn (k v : bytes) (lease : Z) : txn_req :=
  TxnReq [Compare TMod CEqual (UMod 0) k []]
         [OpPut (PutReq k v lease false false false)] [].
(** The transaction recognised by update.go:11-26. *)
Definition update_txn (k v : bytes) (expect lease : Z) : txn_req :=
  TxnReq [Compare TMod CEqual (UMod expect) k []]
         [OpPut (PutReq k v lease false false false)] [OpRange (range k [] 0 0)].
(** The transaction recognised by delete.go:11-22. *)
Definition delete_txn (k : bytes) (expect : Z) : txn_req :=
  TxnReq [Compare TMod CEqual (UMod expect) k []]
         [OpDelete (DelReq k [] false)] [OpRange (range k [] 0 0)].
(** The request of pkg/limited/list.go:12-84 (CountOnly). *)
Definition count_req (lo hi : bytes) (rev : Z) : range_req :=
  RangeReq lo hi 0 rev 0 0 false false true 0 0 0 0.

(** int64 values *)
Definition int64_max : Z := 9223372036854775807.
(** Values of Go type int64. *)
Definition int64 (z : Z) : Prop := - int64_max - 1 <= z <= int64_max.

(** ---- reads ---- *)
(** Revision 0, and any revision beyond the current one, mean the current one. *)
Definition read_at (rev current : Z) : Z :=
  if (rev =? 0) || (current <? rev) then current else rev.

(** Requests within the supported subset. *)
Definition supported_range (r : range_req) : Prop :=
  r_keys_only r = false /\ r_max_create r = 0 /\ r_sort_order r = 0 /\ r_sort_target r = 0 /\
  r_serializable r = false /\ r_min_mod r = 0 /\ r_min_create r = 0 /\ r_max_mod r = 0.

(** The first [limit] elements; a limit that is not positive means no limit. *)
Definition page {A} (limit : Z) (l : list A) : list A :=
  if 0 <? limit then firstn (Z.to_nat limit) l else l.

(** Content of the key range of a request: a single key if range_end is empty. *)
Definition content (h : history) (n : Z) (key re : bytes) (L : list kv) : Prop :=
  match re with
  | [] => L = match kv_at h n key with Some x => [x] | None => [] end
  | _ => is_snapshot h n key re L
  end.

(** The answer of a range request in store [s]. *)
Definition range_answer (s : store) (r : range_req) (resp : result range_resp) : Prop :=
  let current := revision (history_of s) in
  let rev := r_revision r in
  if negb (rev =? 0) && (rev <? floor_of s) then resp = Err ECompacted
  else exists L, content (history_of s) (read_at rev current) (r_key r) (r_range_end r) L /\
    match r_range_end r with
    | [] => resp = Ok (RangeResp current L false 0)
    | _ => if r_count_only r
           then resp = Ok (RangeResp current [] false (Z.of_nat (length L)))
           else resp = Ok (RangeResp current (page (r_limit r) L)
                            ((0 <? r_limit r) && (r_limit r <? Z.of_nat (length L)))
                            (Z.of_nat (length L)))
    end.

(** ---- writes ---- *)
Definition current_of (s : store) (k : bytes) : list kv :=
  match now (history_of s) k with Some x => [x] | None => [] end.
(** Answer of a failed update or delete: the present version of the key. *)
Definition conflict (s : store) (k : bytes) : txn_resp :=
  TxnResp 0 false [RespRange (RangeResp (revision (history_of s)) (current_of s k) false 0)].

(** Specification vocabulary (not code): answer of a create (create.go:24-72). *)
Definition create_answer (s : store) (k v : bytes) (lease : Z) : store * txn_resp :=
  match spec_create s k v lease with
  | (s', Some r) => (s', TxnResp r true [RespPut r])
  | (_, None) => (s, TxnResp 0 false [])
  end.
(** An update that expects revision 0 expects the key to be absent. *)
Definition update_answer (s : store) (k v : bytes) (expect lease : Z) : store * txn_resp :=
  match (if expect =? 0 then spec_create s k v lease else spec_update s k v expect lease) with
  | (s', Some r) => (s', TxnResp r true [RespPut r])
  | (_, None) => (s, conflict s k)
  end.
(** Specification vocabulary (not code): answer of a delete (delete.go:24-76). *)
Definition delete_answer (s : store) (k : bytes) (expect : Z) : store * txn_resp :=
  match spec_delete s k expect with
  | (s', Some r) => (s', TxnResp r true [RespDelete r])
  | (_, None) => (s, conflict s k)
  end.

(** ---- compaction ---- *)
(** A compaction run on a non-empty store first makes sure the bookkeeping key
    [ck] exists, then raises the floor to 100 below the current revision. *)
Definition compaction (ck : bytes) (s : store) : store :=
  let s' := fst (spec_create s ck [] 0) in
  spec_compact s' (revision (history_of s') - 100).

(** ---- sequences of requests ---- *)
Inductive api :=
| ApiCreate (k v : bytes) (lease : Z)
| ApiUpdate (k v : bytes) (expect lease : Z)
| ApiDelete (k : bytes) (expect : Z)
| ApiRange (r : range_req)
| ApiCompaction.
(** Responses to the requests of [api] (pkg/limited/server.go:36-135). *)
Inductive api_resp :=
| RTxn (r : result txn_resp) | RRange (r : result range_resp) | RCompaction (r : result unit).

(** One request in store [s]: new store and response. *)
Definition api_answer (ck : bytes) (s : store) (a : api) (s' : store) (r : api_resp) : Prop :=
  match a with
  | ApiCreate k v l => s' = fst (create_answer s k v l) /\ r = RTxn (Ok (snd (create_answer s k v l)))
  | ApiUpdate k v e l => s' = fst (update_answer s k v e l) /\ r = RTxn (Ok (snd (update_answer s k v e l)))
  | ApiDelete k e => s' = fst (delete_answer s k e) /\ r = RTxn (Ok (snd (delete_answer s k e)))
  | ApiRange q => s' = s /\ exists x, r = RRange x /\ range_answer s q x
  | ApiCompaction =>
      if revision (history_of s) =? 0 then s' = s /\ r = RCompaction (Err ENull)
      else s' = compaction ck s /\ r = RCompaction (Ok tt)
  end.

(** Specification vocabulary (not code): a sequence of requests answered one after the other. *)
Inductive api_answers (ck : bytes) : store -> list api -> list api_resp -> store -> Prop :=
| answers_nil s : api_answers ck s [] [] s
| answers_cons s a s' r rest rs s'' :
    api_answer ck s a s' r -> api_answers ck s' rest rs s'' ->
    api_answers ck s (a :: rest) (r :: rs) s''.

(** Requests within the contract: supported range requests, 64-bit limits, and
    the bookkeeping key left alone. *)
Definition api_ok (ck : bytes) (a : api) : Prop :=
  match a with
  | ApiCreate k _ _ | ApiUpdate k _ _ _ | ApiDelete k _ => k <> ck
  | ApiRange r => supported_range r /\ int64 (r_limit r)
  | ApiCompaction => True
  end.
