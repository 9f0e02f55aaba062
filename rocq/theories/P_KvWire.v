(** C143-C145: the messages a client of the key-value API receives.  [ask_wire] and
    [transact_wire]: the message answering a range request, a transaction; [carries x m]:
    the message [m] has the key, value, lease, create and mod revision of [x]. *)
From Coq Require Import List ZArith Bool Lia Sorting.Sorted.
From Verif Require Import Bytes Spec Sql System Prog Backend Limited Api Pool Observe Etcd KvWire Demo SpecLemmas Sim ProgLemmas ApiLemmas StoreProofs KvWireProofs.
Import ListNotations.
Open Scope Z_scope.

(** C143.  A list message has one entry for each version in the snapshot, in order,
    carrying exactly it; *)
Theorem C143_list : forall cfg w lo hi rev, wreach w -> hi <> [] ->
  match ask_wire cfg w (range lo hi 0 rev) with
  | Ok m => wr_header m = revision (history_of (snd w)) /\
            exists L, is_snapshot (history_of (snd w)) (read_at rev (wr_header m)) lo hi L /\ Forall2 carries L (wr_kvs m)
  | Err e => e = ECompacted /\ rev <> 0 /\ rev < floor_of (snd w)
  end.
Proof. exact wire_list. Qed.
Print Assumptions C143_list.
(** a get message carries the version of the key, *)
Theorem C143_get : forall cfg w k rev, wreach w -> (rev = 0 \/ floor_of (snd w) <= rev) ->
  exists m, ask_wire cfg w (range k [] 0 rev) = Ok m /\ wr_header m = revision (history_of (snd w)) /\
  match kv_at (history_of (snd w)) (read_at rev (revision (history_of (snd w)))) k with
  | Some x => exists y, wr_kvs m = [y] /\ carries x y
  | None => wr_kvs m = []
  end.
Proof. exact wire_get. Qed.
Print Assumptions C143_get.
(** the answer to any range request is carried unchanged, whatever its options (so C08,
    C10 and C11 hold of the messages), *)
Theorem C143_request : forall cfg w r, match ask cfg w r, ask_wire cfg w r with
  | Ok a, Ok m => wr_header m = rr_header a /\ wr_more m = rr_more a /\ wr_count m = rr_count a /\ Forall2 carries (rr_kvs a) (wr_kvs m)
  | Err e, Err e' => e = e'
  | _, _ => False
  end.
Proof. exact wire_request. Qed.
Print Assumptions C143_request.
(** and a conditional write that is not performed brings the present version. *)
Theorem C143_failed : forall cfg w k v expect lease x, wreach w -> k <> compact_rev_key -> value_of cfg w k = Some x -> kv_mod x <> expect ->
  forall t, In t [update_txn k v expect lease; delete_txn k expect] ->
  after_txn cfg w t = w /\
  exists m r y, transact_wire cfg w t = Ok m /\ wt_succeeded m = false /\ wt_header m = 0 /\
    wt_responses m = [WRangeOp r] /\ wr_kvs r = [y] /\ carries x y.
Proof. exact wire_failed. Qed.
Print Assumptions C143_failed.
Example C143_nonvacuous : wreach demo /\ ka <> compact_rev_key /\ value_of cfg0 demo ka = Some (KV ka v2 0 1 4) /\
  ask_wire cfg0 demo (range ka [100%N] 0 6) =
    Ok (WRange 8 [Mvcc ka 1 4 0 v2 0; Mvcc kc 6 6 0 v3 0; Mvcc compact_rev_key 2 2 0 [] 0] false 3) /\
  transact_wire cfg0 demo (update_txn ka v1 3 0) = Ok (WTxn 0 false [WRangeOp (WRange 8 [Mvcc ka 1 4 0 v2 0] false 0)]).
Proof. split; [apply demo_reach|]. split; [discriminate|]. vm_compute. auto. Qed.

(** C169 (part of C144).  The header of every range answer is the current revision (C143_list,
    C143_get), and so is that of a conditional write that was performed; *)
Theorem C169_performed : forall cfg w k v expect lease, wreach w -> k <> compact_rev_key ->
  forall t m, In t [create_txn k v lease; update_txn k v expect lease; delete_txn k expect] ->
  transact_wire cfg w t = Ok m -> wt_succeeded m = true ->
  wt_header m = revision (history_of (snd (after_txn cfg w t))) /\ wt_header m = revision (history_of (snd w)) + 1.
Proof. exact succeeded_header. Qed.
Print Assumptions C169_performed.
(** the header of one that was not performed never is (on a store with any change): it
    is 0, always. *)
Theorem C144_failed_refuted : forall cfg w k v expect lease, wreach w -> k <> compact_rev_key ->
  forall t m, In t [create_txn k v lease; update_txn k v expect lease; delete_txn k expect] ->
  transact_wire cfg w t = Ok m -> wt_succeeded m = false -> wt_header m = 0.
Proof. exact failed_header. Qed.
Print Assumptions C144_failed_refuted.
Example C144_nonvacuous : wreach demo /\ revision (history_of (snd demo)) = 8 /\
  transact_wire cfg0 demo (create_txn ka v1 0) = Ok (WTxn 0 false []) /\
  transact_wire cfg0 demo (update_txn ka v1 4 0) = Ok (WTxn 9 true [WPut 9]) /\
  transact_wire cfg0 demo (delete_txn ka 4) = Ok (WTxn 9 true [WDelete 9 0]).
Proof. split; [apply demo_reach|]. vm_compute. auto. Qed.

(** C145.  etcd's Version of a live key (the number of puts since it was created) is at
    least 1; here it is 0 in every message. *)
Theorem C145_version_refuted : forall cfg w k x, wreach w -> value_of cfg w k = Some x ->
  1 <= version (history_of (snd w)) k /\
  exists m y, ask_wire cfg w (range k [] 0 0) = Ok m /\ wr_kvs m = [y] /\ carries x y /\ m_version y = 0.
Proof. exact wire_versions. Qed.
Print Assumptions C145_version_refuted.
(** A get of a live key counts 0 keys, *)
Theorem C145_get_count_refuted : forall cfg w k x rev, wreach w -> value_of cfg w k = Some x ->
  forall m, ask_wire cfg w (range k [] 0 rev) = Ok m -> wr_count m = 0.
Proof. exact get_counts_zero. Qed.
Print Assumptions C145_get_count_refuted.
(** and a delete that deleted the key reports that 0 keys were deleted. *)
Theorem C145_deleted_refuted : forall cfg w k x, wreach w -> k <> compact_rev_key -> value_of cfg w k = Some x ->
  exists m h, transact_wire cfg w (delete_txn k (kv_mod x)) = Ok m /\ wt_succeeded m = true /\ wt_responses m = [WDelete h 0].
Proof. exact delete_counts_zero. Qed.
Print Assumptions C145_deleted_refuted.
Example C145_nonvacuous : wreach demo /\ value_of cfg0 demo ka = Some (KV ka v2 0 1 4) /\ version (history_of (snd demo)) ka = 2 /\
  ask_wire cfg0 demo (range ka [] 0 0) = Ok (WRange 8 [Mvcc ka 1 4 0 v2 0] false 0) /\
  transact_wire cfg0 demo (delete_txn ka 4) = Ok (WTxn 9 true [WDelete 9 0]).
Proof. split; [apply demo_reach|]. vm_compute. auto. Qed.
