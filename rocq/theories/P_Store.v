(** C01-C05: the store as one linear multi-version history. *)
From Coq Require Import List ZArith Bool.
From Verif Require Import Bytes Spec Sql System Prog Backend Limited Api Pool Observe Demo SpecLemmas Sim ProgLemmas ApiLemmas StoreProofs.
Import ListNotations.
Open Scope Z_scope.

(** C01: every sequence of API requests and compaction runs, started on an empty
    database, gets exactly the answers of an append-only history with a floor. *)
Theorem C01_linear_history : forall cfg reqs,
  Forall (api_ok compact_rev_key) reqs ->
  Z.of_nat (length reqs) <= int64_max ->
  exists s, api_answers compact_rev_key empty_store reqs (snd (run_api cfg reqs init_world)) s.
Proof. exact (fun cfg reqs H L => ex_intro _ _ (proj2 (run_api_ok cfg reqs init_world reach_init H L))). Qed.
Print Assumptions C01_linear_history.

(** The same for single atomic operations, from every reachable state: results
    agree with the history, and the new table again represents it. *)
Theorem C01_atomic_operations : forall w a, wreach w -> allowed (snd w) a ->
  wreach (wapply w a) /\ snd (apply (fst w) a) = snd (spec_apply (snd w) a).
Proof.
  exact (fun w a HW HA => conj (wapply_reach w a HW HA) (proj2 (R_step _ _ a (reach_R _ _ HW) HA))).
Qed.
Print Assumptions C01_atomic_operations.

Example C01_nonvacuous :
  Forall (api_ok compact_rev_key)
    [ApiCreate ka v1 0; ApiUpdate ka v2 1 0; ApiCompaction; ApiDelete ka 2; ApiRange (range ka kc 10 0)] /\
  snd (run_api cfg0 [ApiCreate ka v1 0; ApiUpdate ka v2 1 0; ApiUpdate ka v2 1 0; ApiCompaction; ApiRange (range ka kc 10 1)] init_world) =
   [RTxn (Ok (TxnResp 1 true [RespPut 1]));
    RTxn (Ok (TxnResp 2 true [RespPut 2]));
    RTxn (Ok (TxnResp 0 false [RespRange (RangeResp 2 [KV ka v2 0 1 2] false 0)]));
    RCompaction (Ok tt);
    RRange (Ok (RangeResp 3 [KV ka v1 0 1 1] false 1))].
Proof.
  split; [|vm_compute; reflexivity].
  repeat constructor; simpl; try discriminate; unfold int64, int64_max; Lia.lia.
Qed.

(** C02: create succeeds exactly when a get finds no live value. *)
Theorem C02_create : forall cfg w k v lease, wreach w -> k <> compact_rev_key ->
  let w' := after_txn cfg w (create_txn k v lease) in
  let resp := transact cfg w (create_txn k v lease) in
  let r := current cfg w + 1 in
  match value_of cfg w k with
  | None => resp = Ok (TxnResp r true [RespPut r]) /\ current cfg w' = r /\
            value_of cfg w' k = Some (KV k v lease r r) /\
            (forall k', k' <> k -> value_of cfg w' k' = value_of cfg w k')
  | Some _ => resp = Ok (TxnResp 0 false []) /\ w' = w
  end.
Proof. exact create_lemma. Qed.
Print Assumptions C02_create.

(** A get finds a live value iff the last change of the key was a put, whether or
    not the tombstone (or anything else) was compacted away. *)
Theorem C02_liveness : forall cfg w k, wreach w ->
  value_of cfg w k = now (history_of (snd w)) k /\ current cfg w = revision (history_of (snd w)).
Proof. exact (fun cfg w k HW => conj (value_of_now cfg w k HW) (current_rev cfg w HW)). Qed.
Print Assumptions C02_liveness.

Example C02_nonvacuous :
  wreach demo /\
  (* "b" was deleted, its tombstone compacted, then created again *)
  value_of cfg0 (fold_left wapply (firstn 7 demo_ops) init_world) kb = None /\
  transact cfg0 (fold_left wapply (firstn 7 demo_ops) init_world) (create_txn kb v3 30) =
    Ok (TxnResp 7 true [RespPut 7]) /\
  value_of cfg0 demo kb = Some (KV kb v3 30 7 7).
Proof. split; [apply demo_reach|]. vm_compute. auto. Qed.

(** C03: update is compare-and-swap on the mod revision (expecting 0 = expecting
    the key to be absent). *)
Theorem C03_update : forall cfg w k v expect lease, wreach w -> k <> compact_rev_key ->
  let w' := after_txn cfg w (update_txn k v expect lease) in
  let resp := transact cfg w (update_txn k v expect lease) in
  let r := current cfg w + 1 in
  match value_of cfg w k with
  | Some x =>
      if kv_mod x =? expect then
        resp = Ok (TxnResp r true [RespPut r]) /\ current cfg w' = r /\
        value_of cfg w' k = Some (KV k v lease (kv_create x) r) /\
        (forall k', k' <> k -> value_of cfg w' k' = value_of cfg w k')
      else (exists h, resp = Ok (TxnResp 0 false [RespRange (RangeResp h [x] false 0)])) /\ w' = w
  | None =>
      if expect =? 0 then
        resp = Ok (TxnResp r true [RespPut r]) /\ current cfg w' = r /\
        value_of cfg w' k = Some (KV k v lease r r) /\
        (forall k', k' <> k -> value_of cfg w' k' = value_of cfg w k')
      else (exists h, resp = Ok (TxnResp 0 false [RespRange (RangeResp h [] false 0)])) /\ w' = w
  end.
Proof. exact update_lemma. Qed.
Print Assumptions C03_update.

Example C03_nonvacuous :
  value_of cfg0 demo ka = Some (KV ka v2 0 1 4) /\
  transact cfg0 demo (update_txn ka v3 4 9) = Ok (TxnResp 9 true [RespPut 9]) /\
  transact cfg0 demo (update_txn ka v3 1 9) =
    Ok (TxnResp 0 false [RespRange (RangeResp 8 [KV ka v2 0 1 4] false 0)]).
Proof. vm_compute. auto. Qed.

(** C04: delete is compare-and-delete on the mod revision. *)
Theorem C04_delete : forall cfg w k expect, wreach w -> k <> compact_rev_key ->
  let w' := after_txn cfg w (delete_txn k expect) in
  let resp := transact cfg w (delete_txn k expect) in
  let r := current cfg w + 1 in
  match value_of cfg w k with
  | Some x =>
      if kv_mod x =? expect then
        resp = Ok (TxnResp r true [RespDelete r]) /\ current cfg w' = r /\
        value_of cfg w' k = None /\
        (forall k', k' <> k -> value_of cfg w' k' = value_of cfg w k')
      else (exists h, resp = Ok (TxnResp 0 false [RespRange (RangeResp h [x] false 0)])) /\ w' = w
  | None => (exists h, resp = Ok (TxnResp 0 false [RespRange (RangeResp h [] false 0)])) /\ w' = w
  end.
Proof. exact delete_lemma. Qed.
Print Assumptions C04_delete.

Example C04_nonvacuous :
  transact cfg0 demo (delete_txn ka 4) = Ok (TxnResp 9 true [RespDelete 9]) /\
  value_of cfg0 (after_txn cfg0 demo (delete_txn ka 4)) ka = None /\
  transact cfg0 demo (delete_txn ka 1) =
    Ok (TxnResp 0 false [RespRange (RangeResp 8 [KV ka v2 0 1 4] false 0)]).
Proof. vm_compute. auto. Qed.

(** C05: in every sequence of operations of any processes, the revisions handed
    out are 1, 2, 3, ... without gap or repetition, and the current revision
    shown by reads is their number. *)
Theorem C05_revisions : forall cfg ops, env_ok init_world ops ->
  let n := current cfg (fold_left wapply ops init_world) in
  map snd (filter performed (results ops empty_db)) = upto n.
Proof. exact revisions_lemma. Qed.
Print Assumptions C05_revisions.

(** The current revision never decreases, whatever happens in between. *)
Theorem C05_monotone : forall cfg w w', wreach w -> wsteps w w' -> current cfg w <= current cfg w'.
Proof. exact current_monotone. Qed.
Print Assumptions C05_monotone.

Example C05_nonvacuous : env_ok init_world demo_ops /\
  map snd (filter performed (results demo_ops empty_db)) = [1;2;3;4;5;6;7;8] /\ current cfg0 demo = 8.
Proof. split; [apply demo_ok|]. vm_compute. auto. Qed.
