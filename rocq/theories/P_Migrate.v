(** C141, C142: moving the contents between an etcd server and k8s-dqlite.  The contents
    of the etcd server are those of its history [h] ([now h k]: the version of key [k]).
    Uninterrupted, with no leftover key file behind the last new one. *)
From Coq Require Import List ZArith NArith Bool Lia Sorting.Sorted.
From Verif Require Import Bytes Spec Sql System Prog Backend Limited Api Pool Observe Client Migrate Demo SpecLemmas Sim ProgLemmas ApiLemmas StoreProofs ClientProofs MigrateProofs P_Client.
Import ListNotations.
Open Scope Z_scope.

(** What the backup reads from etcd: every live key once, in descending order. *)
Theorem C141_listing : forall h,
  StronglySorted (fun a b => blt (kv_key b) (kv_key a)) (etcd_all h) /\
  forall x, In x (etcd_all h) <-> now h (kv_key x) = Some x.
Proof. exact etcd_all_spec. Qed.
Print Assumptions C141_listing.
(** etcd -> k8s-dqlite: success is reported, every key of etcd has the value it has
    there, all other keys are as before. *)
Theorem C141_migrated : forall cfg h d w, wreach w -> now h compact_rev_key = None ->
  read_file d (KeyFile (length (etcd_all h))) = None ->
  let out := run (restore cfg (backup_etcd h d)) w in
  snd out = true /\ wreach (fst out) /\
  forall k, match now h k with
            | Some x => option_map kv_value (value_of cfg (fst out) k) = Some (kv_value x)
            | None => value_of cfg (fst out) k = value_of cfg w k
            end.
Proof. exact to_dqlite. Qed.
Print Assumptions C141_migrated.
Definition eh : history := [Entry kx (Put v1 0); Entry ka (Put v2 7); Entry kb (Put v3 0); Entry kx (Put v3 0); Entry kb Del].
Example C141_nonvacuous : wreach old_src /\ now eh compact_rev_key = None /\
  etcd_all eh = [KV ka v2 7 2 2; KV kx v3 0 1 4] /\
  snd (run (restore cfg0 (backup_etcd eh [])) old_src) = true /\
  let w := fst (run (restore cfg0 (backup_etcd eh [])) old_src) in
  value_of cfg0 w kx = Some (KV kx v3 0 1 4) /\ value_of cfg0 w ka = Some (KV ka v2 0 3 3) /\
  value_of cfg0 w kb = None /\ value_of cfg0 w ky = Some (KV ky v2 0 2 2).
Proof. split; [apply old_reach|]. vm_compute. repeat split. Qed.

(** k8s-dqlite -> etcd: success is reported, every key under "/" has the value it has in
    k8s-dqlite, all other keys of etcd are as before. *)
Theorem C142_migrated : forall cfg w d L h, wreach w -> snd (run (backup_list cfg) w) = COk L ->
  read_file d (KeyFile (length L)) = None ->
  let out := restore_etcd [] (backup_files (2 * length L) L d) h in
  snd out = true /\
  forall k, (under_slash k ->
      match value_of cfg w k with
      | Some x => option_map kv_value (now (fst out) k) = Some (kv_value x)
      | None => now (fst out) k = now h k
      end) /\
    (~ under_slash k -> now (fst out) k = now h k).
Proof. exact to_etcd. Qed.
Print Assumptions C142_migrated.
(** To an empty etcd and back into any store: the keys under "/" arrive, the rest of
    the store is untouched. *)
Theorem C142_there_and_back : forall cfg w L w', wreach w -> wreach w' -> snd (run (backup_list cfg) w) = COk L ->
  let h := fst (restore_etcd [] (backup_files (2 * length L) L []) []) in
  let out := run (restore cfg (backup_etcd h [])) w' in
  snd out = true /\
  forall k, (under_slash k ->
      match value_of cfg w k with
      | Some x => option_map kv_value (value_of cfg (fst out) k) = Some (kv_value x)
      | None => value_of cfg (fst out) k = value_of cfg w' k
      end) /\
    (~ under_slash k -> value_of cfg (fst out) k = value_of cfg w' k).
Proof. exact there_and_back. Qed.
Print Assumptions C142_there_and_back.
Example C142_nonvacuous : wreach src /\ snd (run (backup_list cfg0) src) = COk [KV kx v3 0 1 3; KV ky v2 30 2 2] /\
  let h := fst (restore_etcd [] (backup_files 4 [KV kx v3 0 1 3; KV ky v2 30 2 2] []) eh) in
  now h kx = Some (KV kx v3 0 1 6) /\ now h ky = Some (KV ky v2 0 7 7) /\ now h ka = Some (KV ka v2 7 2 2).
Proof. split; [apply src_reach|]. vm_compute. repeat split. Qed.

(** C177.  Puts into etcd may fail ([fails]: which ones).  Exactly the keys of the failing
    puts keep the state they had in etcd; every other key of the listing arrives, keys that
    are not in the listing are untouched. *)
Theorem C177_isolated : forall cfg w d L h fails, wreach w -> snd (run (backup_list cfg) w) = COk L -> read_file d (KeyFile (length L)) = None ->
  let out := restore_etcd fails (backup_files (2 * length L) L d) h in
  snd out = true /\
  (forall k, (forall x, In x L -> kv_key x <> k) -> now (fst out) k = now h k) /\
  forall n x, nth_error L n = Some x ->
    if nth n fails false then now (fst out) (kv_key x) = now h (kv_key x) else option_map kv_value (now (fst out) (kv_key x)) = Some (kv_value x).
Proof. exact to_etcd_each. Qed.
Print Assumptions C177_isolated.
(** Refuted: that a migration which lost a key says so.  The first put fails, success is
    reported, the key is missing. *)
Theorem C178_silent_refuted : ~ (forall cfg w L fails, wreach w -> snd (run (backup_list cfg) w) = COk L ->
  let out := restore_etcd fails (backup_files (2 * length L) L []) [] in
  snd out = true -> forall x, In x L -> now (fst out) (kv_key x) <> None).
Proof.
  intros H. destruct C142_nonvacuous as (A & B & _). apply (H cfg0 src _ [true] A B eq_refl (KV kx v3 0 1 3)); [left; reflexivity|vm_compute; reflexivity].
Qed.
Print Assumptions C178_silent_refuted.
Example C177_nonvacuous : wreach src /\ snd (run (backup_list cfg0) src) = COk [KV kx v3 0 1 3; KV ky v2 30 2 2] /\
  let h := fst (restore_etcd [true; false] (backup_files 4 [KV kx v3 0 1 3; KV ky v2 30 2 2] []) eh) in
  now h kx = Some (KV kx v3 0 1 4) /\ now h ky = Some (KV ky v2 0 6 6).
Proof. split; [apply src_reach|]. vm_compute. repeat split. Qed.
