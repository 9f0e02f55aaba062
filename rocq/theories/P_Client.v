(** C51, C52, C59, C102, C103: the Go client, backup and restore. *)
From Coq Require Import List ZArith NArith Bool Lia.
From Verif Require Import Bytes Spec Sql System Prog Backend Limited Api Pool Observe Client Demo SpecLemmas Sim ProgLemmas ApiLemmas StoreProofs ClientProofs ClientMore.
Import ListNotations.
Open Scope Z_scope.

(** keys "/x" and "/y" *)
Definition kx : bytes := [47%N; 120%N].
Definition ky : bytes := [47%N; 121%N].
Definition src_ops : list aop := [ACreate kx v1 0; ACreate ky v2 30; AUpdate kx v3 1 0; ACreate ka v1 0].
Definition src : world := fold_left wapply src_ops init_world.
Lemma src_reach : wreach src.
Proof. apply (wsteps_reach init_world); [apply reach_init|]. apply wsteps_env, env_okb_ok. vm_compute. reflexivity. Qed.
Definition old_ops : list aop := [ACreate kx v1 0; ACreate ky v2 0].
Definition old_src : world := fold_left wapply old_ops init_world.
Lemma old_reach : wreach old_src.
Proof. apply (wsteps_reach init_world); [apply reach_init|]. apply wsteps_env, env_okb_ok. vm_compute. reflexivity. Qed.

(** C51: a backup always lists; restoring it into any store (undisturbed, into a
    directory without a leftover key file behind the last new one) reports success
    and gives every key under "/" the value it had in the source; keys that were not
    live in the source, and keys not under "/", are left alone. *)
Theorem C51_backup_lists : forall cfg ws, wreach ws -> exists L, snd (run (backup_list cfg) ws) = COk L.
Proof. exact (fun cfg ws H => match run_c_list cfg slash ws H with ex_intro _ L (conj E _) => ex_intro _ L (f_equal snd E) end). Qed.
Print Assumptions C51_backup_lists.

Theorem C159_roundtrip : forall cfg ws wt d L, wreach ws -> wreach wt ->
  snd (run (backup_list cfg) ws) = COk L -> read_file d (KeyFile (length L)) = None ->
  let out := run (restore cfg (backup_files (2 * length L) L d)) wt in
  snd out = true /\ wreach (fst out) /\
  forall k, (under_slash k ->
     option_map kv_value (value_of cfg (fst out) k) =
     match value_of cfg ws k with Some x => Some (kv_value x) | None => option_map kv_value (value_of cfg wt k) end) /\
    (~ under_slash k -> value_of cfg (fst out) k = value_of cfg wt k).
Proof. exact roundtrip_lemma. Qed.
Print Assumptions C159_roundtrip.

Example C51_nonvacuous :
  wreach src /\ snd (run (backup_list cfg0) src) = COk [KV kx v3 0 1 3; KV ky v2 30 2 2] /\
  value_of cfg0 (fst (run (restore cfg0 (backup_files 4 [KV kx v3 0 1 3; KV ky v2 30 2 2] [])) old_src)) kx = Some (KV kx v3 0 1 3).
Proof. split; [apply src_reach|]. vm_compute. split; reflexivity. Qed.

(** Files of an earlier, larger backup in the same directory come back to life:
    "/y" was deleted in the source, and is restored. *)
Theorem C51_stale_refuted : exists ws d L, wreach ws /\
  snd (run (backup_list cfg0) ws) = COk L /\
  value_of cfg0 ws ky = None /\
  (* [d]: the directory after the backup of an earlier state of the same store *)
  snd (run (backup_list cfg0) old_src) = COk [KV kx v1 0 1 1; KV ky v2 0 2 2] /\
  d = backup_files 4 [KV kx v1 0 1 1; KV ky v2 0 2 2] [] /\ wsteps old_src ws /\
  let out := run (restore cfg0 (backup_files (2 * length L) L d)) init_world in
  snd out = true /\ value_of cfg0 (fst out) ky = Some (KV ky v2 0 2 2).
Proof.
  exists (wapply old_src (ADelete ky 2)). eexists. eexists.
  assert (AL : allowed (snd old_src) (ADelete ky 2)) by discriminate.
  split; [apply wapply_reach; [apply old_reach|exact AL]|].
  split; [vm_compute; reflexivity|]. split; [vm_compute; reflexivity|]. split; [vm_compute; reflexivity|].
  split; [reflexivity|]. split; [apply (wsteps_one old_src old_src); [constructor|exact AL]|]. vm_compute. split; reflexivity.
Qed.
Print Assumptions C51_stale_refuted.

(** Keys that do not start with "/" are not saved; the lease of a key is lost. *)
Theorem C51_outside_refuted : exists L,
  snd (run (backup_list cfg0) src) = COk L /\ value_of cfg0 src ka = Some (KV ka v1 0 4 4) /\
  value_of cfg0 src ky = Some (KV ky v2 30 2 2) /\
  let out := run (restore cfg0 (backup_files (2 * length L) L [])) init_world in
  snd out = true /\ value_of cfg0 (fst out) ka = None /\ value_of cfg0 (fst out) ky = Some (KV ky v2 0 2 2).
Proof. eexists. split; [vm_compute; reflexivity|]. vm_compute. repeat split. Qed.
Print Assumptions C51_outside_refuted.

(** Restore reports success although nothing could be written. *)
Theorem C51_silent_refuted : exists sched,
  fair (restore cfg0 (backup_files 4 [KV kx v3 0 1 3; KV ky v2 30 2 2] [])) sched init_world /\
  exec (restore cfg0 (backup_files 4 [KV kx v3 0 1 3; KV ky v2 30 2 2] [])) sched init_world = (init_world, Some true).
Proof. exists [([], FailBefore EOther); ([], FailBefore EOther)]. vm_compute. auto. Qed.
Print Assumptions C51_silent_refuted.

(** A backup that stops midway over an older one mixes them: here "/x" is deleted
    from the source, the new backup starts with "/y" and stops after its first file,
    and the restore stores the old value of "/x" under "/y". *)
Theorem C51_crash_refuted : exists ops1 ops2 L1 L2,
  env_ok init_world (ops1 ++ ops2) /\
  let w1 := fold_left wapply ops1 init_world in
  let w2 := fold_left wapply ops2 w1 in
  snd (run (backup_list cfg0) w1) = COk L1 /\ snd (run (backup_list cfg0) w2) = COk L2 /\
  let out := run (restore cfg0 (backup_files 1 L2 (backup_files (2 * length L1) L1 []))) init_world in
  snd out = true /\ option_map kv_value (value_of cfg0 (fst out) ky) = Some v1 /\
  (* although "/y" never had that value *)
  Forall (fun e => e_key e = ky -> e_change e = Put v2 0) (history_of (snd w2)).
Proof.
  exists [ACreate kx v1 0], [ACreate ky v2 0; ADelete kx 1]. eexists. eexists.
  split; [apply env_okb_ok; vm_compute; reflexivity|]. cbv zeta.
  split; [vm_compute; reflexivity|]. split; [vm_compute; reflexivity|].
  split; [vm_compute; reflexivity|]. split; [vm_compute; reflexivity|].
  vm_compute. repeat constructor; discriminate.
Qed.
Print Assumptions C51_crash_refuted.

(** A backup cut short in the middle of an entry is reported by the restore (if the
    directory has no data file of an older backup there), *)
Theorem C159_torn : forall cfg L n d w, (n < length L)%nat -> read_file d (DataFile n) = None ->
  snd (run (restore cfg (backup_files (2 * n + 1) L d)) w) = false.
Proof. exact torn_reported. Qed.
Print Assumptions C159_torn.
(** one cut short between two entries is not: it is the complete backup of a store
    with fewer keys. *)
Theorem C51_cut_refuted : forall cfg L n w, (n <= length L)%nat ->
  backup_files (2 * n) L [] = backup_files (2 * n) (firstn n L) [] /\
  snd (run (restore cfg (backup_files (2 * n) L [])) w) = true.
Proof. exact cut_unnoticed. Qed.
Print Assumptions C51_cut_refuted.
Example C51_cut_nonvacuous :
  snd (run (restore cfg0 (backup_files 3 [KV kx v3 0 1 3; KV ky v2 30 2 2] [])) old_src) = false /\
  value_of cfg0 (fst (run (restore cfg0 (backup_files 2 [KV kx v3 0 1 3; KV ky v2 30 2 2] [])) init_world)) ky = None.
Proof. vm_compute. split; reflexivity. Qed.

(** C102: if a put reports success, the value was written during the call, whatever
    other processes and faults did. *)
Theorem C102_written : forall cfg k v w sched w', wreach w -> k <> compact_rev_key ->
  fair (c_put cfg k v) sched w -> exec (c_put cfg k v) sched w = (w', Some (COk tt)) ->
  exists r x, revision (history_of (snd w)) < r <= revision (history_of (snd w')) /\
    kv_at (history_of (snd w')) r k = Some x /\ kv_value x = v /\ kv_mod x = r.
Proof. exact put_lemma. Qed.
Print Assumptions C102_written.
Example C102_nonvacuous : let sched := [([], NoFault); ([], NoFault); ([ACreate kb v1 0], NoFault)] in
  wreach src /\ kx <> compact_rev_key /\ fair (c_put cfg0 kx v2) sched src /\
  exists w', exec (c_put cfg0 kx v2) sched src = (w', Some (COk tt)) /\ now (history_of (snd w')) kx = Some (KV kx v2 0 1 6).
Proof.
  cbv zeta. split; [apply src_reach|]. split; [discriminate|]. split; [vm_compute; intuition discriminate|]. eexists. split; vm_compute; reflexivity.
Qed.

(** C160 (part of C52).  Undisturbed, a put on a live key succeeds and changes only that key. *)
Theorem C160_present : forall cfg k v w x, wreach w -> k <> compact_rev_key ->
  value_of cfg w k = Some x ->
  exists w', run (c_put cfg k v) w = (w', COk tt) /\ current cfg w' = current cfg w + 1 /\
    value_of cfg w' k = Some (KV k v 0 (kv_create x) (current cfg w')) /\
    (forall k', k' <> k -> value_of cfg w' k' = value_of cfg w k').
Proof. exact put_present. Qed.
Print Assumptions C160_present.

(** On an absent key it fails with "not found" and stores nothing: for every key and
    every store, so the creating branch of Put is dead code. *)
Theorem C52_absent_refuted : forall cfg k v w, wreach w -> k <> compact_rev_key ->
  value_of cfg w k = None -> run (c_put cfg k v) w = (w, CFail XNotFound).
Proof. exact put_absent. Qed.
Print Assumptions C52_absent_refuted.

Example C52_nonvacuous :
  wreach src /\ value_of cfg0 src kx = Some (KV kx v3 0 1 3) /\
  snd (run (c_put cfg0 kx v2) src) = COk tt /\
  value_of cfg0 src kb = None /\ run (c_put cfg0 kb v2) src = (src, CFail XNotFound) /\
  (* a concurrent writer between the get and the update *)
  snd (exec (c_put cfg0 kx v2) [([], NoFault); ([], NoFault); ([AUpdate kx v1 3 0], NoFault); ([], NoFault); ([], NoFault)] src)
    = Some (CFail XMismatch).
Proof. split; [apply src_reach|]. vm_compute. repeat split. Qed.

(** C103 (and C59): the prefix range of the Go client selects exactly the keys with that prefix,
    and a client list returns exactly the live ones, sorted. *)
Theorem C103_prefix_range : forall p k, forallb (N.eqb 255) p = false ->
  Forall (fun b => (b <= 255)%N) p -> Forall (fun b => (b <= 255)%N) k ->
  (in_range p (prefix_end p) k <-> exists r, k = p ++ r).
Proof. exact prefix_range. Qed.
Print Assumptions C103_prefix_range.
Theorem C103_list : forall cfg p rev w, wreach w -> p <> [] ->
  exists r, run (c_list cfg p rev) w = (w, r) /\
  match r with
  | COk L => is_snapshot (history_of (snd w)) (read_at rev (revision (history_of (snd w)))) p (prefix_end p) L
  | CFail e => e = XServer ECompacted /\ rev <> 0 /\ rev < floor_of (snd w)
  end.
Proof. exact client_list. Qed.
Print Assumptions C103_list.
Example C103_nonvacuous : forallb (N.eqb 255) [47%N; 255%N] = false /\ Forall (fun b => (b <= 255)%N) [47%N; 255%N] /\ prefix_end [47%N; 255%N] = [48%N] /\
  snd (run (c_list cfg0 slash 0) src) = COk [KV kx v3 0 1 3; KV ky v2 30 2 2].
Proof. split; [reflexivity|]. split; [repeat constructor; discriminate|]. split; vm_compute; reflexivity. Qed.
(** A prefix of 0xff bytes only (and the empty prefix) means "to the end" in etcd, but
    lists nothing here. *)
Theorem C59_whole_range_refuted : exists w, wreach w /\
  value_of cfg0 w kx <> None /\ snd (run (c_list cfg0 [] 0) w) = COk [].
Proof. exists src. split; [apply src_reach|]. vm_compute. split; [discriminate|reflexivity]. Qed.
Print Assumptions C59_whole_range_refuted.
Example C59_nonvacuous :
  prefix_end slash = [48%N] /\ prefix_end [47%N; 255%N] = [48%N] /\
  in_range slash (prefix_end slash) kx /\ snd (run (c_list cfg0 slash 0) src) = COk [KV kx v3 0 1 3; KV ky v2 30 2 2] /\
  snd (run (c_list cfg0 slash 2) src) = COk [KV kx v1 0 1 1; KV ky v2 30 2 2].
Proof. vm_compute. repeat split; discriminate. Qed.

(** C77: the single operations of the client.  Undisturbed, each succeeds exactly if its
    condition holds, with exactly its effect, and otherwise reports the conflict and
    changes nothing. *)
Theorem C77_get : forall cfg k w, wreach w ->
  run (c_get cfg k) w = (w, match value_of cfg w k with Some x => COk x | None => CFail XNotFound end).
Proof. exact client_get. Qed.
Print Assumptions C77_get.
Theorem C77_create : forall cfg k v w, wreach w -> k <> compact_rev_key ->
  match value_of cfg w k with
  | None => exists w', run (c_create cfg k v) w = (w', COk tt) /\ current cfg w' = current cfg w + 1 /\
      value_of cfg w' k = Some (KV k v 0 (current cfg w') (current cfg w')) /\ (forall k', k' <> k -> value_of cfg w' k' = value_of cfg w k')
  | Some _ => run (c_create cfg k v) w = (w, CFail XExists)
  end.
Proof. exact client_create. Qed.
Print Assumptions C77_create.
Theorem C77_update : forall cfg k v e w, wreach w -> k <> compact_rev_key -> e <> 0 ->
  match value_of cfg w k with
  | Some x => if kv_mod x =? e then exists w', run (c_update cfg k v e) w = (w', COk tt) /\ current cfg w' = current cfg w + 1 /\
      value_of cfg w' k = Some (KV k v 0 (kv_create x) (current cfg w')) /\ (forall k', k' <> k -> value_of cfg w' k' = value_of cfg w k')
    else run (c_update cfg k v e) w = (w, CFail XMismatch)
  | None => run (c_update cfg k v e) w = (w, CFail XMismatch)
  end.
Proof. exact client_update. Qed.
Print Assumptions C77_update.
Theorem C77_delete : forall cfg k e w, wreach w -> k <> compact_rev_key ->
  match value_of cfg w k with
  | Some x => if kv_mod x =? e then exists w', run (c_delete cfg k e) w = (w', COk tt) /\ current cfg w' = current cfg w + 1 /\
      value_of cfg w' k = None /\ (forall k', k' <> k -> value_of cfg w' k' = value_of cfg w k')
    else run (c_delete cfg k e) w = (w, CFail XMismatch)
  | None => run (c_delete cfg k e) w = (w, CFail XMismatch)
  end.
Proof. exact client_delete. Qed.
Print Assumptions C77_delete.
(** Under any interference and faults, success means the value was stored during the
    call. *)
Theorem C77_stored : forall cfg k v e w sched w', wreach w -> k <> compact_rev_key -> e <> 0 ->
  (fair (c_create cfg k v) sched w /\ exec (c_create cfg k v) sched w = (w', Some (COk tt))) \/
  (fair (c_update cfg k v e) sched w /\ exec (c_update cfg k v e) sched w = (w', Some (COk tt))) ->
  exists r x, revision (history_of (snd w)) < r <= revision (history_of (snd w')) /\
    kv_at (history_of (snd w')) r k = Some x /\ kv_value x = v /\ kv_mod x = r.
Proof.
  intros cfg k v e w sched w' HW HK HE [[F E]|[F E]]; [exact (create_wrote cfg k v w sched w' HW HK F E)|exact (update_wrote cfg k v e w sched w' HW HK HE F E)].
Qed.
Print Assumptions C77_stored.
Example C77_nonvacuous : wreach src /\ value_of cfg0 src kx = Some (KV kx v3 0 1 3) /\ value_of cfg0 src kb = None /\
  snd (run (c_create cfg0 kb v1) src) = COk tt /\ snd (run (c_update cfg0 kx v1 3) src) = COk tt /\
  snd (run (c_update cfg0 kx v1 1) src) = CFail XMismatch /\ snd (run (c_delete cfg0 kx 3) src) = COk tt /\
  snd (exec (c_update cfg0 kx v2 3) [([], FailBefore EBusy); ([ACreate kb v1 0], NoFault)] src) = Some (COk tt).
Proof. split; [apply src_reach|]. vm_compute. repeat split. Qed.
