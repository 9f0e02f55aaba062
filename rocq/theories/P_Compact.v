(** C14-C16, C22, C23, C55, C56, C78, C109, C110: compaction. *)
From Coq Require Import List ZArith Bool Lia Sorting.Sorted.
From Verif Require Import Bytes Spec Sql System Prog Backend Limited Api Pool Observe Demo SpecLemmas SqlLemmas Sim ProgLemmas ReadProgs Safety ApiLemmas StoreProofs ReadProofs ReadWitness CompactProofs CompactWitness RepairProofs.
Import ListNotations.
Open Scope Z_scope.

(** C14: a compaction run makes unreadable exactly the revisions more than 100
    behind the current one (and those that already were). *)
Theorem C14_run : forall cfg w, wreach w -> current cfg w <> 0 ->
  let w' := after_compaction cfg w in
  (forall r, supported_range r -> bounded w' r ->
    (ask cfg w' r = Err ECompacted <->
     ask cfg w r = Err ECompacted \/ r_revision r <> 0 /\ r_revision r < current cfg w' - 100)) /\
  current cfg w <= current cfg w' <= current cfg w + 1.
Proof. exact compaction_visible. Qed.
Print Assumptions C14_run.

(** The run completes, raises the floor to exactly max(old, current - 100), and
    at most adds the bookkeeping key to the history. *)
Theorem C14_floor : forall cfg w, wreach w -> revision (history_of (snd w)) <> 0 ->
  let w' := after_compaction cfg w in
  snd (run (b_do_compact cfg) w) = Ok tt /\ wreach w' /\
  floor_of (snd w') = Z.max (floor_of (snd w)) (revision (history_of (snd w')) - 100) /\
  (history_of (snd w') = history_of (snd w) \/
   now (history_of (snd w)) compact_rev_key = None /\
   history_of (snd w') = history_of (snd w) ++ [Entry compact_rev_key (Put [] 0)]).
Proof. exact compaction_run. Qed.
Print Assumptions C14_floor.

(** Whatever runs concurrently, with any faults and crashes, revisions no more
    than 100 behind are readable, and their change is still stored. *)
Theorem C14_margin : forall cfg w ts r, pool_reach cfg (w, ts) -> supported_range r -> bounded w r ->
  r_revision r = 0 \/ current cfg w - 100 <= r_revision r /\ 0 < r_revision r ->
  exists a, ask cfg w r = Ok a.
Proof. exact pool_margin. Qed.
Print Assumptions C14_margin.
Theorem C14_margin_rows : forall cfg w ts n, pool_reach cfg (w, ts) ->
  current cfg w - 100 < n <= current cfg w -> 0 < n -> exists x, In x (rows (fst w)) /\ id x = n.
Proof. exact pool_rows. Qed.
Print Assumptions C14_margin_rows.

(** Batches: at most 1000 revisions per transaction, under any interference and
    faults, on sqlite.  On dqlite this fails when the node becomes the leader
    between two batches (refuted below). *)
Theorem C109_sqlite : forall cfg w sched, wreach w -> cfg_dqlite cfg = false ->
  fair (b_do_compact cfg) sched w -> Forall small_batch (calls (b_do_compact cfg) sched w).
Proof. exact batches. Qed.
Print Assumptions C109_sqlite.
Example C109_nonvacuous : wreach long_world /\ cfg_dqlite cfg0 = false /\ fair (b_do_compact cfg0) (repeat ([], NoFault) 30) long_world /\
  length (calls (b_do_compact cfg0) (repeat ([], NoFault) 30) long_world) = 7%nat.
Proof. split; [apply long_reach|]. split; [reflexivity|]. split; [apply fair_quiet, Forall_forall; intros x H; apply repeat_spec in H; now subst x|vm_compute; reflexivity]. Qed.
Theorem C78_batches_refuted : exists w sched,
  wreach w /\ fair (b_do_compact (DriverCfg true true)) sched w /\
  In (CExec (ACompact 0 2000)) (calls (b_do_compact (DriverCfg true true)) sched w).
Proof. exact big_batch. Qed.
Print Assumptions C78_batches_refuted.

Example C14_nonvacuous : wreach long_world /\
  floor_of (snd (after_compaction cfg0 long_world)) = 1005 /\
  map (fun c => match c with CExec (ACompact a b) => (a, b) | _ => (0, 0) end)
    (filter (fun c => match c with CExec _ => true | _ => false end)
      (calls (b_do_compact cfg0) (repeat ([], NoFault) 30) long_world)) = [(0, 1000); (1000, 1005)] /\
  pool_reach cfg0 (wapply init_world (ACreate ka v1 0), []).
Proof.
  split; [apply long_reach|]. split; [vm_compute; reflexivity|]. split; [vm_compute; reflexivity|].
  eapply pool_next; [eapply pool_next; [eapply pool_next; [apply pool_init|]|]|].
  - apply (pool_spawn cfg0 init_world [] (WTxn (create_txn ka v1 0))). vm_compute. discriminate.
  - assert (E : program cfg0 (WTxn (create_txn ka v1 0)) =
      Call (CExec (ACreate ka v1 0)) (match program cfg0 (WTxn (create_txn ka v1 0)) with
         | Call (CExec (ACreate _ _ _)) k => k | _ => fun _ => Ret tt end)) by (vm_compute; reflexivity).
    rewrite E. apply (pool_call cfg0 init_world [] (CExec (ACreate ka v1 0)) _ [] NoFault).
  - cbn [app fst snd sem]. apply (pool_crash cfg0 _ [] _ []).
Qed.

(** C15: space reclaimed.  At or below the floor the table holds exactly the
    versions live at the floor and the bookkeeping row; above it, exactly one row
    per revision. *)
Theorem C15_reclaimed : forall w, wreach w ->
  let h := history_of (snd w) in let f := floor_of (snd w) in
  (forall x, In x (rows (fst w)) -> id x <= f ->
     name x = compact_rev_key \/
     kv_at h f (name x) = Some (KV (name x) (value x) (lease x) (create_rev_of x) (id x))) /\
  (forall k v, kv_at h f k = Some v -> exists x, In x (rows (fst w)) /\ name x = k /\ id x = kv_mod v) /\
  (forall r, f < r <= revision h -> exists x, In x (rows (fst w)) /\ id x = r) /\
  (forall x, In x (rows (fst w)) -> 1 <= id x <= revision h) /\ NoDup (map id (rows (fst w))).
Proof. exact reclaimed. Qed.
Print Assumptions C15_reclaimed.

Example C15_nonvacuous : wreach demo /\ floor_of (snd demo) = 5 /\
  map id (rows (fst demo)) = [2; 4; 6; 7; 8].
Proof. split; [apply demo_reach|]. vm_compute. auto. Qed.

(** C16: any number of requests, compactors, expirers and server starts,
    interleaved call by call with failures (before or after the effect), broken
    result sets, retries and crashes: reads are always those of one history, the
    floor is legal, there is at most one bookkeeping row, and every step either
    leaves the database alone or is one operation on that history with the result
    the history prescribes. *)
Theorem C16_safe : forall cfg w ts, pool_reach cfg (w, ts) ->
  (forall r, supported_range r -> bounded w r -> range_answer (snd w) r (ask cfg w r)) /\
  0 <= floor_of (snd w) <= Z.max 0 (revision (history_of (snd w)) - 100) /\
  (forall x y, In x (rows (fst w)) -> In y (rows (fst w)) ->
     name x = compact_rev_key -> name y = compact_rev_key -> x = y).
Proof. exact pool_safe. Qed.
Print Assumptions C16_safe.
Theorem C16_linear : forall cfg s s', pool_reach cfg s -> pool_step cfg s s' ->
  fst s' = fst s \/
  exists a, allowed (snd (fst s)) a /\ fst s' = wapply (fst s) a /\
            snd (apply (fst (fst s)) a) = snd (spec_apply (snd (fst s)) a).
Proof. exact pool_linear. Qed.
Print Assumptions C16_linear.

(** two compactors and a start racing on a fresh database; the first start fails
    after its write took effect *)
Example C16_nonvacuous : exists w ts, pool_reach cfg0 (w, ts) /\ length ts = 2%nat /\
  current cfg0 w = 1.
Proof.
  exists (wapply init_world (ACreate health_key health_value 0)).
  assert (E : program cfg0 WStart =
      Call (CExec (ACreate health_key health_value 0)) (match program cfg0 WStart with
         | Call (CExec (ACreate _ _ _)) k => k | _ => fun _ => Ret tt end)) by (vm_compute; reflexivity).
  eexists. split; [|split].
  - eapply pool_next; [eapply pool_next; [eapply pool_next; [apply pool_init|]|]|].
    + apply (pool_spawn cfg0 init_world [] WStart). exact I.
    + apply (pool_spawn cfg0 init_world _ WCompact). exact I.
    + rewrite E. apply (pool_call cfg0 init_world [program cfg0 WCompact] (CExec (ACreate health_key health_value 0)) _ [] (FailAfter EBusy)).
  - reflexivity.
  - vm_compute. reflexivity.
Qed.

(** C110 (and C22): the bookkeeping key.  Transactions on other keys, under any
    faults and crashes, do not change which reads are refused.  Refuted for
    transactions on the bookkeeping key itself, which the server accepts. *)
Theorem C110_protected : forall cfg t w sched, wreach w -> txn_key t <> Some compact_rev_key ->
  Forall (fun x => fst x = []) sched ->
  let w' := fst (exec (s_txn cfg t) sched w) in
  forall r, supported_range r -> bounded w' r ->
  (ask cfg w' r = Err ECompacted <-> ask cfg w r = Err ECompacted).
Proof. exact txn_floor. Qed.
Print Assumptions C110_protected.
Example C110_nonvacuous : wreach demo /\ txn_key (update_txn ka v3 4 0) <> Some compact_rev_key /\
  ask cfg0 (fst (exec (s_txn cfg0 (update_txn ka v3 4 0)) [([], FailAfter EBusy)] demo)) (range ka kc 0 3) = Err ECompacted.
Proof. split; [exact demo_reach|]. split; [vm_compute; discriminate|vm_compute; reflexivity]. Qed.
(** A client deletes the key; the next compaction run lowers the floor from 5 to
    2, and a read that was refused returns an incomplete answer. *)
Theorem C22_lowered_refuted :
  wreach demo /\ ask cfg0 demo (range ka kc 0 3) = Err ECompacted /\
  exists resp,
    ask cfg0 (after_compaction cfg0 (after_txn cfg0 demo (delete_txn compact_rev_key 2))) (range ka kc 0 3) = Ok resp /\
    ~ is_snapshot (history_of (snd demo)) 3 ka kc (rr_kvs resp).
Proof. exact floor_destroyed. Qed.
Print Assumptions C22_lowered_refuted.
(** A client updates the key; reads of uncompacted revisions are refused. *)
Theorem C22_raised_refuted :
  wreach small_world /\
  ask cfg0 small_world (range ka kc 0 1) = Ok (RangeResp 4 [KV ka v1 0 1 1] false 1) /\
  ask cfg0 (after_txn cfg0 small_world (update_txn compact_rev_key v1 3 0)) (range ka kc 0 1) = Err ECompacted.
Proof. exact floor_raised. Qed.
Print Assumptions C22_raised_refuted.

(** C170 (part of C23): repair of duplicate bookkeeping rows, on an arbitrary table:
    if some row with the highest floor was not written by a create, exactly one
    row with the highest floor is kept and nothing else is touched. *)
Theorem C170_repair : forall (w : world) x, NoDup (map id (rows (fst w))) ->
  (forall y, In y (rows (fst w)) -> 0 < id y) ->
  (exists y z, In y (rows (fst w)) /\ In z (rows (fst w)) /\
               name y = compact_rev_key /\ name z = compact_rev_key /\ y <> z) ->
  In x (rows (fst w)) -> name x = compact_rev_key -> created x = false -> 0 < prev_revision x ->
  (forall y, In y (rows (fst w)) -> name y = compact_rev_key -> prev_revision y <= prev_revision x) ->
  exists w', run b_compact_start w = (w', Ok tt) /\ snd w' = snd w /\
  exists k, In k (rows (fst w)) /\ name k = compact_rev_key /\ prev_revision k = prev_revision x /\
    rows (fst w') = filter (fun r => negb (beqb (name r) compact_rev_key) || (id r =? id k)) (rows (fst w)) /\
    revision_interval_sql (fst w') = (Some (prev_revision x), snd (revision_interval_sql (fst w'))).
Proof. exact repair_lemma. Qed.
Print Assumptions C170_repair.
(** Refuted when the duplicates were all written by creates (backend.go:160-167
    looks at rows with a previous value only): all of them are deleted and the
    floor is lost; reads that were refused are answered. *)
Theorem C23_repair_refuted :
  refused cfg0 dup_world 4 /\
  snd (run b_compact_start dup_world) = Ok tt /\
  (forall x, In x (rows (fst (fst (run b_compact_start dup_world)))) -> name x <> compact_rev_key) /\
  answered cfg0 (fst (run b_compact_start dup_world)) 4.
Proof. exact repair_loses. Qed.
Print Assumptions C23_repair_refuted.

Example C23_nonvacuous :
  let d := Db [Row 1 compact_rev_key true false 0 7 0 [] []; Row 2 ka true false 0 0 0 v1 [];
               Row 9 compact_rev_key false false 1 7 0 [] []] 9 in
  map id (rows (fst (fst (run b_compact_start (d, empty_store))))) = [2; 9] /\
  created (Row 9 compact_rev_key false false 1 7 0 [] []) = false.
Proof. vm_compute. auto. Qed.

(** C161 (part of C55): a dqlite node whose leader queries all answer "not the leader" issues
    no compaction transaction, whatever else fails. *)
Theorem C161_follower : forall cfg w sched, cfg_dqlite cfg = true ->
  faults_ok (fun c f => c = CLeader -> f = NotLeader) (b_do_compact cfg) sched w ->
  Forall (fun c => ~ is_compaction c) (calls (b_do_compact cfg) sched w).
Proof. exact follower. Qed.
Print Assumptions C161_follower.

Example C55_nonvacuous :
  let sched := repeat ([], NotLeader) 6 in
  calls (b_do_compact (DriverCfg true true)) sched longer_world =
   [CRev; CAfterPrefix compact_rev_key (compact_rev_key ++ [0%N]) 0 2105; CInterval; CLeader; CLeader; CLeader] /\
  (* the leader does compact *)
  In (CExec (ACompact 0 5)) (calls (b_do_compact (DriverCfg true true)) (repeat ([], NoFault) 6) race_world).
Proof. vm_compute. intuition. Qed.

(** A node that fails to learn who the leader is compacts (dqlite/driver.go:58-60). *)
Theorem C55_unknown_refuted : exists cfg w sched, cfg_dqlite cfg = true /\ wreach w /\
  faults_ok (fun c f => match c with CLeader => exists e, f = FailBefore e | _ => f = NoFault end) (b_do_compact cfg) sched w /\
  exists c, In c (calls (b_do_compact cfg) sched w) /\ is_compaction c.
Proof.
  exists (DriverCfg true true), race_world, [([], NoFault); ([], NoFault); ([], NoFault); ([], FailBefore EOther); ([], NoFault); ([], NoFault)].
  split; [reflexivity|]. split.
  { apply (wsteps_reach init_world); [apply reach_init|]. apply wsteps_env, env_okb_ok. vm_compute. reflexivity. }
  split; [vm_compute; eauto 20|]. exists (CExec (ACompact 0 5)).
  split; [vm_compute; intuition|exact Logic.I].
Qed.
Print Assumptions C55_unknown_refuted.

(** C56: a unique index on (prev_revision, name) is never violated. *)
Theorem C56_legacy_index : forall w, wreach w ->
  NoDup (map (fun x => (prev_revision x, name x)) (rows (fst w))).
Proof. exact legacy_index. Qed.
Print Assumptions C56_legacy_index.

Example C56_nonvacuous : wreach demo /\
  map (fun x => (prev_revision x, name x)) (rows (fst demo)) =
   [(5, compact_rev_key); (1, ka); (0, kc); (0, kb); (6, kc)].
Proof. split; [apply demo_reach|]. vm_compute. auto. Qed.
