(** C46-C50, C58, C100, C101, C104, C105: server configuration, start-up, disk watcher and life cycle. *)
From Coq Require Import List ZArith NArith Bool Lia String.
From Verif Require Import Bytes Server ServerProofs LifeProofs.
Import ListNotations.
Open Scope Z_scope.

(** C172 (part of C46).  [section]: the (threshold, trailing) of tuning.yaml, if any; [(th, tr)]: what
    is handed to dqlite.  [uint64 z]: 0 <= z < 2^64. *)
Theorem C172_params : forall section th tr,
  match section with None => True | Some (a, b) => uint64 a /\ uint64 b end ->
  snapshot_params section = (th, tr) ->
  uint64 th /\ uint64 tr /\ 512 <= tr /\ th <= tr /\
  (match section with None => True | Some (a, b) => 512 <= b /\ (a = 0 -> 3 * b < 2 ^ 64) end -> 384 <= th).
Proof. exact tune_region. Qed.
Print Assumptions C172_params.
(** C101.  The two bounds that hold for whatever is written in tuning.yaml. *)
Theorem C101_bounds : forall section th tr,
  match section with None => True | Some (a, b) => uint64 a /\ uint64 b end ->
  snapshot_params section = (th, tr) -> uint64 th /\ uint64 tr /\ 512 <= tr /\ th <= tr.
Proof. intros section th tr U E. destruct (tune_region section th tr U E) as (A & B & C & D & _). auto. Qed.
Print Assumptions C101_bounds.
Example C101_nonvacuous : uint64 9000 /\ uint64 700 /\ snapshot_params (Some (9000, 700)) = (700, 700).
Proof. unfold uint64. repeat split; try lia; reflexivity. Qed.
Example C46_nonvacuous :
  snapshot_params (Some (0, 600)) = (450, 600) /\ snapshot_params (Some (10, 5000)) = (384, 5000) /\
  snapshot_params (Some (9000, 2 ^ 64 - 1)) = (9000, 2 ^ 64 - 1) /\ snapshot_params (Some (9000, 700)) = (700, 700).
Proof. repeat split; reflexivity. Qed.
(** The minimum threshold is not enforced: a small trailing, or an overflow, takes it
    down to zero. *)
Theorem C46_refuted : snapshot_params (Some (1, 0)) = (0, 512) /\ snapshot_params (Some (0, 100)) = (75, 512).
Proof. split; reflexivity. Qed.
Print Assumptions C46_refuted.
Theorem C46_overflow_refuted : snapshot_params (Some (0, 6148914691236517206)) = (0, 6148914691236517206).
Proof. reflexivity. Qed.
Print Assumptions C46_overflow_refuted.

(** C157 (part of C47).  [boots P d d']: starting with directory [d], any number of starts, each
    succeeding, failing or crashing at any point whose directory satisfies [P], leave
    [d'].  [boot e d]: the start; [BStarted self members]: the node runs as [self] and
    knows [members].  [joined addr cl]: cl, or the node alone if cl is empty. *)
Theorem C157_initial : forall d0 addr cl d, addr <> [] -> d_init d0 = Some (addr, cl) -> existing_state d0 = false ->
  boots (fun x => d_init x <> None \/ d_info x <> None) d0 d ->
  (forall e self mem, snd (boot e d) = BStarted self mem -> ni_addr self = addr /\ mem = joined addr cl) /\
  (forall e, be_config e = true -> be_app e = true -> exists self mem, snd (boot e d) = BStarted self mem).
Proof. exact init_survives. Qed.
Print Assumptions C157_initial.
(** C104.  init.yaml never destroys existing state. *)
Theorem C104_guard : forall e d, d_init d <> None -> existing_state d = true -> boot e d = ([], BFailed).
Proof. exact init_guard. Qed.
Print Assumptions C104_guard.
(** Existing state: any file except these. *)
Theorem C104_state : forall d, existing_state d = true <->
  d_update d <> None \/ d_info d <> None \/ d_cluster d <> None \/ d_raft d <> None \/
  exists n, In n (d_extra d) /\
    ~ In n [txt "cluster.crt"; txt "cluster.key"; txt "init.yaml"; txt "failure-domain"; txt "tuning.yaml"].
Proof. exact existing_state_iff. Qed.
Print Assumptions C104_state.
(** C104.  Neither an init.yaml nor an update.yaml without address does anything; nor does an
    update.yaml on a node that has no info.yaml. *)
Theorem C104_no_address : forall e d cl, d_init d = Some ([], cl) -> boot e d = ([], BFailed).
Proof. intros e d cl H. unfold boot. rewrite H. destruct (existing_state d); reflexivity. Qed.
Print Assumptions C104_no_address.
Definition joining : dir := Dir (Some (txt "10.0.0.2:9000", [txt "10.0.0.1:9000"])) None None None None [txt "cluster.key"; txt "cluster.crt"].
Example C47_nonvacuous : txt "10.0.0.2:9000" <> [] /\ existing_state joining = false /\
  (exists d, boots (fun x => d_init x <> None \/ d_info x <> None) joining d /\ d_init d = None) /\
  existing_state (set_raft (Some []) joining) = true.
Proof.
  split; [discriminate|]. split; [reflexivity|]. split; [|reflexivity].
  exists (boot_end (BEnv true true true 7) joining). split; [|reflexivity].
  apply boots_more with (d1 := joining) (e := BEnv true true true 7); [constructor| |right; discriminate].
  right. right. left. reflexivity.
Qed.
(** For every initial configuration there is a crash after which a restart runs with
    the default address as a cluster of its own. *)
Theorem C47_refuted : forall d0 addr cl, addr <> [] -> d_init d0 = Some (addr, cl) -> existing_state d0 = false ->
  exists d, boots (fun _ => True) d0 d /\
    (exists e self mem, snd (boot e d) = BStarted self mem) /\
    (forall e self mem, snd (boot e d) = BStarted self mem -> ni_addr self = txt "127.0.0.1:9001" /\ mem = [txt "127.0.0.1:9001"]).
Proof. exact init_lost. Qed.
Print Assumptions C47_refuted.
(** No crash is needed: an unreadable certificate or tuning file does it. *)
Theorem C47_failure_refuted : forall d0 addr cl e, addr <> [] -> d_init d0 = Some (addr, cl) -> existing_state d0 = false -> be_config e = false ->
  snd (boot e d0) = BFailed /\ boot_end e d0 = set_init None d0.
Proof. exact init_lost_failing. Qed.
Print Assumptions C47_failure_refuted.

(** C157 (part of C48).  [moved a i]: node [i] at address [a].  [updated a i d0]: info.yaml and the raft
    membership say so, cluster.yaml has [a], update.yaml is gone, the rest is as in [d0].
    Proved when no crash leaves info.yaml empty. *)
Theorem C157_update : forall d0 a i d, a <> [] -> d_init d0 = None -> d_update d0 = Some a -> d_info d0 = Some (Some i) ->
  boots (fun x => d_info x <> Some None) d0 d ->
  (forall e self mem, snd (boot e d) = BStarted self mem -> self = moved a i /\ mem = [a] /\ boot_end e d = updated a i d0) /\
  (forall e, be_reconf e = true -> be_config e = true -> be_app e = true -> exists self mem, snd (boot e d) = BStarted self mem).
Proof. exact update_idempotent. Qed.
Print Assumptions C157_update.
(** C104.  What an uninterrupted run does. *)
Theorem C104_update : forall d0 a i e, a <> [] -> d_init d0 = None -> d_update d0 = Some a -> d_info d0 = Some (Some i) ->
  be_reconf e = true -> be_config e = true -> be_app e = true ->
  boot_end e d0 = updated a i d0 /\ snd (boot e d0) = BStarted (moved a i) [a].
Proof. exact update_uninterrupted. Qed.
Print Assumptions C104_update.
Theorem C104_incomplete : forall e d a, d_init d = None -> d_update d = Some a -> a = [] \/ d_info d = None -> boot e d = ([], BFailed).
Proof.
  intros e d a I U H. unfold boot. rewrite I, U. destruct a as [|c a]; [reflexivity|]. destruct H as [H|H]; [discriminate|]. now rewrite H.
Qed.
Print Assumptions C104_incomplete.
Definition self7 : ninfo := NInfo 7 (txt "10.0.0.2:9000") 1.
Definition moving : dir := Dir None (Some (txt "10.9.9.9:1")) (Some (Some self7)) (Some (Some [txt "10.0.0.2:9000"])) (Some [self7]) [].
Example C104_nonvacuous : d_init joining <> None /\ existing_state (set_raft (Some []) joining) = true /\
  d_init moving = None /\ d_update moving <> None /\ d_info moving <> None.
Proof. repeat split; try reflexivity; discriminate. Qed.
Example C48_nonvacuous : exists d, boots (fun x => d_info x <> Some None) moving d /\ d_update d <> None /\ d_cluster d = Some None.
Proof.
  exists (nth 3 (fst (boot (BEnv true true true 7) moving)) moving). split; [|split; [discriminate|reflexivity]].
  apply boots_more with (d1 := moving) (e := BEnv true true true 7); [constructor| |discriminate].
  right. right. right. right. left. reflexivity.
Qed.
(** A crash between truncating and writing info.yaml makes the node forget its id and
    role: every later start runs as node 0. *)
Theorem C48_refuted : forall d0 a i, a <> [] -> d_init d0 = None -> d_update d0 = Some a -> d_info d0 = Some (Some i) ->
  exists d, boots (fun _ => True) d0 d /\ (exists e self mem, snd (boot e d) = BStarted self mem) /\
    forall e self mem, snd (boot e d) = BStarted self mem -> self = NInfo 0 a 0.
Proof. exact update_torn. Qed.
Print Assumptions C48_refuted.

(** C173 (part of C49).  [stat]: free blocks and block size, [None] if they cannot be read. *)
Theorem C173_decides : forall minimum bavail bsize, 0 <= bavail -> uint64 bsize -> bavail * bsize < 2 ^ 64 ->
  storage_low minimum (Some (bavail, bsize)) = (bavail * bsize <? minimum).
Proof. exact storage_decides. Qed.
Print Assumptions C173_decides.
(** C100.  A check that finds the space low takes the configured action: nothing, a handover,
    or a stop signal the main goroutine can receive. *)
Theorem C100_acts : forall act minimum s st, ds_phase s = DChecking -> ds_closed s = false -> storage_low minimum st = true ->
  let s' := dstep act minimum s (DCheck st) in
  match act with
  | LANone => s' = set_phase DIdle s
  | LAHandover => ds_handovers s' = S (ds_handovers s)
  | LATerminate => ds_buffer s' = true /\ ds_received (dstep act minimum s' DReceive) = S (ds_received s)
  end.
Proof. exact disk_acts. Qed.
Print Assumptions C100_acts.
(** Checking goes on: one action for every check that finds the space low. *)
Theorem C100_every : forall minimum sts,
  ds_handovers (drun LAHandover minimum (flat_map (fun st => [DWake; DCheck st]) sts) dstate_init) = List.length (filter (storage_low minimum) sts) /\
  ds_received (drun LATerminate minimum (flat_map (fun st => [DWake; DCheck st; DReceive]) sts) dstate_init) = List.length (filter (storage_low minimum) sts).
Proof. exact disk_every. Qed.
Print Assumptions C100_every.
(** Nothing is done while no check finds it low, in any run. *)
Theorem C100_quiet : forall act minimum acts, (forall st, In (DCheck st) acts -> storage_low minimum st = false) -> forall s, ds_phase s <> DSending ->
  ds_phase (drun act minimum acts s) <> DSending /\
  ds_handovers (drun act minimum acts s) = ds_handovers s /\ ds_signals (drun act minimum acts s) = ds_signals s.
Proof. exact disk_quiet. Qed.
Print Assumptions C100_quiet.
(** Never another action than the configured one. *)
Theorem C100_kind : forall act minimum acts s,
  (act <> LAHandover -> ds_handovers (drun act minimum acts s) = ds_handovers s) /\
  (act <> LATerminate -> ds_phase s <> DSending -> ds_phase (drun act minimum acts s) <> DSending /\ ds_signals (drun act minimum acts s) = ds_signals s).
Proof. exact disk_kind. Qed.
Print Assumptions C100_kind.
Example C100_nonvacuous :
  let s := drun LATerminate 1000 [DWake] dstate_init in
  ds_phase s = DChecking /\ ds_closed s = false /\ storage_low 1000 (Some (2, 499)) = true /\
  filter (storage_low 1000) [Some (2, 499); Some (2, 500); Some (1, 3)] = [Some (2, 499); Some (1, 3)] /\
  ds_phase (drun LAHandover 1000 [DWake; DCheck (Some (2, 500))] dstate_init) <> DSending.
Proof. cbv zeta. repeat split; try reflexivity; discriminate. Qed.
Example C49_nonvacuous :
  storage_low 1000 (Some (2, 499)) = true /\ storage_low 1000 (Some (2, 500)) = false /\
  ds_phase (drun LATerminate 1000 [DWake; DCheck (Some (2, 500)); DWake] dstate_init) = DChecking /\
  ds_signals (drun LATerminate 1000 [DWake; DCheck (Some (2, 499)); DWake; DCheck None; DReceive] dstate_init) = 2%nat /\
  ds_handovers (drun LAHandover 1000 [DWake; DCheck (Some (2, 499)); DWake; DCheck None] dstate_init) = 2%nat.
Proof. repeat split; reflexivity. Qed.
(** 2^52 blocks of 4 KiB are taken for an empty disk, whatever the threshold, *)
Theorem C49_refuted : forall minimum, 0 < minimum -> storage_low minimum (Some (2 ^ 52, 4096)) = true.
Proof. exact storage_wraps. Qed.
Print Assumptions C49_refuted.
(** and so is a disk whose state cannot be read: the server terminates. *)
Theorem C49_error_refuted : forall minimum, ds_signals (drun LATerminate minimum [DWake; DCheck None] dstate_init) = 1%nat.
Proof. reflexivity. Qed.
Print Assumptions C49_error_refuted.

(** C174 (part of C58).  Shutting down never crashes the disk watcher, provided it has returned. *)
Theorem C174_returned : forall act minimum acts,
  (forall pre post, acts = pre ++ DClose :: post ->
     ds_phase (drun act minimum pre dstate_init) = DReturned /\ ~ In DClose pre) ->
  ds_panicked (drun act minimum acts dstate_init) = false.
Proof. exact disk_safe. Qed.
Print Assumptions C174_returned.
Example C58_nonvacuous : ds_closed (drun LATerminate 5 [DWake; DCheck None; DReceive; DCancel; DDone; DClose] dstate_init) = true /\
  (forall pre post, [DWake; DCheck None; DReceive; DCancel; DDone; DClose] = pre ++ DClose :: post ->
     ds_phase (drun LATerminate 5 pre dstate_init) = DReturned /\ ~ In DClose pre).
Proof.
  split; [reflexivity|]. intros pre post E.
  do 5 (destruct pre as [|? pre]; cbn in E; [discriminate|injection E as <- E]).
  destruct pre as [|? pre]; cbn in E; [|injection E as <- E; destruct pre; discriminate]. split; [reflexivity|]. cbn. intuition discriminate.
Qed.
(** Nothing waits for it: a check in progress at shutdown sends on a closed channel. *)
Theorem C58_refuted : forall minimum, ds_panicked (drun LATerminate minimum [DWake; DCancel; DClose; DCheck None] dstate_init) = true.
Proof. reflexivity. Qed.
Print Assumptions C58_refuted.

(** C158 (part of C50).  [lsteps s s']: any interleaving of one caller making the calls of [l_todo] in
    order with the background goroutines.  As long as the mutex is not lost, every call
    can complete, and the mutex is lost only by stopping a backend that is not started. *)
Theorem C158_returns : forall todo s o t, lsteps (linit todo) s -> l_lock s <> Some OLeaked -> l_todo s = o :: t ->
  exists s', lsteps s s' /\ l_todo s' = t.
Proof. exact call_returns. Qed.
Print Assumptions C158_returns.
Theorem C158_cause : forall s s', lstep s s' -> l_lock s' = Some OLeaked -> l_lock s = Some OLeaked \/ (l_pc s = PcStop /\ l_started s = false).
Proof. exact leak_cause. Qed.
Print Assumptions C158_cause.
(** C105.  After the last stop the backend is stopped and its polling, compaction and expiry
    goroutines (not those of the expiry timers: C196) are gone. *)
Theorem C105_stopped : forall todo o s, o = LStop \/ o = LClose -> lsteps (linit (todo ++ [o])) s -> l_todo s = [] ->
  l_started s = false /\ l_workers s = [] /\ l_pc s = PcIdle.
Proof. exact stopped_after. Qed.
Print Assumptions C105_stopped.
Example C105_nonvacuous : exists s, lsteps (linit ([LStart true] ++ [LStop])) s /\ l_todo s = [].
Proof.
  eexists. split.
  - eapply lsteps_more; [apply ls_start_lock|]. eapply lsteps_more; [apply ls_start_ok|]. cbn [app].
    eapply lsteps_more; [apply ls_stop_lock; now left|]. eapply lsteps_more; [apply ls_stop_cancel|]. cbn [map fst].
    do 3 (eapply lsteps_more; [eapply ls_worker_exit; first [instantiate (1 := 0%nat); reflexivity | instantiate (1 := 1%nat); reflexivity | instantiate (1 := 2%nat); reflexivity]|]; cbn).
    eapply lsteps_more; [apply ls_stop_wait; repeat constructor|]. apply lsteps_refl.
  - reflexivity.
Qed.
Example C50_nonvacuous : exists s, lsteps (linit [LStart true; LStop]) s /\ l_todo s = [LStop] /\ l_lock s = Some (OWorker 1).
Proof.
  eexists. split.
  - eapply lsteps_more; [apply ls_start_lock|]. eapply lsteps_more; [apply ls_start_ok|]. cbn [app].
    eapply lsteps_more; [apply ls_worker_want with (i := 1%nat); reflexivity|].
    eapply lsteps_more; [eapply ls_worker_lock with (i := 1%nat); reflexivity|]. constructor.
  - split; reflexivity.
Qed.
(** Stopping a backend that is not started blocks every later call forever. *)
Theorem C50_refuted : forall rest, exists s, lsteps (linit (LStop :: rest)) s /\ l_todo s = rest /\ forall s', lsteps s s' -> l_todo s' = rest.
Proof. exact stop_twice. Qed.
Print Assumptions C50_refuted.
