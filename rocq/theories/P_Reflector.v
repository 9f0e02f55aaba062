(** C68, C134: list and watch.  A client lists a range (while others write, and with
    statements retried), watches the same range from the revision after the list's
    header, and applies what it is sent.
    [copy_at h n lo hi c]: [c] is the content of [lo, hi) at revision [n]. *)
From Coq Require Import List ZArith Bool Lia.
From Verif Require Import Bytes Spec Sql System Prog Backend Limited Api Pool Observe Demo Watch Stream WatchProofs WatchResults WatchWitness SpecLemmas ProgLemmas WatchLemmas StreamProofs StreamCancel StreamWitness Reflector ReflectorProofs.
Import ListNotations.
Open Scope Z_scope.

(** If it skips events it already knows from the list, its copy is at every moment the
    content of the range at one revision, not older than the list nor than any event
    received (provisos of C24 and, for the list, of C18). *)
Theorem C134_newer : forall cfg lo hi w sched w' resp s g r, wreach w -> hi <> [] ->
  fair (s_range cfg (range lo hi 0 0)) sched w -> Forall (fun x => clean (snd x)) sched ->
  exec (s_range cfg (range lo hi 0 0)) sched w = (w', Some (Ok resp)) ->
  floor_of (snd w') <= rr_header resp ->
  scalm s -> wsteps w' (b_world (s_b s)) -> group_of s = Some g -> In r (g_regs g) ->
  r_lo r = lo -> r_hi r = hi -> r_start r = rr_header resp + 1 ->
  exists b, rr_header resp <= b <= revision (history_of (snd (b_world (s_b s)))) /\
    (forall ev, In ev (sent (s_out s) (r_id r)) -> ev_rev ev <= b) /\
    copy_at (history_of (snd (b_world (s_b s)))) b lo hi (mirror (rr_kvs resp) (newer (rr_header resp) (sent (s_out s) (r_id r)))).
Proof. exact reflector_newer. Qed.
Print Assumptions C134_newer.

(** The same for a client that applies everything it is sent, if this server's poller
    had reached the list's revision when the watch was registered, or an event
    of that revision or later has arrived. *)
Theorem C134_all : forall cfg lo hi w sched w' resp s g r, wreach w -> hi <> [] ->
  fair (s_range cfg (range lo hi 0 0)) sched w -> Forall (fun x => clean (snd x)) sched ->
  exec (s_range cfg (range lo hi 0 0)) sched w = (w', Some (Ok resp)) ->
  floor_of (snd w') <= rr_header resp ->
  scalm s -> wsteps w' (b_world (s_b s)) -> group_of s = Some g -> In r (g_regs g) ->
  r_lo r = lo -> r_hi r = hi -> r_start r = rr_header resp + 1 ->
  rr_header resp <= r_captured r \/ (exists ev, In ev (sent (s_out s) (r_id r)) /\ rr_header resp <= ev_rev ev) ->
  exists b, rr_header resp <= b <= revision (history_of (snd (b_world (s_b s)))) /\
    (forall ev, In ev (sent (s_out s) (r_id r)) -> ev_rev ev <= b) /\
    copy_at (history_of (snd (b_world (s_b s)))) b lo hi (mirror (rr_kvs resp) (sent (s_out s) (r_id r))).
Proof. exact reflector_all. Qed.
Print Assumptions C134_all.

(** Either way the copy becomes the current content once the poller has run often
    enough and everything published is consumed. *)
Theorem C134_caught_up : forall cfg lo hi w sched w' resp n s, wreach w -> hi <> [] ->
  fair (s_range cfg (range lo hi 0 0)) sched w -> Forall (fun x => clean (snd x)) sched ->
  exec (s_range cfg (range lo hi 0 0)) sched w = (w', Some (Ok resp)) ->
  floor_of (snd w') <= rr_header resp ->
  calm_reach s -> wsteps w' (b_world s) -> b_dead s = false -> kept (snd (b_world s)) (b_poll s) ->
  revision (history_of (snd (b_world s))) - b_poll s + 1 <= Z.of_nat n ->
  forall i g r, nth_error (b_groups (poll_rounds n s)) i = Some g -> g_open g = true -> In r (g_regs g) ->
    In (r_id r, WOk) (g_returns g) -> ~ In (r_id r) (g_cancelled g) ->
    r_lo r = lo -> r_hi r = hi -> r_start r = rr_header resp + 1 ->
    copy_at (history_of (snd (b_world s))) (revision (history_of (snd (b_world s)))) lo hi (mirror (rr_kvs resp) (delivered (g_updates g) (r_id r))).
Proof. exact reflector_caught_up. Qed.
Print Assumptions C134_caught_up.

(** Otherwise a client that applies everything goes back in time: "a" was deleted
    before the list, and comes back. *)
Definition quiet : list (list aop * fault) := repeat ([], NoFault) 3.
Definition behind : bstate :=
  brun [AEnv (ACreate ka v1 0); AFetch NoFault; AEnv (ADelete ka 1); AEnv (ACreate kb v2 0)] (bstart init_world).
Definition back_in_time : sstate := srun (creating ka kd 4 ++ [SBack APublish; SRecv; SSend]) (sopen behind).
Theorem C68_refuted : exists w sched resp s g r, wreach w /\ fair (s_range cfg0 (range ka kd 0 0)) sched w /\
  Forall (fun x => clean (snd x)) sched /\
  exec (s_range cfg0 (range ka kd 0 0)) sched w = (w, Some (Ok resp)) /\ floor_of (snd w) <= rr_header resp /\
  scalm s /\ wsteps w (b_world (s_b s)) /\ group_of s = Some g /\ In r (g_regs g) /\
  r_lo r = ka /\ r_hi r = kd /\ r_start r = rr_header resp + 1 /\ In (MCreated (r_id r)) (s_out s) /\
  copy_of (rr_kvs resp) ka = None /\ mirror (rr_kvs resp) (sent (s_out s) (r_id r)) ka = Some (KV ka v1 0 1 1) /\
  forall b, rr_header resp <= b -> ~ copy_at (history_of (snd (b_world (s_b s)))) b ka kd (mirror (rr_kvs resp) (sent (s_out s) (r_id r))).
Proof.
  exists (b_world behind), quiet, (RangeResp 3 [KV kb v2 0 3 3] false 1), back_in_time.
  assert (CR : calm_reach behind) by (apply brun_calm; [apply calm_start, init_reach|]; vm_compute; reflexivity).
  destruct (group_of back_in_time) as [g|] eqn:G; [|vm_compute in G; discriminate].
  exists g, (Reg 1 ka kd 4 0).
  split; [exact (B_reach _ _ (calm_Binv _ CR))|]. split; [vm_compute; tauto|]. split; [repeat constructor|].
  split; [vm_compute; reflexivity|]. split; [vm_compute; discriminate|].
  split. { eapply calm_later_scalm; [apply srun_calm_later; [apply calm_later_refl|vm_compute; reflexivity]|apply scalm_open, CR]. }
  split. { replace (b_world (s_b back_in_time)) with (b_world behind) by (vm_compute; reflexivity). constructor. }
  split; [reflexivity|]. split. { vm_compute in G. injection G as <-. left. reflexivity. }
  split; [reflexivity|]. split; [reflexivity|]. split; [reflexivity|]. split; [vm_compute; auto|].
  split; [vm_compute; reflexivity|]. 
  assert (M : mirror [KV kb v2 0 3 3] (sent (s_out back_in_time) 1) ka = Some (KV ka v1 0 1 1)) by (vm_compute; reflexivity).
  split; [exact M|]. intros b L C. destruct (C ka) as [C1 _]. cbn [rr_kvs rr_header r_id] in *. rewrite M in C1.
  assert (IR : in_range ka kd ka) by (apply in_range_b_iff; reflexivity).
  specialize (C1 IR). rewrite kv_at_full in C1 by (replace (revision _) with 3 by (vm_compute; reflexivity); lia).
  vm_compute in C1. discriminate.
Qed.
Print Assumptions C68_refuted.

(** The hypotheses can be met: a list of the demo store at revision 8, then three
    changes, of which two are in the range. *)
Definition follow_acts : list saction :=
  polled ++ [SRecv; SSend] ++ creating ka kd 9 ++ [SBack (AEnv (AUpdate ka v3 4 0)); SBack (AEnv (ACreate kd v1 0)); SBack (AEnv (ADelete kb 7))] ++ polled ++ [SRecv; SSend].
Definition follower : sstate := srun follow_acts start.
Example C134_nonvacuous : exists g r,
  exec (s_range cfg0 (range ka kd 0 0)) quiet demo =
    (demo, Some (Ok (RangeResp 8 [KV ka v2 0 1 4; KV kb v3 30 7 7; KV kc v1 0 6 8; KV compact_rev_key [] 0 2 2] false 4))) /\
  fair (s_range cfg0 (range ka kd 0 0)) quiet demo /\ floor_of (snd demo) = 5 /\
  scalm follower /\ wsteps demo (b_world (s_b follower)) /\ group_of follower = Some g /\ In r (g_regs g) /\
  r_lo r = ka /\ r_hi r = kd /\ r_start r = 9 /\ r_captured r = 8 /\
  map ev_rev (sent (s_out follower) (r_id r)) = [9; 11] /\
  (let c := mirror [KV ka v2 0 1 4; KV kb v3 30 7 7; KV kc v1 0 6 8; KV compact_rev_key [] 0 2 2] (sent (s_out follower) (r_id r)) in
   c ka = Some (KV ka v3 0 1 9) /\ c kb = None /\ c kc = Some (KV kc v1 0 6 8)).
Proof.
  destruct (group_of follower) as [g|] eqn:G; [|vm_compute in G; discriminate].
  exists g, (Reg 1 ka kd 9 8). split; [vm_compute; reflexivity|]. split; [vm_compute; tauto|]. split; [reflexivity|].
  split; [apply run_calm; vm_compute; reflexivity|]. split.
  { replace (b_world (s_b follower)) with (fold_left wapply [AUpdate ka v3 4 0; ACreate kd v1 0; ADelete kb 7] demo) by (vm_compute; reflexivity).
    apply wsteps_env, env_okb_ok. vm_compute. reflexivity. }
  split; [reflexivity|]. split. { vm_compute in G. injection G as <-. left. reflexivity. }
  split; [reflexivity|]. split; [reflexivity|]. split; [reflexivity|]. split; [reflexivity|]. split; [vm_compute; reflexivity|].
  split; [vm_compute; reflexivity|]. split; vm_compute; reflexivity.
Qed.
