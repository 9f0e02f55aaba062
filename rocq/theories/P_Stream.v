(** C29, C30, C31, C33: what a client sees on one watch stream.
    [sreach s]: [s] is a reachable state of a stream, under any interleaving of its
    three loops with writers, compaction, the poller and any query faults;
    [scalm]: same, under the provisos of C24 (see Watch.v, [calm]).
    [s_out s]: everything sent to the client so far; [sent out id]: the events in
    [out] for watch [id]; [slater s s'], [calm_later s s']: [s'] comes after [s]. *)
From Coq Require Import List ZArith Bool Lia Sorting.Sorted.
From Verif Require Import Bytes Spec Sql System Prog Backend Watch Stream SpecLemmas SqlLemmas Sim ReadLemmas ProgLemmas ReadProgs WatchLemmas WatchProofs WatchResults WatchWitness StreamProofs StreamCancel StreamMore StreamWitness Observe Demo.
Import ListNotations.
Open Scope Z_scope.

(** C151 (part of C29).  If no update is waiting to be sent, and an update published after the
    watch was acknowledged has been sent, then whatever step sends a progress
    notification with revision R, all changes up to R were sent for the watch. *)
Theorem C151_progress : forall s r g s' g' a R i o, scalm s -> group_of s = Some g -> In r (g_regs g) -> In (MCreated (r_id r)) (s_out s) ->
  calm_later s s' -> group_of s' = Some g' -> ~ In (r_id r) (g_cancelled g') ->
  s_hold s' = None -> (length (g_updates g) < g_taken g')%nat ->
  s_out (sstep s' a) = s_out s' ++ o -> In (MProgress R i) o ->
  reports (history_of (snd (b_world (s_b s')))) (in_range (r_lo r) (r_hi r)) (begins r) R (sent (s_out s') (r_id r)).
Proof. exact progress_complete. Qed.
Print Assumptions C151_progress.
Example C29_nonvacuous : scalm created_run /\ calm_later created_run served /\ s_hold served = None /\
  s_out (sstep served SProgressReq) = s_out served ++ [MProgress 10 (-1)] /\
  map ev_rev (sent (s_out served) 1) = [6; 7; 8; 10] /\
  exists g r g', group_of created_run = Some g /\ In r (g_regs g) /\ r_id r = 1 /\ begins r = 5 /\ In (MCreated 1) (s_out created_run) /\
  group_of served = Some g' /\ g_cancelled g' = [] /\ length (g_updates g) = 0%nat /\ g_taken g' = 2%nat.
Proof.
  split; [exact created_calm|]. split; [exact served_later|]. destruct served_facts as (A & B & C & _).
  split; [exact A|]. split; [exact B|]. split; [exact C|]. exact served_group.
Qed.

(** Without the first proviso it is false: the progress tick between receiving
    and sending an update announces revision 8, events 6, 7 and 8 follow. *)
Theorem C29_refuted : exists s, sreach s /\ In (MCreated 1) (s_out s) /\ sent (s_out s) 1 = [] /\
  s_out (sstep s STick) = s_out s ++ [MProgress 8 1] /\
  map ev_rev (sent (s_out (sstep (sstep s STick) SSend)) 1) = [6; 7; 8].
Proof. exists early. split; [exact early_reach|exact early_facts]. Qed.
Print Assumptions C29_refuted.
(** Nor without the second: a new watch from revision 6 is announced progress 8
    before its backlog 6, 7, 8. *)
Theorem C29_backlog_refuted : exists s, sreach s /\ In (MCreated 2) (s_out s) /\ sent (s_out s) 2 = [] /\ s_hold s = None /\
  s_out (sstep s SProgressReq) = s_out s ++ [MProgress 8 (-1)] /\
  map ev_rev (sent (s_out (srun (polled ++ [SRecv; SSend]) (sstep s SProgressReq))) 2) = [6; 7; 8].
Proof. exists backlog. split; [exact backlog_reach|exact backlog_facts]. Qed.
Print Assumptions C29_backlog_refuted.

(** C152 (part of C30).  A watch that never got an event gets a notification at every tick. *)
Theorem C152_idle : forall s id g, sreach s -> group_of s = Some g -> In (MCreated id) (s_out s) -> ~ touched (s_out s) id -> ~ In id (g_cancelled g) ->
  s_creating s = None -> exists o, s_out (sstep s STick) = s_out s ++ o /\ In (MProgress (s_rev s) id) o.
Proof. exact tick_progress. Qed.
Print Assumptions C152_idle.
(** After its first event it never gets one again. *)
Theorem C30_refuted : (forall s s' id o, sreach s -> slater s s' -> touched (s_out s) id -> s_out s' = s_out s ++ o ->
    forall R, ~ In (MProgress R id) o) /\
  exists s, sreach s /\ In (MCreated 1) (s_out s) /\ touched (s_out s) 1 /\ s_creating s = None /\ s_ended s = false.
Proof.
  split; [exact touched_no_progress|]. exists served. split; [apply scalm_sreach; eapply calm_later_scalm; [exact served_later|exact created_calm]|].
  split; [vm_compute; auto|]. split; [|split; vm_compute; reflexivity]. eexists _, _. vm_compute. right. left. reflexivity.
Qed.
Print Assumptions C30_refuted.
Example C30_nonvacuous : exists g, sreach created_run /\ group_of created_run = Some g /\ In (MCreated 1) (s_out created_run) /\ ~ touched (s_out created_run) 1 /\
  g_cancelled g = [] /\ s_creating created_run = None.
Proof.
  eexists. split; [apply scalm_sreach, created_calm|]. split; [vm_compute; reflexivity|]. split; [vm_compute; auto|].
  split; [|split; [reflexivity|vm_compute; reflexivity]]. intros (r & e & H). vm_compute in H. destruct H as [H|[]]. discriminate.
Qed.

(** C150 (part of C31).  What a client has been sent is always a gap-free prefix (provisos of C24). *)
Theorem C150_prefix : forall s g r, scalm s -> group_of s = Some g -> In r (g_regs g) ->
  exists b, b <= b_poll (s_b s) /\ reports (history_of (snd (b_world (s_b s)))) (in_range (r_lo r) (r_hi r)) (begins r) b (sent (s_out s) (r_id r)).
Proof. exact stream_prefix. Qed.
Print Assumptions C150_prefix.
Example C31_nonvacuous : scalm slow /\ exists g r, group_of slow = Some g /\ In r (g_regs g) /\ r_id r = 1 /\ map ev_rev (sent (s_out slow) 1) = [6; 7; 8].
Proof. split; [exact slow_calm|]. eexists _, _. split; [vm_compute; reflexivity|]. split; [left; reflexivity|]. split; vm_compute; reflexivity. Qed.
(** But a stream dropped for slowness is not terminated: it stays open, accepts and
    acknowledges further watches, and never sends an event again. *)
Theorem C31_refuted : exists s, scalm s /\ In (MCreated 1) (s_out s) /\
  (forall s', slater s s' -> forall id, sent (s_out s') id = sent (s_out s) id) /\
  exists s', slater s s' /\ s_ended s' = false /\ In (MCreated 2) (s_out s') /\ b_poll (s_b s') = 9 /\
    nth_error (history_of (snd (b_world (s_b s')))) 8 = Some (Entry ka (Put v3 0)) /\ map ev_rev (sent (s_out s') 1) = [6; 7; 8].
Proof.
  destruct slow_facts as (A & B & C & D & E & F & G & H & K & L).
  exists slow. split; [exact slow_calm|]. split; [exact D|]. split; [intros s' Q; exact (done_silent _ _ Q A B)|].
  exists (srun slow_more slow). split; [exact slow_later|]. split; [exact F|]. split; [exact G|]. split; [exact H|]. split; [exact K|exact L].
Qed.
Print Assumptions C31_refuted.

(** C33.  Acknowledged watch ids are distinct. *)
Theorem C33_unique : forall s, sreach s -> NoDup (created_ids (s_out s)) /\ forall id, In (MCreated id) (s_out s) -> 1 <= id.
Proof. exact created_unique. Qed.
Print Assumptions C33_unique.
(** Cancelling a watch does not change what is sent for the others, whatever
    happens before and after. *)
Theorem C33_isolation : forall s id acts, s_creating s = None -> s_closing s = None -> s_ended s = false ->
  seen_by_others id (s_out (srun acts (sstep (sstep s (SCancel id)) SForget))) = seen_by_others id (s_out (srun acts s)).
Proof. exact cancel_isolated. Qed.
Print Assumptions C33_isolation.
(** And the cancelled one gets at most what was published before the cancel. *)
Theorem C33_stops : forall s g id s', sreach s -> group_of s = Some g -> s_creating s = None -> s_closing s = None -> s_ended s = false ->
  In (MCreated id) (s_out s) -> slater (sstep s (SCancel id)) s' ->
  exists rest, delivered (g_updates g) id = sent (s_out s') id ++ rest.
Proof. exact cancel_stops. Qed.
Print Assumptions C33_stops.
Example C33_nonvacuous : sreach served /\ In (MCreated 1) (s_out served) /\ s_creating served = None /\ s_closing served = None /\ s_ended served = false /\
  (let writes := SBack (AEnv (AUpdate ka v1 10 0)) :: polled ++ [SRecv; SSend] in
   map ev_rev (sent (s_out (srun writes served)) 1) = [6; 7; 8; 10; 11] /\
   map ev_rev (sent (s_out (srun writes (sstep (sstep served (SCancel 1)) SForget))) 1) = [6; 7; 8; 10]).
Proof.
  split; [apply scalm_sreach; eapply calm_later_scalm; [exact served_later|exact created_calm]|].
  split; [vm_compute; auto|]. destruct served_facts as (_ & _ & _ & _ & A & B & C & _). split; [exact A|]. split; [exact B|]. split; [exact C|].
  split; vm_compute; reflexivity.
Qed.
