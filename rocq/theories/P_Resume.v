(** C75: a watch loses nothing if the poller keeps up.
    C76, C136: a watch can be resumed.
    [steady_reach s]: an execution of one server, with any number of other servers
    writing and compacting, in which compaction keeps 100 revisions (as every
    compaction run does), the poller is at most 100 revisions behind whenever it polls,
    and watches start at most 100 revisions back.
    [reports h sel a b evs]: [evs] is exactly the changes of the selected keys with
    revisions in (a, b], in order, once each, with value and previous value. *)
From Coq Require Import List ZArith Bool Lia.
From Verif Require Import Bytes Spec Sql System Prog Backend Limited Api Pool Observe Demo Watch Stream SpecLemmas SqlLemmas Sim ReadLemmas ProgLemmas ReadProgs WatchLemmas WatchProofs WatchResults WatchWitness StreamProofs StreamCancel StreamWitness Reflector ReflectorProofs Resume ResumeProofs.
Import ListNotations.
Open Scope Z_scope.

(** At every moment the consumer has received all changes of its range after the
    revision the watch begins with, up to some revision: nothing lost, nothing twice,
    nothing out of order, nothing made up. *)
Theorem C75_no_gap : forall s i g r k, steady_reach s -> nth_error (b_groups s) i = Some g -> In r (g_regs g) ->
  exists b, b <= b_poll s /\
    reports (history_of (snd (b_world s))) (in_range (r_lo r) (r_hi r)) (begins r) b (delivered (firstn k (g_updates g)) (r_id r)).
Proof. intros s i g r k H. exact (delivered_prefix s i g r k (proj1 (steady_calm s H))). Qed.
Print Assumptions C75_no_gap.

(** And everything arrives, once the poller has run often enough, for every watch that
    was acknowledged, not cancelled, and whose stream was not dropped for slowness. *)
Theorem C75_eventually : forall n s, steady_reach s -> b_dead s = false ->
  revision (history_of (snd (b_world s))) - b_poll s <= 100 ->
  revision (history_of (snd (b_world s))) - b_poll s + 1 <= Z.of_nat n ->
  forall i g r, nth_error (b_groups (poll_rounds n s)) i = Some g -> g_open g = true -> In r (g_regs g) ->
    In (r_id r, WOk) (g_returns g) -> ~ In (r_id r) (g_cancelled g) ->
    reports (history_of (snd (b_world s))) (in_range (r_lo r) (r_hi r)) (begins r) (revision (history_of (snd (b_world s))))
      (delivered (g_updates g) (r_id r)).
Proof. intros n s H D L N. exact (proj2 (eventually_delivered n s (proj1 (steady_calm s H)) D (steady_kept s H L) N)). Qed.
Print Assumptions C75_eventually.

(** ---- a steady run ---- *)
Definition steadyb (s : bstate) (a : action) : bool :=
  let current := revision (history_of (snd (b_world s))) in
  match a with
  | AEnv (ACompact _ stop) => stop <=? Z.max 0 (current - 100)
  | AFetch _ => current - b_poll s <=? 100
  | AQuery i id f => match f with CutRows _ _ => false | _ => true end &&
      match nth_error (b_groups s) i with
      | Some g => match pending_of id g with Some (r, _) => current - r_start r <? 100 | None => true end
      | None => true
      end
  | _ => true
  end.
Lemma steadyb_ok s a : steadyb s a = true -> steady s a.
Proof.
  unfold steadyb, steady. destruct a; auto.
  - destruct a; auto. rewrite Z.leb_le. auto.
  - rewrite Z.leb_le. auto.
  - rewrite andb_true_iff. intros [A B]. split; [destruct f; simpl; auto; discriminate|].
    intros g r p N P. rewrite N, P in B. now apply Z.ltb_lt.
Qed.
Fixpoint steady_ok (s : bstate) (acts : list action) : bool :=
  match acts with
  | [] => true
  | a :: rest => possibleb s a && steadyb s a && steady_ok (bstep s a) rest
  end.
Lemma brun_steady acts : forall s, steady_reach s -> steady_ok s acts = true -> steady_reach (brun acts s).
Proof.
  induction acts as [|a acts IH]; simpl; auto. intros s H. rewrite !andb_true_iff. intros [[A A'] B].
  apply IH; auto. apply steady_step; auto using possibleb_ok, steadyb_ok.
Qed.
Definition write_ka (n : nat) : action := AEnv (AUpdate ka v1 (Z.of_nat n) 0).
(** 110 revisions, polled after 60 and 110; revisions up to 10 compacted; a watch from
    revision 105, then two more writes, one of them outside the watched range. *)
Definition steady_acts : list action :=
  [AEnv (ACreate compact_rev_key [] 0); AEnv (ACreate ka v1 0)] ++ map write_ka (List.seq 2 58) ++ [AFetch NoFault; APublish] ++
  map write_ka (List.seq 60 50) ++ [AFetch NoFault; APublish; AEnv (ACompact 0 10); ANewGroup; AWatch 0 ka kb 105; ACheck 0 1 NoFault;
   AQuery 0 1 NoFault; AFinish 0 1; AEnv (ACreate kb v2 0); AEnv (AUpdate ka v3 110 0); AFetch NoFault; APublish; AEnv (ADelete ka 112)].
Definition steady_run : bstate := brun steady_acts (bstart init_world).
Example C75_nonvacuous : steady_reach steady_run /\ b_dead steady_run = false /\
  floor_of (snd (b_world steady_run)) = 10 /\ b_poll steady_run = 112 /\
  revision (history_of (snd (b_world steady_run))) = 113 /\
  exists g, nth_error (b_groups steady_run) 0 = Some g /\ g_open g = true /\ In (Reg 1 ka kb 105 110) (g_regs g) /\
    In (1, WOk) (g_returns g) /\ g_cancelled g = [] /\
    map ev_rev (delivered (g_updates g) 1) = [105; 106; 107; 108; 109; 110; 112] /\
  exists g', nth_error (b_groups (poll_rounds 2 steady_run)) 0 = Some g' /\ g_open g' = true /\
    map ev_rev (delivered (g_updates g') 1) = [105; 106; 107; 108; 109; 110; 112; 113].
Proof.
  split. { apply brun_steady; [apply steady_start; [apply init_reach|vm_compute; discriminate]|vm_compute; reflexivity]. }
  split; [vm_compute; reflexivity|]. split; [vm_compute; reflexivity|]. split; [vm_compute; reflexivity|]. split; [vm_compute; reflexivity|].
  exists (nth 0 (b_groups steady_run) (Group 0 [] [] [] 0 true [] [] [])).
  split; [vm_compute; reflexivity|]. split; [vm_compute; reflexivity|]. split; [vm_compute; auto|]. split; [vm_compute; auto|].
  split; [vm_compute; reflexivity|]. split; [vm_compute; reflexivity|].
  exists (nth 0 (b_groups (poll_rounds 2 steady_run)) (Group 0 [] [] [] 0 true [] [] [])).
  split; [vm_compute; reflexivity|]. split; [vm_compute; reflexivity|]. vm_compute; reflexivity.
Qed.

(** ---- C136, C76 ---- *)
(** A client that resumes after the last revision it has seen, any number of times, on
    any servers that share the database, and leaves out what it has seen, gets all
    changes of its range since it began, once each and in order. *)
Theorem C136_resumed : forall lo hi a w evs, watched lo hi a w evs ->
  exists b, a <= b <= revision (history_of (snd w)) /\ reports (history_of (snd w)) (in_range lo hi) a b evs.
Proof. intros lo hi a w evs H. exact (proj2 (watched_reports lo hi a w evs H)). Qed.
Print Assumptions C136_resumed.

(** A client that does not leave them out gets them again on a server whose poller
    lags behind what the client has seen elsewhere. *)
Definition three : list saction := map SBack [AEnv (ACreate ka v1 0); AEnv (ACreate kb v2 0); AEnv (ACreate kc v3 0)].
Definition served_before : sstate := srun (creating ka kd 1 ++ three ++ polled ++ [SRecv; SSend]) (sopen (bstart init_world)).
Definition served_after : sstate := srun (three ++ creating ka kd 4 ++ polled ++ [SRecv; SSend]) (sopen (bstart init_world)).
Lemma fresh_calm acts : srun_ok true (sopen (bstart init_world)) acts = true -> scalm (srun acts (sopen (bstart init_world))).
Proof. intros H. eapply calm_later_scalm; [apply srun_calm_later; [apply calm_later_refl|exact H]|apply scalm_open, calm_start, init_reach]. Qed.
Lemma before_watched : watched ka kd 0 (b_world (s_b served_before)) (sent (s_out served_before) 1) /\
  map ev_rev (sent (s_out served_before) 1) = [1; 2; 3].
Proof.
  split; [|vm_compute; reflexivity].
  destruct (group_of served_before) as [g|] eqn:G; [|vm_compute in G; discriminate].
  apply (watched_first ka kd 0 served_before g (Reg 1 ka kd 1 0)).
  - apply fresh_calm. vm_compute. reflexivity.
  - exact G.
  - vm_compute in G. injection G as <-. left. reflexivity.
  - reflexivity.
  - reflexivity.
  - reflexivity.
Qed.
Theorem C76_refuted : exists evs s g r, watched ka kd 0 (b_world (s_b s)) evs /\
  scalm s /\ group_of s = Some g /\ In r (g_regs g) /\ r_lo r = ka /\ r_hi r = kd /\
  r_start r = last_seen 0 evs + 1 /\ map ev_rev evs = [1; 2; 3] /\ map ev_rev (sent (s_out s) (r_id r)) = [1; 2; 3].
Proof.
  destruct before_watched as [W R]. exists (sent (s_out served_before) 1), served_after.
  destruct (group_of served_after) as [g|] eqn:G; [|vm_compute in G; discriminate]. exists g, (Reg 1 ka kd 4 0).
  split. { replace (b_world (s_b served_after)) with (b_world (s_b served_before)) by (vm_compute; reflexivity). exact W. }
  split; [apply fresh_calm; vm_compute; reflexivity|]. split; [reflexivity|].
  split. { vm_compute in G. injection G as <-. left. reflexivity. }
  split; [reflexivity|]. split; [reflexivity|]. split; [vm_compute; reflexivity|]. split; [exact R|vm_compute; reflexivity].
Qed.
Print Assumptions C76_refuted.

(** Three sessions: on one server, then on one that lags (everything seen is skipped,
    one more change arrives), then on one that had polled it all. *)
Definition lagging_session : sstate :=
  srun (three ++ creating ka kd 4 ++ [SBack (AEnv (AUpdate kb v1 2 0))] ++ polled ++ [SRecv; SSend]) (sopen (bstart init_world)).
Definition last_session : sstate :=
  srun (three ++ [SBack (AEnv (AUpdate kb v1 2 0))] ++ polled ++ [SRecv; SSend] ++ creating ka kd 5 ++ [SBack (AEnv (ADelete ka 1))] ++ polled ++ [SRecv; SSend]) (sopen (bstart init_world)).
Example C136_nonvacuous : exists w evs, watched ka kd 0 w evs /\ map ev_rev evs = [1; 2; 3; 4; 5] /\
  map ev_rev (sent (s_out lagging_session) 1) = [1; 2; 3; 4] /\ map ev_rev (sent (s_out last_session) 1) = [5].
Proof.
  destruct before_watched as [W R].
  assert (W2 : watched ka kd 0 (b_world (s_b lagging_session))
     (sent (s_out served_before) 1 ++ newer (last_seen 0 (sent (s_out served_before) 1)) (sent (s_out lagging_session) 1))).
  { destruct (group_of lagging_session) as [g|] eqn:G; [|vm_compute in G; discriminate].
    apply (watched_newer ka kd 0 _ _ lagging_session g (Reg 1 ka kd 4 0) W).
    - replace (b_world (s_b lagging_session)) with (wapply (b_world (s_b served_before)) (AUpdate kb v1 2 0)) by (vm_compute; reflexivity).
      apply wsteps_one; [constructor|]. apply allowedb_ok. vm_compute. reflexivity.
    - apply fresh_calm. vm_compute. reflexivity.
    - exact G.
    - vm_compute in G. injection G as <-. left. reflexivity.
    - reflexivity.
    - reflexivity.
    - vm_compute. reflexivity. }
  match type of W2 with watched _ _ _ _ ?e => set (evs := e) in * end.
  exists (b_world (s_b last_session)), (evs ++ sent (s_out last_session) 1).
  split; [|split; [|split]; vm_compute; reflexivity].
  destruct (group_of last_session) as [g|] eqn:G; [|vm_compute in G; discriminate].
  apply (watched_all ka kd 0 _ _ last_session g (Reg 1 ka kd 5 4) W2).
  - replace (b_world (s_b last_session)) with (wapply (b_world (s_b lagging_session)) (ADelete ka 1)) by (vm_compute; reflexivity).
    apply wsteps_one; [constructor|]. apply allowedb_ok. vm_compute. reflexivity.
  - apply fresh_calm. vm_compute. reflexivity.
  - exact G.
  - vm_compute in G. injection G as <-. left. reflexivity.
  - reflexivity.
  - reflexivity.
  - vm_compute. reflexivity.
  - vm_compute. discriminate.
Qed.
