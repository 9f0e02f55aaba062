(** Concrete runs of the watch machinery. *)
From Coq Require Import List ZArith Bool Lia Sorting.Sorted.
From Verif Require Import Bytes Spec Sql System Prog Backend Watch SpecLemmas SqlLemmas Sim ReadLemmas ProgLemmas ReadProgs WatchLemmas WatchProofs WatchResults Api Pool Observe Demo.
Import ListNotations.
Open Scope Z_scope.

Definition brun (acts : list action) (s : bstate) : bstate := fold_left bstep acts s.
Definition possibleb (s : bstate) (a : action) : bool :=
  match a with
  | AEnv op => allowedb (snd (b_world s)) op
  | AWatch _ _ hi _ => negb (beqb hi [])
  | _ => true
  end.
Lemma possibleb_ok s a : possibleb s a = true -> possible s a.
Proof.
  destruct a; simpl; auto using allowedb_ok. rewrite negb_true_iff. intros H ->. rewrite beqb_refl in H. discriminate.
Qed.
Definition keptb (s : store) (a : Z) : bool :=
  (floor_of s <=? a) || ((floor_of s =? a + 1) && match nth_error (history_of s) (Z.to_nat a) with Some (Entry _ Del) => false | _ => true end).
Lemma keptb_ok s a : keptb s a = true -> kept s a.
Proof.
  unfold keptb, kept. rewrite orb_true_iff, andb_true_iff, Z.leb_le, Z.eqb_eq. intros [H|[H K]]; auto. right. split; auto.
  intros k E. rewrite E in K. discriminate.
Qed.
Definition calmb (s : bstate) (a : action) : bool :=
  match a with
  | AFetch _ => keptb (snd (b_world s)) (b_poll s)
  | AQuery i id f => match f with CutRows _ _ => false | _ => true end &&
      match nth_error (b_groups s) i with
      | Some g => match pending_of id g with Some (r, _) => keptb (snd (b_world s)) (r_start r - 1) | None => true end
      | None => true
      end
  | _ => true
  end.
Lemma calmb_ok s a : calmb s a = true -> calm s a.
Proof.
  destruct a; simpl; auto using keptb_ok. rewrite andb_true_iff. intros [A B]. split; [destruct f; simpl; auto; discriminate|].
  intros g r p N P. rewrite N, P in B. now apply keptb_ok.
Qed.
Fixpoint brun_ok (calm_too : bool) (s : bstate) (acts : list action) : bool :=
  match acts with
  | [] => true
  | a :: rest => possibleb s a && (negb calm_too || calmb s a) && brun_ok calm_too (bstep s a) rest
  end.
Lemma brun_breach acts : forall s c, breach s -> brun_ok c s acts = true -> breach (brun acts s).
Proof.
  induction acts as [|a acts IH]; simpl; auto. intros s c H. rewrite !andb_true_iff. intros [[A _] B].
  apply (IH _ c); auto. apply breach_step; auto using possibleb_ok.
Qed.
Lemma brun_calm acts : forall s, calm_reach s -> brun_ok true s acts = true -> calm_reach (brun acts s).
Proof.
  induction acts as [|a acts IH]; simpl; auto. intros s H. rewrite !andb_true_iff. intros [[A A'] B].
  apply IH; auto. apply calm_step; auto using possibleb_ok, calmb_ok.
Qed.
Definition revs (us : list update) (id : Z) : list Z := map ev_rev (delivered us id).

Definition kd : bytes := [100%N].
(** ---- a healthy run: on the demo store (floor 5, revision 8) ---- *)
Definition healthy_acts : list action :=
  [ANewGroup; AWatch 0 ka kd 6; ACheck 0 1 NoFault; AFetch NoFault; AEnv (ACreate kd v1 0);
   APublish; AQuery 0 1 NoFault; AEnv (AUpdate ka v3 4 0); AWatch 0 kb kc 0; AFinish 0 1; AFetch NoFault; APublish; ATake 0;
   AWatch 0 ka kb 11; ACheck 0 3 NoFault; AUnwatch 0 3; AEnv (ADelete kb 7); AFetch NoFault].
Definition healthy : bstate := brun healthy_acts (bstart demo).
Lemma healthy_calm : calm_reach healthy.
Proof. apply brun_calm; [apply calm_start, demo_reach|]. vm_compute. reflexivity. Qed.
Lemma healthy_facts :
  b_poll healthy = 10 /\ revision (history_of (snd (b_world healthy))) = 11 /\ b_dead healthy = false /\
  exists g evs, nth_error (b_groups healthy) 0 = Some g /\ b_batch healthy = Some evs /\ g_open g = true /\
    map (fun r => (r_id r, r_start r, begins r)) (g_regs g) = [(1, 6, 5); (2, 0, 8); (3, 11, 10)] /\
    g_returns g = [(2, WOk); (1, WOk)] /\ g_cancelled g = [3] /\
    revs (g_updates g) 1 = [6; 7; 8; 10] /\
    exists g', nth_error (b_groups (bstep healthy APublish)) 0 = Some g' /\ g_open g' = true /\
    revs (g_updates g') 1 = [6; 7; 8; 10; 11] /\ revs (g_updates g') 2 = [11] /\ revs (g_updates g') 3 = [].
Proof. vm_compute. repeat split; eauto. do 2 eexists. repeat split. eexists. repeat split. Qed.

(** ---- old events: the poller lags behind the store ---- *)
Definition lag_acts (start : Z) : list action :=
  [AEnv (ACreate ka v1 0); AEnv (ACreate kb v2 0); AEnv (ACreate kc v3 0); ANewGroup; AWatch 0 ka kd start; ACheck 0 1 NoFault;
   AQuery 0 1 NoFault; AFinish 0 1; AFetch NoFault; APublish].
Definition lagging (start : Z) : bstate := brun (lag_acts start) (bstart init_world).
Lemma init_reach : wreach init_world.
Proof. apply reach_init. Qed.
Lemma lagging_old : calm_reach (lagging 4) /\ exists g r, nth_error (b_groups (lagging 4)) 0 = Some g /\ In r (g_regs g) /\
  r_start r = 4 /\ In (r_id r, WOk) (g_returns g) /\ revs (g_updates g) (r_id r) = [1; 2; 3].
Proof.
  split; [apply brun_calm; [apply calm_start, init_reach|]; vm_compute; reflexivity|].
  vm_compute. do 2 eexists. split; [reflexivity|]. repeat split; simpl; auto.
Qed.
(** a watch from now *)
Definition lag0_before : bstate := brun (firstn 4 (lag_acts 0)) (bstart init_world).
Lemma lagging_zero : calm_reach (lagging 0) /\ revision (history_of (snd (b_world lag0_before))) = 3 /\
  lagging 0 = brun (skipn 4 (lag_acts 0)) lag0_before /\
  exists g r, nth_error (b_groups (lagging 0)) 0 = Some g /\ In r (g_regs g) /\
  r_start r = 0 /\ In (r_id r, WOk) (g_returns g) /\ revs (g_updates g) (r_id r) = [1; 2; 3].
Proof.
  split; [apply brun_calm; [apply calm_start, init_reach|]; vm_compute; reflexivity|].
  split; [reflexivity|]. split; [reflexivity|].
  vm_compute. do 2 eexists. split; [reflexivity|]. repeat split; simpl; auto.
Qed.

Ltac vmc := vm_compute; first [reflexivity | left; reflexivity].
Ltac vmcs := repeat (refine (conj _ _); [vmc|]); vmc.

(** ---- compaction with its margin of 100 revisions ---- *)
Definition many (n : nat) : list aop := map (fun i => ACreate [121%N; N.of_nat i] [] 0) (List.seq 0 n).
(** a created (2), deleted (3); 103 revisions; compaction to 3 *)
Definition tomb_ops : list aop :=
  [ACreate compact_rev_key [] 0; ACreate ka v1 0; ADelete ka 2] ++ many 100 ++ [ACompact 0 3].
Definition tomb : world := fold_left wapply tomb_ops init_world.
Lemma tomb_reach : wreach tomb.
Proof. apply (wsteps_reach init_world); [apply reach_init|]. apply wsteps_env, env_okb_ok. vm_compute. reflexivity. Qed.
Definition watch_acts (start : Z) : list action :=
  [ANewGroup; AWatch 0 ka kb start; ACheck 0 1 NoFault; AQuery 0 1 NoFault; AFinish 0 1; AFetch NoFault; APublish; AFetch NoFault; APublish].
(** the server is up to date before the watch *)
Definition tomb_watch : bstate := brun ([AFetch NoFault; APublish] ++ watch_acts 3) (bstart tomb).
Lemma tomb_lost : breach tomb_watch /\ floor_of (snd (b_world tomb_watch)) = 3 /\
  nth_error (history_of (snd (b_world tomb_watch))) 2 = Some (Entry ka Del) /\
  b_poll tomb_watch = revision (history_of (snd (b_world tomb_watch))) /\
  exists g r, nth_error (b_groups tomb_watch) 0 = Some g /\ g_open g = true /\ In r (g_regs g) /\
  r_start r = 3 /\ r_lo r = ka /\ r_hi r = kb /\ In (r_id r, WOk) (g_returns g) /\ g_cancelled g = [] /\ revs (g_updates g) (r_id r) = [].
Proof.
  split; [apply brun_breach with false; [apply breach_start, tomb_reach|]; vm_compute; reflexivity|].
  split; [vmc|]. split; [vmc|]. split; [vmc|].
  exists (nth 0 (b_groups tomb_watch) (Group 0 [] [] [] 0 true [] [] [])), (Reg 1 ka kb 3 103).
  vmcs.
Qed.

(** compaction between the check and the query: the watch starts at 3, above the
    floor when it is checked *)
Definition race_ops : list aop :=
  [ACreate compact_rev_key [] 0; ACreate ka v1 0; AUpdate ka v2 2 0; AUpdate ka v3 3 0] ++ many 100.
Definition race0 : world := fold_left wapply race_ops init_world.
Lemma race0_reach : wreach race0.
Proof. apply (wsteps_reach init_world); [apply reach_init|]. apply wsteps_env, env_okb_ok. vm_compute. reflexivity. Qed.
Definition race_watch : bstate :=
  brun [AFetch NoFault; APublish; ANewGroup; AWatch 0 ka kb 3; ACheck 0 1 NoFault; AEnv (ACompact 0 4); AQuery 0 1 NoFault; AFinish 0 1;
        AFetch NoFault; APublish] (bstart race0).
Lemma race_lost : breach race_watch /\ b_poll race_watch = revision (history_of (snd (b_world race_watch))) /\
  nth_error (history_of (snd (b_world race_watch))) 2 = Some (Entry ka (Put v2 0)) /\
  exists g r, nth_error (b_groups race_watch) 0 = Some g /\ g_open g = true /\ In r (g_regs g) /\
  r_start r = 3 /\ r_lo r = ka /\ r_hi r = kb /\ In (r_id r, WOk) (g_returns g) /\ g_cancelled g = [] /\ revs (g_updates g) (r_id r) = [4].
Proof.
  split; [apply brun_breach with false; [apply breach_start, race0_reach|]; vm_compute; reflexivity|].
  split; [vmc|]. split; [vmc|].
  exists (nth 0 (b_groups race_watch) (Group 0 [] [] [] 0 true [] [] [])), (Reg 1 ka kb 3 104).
  vmcs.
Qed.

(** the poller falls more than 100 revisions behind and compaction overtakes it *)
Definition overtaken : bstate :=
  brun ([ANewGroup; AWatch 0 ka kb 1; ACheck 0 1 NoFault; AQuery 0 1 NoFault; AFinish 0 1] ++ map AEnv race_ops ++
        [AEnv (ACompact 0 4); AFetch NoFault; APublish; AFetch NoFault; APublish]) (bstart init_world).
Lemma overtaken_lost : breach overtaken /\ b_poll overtaken = revision (history_of (snd (b_world overtaken))) /\
  map (fun r => nth_error (history_of (snd (b_world overtaken))) r) [1%nat; 2%nat; 3%nat] =
    [Some (Entry ka (Put v1 0)); Some (Entry ka (Put v2 0)); Some (Entry ka (Put v3 0))] /\
  exists g r, nth_error (b_groups overtaken) 0 = Some g /\ g_open g = true /\ In r (g_regs g) /\
  r_start r = 1 /\ r_lo r = ka /\ r_hi r = kb /\ In (r_id r, WOk) (g_returns g) /\ g_cancelled g = [] /\ revs (g_updates g) (r_id r) = [4].
Proof.
  split; [apply brun_breach with false; [apply breach_start, init_reach|]; vm_compute; reflexivity|].
  split; [vmc|]. split; [vmc|].
  exists (nth 0 (b_groups overtaken) (Group 0 [] [] [] 0 true [] [] [])), (Reg 1 ka kb 1 0).
  vmcs.
Qed.

(** a refused_run watch keeps collecting events *)
Definition refused_run : bstate :=
  brun ([AFetch NoFault; APublish; ANewGroup; AWatch 0 ka kb 2; ACheck 0 1 NoFault; AEnv (ACreate ka v1 0); AFetch NoFault; APublish]) (bstart tomb).
Lemma refused_stays : breach refused_run /\
  exists g w, nth_error (b_groups refused_run) 0 = Some g /\ g_returns g = [(1, WCompacted 3 103)] /\
   g_watchers g = [w] /\ r_id (w_reg w) = 1 /\ w_init w = false /\ map ev_rev (w_events w) = [104].
Proof.
  split; [apply brun_breach with false; [apply breach_start, tomb_reach|]; vm_compute; reflexivity|].
  exists (nth 0 (b_groups refused_run) (Group 0 [] [] [] 0 true [] [] [])).
  exists (nth 0 (g_watchers (nth 0 (b_groups refused_run) (Group 0 [] [] [] 0 true [] [] []))) (Watcher (Reg 0 [] [] 0 0) true [])).
  vmcs.
Qed.
