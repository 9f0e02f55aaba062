(** Proofs for C224, C225: compaction requests of a running cluster. *)
From Coq Require Import List ZArith Bool Lia Arith.
From Verif Require Import Bytes Spec Sql System Prog Backend Limited Api Pool Ledger Observe SpecLemmas SqlLemmas Sim ProgLemmas ReadProgs Safety ApiLemmas StoreProofs ReadProofs SizeProofs LedgerLemmas CompactRunProofs Batch BatchProofs BatchKine Node NodeProofs Fair FairProofs Calm CalmProofs.
From Verif Require Import Watch Stream Resume Whole Ttl Cluster ClusterFair ClusterProofs ClusterFairProofs ClusterWatchProofs.
From Verif Require Import Bytes Spec Sql System Prog Calm CalmProofs.
Import ListNotations.
Open Scope Z_scope.

Lemma cwp_of_wp {A} (okf : fault -> Prop) (p : prog A) Q : okf NoFault -> forall w, wp okf p Q w -> cwp p Q w.
Proof.
  intros N. induction p as [a|c k IH]; intros w; [exact (fun H => H)|]. intros H w1 S _. destruct (H w1 S) as [_ K]. exact (IH _ _ (K NoFault N)).
Qed.
Lemma cwp_and {A} (p : prog A) (Q Q' : world -> A -> Prop) : forall w, cwp p Q w -> cwp p Q' w -> cwp p (fun w' a => Q w' a /\ Q' w' a) w.
Proof. induction p as [a|c k IH]; cbn [cwp]; auto. Qed.

(** the answer of a compaction request asked when the history was [h] *)
Definition emptied (h : history) (q : Pool.work) (w : world) (o : reply) : Prop :=
  q = WCompact -> o = ReDone (Ok tt) -> revision h - 100 <= floor_of (snd w).
Lemma emptied_steps h q w w' o : wsteps w w' -> emptied h q w o -> emptied h q w' o.
Proof. intros S H E1 E2. specialize (H E1 E2). destruct (wsteps_extends _ _ S) as [_ F]. lia. Qed.
Lemma c_emptied cfg q w : wreach w -> cwp (served cfg q) (emptied (history_of (snd w)) q) w.
Proof.
  intros HW. destruct q as [t|r| | |k rev]; try (eapply cwp_mono; [|apply cwp_true]; intros w1 o _ E; discriminate).
  cbn [served]. apply cwp_bind. eapply cwp_mono; [|apply (cwp_of_wp (leading cfg) _ _ (fun _ => ltac:(discriminate)) w (wp_run_floor cfg w HW))].
  intros w1 r H. cbn [cwp]. intros _ E. apply H. destruct r as [x|e]; [destruct x; reflexivity|discriminate].
Qed.
Record cleanly (n0 : nat) (s : lstate) : Prop := {
  N_live : forall i p, In (i, p) (l_procs s) -> (n0 <= i)%nat -> exists h q, asked_at (l_log s) i h q /\ cwp p (emptied h q) (l_world s);
  N_done : forall i o, In (Answered i o) (l_log s) -> (n0 <= i)%nat -> exists h q, asked_at (l_log s) i h q /\ emptied h q (l_world s) o }.
Lemma cleanly_step cfg n0 s s' : lreach cfg Prog.any_fault s -> cleanly n0 s -> lstep cfg (eq NoFault) s s' -> cleanly n0 s'.
Proof.
  intros H [ML MD] ST. pose proof (lreach_inv cfg _ nothing s nothing_stable (nothing_keeps _ _) H) as [VR VM VH VS VI VL _ _ _].
  destruct ST as [w ps log n q HQ|w ps1 i c k ps2 log n f O|w ps1 i o ps2 log n|w ps1 x ps2 log n]; cbn [l_world l_procs l_log l_next] in *.
  - constructor; cbn [l_world l_procs l_log].
    + intros i p [[= <- <-]|I] L.
      * exists (commits log), q. split; [exists log, []; auto|]. rewrite VH. now apply c_emptied.
      * destruct (ML i p I L) as (h & q' & A & P). exists h, q'. eauto using asked_more.
    + intros i o I L. apply in_app_iff in I. destruct I as [I|[I|[]]]; [|discriminate]. destruct (MD i o I L) as (h & q' & A & P). exists h, q'. eauto using asked_more.
  - subst f. apply Forall_app in VS. destruct VS as [_ VS2]. inversion VS2 as [|? ? VS3 _]; subst. cbn [snd] in VS3.
    destruct (VS3 w (wsteps_refl w)) as [OK _]. pose proof (sem_wsteps NoFault c w OK) as SW. constructor; cbn [l_world l_procs l_log].
    + intros i' p I L. apply in_app_iff in I. cbn [In] in I.
      assert (CASES : (i', p) = (i, k (snd (sem NoFault c w))) \/ In (i', p) (ps1 ++ (i, Call c k) :: ps2)) by (rewrite in_app_iff; cbn; destruct I as [I|[I|I]]; auto).
      destruct CASES as [[= -> ->]|I'].
      * destruct (ML i (Call c k)) as (h & q & A & P); [apply in_app_iff; cbn; auto|auto|]. exists h, q. split; [now apply asked_more|]. exact (P w (wsteps_refl w) VR).
      * destruct (ML i' p I' L) as (h & q & A & P). exists h, q. split; [now apply asked_more|]. eapply cwp_step; [|exact SW|exact P]. intros o. now apply emptied_steps.
    + intros i' o I L. apply in_app_iff in I. destruct I as [I|I]; [|apply in_map_iff in I; destruct I as (e & E & _); discriminate].
      destruct (MD i' o I L) as (h & q & A & P). exists h, q. split; [now apply asked_more|]. eapply emptied_steps; eauto.
  - constructor; cbn [l_world l_procs l_log].
    + intros i' p I L. destruct (ML i' p) as (h & q & A & P); [rewrite in_app_iff in *; cbn; tauto|auto|]. exists h, q. eauto using asked_more.
    + intros i' o' I L. apply in_app_iff in I. destruct I as [I|[[= <- <-]|[]]].
      * destruct (MD i' o' I L) as (h & q & A & P). exists h, q. eauto using asked_more.
      * destruct (ML i (Ret o)) as (h & q & A & P); [apply in_app_iff; cbn; auto|auto|]. exists h, q. eauto using asked_more.
  - constructor; cbn [l_world l_procs l_log]; auto. intros i' p I L. apply (ML i' p); auto. rewrite in_app_iff in *. cbn. tauto.
Qed.
Lemma cleanly_from cfg l0 s : lreach cfg Prog.any_fault l0 -> lfrom cfg (eq NoFault) l0 s -> lreach cfg Prog.any_fault s /\ cleanly (l_next l0) s.
Proof.
  intros H F. induction F as [|s s' F [IH1 IH2] ST].
  - split; [exact H|]. pose proof (lreach_inv cfg _ nothing l0 nothing_stable (nothing_keeps _ _) H) as [VR VM VH VS [_ VI] VL _ _ _]. constructor.
    + intros i p I L. apply VI in I. cbn in I. lia.
    + intros i o I L. apply VL in I. lia.
  - split; [econstructor; [exact IH1|]; eapply lstep_faults; [|exact ST]; intros; exact Logic.I|]. eapply cleanly_step; eauto.
Qed.

Lemma node_compacts cfg okf sch t0 t j : tolerant okf -> (forall t, turn_ok okf (sch t)) ->
  (forall t, (t0 <= t)%nat -> Calm.calm (sch t)) -> undisturbed (at_time cfg sch t0) -> (t0 <= t)%nat ->
  sch t = Other (NAsk j WCompact) -> (j < length (n_servers (at_time cfg sch t)))%nat -> commits (n_log (at_time cfg sch t)) <> [] ->
  let pid := n_next (at_time cfg sch t) in
  (forall t', (t < t')%nat -> sch t' <> Other (NCrash j)) -> again sch (fun x => exists f, x = Own pid f) -> batching j sch ->
  exists t', (t < t')%nat /\ In (Answered pid (ReDone (Ok tt))) (n_log (at_time cfg sch t')) /\
    revision (commits (n_log (at_time cfg sch t))) - 100 <= floor_of (snd (n_world (at_time cfg sch t'))).
Proof.
  intros T OK CALM U0 L0 E L NE pid NC OWN BAT. destruct (calm_answered cfg okf sch t0 t j WCompact T OK CALM U0 L0 E L NC OWN BAT) as (t' & o & L' & A & IO).
  fold pid in A. cbn [in_order] in IO. specialize (IO NE). subst o. exists t'. split; [exact L'|]. split; [exact A|].
  destruct (calm_view cfg okf sch t0 T OK CALM U0 t L0) as [U _].
  destruct (calm_view cfg okf sch t T OK (fun u X => CALM u (Nat.le_trans _ _ _ L0 X)) U t' ltac:(lia)) as [_ F1].
  destruct (st_reach cfg okf sch OK t) as [R0 _].
  destruct (cleanly_from cfg _ _ (lreach_faults cfg okf _ _ (fun _ _ => Logic.I) (node_view cfg okf _ T R0)) F1) as [_ [_ D]].
  destruct (D pid _ A (Nat.le_refl _)) as (h & q' & (B & C & EL & ->) & EM). cbn [nview l_log l_world] in EL, EM.
  destruct (calm_view cfg okf sch t0 T OK CALM U0 (S t) ltac:(lia)) as [U1 _].
  destruct (calm_view cfg okf sch (S t) T OK (fun u X => CALM u ltac:(lia)) U1 t' L') as [_ F]. destruct (lfrom_log _ _ _ _ F) as (l & LG). cbn [nview l_log] in LG.
  assert (E1 : n_log (at_time cfg sch (S t)) = n_log (at_time cfg sch t) ++ [Asked pid WCompact]).
  { cbn [at_time]. unfold take_turn, attempt. rewrite E. unfold pid. destruct (at_time cfg sch t) as [w sv ps log n]. cbn [n_servers n_next] in *. cbn [nstep].
    apply nth_error_Some in L. destruct (nth_error sv j); [|congruence]. reflexivity. }
  rewrite E1, <- app_assoc in LG. cbn [app] in LG.
  destruct (st_reach cfg okf sch OK t') as [R _]. pose proof (node_view cfg okf _ T R) as LR.
  pose proof (V_once _ _ _ _ (lreach_inv cfg _ nothing _ nothing_stable (nothing_keeps _ _) LR)) as ON. cbn [nview l_log] in ON.
  pose proof (ON _ _ _ _ EL) as O1. pose proof (ON _ _ _ _ LG) as O2.
  destruct (asked_unique pid _ _ _ _ _ _ (eq_trans (eq_sym EL) LG) O1 O2) as [-> ->]. exact (EM eq_refl eq_refl).
Qed.

Section Compact.
Variables (cfg : driver_cfg) (okf : fault -> Prop) (st : bool) (sch : nat -> cturn).
Hypothesis T : tolerant okf.
Hypothesis OK : forall t, cturn_ok okf st (cat cfg sch t) (sch t).
Local Notation S_ t := (cat cfg sch t).
Lemma cluster_floor t j tc : (forall t', (tc <= t')%nat -> ccalm (sch t')) -> undisturbed (cnode (S_ tc)) -> (tc <= t)%nat ->
  sch t = CStep (CWhole (KNode (NAsk j WCompact))) -> (j < length (n_servers (cnode (S_ t))))%nat -> commits (c_log (S_ t)) <> [] ->
  let pid := n_next (cnode (S_ t)) in
  (forall t', (t < t')%nat -> sch t' <> CStep (CWhole (KCrash j))) -> cagain sch (fun x => exists f, x = COwn pid f) -> cbatching j sch ->
  exists t', (t < t')%nat /\ In (Answered pid (ReDone (Ok tt))) (c_log (S_ t')) /\
    revision (commits (c_log (S_ t))) - 100 <= floor_of (snd (c_world (S_ t'))).
Proof.
  intros CALM U L E LJ NE pid NC OWN (B1 & B2 & B3).
  assert (SRV : forall u, (t <= u)%nat -> exists b, nth_error (n_servers (cnode (S_ u))) j = Some b) by (intros u Lu; exact (server_stays cfg okf st sch T OK t u j Lu LJ)).
  assert (NS : nsch cfg sch t = Other (NAsk j WCompact)).
  { unfold nsch. rewrite E. cbn [node_turn cstep whole_part]. assert (NX : not_expiry (S_ t) (KNode (NAsk j WCompact)) = true) by reflexivity. rewrite NX.
    destruct (SRV t (le_n _)) as [b SB]. unfold cnode in SB. destruct (c_whole (S_ t)) as [nd sv log n]. destruct nd as [w bs ps lg nx]. cbn [k_node n_servers] in SB. cbn [kstep nstep]. now rewrite SB. }
  destruct (node_compacts cfg okf (nsch cfg sch) tc t j T (nsch_ok cfg okf st sch T OK)) as (t' & Lt & AN & FL); auto.
  { intros u Lu. apply nsch_calm. auto. }
  { rewrite <- node_at. exact U. }
  { rewrite <- node_at. exact LJ. }
  { rewrite <- node_at, <- (log_node cfg okf st sch T OK). exact NE. }
  { intros u Lu. apply nsch_no_crash. auto. }
  { intros u. destruct (OWN u) as (u' & Lu & f & Eu). exists u'. split; [exact Lu|]. exists f. unfold nsch. rewrite Eu. cbn [node_turn]. unfold pid. now rewrite node_at. }
  { split; [|split].
    - intros u. destruct (B1 (t + u)%nat) as (u' & Lu & Eu). destruct (SRV u' ltac:(lia)) as [b SB]. exists u'. split; [lia|]. symmetry. eapply nsch_batch; eauto.
    - intros u. destruct (B2 (t + u)%nat) as (u' & Lu & f & Eu). destruct (SRV u' ltac:(lia)) as [b SB]. exists u'. split; [lia|]. exists f. eapply nsch_batch; eauto.
    - intros u. destruct (B3 (t + u)%nat) as (u' & Lu & Eu). destruct (SRV u' ltac:(lia)) as [b SB]. exists u'. split; [lia|]. symmetry. eapply nsch_batch; eauto. }
  exists t'. split; [exact Lt|]. rewrite <- !(node_at cfg sch), <- !(log_node cfg okf st sch T OK) in *. unfold pid. split; [exact AN|exact FL].
Qed.
Lemma lstep_wsteps okf' s s' : lreach cfg Prog.any_fault s -> lstep cfg okf' s s' -> wsteps (l_world s) (l_world s').
Proof.
  intros H ST. pose proof (lreach_inv cfg _ nothing s nothing_stable (nothing_keeps _ _) H) as [VR VM VH VS VI VL _ _ _].
  destruct ST as [w ps log n q HQ|w ps1 i c k ps2 log n f O|w ps1 i o ps2 log n|w ps1 x ps2 log n]; cbn [l_world l_procs] in *; try apply wsteps_refl.
  apply Forall_app in VS. destruct VS as [_ VS2]. inversion VS2 as [|? ? VS3 _]; subst. cbn [snd] in VS3. destruct (VS3 w (wsteps_refl w)) as [X _]. exact (sem_wsteps f c w X).
Qed.
Lemma lfrom_wsteps l0 s : lreach cfg Prog.any_fault l0 -> lfrom cfg (eq NoFault) l0 s -> wsteps (l_world l0) (l_world s).
Proof.
  intros H F. induction F as [|s s' F IH ST]; [apply wsteps_refl|]. eapply wsteps_trans; [exact IH|]. eapply lstep_wsteps; [|exact ST].
  exact (proj1 (calmly_from cfg _ _ H F)).
Qed.
Lemma cluster_world t : wreach (c_world (S_ t)) /\ commits (c_log (S_ t)) = history_of (snd (c_world (S_ t))).
Proof.
  rewrite (log_node cfg okf st sch T OK). change (c_world (S_ t)) with (n_world (cnode (S_ t))). rewrite (node_at cfg sch).
  destruct (st_reach cfg okf (nsch cfg sch) (nsch_ok cfg okf st sch T OK) t) as [R _]. pose proof (node_view cfg okf _ T R) as LR.
  pose proof (lreach_inv cfg _ nothing _ nothing_stable (nothing_keeps _ _) LR) as [VR _ VH _ _ _ _ _ _]. cbn [nview l_world l_log] in VR, VH. auto.
Qed.
Lemma floor_stays tc t t' : (forall t', (tc <= t')%nat -> ccalm (sch t')) -> undisturbed (cnode (S_ tc)) -> (tc <= t <= t')%nat ->
  floor_of (snd (c_world (S_ t))) <= floor_of (snd (c_world (S_ t'))).
Proof.
  intros CALM U L. change (c_world (S_ t)) with (n_world (cnode (S_ t))). change (c_world (S_ t')) with (n_world (cnode (S_ t'))). rewrite !(node_at cfg sch).
  pose proof (nsch_ok cfg okf st sch T OK) as NOK. assert (NC : forall u, (tc <= u)%nat -> Calm.calm (nsch cfg sch u)) by (intros u Lu; apply nsch_calm; auto).
  rewrite (node_at cfg sch) in U. destruct (calm_view cfg okf _ tc T NOK NC U t ltac:(lia)) as [U1 _].
  destruct (calm_view cfg okf _ t T NOK (fun u X => NC u ltac:(lia)) U1 t' ltac:(lia)) as [_ F].
  destruct (st_reach cfg okf _ NOK t) as [R _]. pose proof (lreach_faults cfg okf _ _ (fun _ _ => Logic.I) (node_view cfg okf _ T R)) as LR.
  exact (proj2 (wsteps_extends _ _ (lfrom_wsteps _ _ LR F))).
Qed.
Lemma cluster_compacts t j tc : (forall t', (tc <= t')%nat -> ccalm (sch t')) -> undisturbed (cnode (S_ tc)) -> (tc <= t)%nat ->
  sch t = CStep (CWhole (KNode (NAsk j WCompact))) -> (j < length (n_servers (cnode (S_ t))))%nat -> commits (c_log (S_ t)) <> [] ->
  let pid := n_next (cnode (S_ t)) in
  (forall t', (t < t')%nat -> sch t' <> CStep (CWhole (KCrash j))) -> cagain sch (fun x => exists f, x = COwn pid f) -> cbatching j sch ->
  exists t', (t < t')%nat /\ In (Answered pid (ReDone (Ok tt))) (c_log (S_ t')) /\ forall t'', (t' <= t'')%nat ->
    (forall r, supported_range r -> bounded (c_world (S_ t'')) r -> r_revision r <> 0 -> r_revision r < revision (commits (c_log (S_ t))) - 100 ->
      ask cfg (c_world (S_ t'')) r = Err ECompacted) /\
    (forall live, (forall k, value_of cfg (c_world (S_ t'')) k <> None -> In k live) ->
      Z.of_nat (length (rows (fst (c_world (S_ t''))))) <= Z.of_nat (length live) + 200 + 2 * (current cfg (c_world (S_ t'')) - current cfg (c_world (S_ t)))).
Proof.
  intros CALM U L E LJ NE pid NC OWN BAT. destruct (cluster_floor t j tc CALM U L E LJ NE NC OWN BAT) as (t' & Lt & AN & FL).
  exists t'. split; [exact Lt|]. split; [exact AN|]. intros t'' L2. pose proof (floor_stays tc t' t'' CALM U ltac:(lia)) as FS.
  destruct (cluster_world t'') as [HW HH]. destruct (cluster_world t) as [HW0 HH0]. split.
  - intros r SU BO NZ LT. apply ask_refused_iff; auto. split; auto. lia.
  - intros live LV. rewrite !current_rev by auto. pose proof (rows_bound _ live HW ltac:(intros k N; apply LV; rewrite value_of_now by auto; exact N)) as RB.
    rewrite HH0 in FL. lia.
Qed.
(** the compaction goroutine of one server asks again and again *)
Lemma cluster_refused j tc t : (forall t', (tc <= t')%nat -> ccalm (sch t')) -> undisturbed (cnode (S_ tc)) ->
  (j < length (n_servers (cnode (S_ tc))))%nat -> cagain sch (fun x => x = CStep (CWhole (KNode (NAsk j WCompact)))) ->
  (forall t', (tc <= t')%nat -> sch t' <> CStep (CWhole (KCrash j))) -> (forall pid, cagain sch (fun x => exists f, x = COwn pid f)) -> cbatching j sch ->
  exists t', forall t'' r, (t' <= t'')%nat -> supported_range r -> bounded (c_world (S_ t'')) r -> r_revision r <> 0 ->
    r_revision r < revision (commits (c_log (S_ t))) - 100 -> ask cfg (c_world (S_ t'')) r = Err ECompacted.
Proof.
  intros CALM U LJ AG NC OWN BAT. destruct (AG (tc + t)%nat) as (t1 & L1 & E).
  destruct (log_grows cfg okf st sch T OK t t1 ltac:(lia)) as [l EL].
  assert (RG : revision (commits (c_log (S_ t))) <= revision (commits (c_log (S_ t1)))) by (rewrite EL, commits_app, revision_app; unfold revision; lia).
  destruct (commits (c_log (S_ t1))) as [|e0 h0] eqn:HE.
  { exists 0%nat. intros t'' r _ SU BO NZ LT. cbn in RG. destruct (cluster_world t'') as [HW HH]. apply ask_refused_iff; auto. split; [exact NZ|].
    destruct (floor_bounds _ HW) as [F0 _]. lia. }
  assert (LJ1 : (j < length (n_servers (cnode (S_ t1))))%nat).
  { destruct (server_stays cfg okf st sch T OK tc t1 j ltac:(lia) LJ) as [b N]. apply nth_error_Some. congruence. }
  destruct (cluster_compacts t1 j tc CALM U ltac:(lia) E LJ1 ltac:(rewrite HE; discriminate) (fun u X => NC u ltac:(lia)) (OWN _) BAT) as (t' & _ & _ & G).
  exists t'. intros t'' r L2 SU BO NZ LT. rewrite HE in G. apply (proj1 (G t'' L2) r SU BO NZ). lia.
Qed.
End Compact.
