(** Proofs for C226: a watch refused as compacted is compacted. *)
From Coq Require Import List ZArith Bool Lia Arith.
From Verif Require Import Bytes Spec Sql System Prog Backend Limited Api Pool Ledger Observe Batch BatchKine Node Fair Watch Stream Resume Whole.
From Verif Require Import SpecLemmas SqlLemmas Sim ProgLemmas ReadProofs Safety ApiLemmas LedgerLemmas LedgerMore NodeProofs FairProofs WatchLemmas WatchProofs WatchResults StreamProofs ResumeProofs WholeProofs FairWatch FairWatchProofs FairCreateProofs.
From Verif Require Import Watch Stream Whole FairWatch Observe.
Import ListNotations.
Open Scope Z_scope.

(** every refusal names a registration whose start was below the floor *)
Definition justified (s : sstate) : Prop := forall n rev, nth_error (ans (s_out s)) n = Some (MCompacted rev) ->
  exists r, nth_error (regs_of s) n = Some r /\ 0 < r_start r < floor_of (snd (b_world (s_b s))) /\ rev <= revision (hist s).
Lemma justified_more s s' l : justified s -> ans (s_out s') = ans (s_out s) -> regs_of s' = regs_of s ++ l ->
  floor_of (snd (b_world (s_b s))) <= floor_of (snd (b_world (s_b s'))) -> revision (hist s) <= revision (hist s') -> justified s'.
Proof.
  intros H E1 E2 F V n rev N. rewrite E1 in N. destruct (H n rev N) as (r & R & B & C). exists r. split; [|split; lia]. rewrite E2. now apply nth_app_some.
Qed.
Lemma own_out s g id a f : SI s g -> s_creating s = Some id -> bstep (s_b s) a = set_group (s_b s) (s_i s) f ->
  (forall r p, g_pending g = [(r, p)] -> r_id r = id -> let g' := f g in
  (exists r p, g_pending g' = [(r, p)] /\ r_id r = id) /\ g_returns g' = g_returns g \/
  g_pending g' = [] /\ exists res, g_returns g' = g_returns g ++ [(id, res)]) ->
  s_out (watch_step s id a) = s_out s \/
  exists m res, s_out (watch_step s id a) = s_out s ++ [m] /\ is_answer m = true /\ g_returns (f g) = g_returns g ++ [(id, res)] /\ forall rev, m = MCompacted rev -> exists fl, res = WCompacted fl rev.
Proof.
  intros J CR E C. pose proof (I_pending _ _ J) as P. rewrite CR in P. destruct P as (r & p & PP & RI).
  pose proof (breach_gret _ _ _ (I_breach _ _ J) (I_group _ _ J)) as GR.
  assert (NR : forall res, ~ In (id, res) (g_returns g)).
  { intros res X. destruct (Q_ret _ GR _ _ X) as [_ K]. apply (K (r, p)); [rewrite PP; simpl; auto|auto]. }
  assert (N : nth_error (b_groups (bstep (s_b s) a)) (s_i s) = Some (f g)) by (rewrite E; apply set_group_nth; apply (I_group _ _ J)).
  unfold watch_step. unfold group_of. cbn [with_b s_b s_i]. rewrite N.
  specialize (C r p PP RI). cbv zeta in C. destruct C as [[_ RT]|[_ [res RT]]]; rewrite RT.
  - rewrite (find_none_ret g id NR). left. reflexivity.
  - rewrite (returns_find g id res GR NR). right. destruct res; cbn; do 2 eexists; (split; [reflexivity|]); (split; [reflexivity|]); (split; [reflexivity|]); intros rev X; try discriminate; injection X as <-; eauto.
Qed.
Lemma justified_cont s g id a f : SI s g -> AN s -> justified s -> s_creating s = Some id -> bstep (s_b s) a = set_group (s_b s) (s_i s) f -> g_regs (f g) = g_regs g ->
  (forall r p, g_pending g = [(r, p)] -> r_id r = id -> let g' := f g in
  (exists r p, g_pending g' = [(r, p)] /\ r_id r = id) /\ g_returns g' = g_returns g \/
  g_pending g' = [] /\ exists res, g_returns g' = g_returns g ++ [(id, res)]) ->
  (forall r p fl rev, g_pending g = [(r, p)] -> r_id r = id -> g_returns (f g) = g_returns g ++ [(id, WCompacted fl rev)] ->
     r_start r < floor_of (snd (b_world (s_b s))) /\ rev <= revision (hist s)) -> justified (watch_step s id a).
Proof.
  intros J A H CR E EG C D. pose proof (I_group _ _ J) as G.
  assert (W : b_world (s_b (watch_step s id a)) = b_world (s_b s)) by (destruct (watch_step_b s id a) as [F1 _]; rewrite F1, E; reflexivity).
  assert (HI : hist (watch_step s id a) = hist s) by (unfold hist; now rewrite W).
  assert (RR : regs_of (watch_step s id a) = regs_of s).
  { unfold regs_of, group_of. destruct (watch_step_b s id a) as [F1 F2]. rewrite F1, F2, E, (set_group_nth _ _ f g G). unfold group_of in G. now rewrite G. }
  destruct (own_out s g id a f J CR E C) as [O|(m & res & O & IA & RT & MC)].
  - apply (justified_more s _ []); [exact H|now rewrite O|now rewrite app_nil_r|rewrite W; lia|rewrite HI; lia].
  - intros n rev N. rewrite O, ans_app in N. rewrite RR, W, HI. unfold ans at 2 in N. cbn [filter] in N. rewrite IA in N.
    destruct (Nat.lt_ge_cases n (length (ans (s_out s)))) as [L|L]; [rewrite nth_error_app1 in N by exact L; exact (H n rev N)|].
    rewrite nth_error_app2 in N by exact L. destruct (n - length (ans (s_out s)))%nat as [|k] eqn:K; cbn in N; [|destruct k; discriminate].
    injection N as N. destruct (MC rev N) as [fl ->]. pose proof (I_pending _ _ J) as P. rewrite CR in P. destruct P as (r & p & PP & RI).
    pose proof (A_count _ A) as AC. unfold made in AC. rewrite CR in AC. pose proof (A_cur _ A id CR) as AI.
    pose proof (breach_Binv _ (I_breach _ _ J)) as B. pose proof (group_inv _ _ _ _ B G) as GI.
    destruct (G_p _ _ _ _ GI (r, p) ltac:(rewrite PP; simpl; auto)) as [IR PO]. cbn [fst] in IR, PO.
    destruct (In_nth_error _ _ IR) as [k KN]. pose proof (G_ids _ _ _ _ GI _ _ KN) as KI. assert (regs_of s = g_regs g) as RG by (unfold regs_of; now rewrite G).
    exists r. split; [rewrite RG; replace n with k by lia; exact KN|]. destruct (D r p fl rev PP RI RT) as [D1 D2]. split; [lia|exact D2].
Qed.
Lemma app_one_inv {X} (l : list X) x : l <> l ++ [x].
Proof. intros E. apply (f_equal (@length X)) in E. rewrite app_length in E. cbn in E. lia. Qed.
Lemma justified_step s g a : SI s g -> AN s -> back_ok s a possible -> justified s -> justified (sstep s a).
Proof.
  intros J A OK H. pose proof (I_group _ _ J) as G. pose proof (breach_Binv _ (I_breach _ _ J)) as B.
  assert (SAME : forall s', s_b s' = s_b s -> s_i s' = s_i s -> ans (s_out s') = ans (s_out s) -> justified s').
  { intros s' E1 E2 E3. apply (justified_more s s' []); auto; [rewrite app_nil_r; unfold regs_of, group_of; now rewrite E1, E2|rewrite E1; lia|unfold hist; rewrite E1; lia]. }
  assert (GRP : forall s' f, s_b s' = set_group (s_b s) (s_i s) f -> s_i s' = s_i s -> g_regs (f g) = g_regs g -> ans (s_out s') = ans (s_out s) -> justified s').
  { intros s' f E1 E2 ER E3. apply (justified_more s s' []); auto; [|rewrite E1; cbn; lia|unfold hist; rewrite E1; cbn; lia].
    rewrite app_nil_r. unfold regs_of, group_of. rewrite E1, E2, (set_group_nth _ _ f g G). unfold group_of in G. now rewrite G. }
  unfold sstep. destruct a as [a| | | | |wid lo hi start|f|f| |id| | | ].
  - destruct (foreign (s_i s) a) eqn:F; [|exact H]. destruct (foreign_group (s_b s) a (s_i s) g F G) as (g' & N & _ & E2 & _).
    assert (X : wsteps (b_world (s_b s)) (b_world (bstep (s_b s) a))).
    { destruct a as [op|f| | |k|k lo' hi' st1|k id' f|k id' f|k id'|k id'|k]; try exact (wsteps_refl _).
      - cbn [bstep b_world]. cbn [back_ok possible] in OK. eapply wsteps_one; [apply wsteps_refl|exact OK].
      - cbn [bstep]. unfold fetch. destruct (b_dead (s_b s)); [apply wsteps_refl|]. destruct (b_batch (s_b s)); [apply wsteps_refl|]. destruct (snd _) as [x|[]]; apply wsteps_refl.
      - cbn [bstep]. unfold publish_all. destruct (b_batch (s_b s)); apply wsteps_refl. }
    destruct (wsteps_extends _ _ X) as [(hl & EH) FL].
    apply (justified_more s _ []); auto; [|unfold hist; cbn [with_b s_b]; rewrite EH, revision_app; unfold revision; lia].
    rewrite app_nil_r. unfold regs_of, group_of. cbn [with_b s_b s_i]. rewrite N. unfold group_of in G. now rewrite G.
  - destruct (s_done s); [exact H|]. unfold s_recv. destruct (s_hold s); [exact H|]. rewrite G. destruct (nth_error _ _); [|destruct (g_open g); [exact H|apply SAME; auto]].
    apply (GRP _ take); auto. unfold take. destruct (_ <? _)%nat; reflexivity.
  - unfold s_send. destruct (s_hold s); [|exact H]. destruct (s_creating s); [exact H|]. apply SAME; auto. cbn [s_out]. rewrite ans_app, ans_none by reflexivity. apply app_nil_r.
  - unfold s_tick. destruct (s_creating s); [exact H|]. apply SAME; auto. cbn [s_out]. rewrite ans_app, ans_none by reflexivity. apply app_nil_r.
  - destruct (s_ended s); [exact H|]. unfold s_progress_req. destruct (s_creating s); [exact H|]. destruct (s_closing s); [exact H|]. apply SAME; auto. cbn [s_out]. rewrite ans_app. apply app_nil_r.
  - destruct (s_ended s); [exact H|]. unfold s_create. destruct (s_creating s) eqn:CR; [exact H|]. destruct (s_closing s) eqn:CL; [exact H|]. rewrite G.
    destruct (negb _); [apply SAME; auto|].
    set (id := Z.of_nat (length (g_regs g)) + 1).
    set (s1 := SState (s_b s) (s_i s) (s_rev s) (s_hold s) (s_progress s) (s_out s) (Some id) None (s_done s) (s_ended s)).
    set (a := AWatch (s_i s) lo (range_end lo hi) start).
    pose proof (breach_gret _ _ _ (I_breach _ _ J) G) as GR.
    assert (NR : forall res, ~ In (id, res) (g_returns g)) by (intros res X; destruct (Q_ret _ GR _ _ X) as [K _]; unfold id in K; lia).
    assert (N : nth_error (b_groups (bstep (s_b s) a)) (s_i s) = Some (watch_begin lo (range_end lo hi) start g)) by (cbn [a bstep]; apply set_group_nth, G).
    assert (RW : exists l, regs_of (watch_step s1 id a) = regs_of s ++ l).
    { assert (RG : regs_of s = g_regs g) by (unfold regs_of; now rewrite G). rewrite RG. unfold regs_of, group_of. destruct (watch_step_b s1 id a) as [F1 F2]. rewrite F1, F2. cbn [s1 s_b s_i]. rewrite N.
      unfold watch_begin. destruct (0 <? start); cbn [g_regs]; eauto. }
    assert (WW : b_world (s_b (watch_step s1 id a)) = b_world (s_b s)) by (destruct (watch_step_b s1 id a) as [F1 _]; rewrite F1; reflexivity).
    assert (CASES : s_out (watch_step s1 id a) = s_out s \/ s_out (watch_step s1 id a) = s_out s ++ [MCreated id]).
    { unfold watch_step, group_of. cbn [with_b s_b s_i s1]. rewrite N. unfold watch_begin. destruct (0 <? start); cbn [g_returns].
      - rewrite (find_none_ret g id NR). left. auto.
      - cbn [r_id]. fold id. rewrite (returns_find g id WOk GR NR). right. auto. }
    destruct RW as [l RW]. intros n rev X.
    assert (Y : nth_error (ans (s_out s)) n = Some (MCompacted rev)).
    { destruct CASES as [O|O]; rewrite O in X; [exact X|]. rewrite ans_app in X. destruct (Nat.lt_ge_cases n (length (ans (s_out s)))) as [L|L]; [now rewrite nth_error_app1 in X by exact L|].
      rewrite nth_error_app2 in X by exact L. destruct (n - length (ans (s_out s)))%nat as [|k]; cbn in X; [discriminate|destruct k; discriminate]. }
    destruct (H n rev Y) as (r & R & BD & C). exists r. rewrite RW, WW. unfold hist in *. rewrite WW. split; [now apply nth_app_some|auto].
  - destruct (s_creating s) as [id|] eqn:CR; [|exact H].
    apply (justified_cont s g id _ (watch_check id f (b_world (s_b s)))); auto; [apply check_keeps|apply check_cases|].
    intros r p fl rev PP RI. unfold watch_check. rewrite (pending_single _ _ _ _ PP RI). destruct p; try (intros X; now apply app_one_inv in X).
    pose proof (interval_result_ok (b_world (s_b s)) f (B_reach _ _ B)) as IO. destruct (interval_result f (b_world (s_b s))) as [x|e].
    + subst x. destruct (Z.ltb_spec (r_start r) (floor_of (snd (b_world (s_b s))))) as [LT|GE]; cbn [g_returns]; [|intros X; now apply app_one_inv in X].
      intros X. apply app_inv_head in X. injection X as _ <-. unfold hist. split; [exact LT|lia].
    + cbn [g_returns]. intros X. apply app_inv_head in X. discriminate.
  - destruct (s_creating s) as [id|] eqn:CR; [|exact H].
    apply (justified_cont s g id _ (watch_query id f (b_world (s_b s)))); auto; [apply query_keeps|apply query_cases|].
    intros r p fl rev PP RI. unfold watch_query. rewrite (pending_single _ _ _ _ PP RI). destruct p; try (intros X; now apply app_one_inv in X).
    destruct (snd (sem f _ _)); cbn [g_returns]; intros X; [now apply app_one_inv in X|]. apply app_inv_head in X. discriminate.
  - destruct (s_creating s) as [id|] eqn:CR; [|exact H].
    apply (justified_cont s g id _ (watch_finish id)); auto; [apply finish_keeps|apply finish_cases|].
    intros r p fl rev PP RI. unfold watch_finish. rewrite (pending_single _ _ _ _ PP RI). destruct p; try (intros X; now apply app_one_inv in X).
    cbn [g_returns]. intros X. apply app_inv_head in X. discriminate.
  - destruct (s_ended s); [exact H|]. unfold s_cancel. destruct (s_creating s); [exact H|]. destruct (s_closing s); [exact H|]. apply (GRP _ (unwatch id)); auto.
  - unfold s_forget. destruct (s_closing s); [|exact H]. apply SAME; auto.
  - unfold s_eof. destruct (s_creating s); [exact H|]. destruct (s_closing s); [exact H|]. apply SAME; auto.
  - destruct (s_ended s); [|exact H]. apply (GRP _ stop_group); auto.
Qed.
Lemma sreach_justified s : sreach s -> justified s.
Proof.
  induction 1 as [b B|s a H IH OK].
  - intros n rev N. cbn in N. destruct n; discriminate.
  - destruct (sreach_SI _ H) as [g J]. eapply justified_step; eauto. now apply sreach_AN.
Qed.
(** the system *)
Lemma truly_compacted cfg okf c s j i conn st : tolerant okf -> kreach cfg okf c s -> stream_of s j i = Some (conn, st) ->
  forall n rev, nth_error (answers conn (k_log s)) n = Some (MCompacted rev) ->
  exists id lo hi start, nth_error (requests conn (k_log s)) n = Some (id, lo, hi, start) /\ 0 < start < floor_of (snd (n_world (k_node s))) /\ rev <= revision (commits (dids (k_log s))).
Proof.
  intros TO KR ST n rev A. pose proof (kreach_KI cfg okf c TO s KR) as J. destruct (stream_inv cfg okf c TO s j i conn st J ST) as (v & s0 & _ & _ & EQ & RS & S & W & HI).
  pose proof (rs_sreach _ _ RS) as SR. assert (EA : answers conn (k_log s) = ans (s_out st)) by (unfold answers; rewrite S; reflexivity). rewrite EA in A.
  destruct (sreach_justified _ SR n rev A) as (r & R & B & C). rewrite HI in C. assert (b_world (s_b st) = n_world (k_node s)) as EW by (rewrite EQ; reflexivity). rewrite EW in B.
  change (requests conn (k_log s)) with (watches conn (k_log s)). rewrite W, nth_error_map, R. cbn [option_map params]. do 4 eexists. split; [reflexivity|]. auto.
Qed.
Lemma refusal_true cfg okf c s j i conn st n rev : tolerant okf -> kreach cfg okf c s -> stream_of s j i = Some (conn, st) ->
  nth_error (answers conn (k_log s)) n = Some (MCompacted rev) ->
  exists id lo hi start, nth_error (requests conn (k_log s)) n = Some (id, lo, hi, start) /\ 0 < start /\
    start < revision (commits (dids (k_log s))) - 100 /\ rev <= revision (commits (dids (k_log s))) /\
    forall r, supported_range r -> bounded (n_world (k_node s)) r -> 0 < r_revision r <= start -> ask cfg (n_world (k_node s)) r = Err ECompacted.
Proof.
  intros TO KR ST A. destruct (truly_compacted cfg okf c s j i conn st TO KR ST n rev A) as (id & lo & hi & start & R & B & C).
  pose proof (kreach_KI cfg okf c TO s KR) as J. pose proof (K_dids _ _ _ _ J) as D. destruct (node_facts cfg okf _ TO (K_node _ _ _ _ J)) as (WR & MI & HI).
  exists id, lo, hi, start. split; [exact R|]. split; [lia|]. split; [|split; [exact C|]].
  - unfold margin_inv in MI. rewrite D, HI. change superseded_count with 100 in MI. lia.
  - intros r SU BO X. apply ask_refused_iff; auto. lia.
Qed.
