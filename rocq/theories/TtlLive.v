(** Every leased version gets a timer (C37). *)
From Coq Require Import List ZArith Bool Lia Sorting.Sorted.
From Verif Require Import Bytes Spec Sql System Prog Backend Watch Stream SpecLemmas SqlLemmas Sim ReadLemmas ProgLemmas ReadProgs WatchLemmas WatchProofs WatchResults StreamProofs Ttl TtlProofs.
Import ListNotations.
Open Scope Z_scope.
Local Notation hist s := (history_of (snd (b_world (t_b s)))).

Definition has_timer (l : list timer) (k : bytes) (rev lease : Z) : Prop :=
  exists tm, In tm l /\ tm_key tm = k /\ tm_rev tm = rev /\ tm_lease tm = lease.
Definition covered (h : history) (l : list timer) (a : Z) : Prop :=
  forall k x, now h k = Some x -> 0 < kv_lease x -> kv_mod x <= a -> has_timer l k (kv_mod x) (kv_lease x).

Lemma now_stable h l k x : now (h ++ l) k = Some x -> kv_mod x <= revision h -> now h k = Some x.
Proof.
  intros E L. destruct (now_facts _ _ _ E) as (_ & B & _ & _ & F & G).
  rewrite <- kv_at_now, <- (kv_at_app h l) by lia. rewrite <- G. apply kv_at_unchanged; [lia|].
  intros r e Lr Er. eapply F; [|exact Er]. lia.
Qed.
Lemma has_timer_app l l' k r e : has_timer l k r e -> has_timer (l ++ l') k r e.
Proof. intros (tm & A & B). exists tm. split; auto. apply in_app_iff. auto. Qed.
Lemma covered_mono h l t t' a : a <= revision h -> covered h t a -> covered (h ++ l) (t ++ t') a.
Proof. intros L C k x E P M. apply has_timer_app. apply C; auto. eapply now_stable; eauto. lia. Qed.

(** ListTTL finds all of them *)
Lemma now_row d s k x : R d s -> now (history_of s) k = Some x ->
  exists y, In y (rows d) /\ name y = k /\ id y = kv_mod x /\ lease y = kv_lease x /\ deleted y = false /\
   forall z, In z (rows d) -> name z = k -> id z <= id y.
Proof.
  intros HR E. rewrite (read_now d s k HR) in E. destruct (max_row _) as [y|] eqn:M; [|discriminate].
  destruct (deleted y) eqn:D; [discriminate|]. injection E as <-. apply max_row_spec in M. destruct M as [I U].
  apply filter_In in I. destruct I as [I B]. apply beqb_true in B. exists y. repeat (split; auto).
  intros z J K. apply U. apply filter_In. split; auto. now apply beqb_true.
Qed.
Lemma ttl_sql_all d s st k x : R d s -> now (history_of s) k = Some x -> kv_lease x <> 0 -> kv_mod x <= st ->
  In (kv_mod x, k, kv_lease x) (ttl_sql st d).
Proof.
  intros HR E N L. destruct (now_row _ _ _ _ HR E) as (y & I & Y1 & Y2 & Y3 & Y4 & Y5).
  unfold ttl_sql. apply in_map_iff. exists y. rewrite Y1, Y2, Y3. split; auto. apply filter_In. split; auto.
  rewrite Y4, Y3. apply Z.eqb_neq in N. rewrite N. simpl. rewrite !andb_true_r. apply existsb_id. exists y. split; auto.
  apply group_max_in. split.
  - apply filter_In. split; auto. apply Z.leb_le. lia.
  - intros z J K. apply filter_In in J. apply Y5; [tauto|congruence].
Qed.
Lemma list_covered s f st rs : TI s -> no_cut f -> snd (sem f (CTtl st) (b_world (t_b s))) = Ok rs ->
  covered (hist s) (t_timers s ++ list_timers (t_now s) rs) st.
Proof.
  intros H NC E k x L P M. assert (I : In (kv_mod x, k, kv_lease x) (rs_rows rs)).
  { pose proof (ttl_sql_all _ _ st k x (breach_R _ (T_breach _ H)) L ltac:(lia) M) as I.
    destruct f; simpl in E; try discriminate; try contradiction; injection E as <-; exact I. }
  exists (Timer k (kv_mod x) (kv_lease x) (t_now s) (due_at (t_now s) (lease_duration (kv_lease x)))). split; [|auto].
  apply in_app_iff. right. unfold list_timers. apply in_map_iff. exists (kv_mod x, k, kv_lease x). auto.
Qed.

Lemma rev_result_ok s f z : TI s -> rev_result f (b_world (t_b s)) = Ok z -> 1 <= z <= revision (hist s).
Proof.
  intros H. pose proof (rev_sql_R _ _ (breach_R _ (T_breach _ H))) as E. unfold rev_result.
  assert (X : forall c, match one_row (cut_rows c [rev_sql (fst (b_world (t_b s)))]) with Ok (Some z) => Ok z | Ok None => Err ENull | Err e => Err e end = Ok z ->
    1 <= z <= revision (hist s)).
  { intros c. rewrite E. pose proof (revision_nonneg (hist s)). destruct (Z.eqb_spec (revision (hist s)) 0) as [Z0|Z0];
      destruct c as [[[|n] e]|]; cbn; try discriminate; intros [= <-]; lia. }
  destruct f as [|e|e|n e|]; cbn [sem snd answer]; try discriminate; apply X.
Qed.

(** ---- invariant of the goroutine ---- *)
Definition own_reg (st : Z) (r : reg) : Prop := r_id r = 1 /\ r_lo r = ttl_lo /\ r_hi r = ttl_hi /\ r_start r = st.
Definition PI (s : tstate) : Prop :=
  match t_phase s with
  | TPRev | TPEnd => True
  | TPList st => 1 <= st <= revision (hist s)
  | TPGroup st => 1 <= st <= revision (hist s) /\ covered (hist s) (t_timers s) st
  | TPBegin st i => (1 <= st <= revision (hist s) /\ covered (hist s) (t_timers s) st) /\
      exists g, nth_error (b_groups (t_b s)) i = Some g /\ g_regs g = [] /\ g_pending g = [] /\ g_returns g = [] /\ g_cancelled g = [] /\ g_taken g = 0%nat
  | TPWatching st i => (1 <= st <= revision (hist s) /\ covered (hist s) (t_timers s) st) /\
      exists g r p, nth_error (b_groups (t_b s)) i = Some g /\ own_reg st r /\ g_regs g = [r] /\ g_pending g = [(r, p)] /\ g_returns g = [] /\ g_cancelled g = [] /\ g_taken g = 0%nat
  | TPLoop st i => (1 <= st <= revision (hist s) /\ covered (hist s) (t_timers s) st) /\
      exists g r, nth_error (b_groups (t_b s)) i = Some g /\ own_reg st r /\ g_regs g = [r] /\ g_cancelled g = [] /\ (g_taken g <= length (g_updates g))%nat /\
        (forall ev, In ev (delivered (firstn (g_taken g) (g_updates g)) 1) -> 0 < kv_lease (ev_kv ev) ->
            has_timer (t_timers s) (kv_key (ev_kv ev)) (kv_mod (ev_kv ev)) (kv_lease (ev_kv ev))) /\
        forall n, t_ack s = Some n -> complete_from n i r (t_b s)
  end.

Lemma base_mono (h l : history) t t' st : 1 <= st <= revision h /\ covered h t st -> 1 <= st <= revision (h ++ l) /\ covered (h ++ l) (t ++ t') st.
Proof. intros [A B]. split; [rewrite revision_app; pose proof (revision_nonneg l); lia|apply covered_mono; auto; lia]. Qed.
Lemma base_mono' (h l : history) t st : 1 <= st <= revision h /\ covered h t st -> 1 <= st <= revision (h ++ l) /\ covered (h ++ l) t st.
Proof. intros H. rewrite <- (app_nil_r t). now apply base_mono. Qed.

Lemma PI_foreign s a : calm_reach (t_b s) -> PI s -> outside (t_phase s) a = true -> possible (t_b s) a -> calm (t_b s) a ->
  PI (with_tb s (bstep (t_b s) a)).
Proof.
  intros HC H F P C. destruct (bstep_extends (t_b s) a P) as [l E]. unfold PI in *. cbn [with_tb t_phase t_b t_timers t_ack].
  rewrite E. destruct (t_phase s) as [|st|st|st i|st i|st i|]; auto.
  - rewrite revision_app. pose proof (revision_nonneg l). lia.
  - now apply base_mono'.
  - destruct H as [A (g & N & B1 & B2 & B3 & B4 & B5)]. split; [now apply base_mono'|].
    destruct (foreign_group (t_b s) a i g F N) as (g' & N' & C1 & C2 & C3 & C4 & C5 & _). exists g'. rewrite C1, C2, C3, C4, C5. auto 10.
  - destruct H as [A (g & r & p & N & B1 & B2 & B3 & B4 & B5 & B6)]. split; [now apply base_mono'|].
    destruct (foreign_group (t_b s) a i g F N) as (g' & N' & C1 & C2 & C3 & C4 & C5 & _). exists g', r, p. rewrite C1, C2, C3, C4, C5. auto 10.
  - destruct H as [A (g & r & N & B1 & B2 & B3 & B4 & B5 & B6)]. split; [now apply base_mono'|].
    destruct (foreign_group (t_b s) a i g F N) as (g' & N' & C1 & C2 & C3 & C4 & C5 & lu & C6). exists g', r. rewrite C1, C2, C5, C6.
    split; auto. split; auto. split; auto. split; auto. split; [rewrite app_length; lia|]. split; [rewrite firstn_le_app by auto; exact B5|].
    intros n K. apply complete_step; auto.
Qed.

(** ---- the goroutine's own steps ---- *)
Lemma ret_single g1 (g g' : group) res : g_returns g = [] -> g_returns g' = g_returns g ++ [(1, res)] ->
  find (fun x : Z * watch_result => fst x =? 1) (g_returns g') = Some (1, res) /\ In (1, res) (g_returns g') /\ g1 = g1 :> group.
Proof. intros -> ->. simpl. auto. Qed.

Lemma PI_call s st i a f : calm_reach (t_b s) -> PI s -> t_phase s = TPWatching st i -> possible (t_b s) a -> calm (t_b s) a ->
  bstep (t_b s) a = set_group (t_b s) i f ->
  (forall g, grow g (f g) /\ g_updates (f g) = g_updates g /\ g_taken (f g) = g_taken g /\ g_cancelled (f g) = g_cancelled g /\ g_regs (f g) = g_regs g) ->
  (forall g r p, g_pending g = [(r, p)] -> r_id r = 1 -> let g' := f g in
    (exists r p, g_pending g' = [(r, p)] /\ r_id r = 1) /\ g_returns g' = g_returns g \/
    g_pending g' = [] /\ exists res, g_returns g' = g_returns g ++ [(1, res)]) ->
  (forall g r p, g_pending g = [(r, p)] -> forall r' p', g_pending (f g) = [(r', p')] -> r' = r) ->
  PI (t_watch_step s st i a).
Proof.
  intros HC H E P C F K1 K2 K3. destruct (bstep_extends (t_b s) a P) as [l EX]. unfold PI in H. rewrite E in H.
  destruct H as [A (g & r & p & N & B1 & B2 & B3 & B4 & B5 & B6)].
  destruct (K1 g) as (G & U & T & CA & RE). pose proof (set_group_nth (t_b s) i f g N) as N'. rewrite <- F in N'.
  destruct B1 as (O1 & O2). unfold t_watch_step, watch_returned. cbn [with_tb t_b]. rewrite N'.
  destruct (K2 g r p B3 O1) as [[(r' & p' & Q1 & Q2) Q3]|[Q1 [res Q2]]].
  - rewrite Q3, B4. cbn [find]. unfold PI. cbn [with_phase with_tb t_phase t_b t_timers]. rewrite EX.
    split; [now apply base_mono'|]. assert (r' = r) as -> by (eapply K3; eauto). exists (f g), r, p'. rewrite RE, CA, T, Q3. split; auto. split; [split; auto|]. auto.
  - destruct (ret_single g g (f g) res B4 Q2) as (R1 & R2 & _). rewrite R1.
    assert (X : forall k, (forall n, k = Some n -> n = length (g_updates (f g)) /\ res = WOk) ->
      PI (TState (bstep (t_b s) a) (t_now s) (stamp (t_now s) (t_stamps s) (b_world (bstep (t_b s) a))) (TPLoop st i) (t_timers s) k)).
    { intros k HK. unfold PI. cbn [t_phase t_b t_timers t_ack]. rewrite EX. split; [now apply base_mono'|].
      exists (f g), r. rewrite RE, CA, T, U, B6. split; auto. split; [split; auto|]. split; auto. split; auto. split; [lia|].
      split; [intros ev []|]. intros n KN. destruct (HK n KN) as [-> ->].
      apply complete_start; [exact N'|rewrite RE, B2; left; auto|rewrite O1; auto]. }
    destruct res; cbn [t_now t_stamps t_b t_timers]; apply X; try discriminate. intros n [= <-]. auto.
Qed.

Lemma check_reg id f w g r p : g_pending g = [(r, p)] -> forall r' p', g_pending (watch_check id f w g) = [(r', p')] -> r' = r.
Proof.
  intros E r' p'. unfold watch_check. destruct (pending_of id g) as [[r0 []]|]; try (rewrite E; congruence).
  destruct (interval_result f w) as [[a b]|e]; [destruct (_ <? _)|]; cbn [g_pending]; rewrite E; cbn; destruct (r_id r =? id); cbn; congruence.
Qed.
Lemma query_reg id f w g r p : g_pending g = [(r, p)] -> forall r' p', g_pending (watch_query id f w g) = [(r', p')] -> r' = r.
Proof.
  intros E r' p'. unfold watch_query. destruct (pending_of id g) as [[r0 []]|]; try (rewrite E; congruence).
  destruct (snd (sem f _ w)); cbn [g_pending]; rewrite E; cbn; destruct (r_id r =? id); cbn; congruence.
Qed.
Lemma finish_reg id g r p : g_pending g = [(r, p)] -> forall r' p', g_pending (watch_finish id g) = [(r', p')] -> r' = r.
Proof.
  intros E r' p'. unfold watch_finish. destruct (pending_of id g) as [[r0 []]|]; try (rewrite E; congruence).
  cbn [g_pending]; rewrite E; cbn; destruct (r_id r =? id); cbn; congruence.
Qed.

Lemma PI_begin s st i : calm_reach (t_b s) -> PI s -> t_phase s = TPBegin st i -> PI (t_watch_step s st i (AWatch i ttl_lo ttl_hi st)).
Proof.
  intros HC H E. unfold PI in H. rewrite E in H. destruct H as [A (g & N & B1 & B2 & B3 & B4 & B5)].
  pose proof (set_group_nth (t_b s) i (watch_begin ttl_lo ttl_hi st) g N) as N'.
  unfold t_watch_step, watch_returned. cbn [with_tb t_b bstep]. rewrite N'.
  assert (W : watch_begin ttl_lo ttl_hi st g = Group (g_rev g) (g_watchers g ++ [Watcher (Reg 1 ttl_lo ttl_hi st (g_rev g)) false []])
     [(Reg 1 ttl_lo ttl_hi st (g_rev g), PCheck)] (g_updates g) (g_taken g) (g_open g) [Reg 1 ttl_lo ttl_hi st (g_rev g)] [] (g_cancelled g)).
  { unfold watch_begin. rewrite B1, B2, B3. replace (0 <? st) with true by (symmetry; apply Z.ltb_lt; lia). reflexivity. }
  rewrite W in *. cbn [g_returns find]. unfold PI. cbn [with_phase with_tb t_phase t_b t_timers set_group b_world b_groups]. split; auto.
  eexists _, (Reg 1 ttl_lo ttl_hi st (g_rev g)), PCheck. split; [exact N'|]. cbn [g_regs g_pending g_returns g_cancelled g_taken]. split; [unfold own_reg; cbn; auto|]. auto 10.
Qed.

Lemma PI_recv s js : PI s -> calm_reach (t_b s) -> PI (tstep s (TRecv js)).
Proof.
  intros H HC. cbn [tstep]. destruct (t_phase s) as [| | | | |st i|] eqn:E; auto.
  pose proof H as H0. unfold PI in H. rewrite E in H. destruct H as [A (g & r & N & B1 & B2 & B3 & B4 & B5 & B6)]. rewrite N.
  destruct (nth_error (g_updates g) (g_taken g)) as [u|] eqn:U.
  - unfold PI. cbn [t_phase t_b t_timers t_ack bstep]. cbn [set_group b_world]. split.
    + rewrite <- (app_nil_r (hist s)). now apply base_mono.
    + assert (LT : (g_taken g < length (g_updates g))%nat) by (apply nth_error_Some; congruence).
      pose proof (set_group_nth (t_b s) i take g N) as N'. exists (take g), r. split; [exact N'|].
      unfold take. replace (g_taken g <? length (g_updates g))%nat with true by (symmetry; apply Nat.ltb_lt; lia).
      cbn [g_regs g_cancelled g_taken g_updates]. split; auto. split; auto. split; auto. split; [lia|]. split.
      * intros ev I L. rewrite (firstn_S _ _ _ U) in I. unfold delivered in I. rewrite flat_map_app in I. apply in_app_iff in I.
        destruct I as [I|I]; [apply has_timer_app; auto|].
        assert (J : In ev (flat_map snd (u_watchers u))).
        { simpl in I. rewrite app_nil_r in I. apply in_flat_map in I. destruct I as (x & I & J). apply in_flat_map. exists x. split; auto. destruct (fst x =? 1); auto. destruct J. }
        destruct (event_timers_all (t_now s) ev _ js J L) as (tm & T1 & T2 & T3 & T4). exists tm. split; auto. apply in_app_iff. auto.
      * intros n K. change (complete_from n i r (bstep (t_b s) (ATake i))). apply complete_step; simpl; auto.
  - destruct (g_open g); auto. exact Logic.I.
Qed.

Lemma tcalm_treach s : tcalm s -> treach s.
Proof. induction 1; [apply treach_start; auto; now apply calm_breach|apply treach_step; auto]. Qed.

Lemma watch_step_b s st i a : t_b (t_watch_step s st i a) = bstep (t_b s) a.
Proof. unfold t_watch_step. destruct (watch_returned _ _) as [[[] n]|]; reflexivity. Qed.

Lemma tcalm_PI s : tcalm s -> calm_reach (t_b s) /\ PI s.
Proof.
  induction 1 as [b n st H L F|s a H [IH1 IH2] P C]; [split; [exact H|exact Logic.I]|].
  pose proof (treach_TI _ (tcalm_treach _ H)) as T.
  destruct a as [a|d|f|f| | |f|f| |js|j f].
  - cbn [tstep]. destruct (outside _ _) eqn:O; auto. split; [apply calm_step; auto|apply PI_foreign; auto].
  - cbn [tstep]. split; auto.
  - cbn [tstep]. destruct (t_phase s) eqn:E; auto. destruct (rev_result f (b_world (t_b s))) as [z|e] eqn:RR; split; try exact IH1; try exact Logic.I.
    unfold PI. cbn [with_phase t_phase t_b]. eapply rev_result_ok; eauto.
  - cbn [tstep tcalm_step] in *. destruct (t_phase s) as [|start| | | | |] eqn:E; auto. destruct (snd (sem f (CTtl start) (b_world (t_b s)))) as [rs|e] eqn:RR; split; try exact IH1; try exact Logic.I.
    unfold PI in *. rewrite E in IH2. cbn [t_phase t_b t_timers]. split; [exact IH2|]. eapply list_covered; eauto.
  - cbn [tstep]. destruct (t_phase s) as [| |start| | | |] eqn:E; auto. split; [apply (calm_step _ ANewGroup); simpl; auto|].
    unfold PI in *. rewrite E in IH2. cbn [with_phase with_tb t_phase t_b t_timers bstep new_group b_world b_groups]. split; auto.
    eexists. split; [rewrite nth_error_app2 by lia; rewrite Nat.sub_diag; reflexivity|]. cbn. auto 10.
  - cbn [tstep]. destruct (t_phase s) as [| | |start i| | |] eqn:E; auto. split.
    + rewrite watch_step_b. apply calm_step; simpl; auto. discriminate.
    + apply PI_begin; auto.
  - cbn [tstep]. destruct (t_phase s) as [| | | |start i| |] eqn:E; auto. split; [rewrite watch_step_b; apply calm_step; simpl; auto|].
    eapply PI_call; eauto; try exact Logic.I; [reflexivity|intros g; apply check_keeps|intros g r p; apply check_cases|intros g r p; apply check_reg].
  - cbn [tstep tcalm_step] in *. destruct (t_phase s) as [| | | |start i| |] eqn:E; auto. split; [rewrite watch_step_b; apply calm_step; auto; exact Logic.I|].
    eapply PI_call; eauto; try exact Logic.I; [reflexivity|intros g; apply query_keeps|intros g r p; apply query_cases|intros g r p; apply query_reg].
  - cbn [tstep]. destruct (t_phase s) as [| | | |start i| |] eqn:E; auto. split; [rewrite watch_step_b; apply calm_step; simpl; auto|].
    eapply PI_call; eauto; try exact Logic.I; [reflexivity|intros g; apply finish_keeps|intros g r p; apply finish_cases|intros g r p; apply finish_reg].
  - split; [|apply PI_recv; auto]. cbn [tstep]. destruct (t_phase s) as [| | | | |st i|] eqn:E; auto. destruct (nth_error (b_groups (t_b s)) i) as [g|]; auto.
    destruct (nth_error (g_updates g) (g_taken g)); [apply calm_step; simpl; auto|]. destruct (g_open g); auto.
  - cbn [tstep]. destruct (nth_error (t_timers s) j) as [tm|] eqn:N; auto. destruct (_ <=? _); auto.
    fold (attempt_b (t_b s) (tm_key tm) (tm_rev tm) f). destruct (attempt_cases (t_b s) (tm_key tm) (tm_rev tm) f) as [-> | ->].
    + rewrite with_tb_same; auto.
    + assert (PP : possible (t_b s) (AEnv (ADelete (tm_key tm) (tm_rev tm)))) by (simpl; eapply timer_key; eauto; eapply nth_error_In; eauto).
      split; [apply calm_step; simpl; auto|]. apply PI_foreign; auto. destruct (t_phase s); reflexivity.
Qed.

(** ---- C37 ---- *)
Lemma all_leased_have_timers s st i g n u k x : tcalm s -> t_phase s = TPLoop st i -> nth_error (b_groups (t_b s)) i = Some g ->
  t_ack s = Some n -> (n < g_taken g)%nat -> nth_error (g_updates g) (g_taken g - 1) = Some u ->
  now (hist s) k = Some x -> 0 < kv_lease x -> kv_mod x <= u_rev u -> (kv_mod x <= st \/ in_range ttl_lo ttl_hi k) ->
  has_timer (t_timers s) k (kv_mod x) (kv_lease x).
Proof.
  intros H E N K L U X P M C. destruct (tcalm_PI _ H) as [HC J]. unfold PI in J. rewrite E in J.
  destruct J as [[A1 A2] (g0 & r & N0 & B1 & B2 & B3 & B4 & B5 & B6)]. rewrite N in N0. injection N0 as <-.
  destruct (Z_le_dec (kv_mod x) st) as [LE|GT]; [auto|]. destruct C as [C|C]; [lia|].
  destruct B1 as (O1 & O2 & O3 & O4).
  destruct (B6 n K) as (g1 & N1 & _ & _ & _ & D). rewrite N in N1. injection N1 as <-. rewrite B3 in D.
  destruct (D (fun x => x) (g_taken g - 1)%nat u ltac:(lia) U) as [_ (_ & D2 & D3)].
  replace (S (g_taken g - 1)) with (g_taken g) in * by lia. rewrite O1, O2, O3 in *.
  destruct (now_facts _ _ _ X) as (X1 & X2 & X3 & X4 & X5 & X6).
  assert (I : In (kv_mod x) (map ev_rev (delivered (firstn (g_taken g) (g_updates g)) 1))).
  { apply D2. split; [|split; [lia|]].
    - unfold begins. rewrite O4. destruct (0 <? st) eqn:Z0; [lia|apply Z.ltb_ge in Z0; lia].
    - exists (Entry k (Put (kv_value x) (kv_lease x))). split; [|exact C]. unfold ent in X4. destruct (1 <=? kv_mod x); [|discriminate]. rewrite X4. reflexivity. }
  apply in_map_iff in I. destruct I as (ev & EV & I). rewrite Forall_forall in D3. specialize (D3 ev I). rewrite EV in D3.
  destruct D3 as (e & T1 & T2 & T3 & T4 & T5 & _).
  assert (e = Entry k (Put (kv_value x) (kv_lease x))) as ->.
  { unfold ent in X4. replace (1 <=? kv_mod x) with true in X4 by (symmetry; apply Z.leb_le; lia). congruence. }
  cbn [e_key e_change] in *. destruct T5 as [_ T5]. rewrite X6 in T5. injection T5 as T5.
  specialize (B5 ev I). rewrite <- T5, X1 in B5. auto.
Qed.
