(** Proofs for C225: a watch from a compacted revision is refused. *)
From Coq Require Import List ZArith Bool Lia Arith.
From Verif Require Import Bytes Spec Sql System Prog Backend Limited Api Pool Ledger Observe Batch BatchKine Node Fair Watch Stream Resume Whole.
From Verif Require Import SpecLemmas SqlLemmas Sim ProgLemmas ReadProofs Safety ApiLemmas LedgerLemmas LedgerMore NodeProofs FairProofs WatchLemmas WatchProofs WatchResults StreamProofs ResumeProofs WholeProofs FairWatch FairWatchProofs FairCreateProofs Ttl TtlProofs TtlLive Cluster ClusterProofs ClusterView Calm CalmProofs ClusterFair ClusterFairProofs ClusterHearProofs ClusterWatchProofs WatchStartProofs ClusterCompactProofs.
From Verif Require Import Watch Stream Whole FairWatch ClusterFair Observe.
Import ListNotations.
Open Scope Z_scope.

Section Locked.
Variables (n0 : nat) (F : Z).
(** a registration made after the first [n0] ones, from a revision below [F], has not passed the check *)
Definition locked (g : group) : Prop := forall r, In r (g_regs g) -> Z.of_nat n0 < r_id r -> 0 < r_start r < F ->
  (forall p, In (r, p) (g_pending g) -> p = PCheck) /\ ~ In (r_id r, WOk) (g_returns g).
Lemma locked_same g g' : g_regs g' = g_regs g -> g_pending g' = g_pending g -> g_returns g' = g_returns g -> locked g -> locked g'.
Proof. intros E1 E2 E3 L r. rewrite E1, E2, E3. apply L. Qed.
Lemma locked_begin (full : Prop) h P lo hi start g : Ginv full h P g -> Gret g -> locked g -> locked (watch_begin lo hi start g).
Proof.
  intros G Q L r. assert (NEW : forall x res, In (x, res) (g_returns g) -> x <> Z.of_nat (length (g_regs g)) + 1) by (intros x res X; destruct (Q_ret _ Q _ _ X) as [K _]; lia).
  assert (OLD : forall r', In r' (g_regs g) -> r_id r' <> Z.of_nat (length (g_regs g)) + 1) by (intros r' X; pose proof (reg_id_bound full _ _ _ _ G X); lia).
  unfold watch_begin. destruct (Z.ltb_spec 0 start) as [ST|ST]; cbn [g_regs g_pending g_returns]; intros I N B; apply in_app_iff in I.
  - destruct I as [I|[<-|[]]].
    + destruct (L r I N B) as [L1 L2]. split; [|exact L2]. intros p X. apply in_app_iff in X. destruct X as [X|[X|[]]]; [auto|]. injection X as <- <-. reflexivity.
    + cbn [r_id]. split.
      * intros p X. apply in_app_iff in X. destruct X as [X|[X|[]]]; [|now injection X]. exfalso. destruct (G_p _ _ _ _ G _ X) as [K _]. cbn [fst] in K. apply OLD in K. now cbn [r_id] in K.
      * intros X. now apply NEW in X.
  - destruct I as [I|[<-|[]]]; [|cbn [r_start] in B; lia]. destruct (L r I N B) as [L1 L2]. split; [exact L1|].
    intros X. apply in_app_iff in X. destruct X as [X|[X|[]]]; [auto|]. injection X as X. apply (OLD r I). cbn [r_id] in X. now symmetry.
Qed.
Lemma locked_check (full : Prop) h P id f w g r0 p0 : Ginv full h P g -> wreach w -> F <= floor_of (snd w) -> g_pending g = [(r0, p0)] -> r_id r0 = id -> locked g -> locked (watch_check id f w g).
Proof.
  intros G W FL PP RI L. unfold watch_check. rewrite (pending_single _ _ _ _ PP RI). destruct p0; auto.
  pose proof (interval_result_ok w f W) as IO. intros r. destruct (interval_result f w) as [x|e].
  - subst x. destruct (Z.ltb_spec (r_start r0) (floor_of (snd w))) as [LT|GE]; cbn [g_regs g_pending g_returns]; rewrite PP, ?(drop_single _ _ _ RI), ?(phase_single _ _ _ _ RI); intros I N B; destruct (L r I N B) as [L1 L2].
    + split; [intros p []|]. intros X. apply in_app_iff in X. destruct X as [X|[X|[]]]; [auto|discriminate].
    + split; [|exact L2]. intros p [X|[]]. injection X as <- _. lia.
  - cbn [g_regs g_pending g_returns]. rewrite PP, (drop_single _ _ _ RI). intros I N B. destruct (L r I N B) as [L1 L2]. split; [intros p []|].
    intros X. apply in_app_iff in X. destruct X as [X|[X|[]]]; [auto|discriminate].
Qed.
Lemma locked_query id f w g r0 p0 : g_pending g = [(r0, p0)] -> r_id r0 = id -> locked g -> locked (watch_query id f w g).
Proof.
  intros PP RI L. unfold watch_query. rewrite (pending_single _ _ _ _ PP RI). destruct p0; auto. intros r.
  destruct (snd (sem f _ w)) as [rs|e]; cbn [g_regs g_pending g_returns]; rewrite PP, ?(drop_single _ _ _ RI), ?(phase_single _ _ _ _ RI); intros I N B; destruct (L r I N B) as [L1 L2].
  - split; [|exact L2]. intros p [X|[]]. injection X as <- _. specialize (L1 PQuery ltac:(rewrite PP; simpl; auto)). discriminate.
  - split; [intros p []|]. intros X. apply in_app_iff in X. destruct X as [X|[X|[]]]; [auto|discriminate].
Qed.
Lemma locked_finish (full : Prop) h P id g r0 p0 : Ginv full h P g -> g_pending g = [(r0, p0)] -> r_id r0 = id -> locked g -> locked (watch_finish id g).
Proof.
  intros G PP RI L. unfold watch_finish. rewrite (pending_single _ _ _ _ PP RI). destruct p0; auto. intros r.
  cbn [g_regs g_pending g_returns]. rewrite PP, (drop_single _ _ _ RI). intros I N B. destruct (L r I N B) as [L1 L2]. split; [intros p []|].
  intros X. apply in_app_iff in X. destruct X as [X|[X|[]]]; [auto|]. injection X as X.
  assert (r0 = r) as ->. { apply (reg_inj full g r0 r h P G); [|exact I|congruence]. exact (proj1 (G_p _ _ _ _ G (r0, PFinish evs) ltac:(rewrite PP; simpl; auto))). }
  specialize (L1 (PFinish evs) ltac:(rewrite PP; simpl; auto)). discriminate.
Qed.
Lemma cont_group s g id a f : group_of s = Some g -> bstep (s_b s) a = set_group (s_b s) (s_i s) f -> group_of (watch_step s id a) = Some (f g).
Proof.
  intros G E. unfold group_of. destruct (StreamProofs.watch_step_b s id a) as [F1 F2]. rewrite F1, F2, E. apply set_group_nth. exact G.
Qed.
Lemma locked_step s g a : SI s g -> F <= floor_of (snd (b_world (s_b s))) -> locked g -> (forall x, a <> SBack x) -> exists g', group_of (sstep s a) = Some g' /\ locked g'.
Proof.
  intros J FL L NB. pose proof (I_group _ _ J) as G. pose proof (breach_Binv _ (I_breach _ _ J)) as B. pose proof (group_inv _ _ _ _ B G) as GI.
  pose proof (breach_gret _ _ _ (I_breach _ _ J) G) as GR.
  assert (SAME : forall s', group_of s' = group_of s -> exists g', group_of s' = Some g' /\ locked g') by (intros s' E; exists g; rewrite E; auto).
  unfold sstep. destruct a as [a| | | | |wid lo hi start|f|f| |id| | | ].
  - exfalso. eapply NB; eauto.
  - destruct (s_done s); [auto|]. unfold s_recv. destruct (s_hold s); [auto|]. rewrite G. destruct (nth_error _ _); [|destruct (g_open g); auto].
    exists (take g). split; [unfold group_of; cbn [s_b s_i bstep]; apply set_group_nth; exact G|]. apply (locked_same g); auto; unfold take; destruct (_ <? _)%nat; reflexivity.
  - unfold s_send. destruct (s_hold s); [|auto]. destruct (s_creating s); auto.
  - unfold s_tick. destruct (s_creating s); auto.
  - destruct (s_ended s); [auto|]. unfold s_progress_req. destruct (s_creating s); [auto|]. destruct (s_closing s); auto.
  - destruct (s_ended s); [auto|]. unfold s_create. destruct (s_creating s) eqn:CR; [auto|]. destruct (s_closing s); [auto|]. rewrite G.
    destruct (negb _); [auto|]. match goal with |- context [watch_step ?x ?y ?z] => set (s1 := x); set (a1 := z) end.
    exists (watch_begin lo (range_end lo hi) start g). split; [apply (cont_group s1 g _ a1); auto|]. eapply locked_begin; eauto.
  - pose proof (I_pending _ _ J) as P. destruct (s_creating s) as [id|] eqn:CR; [|auto]. destruct P as (r0 & p0 & PP & RI).
    exists (watch_check id f (b_world (s_b s)) g). split; [apply cont_group; auto|]. eapply locked_check; eauto. apply (B_reach _ _ B).
  - pose proof (I_pending _ _ J) as P. destruct (s_creating s) as [id|] eqn:CR; [|auto]. destruct P as (r0 & p0 & PP & RI).
    exists (watch_query id f (b_world (s_b s)) g). split; [apply cont_group; auto|]. eapply locked_query; eauto.
  - pose proof (I_pending _ _ J) as P. destruct (s_creating s) as [id|] eqn:CR; [|auto]. destruct P as (r0 & p0 & PP & RI).
    exists (watch_finish id g). split; [apply cont_group; auto|]. eapply locked_finish; eauto.
  - destruct (s_ended s); [auto|]. unfold s_cancel. destruct (s_creating s); [auto|]. destruct (s_closing s); [auto|].
    exists (unwatch id g). split; [unfold group_of; cbn [s_b s_i bstep]; apply set_group_nth; exact G|]. apply (locked_same g); auto.
  - unfold s_forget. destruct (s_closing s); auto.
  - unfold s_eof. destruct (s_creating s); [auto|]. destruct (s_closing s); auto.
  - destruct (s_ended s); [|auto]. exists (stop_group g). split; [unfold group_of; cbn [with_b s_b s_i bstep]; apply set_group_nth; exact G|]. apply (locked_same g); auto.
Qed.
End Locked.

Lemma own_kaction okf c s x : kaction_ok okf c s x -> forall a, (match x with KNode n => n = a | KBoot => a = NBoot | KCrash j => a = NCrash j | _ => False end) -> naction_ok okf a.
Proof. intros O a E. destruct x; try contradiction; subst; auto; exact Logic.I. Qed.
Lemma kstep_world cfg (okf : fault -> Prop) c s x s' : tolerant okf -> nreach cfg okf (k_node s) -> kaction_ok okf c s x -> kstep cfg s x = Some s' ->
  wsteps (n_world (k_node s)) (n_world (k_node s')).
Proof.
  intros TO R O K. pose proof (own_kaction okf c s x O) as OA. destruct s as [nd sv log n]. cbn [k_node] in *.
  destruct x as [x| |j|j a|j|j i a]; cbn [kstep] in K.
  - assert (X : match nstep cfg nd x with Some nd' => Some (KState nd' sv (log ++ map Did (skipn (length (n_log nd)) (n_log nd'))) n) | None => None end = Some s') by (destruct x; try discriminate; exact K).
    destruct (nstep cfg nd x) as [nd'|] eqn:E; [|discriminate]. injection X as <-. exact (proj1 (node_world cfg okf nd x nd' TO R (OA _ eq_refl) E)).
  - destruct (nstep cfg nd _) as [nd'|] eqn:E; [|discriminate]. injection K as <-. exact (proj1 (node_world cfg okf nd _ nd' TO R (OA _ eq_refl) E)).
  - destruct (nstep cfg nd _) as [nd'|] eqn:E; [|discriminate]. injection K as <-. exact (proj1 (node_world cfg okf nd _ nd' TO R (OA _ eq_refl) E)).
  - destruct (nth_error sv j); [|discriminate]. destruct (_ && _); [|discriminate]. injection K as <-. constructor.
  - destruct (nth_error sv j); [|discriminate]. injection K as <-. constructor.
  - assert (X : match nth_error sv j with Some v => match nth_error (k_streams v) i with Some (conn, st0) =>
       let st := synced (n_world nd) v st0 in let st' := sstep st a in
       Some (KState nd (put j (KServer (s_b st') (put i (conn, st') (k_streams v))) sv) (log ++ told_by conn a st st') n) | None => None end | None => None end = Some s') by (destruct a; try discriminate; exact K).
    destruct (nth_error sv j) as [v|]; [|discriminate]. destruct (nth_error (k_streams v) i) as [[cn st]|]; [|discriminate]. injection X as <-. constructor.
Qed.

Section Run.
Variables (cfg : driver_cfg) (okf : fault -> Prop) (c : bool) (sch : nat -> kaction) (T j i conn : nat) (st0 : sstate).
Hypothesis TO : tolerant okf.
Hypothesis OK : forall t, kaction_ok okf c (kat cfg sch t) (sch t).
Let W (t : nat) : world := n_world (k_node (kat cfg sch t)).
Lemma kat_floor t t' : (t <= t')%nat -> floor_of (snd (W t)) <= floor_of (snd (W t')).
Proof.
  intros L. induction L as [|t' L IH]; [lia|]. unfold W in *. cbn [kat]. unfold ktry. destruct (kstep cfg (kat cfg sch t') (sch t')) as [s'|] eqn:E; [|exact IH].
  pose proof (kat_KI' cfg okf c sch TO OK t') as J.
  pose proof (wsteps_extends _ _ (kstep_world cfg okf c _ _ _ TO (K_node _ _ _ _ J) (OK t') E)) as [_ X]. lia.
Qed.
Hypothesis NC : forall t, (T <= t)%nat -> sch t <> KCrash j.
Hypothesis ST : stream_of (kat cfg sch T) j i = Some (conn, st0).
Let n0 := length (requests conn (k_log (kat cfg sch T))).
Let F := floor_of (snd (W T)).
Let V (t : nat) := view' cfg sch j i st0 t.
Lemma view_world t : (T <= t)%nat -> b_world (s_b (V t)) = W t.
Proof.
  intros L. pose proof (view_some' cfg okf c sch T j i conn st0 TO OK NC ST t L) as E. destruct (stream_inv cfg okf c TO _ j i conn _ (kat_KI' cfg okf c sch TO OK t) E) as (v & s1 & _ & _ & EQ & _).
  unfold V. rewrite EQ. reflexivity.
Qed.
Lemma locked_from t : (T <= t)%nat -> exists g, group_of (V t) = Some g /\ locked n0 F g.
Proof.
  intros L. induction L as [|t L (g & G & LO)].
  - destruct (view_inv' cfg okf c sch T j i conn st0 TO OK NC ST T (le_n _)) as (SR & _ & WA). destruct (sreach_SI _ SR) as [g J]. exists g. split; [apply (I_group _ _ J)|].
    intros r I N. exfalso. pose proof (breach_Binv _ (I_breach _ _ J)) as B. pose proof (group_inv _ _ _ _ B (I_group _ _ J)) as GI.
    pose proof (reg_id_bound _ _ _ _ _ GI I) as BD. unfold n0 in N. change (requests conn (k_log (kat cfg sch T))) with (watches conn (k_log (kat cfg sch T))) in N.
    rewrite WA, map_length in N. unfold regs_of in N. rewrite (I_group _ _ J) in N. lia.
  - destruct (view_inv' cfg okf c sch T j i conn st0 TO OK NC ST t L) as (SR & _ & _). destruct (sreach_SI _ SR) as [g1 J].
    assert (g1 = g) as -> by (pose proof (I_group _ _ J) as X; unfold V in G; congruence).
    pose proof (view_step' cfg okf c sch T j i conn st0 TO OK NC ST t L) as M. fold (V t) (V (S t)) in M.
    assert (QU : quiet (V t) (V (S t)) -> exists g', group_of (V (S t)) = Some g' /\ locked n0 F g') by (intros [_ Q2 _ _ _ _]; exists g; rewrite Q2; auto).
    assert (BK : forall act, foreign (s_i (V t)) act = true -> V (S t) = with_b (V t) (bstep (s_b (V t)) act) -> exists g', group_of (V (S t)) = Some g' /\ locked n0 F g').
    { intros act FO E. destruct (foreign_group (s_b (V t)) act (s_i (V t)) g FO G) as (g' & N & _ & E2 & E3 & E4 & _). exists g'. rewrite E. split; [exact N|]. now apply (locked_same n0 F g). }
    destruct (sch t) as [x| |j'|j' a|j'|j' i' a] eqn:E; cbn [moved] in M; auto.
    + destruct a; auto; (destruct (Nat.eqb_spec j' j) as [->|]; [|auto]); [apply (BK (AFetch f))|apply (BK APublish)]; auto.
    + destruct (_ && _) eqn:HERE; [|auto]. destruct (match a with SBack _ => true | _ => false end) eqn:SB; [destruct a; try discriminate; auto|].
      assert (E' : V (S t) = sstep (V t) a) by (destruct a; try discriminate; exact M). rewrite E'. apply (locked_step n0 F (V t) g a J); auto.
      * rewrite (view_world t L). apply kat_floor. exact L.
      * intros x ->. discriminate.
Qed.
Lemma never_confirmed t n id lo hi start : (T <= t)%nat -> (n0 <= n)%nat -> nth_error (requests conn (k_log (kat cfg sch t))) n = Some (id, lo, hi, start) ->
  0 < start < F -> forall id', nth_error (answers conn (k_log (kat cfg sch t))) n <> Some (MCreated id').
Proof.
  intros L N R B id' A. destruct (locked_from t L) as (g & G & LO).
  rewrite (answers_ans cfg okf c sch T j i conn st0 TO OK NC ST t L) in A. fold (V t) in A.
  destruct (view_inv' cfg okf c sch T j i conn st0 TO OK NC ST t L) as (SR & _ & WA). fold (V t) in SR, WA. destruct (sreach_SI _ SR) as [g1 J].
  assert (g1 = g) as -> by (pose proof (I_group _ _ J); congruence).
  change (requests conn (k_log (kat cfg sch t))) with (watches conn (k_log (kat cfg sch t))) in R. rewrite WA, nth_error_map in R. unfold regs_of in R. rewrite G in R.
  destruct (nth_error (g_regs g) n) as [r|] eqn:NR; [|discriminate]. cbn [option_map params] in R. injection R as RI _ _ RS.
  pose proof (breach_Binv _ (I_breach _ _ J)) as BI. pose proof (group_inv _ _ _ _ BI G) as GI. pose proof (G_ids _ _ _ _ GI _ _ NR) as RID.
  destruct (LO r (nth_error_In _ _ NR) ltac:(lia) ltac:(lia)) as [_ NO]. apply NO. rewrite RID.
  rewrite <- (A_ids _ (sreach_AN _ SR) _ _ A). apply (I_created _ _ J). apply nth_error_In in A. unfold ans in A. apply filter_In in A. apply A.
Qed.
End Run.

(** the same, with what a read request is told *)
Lemma read_refused cfg okf c sch T j i conn st0 : tolerant okf -> (forall t, kaction_ok okf c (kat cfg sch t) (sch t)) ->
  (forall t, (T <= t)%nat -> sch t <> KCrash j) -> stream_of (kat cfg sch T) j i = Some (conn, st0) ->
  forall r, supported_range r -> bounded (n_world (k_node (kat cfg sch T))) r -> ask cfg (n_world (k_node (kat cfg sch T))) r = Err ECompacted ->
  forall t n id lo hi start, (T <= t)%nat -> (length (requests conn (k_log (kat cfg sch T))) <= n)%nat ->
  nth_error (requests conn (k_log (kat cfg sch t))) n = Some (id, lo, hi, start) -> 0 < start <= r_revision r ->
  forall id', nth_error (answers conn (k_log (kat cfg sch t))) n <> Some (MCreated id').
Proof.
  intros TO OK NC ST r SU BO AK t n id lo hi start L N R B.
  pose proof (node_facts cfg okf _ TO (K_node _ _ _ _ (kat_KI' cfg okf c sch TO OK T))) as (WR & _).
  apply ask_refused_iff in AK; auto. eapply never_confirmed; eauto. lia.
Qed.
Lemma read_refused_answered cfg okf c sch T j i conn st0 : tolerant okf -> (forall t, kaction_ok okf c (kat cfg sch t) (sch t)) ->
  (forall t, (T <= t)%nat -> sch t <> KCrash j) -> stream_of (kat cfg sch T) j i = Some (conn, st0) -> creating j i sch ->
  forall r, supported_range r -> bounded (n_world (k_node (kat cfg sch T))) r -> ask cfg (n_world (k_node (kat cfg sch T))) r = Err ECompacted ->
  forall t n id lo hi start, (T <= t)%nat -> (length (requests conn (k_log (kat cfg sch T))) <= n)%nat ->
  nth_error (requests conn (k_log (kat cfg sch t))) n = Some (id, lo, hi, start) -> 0 < start <= r_revision r ->
  exists t' m, (t <= t')%nat /\ nth_error (answers conn (k_log (kat cfg sch t'))) n = Some m /\ ((exists rev, m = MCompacted rev) \/ exists rev, m = MUnhealthy rev).
Proof.
  intros TO OK NC ST CR r SU BO AK t n id lo hi start L N R B.
  pose proof (view_some' cfg okf c sch T j i conn st0 TO OK NC ST t L) as ST'.
  destruct (FairCreateProofs.answered cfg okf c sch t j i conn _ n id lo hi start TO OK ltac:(intros u X; apply NC; lia) ST' CR R) as (t' & m & L' & A & D).
  exists t', m. split; [exact L'|]. split; [exact A|]. destruct D as [-> |D]; [|exact D].
  exfalso. eapply (read_refused cfg okf c sch T j i conn st0 TO OK NC ST r SU BO AK t' n id lo hi start); eauto; [lia|].
  destruct (kat_log cfg sch t t' L') as [l ->]. rewrite requests_app. now apply nth_app_some.
Qed.
(** ---- in a cluster ---- *)
Lemma cluster_read_refused cfg okf c sch T j i conn st0 : tolerant okf -> (forall t, cturn_ok okf c (cat cfg sch t) (sch t)) ->
  (forall t, (T <= t)%nat -> sch t <> CStep (CWhole (KCrash j))) -> stream_of (c_whole (cat cfg sch T)) j i = Some (conn, st0) ->
  forall r, supported_range r -> bounded (c_world (cat cfg sch T)) r -> ask cfg (c_world (cat cfg sch T)) r = Err ECompacted ->
  forall t n id lo hi start, (T <= t)%nat -> (length (requests conn (k_log (c_whole (cat cfg sch T)))) <= n)%nat ->
  nth_error (requests conn (k_log (c_whole (cat cfg sch t)))) n = Some (id, lo, hi, start) -> 0 < start <= r_revision r ->
  (forall id', nth_error (answers conn (k_log (c_whole (cat cfg sch t)))) n <> Some (MCreated id')) /\
  (creates j i sch -> exists t' m, (t <= t')%nat /\ nth_error (answers conn (k_log (c_whole (cat cfg sch t')))) n = Some m /\ ((exists rev, m = MCompacted rev) \/ exists rev, m = MUnhealthy rev)).
Proof.
  intros TO OK NC ST r SU BO AK t n id lo hi start L N R B. unfold c_world in *. rewrite !(whole_at cfg sch) in *.
  assert (NC' : forall t, (T <= t)%nat -> ksch cfg sch t <> KCrash j) by (intros u Lu E; apply ksch_from in E; exact (NC u Lu E)).
  pose proof (ksch_ok cfg okf c sch TO OK) as OK'. split.
  - eapply read_refused; eauto.
  - intros CR. destruct (read_refused_answered cfg okf c (ksch cfg sch) T j i conn st0 TO OK' NC' ST (ksch_creating cfg okf c sch j i TO OK CR) r SU BO AK t n id lo hi start L N R B) as (t' & m & L' & A & D).
    exists t', m. rewrite (whole_at cfg sch). auto.
Qed.
(** with a ticker that ticks *)
Lemma sooner_or_later cfg okf c sch : tolerant okf -> (forall t, cturn_ok okf c (cat cfg sch t) (sch t)) ->
  forall j tc t0, (forall t', (tc <= t')%nat -> ccalm (sch t')) -> Calm.undisturbed (k_node (c_whole (cat cfg sch tc))) ->
  (j < length (n_servers (k_node (c_whole (cat cfg sch tc)))))%nat -> cagain sch (fun x => x = CStep (CWhole (KNode (NAsk j WCompact)))) ->
  (forall t', (tc <= t')%nat -> sch t' <> CStep (CWhole (KCrash j))) -> (forall pid, cagain sch (fun x => exists f, x = COwn pid f)) -> cbatching j sch ->
  exists t', forall T j' i conn st0, (t' <= T)%nat -> (forall t, (T <= t)%nat -> sch t <> CStep (CWhole (KCrash j'))) ->
    stream_of (c_whole (cat cfg sch T)) j' i = Some (conn, st0) -> revision (commits (c_log (cat cfg sch T))) <= int64_max ->
    forall t n id lo hi start, (T <= t)%nat -> (length (requests conn (k_log (c_whole (cat cfg sch T)))) <= n)%nat ->
    nth_error (requests conn (k_log (c_whole (cat cfg sch t)))) n = Some (id, lo, hi, start) -> 0 < start < revision (commits (c_log (cat cfg sch t0))) - 100 ->
    forall id', nth_error (answers conn (k_log (c_whole (cat cfg sch t)))) n <> Some (MCreated id').
Proof.
  intros TO OK j tc t0 CALM U LJ AG NC OWN BAT. destruct (cluster_refused cfg okf c sch TO OK j tc t0 CALM U LJ AG NC OWN BAT) as (t' & H).
  exists t'. intros T j' i conn st0 LT NC' ST MX t n id lo hi start L N R B.
  destruct (cluster_world cfg okf c sch TO OK T) as [_ HH].
  assert (SU : supported_range (range lo [] 0 start)) by (repeat split; reflexivity).
  assert (BO : bounded (c_world (cat cfg sch T)) (range lo [] 0 start)) by (split; [cbn; unfold int64, int64_max; lia|now rewrite <- HH]).
  refine (proj1 (cluster_read_refused cfg okf c sch T j' i conn st0 TO OK NC' ST _ SU BO (H T _ LT SU BO ltac:(cbn; lia) ltac:(cbn; lia)) t n id lo hi start L N R ltac:(cbn; lia))).
Qed.
