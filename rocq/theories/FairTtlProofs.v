(** Liveness of expiry (C175). *)
From Coq Require Import List ZArith NArith Bool Lia Arith.
From Verif Require Import Bytes Spec Sql System Prog Backend Watch Stream SpecLemmas SqlLemmas Sim ReadLemmas ProgLemmas ReadProgs WatchLemmas WatchProofs WatchResults StreamProofs Ttl TtlProofs TtlLive Lease LeaseProofs FairWatch FairTtl FairWatchProofs StreamMore.
From Verif Require Import Watch Stream Ttl FairTtl.
Import ListNotations.
Open Scope Z_scope.
Local Notation hist s := (history_of (snd (b_world (t_b s)))).

Section Expiry.
Variables (s0 : tstate) (sch : nat -> taction).
Hypothesis CALM : tcalm_schedule s0 sch.
Hypothesis EXP : expiring s0 sch.
Local Notation at_ t := (tat s0 sch t).
Local Notation poll t := (b_poll (t_b (at_ t))).
Local Notation batch t := (b_batch (t_b (at_ t))).

Lemma tat_calm t : tcalm (at_ t).
Proof. induction t as [|t IH]; cbn [tat]; [apply CALM|]. apply tcalm_next; auto; apply CALM. Qed.
Lemma tat_later t u : (t <= u)%nat -> tlater (at_ t) (at_ u).
Proof. intros L. induction L as [|u L IH]; [apply tlater_refl|]. cbn [tat]. apply tlater_step; [exact IH|]. apply CALM. Qed.

(** what a step does to the poller *)
Definition still (b b' : bstate) : Prop := b_poll b' = b_poll b /\ b_batch b' = b_batch b /\ b_dead b' = b_dead b.
Lemma still_step b a : (forall f, a <> AFetch f) -> a <> APublish -> still b (bstep b a).
Proof. intros NF NP. destruct a; try (now repeat split); try congruence; exfalso; eapply NF; reflexivity. Qed.
Lemma poller_step s a : still (t_b s) (t_b (tstep s a)) \/ (exists f, a = TBack (AFetch f) /\ t_b (tstep s a) = fetch f (t_b s)) \/ (a = TBack APublish /\ t_b (tstep s a) = publish_all (t_b s)).
Proof.
  assert (RF : still (t_b s) (t_b s)) by (repeat split).
  destruct a as [a|d|f|f| | |f|f| |js|j f]; cbn [tstep].
  - assert (C : (forall f, a <> AFetch f) /\ a <> APublish \/ (exists f, a = AFetch f) \/ a = APublish) by (destruct a; eauto; left; split; discriminate).
    destruct C as [[C1 C2]|[[f ->]| ->]].
    + left. destruct (outside _ _); [now apply still_step|exact RF].
    + right. left. exists f. split; auto. unfold outside. destruct (own_group _); reflexivity.
    + right. right. split; auto. unfold outside. destruct (own_group _); reflexivity.
  - auto.
  - left. destruct (t_phase s); try exact RF. destruct (rev_result _ _); exact RF.
  - left. destruct (t_phase s); try exact RF. destruct (snd _); exact RF.
  - left. destruct (t_phase s); exact RF.
  - left. destruct (t_phase s); try exact RF; rewrite TtlLive.watch_step_b; repeat split.
  - left. destruct (t_phase s); try exact RF; rewrite TtlLive.watch_step_b; repeat split.
  - left. destruct (t_phase s); try exact RF; rewrite TtlLive.watch_step_b; repeat split.
  - left. destruct (t_phase s); try exact RF; rewrite TtlLive.watch_step_b; repeat split.
  - left. destruct (t_phase s); try exact RF. destruct (nth_error (b_groups _) _) as [g|]; try exact RF. destruct (nth_error _ _); try destruct (g_open g); try exact RF; repeat split.
  - left. destruct (nth_error _ _); try exact RF. destruct (_ <=? _); exact RF.
Qed.
Lemma hist_step t : exists l, hist (at_ (S t)) = hist (at_ t) ++ l.
Proof.
  cbn [tat]. pose proof (proj1 (proj2 CALM t)) as P. pose proof (treach_TI _ (tcalm_treach _ (tat_calm t))) as J.
  assert (RF : exists l, hist (at_ t) = hist (at_ t) ++ l) by (exists []; now rewrite app_nil_r).
  destruct (sch t) as [a|d|f|f| | |f|f| |js|j f]; cbn [tstep].
  - destruct (outside _ _); [|exact RF]. cbn [with_tb t_b]. now apply bstep_extends.
  - exact RF.
  - destruct (t_phase (at_ t)); try exact RF. destruct (rev_result _ _); exact RF.
  - destruct (t_phase (at_ t)); try exact RF. destruct (snd (sem f (CTtl _) _)); exact RF.
  - destruct (t_phase (at_ t)); exact RF.
  - destruct (t_phase (at_ t)); try exact RF. rewrite TtlLive.watch_step_b. exact RF.
  - destruct (t_phase (at_ t)); try exact RF. rewrite TtlLive.watch_step_b. exact RF.
  - destruct (t_phase (at_ t)); try exact RF. rewrite TtlLive.watch_step_b. exact RF.
  - destruct (t_phase (at_ t)); try exact RF. rewrite TtlLive.watch_step_b. exact RF.
  - destruct (t_phase (at_ t)); try exact RF. destruct (nth_error (b_groups _) _); try exact RF. destruct (nth_error _ _); [exact RF|]. destruct (g_open _); exact RF.
  - destruct (nth_error _ _) as [tm|] eqn:N; try exact RF. destruct (_ <=? _); try exact RF. cbn [with_tb t_b].
    fold (attempt_b (t_b (at_ t)) (tm_key tm) (tm_rev tm) f). destruct (attempt_cases (t_b (at_ t)) (tm_key tm) (tm_rev tm) f) as [-> | ->]; [exact RF|].
    apply bstep_extends. cbn. eapply timer_key; [exact J|]. eapply nth_error_In; eauto.
Qed.
Lemma hist_later t u : (t <= u)%nat -> exists l, hist (at_ u) = hist (at_ t) ++ l.
Proof.
  intros L. induction L as [|u L [l IH]]; [exists []; now rewrite app_nil_r|]. destruct (hist_step u) as [l' E]. exists (l ++ l'). rewrite E, IH. now rewrite app_assoc.
Qed.
Lemma rev_later t u : (t <= u)%nat -> revision (hist (at_ t)) <= revision (hist (at_ u)).
Proof. intros L. destruct (hist_later t u L) as [l ->]. rewrite revision_app. pose proof (revision_nonneg l). lia. Qed.
Lemma time_step s a : t_now s <= t_now (tstep s a).
Proof.
  assert (W : forall st i x, t_now (t_watch_step s st i x) = t_now s) by (intros; unfold t_watch_step; destruct (watch_returned _ _) as [[[] n]|]; reflexivity).
  destruct a as [a|d|f|f| | |f|f| |js|j f]; cbn [tstep]; try (destruct (t_phase s); rewrite ?W; cbn; lia).
  - destruct (outside _ _); cbn; lia.
  - destruct (t_phase s); try (cbn; lia). destruct (rev_result _ _); cbn; lia.
  - destruct (t_phase s); try (cbn; lia). destruct (snd _); cbn; lia.
  - destruct (t_phase s); try (cbn; lia). destruct (nth_error (b_groups _) _); try (cbn; lia). destruct (nth_error _ _); [cbn; lia|]. destruct (g_open _); cbn; lia.
  - destruct (nth_error _ _); try lia. destruct (_ <=? _); cbn; lia.
Qed.
Lemma time_later t u : (t <= u)%nat -> t_now (at_ t) <= t_now (at_ u).
Proof. intros L. induction L as [|u L IH]; [lia|]. cbn [tat]. pose proof (time_step (at_ u) (sch u)). lia. Qed.

(** ---- the poller ---- *)
Lemma alive_step t : b_dead (t_b (at_ t)) = false -> b_dead (t_b (at_ (S t))) = false.
Proof.
  intros D. cbn [tat]. destruct (poller_step (at_ t) (sch t)) as [(_ & _ & E)|[(f & E & F)|(E & F)]]; [congruence| |].
  - destruct EXP as (_ & _ & P & _). rewrite F. destruct (fetch_bearable f (t_b (at_ t)) (P _ _ E)) as [-> _]. exact D.
  - rewrite F. unfold publish_all. destruct (b_batch _); exact D.
Qed.
Lemma alive t u : (t <= u)%nat -> b_dead (t_b (at_ t)) = false -> b_dead (t_b (at_ u)) = false.
Proof. intros L D. induction L as [|u L IH]; auto using alive_step. Qed.
Lemma calm_at t : calm_reach (t_b (at_ t)).
Proof. apply tcalm_PI, tat_calm. Qed.
Lemma poll_step t : poll t <= poll (S t).
Proof.
  cbn [tat]. destruct (poller_step (at_ t) (sch t)) as [(E & _ & _)|[(f & _ & F)|(_ & F)]]; [lia| |].
  - rewrite F. rewrite (proj1 (proj2 (fetch_same f (t_b (at_ t))))). lia.
  - rewrite F. unfold publish_all. destruct (b_batch _) as [evs|] eqn:B; [|lia]. cbn [b_poll].
    pose proof (step_poll True (t_b (at_ t)) APublish) as X. cbn [bstep] in X. unfold publish_all in X. rewrite B in X. cbn [b_poll] in X. apply X. apply calm_Binv, calm_at.
Qed.
Lemma poll_later t u : (t <= u)%nat -> poll t <= poll u.
Proof. intros L. induction L as [|u L IH]; [lia|]. pose proof (poll_step u). lia. Qed.
Lemma fetch_kept t f : sch t = TBack (AFetch f) -> kept (snd (b_world (t_b (at_ t)))) (poll t).
Proof. intros E. pose proof (proj2 (proj2 CALM t)) as C. rewrite E in C. exact C. Qed.
Lemma batch_none t : exists t', (t <= t')%nat /\ batch t' = None.
Proof.
  destruct EXP as (_ & P & _). destruct (P t) as (u & LU & E). exists (S u). split; [lia|].
  cbn [tat]. rewrite E. cbn [tstep]. replace (outside (t_phase (at_ u)) APublish) with true by (unfold outside; destruct (own_group _); reflexivity).
  cbn [with_tb t_b bstep]. unfold publish_all. destruct (b_batch (t_b (at_ u))) eqn:B; auto.
Qed.
Lemma poll_more t : b_dead (t_b (at_ t)) = false -> poll t < revision (hist (at_ t)) -> exists t', (t <= t')%nat /\ poll t < poll t'.
Proof.
  intros D H. destruct (batch_none t) as (t1 & L1 & B1).
  destruct (Z.eq_dec (poll t1) (poll t)) as [E1|NE]; [|exists t1; split; [lia|]; pose proof (poll_later t t1 L1); lia].
  assert (INV : forall u, (t1 <= u)%nat -> poll t < poll u \/ poll u = poll t /\ (batch u = None \/ exists evs, batch u = Some evs /\ poll t < last_rev evs (poll t))).
  { intros u LU. induction LU as [|u LU IH]; [right; auto|]. destruct IH as [IH|[EP IH]]; [left; pose proof (poll_step u); lia|].
    cbn [tat]. destruct (poller_step (at_ u) (sch u)) as [(S1 & S2 & _)|[(f & S1 & S2)|[S1 S2]]].
    - right. rewrite S1, S2. auto.
    - right. rewrite S2, (proj1 (proj2 (fetch_same f (t_b (at_ u))))). split; [lia|]. destruct EXP as (_ & _ & P3 & _). destruct (fetch_bearable f (t_b (at_ u)) (P3 _ _ S1)) as [_ [FE|(F1 & F2 & F3)]].
      + rewrite FE. exact IH.
      + right. destruct (fetch_batch_some (t_b (at_ u)) F1) as [evs X]. exists evs. rewrite F3. split; [exact X|].
        rewrite <- EP. apply (fetch_progress (t_b (at_ u)) evs); auto.
        * apply calm_at.
        * eapply fetch_kept; eauto.
        * rewrite EP. pose proof (rev_later t u ltac:(lia)). lia.
    - destruct IH as [IH|(evs & IH & LT)].
      + right. rewrite S2. unfold publish_all. rewrite IH. auto.
      + left. rewrite S2. unfold publish_all. rewrite IH. cbn [b_poll]. rewrite EP. exact LT. }
  destruct EXP as (P1 & P2 & P3 & _). destruct (P1 t1) as (u & LU & EU).
  assert (AT : poll t < poll (S u) \/ poll (S u) = poll t /\ exists evs, batch (S u) = Some evs /\ poll t < last_rev evs (poll t)).
  { destruct (INV (S u) ltac:(lia)) as [I1|[I1 [I2|I2]]]; auto. exfalso.
    cbn [tat] in I2. rewrite EU in I2. cbn [tstep] in I2. replace (outside (t_phase (at_ u)) (AFetch NoFault)) with true in I2 by (unfold outside; destruct (own_group _); reflexivity).
    cbn [with_tb t_b bstep] in I2. destruct (fetch_batch_some (t_b (at_ u))) as [evs X]; [apply (alive t u); [lia|exact D]|congruence]. }
  destruct AT as [AT|(AP & evs & AB & AL)]; [exists (S u); split; [lia|exact AT]|].
  destruct (P2 (S u)) as (w & LW & EW).
  assert (INV2 : forall x, (S u <= x)%nat -> poll t < poll x \/ poll x = poll t /\ exists evs, batch x = Some evs /\ poll t < last_rev evs (poll t)).
  { intros x LX. induction LX as [|x LX IH]; [right; eauto|]. destruct IH as [IH|(EP & evs' & IH & LT)]; [left; pose proof (poll_step x); lia|].
    cbn [tat]. destruct (poller_step (at_ x) (sch x)) as [(S1 & S2 & _)|[(f & S1 & S2)|[S1 S2]]].
    - right. rewrite S1, S2. eauto.
    - right. rewrite S2, (proj1 (proj2 (fetch_same f (t_b (at_ x))))). split; [lia|]. exists evs'. split; [|exact LT]. unfold fetch. destruct (b_dead (t_b (at_ x))); [exact IH|]. now rewrite IH.
    - left. rewrite S2. unfold publish_all. rewrite IH. cbn [b_poll]. rewrite EP. exact LT. }
  exists (S w). split; [lia|]. destruct (INV2 w LW) as [I1|(I1 & evs' & I2 & I3)]; [pose proof (poll_step w); lia|].
  cbn [tat]. rewrite EW. cbn [tstep]. replace (outside (t_phase (at_ w)) APublish) with true by (unfold outside; destruct (own_group _); reflexivity).
  cbn [with_tb t_b bstep]. unfold publish_all. rewrite I2. cbn [b_poll]. rewrite I1. exact I3.
Qed.
Lemma poll_reaches n : forall t r, b_dead (t_b (at_ t)) = false -> r <= revision (hist (at_ t)) -> r - poll t <= Z.of_nat n -> exists t', (t <= t')%nat /\ r <= poll t'.
Proof.
  induction n as [|n IH]; intros t r D H N; [exists t; split; lia|].
  destruct (Z_le_gt_dec r (poll t)) as [LE|GT]; [exists t; split; lia|].
  destruct (poll_more t D ltac:(lia)) as (t1 & L1 & P1).
  destruct (IH t1 r) as (t2 & L2 & P2); [now apply (alive t)| |lia|exists t2; split; lia].
  pose proof (rev_later t t1 L1). lia.
Qed.

(** ---- the goroutine ---- *)
Variables (st : Z) (i : nat).
Definition loop (n : nat) (t : nat) (g : group) : Prop :=
  t_phase (at_ t) = TPLoop st i /\ t_ack (at_ t) = Some n /\ nth_error (b_groups (t_b (at_ t))) i = Some g.
Lemma loop_step n t g : loop n t g ->
  dropped (at_ t) i \/ exists g', loop n (S t) g' /\ (exists l, g_updates g' = g_updates g ++ l) /\
    (g_taken g' = g_taken g \/ (exists js, sch t = TRecv js) /\ g_taken g' = S (g_taken g) /\ (g_taken g < length (g_updates g))%nat).
Proof.
  intros (PH & AK & N).
  assert (OUT : forall a, outside (t_phase (at_ t)) a = true -> exists g', nth_error (b_groups (bstep (t_b (at_ t)) a)) i = Some g' /\ (exists l, g_updates g' = g_updates g ++ l) /\ g_taken g' = g_taken g).
  { intros a F. rewrite PH in F. destruct (foreign_group (t_b (at_ t)) a i g F N) as (g' & N' & E1 & _ & _ & _ & _ & E6). eauto. }
  assert (RF : exists l, g_updates g = g_updates g ++ l) by (exists []; now rewrite app_nil_r).
  unfold loop. cbn [tat]. destruct (sch t) as [a|d|f|f| | |f|f| |js|j f] eqn:ES; cbn [tstep]; rewrite ?PH.
  - rewrite <- PH. destruct (outside _ _) eqn:F; [|right; exists g; auto 10]. destruct (OUT a F) as (g' & N' & U & T). right. exists g'. cbn [with_tb t_phase t_ack t_b]. auto 10.
  - right. exists g. cbn [t_phase t_ack t_b]. auto 10.
  - right. exists g. auto 10.
  - right. exists g. auto 10.
  - right. exists g. auto 10.
  - right. exists g. auto 10.
  - right. exists g. auto 10.
  - right. exists g. auto 10.
  - right. exists g. auto 10.
  - rewrite N. destruct (nth_error (g_updates g) (g_taken g)) as [u|] eqn:NU.
    + right. exists (take g). cbn [t_phase t_ack t_b bstep]. pose proof (set_group_nth (t_b (at_ t)) i take g N) as N'.
      assert (LT : (g_taken g < length (g_updates g))%nat) by (apply nth_error_Some; congruence). split; [auto|].
      unfold take. replace (g_taken g <? length (g_updates g))%nat with true by (symmetry; now apply Nat.ltb_lt). cbn [g_updates g_taken]. split; [exact RF|]. right. eauto.
    + destruct (g_open g) eqn:O; [right; exists g; auto 10|]. left. exists g. auto.
  - right. destruct (nth_error (t_timers _) j) as [tm|] eqn:NT; [|exists g; auto 10]. destruct (_ <=? _); [|exists g; auto 10].
    exists g. cbn [with_tb t_phase t_ack t_b b_groups]. auto 10.
Qed.
(** [P] holds some time after [t], or the group is dropped *)
Definition eventually (t : nat) (P : nat -> Prop) : Prop := exists t', (t <= t')%nat /\ (P t' \/ dropped (at_ t') i).
Lemma ev_bind t (P Q : nat -> Prop) : eventually t P -> (forall t', (t <= t')%nat -> P t' -> eventually t' Q) -> eventually t Q.
Proof. intros (t1 & L & [H|H]) K; [|exists t1; auto]. destruct (K t1 L H) as (t2 & L2 & H2). exists t2. split; [lia|exact H2]. Qed.
Lemma loop_run n t u g : (t <= u)%nat -> loop n t g ->
  (exists v, (t <= v <= u)%nat /\ dropped (at_ v) i) \/ exists g', loop n u g' /\ (exists l, g_updates g' = g_updates g ++ l) /\ (g_taken g <= g_taken g')%nat.
Proof.
  intros L H. induction L as [|u L IH]; [right; exists g; split; auto; split; auto; exists []; now rewrite app_nil_r|].
  destruct IH as [(v & LV & D)|(g1 & H1 & (l1 & U1) & T1)]; [left; exists v; split; [lia|exact D]|].
  destruct (loop_step n u g1 H1) as [D|(g2 & H2 & (l2 & U2) & T2)]; [left; exists u; split; [lia|exact D]|].
  right. exists g2. split; auto. split; [exists (l1 ++ l2); rewrite U2, U1; now rewrite app_assoc|]. destruct T2 as [->|(_ & -> & _)]; lia.
Qed.
(** an update of revision at least [r] is published *)
Lemma published n t g r : loop n t g -> b_dead (t_b (at_ t)) = false -> r <= revision (hist (at_ t)) -> g_open g = true ->
  eventually t (fun t' => exists g' m u, loop n t' g' /\ (length (g_updates g) <= m)%nat /\ nth_error (g_updates g') m = Some u /\ r <= u_rev u /\ (g_taken g' <= m)%nat).
Proof.
  intros H D RL O. destruct (poll_reaches (Z.to_nat (r - poll t)) t r D RL ltac:(lia)) as (t1 & L1 & P1).
  (* a batch is there at some later time, when it is published *)
  destruct EXP as (F & P & _). destruct (F t1) as (u & LU & EU).
  assert (SOME : forall v, (S u <= v)%nat -> (exists w, (u <= w < v)%nat /\ sch w = TBack APublish /\ batch w <> None) \/ batch v <> None).
  { intros v LV. induction LV as [|v LV IH].
    - right. cbn [tat]. rewrite EU. cbn [tstep]. replace (outside (t_phase (at_ u)) (AFetch NoFault)) with true by (unfold outside; destruct (own_group _); reflexivity).
      cbn [with_tb t_b bstep]. destruct (fetch_batch_some (t_b (at_ u))) as [evs X]; [apply (alive t u); [lia|exact D]|congruence].
    - destruct IH as [(w & LW & EW & B)|B]; [left; exists w; split; [lia|auto]|].
      cbn [tat]. destruct (poller_step (at_ v) (sch v)) as [(_ & S2 & _)|[(f & S1 & S2)|[S1 S2]]].
      + right. congruence.
      + right. rewrite S2. unfold fetch. destruct (b_dead (t_b (at_ v))); auto. destruct (b_batch (t_b (at_ v))) eqn:E; congruence.
      + left. exists v. split; [lia|auto]. }
  destruct (P (S u)) as (w0 & LW0 & EW0).
  assert (W : exists w, (u <= w)%nat /\ sch w = TBack APublish /\ batch w <> None).
  { destruct (SOME w0 LW0) as [(w & LW & EW & B)|B]; [exists w; split; [lia|auto]|exists w0; split; [lia|auto]]. }
  destruct W as (w & LW & EW & B). destruct (batch w) as [evs|] eqn:BE; [|congruence].
  destruct (loop_run n t w g ltac:(lia) H) as [(v & LV & DR)|(g1 & H1 & (l1 & U1) & T1)]; [exists v; split; [lia|auto]|].
  destruct (loop_run n w (S w) g1 ltac:(lia) H1) as [(v & LV & DR)|(g2 & H2 & (l2 & U2) & T2)]; [exists v; split; [lia|auto]|].
  exists (S w). split; [lia|].
  destruct H1 as (PH1 & AK1 & N1). pose proof H2 as (PH2 & AK2 & N2).
  assert (PUB : nth_error (b_groups (publish_all (t_b (at_ w)))) i = Some g2).
  { cbn [tat] in N2. rewrite EW in N2. cbn [tstep] in N2. replace (outside (t_phase (at_ w)) APublish) with true in N2 by (unfold outside; destruct (own_group _); reflexivity). exact N2. }
  unfold publish_all in PUB. rewrite BE in PUB. cbn [b_groups] in PUB. rewrite (map_nth_error _ _ _ N1) in PUB. injection PUB as PUB.
  assert (LE : poll w <= last_rev evs (poll w)).
  { pose proof (step_poll True (t_b (at_ w)) APublish (calm_Binv _ (calm_at w))) as X. cbn [bstep] in X. unfold publish_all in X. rewrite BE in X. exact X. }
  pose proof (poll_later t1 w ltac:(lia)).
  unfold publish in PUB. destruct (g_open g1) eqn:O1.
  - destruct (_ <? _)%nat eqn:FULL.
    + left. exists g2, (length (g_updates g1)), (Update (last_rev evs (poll w)) (group_updates evs (g_watchers g1))). rewrite <- PUB. cbn [g_updates g_taken u_rev].
      split; [rewrite PUB; exact H2|]. split; [rewrite U1, app_length; lia|]. split; [rewrite nth_error_app2, Nat.sub_diag by lia; reflexivity|]. split; [lia|].
      destruct (tcalm_PI _ (tat_calm w)) as [_ J]. unfold PI in J. rewrite PH1 in J. destruct J as [_ (g0 & r0 & N0 & _ & _ & _ & B4 & _)]. rewrite N1 in N0. injection N0 as <-. exact B4.
    + right. exists g2. split; [exact N2|]. rewrite <- PUB. reflexivity.
  - right. exists g2. split; [exact N2|]. rewrite <- PUB. exact O1.
Qed.
(** and received *)
Lemma received_all d : forall n t g m, loop n t g -> (g_taken g <= m)%nat -> (m < length (g_updates g))%nat -> (S m - g_taken g <= d)%nat ->
  eventually t (fun t' => exists g', loop n t' g' /\ g_taken g' = S m /\ exists l, g_updates g' = g_updates g ++ l).
Proof.
  induction d as [|d IH]; intros n t g m H T U D; [lia|].
  destruct EXP as (_ & _ & _ & RC & _). destruct (RC t) as (u & js & LU & EU).
  (* until the next receive nothing is taken, or something is *)
  assert (X : forall v, (t <= v)%nat -> (exists w, (t <= w <= v)%nat /\ dropped (at_ w) i) \/
     (exists w g', (t <= w <= v)%nat /\ loop n w g' /\ g_taken g' = S (g_taken g) /\ exists l, g_updates g' = g_updates g ++ l) \/
     exists g', loop n v g' /\ g_taken g' = g_taken g /\ exists l, g_updates g' = g_updates g ++ l).
  { intros v LV. induction LV as [|v LV IHv]; [right; right; exists g; split; auto; split; auto; exists []; now rewrite app_nil_r|].
    destruct IHv as [(w & LW & DR)|[(w & g' & LW & Y)|(g' & Y1 & Y2 & (l & Y3))]].
    - left. exists w. split; [lia|auto].
    - right. left. exists w, g'. split; [lia|auto].
    - destruct (loop_step n v g' Y1) as [DR|(g2 & H2 & (l2 & U2) & [T2|(_ & T2 & _)])]; [left; exists v; split; [lia|auto]| |].
      + right. right. exists g2. split; auto. split; [congruence|]. exists (l ++ l2). rewrite U2, Y3. now rewrite app_assoc.
      + right. left. exists (S v), g2. split; [lia|]. split; auto. split; [congruence|]. exists (l ++ l2). rewrite U2, Y3. now rewrite app_assoc. }
  assert (ONE : eventually t (fun w => exists g', loop n w g' /\ g_taken g' = S (g_taken g) /\ exists l, g_updates g' = g_updates g ++ l)).
  { destruct (X u LU) as [(w & LW & DR)|[(w & g' & LW & Y)|(g' & Y1 & Y2 & (l & Y3))]].
    - exists w. split; [lia|auto].
    - exists w. split; [lia|]. left. exists g'. exact Y.
    - exists (S u). split; [lia|]. left. destruct Y1 as (PH & AK & N). exists (take g').
      assert (LT : (g_taken g' < length (g_updates g'))%nat) by (rewrite Y2, Y3, app_length; lia).
      destruct (nth_error (g_updates g') (g_taken g')) as [x|] eqn:NU; [|apply nth_error_None in NU; lia].
      unfold loop. cbn [tat]. rewrite EU. cbn [tstep]. rewrite PH, N, NU. cbn [t_phase t_ack t_b bstep]. split; [split; [auto|split; [exact AK|exact (set_group_nth (t_b (at_ u)) i take g' N)]]|].
      unfold take. replace (g_taken g' <? length (g_updates g'))%nat with true by (symmetry; now apply Nat.ltb_lt). cbn [g_taken g_updates]. split; [congruence|eauto]. }
  destruct (Nat.eq_dec (g_taken g) m) as [EM|NE]; [rewrite <- EM; exact ONE|].
  apply (ev_bind _ _ _ ONE). intros t' L' (g' & H' & T' & (l & U')).
  destruct (IH n t' g' m H') as (t2 & L2 & K); [lia|rewrite U', app_length; lia|lia|]. exists t2. split; auto. destruct K as [(g2 & A & B & (l2 & C))|K]; auto. left. exists g2. split; auto. split; auto. exists (l ++ l2). rewrite C, U'. now rewrite app_assoc.
Qed.

Lemma kv_dec (x y : kv) : {x = y} + {x <> y}.
Proof. decide equality; try apply Z.eq_dec; apply (list_eq_dec N.eq_dec). Qed.
Lemma now_dec h k x : {now h k = Some x} + {now h k <> Some x}.
Proof. destruct (now h k) as [y|]; [|right; discriminate]. destruct (kv_dec y x) as [->|N]; [now left|right; congruence]. Qed.

Lemma expires T t0 k x : (T <= t0)%nat -> caring (at_ T) st i -> now (hist (at_ t0)) k = Some x -> 0 < kv_lease x <= 9223372035 -> in_range [0%N] [255%N] k \/ kv_mod x <= st ->
  exists t, (T <= t)%nat /\ ((t0 <= t)%nat /\ now (hist (at_ t)) k <> Some x \/ dropped (at_ t) i).
Proof.
  intros L0 (PH & AK & D) X LS KR. destruct (t_ack (at_ T)) as [n|] eqn:EA; [|congruence].
  assert (G : exists g, loop n T g).
  { destruct (tcalm_PI _ (tat_calm T)) as [_ J]. unfold PI in J. rewrite PH in J. destruct J as [_ (g & r & N & _)]. exists g. repeat split; auto. }
  destruct G as [g H]. destruct (loop_run n T t0 g L0 H) as [(v & LV & DR)|(g0 & H0 & _)]; [exists v; split; [lia|auto]|].
  destruct (g_open g0) eqn:O; [|exists t0; split; [lia|]; right; exists g0; split; [apply H0|exact O]].
  pose proof (alive T t0 L0 D) as D0.
  assert (NL : (n <= length (g_updates g0))%nat).
  { destruct (tcalm_PI _ (tat_calm t0)) as [_ J]. destruct H0 as (PH0 & AK0 & N0). unfold PI in J. rewrite PH0 in J. destruct J as [_ (g1 & r & N1 & _ & _ & _ & _ & _ & C)]. rewrite N0 in N1. injection N1 as <-.
    destruct (C n AK0) as (g1 & N1 & _ & _ & C3 & _). rewrite N0 in N1. injection N1 as <-. exact C3. }
  pose proof (now_facts _ _ _ X) as XB.
  assert (EV : eventually t0 (fun t => exists g u, loop n t g /\ (n < g_taken g)%nat /\ nth_error (g_updates g) (g_taken g - 1) = Some u /\ kv_mod x <= u_rev u)).
  { apply (ev_bind _ _ _ (published n t0 g0 (kv_mod x) H0 D0 ltac:(lia) O)). intros t1 L1 (g1 & m & u & H1 & ML & NU & UR & TK).
    assert (M1 : (m < length (g_updates g1))%nat) by (apply nth_error_Some; congruence).
    apply (ev_bind _ _ _ (received_all (S m - g_taken g1) n t1 g1 m H1 TK M1 ltac:(lia))). intros t2 L2 (g2 & H2 & T2 & (l & U2)).
    exists t2. split; auto. left. exists g2, u. split; auto. rewrite T2. split; [lia|]. split; [|exact UR]. replace (S m - 1)%nat with m by lia. rewrite U2, nth_error_app1 by exact M1. exact NU. }
  destruct EV as (t1 & L1 & [(g1 & u & (PH1 & AK1 & N1) & T1 & NU & UR)|DR]); [|exists t1; split; [lia|auto]].
  destruct (now_dec (hist (at_ t1)) k x) as [X1|NX]; [|exists t1; split; [lia|auto]].
  destruct (leased_key_expires (at_ t1) st i g1 n u k x (tat_calm t1) PH1 N1 AK1 T1 NU X1 LS UR ltac:(tauto)) as (j & HJ).
  destruct EXP as (_ & _ & _ & _ & TM & AT). destruct (TM (t_now (at_ t1) + kv_lease x * 1000000000 + 1000000000)) as (t2 & E2).
  destruct (AT (Nat.max t1 t2) j) as (t3 & L3 & E3).
  destruct (now_dec (hist (at_ t3)) k x) as [X3|NX]; [|exists t3; split; [lia|]; left; split; [lia|exact NX]].
  exists (S t3). split; [lia|]. left. split; [lia|]. cbn [tat]. rewrite E3.
  rewrite (HJ (at_ t3) (tat_later t1 t3 ltac:(lia)) X3); [|pose proof (time_later t2 t3 ltac:(lia)); lia].
  rewrite now_snoc, change_key_same. discriminate.
Qed.
End Expiry.

(** ---- start-up (C176) ---- *)
Definition watching_at (s : tstate) (p : phase -> Prop) : Prop :=
  exists st i g r q, t_phase s = TPWatching st i /\ nth_error (b_groups (t_b s)) i = Some g /\ own_reg st r /\ g_pending g = [(r, q)] /\ g_returns g = [] /\ p q.
Definition stage (n : nat) (s : tstate) : Prop :=
  match n with
  | 0%nat => t_phase s = TPRev /\ 1 <= revision (hist s)
  | 1%nat => exists st, t_phase s = TPList st
  | 2%nat => exists st, t_phase s = TPGroup st
  | 3%nat => exists st i, t_phase s = TPBegin st i
  | 4%nat => watching_at s (fun q => q = PCheck)
  | 5%nat => watching_at s (fun q => q = PQuery)
  | 6%nat => watching_at s (fun q => exists evs, q = PFinish evs)
  | _ => exists st i, t_phase s = TPLoop st i /\ (t_ack s <> None \/ st < floor_of (snd (b_world (t_b s))))
  end.
Definition helper (n : nat) : taction :=
  match n with 0%nat => TRev NoFault | 1%nat => TList NoFault | 2%nat => TGroup | 3%nat => TWatch | 4%nat => TCheck NoFault | 5%nat => TQuery NoFault | _ => TFinish end.
Definition healthy (a : taction) : Prop := match a with TRev f | TList f | TCheck f | TQuery f => f = NoFault | _ => True end.
Lemma watching_keep s s' p : t_phase s' = t_phase s -> b_groups (t_b s') = b_groups (t_b s) -> watching_at s p -> watching_at s' p.
Proof. intros E1 E2 (st & i & g & r & q & A). exists st, i, g, r, q. rewrite E1, E2. exact A. Qed.
Lemma watching_out s a p : outside (t_phase s) a = true -> watching_at s p -> watching_at (with_tb s (bstep (t_b s) a)) p.
Proof.
  intros F (st & i & g & r & q & A & N & B & C & D & E). rewrite A in F.
  destruct (foreign_group (t_b s) a i g F N) as (g' & N' & _ & _ & C3 & C4 & _). exists st, i, g', r, q. cbn [with_tb t_phase t_b]. rewrite C3, C4. auto 10.
Qed.
Lemma watching_phase s p : watching_at s p -> exists st i, t_phase s = TPWatching st i.
Proof. intros (st & i & g & r & q & A & _). eauto. Qed.
Lemma phase_same s a : (exists x, a = TBack x) \/ (exists d, a = TTime d) \/ (exists j f, a = TAttempt j f) -> t_phase (tstep s a) = t_phase s.
Proof.
  intros [[x ->]|[[d ->]|(j & f & ->)]]; cbn [tstep]; auto; [destruct (outside _ _); reflexivity|].
  destruct (nth_error _ _); auto. destruct (_ <=? _); reflexivity.
Qed.
Lemma watching_other s a p : (exists x, a = TBack x) \/ (exists d, a = TTime d) \/ (exists j f, a = TAttempt j f) -> watching_at s p -> watching_at (tstep s a) p.
Proof.
  intros [[x ->]|[[d ->]|(j & f & ->)]] W; cbn [tstep].
  - destruct (outside _ _) eqn:F; [now apply watching_out|exact W].
  - exact W.
  - destruct (nth_error _ _); auto. destruct (_ <=? _); auto.
Qed.
(** the step that a registration in progress takes *)
Lemma watch_next s st i (g : group) (g' : group) a : t_phase s = TPWatching st i -> nth_error (b_groups (bstep (t_b s) a)) i = Some g' ->
  (g_returns g' = [] -> t_phase (t_watch_step s st i a) = TPWatching st i) /\
  (forall n, g_returns g' = [(1, n)] -> t_phase (t_watch_step s st i a) = TPLoop st i /\ (n = WOk -> t_ack (t_watch_step s st i a) <> None)) /\ g = g.
Proof.
  intros PH N. unfold t_watch_step, watch_returned. cbn [with_tb t_b]. rewrite N. split; [|split; auto].
  - intros ->. reflexivity.
  - intros n ->. cbn [find fst Z.eqb Pos.eqb]. destruct n; cbn; split; auto; discriminate.
Qed.
Lemma stage_step n s a : (n < 7)%nat -> tcalm s -> tpossible s a -> healthy a -> stage n s ->
  (stage n (tstep s a) /\ a <> helper n) \/ stage (S n) (tstep s a) \/ stage 7 (tstep s a).
Proof.
  intros L C P HL ST. pose proof (treach_TI _ (tcalm_treach _ C)) as TI. destruct (tcalm_PI _ C) as [CR J].
  assert (WR : wreach (b_world (t_b s))) by (apply breach_wreach, calm_breach, CR).
  assert (OTHER : (exists x, a = TBack x) \/ (exists d, a = TTime d) \/ (exists j f, a = TAttempt j f) \/ (exists js, a = TRecv js) \/
     a = TRev NoFault \/ a = TList NoFault \/ a = TGroup \/ a = TWatch \/ a = TCheck NoFault \/ a = TQuery NoFault \/ a = TFinish).
  { destruct a; cbn in HL; subst; eauto 20. }
  assert (KEEP : (exists x, a = TBack x) \/ (exists d, a = TTime d) \/ (exists j f, a = TAttempt j f) -> stage n (tstep s a) /\ a <> helper n).
  { intros O. split; [|destruct O as [[x ->]|[[d ->]|(j & f & ->)]]; destruct n as [|[|[|[|[|[|n]]]]]]; discriminate].
    pose proof (phase_same s a O) as E. destruct n as [|[|[|[|[|[|[|n]]]]]]]; cbn [stage] in *; rewrite ?E; try exact ST; try (eapply watching_other; eassumption); [|lia].
    split; [apply ST|]. assert (X : exists l, hist (tstep s a) = hist s ++ l).
    { destruct O as [[x ->]|[[d ->]|(j & f & ->)]]; cbn [tstep].
      - destruct (outside _ _); [now apply bstep_extends|exists []; now rewrite app_nil_r].
      - exists []; now rewrite app_nil_r.
      - destruct (nth_error _ _) as [tm|] eqn:N; [|exists []; now rewrite app_nil_r]. destruct (_ <=? _); [|exists []; now rewrite app_nil_r]. cbn [with_tb t_b].
        fold (attempt_b (t_b s) (tm_key tm) (tm_rev tm) f). destruct (attempt_cases (t_b s) (tm_key tm) (tm_rev tm) f) as [-> | ->]; [exists []; now rewrite app_nil_r|].
        apply bstep_extends. cbn. eapply timer_key; [exact TI|]. eapply nth_error_In; eauto. }
    destruct X as [l ->]. rewrite revision_app. pose proof (revision_nonneg l). lia. }
  destruct OTHER as [O|[O|[O|O]]]; [left; auto|left; auto|left; auto|].
  assert (SAME : forall x, tstep s x = s -> a = x -> x <> helper n -> stage n (tstep s a) /\ a <> helper n) by (intros x E -> NE; rewrite E; auto).
  destruct n as [|[|[|[|[|[|[|n]]]]]]]; [| | | | | | |lia]; cbn [stage helper] in *.
  - destruct ST as [PH RV]. destruct O as [[js ->]|[->|[->|[->|[->|[->|[->| ->]]]]]]]; cbn [tstep] in *; rewrite ?PH in *; try (left; split; [now split|discriminate]).
    right. left. assert (E : rev_result NoFault (b_world (t_b s)) = Ok (revision (hist s))).
    { pose proof (rev_sql_R _ _ (breach_R _ (T_breach _ TI))) as E. unfold rev_result. cbn [sem snd answer]. rewrite E. destruct (Z.eqb_spec (revision (hist s)) 0); [lia|reflexivity]. }
    rewrite E. eexists. reflexivity.
  - destruct ST as [st PH]. destruct O as [[js ->]|[->|[->|[->|[->|[->|[->| ->]]]]]]]; cbn [tstep] in *; rewrite ?PH in *; try (left; split; [eauto|discriminate]).
    right. left. cbn [sem snd]. eexists. reflexivity.
  - destruct ST as [st PH]. destruct O as [[js ->]|[->|[->|[->|[->|[->|[->| ->]]]]]]]; cbn [tstep] in *; rewrite ?PH in *; try (left; split; [eauto|discriminate]).
    right. left. eexists _, _. reflexivity.
  - destruct ST as (st & i & PH). destruct O as [[js ->]|[->|[->|[->|[->|[->|[->| ->]]]]]]]; cbn [tstep] in *; rewrite ?PH in *; try (left; split; [eauto|discriminate]).
    right. left. pose proof (PI_begin s st i CR J PH) as J'. unfold PI in J, J'. rewrite PH in J. destruct J as [[A1 _] (g & N & B1 & B2 & B3 & _)].
    pose proof (set_group_nth (t_b s) i (watch_begin ttl_lo ttl_hi st) g N) as N'.
    assert (W : watch_begin ttl_lo ttl_hi st g = Group (g_rev g) (g_watchers g ++ [Watcher (Reg 1 ttl_lo ttl_hi st (g_rev g)) false []])
       [(Reg 1 ttl_lo ttl_hi st (g_rev g), PCheck)] (g_updates g) (g_taken g) (g_open g) [Reg 1 ttl_lo ttl_hi st (g_rev g)] [] (g_cancelled g)).
    { unfold watch_begin. rewrite B1, B2, B3. replace (0 <? st) with true by (symmetry; apply Z.ltb_lt; lia). reflexivity. }
    rewrite W in N'. eexists st, i, _, (Reg 1 ttl_lo ttl_hi st (g_rev g)), PCheck. rewrite TtlLive.watch_step_b. cbn [bstep]. split; [|split; [exact N'|split; [unfold own_reg; cbn; auto|cbn; auto]]].
    unfold t_watch_step, watch_returned. cbn [with_tb t_b bstep]. rewrite N'. reflexivity.
  - pose proof ST as (st & i & g & r & q & PH & N & OR & PP & RR & ->). destruct OR as (O1 & O2 & O3 & O4).
    destruct O as [[js ->]|[->|[->|[->|[->|[->|[->| ->]]]]]]]; cbn [tstep] in *; rewrite ?PH in *; try (left; split; [exact ST|discriminate]).
    + pose proof (set_group_nth (t_b s) i (watch_check 1 NoFault (b_world (t_b s))) g N) as N'.
      unfold watch_check at 2 in N'. rewrite (pending_single _ _ _ _ PP O1), (interval_result_nofault _ WR) in N'.
      destruct (r_start r <? _) eqn:LT; destruct (watch_next s st i g _ (ACheck i 1 NoFault) PH N') as (K1 & K2 & _); cbn [g_returns] in *; rewrite RR in *.
      * right. right. cbn [app] in *. destruct (K2 _ eq_refl) as [K3 _]. exists st, i. split; [exact K3|]. right. rewrite TtlLive.watch_step_b. cbn [bstep set_group b_world]. apply Z.ltb_lt in LT. lia.
      * right. left. eexists st, i, _, r, PQuery. rewrite TtlLive.watch_step_b. split; [now apply K1|]. split; [exact N'|]. split; [repeat split; auto|]. cbn [g_pending g_returns]. rewrite PP, (phase_single _ _ _ _ O1). auto.
    + left. split; [|discriminate]. pose proof (set_group_nth (t_b s) i (watch_query 1 NoFault (b_world (t_b s))) g N) as N'.
      unfold watch_query at 2 in N'. rewrite (pending_single _ _ _ _ PP O1) in N'. destruct (watch_next s st i g _ (AQuery i 1 NoFault) PH N') as (K1 & _).
      eexists st, i, g, r, PCheck. rewrite TtlLive.watch_step_b. split; [now apply K1|]. split; [exact N'|]. repeat split; auto.
    + left. split; [|discriminate]. pose proof (set_group_nth (t_b s) i (watch_finish 1) g N) as N'.
      unfold watch_finish at 2 in N'. rewrite (pending_single _ _ _ _ PP O1) in N'. destruct (watch_next s st i g _ (AFinish i 1) PH N') as (K1 & _).
      eexists st, i, g, r, PCheck. rewrite TtlLive.watch_step_b. split; [now apply K1|]. split; [exact N'|]. repeat split; auto.
  - pose proof ST as (st & i & g & r & q & PH & N & OR & PP & RR & ->). destruct OR as (O1 & O2 & O3 & O4).
    destruct O as [[js ->]|[->|[->|[->|[->|[->|[->| ->]]]]]]]; cbn [tstep] in *; rewrite ?PH in *; try (left; split; [exact ST|discriminate]).
    + left. split; [|discriminate]. pose proof (set_group_nth (t_b s) i (watch_check 1 NoFault (b_world (t_b s))) g N) as N'.
      unfold watch_check at 2 in N'. rewrite (pending_single _ _ _ _ PP O1) in N'. destruct (watch_next s st i g _ (ACheck i 1 NoFault) PH N') as (K1 & _).
      eexists st, i, g, r, PQuery. rewrite TtlLive.watch_step_b. split; [now apply K1|]. split; [exact N'|]. repeat split; auto.
    + right. left. pose proof (set_group_nth (t_b s) i (watch_query 1 NoFault (b_world (t_b s))) g N) as N'.
      unfold watch_query at 2 in N'. rewrite (pending_single _ _ _ _ PP O1) in N'. cbn [sem snd] in N'. destruct (watch_next s st i g _ (AQuery i 1 NoFault) PH N') as (K1 & _). cbn [g_returns] in K1.
      eexists st, i, _, r, _. rewrite TtlLive.watch_step_b. split; [now apply K1|]. split; [exact N'|]. split; [repeat split; auto|]. cbn [g_pending g_returns]. rewrite PP, (phase_single _ _ _ _ O1). split; [reflexivity|]. split; [exact RR|eauto].
    + left. split; [|discriminate]. pose proof (set_group_nth (t_b s) i (watch_finish 1) g N) as N'.
      unfold watch_finish at 2 in N'. rewrite (pending_single _ _ _ _ PP O1) in N'. destruct (watch_next s st i g _ (AFinish i 1) PH N') as (K1 & _).
      eexists st, i, g, r, PQuery. rewrite TtlLive.watch_step_b. split; [now apply K1|]. split; [exact N'|]. repeat split; auto.
  - pose proof ST as (st & i & g & r & q & PH & N & OR & PP & RR & evs & ->). destruct OR as (O1 & O2 & O3 & O4).
    destruct O as [[js ->]|[->|[->|[->|[->|[->|[->| ->]]]]]]]; cbn [tstep] in *; rewrite ?PH in *; try (left; split; [exact ST|discriminate]).
    + left. split; [|discriminate]. pose proof (set_group_nth (t_b s) i (watch_check 1 NoFault (b_world (t_b s))) g N) as N'.
      unfold watch_check at 2 in N'. rewrite (pending_single _ _ _ _ PP O1) in N'. destruct (watch_next s st i g _ (ACheck i 1 NoFault) PH N') as (K1 & _).
      eexists st, i, g, r, _. rewrite TtlLive.watch_step_b. split; [now apply K1|]. split; [exact N'|]. repeat split; eauto.
    + left. split; [|discriminate]. pose proof (set_group_nth (t_b s) i (watch_query 1 NoFault (b_world (t_b s))) g N) as N'.
      unfold watch_query at 2 in N'. rewrite (pending_single _ _ _ _ PP O1) in N'. destruct (watch_next s st i g _ (AQuery i 1 NoFault) PH N') as (K1 & _).
      eexists st, i, g, r, _. rewrite TtlLive.watch_step_b. split; [now apply K1|]. split; [exact N'|]. repeat split; eauto.
    + right. left. pose proof (set_group_nth (t_b s) i (watch_finish 1) g N) as N'.
      unfold watch_finish at 2 in N'. rewrite (pending_single _ _ _ _ PP O1) in N'. destruct (watch_next s st i g _ (AFinish i 1) PH N') as (_ & K2 & _). cbn [g_returns] in K2. rewrite RR in K2.
      destruct (K2 WOk eq_refl) as [K3 K4]. exists st, i. split; [exact K3|]. left. now apply K4.
Qed.
Lemma starts s0 sch : tcalm_schedule s0 sch -> starting sch -> forall d n T, (n <= 7)%nat -> (7 - n <= d)%nat -> stage n (tat s0 sch T) -> exists t, (T <= t)%nat /\ stage 7 (tat s0 sch t).
Proof.
  intros CA [S1 S2]. assert (HE : forall t, healthy (sch t)) by (intros t; specialize (S2 t); destruct (sch t); cbn; auto; eapply S2; eauto).
  induction d as [|d IH]; intros n T L D ST; [exists T; split; [lia|]; now replace 7%nat with n by lia|].
  destruct (Nat.eq_dec n 7) as [->|NE]; [exists T; split; [lia|exact ST]|].
  destruct (S1 T (helper n)) as (u & LU & EU). { destruct n as [|[|[|[|[|[|[|n]]]]]]]; cbn; tauto. }
  assert (X : forall v, (T <= v)%nat -> (exists w, (T <= w <= v)%nat /\ (stage (S n) (tat s0 sch w) \/ stage 7 (tat s0 sch w))) \/ stage n (tat s0 sch v)).
  { intros v LV. induction LV as [|v LV IHv]; [now right|]. destruct IHv as [(w & LW & K)|K]; [left; exists w; split; [lia|exact K]|].
    cbn [tat]. destruct (stage_step n (tat s0 sch v) (sch v)) as [[K1 _]|K1]; auto; [lia|now apply tat_calm|apply CA|]. left. exists (S v). split; [lia|]. cbn [tat]. exact K1. }
  assert (Y : exists w, (T <= w)%nat /\ (stage (S n) (tat s0 sch w) \/ stage 7 (tat s0 sch w))).
  { destruct (X u LU) as [(w & LW & K)|K]; [exists w; split; [lia|exact K]|]. exists (S u). split; [lia|]. cbn [tat].
    destruct (stage_step n (tat s0 sch u) (sch u)) as [[_ K1]|K1]; auto; [lia|now apply tat_calm|apply CA|congruence]. }
  destruct Y as (w & LW & [K|K]); [|exists w; auto]. destruct (IH (S n) w) as (t & LT & K'); [lia|lia|exact K|]. exists t. split; [lia|exact K'].
Qed.
Lemma startup_stage s : tcalm s -> 1 <= revision (hist s) -> (forall st i, t_phase s <> TPLoop st i) -> t_phase s <> TPEnd -> exists n, (n < 7)%nat /\ stage n s.
Proof.
  intros C RV NL NE. destruct (tcalm_PI _ C) as [_ J]. unfold PI in J. destruct (t_phase s) as [|st|st|st i|st i|st i|] eqn:PH; try congruence.
  - exists 0%nat. split; [lia|]. split; auto.
  - exists 1%nat. split; [lia|]. cbn. eauto.
  - exists 2%nat. split; [lia|]. cbn. eauto.
  - exists 3%nat. split; [lia|]. cbn. eauto.
  - destruct J as [_ (g & r & p & N & B1 & B2 & B3 & B4 & _)].
    assert (W : forall p', p = p' -> forall Q : phase -> Prop, Q p' -> watching_at s Q) by (intros p' <- Q HQ; exists st, i, g, r, p; auto 10).
    destruct p as [| |evs]; [exists 4%nat|exists 5%nat|exists 6%nat]; (split; [lia|]); cbn [stage]; (eapply W; [reflexivity|]); eauto.
Qed.
Lemma comes_up s0 sch T : tcalm_schedule s0 sch -> starting sch -> expiring s0 sch -> b_dead (t_b (tat s0 sch T)) = false -> 1 <= revision (hist (tat s0 sch T)) ->
  (forall st i, t_phase (tat s0 sch T) <> TPLoop st i) -> t_phase (tat s0 sch T) <> TPEnd ->
  exists t st i, (T <= t)%nat /\ (caring (tat s0 sch t) st i \/ t_phase (tat s0 sch t) = TPLoop st i /\ st < floor_of (snd (b_world (t_b (tat s0 sch t))))).
Proof.
  intros CA SA EX D RV NL NE. destruct (startup_stage (tat s0 sch T) (tat_calm s0 sch CA T) RV NL NE) as (n & L & ST).
  destruct (starts s0 sch CA SA (7 - n) n T ltac:(lia) ltac:(lia) ST) as (t & LT & (st & i & PH & K)). exists t, st, i. split; [exact LT|].
  destruct K as [K|K]; [left|right; auto]. split; [exact PH|]. split; [exact K|]. exact (alive s0 sch EX T t LT D).
Qed.
