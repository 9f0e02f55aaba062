From Coq Require Import List ZArith Bool Lia.
From Verif Require Import Bytes Spec Sql System Prog Backend Limited Watch SpecLemmas ProgLemmas WatchProofs Ttl TtlProofs TtlLive TtlWitness Lease.
Import ListNotations.
Open Scope Z_scope.
Local Notation hist s := (history_of (snd (b_world (t_b s)))).

Lemma tlater_treach s s' : treach s -> tlater s s' -> treach s'.
Proof. intros H L. induction L as [s|s s' a L IH P]; auto. apply treach_step; auto. Qed.

Lemma watch_step_timers s st i a : t_timers (t_watch_step s st i a) = t_timers s.
Proof. unfold t_watch_step. destruct (watch_returned _ _) as [[[] ?]|]; reflexivity. Qed.
Lemma tstep_timers s a : exists l, t_timers (tstep s a) = t_timers s ++ l.
Proof.
  destruct a; cbn [tstep]; try (exists []; rewrite app_nil_r; reflexivity).
  - destruct (outside _ _); exists []; rewrite app_nil_r; reflexivity.
  - destruct (t_phase s); try (exists []; rewrite app_nil_r; reflexivity). destruct (rev_result _ _); exists []; rewrite app_nil_r; reflexivity.
  - destruct (t_phase s); try (exists []; rewrite app_nil_r; reflexivity). destruct (snd _); [eexists; reflexivity|exists []; rewrite app_nil_r; reflexivity].
  - destruct (t_phase s); try (exists []; rewrite app_nil_r; reflexivity).
  - destruct (t_phase s); exists []; rewrite ?watch_step_timers, app_nil_r; reflexivity.
  - destruct (t_phase s); exists []; rewrite ?watch_step_timers, app_nil_r; reflexivity.
  - destruct (t_phase s); exists []; rewrite ?watch_step_timers, app_nil_r; reflexivity.
  - destruct (t_phase s); exists []; rewrite ?watch_step_timers, app_nil_r; reflexivity.
  - destruct (t_phase s); try (exists []; rewrite app_nil_r; reflexivity).
    destruct (nth_error _ i) as [g|]; [|exists []; rewrite app_nil_r; reflexivity].
    destruct (nth_error (g_updates g) _); [eexists; reflexivity|]. destruct (g_open g); exists []; rewrite app_nil_r; reflexivity.
  - destruct (nth_error _ j); [|exists []; rewrite app_nil_r; reflexivity]. destruct (_ <=? _); exists []; rewrite app_nil_r; reflexivity.
Qed.
Lemma tlater_timer s s' j tm : tlater s s' -> nth_error (t_timers s) j = Some tm -> nth_error (t_timers s') j = Some tm.
Proof.
  induction 1 as [s|s s' a H IH P]; auto. intros N. specialize (IH N). destruct (tstep_timers s' a) as [l ->].
  rewrite nth_error_app1; auto. apply nth_error_Some. congruence.
Qed.
Lemma duration_short l : 0 < l <= 9223372035 -> lease_duration l <= l * second + second /\ forall j, jittered l j <= l * second + second.
Proof.
  intros H. assert (E : lease_duration l = l * second) by (unfold lease_duration, second; apply wrap64_id; lia).
  split; [unfold second in *; lia|]. intros j. unfold jittered. rewrite E. pose proof (Z.mod_pos_bound j 1000 ltac:(lia)).
  rewrite wrap64_id; unfold second, millisecond in *; nia.
Qed.
Lemma timer_due s tm : TI s -> In tm (t_timers s) -> 0 < tm_lease tm <= 9223372035 -> tm_due tm <= t_now s + tm_lease tm * second + second.
Proof.
  intros J I L. pose proof (T_timers _ J) as F. rewrite Forall_forall in F. destruct (F tm I) as (_ & _ & A & _ & D).
  destruct (duration_short _ L) as [B C]. unfold due_at in D. assert (0 <= tm_lease tm * second) by (unfold second; lia). assert (0 <= second) by (unfold second; lia).
  destruct D as [D|[jj D]]; [|specialize (C jj)]; lia.
Qed.
Lemma leased_key_expires s st i g n u k x : tcalm s -> t_phase s = TPLoop st i -> nth_error (b_groups (t_b s)) i = Some g ->
  t_ack s = Some n -> (n < g_taken g)%nat -> nth_error (g_updates g) (g_taken g - 1) = Some u ->
  now (hist s) k = Some x -> 0 < kv_lease x <= 9223372035 -> kv_mod x <= u_rev u -> (kv_mod x <= st \/ in_range [0%N] [255%N] k) ->
  exists j, forall s', tlater s s' -> now (hist s') k = Some x -> t_now s + kv_lease x * 1000000000 + 1000000000 <= t_now s' ->
    hist (tstep s' (TAttempt j NoFault)) = hist s' ++ [Entry k Del].
Proof.
  intros H E N K L U X P M C.
  destruct (all_leased_have_timers s st i g n u k x H E N K L U X ltac:(lia) M C) as (tm & I & T1 & T2 & T3).
  destruct (In_nth_error _ _ I) as [j NJ]. exists j. intros s' HL X' TN.
  pose proof (tcalm_treach _ H) as HR. pose proof (tlater_treach _ _ HR HL) as HR'.
  pose proof (timer_due s tm (treach_TI _ HR) I ltac:(lia)) as D. unfold second in D. rewrite <- T1 in X' |- *. rewrite T3 in D.
  apply (expiry_works s' j tm x); auto; [eapply tlater_timer; eauto|lia].
Qed.
Lemma granted_not_early ttl wanted w id t : snd (run (lease_grant (LeaseReq ttl wanted)) w) = Ok (id, t) ->
  t = ttl /\ forall s j f k x, treach s -> now (hist s) k = Some x -> kv_lease x = id -> 0 < ttl <= 9223372035 ->
    hist (tstep s (TAttempt j f)) = hist s ++ [Entry k Del] ->
    exists written_at, nth_error (t_stamps s) (Z.to_nat (kv_mod x - 1)) = Some written_at /\ written_at + ttl * 1000000000 <= t_now s.
Proof.
  intros E. cbn in E. injection E as <- <-. split; auto. intros s j f k x H X LE P D.
  destruct (nth_error (t_timers s) j) as [tm|] eqn:NJ.
  - destruct (expiry_exact s j f tm H NJ) as [E|(E & _ & y & Y & Y1 & Y2 & _)].
    + rewrite E in D. exfalso. symmetry in D. rewrite <- (app_nil_r (hist s)) in D at 2. apply app_inv_head in D. discriminate.
    + pose proof D as D'. rewrite E in D'. apply app_inv_head in D'. injection D' as KK. rewrite KK, X in Y. injection Y as <-. rewrite Y1.
      destruct (expiry_late s j f tm H NJ) as (wa & W1 & W2); [rewrite <- Y2, LE; lia| |].
      * rewrite E. intros Q. symmetry in Q. rewrite <- (app_nil_r (hist s)) in Q at 1. apply app_inv_head in Q. discriminate.
      * exists wa. split; auto. rewrite <- Y2, LE in W2. exact W2.
  - exfalso. cbn [tstep] in D. rewrite NJ in D. symmetry in D. rewrite <- (app_nil_r (hist s)) in D at 2. apply app_inv_head in D. discriminate.
Qed.
Lemma unleased_stays s j f k x : treach s -> now (hist s) k = Some x -> kv_lease x = 0 -> now (hist (tstep s (TAttempt j f))) k = Some x.
Proof.
  intros H X LE. destruct (nth_error (t_timers s) j) as [tm|] eqn:NJ; [|cbn [tstep]; rewrite NJ; exact X].
  destruct (expiry_exact s j f tm H NJ) as [E|(E & _ & y & Y & Y1 & Y2 & Y3)]; rewrite E; auto.
  assert (k <> tm_key tm) by (intros ->; congruence).
  rewrite now_snoc, change_key_other; auto.
Qed.

(** ---- nothing but statements of servers' requests changes such a key ---- *)
Lemma bstep_world b a : (forall op, a <> AEnv op) -> b_world (bstep b a) = b_world b.
Proof.
  intros N. destruct a; cbn [bstep]; try reflexivity.
  - exfalso. exact (N a eq_refl).
  - apply (fetch_same f b).
  - unfold publish_all. destruct (b_batch b); [reflexivity|]. reflexivity.
Qed.
Lemma twatch_world s st i a : (forall op, a <> AEnv op) -> b_world (t_b (t_watch_step s st i a)) = b_world (t_b s).
Proof.
  intros N. unfold t_watch_step. destruct (watch_returned _ _) as [[[] ?]|]; cbn; apply bstep_world; exact N.
Qed.
Lemma unleased_only_requests s a k x : treach s -> now (hist s) k = Some x -> kv_lease x = 0 ->
  (forall op, a <> TBack (AEnv op)) -> now (hist (tstep s a)) k = Some x.
Proof.
  intros H X LE N.
  assert (G : b_world (t_b (tstep s a)) = b_world (t_b s) \/ exists j f, a = TAttempt j f).
  { destruct a; try (right; eauto; fail); left; cbn [tstep]; try reflexivity.
    - destruct (outside _ _); [|reflexivity]. cbn. apply bstep_world. intros op ->. exact (N op eq_refl).
    - destruct (t_phase s); try reflexivity. destruct (rev_result _ _); reflexivity.
    - destruct (t_phase s); try reflexivity. destruct (snd (sem _ _ _)); reflexivity.
    - destruct (t_phase s); reflexivity.
    - destruct (t_phase s); try reflexivity. apply twatch_world. discriminate.
    - destruct (t_phase s); try reflexivity. apply twatch_world. discriminate.
    - destruct (t_phase s); try reflexivity. apply twatch_world. discriminate.
    - destruct (t_phase s); try reflexivity. apply twatch_world. discriminate.
    - destruct (t_phase s); try reflexivity. destruct (nth_error (b_groups _) _); try reflexivity.
      destruct (nth_error (g_updates _) _); try reflexivity. destruct (g_open _); reflexivity. }
  destruct G as [G|(j & f & ->)].
  - rewrite G. exact X.
  - apply unleased_stays; assumption.
Qed.
