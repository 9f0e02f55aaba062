(** Proofs about Cluster.v. *)
From Coq Require Import List ZArith Bool Lia.
From Verif Require Import Bytes Spec Sql System Prog Backend Limited Api Pool Ledger Batch BatchKine Node Watch Stream Resume Whole.
From Verif Require Import SpecLemmas SqlLemmas Sim ProgLemmas Safety LedgerLemmas LedgerMore NodeProofs WatchLemmas WatchProofs WatchResults WholeProofs WholeResults Ttl TtlProofs Cluster.
From Verif Require Import Watch Stream Whole.
Import ListNotations.
Open Scope Z_scope.

Definition chist (s : cstate) : history := history_of (snd (c_world s)).
(** ---- what a step of Whole.v adds ---- *)
Lemma notes_commits ps j l x : In x (notes ps j l) -> exists i e, x = Committed i e.
Proof.
  unfold notes. intros I. apply in_flat_map in I. destruct I as (y & _ & I). destruct y as [id a r|a]; [|contradiction].
  destruct (fst r =? 0); [contradiction|]. apply in_map_iff in I. destruct I as (e & <- & _). eauto.
Qed.
Lemma nstep_asks cfg s x s' : nstep cfg s x = Some s' -> exists l, n_log s' = n_log s ++ l /\ forall i q, In (Asked i q) l -> exists j, x = NAsk j q.
Proof.
  destruct s as [w sv ps log n]. destruct x as [|j q|i f|i|j a|i|i|j]; cbn [nstep n_log].
  - intros [= <-]. exists []. rewrite app_nil_r. split; [reflexivity|intros ? ? []].
  - destruct (nth_error sv j); [|discriminate]. intros [= <-]. eexists. split; [reflexivity|]. intros i q' [E|[]]. injection E as _ <-. eauto.
  - destruct (nth_error ps i) as [[id j [p|]]|]; try discriminate. destruct p as [|c k]; [discriminate|].
    assert (G : forall nd', Some nd' = Some s' -> n_log nd' = log ++ map (Committed id) (commit_of f c w) ->
      exists l, n_log s' = log ++ l /\ forall i0 q, In (Asked i0 q) l -> exists j0, NCall i f = NAsk j0 q).
    { intros nd' [= <-] E. eexists. split; [exact E|]. intros i0 q I. apply in_map_iff in I. destruct I as (e & X & _). discriminate X. }
    destruct (op_of c) as [a|]; [destruct (batched a); [discriminate|]|]; intros E; eapply G; try exact E; reflexivity.
  - destruct (nth_error ps i) as [[id j [p|]]|]; try discriminate. destruct p as [|c k]; [discriminate|]. destruct c; try discriminate.
    destruct (batched _); [|discriminate]. destruct (nth_error sv j); [|discriminate]. destruct (kclosed _); intros [= <-]; (exists []; cbn [n_log]; rewrite app_nil_r; split; [reflexivity|intros ? ? []]).
  - assert (G : forall nd' l, Some nd' = Some s' -> n_log nd' = log ++ notes ps j l ->
      exists l, n_log s' = log ++ l /\ forall i0 q, In (Asked i0 q) l -> exists j0, NBatch j a = NAsk j0 q).
    { intros nd' l [= <-] E. eexists. split; [exact E|]. intros i0 q I. apply notes_commits in I. destruct I as (? & ? & X). discriminate X. }
    destruct (nth_error sv j) as [b|]; [|destruct a; discriminate]. destruct a; try discriminate; intros E; eapply G; try exact E; reflexivity.
  - destruct (nth_error ps i) as [[id j [p|]]|]; try discriminate. destruct (nth_error sv j); [|discriminate]. destruct (kreleased _ _); [|discriminate].
    intros [= <-]. exists []. cbn [n_log]. rewrite app_nil_r. split; [reflexivity|intros ? ? []].
  - destruct (nth_error ps i) as [[id j [p|]]|]; try discriminate. destruct p as [o|]; [|discriminate]. intros [= <-].
    eexists. split; [reflexivity|]. intros i0 q [X|[]]. discriminate X.
  - intros [= <-]. exists []. cbn [n_log]. rewrite app_nil_r. split; [reflexivity|intros ? ? []].
Qed.
Lemma kstep_node cfg k x k' : kstep cfg k x = Some k' ->
  k_node k' = k_node k \/ (exists y, x = KNode y /\ nstep cfg (k_node k) y = Some (k_node k')) \/
  (x = KBoot /\ nstep cfg (k_node k) NBoot = Some (k_node k')) \/ (exists j, x = KCrash j /\ nstep cfg (k_node k) (NCrash j) = Some (k_node k')).
Proof.
  destruct k as [nd sv log n]. destruct x as [y| |j|j a|j|j i a]; cbn [kstep k_node]; intros H.
  - right. left. exists y. split; [reflexivity|]. destruct y; try discriminate; destruct (nstep cfg nd _) as [nd'|]; try discriminate; injection H as <-; reflexivity.
  - right. right. left. destruct (nstep cfg nd _) as [nd'|]; try discriminate; injection H as <-; auto.
  - right. right. right. exists j. destruct (nstep cfg nd _) as [nd'|]; try discriminate; injection H as <-; auto.
  - left. destruct (nth_error sv j); [|discriminate]. destruct (_ && _); [|discriminate]. now injection H as <-.
  - left. destruct (nth_error sv j); [|discriminate]. now injection H as <-.
  - left. destruct a; try discriminate; (destruct (nth_error sv j) as [v|]; [|discriminate]; destruct (nth_error (k_streams v) i) as [[? ?]|]; [|discriminate]; now injection H as <-).
Qed.
Section Step.
Context (cfg : driver_cfg) (okf : fault -> Prop) (st : bool).
Hypothesis T : tolerant okf.

Lemma whole_step k x k' : kreach cfg okf st k -> kaction_ok okf st k x -> kstep cfg k x = Some k' ->
  wsteps (n_world (k_node k)) (n_world (k_node k')) /\
  exists l, dids (k_log k') = dids (k_log k) ++ l /\ forall i q, In (Asked i q) l -> exists j, x = KNode (NAsk j q).
Proof.
  intros H OK ST. pose proof (kreach_step cfg okf st k x k' H OK ST) as H'.
  pose proof (kreach_KI cfg okf st T k H) as J. pose proof (kreach_KI cfg okf st T k' H') as J'.
  rewrite (K_dids _ _ _ _ J), (K_dids _ _ _ _ J').
  destruct (kstep_node _ _ _ _ ST) as [E|[(y & -> & E)|[(-> & E)|(j & -> & E)]]].
  - rewrite E. split; [apply wsteps_refl|]. exists []. rewrite app_nil_r. split; [reflexivity|intros ? ? []].
  - cbn in OK. split; [exact (proj1 (node_world _ _ _ _ _ T (K_node _ _ _ _ J) OK E))|]. destruct (nstep_asks _ _ _ _ E) as (l & L & Q). exists l. split; auto.
    intros i q I. destruct (Q _ _ I) as (j & ->). eauto.
  - split; [exact (proj1 (node_world cfg okf _ _ _ T (K_node _ _ _ _ J) (Logic.I : naction_ok okf NBoot) E))|]. destruct (nstep_asks _ _ _ _ E) as (l & L & Q). exists l. split; auto.
    intros i q I. destruct (Q _ _ I) as (j & X). discriminate X.
  - split; [exact (proj1 (node_world cfg okf _ _ _ T (K_node _ _ _ _ J) (Logic.I : naction_ok okf (NCrash j)) E))|]. destruct (nstep_asks _ _ _ _ E) as (l & L & Q). exists l. split; auto.
    intros i q I. destruct (Q _ _ I) as (j' & X). discriminate X.
Qed.

(** ---- the invariant ---- *)
Definition due_ok (h : history) (clock : Z) (stamps : list Z) (k : bytes) (rev : Z) : Prop :=
  exists tm, timer_ok h clock stamps tm /\ tm_key tm = k /\ tm_rev tm = rev /\ tm_due tm <= clock.
Definition deserved (stamps : list Z) (A : ledger) (k : bytes) (rev : Z) : Prop :=
  exists x t t', now (commits A) k = Some x /\ kv_mod x = rev /\ kv_lease x <> 0 /\
    nth_error stamps (Z.to_nat (rev - 1)) = Some t /\ nth_error stamps (length (commits A)) = Some t' /\
    (0 < kv_lease x <= 9223372035 -> t + kv_lease x * second <= t').
Record CI (s : cstate) : Prop := {
  I_reach : kreach cfg okf st (c_whole s);
  I_len : length (c_stamps s) = length (chist s);
  I_stamps : Forall (fun x => x <= c_clock s) (c_stamps s);
  I_timers : forall j e, nth_error (c_expiry s) j = Some e -> Forall (timer_ok (chist s) (c_clock s) (c_stamps s)) (x_timers e);
  I_asked : forall i k rev, In (Asked i (WExpire k rev)) (c_log s) -> due_ok (chist s) (c_clock s) (c_stamps s) k rev;
  I_done : forall A i e B k rev, c_log s = A ++ Committed i e :: B -> In (Asked i (WExpire k rev)) A -> deserved (c_stamps s) A k rev }.

Lemma whole_hist k : kreach cfg okf st k -> commits (dids (k_log k)) = history_of (snd (n_world (k_node k))).
Proof.
  intros H. pose proof (kreach_KI cfg okf st T k H) as J. rewrite (K_dids _ _ _ _ J). exact (proj2 (proj2 (node_facts _ _ _ T (K_node _ _ _ _ J)))).
Qed.
Lemma deserved_mono stamps l A k rev : deserved stamps A k rev -> deserved (stamps ++ l) A k rev.
Proof.
  intros (x & t & t' & A1 & A2 & A3 & A4 & A5 & A6). exists x, t, t'. repeat (split; auto); (rewrite nth_error_app1; [assumption|apply nth_error_Some; congruence]).
Qed.
Lemma due_ok_mono h l n n' stamps l' k rev : n <= n' -> due_ok h n stamps k rev -> due_ok (h ++ l) n' (stamps ++ l') k rev.
Proof. intros L (tm & A & B & C & D). exists tm. split; [eapply timer_ok_mono; eauto|]. split; auto. split; auto. lia. Qed.

Lemma expired_commit k' clock stamps A i k rev : kreach cfg okf st k' -> (forall B e, dids (k_log k') = A ++ Committed i e :: B -> In (Asked i (WExpire k rev)) A ->
  due_ok (commits (dids (k_log k'))) clock stamps k rev -> nth_error stamps (length (commits A)) = Some clock -> deserved stamps A k rev).
Proof.
  intros H B e E IA (tm & TO & <- & <- & DUE) NC.
  destruct (whole_ledger cfg okf st k' T H) as (l & HL & EL). rewrite <- EL in E.
  destruct (every_commit _ _ _ _ _ _ _ HL E) as (q & Q1 & _ & Q2).
  assert (q = WExpire (tm_key tm) (tm_rev tm)) as ->. { apply (asked_once _ _ _ i q _ HL); rewrite E; apply in_app_iff; auto. }
  destruct Q2 as [_ CO]. cbn [condition] in CO. destruct (now (commits A) (tm_key tm)) as [x|] eqn:NX; [|contradiction].
  destruct TO as ((c & EN & C) & LN & SN & (t & NT & LT) & DU).
  destruct (now_facts _ _ _ NX) as (_ & _ & _ & E2 & _). rewrite CO in E2.
  assert (EN' : ent (commits A) (tm_rev tm) = Some (Entry (tm_key tm) c)).
  { rewrite <- EN, <- EL, E. unfold commits. rewrite flat_map_app. symmetry. apply ent_app. exact (proj2 (ent_bounds _ _ _ E2)). }
  rewrite E2 in EN'. injection EN' as <-. destruct C as [C|[v C]]; [discriminate|]. injection C as Cv Cl.
  exists x, t, clock. split; auto. split; auto. split; [congruence|]. split; auto. split; auto. intros LL.
  rewrite Cl in *. destruct (duration_long _ LL) as [D1 D2]. assert (0 <= tm_lease tm * second) by (unfold second; lia).
  unfold due_at in DU. destruct DU as [DU|[jj DU]]; [|specialize (D2 jj)]; lia.
Qed.

Lemma stamp_nth clock stamps (w : world) n : (length stamps <= n < length (history_of (snd w)))%nat -> nth_error (stamp clock stamps w) n = Some clock.
Proof.
  intros L. unfold stamp. rewrite nth_error_app2 by lia.
  assert (G : forall m k, (k < m)%nat -> nth_error (repeat clock m) k = Some clock).
  { induction m; intros [|k] Lk; cbn; try lia; auto. apply IHm. lia. }
  apply G. lia.
Qed.

Lemma CI_move s x k' es : CI s -> kaction_ok okf st (c_whole s) x -> kstep cfg (c_whole s) x = Some k' ->
  (forall j e, nth_error es j = Some e -> Forall (timer_ok (chist s) (c_clock s) (c_stamps s)) (x_timers e)) ->
  (forall j k rev, x = KNode (NAsk j (WExpire k rev)) -> due_ok (chist s) (c_clock s) (c_stamps s) k rev) ->
  CI (with_whole s k' es).
Proof.
  intros J OK ST TI_ AS. destruct (whole_step _ _ _ (I_reach _ J) OK ST) as [WS (l & EL & LA)].
  assert (H' : kreach cfg okf st k') by (eapply kreach_step; eauto using I_reach).
  destruct (wsteps_extends _ _ WS) as [(hl & EH) _]. destruct (stamp_app (c_clock s) (c_stamps s) (n_world (k_node k'))) as (sl & ES & ES1 & ES2).
  change (history_of (snd (n_world (k_node (c_whole s))))) with (chist s) in EH.
  assert (ASK : forall i k rev, In (Asked i (WExpire k rev)) (dids (k_log k')) -> due_ok (history_of (snd (n_world (k_node k')))) (c_clock s) (stamp (c_clock s) (c_stamps s) (n_world (k_node k'))) k rev).
  { intros i k rev I. rewrite ES, EH. apply due_ok_mono with (n := c_clock s); [lia|]. rewrite EL in I. apply in_app_iff in I. destruct I as [I|I]; [exact (I_asked _ J _ _ _ I)|].
    destruct (LA _ _ I) as (j & ->). eapply AS. reflexivity. }
  assert (CH : chist (with_whole s k' es) = history_of (snd (n_world (k_node k')))) by reflexivity.
  assert (CL : c_log (with_whole s k' es) = dids (k_log k')) by reflexivity.
  constructor; rewrite ?CH, ?CL; cbn [with_whole c_whole c_clock c_stamps c_expiry].
  - exact H'.
  - rewrite ES, app_length, ES2, EH, app_length. pose proof (I_len _ J). lia.
  - rewrite ES. apply Forall_app. split; [apply I_stamps; exact J|]. eapply Forall_impl; [|exact ES1]. intros y ->. lia.
  - intros j e N. rewrite ES, EH. eapply Forall_impl; [|exact (TI_ j e N)]. intros tm. apply timer_ok_mono. lia.
  - exact ASK.
  - intros A i e B k rev E IA. pose proof E as E0. rewrite EL in E. destruct (split_at _ _ _ _ _ E) as [(B' & EO)|(e1 & e2 & EN & EA)].
    + rewrite ES. apply deserved_mono. eapply (I_done _ J); eauto.
    + eapply expired_commit; eauto.
      * rewrite (whole_hist _ H'). eapply ASK. rewrite E0. apply in_app_iff. left. exact IA.
      * apply stamp_nth. rewrite <- (whole_hist _ H'), E0, (I_len _ J). unfold chist, c_world. rewrite <- (whole_hist _ (I_reach _ J)).
        rewrite EA. unfold commits. rewrite !flat_map_app, !app_length. cbn. lia.
Qed.
Lemma CI_same s es : CI s -> (forall j e, nth_error es j = Some e -> Forall (timer_ok (chist s) (c_clock s) (c_stamps s)) (x_timers e)) ->
  CI (with_whole s (c_whole s) es).
Proof.
  intros J TI_. assert (E : stamp (c_clock s) (c_stamps s) (n_world (k_node (c_whole s))) = c_stamps s).
  { unfold stamp. change (history_of (snd (n_world (k_node (c_whole s))))) with (chist s). rewrite (I_len _ J), Nat.sub_diag. simpl. apply app_nil_r. }
  unfold with_whole. rewrite E. destruct J. constructor; auto.
Qed.
Lemma CI_time s d : CI s -> CI (CState (c_whole s) (c_clock s + Z.max 0 d) (c_stamps s) (c_expiry s)).
Proof.
  intros [A1 A2 A3 A4 A5 A6]. constructor; cbn [c_whole c_clock c_stamps c_expiry]; auto.
  - eapply Forall_impl; [|exact A3]. cbn beta. intros. lia.
  - intros j e N. eapply Forall_impl; [|exact (A4 j e N)]. intros tm H. rewrite <- (app_nil_r (chist _)), <- (app_nil_r (c_stamps s)). apply (timer_ok_mono _ _ (c_clock s)); [lia|exact H].
  - intros i k rev I. rewrite <- (app_nil_r (chist _)), <- (app_nil_r (c_stamps s)). apply due_ok_mono with (n := c_clock s); [lia|]. eapply A5; eauto.
Qed.
Lemma view_TI s j t : CI s -> view s j = Some t -> TI t /\ exists e, nth_error (c_expiry s) j = Some e /\ t_timers t = x_timers e /\ t_phase t = x_phase e.
Proof.
  intros J V. unfold view in V. destruct (nth_error (k_servers _) j) as [v|] eqn:N; [|discriminate]. destruct (nth_error (c_expiry s) j) as [e|] eqn:N2; [|discriminate].
  injection V as <-. split; [|eauto]. constructor; cbn [t_b t_now t_stamps t_timers].
  - apply (rb_breach st). exact (proj1 (K_serv _ _ _ _ (kreach_KI cfg okf st T _ (I_reach _ J)) _ _ N)).
  - exact (I_len _ J).
  - exact (I_stamps _ J).
  - exact (I_timers _ J _ _ N2).
Qed.
Lemma nth_put {A} (x : A) : forall l j i y, nth_error (put j x l) i = Some y -> (i = j /\ y = x) \/ nth_error l i = Some y.
Proof.
  induction l as [|a l IH]; intros [|j] [|i] y; cbn; auto.
  - intros [= <-]. auto.
  - intros H. destruct (IH _ _ _ H) as [[-> ->]|H']; auto.
Qed.
Lemma own_world t a : match a with TBack _ | TTime _ | TAttempt _ _ => False | _ => True end ->
  b_world (t_b (tstep t a)) = b_world (t_b t) /\ t_now (tstep t a) = t_now t /\ (TI t -> t_stamps (tstep t a) = t_stamps t).
Proof.
  assert (S0 : TI t -> forall w : world, w = b_world (t_b t) -> stamp (t_now t) (t_stamps t) w = t_stamps t).
  { intros H w ->. unfold stamp. rewrite (T_len _ H), Nat.sub_diag. simpl. apply app_nil_r. }
  assert (G : forall i, nth_error (b_groups (t_b t)) i = nth_error (b_groups (t_b t)) i) by reflexivity.
  assert (W : forall stt i act, (forall op, act <> AEnv op) -> (forall f, act <> AFetch f) -> act <> APublish ->
    b_world (t_b (t_watch_step t stt i act)) = b_world (t_b t) /\ t_now (t_watch_step t stt i act) = t_now t /\ (TI t -> t_stamps (t_watch_step t stt i act) = t_stamps t)).
  { intros stt i act N1 N2 N3. assert (E : b_world (bstep (t_b t) act) = b_world (t_b t)) by (destruct act; try reflexivity; [exfalso; eapply N1; eauto|exfalso; eapply N2; eauto|contradiction]).
    unfold t_watch_step. destruct (watch_returned _ _) as [[[] ?]|]; cbn [with_tb with_phase t_b t_now t_stamps b_world]; repeat split; auto. }
  intros O. destruct a; try contradiction; cbn [tstep].
  - destruct (t_phase t); auto. destruct (rev_result _ _); auto.
  - destruct (t_phase t); auto. destruct (snd (sem _ _ _)); auto.
  - destruct (t_phase t); auto. cbn [with_phase with_tb t_b t_now t_stamps]. repeat split; auto.
  - destruct (t_phase t); auto; apply W; discriminate.
  - destruct (t_phase t); auto; apply W; discriminate.
  - destruct (t_phase t); auto; apply W; discriminate.
  - destruct (t_phase t); auto; apply W; discriminate.
  - destruct (t_phase t); auto. destruct (nth_error _ _); auto. destruct (nth_error (g_updates _) _); auto. destruct (g_open _); auto.
Qed.

Lemma CI_step s a s' : CI s -> caction_ok okf st s a -> cstep cfg s a = Some s' -> CI s'.
Proof.
  intros J OK ST. destruct a as [x|d|j a|j n].
  - cbn [cstep whole_part caction_ok] in *. destruct (not_expiry s x) eqn:NE; [|discriminate]. destruct (kstep cfg (c_whole s) x) as [k'|] eqn:E; [|discriminate]. injection ST as <-.
    apply (CI_move s x); auto.
    + intros j e N. destruct x; cbn [restarted] in N; try (eapply I_timers; eauto; fail).
      * destruct (Nat.lt_ge_cases j (length (c_expiry s))) as [L|L]; [rewrite nth_error_app1 in N by exact L; eapply I_timers; eauto|].
        rewrite nth_error_app2 in N by exact L. destruct (j - length (c_expiry s))%nat as [|m]; [injection N as <-; constructor|destruct m; discriminate].
      * destruct (nth_put _ _ _ _ _ N) as [[_ ->]|N']; [constructor|eapply I_timers; eauto].
    + intros j k rev ->. discriminate NE.
  - injection ST as <-. apply CI_time. exact J.
  - assert (O : match a with TBack _ | TTime _ | TAttempt _ _ => False | _ => True end) by (destruct a; try discriminate; exact Logic.I).
    assert (ST' : match view s j, (match whole_part s (CExpiry j a) with Some x => kstep cfg (c_whole s) x | None => Some (c_whole s) end) with
      | Some t, Some k => let t' := tstep t a in Some (with_whole s k (put j (Expiry (t_phase t') (t_timers t') (t_ack t')) (c_expiry s)))
      | _, _ => None end = Some s') by (destruct a; try contradiction; exact ST).
    clear ST. destruct (view s j) as [t|] eqn:V; [|discriminate]. destruct (view_TI _ _ _ J V) as (TT & e & NE & _ & _).
    assert (TS : TI (tstep t a)) by (apply TI_step; [exact TT|destruct a; try contradiction; exact Logic.I]).
    assert (HT : forall i e', nth_error (put j (Expiry (t_phase (tstep t a)) (t_timers (tstep t a)) (t_ack (tstep t a))) (c_expiry s)) i = Some e' ->
      Forall (timer_ok (chist s) (c_clock s) (c_stamps s)) (x_timers e')).
    { intros i e' N. destruct (nth_put _ _ _ _ _ N) as [[_ ->]|N']; [|eapply I_timers; eauto]. cbn [x_timers].
      destruct (own_world t a O) as (E1 & E2 & E3). pose proof (T_timers _ TS) as F. rewrite E1, E2, (E3 TT) in F.
      unfold view in V. destruct (nth_error (k_servers _) j); [|discriminate]. rewrite NE in V. injection V as <-. exact F. }
    destruct (whole_part s (CExpiry j a)) as [x|] eqn:WP.
    + destruct (kstep cfg (c_whole s) x) as [k'|] eqn:E; [|discriminate]. cbv zeta in ST'. injection ST' as <-.
      assert (OK' : kaction_ok okf st (c_whole s) x).
      { destruct a; try (unfold caction_ok in OK; rewrite WP in OK; exact OK). cbn [whole_part] in WP. rewrite NE in WP. cbn in WP. destruct (x_phase e); discriminate. }
      apply (CI_move s x); auto.
      intros j0 k rev ->. cbn [whole_part] in WP. rewrite NE in WP. destruct (backend_part _ _); discriminate WP.
    + cbv zeta in ST'. injection ST' as <-. apply CI_same; auto.
  - cbn [cstep] in ST. destruct (view s j) as [t|] eqn:V; [|discriminate]. destruct (view_TI _ _ _ J V) as (TT & e & NE & ET & _).
    destruct (nth_error (t_timers t) n) as [tm|] eqn:N; [|discriminate]. destruct (Z.leb_spec (tm_due tm) (c_clock s)) as [D|]; [|discriminate].
    cbn [whole_part] in ST. rewrite NE, <- ET, N in ST. destruct (kstep cfg (c_whole s) _) as [k'|] eqn:E; [|discriminate]. injection ST as <-.
    eapply CI_move; eauto using I_timers.
    + cbn. eapply timer_key; eauto. eapply nth_error_In; eauto.
    + intros j0 k rev [= -> <- <-]. exists tm. split; [|auto]. pose proof (I_timers _ J _ _ NE) as F. rewrite Forall_forall in F. apply F. rewrite <- ET. eapply nth_error_In; eauto.
Qed.
Lemma creach_CI s : creach cfg okf st s -> CI s.
Proof.
  induction 1 as [|s a s' H IH OK ST]; [|eapply CI_step; eauto]. constructor; cbn; auto; try constructor.
  - intros [|j] e X; discriminate.
  - contradiction.
  - intros A i e B k rev E. destruct A; discriminate.
Qed.
End Step.
