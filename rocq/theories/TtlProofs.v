(** The expiry goroutine. *)
From Coq Require Import List ZArith Bool Lia Sorting.Sorted.
From Verif Require Import Bytes Spec Sql System Prog Backend Watch Stream SpecLemmas SqlLemmas Sim ReadLemmas ProgLemmas ReadProgs WatchLemmas WatchProofs WatchResults StreamProofs Ttl.
Import ListNotations.
Open Scope Z_scope.

Local Notation hist s := (history_of (snd (b_world (t_b s)))).

Definition timer_ok (h : history) (now : Z) (stamps : list Z) (tm : timer) : Prop :=
  (exists c, ent h (tm_rev tm) = Some (Entry (tm_key tm) c) /\ (c = Del \/ exists v, c = Put v (tm_lease tm))) /\
  tm_lease tm <> 0 /\ tm_start tm <= now /\
  (exists x, nth_error stamps (Z.to_nat (tm_rev tm - 1)) = Some x /\ x <= tm_start tm) /\
  (tm_due tm = due_at (tm_start tm) (lease_duration (tm_lease tm)) \/ exists j, tm_due tm = due_at (tm_start tm) (jittered (tm_lease tm) j)).

Record TI (s : tstate) : Prop := {
  T_breach : breach (t_b s);
  T_len : length (t_stamps s) = length (hist s);
  T_stamps : Forall (fun x => x <= t_now s) (t_stamps s);
  T_timers : Forall (timer_ok (hist s) (t_now s) (t_stamps s)) (t_timers s) }.

Lemma timer_ok_mono h l n n' st st' tm : n <= n' -> timer_ok h n st tm -> timer_ok (h ++ l) n' (st ++ st') tm.
Proof.
  intros L ((c & E & C) & LN & A & (x & N & B) & D). split; [exists c; split; auto; rewrite ent_app; auto; apply ent_bounds in E; lia|].
  split; auto. split; [lia|]. split; auto. exists x. split; auto. rewrite nth_error_app1; auto. apply nth_error_Some. congruence.
Qed.
Lemma breach_R b : breach b -> R (fst (b_world b)) (snd (b_world b)).
Proof. intros H. apply reach_R. exact (B_reach _ _ (breach_Binv _ H)). Qed.

Lemma stamp_app n st (w : world) : exists l, stamp n st w = st ++ l /\ Forall (fun x => x = n) l /\ length l = (length (history_of (snd w)) - length st)%nat.
Proof. eexists. split; [reflexivity|]. split; [apply Forall_forall; intros x I; now apply repeat_spec in I|apply repeat_length]. Qed.

(** the backend moves, everything else stays *)
Lemma TI_back s b : TI s -> breach b -> (exists l, history_of (snd (b_world b)) = hist s ++ l) -> TI (with_tb s b).
Proof.
  intros [A1 A2 A3 A4] HB [l E]. destruct (stamp_app (t_now s) (t_stamps s) (b_world b)) as (l' & E1 & E2 & E3).
  constructor; cbn [with_tb t_b t_now t_stamps t_timers]; auto.
  - rewrite E1, app_length, E3, E, app_length. lia.
  - rewrite E1. apply Forall_app. split; auto. eapply Forall_impl; [|exact E2]. intros x ->. lia.
  - rewrite E1, E. eapply Forall_impl; [|exact A4]. intros tm. apply timer_ok_mono. lia.
Qed.
Lemma TI_phase s p k : TI s -> TI (TState (t_b s) (t_now s) (t_stamps s) p (t_timers s) k).
Proof. intros [A1 A2 A3 A4]. constructor; auto. Qed.
Lemma TI_add s p k l : TI s -> Forall (timer_ok (hist s) (t_now s) (t_stamps s)) l -> TI (TState (t_b s) (t_now s) (t_stamps s) p (t_timers s ++ l) k).
Proof. intros [A1 A2 A3 A4] H. constructor; cbn [t_b t_now t_stamps t_timers]; auto. apply Forall_app. auto. Qed.
Lemma bstep_extends b a : possible b a -> exists l, history_of (snd (b_world (bstep b a))) = history_of (snd (b_world b)) ++ l.
Proof. intros P. destruct (step_world b a P) as [[H _] _]. exact H. Qed.
Lemma TI_bstep s a : TI s -> possible (t_b s) a -> TI (with_tb s (bstep (t_b s) a)).
Proof. intros H P. apply TI_back; auto; [apply breach_step; auto; apply H|now apply bstep_extends]. Qed.

Lemma written s r e : TI s -> ent (hist s) r = Some e -> exists x, nth_error (t_stamps s) (Z.to_nat (r - 1)) = Some x /\ x <= t_now s.
Proof.
  intros H E. pose proof (ent_bounds _ _ _ E) as B. destruct (nth_error (t_stamps s) (Z.to_nat (r - 1))) as [x|] eqn:N.
  - exists x. split; auto. pose proof (T_stamps _ H) as F. rewrite Forall_forall in F. apply F. eapply nth_error_In; eauto.
  - apply nth_error_None in N. rewrite (T_len _ H) in N. unfold revision in B. lia.
Qed.

(** rows of ttlSQL *)
Lemma ttl_sql_in rev d x : In x (ttl_sql rev d) -> exists y, In y (rows d) /\ deleted y = false /\ lease y <> 0 /\ x = (id y, name y, lease y).
Proof.
  intros I. unfold ttl_sql in I. apply in_map_iff in I. destruct I as (y & <- & I). apply filter_In in I. destruct I as [I J].
  apply andb_true_iff in J. destruct J as [J K]. apply andb_true_iff in J. destruct J as [_ J]. apply negb_true_iff in J, K. apply Z.eqb_neq in K. exists y. auto.
Qed.
Lemma cut_in {A} c (l : list A) x : In x (rs_rows (cut_rows c l)) -> In x l.
Proof. destruct c as [[n e]|]; simpl; auto. intros I. rewrite <- (firstn_skipn n l). apply in_app_iff. auto. Qed.
Lemma ttl_rows f start (w : world) rs x : snd (sem f (CTtl start) w) = Ok rs -> In x (rs_rows rs) -> In x (ttl_sql start (fst w)).
Proof. destruct f; simpl; intros [= <-]; auto. intros I. rewrite <- (firstn_skipn n (ttl_sql start (fst w))). apply in_app_iff. auto. Qed.
Lemma list_timers_ok s f start rs : TI s -> snd (sem f (CTtl start) (b_world (t_b s))) = Ok rs ->
  Forall (timer_ok (hist s) (t_now s) (t_stamps s)) (list_timers (t_now s) rs).
Proof.
  intros H E. apply Forall_forall. intros tm I. unfold list_timers in I. apply in_map_iff in I. destruct I as (x & <- & I).
  apply (ttl_rows _ _ _ _ _ E) in I. apply ttl_sql_in in I. destruct I as (y & I & D & L & ->). cbn [fst snd].
  pose proof (breach_R _ (T_breach _ H)) as HR. destruct (R_row _ _ HR y I) as (c & E1 & E2 & E3 & _).
  assert (exists v, c = Put v (lease y)) as [v ->] by (rewrite D in E2; destruct c; [destruct E3 as [_ <-]; eauto|discriminate]).
  split; cbn [tm_rev tm_key tm_lease tm_start tm_due]; [eauto|]. split; auto. split; [lia|]. split; [eapply written; eauto|]. auto.
Qed.
Lemma event_timers_in now0 : forall evs js tm, In tm (event_timers now0 js evs) -> exists ev j, In ev evs /\ 0 < kv_lease (ev_kv ev) /\
  tm = Timer (kv_key (ev_kv ev)) (kv_mod (ev_kv ev)) (kv_lease (ev_kv ev)) now0 (due_at now0 (jittered (kv_lease (ev_kv ev)) j)).
Proof.
  induction evs as [|ev evs IH]; intros js tm I; [contradiction|]. cbn [event_timers] in I.
  destruct (match js with [] => (0, []) | x :: l => (x, l) end) as [x js'].
  destruct (Z.ltb_spec 0 (kv_lease (ev_kv ev))) as [L|L].
  - destruct I as [<-|I]; [exists ev, x; simpl; auto|]. destruct (IH _ _ I) as (e & j & A & B & C). exists e, j. simpl; auto.
  - destruct (IH _ _ I) as (e & j & A & B & C). exists e, j. simpl; auto.
Qed.
Lemma event_timers_all now0 ev : forall evs js, In ev evs -> 0 < kv_lease (ev_kv ev) ->
  exists tm, In tm (event_timers now0 js evs) /\ tm_key tm = kv_key (ev_kv ev) /\ tm_rev tm = kv_mod (ev_kv ev) /\ tm_lease tm = kv_lease (ev_kv ev).
Proof.
  induction evs as [|e evs IH]; intros js I L; [contradiction|]. cbn [event_timers].
  destruct (match js with [] => (0, []) | x :: l => (x, l) end) as [x js'].
  destruct I as [->|I].
  - apply Z.ltb_lt in L. rewrite L. eexists. split; [left; reflexivity|]. auto.
  - destruct (IH js' I L) as (tm & A & B). exists tm. split; auto. destruct (_ <? _); simpl; auto.
Qed.
Lemma truthful_timer h r ev : truthful_event h r ev ->
  kv_mod (ev_kv ev) = r /\ exists c, ent h r = Some (Entry (kv_key (ev_kv ev)) c) /\ (c = Del \/ exists v, c = Put v (kv_lease (ev_kv ev))).
Proof.
  intros (e & B & N & K & M & C & _). split; auto. destruct e as [k c]. cbn [e_key e_change] in *. subst k.
  exists c. assert (E : ent h r = Some (Entry (kv_key (ev_kv ev)) c)) by (unfold ent; replace (1 <=? r) with true by (symmetry; apply Z.leb_le; lia); auto).
  split; auto. destruct c as [v l|]; auto. right. destruct C as [_ C]. apply kv_at_facts in C. rewrite M in C. destruct C as (_ & _ & _ & _ & C & _).
  rewrite E in C. injection C as -> <-. eauto.
Qed.
(** events put into updates *)
Lemma update_event b i g u x ev : breach b -> nth_error (b_groups b) i = Some g -> In u (g_updates g) -> In x (u_watchers u) -> In ev (snd x) ->
  truthful_event (history_of (snd (b_world b))) (ev_rev ev) ev.
Proof.
  intros H N I J K. pose proof (group_inv _ _ _ _ (breach_Binv _ H) N) as G. destruct (G_uids _ _ _ _ G u x I J) as (r & A & B).
  pose proof (delivered_order b i g r (length (g_updates g)) H N A) as [_ C]. apply C. rewrite firstn_all. unfold delivered.
  apply in_flat_map. exists u. split; auto. apply in_flat_map. exists x. split; auto. rewrite B, Z.eqb_refl. exact K.
Qed.
Lemma event_timers_ok s i g u js : TI s -> nth_error (b_groups (t_b s)) i = Some g -> In u (g_updates g) ->
  Forall (timer_ok (hist s) (t_now s) (t_stamps s)) (event_timers (t_now s) js (flat_map snd (u_watchers u))).
Proof.
  intros H N I. apply Forall_forall. intros tm J. destruct (event_timers_in _ _ _ _ J) as (ev & j & A & B & ->).
  apply in_flat_map in A. destruct A as (x & A & C). pose proof (update_event _ _ _ _ _ _ (T_breach _ H) N I A C) as T.
  destruct (truthful_timer _ _ _ T) as (_ & c & E & D). unfold ev_rev in E.
  split; cbn [tm_rev tm_key tm_lease tm_start tm_due]; [eauto|]. split; [lia|]. split; [lia|]. split; [eapply written; eauto|eauto].
Qed.

(** ---- the invariant ---- *)
Lemma timer_key s tm : TI s -> In tm (t_timers s) -> tm_key tm <> compact_rev_key.
Proof.
  intros H I. pose proof (T_timers _ H) as F. rewrite Forall_forall in F. destruct (F tm I) as ((c & E & C) & L & _).
  pose proof (breach_R _ (T_breach _ H)) as HR. intros K. destruct (R_ck _ _ HR _ _ E K) as [X _]. cbn [e_change] in X. subst c.
  destruct C as [C|[v C]]; [discriminate|]. injection C as _ C. congruence.
Qed.
Definition attempt_b (b : bstate) (k : bytes) (rev : Z) (f : fault) : bstate :=
  BState (fst (sem f (CExec (ADelete k rev)) (b_world b))) (b_poll b) (b_batch b) (b_dead b) (b_groups b).
Lemma attempt_cases b k rev f : attempt_b b k rev f = b \/ attempt_b b k rev f = bstep b (AEnv (ADelete k rev)).
Proof. unfold attempt_b. destruct f; auto. left. simpl. destruct b; reflexivity. Qed.
Lemma with_tb_same s : TI s -> with_tb s (t_b s) = s.
Proof.
  intros H. unfold with_tb, stamp. rewrite (T_len _ H), Nat.sub_diag. simpl. rewrite app_nil_r. destruct s; reflexivity.
Qed.

Lemma TI_watch_step s start i a : TI s -> possible (t_b s) a -> TI (t_watch_step s start i a).
Proof.
  intros H P. unfold t_watch_step. pose proof (TI_bstep s a H P) as H1. destruct (watch_returned _ _) as [[[] n]|]; apply (TI_phase _ _ _ H1).
Qed.
Lemma TI_step s a : TI s -> tpossible s a -> TI (tstep s a).
Proof.
  intros H P. destruct a as [a|d|f|f| | |f|f| |js|j f]; cbn [tstep].
  - destruct (outside _ _); auto. now apply TI_bstep.
  - destruct H as [A1 A2 A3 A4]. constructor; cbn [t_b t_now t_stamps t_timers]; auto.
    + eapply Forall_impl; [|exact A3]. simpl. intros. lia.
    + eapply Forall_impl; [|exact A4]. intros tm T. rewrite <- (app_nil_r (hist s)), <- (app_nil_r (t_stamps s)). apply (timer_ok_mono _ _ (t_now s)); auto. lia.
  - destruct (t_phase s); auto. destruct (rev_result _ _); apply (TI_phase _ _ _ H).
  - destruct (t_phase s); auto. destruct (snd (sem f _ _)) as [rs|e] eqn:E; [|apply (TI_phase _ _ _ H)]. apply TI_add; auto. eapply list_timers_ok; eauto.
  - destruct (t_phase s); auto. apply (TI_phase _ _ _ (TI_bstep s ANewGroup H Logic.I)).
  - destruct (t_phase s); auto. apply TI_watch_step; auto. discriminate.
  - destruct (t_phase s); auto. apply TI_watch_step; auto.
  - destruct (t_phase s); auto. apply TI_watch_step; auto.
  - destruct (t_phase s); auto. apply TI_watch_step; auto.
  - destruct (t_phase s) as [| | | | |st i|]; auto. destruct (nth_error (b_groups (t_b s)) i) as [g|] eqn:N; auto.
    destruct (nth_error (g_updates g) (g_taken g)) as [u|] eqn:U.
    + pose proof (TI_add s (TPLoop st i) (t_ack s) _ H (event_timers_ok s i g u js H N (nth_error_In _ _ U))) as [A1 A2 A3 A4].
      constructor; auto. apply breach_step; auto.
    + destruct (g_open g); auto. apply (TI_phase _ _ _ H).
  - destruct (nth_error (t_timers s) j) as [tm|] eqn:N; auto. destruct (_ <=? _); auto.
    fold (attempt_b (t_b s) (tm_key tm) (tm_rev tm) f). destruct (attempt_cases (t_b s) (tm_key tm) (tm_rev tm) f) as [-> | ->].
    + now rewrite with_tb_same.
    + apply TI_bstep; auto. simpl. eapply timer_key; eauto. eapply nth_error_In; eauto.
Qed.
Lemma treach_TI s : treach s -> TI s.
Proof. induction 1 as [b n st H L F|s a H IH P]; [constructor; cbn [t_b t_now t_stamps t_timers]; auto|now apply TI_step]. Qed.

(** ---- C36 ---- *)
Lemma expiry_exact s j f tm : treach s -> nth_error (t_timers s) j = Some tm ->
  let s' := tstep s (TAttempt j f) in
  hist s' = hist s \/
  hist s' = hist s ++ [Entry (tm_key tm) Del] /\ tm_due tm <= t_now s /\
  exists x, now (hist s) (tm_key tm) = Some x /\ kv_mod x = tm_rev tm /\ kv_lease x = tm_lease tm /\ kv_lease x <> 0.
Proof.
  intros H N. cbv zeta. pose proof (treach_TI _ H) as J. cbn [tstep]. rewrite N. destruct (Z.leb_spec (tm_due tm) (t_now s)) as [L|L]; auto.
  cbn [with_tb t_b b_world]. fold (attempt_b (t_b s) (tm_key tm) (tm_rev tm) f).
  change (fst (sem f (CExec (ADelete (tm_key tm) (tm_rev tm))) (b_world (t_b s)))) with (b_world (attempt_b (t_b s) (tm_key tm) (tm_rev tm) f)).
  destruct (attempt_cases (t_b s) (tm_key tm) (tm_rev tm) f) as [-> | ->]; auto. cbn [bstep b_world wapply snd spec_apply].
  unfold spec_delete. destruct (now (hist s) (tm_key tm)) as [x|] eqn:E; auto. destruct (Z.eqb_spec (kv_mod x) (tm_rev tm)) as [M|M]; auto.
  right. cbn [fst history_of commit]. split; auto. split; auto. exists x. split; auto. split; auto.
  pose proof (T_timers _ J) as F. rewrite Forall_forall in F. destruct (F tm (nth_error_In _ _ N)) as ((c & E1 & C) & LN & _).
  destruct (now_facts _ _ _ E) as (_ & _ & _ & E2 & _). rewrite M, E1 in E2. injection E2 as ->.
  destruct C as [C|[v C]]; [discriminate|]. injection C as _ C. split; congruence.
Qed.
Lemma expiry_works s j tm x : treach s -> nth_error (t_timers s) j = Some tm -> tm_due tm <= t_now s ->
  now (hist s) (tm_key tm) = Some x -> kv_mod x = tm_rev tm ->
  hist (tstep s (TAttempt j NoFault)) = hist s ++ [Entry (tm_key tm) Del].
Proof.
  intros H N L E M. cbn [tstep]. rewrite N. apply Z.leb_le in L. rewrite L. cbn [with_tb t_b b_world sem fst weffect op_of wapply snd spec_apply].
  unfold spec_delete. rewrite E, M, Z.eqb_refl. reflexivity.
Qed.

(** ---- C38 ---- *)
Lemma wrap64_id z : - 2 ^ 63 <= z < 2 ^ 63 -> wrap64 z = z.
Proof. intros H. unfold wrap64. rewrite Z.mod_small; lia. Qed.
Lemma duration_long l : 0 < l <= 9223372035 -> l * second <= lease_duration l /\ forall j, l * second <= jittered l j.
Proof.
  intros H. assert (E : lease_duration l = l * second) by (unfold lease_duration, second; apply wrap64_id; lia).
  split; [lia|]. intros j. unfold jittered. rewrite E. pose proof (Z.mod_pos_bound j 1000 ltac:(lia)). rewrite wrap64_id; unfold second, millisecond in *; nia.
Qed.
Lemma expiry_late s j f tm : treach s -> nth_error (t_timers s) j = Some tm -> 0 < tm_lease tm <= 9223372035 ->
  hist (tstep s (TAttempt j f)) <> hist s ->
  exists written_at, nth_error (t_stamps s) (Z.to_nat (tm_rev tm - 1)) = Some written_at /\ written_at + tm_lease tm * second <= t_now s.
Proof.
  intros H N L C. destruct (expiry_exact s j f tm H N) as [E|(_ & D & _)]; [contradiction|].
  pose proof (T_timers _ (treach_TI _ H)) as F. rewrite Forall_forall in F. destruct (F tm (nth_error_In _ _ N)) as (_ & _ & _ & (x & E & Lx) & DU).
  exists x. split; auto. destruct (duration_long _ L) as [A B]. unfold due_at in DU. assert (0 <= tm_lease tm * second) by (unfold second; lia).
  destruct DU as [DU|[jj DU]]; [|specialize (B jj)]; lia.
Qed.
