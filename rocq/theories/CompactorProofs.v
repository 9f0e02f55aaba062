(** Proofs for C179, C180: the compaction goroutine. *)
From Coq Require Import List ZArith Bool Lia Arith.
From Verif Require Import Bytes Spec Sql System Prog Backend Limited Api Pool Observe SpecLemmas SqlLemmas Sim ReadLemmas ProgLemmas ReadProgs TraceLemmas Safety ApiLemmas StoreProofs ReadProofs CompactProofs SizeProofs CompactRunProofs Compactor.
Import ListNotations.
Open Scope Z_scope.
Local Notation ck := compact_rev_key.

Lemma wp_and {A} okf (p : prog A) (Q Q' : world -> A -> Prop) : forall w, wp okf p Q w -> wp okf p Q' w -> wp okf p (fun w' a => Q w' a /\ Q' w' a) w.
Proof.
  induction p as [a|c k IH]; cbn [wp]; auto. intros w K K' w1 S. destruct (K w1 S) as [K1 K2]. destruct (K' w1 S) as [_ K3]. split; auto.
Qed.

(** ---- a run that meets no fault succeeds ---- *)
Lemma wpn_query c (Q : world -> result (ret_of c) -> Prop) w :
  (forall w1, wsteps w w1 -> call_ok (snd w1) c /\ Q (weffect c w1) (Ok (answer None true c (fst w1)))) ->
  wp (eq NoFault) (with_retry max_retries c) Q w.
Proof. intros H. apply wp_query. intros w1 S. destruct (H w1 S) as [H1 H2]. split; auto. intros f <-. exact H2. Qed.
Lemma wpn_interval w (Q : world -> result (Z * Z) -> Prop) : wreach w ->
  (forall w1, wsteps w w1 -> Q w1 (Ok (floor_of (snd w1), revision (history_of (snd w1))))) ->
  wp (eq NoFault) d_get_compact_revision Q w.
Proof.
  intros HW HQ. unfold d_get_compact_revision. apply wp_rbind. apply wpn_query. intros w1 S. split; [exact Logic.I|].
  pose proof (interval_R _ _ (reach_R _ _ (wsteps_reach _ _ HW S))) as [I1 I2]. specialize (HQ _ S).
  cbn [weffect op_of answer cut_rows]. cbn [wp one_row rs_rows]. destruct (revision_interval_sql (fst w1)) as [lo hi]. cbn [fst snd] in *.
  now rewrite I1, I2.
Qed.
Lemma wpn_current w (Q : world -> result Z -> Prop) : wreach w -> 0 < revision (history_of (snd w)) ->
  (forall w1, wsteps w w1 -> Q w1 (Ok (revision (history_of (snd w1))))) ->
  wp (eq NoFault) d_current_revision Q w.
Proof.
  intros HW P HQ. unfold d_current_revision. apply wp_rbind. apply wpn_query. intros w1 S. split; [exact Logic.I|].
  pose proof (rev_sql_R _ _ (reach_R _ _ (wsteps_reach _ _ HW S))) as E. pose proof (extends_revision _ _ (wsteps_extends _ _ S)) as X.
  cbn [weffect op_of answer cut_rows]. cbn [wp one_row rs_rows]. rewrite E. destruct (Z.eqb_spec (revision (history_of (snd w1))) 0); [lia|]. now apply HQ.
Qed.
Lemma wpn_start w : wreach w -> 0 < revision (history_of (snd w)) -> wp (eq NoFault) b_compact_start (fun _ r => r = Ok tt) w.
Proof.
  intros HW P. unfold b_compact_start. apply wp_rbind. apply wpn_current; auto. intros w0 S0.
  apply wp_rbind.
  assert (K := wp_ck_rows (revision (history_of (snd w0))) w0 (fun w1 r => match r with Ok rs => (forall x, In x (rs_rows rs) -> In x (rows (fst w1)) /\ name x = ck) /\ NoDup (rs_rows rs) /\ wsteps w0 w1 | Err _ => True end)).
  assert (HW0 := wsteps_reach _ _ HW S0). specialize (K HW0 ltac:(intros w1 [rs|e] S1 A; [tauto|auto])).
  apply (wp_weaken any_fault (eq NoFault)) in K; [|intros; exact Logic.I].
  assert (N : wp (eq NoFault) (d_after_prefix ck (ck ++ [0%N]) 0 (revision (history_of (snd w0)))) (fun _ r => exists x, r = Ok x) w0).
  { unfold d_after_prefix. apply wpn_query. intros w1 S1. split; [exact Logic.I|]. eauto. }
  eapply wp_mono; [|exact (wp_and _ _ _ _ _ K N)]. clear K N. intros w1 r [A [rs ->]]. destruct A as (A & ND & S1).
  pose proof (reach_R _ _ (wsteps_reach _ _ HW0 S1)) as HR. unfold scan_all. destruct (rs_rows rs) as [|x l]; cbn [map]; cbv iota.
  - apply wp_rbind. unfold b_create, d_create. apply wp_rbind. unfold d_execute. apply wpn_query. intros w2 S2. split.
    + unfold call_ok, op_of. split; cbn; auto.
    + cbn [wp]. reflexivity.
  - destruct l as [|y l]; cbn [map]; [reflexivity|].
    exfalso. destruct (A x) as [I1 I2]; [simpl; auto|]. destruct (A y) as [J1 J2]; [simpl; auto|].
    assert (x = y) by (eapply ck_row_unique; eauto). subst y. inversion ND as [|? ? NI ND']; subst. apply NI. simpl; auto.
Qed.
Lemma wpn_compact cfg rev w : wreach w -> now (history_of (snd w)) ck <> None ->
  rev + superseded_count <= revision (history_of (snd w)) -> wp (eq NoFault) (d_compact cfg rev) (fun _ r => r = Ok tt) w.
Proof.
  assert (G : forall w, wreach w -> now (history_of (snd w)) ck <> None -> rev + superseded_count <= revision (history_of (snd w)) ->
    wp (eq NoFault) (d_compact_sqlite rev) (fun _ r => r = Ok tt) w).
  { clear w. intros w HW CK M. unfold d_compact_sqlite. apply wp_rbind. apply wpn_interval; auto. intros w1 S1.
    destruct (rev <=? floor_of (snd w1)); [reflexivity|].
    pose proof (extends_revision _ _ (wsteps_extends _ _ S1)) as E1.
    destruct (revision (history_of (snd w1)) <? rev) eqn:E. { apply Z.ltb_lt in E. unfold superseded_count in *. lia. }
    apply wp_rbind. apply wpn_query. intros w2 S2. split; [|reflexivity].
    unfold call_ok, op_of. pose proof (extends_revision _ _ (wsteps_extends _ _ S2)) as E2. split; [|cbn; lia].
    destruct (wsteps_extends _ _ S2) as [_ F2]. split; [lia|]. unfold superseded_count in *. split; [lia|].
    eapply wsteps_ck; [|eauto]. eapply wsteps_trans; eauto. }
  intros HW CK M. unfold d_compact. destruct (cfg_dqlite cfg); auto. cbn [wp]. intros w1 S1. split; [exact Logic.I|].
  intros f <-. cbn [sem fst snd weffect op_of answer]. apply G; [eapply wsteps_reach; eauto|eapply wsteps_ck; eauto|].
  pose proof (extends_revision _ _ (wsteps_extends _ _ S1)). lia.
Qed.
Lemma wpn_loop cfg fuel : forall start target w, wreach w -> now (history_of (snd w)) ck <> None ->
  target + superseded_count <= revision (history_of (snd w)) -> wp (eq NoFault) (compact_loop cfg fuel start target) (fun _ r => r = Ok tt) w.
Proof.
  induction fuel as [|fuel IH]; intros start target w HW CK M; cbn [compact_loop]; [reflexivity|].
  destruct (start <? target) eqn:E; [|reflexivity]. apply wp_rbind.
  eapply wp_mono; [|apply wp_strengthen, wpn_compact; auto].
  - intros w' r [S ->]. apply IH; [eapply wsteps_reach; eauto|eapply wsteps_ck; eauto|]. pose proof (extends_revision _ _ (wsteps_extends _ _ S)). lia.
  - destruct (target <? start + compact_batch_size) eqn:F; [lia|]. apply Z.ltb_ge in F. lia.
Qed.
Lemma wpn_run cfg w : wreach w -> 0 < revision (history_of (snd w)) -> wp (eq NoFault) (b_do_compact cfg) (fun _ r => r = Ok tt) w.
Proof.
  intros HW P. unfold b_do_compact. apply wp_rbind.
  pose proof (wp_weaken any_fault (eq NoFault) _ _ (fun f _ => Logic.I) _ (wp_compact_start w HW)) as K.
  eapply wp_mono; [|exact (wp_and _ _ _ _ _ (wp_strengthen _ _ _ _ K) (wpn_start w HW P))].
  cbn beta. intros w' r [[S CK] ->]. specialize (CK eq_refl). pose proof (wsteps_reach _ _ HW S) as HW'.
  apply wp_rbind. apply wpn_interval; auto. intros w1 S1. apply wpn_loop.
  - eapply wsteps_reach; eauto.
  - eapply wsteps_ck; eauto.
  - lia.
Qed.

(** ---- the goroutine ---- *)
Section Sched.
Variables (cfg : driver_cfg) (w0 : world) (sch : nat -> caction).
Hypothesis POS : cpossible cfg w0 sch.
Local Notation at_ t := (cat cfg w0 sch t).
Local Notation W t := (c_world (at_ t)).
Local Notation rev t := (revision (history_of (snd (W t)))).

Definition safe_run (s : cstate) : Prop := wreach (c_world s) /\ forall p, c_run s = Some p -> wp any_fault p (fun _ _ => True) (c_world s).
Lemma step_safe t : safe_run (at_ t) -> safe_run (at_ (S t)) /\ wsteps (W t) (W (S t)).
Proof.
  intros [HW K]. cbn [cat]. destruct (sch t) as [a| |f| |] eqn:E; cbn [cstep].
  - assert (A := proj2 POS t a E). assert (S1 : wsteps (W t) (wapply (W t) a)) by (apply wsteps_one; [constructor|exact A]).
    split; [|exact S1]. split; cbn [c_world c_run]; [eapply wsteps_reach; eauto|]. intros p Hp. eapply wp_step; [|exact S1|now apply K]. auto.
  - destruct (c_run (at_ t)) eqn:R; [split; [split; [auto|rewrite R; auto]|constructor]|]. destruct (c_over (at_ t)).
    + split; [split; [auto|rewrite R; discriminate]|constructor].
    + split; [split; cbn [c_world c_run]; auto|constructor]. intros p [= <-]. now apply wp_do_compact.
  - destruct (c_run (at_ t)) as [[r|c k]|] eqn:R; [split; [split; [auto|rewrite R; auto]|constructor]| |split; [split; [auto|rewrite R; discriminate]|constructor]].
    specialize (K _ eq_refl). cbn [wp] in K. destruct (K (W t) (wsteps_refl _)) as [C N].
    assert (S1 : wsteps (W t) (fst (sem f c (W t)))) by now apply sem_wsteps.
    split; [|exact S1]. split; cbn [c_world c_run]; [eapply wsteps_reach; eauto|]. intros p [= <-]. apply N. exact Logic.I.
  - destruct (c_run (at_ t)) as [[r|c k]|] eqn:R; split; try constructor; cbn [c_world c_run]; try rewrite R; auto. discriminate.
  - destruct (c_run (at_ t)) as [p|] eqn:R; split; try constructor; cbn [c_world c_run]; try rewrite R; auto; try discriminate.
Qed.
Lemma all_safe t : safe_run (at_ t).
Proof. induction t as [|t IH]; [split; [exact (proj1 POS)|discriminate]|now apply step_safe]. Qed.
Lemma reach_at t : wreach (W t).
Proof. apply all_safe. Qed.
Lemma steps_at t n : wsteps (W t) (W (t + n)).
Proof.
  induction n as [|n IH]; [rewrite Nat.add_0_r; constructor|]. rewrite Nat.add_succ_r. eapply wsteps_trans; [exact IH|]. apply step_safe, all_safe.
Qed.
Lemma steps_le t t' : (t <= t')%nat -> wsteps (W t) (W t').
Proof. intros L. replace t' with (t + (t' - t))%nat by lia. apply steps_at. Qed.

(** A step while a run is under way: it makes the next call, or the run stays where it is. *)
Lemma call_step t c k : c_run (at_ t) = Some (Call c k) ->
  (exists f, sch t = CCall f /\ c_run (at_ (S t)) = Some (k (snd (sem f c (W t)))) /\ W (S t) = fst (sem f c (W t))) \/
  (c_run (at_ (S t)) = Some (Call c k) /\ forall f, sch t <> CCall f).
Proof.
  intros R. cbn [cat]. destruct (sch t) as [a| |f| |] eqn:E; cbn [cstep]; rewrite R; try (right; split; [first [reflexivity|exact R]|discriminate]).
  left. exists f. auto.
Qed.
Lemma ret_step t r : c_run (at_ t) = Some (Ret r) -> c_run (at_ (S t)) = Some (Ret r) \/ sch t = CReturn /\ c_run (at_ (S t)) = None.
Proof.
  intros R. cbn [cat]. destruct (sch t) as [a| |f| |] eqn:E; cbn [cstep]; rewrite R; auto.
Qed.
Lemma during_S t1 t : during cfg w0 sch t1 t -> c_run (at_ (S t)) <> None -> during cfg w0 sch t1 (S t).
Proof. intros [L D] N. split; [lia|]. intros u U. destruct (Nat.eq_dec u (S t)) as [->|]; auto. apply D. lia. Qed.
Lemma begins_during t1 : begins cfg w0 sch t1 -> c_run (at_ (S t1)) = Some (b_do_compact cfg) /\ W (S t1) = W t1 /\ during cfg w0 sch t1 (S t1).
Proof.
  intros (R & V & E). assert (X : at_ (S t1) = CState (W t1) (Some (b_do_compact cfg)) false) by (cbn [cat]; rewrite E; cbn [cstep]; rewrite R, V; reflexivity).
  rewrite X. cbn [c_run c_world]. split; [auto|]. split; [auto|]. split; [lia|]. intros u U. assert (u = S t1) as -> by lia. rewrite X. discriminate.
Qed.

(** What holds of every run whose calls meet faults of [okf] only holds of this one. *)
Lemma run_keeps okf t1 (Q : world -> result unit -> Prop) : begins cfg w0 sch t1 -> wp okf (b_do_compact cfg) Q (W t1) ->
  (forall t f, during cfg w0 sch t1 t -> sch t = CCall f -> okf f) ->
  forall t, during cfg w0 sch t1 t -> exists p w, c_run (at_ t) = Some p /\ wsteps w (W t) /\ wp okf p Q w.
Proof.
  intros B K F t. destruct (begins_during t1 B) as (R1 & W1 & D1). induction t as [|t IH]; intros D; [destruct D; lia|].
  destruct (Nat.eq_dec t t1) as [->|N]. { rewrite R1. exists (b_do_compact cfg), (W t1). rewrite W1. split; auto. split; [constructor|auto]. }
  assert (Dt : during cfg w0 sch t1 t). { destruct D as [L D]. split; [lia|]. intros u U. apply D. lia. }
  destruct (IH Dt) as (p & w & R & S & P). pose proof (steps_at t 1) as S1. rewrite Nat.add_1_r in S1.
  destruct p as [r|c k].
  - destruct (ret_step t r R) as [R'|[_ R']]; [|exfalso; exact (proj2 D (Datatypes.S t) (conj (proj1 D) (le_n _)) R')].
    exists (Ret r), w. split; auto. split; auto. eapply wsteps_trans; eauto.
  - destruct (call_step t c k R) as [(f & E & R' & W')|[R' _]].
    + cbn [wp] in P. destruct (P (W t) S) as [C P']. exists (k (snd (sem f c (W t)))), (W (Datatypes.S t)). split; auto. split; [constructor|]. rewrite W'. apply P'. eapply F; eauto.
    + exists (Call c k), w. split; auto. split; auto. eapply wsteps_trans; eauto.
Qed.
Lemma run_reported okf t1 t2 (Q : world -> result unit -> Prop) r : begins cfg w0 sch t1 -> wp okf (b_do_compact cfg) Q (W t1) ->
  (forall t f, during cfg w0 sch t1 t -> sch t = CCall f -> okf f) -> reports cfg w0 sch t1 t2 r -> exists w, wsteps w (W t2) /\ Q w r.
Proof.
  intros B K F [D R]. destruct (run_keeps okf t1 Q B K F t2 D) as (p & w & R' & S & P). rewrite R in R'. injection R' as <-. exists w. auto.
Qed.

Hypothesis TURNS : cturns sch.
(** Every run comes to an end. *)
Lemma next_call t1 c k n : forall t, during cfg w0 sch t1 t -> c_run (at_ t) = Some (Call c k) -> (exists f, sch (t + n)%nat = CCall f) ->
  exists t' f, (t <= t')%nat /\ c_run (at_ (S t')) = Some (k (snd (sem f c (W t')))) /\ during cfg w0 sch t1 (S t').
Proof.
  induction n as [|n IH]; intros t D R [f E]; destruct (call_step t c k R) as [(f' & E' & R' & _)|[R' X]].
  1,3: exists t, f'; split; [lia|]; split; auto; apply during_S; auto; congruence.
  - rewrite Nat.add_0_r in E. now apply X in E.
  - destruct (IH (S t)) as (t' & f' & L & H); [apply during_S; auto; congruence|exact R'|exists f; now rewrite Nat.add_succ_r in E|]. exists t', f'. split; [lia|exact H].
Qed.
Lemma run_ends t1 p : forall t, during cfg w0 sch t1 t -> c_run (at_ t) = Some p -> exists t2 r, (t <= t2)%nat /\ reports cfg w0 sch t1 t2 r.
Proof.
  induction p as [r|c k IH]; intros t D R; [exists t, r; split; [lia|split; auto]|].
  destruct (proj1 TURNS t) as (t' & f & L & E). destruct (next_call t1 c k (t' - t) t D R) as (t3 & f' & L' & R' & D').
  { exists f. replace (t + (t' - t))%nat with t' by lia. exact E. }
  destruct (IH _ (S t3) D' R') as (t2 & r & L2 & H). exists t2, r. split; [lia|exact H].
Qed.
Lemma begun_ends t1 : begins cfg w0 sch t1 -> exists t2 r, (t1 < t2)%nat /\ reports cfg w0 sch t1 t2 r.
Proof.
  intros B. destruct (begins_during t1 B) as (R & _ & D). destruct (run_ends t1 _ (S t1) D R) as (t2 & r & L & H). exists t2, r. split; [lia|exact H].
Qed.
(** After it the goroutine waits for the next tick. *)
Lemma returns_idle n : forall t r, c_run (at_ t) = Some (Ret r) -> sch (t + n)%nat = CReturn -> exists t', (t <= t')%nat /\ c_run (at_ t') = None.
Proof.
  induction n as [|n IH]; intros t r R E; destruct (ret_step t r R) as [R'|[E' R']]; try (exists (S t); split; [lia|exact R']).
  - rewrite Nat.add_0_r in E. exfalso. cbn [cat] in R'. rewrite E in R'. cbn [cstep] in R'. rewrite R in R'. discriminate.
  - destruct (IH (S t) r R') as (t' & L & H); [now rewrite Nat.add_succ_r in E|]. exists t'. split; [lia|exact H].
Qed.
Lemma idle_again t1 : begins cfg w0 sch t1 -> exists t2, (t1 < t2)%nat /\ c_run (at_ t2) = None.
Proof.
  intros B. destruct (begun_ends t1 B) as (t2 & r & L & [_ R]). destruct (proj2 TURNS t2) as (t3 & L3 & E).
  destruct (returns_idle (t3 - t2) t2 r R) as (t' & L' & H); [replace (t2 + (t3 - t2))%nat with t3 by lia; exact E|]. exists t'. split; [lia|exact H].
Qed.
(** A run that meets no fault reports success. *)
Lemma clean_succeeds t1 t2 r : begins cfg w0 sch t1 -> undisturbed cfg w0 sch t1 -> 0 < rev t1 -> reports cfg w0 sch t1 t2 r -> r = Ok tt.
Proof.
  intros B U P R. destruct (run_reported (eq NoFault) t1 t2 (fun _ r => r = Ok tt) r B (wpn_run cfg _ (reach_at t1) P)) as (w & _ & E); auto.
  intros t f D E. symmetry. now apply (U t f D).
Qed.
Lemma success_floor t1 t2 : begins cfg w0 sch t1 -> led cfg w0 sch t1 -> reports cfg w0 sch t1 t2 (Ok tt) -> rev t1 - 100 <= floor_of (snd (W t2)).
Proof.
  intros B U R. destruct (run_reported (leading cfg) t1 t2 _ (Ok tt) B (wp_run_floor cfg _ (reach_at t1))) as (w & S & E); auto.
  { intros t f D E Q. exact (U Q t f D E). }
  specialize (E eq_refl). cbn beta in E. destruct (wsteps_extends _ _ S) as [_ F]. lia.
Qed.
Lemma undisturbed_led t1 : undisturbed cfg w0 sch t1 -> led cfg w0 sch t1.
Proof. intros U _ t f D E. rewrite (U t f D E). discriminate. Qed.
Lemma rev_le t t' : (t <= t')%nat -> rev t <= rev t'.
Proof. intros L. apply extends_revision, wsteps_extends, steps_le, L. Qed.
Lemma floor_le t t' : (t <= t')%nat -> floor_of (snd (W t)) <= floor_of (snd (W t')).
Proof. intros L. destruct (wsteps_extends _ _ (steps_le t t' L)) as [_ F]. exact F. Qed.

Definition again_clean : Prop := forall t, exists t1, (t <= t1)%nat /\ begins cfg w0 sch t1 /\ undisturbed cfg w0 sch t1.
Lemma eventually_refused : again_clean -> forall t n, 0 < n -> n < current cfg (W t) - 100 ->
  exists T, (t <= T)%nat /\ forall t' r, (T <= t')%nat -> supported_range r -> r_revision r = n -> bounded (W t') r -> ask cfg (W t') r = Err ECompacted.
Proof.
  intros AG t n P L. rewrite current_rev in L by apply reach_at. destruct (AG t) as (t1 & L1 & B & U).
  destruct (begun_ends t1 B) as (t2 & r & L2 & R). pose proof (rev_le t t1 L1) as RL.
  rewrite (clean_succeeds t1 t2 r B U ltac:(lia) R) in R. pose proof (success_floor t1 t2 B (undisturbed_led _ U) R) as F.
  exists t2. split; [lia|]. intros t' q L' SU E BO. apply ask_refused_iff; auto; [apply reach_at|]. pose proof (floor_le t2 t' L'). split; lia.
Qed.
Lemma again_small : again_clean -> forall t, 0 < current cfg (W t) ->
  exists t1 t2, (t <= t1 < t2)%nat /\ forall live, (forall k, value_of cfg (W t2) k <> None -> In k live) ->
  Z.of_nat (length (rows (fst (W t2)))) <= Z.of_nat (length live) + 200 + 2 * (current cfg (W t2) - current cfg (W t1)).
Proof.
  intros AG t L. rewrite current_rev in L by apply reach_at. destruct (AG t) as (t1 & L1 & B & U).
  destruct (begun_ends t1 B) as (t2 & r & L2 & R). pose proof (rev_le t t1 L1) as RL.
  rewrite (clean_succeeds t1 t2 r B U ltac:(lia) R) in R. pose proof (success_floor t1 t2 B (undisturbed_led _ U) R) as F.
  exists t1, t2. split; [lia|]. intros live A. rewrite !current_rev by apply reach_at.
  pose proof (rows_bound (W t2) live (reach_at t2) ltac:(intros k N; apply A; rewrite value_of_now by apply reach_at; exact N)). lia.
Qed.

(** While the server is not stopped, runs begin again and again. *)
Lemma not_over : (forall t, sch t <> CStop) -> forall t, c_over (at_ t) = false.
Proof.
  intros N t. induction t as [|t IH]; [reflexivity|]. cbn [cat]. destruct (sch t) as [a| |f| |] eqn:E; cbn [cstep]; auto.
  - destruct (c_run (at_ t)); auto. rewrite IH. reflexivity.
  - destruct (c_run (at_ t)) as [[|]|]; auto.
  - destruct (c_run (at_ t)) as [[|]|]; auto.
  - exfalso. now apply (N t).
Qed.
Lemma idle_tick n : (forall t, sch t <> CStop) -> forall t, c_run (at_ t) = None -> sch (t + n)%nat = CTick -> exists t1, (t <= t1)%nat /\ begins cfg w0 sch t1.
Proof.
  intros N. induction n as [|n IH]; intros t R E.
  - rewrite Nat.add_0_r in E. exists t. split; [lia|]. split; [exact R|]. split; [now apply not_over|exact E].
  - destruct (sch t) as [a| |f| |] eqn:Et; [| | | |exfalso; now apply (N t)].
    2:{ exists t. split; [lia|]. split; [exact R|]. split; [now apply not_over|exact Et]. }
    all: destruct (IH (S t)) as (t1 & L & B); [cbn [cat]; rewrite Et; cbn [cstep]; rewrite ?R; auto|now rewrite Nat.add_succ_r in E|]; exists t1; split; [lia|exact B].
Qed.
Lemma run_of t p : c_run (at_ t) = Some p -> exists t1, begins cfg w0 sch t1 /\ during cfg w0 sch t1 t.
Proof.
  revert p. induction t as [|t IH]; intros p R; [discriminate|]. destruct (c_run (at_ t)) as [q|] eqn:Rt.
  - destruct (IH q eq_refl) as (t1 & B & D). exists t1. split; auto. apply during_S; auto. congruence.
  - exists t. assert (B : begins cfg w0 sch t).
    { cbn [cat] in R. destruct (sch t) as [a| |f| |] eqn:E; cbn [cstep] in R; rewrite Rt in R; try discriminate; try (rewrite Rt in R; discriminate).
      destruct (c_over (at_ t)) eqn:O; [congruence|]. split; auto. }
    split; auto. now apply begins_during.
Qed.
Lemma begins_again : (forall t, sch t <> CStop) -> (forall t, exists t', (t <= t')%nat /\ sch t' = CTick) -> forall t, exists t1, (t <= t1)%nat /\ begins cfg w0 sch t1.
Proof.
  intros N T t. assert (IDLE : exists t', (t <= t')%nat /\ c_run (at_ t') = None).
  { destruct (c_run (at_ t)) as [p|] eqn:R; [|exists t; auto]. destruct (run_of t p R) as (t1 & B & D).
    destruct (run_ends t1 p t D R) as (t2 & r & L2 & [_ R2]). destruct (proj2 TURNS t2) as (t3 & L3 & E).
    destruct (returns_idle (t3 - t2) t2 r R2) as (t' & L' & H); [replace (t2 + (t3 - t2))%nat with t3 by lia; exact E|]. exists t'. split; [lia|exact H]. }
  destruct IDLE as (t' & L & R). destruct (T t') as (t3 & L3 & E).
  destruct (idle_tick (t3 - t') N t' R) as (t1 & L1 & B); [replace (t' + (t3 - t'))%nat with t3 by lia; exact E|]. exists t1. split; [lia|exact B].
Qed.
Lemma clean_reports t1 t2 r : begins cfg w0 sch t1 -> undisturbed cfg w0 sch t1 -> 0 < current cfg (W t1) -> reports cfg w0 sch t1 t2 r -> r = Ok tt.
Proof. intros B U P. rewrite current_rev in P by apply reach_at. now apply clean_succeeds. Qed.
Lemma runs_again : (forall t, sch t <> CStop) -> (forall t, exists t', (t <= t')%nat /\ sch t' = CTick) ->
  forall t, exists t1 t2 r, (t <= t1 < t2)%nat /\ begins cfg w0 sch t1 /\ reports cfg w0 sch t1 t2 r.
Proof.
  intros N T t. destruct (begins_again N T t) as (t1 & L & B). destruct (begun_ends t1 B) as (t2 & r & L2 & R). exists t1, t2, r. auto.
Qed.
End Sched.
