(** Proofs about Halt.v. *)
From Coq Require Import List ZArith Bool Lia Arith.
From Verif Require Import Bytes Spec Sql System Prog Backend Watch Ttl Poller Halt.
Import ListNotations.
Open Scope Z_scope.

(** ---- what steps leave alone ---- *)
Lemma done_stays cfg s a : h_done s = true -> h_done (hstep cfg s a) = true.
Proof.
  intros D. destruct a; cbn [hstep with_t with_run with_world h_done]; repeat (match goal with |- context [if ?x then _ else _] => destruct x eqn:? | |- context [match ?x with _ => _ end] => destruct x eqn:? end); cbn [with_t with_run with_world h_done]; auto; congruence.
Qed.
Lemma returned_stays cfg s a : h_returned s = true -> h_returned (hstep cfg s a) = true.
Proof.
  intros D. destruct a; cbn [hstep]; repeat (match goal with |- context [if ?x then _ else _] => destruct x eqn:? | |- context [match ?x with _ => _ end] => destruct x eqn:? end); auto; congruence.
Qed.
Lemma over_stays cfg s a : h_over s = true -> h_over (hstep cfg s a) = true.
Proof.
  intros D. destruct a; cbn [hstep]; repeat (match goal with |- context [if ?x then _ else _] => destruct x eqn:? | |- context [match ?x with _ => _ end] => destruct x eqn:? end); auto; congruence.
Qed.
(** a step of Ttl.v outside the poll loop leaves the loop alone *)
Lemma bstep_dead b a : match a with AFetch _ | APublish => False | _ => True end -> b_dead (bstep b a) = b_dead b /\ b_batch (bstep b a) = b_batch b.
Proof. destruct a; intros H; try contradiction; auto. Qed.
Lemma watch_step_b s st i a : t_b (t_watch_step s st i a) = bstep (t_b s) a.
Proof. unfold t_watch_step. cbv zeta. destruct (watch_returned i _) as [[[] n]|]; reflexivity. Qed.
Lemma tstep_dead s a : elsewhere a = false -> b_dead (t_b (tstep s a)) = b_dead (t_b s) /\ b_batch (t_b (tstep s a)) = b_batch (t_b s).
Proof.
  intros E. destruct a as [a| | | | | | | | | |]; cbn [tstep]; try discriminate.
  - destruct (outside _ a); auto. destruct a; try discriminate; auto.
  - auto.
  - destruct (t_phase s); auto. destruct (rev_result _ _); auto.
  - destruct (t_phase s); auto. destruct (snd _); auto.
  - destruct (t_phase s); auto.
  - destruct (t_phase s); auto; rewrite watch_step_b; auto.
  - destruct (t_phase s); auto; rewrite watch_step_b; auto.
  - destruct (t_phase s); auto; rewrite watch_step_b; auto.
  - destruct (t_phase s); auto; rewrite watch_step_b; auto.
  - destruct (t_phase s); auto. destruct (nth_error _ _) as [g|]; auto. destruct (nth_error _ _); auto. destruct (g_open g); auto.
Qed.
Lemma attempt_dead s j f : b_dead (t_b (tstep s (TAttempt j f))) = b_dead (t_b s) /\ b_batch (t_b (tstep s (TAttempt j f))) = b_batch (t_b s).
Proof. cbn [tstep]. destruct (nth_error _ j) as [tm|]; auto. destruct (_ <=? _); auto. Qed.
Lemma other_dead cfg s a : match a with HLoop _ _ => False | _ => True end ->
  b_dead (t_b (h_t (hstep cfg s a))) = b_dead (t_b (h_t s)) /\ b_batch (t_b (h_t (hstep cfg s a))) = b_batch (t_b (h_t s)).
Proof.
  intros N. destruct a as [a| | |? ?| | | | | |j f| | |]; cbn [hstep]; try contradiction; auto.
  - destruct (elsewhere a) eqn:E; auto. cbn [with_t h_t]. now apply tstep_dead.
  - destruct (_ <? _)%nat; auto.
  - destruct (h_run s); auto. destruct (h_over s); auto.
  - destruct (h_run s) as [[|c k]|]; auto.
  - destruct (h_run s) as [[|c k]|]; auto.
  - destruct (h_run s) as [[|c k]|]; auto. destruct (h_done s); auto.
  - destruct (nth_error _ _); auto. destruct (_ && _); auto.
  - destruct (existsb _ _); auto. cbn [h_t]. apply attempt_dead.
  - destruct (h_done s); auto. destruct (own_group _); auto.
  - destruct (_ && _); auto.
Qed.
Lemma dead_stays cfg s a : b_dead (t_b (h_t s)) = true -> b_dead (t_b (h_t (hstep cfg s a))) = true.
Proof.
  intros D. destruct a as [a| | |c f| | | | | |j f| | |]; try (match goal with |- context [hstep cfg s ?a] => rewrite (proj1 (other_dead cfg s a Logic.I)) end; exact D).
  cbn [hstep]. unfold loop. change (l_b (as_loop s)) with (t_b (h_t s)). rewrite D. exact D.
Qed.
(** phases *)
Lemma phase_other cfg s a : match a with HT _ => False | _ => True end -> t_phase (h_t (hstep cfg s a)) = t_phase (h_t s).
Proof.
  intros N. destruct a as [a| | |? ?| | | | | |j f| | |]; cbn [hstep]; try contradiction; auto.
  - destruct (_ <? _)%nat; auto.
  - destruct (h_run s); auto. destruct (h_over s); auto.
  - destruct (h_run s) as [[|c k]|]; auto.
  - destruct (h_run s) as [[|c k]|]; auto.
  - destruct (h_run s) as [[|c k]|]; auto. destruct (h_done s); auto.
  - destruct (nth_error _ _); auto. destruct (_ && _); auto.
  - destruct (existsb _ _); auto. cbn [h_t tstep]. destruct (nth_error _ j) as [tm|]; auto. destruct (_ <=? _); auto.
  - destruct (h_done s); auto. destruct (own_group _); auto.
  - destruct (_ && _); auto.
Qed.
Lemma end_stays cfg s a : t_phase (h_t s) = TPEnd -> t_phase (h_t (hstep cfg s a)) = TPEnd.
Proof.
  intros E. destruct a as [a| | |? ?| | | | | |j f| | |]; try (match goal with |- context [hstep cfg s ?a] => rewrite (phase_other cfg s a Logic.I) end; exact E).
  cbn [hstep]. destruct (elsewhere a) eqn:X; [exact E|]. cbn [with_t h_t].
  destruct a as [a| | | | | | | | | |]; cbn [tstep]; rewrite ?E; auto; try discriminate.
Qed.

(** the group of the expiry goroutine *)
Definition mine (b : bstate) (i : nat) (P : group -> Prop) : Prop := exists g, nth_error (b_groups b) i = Some g /\ P g.
(** what publishing and other people's steps keep *)
Definition kept_by_others (P : group -> Prop) : Prop := forall g g', g_regs g' = g_regs g -> g_returns g' = g_returns g -> g_pending g' = g_pending g -> g_taken g' = g_taken g ->
  (g_open g = false -> g_open g' = false /\ g_updates g' = g_updates g) -> P g -> P g'.
Lemma nth_update_other {A} (f : A -> A) (l : list A) : forall i j, i <> j -> nth_error (update_nth j f l) i = nth_error l i.
Proof. induction l as [|x l IH]; intros [|i] [|j] N; cbn; auto; congruence. Qed.
Lemma nth_update_this {A} (f : A -> A) (l : list A) : forall i x, nth_error l i = Some x -> nth_error (update_nth i f l) i = Some (f x).
Proof. induction l as [|y l IH]; intros [|i] x E; cbn in *; try discriminate; try congruence. now apply IH. Qed.
Lemma mine_set b i j f P : i <> j -> mine b i P -> mine (set_group b j f) i P.
Proof. intros N (g & E & H). exists g. split; auto. cbn [set_group b_groups]. rewrite nth_update_other; auto. Qed.
Lemma publish_keeps p evs g : g_regs (publish p evs g) = g_regs g /\ g_returns (publish p evs g) = g_returns g /\ g_pending (publish p evs g) = g_pending g /\ g_taken (publish p evs g) = g_taken g /\
  (g_open g = false -> g_open (publish p evs g) = false /\ g_updates (publish p evs g) = g_updates g).
Proof. unfold publish. destruct (g_open g) eqn:O; [destruct (_ <? _)%nat; cbn; repeat split; auto; discriminate|repeat split; auto]. Qed.
Lemma mine_publish b i P : kept_by_others P -> mine b i P -> mine (publish_all b) i P.
Proof.
  intros K (g & E & H). unfold publish_all. destruct (b_batch b) as [evs|]; [|exists g; auto]. cbv zeta. eexists. cbn [b_groups]. rewrite nth_error_map, E. split; [reflexivity|].
  destruct (publish_keeps (last_rev evs (b_poll b)) evs g) as (A1 & A2 & A3 & A4 & A5). eapply K; eauto.
Qed.
Lemma mine_fetch b f i P : mine b i P -> mine (fetch f b) i P.
Proof. intros H. unfold fetch. destruct (b_dead b); auto. destruct (b_batch b); auto. destruct (snd _) as [rs|[]]; auto. Qed.
Lemma mine_other b i P a ph : kept_by_others P -> own_group ph = Some i -> outside ph a = true -> mine b i P -> mine (bstep b a) i P.
Proof.
  intros K OG OU H. unfold outside in OU. rewrite OG in OU.
  destruct a; cbn [bstep]; auto; try (apply mine_set; auto; apply negb_true_iff, Nat.eqb_neq in OU; congruence).
  - now apply mine_fetch.
  - now apply mine_publish.
  - destruct H as (g & E & H). exists g. split; auto. cbn [new_group b_groups]. rewrite nth_error_app1; auto. apply nth_error_Some. congruence.
Qed.
Lemma mine_loop c f l i P : kept_by_others P -> mine (l_b l) i P -> mine (l_b (loop c f l)) i P.
Proof.
  intros K H. unfold loop. destruct (b_dead (l_b l)); auto. destruct (b_batch (l_b l)); [cbn [l_b bstep]; now apply mine_publish|].
  destruct (at_query l); [cbn [l_b bstep]; now apply mine_fetch|]. unfold select. destruct c.
  - destruct (l_done l); auto. cbn [l_b bstep]. now apply mine_fetch.
  - destruct (l_notify l); auto.
  - destruct (l_tick l); auto.
Qed.
(** every step that is not one of the expiry goroutine's own *)
Definition own_step (a : haction) : Prop :=
  match a with HAfter | HT (TRev _) | HT (TList _) | HT TGroup | HT TWatch | HT (TCheck _) | HT (TQuery _) | HT TFinish | HT (TRecv _) => True | _ => False end.
Lemma mine_step cfg s a i P : kept_by_others P -> own_group (t_phase (h_t s)) = Some i -> ~ own_step a -> mine (t_b (h_t s)) i P ->
  t_phase (h_t (hstep cfg s a)) = t_phase (h_t s) /\ mine (t_b (h_t (hstep cfg s a))) i P.
Proof.
  intros K OG N H. destruct a as [a| | |c f| |f| | | |j f| | |]; try (exfalso; apply N; exact Logic.I).
  - cbn [hstep]. destruct (elsewhere a) eqn:EL; auto. cbn [with_t h_t].
    destruct a as [a| | | | | | | | | |]; try (exfalso; apply N; exact Logic.I); try discriminate; cbn [tstep].
    + destruct (outside (t_phase (h_t s)) a) eqn:OU; auto. cbn [with_tb t_phase t_b]. split; auto. eapply mine_other; eauto.
    + auto.
  - cbn [hstep]. destruct (_ <? _)%nat; auto.
  - auto.
  - split; [reflexivity|]. cbn [hstep h_t with_tb t_b]. apply mine_loop; auto.
  - cbn [hstep]. destruct (h_run s); auto. destruct (h_over s); auto.
  - cbn [hstep]. destruct (h_run s) as [[|c k]|]; auto.
  - cbn [hstep]. destruct (h_run s) as [[|c k]|]; auto.
  - cbn [hstep]. destruct (h_run s) as [[|c k]|]; auto. destruct (h_done s); auto.
  - cbn [hstep]. destruct (nth_error _ _); auto. destruct (_ && _); auto.
  - cbn [hstep]. destruct (existsb _ _); auto. cbn [h_t tstep]. destruct (nth_error _ j) as [tm|]; auto. destruct (_ <=? _); auto.
  - auto.
  - cbn [hstep]. destruct (_ && _); auto.
Qed.
Lemma own_dec a : own_step a \/ ~ own_step a.
Proof. destruct a as [[]| | |? ?| | | | | |j f| | |]; cbn; auto. Qed.

(** the expiry goroutine: places *)
Definition fresh (g : group) : Prop := g_regs g = [] /\ g_returns g = [] /\ g_pending g = [].
Definition registering (ph : phase -> Prop) (g : group) : Prop := exists r p, g_pending g = [(r, p)] /\ r_id r = 1 /\ g_returns g = [] /\ ph p.
Definition closed_with (n : nat) (g : group) : Prop := g_open g = false /\ (length (g_updates g) <= g_taken g + n)%nat.
Lemma kbo_fresh : kept_by_others fresh.
Proof. intros g g' A B C _ _ (X & Y & Z). repeat split; congruence. Qed.
Lemma kbo_reg ph : kept_by_others (registering ph).
Proof. intros g g' A B C _ _ (r & p & X & Y & Z & W). exists r, p. repeat split; congruence || auto. Qed.
Lemma kbo_true : kept_by_others (fun _ => True).
Proof. intros g g' _ _ _ _ _ _. exact Logic.I. Qed.
Lemma kbo_closed n : kept_by_others (closed_with n).
Proof. intros g g' _ _ _ T' O' (X & Y). destruct (O' X) as [O1 U1]. split; auto. rewrite U1, T'. exact Y. Qed.

(** where the expiry goroutine is, with its group *)
Inductive place : tstate -> nat -> Prop :=
| pl_rev s : t_phase s = TPRev -> place s 0
| pl_list s st : t_phase s = TPList st -> place s 1
| pl_group s st : t_phase s = TPGroup st -> place s 2
| pl_begin s st i : t_phase s = TPBegin st i -> mine (t_b s) i fresh -> place s 3
| pl_check s st i : t_phase s = TPWatching st i -> mine (t_b s) i (registering (fun p => p = PCheck)) -> place s 4
| pl_query s st i : t_phase s = TPWatching st i -> mine (t_b s) i (registering (fun p => p = PQuery)) -> place s 5
| pl_finish s st i : t_phase s = TPWatching st i -> mine (t_b s) i (registering (fun p => exists evs, p = PFinish evs)) -> place s 6
| pl_loop s st i : t_phase s = TPLoop st i -> mine (t_b s) i (fun _ => True) -> place s 7
| pl_end s : t_phase s = TPEnd -> place s 8.

Lemma mine_this b i f (P Q : group -> Prop) : (forall g, P g -> Q (f g)) -> mine b i P -> mine (set_group b i f) i Q.
Proof. intros H (g & E & X). exists (f g). split; [cbn [set_group b_groups]; now apply nth_update_this|now apply H]. Qed.
Lemma mine_impl b i (P Q : group -> Prop) : (forall g, P g -> Q g) -> mine b i P -> mine b i Q.
Proof. intros H (g & E & X). exists g. auto. Qed.
Lemma returned_none b i : mine b i (fun g => g_returns g = []) -> watch_returned i b = None.
Proof. intros (g & E & X). unfold watch_returned. rewrite E, X. reflexivity. Qed.
Lemma returned_some b i : mine b i (fun g => exists w, g_returns g = [(1, w)]) -> exists r n, watch_returned i b = Some (r, n).
Proof. intros (g & E & w & X). unfold watch_returned. rewrite E, X. cbn. eauto. Qed.
Lemma reg_pending ph g : registering ph g -> exists r p, pending_of 1 g = Some (r, p) /\ ph p /\ g_pending g = [(r, p)] /\ r_id r = 1 /\ g_returns g = [].
Proof. intros (r & p & A & B & C & D). exists r, p. unfold pending_of. rewrite A. cbn [find fst]. rewrite B. cbn. auto. Qed.
(** one step of the Watch call *)
Lemma watch_to s st i a (Q : group -> Prop) : mine (bstep (t_b s) a) i Q ->
  (forall g, Q g -> g_returns g = [] \/ exists w, g_returns g = [(1, w)]) ->
  (t_phase (t_watch_step s st i a) = TPWatching st i /\ mine (t_b (t_watch_step s st i a)) i (fun g => Q g /\ g_returns g = [])) \/
  (t_phase (t_watch_step s st i a) = TPLoop st i /\ mine (t_b (t_watch_step s st i a)) i (fun g => Q g /\ g_returns g <> [])).
Proof.
  intros (g & E & X) H. destruct (H g X) as [N|(w & N)].
  - left. unfold t_watch_step. cbv zeta. cbn [with_tb t_b]. rewrite returned_none by (exists g; auto). cbn [with_phase with_tb t_phase t_b]. split; auto. exists g. auto.
  - right. unfold t_watch_step. cbv zeta. cbn [with_tb t_b]. destruct (returned_some (bstep (t_b s) a) i) as (r & n & ->); [exists g; eauto|].
    destruct r; cbn [t_phase t_b with_tb]; (split; [reflexivity|]); exists g; split; auto; split; auto; rewrite N; discriminate.
Qed.
Definition answered (g : group) : Prop := exists w, g_returns g = [(1, w)].
Lemma check_now f w g : registering (fun p => p = PCheck) g -> answered (watch_check 1 f w g) \/ (f <> FailBefore ECanceled /\ registering (fun p => p = PQuery) (watch_check 1 f w g)).
Proof.
  intros H. destruct (reg_pending _ _ H) as (r & p & E & -> & GP & RI & GR). unfold watch_check. rewrite E.
  destruct (interval_result f w) as [[lo hi]|e] eqn:IR; [|left; exists (WFailed e); cbn [g_returns]; now rewrite GR].
  destruct (r_start r <? lo); [left; exists (WCompacted lo hi); cbn [g_returns]; now rewrite GR|]. right. split; [intros ->; discriminate IR|].
  exists r, PQuery. cbn [g_pending g_returns]. rewrite GP. cbn [set_phase map fst]. rewrite RI. cbn. auto.
Qed.
Lemma check_not f w g ph : registering ph g -> ~ ph PCheck -> watch_check 1 f w g = g.
Proof. intros H N. destruct (reg_pending _ _ H) as (r & p & E & PH & _). unfold watch_check. rewrite E. destruct p; auto. contradiction. Qed.
Lemma query_now f w g : registering (fun p => p = PQuery) g -> answered (watch_query 1 f w g) \/ (f <> FailBefore ECanceled /\ registering (fun p => exists evs, p = PFinish evs) (watch_query 1 f w g)).
Proof.
  intros H. destruct (reg_pending _ _ H) as (r & p & E & -> & GP & RI & GR). unfold watch_query. rewrite E.
  destruct (snd (sem f _ w)) as [rs|e] eqn:Q; [|left; exists (WFailed e); cbn [g_returns]; now rewrite GR]. right. split; [intros ->; discriminate Q|].
  exists r, (PFinish (scan_all scan_event rs)). cbn [g_pending g_returns]. rewrite GP. cbn [set_phase map fst]. rewrite RI. cbn. repeat split; eauto.
Qed.
Lemma query_not f w g ph : registering ph g -> ~ ph PQuery -> watch_query 1 f w g = g.
Proof. intros H N. destruct (reg_pending _ _ H) as (r & p & E & PH & _). unfold watch_query. rewrite E. destruct p; auto. contradiction. Qed.
Lemma finish_now g : registering (fun p => exists evs, p = PFinish evs) g -> answered (watch_finish 1 g).
Proof. intros H. destruct (reg_pending _ _ H) as (r & p & E & (evs & ->) & GP & RI & GR). unfold watch_finish. rewrite E. exists WOk. cbn [g_returns]. now rewrite GR. Qed.
Lemma finish_not g ph : registering ph g -> (forall evs, ~ ph (PFinish evs)) -> watch_finish 1 g = g.
Proof. intros H N. destruct (reg_pending _ _ H) as (r & p & E & PH & _). unfold watch_finish. rewrite E. destruct p; auto. exfalso. now apply (N evs). Qed.
Lemma reg_returns ph g : registering ph g -> g_returns g = [].
Proof. intros (r & p & _ & _ & H & _). exact H. Qed.
(** the progress each place waits for *)
Definition hurry (n : nat) (a : haction) : Prop :=
  match n with
  | 0%nat => a = HT (TRev (FailBefore ECanceled)) | 1%nat => a = HT (TList (FailBefore ECanceled)) | 2%nat => a = HT TGroup | 3%nat => a = HT TWatch
  | 4%nat => a = HT (TCheck (FailBefore ECanceled)) | 5%nat => a = HT (TQuery (FailBefore ECanceled)) | 6%nat => a = HT TFinish | _ => False
  end.
Definition moves (n m : nat) (a : haction) : Prop := (n <= m)%nat /\ (hurry n a -> (n < m)%nat).
Lemma phase_not_own cfg s a : ~ own_step a -> t_phase (h_t (hstep cfg s a)) = t_phase (h_t s).
Proof.
  intros N. destruct a as [a| | |c f| |f| | | |j f| | |]; try (match goal with |- context [hstep cfg s ?x] => exact (phase_other cfg s x Logic.I) end).
  cbn [hstep]. destruct (elsewhere a) eqn:EL; auto. cbn [with_t h_t]. destruct a as [a| | | | | | | | | |]; try (exfalso; apply N; exact Logic.I); try discriminate; cbn [tstep]; auto.
  destruct (outside _ a); auto.
Qed.
Lemma place_other cfg s a n : ~ own_step a -> place (h_t s) n -> place (h_t (hstep cfg s a)) n.
Proof.
  intros N H. pose proof (phase_not_own cfg s a N) as PH. inversion H as [? E|? st E|? st E|? st i E M|? st i E M|? st i E M|? st i E M|? st i E M|? E]; subst.
  - apply pl_rev. congruence.
  - apply (pl_list _ st). congruence.
  - apply (pl_group _ st). congruence.
  - apply (pl_begin _ st i); [congruence|]. apply (mine_step cfg s a i fresh); auto using kbo_fresh. rewrite E. reflexivity.
  - apply (pl_check _ st i); [congruence|]. apply (mine_step cfg s a i _); auto using kbo_reg. rewrite E. reflexivity.
  - apply (pl_query _ st i); [congruence|]. apply (mine_step cfg s a i _); auto using kbo_reg. rewrite E. reflexivity.
  - apply (pl_finish _ st i); [congruence|]. apply (mine_step cfg s a i _); auto using kbo_reg. rewrite E. reflexivity.
  - apply (pl_loop _ st i); [congruence|]. apply (mine_step cfg s a i _); auto using kbo_true. rewrite E. reflexivity.
  - apply pl_end. congruence.
Qed.
Lemma stop_keeps b i (P : group -> Prop) : kept_by_others P -> mine b i P -> mine (bstep b (AStopGroup i)) i P.
Proof. intros K. cbn [bstep]. apply mine_this. intros g. apply K; auto. Qed.
Lemma place_after cfg s n : place (h_t s) n -> place (h_t (hstep cfg s HAfter)) n.
Proof.
  intros H. cbn [hstep]. destruct (h_done s); auto. inversion H as [? E|? st E|? st E|? st i E M|? st i E M|? st i E M|? st i E M|? st i E M|? E]; subst; rewrite E; cbn [own_group with_t h_t]; auto.
  - apply (pl_begin _ st i); [exact E|]. apply stop_keeps; auto using kbo_fresh.
  - apply (pl_check _ st i); [exact E|]. apply stop_keeps; auto using kbo_reg.
  - apply (pl_query _ st i); [exact E|]. apply stop_keeps; auto using kbo_reg.
  - apply (pl_finish _ st i); [exact E|]. apply stop_keeps; auto using kbo_reg.
  - apply (pl_loop _ st i); [exact E|]. apply stop_keeps; auto using kbo_true.
Qed.
(** a step of the Watch call from a registration *)
Lemma watch_moves s st i a (f : group -> group) n : bstep (t_b s) a = set_group (t_b s) i f ->
  mine (t_b s) i (fun g => answered (f g) \/ exists m P, In (m, P) [(4%nat, registering (fun p => p = PCheck)); (5%nat, registering (fun p => p = PQuery)); (6%nat, registering (fun p => exists evs, p = PFinish evs))] /\ P (f g) /\ (n <= m)%nat) -> (n <= 7)%nat ->
  exists m, (n <= m)%nat /\ place (t_watch_step s st i a) m /\ (m = 7%nat \/ mine (t_b s) i (fun g => ~ answered (f g))).
Proof.
  intros E (g & N & H) L. assert (G : nth_error (b_groups (bstep (t_b s) a)) i = Some (f g)) by (rewrite E; cbn [set_group b_groups]; now apply nth_update_this).
  destruct H as [A|(m & P & I & X & Lm)].
  - exists 7%nat. split; [exact L|]. split; [|auto]. destruct (watch_to s st i a answered) as [(_ & g2 & N2 & A2 & R2)|(W & M)].
    + exists (f g). auto.
    + intros g' H. now right.
    + destruct A2 as (w & A2). congruence.
    + apply (pl_loop _ st i); [exact W|]. eapply mine_impl; [|exact M]. auto.
  - assert (RG : forall ph, registering ph (f g) -> t_phase (t_watch_step s st i a) = TPWatching st i /\ mine (t_b (t_watch_step s st i a)) i (registering ph)).
    { intros ph RP. destruct (watch_to s st i a (registering ph)) as [(W & M)|(_ & g2 & N2 & A2 & R2)].
      - exists (f g). auto.
      - intros g' H'. left. eapply reg_returns; eauto.
      - split; [exact W|]. eapply mine_impl; [|exact M]. intros g1 [R1 _]. exact R1.
      - exfalso. apply R2. eapply reg_returns; eauto. }
    assert (NA : forall ph, registering ph (f g) -> mine (t_b s) i (fun g => ~ answered (f g))).
    { intros ph RP. exists g. split; auto. intros (w & Y). rewrite (reg_returns _ _ RP) in Y. discriminate. }
    exists m. split; [exact Lm|]. cbn in I. destruct I as [I|[I|[I|[]]]]; injection I as <- <-; destruct (RG _ X) as [W M]; (split; [|right; eapply NA; eauto]).
    + now apply (pl_check _ st i).
    + now apply (pl_query _ st i).
    + now apply (pl_finish _ st i).
Qed.
Lemma place_own cfg s a n : own_step a -> place (h_t s) n -> exists m, moves n m a /\ place (h_t (hstep cfg s a)) m.
Proof.
  intros O H. unfold moves.
  assert (SAME : ~ hurry n a -> hstep cfg s a = with_t s (h_t s) -> exists m, ((n <= m)%nat /\ (hurry n a -> (n < m)%nat)) /\ place (h_t (hstep cfg s a)) m).
  { intros NH E. exists n. split; [split; [lia|intros X; contradiction]|]. rewrite E. exact H. }
  destruct a as [a| | |c f| |f| | | |j f| | |]; try contradiction.
  2: { exists n. split; [split; [lia|]|now apply place_after]. destruct n as [|[|[|[|[|[|[|n]]]]]]]; cbn; intros X; now (contradiction || discriminate X || (destruct X; discriminate)). }
  destruct a as [a| |f|f| | |f|f| |js|]; try contradiction; cbn [hstep elsewhere] in *.
  - (* TRev *) inversion H as [? E|? st E|? st E|? st i E M|? st i E M|? st i E M|? st i E M|? st i E M|? E]; subst; cbn [tstep] in *; rewrite E in *; try (apply SAME; [cbn; intros X; now (contradiction || discriminate X || (destruct X; discriminate))|reflexivity]).
    destruct (rev_result f _) as [z|e] eqn:RR; cbn [with_t h_t].
    + exists 1%nat. split; [split; [lia|lia]|]. now apply (pl_list _ z).
    + exists 8%nat. split; [split; lia|]. now apply pl_end.
  - (* TList *) inversion H as [? E|? st E|? st E|? st i E M|? st i E M|? st i E M|? st i E M|? st i E M|? E]; subst; cbn [tstep] in *; rewrite E in *; try (apply SAME; [cbn; intros X; now (contradiction || discriminate X || (destruct X; discriminate))|reflexivity]).
    destruct (snd (sem f _ _)) as [z|e] eqn:RR; cbn [with_t h_t].
    + exists 2%nat. split; [split; [lia|lia]|]. now apply (pl_group _ st).
    + exists 8%nat. split; [split; lia|]. now apply pl_end.
  - (* TGroup *) inversion H as [? E|? st E|? st E|? st i E M|? st i E M|? st i E M|? st i E M|? st i E M|? E]; subst; cbn [tstep] in *; rewrite E in *; try (apply SAME; [cbn; intros X; now (contradiction || discriminate X || (destruct X; discriminate))|reflexivity]).
    exists 3%nat. split; [split; lia|]. cbn [with_t h_t]. apply (pl_begin _ st (length (b_groups (t_b (h_t s))))); [reflexivity|].
    cbn [with_phase with_tb t_b bstep new_group b_groups]. eexists. split; [cbn [b_groups new_group]; rewrite nth_error_app2, Nat.sub_diag by lia; reflexivity|]. repeat split.
  - (* TWatch *) inversion H as [? E|? st E|? st E|? st i E M|? st i E M|? st i E M|? st i E M|? st i E M|? E]; subst; cbn [tstep] in *; rewrite E in *; try (apply SAME; [cbn; intros X; now (contradiction || discriminate X || (destruct X; discriminate))|reflexivity]).
    cbn [with_t h_t]. destruct (watch_moves (h_t s) st i (AWatch i ttl_lo ttl_hi st) (watch_begin ttl_lo ttl_hi st) 4 eq_refl) as (m & Lm & P & _); [|lia|].
    + eapply mine_impl; [|exact M]. intros g (R1 & R2 & R3). unfold watch_begin. rewrite R1, R2, R3. cbv zeta. destruct (0 <? st).
      * right. eexists. eexists. split; [left; reflexivity|]. split; [|lia]. eexists. eexists. cbn [g_pending g_returns app]. repeat split.
      * left. exists WOk. reflexivity.
    + exists m. split; [split; lia|exact P].
  - (* TCheck *) inversion H as [? E|? st E|? st E|? st i E M|? st i E M|? st i E M|? st i E M|? st i E M|? E]; subst; cbn [tstep] in *; rewrite E in *; try (apply SAME; [cbn; intros X; now (contradiction || discriminate X || (destruct X; discriminate))|reflexivity]); cbn [with_t h_t].
    + destruct (watch_moves (h_t s) st i (ACheck i 1 f) (watch_check 1 f (b_world (t_b (h_t s)))) 4 eq_refl) as (m & Lm & P & Q); [|lia|].
      * eapply mine_impl; [|exact M]. intros g R. destruct (check_now f (b_world (t_b (h_t s))) g R) as [A|[_ A]]; [now left|right]. eexists. eexists. split; [right; left; reflexivity|]. split; [exact A|lia].
      * exists m. split; [split; [lia|]|exact P]. intros [= ->]. destruct Q as [->|(g & N & Q)]; [lia|]. destruct M as (g' & N' & R). rewrite N in N'. injection N' as <-.
        destruct (check_now (FailBefore ECanceled) (b_world (t_b (h_t s))) g R) as [A|[A _]]; [contradiction|congruence].
    + destruct (watch_moves (h_t s) st i (ACheck i 1 f) (watch_check 1 f (b_world (t_b (h_t s)))) 5 eq_refl) as (m & Lm & P & Q); [|lia|exists m; split; [split; [lia|discriminate]|exact P]].
      eapply mine_impl; [|exact M]. intros g R. rewrite (check_not f _ g _ R) by discriminate. right. eexists. eexists. split; [right; left; reflexivity|]. split; [exact R|lia].
    + destruct (watch_moves (h_t s) st i (ACheck i 1 f) (watch_check 1 f (b_world (t_b (h_t s)))) 6 eq_refl) as (m & Lm & P & Q); [|lia|exists m; split; [split; [lia|discriminate]|exact P]].
      eapply mine_impl; [|exact M]. intros g R. rewrite (check_not f _ g _ R) by (intros (? & ?); discriminate). right. eexists. eexists. split; [right; right; left; reflexivity|]. split; [exact R|lia].
  - (* TQuery *) inversion H as [? E|? st E|? st E|? st i E M|? st i E M|? st i E M|? st i E M|? st i E M|? E]; subst; cbn [tstep] in *; rewrite E in *; try (apply SAME; [cbn; intros X; now (contradiction || discriminate X || (destruct X; discriminate))|reflexivity]); cbn [with_t h_t].
    + destruct (watch_moves (h_t s) st i (AQuery i 1 f) (watch_query 1 f (b_world (t_b (h_t s)))) 4 eq_refl) as (m & Lm & P & Q); [|lia|exists m; split; [split; [lia|discriminate]|exact P]].
      eapply mine_impl; [|exact M]. intros g R. rewrite (query_not f _ g _ R) by discriminate. right. eexists. eexists. split; [left; reflexivity|]. split; [exact R|lia].
    + destruct (watch_moves (h_t s) st i (AQuery i 1 f) (watch_query 1 f (b_world (t_b (h_t s)))) 5 eq_refl) as (m & Lm & P & Q); [|lia|].
      * eapply mine_impl; [|exact M]. intros g R. destruct (query_now f (b_world (t_b (h_t s))) g R) as [A|[_ A]]; [now left|right]. eexists. eexists. split; [right; right; left; reflexivity|]. split; [exact A|lia].
      * exists m. split; [split; [lia|]|exact P]. intros [= ->]. destruct Q as [->|(g & N & Q)]; [lia|]. destruct M as (g' & N' & R). rewrite N in N'. injection N' as <-.
        destruct (query_now (FailBefore ECanceled) (b_world (t_b (h_t s))) g R) as [A|[A _]]; [contradiction|congruence].
    + destruct (watch_moves (h_t s) st i (AQuery i 1 f) (watch_query 1 f (b_world (t_b (h_t s)))) 6 eq_refl) as (m & Lm & P & Q); [|lia|exists m; split; [split; [lia|discriminate]|exact P]].
      eapply mine_impl; [|exact M]. intros g R. rewrite (query_not f _ g _ R) by (intros (? & ?); discriminate). right. eexists. eexists. split; [right; right; left; reflexivity|]. split; [exact R|lia].
  - (* TFinish *) inversion H as [? E|? st E|? st E|? st i E M|? st i E M|? st i E M|? st i E M|? st i E M|? E]; subst; cbn [tstep] in *; rewrite E in *; try (apply SAME; [cbn; intros X; now (contradiction || discriminate X || (destruct X; discriminate))|reflexivity]); cbn [with_t h_t].
    + destruct (watch_moves (h_t s) st i (AFinish i 1) (watch_finish 1) 4 eq_refl) as (m & Lm & P & Q); [|lia|exists m; split; [split; [lia|discriminate]|exact P]].
      eapply mine_impl; [|exact M]. intros g R. rewrite (finish_not g _ R) by discriminate. right. eexists. eexists. split; [left; reflexivity|]. split; [exact R|lia].
    + destruct (watch_moves (h_t s) st i (AFinish i 1) (watch_finish 1) 5 eq_refl) as (m & Lm & P & Q); [|lia|exists m; split; [split; [lia|discriminate]|exact P]].
      eapply mine_impl; [|exact M]. intros g R. rewrite (finish_not g _ R) by discriminate. right. eexists. eexists. split; [right; left; reflexivity|]. split; [exact R|lia].
    + destruct (watch_moves (h_t s) st i (AFinish i 1) (watch_finish 1) 7 eq_refl) as (m & Lm & P & Q); [|lia|exists m; split; [split; lia|exact P]].
      eapply mine_impl; [|exact M]. intros g R. left. now apply finish_now.
  - (* TRecv *) inversion H as [? E|? st E|? st E|? st i E M|? st i E M|? st i E M|? st i E M|? st i E M|? E]; subst; cbn [tstep] in *; rewrite E in *; try (apply SAME; [cbn; intros X; now (contradiction || discriminate X || (destruct X; discriminate))|reflexivity]); cbn [with_t h_t].
    destruct M as (g & N & _). rewrite N. destruct (nth_error (g_updates g) (g_taken g)) as [u|].
    + exists 7%nat. split; [split; [lia|contradiction]|]. apply (pl_loop _ st i); [reflexivity|]. cbn [t_b]. cbn [bstep]. apply (mine_this _ i take (fun _ => True)); auto. exists g. auto.
    + destruct (g_open g); [exists 7%nat; split; [split; [lia|contradiction]|]; apply (pl_loop _ st i); [exact E|exists g; auto]|].
      exists 8%nat. split; [split; [lia|contradiction]|]. now apply pl_end.
Qed.
Lemma place_step cfg s a n : place (h_t s) n -> exists m, moves n m a /\ place (h_t (hstep cfg s a)) m.
Proof.
  intros H. destruct (own_dec a) as [O|N]; [now apply place_own|]. exists n. split; [|now apply place_other]. split; [lia|].
  intros X. exfalso. apply N. destruct n as [|[|[|[|[|[|[|n]]]]]]]; cbn in X; try contradiction; subst; exact Logic.I.
Qed.
Lemma take_closed n g x : nth_error (g_updates g) (g_taken g) = Some x -> closed_with (S n) g -> closed_with n (take g).
Proof.
  intros N (O & L). assert (X : (g_taken g < length (g_updates g))%nat) by (apply nth_error_Some; congruence).
  unfold take. apply Nat.ltb_lt in X. rewrite X. split; [exact O|]. cbn [g_updates g_taken]. lia.
Qed.
(** ---- a schedule ---- *)
Section Run.
Variables (cfg : driver_cfg) (s0 : hstate) (sch : nat -> haction).
Notation at_ := (hat cfg s0 sch).
Lemma stable (Q : hstate -> Prop) : (forall s a, Q s -> Q (hstep cfg s a)) -> forall t t', (t <= t')%nat -> Q (at_ t) -> Q (at_ t').
Proof. intros H t t' L. induction L as [|t' L IH]; intros X; auto. cbn [hat]. apply H. now apply IH. Qed.
Lemma leads (Q Q' : hstate -> Prop) (act : nat -> Prop) T :
  (forall t, (T <= t)%nat -> Q (at_ t) -> Q (at_ (S t)) \/ Q' (at_ (S t))) ->
  (forall t, (T <= t)%nat -> Q (at_ t) -> act t -> Q' (at_ (S t))) ->
  often act -> forall t, (T <= t)%nat -> Q (at_ t) -> exists t', (t <= t')%nat /\ Q' (at_ t').
Proof.
  intros K P O t L H. destruct (O t) as (u & Lu & A).
  assert (X : forall n, (t + n <= u)%nat -> Q (at_ (t + n)) \/ exists t', (t <= t')%nat /\ Q' (at_ t')).
  { induction n as [|n IH]; intros Ln; [left; now rewrite Nat.add_0_r|]. destruct IH as [IH|IH]; [lia| |now right].
    destruct (K (t + n)%nat ltac:(lia) IH) as [Y|Y]; rewrite Nat.add_succ_r; [now left|right]. exists (S (t + n)). split; [lia|exact Y]. }
  destruct (X (u - t)%nat ltac:(lia)) as [Y|Y]; auto. replace (t + (u - t))%nat with u in Y by lia.
  exists (S u). split; [lia|]. apply P; auto. lia.
Qed.
Variable T : nat.
Hypothesis STOP : h_done (at_ T) = true.
Hypothesis FAIL : forall t f, (T <= t)%nat -> outcome (sch t) = Some f -> f = FailBefore ECanceled.
Hypothesis FAIR : fair_halt cfg s0 sch.
Lemma done_at t : (T <= t)%nat -> h_done (at_ t) = true.
Proof. intros L. exact (stable (fun s => h_done s = true) (done_stays cfg) T t L STOP). Qed.

(** the poll loop *)
Lemma loop_step t c f : (T <= t)%nat -> sch t = HLoop c f -> 
  b_dead (t_b (h_t (at_ t))) = false -> b_batch (t_b (h_t (at_ t))) = None ->
  (b_dead (t_b (h_t (at_ (S t)))) = true \/ b_batch (t_b (h_t (at_ (S t)))) = None) /\ (c = BDone -> b_dead (t_b (h_t (at_ (S t)))) = true).
Proof.
  intros L E D B. assert (F : f = FailBefore ECanceled) by (apply (FAIL t); [exact L|rewrite E; reflexivity]). subst f.
  pose proof (done_at t L) as DN. cbn [hat]. rewrite E. cbn [hstep with_tb h_t t_b].
  unfold loop. change (l_b (as_loop (at_ t))) with (t_b (h_t (at_ t))). rewrite D, B.
  assert (FT : b_dead (bstep (t_b (h_t (at_ t))) (AFetch (FailBefore ECanceled))) = true).
  { cbn [bstep]. unfold fetch. rewrite D, B. reflexivity. }
  unfold at_query. change (l_b (as_loop (at_ t))) with (t_b (h_t (at_ t))). cbn [as_loop l_go l_more]. rewrite D, B. cbn [negb andb].
  destruct (h_go (at_ t) || negb (h_more (at_ t))); [cbn [l_b]; split; [left; exact FT|intros _; exact FT]|].
  destruct c; cbn [select as_loop l_done l_b l_notify l_tick].
  - rewrite DN. cbn [l_b]. split; [left; exact FT|intros _; exact FT].
  - destruct (h_notify (at_ t)); cbn [l_b]; split; auto; discriminate.
  - destruct (h_tick (at_ t)); cbn [l_b]; split; auto; discriminate.
Qed.
Lemma publishing t c f : (T <= t)%nat -> sch t = HLoop c f -> b_dead (t_b (h_t (at_ t))) = false -> b_batch (t_b (h_t (at_ t))) <> None ->
  b_batch (t_b (h_t (at_ (S t)))) = None.
Proof.
  intros L E D B. cbn [hat]. rewrite E. cbn [hstep with_tb h_t t_b]. unfold loop. change (l_b (as_loop (at_ t))) with (t_b (h_t (at_ t))). rewrite D.
  destruct (b_batch (t_b (h_t (at_ t)))) as [evs|] eqn:BE; [|congruence]. cbn [l_b bstep]. unfold publish_all. rewrite BE. reflexivity.
Qed.
Lemma isloop a : (exists c f, a = HLoop c f) \/ match a with HLoop _ _ => False | _ => True end.
Proof. destruct a; auto. left. eauto. Qed.
Lemma poll_ends t : (T <= t)%nat -> exists t', (t <= t')%nat /\ b_dead (t_b (h_t (at_ t'))) = true.
Proof.
  intros L. destruct FAIR as (F1 & _).
  set (dead := fun s => b_dead (t_b (h_t s)) = true). set (idle := fun s => b_dead (t_b (h_t s)) = true \/ b_batch (t_b (h_t s)) = None).
  assert (A : exists t1, (t <= t1)%nat /\ idle (at_ t1)).
  { apply (leads (fun _ => True) idle (fun t => exists f, sch t = HLoop BDone f) T); auto. intros u Lu _ (f & E).
    destruct (b_dead (t_b (h_t (at_ u)))) eqn:D; [left; cbn [hat]; now apply dead_stays|].
    destruct (b_batch (t_b (h_t (at_ u)))) eqn:B; [right; eapply publishing; eauto; congruence|]. left. now apply (loop_step u BDone f Lu E D B). }
  destruct A as (t1 & L1 & A). destruct (leads idle dead (fun t => exists f, sch t = HLoop BDone f) T) with (t := t1) as (t2 & L2 & B); auto; [| |lia|exists t2; split; [lia|exact B]].
  - intros u Lu H. destruct H as [H|H]; [right; unfold dead; cbn [hat]; now apply dead_stays|].
    destruct (b_dead (t_b (h_t (at_ u)))) eqn:D; [right; unfold dead; cbn [hat]; now apply dead_stays|]. left.
    destruct (isloop (sch u)) as [(c & f & E)|N]; [now apply (loop_step u c f Lu E D H)|]. right. cbn [hat]. rewrite (proj2 (other_dead cfg _ _ N)). exact H.
  - intros u Lu H (f & E). destruct (b_dead (t_b (h_t (at_ u)))) eqn:D; [unfold dead; cbn [hat]; now apply dead_stays|].
    destruct H as [H|H]; [congruence|]. now apply (loop_step u BDone f Lu E D H).
Qed.

(** compaction *)
Lemma run_other s a : match a with HTickC | HCall _ | HEndRun | HDoneC => False | _ => True end -> h_run (hstep cfg s a) = h_run s /\ h_over (hstep cfg s a) = h_over s.
Proof.
  intros N. destruct a as [a| | |? ?| | | | | |j f| | |]; cbn [hstep]; try contradiction; auto.
  - destruct (elsewhere a); auto.
  - destruct (_ <? _)%nat; auto.
  - destruct (nth_error _ _); auto. destruct (_ && _); auto.
  - destruct (existsb _ _); auto.
  - destruct (h_done s); auto. destruct (own_group _); auto.
  - destruct (_ && _); auto.
Qed.
Lemma run_ends p : forall t, (T <= t)%nat -> h_run (at_ t) = Some p -> exists t', (t <= t')%nat /\ h_run (at_ t') = None.
Proof.
  destruct FAIR as (_ & F2 & F3 & _). induction p as [r|c k IH]; intros t L H.
  - apply (leads (fun s => h_run s = Some (Ret r)) (fun s => h_run s = None) (fun t => sch t = HEndRun) T); auto.
    + intros u Lu Hu. cbn [hat]. destruct (sch u) eqn:E; try (left; match goal with |- context [hstep cfg ?s ?a] => rewrite (proj1 (run_other s a Logic.I)) end; exact Hu); cbn [hstep]; rewrite Hu; auto.
    + intros u Lu Hu E. cbn [hat]. rewrite E. cbn [hstep]. rewrite Hu. reflexivity.
  - destruct (leads (fun s => h_run s = Some (Call c k)) (fun s => exists r, h_run s = Some (k r)) (fun t => exists f, sch t = HCall f) T) with (t := t) as (t1 & L1 & r & H1); auto.
    + intros u Lu Hu. cbn [hat]. destruct (sch u) eqn:E; try (left; match goal with |- context [hstep cfg ?s ?a] => rewrite (proj1 (run_other s a Logic.I)) end; exact Hu); cbn [hstep]; rewrite Hu; auto.
      right. eexists. reflexivity.
    + intros u Lu Hu (f & E). cbn [hat]. rewrite E. cbn [hstep]. rewrite Hu. eexists. reflexivity.
    + destruct (IH r t1 ltac:(lia) H1) as (t2 & L2 & H2). exists t2. split; [lia|exact H2].
Qed.
Lemma over_or_not t : h_over (at_ t) = true \/ h_over (at_ t) = false.
Proof. destruct (h_over _); auto. Qed.
Lemma compaction_ends t : (T <= t)%nat -> exists t', (t <= t')%nat /\ h_over (at_ t') = true.
Proof.
  intros L. pose proof FAIR as (_ & _ & _ & F4 & F5 & _).
  (* decisions are made again and again, or it is over *)
  assert (D : forall u, (T <= u)%nat -> exists u', (u <= u')%nat /\ (h_over (at_ u') = true \/ h_run (at_ u') = None /\ h_over (at_ u') = false /\ (sch u' = HTickC \/ sch u' = HDoneC))).
  { intros u Lu. assert (NX : exists u1, (u <= u1)%nat /\ h_run (at_ u1) = None).
    { destruct (h_run (at_ u)) as [p|] eqn:E; [apply (run_ends p u Lu E)|exists u; auto]. }
    destruct NX as (u1 & L1 & N). destruct (F4 u1) as (u2 & L2 & E2).
    assert (X : forall n, (u1 + n <= u2)%nat -> h_run (at_ (u1 + n)) = None \/ exists u', (u <= u')%nat /\ (h_over (at_ u') = true \/ h_run (at_ u') = None /\ h_over (at_ u') = false /\ (sch u' = HTickC \/ sch u' = HDoneC))).
    { induction n as [|n IH]; intros Ln; [left; now rewrite Nat.add_0_r|]. destruct IH as [IH|IH]; [lia| |now right].
      destruct (over_or_not (u1 + n)) as [O|O]; [right; exists (u1 + n)%nat; split; [lia|now left]|].
      destruct (sch (u1 + n)) eqn:E; rewrite Nat.add_succ_r; cbn [hat]; rewrite E; try (left; match goal with |- context [hstep cfg ?s ?a] => rewrite (proj1 (run_other s a Logic.I)) end; exact IH); cbn [hstep]; rewrite ?IH; auto.
      - right. exists (u1 + n)%nat. split; [lia|]. right. auto.
      - left. destruct (h_done (at_ (u1 + n))); [reflexivity|exact IH]. }
    destruct (X (u2 - u1)%nat ltac:(lia)) as [Y|Y]; [|exact Y]. replace (u1 + (u2 - u1))%nat with u2 in Y by lia.
    exists u2. split; [lia|]. destruct (over_or_not u2) as [O|O]; [now left|right; auto]. }
  destruct (F5 t) as (t' & Lt & F). destruct (D t' ltac:(lia)) as (u & Lu & [H|(H1 & H2 & H3)]); [exists u; split; [lia|exact H]|].
  destruct (F u Lu H1 H2 H3) as (v & Lv & R & E). exists (S v). split; [lia|]. cbn [hat]. rewrite E. cbn [hstep]. rewrite R, (done_at v ltac:(lia)). reflexivity.
Qed.

(** the expiry goroutine *)
Lemma place_lives n t t' : (t <= t')%nat -> place (h_t (at_ t)) n -> exists m, (n <= m)%nat /\ place (h_t (at_ t')) m.
Proof.
  intros L. induction L as [|t' L IH]; intros H; [exists n; auto|]. destruct (IH H) as (m & Lm & P).
  destruct (place_step cfg (at_ t') (sch t') m P) as (m' & (Lm' & _) & P'). exists m'. split; [lia|exact P'].
Qed.
Lemma hurries n t : (T <= t)%nat -> (n < 7)%nat -> exists t', (t <= t')%nat /\ hurry n (sch t').
Proof.
  intros L Ln. pose proof FAIR as (_ & _ & _ & _ & _ & R1 & R2 & R3 & R4 & R5 & R6 & R7 & _).
  destruct n as [|[|[|[|[|[|[|n]]]]]]]; try lia; cbn [hurry].
  - destruct (R1 t) as (u & Lu & f & E). exists u. split; auto. rewrite (FAIL u f) in E; auto; [lia|now rewrite E].
  - destruct (R2 t) as (u & Lu & f & E). exists u. split; auto. rewrite (FAIL u f) in E; auto; [lia|now rewrite E].
  - exact (R3 t).
  - exact (R4 t).
  - destruct (R5 t) as (u & Lu & f & E). exists u. split; auto. rewrite (FAIL u f) in E; auto; [lia|now rewrite E].
  - destruct (R6 t) as (u & Lu & f & E). exists u. split; auto. rewrite (FAIL u f) in E; auto; [lia|now rewrite E].
  - exact (R7 t).
Qed.
Lemma further n t : (T <= t)%nat -> (n < 7)%nat -> place (h_t (at_ t)) n -> exists t' m, (t <= t')%nat /\ (n < m)%nat /\ place (h_t (at_ t')) m.
Proof.
  intros L Ln H. destruct (hurries n t L Ln) as (u & Lu & HU). destruct (place_lives n t u Lu H) as (m & Lm & P).
  destruct (Nat.eq_dec n m) as [<-|NE]; [|exists u, m; repeat split; auto; lia].
  destruct (place_step cfg (at_ u) (sch u) n P) as (m' & (_ & X) & P'). exists (S u), m'. repeat split; [lia|now apply X|exact P'].
Qed.
Lemma reaches k : forall n t, (7 <= n + k)%nat -> (T <= t)%nat -> place (h_t (at_ t)) n -> exists t' m, (t <= t')%nat /\ (7 <= m)%nat /\ place (h_t (at_ t')) m.
Proof.
  induction k as [|k IH]; intros n t Lk L H; [exists t, n; repeat split; auto; lia|].
  destruct (le_lt_dec 7 n) as [G|G]; [exists t, n; auto|]. destruct (further n t L G H) as (u & m & Lu & Lm & P).
  destruct (IH m u ltac:(lia) ltac:(lia) P) as (u' & m' & A & B & C). exists u', m'. repeat split; auto; lia.
Qed.
Definition looping (P : group -> Prop) (s : hstate) : Prop := exists st i, t_phase (h_t s) = TPLoop st i /\ mine (t_b (h_t s)) i P.
Definition ended (s : hstate) : Prop := t_phase (h_t s) = TPEnd.
Lemma recv_step s js : forall st i g, t_phase (h_t s) = TPLoop st i -> nth_error (b_groups (t_b (h_t s))) i = Some g ->
  (exists u, nth_error (g_updates g) (g_taken g) = Some u /\ looping (fun g' => g' = take g) (hstep cfg s (HT (TRecv js)))) \/
  (nth_error (g_updates g) (g_taken g) = None /\ g_open g = true /\ looping (fun g' => g' = g) (hstep cfg s (HT (TRecv js)))) \/
  (nth_error (g_updates g) (g_taken g) = None /\ g_open g = false /\ ended (hstep cfg s (HT (TRecv js)))).
Proof.
  intros st i g E N. cbn [hstep elsewhere with_t h_t]. unfold looping, ended. cbn [tstep with_t h_t]. rewrite E, N.
  destruct (nth_error (g_updates g) (g_taken g)) as [u|].
  - left. exists u. split; auto. exists st, i. split; [reflexivity|]. cbn [t_b bstep]. apply (mine_this _ i take (fun g' => g' = g)); [intros g' ->; reflexivity|]. exists g. auto.
  - right. destruct (g_open g); [left|right]; repeat split; auto. exists st, i. split; auto. exists g. auto.
Qed.
(** steps other than receiving and AfterFunc, in the loop *)
Lemma loop_kept a s (P : group -> Prop) : kept_by_others P -> (forall js, a <> HT (TRecv js)) -> looping P s -> looping P (hstep cfg s a).
Proof.
  intros K NR (st & i & E & M). destruct (own_dec a) as [OW|N].
  - destruct a as [a| | |c f| |f| | | |j f| | |]; try contradiction.
    + exists st, i. cbn [hstep]. destruct a; try contradiction; try (exfalso; eapply NR; reflexivity); cbn [elsewhere with_t h_t tstep]; rewrite E; auto.
    + exists st, i. cbn [hstep]. destruct (h_done s); auto. rewrite E. cbn [own_group with_t h_t with_tb t_b t_phase]. split; auto. now apply stop_keeps.
  - exists st, i. destruct (mine_step cfg s a i P K) as [A B]; auto; [rewrite E; reflexivity|]. split; congruence || auto.
Qed.
Lemma isrecv a : (exists js, a = HT (TRecv js)) \/ forall js, a <> HT (TRecv js).
Proof. destruct a as [[]| | |? ?| | | | | |j f| | |]; try (right; discriminate). left. eauto. Qed.
Lemma closes t : (T <= t)%nat -> looping (fun _ => True) (at_ t) -> exists t', (t <= t')%nat /\ (ended (at_ t') \/ exists n, looping (closed_with n) (at_ t')).
Proof.
  intros L H. pose proof FAIR as (_ & _ & _ & _ & _ & _ & _ & _ & _ & _ & _ & _ & _ & AF & _).
  apply (leads (looping (fun _ => True)) (fun s => ended s \/ exists n, looping (closed_with n) s) (fun t => sch t = HAfter) T); auto.
  - intros u Lu (st & i & E & g & N & _). cbn [hat]. destruct (isrecv (sch u)) as [(js & ->)|NR]; [|left; apply loop_kept; auto using kbo_true; exists st, i; split; auto; exists g; auto].
    destruct (recv_step (at_ u) js st i g E N) as [(x & _ & st' & i' & A & B)|[(_ & _ & st' & i' & A & B)|(_ & _ & A)]]; [left; exists st', i'; split; auto; eapply mine_impl; [|exact B]; auto| |auto].
    left. exists st', i'. split; auto. eapply mine_impl; [|exact B]; auto.
  - intros u Lu (st & i & E & g & N & _) HA. right. exists (length (g_updates g)). cbn [hat]. rewrite HA. cbn [hstep]. rewrite (done_at u Lu), E. cbn [own_group with_t h_t]. exists st, i. split; [exact E|].
    cbn [with_tb t_b bstep]. apply (mine_this _ i _ (fun g' => g' = g)); [|exists g; auto]. intros g' ->. split; [reflexivity|]. cbn. lia.
Qed.
Lemma drains n : forall t, (T <= t)%nat -> looping (closed_with n) (at_ t) -> exists t', (t <= t')%nat /\ ended (at_ t').
Proof.
  pose proof FAIR as (_ & _ & _ & _ & _ & _ & _ & _ & _ & _ & _ & _ & RC & _).
  induction n as [|n IH]; intros t L H.
  - apply (leads (looping (closed_with 0)) ended (fun t => exists js, sch t = HT (TRecv js)) T); auto.
    + intros u Lu Hu. cbn [hat]. destruct (isrecv (sch u)) as [(js & E)|NR]; [|left; apply loop_kept; auto using kbo_closed]. right. rewrite E.
      destruct Hu as (st & i & P & g & N & (O & LE)). destruct (recv_step (at_ u) js st i g P N) as [(x & NX & _)|[(_ & A & _)|(_ & _ & A)]]; [|congruence|exact A].
      assert (g_taken g < length (g_updates g))%nat by (apply nth_error_Some; congruence). lia.
    + intros u Lu Hu (js & E). cbn [hat]. rewrite E.
      destruct Hu as (st & i & P & g & N & (O & LE)). destruct (recv_step (at_ u) js st i g P N) as [(x & NX & _)|[(_ & A & _)|(_ & _ & A)]]; [|congruence|exact A].
      assert (g_taken g < length (g_updates g))%nat by (apply nth_error_Some; congruence). lia.
  - destruct (leads (looping (closed_with (S n))) (fun s => ended s \/ looping (closed_with n) s) (fun t => exists js, sch t = HT (TRecv js)) T) with (t := t) as (u & Lu & [X|X]); auto.
    + intros u Lu Hu. cbn [hat]. destruct (isrecv (sch u)) as [(js & E)|NR]; [|left; apply loop_kept; auto using kbo_closed]. right. rewrite E.
      destruct Hu as (st & i & P & g & N & (O & LE)). destruct (recv_step (at_ u) js st i g P N) as [(x & NX & st' & i' & A & B)|[(_ & A & _)|(_ & _ & A)]]; [|congruence|now left].
      right. exists st', i'. split; auto. eapply mine_impl; [|exact B]. intros g' ->. eapply take_closed; [exact NX|split; auto].
    + intros u Lu Hu (js & E). cbn [hat]. rewrite E.
      destruct Hu as (st & i & P & g & N & (O & LE)). destruct (recv_step (at_ u) js st i g P N) as [(x & NX & st' & i' & A & B)|[(_ & A & _)|(_ & _ & A)]]; [|congruence|now left].
      right. exists st', i'. split; auto. eapply mine_impl; [|exact B]. intros g' ->. eapply take_closed; [exact NX|split; auto].
    + exists u. auto.
    + destruct (IH u ltac:(lia) X) as (v & Lv & V). exists v. split; [lia|exact V].
Qed.
Lemma expiry_ends n t : (T <= t)%nat -> place (h_t (at_ t)) n -> exists t', (t <= t')%nat /\ ended (at_ t').
Proof.
  intros L H. destruct (reaches 7 n t ltac:(lia) L H) as (u & m & Lu & Lm & P).
  inversion P as [? E|? st E|? st E|? st i E M|? st i E M|? st i E M|? st i E M|? st i E M|? E]; subst; try lia; [|exists u; auto].
  destruct (closes u ltac:(lia)) as (v & Lv & [V|(k & V)]); [exists st, i; auto|exists v; split; [lia|exact V]|].
  destruct (drains k v ltac:(lia) V) as (x & Lx & X). exists x. split; [lia|exact X].
Qed.
Lemma stop_returns n : place (h_t (at_ T)) n -> exists t, h_returned (at_ t) = true.
Proof.
  intros H. destruct (poll_ends T (le_n _)) as (t1 & L1 & D). destruct (compaction_ends T (le_n _)) as (t2 & L2 & C). destruct (expiry_ends n T (le_n _) H) as (t3 & L3 & X).
  pose proof FAIR as (_ & _ & _ & _ & _ & _ & _ & _ & _ & _ & _ & _ & _ & _ & RT). destruct (RT (t1 + t2 + t3)%nat) as (t & L & E).
  exists (S t). cbn [hat]. rewrite E. cbn [hstep]. rewrite (done_at t ltac:(lia)). unfold counted_gone.
  rewrite (stable (fun s => b_dead (t_b (h_t s)) = true) (dead_stays cfg) t1 t ltac:(lia) D), (stable (fun s => h_over s = true) (over_stays cfg) t2 t ltac:(lia) C).
  rewrite (stable ended (end_stays cfg) t3 t ltac:(lia) X). reflexivity.
Qed.
End Run.

Theorem halts cfg w now stamps sch T : fair_halt cfg (hstart w now stamps) sch ->
  (exists t, (t < T)%nat /\ sch t = HStop) ->
  (forall t f, (T <= t)%nat -> outcome (sch t) = Some f -> f = FailBefore ECanceled) ->
  exists t, h_returned (hat cfg (hstart w now stamps) sch t) = true.
Proof.
  intros FAIR (ts & Lts & ST) FAIL. set (s0 := hstart w now stamps) in *.
  assert (D : h_done (hat cfg s0 sch T) = true).
  { apply (stable cfg s0 sch (fun s => h_done s = true) (done_stays cfg) (S ts) T Lts). cbn [hat]. rewrite ST. reflexivity. }
  destruct (place_lives cfg s0 sch 0 0 T (Nat.le_0_l _)) as (n & _ & P); [now apply pl_rev|].
  exact (stop_returns cfg s0 sch T D FAIL FAIR n P).
Qed.

(** ---- after the return ---- *)
Definition quiet (s : hstate) : Prop := (h_over s = true -> h_run s = None) /\
  (h_returned s = true -> h_done s = true /\ b_dead (t_b (h_t s)) = true /\ h_over s = true /\ t_phase (h_t s) = TPEnd).
Lemma over_run cfg s a : (h_over s = true -> h_run s = None) -> h_over (hstep cfg s a) = true -> h_run (hstep cfg s a) = None.
Proof.
  intros Q. destruct a as [a| | |c f| |f| | | |j f| | |]; try (match goal with |- context [hstep cfg s ?a] => destruct (run_other cfg s a Logic.I) as [-> ->] end; exact Q).
  - cbn [hstep]. destruct (h_run s) eqn:R; [rewrite ?R; auto|]. destruct (h_over s) eqn:O; auto. cbn. discriminate.
  - cbn [hstep]. destruct (h_run s) as [[|c k]|] eqn:R; rewrite ?R; auto. cbn. intros O. specialize (Q O). discriminate.
  - cbn [hstep]. destruct (h_run s) as [[|c k]|] eqn:R; rewrite ?R; auto.
  - cbn [hstep]. destruct (h_run s) as [[|c k]|] eqn:R; rewrite ?R; auto. destruct (h_done s); auto.
Qed.
Lemma returned_new cfg s a : h_returned s = false -> h_returned (hstep cfg s a) = true -> a = HReturn /\ h_done s = true /\ counted_gone s = true.
Proof.
  intros F. destruct a as [a| | |c f| |f| | | |j f| | |]; cbn [hstep]; repeat (match goal with |- context [if ?x then _ else _] => destruct x eqn:? | |- context [match ?x with _ => _ end] => destruct x eqn:? end); cbn [h_returned with_t with_run with_world]; try congruence.
  apply andb_true_iff in Heqb. tauto.
Qed.
Lemma quiet_step cfg s a : quiet s -> quiet (hstep cfg s a).
Proof.
  intros (Q1 & Q2). split; [now apply over_run|]. intros R. destruct (h_returned s) eqn:RS.
  - destruct (Q2 eq_refl) as (A & B & C & D). auto using done_stays, dead_stays, over_stays, end_stays.
  - destruct (returned_new cfg s a RS R) as (E & D & G). unfold counted_gone in G. apply andb_true_iff in G. destruct G as [G P]. apply andb_true_iff in G. destruct G as [G1 G2].
    destruct (t_phase (h_t s)) eqn:PH; try discriminate P. auto using done_stays, dead_stays, over_stays, end_stays.
Qed.
Lemma quiet_run cfg xs : forall s, quiet s -> quiet (hrun cfg s xs).
Proof. induction xs as [|x xs IH]; intros s Q; auto. apply IH. now apply quiet_step. Qed.
Lemma quiet_start w now stamps : quiet (hstart w now stamps).
Proof. split; cbn; discriminate. Qed.
Lemma hrun_app cfg s xs ys : hrun cfg s (xs ++ ys) = hrun cfg (hrun cfg s xs) ys.
Proof. unfold hrun. apply fold_left_app. Qed.
Lemma bstep_world b a : match a with AEnv _ | AFetch _ | APublish => False | _ => True end -> b_world (bstep b a) = b_world b.
Proof. destruct a; intros H; try contradiction; reflexivity. Qed.
Lemma quiet_world cfg s a : quiet s -> h_returned s = true -> ~ by_others a -> (forall j f, a <> HLand j f) ->
  b_world (t_b (h_t (hstep cfg s a))) = b_world (t_b (h_t s)).
Proof.
  intros (Q1 & Q2) R NB NL. destruct (Q2 R) as (D & DE & OV & PH). specialize (Q1 OV).
  destruct a as [a| | |c f| |f| | | |j f| | |]; cbn [hstep].
  - destruct (elsewhere a) eqn:EL; auto. cbn [with_t h_t]. destruct a as [a| | | | | | | | | |]; cbn [tstep]; rewrite ?PH; try discriminate; auto.
    destruct (outside _ a); auto. cbn [with_tb t_b]. apply bstep_world. destruct a; try discriminate; auto. apply NB. exact Logic.I.
  - destruct (_ <? _)%nat; auto.
  - auto.
  - cbn [h_t with_tb t_b]. unfold loop. change (l_b (as_loop s)) with (t_b (h_t s)). now rewrite DE.
  - rewrite Q1, OV. auto.
  - rewrite Q1. auto.
  - rewrite Q1. auto.
  - rewrite Q1, D. auto.
  - destruct (nth_error _ _); auto. destruct (_ && _); auto.
  - exfalso. eapply NL. reflexivity.
  - rewrite D, PH. auto.
  - auto.
  - destruct (_ && _); auto.
Qed.
Lemma flight_step cfg s a : h_done s = true -> incl (h_flight (hstep cfg s a)) (h_flight s) /\
  (forall j f, a = HLand j f -> (In j (h_flight s) -> length (h_flight (hstep cfg s a)) < length (h_flight s))%nat /\ (~ In j (h_flight s) -> hstep cfg s a = s)).
Proof.
  intros D. destruct a as [a| | |c f| |f| | | |j f| | |]; cbn [hstep]; (split; [|try discriminate]).
  all: try (repeat (match goal with |- context [if ?x then _ else _] => destruct x eqn:? | |- context [match ?x with _ => _ end] => destruct x eqn:? end); apply incl_refl).
  - destruct (nth_error _ _) as [tm|]; [|apply incl_refl]. rewrite D, andb_false_r. apply incl_refl.
  - destruct (existsb _ _); [|apply incl_refl]. cbn [h_flight]. intros x H. now apply in_remove in H.
  - intros j' f' [= <- <-]. destruct (existsb (Nat.eqb j) (h_flight s)) eqn:E.
    + apply existsb_exists in E. destruct E as (x & IN & E). apply Nat.eqb_eq in E. subst x. split; [|contradiction]. intros _. cbn [h_flight]. now apply remove_length_lt.
    + split; [|reflexivity]. intros IN. assert (existsb (Nat.eqb j) (h_flight s) = true) by (apply existsb_exists; exists j; split; auto; apply Nat.eqb_refl). congruence.
Qed.
(** the states at which the database has changed, counted *)
Fixpoint changes (cfg : driver_cfg) (s : hstate) (xs : list haction) : list (world * world) :=
  match xs with
  | [] => []
  | x :: rest => (b_world (t_b (h_t s)), b_world (t_b (h_t (hstep cfg s x)))) :: changes cfg (hstep cfg s x) rest
  end.
Lemma step_len cfg s a : h_done s = true -> (length (h_flight (hstep cfg s a)) <= length (h_flight s))%nat.
Proof.
  intros D. destruct a as [a| | |c f| |f| | | |j f| | |]; cbn [hstep].
  all: try (repeat (match goal with |- context [if ?x then _ else _] => destruct x eqn:? | |- context [match ?x with _ => _ end] => destruct x eqn:? end); apply le_n).
  - destruct (nth_error _ _) as [tm|]; [|apply le_n]. rewrite D, andb_false_r. apply le_n.
  - destruct (existsb _ _); [|apply le_n]. cbn [h_flight]. apply remove_length_le.
Qed.
Lemma few cfg ys : forall s, quiet s -> h_returned s = true -> Forall (fun a => ~ by_others a) ys ->
  forall ch, (forall i, In i ch -> exists w w', nth_error (changes cfg s ys) i = Some (w, w') /\ w <> w') -> NoDup ch -> (length ch <= length (h_flight s))%nat.
Proof.
  induction ys as [|a ys IH]; intros s Q R F ch CH ND.
  - destruct ch as [|i ch]; [cbn; lia|]. destruct (CH i (or_introl eq_refl)) as (w & w' & E & _). destruct i; discriminate E.
  - inversion F as [|? ? NB F']; subst. pose proof (quiet_step cfg s a Q) as Q'. pose proof (returned_stays cfg s a R) as R'. destruct (proj2 Q R) as (D & _).
    set (rest := map pred (filter (fun i => negb (i =? 0)%nat) ch)).
    assert (LR : (length rest <= length (h_flight (hstep cfg s a)))%nat).
    { apply (IH (hstep cfg s a) Q' R' F').
      - intros i IN. unfold rest in IN. apply in_map_iff in IN. destruct IN as (k & PK & IN). apply filter_In in IN. destruct IN as [IN NZ]. apply negb_true_iff, Nat.eqb_neq in NZ.
        destruct k as [|k]; [congruence|]. cbn in PK. subst k. destruct (CH (S i) IN) as (w & w' & E & N). exists w, w'. split; auto.
      - unfold rest. clear - ND. induction ch as [|x ch IHc]; [constructor|]. inversion ND; subst. cbn [filter]. destruct x as [|x]; cbn [negb Nat.eqb]; [auto|]. cbn [map]. constructor; [|auto].
        intros IN. apply in_map_iff in IN. destruct IN as (k & PK & IN). apply filter_In in IN. destruct IN as [IN NZ]. destruct k as [|k]; [discriminate NZ|]. cbn in PK. subst k. contradiction. }
    assert (LC : (length ch <= length rest + (if in_dec Nat.eq_dec 0%nat ch then 1 else 0))%nat).
    { unfold rest. rewrite map_length. clear - ND. induction ch as [|x ch IHc]; [cbn; lia|]. inversion ND; subst. specialize (IHc H2). cbn [filter length].
      destruct x as [|x]; cbn [negb Nat.eqb length]; destruct (in_dec Nat.eq_dec 0%nat ch), (in_dec Nat.eq_dec 0%nat (_ :: ch)) as [I1|I1]; try lia; try contradiction; try (exfalso; apply I1; cbn; auto). }
    destruct (in_dec Nat.eq_dec 0%nat ch) as [I0|N0]; [|pose proof (step_len cfg s a D); lia].
    destruct (CH 0%nat I0) as (w & w' & E & N). cbn in E. injection E as <- <-.
    assert (HL : exists j f, a = HLand j f).
    { destruct a; try (exfalso; apply N; symmetry; apply quiet_world; auto; discriminate). eauto. }
    destruct HL as (j & f & ->). destruct (proj2 (flight_step cfg s (HLand j f) D) j f eq_refl) as [L1 L2].
    destruct (in_dec Nat.eq_dec j (h_flight s)) as [J|J]; [specialize (L1 J); lia|]. rewrite (L2 J) in N. congruence.
Qed.
Lemma changes_at cfg ys : forall s i, (i < length ys)%nat ->
  nth_error (changes cfg s ys) i = Some (b_world (t_b (h_t (hrun cfg s (firstn i ys)))), b_world (t_b (h_t (hrun cfg s (firstn (S i) ys))))).
Proof.
  induction ys as [|y ys IH]; intros s i L; cbn in L; [lia|]. destruct i as [|i]; [reflexivity|]. cbn [changes nth_error]. rewrite IH by lia. reflexivity.
Qed.
Theorem few_changes cfg w now stamps xs ys ch : h_returned (hrun cfg (hstart w now stamps) xs) = true -> Forall (fun a => ~ by_others a) ys -> NoDup ch ->
  (forall i, In i ch -> (i < length ys)%nat /\ b_world (t_b (h_t (hrun cfg (hstart w now stamps) (xs ++ firstn i ys)))) <> b_world (t_b (h_t (hrun cfg (hstart w now stamps) (xs ++ firstn (S i) ys))))) ->
  (length ch <= length (h_flight (hrun cfg (hstart w now stamps) xs)))%nat.
Proof.
  intros R F ND CH. apply (few cfg ys (hrun cfg (hstart w now stamps) xs)); auto; [apply quiet_run, quiet_start|].
  intros i IN. destruct (CH i IN) as [L N]. rewrite (changes_at cfg ys _ i L). eexists. eexists. split; [reflexivity|]. now rewrite <- !hrun_app.
Qed.
Theorem unchanged cfg w now stamps xs a : h_returned (hrun cfg (hstart w now stamps) xs) = true -> ~ by_others a -> (forall j f, a <> HLand j f) ->
  b_world (t_b (h_t (hrun cfg (hstart w now stamps) (xs ++ [a])))) = b_world (t_b (h_t (hrun cfg (hstart w now stamps) xs))).
Proof. intros R NB NL. rewrite hrun_app. apply quiet_world; auto. apply quiet_run, quiet_start. Qed.
Theorem unchanged_all cfg w now stamps xs ys : h_returned (hrun cfg (hstart w now stamps) xs) = true -> h_flight (hrun cfg (hstart w now stamps) xs) = [] ->
  Forall (fun a => ~ by_others a) ys ->
  b_world (t_b (h_t (hrun cfg (hstart w now stamps) (xs ++ ys)))) = b_world (t_b (h_t (hrun cfg (hstart w now stamps) xs))).
Proof.
  rewrite hrun_app. generalize (quiet_run cfg xs _ (quiet_start w now stamps)). generalize (hrun cfg (hstart w now stamps) xs). induction ys as [|y ys IH]; intros s Q R FL F; [reflexivity|].
  inversion F as [|? ? NB F']; subst. change (hrun cfg s (y :: ys)) with (hrun cfg (hstep cfg s y) ys).
  destruct (proj2 Q R) as (D & _). destruct (flight_step cfg s y D) as [IC HL].
  rewrite IH; auto using quiet_step, returned_stays.
  - destruct y as [a| | |c f| |f| | | |j f| | |]; try (apply quiet_world; auto; discriminate). destruct (HL j f eq_refl) as [_ ->]; auto. rewrite FL. auto.
  - rewrite FL in IC. destruct (h_flight (hstep cfg s y)) as [|z l]; auto. exfalso. exact (IC z (or_introl eq_refl)).
Qed.
Lemma gone_step cfg s a : quiet s -> h_returned s = true -> of_goroutines a ->
  t_b (h_t (hstep cfg s a)) = t_b (h_t s) /\ t_timers (h_t (hstep cfg s a)) = t_timers (h_t s) /\ h_run (hstep cfg s a) = h_run s /\ h_flight (hstep cfg s a) = h_flight s.
Proof.
  intros (Q1 & Q2) R OG. destruct (Q2 R) as (D & DE & OV & PH). specialize (Q1 OV).
  destruct a as [a| | |c f| |f| | | |j f| | |]; try contradiction; cbn [hstep].
  - destruct a; try contradiction; cbn [elsewhere tstep]; rewrite PH; auto.
  - unfold loop. change (l_b (as_loop s)) with (t_b (h_t s)). rewrite DE. auto.
  - rewrite Q1, OV. auto.
  - rewrite Q1. auto.
  - rewrite Q1. auto.
  - rewrite Q1, D. auto.
Qed.
Theorem gone cfg w now stamps xs a : h_returned (hrun cfg (hstart w now stamps) xs) = true -> of_goroutines a ->
  let s := hrun cfg (hstart w now stamps) xs in let s' := hrun cfg (hstart w now stamps) (xs ++ [a]) in
  t_b (h_t s') = t_b (h_t s) /\ t_timers (h_t s') = t_timers (h_t s) /\ h_run s' = h_run s /\ h_flight s' = h_flight s.
Proof. intros R OG. cbv zeta. rewrite hrun_app. apply gone_step; auto. apply quiet_run, quiet_start. Qed.
