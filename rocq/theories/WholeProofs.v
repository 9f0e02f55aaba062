(** Proofs about the whole system: each server's poller and each stream is in a state of
    Watch.v and Stream.v, and the log tells what clients were told. *)
From Coq Require Import List ZArith Bool Lia Sorting.Sorted.
From Verif Require Import Bytes Spec Sql System Prog Backend Limited Api Pool Ledger Batch BatchKine Node Watch Stream Resume Whole.
From Verif Require Import SpecLemmas SqlLemmas Sim ProgLemmas Safety LedgerLemmas LedgerMore NodeProofs WatchLemmas WatchProofs WatchResults StreamProofs StreamCancel ReflectorProofs ResumeProofs.
From Verif Require Import Watch Stream Whole.
Import ListNotations.
Open Scope Z_scope.

(** ---- reachable states, with or without the provisos ---- *)
Definition rb (c : bool) (b : bstate) : Prop := if c then calm_reach b else breach b.
Definition rs (c : bool) (s : sstate) : Prop := if c then scalm s else sreach s.
Lemma rb_breach c b : rb c b -> breach b.
Proof. destruct c; cbn; auto using calm_breach. Qed.
Lemma rs_sreach c s : rs c s -> sreach s.
Proof. destruct c; cbn; auto using scalm_sreach. Qed.
Lemma rb_step c b a : rb c b -> possible b a -> (c = true -> calm b a) -> rb c (bstep b a).
Proof. destruct c; cbn; intros H P C; [apply calm_step|apply breach_step]; auto. Qed.
Lemma rs_step c s a : rs c s -> back_ok s a possible -> (c = true -> back_ok s a calm) -> rs c (sstep s a).
Proof. destruct c; cbn; intros H P C; [apply scalm_step|apply sreach_step]; auto. Qed.
Lemma rs_open c b : rb c b -> rs c (sopen b).
Proof. destruct c; cbn; intros H; [apply scalm_open|apply sreach_open]; auto. Qed.
Lemma rb_start c w : wreach w -> rb c (bstart w).
Proof. destruct c; cbn; intros H; constructor; auto. Qed.

Lemma steady_is_calm b a : breach b -> margin_inv (snd (b_world b)) -> steady b a -> calm b a.
Proof.
  intros H M S. pose proof (breach_Binv _ H) as BI. pose proof (B_poll _ _ BI) as BP. unfold margin_inv, superseded_count in M.
  destruct a; cbn [calm steady] in *; auto.
  - left. lia.
  - destruct S as [S1 S2]. split; auto. intros g r p G P. specialize (S2 g r p G P).
    assert (0 < r_start r).
    { apply pending_of_in in P. destruct P as [P _]. apply (G_p _ _ _ _ (group_inv _ _ _ _ BI G) _ P). }
    left. lia.
Qed.

(** ---- the database moves on under them ---- *)
Lemma rb_world c w w' b : wsteps w w' -> rb c (seen w b) -> rb c (seen w' b).
Proof.
  intros S. induction S as [w|w w' a S IH AL]; auto. intros H. specialize (IH H).
  change (seen (wapply w' a) b) with (bstep (seen w' b) (AEnv a)). apply rb_step; auto. intros; exact Logic.I.
Qed.
Lemma rs_world c w w' b st : wsteps w w' -> rs c (with_b st (seen w b)) -> rs c (with_b st (seen w' b)).
Proof.
  intros S. induction S as [w|w w' a S IH AL]; auto. intros H. specialize (IH H).
  change (with_b st (seen (wapply w' a) b)) with (sstep (with_b st (seen w' b)) (SBack (AEnv a))). apply rs_step; auto. intros; exact Logic.I.
Qed.
Lemma rs_foreign c st b a : rs c (with_b st b) -> foreign (s_i st) a = true -> possible b a -> (c = true -> calm b a) ->
  rs c (with_b st (bstep b a)).
Proof.
  intros H F P C. replace (with_b st (bstep b a)) with (sstep (with_b st b) (SBack a)).
  - apply rs_step; auto.
  - cbn [sstep]. change (s_i (with_b st b)) with (s_i st). rewrite F. reflexivity.
Qed.
Lemma foreign_regs st b a g : group_of (with_b st b) = Some g -> foreign (s_i st) a = true -> regs_of (with_b st (bstep b a)) = regs_of (with_b st b).
Proof.
  intros G F. destruct (foreign_group b a (s_i st) g F G) as (g' & N & _ & E & _). unfold regs_of, group_of in *. cbn [with_b s_b s_i] in *. now rewrite N, G.
Qed.

(** ---- what a stream does to its server's backend ---- *)
Lemma sstep_own s a : (forall x, a <> SBack x) -> s_i (sstep s a) = s_i s /\
  (s_b (sstep s a) = s_b s \/ exists act, s_b (sstep s a) = bstep (s_b s) act /\ possible (s_b s) act /\ internal act = true /\
     (forall i, i <> s_i s -> foreign i act = true) /\ (forall ok : bstate -> action -> Prop, (forall b act', (forall i id f, act' <> AQuery i id f) -> (forall f, act' <> AFetch f) -> ok b act') -> back_ok s a ok -> ok (s_b s) act)).
Proof.
  intros NB. unfold sstep. destruct a as [a| | | | |wid lo hi start|f|f| |id| | | ].
  - exfalso. eapply NB; eauto.
  - destruct (s_done s); [auto|]. unfold s_recv. destruct (s_hold s); [auto|]. destruct (group_of s) as [g|]; [|auto].
    destruct (nth_error _ _); [|destruct (g_open g); auto]. split; [reflexivity|]. right. exists (ATake (s_i s)). split; [reflexivity|]. split; [exact Logic.I|]. split; [reflexivity|].
    split; [cbn; intros i N; apply negb_true_iff, Nat.eqb_neq; auto|]. intros ok K _. apply K; discriminate.
  - unfold s_send. destruct (s_hold s); [|auto]. destruct (s_creating s); auto.
  - unfold s_tick. destruct (s_creating s); auto.
  - destruct (s_ended s); [auto|]. unfold s_progress_req. destruct (s_creating s); [auto|]. destruct (s_closing s); auto.
  - destruct (s_ended s); [auto|]. unfold s_create. destruct (s_creating s); [auto|]. destruct (s_closing s); [auto|]. destruct (group_of s) as [g|]; [|auto].
    destruct (negb _); [auto|]. match goal with |- s_i (watch_step ?a ?b ?c) = _ /\ _ => destruct (watch_step_b a b c) as [E F]; rewrite E, F end.
    split; [reflexivity|]. right. eexists. split; [reflexivity|]. split; [simpl; apply range_end_nonempty|]. split; [reflexivity|].
    split; [cbn; intros i N; apply negb_true_iff, Nat.eqb_neq; auto|]. intros ok K _. apply K; discriminate.
  - destruct (s_creating s) as [id|] eqn:CR; [|auto]. destruct (watch_step_b s id (ACheck (s_i s) id f)) as [E F]. rewrite E, F.
    split; [reflexivity|]. right. eexists. split; [reflexivity|]. split; [exact Logic.I|]. split; [reflexivity|].
    split; [cbn; intros i N; apply negb_true_iff, Nat.eqb_neq; auto|]. intros ok K _. apply K; discriminate.
  - unfold back_ok. destruct (s_creating s) as [id|] eqn:CR; [|auto]. destruct (watch_step_b s id (AQuery (s_i s) id f)) as [E F]. rewrite E, F.
    split; [reflexivity|]. right. eexists. split; [reflexivity|]. split; [exact Logic.I|]. split; [reflexivity|].
    split; [cbn; intros i N; apply negb_true_iff, Nat.eqb_neq; auto|]. auto.
  - destruct (s_creating s) as [id|] eqn:CR; [|auto]. destruct (watch_step_b s id (AFinish (s_i s) id)) as [E F]. rewrite E, F.
    split; [reflexivity|]. right. eexists. split; [reflexivity|]. split; [exact Logic.I|]. split; [reflexivity|].
    split; [cbn; intros i N; apply negb_true_iff, Nat.eqb_neq; auto|]. intros ok K _. apply K; discriminate.
  - destruct (s_ended s); [auto|]. unfold s_cancel. destruct (s_creating s); [auto|]. destruct (s_closing s); [auto|]. split; [reflexivity|]. right.
    exists (AUnwatch (s_i s) id). split; [reflexivity|]. split; [exact Logic.I|]. split; [reflexivity|].
    split; [cbn; intros i N; apply negb_true_iff, Nat.eqb_neq; auto|]. intros ok K _. apply K; discriminate.
  - unfold s_forget. destruct (s_closing s); auto.
  - unfold s_eof. destruct (s_creating s); auto. destruct (s_closing s); auto.
  - destruct (s_ended s); [|auto]. split; [reflexivity|]. right. exists (AStopGroup (s_i s)). split; [reflexivity|]. split; [exact Logic.I|]. split; [reflexivity|].
    split; [cbn; intros i N; apply negb_true_iff, Nat.eqb_neq; auto|]. intros ok K _. apply K; discriminate.
Qed.
Lemma calm_default b act : (forall i id f, act <> AQuery i id f) -> (forall f, act <> AFetch f) -> calm b act.
Proof. destruct act; cbn; auto; intros H1 H2; [destruct (H2 f)|destruct (H1 i id f)]; auto. Qed.
Lemma steady_back_calm s a : (forall x, a <> SBack x) -> breach (s_b s) -> margin_inv (snd (b_world (s_b s))) -> back_ok s a steady -> back_ok s a calm.
Proof.
  intros NB H M. destruct a; cbn [back_ok]; auto; [exfalso; eapply NB; eauto|].
  destruct (s_creating s); auto. apply steady_is_calm; auto.
Qed.
Lemma not_back_possible s a : (forall x, a <> SBack x) -> back_ok s a possible.
Proof. intros NB. destruct a; cbn [back_ok]; auto; [exfalso; eapply NB; eauto|]. destruct (s_creating s); exact Logic.I. Qed.

(** watches are never forgotten *)
Lemma bstep_regs b a i g : nth_error (b_groups b) i = Some g -> exists g' l, nth_error (b_groups (bstep b a)) i = Some g' /\ g_regs g' = g_regs g ++ l.
Proof.
  intros N. 
  assert (SET : forall j f, (forall g, exists l, g_regs (f g) = g_regs g ++ l) -> exists g' l, nth_error (b_groups (set_group b j f)) i = Some g' /\ g_regs g' = g_regs g ++ l).
  { intros j f K. cbn [set_group b_groups]. rewrite update_nth_nth, N. destruct (Nat.eqb i j); cbn [option_map].
    - destruct (K g) as [l E]. exists (f g), l. auto.
    - exists g, []. now rewrite app_nil_r. }
  destruct a as [op|f| | |j|j lo hi start|j id f|j id f|j id|j id|j]; cbn [bstep].
  - exists g, []. now rewrite app_nil_r.
  - destruct (fetch_same f b) as (_ & _ & E). exists g, []. rewrite E, app_nil_r. auto.
  - unfold publish_all. destruct (b_batch b); [|exists g, []; now rewrite app_nil_r]. cbn [b_groups]. rewrite nth_error_map, N. cbn [option_map].
    exists (publish (last_rev l (b_poll b)) l g), []. rewrite app_nil_r. split; auto. apply publish_keeps.
  - cbn [new_group b_groups]. exists g, []. rewrite app_nil_r. split; auto. rewrite nth_error_app1; auto. apply nth_error_Some. congruence.
  - apply SET. intros x. exists []. now rewrite app_nil_r.
  - apply SET. intros x. unfold watch_begin. destruct (0 <? start); cbn [g_regs]; eauto.
  - apply SET. intros x. exists []. rewrite app_nil_r. apply check_keeps.
  - apply SET. intros x. exists []. rewrite app_nil_r. apply query_keeps.
  - apply SET. intros x. exists []. rewrite app_nil_r. apply finish_keeps.
  - apply SET. intros x. exists []. now rewrite app_nil_r.
  - apply SET. intros x. exists []. rewrite app_nil_r. unfold take. destruct (_ <? _)%nat; reflexivity.
Qed.
Lemma bstep_regs_same b a i g : (forall j lo hi st, a <> AWatch j lo hi st) -> nth_error (b_groups b) i = Some g -> exists g', nth_error (b_groups (bstep b a)) i = Some g' /\ g_regs g' = g_regs g.
Proof.
  intros NW N.
  assert (SET : forall j f, (forall g, g_regs (f g) = g_regs g) -> exists g', nth_error (b_groups (set_group b j f)) i = Some g' /\ g_regs g' = g_regs g).
  { intros j f K. cbn [set_group b_groups]. rewrite update_nth_nth, N. destruct (Nat.eqb i j); cbn [option_map]; eauto. }
  destruct a as [op|f| | |j|j lo hi start|j id f|j id f|j id|j id|j]; cbn [bstep]; try (exfalso; eapply NW; reflexivity).
  - eauto.
  - destruct (fetch_same f b) as (_ & _ & E). rewrite E. eauto.
  - unfold publish_all. destruct (b_batch b); [|eauto]. cbn [b_groups]. rewrite nth_error_map, N. cbn [option_map].
    exists (publish (last_rev l (b_poll b)) l g). split; auto. apply publish_keeps.
  - cbn [new_group b_groups]. exists g. split; auto. rewrite nth_error_app1; auto. apply nth_error_Some. congruence.
  - apply SET. reflexivity.
  - apply SET. intros x. apply check_keeps.
  - apply SET. intros x. apply query_keeps.
  - apply SET. intros x. apply finish_keeps.
  - apply SET. reflexivity.
  - apply SET. intros x. unfold take. destruct (_ <? _)%nat; reflexivity.
Qed.
Lemma regs_b s s' : s_i s' = s_i s -> s_b s' = s_b s -> regs_of s' = regs_of s.
Proof. unfold regs_of, group_of. now intros -> ->. Qed.
Lemma regs_same s s' act : s_i s' = s_i s -> s_b s' = bstep (s_b s) act -> (forall j lo hi st, act <> AWatch j lo hi st) -> group_of s <> None -> regs_of s' = regs_of s.
Proof.
  unfold regs_of, group_of. intros -> -> NW G. destruct (nth_error (b_groups (s_b s)) (s_i s)) as [g|] eqn:E; [|congruence].
  destruct (bstep_regs_same _ _ _ _ NW E) as (g' & -> & R). exact R.
Qed.
(** only a create request adds a watch, the one asked for *)
Lemma sstep_regs s a : (forall x, a <> SBack x) -> group_of s <> None ->
  match a with
  | SCreate _ lo hi start => regs_of (sstep s a) = regs_of s \/ exists r, regs_of (sstep s a) = regs_of s ++ [r] /\ r_lo r = lo /\ r_hi r = range_end lo hi /\ r_start r = start
  | _ => regs_of (sstep s a) = regs_of s
  end.
Proof.
  intros NB G. unfold sstep. destruct a as [a| | | | |wid lo hi start|f|f| |id| | | ].
  - exfalso. eapply NB; eauto.
  - destruct (s_done s); [auto|]. unfold s_recv. destruct (s_hold s); [auto|]. destruct (group_of s) as [g|] eqn:E; [|auto].
    destruct (nth_error _ _); [|destruct (g_open g); auto]. apply regs_same with (act := ATake (s_i s)); try reflexivity; [discriminate|congruence].
  - unfold s_send. destruct (s_hold s); [|auto]. destruct (s_creating s); auto.
  - unfold s_tick. destruct (s_creating s); auto.
  - destruct (s_ended s); [auto|]. unfold s_progress_req. destruct (s_creating s); [auto|]. destruct (s_closing s); auto.
  - destruct (s_ended s); [auto|]. unfold s_create. destruct (s_creating s); [auto|]. destruct (s_closing s); [auto|]. destruct (group_of s) as [g|] eqn:E; [|auto].
    destruct (negb _); [auto|]. right. match goal with |- exists r, regs_of (watch_step ?a ?b ?c) = _ /\ _ => destruct (watch_step_b a b c) as [F1 F2] end.
    unfold regs_of at 1. unfold group_of at 1. rewrite F1, F2. cbn [s_b s_i bstep set_group b_groups]. rewrite update_nth_nth, Nat.eqb_refl.
    unfold group_of in E. rewrite E. cbn [option_map]. unfold regs_of, group_of. rewrite E.
    exists (Reg (Z.of_nat (length (g_regs g)) + 1) lo (range_end lo hi) start (g_rev g)). split; [|auto]. unfold watch_begin. destruct (0 <? start); reflexivity.
  - destruct (s_creating s) as [id|]; [|auto]. destruct (watch_step_b s id (ACheck (s_i s) id f)) as [E F]. apply (regs_same s _ _ F E); [discriminate|exact G].
  - destruct (s_creating s) as [id|]; [|auto]. destruct (watch_step_b s id (AQuery (s_i s) id f)) as [E F]. apply (regs_same s _ _ F E); [discriminate|exact G].
  - destruct (s_creating s) as [id|]; [|auto]. destruct (watch_step_b s id (AFinish (s_i s) id)) as [E F]. apply (regs_same s _ _ F E); [discriminate|exact G].
  - destruct (s_ended s); [auto|]. unfold s_cancel. destruct (s_creating s); [auto|]. destruct (s_closing s); [auto|]. apply regs_same with (act := AUnwatch (s_i s) id); try reflexivity; [discriminate|exact G].
  - unfold s_forget. destruct (s_closing s); auto.
  - unfold s_eof. destruct (s_creating s); [auto|]. destruct (s_closing s); auto.
  - destruct (s_ended s); [|auto]. apply regs_same with (act := AStopGroup (s_i s)); try reflexivity; [discriminate|exact G].
Qed.
Lemma synced_self w s : b_world (s_b s) = w -> with_b s (seen w (s_b s)) = s.
Proof. intros <-. destruct s as [[] ? ? ? ? ? ? ? ? ?]. reflexivity. Qed.

(** ---- the log ---- *)
Definition watches (conn : nat) (l : list knote) : list (Z * bytes * bytes * Z) :=
  flat_map (fun x => match x with Watched c id lo hi start => if Nat.eqb c conn then [(id, lo, hi, start)] else [] | _ => [] end) l.
Definition params (r : reg) : Z * bytes * bytes * Z := (r_id r, r_lo r, r_hi r, r_start r).
Lemma in_watches conn l id lo hi start : In (Watched conn id lo hi start) l <-> In (id, lo, hi, start) (watches conn l).
Proof.
  unfold watches. rewrite in_flat_map. split.
  - intros H. eexists. split; [exact H|]. cbn. rewrite Nat.eqb_refl. now left.
  - intros (x & H & K). destruct x as [y|c i l0 h st|c m]; try destruct K. cbn in K. destruct (Nat.eqb_spec c conn); [|destruct K]. subst. destruct K as [[= -> -> -> ->]|[]]. exact H.
Qed.
Lemma said_app conn l1 l2 : said conn (l1 ++ l2) = said conn l1 ++ said conn l2.
Proof. apply flat_map_app. Qed.
Lemma watches_app conn l1 l2 : watches conn (l1 ++ l2) = watches conn l1 ++ watches conn l2.
Proof. apply flat_map_app. Qed.
Lemma dids_app l1 l2 : dids (l1 ++ l2) = dids l1 ++ dids l2.
Proof. apply flat_map_app. Qed.
Lemma did_said conn l : said conn (map Did l) = [].
Proof. induction l; cbn; auto. Qed.
Lemma did_watches conn l : watches conn (map Did l) = [].
Proof. induction l; cbn; auto. Qed.
Lemma did_dids l : dids (map Did l) = l.
Proof. induction l; cbn; f_equal; auto. Qed.
Lemma sayings_said conn o : said conn (map (Said conn) o) = o.
Proof. induction o; cbn; auto. rewrite Nat.eqb_refl. cbn. f_equal. auto. Qed.
Lemma sayings_other conn c o : c <> conn -> said conn (map (Said c) o) = [].
Proof. intros N. induction o; cbn; auto. destruct (Nat.eqb_spec c conn); [congruence|auto]. Qed.
Lemma sayings_watches conn c o : watches conn (map (Said c) o) = [].
Proof. induction o; cbn; auto. Qed.
Lemma sayings_dids c o : dids (map (Said c) o) = [].
Proof. induction o; cbn; auto. Qed.
Definition noted (conn : nat) (rs : list reg) : list knote := map (fun r => Watched conn (r_id r) (r_lo r) (r_hi r) (r_start r)) rs.
Lemma noted_said conn c l : said conn (noted c l) = [].
Proof. induction l; cbn; auto. Qed.
Lemma noted_dids c l : dids (noted c l) = [].
Proof. induction l; cbn; auto. Qed.
Lemma noted_watches conn l : watches conn (noted conn l) = map params l.
Proof. induction l; cbn; auto. rewrite Nat.eqb_refl. cbn. unfold params at 1. f_equal. auto. Qed.
Lemma noted_other conn c l : c <> conn -> watches conn (noted c l) = [].
Proof. intros N. induction l; cbn; auto. destruct (Nat.eqb_spec c conn); [congruence|auto]. Qed.

Lemma skipn_front {A} (l m : list A) : skipn (length l) (l ++ m) = m.
Proof. induction l; cbn; auto. Qed.
Lemma told_regs conn s a : (forall x, a <> SBack x) -> group_of s <> None -> exists l o, regs_of (sstep s a) = regs_of s ++ l /\ s_out (sstep s a) = s_out s ++ o /\
  told_by conn a s (sstep s a) = noted conn l ++ map (Said conn) o.
Proof.
  intros NB G. destruct (sstep_out s a) as (o & EO & _). pose proof (sstep_regs s a NB G) as ER. unfold told_by. rewrite EO, skipn_front.
  assert (NIL : regs_of (sstep s a) = regs_of s -> exists l o0, regs_of (sstep s a) = regs_of s ++ l /\ s_out s ++ o = s_out s ++ o0 /\
     match a with SCreate _ lo hi start => map (fun r => Watched conn (r_id r) lo (range_end lo hi) start) (skipn (length (regs_of s)) (regs_of (sstep s a))) | _ => [] end ++ map (Said conn) o = noted conn l ++ map (Said conn) o0).
  { intros E. exists [], o. rewrite E, skipn_all, app_nil_r. split; [reflexivity|]. split; [reflexivity|]. destruct a; reflexivity. }
  destruct a; try exact (NIL ER). destruct ER as [ER|(r & ER & E1 & E2 & E3)]; [exact (NIL ER)|].
  exists [r], o. split; [exact ER|]. split; [reflexivity|]. rewrite ER, skipn_front. cbn [map noted]. now rewrite E1, E2, E3.
Qed.

(** what a message tells, [A] being the log up to it *)
Definition fact (c : bool) (A : list knote) (conn : nat) (m : msg) : Prop :=
  match m with
  | MEvents _ id evs => forall ev, In ev evs ->
      let got := sent (said conn (A ++ [Said conn m])) id in
      exists lo hi start, In (Watched conn id lo hi start) A /\
        (forall lo' hi' start', In (Watched conn id lo' hi' start') A -> lo' = lo /\ hi' = hi /\ start' = start) /\
        in_range lo hi (kv_key (ev_kv ev)) /\
        truthful_event (commits (dids A)) (ev_rev ev) ev /\
        StronglySorted Z.lt (map ev_rev got) /\
        (c = true -> exists a, 0 <= a /\ (0 < start -> a < start) /\ reports (commits (dids A)) (in_range lo hi) a (last_seen a got) got)
  | _ => True
  end.

Lemma sorted_head (l1 l2 : list Z) x y : StronglySorted Z.lt (l1 ++ l2) -> In x l1 -> In y (l1 ++ l2) -> y <= x -> In y l1.
Proof.
  intros S. revert x. induction l1 as [|a l1 IH]; intros x; cbn [app]; [contradiction|].
  cbn [app] in S. apply StronglySorted_inv in S. destruct S as [S F]. rewrite Forall_forall in F. intros X Y L.
  destruct Y as [->|Y]; [now left|]. right. destruct X as [->|X]; [|eapply IH; eauto]. specialize (F y Y). lia.
Qed.
Lemma sorted_front (l1 l2 : list Z) : StronglySorted Z.lt (l1 ++ l2) -> StronglySorted Z.lt l1.
Proof.
  induction l1 as [|a l1 IH]; cbn [app]; [constructor|]. intros S. apply StronglySorted_inv in S. destruct S as [S F].
  constructor; auto. rewrite Forall_forall in *. intros x I. apply F. apply in_app_iff. auto.
Qed.
Lemma last_in old (l : list event) : l <> [] -> In (last_seen old l) (map ev_rev l).
Proof.
  intros N. destruct l as [|e l _] using rev_ind; [congruence|]. rewrite last_seen_app, map_app. apply in_app_iff. right. now left.
Qed.
Lemma sorted_last old (l : list event) x : StronglySorted Z.lt (map ev_rev l) -> In x (map ev_rev l) -> x <= last_seen old l.
Proof.
  destruct l as [|e l _] using rev_ind; [contradiction|]. rewrite last_seen_app, map_app. intros S I. cbn [map] in *.
  apply sorted_snoc in S. rewrite Forall_forall in S. apply in_app_iff in I. destruct I as [I|[<-|[]]]; [specialize (S x I)|]; lia.
Qed.
Lemma reports_front h sel a b l1 l2 : l1 <> [] -> reports h sel a b (l1 ++ l2) -> reports h sel a (last_seen a l1) l1.
Proof.
  intros NE (SO & EX & TR). rewrite map_app in SO, EX. pose proof (sorted_front _ _ SO) as S1. pose proof (last_in a l1 NE) as LI.
  assert (LB : a < last_seen a l1 <= b) by (apply EX, in_app_iff; auto).
  split; [exact S1|]. split; [|apply Forall_app in TR; tauto]. intros r. split.
  - intros I. pose proof (sorted_last a l1 r S1 I). destruct (proj1 (EX r) (proj2 (in_app_iff _ _ _) (or_introl I))) as ([X1 X2] & X3 & X4). repeat split; auto; lia.
  - intros ([X1 X2] & X3 & X4). apply (sorted_head _ _ (last_seen a l1) r SO); auto. apply EX. repeat split; auto; lia.
Qed.
Lemma sent_one conn rev id evs : sent (said conn [Said conn (MEvents rev id evs)]) id = evs.
Proof. cbn. rewrite Nat.eqb_refl. cbn. rewrite Z.eqb_refl. apply app_nil_r. Qed.

Lemma fact_new c log conn st out o1 m o2 l : rs c st -> said conn log = out -> s_out st = out ++ o1 ++ m :: o2 ->
  watches conn (log ++ noted conn l) = map params (regs_of st) -> history_of (snd (b_world (s_b st))) = commits (dids log) ->
  fact c ((log ++ noted conn l) ++ map (Said conn) o1) conn m.
Proof.
  intros H EO ES EW EH. destruct m as [rev id evs| | | |]; cbn [fact]; auto. intros ev IE.
  set (A := (log ++ noted conn l) ++ map (Said conn) o1) in *. cbv zeta.
  assert (DA : commits (dids A) = history_of (snd (b_world (s_b st)))).
  { unfold A. rewrite !dids_app, sayings_dids, noted_dids, !app_nil_r. now rewrite EH. }
  assert (WA : watches conn A = map params (regs_of st)).
  { unfold A. rewrite watches_app, sayings_watches, app_nil_r. exact EW. }
  assert (SA : said conn A = out ++ o1).
  { unfold A. rewrite !said_app, noted_said, sayings_said, app_nil_r, EO. reflexivity. }
  set (got := sent (said conn (A ++ [Said conn (MEvents rev id evs)])) id).
  assert (GOT : got = sent (out ++ o1) id ++ evs).
  { unfold got. rewrite said_app, sent_app, SA, sent_one. reflexivity. }
  assert (ALL : sent (s_out st) id = got ++ sent o2 id).
  { rewrite ES, GOT, !sent_app. change (MEvents rev id evs :: o2) with ([MEvents rev id evs] ++ o2). rewrite sent_app.
    replace (sent [MEvents rev id evs] id) with evs; [now rewrite !app_assoc|]. cbn. rewrite Z.eqb_refl. now rewrite app_nil_r. }
  destruct (sreach_SI st (rs_sreach _ _ H)) as [g J]. pose proof (I_group _ _ J) as G.
  assert (touched (s_out st) id) as T. { exists rev, evs. rewrite ES. apply in_app_iff. right. apply in_app_iff. right. now left. }
  destruct (I_touched _ _ J _ T) as ((r & IR & RI) & _).
  assert (EG : regs_of st = g_regs g) by (unfold regs_of; now rewrite G).
  pose proof (I_breach _ _ J) as BR. pose proof (breach_Binv _ BR) as BI. pose proof (group_inv _ _ _ _ BI G) as GI.
  assert (exists k, sent (s_out st) id = delivered (firstn k (g_updates g)) id) as [k EK].
  { pose proof (I_hold _ _ J) as K. destruct (s_hold st); [destruct K as (t & u & _ & _ & _ & _ & K)|destruct K as [K _]]; eauto. }
  destruct (delivered_order (s_b st) (s_i st) g r k BR G IR) as [SO DO]. rewrite RI, <- EK, ALL in SO, DO.
  assert (IG : In ev got) by (rewrite GOT; apply in_app_iff; auto).
  destruct (DO ev (proj2 (in_app_iff _ _ _) (or_introl IG))) as (D1 & D2 & D3).
  exists (r_lo r), (r_hi r), (r_start r). split; [|split; [|split; [|split; [|split]]]].
  - apply in_watches. rewrite WA, EG. apply in_map_iff. exists r. unfold params. rewrite RI. auto.
  - intros lo' hi' start' I'. apply in_watches in I'. rewrite WA, EG in I'. apply in_map_iff in I'. destruct I' as (r' & [= E1 E2 E3 E4] & I').
    assert (r' = r) as -> by (eapply reg_inj; eauto; congruence). auto.
  - exact D2.
  - rewrite DA. exact D3.
  - rewrite map_app in SO. now apply sorted_front in SO.
  - intros ->. exists (begins r). destruct (captured_nonneg st g r H G IR) as [CN _]. pose proof (begins_nonneg r ltac:(lia)) as BN.
    split; [lia|]. split; [intros P; unfold begins; destruct (Z.ltb_spec 0 (r_start r)); lia|]. rewrite DA.
    destruct (stream_prefix st g r H G IR) as (b & _ & RP). rewrite RI, ALL in RP. eapply reports_front; [|exact RP].
    intros E. rewrite E in IG. destruct IG.
Qed.

(** ---- the invariant ---- *)
Definition conn_at (sv : list kserver) (j i : nat) : option nat :=
  match nth_error sv j with Some v => option_map fst (nth_error (k_streams v) i) | None => None end.
Definition stream_ok (c : bool) (w : world) (log : list knote) (v : kserver) (p : nat * sstate) : Prop :=
  let st := synced w v (snd p) in
  rs c st /\ said (fst p) log = s_out st /\ watches (fst p) log = map params (regs_of st).
Definition server_ok (c : bool) (w : world) (log : list knote) (v : kserver) : Prop :=
  rb c (seen w (k_back v)) /\ NoDup (map (fun p => s_i (snd p)) (k_streams v)) /\
  forall i p, nth_error (k_streams v) i = Some p -> stream_ok c w log v p.

Record KI (cfg : driver_cfg) (okf : fault -> Prop) (c : bool) (s : kstate) : Prop := {
  K_node : nreach cfg okf (k_node s);
  K_dids : dids (k_log s) = n_log (k_node s);
  K_serv : forall j v, nth_error (k_servers s) j = Some v -> server_ok c (n_world (k_node s)) (k_log s) v;
  K_uniq : forall j i j' i' x, conn_at (k_servers s) j i = Some x -> conn_at (k_servers s) j' i' = Some x -> j = j' /\ i = i';
  K_conn : forall j i x, conn_at (k_servers s) j i = Some x -> (x < k_next s)%nat;
  K_fresh : forall x, In x (k_log s) -> match x with Did _ => True | Watched c _ _ _ _ | Said c _ => (c < k_next s)%nat end;
  K_said : forall A conn m B, k_log s = A ++ Said conn m :: B -> fact c A conn m }.

Lemma split_at {X} (es : list X) : forall l A y B, l ++ es = A ++ y :: B ->
  (exists B', l = A ++ y :: B') \/ (exists e1 e2, es = e1 ++ y :: e2 /\ A = l ++ e1).
Proof.
  induction l as [|x l IH]; intros A y B E; cbn [app] in *.
  - right. exists A, B. auto.
  - destruct A as [|a A]; cbn [app] in E; injection E as -> E.
    + left. exists l. reflexivity.
    + destruct (IH _ _ _ E) as [(B' & ->)|(e1 & e2 & -> & ->)]; [left; exists B'; reflexivity|right; exists e1, e2; split; reflexivity].
Qed.

Lemma lstep_world cfg okf s s' : lreach cfg okf s -> lstep cfg okf s s' -> wsteps (l_world s) (l_world s') /\ exists l, l_log s' = l_log s ++ l.
Proof.
  intros H ST. pose proof (lreach_cinv _ _ _ H) as X. pose proof (V_safe _ _ _ _ (X_base _ _ X)) as SF.
  destruct ST as [w ps log n q Q|w ps1 i c k ps2 log n f F|w ps1 i o ps2 log n|w ps1 x ps2 log n]; cbn [l_world l_log l_procs] in *; (split; [|eauto]); try constructor.
  - apply sem_wsteps. rewrite Forall_forall in SF. specialize (SF (i, Call c k) ltac:(apply in_app_iff; right; left; reflexivity)). cbn [snd wp] in SF.
    destruct (SF w (wsteps_refl w)) as [C _]. exact C.
  - exists []. now rewrite app_nil_r.
Qed.
Lemma wsteps_trans' w1 w2 w3 : wsteps w1 w2 -> wsteps w2 w3 -> wsteps w1 w3.
Proof. intros A B. induction B; auto. econstructor; eauto. Qed.
Lemma lfrom_world cfg okf s s' : lreach cfg okf s -> lfrom cfg okf s s' -> wsteps (l_world s) (l_world s') /\ exists l, l_log s' = l_log s ++ l.
Proof.
  intros H F. induction F as [|s1 s2 F [IH [l E]] ST]; [split; [constructor|exists []; now rewrite app_nil_r]|].
  destruct (lstep_world cfg okf s1 s2 (lfrom_lreach _ _ _ _ H F) ST) as [W [l' E']]. split; [eapply wsteps_trans'; eauto|].
  exists (l ++ l'). rewrite E', E. now rewrite app_assoc.
Qed.
Lemma node_world cfg (okf : fault -> Prop) s x s' : tolerant okf -> nreach cfg okf s -> naction_ok okf x -> nstep cfg s x = Some s' ->
  wsteps (n_world s) (n_world s') /\ exists l, n_log s' = n_log s ++ l.
Proof.
  intros T H OK ST. apply (lfrom_world cfg okf (nview s) (nview s')); [now apply node_view|]. eapply node_step; eauto.
Qed.
Lemma node_facts cfg (okf : fault -> Prop) s : tolerant okf -> nreach cfg okf s ->
  wreach (n_world s) /\ margin_inv (snd (n_world s)) /\ commits (n_log s) = history_of (snd (n_world s)).
Proof.
  intros T H. pose proof (X_base _ _ (lreach_cinv _ _ _ (node_view _ _ _ T H))) as V.
  exact (conj (V_reach _ _ _ _ V) (conj (V_margin _ _ _ _ V) (V_hist _ _ _ _ V))).
Qed.

(** the database moves on, requests are logged *)
Lemma server_world c w w' log l v : wsteps w w' -> server_ok c w log v -> server_ok c w' (log ++ map Did l) v.
Proof.
  intros S (B & ND & ST). split; [eapply rb_world; eauto|]. split; [exact ND|]. intros i p N. destruct (ST i p N) as (R & SA & WA).
  split; [eapply rs_world; eauto|]. rewrite said_app, watches_app, did_said, did_watches, !app_nil_r. split; [exact SA|exact WA].
Qed.
(** another connection is told something *)
Lemma server_other c w log conn l o v : server_ok c w log v -> (forall i p, nth_error (k_streams v) i = Some p -> fst p <> conn) ->
  server_ok c w (log ++ noted conn l ++ map (Said conn) o) v.
Proof.
  intros (B & ND & ST) N. split; [exact B|]. split; [exact ND|]. intros i p NE. destruct (ST i p NE) as (R & SA & WA). split; [exact R|].
  specialize (N i p NE).
  rewrite !said_app, !watches_app, noted_said, noted_other, sayings_other, sayings_watches, !app_nil_r by auto. split; [exact SA|exact WA].
Qed.
(** the backend makes a step that is foreign to a stream *)
Lemma stream_foreign c w log b streams streams' act p : rb c (seen w b) -> stream_ok c w log (KServer b streams) p -> foreign (s_i (snd p)) act = true ->
  internal act = true -> possible (seen w b) act -> (c = true -> calm (seen w b) act) ->
  stream_ok c w log (KServer (bstep (seen w b) act) streams') p.
Proof.
  intros HB (R & SA & WA) F IN P C. unfold stream_ok, synced in *. cbn [k_back] in *.
  assert (EW : b_world (bstep (seen w b) act) = w) by (rewrite bstep_world_other; [reflexivity|]; intros op ->; discriminate).
  assert (ES : seen w (bstep (seen w b) act) = bstep (seen w b) act) by (unfold seen at 1; rewrite <- EW at 1; now destruct (bstep (seen w b) act)).
  rewrite ES. destruct (sreach_SI _ (rs_sreach _ _ R)) as [g J]. split; [|split].
  - apply rs_foreign; auto.
  - exact SA.
  - rewrite (foreign_regs _ _ _ g (I_group _ _ J) F). exact WA.
Qed.
Lemma seen_self w b act : internal act = true -> seen w (bstep (seen w b) act) = bstep (seen w b) act.
Proof.
  intros IN. assert (EW : b_world (bstep (seen w b) act) = w) by (rewrite bstep_world_other; [reflexivity|]; intros op ->; discriminate).
  unfold seen at 1. rewrite <- EW at 1. now destruct (bstep (seen w b) act).
Qed.

Lemma conn_put_same sv j v v' : nth_error sv j = Some v -> map fst (k_streams v') = map fst (k_streams v) ->
  forall j' i', conn_at (put j v' sv) j' i' = conn_at sv j' i'.
Proof.
  intros N E j' i'. unfold conn_at. rewrite put_nth. destruct (Nat.eqb_spec j j') as [<-|D]; [|reflexivity]. rewrite N. cbn [option_map].
  rewrite <- !nth_error_map. now rewrite E.
Qed.
Lemma map_put {A B} (f : A -> B) l i x y : nth_error l i = Some y -> f x = f y -> map f (put i x l) = map f l.
Proof.
  revert i. induction l as [|a l IH]; intros [|i]; cbn; try discriminate.
  - intros [= ->] E. now rewrite E.
  - intros N E. f_equal. now apply IH.
Qed.
Lemma facts_did c log l : (forall A conn m B, log = A ++ Said conn m :: B -> fact c A conn m) ->
  forall A conn m B, log ++ map Did l = A ++ Said conn m :: B -> fact c A conn m.
Proof.
  intros K A conn m B E. apply app_split in E; [destruct E as (B' & _ & E); eauto|]. intros I. apply in_map_iff in I. destruct I as (x & [=] & _).
Qed.
Lemma in_told conn l o x : In x (noted conn l ++ map (Said conn) o) -> match x with Did _ => False | Watched c _ _ _ _ | Said c _ => c = conn end.
Proof.
  intros I. apply in_app_iff in I. destruct I as [I|I]; apply in_map_iff in I; destruct I as (y & <- & _); reflexivity.
Qed.

Section Step.
Variables (cfg : driver_cfg) (okf : fault -> Prop) (c : bool).
Hypothesis TO : tolerant okf.

Lemma KI_init : KI cfg okf c kinit.
Proof.
  constructor; cbn; try (intros; destruct j; discriminate); auto; try contradiction; [constructor|].
  intros A conn m B E. destruct A; discriminate.
Qed.

Lemma KI_node nd sv log n x nd' : KI cfg okf c (KState nd sv log n) -> naction_ok okf x -> nstep cfg nd x = Some nd' ->
  KI cfg okf c (KState nd' sv (log ++ map Did (skipn (length (n_log nd)) (n_log nd'))) n).
Proof.
  intros [K1 K2 K3 K4 K5 K6 K7] OK ST. cbn [k_node k_servers k_log k_next] in *.
  destruct (node_world cfg okf nd x nd' TO K1 OK ST) as [W [l E]]. rewrite E, skipn_front.
  constructor; cbn [k_node k_servers k_log k_next]; auto.
  - econstructor; eauto.
  - rewrite dids_app, did_dids, K2. auto.
  - intros j v N. eapply server_world; eauto.
  - intros y I. apply in_app_iff in I. destruct I as [I|I]; [exact (K6 y I)|]. apply in_map_iff in I. destruct I as (z & <- & _). exact Logic.I.
  - now apply facts_did.
Qed.

(** a new server, or one that starts again *)
Lemma fresh_ok w log : wreach w -> server_ok c w log (KServer (bstart w) []).
Proof. intros W. split; [now apply rb_start|]. split; [constructor|]. intros [|i] p N; discriminate. Qed.
Lemma KI_boot nd sv log n nd' : KI cfg okf c (KState nd sv log n) -> nstep cfg nd NBoot = Some nd' ->
  KI cfg okf c (KState nd' (sv ++ [KServer (bstart (n_world nd)) []]) log n).
Proof.
  intros J ST. pose proof (KI_node _ _ _ _ NBoot nd' J Logic.I ST) as [K1 K2 K3 K4 K5 K6 K7]. cbn [k_node k_servers k_log k_next] in *.
  assert (EN : n_log nd' = n_log nd /\ n_world nd' = n_world nd) by (destruct nd; cbn in ST; injection ST as <-; auto). destruct EN as [EL EW].
  rewrite EL, skipn_all, app_nil_r in *. destruct (node_facts _ _ _ TO K1) as [W _]. rewrite EW in *.
  assert (SUB : forall j i x, conn_at (sv ++ [KServer (bstart (n_world nd)) []]) j i = Some x -> conn_at sv j i = Some x).
  { intros j i x. unfold conn_at. destruct (Nat.ltb_spec j (length sv)) as [L|L].
    - rewrite nth_error_app1 by auto. auto.
    - rewrite nth_error_app2 by auto. destruct (j - length sv)%nat as [|[|k]]; cbn; try discriminate. destruct i; discriminate. }
  constructor; cbn [k_node k_servers k_log k_next]; auto; try congruence; eauto.
  - intros j v N. destruct (Nat.ltb_spec j (length sv)) as [L|L].
    + rewrite nth_error_app1 in N by auto. rewrite EW. eauto.
    + rewrite nth_error_app2 in N by auto. rewrite EW. destruct (j - length sv)%nat as [|[|k]]; cbn in N; try discriminate. injection N as <-. now apply fresh_ok.
Qed.
Lemma KI_crash nd sv log n j nd' : KI cfg okf c (KState nd sv log n) -> nstep cfg nd (NCrash j) = Some nd' ->
  KI cfg okf c (KState nd' (put j (KServer (bstart (n_world nd)) []) sv) log n).
Proof.
  intros J ST. pose proof (KI_node _ _ _ _ (NCrash j) nd' J Logic.I ST) as [K1 K2 K3 K4 K5 K6 K7]. cbn [k_node k_servers k_log k_next] in *.
  assert (EN : n_log nd' = n_log nd /\ n_world nd' = n_world nd) by (destruct nd; cbn in ST; injection ST as <-; auto). destruct EN as [EL EW].
  rewrite EL, skipn_all, app_nil_r in *. destruct (node_facts _ _ _ TO K1) as [W _]. rewrite EW in *.
  assert (SUB : forall j' i x, conn_at (put j (KServer (bstart (n_world nd)) []) sv) j' i = Some x -> conn_at sv j' i = Some x).
  { intros j' i x. unfold conn_at. rewrite put_nth. destruct (Nat.eqb_spec j j') as [<-|D]; auto. destruct (nth_error sv j); cbn; [|discriminate]. destruct i; discriminate. }
  constructor; cbn [k_node k_servers k_log k_next]; auto; try congruence; eauto.
  - intros j' v N. rewrite EW. rewrite put_nth in N. destruct (Nat.eqb_spec j j') as [<-|D]; eauto.
    destruct (nth_error sv j); cbn in N; [|discriminate]. injection N as <-. now apply fresh_ok.
Qed.

Lemma KI_back nd sv log n j v a : KI cfg okf c (KState nd sv log n) -> nth_error sv j = Some v ->
  internal a = true -> forallb (fun p : nat * sstate => foreign (s_i (snd p)) a) (k_streams v) = true ->
  possible (seen (n_world nd) (k_back v)) a -> (c = true -> steady (seen (n_world nd) (k_back v)) a) ->
  KI cfg okf c (KState nd (put j (KServer (bstep (seen (n_world nd) (k_back v)) a) (k_streams v)) sv) log n).
Proof.
  intros [K1 K2 K3 K4 K5 K6 K7] N IN FO P SD. cbn [k_node k_servers k_log k_next] in *.
  destruct (node_facts _ _ _ TO K1) as (_ & MG & _). destruct (K3 j v N) as (B & ND & ST).
  assert (C : c = true -> calm (seen (n_world nd) (k_back v)) a). { intros E. apply steady_is_calm; auto. eapply rb_breach; eauto. }
  assert (CS : forall j' i', conn_at (put j (KServer (bstep (seen (n_world nd) (k_back v)) a) (k_streams v)) sv) j' i' = conn_at sv j' i').
  { eapply conn_put_same; eauto. }
  constructor; cbn [k_node k_servers k_log k_next]; auto.
  - intros j' v' N'. rewrite put_nth in N'. destruct (Nat.eqb_spec j j') as [<-|D]; eauto. rewrite N in N'. cbn in N'. injection N' as <-.
    split; [cbn [k_back]; rewrite seen_self by auto; now apply rb_step|]. split; [exact ND|]. cbn [k_streams]. intros i p NP.
    destruct v as [b streams]. cbn [k_back k_streams] in *.
    apply stream_foreign with (streams := streams); eauto. rewrite forallb_forall in FO. apply FO. eapply nth_error_In; eauto.
  - intros j1 i1 j2 i2 x E1 E2. rewrite CS in E1, E2. eauto.
  - intros j1 i1 x E1. rewrite CS in E1. eauto.
Qed.

Lemma KI_open nd sv log n j v : KI cfg okf c (KState nd sv log n) -> nth_error sv j = Some v ->
  let st := sopen (seen (n_world nd) (k_back v)) in
  KI cfg okf c (KState nd (put j (KServer (s_b st) (k_streams v ++ [(n, st)])) sv) log (S n)).
Proof.
  intros [K1 K2 K3 K4 K5 K6 K7] N st. cbn [k_node k_servers k_log k_next] in *. destruct (K3 j v N) as (B & ND & ST).
  assert (NOT : said n log = [] /\ watches n log = []).
  { assert (X : forall l, (forall x, In x l -> match x with Did _ => True | Watched c _ _ _ _ | Said c _ => (c < n)%nat end) -> said n l = [] /\ watches n l = []).
    { induction l as [|x l IH]; intros F; [auto|]. destruct IH as [I1 I2]; [intros; apply F; now right|]. specialize (F x (or_introl eq_refl)).
      cbn. destruct x; cbn; auto; destruct (Nat.eqb_spec conn n); try lia; auto. }
    apply X, K6. }
  set (v' := KServer (s_b st) (k_streams v ++ [(n, st)])).
  assert (CA : forall j' i', conn_at (put j v' sv) j' i' = if Nat.eqb j j' && Nat.eqb i' (length (k_streams v)) then Some n else conn_at sv j' i').
  { intros j' i'. unfold conn_at. rewrite put_nth. destruct (Nat.eqb_spec j j') as [<-|D]; cbn [andb]; [|reflexivity]. rewrite N. cbn [option_map v' k_streams].
    destruct (Nat.eqb_spec i' (length (k_streams v))) as [->|D].
    - rewrite nth_error_app2, Nat.sub_diag by lia. reflexivity.
    - destruct (Nat.ltb_spec i' (length (k_streams v))) as [L|L]; [now rewrite nth_error_app1|].
      rewrite nth_error_app2 by lia. destruct (i' - length (k_streams v))%nat as [|k] eqn:E; [lia|].
      replace (nth_error (k_streams v) i') with (@None (nat * sstate)) by (symmetry; apply nth_error_None; lia). destruct k; reflexivity. }
  constructor; cbn [k_node k_servers k_log k_next]; auto.
  - intros j' w' N'. rewrite put_nth in N'. destruct (Nat.eqb_spec j j') as [<-|D]; eauto. rewrite N in N'. cbn in N'. injection N' as <-. subst v'.
    assert (EB : s_b st = bstep (seen (n_world nd) (k_back v)) ANewGroup) by reflexivity.
    assert (OLD : forall i p, nth_error (k_streams v) i = Some p -> stream_ok c (n_world nd) log (KServer (s_b st) (k_streams v ++ [(n, st)])) p).
    { intros i p NP. rewrite EB. destruct v as [b streams]. cbn [k_back k_streams] in *. apply stream_foreign with (streams := streams); eauto; try reflexivity; try exact Logic.I; intros; exact Logic.I. }
    split; [cbn [k_back]; rewrite EB, seen_self by auto; apply rb_step; auto; [exact Logic.I|intros; exact Logic.I]|]. cbn [k_streams]. split.
    + rewrite map_app. apply NoDup_app; auto; [repeat constructor; auto|]. intros x IX [<-|[]]. apply in_map_iff in IX. destruct IX as (p & E & IP).
      apply In_nth_error in IP. destruct IP as [i IP]. destruct (ST i p IP) as (R & _). destruct (sreach_SI _ (rs_sreach _ _ R)) as [g J].
      pose proof (I_group _ _ J) as G. unfold group_of, synced in G. cbn [with_b s_b s_i seen b_groups] in G. unfold st in E. cbn [snd sopen s_i] in E. cbn [seen b_groups] in E.
      assert (nth_error (b_groups (k_back v)) (s_i (snd p)) <> None) by congruence. apply nth_error_Some in H. lia.
    + intros i p NP. destruct (Nat.ltb_spec i (length (k_streams v))) as [L|L].
      * rewrite nth_error_app1 in NP by auto. eauto.
      * rewrite nth_error_app2 in NP by auto. destruct (i - length (k_streams v))%nat as [|[|k]]; cbn in NP; try discriminate. injection NP as <-.
        assert (SY : synced (n_world nd) (KServer (s_b st) (k_streams v ++ [(n, st)])) st = st) by (apply synced_self; reflexivity).
        unfold stream_ok. cbn [snd fst]. rewrite SY. split; [now apply rs_open|]. destruct NOT as [-> ->]. split; [reflexivity|].
        unfold regs_of, group_of, st. cbn [sopen s_b s_i bstep new_group b_groups]. rewrite nth_error_app2, Nat.sub_diag by lia. reflexivity.
  - intros j1 i1 j2 i2 x E1 E2. rewrite CA in E1, E2.
    destruct (Nat.eqb j j1 && Nat.eqb i1 (length (k_streams v))) eqn:D1; destruct (Nat.eqb j j2 && Nat.eqb i2 (length (k_streams v))) eqn:D2; eauto.
    + apply andb_true_iff in D1, D2. rewrite !Nat.eqb_eq in *. intuition congruence.
    + injection E1 as <-. apply K5 in E2. lia.
    + injection E2 as <-. apply K5 in E1. lia.
  - intros j1 i1 x E1. rewrite CA in E1. destruct (_ && _); [injection E1 as <-; lia|]. apply K5 in E1. lia.
  - intros x I. specialize (K6 x I). destruct x; auto; lia.
Qed.

Lemma KI_stream nd sv log n j v i conn st0 a : KI cfg okf c (KState nd sv log n) -> nth_error sv j = Some v -> nth_error (k_streams v) i = Some (conn, st0) ->
  (forall x, a <> SBack x) -> (c = true -> back_ok (synced (n_world nd) v st0) a steady) ->
  let st := synced (n_world nd) v st0 in let st' := sstep st a in
  KI cfg okf c (KState nd (put j (KServer (s_b st') (put i (conn, st') (k_streams v))) sv) (log ++ told_by conn a st st') n).
Proof.
  intros [K1 K2 K3 K4 K5 K6 K7] N NS NB SD st st'. cbn [k_node k_servers k_log k_next] in *. destruct (K3 j v N) as (B & ND & ST).
  destruct (node_facts _ _ _ TO K1) as (_ & MG & HI).
  destruct (ST i _ NS) as (R & SA & WA). cbn [fst snd] in R, SA, WA. fold st in R, SA, WA.
  destruct (sreach_SI _ (rs_sreach _ _ R)) as [g J]. pose proof (I_group _ _ J) as G.
  assert (CB : c = true -> back_ok st a calm). { intros E. apply steady_back_calm; auto. exact (I_breach _ _ J). }
  assert (R' : rs c st'). { apply rs_step; auto. now apply not_back_possible. }
  destruct (sstep_own st a NB) as [EI OWN]. fold st' in EI, OWN.
  assert (EW : b_world (s_b st') = n_world nd).
  { destruct OWN as [E|(act & E & _ & IN & _)]; rewrite E; [reflexivity|]. rewrite bstep_world_other; [reflexivity|]. intros op ->. discriminate. }
  destruct (told_regs conn st a NB ltac:(congruence)) as (l & o & ER & EO & TB). fold st' in ER, EO, TB.
  assert (CS : forall j' i', conn_at (put j (KServer (s_b st') (put i (conn, st') (k_streams v))) sv) j' i' = conn_at sv j' i').
  { eapply conn_put_same; eauto. cbn [k_streams]. eapply map_put; eauto. }
  assert (HERE : conn_at sv j i = Some conn). { unfold conn_at. now rewrite N, NS. }
  assert (OTH : forall j' v' i' p, nth_error sv j' = Some v' -> nth_error (k_streams v') i' = Some p -> (j', i') <> (j, i) -> fst p <> conn).
  { intros j' v' i' p N' NP D E. apply D. assert (X : conn_at sv j' i' = Some conn) by (unfold conn_at; rewrite N', NP; cbn; now f_equal).
    destruct (K4 _ _ _ _ _ X HERE) as [-> ->]. reflexivity. }
  constructor; cbn [k_node k_servers k_log k_next]; auto.
  - rewrite dids_app, K2, TB, dids_app, noted_dids, sayings_dids, app_nil_r. reflexivity.
  - intros j' v' N'. rewrite put_nth in N'. destruct (Nat.eqb_spec j j') as [<-|D].
    + rewrite N in N'. cbn in N'. injection N' as <-.
      assert (SELF : seen (n_world nd) (s_b st') = s_b st') by (unfold seen; rewrite <- EW; now destruct (s_b st')).
      split; [cbn [k_back]; rewrite SELF|].
      * destruct OWN as [E|(act & E & P & IN & _ & OK)]; rewrite E; [exact B|]. apply rb_step; auto. intros T.
        apply (OK calm calm_default). auto.
      * cbn [k_streams]. split; [rewrite (map_put (fun p => s_i (snd p)) _ _ (conn, st') (conn, st0)); auto|].
        intros i' p NP. rewrite put_nth in NP. destruct (Nat.eqb_spec i i') as [<-|D].
        -- rewrite NS in NP. cbn in NP. injection NP as <-. unfold stream_ok, synced. cbn [fst snd k_back]. rewrite SELF.
           assert (SY : with_b st' (s_b st') = st') by (clear; destruct st'; reflexivity). rewrite SY. split; [exact R'|].
           rewrite TB, !said_app, !watches_app, noted_said, sayings_said, noted_watches, sayings_watches, app_nil_r, SA, WA, EO, ER, map_app. auto.
        -- assert (SO : stream_ok c (n_world nd) log (KServer (s_b st') (put i (conn, st') (k_streams v))) p).
           { destruct OWN as [E|(act & E & P & IN & FO & OK)]; rewrite E.
             - destruct (ST i' p NP) as (X1 & X2 & X3). split; [exact X1|]. split; [exact X2|exact X3].
             - destruct v as [b streams]. cbn [k_back k_streams] in *. apply stream_foreign with (streams := streams); eauto; [|intros T; apply (OK calm calm_default); auto].
               apply FO. intros ES. apply D. apply (proj1 (NoDup_nth_error (map (fun p => s_i (snd p)) streams)) ND).
               + apply nth_error_Some. rewrite nth_error_map, NS. discriminate.
               + rewrite !nth_error_map, NS, NP. cbn [option_map snd]. f_equal. rewrite ES. reflexivity. }
           destruct SO as (X1 & X2 & X3). assert (FN : conn <> fst p). { intros E. eapply (OTH j v i' p); eauto. congruence. }
           split; [exact X1|]. rewrite TB, !said_app, !watches_app, noted_said, noted_other, sayings_other, sayings_watches, !app_nil_r by auto. split; [exact X2|exact X3].
    + rewrite TB. apply server_other; eauto. intros i' p NP. eapply OTH; eauto. congruence.
  - intros j1 i1 j2 i2 x E1 E2. rewrite CS in E1, E2. eauto.
  - intros j1 i1 x E1. rewrite CS in E1. eauto.
  - intros x I. apply in_app_iff in I. destruct I as [I|I]; [exact (K6 x I)|]. rewrite TB in I. apply in_told in I. destruct x; auto; subst; eauto.
  - intros A conn' m B' E. destruct (split_at _ _ _ _ _ E) as [(B'' & E')|(e1 & e2 & E1 & ->)]; [eauto|].
    rewrite TB in E1. symmetry in E1. destruct (split_at (map (Said conn) o) (noted conn l) e1 (Said conn' m) e2 (eq_sym E1)) as [(B'' & E2)|(f1 & f2 & E2 & ->)].
    + exfalso. assert (IN : In (Said conn' m) (noted conn l)) by (rewrite E2; apply in_app_iff; right; now left). apply in_map_iff in IN. destruct IN as (x & [=] & _).
    + assert (X : exists o1 o2, o = o1 ++ m :: o2 /\ f1 = map (Said conn) o1 /\ conn' = conn).
      { clear - E2. revert f1 E2. induction o as [|x o IH]; intros f1 E; [destruct f1; discriminate|]. cbn in E. destruct f1 as [|y f1]; cbn in E.
        - injection E as -> -> E. exists [], o. auto.
        - injection E as <- E. destruct (IH _ E) as (o1 & o2 & -> & -> & ->). exists (x :: o1), o2. auto. }
      destruct X as (o1 & o2 & -> & -> & ->). rewrite app_assoc.
      apply (fact_new c log conn st' (s_out st) o1 m o2 l); auto.
      * rewrite watches_app, noted_watches, WA, ER, map_app. reflexivity.
      * rewrite EW, K2. now rewrite HI.
Qed.

Lemma KI_step s x s' : KI cfg okf c s -> kaction_ok okf c s x -> kstep cfg s x = Some s' -> KI cfg okf c s'.
Proof.
  intros J OK ST. destruct s as [nd sv log n]. destruct x as [x| |j|j a|j|j i a]; cbn [kstep kaction_ok k_servers k_node] in *.
  - assert (X : match nstep cfg nd x with Some nd' => Some (KState nd' sv (log ++ map Did (skipn (length (n_log nd)) (n_log nd'))) n) | None => None end = Some s') by (destruct x; try discriminate; exact ST).
    destruct (nstep cfg nd x) as [nd'|] eqn:E; [|discriminate]. injection X as <-. now apply KI_node with (x := x).
  - destruct (nstep cfg nd NBoot) as [nd'|] eqn:E; [|discriminate]. injection ST as <-. now apply KI_boot.
  - destruct (nstep cfg nd (NCrash j)) as [nd'|] eqn:E; [|discriminate]. injection ST as <-. now apply KI_crash.
  - destruct (nth_error sv j) as [v|] eqn:N; [|discriminate]. destruct (internal a) eqn:IN; cbn [andb] in ST; [|discriminate].
    destruct (forallb _ _) eqn:FO; [|discriminate]. injection ST as <-. destruct OK as [O1 O2]. apply KI_back; auto. destruct a; try exact Logic.I; auto; discriminate.
  - destruct (nth_error sv j) as [v|] eqn:N; [|discriminate]. injection ST as <-. now apply KI_open.
  - assert (X : (forall x, a <> SBack x) /\ match nth_error sv j with Some v => match nth_error (k_streams v) i with Some (conn, st0) =>
       let st := synced (n_world nd) v st0 in let st' := sstep st a in
       Some (KState nd (put j (KServer (s_b st') (put i (conn, st') (k_streams v))) sv) (log ++ told_by conn a st st') n) | None => None end | None => None end = Some s').
    { destruct a; try discriminate; (split; [discriminate|exact ST]). }
    destruct X as [NB X]. destruct (nth_error sv j) as [v|] eqn:N; [|discriminate]. destruct (nth_error (k_streams v) i) as [[conn st0]|] eqn:NS; [|discriminate].
    cbv zeta in X. injection X as <-. apply KI_stream; auto. intros T. eapply OK; eauto.
Qed.
Lemma kreach_KI s : kreach cfg okf c s -> KI cfg okf c s.
Proof. induction 1 as [|s x s' H IH OK ST]; [apply KI_init|]. eapply KI_step; eauto. Qed.
End Step.
