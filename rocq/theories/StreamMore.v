(** Further invariants of watch streams: acknowledgements come first; what happens when
    the request loop has ended. *)
From Coq Require Import List ZArith Bool Lia.
From Verif Require Import Bytes Spec Sql System Prog Backend Watch Stream Wire SpecLemmas SqlLemmas Sim ReadLemmas ProgLemmas ReadProgs WatchLemmas WatchProofs WatchResults StreamProofs StreamCancel.
Import ListNotations.
Open Scope Z_scope.

(** ---- only acknowledged watchers deliver ---- *)
Definition Gack (g : group) : Prop :=
  (forall w, In w (g_watchers g) -> w_init w = true -> In (r_id (w_reg w), WOk) (g_returns g)) /\
  (forall u x, In u (g_updates g) -> In x (u_watchers u) -> In (fst x, WOk) (g_returns g)).
Lemma group_updates_init evs ws x : In x (group_updates evs ws) -> exists w, In w ws /\ r_id (w_reg w) = fst x /\ w_init w = true.
Proof.
  unfold group_updates. rewrite filter_In, in_map_iff. intros [(w & <- & I) N]. exists w. split; [exact I|]. split; [reflexivity|].
  unfold watcher_update in N. destruct (w_init w); [reflexivity|discriminate].
Qed.
Lemma Gack_publish n evs g : Gack g -> Gack (publish n evs g).
Proof.
  intros [A B]. unfold publish. destruct (g_open g); [|split; auto].
  assert (W : forall w, In w (map (fun w => fst (watcher_update evs w)) (g_watchers g)) -> w_init w = true -> In (r_id (w_reg w), WOk) (g_returns g)).
  { intros w I T. apply in_map_iff in I. destruct I as (w' & <- & I). destruct (watcher_update_reg evs w') as [E F]. rewrite E. rewrite F in T. auto. }
  destruct (_ <? _)%nat; split; cbn [g_watchers g_updates g_returns]; auto.
  intros u x I J. apply in_app_iff in I. destruct I as [I|[<-|[]]]; [eauto|]. cbn [u_watchers] in J.
  destruct (group_updates_init _ _ _ J) as (w & K & <- & T). auto.
Qed.
Lemma Gack_step b a : Forall Gack (b_groups b) -> Forall Gack (b_groups (bstep b a)).
Proof.
  intros P.
  assert (SG : forall j f, (forall g, Gack g -> Gack (f g)) -> Forall Gack (b_groups (set_group b j f))).
  { intros j f F. cbn [set_group b_groups]. clear - P F. revert j. induction P as [|g l A X IH]; intros [|j]; simpl; constructor; auto. }
  destruct a as [op|f| | |j|j lo hi start|j id f|j id f|j id|j id|j]; cbn [bstep].
  - exact P.
  - destruct (fetch_same f b) as (_ & _ & E). rewrite E. exact P.
  - unfold publish_all. destruct (b_batch b) as [evs|]; [|exact P]. cbn [b_groups]. apply Forall_map. eapply Forall_impl; [|exact P].
    intros g G. now apply Gack_publish.
  - cbn [new_group b_groups]. apply Forall_app. split; auto. constructor; auto. split; cbn; intros; contradiction.
  - apply SG. intros g G. exact G.
  - apply SG. intros g [A B]. unfold watch_begin. destruct (0 <? start); split; cbn [g_watchers g_updates g_returns].
    + intros w I T. apply in_app_iff in I. destruct I as [I|[<-|[]]]; [auto|discriminate].
    + exact B.
    + intros w I T. apply in_app_iff. apply in_app_iff in I. destruct I as [I|[<-|[]]]; [auto|]. right. left. reflexivity.
    + intros u x I J. apply in_app_iff. eauto.
  - apply SG. intros g [A B]. unfold watch_check. destruct (pending_of id g) as [[r []]|]; try (split; assumption).
    destruct (interval_result f (b_world b)) as [[x y]|e]; [destruct (_ <? _)|]; split; cbn [g_watchers g_updates g_returns]; intros; try (apply in_app_iff); eauto.
  - apply SG. intros g [A B]. unfold watch_query. destruct (pending_of id g) as [[r []]|]; try (split; assumption).
    destruct (snd (sem f _ (b_world b))); split; cbn [g_watchers g_updates g_returns]; intros; try (apply in_app_iff); eauto.
    left. apply in_drop_watcher in H. apply A; tauto.
  - apply SG. intros g [A B]. unfold watch_finish. destruct (pending_of id g) as [[r []]|]; try (split; assumption).
    split; cbn [g_watchers g_updates g_returns].
    + intros w I T. apply in_app_iff. apply in_map_iff in I. destruct I as (w' & <- & I). destruct (Z.eqb_spec (r_id (w_reg w')) id) as [E|E].
      * right. left. cbn [w_reg]. now rewrite E.
      * left. auto.
    + intros u x I J. apply in_app_iff. eauto.
  - apply SG. intros g [A B]. split; cbn [unwatch g_watchers g_updates g_returns]; auto. intros w I T. apply in_drop_watcher in I. apply A; tauto.
  - apply SG. intros g [A B]. unfold take. destruct (_ <? _)%nat; split; auto.
Qed.
Lemma Gack_breach b : breach b -> Forall Gack (b_groups b).
Proof. induction 1; [constructor|now apply Gack_step]. Qed.

(** ---- acknowledged to the group means acknowledged to the client ---- *)
Record SA (s : sstate) : Prop := {
  A_ret : forall g id, group_of s = Some g -> In (id, WOk) (g_returns g) -> In (MCreated id) (s_out s);
  A_hold : forall ws x, s_hold s = Some ws -> In x ws -> In (MCreated (fst x)) (s_out s);
  A_prog : forall x, In x (s_progress s) -> snd x = true -> In (MCreated (fst x)) (s_out s)
}.
Lemma SA_mono s s' o : SA s -> s_out s' = s_out s ++ o ->
  (forall g' id, group_of s' = Some g' -> In (id, WOk) (g_returns g') -> (exists g, group_of s = Some g /\ In (id, WOk) (g_returns g)) \/ In (MCreated id) o) ->
  (forall ws x, s_hold s' = Some ws -> In x ws -> In (MCreated (fst x)) (s_out s) ) ->
  (forall x, In x (s_progress s') -> snd x = true -> In x (s_progress s) \/ In (MCreated (fst x)) o) -> SA s'.
Proof.
  intros [A B C] E P Q R. constructor; rewrite E.
  - intros g id G I. apply in_app_iff. destruct (P g id G I) as [(g0 & G0 & I0)|I0]; [left; eauto|auto].
  - intros ws x H I. apply in_app_iff. left. eauto.
  - intros x I T. apply in_app_iff. destruct (R x I T); [left; eauto|auto].
Qed.
Lemma SA_watch_step s g id a : SI s g -> SA s -> s_creating s = Some id ->
  forall g', nth_error (b_groups (bstep (s_b s) a)) (s_i s) = Some g' ->
  (g_returns g' = g_returns g \/ exists res, g_returns g' = g_returns g ++ [(id, res)]) -> (forall res, ~ In (id, res) (g_returns g)) ->
  SA (watch_step s id a).
Proof.
  intros J A CR g' N D NR. pose proof (I_group _ _ J) as G0.
  unfold watch_step. unfold group_of at 1. cbn [with_b s_b s_i]. rewrite N.
  destruct D as [RT|[res RT]].
  - rewrite RT, (find_none_ret g id NR). apply (SA_mono s _ []); [exact A|cbn [with_b s_out]; now rewrite app_nil_r| | |].
    + intros g1 i G1 I. unfold group_of in G1. cbn [with_b s_b s_i] in G1. rewrite N in G1. injection G1 as <-. rewrite RT in I. eauto.
    + intros ws x H I. cbn [with_b s_hold] in H. eapply A_hold; eauto.
    + intros x I T. auto.
  - rewrite RT, (returns_find g id res (breach_gret _ _ _ (I_breach _ _ J) G0) NR).
    destruct res as [|c1 c2|e]; unfold answer_create; cbn [with_b s_b s_i s_hold s_out s_rev s_creating s_progress s_closing s_done s_ended].
    + apply (SA_mono s _ [MCreated id]); [exact A|reflexivity| | |].
      * intros g1 i G1 I. unfold group_of in G1. cbn [s_b s_i] in G1. rewrite N in G1. injection G1 as <-. rewrite RT in I. apply in_app_iff in I.
        destruct I as [I|[[= <-]|[]]]; [left; eauto|right; simpl; auto].
      * intros ws x H I. cbn [s_hold] in H. eapply A_hold; eauto.
      * cbn [s_progress]. intros x I T. apply in_set_progress in I. destruct I as [->|[[I _]|[I _]]]; simpl; auto.
    + apply (SA_mono s _ [MCompacted c2]); [exact A|reflexivity| | |].
      * intros g1 i G1 I. unfold group_of in G1. cbn [s_b s_i] in G1. rewrite N in G1. injection G1 as <-. rewrite RT in I. apply in_app_iff in I.
        destruct I as [I|[[=]|[]]]; left; eauto.
      * intros ws x H I. cbn [s_hold] in H. eapply A_hold; eauto.
      * auto.
    + apply (SA_mono s _ [MUnhealthy (s_rev s)]); [exact A|reflexivity| | |].
      * intros g1 i G1 I. unfold group_of in G1. cbn [s_b s_i] in G1. rewrite N in G1. injection G1 as <-. rewrite RT in I. apply in_app_iff in I.
        destruct I as [I|[[=]|[]]]; left; eauto.
      * intros ws x H I. cbn [s_hold] in H. eapply A_hold; eauto.
      * auto.
Qed.
Lemma SA_cont s g id a f : SI s g -> SA s -> s_creating s = Some id -> bstep (s_b s) a = set_group (s_b s) (s_i s) f ->
  (forall r p, g_pending g = [(r, p)] -> r_id r = id -> let g' := f g in
  (exists r p, g_pending g' = [(r, p)] /\ r_id r = id) /\ g_returns g' = g_returns g \/
  g_pending g' = [] /\ exists res, g_returns g' = g_returns g ++ [(id, res)]) ->
  SA (watch_step s id a).
Proof.
  intros J A CR E C. pose proof (I_pending _ _ J) as J5. rewrite CR in J5. destruct J5 as (r & p & PP & RI).
  apply (SA_watch_step s g id a J A CR (f g)).
  - rewrite E. apply set_group_nth. apply (I_group _ _ J).
  - destruct (C r p PP RI) as [[_ X]|[_ X]]; auto.
  - intros res I. pose proof (breach_gret _ _ _ (I_breach _ _ J) (I_group _ _ J)) as GR. destruct (Q_ret _ GR _ _ I) as [_ K]. apply (K (r, p)); [rewrite PP; simpl; auto|auto].
Qed.
Lemma SA_quiet s s' : SA s -> s_out s' = s_out s -> (forall g', group_of s' = Some g' -> exists g, group_of s = Some g /\ g_returns g' = g_returns g) ->
  (s_hold s' = s_hold s \/ s_hold s' = None) -> (forall x, In x (s_progress s') -> snd x = true -> In x (s_progress s)) -> SA s'.
Proof.
  intros A E P Q R. apply (SA_mono s _ []); [exact A|now rewrite app_nil_r| | |].
  - intros g' id G I. destruct (P g' G) as (g & G0 & H). rewrite H in I. eauto.
  - intros ws x H I. destruct Q as [Q|Q]; rewrite Q in H; [eapply A_hold; eauto|discriminate].
  - intros x I T. auto.
Qed.
Lemma SA_emit s s' o : SA s -> s_out s' = s_out s ++ o -> s_b s' = s_b s -> s_i s' = s_i s ->
  (s_hold s' = s_hold s \/ s_hold s' = None) -> (forall x, In x (s_progress s') -> snd x = true -> In x (s_progress s)) -> SA s'.
Proof.
  intros A E E1 E2 Q R. apply (SA_mono s _ o); [exact A|exact E| | |].
  - intros g' id G I. unfold group_of in *. rewrite E1, E2 in G. eauto.
  - intros ws x H I. destruct Q as [Q|Q]; rewrite Q in H; [eapply A_hold; eauto|discriminate].
  - intros x I T. auto.
Qed.
Lemma fold_false (ws : list (Z * list event)) : forall l x, In x (fold_left (fun l x => set_progress (fst x) false l) ws l) -> snd x = true -> In x l.
Proof.
  induction ws as [|w ws IH]; intros l x I T; [exact I|]. apply IH in I; [|exact T]. apply in_set_progress in I.
  destruct I as [->|[[I _]|[I _]]]; [discriminate|exact I|exact I].
Qed.
Lemma SA_step s g a : SI s g -> SA s -> SA (sstep s a).
Proof.
  intros J A. pose proof (I_group _ _ J) as G0. unfold sstep. destruct a as [a| | | | |wid lo hi start|f|f| |id| | | ].
  - destruct (foreign (s_i s) a) eqn:F; [|exact A].
    destruct (foreign_group (s_b s) a (s_i s) g F G0) as (g' & N & E1 & E2 & E3 & E4 & E5 & E6).
    apply (SA_quiet s); [exact A|reflexivity| |left; reflexivity|auto]. intros g1 G1. unfold group_of in G1. cbn [with_b s_b s_i] in G1.
    rewrite N in G1. injection G1 as <-. eauto.
  - destruct (s_done s); [exact A|]. unfold s_recv. destruct (s_hold s) eqn:HH; [exact A|]. rewrite G0.
    destruct (nth_error (g_updates g) (g_taken g)) as [u|] eqn:NU.
    + apply (SA_mono s _ []); [exact A|cbn [s_out]; now rewrite app_nil_r| | |].
      * intros g' id G I. unfold group_of in G. cbn [s_b s_i] in G. cbn [bstep] in G. rewrite (set_group_nth _ _ _ _ G0) in G. injection G as <-.
        left. exists g. split; [exact G0|]. unfold take in I. destruct (_ <? _)%nat; exact I.
      * intros ws x [= <-] I. pose proof (Gack_breach _ (I_breach _ _ J)) as F. rewrite Forall_forall in F.
        destruct (F g (nth_error_In _ _ G0)) as [_ B]. eapply A_ret; [exact A|exact G0|]. eapply B; eauto. eapply nth_error_In; eauto.
      * auto.
    + destruct (g_open g); [exact A|]. apply (SA_emit s _ []); auto. cbn [s_out]. now rewrite app_nil_r.
  - unfold s_send. destruct (s_hold s) as [ws|] eqn:HH; [|exact A]. destruct (s_creating s); [exact A|].
    eapply SA_emit; [exact A|reflexivity|reflexivity|reflexivity|right; reflexivity|]. cbn [s_progress]. apply fold_false.
  - unfold s_tick. destruct (s_creating s); [exact A|]. eapply SA_emit; [exact A|reflexivity|reflexivity|reflexivity|left; reflexivity|auto].
  - destruct (s_ended s); [exact A|]. unfold s_progress_req. destruct (s_creating s); [exact A|]. destruct (s_closing s); [exact A|].
    eapply SA_emit; [exact A|reflexivity|reflexivity|reflexivity|left; reflexivity|auto].
  - destruct (s_ended s); [exact A|]. unfold s_create. destruct (s_creating s) eqn:CR; [exact A|]. destruct (s_closing s) eqn:CL; [exact A|]. rewrite G0.
    destruct (negb (wid =? 0)). { apply (SA_emit s _ []); auto. cbn [s_out]. now rewrite app_nil_r. }
    set (id := Z.of_nat (length (g_regs g)) + 1).
    pose proof (breach_gret _ _ _ (I_breach _ _ J) G0) as GR.
    assert (NR : forall res, ~ In (id, res) (g_returns g)) by (intros res I; destruct (Q_ret _ GR _ _ I) as [K _]; unfold id in K; lia).
    assert (N : nth_error (b_groups (bstep (s_b s) (AWatch (s_i s) lo (range_end lo hi) start))) (s_i s) = Some (watch_begin lo (range_end lo hi) start g)) by (cbn [bstep]; apply set_group_nth, G0).
    unfold watch_step. unfold group_of at 1. cbn [with_b s_b s_i]. rewrite N.
    unfold watch_begin at 1. destruct (0 <? start) eqn:ST; cbn [g_returns].
    + rewrite (find_none_ret g id NR). apply (SA_quiet s); [exact A|reflexivity| |left; reflexivity|auto].
      intros g1 G1. unfold group_of in G1. cbn [with_b s_b s_i] in G1. rewrite N in G1. injection G1 as <-. exists g. split; [exact G0|].
      unfold watch_begin. rewrite ST. reflexivity.
    + cbn [r_id]. fold id. rewrite (returns_find g id WOk GR NR). unfold answer_create. cbn [with_b s_b s_i s_hold s_out s_rev s_creating s_progress s_closing s_done s_ended].
      apply (SA_mono s _ [MCreated id]); [exact A|reflexivity| | |].
      * intros g1 i G1 I. unfold group_of in G1. cbn [s_b s_i] in G1. rewrite N in G1. injection G1 as <-. unfold watch_begin in I. rewrite ST in I. cbn [g_returns r_id] in I.
        apply in_app_iff in I. destruct I as [I|[[= <-]|[]]]; [left; eauto|right; left; reflexivity].
      * intros ws x H I. cbn [s_hold] in H. eapply A_hold; eauto.
      * cbn [s_progress]. intros x I T. apply in_set_progress in I. destruct I as [->|[[I _]|[I _]]]; simpl; auto.
  - destruct (s_creating s) as [id|] eqn:CR; [|exact A]. apply (SA_cont s g id _ (watch_check id f (b_world (s_b s)))); [exact J|exact A|exact CR|reflexivity|apply check_cases].
  - destruct (s_creating s) as [id|] eqn:CR; [|exact A]. apply (SA_cont s g id _ (watch_query id f (b_world (s_b s)))); [exact J|exact A|exact CR|reflexivity|apply query_cases].
  - destruct (s_creating s) as [id|] eqn:CR; [|exact A]. apply (SA_cont s g id _ (watch_finish id)); [exact J|exact A|exact CR|reflexivity|apply finish_cases].
  - destruct (s_ended s); [exact A|]. unfold s_cancel. destruct (s_creating s) eqn:CR; [exact A|]. destruct (s_closing s) eqn:CL; [exact A|].
    apply (SA_quiet s); [exact A|reflexivity| |left; reflexivity|auto]. intros g1 G1. unfold group_of in G1. cbn [s_b s_i bstep] in G1.
    rewrite (set_group_nth _ _ _ _ G0) in G1. injection G1 as <-. exists g. auto.
  - unfold s_forget. destruct (s_closing s); [|exact A]. apply (SA_emit s _ []); auto. { cbn [s_out]. now rewrite app_nil_r. }
    cbn [s_progress]. intros x I T. apply in_del in I. tauto.
  - unfold s_eof. destruct (s_creating s) eqn:CR; [exact A|]. destruct (s_closing s) eqn:CL; [exact A|]. apply (SA_emit s _ []); auto. cbn [s_out]. now rewrite app_nil_r.
  - destruct (s_ended s); [|exact A]. apply (SA_quiet s); [exact A|reflexivity| |left; reflexivity|auto]. intros g1 G1. unfold group_of in G1. cbn [with_b s_b s_i bstep] in G1.
    rewrite (set_group_nth _ _ _ _ G0) in G1. injection G1 as <-. exists g. auto.
Qed.
Lemma sreach_SA s : sreach s -> SA s.
Proof.
  induction 1 as [b H|s a H A B].
  - constructor; cbn [sopen s_hold s_progress]; try discriminate; try contradiction.
    intros g id G I. unfold group_of in G. cbn [sopen s_b s_i bstep new_group b_groups] in G. rewrite nth_error_app2 in G by lia. rewrite Nat.sub_diag in G.
    injection G as <-. contradiction.
  - destruct (sreach_SI s H) as [g J]. eapply SA_step; eauto.
Qed.

(** ---- C93 ---- *)
(** the watch a response belongs to *)
Definition about (m : msg) (id : Z) : Prop :=
  match m with MEvents _ j _ => j = id | MProgress _ j => j = id | _ => False end.
Lemma acknowledged_first s o1 m o2 id : sreach s -> s_out s = o1 ++ m :: o2 -> about m id -> id <> invalid_id -> In (MCreated id) o1.
Proof.
  intros H. revert o1 m o2. induction H as [b H|s a H IH B]; intros o1 m o2 E AB NI; [destruct o1; discriminate|].
  destruct (sstep_out s a) as (o & EO & F). rewrite EO in E.
  pose proof (sreach_SA s H) as A.
  destruct (Nat.ltb_spec (length o1) (length (s_out s))) as [L|L].
  - assert (X : exists o2', s_out s = o1 ++ m :: o2').
    { assert (exists r, s_out s = o1 ++ r /\ r <> []) as (r & Er & Nr).
      { exists (skipn (length o1) (s_out s)). split.
        - rewrite <- (firstn_skipn (length o1) (s_out s)) at 1. f_equal.
          assert (firstn (length o1) (s_out s ++ o) = firstn (length o1) (o1 ++ m :: o2)) as Y by now rewrite E.
          rewrite firstn_le_app in Y by lia. rewrite Y. rewrite firstn_app, Nat.sub_diag, firstn_all. apply app_nil_r.
        - intros Y. apply (f_equal (@length msg)) in Y. rewrite skipn_length in Y. simpl in Y. lia. }
      destruct r as [|m' r]; [congruence|]. exists r. rewrite Er, <- app_assoc in E. apply app_inv_head in E. injection E as -> _. exact Er. }
    destruct X as [o2' X]. eapply IH; eauto.
  - assert (X : exists o3, o1 = s_out s ++ o3).
    { exists (skipn (length (s_out s)) o1). rewrite <- (firstn_skipn (length (s_out s)) o1) at 1. f_equal.
      assert (firstn (length (s_out s)) (s_out s ++ o) = firstn (length (s_out s)) (o1 ++ m :: o2)) as Y by now rewrite E.
      rewrite firstn_app, Nat.sub_diag, firstn_all, app_nil_r in Y. rewrite firstn_le_app in Y by lia. now symmetry. }
    destruct X as [o3 ->]. apply in_app_iff. left.
    assert (I : In m o). { rewrite <- app_assoc in E. apply app_inv_head in E. rewrite E. apply in_app_iff. right. left. reflexivity. }
    rewrite Forall_forall in F. specialize (F m I). destruct m as [rev j evs|rev j| | |]; simpl in AB; try contradiction; subst j; simpl in F.
    + destruct F as (_ & ws & HW & IW). exact (A_hold _ A ws (id, evs) HW IW).
    + destruct F as (_ & [->|P]); [contradiction NI; reflexivity|]. exact (A_prog _ A (id, true) P eq_refl).
Qed.

(** ---- a request loop that has ended ---- *)
Lemma ended_step s a : s_ended s = true -> s_creating s = None -> s_ended (sstep s a) = true /\ s_creating (sstep s a) = None /\
  exists o, s_out (sstep s a) = s_out s ++ o /\ forall m, In m o -> exists id, about m id.
Proof.
  intros EN CR. assert (NIL : exists o, s_out s = s_out s ++ o /\ forall m, In m o -> exists id, about m id) by (exists []; rewrite app_nil_r; split; [reflexivity|intros ? []]).
  unfold sstep. rewrite EN. destruct a as [a| | | | |wid lo hi start|f|f| |id| | | ]; rewrite ?CR; auto.
  - destruct (foreign _ _); auto.
  - destruct (s_done s); [auto|]. unfold s_recv. destruct (s_hold s); [auto|]. destruct (group_of s) as [g|]; [|auto].
    destruct (nth_error _ _); [auto|]. destruct (g_open g); auto.
  - unfold s_send. rewrite CR. destruct (s_hold s); [|auto]. cbn [s_ended s_creating s_out]. split; [exact EN|]. split; [reflexivity|].
    eexists. split; [reflexivity|]. intros m I. apply in_map_iff in I. destruct I as (x & <- & _). exists (fst x). reflexivity.
  - unfold s_tick. rewrite CR. cbn [s_ended s_creating s_out]. split; [exact EN|]. split; [reflexivity|].
    eexists. split; [reflexivity|]. intros m I. apply in_map_iff in I. destruct I as (x & <- & _). exists (fst x). reflexivity.
  - unfold s_forget. destruct (s_closing s); auto.
  - unfold s_eof. rewrite CR. destruct (s_closing s); auto.
Qed.
Lemma ended_later s s' : slater s s' -> s_ended s = true -> s_creating s = None -> s_ended s' = true /\ s_creating s' = None /\
  exists o, s_out s' = s_out s ++ o /\ forall m, In m o -> exists id, about m id.
Proof.
  intros L EN CR. induction L as [s|s s' a L IH P].
  - repeat split; auto. exists []. rewrite app_nil_r. split; [reflexivity|intros ? []].
  - destruct (IH EN CR) as (E1 & C1 & o & O1 & F1). destruct (ended_step s' a E1 C1) as (E2 & C2 & o' & O2 & F2).
    split; [exact E2|]. split; [exact C2|]. exists (o ++ o'). rewrite O2, O1, app_assoc. split; [reflexivity|].
    intros m I. apply in_app_iff in I. destruct I; auto.
Qed.

(** a closed group stays closed and gets no updates *)
Lemma closed_step b a i g : nth_error (b_groups b) i = Some g -> g_open g = false ->
  exists g', nth_error (b_groups (bstep b a)) i = Some g' /\ g_open g' = false /\ g_updates g' = g_updates g.
Proof.
  intros N C. destruct (step_group b a i g N) as (g' & N' & G & U). exists g'. split; [exact N'|].
  assert (O1 : g_open g' = false). { destruct (g_open g') eqn:E; auto. rewrite (gr_open _ _ G E) in C. discriminate. }
  split; [exact O1|]. destruct U as [U|(_ & U & _)]; [exact U|congruence].
Qed.
Lemma closed_later s s' g : slater s s' -> group_of s = Some g -> g_open g = false ->
  exists g', group_of s' = Some g' /\ g_open g' = false /\ g_updates g' = g_updates g.
Proof.
  intros L G C. induction L as [s|s s' a L IH P]; [exists g; auto|]. destruct (IH G) as (g1 & G1 & C1 & U1).
  unfold group_of in *. destruct (sstep_b s' a P) as [E [F|(act & F & _)]]; rewrite E, F; [exists g1; auto|].
  destruct (closed_step (s_b s') act (s_i s') g1 G1 C1) as (g2 & G2 & C2 & U2). exists g2. repeat split; auto. congruence.
Qed.
Lemma stopped_silent s g s' id : sreach s -> group_of s = Some g -> s_ended s = true -> slater (sstep s SStop) s' ->
  exists rest, delivered (g_updates g) id = sent (s_out s') id ++ rest.
Proof.
  intros H G EN L.
  assert (G1 : group_of (sstep s SStop) = Some (stop_group g)).
  { cbn [sstep]. rewrite EN. unfold group_of. cbn [with_b s_b s_i bstep]. now rewrite (set_group_nth _ _ _ _ G). }
  destruct (closed_later _ _ _ L G1 eq_refl) as (g2 & G2 & _ & U2).
  assert (H' : sreach s') by (eapply slater_sreach; [exact L|]; apply sreach_step; [exact H|exact Logic.I]).
  change (g_updates g) with (g_updates (stop_group g)). rewrite <- U2. now apply sent_prefix.
Qed.
Lemma explicit_id s g wid lo hi st : sreach s -> group_of s = Some g -> wid <> 0 -> s_creating s = None -> s_closing s = None -> s_ended s = false ->
  let s1 := sstep s (SCreate wid lo hi st) in
  (forall s', slater s1 s' -> exists o, s_out s' = s_out s ++ o /\ forall m, In m o -> exists id, about m id) /\
  (forall s' id, slater (sstep s1 SStop) s' -> exists rest, delivered (g_updates g) id = sent (s_out s') id ++ rest).
Proof.
  intros H G W CR CL EN.
  assert (E1 : sstep s (SCreate wid lo hi st) = SState (s_b s) (s_i s) (s_rev s) (s_hold s) (s_progress s) (s_out s) (s_creating s) (s_closing s) (s_done s) true).
  { cbn [sstep]. rewrite EN. unfold s_create. rewrite CR, CL, G. destruct (Z.eqb_spec wid 0); [contradiction|]. reflexivity. }
  cbv zeta. split.
  - intros s' L. rewrite E1 in L. destruct (ended_later _ _ L eq_refl CR) as (_ & _ & o & O1 & F). exists o. auto.
  - intros s' id L. apply (stopped_silent (sstep s (SCreate wid lo hi st)) g s' id).
    + apply sreach_step; [exact H|exact Logic.I].
    + rewrite E1. exact G.
    + rewrite E1. reflexivity.
    + exact L.
Qed.

(** ---- what is on the wire ---- *)
Lemma wire_canceled m : w_canceled (wire m) = true -> w_id (wire m) <= 0.
Proof. destruct m; simpl; try discriminate; unfold invalid_id; lia. Qed.
Lemma wire_compact m : w_compact (wire m) = 0.
Proof. destruct m; reflexivity. Qed.

(** ---- C94: the answer to a create request ---- *)
Lemma app_last_eq {A} (l : list A) x y : l ++ [x] = l ++ [y] -> x = y.
Proof. intros H. apply app_inv_head in H. congruence. Qed.
Lemma app_not_same {A} (l : list A) x : l = l ++ [x] -> False.
Proof. intros H. apply (f_equal (@length A)) in H. rewrite app_length in H. simpl in H. lia. Qed.
Lemma check_fails id f w g e : wreach w -> g_returns (watch_check id f w g) = g_returns g ++ [(id, WFailed e)] -> f <> NoFault.
Proof.
  intros H E ->. unfold watch_check in E. destruct (pending_of id g) as [[r []]|]; try (now apply app_not_same in E).
  rewrite (interval_result_nofault w H) in E. destruct (_ <? _); cbn [g_returns] in E; [apply app_last_eq in E; discriminate|now apply app_not_same in E].
Qed.
Lemma query_fails id f w g e : g_returns (watch_query id f w g) = g_returns g ++ [(id, WFailed e)] -> f <> NoFault.
Proof.
  intros E ->. unfold watch_query in E. destruct (pending_of id g) as [[r []]|]; try (now apply app_not_same in E).
Qed.
Lemma finish_fails id g e : g_returns (watch_finish id g) = g_returns g ++ [(id, WFailed e)] -> False.
Proof.
  intros E. unfold watch_finish in E. destruct (pending_of id g) as [[r []]|]; try (now apply app_not_same in E).
  cbn [g_returns] in E. apply app_last_eq in E. discriminate.
Qed.
(** what the client is told when Watch returns *)
Definition answer_of (s : sstate) (id : Z) (r : watch_result) : msg :=
  match r with WOk => MCreated id | WCompacted _ c => MCompacted c | WFailed _ => MUnhealthy (s_rev s) end.
Lemma watch_step_answer s g id a f : SI s g -> s_creating s = Some id -> bstep (s_b s) a = set_group (s_b s) (s_i s) f ->
  (forall r p, g_pending g = [(r, p)] -> r_id r = id -> let g' := f g in
  (exists r p, g_pending g' = [(r, p)] /\ r_id r = id) /\ g_returns g' = g_returns g \/
  g_pending g' = [] /\ exists res, g_returns g' = g_returns g ++ [(id, res)]) ->
  (s_creating (watch_step s id a) = Some id /\ s_out (watch_step s id a) = s_out s) \/
  exists res, g_returns (f g) = g_returns g ++ [(id, res)] /\ s_creating (watch_step s id a) = None /\ s_out (watch_step s id a) = s_out s ++ [answer_of s id res].
Proof.
  intros J CR E C. pose proof (I_pending _ _ J) as J5. rewrite CR in J5. destruct J5 as (r & p & PP & RI).
  pose proof (breach_gret _ _ _ (I_breach _ _ J) (I_group _ _ J)) as GR.
  assert (NR : forall res, ~ In (id, res) (g_returns g)).
  { intros res I. destruct (Q_ret _ GR _ _ I) as [_ K]. apply (K (r, p)); [rewrite PP; simpl; auto|auto]. }
  unfold watch_step. unfold group_of. cbn [with_b s_b s_i]. rewrite E, (set_group_nth _ _ _ _ (I_group _ _ J)).
  destruct (C r p PP RI) as [[_ RT]|[_ [res RT]]].
  - rewrite RT, (find_none_ret g id NR). left. split; [exact CR|reflexivity].
  - rewrite RT, (returns_find g id res GR NR). right. exists res. split; [reflexivity|]. split; [destruct res; reflexivity|]. rewrite answer_out. destruct res; reflexivity.
Qed.
Lemma breach_wreach b : breach b -> wreach (b_world b).
Proof. intros H. exact (B_reach _ _ (breach_Binv _ H)). Qed.
Lemma create_answered s id a : sreach s -> s_creating s = Some id -> s_creating (sstep s a) <> Some id ->
  exists m, s_out (sstep s a) = s_out s ++ [m] /\
    (m = MCreated id \/ (exists rev, m = MCompacted rev) \/ (exists f rev, (a = SCheck f \/ a = SQuery f) /\ f <> NoFault /\ m = MUnhealthy rev)).
Proof.
  intros H CR N. destruct (sreach_SI s H) as [g J]. pose proof (breach_wreach _ (I_breach _ _ J)) as WR.
  unfold sstep in *. destruct a as [a| | | | |wid lo hi start|f|f| |j| | | ]; rewrite ?CR in N |- *.
  - destruct (foreign _ _); contradiction.
  - exfalso. apply N. destruct (s_done s); [exact CR|]. unfold s_recv. destruct (s_hold s); [exact CR|]. destruct (group_of s) as [g0|]; [|exact CR].
    destruct (nth_error _ _); [exact CR|]. destruct (g_open g0); exact CR.
  - exfalso. apply N. unfold s_send. rewrite CR. destruct (s_hold s); exact CR.
  - exfalso. apply N. unfold s_tick. rewrite CR. exact CR.
  - exfalso. apply N. destruct (s_ended s); [exact CR|]. unfold s_progress_req. rewrite CR. exact CR.
  - exfalso. apply N. destruct (s_ended s); [exact CR|]. unfold s_create. rewrite CR. exact CR.
  - destruct (watch_step_answer s g id (ACheck (s_i s) id f) (watch_check id f (b_world (s_b s))) J CR eq_refl ltac:(apply check_cases)) as [[X _]|(res & RT & _ & X)]; [contradiction|].
    rewrite X. eexists. split; [reflexivity|]. destruct res as [|c1 c2|e]; simpl; eauto. right. right. exists f, (s_rev s). split; [auto|]. split; [|reflexivity]. eapply check_fails; eauto.
  - destruct (watch_step_answer s g id (AQuery (s_i s) id f) (watch_query id f (b_world (s_b s))) J CR eq_refl ltac:(apply query_cases)) as [[X _]|(res & RT & _ & X)]; [contradiction|].
    rewrite X. eexists. split; [reflexivity|]. destruct res as [|c1 c2|e]; simpl; eauto. right. right. exists f, (s_rev s). split; [auto|]. split; [|reflexivity]. eapply query_fails; eauto.
  - destruct (watch_step_answer s g id (AFinish (s_i s) id) (watch_finish id) J CR eq_refl ltac:(apply finish_cases)) as [[X _]|(res & RT & _ & X)]; [contradiction|].
    rewrite X. eexists. split; [reflexivity|]. destruct res as [|c1 c2|e]; simpl; eauto. exfalso. eapply finish_fails; eauto.
  - exfalso. apply N. destruct (s_ended s); [exact CR|]. unfold s_cancel. rewrite CR. exact CR.
  - exfalso. apply N. unfold s_forget. destruct (s_closing s); exact CR.
  - exfalso. apply N. unfold s_eof. rewrite CR. exact CR.
  - exfalso. apply N. destruct (s_ended s); exact CR.
Qed.
(** the create request itself either is answered at once or starts the wait *)
Lemma create_begins s lo hi st : sreach s -> s_creating s = None -> s_closing s = None -> s_ended s = false ->
  exists id, (s_creating (sstep s (SCreate 0 lo hi st)) = Some id /\ s_out (sstep s (SCreate 0 lo hi st)) = s_out s) \/
             (s_creating (sstep s (SCreate 0 lo hi st)) = None /\ s_out (sstep s (SCreate 0 lo hi st)) = s_out s ++ [MCreated id]).
Proof.
  intros H CR CL EN. destruct (sreach_SI s H) as [g J]. pose proof (I_group _ _ J) as G0. cbn [sstep]. rewrite EN. unfold s_create. rewrite CR, CL, G0. cbn [Z.eqb negb].
  set (id := Z.of_nat (length (g_regs g)) + 1). exists id.
  pose proof (breach_gret _ _ _ (I_breach _ _ J) G0) as GR.
  assert (NR : forall res, ~ In (id, res) (g_returns g)) by (intros res I; destruct (Q_ret _ GR _ _ I) as [K _]; unfold id in K; lia).
  assert (N : nth_error (b_groups (bstep (s_b s) (AWatch (s_i s) lo (range_end lo hi) st))) (s_i s) = Some (watch_begin lo (range_end lo hi) st g)) by (cbn [bstep]; apply set_group_nth, G0).
  unfold watch_step. unfold group_of. cbn [with_b s_b s_i]. rewrite N. unfold watch_begin. destruct (0 <? st); cbn [g_returns].
  - rewrite (find_none_ret g id NR). left. split; reflexivity.
  - cbn [r_id]. fold id. rewrite (returns_find g id WOk GR NR). right. split; reflexivity.
Qed.
(** on a working database three steps finish it *)
Definition phase_no (p : phase) : nat := match p with PCheck => 3 | PQuery => 2 | PFinish _ => 1 end.
Lemma create_ends s id : sreach s -> s_creating s = Some id -> s_creating (srun [SCheck NoFault; SQuery NoFault; SFinish] s) = None.
Proof.
  intros H CR. cbn [srun fold_left].
  assert (NEXT : forall s0 a, sreach s0 -> (a = SCheck NoFault \/ a = SQuery NoFault \/ a = SFinish) -> s_creating s0 = None -> s_creating (sstep s0 a) = None).
  { intros s0 a _ [->|[->| ->]] E; cbn [sstep]; rewrite E; exact E. }
  destruct (sreach_SI s H) as [g J]. pose proof (breach_wreach _ (I_breach _ _ J)) as WR.
  pose proof (I_pending _ _ J) as J5. rewrite CR in J5. destruct J5 as (r & p & PP & RI).
  assert (STEP : forall s0 g0 a f, sreach s0 -> SI s0 g0 -> s_creating s0 = Some id -> bstep (s_b s0) a = set_group (s_b s0) (s_i s0) f ->
     (forall r p, g_pending g0 = [(r, p)] -> r_id r = id -> let g' := f g0 in
     (exists r p, g_pending g' = [(r, p)] /\ r_id r = id) /\ g_returns g' = g_returns g0 \/
     g_pending g' = [] /\ exists res, g_returns g' = g_returns g0 ++ [(id, res)]) ->
     s_creating (watch_step s0 id a) = None \/ (s_creating (watch_step s0 id a) = Some id /\ group_of (watch_step s0 id a) = Some (f g0))).
  { intros s0 g0 a f H0 J0 CR0 E0 C0. destruct (watch_step_answer s0 g0 id a f J0 CR0 E0 C0) as [[A _]|(res & _ & A & _)]; [right|left; exact A].
    split; [exact A|]. unfold group_of. destruct (watch_step_b s0 id a) as [-> ->]. rewrite E0. apply set_group_nth, (I_group _ _ J0). }
  set (s1 := sstep s (SCheck NoFault)). assert (H1 : sreach s1) by (apply sreach_step; [exact H|exact Logic.I]).
  assert (X1 : s_creating s1 = None \/ s_creating s1 = Some id /\ exists g1 r1 p1, group_of s1 = Some g1 /\ g_pending g1 = [(r1, p1)] /\ r_id r1 = id /\ p1 <> PCheck).
  { unfold s1. cbn [sstep]. rewrite CR.
    destruct (STEP s g (ACheck (s_i s) id NoFault) (watch_check id NoFault (b_world (s_b s))) H J CR eq_refl ltac:(apply check_cases)) as [A|[A B]]; [auto|].
    right. split; [exact A|]. destruct (sreach_SI _ H1) as [g1 J1]. pose proof (I_pending _ _ J1) as P1. unfold s1 in P1. cbn [sstep] in P1. rewrite CR, A in P1. destruct P1 as (r1 & p1 & P1 & R1).
    pose proof (I_group _ _ J1) as G1. unfold s1 in G1. cbn [sstep] in G1. rewrite CR, B in G1. injection G1 as <-.
    do 3 eexists. split; [exact B|]. split; [exact P1|]. split; [exact R1|]. intros ->.
    unfold watch_check in P1. rewrite (pending_single _ _ _ _ PP RI) in P1. destruct p.
    - rewrite (interval_result_nofault _ WR) in P1. destruct (_ <? _); cbn [g_pending] in P1; rewrite PP in P1; [rewrite (drop_single _ _ _ RI) in P1; discriminate|rewrite (phase_single _ _ _ _ RI) in P1; congruence].
    - rewrite PP in P1. congruence.
    - rewrite PP in P1. congruence. }
  set (s2 := sstep s1 (SQuery NoFault)). assert (H2 : sreach s2) by (apply sreach_step; [exact H1|unfold back_ok; destruct (s_creating s1); exact Logic.I]).
  assert (X2 : s_creating s2 = None \/ s_creating s2 = Some id /\ exists g1 r1 evs, group_of s2 = Some g1 /\ g_pending g1 = [(r1, PFinish evs)] /\ r_id r1 = id).
  { destruct X1 as [X1|(CR1 & g1 & r1 & p1 & G1 & P1 & R1 & NP)]; [left; apply NEXT; auto|].
    unfold s2. cbn [sstep]. rewrite CR1. destruct (sreach_SI _ H1) as [g1' J1]. rewrite (I_group _ _ J1) in G1. injection G1 as ->.
    destruct (STEP s1 g1 (AQuery (s_i s1) id NoFault) (watch_query id NoFault (b_world (s_b s1))) H1 J1 CR1 eq_refl ltac:(apply query_cases)) as [A|[A B]]; [auto|].
    right. split; [exact A|]. unfold watch_query in B. rewrite (pending_single _ _ _ _ P1 R1) in B. destruct p1 as [| |evs]; [congruence| |].
    - cbn [sem snd answer cut_rows] in B. do 3 eexists. split; [exact B|]. cbn [g_pending]. rewrite P1, (phase_single _ _ _ _ R1). split; [reflexivity|exact R1].
    - do 3 eexists. split; [exact B|]. split; [exact P1|exact R1]. }
  destruct X2 as [X2|(CR2 & g2 & r2 & evs & G2 & P2 & R2)]; [apply NEXT; auto|].
  cbn [sstep]. rewrite CR2. destruct (sreach_SI _ H2) as [g2' J2]. rewrite (I_group _ _ J2) in G2. injection G2 as ->.
  destruct (STEP s2 g2 (AFinish (s_i s2) id) (watch_finish id) H2 J2 CR2 eq_refl ltac:(apply finish_cases)) as [A|[A B]]; [exact A|].
  exfalso. assert (H3 : sreach (watch_step s2 id (AFinish (s_i s2) id))).
  { pose proof (sreach_step s2 SFinish H2 Logic.I) as Y. cbn [sstep] in Y. now rewrite CR2 in Y. }
  destruct (sreach_SI _ H3) as [g3 J3]. pose proof (I_pending _ _ J3) as P3. rewrite A in P3. rewrite (I_group _ _ J3) in B. injection B as ->. destruct P3 as (r3 & p3 & P3 & _).
  unfold watch_finish in P3. rewrite (pending_single _ _ _ _ P2 R2) in P3. cbn [g_pending] in P3. rewrite P2, (drop_single _ _ _ R2) in P3. discriminate.
Qed.
