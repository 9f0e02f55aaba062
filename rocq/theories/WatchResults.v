(** What watchers receive. *)
From Coq Require Import List ZArith Bool Lia Sorting.Sorted.
From Verif Require Import Bytes Spec Sql System Prog Backend Watch SpecLemmas SqlLemmas Sim ReadLemmas ProgLemmas ReadProgs WatchLemmas WatchProofs.
Import ListNotations.
Open Scope Z_scope.

(** ---- returned and cancelled watches ---- *)
Record Gret (g : group) : Prop := {
  Q_regs : forall r, In r (g_regs g) -> 1 <= r_id r <= Z.of_nat (length (g_regs g));
  Q_preg : forall x, In x (g_pending g) -> In (fst x) (g_regs g);
  Q_ret : forall id res, In (id, res) (g_returns g) ->
     id <= Z.of_nat (length (g_regs g)) /\ forall x, In x (g_pending g) -> r_id (fst x) <> id;
  Q_pend : forall x, In x (g_pending g) -> ~ In (r_id (fst x)) (g_cancelled g) ->
     exists w, In w (g_watchers g) /\ w_reg w = fst x;
  Q_ok : forall id, In (id, WOk) (g_returns g) -> ~ In id (g_cancelled g) ->
     exists w, In w (g_watchers g) /\ r_id (w_reg w) = id /\ w_init w = true;
  Q_begun : forall r, In r (g_regs g) -> In r (map fst (g_pending g)) \/ exists res, In (r_id r, res) (g_returns g)
}.

Lemma Gret_new P : Gret (Group P [] [] [] 0 true [] [] []).
Proof. constructor; cbn; intros; try contradiction; auto. Qed.

Lemma Gret_publish n evs g : Gret g -> Gret (publish n evs g).
Proof.
  intros G. unfold publish. destruct (g_open g); auto.
  assert (W : forall w, In w (g_watchers g) -> exists w', In w' (map (fun w => fst (watcher_update evs w)) (g_watchers g)) /\ w_reg w' = w_reg w /\ w_init w' = w_init w).
  { intros w I. exists (fst (watcher_update evs w)). split; [apply (in_map (fun w => fst (watcher_update evs w))); auto|apply watcher_update_reg]. }
  destruct G as [Q1 Q2 Q3 Q4 Q5 Q6].
  destruct (_ <? _)%nat; constructor; cbn [g_rev g_watchers g_pending g_updates g_taken g_open g_regs g_returns g_cancelled]; auto.
  - intros x I N. destruct (Q4 x I N) as (w & A & B). destruct (W w A) as (w' & C & D & _). exists w'. split; auto. congruence.
  - intros i I N. destruct (Q5 i I N) as (w & A & B & E). destruct (W w A) as (w' & C & D & F). exists w'. split; auto. split; congruence.
  - intros x I N. destruct (Q4 x I N) as (w & A & B). destruct (W w A) as (w' & C & D & _). exists w'. split; auto. congruence.
  - intros i I N. destruct (Q5 i I N) as (w & A & B & E). destruct (W w A) as (w' & C & D & F). exists w'. split; auto. split; congruence.
Qed.
Lemma Gret_begin lo hi start g : Gret g -> Gret (watch_begin lo hi start g).
Proof.
  intros [Q1 Q2 Q3 Q4 Q5 Q6]. unfold watch_begin. set (r := Reg _ _ _ _ _).
  assert (L : Z.of_nat (length (g_regs g ++ [r])) = Z.of_nat (length (g_regs g)) + 1) by (rewrite app_length; simpl length; lia).
  assert (RI : r_id r = Z.of_nat (length (g_regs g)) + 1) by reflexivity.
  clearbody r.
  assert (A1 : forall r', In r' (g_regs g ++ [r]) -> 1 <= r_id r' <= Z.of_nat (length (g_regs g ++ [r]))).
  { intros r' I. rewrite L. apply in_app_iff in I. destruct I as [I|[<-|[]]]; [specialize (Q1 _ I)|]; lia. }
  destruct (0 <? start); constructor; cbn [g_rev g_watchers g_pending g_updates g_taken g_open g_regs g_returns g_cancelled]; auto.
  - intros x I. apply in_app_iff. apply in_app_iff in I. destruct I as [I|[<-|[]]]; simpl; auto.
  - intros i res I. destruct (Q3 i res I) as [A B]. rewrite L. split; [lia|]. intros x J. apply in_app_iff in J.
    destruct J as [J|[<-|[]]]; auto. cbn [fst]. lia.
  - intros x I N. apply in_app_iff in I. destruct I as [I|[<-|[]]].
    + destruct (Q4 x I N) as (w & A & B). exists w. split; auto. apply in_app_iff; auto.
    + exists (Watcher r false []). split; auto. apply in_app_iff; simpl; auto.
  - intros i I N. destruct (Q5 i I N) as (w & A & B & C). exists w. split; auto. apply in_app_iff; auto.
  - intros r' I. rewrite map_app. apply in_app_iff in I. destruct I as [I|[<-|[]]].
    + destruct (Q6 r' I); auto. left. apply in_app_iff; auto.
    + left. apply in_app_iff; simpl; auto.
  - intros x I. apply in_app_iff. auto.
  - intros i res I. rewrite L. apply in_app_iff in I. destruct I as [I|[[= <- <-]|[]]].
    + destruct (Q3 i res I) as [A B]. split; [lia|auto].
    + split; [lia|]. intros x J. specialize (Q1 _ (Q2 _ J)). lia.
  - intros x I N. destruct (Q4 x I N) as (w & A & B). exists w. split; auto. apply in_app_iff; auto.
  - intros i I N. apply in_app_iff in I. destruct I as [I|[[= <-]|[]]].
    + destruct (Q5 i I N) as (w & A & B & C). exists w. split; auto. apply in_app_iff; auto.
    + exists (Watcher r true []). split; auto. apply in_app_iff; simpl; auto.
  - intros r' I. apply in_app_iff in I. destruct I as [I|[<-|[]]].
    + destruct (Q6 r' I) as [|[res K]]; auto. right. exists res. apply in_app_iff; auto.
    + right. exists WOk. apply in_app_iff; simpl; auto.
Qed.

Lemma Gret_drop g id r res ws : Gret g -> In r (map fst (g_pending g)) -> r_id r = id -> res <> WOk ->
  (forall w, In w (g_watchers g) -> r_id (w_reg w) <> id -> In w ws) ->
  Gret (Group (g_rev g) ws (drop_pending id (g_pending g)) (g_updates g) (g_taken g) (g_open g) (g_regs g) (g_returns g ++ [(id, res)]) (g_cancelled g)).
Proof.
  intros [Q1 Q2 Q3 Q4 Q5 Q6] I E N W. apply in_map_iff in I. destruct I as (x0 & E0 & I0).
  constructor; cbn [g_rev g_watchers g_pending g_updates g_taken g_open g_regs g_returns g_cancelled]; auto.
  - intros x I. apply in_drop_pending in I. apply Q2. tauto.
  - intros i rs I. apply in_app_iff in I. destruct I as [I|[[= <- <-]|[]]].
    + destruct (Q3 i rs I) as [A B]. split; auto. intros x J. apply in_drop_pending in J. apply B. tauto.
    + split. { specialize (Q1 _ (Q2 _ I0)). rewrite E0 in Q1. lia. } intros x J. apply in_drop_pending in J. tauto.
  - intros x I M. apply in_drop_pending in I. destruct I as [I K]. destruct (Q4 x I M) as (w & A & B). exists w. split; auto. apply W; auto. congruence.
  - intros i I M. apply in_app_iff in I. destruct I as [I|[I|[]]]; [|injection I; congruence].
    destruct (Q5 i I M) as (w & A & B & C). exists w. split; auto. apply W; auto. rewrite B.
    destruct (Q3 i WOk I) as [_ D]. specialize (D x0 I0). rewrite E0, E in D. congruence.
  - intros r' I. destruct (Z.eq_dec (r_id r') id) as [X|X].
    + right. exists res. rewrite X. apply in_app_iff; simpl; auto.
    + destruct (Q6 r' I) as [J|[rs J]].
      * left. apply in_map_iff in J. destruct J as (y & <- & J). apply in_map. apply in_drop_pending. auto.
      * right. exists rs. apply in_app_iff; auto.
Qed.
Lemma Gret_phase g id p : Gret g ->
  Gret (Group (g_rev g) (g_watchers g) (set_phase id p (g_pending g)) (g_updates g) (g_taken g) (g_open g) (g_regs g) (g_returns g) (g_cancelled g)).
Proof.
  intros [Q1 Q2 Q3 Q4 Q5 Q6]. 
  constructor; cbn [g_rev g_watchers g_pending g_updates g_taken g_open g_regs g_returns g_cancelled]; auto.
  - intros x I. apply set_phase_sub in I. destruct I as (y & I & <-). auto.
  - intros i res I. destruct (Q3 i res I) as [A B]. split; auto. intros x J. apply set_phase_sub in J. destruct J as (y & J & <-). auto.
  - intros x I M. apply set_phase_sub in I. destruct I as (y & I & E). rewrite <- E in *. auto.
  - intros r I. destruct (Q6 r I) as [J|J]; auto. left. unfold set_phase. rewrite map_map.
    erewrite map_ext; [exact J|]. intros y. simpl. destruct (_ =? _); auto.
Qed.
Lemma pending_of_fst id g r p : pending_of id g = Some (r, p) -> In r (map fst (g_pending g)) /\ r_id r = id.
Proof. intros E. apply pending_of_in in E. destruct E as [E F]. split; auto. apply in_map_iff. exists (r, p). auto. Qed.
Lemma Gret_check id f w g : Gret g -> Gret (watch_check id f w g).
Proof.
  intros G. unfold watch_check. destruct (pending_of id g) as [[r []]|] eqn:E; auto. apply pending_of_fst in E. destruct E.
  destruct (interval_result f w) as [[a b]|e].
  - destruct (_ <? _); [apply Gret_drop with r; auto; discriminate|apply Gret_phase; auto].
  - apply Gret_drop with r; auto; discriminate.
Qed.
Lemma Gret_query id f w g : Gret g -> Gret (watch_query id f w g).
Proof.
  intros G. unfold watch_query. destruct (pending_of id g) as [[r []]|] eqn:E; auto. apply pending_of_fst in E. destruct E.
  destruct (snd (sem f _ w)).
  - apply Gret_phase; auto.
  - apply Gret_drop with r; auto; [discriminate|]. intros v I N. apply in_drop_watcher. auto.
Qed.
Lemma Gret_finish id g : Gret g -> Gret (watch_finish id g).
Proof.
  intros G. unfold watch_finish. destruct (pending_of id g) as [[r [| |evs]]|] eqn:E; auto.
  apply pending_of_in in E. destruct E as [E1 E2]. destruct G as [Q1 Q2 Q3 Q4 Q5 Q6].
  set (ws := map _ (g_watchers g)).
  assert (W : forall w, In w (g_watchers g) -> exists w', In w' ws /\ w_reg w' = w_reg w /\ (w_init w = true -> w_init w' = true) /\ (r_id (w_reg w) = id -> w_init w' = true)).
  { intros w I. eexists. split; [apply in_map; exact I|]. cbv beta. destruct (Z.eqb_spec (r_id (w_reg w)) id); cbn [w_reg w_init]; auto. }
  constructor; cbn [g_rev g_watchers g_pending g_updates g_taken g_open g_regs g_returns g_cancelled]; auto.
  - intros x I. apply in_drop_pending in I. apply Q2. tauto.
  - intros i rs I. apply in_app_iff in I. destruct I as [I|[[= <- <-]|[]]].
    + destruct (Q3 i rs I) as [A B]. split; auto. intros x J. apply in_drop_pending in J. apply B. tauto.
    + split. { specialize (Q1 _ (Q2 _ E1)). cbn [fst] in Q1. lia. } intros x J. apply in_drop_pending in J. tauto.
  - intros x I M. apply in_drop_pending in I. destruct I as [I K]. destruct (Q4 x I M) as (w & A & B).
    destruct (W w A) as (w' & C & D & _). exists w'. split; auto. congruence.
  - intros i I M. apply in_app_iff in I. destruct I as [I|[[= <-]|[]]].
    + destruct (Q5 i I M) as (w & A & B & C). destruct (W w A) as (w' & C' & D & F & _). exists w'. split; auto. split; [congruence|auto].
    + destruct (Q4 (r, PFinish evs) E1) as (w & A & B). { cbn [fst]. rewrite E2. auto. }
      destruct (W w A) as (w' & C' & D & _ & F). cbn [fst] in B. exists w'. split; auto. split; [congruence|]. apply F. congruence.
  - intros r' I. destruct (Z.eq_dec (r_id r') id) as [X|X].
    + right. exists WOk. rewrite X. apply in_app_iff; simpl; auto.
    + destruct (Q6 r' I) as [J|[rs J]].
      * left. apply in_map_iff in J. destruct J as (y & <- & J). apply in_map. apply in_drop_pending. auto.
      * right. exists rs. apply in_app_iff; auto.
Qed.
Lemma Gret_unwatch id g : Gret g -> Gret (unwatch id g).
Proof.
  intros [Q1 Q2 Q3 Q4 Q5 Q6]. unfold unwatch.
  constructor; cbn [g_rev g_watchers g_pending g_updates g_taken g_open g_regs g_returns g_cancelled]; auto.
  - intros x I M. rewrite in_app_iff in M. destruct (Q4 x I) as (w & A & B); [tauto|]. exists w. split; auto.
    apply in_drop_watcher. split; auto. rewrite B. intros X. apply M. simpl; auto.
  - intros i I M. rewrite in_app_iff in M. destruct (Q5 i I) as (w & A & B & C); [tauto|]. exists w. split; auto.
    apply in_drop_watcher. split; auto. rewrite B. intros X. apply M. simpl; auto.
Qed.

Lemma Gret_groups s : breach s -> Forall Gret (b_groups s).
Proof.
  intros H. induction H as [w H|s a H IH P]; [constructor|].
  destruct a as [op|f| | |i|i lo hi start|i id f|i id f|i id|i id|i]; cbn [bstep]; auto;
    try (apply update_nth_forall; [exact IH|]; intros g _ G).
  - destruct (fetch_same f s) as (_ & _ & ->). auto.
  - unfold publish_all. destruct (b_batch s); auto. cbn [b_groups]. apply Forall_map. eapply Forall_impl; [|exact IH].
    intros g. apply Gret_publish.
  - cbn [new_group b_groups]. apply Forall_app. split; auto. constructor; [apply Gret_new|constructor].
  - destruct G; constructor; auto.
  - apply Gret_begin; auto.
  - apply Gret_check; auto.
  - apply Gret_query; auto.
  - apply Gret_finish; auto.
  - apply Gret_unwatch; auto.
  - unfold take. destruct (_ <? _)%nat; auto. destruct G; constructor; auto.
Qed.

(** ---- deliveries ---- *)
Lemma good_rep full h r b L : r_captured r <= b -> good full h r b L -> rep full h (sel_of r) (begins r) b L.
Proof.
  intros Lb (e1 & e2 & -> & A & B). unfold begins. unfold from_of in A. destruct (Z.ltb_spec 0 (r_start r)).
  - destruct (Z_le_dec (r_start r - 1) (r_captured r)).
    + rewrite Z.min_l by lia. eapply rep_app; [|exact A|exact B]; lia.
    + rewrite Z.min_r by lia. apply rep_empty_inv in A; [|lia]. subst e1. exact B.
  - eapply rep_app; [|exact A|exact B]; lia.
Qed.
Lemma begins_le r : begins r <= r_captured r.
Proof. unfold begins. destruct (0 <? r_start r); lia. Qed.
Lemma rep_upto h sel a b b' evs : b <= b' -> rep False h sel a b evs -> rep False h sel a b' evs.
Proof. intros L (A & B & _ & C). split; auto. split; [|split; [intros []|auto]]. intros r I. destruct (B r I). split; auto. lia. Qed.

Lemma group_inv full s i g : Binv full s -> nth_error (b_groups s) i = Some g -> Ginv full (history_of (snd (b_world s))) (b_poll s) g.
Proof. intros B N. pose proof (B_groups _ _ B) as F. rewrite Forall_forall in F. apply F. eapply nth_error_In; eauto. Qed.

Lemma delivered_order s i g r k : breach s -> nth_error (b_groups s) i = Some g -> In r (g_regs g) ->
  let evs := delivered (firstn k (g_updates g)) (r_id r) in
  StronglySorted Z.lt (map ev_rev evs) /\
  forall ev, In ev evs -> begins r < ev_rev ev <= b_poll s /\ in_range (r_lo r) (r_hi r) (kv_key (ev_kv ev)) /\
    truthful_event (history_of (snd (b_world s))) (ev_rev ev) ev.
Proof.
  intros H N I evs. pose proof (group_inv _ _ _ _ (breach_Binv _ H) N) as G.
  assert (RP : rep False (history_of (snd (b_world s))) (sel_of r) (begins r) (b_poll s) evs).
  { destruct (G_all _ _ _ _ G r k I) as [E|(b & A & B)].
    - unfold evs. rewrite E. split; [constructor|]. split; [intros ? []|]. split; [intros []|constructor].
    - apply good_rep in B; [|lia]. eapply rep_upto; [|exact B]. lia. }
  destruct RP as (A & B & _ & C). split; auto. intros ev J. rewrite Forall_forall in C.
  destruct (B (ev_rev ev)) as (D & e & E & F). { now apply in_map. } specialize (C ev J).
  split; auto. split; auto. apply truthful_key in C. rewrite C in E. injection E as <-. exact F.
Qed.

Lemma delivered_prefix s i g r k : calm_reach s -> nth_error (b_groups s) i = Some g -> In r (g_regs g) ->
  exists b, b <= b_poll s /\
    reports (history_of (snd (b_world s))) (in_range (r_lo r) (r_hi r)) (begins r) b (delivered (firstn k (g_updates g)) (r_id r)).
Proof.
  intros H N I. pose proof (group_inv _ _ _ _ (calm_Binv _ H) N) as G.
  pose proof (begins_le r). destruct (G_hi _ _ _ _ G r I) as [_ Hc].
  destruct (G_all _ _ _ _ G r k I) as [E|(b & A & B)].
  - exists (begins r). split; [lia|]. rewrite E. apply reports_rep. apply rep_empty. lia.
  - exists b. split; [lia|]. apply reports_rep. apply good_rep; auto. lia.
Qed.

Lemma ok_watcher s i g r : breach s -> nth_error (b_groups s) i = Some g -> In r (g_regs g) ->
  In (r_id r, WOk) (g_returns g) -> ~ In (r_id r) (g_cancelled g) ->
  exists w, In w (g_watchers g) /\ w_reg w = r /\ w_init w = true.
Proof.
  intros H N I K M. pose proof (Gret_groups _ H) as F. rewrite Forall_forall in F.
  specialize (F g (nth_error_In _ _ N)). destruct (Q_ok _ F _ K M) as (w & A & B & C). exists w. split; auto. split; auto.
  pose proof (group_inv _ _ _ _ (breach_Binv _ H) N) as G. eapply (reg_inj False g); eauto. apply (G_w _ _ _ _ G); auto.
Qed.

(** what a watcher received and what is waiting for the next update *)
Lemma delivered_all full s i g r : Binv full s -> breach s -> nth_error (b_groups s) i = Some g -> g_open g = true -> In r (g_regs g) ->
  In (r_id r, WOk) (g_returns g) -> ~ In (r_id r) (g_cancelled g) ->
  exists w, In w (g_watchers g) /\ w_reg w = r /\ w_init w = true /\
   rep full (history_of (snd (b_world s))) (in_range (r_lo r) (r_hi r)) (begins r) (b_poll s) (delivered (g_updates g) (r_id r) ++ w_events w).
Proof.
  intros B H N O I K M. destruct (ok_watcher _ _ _ _ H N I K M) as (w & W & <- & W3). exists w. split; auto. split; auto. split; auto.
  pose proof (group_inv _ _ _ _ B N) as G. pose proof (G_init _ _ _ _ G w W W3 O) as GG.
  destruct (G_hi _ _ _ _ G _ I) as [_ Hc]. apply good_rep; [lia|auto].
Qed.

Lemma publish_groups s evs i g' : b_batch s = Some evs -> nth_error (b_groups (publish_all s)) i = Some g' ->
  exists g, nth_error (b_groups s) i = Some g /\ g' = publish (last_rev evs (b_poll s)) evs g.
Proof.
  intros E. unfold publish_all. rewrite E. cbn [b_groups]. rewrite nth_error_map. destruct (nth_error (b_groups s) i) as [g|]; [|discriminate].
  intros [= <-]. eauto.
Qed.

Lemma publish_complete full s evs i g r : Binv full s -> breach s -> b_batch s = Some evs ->
  nth_error (b_groups (bstep s APublish)) i = Some g -> g_open g = true -> In r (g_regs g) ->
  In (r_id r, WOk) (g_returns g) -> ~ In (r_id r) (g_cancelled g) ->
  rep full (history_of (snd (b_world s))) (in_range (r_lo r) (r_hi r)) (begins r) (b_poll (bstep s APublish)) (delivered (g_updates g) (r_id r)) /\
  exists us ws, g_updates g = us ++ [Update (b_poll (bstep s APublish)) ws].
Proof.
  intros B H E N O I K M.
  assert (B' : Binv full (bstep s APublish)) by (apply Binv_step; auto; simpl; auto).
  assert (H' : breach (bstep s APublish)) by (apply breach_step; simpl; auto).
  destruct (delivered_all full _ i g r B' H' N O I K M) as (w & W1 & W2 & W3 & W4).
  assert (Wd : b_world (bstep s APublish) = b_world s) by (cbn [bstep]; unfold publish_all; rewrite E; auto).
  rewrite Wd in W4.
  destruct (publish_groups _ _ _ _ E N) as (g0 & N0 & ->).
  assert (P' : b_poll (bstep s APublish) = last_rev evs (b_poll s)) by (cbn [bstep]; unfold publish_all; rewrite E; auto).
  rewrite P' in *. unfold publish in *. destruct (g_open g0) eqn:O0; [|congruence].
  destruct (_ <? _)%nat; [|discriminate]. cbn [g_watchers g_updates] in *.
  apply in_map_iff in W1. destruct W1 as (w0 & <- & _).
  assert (EV : w_events (fst (watcher_update evs w0)) = []).
  { revert W3. unfold watcher_update. destruct (w_init w0); [auto|discriminate]. }
  rewrite EV, app_nil_r in W4. split; auto. eauto.
Qed.

(** the poller catches up *)
Lemma fetch_ok s : b_dead s = false -> b_batch s = None ->
  fetch NoFault s = BState (b_world s) (b_poll s) (Some (map scan_event (firstn 500 (after_sql (b_poll s) (fst (b_world s)))))) false (b_groups s).
Proof.
  intros D E. unfold fetch. rewrite D, E. cbn [sem snd answer cut_rows]. unfold scan_all, opt_limit, poll_batch_size. cbn [Z.ltb Z.compare rs_rows].
  rewrite ztake_firstn by lia. reflexivity.
Qed.
Lemma round_poll s : breach s -> b_dead s = false -> kept (snd (b_world s)) (b_poll s) ->
  let s' := poll_round s in
  breach s' /\ b_world s' = b_world s /\ b_dead s' = false /\ b_batch s' = None /\ b_poll s <= b_poll s' /\
  (b_batch s = None -> b_poll s < revision (history_of (snd (b_world s))) -> b_poll s < b_poll s').
Proof.
  intros H D F s'. assert (H' : breach s') by (repeat apply breach_step; simpl; auto).
  split; auto. pose proof (breach_Binv _ H) as B.
  unfold s', poll_round in *. cbn [bstep] in *. destruct (b_batch s) as [evs|] eqn:E.
  - assert (FS : fetch NoFault s = s) by (unfold fetch; rewrite D, E; auto).
    rewrite FS. unfold publish_all. rewrite E. cbn [b_world b_poll b_batch b_dead].
    destruct (B_batch _ _ B evs E) as [L _]. repeat split; auto; try lia. discriminate.
  - rewrite (fetch_ok s D E). unfold publish_all. cbn [b_batch b_world b_poll b_dead b_groups].
    destruct (fetch_batch True (b_world s) (b_poll s) 500 (B_reach _ _ B)) as [L RP]; [intros _; auto|apply (B_poll _ _ B)|].
    rewrite firstn_map in L, RP. repeat split; auto; try lia.
    intros _ K. destruct (Z.eq_dec (last_rev (map scan_event (firstn 500 (after_sql (b_poll s) (fst (b_world s))))) (b_poll s)) (b_poll s)) as [X|X]; [|lia].
    exfalso. rewrite X in RP.
    assert (NIL : map scan_event (firstn 500 (after_sql (b_poll s) (fst (b_world s)))) = []) by (eapply rep_empty_inv; [|exact RP]; lia).
    assert (NIL2 : after_sql (b_poll s) (fst (b_world s)) = []) by (destruct (after_sql (b_poll s) (fst (b_world s))); [auto|discriminate]).
    pose proof (after_reports True (fst (b_world s)) (snd (b_world s)) (b_poll s) (reach_R _ _ (B_reach _ _ B)) (fun _ => F)) as (_ & _ & C & _).
    rewrite NIL2, Z.max_r in C by lia.
    set (n := revision (history_of (snd (b_world s)))) in *.
    destruct (C Logic.I n); [lia|].
    assert (1 <= n). { pose proof (B_poll _ _ B). lia. }
    unfold changed. destruct (ent (history_of (snd (b_world s))) n) eqn:EN; [eauto|].
    exfalso. unfold ent in EN. destruct (Z.leb_spec 1 n); [|lia]. apply nth_error_None in EN. unfold n, revision in *. lia.
Qed.
Lemma kept_mono s a a' : kept s a -> a <= a' -> kept s a'.
Proof. intros [H|[H K]] L; [left; lia|]. destruct (Z.eq_dec a a') as [->|]; [right; auto|left; lia]. Qed.
Lemma rounds_poll n s : breach s -> b_dead s = false -> kept (snd (b_world s)) (b_poll s) ->
  revision (history_of (snd (b_world s))) - b_poll s + 1 <= Z.of_nat n ->
  let s' := poll_rounds n s in
  breach s' /\ b_world s' = b_world s /\ b_dead s' = false /\ b_poll s' = revision (history_of (snd (b_world s))).
Proof.
  assert (K : forall n s, breach s -> b_dead s = false -> kept (snd (b_world s)) (b_poll s) -> b_batch s = None ->
    revision (history_of (snd (b_world s))) - b_poll s <= Z.of_nat n ->
    breach (poll_rounds n s) /\ b_world (poll_rounds n s) = b_world s /\ b_dead (poll_rounds n s) = false /\ b_poll (poll_rounds n s) = revision (history_of (snd (b_world s)))).
  { clear n s. intros n. induction n as [|n IH]; intros s H D F E L; cbn [poll_rounds].
    - pose proof (B_poll _ _ (breach_Binv _ H)). repeat split; auto. lia.
    - destruct (round_poll s H D F) as (A1 & A2 & A3 & A4 & A5 & A6). specialize (A6 E).
      rewrite <- A2. apply IH; auto; rewrite ?A2; try lia. eapply kept_mono; eauto. }
  intros H D F L. destruct n as [|n]; cbn [poll_rounds].
  - pose proof (B_poll _ _ (breach_Binv _ H)). lia.
  - destruct (round_poll s H D F) as (A1 & A2 & A3 & A4 & A5 & A6).
    rewrite <- A2. apply K; auto; rewrite ?A2; try lia. eapply kept_mono; eauto.
Qed.

(** ---- combined ---- *)
Lemma poll_rounds_last n s : poll_rounds (S n) s = poll_round (poll_rounds n s).
Proof. revert s. induction n as [|n IH]; intros s; [reflexivity|]. cbn [poll_rounds] in *. now rewrite <- IH. Qed.
Lemma calm_round s : calm_reach s -> kept (snd (b_world s)) (b_poll s) -> calm_reach (poll_round s).
Proof. intros H K. unfold poll_round. apply calm_step; [apply calm_step; auto; simpl; auto|simpl; auto|simpl; auto]. Qed.
Lemma calm_rounds n s : calm_reach s -> b_dead s = false -> kept (snd (b_world s)) (b_poll s) -> calm_reach (poll_rounds n s).
Proof.
  revert s. induction n as [|n IH]; intros s H D K; [exact H|]. cbn [poll_rounds].
  destruct (round_poll s (calm_breach _ H) D K) as (A1 & A2 & A3 & A4 & A5 & A6).
  apply IH; auto; [now apply calm_round|]. rewrite A2. eapply kept_mono; eauto.
Qed.
Lemma fetch_batch_some s : b_dead s = false -> exists evs, b_batch (fetch NoFault s) = Some evs.
Proof.
  intros D. destruct (b_batch s) as [evs|] eqn:E.
  - exists evs. unfold fetch. rewrite D, E. auto.
  - rewrite (fetch_ok s D E). cbn [b_batch]. eauto.
Qed.
Lemma rounds_stay n s : breach s -> b_dead s = false -> kept (snd (b_world s)) (b_poll s) ->
  b_dead (poll_rounds n s) = false /\ b_world (poll_rounds n s) = b_world s /\ b_poll s <= b_poll (poll_rounds n s).
Proof.
  revert s. induction n as [|n IH]; intros s H D K; [repeat split; auto; cbn [poll_rounds]; lia|]. cbn [poll_rounds].
  destruct (round_poll s H D K) as (A1 & A2 & A3 & A4 & A5 & A6).
  destruct (IH (poll_round s)) as (C1 & C2 & C3); auto. { rewrite A2. eapply kept_mono; eauto. }
  rewrite C2. repeat split; auto. lia.
Qed.

Lemma eventually_delivered n s : calm_reach s -> b_dead s = false -> kept (snd (b_world s)) (b_poll s) ->
  revision (history_of (snd (b_world s))) - b_poll s + 1 <= Z.of_nat n ->
  let s' := poll_rounds n s in
  b_world s' = b_world s /\
  forall i g r, nth_error (b_groups s') i = Some g -> g_open g = true -> In r (g_regs g) ->
    In (r_id r, WOk) (g_returns g) -> ~ In (r_id r) (g_cancelled g) ->
    reports (history_of (snd (b_world s))) (in_range (r_lo r) (r_hi r)) (begins r) (revision (history_of (snd (b_world s))))
      (delivered (g_updates g) (r_id r)).
Proof.
  intros H D K L s'. pose proof (calm_breach _ H) as HB.
  destruct (rounds_poll n s HB D K L) as (A1 & A2 & A3 & A4). fold s' in A1, A2, A3, A4. split; auto.
  intros i g r N OP I RT NC.
  assert (n <> 0%nat) by (pose proof (B_poll _ _ (breach_Binv _ HB)); lia). destruct n as [|n]; [contradiction|].
  set (s1 := poll_rounds n s) in *. assert (E : s' = bstep (bstep s1 (AFetch NoFault)) APublish) by (unfold s'; rewrite poll_rounds_last; reflexivity).
  destruct (rounds_stay n s HB D K) as (C1 & C2 & C3). fold s1 in C1, C2, C3.
  assert (H1 : calm_reach s1) by (apply calm_rounds; auto).
  assert (H2 : calm_reach (bstep s1 (AFetch NoFault))).
  { apply calm_step; simpl; auto. rewrite C2. eapply kept_mono; eauto. }
  destruct (fetch_batch_some s1 C1) as [evs F].
  rewrite E in N, A4.
  destruct (publish_complete True _ evs i g r (calm_Binv _ H2) (calm_breach _ H2) F N OP I RT NC) as [RP _].
  rewrite A4 in RP. apply reports_rep.
  replace (b_world (bstep s1 (AFetch NoFault))) with (b_world s) in RP; auto.
  symmetry. cbn [bstep]. rewrite (proj1 (fetch_same NoFault s1)). auto.
Qed.

(** ---- registration check ---- *)
Lemma interval_result_ok (w : world) f : wreach w -> match interval_result f w with
  | Ok x => x = (floor_of (snd w), revision (history_of (snd w)))
  | Err _ => True end.
Proof.
  intros H. pose proof (interval_R _ _ (reach_R _ _ H)) as [I1 I2]. unfold interval_result.
  Opaque revision_interval_sql.
  destruct (revision_interval_sql (fst w)) as [lo hi] eqn:E. simpl in I1, I2.
  destruct f as [|e|e|n e|]; cbn [sem snd answer cut_rows]; rewrite ?E; cbn; auto; try (subst; congruence).
  destruct n; cbn; auto. congruence.
  Transparent revision_interval_sql.
Qed.
Lemma interval_result_nofault (w : world) : wreach w -> interval_result NoFault w = Ok (floor_of (snd w), revision (history_of (snd w))).
Proof.
  intros H. pose proof (interval_R _ _ (reach_R _ _ H)) as [I1 I2]. unfold interval_result.
  Opaque revision_interval_sql.
  destruct (revision_interval_sql (fst w)) as [lo hi] eqn:E. simpl in I1, I2.
  cbn [sem snd answer cut_rows]; rewrite ?E; cbn. congruence.
  Transparent revision_interval_sql.
Qed.

(** a watch below the floor is refused, whatever the query does; one at or above
    it is not refused as compacted *)
Lemma check_refuses s i g r f : breach s -> nth_error (b_groups s) i = Some g -> In (r, PCheck) (g_pending g) ->
  exists g', nth_error (b_groups (bstep s (ACheck i (r_id r) f))) i = Some g' /\
  (r_start r < floor_of (snd (b_world s)) ->
     (exists e, In (r_id r, WFailed e) (g_returns g')) \/
     In (r_id r, WCompacted (floor_of (snd (b_world s))) (revision (history_of (snd (b_world s))))) (g_returns g')) /\
  (f = NoFault -> r_start r < floor_of (snd (b_world s)) ->
     In (r_id r, WCompacted (floor_of (snd (b_world s))) (revision (history_of (snd (b_world s))))) (g_returns g')) /\
  (floor_of (snd (b_world s)) <= r_start r -> forall a b, ~ In (r_id r, WCompacted a b) (g_returns g')).
Proof.
  intros H N I. pose proof (breach_Binv _ H) as B. pose proof (group_inv _ _ _ _ B N) as G.
  exists (watch_check (r_id r) f (b_world s) g). split.
  { cbn [bstep set_group b_groups]. rewrite update_nth_nth, Nat.eqb_refl, N. reflexivity. }
  assert (P : pending_of (r_id r) g = Some (r, PCheck)).
  { unfold pending_of. destruct (find _ (g_pending g)) as [[r' p']|] eqn:E.
    - apply find_some in E. destruct E as [E1 E2]. cbn [fst] in E2. apply Z.eqb_eq in E2. f_equal.
      apply (pending_unique False _ _ g _ _ G E1 I). exact E2.
    - exfalso. apply (find_none _ _ E) in I. cbn [fst] in I. rewrite Z.eqb_refl in I. discriminate. }
  unfold watch_check. rewrite P. pose proof (interval_result_ok (b_world s) f (B_reach _ _ B)) as IR.
  assert (NR : forall res, ~ In (r_id r, res) (g_returns g)).
  { intros res J. pose proof (Gret_groups _ H) as F. rewrite Forall_forall in F. specialize (F g (nth_error_In _ _ N)).
    destruct (Q_ret _ F _ _ J) as [_ K]. apply (K _ I). reflexivity. }
  destruct (interval_result f (b_world s)) as [x|e] eqn:IE.
  - subst x. destruct (Z.ltb_spec (r_start r) (floor_of (snd (b_world s)))); cbn [g_returns].
    + split; [|split]; intros; try lia; try (right; apply in_app_iff; simpl; auto). apply in_app_iff; simpl; auto.
    + split; [lia|]. split; [lia|]. intros _ a b. apply NR.
  - cbn [g_returns]. split; [intros _; left; exists e; apply in_app_iff; simpl; auto|]. split.
    + intros -> _. rewrite interval_result_nofault in IE; [discriminate|apply (B_reach _ _ B)].
    + intros _ a b J. apply in_app_iff in J. destruct J as [J|[J|[]]]; [exact (NR _ J)|congruence].
Qed.

(** ---- poller failures ---- *)
Lemma dead_forever acts : forall s, b_dead s = true -> b_batch s = None ->
  let s' := fold_left bstep acts s in b_dead s' = true /\ b_batch s' = None /\ b_poll s' = b_poll s /\
  (forall i g g', nth_error (b_groups s) i = Some g -> nth_error (b_groups s') i = Some g' -> g_updates g' = g_updates g).
Proof.
  induction acts as [|a acts IH]; intros s D E; [simpl; repeat split; auto; intros; congruence|]. cbn [fold_left].
  assert (K : b_dead (bstep s a) = true /\ b_batch (bstep s a) = None /\ b_poll (bstep s a) = b_poll s /\
    (forall i g, nth_error (b_groups s) i = Some g -> exists g', nth_error (b_groups (bstep s a)) i = Some g' /\ g_updates g' = g_updates g)).
  { assert (SG : forall i f, (forall g, g_updates (f g) = g_updates g) -> forall j g, nth_error (b_groups s) j = Some g ->
       exists g', nth_error (b_groups (set_group s i f)) j = Some g' /\ g_updates g' = g_updates g).
    { intros i f Hf j g N. cbn [set_group b_groups]. rewrite update_nth_nth, N. cbn [option_map]. destruct (Nat.eqb j i); eauto. }
    destruct a as [op|f| | |i|i lo hi start|i id f|i id f|i id|i id|i]; cbn [bstep].
    - cbn [b_dead b_batch b_poll b_groups]. repeat split; eauto.
    - unfold fetch. rewrite D. repeat split; eauto.
    - unfold publish_all. rewrite E. repeat split; eauto.
    - cbn [new_group b_dead b_batch b_poll b_groups]. repeat split; auto. intros i g N. exists g. split; auto. rewrite nth_error_app1; auto.
      apply nth_error_Some. congruence.
    - split; [exact D|]. split; [exact E|]. split; [reflexivity|]. apply SG. reflexivity.
    - split; [exact D|]. split; [exact E|]. split; [reflexivity|]. apply SG. intros g. unfold watch_begin. destruct (_ <? _); auto.
    - split; [exact D|]. split; [exact E|]. split; [reflexivity|]. apply SG. intros g. unfold watch_check. destruct (pending_of id g) as [[r []]|]; auto.
      destruct (interval_result f (b_world s)) as [[x y]|]; auto. destruct (_ <? _); auto.
    - split; [exact D|]. split; [exact E|]. split; [reflexivity|]. apply SG. intros g. unfold watch_query. destruct (pending_of id g) as [[r []]|]; auto.
      destruct (snd (sem f _ (b_world s))); auto.
    - split; [exact D|]. split; [exact E|]. split; [reflexivity|]. apply SG. intros g. unfold watch_finish. destruct (pending_of id g) as [[r []]|]; auto.
    - split; [exact D|]. split; [exact E|]. split; [reflexivity|]. apply SG. reflexivity.
    - split; [exact D|]. split; [exact E|]. split; [reflexivity|]. apply SG. intros g. unfold take. destruct (_ <? _)%nat; auto. }
  destruct K as (K1 & K2 & K3 & K4). destruct (IH _ K1 K2) as (J1 & J2 & J3 & J4). repeat split; auto; [congruence|].
  intros i g g' N N'. destruct (K4 i g N) as (g1 & N1 & E1). rewrite <- E1. eapply J4; eauto.
Qed.
(** errors other than time-outs and cancellation *)
Definition survivable (f : fault) : Prop :=
  match f with FailBefore e | FailAfter e => e <> EDeadline /\ e <> ECanceled | _ => True end.
Lemma fetch_survives f s : survivable f -> b_dead (fetch f s) = b_dead s.
Proof.
  intros H. unfold fetch. destruct (b_dead s) eqn:D; [rewrite D; auto|]. destruct (b_batch s); [auto|].
  destruct f as [|e|e|n e|]; cbn [sem snd]; auto; destruct H as [H1 H2]; destruct e; auto; congruence.
Qed.

(** ---- a watch whose initial query fails ---- *)
Lemma query_error_removes s i g r f e : breach s -> nth_error (b_groups s) i = Some g -> In (r, PQuery) (g_pending g) ->
  (f = FailBefore e \/ f = FailAfter e) ->
  exists g', nth_error (b_groups (bstep s (AQuery i (r_id r) f))) i = Some g' /\ In (r_id r, WFailed e) (g_returns g') /\
    forall w, In w (g_watchers g') -> r_id (w_reg w) <> r_id r.
Proof.
  intros H N I F. pose proof (breach_Binv _ H) as B. pose proof (group_inv _ _ _ _ B N) as G.
  exists (watch_query (r_id r) f (b_world s) g). split.
  { cbn [bstep set_group b_groups]. rewrite update_nth_nth, Nat.eqb_refl, N. reflexivity. }
  assert (P : pending_of (r_id r) g = Some (r, PQuery)).
  { unfold pending_of. destruct (find _ (g_pending g)) as [[r' p']|] eqn:E.
    - apply find_some in E. destruct E as [E1 E2]. cbn [fst] in E2. apply Z.eqb_eq in E2. f_equal.
      apply (pending_unique False _ _ g _ _ G E1 I). exact E2.
    - exfalso. apply (find_none _ _ E) in I. cbn [fst] in I. rewrite Z.eqb_refl in I. discriminate. }
  unfold watch_query. rewrite P. destruct F as [-> | ->]; cbn [sem snd g_returns g_watchers]; (split; [apply in_app_iff; simpl; auto|]);
    intros w J; apply in_drop_watcher in J; tauto.
Qed.
