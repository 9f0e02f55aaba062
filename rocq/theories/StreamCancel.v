(** Cancelling a watch: it stops, and nothing else changes. *)
From Coq Require Import List ZArith Bool Lia Sorting.Sorted.
From Verif Require Import Bytes Spec Sql System Prog Backend Watch Stream SpecLemmas SqlLemmas Sim ReadLemmas ProgLemmas ReadProgs WatchLemmas WatchProofs WatchResults StreamProofs.
Import ListNotations.
Open Scope Z_scope.

(** ---- a cancelled watch gets no further events ---- *)
Definition gone (id : Z) (g : group) : Prop :=
  id <= Z.of_nat (length (g_regs g)) /\ forall w, In w (g_watchers g) -> r_id (w_reg w) <> id.
Lemma gone_updates id evs ws : (forall w, In w ws -> r_id (w_reg w) <> id) ->
  flat_map (fun x : Z * list event => if fst x =? id then snd x else []) (group_updates evs ws) = [].
Proof.
  intros H. assert (forall x, In x (group_updates evs ws) -> fst x <> id) as K.
  { intros x I. destruct (group_updates_ids _ _ _ I) as (w & A & B). rewrite <- B. auto. }
  induction (group_updates evs ws) as [|x l IH]; simpl; auto. destruct (Z.eqb_spec (fst x) id) as [E|E]; [contradiction (K x (or_introl eq_refl) E)|].
  apply IH. intros y I. apply K. simpl; auto.
Qed.
Lemma gone_publish id n evs g : gone id g -> gone id (publish n evs g) /\ delivered (g_updates (publish n evs g)) id = delivered (g_updates g) id.
Proof.
  intros [A B]. unfold publish. destruct (g_open g); [|split; [split|]; auto].
  assert (W : forall w, In w (map (fun w => fst (watcher_update evs w)) (g_watchers g)) -> r_id (w_reg w) <> id).
  { intros w I. apply in_map_iff in I. destruct I as (w' & <- & I). destruct (watcher_update_reg evs w') as [-> _]. auto. }
  destruct (_ <? _)%nat; (split; [split; auto|]); auto.
  cbn [g_updates]. rewrite delivered_app, delivered_one. cbn [u_watchers]. rewrite gone_updates by auto. apply app_nil_r.
Qed.
Lemma gone_same id (g g' : group) : gone id g -> g_regs g' = g_regs g -> (forall w, In w (g_watchers g') -> exists w', In w' (g_watchers g) /\ w_reg w' = w_reg w) -> gone id g'.
Proof. intros [A B] E F. split; [now rewrite E|]. intros w I. destruct (F w I) as (w' & I' & <-). auto. Qed.
Lemma gone_step s a i g id : nth_error (b_groups s) i = Some g -> gone id g ->
  exists g', nth_error (b_groups (bstep s a)) i = Some g' /\ gone id g' /\ delivered (g_updates g') id = delivered (g_updates g) id.
Proof.
  intros N H.
  assert (SG : forall j f, gone id (f g) -> g_updates (f g) = g_updates g ->
    exists g', nth_error (b_groups (set_group s j f)) i = Some g' /\ gone id g' /\ delivered (g_updates g') id = delivered (g_updates g) id).
  { intros j f F1 F2. cbn [set_group b_groups]. rewrite update_nth_nth, N. cbn [option_map]. destruct (Nat.eqb i j); [exists (f g); rewrite F2|exists g]; auto. }
  assert (SAME : exists g', Some g = Some g' /\ gone id g' /\ delivered (g_updates g') id = delivered (g_updates g) id) by (exists g; auto).
  destruct a as [op|f| | |j|j lo hi start|j id' f|j id' f|j id'|j id'|j]; cbn [bstep].
  - cbn [b_groups]. rewrite N. auto.
  - destruct (fetch_same f s) as (_ & _ & E). rewrite E, N. auto.
  - unfold publish_all. destruct (b_batch s) as [evs|]; [|rewrite N; auto]. cbn [b_groups]. rewrite nth_error_map, N. cbn [option_map].
    eexists. split; [reflexivity|]. apply gone_publish. exact H.
  - cbn [new_group b_groups]. rewrite nth_error_app1 by (apply nth_error_Some; congruence). rewrite N. auto.
  - apply SG; auto.
  - destruct H as [A B]. apply SG; unfold watch_begin; destruct (0 <? start); auto; (split; cbn [g_regs g_watchers]; [rewrite app_length; simpl; lia|]);
      intros w I; apply in_app_iff in I; destruct I as [I|[<-|[]]]; auto; simpl; lia.
  - apply SG; unfold watch_check; destruct (pending_of id' g) as [[r []]|]; auto; destruct (interval_result f (b_world s)) as [[x y]|e]; auto; destruct (_ <? _); auto.
  - apply SG; unfold watch_query; destruct (pending_of id' g) as [[r []]|]; auto; destruct (snd (sem f _ _)); auto.
    apply (gone_same id g); auto. cbn [g_watchers]. intros w I. apply in_drop_watcher in I. exists w. tauto.
  - apply SG; unfold watch_finish; destruct (pending_of id' g) as [[r []]|]; auto.
    apply (gone_same id g); auto. cbn [g_watchers]. intros w I. apply in_map_iff in I. destruct I as (w' & <- & I). exists w'. split; auto. destruct (_ =? _); auto.
  - apply SG; auto. apply (gone_same id g); auto. cbn [unwatch g_watchers]. intros w I. apply in_drop_watcher in I. exists w. tauto.
  - apply SG; unfold take; destruct (_ <? _)%nat; auto.
Qed.
Lemma gone_later s s' g id : slater s s' -> group_of s = Some g -> gone id g ->
  exists g', group_of s' = Some g' /\ gone id g' /\ delivered (g_updates g') id = delivered (g_updates g) id.
Proof.
  intros L G H. induction L as [s|s s' a L IH P]; [exists g; auto|]. destruct (IH G) as (g1 & G1 & H1 & E1).
  unfold group_of in *. destruct (sstep_b s' a P) as [E [F|(act & F & _)]]; rewrite E, F; [exists g1; auto|].
  destruct (gone_step (s_b s') act (s_i s') g1 id G1 H1) as (g2 & G2 & H2 & E2). exists g2. repeat split; auto; try apply H2. congruence.
Qed.
Lemma cancel_gone s g id : group_of s = Some g -> s_creating s = None -> s_closing s = None -> s_ended s = false -> id <= Z.of_nat (length (g_regs g)) ->
  exists g', group_of (sstep s (SCancel id)) = Some g' /\ gone id g' /\ g_updates g' = g_updates g.
Proof.
  intros G CR CL EN L. exists (unwatch id g). cbn [sstep]. rewrite EN. unfold s_cancel. rewrite CR, CL. unfold group_of. cbn [s_b s_i bstep].
  rewrite (set_group_nth _ _ _ _ G). split; [reflexivity|]. split; [|reflexivity]. split; [exact L|]. intros w I. cbn [unwatch g_watchers] in I. apply in_drop_watcher in I. tauto.
Qed.
Lemma sent_prefix s g id : sreach s -> group_of s = Some g -> exists rest, delivered (g_updates g) id = sent (s_out s) id ++ rest.
Proof.
  intros H G. destruct (sreach_SI s H) as [g0 J]. rewrite (I_group _ _ J) in G. injection G as ->.
  pose proof (I_hold _ _ J) as K.
  assert (exists k, sent (s_out s) id = delivered (firstn k (g_updates g)) id) as [k ->].
  { destruct (s_hold s); [destruct K as (t & u & _ & _ & _ & _ & K)|destruct K as [K _]]; eauto. }
  exists (delivered (skipn k (g_updates g)) id). rewrite <- delivered_app, firstn_skipn. reflexivity.
Qed.
Lemma cancel_stops s g id s' : sreach s -> group_of s = Some g -> s_creating s = None -> s_closing s = None -> s_ended s = false ->
  In (MCreated id) (s_out s) -> slater (sstep s (SCancel id)) s' ->
  exists rest, delivered (g_updates g) id = sent (s_out s') id ++ rest.
Proof.
  intros H G CR CL EN M L. destruct (sreach_SI s H) as [g0 J]. pose proof G as G0. rewrite (I_group _ _ J) in G0. injection G0 as ->.
  pose proof (I_created _ _ J _ M) as RT. pose proof (breach_gret _ _ _ (I_breach _ _ J) (I_group _ _ J)) as GR. destruct (Q_ret _ GR _ _ RT) as [LE _].
  destruct (cancel_gone s g id G CR CL EN LE) as (g1 & G1 & N1 & U1). destruct (gone_later _ _ _ _ L G1 N1) as (g2 & G2 & _ & E2).
  assert (H' : sreach s') by (eapply slater_sreach; [exact L|]; apply sreach_step; [exact H|exact Logic.I]).
  rewrite <- U1, <- E2. now apply sent_prefix.
Qed.

(** ---- the other watches are not affected ---- *)
Definition others {A} (id : Z) (l : list (Z * A)) : list (Z * A) := filter (fun x => negb (fst x =? id)) l.
(** all messages that are not for watch [id] *)
Definition not_for (id : Z) (m : msg) : bool :=
  match m with MEvents _ j _ => negb (j =? id) | MProgress _ j => negb (j =? id) | _ => true end.
Definition seen_by_others (id : Z) (out : list msg) : list msg := filter (not_for id) out.
Definition ustrip (id : Z) (u : update) : Z * list (Z * list event) := (u_rev u, others id (u_watchers u)).

Record gsim (id : Z) (g1 g2 : group) : Prop := {
  gs_rev : g_rev g1 = g_rev g2;
  gs_w : drop_watcher id (g_watchers g1) = drop_watcher id (g_watchers g2);
  gs_p : g_pending g1 = g_pending g2;
  gs_u : map (ustrip id) (g_updates g1) = map (ustrip id) (g_updates g2);
  gs_t : g_taken g1 = g_taken g2;
  gs_o : g_open g1 = g_open g2;
  gs_regs : g_regs g1 = g_regs g2;
  gs_ret : g_returns g1 = g_returns g2 }.
Record bsim (id : Z) (b1 b2 : bstate) : Prop := {
  bs_w : b_world b1 = b_world b2;
  bs_p : b_poll b1 = b_poll b2;
  bs_b : b_batch b1 = b_batch b2;
  bs_d : b_dead b1 = b_dead b2;
  bs_g : Forall2 (gsim id) (b_groups b1) (b_groups b2) }.
Lemma gsim_refl id g : gsim id g g.
Proof. constructor; auto. Qed.
Lemma Forall2_refl_all {A} (P : A -> A -> Prop) l : (forall x, P x x) -> Forall2 P l l.
Proof. intros H. induction l; auto. Qed.
Lemma bsim_refl id b : bsim id b b.
Proof. constructor; auto. apply Forall2_refl_all, gsim_refl. Qed.

Lemma filter_comm {A} (p q : A -> bool) l : filter p (filter q l) = filter q (filter p l).
Proof. induction l as [|x l IH]; simpl; auto. destruct (p x) eqn:P, (q x) eqn:Q; simpl; rewrite ?P, ?Q, ?IH; auto. Qed.
Lemma drop_map id (f : watcher -> watcher) l : (forall w, w_reg (f w) = w_reg w) -> drop_watcher id (map f l) = map f (drop_watcher id l).
Proof. intros H. unfold drop_watcher. induction l as [|w l IH]; simpl; auto. rewrite H. destruct (negb _); simpl; now rewrite IH. Qed.
Lemma drop_app id l1 l2 : drop_watcher id (l1 ++ l2) = drop_watcher id l1 ++ drop_watcher id l2.
Proof. apply filter_app. Qed.
Lemma others_updates id evs ws : others id (group_updates evs ws) = group_updates evs (drop_watcher id ws).
Proof.
  unfold others, group_updates, drop_watcher. rewrite filter_comm. f_equal. induction ws as [|w ws IH]; simpl; auto.
  destruct (negb _); simpl; now rewrite IH.
Qed.
Lemma gsim_publish id n evs g1 g2 : gsim id g1 g2 -> gsim id (publish n evs g1) (publish n evs g2).
Proof.
  intros [A1 A2 A3 A4 A5 A6 A7 A8]. unfold publish. rewrite <- A6. destruct (g_open g1) eqn:O; [|constructor; congruence].
  assert (L : length (g_updates g1) = length (g_updates g2)) by (rewrite <- (map_length (ustrip id) (g_updates g1)), A4, map_length; auto).
  assert (W : drop_watcher id (map (fun w => fst (watcher_update evs w)) (g_watchers g1)) = drop_watcher id (map (fun w => fst (watcher_update evs w)) (g_watchers g2))).
  { rewrite !drop_map by (intros w; apply (watcher_update_reg evs w)). now rewrite A2. }
  rewrite <- A5, <- L. destruct (_ <? _)%nat; constructor; cbn [g_rev g_watchers g_pending g_updates g_taken g_open g_regs g_returns]; auto.
  rewrite !map_app, A4. f_equal. simpl. unfold ustrip. cbn [u_rev u_watchers]. now rewrite !others_updates, A2.
Qed.
Lemma pending_eq id' g1 g2 : g_pending g1 = g_pending g2 -> pending_of id' g1 = pending_of id' g2.
Proof. intros E. unfold pending_of. now rewrite E. Qed.
Ltac fin := constructor; cbn [g_rev g_watchers g_pending g_updates g_taken g_open g_regs g_returns]; congruence.
Lemma gsim_begin id lo hi start g1 g2 : gsim id g1 g2 -> gsim id (watch_begin lo hi start g1) (watch_begin lo hi start g2).
Proof.
  intros [A1 A2 A3 A4 A5 A6 A7 A8]. unfold watch_begin. rewrite <- A7, <- A1. destruct (0 <? start);
    constructor; cbn [g_rev g_watchers g_pending g_updates g_taken g_open g_regs g_returns]; rewrite ?drop_app; congruence.
Qed.
Lemma gsim_check id id' f w g1 g2 : gsim id g1 g2 -> gsim id (watch_check id' f w g1) (watch_check id' f w g2).
Proof.
  intros H. pose proof H as [A1 A2 A3 A4 A5 A6 A7 A8]. unfold watch_check. rewrite (pending_eq id' _ _ A3).
  destruct (pending_of id' g2) as [[r []]|]; auto. destruct (interval_result f w) as [[x y]|e]; [destruct (_ <? _)|]; fin.
Qed.
Lemma gsim_query id id' f w g1 g2 : gsim id g1 g2 -> gsim id (watch_query id' f w g1) (watch_query id' f w g2).
Proof.
  intros H. pose proof H as [A1 A2 A3 A4 A5 A6 A7 A8]. unfold watch_query. rewrite (pending_eq id' _ _ A3).
  destruct (pending_of id' g2) as [[r []]|]; auto. destruct (snd (sem f _ w)); [fin|].
  constructor; cbn [g_rev g_watchers g_pending g_updates g_taken g_open g_regs g_returns]; try congruence.
  unfold drop_watcher in *. rewrite filter_comm, A2, filter_comm. reflexivity.
Qed.
Lemma gsim_finish id id' g1 g2 : gsim id g1 g2 -> gsim id (watch_finish id' g1) (watch_finish id' g2).
Proof.
  intros H. pose proof H as [A1 A2 A3 A4 A5 A6 A7 A8]. unfold watch_finish. rewrite (pending_eq id' _ _ A3).
  destruct (pending_of id' g2) as [[r []]|]; auto.
  constructor; cbn [g_rev g_watchers g_pending g_updates g_taken g_open g_regs g_returns]; try congruence.
  rewrite !drop_map by (intros w; destruct (_ =? _); reflexivity). now rewrite A2.
Qed.
Lemma gsim_unwatch id id' g1 g2 : gsim id g1 g2 -> gsim id (unwatch id' g1) (unwatch id' g2).
Proof.
  intros [A1 A2 A3 A4 A5 A6 A7 A8]. constructor; cbn [unwatch g_rev g_watchers g_pending g_updates g_taken g_open g_regs g_returns]; try congruence.
  unfold drop_watcher in *. rewrite filter_comm, A2, filter_comm. reflexivity.
Qed.
Lemma gsim_unwatch_self id g : gsim id (unwatch id g) g.
Proof.
  constructor; auto. cbn [unwatch g_watchers]. unfold drop_watcher. induction (g_watchers g) as [|w l IH]; simpl; auto.
  destruct (negb _) eqn:E; simpl; rewrite ?E, ?IH; auto.
Qed.
Lemma gsim_length id g1 g2 : gsim id g1 g2 -> length (g_updates g1) = length (g_updates g2).
Proof. intros H. rewrite <- (map_length (ustrip id) (g_updates g1)), (gs_u _ _ _ H), map_length. auto. Qed.
Lemma gsim_take id g1 g2 : gsim id g1 g2 -> gsim id (take g1) (take g2).
Proof. intros H. pose proof (gsim_length _ _ _ H) as L. pose proof H as [A1 A2 A3 A4 A5 A6 A7 A8]. unfold take. rewrite <- A5, <- L. destruct (_ <? _)%nat; [fin|auto]. Qed.
Lemma gsim_stop id g1 g2 : gsim id g1 g2 -> gsim id (stop_group g1) (stop_group g2).
Proof. intros [A1 A2 A3 A4 A5 A6 A7 A8]. unfold stop_group. fin. Qed.
Lemma Forall2_update {A} (P : A -> A -> Prop) i f f' l l' : (forall x y, P x y -> P (f x) (f' y)) -> Forall2 P l l' -> Forall2 P (update_nth i f l) (update_nth i f' l').
Proof. intros H F. revert i. induction F as [|x y l l' E F IH]; intros [|i]; simpl; auto. Qed.
Lemma bsim_group id b1 b2 i f f' : bsim id b1 b2 -> (forall g1 g2, gsim id g1 g2 -> gsim id (f g1) (f' g2)) -> bsim id (set_group b1 i f) (set_group b2 i f').
Proof. intros [A1 A2 A3 A4 A5] H. constructor; cbn [set_group b_world b_poll b_batch b_dead b_groups]; auto. now apply Forall2_update. Qed.
Lemma bsim_step id b1 b2 a : bsim id b1 b2 -> bsim id (bstep b1 a) (bstep b2 a).
Proof.
  intros H. pose proof H as [A1 A2 A3 A4 A5]. destruct a as [op|f| | |j|j lo hi start|j id' f|j id' f|j id'|j id'|j]; cbn [bstep].
  - constructor; cbn [b_world b_poll b_batch b_dead b_groups]; auto. congruence.
  - unfold fetch. rewrite <- A4. destruct (b_dead b1) eqn:D; [auto|]. rewrite <- A3. destruct (b_batch b1) eqn:B; [auto|]. rewrite <- A1, <- A2.
    destruct (snd (sem f _ _)) as [rs|e]; [constructor; auto|]. destruct e; auto; constructor; cbn [b_world b_poll b_batch b_dead b_groups]; auto.
  - unfold publish_all. rewrite <- A3. destruct (b_batch b1) as [evs|]; [|auto]. rewrite <- A2. constructor; cbn [b_world b_poll b_batch b_dead b_groups]; auto.
    clear - A5. induction A5; simpl; constructor; auto using gsim_publish.
  - constructor; cbn [new_group b_world b_poll b_batch b_dead b_groups]; auto. apply Forall2_app; auto. rewrite A2. constructor; auto using gsim_refl.
  - apply bsim_group; auto using gsim_stop.
  - apply bsim_group; auto using gsim_begin.
  - rewrite <- A1. apply bsim_group; auto using gsim_check.
  - rewrite <- A1. apply bsim_group; auto using gsim_query.
  - apply bsim_group; auto using gsim_finish.
  - apply bsim_group; auto using gsim_unwatch.
  - apply bsim_group; auto using gsim_take.
Qed.

Record ssim (id : Z) (s1 s2 : sstate) : Prop := {
  ss_b : bsim id (s_b s1) (s_b s2);
  ss_i : s_i s1 = s_i s2;
  ss_rev : s_rev s1 = s_rev s2;
  ss_hold : option_map (others id) (s_hold s1) = option_map (others id) (s_hold s2);
  ss_prog : others id (s_progress s1) = others id (s_progress s2);
  ss_out : seen_by_others id (s_out s1) = seen_by_others id (s_out s2);
  ss_cr : s_creating s1 = s_creating s2;
  ss_cl : s_closing s1 = s_closing s2;
  ss_done : s_done s1 = s_done s2;
  ss_end : s_ended s1 = s_ended s2 }.
Lemma bsim_nth id b1 b2 i : bsim id b1 b2 ->
  match nth_error (b_groups b1) i, nth_error (b_groups b2) i with Some g1, Some g2 => gsim id g1 g2 | None, None => True | _, _ => False end.
Proof. intros H. pose proof (bs_g _ _ _ H) as F. clear H. revert i. induction F as [|x y l l2 E F IH]; intros [|i]; simpl; auto. apply IH. Qed.
Lemma ssim_group id s1 s2 : ssim id s1 s2 -> match group_of s1, group_of s2 with Some g1, Some g2 => gsim id g1 g2 | None, None => True | _, _ => False end.
Proof. intros H. unfold group_of. rewrite (ss_i _ _ _ H). apply bsim_nth, H. Qed.
Lemma seen_app id a b : seen_by_others id (a ++ b) = seen_by_others id a ++ seen_by_others id b.
Proof. apply filter_app. Qed.
Lemma others_set id j b l : others id (set_progress j b l) = if j =? id then others id l else set_progress j b (others id l).
Proof.
  unfold others. induction l as [|x l IH]; simpl.
  - destruct (j =? id); reflexivity.
  - destruct (Z.eqb_spec (fst x) j) as [E|E]; simpl.
    + rewrite E. destruct (Z.eqb_spec j id) as [F|F]; simpl; [auto|]. rewrite E, Z.eqb_refl. reflexivity.
    + rewrite IH. destruct (Z.eqb_spec j id) as [F|F]; [destruct (negb _); auto|]. destruct (negb (fst x =? id)); simpl; auto.
      destruct (Z.eqb_spec (fst x) j); [contradiction|reflexivity].
Qed.
Lemma others_fold id (ws : list (Z * list event)) : forall l, others id (fold_left (fun l x => set_progress (fst x) false l) ws l) =
  fold_left (fun l x => set_progress (fst x) false l) (others id ws) (others id l).
Proof.
  induction ws as [|x ws IH]; intros l; [reflexivity|]. cbn [fold_left]. rewrite IH, others_set. change (others id (x :: ws)) with (if negb (fst x =? id) then x :: others id ws else others id ws).
  destruct (fst x =? id); reflexivity.
Qed.
Lemma seen_events id rev (ws : list (Z * list event)) : seen_by_others id (map (fun x => MEvents rev (fst x) (snd x)) ws) = map (fun x => MEvents rev (fst x) (snd x)) (others id ws).
Proof. unfold seen_by_others, others. induction ws as [|x ws IH]; simpl; auto. destruct (negb _); simpl; now rewrite IH. Qed.
Lemma seen_progress id rev (l : list (Z * bool)) : seen_by_others id (map (fun x => MProgress rev (fst x)) (filter (fun x : Z * bool => snd x) l)) =
  map (fun x => MProgress rev (fst x)) (filter (fun x : Z * bool => snd x) (others id l)).
Proof.
  unfold seen_by_others, others. induction l as [|x l IH]; simpl; auto. destruct (snd x) eqn:S; simpl; [|destruct (negb _); simpl; rewrite ?S; auto].
  destruct (negb _); simpl; rewrite ?S; simpl; now rewrite IH.
Qed.
Ltac fins := constructor; cbn [with_b s_b s_i s_rev s_hold s_progress s_out s_creating s_closing s_done s_ended]; auto; try congruence.
Lemma ssim_answer id j r s1 s2 : ssim id s1 s2 -> ssim id (answer_create s1 j r) (answer_create s2 j r).
Proof.
  intros [A1 A2 A3 A4 A5 A6 A7 A8 A9 A10]. destruct r; unfold answer_create; fins; rewrite ?seen_app, ?A6, ?A3; auto.
  rewrite !others_set, A5. reflexivity.
Qed.
Lemma ssim_watch_step id j a s1 s2 : ssim id s1 s2 -> ssim id (watch_step s1 j a) (watch_step s2 j a).
Proof.
  intros H. assert (H1 : ssim id (with_b s1 (bstep (s_b s1) a)) (with_b s2 (bstep (s_b s2) a))).
  { pose proof H as [A1 A2 A3 A4 A5 A6 A7 A8 A9 A10]. fins. now apply bsim_step. }
  unfold watch_step. pose proof (ssim_group _ _ _ H1) as G.
  destruct (group_of (with_b s1 (bstep (s_b s1) a))) as [g1|], (group_of (with_b s2 (bstep (s_b s2) a))) as [g2|]; try contradiction; [|exact H1].
  rewrite (gs_ret _ _ _ G). destruct (find _ _) as [[j' r]|]; [|exact H1]. now apply ssim_answer.
Qed.
Lemma ssim_step id s1 s2 a : ssim id s1 s2 -> ssim id (sstep s1 a) (sstep s2 a).
Proof.
  intros H. pose proof H as [A1 A2 A3 A4 A5 A6 A7 A8 A9 A10]. pose proof (ssim_group _ _ _ H) as GG. unfold sstep. rewrite <- A10.
  destruct a as [a| | | | |wid lo hi start|f|f| |j| | | ].
  - rewrite <- A2. destruct (foreign _ _); [|exact H]. fins. now apply bsim_step.
  - rewrite <- A9. destruct (s_done s1) eqn:DN; [exact H|]. unfold s_recv. 
    destruct (s_hold s1) as [w1|] eqn:H1, (s_hold s2) as [w2|] eqn:H2; try discriminate; [exact H|].
    destruct (group_of s1) as [g1|], (group_of s2) as [g2|]; try contradiction; [|exact H].
    assert (NU : option_map (ustrip id) (nth_error (g_updates g1) (g_taken g1)) = option_map (ustrip id) (nth_error (g_updates g2) (g_taken g2))).
    { rewrite <- !nth_error_map, (gs_u _ _ _ GG), (gs_t _ _ _ GG). reflexivity. }
    destruct (nth_error (g_updates g1) (g_taken g1)) as [u1|], (nth_error (g_updates g2) (g_taken g2)) as [u2|]; try discriminate.
    + injection NU as E1 E2. fins.
      * rewrite <- A2. now apply (bsim_step id (s_b s1) (s_b s2) (ATake (s_i s1))).
      * simpl. congruence.
    + rewrite <- (gs_o _ _ _ GG). destruct (g_open g1); [exact H|]. fins.
  - unfold s_send. rewrite <- A7, <- A3. destruct (s_hold s1) as [w1|] eqn:H1, (s_hold s2) as [w2|] eqn:H2; try discriminate; [|exact H].
    destruct (s_creating s1); [exact H|]. injection A4 as E. fins.
    + rewrite !others_fold, E, A5. reflexivity.
    + rewrite !seen_app, !seen_events, E, A6. reflexivity.
  - unfold s_tick. rewrite <- A7, <- A3. destruct (s_creating s1); [exact H|]. fins. rewrite !seen_app, !seen_progress, A5, A6. reflexivity.
  - destruct (s_ended s1) eqn:EN; [exact H|]. unfold s_progress_req. rewrite <- A7, <- A8, <- A3. destruct (s_creating s1); [exact H|]. destruct (s_closing s1); [exact H|].
    fins. rewrite !seen_app, A6. reflexivity.
  - destruct (s_ended s1) eqn:EN; [exact H|]. unfold s_create. rewrite <- A7, <- A8. destruct (s_creating s1); [exact H|]. destruct (s_closing s1); [exact H|].
    destruct (group_of s1) as [g1|], (group_of s2) as [g2|]; try contradiction; [|exact H]. destruct (negb (wid =? 0)); [fins|].
    rewrite (gs_regs _ _ _ GG), <- A2. apply ssim_watch_step. fins.
  - rewrite <- A7. destruct (s_creating s1); [|exact H]. rewrite <- A2. now apply ssim_watch_step.
  - rewrite <- A7. destruct (s_creating s1); [|exact H]. rewrite <- A2. now apply ssim_watch_step.
  - rewrite <- A7. destruct (s_creating s1); [|exact H]. rewrite <- A2. now apply ssim_watch_step.
  - destruct (s_ended s1) eqn:EN; [exact H|]. unfold s_cancel. rewrite <- A7, <- A8. destruct (s_creating s1); [exact H|]. destruct (s_closing s1); [exact H|]. rewrite <- A2. fins. now apply bsim_step.
  - unfold s_forget. rewrite <- A8. destruct (s_closing s1) as [j|]; [|exact H]. fins. unfold others, del_progress in *. rewrite filter_comm, A5, filter_comm. reflexivity.
  - unfold s_eof. rewrite <- A7, <- A8. destruct (s_creating s1); [exact H|]. destruct (s_closing s1); [exact H|]. fins.
  - destruct (s_ended s1) eqn:EN; [|exact H]. rewrite <- A2. fins. now apply bsim_step.
Qed.
Definition srun (acts : list saction) (s : sstate) : sstate := fold_left sstep acts s.
Lemma ssim_run id acts : forall s1 s2, ssim id s1 s2 -> ssim id (srun acts s1) (srun acts s2).
Proof. induction acts as [|a acts IH]; simpl; auto. intros. apply IH, ssim_step. auto. Qed.
Lemma Forall2_update_left {A} (P : A -> A -> Prop) i f l : (forall x, P x x) -> (forall x, P (f x) x) -> Forall2 P (update_nth i f l) l.
Proof. intros R H. revert i. induction l as [|x l IH]; intros [|i]; simpl; constructor; auto using Forall2_refl_all. Qed.
Lemma others_del {A} id (l : list (Z * A)) : others id (filter (fun x => negb (fst x =? id)) l) = others id l.
Proof. unfold others. induction l as [|x l IH]; simpl; auto. destruct (negb _) eqn:E; simpl; rewrite ?E, IH; auto. Qed.
Lemma cancel_isolated s id acts : s_creating s = None -> s_closing s = None -> s_ended s = false ->
  seen_by_others id (s_out (srun acts (sstep (sstep s (SCancel id)) SForget))) = seen_by_others id (s_out (srun acts s)).
Proof.
  intros CR CL EN. apply ss_out with (id := id), ssim_run. cbn [sstep]. rewrite EN. unfold s_cancel. rewrite CR, CL. unfold s_forget. cbn [s_closing].
  fins.
  - constructor; cbn [set_group bstep b_world b_poll b_batch b_dead b_groups]; auto. apply Forall2_update_left; [apply gsim_refl|apply gsim_unwatch_self].
  - apply others_del.
Qed.
