(** Invariants of the watch transition system. *)
From Coq Require Import List ZArith Bool Lia Sorting.Sorted.
From Verif Require Import Bytes Spec Sql System Prog Backend Watch SpecLemmas SqlLemmas Sim ReadLemmas ProgLemmas ReadProgs WatchLemmas.
Import ListNotations.
Open Scope Z_scope.

Lemma update_nth_forall {A} (Q : A -> Prop) i f l :
  Forall Q l -> (forall x, nth_error l i = Some x -> Q x -> Q (f x)) -> Forall Q (update_nth i f l).
Proof.
  revert i. induction l as [|a l IH]; intros i F H; [destruct i; constructor|].
  simpl. inversion F; subst. destruct i; constructor; auto.
Qed.
Lemma update_nth_nth {A} i j f (l : list A) :
  nth_error (update_nth i f l) j = if Nat.eqb j i then option_map f (nth_error l j) else nth_error l j.
Proof.
  revert i j. induction l as [|a l IH]; intros i j; simpl.
  - destruct j, i; simpl; auto. destruct (Nat.eqb j i); auto.
  - destruct i, j; simpl; auto.
Qed.
Lemma update_nth_length {A} i f (l : list A) : length (update_nth i f l) = length l.
Proof. revert i. induction l; intros [|i]; simpl; auto. Qed.

Lemma NoDup_app {A} (l1 l2 : list A) : NoDup l1 -> NoDup l2 -> (forall x, In x l1 -> ~ In x l2) -> NoDup (l1 ++ l2).
Proof.
  induction l1 as [|a l IH]; simpl; auto. intros H1 H2 D. inversion H1; subst. constructor.
  - rewrite in_app_iff. intros [I|I]; [auto|]. apply (D a); auto.
  - apply IH; auto.
Qed.

Definition sel_of (r : reg) : bytes -> Prop := in_range (r_lo r) (r_hi r).
(** where delivery for [r] begins *)
Definition from_of (r : reg) : Z := if 0 <? r_start r then r_start r - 1 else r_captured r.
Definition good (full : Prop) (h : history) (r : reg) (b : Z) (L : list event) : Prop :=
  exists e1 e2, L = e1 ++ e2 /\ rep full h (sel_of r) (from_of r) (r_captured r) e1 /\
                rep full h (sel_of r) (r_captured r) b e2.

Record Ginv (full : Prop) (h : history) (P : Z) (g : group) : Prop := {
  G_rev0 : 0 <= g_rev g <= P;
  G_rev : g_open g = true -> g_rev g = P;
  G_ids : forall i r, nth_error (g_regs g) i = Some r -> r_id r = Z.of_nat i + 1;
  G_hi : forall r, In r (g_regs g) -> r_hi r <> [] /\ 0 <= r_captured r <= P;
  G_w : forall w, In w (g_watchers g) -> In (w_reg w) (g_regs g);
  G_wnodup : NoDup (map (fun w => r_id (w_reg w)) (g_watchers g));
  G_p : forall x, In x (g_pending g) -> In (fst x) (g_regs g) /\ 0 < r_start (fst x);
  G_pnodup : NoDup (map (fun x : reg * phase => r_id (fst x)) (g_pending g));
  G_pw : forall x w, In x (g_pending g) -> In w (g_watchers g) -> w_reg w = fst x -> w_init w = false;
  G_pf : forall r evs, In (r, PFinish evs) (g_pending g) -> rep full h (sel_of r) (from_of r) (r_captured r) evs;
  G_uids : forall u x, In u (g_updates g) -> In x (u_watchers u) -> exists r, In r (g_regs g) /\ r_id r = fst x;
  G_uninit : forall w, In w (g_watchers g) -> w_init w = false ->
     delivered (g_updates g) (r_id (w_reg w)) = [] /\
     (g_open g = true -> rep full h (sel_of (w_reg w)) (r_captured (w_reg w)) P (w_events w));
  G_init : forall w, In w (g_watchers g) -> w_init w = true -> g_open g = true ->
     good full h (w_reg w) P (delivered (g_updates g) (r_id (w_reg w)) ++ w_events w);
  G_all : forall r k, In r (g_regs g) ->
     delivered (firstn k (g_updates g)) (r_id r) = [] \/
     exists b, r_captured r <= b <= P /\ good full h r b (delivered (firstn k (g_updates g)) (r_id r));
  G_taken : (g_taken g <= length (g_updates g))%nat
}.

Record Binv (full : Prop) (s : bstate) : Prop := {
  B_reach : wreach (b_world s);
  B_poll : 0 <= b_poll s <= revision (history_of (snd (b_world s)));
  B_batch : forall evs, b_batch s = Some evs -> 
     b_poll s <= last_rev evs (b_poll s) <= revision (history_of (snd (b_world s))) /\
     rep full (history_of (snd (b_world s))) (fun _ => True) (b_poll s) (last_rev evs (b_poll s)) evs;
  B_groups : Forall (Ginv full (history_of (snd (b_world s))) (b_poll s)) (b_groups s)
}.

(** ---- basic facts ---- *)
Lemma reg_inj (full : Prop) g r r' h P : Ginv full h P g -> In r (g_regs g) -> In r' (g_regs g) -> r_id r = r_id r' -> r = r'.
Proof.
  intros G I I' E. apply In_nth_error in I, I'. destruct I as [i I], I' as [j J].
  pose proof (G_ids _ _ _ _ G _ _ I). pose proof (G_ids _ _ _ _ G _ _ J). assert (i = j) by lia. subst. congruence.
Qed.
Lemma reg_id_bound (full : Prop) g r h P : Ginv full h P g -> In r (g_regs g) -> 1 <= r_id r <= Z.of_nat (length (g_regs g)).
Proof.
  intros G I. apply In_nth_error in I. destruct I as [i I]. pose proof (G_ids _ _ _ _ G _ _ I).
  assert (i < length (g_regs g))%nat by (apply nth_error_Some; congruence). lia.
Qed.
Lemma delivered_app us vs id : delivered (us ++ vs) id = delivered us id ++ delivered vs id.
Proof. apply flat_map_app. Qed.
Lemma delivered_none us id : (forall u x, In u us -> In x (u_watchers u) -> fst x <> id) -> delivered us id = [].
Proof.
  intros H. unfold delivered. induction us as [|u us IH]; simpl; auto. rewrite IH.
  - rewrite app_nil_r. assert (G : forall x, In x (u_watchers u) -> fst x <> id) by (intros; eapply H; simpl; eauto).
    induction (u_watchers u) as [|x l IHl]; simpl; auto.
    destruct (Z.eqb_spec (fst x) id) as [E|]; [exfalso; apply (G x); simpl; auto|]. apply IHl. intros; apply G; simpl; auto.
  - intros. eapply H; simpl; eauto.
Qed.
Lemma from_le r : 0 < r_start r -> from_of r = r_start r - 1.
Proof. intros. unfold from_of. destruct (Z.ltb_spec 0 (r_start r)); [auto|lia]. Qed.

Lemma good_extend (full : Prop) h l r b L : r_captured r <= revision h -> b <= revision h -> good full h r b L -> good full (h ++ l) r b L.
Proof.
  intros A B (e1 & e2 & E & R1 & R2). exists e1, e2. split; [exact E|].
  split; apply rep_extend; auto.
Qed.
Lemma good_more (full : Prop) h r b c L evs : r_captured r <= b <= c -> good full h r b L -> rep full h (sel_of r) b c evs -> good full h r c (L ++ evs).
Proof.
  intros A (e1 & e2 & -> & R1 & R2) R3. exists e1, (e2 ++ evs). rewrite app_assoc. split; auto. split; auto.
  eapply rep_app; eauto.
Qed.

Lemma Ginv_extend (full : Prop) h l P g : P <= revision h -> Ginv full h P g -> Ginv full (h ++ l) P g.
Proof.
  intros HP G. destruct G as [G0 G1 G2 G3 G4 G5 G6 G7 G8 G9 G10 G11 G12 G13 G14].
  constructor; auto.
  - intros r evs I. apply rep_extend; auto. destruct (G6 _ I) as [J _]. apply G3 in J. simpl in J. lia.
  - intros w I J. destruct (G11 w I J) as [A B]. split; auto. intros O. apply rep_extend; auto.
  - intros w I J O. apply good_extend; auto. specialize (G3 _ (G4 _ I)). lia.
  - intros r k I. destruct (G13 r k I) as [A|(b & A & B)]; auto. right. exists b. split; auto. apply good_extend; auto; lia.
Qed.

(** ---- publish ---- *)
Lemma in_range_bool r k : in_range_b (r_lo r) (r_hi r) k = true <-> sel_of r k.
Proof. apply in_range_b_iff. Qed.

Lemma flat_group_updates evs ws w : NoDup (map (fun w => r_id (w_reg w)) ws) -> In w ws ->
  flat_map (fun x : Z * list event => if fst x =? r_id (w_reg w) then snd x else []) (group_updates evs ws) = snd (watcher_update evs w).
Proof.
  assert (NONE : forall l i, ~ In i (map (fun w => r_id (w_reg w)) l) ->
    flat_map (fun x : Z * list event => if fst x =? i then snd x else []) (group_updates evs l) = []).
  { induction l as [|v l IH]; intros i N; [reflexivity|]. unfold group_updates in *. cbn [map filter fst snd] in *.
    assert (N' : ~ In i (map (fun w => r_id (w_reg w)) l)) by (intros X; apply N; simpl; auto).
    destruct (snd (watcher_update evs v)) eqn:E; cbn [flat_map fst snd].
    - apply IH; auto.
    - destruct (Z.eqb_spec (r_id (w_reg v)) i); [exfalso; apply N; simpl; auto|]. apply IH; auto. }
  induction ws as [|v l IH]; intros ND I; [destruct I|]. inversion ND as [|? ? N1 N2]; subst.
  unfold group_updates in *. cbn [map filter fst snd].
  destruct I as [->|I].
  - specialize (NONE l _ N1). destruct (snd (watcher_update evs w)) eqn:E; cbn [flat_map fst snd].
    + exact NONE.
    + rewrite Z.eqb_refl, NONE, app_nil_r. reflexivity.
  - assert (r_id (w_reg v) <> r_id (w_reg w)).
    { intros X. apply N1. rewrite X. apply (in_map (fun w => r_id (w_reg w)) l w I). }
    destruct (snd (watcher_update evs v)); cbn [flat_map fst snd]; [auto|].
    destruct (Z.eqb_spec (r_id (w_reg v)) (r_id (w_reg w))); [contradiction|]. apply IH; auto.
Qed.

Lemma update_reports (full : Prop) h r P c evs : rep full h (fun _ => True) P c evs ->
  rep full h (sel_of r) P c (filter (fun ev => in_range_b (r_lo r) (r_hi r) (kv_key (ev_kv ev))) evs).
Proof.
  apply (rep_filter full h (fun _ => True) (sel_of r) (fun k => in_range_b (r_lo r) (r_hi r) k)).
  intros k. rewrite in_range_bool. tauto.
Qed.

Lemma group_updates_ids evs ws x : In x (group_updates evs ws) -> exists w, In w ws /\ r_id (w_reg w) = fst x.
Proof. unfold group_updates. intros I. apply filter_In in I. destruct I as [I _]. apply in_map_iff in I. destruct I as (w & <- & I). eauto. Qed.

Lemma watcher_update_reg evs w : w_reg (fst (watcher_update evs w)) = w_reg w /\ w_init (fst (watcher_update evs w)) = w_init w.
Proof. unfold watcher_update. destruct (w_init w); auto. Qed.

Lemma firstn_snoc {A} k (l : list A) x : firstn k (l ++ [x]) = if (k <=? length l)%nat then firstn k l else l ++ [x].
Proof.
  destruct (Nat.leb_spec k (length l)).
  - rewrite firstn_app. replace (k - length l)%nat with O by lia. simpl. now rewrite app_nil_r.
  - apply firstn_all2. rewrite app_length. simpl. lia.
Qed.

Lemma Ginv_weaken (full : Prop) h P c g : P <= c -> g_open g = false -> Ginv full h P g -> Ginv full h c g.
Proof.
  intros L O G. destruct G as [G0 G1 G2 G3 G4 G5 G6 G7 G8 G9 G10 G11 G12 G13 G14].
  constructor; auto; try congruence; try lia.
  - intros r I. specialize (G3 r I). split; [tauto|lia].
  - intros w I J. split; [apply (G11 w I J)|congruence].
  - intros r k I. destruct (G13 r k I) as [A|(b & A & B)]; auto. right. exists b. split; auto. lia.
Qed.

Lemma publish_inv (full : Prop) h P c evs g : 0 <= P <= c -> rep full h (fun _ => True) P c evs -> Ginv full h P g -> Ginv full h c (publish c evs g).
Proof.
  intros L HR G. unfold publish. destruct (g_open g) eqn:O; [|apply Ginv_weaken with P; auto; lia].
  pose proof G as [G0 G1 G2 G3 G4 G5 G6 G7 G8 G9 G10 G11 G12 G13 G14].
  assert (W : forall w', In w' (map (fun w => fst (watcher_update evs w)) (g_watchers g)) ->
     exists w, In w (g_watchers g) /\ w' = fst (watcher_update evs w) /\ w_reg w' = w_reg w /\ w_init w' = w_init w).
  { intros w' I. apply in_map_iff in I. destruct I as (w & <- & I). exists w. destruct (watcher_update_reg evs w). auto. }
  assert (NDW : NoDup (map (fun w => r_id (w_reg w)) (map (fun w => fst (watcher_update evs w)) (g_watchers g)))).
  { rewrite map_map. erewrite map_ext; [exact G5|]. intros w. simpl. now rewrite (proj1 (watcher_update_reg evs w)). }
  destruct (length (g_updates g) - g_taken g <? channel_size)%nat.
  - constructor; cbn [g_rev g_watchers g_pending g_updates g_taken g_open g_regs g_returns g_cancelled]; auto; try lia.
    + intros r I. specialize (G3 r I). split; [tauto|lia].
    + intros w' I. destruct (W w' I) as (w & J & _ & -> & _). auto.
    + intros x w' I J E. destruct (W w' J) as (w & K & _ & E1 & ->). apply (G8 x w); auto. congruence.
    + intros u x I J. apply in_app_iff in I. destruct I as [I|[<-|[]]]; [eauto|].
      cbn [u_watchers] in J. apply group_updates_ids in J. destruct J as (w & J & <-). eauto.
    + intros w' I N. destruct (W w' I) as (w & J & E & E1 & E2). rewrite E1.
      assert (N' : w_init w = false) by congruence. destruct (G11 w J N') as [A B]. specialize (B O).
      split.
      * rewrite delivered_app, A. unfold delivered. cbn [flat_map u_watchers]. rewrite app_nil_r. simpl app.
        rewrite (flat_group_updates evs _ w G5 J). unfold watcher_update. now rewrite N'.
      * intros _. rewrite E. unfold watcher_update. rewrite N'. cbn [fst w_events]. unfold append_events.
        eapply rep_app; [|exact B|apply update_reports; exact HR].
        specialize (G3 _ (G4 _ J)). lia.
    + intros w' I N _. destruct (W w' I) as (w & J & E & E1 & E2). rewrite E1.
      assert (N' : w_init w = true) by congruence. specialize (G12 w J N' O).
      rewrite E. unfold watcher_update at 1. rewrite N'. cbn [fst w_events]. rewrite app_nil_r, delivered_app.
      unfold delivered at 2. cbn [flat_map u_watchers]. rewrite app_nil_r, (flat_group_updates evs _ w G5 J).
      unfold watcher_update. rewrite N'. cbn [snd]. unfold append_events. rewrite app_assoc.
      apply (good_more full h _ P c); auto; [|apply update_reports; exact HR]. specialize (G3 _ (G4 _ J)). lia.
    + intros r k I. rewrite firstn_snoc. destruct (k <=? length (g_updates g))%nat.
      * destruct (G13 r k I) as [A|(b & A & B)]; auto. right. exists b. split; auto. lia.
      * rewrite delivered_app. unfold delivered at 2 4. cbn [flat_map u_watchers]. rewrite app_nil_r.
        destruct (in_dec Z.eq_dec (r_id r) (map (fun w => r_id (w_reg w)) (g_watchers g))) as [M|M].
        -- apply in_map_iff in M. destruct M as (w & M1 & M2).
           assert (r = w_reg w) as -> by (apply (reg_inj full g r (w_reg w) h P); auto).
           rewrite (flat_group_updates evs _ w G5 M2). unfold watcher_update. destruct (w_init w) eqn:N'; cbn [snd].
           ++ right. exists c. split; [specialize (G3 _ (G4 _ M2)); lia|]. unfold append_events. rewrite app_assoc.
              apply (good_more full h _ P c); auto; [|apply update_reports; exact HR]. specialize (G3 _ (G4 _ M2)). lia.
           ++ left. destruct (G11 w M2 N') as [-> _]. reflexivity.
        -- assert (Z0 : flat_map (fun x : Z * list event => if fst x =? r_id r then snd x else []) (group_updates evs (g_watchers g)) = []).
           { assert (Y : forall x, In x (group_updates evs (g_watchers g)) -> fst x <> r_id r).
             { intros x Ix. apply group_updates_ids in Ix. destruct Ix as (w & J & E). intros X. apply M.
               rewrite <- X, <- E. apply (in_map (fun w => r_id (w_reg w)) _ w J). }
             induction (group_updates evs (g_watchers g)) as [|x l IH]; simpl; auto.
             destruct (Z.eqb_spec (fst x) (r_id r)); [exfalso; apply (Y x); simpl; auto|]. apply IH. intros; apply Y; simpl; auto. }
           rewrite Z0, app_nil_r. specialize (G13 r (length (g_updates g)) I). rewrite firstn_all in G13.
           destruct G13 as [A|(b & A & B)]; auto. right. exists b. split; auto. lia.
    + rewrite app_length. simpl. lia.
  - constructor; cbn [g_rev g_watchers g_pending g_updates g_taken g_open g_regs g_returns g_cancelled]; auto; try congruence; try lia.
    + intros r I. specialize (G3 r I). split; [tauto|lia].
    + intros w' I. destruct (W w' I) as (w & J & _ & -> & _). auto.
    + intros x w' I J E. destruct (W w' J) as (w & K & _ & E1 & ->). apply (G8 x w); auto. congruence.
    + intros w' I N. destruct (W w' I) as (w & J & E & E1 & E2). rewrite E1. split; [|discriminate].
      apply (G11 w J). congruence.
    + intros r k I. destruct (G13 r k I) as [A|(b & A & B)]; auto. right. exists b. split; auto. lia.
Qed.

(** ---- the other steps of a group ---- *)
Lemma in_drop_pending id l x : In x (drop_pending id l) <-> In x l /\ r_id (fst x) <> id.
Proof. unfold drop_pending. rewrite filter_In, negb_true_iff, Z.eqb_neq. tauto. Qed.
Lemma in_drop_watcher id l w : In w (drop_watcher id l) <-> In w l /\ r_id (w_reg w) <> id.
Proof. unfold drop_watcher. rewrite filter_In, negb_true_iff, Z.eqb_neq. tauto. Qed.
Lemma nodup_filter_map {A} (f : A -> Z) (p : A -> bool) l : NoDup (map f l) -> NoDup (map f (filter p l)).
Proof.
  induction l as [|a l IH]; simpl; intros H; [constructor|]. inversion H; subst. destruct (p a); simpl; auto.
  constructor; auto. intros I. apply H2. apply in_map_iff in I. destruct I as (x & <- & I). apply in_map. apply filter_In in I. tauto.
Qed.
Lemma in_set_phase id p l x : In x (set_phase id p l) ->
  (In x l /\ r_id (fst x) <> id) \/ (exists y, In y l /\ r_id (fst y) = id /\ x = (fst y, p)).
Proof.
  unfold set_phase. rewrite in_map_iff. intros (y & E & I). destruct (Z.eqb_spec (r_id (fst y)) id); subst; auto.
  right. eauto.
Qed.
Lemma set_phase_ids id p l : map (fun x : reg * phase => r_id (fst x)) (set_phase id p l) = map (fun x => r_id (fst x)) l.
Proof. unfold set_phase. rewrite map_map. apply map_ext. intros x. destruct (r_id (fst x) =? id); auto. Qed.
Lemma pending_of_in id g r p : pending_of id g = Some (r, p) -> In (r, p) (g_pending g) /\ r_id r = id.
Proof. intros H. apply find_some in H. simpl in H. rewrite Z.eqb_eq in H. auto. Qed.
Lemma pending_unique (full : Prop) h P g x y : Ginv full h P g -> In x (g_pending g) -> In y (g_pending g) -> r_id (fst x) = r_id (fst y) -> x = y.
Proof.
  intros G I J E. pose proof (G_pnodup _ _ _ _ G) as ND. clear G. induction (g_pending g) as [|z l IH]; [destruct I|].
  simpl in ND. inversion ND; subst. destruct I as [->|I], J as [->|J]; auto.
  - exfalso. apply H1. rewrite E. apply (in_map (fun x => r_id (fst x)) l y J).
  - exfalso. apply H1. rewrite <- E. apply (in_map (fun x => r_id (fst x)) l x I).
Qed.
Lemma watcher_unique (full : Prop) h P g x y : Ginv full h P g -> In x (g_watchers g) -> In y (g_watchers g) -> r_id (w_reg x) = r_id (w_reg y) -> x = y.
Proof.
  intros G I J E. pose proof (G_wnodup _ _ _ _ G) as ND. clear G. induction (g_watchers g) as [|z l IH]; [destruct I|].
  simpl in ND. inversion ND; subst. destruct I as [->|I], J as [->|J]; auto.
  - exfalso. apply H1. rewrite E. apply (in_map (fun w => r_id (w_reg w)) l y J).
  - exfalso. apply H1. rewrite <- E. apply (in_map (fun w => r_id (w_reg w)) l x I).
Qed.

(** changing watchers and pending calls only *)
Lemma Ginv_change (full : Prop) h P g ws ps rs cs : Ginv full h P g ->
  (forall w, In w ws -> In w (g_watchers g)) -> NoDup (map (fun w => r_id (w_reg w)) ws) ->
  (forall x, In x ps -> exists y, In y (g_pending g) /\ fst y = fst x) ->
  NoDup (map (fun x : reg * phase => r_id (fst x)) ps) ->
  (forall r evs, In (r, PFinish evs) ps -> rep full h (sel_of r) (from_of r) (r_captured r) evs) ->
  Ginv full h P (Group (g_rev g) ws ps (g_updates g) (g_taken g) (g_open g) (g_regs g) rs cs).
Proof.
  intros G HW ND HP NDP HF. destruct G as [G0 G1 G2 G3 G4 G5 G6 G7 G8 G9 G10 G11 G12 G13 G14].
  constructor; cbn [g_rev g_watchers g_pending g_updates g_taken g_open g_regs g_returns g_cancelled]; auto.
  - intros x I. destruct (HP x I) as (y & J & <-). auto.
  - intros x w I J E. destruct (HP x I) as (y & K & E'). apply (G8 y w); auto. congruence.
Qed.
Lemma drop_pending_sub id l x : In x (drop_pending id l) -> exists y, In y l /\ fst y = fst x.
Proof. intros I. apply in_drop_pending in I. exists x. tauto. Qed.
Lemma set_phase_sub id p l x : In x (set_phase id p l) -> exists y, In y l /\ fst y = fst x.
Proof. intros I. apply in_set_phase in I. destruct I as [[I _]|(y & I & _ & ->)]; eauto. Qed.
Lemma drop_pending_finish (full : Prop) h P g id r evs : Ginv full h P g -> In (r, PFinish evs) (drop_pending id (g_pending g)) ->
  rep full h (sel_of r) (from_of r) (r_captured r) evs.
Proof. intros G I. apply in_drop_pending in I. apply (G_pf _ _ _ _ G). tauto. Qed.

Lemma watch_begin_inv (full : Prop) h P g lo hi start : 0 <= P -> hi <> [] -> Ginv full h P g ->
  Ginv full h P (watch_begin lo hi start g).
Proof.
  intros HP0 HH G.
  pose proof (reg_id_bound full g) as RB.
  pose proof G as [G0 G1 G2 G3 G4 G5 G6 G7 G8 G9 G10 G11 G12 G13 G14].
  unfold watch_begin. set (r := Reg (Z.of_nat (length (g_regs g)) + 1) lo hi start (g_rev g)).
  assert (FRESH : forall r', In r' (g_regs g) -> r_id r' <> r_id r).
  { intros r' I. specialize (RB r' h P G I). simpl. lia. }
  assert (DN : delivered (g_updates g) (r_id r) = []).
  { apply delivered_none. intros u x I J E. destruct (G10 u x I J) as (r' & A & B). apply (FRESH r' A). congruence. }
  assert (IDS : forall i r', nth_error (g_regs g ++ [r]) i = Some r' -> r_id r' = Z.of_nat i + 1).
  { intros i r' N. destruct (Nat.ltb_spec i (length (g_regs g))).
    - rewrite nth_error_app1 in N by auto. auto.
    - rewrite nth_error_app2 in N by auto. destruct (i - length (g_regs g))%nat as [|[|]] eqn:E; simpl in N; try discriminate.
      injection N as <-. simpl. lia. }
  assert (HI : forall r', In r' (g_regs g ++ [r]) -> r_hi r' <> [] /\ 0 <= r_captured r' <= P).
  { intros r' I. apply in_app_iff in I. destruct I as [I|[<-|[]]]; auto. }
  assert (WIN : forall b w, In w (g_watchers g ++ [Watcher r b []]) -> In (w_reg w) (g_regs g ++ [r])).
  { intros b w I. apply in_app_iff in I. apply in_app_iff. destruct I as [I|[<-|[]]]; simpl; auto. }
  assert (WND : forall b, NoDup (map (fun w => r_id (w_reg w)) (g_watchers g ++ [Watcher r b []]))).
  { intros b. rewrite map_app. apply NoDup_app; auto.
    - simpl. repeat constructor. auto.
    - intros x I [J|[]]. apply in_map_iff in I. destruct I as (w & <- & I). apply (FRESH (w_reg w)); auto. }
  assert (UIDS : forall u x, In u (g_updates g) -> In x (u_watchers u) -> exists r', In r' (g_regs g ++ [r]) /\ r_id r' = fst x).
  { intros u x I J. destruct (G10 u x I J) as (r' & A & B). exists r'. split; auto. apply in_app_iff; auto. }
  assert (ALL : forall r' k, In r' (g_regs g ++ [r]) -> delivered (firstn k (g_updates g)) (r_id r') = [] \/
     exists b, r_captured r' <= b <= P /\ good full h r' b (delivered (firstn k (g_updates g)) (r_id r'))).
  { intros r' k I. apply in_app_iff in I. destruct I as [I|[<-|[]]]; [auto|]. left.
    apply delivered_none. intros u x I J E. destruct (G10 u x) as (r' & A & B); auto.
    - rewrite <- (firstn_skipn k (g_updates g)). apply in_app_iff; auto.
    - apply (FRESH r' A). congruence. }
  destruct (0 <? start) eqn:ST.
  - constructor; cbn [g_rev g_watchers g_pending g_updates g_taken g_open g_regs g_returns g_cancelled]; auto.
    + intros w. apply (WIN false).
    + intros x I. apply in_app_iff in I. destruct I as [I|[<-|[]]].
      * destruct (G6 x I). split; auto. apply in_app_iff; auto.
      * cbn [fst]. split; [apply in_app_iff; simpl; auto|]. cbn [r r_start]. apply Z.ltb_lt in ST. exact ST.
    + rewrite map_app. apply NoDup_app; auto; [simpl; repeat constructor; auto|].
      intros x I [J|[]]. apply in_map_iff in I. destruct I as (y & <- & I). apply (FRESH (fst y)); [apply G6; auto|]. auto.
    + intros x w I J E. apply in_app_iff in I. apply in_app_iff in J. destruct J as [J|[<-|[]]]; auto.
      destruct I as [I|[<-|[]]].
      * apply (G8 x w); auto.
      * exfalso. apply (FRESH (w_reg w)); auto. rewrite E. reflexivity.
    + intros r' evs I. apply in_app_iff in I. destruct I as [I|[I|[]]]; [eauto|discriminate].
    + intros w I N. apply in_app_iff in I. destruct I as [I|[<-|[]]]; auto.
      cbn [w_reg w_events]. split; auto. intros O. cbn [r r_captured]. rewrite G1 by auto. apply rep_empty. lia.
    + intros w I N. apply in_app_iff in I. destruct I as [I|[<-|[]]]; auto. discriminate.
  - constructor; cbn [g_rev g_watchers g_pending g_updates g_taken g_open g_regs g_returns g_cancelled]; auto.
    + intros w. apply (WIN true).
    + intros x I. destruct (G6 x I). split; auto. apply in_app_iff; auto.
    + intros x w I J E. apply in_app_iff in J. destruct J as [J|[<-|[]]]; [eauto|].
      exfalso. destruct (G6 x I) as [K _]. apply (FRESH (fst x)); auto. rewrite <- E. reflexivity.
    + intros w I N. apply in_app_iff in I. destruct I as [I|[<-|[]]]; auto. discriminate.
    + intros w I N O. apply in_app_iff in I. destruct I as [I|[<-|[]]]; auto.
      cbn [w_reg w_events]. rewrite DN. exists [], []. split; auto. split.
      * unfold from_of. cbn [r r_start r_captured]. rewrite ST. apply rep_empty. lia.
      * cbn [r r_captured]. rewrite G1 by auto. apply rep_empty. lia.
Qed.

Lemma watch_check_inv (full : Prop) h P g id f w : Ginv full h P g -> Ginv full h P (watch_check id f w g).
Proof.
  intros G. unfold watch_check. destruct (pending_of id g) as [[r []]|] eqn:E; auto.
  apply pending_of_in in E. destruct E as [E1 E2].
  assert (DROP : forall rs, Ginv full h P (Group (g_rev g) (g_watchers g) (drop_pending id (g_pending g)) (g_updates g) (g_taken g) (g_open g) (g_regs g) rs (g_cancelled g))).
  { intros rs. apply Ginv_change; auto.
    - apply (G_wnodup _ _ _ _ G).
    - apply drop_pending_sub.
    - apply nodup_filter_map, (G_pnodup _ _ _ _ G).
    - intros. eapply drop_pending_finish; eauto. }
  destruct (interval_result f w) as [[a b]|e]; auto. destruct (r_start r <? a); auto.
  apply Ginv_change; auto.
  - apply (G_wnodup _ _ _ _ G).
  - apply set_phase_sub.
  - rewrite set_phase_ids. apply (G_pnodup _ _ _ _ G).
  - intros r' evs I. apply in_set_phase in I. destruct I as [[I _]|(y & _ & _ & [=])]. apply (G_pf _ _ _ _ G). auto.
Qed.

Lemma rep_not_full (full : Prop) h sel a b evs : ~ full -> rep False h sel a b evs -> rep full h sel a b evs.
Proof. intros N (A & B & _ & C). split; auto. split; auto. split; auto. intros F. contradiction. Qed.
Lemma rep_weaken (full : Prop) h sel a b evs : rep full h sel a b evs -> rep False h sel a b evs.
Proof. intros (A & B & _ & C). split; auto. split; auto. split; auto. intros []. Qed.

Lemma watch_query_inv (full : Prop) h P g id f (w : world) : wreach w -> history_of (snd w) = h -> P <= revision h ->
  (full -> no_cut f /\ forall r p, pending_of id g = Some (r, p) -> kept (snd w) (r_start r - 1)) ->
  Ginv full h P g -> Ginv full h P (watch_query id f w g).
Proof.
  intros HW HH HP HC G. unfold watch_query. destruct (pending_of id g) as [[r []]|] eqn:E; auto.
  assert (HF : full -> no_cut f /\ kept (snd w) (r_start r - 1)) by (intros F; destruct (HC F) as [A B]; eauto). clear HC.
  apply pending_of_in in E. destruct E as [E1 E2].
  assert (DROP : forall rs, Ginv full h P (Group (g_rev g) (drop_watcher id (g_watchers g)) (drop_pending id (g_pending g)) (g_updates g) (g_taken g) (g_open g) (g_regs g) rs (g_cancelled g))).
  { intros rs. apply Ginv_change; auto.
    - intros x I. apply in_drop_watcher in I. tauto.
    - apply nodup_filter_map, (G_wnodup _ _ _ _ G).
    - apply drop_pending_sub.
    - apply nodup_filter_map, (G_pnodup _ _ _ _ G).
    - intros. eapply drop_pending_finish; eauto. }
  destruct (G_p _ _ _ _ G _ E1) as [R1 R2]. destruct (G_hi _ _ _ _ G _ R1) as [R3 R4]. cbn [fst] in *.
  assert (FIN : forall rs evs, rep full h (sel_of r) (from_of r) (r_captured r) evs -> Ginv full h P (Group (g_rev g) (g_watchers g)
     (set_phase id (PFinish evs) (g_pending g))
     (g_updates g) (g_taken g) (g_open g) (g_regs g) rs (g_cancelled g))).
  { intros rs evs0 RR. apply Ginv_change; auto.
    - apply (G_wnodup _ _ _ _ G).
    - apply set_phase_sub.
    - rewrite set_phase_ids. apply (G_pnodup _ _ _ _ G).
    - intros r' evs I. apply in_set_phase in I. destruct I as [[I _]|(y & I1 & I2 & [= -> ->])]; [apply (G_pf _ _ _ _ G); auto|].
      assert (Y : y = (r, PQuery)). { apply (pending_unique full h P g); auto. simpl. congruence. } subst y. exact RR. }
  assert (REP : forall full' : Prop, (full' -> kept (snd w) (r_start r - 1)) -> rep full' h (sel_of r) (from_of r) (r_captured r)
     (map scan_event (after_prefix_sql (r_lo r) (range_end (r_lo r) (r_hi r)) (r_start r - 1) (r_captured r) (fst w)))).
  { intros full' HF'. rewrite from_le by auto. subst h.
    replace (range_end (r_lo r) (r_hi r)) with (r_hi r) by (destruct (r_hi r); [congruence|auto]).
    apply after_prefix_reports; [apply reach_R; auto| |lia]. auto. }
  destruct f as [|e|e|n e|]; cbn [sem snd]; auto.
  - apply FIN, REP. intros F. apply (HF F).
  - apply FIN. apply rep_not_full; [intros F; apply (HF F)|]. unfold scan_all. cbn [answer cut_rows rs_rows].
    rewrite <- firstn_map. apply rep_firstn_weak. apply REP. intros [].
  - apply FIN, REP. intros F. apply (HF F).
Qed.

Lemma watch_finish_inv (full : Prop) h P g id : P <= revision h -> Ginv full h P g -> Ginv full h P (watch_finish id g).
Proof.
  intros HP G. unfold watch_finish. destruct (pending_of id g) as [[r [| |evs]]|] eqn:E; auto.
  apply pending_of_in in E. destruct E as [E1 E2].
  pose proof G as [G0 G1 G2 G3 G4 G5 G6 G7 G8 G9 G10 G11 G12 G13 G14].
  set (ws := map _ (g_watchers g)).
  assert (W : forall w', In w' ws -> In w' (g_watchers g) /\ r_id (w_reg w') <> id \/
     exists w, In w (g_watchers g) /\ w_reg w = r /\ w' = Watcher r true (evs ++ w_events w)).
  { intros w' I. apply in_map_iff in I. destruct I as (w & <- & I). destruct (Z.eqb_spec (r_id (w_reg w)) id) as [Q|Q]; auto.
    right. exists w. assert (w_reg w = r). { apply (reg_inj full g _ _ h P); auto; [|congruence]. apply (G6 _ E1). }
    split; auto. split; auto. congruence. }
  constructor; cbn [g_rev g_watchers g_pending g_updates g_taken g_open g_regs g_returns g_cancelled]; auto.
  - intros w' I. destruct (W w' I) as [[J _]|(w & J & K & ->)]; auto. simpl. rewrite <- K. auto.
  - unfold ws. rewrite map_map. erewrite map_ext; [exact G5|]. intros w. simpl. destruct (r_id (w_reg w) =? id); auto.
  - intros x I. apply in_drop_pending in I. apply G6. tauto.
  - apply nodup_filter_map; auto.
  - intros x w' I J K. apply in_drop_pending in I. destruct I as [I N].
    destruct (W w' J) as [[J' _]|(w & J' & K' & ->)]; [eauto|]. simpl in K. exfalso. apply N. rewrite <- K. auto.
  - intros r' evs' I. apply in_drop_pending in I. apply G9. tauto.
  - intros w' I N. destruct (W w' I) as [[J _]|(w & J & K & ->)]; auto. discriminate.
  - intros w' I N O. destruct (W w' I) as [[J _]|(w & J & K & ->)]; auto. cbn [w_reg w_events].
    assert (NI : w_init w = false) by (apply (G8 (r, PFinish evs) w); auto).
    destruct (G11 w J NI) as [A B]. specialize (B O). rewrite K in A, B. rewrite A. simpl app.
    exists evs, (w_events w). split; auto.
Qed.

Lemma unwatch_inv (full : Prop) h P g id : Ginv full h P g -> Ginv full h P (unwatch id g).
Proof.
  intros G. unfold unwatch. apply Ginv_change; auto.
  - intros x I. apply in_drop_watcher in I. tauto.
  - apply nodup_filter_map, (G_wnodup _ _ _ _ G).
  - eauto.
  - apply (G_pnodup _ _ _ _ G).
  - apply (G_pf _ _ _ _ G).
Qed.
Lemma take_inv (full : Prop) h P g : Ginv full h P g -> Ginv full h P (take g).
Proof.
  intros G. unfold take. destruct (Nat.ltb_spec (g_taken g) (length (g_updates g))); auto.
  destruct G; constructor; auto.
Qed.
Lemma stop_inv (full : Prop) h P g : Ginv full h P g -> Ginv full h P (stop_group g).
Proof.
  intros G. unfold stop_group. destruct G as [G0 G1 G2 G3 G4 G5 G6 G7 G8 G9 G10 G11 G12 G13 G14]. constructor; auto; simpl; try congruence.
  intros w I N. destruct (G11 w I N). split; auto. congruence.
Qed.

(** ---- the whole backend ---- *)
Lemma last_rev_snoc l ev old : last_rev (l ++ [ev]) old = ev_rev ev.
Proof. unfold last_rev. rewrite rev_app_distr. reflexivity. Qed.
Lemma fetch_batch (full : Prop) (w : world) P n : wreach w -> (full -> kept (snd w) P) -> P <= revision (history_of (snd w)) ->
  let evs := firstn n (map scan_event (after_sql P (fst w))) in
  P <= last_rev evs P <= revision (history_of (snd w)) /\
  rep full (history_of (snd w)) (fun _ => True) P (last_rev evs P) evs.
Proof.
  intros HW HF HP evs.
  pose proof (after_reports full (fst w) (snd w) P (reach_R _ _ HW) HF) as A. rewrite Z.max_r in A by lia.
  destruct (rep_firstn full _ _ _ _ _ n HP A) as (d & B & C & D). fold evs in C, D.
  assert (E : last_rev evs P = d).
  { destruct D as [[-> ->]|(l & ev & -> & ->)]; [reflexivity|apply last_rev_snoc]. }
  rewrite E. split; [lia|exact C].
Qed.

Lemma fetch_cases f (s : bstate) evs : b_batch (fetch f s) = Some evs ->
  b_batch s = Some evs \/ exists n, evs = firstn n (map scan_event (after_sql (b_poll s) (fst (b_world s)))).
Proof.
  unfold fetch. destruct (b_dead s); auto. destruct (b_batch s) eqn:B; [rewrite B; auto|].
  assert (K : forall cut leader evs', Some (scan_all scan_event (answer cut leader (CAfter (b_poll s) poll_batch_size) (fst (b_world s)))) = Some evs' ->
     exists n, evs' = firstn n (map scan_event (after_sql (b_poll s) (fst (b_world s))))).
  { intros cut leader evs' [= <-]. cbn [answer]. unfold opt_limit, poll_batch_size. cbn [Z.ltb Z.compare]. rewrite ztake_firstn by lia.
    unfold scan_all. destruct cut as [[n e]|]; cbn [cut_rows rs_rows].
    - exists (Nat.min n (Z.to_nat 500)). rewrite firstn_firstn, <- firstn_map. reflexivity.
    - exists (Z.to_nat 500). now rewrite <- firstn_map. }
  destruct f as [|e|e|n e|]; cbn [sem snd]; cbn [b_batch].
  - right. eapply K; eauto.
  - destruct e; cbn [b_batch]; try rewrite B; discriminate.
  - destruct e; cbn [b_batch]; try rewrite B; discriminate.
  - right. eapply K; eauto.
  - right. eapply K; eauto.
Qed.
Lemma fetch_same f (s : bstate) : b_world (fetch f s) = b_world s /\ b_poll (fetch f s) = b_poll s /\ b_groups (fetch f s) = b_groups s.
Proof.
  unfold fetch. destruct (b_dead s); auto. destruct (b_batch s); auto.
  destruct f as [|e|e|n e|]; cbn [sem snd]; auto; destruct e; auto.
Qed.

Lemma Binv_start full w : wreach w -> Binv full (bstart w).
Proof.
  intros H. pose proof (reach_R _ _ H) as HR. pose proof (R_floor _ _ HR). pose proof (revision_nonneg (history_of (snd w))). constructor; cbn [bstart b_world b_poll b_batch b_groups]; auto.
  - lia.
  - discriminate.
Qed.
Lemma Binv_group (full : Prop) s i f : Binv full s ->
  (forall g, nth_error (b_groups s) i = Some g -> Ginv full (history_of (snd (b_world s))) (b_poll s) g -> Ginv full (history_of (snd (b_world s))) (b_poll s) (f g)) ->
  Binv full (set_group s i f).
Proof.
  intros [B1 B2 B3 B4] H. constructor; auto. cbn [set_group b_groups b_world b_poll].
  apply update_nth_forall; auto.
Qed.
Lemma Binv_step (full : Prop) s a : Binv full s -> possible s a -> (full -> calm s a) -> Binv full (bstep s a).
Proof.
  intros B HP HC. pose proof B as [B1 B2 B3 B4]. destruct a as [op|f| | |i|i lo hi start|i id f|i id f|i id|i id|i]; cbn [bstep possible] in *.
  - assert (W : wsteps (b_world s) (wapply (b_world s) op)) by (apply wsteps_one; [constructor|auto]).
    pose proof (wsteps_extends _ _ W) as X. pose proof (extends_revision _ _ X) as L. destruct X as [[l X] _].
    constructor; cbn [b_world b_poll b_batch b_groups].
    + eapply wsteps_reach; eauto.
    + lia.
    + intros evs E. destruct (B3 evs E) as [C D]. split; [lia|]. rewrite X. apply rep_extend; auto; lia.
    + eapply Forall_impl; [|apply B4]. intros g. rewrite X. apply Ginv_extend. lia.
  - destruct (fetch_same f s) as (F1 & F2 & F3). constructor; rewrite ?F1, ?F2, ?F3; auto.
    intros evs E. apply fetch_cases in E. destruct E as [E|[n ->]]; [auto|].
    apply fetch_batch; auto. lia.
  - unfold publish_all. destruct (b_batch s) as [evs|] eqn:E; auto. destruct (B3 evs eq_refl) as [C D].
    constructor; cbn [b_world b_poll b_batch b_groups]; auto; [lia|discriminate|].
    apply Forall_map. eapply Forall_impl; [|apply B4]. intros g G. apply publish_inv with (P := b_poll s); auto. lia.
  - constructor; auto. cbn [new_group b_groups b_world b_poll]. apply Forall_app. split; auto. constructor; [|constructor].
    constructor; cbn [g_rev g_watchers g_pending g_updates g_taken g_open g_regs g_returns g_cancelled]; try easy; try lia.
    + intros [|j] r; discriminate.
    + constructor.
    + constructor.
  - apply Binv_group; auto. intros g _. apply stop_inv.
  - apply Binv_group; auto. intros g _ G. apply watch_begin_inv; auto. lia.
  - apply Binv_group; auto. intros g _ G. apply watch_check_inv; auto.
  - apply Binv_group; auto. intros g N G. apply watch_query_inv; auto; [lia|].
    intros F. destruct (HC F) as [A C]. split; auto. intros r p Q. eapply C; eauto.
  - apply Binv_group; auto. intros g _ G. apply watch_finish_inv; auto. lia.
  - apply Binv_group; auto. intros g _ G. apply unwatch_inv; auto.
  - apply Binv_group; auto. intros g _ G. apply take_inv; auto.
Qed.
Lemma breach_Binv s : breach s -> Binv False s.
Proof. intros H. induction H; [now apply Binv_start|]. apply Binv_step; auto. intros []. Qed.
Lemma calm_Binv s : calm_reach s -> Binv True s.
Proof. intros H. induction H; [now apply Binv_start|]. apply Binv_step; auto. Qed.
Lemma calm_breach s : calm_reach s -> breach s.
Proof. intros H. induction H; [now apply breach_start|]. apply breach_step; auto. Qed.
