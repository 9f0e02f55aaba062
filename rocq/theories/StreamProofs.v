(** Invariants of watch streams. *)
From Coq Require Import List ZArith Bool Lia Sorting.Sorted.
From Verif Require Import Bytes Spec Sql System Prog Backend Watch Stream SpecLemmas SqlLemmas Sim ReadLemmas ProgLemmas ReadProgs WatchLemmas WatchProofs WatchResults.
Import ListNotations.
Open Scope Z_scope.

(** ---- how a group evolves ---- *)
Record grow (g g' : group) : Prop := {
  gr_regs : forall r, In r (g_regs g) -> In r (g_regs g');
  gr_returns : exists l, g_returns g' = g_returns g ++ l;
  gr_cancelled : forall x, In x (g_cancelled g) -> In x (g_cancelled g');
  gr_open : g_open g' = true -> g_open g = true
}.
Lemma grow_refl g : grow g g.
Proof. constructor; auto. exists []. now rewrite app_nil_r. Qed.

Lemma check_keeps id f w g : let g' := watch_check id f w g in grow g g' /\ g_updates g' = g_updates g /\ g_taken g' = g_taken g /\ g_cancelled g' = g_cancelled g /\ g_regs g' = g_regs g.
Proof.
  cbv zeta. unfold watch_check. destruct (pending_of id g) as [[r []]|]; auto using grow_refl.
  destruct (interval_result f w) as [[a b]|e]; [destruct (_ <? _)|]; (split; [constructor; cbn; auto; try (eexists; reflexivity); exists []; now rewrite app_nil_r|auto]).
Qed.
Lemma query_keeps id f w g : let g' := watch_query id f w g in grow g g' /\ g_updates g' = g_updates g /\ g_taken g' = g_taken g /\ g_cancelled g' = g_cancelled g /\ g_regs g' = g_regs g.
Proof.
  cbv zeta. unfold watch_query. destruct (pending_of id g) as [[r []]|]; auto using grow_refl.
  destruct (snd (sem f _ w)); (split; [constructor; cbn; auto; try (eexists; reflexivity); exists []; now rewrite app_nil_r|auto]).
Qed.
Lemma finish_keeps id g : let g' := watch_finish id g in grow g g' /\ g_updates g' = g_updates g /\ g_taken g' = g_taken g /\ g_cancelled g' = g_cancelled g /\ g_regs g' = g_regs g.
Proof.
  cbv zeta. unfold watch_finish. destruct (pending_of id g) as [[r []]|]; auto using grow_refl.
  (split; [constructor; cbn; auto; eexists; reflexivity|auto]).
Qed.
Lemma begin_keeps lo hi start g : let g' := watch_begin lo hi start g in grow g g' /\ g_updates g' = g_updates g /\ g_taken g' = g_taken g /\ g_cancelled g' = g_cancelled g.
Proof.
  cbv zeta. unfold watch_begin. destruct (0 <? start); (split; [constructor; cbn; auto|auto]).
  - intros r I. apply in_app_iff; auto.
  - exists []. now rewrite app_nil_r.
  - intros r I. apply in_app_iff; auto.
  - eauto.
Qed.
Lemma publish_keeps n evs g : grow g (publish n evs g) /\ g_taken (publish n evs g) = g_taken g /\ g_regs (publish n evs g) = g_regs g /\
  g_pending (publish n evs g) = g_pending g /\ g_returns (publish n evs g) = g_returns g /\ g_cancelled (publish n evs g) = g_cancelled g /\
  (g_updates (publish n evs g) = g_updates g \/
   g_open (publish n evs g) = true /\ exists ws, g_updates (publish n evs g) = g_updates g ++ [Update n ws]).
Proof.
  unfold publish. destruct (g_open g) eqn:O; [|auto 10 using grow_refl].
  destruct (_ <? _)%nat; cbn [g_taken g_regs g_pending g_returns g_cancelled g_updates g_open];
    (split; [constructor; cbn; auto; try congruence; exists []; now rewrite app_nil_r|]); do 5 (split; [reflexivity|]); auto.
  right. split; auto. eauto.
Qed.

(** every action, every group *)
Lemma step_group s a i g : nth_error (b_groups s) i = Some g ->
  exists g', nth_error (b_groups (bstep s a)) i = Some g' /\ grow g g' /\
   (g_updates g' = g_updates g \/
    a = APublish /\ g_open g' = true /\ exists ws evs, b_batch s = Some evs /\ g_updates g' = g_updates g ++ [Update (b_poll (bstep s a)) ws]).
Proof.
  intros N.
  assert (SG : forall j f, grow g (f g) -> g_updates (f g) = g_updates g -> exists g', nth_error (b_groups (set_group s j f)) i = Some g' /\ grow g g' /\ g_updates g' = g_updates g).
  { intros j f F1 F2. cbn [set_group b_groups]. rewrite update_nth_nth, N. cbn [option_map]. destruct (Nat.eqb i j); eauto using grow_refl. }
  assert (SG' : forall j f, grow g (f g) -> g_updates (f g) = g_updates g -> exists g', nth_error (b_groups (set_group s j f)) i = Some g' /\ grow g g' /\
     (g_updates g' = g_updates g \/ a = APublish /\ g_open g' = true /\ exists ws evs, b_batch s = Some evs /\ g_updates g' = g_updates g ++ [Update (b_poll (bstep s a)) ws])).
  { intros j f F1 F2. destruct (SG j f F1 F2) as (g' & A & B & C). exists g'. auto. }
  destruct a as [op|f| | |j|j lo hi start|j id f|j id f|j id|j id|j]; cbn [bstep].
  - exists g. auto using grow_refl.
  - destruct (fetch_same f s) as (_ & _ & E). rewrite E. exists g. auto using grow_refl.
  - cbn [bstep] in *. unfold publish_all. destruct (b_batch s) as [evs|] eqn:B; [|exists g; auto using grow_refl].
    cbn [b_groups b_poll]. rewrite nth_error_map, N. cbn [option_map]. eexists. split; [reflexivity|].
    destruct (publish_keeps (last_rev evs (b_poll s)) evs g) as (A & _ & _ & _ & _ & _ & C). split; auto.
    destruct C as [C|[C (ws & D)]]; auto. right. split; auto. split; auto. exists ws, evs. auto.
  - exists g. cbn [new_group b_groups]. rewrite nth_error_app1 by (apply nth_error_Some; congruence). auto using grow_refl.
  - apply SG'; auto. constructor; cbn; auto; [exists []; now rewrite app_nil_r|congruence].
  - destruct (begin_keeps lo hi start g) as (A & B & _). apply SG'; auto.
  - destruct (check_keeps id f (b_world s) g) as (A & B & _). apply SG'; auto.
  - destruct (query_keeps id f (b_world s) g) as (A & B & _). apply SG'; auto.
  - destruct (finish_keeps id g) as (A & B & _). apply SG'; auto.
  - apply SG'; auto. constructor; cbn; auto; [exists []; now rewrite app_nil_r|]. intros x I. apply in_app_iff; auto.
  - apply SG'; unfold take; destruct (_ <? _)%nat; auto using grow_refl. constructor; cbn; auto. exists []; now rewrite app_nil_r.
Qed.

(** ---- completeness of later updates for a watch acknowledged earlier ---- *)
Definition complete_from (n : nat) (i : nat) (r : reg) (s : bstate) : Prop :=
  exists g, nth_error (b_groups s) i = Some g /\ In r (g_regs g) /\ In (r_id r, WOk) (g_returns g) /\ (n <= length (g_updates g))%nat /\
  (~ In (r_id r) (g_cancelled g) -> forall k u, (n <= k)%nat -> nth_error (g_updates g) k = Some u ->
     u_rev u <= b_poll s /\
     reports (history_of (snd (b_world s))) (in_range (r_lo r) (r_hi r)) (begins r) (u_rev u) (delivered (firstn (S k) (g_updates g)) (r_id r))).

Lemma complete_start s i g r : nth_error (b_groups s) i = Some g -> In r (g_regs g) -> In (r_id r, WOk) (g_returns g) ->
  complete_from (length (g_updates g)) i r s.
Proof.
  intros N I K. exists g. split; auto. split; auto. split; auto. split; auto. intros _ k u L E. exfalso.
  assert (nth_error (g_updates g) k <> None) as X by congruence. apply nth_error_Some in X. lia.
Qed.
Lemma step_world s a : possible s a -> extends (snd (b_world s)) (snd (b_world (bstep s a))) /\ b_poll s <= b_poll s.
Proof.
  intros P. split; [|lia]. destruct a as [op|f| | |j|j lo hi start|j id f|j id f|j id|j id|j]; cbn [bstep]; try apply extends_refl.
  - cbn [b_world]. apply (wsteps_extends (b_world s)). apply wsteps_one; [constructor|exact P].
  - rewrite (proj1 (fetch_same f s)). apply extends_refl.
  - unfold publish_all. destruct (b_batch s); apply extends_refl.
Qed.
Lemma step_poll (full : Prop) s a : Binv full s -> b_poll s <= b_poll (bstep s a).
Proof.
  intros B. destruct a as [op|f| | |j|j lo hi start|j id f|j id f|j id|j id|j]; cbn [bstep set_group b_poll]; try lia.
  - destruct (fetch_same f s) as (_ & -> & _). lia.
  - unfold publish_all. destruct (b_batch s) eqn:E; [|lia]. cbn [b_poll]. destruct (B_batch _ _ B _ E) as [[X _] _]. exact X.
  - cbn [new_group b_poll]. lia.
Qed.

Lemma complete_step n i r s a : calm_reach s -> possible s a -> calm s a -> complete_from n i r s -> complete_from n i r (bstep s a).
Proof.
  intros H P C (g & N & I & K & L & M).
  assert (H' : calm_reach (bstep s a)) by (apply calm_step; auto).
  destruct (step_group s a i g N) as (g' & N' & G & U). destruct G as [G1 [l G2] G3 G4].
  destruct (step_world s a P) as [E _]. pose proof (step_poll _ s a (calm_Binv _ H)) as LP. destruct E as [[lh E] _].
  exists g'. split; auto. split; [auto|]. split; [rewrite G2; apply in_app_iff; auto|].
  assert (OLD : ~ In (r_id r) (g_cancelled g') -> forall k u, (n <= k)%nat -> nth_error (g_updates g) k = Some u ->
     u_rev u <= b_poll (bstep s a) /\
     reports (history_of (snd (b_world (bstep s a)))) (in_range (r_lo r) (r_hi r)) (begins r) (u_rev u) (delivered (firstn (S k) (g_updates g)) (r_id r))).
  { intros NC k u Lk Nk. assert (NC' : ~ In (r_id r) (g_cancelled g)) by auto.
    destruct (M NC' k u Lk Nk) as [A B]. split; [lia|]. rewrite E. apply reports_rep. apply reports_rep in B. apply rep_extend; auto.
    pose proof (B_poll _ _ (calm_Binv _ H)). lia. }
  destruct U as [U|(-> & OP & ws & evs & BB & U)]; rewrite U.
  - split; auto.
  - split; [rewrite app_length; lia|]. intros NC k u Lk Nk.
    destruct (Nat.ltb_spec k (length (g_updates g))) as [Lt|Ge].
    + rewrite nth_error_app1 in Nk by auto. destruct (OLD NC k u Lk Nk) as [A B]. split; auto.
      rewrite firstn_app. replace (S k - length (g_updates g))%nat with O by lia. cbn [firstn]. rewrite app_nil_r. exact B.
    + rewrite nth_error_app2 in Nk by auto. destruct (k - length (g_updates g))%nat as [|x] eqn:Ek; [|destruct x; discriminate].
      injection Nk as <-. cbn [u_rev]. split; [apply Z.le_refl|]. rewrite firstn_all2 by (rewrite app_length; simpl; lia).
      assert (RT : In (r_id r, WOk) (g_returns g')) by (rewrite G2; apply in_app_iff; auto).
      destruct (publish_complete True s evs i g' r (calm_Binv _ H) (calm_breach _ H) BB N' OP (G1 _ I) RT NC) as [RP _].
      rewrite U in RP. apply reports_rep. rewrite E. apply rep_extend; auto.
      pose proof (B_poll _ _ (calm_Binv _ H')) as X. cbn [bstep] in X. unfold publish_all in *. rewrite BB in *. cbn [b_poll b_world] in *. lia.
Qed.

(** ---- invariant of a stream ---- *)
Definition touched (out : list msg) (id : Z) : Prop := exists rev evs, In (MEvents rev id evs) out.

Record SI (s : sstate) (g : group) : Prop := {
  I_breach : breach (s_b s);
  I_group : group_of s = Some g;
  I_taken : (g_taken g <= length (g_updates g))%nat;
  I_hold : match s_hold s with
           | None => (forall id, sent (s_out s) id = delivered (firstn (g_taken g) (g_updates g)) id) /\
                     (g_taken g = 0%nat /\ s_rev s = 0 \/
                      exists t u, g_taken g = S t /\ nth_error (g_updates g) t = Some u /\ s_rev s = u_rev u)
           | Some ws => exists t u, g_taken g = S t /\ nth_error (g_updates g) t = Some u /\ s_rev s = u_rev u /\ ws = u_watchers u /\
                     forall id, sent (s_out s) id = delivered (firstn t (g_updates g)) id
           end;
  I_pending : match s_creating s with
              | Some id => exists r p, g_pending g = [(r, p)] /\ r_id r = id
              | None => g_pending g = []
              end;
  I_created : forall id, In (MCreated id) (s_out s) -> In (id, WOk) (g_returns g);
  I_nodup : NoDup (created_ids (s_out s));
  I_touched : forall id, touched (s_out s) id -> (exists r, In r (g_regs g) /\ r_id r = id) /\ s_creating s <> Some id /\ ~ In (id, true) (s_progress s);
  I_hcreat : forall ws x, s_hold s = Some ws -> In x ws -> (exists r, In r (g_regs g) /\ r_id r = fst x);
  I_prog : forall id, In (MCreated id) (s_out s) -> ~ touched (s_out s) id -> ~ In id (g_cancelled g) -> In (id, true) (s_progress s);
  I_pnodup : NoDup (map fst (s_progress s));
  I_closing : forall id, s_closing s = Some id -> In id (g_cancelled g)
}.

Lemma sent_app o1 o2 id : sent (o1 ++ o2) id = sent o1 id ++ sent o2 id.
Proof. apply flat_map_app. Qed.
Lemma created_app o1 o2 : created_ids (o1 ++ o2) = created_ids o1 ++ created_ids o2.
Proof. apply flat_map_app. Qed.
Lemma in_created o id : In id (created_ids o) <-> In (MCreated id) o.
Proof.
  unfold created_ids. rewrite in_flat_map. split.
  - intros (m & I & J). destruct m; simpl in J; try contradiction. destruct J as [->|[]]. exact I.
  - intros I. exists (MCreated id). simpl. auto.
Qed.

Lemma SI_open b : breach b -> exists g, SI (sopen b) g.
Proof.
  intros H. exists (Group (b_poll b) [] [] [] 0 true [] [] []). constructor; cbn [sopen s_b s_hold s_out s_rev s_creating s_progress s_closing g_taken g_updates g_pending g_returns g_regs g_cancelled]; try easy.
  - apply breach_step; simpl; auto.
  - unfold group_of. cbn [sopen s_b s_i bstep new_group b_groups]. rewrite nth_error_app2 by lia. now rewrite Nat.sub_diag.
  - split; auto.
  - constructor.
  - intros id (? & ? & []).
  - constructor.
Qed.

(** the backend moves, the stream's group changes by publication at most *)
Lemma foreign_group s a i g : foreign i a = true -> nth_error (b_groups s) i = Some g ->
  exists g', nth_error (b_groups (bstep s a)) i = Some g' /\
   g_taken g' = g_taken g /\ g_regs g' = g_regs g /\ g_pending g' = g_pending g /\ g_returns g' = g_returns g /\ g_cancelled g' = g_cancelled g /\
   exists l, g_updates g' = g_updates g ++ l.
Proof.
  intros F N.
  assert (SAME : exists g', Some g = Some g' /\
   g_taken g' = g_taken g /\ g_regs g' = g_regs g /\ g_pending g' = g_pending g /\ g_returns g' = g_returns g /\ g_cancelled g' = g_cancelled g /\
   exists l, g_updates g' = g_updates g ++ l) by (exists g; repeat split; auto; exists []; now rewrite app_nil_r).
  assert (OTHER : forall j f, negb (Nat.eqb j i) = true -> nth_error (b_groups (set_group s j f)) i = Some g).
  { intros j f E. cbn [set_group b_groups]. rewrite update_nth_nth. destruct (Nat.eqb_spec i j); auto. subst.
    rewrite Nat.eqb_refl in E. discriminate. }
  destruct a as [op|f| | |j|j lo hi start|j id f|j id f|j id|j id|j]; cbn [bstep foreign] in *; try (rewrite OTHER; [exact SAME|exact F]).
  - cbn [b_groups]. rewrite N. exact SAME.
  - destruct (fetch_same f s) as (_ & _ & E). rewrite E, N. exact SAME.
  - unfold publish_all. destruct (b_batch s) as [evs|] eqn:B; [|rewrite N; exact SAME].
    cbn [b_groups]. rewrite nth_error_map, N. cbn [option_map]. eexists. split; [reflexivity|].
    destruct (publish_keeps (last_rev evs (b_poll s)) evs g) as (A & B1 & B2 & B3 & B4 & B5 & C). repeat split; auto.
    destruct C as [C|[_ (ws & D)]]; [exists []; now rewrite app_nil_r|eauto].
  - cbn [new_group b_groups]. rewrite nth_error_app1 by (apply nth_error_Some; congruence). rewrite N. exact SAME.
Qed.

Lemma firstn_le_app {A} k (l m : list A) : (k <= length l)%nat -> firstn k (l ++ m) = firstn k l.
Proof. intros L. rewrite firstn_app. replace (k - length l)%nat with O by lia. cbn. apply app_nil_r. Qed.
Lemma nth_app_some {A} k (l m : list A) x : nth_error l k = Some x -> nth_error (l ++ m) k = Some x.
Proof. intros E. rewrite nth_error_app1; auto. apply nth_error_Some. congruence. Qed.

Lemma SI_group_step s g b g' : SI s g -> breach b -> nth_error (b_groups b) (s_i s) = Some g' ->
  g_taken g' = g_taken g -> g_regs g' = g_regs g -> g_pending g' = g_pending g -> g_returns g' = g_returns g -> g_cancelled g' = g_cancelled g ->
  (exists l, g_updates g' = g_updates g ++ l) -> SI (with_b s b) g'.
Proof.
  intros [J1 J2 J3 J4 J5 J6 J7 J8 J9 J10 J11 J12] HB N E1 E2 E3 E4 E5 [l E6].
  constructor; unfold group_of; cbn [with_b s_b s_i s_hold s_out s_rev s_creating s_progress s_closing]; rewrite ?E1, ?E2, ?E3, ?E4, ?E5, ?E6; auto.
  - rewrite app_length. lia.
  - destruct (s_hold s) as [ws|].
    + destruct J4 as (t & u & A & B & C & D & E). exists t, u. repeat split; auto; [now apply nth_app_some|].
      intros id. rewrite firstn_le_app by lia. apply E.
    + destruct J4 as [A B]. split; [intros id; rewrite firstn_le_app by auto; apply A|].
      destruct B as [B|(t & u & B1 & B2 & B3)]; auto. right. exists t, u. repeat split; auto. now apply nth_app_some.
Qed.

Lemma firstn_S {A} t (l : list A) x : nth_error l t = Some x -> firstn (S t) l = firstn t l ++ [x].
Proof.
  revert t. induction l as [|a l IH]; intros [|t]; simpl; try discriminate.
  - intros [= ->]. reflexivity.
  - intros E. f_equal. now apply IH.
Qed.
Lemma delivered_one u id : delivered [u] id = flat_map (fun x => if fst x =? id then snd x else []) (u_watchers u).
Proof. unfold delivered. simpl. apply app_nil_r. Qed.
Lemma sent_updates rev ws id : sent (map (fun x : Z * list event => MEvents rev (fst x) (snd x)) ws) id = flat_map (fun x => if fst x =? id then snd x else []) ws.
Proof. induction ws as [|x ws IH]; simpl; auto. now rewrite IH. Qed.

Lemma SI_recv s g : SI s g -> exists g', SI (s_recv s) g'.
Proof.
  intros J. pose proof J as [J1 J2 J3 J4 J5 J6 J7 J8 J9 J10 J11 J12]. unfold s_recv. destruct (s_hold s) as [ws|] eqn:HH; [eauto|].
  rewrite J2. destruct (nth_error (g_updates g) (g_taken g)) as [u|] eqn:NU.
  - exists (take g).
    assert (LT : (g_taken g < length (g_updates g))%nat) by (apply nth_error_Some; congruence).
    assert (TK : take g = Group (g_rev g) (g_watchers g) (g_pending g) (g_updates g) (S (g_taken g)) (g_open g) (g_regs g) (g_returns g) (g_cancelled g)).
    { unfold take. apply Nat.ltb_lt in LT. now rewrite LT. }
    rewrite TK. constructor; cbn [s_b s_i s_hold s_out s_rev s_creating s_progress s_closing g_taken g_updates g_pending g_returns g_regs g_cancelled]; auto.
    + apply breach_step; simpl; auto.
    + unfold group_of in *. cbn [s_b s_i bstep set_group b_groups]. rewrite update_nth_nth, Nat.eqb_refl, J2. cbn [option_map]. now rewrite TK.
    + exists (g_taken g), u. destruct J4 as [A _]. repeat split; auto.
    + intros ws x [= <-] I. pose proof (group_inv _ _ _ _ (breach_Binv _ J1) J2) as G.
      destruct (G_uids _ _ _ _ G u x (nth_error_In _ _ NU) I) as (r & A & B). eauto.
  - destruct (g_open g); [eauto|]. exists g. constructor; auto; cbn [s_hold].
Qed.

Lemma in_set_progress id b l x : In x (set_progress id b l) -> x = (id, b) \/ In x l /\ fst x <> id \/ (In x l /\ ~ NoDup (map fst l)).
Proof.
  induction l as [|y l IH]; simpl; [intuition|]. destruct (Z.eqb_spec (fst y) id) as [E|E]; simpl.
  - intros [<-|I]; auto. destruct (Z.eq_dec (fst x) id) as [F|F]; [|auto].
    right. right. split; auto. intros ND. inversion ND as [|? ? H1 H2]; subst. apply H1. rewrite <- F. now apply in_map.
  - intros [<-|I]; auto. destruct (IH I) as [?|[[? ?]|[? ?]]]; auto. right. right. split; auto. intros ND. inversion ND; auto.
Qed.
Lemma set_progress_in id b l : In (id, b) (set_progress id b l).
Proof. induction l as [|y l IH]; simpl; auto. destruct (fst y =? id); simpl; auto. Qed.
Lemma set_progress_other id b l x : In x l -> fst x <> id -> In x (set_progress id b l).
Proof.
  induction l as [|y l IH]; simpl; auto. intros I N. destruct (Z.eqb_spec (fst y) id) as [E|E]; simpl.
  - destruct I as [->|I]; [congruence|auto].
  - destruct I as [->|I]; auto.
Qed.
Lemma set_progress_keys id b l : map fst (set_progress id b l) = map fst l \/ (~ In id (map fst l) /\ map fst (set_progress id b l) = map fst l ++ [id]).
Proof.
  induction l as [|y l IH]; simpl; auto. destruct (Z.eqb_spec (fst y) id) as [E|E]; simpl; [subst; auto|].
  destruct IH as [->|[N ->]]; auto. right. split; auto. intros [?|?]; auto.
Qed.
Lemma set_progress_nodup id b l : NoDup (map fst l) -> NoDup (map fst (set_progress id b l)).
Proof.
  intros H. destruct (set_progress_keys id b l) as [->|[N ->]]; auto. apply NoDup_app; auto.
  - repeat constructor. auto.
  - intros x I [<-|[]]. auto.
Qed.
Lemma fold_progress (ws : list (Z * list event)) : forall l, NoDup (map fst l) ->
  let l' := fold_left (fun l x => set_progress (fst x) false l) ws l in
  NoDup (map fst l') /\ forall id, In (id, true) l' <-> In (id, true) l /\ ~ In id (map fst ws).
Proof.
  induction ws as [|w ws IH]; intros l ND; simpl; [split; auto; intuition|].
  destruct (IH (set_progress (fst w) false l) (set_progress_nodup _ _ _ ND)) as [A B]. split; auto.
  intros id. rewrite B. split.
  - intros [I N]. apply in_set_progress in I. destruct I as [I|[[I J]|[_ I]]]; [congruence| |contradiction]. simpl in J. split; auto. intros [?|?]; congruence.
  - intros [I N]. split; [|tauto]. apply set_progress_other; simpl; auto.
Qed.
Lemma touched_app o1 o2 id : touched (o1 ++ o2) id <-> touched o1 id \/ touched o2 id.
Proof.
  unfold touched. split.
  - intros (r & e & I). apply in_app_iff in I. destruct I; eauto.
  - intros [(r & e & I)|(r & e & I)]; exists r, e; apply in_app_iff; auto.
Qed.
Lemma touched_updates rev (ws : list (Z * list event)) id : touched (map (fun x => MEvents rev (fst x) (snd x)) ws) id <-> In id (map fst ws).
Proof.
  unfold touched. rewrite in_map_iff. split.
  - intros (r & e & I). apply in_map_iff in I. destruct I as (x & [= <- <- <-] & I). eauto.
  - intros (x & <- & I). exists rev, (snd x). apply in_map_iff. eauto.
Qed.
Lemma created_not_events rev (ws : list (Z * list event)) id : ~ In (MCreated id) (map (fun x => MEvents rev (fst x) (snd x)) ws).
Proof. intros I. apply in_map_iff in I. destruct I as (x & [=] & _). Qed.

Lemma SI_send s g : SI s g -> exists g', SI (s_send s) g'.
Proof.
  intros J. pose proof J as [J1 J2 J3 J4 J5 J6 J7 J8 J9 J10 J11 J12]. unfold s_send. destruct (s_hold s) as [ws|] eqn:HH; [|eauto].
  destruct (s_creating s) as [c|] eqn:CC; [eauto|]. exists g.
  destruct (fold_progress ws _ J11) as [F1 F2].
  destruct J4 as (t & u & A & B & C & D & E).
  assert (CN : forall id, In (MCreated id) (s_out s ++ map (fun x => MEvents (s_rev s) (fst x) (snd x)) ws) -> In (MCreated id) (s_out s)).
  { intros id I. apply in_app_iff in I. destruct I as [I|I]; auto. exfalso. eapply created_not_events; eauto. }
  constructor; cbn [s_b s_i s_hold s_out s_rev s_creating s_progress s_closing]; auto; rewrite ?CC; auto.
  - split.
    + intros id. rewrite sent_app, E, sent_updates, A, (firstn_S _ _ _ B), delivered_app, delivered_one, D. reflexivity.
    + right. exists t, u. auto.
  - rewrite created_app. replace (created_ids (map _ ws)) with (@nil Z); [now rewrite app_nil_r|].
    symmetry. clear. induction ws; simpl; auto.
  - intros id T. apply touched_app in T. rewrite touched_updates in T. destruct T as [T|T].
    + destruct (J8 id T) as (K1 & K2 & K3). split; auto. split; [congruence|]. rewrite F2. tauto.
    + apply in_map_iff in T. destruct T as (x & <- & I). split; [eapply J9; eauto|]. split; [congruence|].
      rewrite F2. intros [_ N]. apply N. now apply in_map.
  - intros ws' x [=].
  - intros id I N M. apply CN in I. rewrite touched_app, touched_updates in N. apply F2. split; [|tauto]. apply J10; auto.
Qed.

(** sending messages that are neither events nor acknowledgements *)
Definition harmless (m : msg) : Prop := match m with MEvents _ _ _ | MCreated _ => False | _ => True end.
Lemma harmless_sent o id : Forall harmless o -> sent o id = [].
Proof. induction 1 as [|m o Hm _ IH]; simpl; auto. destruct m; try destruct Hm; simpl; auto. Qed.
Lemma harmless_created o : Forall harmless o -> created_ids o = [].
Proof. induction 1 as [|m o Hm _ IH]; simpl; auto. destruct m; try destruct Hm; simpl; auto. Qed.
Lemma harmless_not_touched o id : Forall harmless o -> ~ touched o id.
Proof. rewrite Forall_forall. intros H (r & e & I). exact (H _ I). Qed.

Lemma SI_emit s g o cr dn en : SI s g -> Forall harmless o ->
  match cr with Some id => exists r p, g_pending g = [(r, p)] /\ r_id r = id | None => g_pending g = [] end ->
  (forall id, cr = Some id -> s_creating s = Some id) ->
  SI (SState (s_b s) (s_i s) (s_rev s) (s_hold s) (s_progress s) (s_out s ++ o) cr (s_closing s) dn en) g.
Proof.
  intros [J1 J2 J3 J4 J5 J6 J7 J8 J9 J10 J11 J12] HO HC HE.
  assert (CN : forall id, In (MCreated id) (s_out s ++ o) -> In (MCreated id) (s_out s)).
  { intros id I. apply in_app_iff in I. destruct I as [I|I]; auto. exfalso. rewrite Forall_forall in HO. exact (HO _ I). }
  assert (TN : forall id, touched (s_out s ++ o) id <-> touched (s_out s) id).
  { intros id. rewrite touched_app. pose proof (harmless_not_touched o id HO). tauto. }
  assert (SN : forall id, sent (s_out s ++ o) id = sent (s_out s) id).
  { intros id. rewrite sent_app, (harmless_sent o id HO). apply app_nil_r. }
  constructor; cbn [s_b s_i s_hold s_out s_rev s_creating s_progress s_closing]; auto.
  - destruct (s_hold s); [|].
    + destruct J4 as (t & u & A & B & C & D & E). exists t, u. repeat split; auto. intros id. rewrite SN. auto.
    + destruct J4 as [A B]. split; auto. intros id. rewrite SN. auto.
  - rewrite created_app, (harmless_created o HO), app_nil_r. auto.
  - intros id T. apply TN in T. destruct (J8 id T) as (K1 & K2 & K3). split; [exact K1|]. split; [|exact K3]. intros E. apply K2. auto.
  - intros id I N. rewrite TN in N. auto.
Qed.

(** ---- creating ---- *)
Lemma returns_find g id res : Gret g -> (forall res', In (id, res') (g_returns g) -> False) ->
  find (fun x : Z * watch_result => fst x =? id) (g_returns g ++ [(id, res)]) = Some (id, res).
Proof.
  intros _ H. assert (F : find (fun x : Z * watch_result => fst x =? id) (g_returns g) = None).
  { destruct (find _ (g_returns g)) as [[i r]|] eqn:E; auto. apply find_some in E. destruct E as [E1 E2]. simpl in E2. apply Z.eqb_eq in E2. subst. contradiction (H r E1). }
  induction (g_returns g) as [|x l IH]; simpl in *.
  - now rewrite Z.eqb_refl.
  - destruct (fst x =? id); [discriminate|]. apply IH; auto. intros res' I. apply (H res'). auto.
Qed.
Lemma find_none_ret g id : (forall res, ~ In (id, res) (g_returns g)) -> find (fun x : Z * watch_result => fst x =? id) (g_returns g) = None.
Proof.
  intros H. destruct (find _ (g_returns g)) as [[i r]|] eqn:E; auto. apply find_some in E. destruct E as [E1 E2]. simpl in E2. apply Z.eqb_eq in E2. subst. contradiction (H r E1).
Qed.
Lemma breach_gret s i g : breach s -> nth_error (b_groups s) i = Some g -> Gret g.
Proof. intros H N. pose proof (Gret_groups _ H) as F. rewrite Forall_forall in F. apply F. eapply nth_error_In; eauto. Qed.

(** A Watch call in progress moved by one step: either it is still in progress, or
    it has returned. *)
Lemma SI_watch_step s g id a b g' :
  SI s g -> s_creating s = Some id -> bstep (s_b s) a = b -> breach b -> nth_error (b_groups b) (s_i s) = Some g' ->
  g_taken g' = g_taken g -> g_regs g' = g_regs g -> g_cancelled g' = g_cancelled g -> g_updates g' = g_updates g ->
  ((exists r p, g_pending g' = [(r, p)] /\ r_id r = id) /\ g_returns g' = g_returns g \/
   g_pending g' = [] /\ exists res, g_returns g' = g_returns g ++ [(id, res)]) ->
  exists g'', SI (watch_step s id a) g''.
Proof.
  intros J CR EB HB N E1 E2 E3 E4 D. pose proof J as [J1 J2 J3 J4 J5 J6 J7 J8 J9 J10 J11 J12].
  rewrite CR in J5. destruct J5 as (r & p & PP & RI).
  pose proof (breach_gret _ _ _ J1 J2) as GR.
  assert (NR : forall res, ~ In (id, res) (g_returns g)).
  { intros res I. destruct (Q_ret _ GR _ _ I) as [_ K]. apply (K (r, p)); [rewrite PP; simpl; auto|auto]. }
  exists g'. unfold watch_step. unfold group_of at 1. cbn [with_b s_b s_i]. rewrite EB, N.
  destruct D as [[(r' & p' & PP' & RI') RT]|[PP' [res RT]]].
  - rewrite RT, (find_none_ret g id NR).
    constructor; unfold group_of; cbn [with_b s_b s_i s_hold s_out s_rev s_creating s_progress s_closing]; rewrite ?E1, ?E2, ?E3, ?E4, ?RT, ?CR; auto.
    + eauto.
    + intros i T. destruct (J8 i T) as (K1 & K2 & K3). rewrite CR in K2. auto.
  - rewrite RT, (returns_find g id res GR NR).
    assert (BASE : forall out prog', (forall i, sent out i = sent (s_out s) i) -> (forall i, In (MCreated i) out -> In (i, WOk) (g_returns g')) ->
       NoDup (created_ids out) -> (forall i, touched out i <-> touched (s_out s) i) ->
       (forall i, touched (s_out s) i -> i <> id -> ~ In (i, true) (s_progress s) -> ~ In (i, true) prog') ->
       (forall i, In (MCreated i) out -> ~ touched (s_out s) i -> ~ In i (g_cancelled g) -> In (i, true) prog') ->
       NoDup (map fst prog') ->
       SI (SState b (s_i s) (s_rev s) (s_hold s) prog' out None (s_closing s) (s_done s) (s_ended s)) g').
    { intros out prog' S1 S2 S3 S4 S5 S6 S7.
      constructor; unfold group_of; cbn [s_b s_i s_hold s_out s_rev s_creating s_progress s_closing]; rewrite ?E1, ?E2, ?E3, ?E4; auto.
      - destruct (s_hold s); [|].
        + destruct J4 as (t & u & A & B & C & D & E). exists t, u. repeat split; auto. intros i. rewrite S1. auto.
        + destruct J4 as [A B]. split; auto. intros i. rewrite S1. auto.
      - intros i T. apply S4 in T. destruct (J8 i T) as (K1 & K2 & K3). split; [exact K1|]. split; [discriminate|]. apply S5; auto. congruence.
      - intros i I T C. rewrite S4 in T. auto. }
    assert (HARM : forall m, harmless m -> SI (SState b (s_i s) (s_rev s) (s_hold s) (s_progress s) (s_out s ++ [m]) None (s_closing s) (s_done s) (s_ended s)) g').
    { intros m HM. assert (HF : Forall harmless [m]) by auto. 
      assert (CN : forall i, In (MCreated i) (s_out s ++ [m]) -> In (MCreated i) (s_out s)).
      { intros i I. apply in_app_iff in I. destruct I as [I|[->|[]]]; auto. destruct HM. }
      apply BASE; auto.
      - intros i. rewrite sent_app, (harmless_sent _ _ HF). apply app_nil_r.
      - intros i I. rewrite RT. apply in_app_iff. auto.
      - rewrite created_app, (harmless_created _ HF), app_nil_r. auto.
      - intros i. rewrite touched_app. pose proof (harmless_not_touched _ i HF). tauto. }
    destruct res as [|a1 a2|e]; unfold answer_create; cbn [with_b s_b s_i s_hold s_out s_rev s_creating s_progress s_closing s_done s_ended];
      [|apply HARM; simpl; auto|apply HARM; simpl; auto].
    apply BASE.
    + intros i. rewrite sent_app. simpl. apply app_nil_r.
    + intros i I. rewrite RT. apply in_app_iff. apply in_app_iff in I. destruct I as [I|[[= <-]|[]]]; simpl; auto.
    + rewrite created_app. apply NoDup_app; auto; [simpl; repeat constructor; auto|].
      intros i I [<-|[]]. apply in_created in I. apply J6 in I. exact (NR _ I).
    + intros i. rewrite touched_app. split; auto. intros [T|(? & ? & [[=]|[]])]; auto.
    + intros i T NE NP I. apply in_set_progress in I. destruct I as [I|[[I _]|[_ I]]]; [congruence|auto|auto].
    + intros i I T C. apply in_app_iff in I. destruct I as [I|[[= <-]|[]]]; [|apply set_progress_in].
      apply set_progress_other; auto. simpl. intros ->. apply J6 in I. exact (NR _ I).
    + now apply set_progress_nodup.
Qed.

Lemma drop_single id r p : r_id r = id -> drop_pending id [(r, p)] = [].
Proof. intros E. unfold drop_pending. simpl. rewrite E, Z.eqb_refl. reflexivity. Qed.
Lemma phase_single id r p q : r_id r = id -> set_phase id q [(r, p)] = [(r, q)].
Proof. intros E. unfold set_phase. simpl. rewrite E, Z.eqb_refl. reflexivity. Qed.
Lemma pending_single g id r p : g_pending g = [(r, p)] -> r_id r = id -> pending_of id g = Some (r, p).
Proof. intros E F. unfold pending_of. rewrite E. simpl. now rewrite F, Z.eqb_refl. Qed.

Lemma check_cases id f w g r p : g_pending g = [(r, p)] -> r_id r = id -> let g' := watch_check id f w g in
  (exists r p, g_pending g' = [(r, p)] /\ r_id r = id) /\ g_returns g' = g_returns g \/
  g_pending g' = [] /\ exists res, g_returns g' = g_returns g ++ [(id, res)].
Proof.
  intros E F. cbv zeta. unfold watch_check. rewrite (pending_single _ _ _ _ E F). destruct p; try (left; eauto; fail).
  destruct (interval_result f w) as [[a b]|e]; [destruct (_ <? _)|]; cbn [g_pending g_returns]; rewrite E.
  - right. split; [now apply drop_single|eauto].
  - left. rewrite (phase_single _ _ _ _ F). eauto.
  - right. split; [now apply drop_single|eauto].
Qed.
Lemma query_cases id f w g r p : g_pending g = [(r, p)] -> r_id r = id -> let g' := watch_query id f w g in
  (exists r p, g_pending g' = [(r, p)] /\ r_id r = id) /\ g_returns g' = g_returns g \/
  g_pending g' = [] /\ exists res, g_returns g' = g_returns g ++ [(id, res)].
Proof.
  intros E F. cbv zeta. unfold watch_query. rewrite (pending_single _ _ _ _ E F). destruct p; try (left; eauto; fail).
  destruct (snd (sem f _ w)); cbn [g_pending g_returns]; rewrite E.
  - left. rewrite (phase_single _ _ _ _ F). eauto.
  - right. split; [now apply drop_single|eauto].
Qed.
Lemma finish_cases id g r p : g_pending g = [(r, p)] -> r_id r = id -> let g' := watch_finish id g in
  (exists r p, g_pending g' = [(r, p)] /\ r_id r = id) /\ g_returns g' = g_returns g \/
  g_pending g' = [] /\ exists res, g_returns g' = g_returns g ++ [(id, res)].
Proof.
  intros E F. cbv zeta. unfold watch_finish. rewrite (pending_single _ _ _ _ E F). destruct p; try (left; eauto; fail).
  cbn [g_pending g_returns]; rewrite E. right. split; [now apply drop_single|eauto].
Qed.
Lemma set_group_nth b i f g : nth_error (b_groups b) i = Some g -> nth_error (b_groups (set_group b i f)) i = Some (f g).
Proof. intros N. cbn [set_group b_groups]. now rewrite update_nth_nth, Nat.eqb_refl, N. Qed.

Lemma SI_cont s g id a f : SI s g -> s_creating s = Some id -> possible (s_b s) a ->
  bstep (s_b s) a = set_group (s_b s) (s_i s) f ->
  (grow g (f g) /\ g_updates (f g) = g_updates g /\ g_taken (f g) = g_taken g /\ g_cancelled (f g) = g_cancelled g /\ g_regs (f g) = g_regs g) ->
  (forall r p, g_pending g = [(r, p)] -> r_id r = id -> let g' := f g in
  (exists r p, g_pending g' = [(r, p)] /\ r_id r = id) /\ g_returns g' = g_returns g \/
  g_pending g' = [] /\ exists res, g_returns g' = g_returns g ++ [(id, res)]) ->
  exists g'', SI (watch_step s id a) g''.
Proof.
  intros J CR P E (_ & K1 & K2 & K3 & K4) C. pose proof (I_pending _ _ J) as J5. rewrite CR in J5. destruct J5 as (r & p & PP & RI).
  apply (SI_watch_step s g id a (bstep (s_b s) a) (f g)); auto.
  - apply breach_step; auto. apply (I_breach _ _ J).
  - rewrite E. apply set_group_nth. apply (I_group _ _ J).
  - eapply C; eauto.
Qed.

Lemma range_end_nonempty lo hi : range_end lo hi <> [].
Proof. unfold range_end. destruct hi; [|discriminate]. destruct lo; discriminate. Qed.

Lemma SI_create s g wid lo hi start : SI s g -> exists g', SI (s_create wid lo hi start s) g'.
Proof.
  intros J. unfold s_create. destruct (s_creating s) eqn:CR; [eauto|]. destruct (s_closing s) eqn:CL; [eauto|].
  rewrite (I_group _ _ J). destruct (negb (wid =? 0)).
  { exists g. rewrite <- (app_nil_r (s_out s)) at 1. rewrite <- CR, <- CL at 1.
    replace (SState _ _ _ _ _ _ _ _ _ true) with (SState (s_b s) (s_i s) (s_rev s) (s_hold s) (s_progress s) (s_out s ++ []) None (s_closing s) (s_done s) true) by (rewrite CR; reflexivity).
    apply SI_emit; auto; [|discriminate]. pose proof (I_pending _ _ J) as X. now rewrite CR in X. }
  set (id := Z.of_nat (length (g_regs g)) + 1).
  set (s1 := SState (s_b s) (s_i s) (s_rev s) (s_hold s) (s_progress s) (s_out s) (Some id) None (s_done s) (s_ended s)).
  set (a := AWatch (s_i s) lo (range_end lo hi) start).
  pose proof J as [J1 J2 J3 J4 J5 J6 J7 J8 J9 J10 J11 J12]. rewrite CR in *.
  assert (HB : breach (bstep (s_b s) a)) by (apply breach_step; auto; simpl; apply range_end_nonempty).
  assert (N : nth_error (b_groups (bstep (s_b s) a)) (s_i s) = Some (watch_begin lo (range_end lo hi) start g)) by (cbn [a bstep]; apply set_group_nth, J2).
  pose proof (breach_gret _ _ _ J1 J2) as GR.
  assert (RB : forall r, In r (g_regs g) -> r_id r <> id) by (intros r I; pose proof (Q_regs _ GR r I); unfold id; lia).
  assert (NR : forall res, ~ In (id, res) (g_returns g)) by (intros res I; destruct (Q_ret _ GR _ _ I) as [K _]; unfold id in K; lia).
  assert (MID : forall i, touched (s_out s) i -> i <> id) by (intros i T; destruct (J8 i T) as ((r & A & B) & _); specialize (RB r A); congruence).
  exists (watch_begin lo (range_end lo hi) start g). unfold watch_step. unfold group_of at 1. cbn [with_b s_b s_i s1]. rewrite N.
  assert (BASE : forall out prog' cr, g_pending (watch_begin lo (range_end lo hi) start g) = match cr with Some _ => [(Reg id lo (range_end lo hi) start (g_rev g), PCheck)] | None => [] end ->
       (cr = None \/ cr = Some id) ->
       (forall i, sent out i = sent (s_out s) i) -> (forall i, In (MCreated i) out -> In (i, WOk) (g_returns (watch_begin lo (range_end lo hi) start g))) ->
       NoDup (created_ids out) -> (forall i, touched out i <-> touched (s_out s) i) ->
       (forall i, touched (s_out s) i -> i <> id -> ~ In (i, true) (s_progress s) -> ~ In (i, true) prog') ->
       (forall i, In (MCreated i) out -> ~ touched (s_out s) i -> ~ In i (g_cancelled g) -> In (i, true) prog') ->
       NoDup (map fst prog') ->
       SI (SState (bstep (s_b s) a) (s_i s) (s_rev s) (s_hold s) prog' out cr None (s_done s) (s_ended s)) (watch_begin lo (range_end lo hi) start g)).
  { intros out prog' cr S0 S0' S1 S2 S3 S4 S5 S6 S7.
    destruct (begin_keeps lo (range_end lo hi) start g) as (GG & E4 & E1 & E3).
    constructor; unfold group_of; cbn [s_b s_i s_hold s_out s_rev s_creating s_progress s_closing]; rewrite ?E1, ?E3, ?E4; auto.
    - destruct (s_hold s); [|].
      + destruct J4 as (t & u & A & B & C & D & E). exists t, u. repeat split; auto. intros i. rewrite S1. auto.
      + destruct J4 as [A B]. split; auto. intros i. rewrite S1. auto.
    - rewrite S0. destruct S0' as [->| ->]; auto. do 2 eexists. split; reflexivity.
    - intros i T. apply S4 in T. destruct (J8 i T) as ((r & A & B) & K2 & K3). specialize (MID i T). split; [exists r; split; auto; apply (gr_regs _ _ GG); auto|].
      split; [destruct S0' as [->| ->]; congruence|]. apply S5; auto.
    - intros ws x HW I. destruct (J9 ws x HW I) as (r & A & B). exists r. split; auto. apply (gr_regs _ _ GG); auto.
    - intros i I T C. rewrite S4 in T. auto.
    - discriminate. }
  unfold watch_begin at 1. destruct (0 <? start) eqn:ST; cbn [g_returns].
  - rewrite (find_none_ret g id NR). apply BASE; auto.
    + unfold watch_begin. rewrite ST. cbn [g_pending]. rewrite J5. reflexivity.
    + unfold watch_begin. rewrite ST. cbn [g_returns]. auto.
    + tauto.
  - cbn [r_id]. fold id. rewrite (returns_find g id WOk GR NR). unfold answer_create. cbn [with_b s_b s_i s_hold s_out s_rev s_creating s_progress s_closing s_done s_ended s1].
    assert (RT : g_returns (watch_begin lo (range_end lo hi) start g) = g_returns g ++ [(id, WOk)]) by (unfold watch_begin; rewrite ST; reflexivity).
    apply BASE; auto.
    + unfold watch_begin. rewrite ST. cbn [g_pending]. auto.
    + intros i. rewrite sent_app. simpl. apply app_nil_r.
    + intros i I. rewrite RT. apply in_app_iff. apply in_app_iff in I. destruct I as [I|[[= <-]|[]]]; simpl; auto.
    + rewrite created_app. apply NoDup_app; auto; [simpl; repeat constructor; auto|].
      intros i I [<-|[]]. apply in_created in I. apply J6 in I. exact (NR _ I).
    + intros i. rewrite touched_app. split; auto. intros [T|(? & ? & [[=]|[]])]; auto.
    + intros i T NE NP I. apply in_set_progress in I. destruct I as [I|[[I _]|[_ I]]]; [congruence|auto|auto].
    + intros i I T C. apply in_app_iff in I. destruct I as [I|[[= <-]|[]]]; [|apply set_progress_in].
      apply set_progress_other; auto. simpl. intros ->. apply J6 in I. exact (NR _ I).
    + now apply set_progress_nodup.
Qed.

Lemma SI_cancel s g id : SI s g -> exists g', SI (s_cancel id s) g'.
Proof.
  intros J. unfold s_cancel. destruct (s_creating s) eqn:CR; [eauto|]. destruct (s_closing s) eqn:CL; [eauto|].
  exists (unwatch id g). pose proof J as [J1 J2 J3 J4 J5 J6 J7 J8 J9 J10 J11 J12]. rewrite CR in *.
  constructor; unfold group_of; cbn [s_b s_i s_hold s_out s_rev s_creating s_progress s_closing unwatch g_taken g_updates g_pending g_returns g_regs g_cancelled]; auto.
  - apply breach_step; simpl; auto.
  - cbn [bstep]. rewrite (set_group_nth _ _ _ _ J2). reflexivity.
  - intros i I T C. apply J10; auto. intros X. apply C. apply in_app_iff; auto.
  - intros i [= <-]. apply in_app_iff. simpl; auto.
Qed.
Lemma in_del id l x : In x (del_progress id l) <-> In x l /\ fst x <> id.
Proof. unfold del_progress. rewrite filter_In, negb_true_iff, Z.eqb_neq. tauto. Qed.
Lemma SI_forget s g : SI s g -> exists g', SI (s_forget s) g'.
Proof.
  intros J. unfold s_forget. destruct (s_closing s) as [id|] eqn:CL; [|eauto]. exists g.
  pose proof J as [J1 J2 J3 J4 J5 J6 J7 J8 J9 J10 J11 J12].
  constructor; unfold group_of; cbn [s_b s_i s_hold s_out s_rev s_creating s_progress s_closing]; auto; try discriminate.
  - intros i T. destruct (J8 i T) as (K1 & K2 & K3). split; auto. split; auto. rewrite in_del. tauto.
  - intros i I T C. apply in_del. split; auto. simpl. intros ->. apply C, J12. auto.
  - apply nodup_filter_map. auto.
Qed.

Lemma SI_eof s g : SI s g -> SI (s_eof s) g.
Proof.
  intros J. unfold s_eof. destruct (s_creating s) eqn:CR; [exact J|]. destruct (s_closing s) eqn:CL; [exact J|].
  pose proof J as [J1 J2 J3 J4 J5 J6 J7 J8 J9 J10 J11 J12]. rewrite CR in *. rewrite CL in *.
  constructor; unfold group_of; cbn [s_b s_i s_hold s_out s_rev s_creating s_progress s_closing]; auto.
Qed.
Lemma SI_step s g a : SI s g -> back_ok s a possible -> exists g', SI (sstep s a) g'.
Proof.
  intros J B. unfold sstep. destruct a as [a| | | | |wid lo hi start|f|f| |id| | | ].
  - destruct (foreign (s_i s) a) eqn:F; [|eauto].
    destruct (foreign_group (s_b s) a (s_i s) g F (I_group _ _ J)) as (g' & N & E1 & E2 & E3 & E4 & E5 & E6).
    exists g'. eapply SI_group_step; eauto. apply breach_step; [apply (I_breach _ _ J)|exact B].
  - destruct (s_done s); [eauto|]. eapply SI_recv; eauto.
  - eapply SI_send; eauto.
  - unfold s_tick. destruct (s_creating s) eqn:CR; [eauto|]. exists g. pose proof (I_pending _ _ J) as X. rewrite CR in X. apply (SI_emit s g _ None); [exact J| |exact X|discriminate].
    apply Forall_forall. intros m I. apply in_map_iff in I. destruct I as (x & <- & _). exact Logic.I.
  - destruct (s_ended s); [eauto|]. unfold s_progress_req. destruct (s_creating s) eqn:CR; [eauto|]. destruct (s_closing s) eqn:CL; [eauto|]. exists g.
    pose proof (I_pending _ _ J) as X. rewrite CR in X. pose proof (SI_emit s g [MProgress (s_rev s) (-1)] None (s_done s) (s_ended s) J) as Y. rewrite CL in Y. apply Y; [repeat constructor|exact X|discriminate].
  - destruct (s_ended s); [eauto|]. eapply SI_create; eauto.
  - destruct (s_creating s) as [id|] eqn:CR; [|eauto]. apply (SI_cont s g id _ (watch_check id f (b_world (s_b s)))); [exact J|exact CR|exact Logic.I|reflexivity|apply check_keeps|apply check_cases].
  - destruct (s_creating s) as [id|] eqn:CR; [|eauto]. apply (SI_cont s g id _ (watch_query id f (b_world (s_b s)))); [exact J|exact CR|exact Logic.I|reflexivity|apply query_keeps|apply query_cases].
  - destruct (s_creating s) as [id|] eqn:CR; [|eauto]. apply (SI_cont s g id _ (watch_finish id)); [exact J|exact CR|exact Logic.I|reflexivity|apply finish_keeps|apply finish_cases].
  - destruct (s_ended s); [eauto|]. eapply SI_cancel; eauto.
  - eapply SI_forget; eauto.
  - exists g. now apply SI_eof.
  - destruct (s_ended s); [|eauto]. exists (stop_group g).
    assert (N : nth_error (b_groups (bstep (s_b s) (AStopGroup (s_i s)))) (s_i s) = Some (stop_group g)).
    { cbn [bstep]. apply set_group_nth. exact (I_group _ _ J). }
    eapply SI_group_step; eauto. { apply breach_step; [apply (I_breach _ _ J)|exact Logic.I]. } exists []. now rewrite app_nil_r.
Qed.
Lemma sreach_SI s : sreach s -> exists g, SI s g.
Proof. induction 1 as [b H|s a H [g J] B]; [now apply SI_open|]. eapply SI_step; eauto. Qed.

(** ---- what the backend does on behalf of a stream step ---- *)
Lemma answer_b s id r : s_b (answer_create s id r) = s_b s /\ s_i (answer_create s id r) = s_i s.
Proof. destruct r; auto. Qed.
Lemma watch_step_b s id a : s_b (watch_step s id a) = bstep (s_b s) a /\ s_i (watch_step s id a) = s_i s.
Proof.
  unfold watch_step. destruct (group_of _) as [g|]; [|auto]. destruct (find _ _) as [[j r]|]; [|auto].
  destruct (answer_b (with_b s (bstep (s_b s) a)) id r) as [E F]. rewrite E, F. auto.
Qed.
Lemma sstep_b s a : back_ok s a possible -> s_i (sstep s a) = s_i s /\
  (s_b (sstep s a) = s_b s \/ exists act, s_b (sstep s a) = bstep (s_b s) act /\ possible (s_b s) act /\ (back_ok s a calm -> calm (s_b s) act)).
Proof.
  intros B. unfold sstep. destruct a as [a| | | | |wid lo hi start|f|f| |id| | | ].
  - destruct (foreign (s_i s) a); [|auto]. split; [reflexivity|]. right. exists a. auto.
  - destruct (s_done s); [auto|]. unfold s_recv. destruct (s_hold s); [auto|]. destruct (group_of s) as [g|]; [|auto].
    destruct (nth_error _ _); [|destruct (g_open g); auto]. split; [reflexivity|]. right. exists (ATake (s_i s)). repeat split; auto.
  - unfold s_send. destruct (s_hold s); [|auto]. destruct (s_creating s); auto.
  - unfold s_tick. destruct (s_creating s); auto.
  - destruct (s_ended s); [auto|]. unfold s_progress_req. destruct (s_creating s); [auto|]. destruct (s_closing s); auto.
  - destruct (s_ended s); [auto|]. unfold s_create. destruct (s_creating s); [auto|]. destruct (s_closing s); [auto|]. destruct (group_of s) as [g|]; [|auto].
    destruct (negb _); [auto|]. match goal with |- s_i (watch_step ?a ?b ?c) = _ /\ _ => destruct (watch_step_b a b c) as [E F]; rewrite E, F end.
    split; [reflexivity|]. right. eexists. split; [reflexivity|]. split; [simpl; apply range_end_nonempty|auto].
  - destruct (s_creating s) as [id|] eqn:CR; [|auto]. destruct (watch_step_b s id (ACheck (s_i s) id f)) as [E F]. rewrite E, F.
    split; [reflexivity|]. right. eexists. split; [reflexivity|]. split; [exact Logic.I|auto].
  - unfold back_ok in B |- *. destruct (s_creating s) as [id|] eqn:CR; [|auto]. destruct (watch_step_b s id (AQuery (s_i s) id f)) as [E F]. rewrite E, F.
    split; [reflexivity|]. right. eexists. split; [reflexivity|]. split; [exact Logic.I|auto].
  - destruct (s_creating s) as [id|] eqn:CR; [|auto]. destruct (watch_step_b s id (AFinish (s_i s) id)) as [E F]. rewrite E, F.
    split; [reflexivity|]. right. eexists. split; [reflexivity|]. split; [exact Logic.I|auto].
  - destruct (s_ended s); [auto|]. unfold s_cancel. destruct (s_creating s); [auto|]. destruct (s_closing s); [auto|]. split; [reflexivity|]. right.
    exists (AUnwatch (s_i s) id). repeat split; auto.
  - unfold s_forget. destruct (s_closing s); auto.
  - unfold s_eof. destruct (s_creating s); auto. destruct (s_closing s); auto.
  - destruct (s_ended s); [|auto]. split; [reflexivity|]. right. exists (AStopGroup (s_i s)). repeat split; auto.
Qed.
Lemma scalm_sreach s : scalm s -> sreach s.
Proof. induction 1; [apply sreach_open; now apply calm_breach|apply sreach_step; auto]. Qed.
Lemma scalm_calm s : scalm s -> calm_reach (s_b s).
Proof.
  induction 1 as [b H|s a H IH P C].
  - apply calm_step; [exact H|exact Logic.I|exact Logic.I].
  - destruct (sstep_b s a P) as [_ [E|(act & E & P1 & C1)]]; rewrite E; [auto|]. apply calm_step; auto.
Qed.
Lemma calm_later_scalm s s' : calm_later s s' -> scalm s -> scalm s'.
Proof. induction 1; auto. intros. apply scalm_step; auto. Qed.
Lemma slater_sreach s s' : slater s s' -> sreach s -> sreach s'.
Proof. induction 1; auto. intros. apply sreach_step; auto. Qed.
Lemma calm_later_slater s s' : calm_later s s' -> slater s s'.
Proof. induction 1; econstructor; eauto. Qed.
Lemma complete_later n r s s' : calm_later s s' -> scalm s -> complete_from n (s_i s) r (s_b s) -> complete_from n (s_i s') r (s_b s').
Proof.
  intros L H. induction L as [s|s s' a L IH P C]; [auto|]. intros K. specialize (IH H K).
  destruct (sstep_b s' a P) as [E1 [E|(act & E & P1 & C1)]]; rewrite E, E1; [exact IH|].
  apply complete_step; auto. apply scalm_calm. eapply calm_later_scalm; eauto.
Qed.

(** ---- outputs ---- *)
Lemma answer_out s id r : s_out (answer_create s id r) = s_out s ++ [match r with WOk => MCreated id | WCompacted _ c => MCompacted c | WFailed _ => MUnhealthy (s_rev s) end].
Proof. destruct r; reflexivity. Qed.
Lemma watch_step_out s id a : s_out (watch_step s id a) = s_out s \/ exists r, s_out (watch_step s id a) = s_out s ++ [match r with WOk => MCreated id | WCompacted _ c => MCompacted c | WFailed _ => MUnhealthy (s_rev s) end].
Proof.
  unfold watch_step. destruct (group_of _) as [g|]; [|auto]. destruct (find _ _) as [[j r]|]; [|auto]. right. exists r. rewrite answer_out. reflexivity.
Qed.
(** what a step emits *)
Definition emits (s : sstate) (m : msg) : Prop :=
  match m with
  | MEvents rev id evs => rev = s_rev s /\ exists ws, s_hold s = Some ws /\ In (id, evs) ws
  | MProgress rev id => rev = s_rev s /\ (id = -1 \/ In (id, true) (s_progress s))
  | _ => True
  end.
Lemma sstep_out s a : exists o, s_out (sstep s a) = s_out s ++ o /\ Forall (emits s) o.
Proof.
  assert (NIL : forall s', s_out s' = s_out s -> exists o, s_out s' = s_out s ++ o /\ Forall (emits s) o).
  { intros s' E. exists []. rewrite app_nil_r. auto. }
  assert (WS : forall s1 id act, s_out s1 = s_out s -> exists o, s_out (watch_step s1 id act) = s_out s ++ o /\ Forall (emits s) o).
  { intros s1 id act E. destruct (watch_step_out s1 id act) as [F|[r F]]; [apply NIL; congruence|].
    rewrite F, E. eexists. split; [reflexivity|]. repeat constructor. destruct r; exact Logic.I. }
  unfold sstep. destruct a as [a| | | | |wid lo hi start|f|f| |id| | | ].
  - apply NIL. destruct (foreign _ _); auto.
  - apply NIL. destruct (s_done s); auto. unfold s_recv. destruct (s_hold s); auto. destruct (group_of s) as [g|]; auto. destruct (nth_error _ _); auto. destruct (g_open g); auto.
  - unfold s_send. destruct (s_hold s) as [ws|] eqn:HH; [|apply NIL; auto]. destruct (s_creating s); [apply NIL; auto|]. cbn [s_out]. eexists. split; [reflexivity|].
    apply Forall_forall. intros m I. apply in_map_iff in I. destruct I as (x & <- & I). simpl. split; auto. exists ws. split; auto. destruct x; auto.
  - unfold s_tick. destruct (s_creating s); [apply NIL; auto|]. cbn [s_out]. eexists. split; [reflexivity|].
    apply Forall_forall. intros m I. apply in_map_iff in I. destruct I as (x & <- & I). simpl. split; auto. right. apply filter_In in I. destruct x as [i b], I as [I J]. simpl in *. subst. auto.
  - destruct (s_ended s); [apply NIL; auto|]. unfold s_progress_req. destruct (s_creating s); [apply NIL; auto|]. destruct (s_closing s); [apply NIL; auto|]. cbn [s_out]. eexists. split; [reflexivity|].
    repeat constructor.
  - destruct (s_ended s); [apply NIL; auto|]. unfold s_create. destruct (s_creating s); [apply NIL; auto|]. destruct (s_closing s); [apply NIL; auto|]. destruct (group_of s) as [g|]; [|apply NIL; auto].
    destruct (negb _); [apply NIL; auto|]. apply WS. reflexivity.
  - destruct (s_creating s) as [id|]; [apply WS|apply NIL]; auto.
  - destruct (s_creating s) as [id|]; [apply WS|apply NIL]; auto.
  - destruct (s_creating s) as [id|]; [apply WS|apply NIL]; auto.
  - apply NIL. destruct (s_ended s); [auto|]. unfold s_cancel. destruct (s_creating s); auto. destruct (s_closing s); auto.
  - apply NIL. unfold s_forget. destruct (s_closing s); auto.
  - apply NIL. unfold s_eof. destruct (s_creating s); auto. destruct (s_closing s); auto.
  - apply NIL. destruct (s_ended s); auto.
Qed.
Lemma emits_new s a o m : s_out (sstep s a) = s_out s ++ o -> In m o -> emits s m.
Proof.
  intros E I. destruct (sstep_out s a) as (o' & E' & F). rewrite E in E'. apply app_inv_head in E'. subst. rewrite Forall_forall in F. auto.
Qed.

(** ---- C29 ---- *)
Lemma progress_complete s r g s' g' a R i o : scalm s -> group_of s = Some g -> In r (g_regs g) -> In (MCreated (r_id r)) (s_out s) ->
  calm_later s s' -> group_of s' = Some g' -> ~ In (r_id r) (g_cancelled g') ->
  s_hold s' = None -> (length (g_updates g) < g_taken g')%nat ->
  s_out (sstep s' a) = s_out s' ++ o -> In (MProgress R i) o ->
  reports (history_of (snd (b_world (s_b s')))) (in_range (r_lo r) (r_hi r)) (begins r) R (sent (s_out s') (r_id r)).
Proof.
  intros H G I M L G' NC HN LT EO IO. destruct (emits_new _ _ _ _ EO IO) as [-> _].
  destruct (sreach_SI s (scalm_sreach _ H)) as [g0 J]. rewrite (I_group _ _ J) in G. injection G as ->.
  pose proof (complete_start (s_b s) (s_i s) g r (I_group _ _ J) I (I_created _ _ J _ M)) as C.
  apply (complete_later _ _ _ _ L H) in C. destruct C as (g1 & N & _ & _ & _ & C). unfold group_of in G'. rewrite G' in N. injection N as <-.
  destruct (sreach_SI s' (scalm_sreach _ (calm_later_scalm _ _ L H))) as [g2 J']. pose proof (I_group _ _ J') as X. unfold group_of in X. rewrite G' in X. injection X as <-.
  pose proof (I_hold _ _ J') as K. rewrite HN in K. destruct K as [K1 [[K2 _]|(t & u & K2 & K3 & K4)]]; [lia|].
  rewrite K1, K4, K2. apply (C NC t u); [lia|exact K3].
Qed.

(** ---- C31 ---- *)
Lemma stream_prefix s g r : scalm s -> group_of s = Some g -> In r (g_regs g) ->
  exists b, b <= b_poll (s_b s) /\ reports (history_of (snd (b_world (s_b s)))) (in_range (r_lo r) (r_hi r)) (begins r) b (sent (s_out s) (r_id r)).
Proof.
  intros H G I. destruct (sreach_SI s (scalm_sreach _ H)) as [g0 J]. rewrite (I_group _ _ J) in G. injection G as ->.
  assert (exists k, sent (s_out s) (r_id r) = delivered (firstn k (g_updates g)) (r_id r)) as [k E].
  { pose proof (I_hold _ _ J) as K. destruct (s_hold s).
    - destruct K as (t & u & _ & _ & _ & _ & K). eauto.
    - destruct K as [K _]. eauto. }
  rewrite E. apply (delivered_prefix (s_b s) (s_i s) g r k (scalm_calm _ H) (I_group _ _ J) I).
Qed.

Lemma slater_out s s' : slater s s' -> exists o, s_out s' = s_out s ++ o.
Proof.
  induction 1 as [s|s s' a L [o E] P]; [exists []; now rewrite app_nil_r|].
  destruct (sstep_out s' a) as (o' & E' & _). exists (o ++ o'). now rewrite E', E, app_assoc.
Qed.
Lemma done_step s a : s_done s = true -> s_hold s = None -> s_done (sstep s a) = true /\ s_hold (sstep s a) = None.
Proof.
  intros D HN.
  assert (WS : forall s1 id act, s_done s1 = true -> s_hold s1 = None -> s_done (watch_step s1 id act) = true /\ s_hold (watch_step s1 id act) = None).
  { intros s1 id act E F. unfold watch_step. destruct (group_of _) as [g|]; [|auto]. destruct (find _ _) as [[j r]|]; [|auto]. destruct r; auto. }
  unfold sstep. destruct a as [a| | | | |wid lo hi start|f|f| |id| | | ]; rewrite ?D.
  - destruct (foreign _ _); auto.
  - auto.
  - unfold s_send. rewrite HN. auto.
  - unfold s_tick. destruct (s_creating s); auto.
  - destruct (s_ended s); [auto|]. unfold s_progress_req. destruct (s_creating s); auto. destruct (s_closing s); auto.
  - destruct (s_ended s); [auto|]. unfold s_create. destruct (s_creating s); [auto|]. destruct (s_closing s); [auto|]. destruct (group_of s) as [g|]; [|auto].
    destruct (negb _); [auto|]. apply WS; auto.
  - destruct (s_creating s); auto.
  - destruct (s_creating s); auto.
  - destruct (s_creating s); auto.
  - destruct (s_ended s); [auto|]. unfold s_cancel. destruct (s_creating s); auto. destruct (s_closing s); auto.
  - unfold s_forget. destruct (s_closing s); auto.
  - unfold s_eof. destruct (s_creating s); auto. destruct (s_closing s); auto.
  - destruct (s_ended s); auto.
Qed.
(** once ServeUpdates has returned, no event is ever sent again *)
Lemma done_silent s s' : slater s s' -> s_done s = true -> s_hold s = None -> forall id, sent (s_out s') id = sent (s_out s) id.
Proof.
  intros L D HN. assert (X : (s_done s' = true /\ s_hold s' = None) /\ forall id, sent (s_out s') id = sent (s_out s) id).
  { induction L as [s|s s' a L IH P]; [auto|]. destruct (IH D HN) as [[D' H'] IH']. split; [now apply done_step|].
    intros id. destruct (sstep_out s' a) as (o & E & F). rewrite E, sent_app, IH'. rewrite <- (app_nil_r (sent (s_out s) id)) at 2. f_equal.
    assert (forall m, In m o -> match m with MEvents _ _ _ => False | _ => True end) as G.
    { intros m I. rewrite Forall_forall in F. specialize (F m I). destruct m; simpl; auto. destruct F as (_ & ws & E1 & _). congruence. }
    clear - G. induction o as [|m o IH]; simpl; auto. rewrite IH by (intros; apply G; simpl; auto).
    specialize (G m (or_introl eq_refl)). destruct m; simpl; auto. contradiction. }
  apply X.
Qed.

(** ---- C30 ---- *)
Lemma tick_progress s id g : sreach s -> group_of s = Some g -> In (MCreated id) (s_out s) -> ~ touched (s_out s) id -> ~ In id (g_cancelled g) ->
  s_creating s = None -> exists o, s_out (sstep s STick) = s_out s ++ o /\ In (MProgress (s_rev s) id) o.
Proof.
  intros H G C T N CR. destruct (sreach_SI s H) as [g0 J]. rewrite (I_group _ _ J) in G. injection G as ->.
  cbn [sstep]. unfold s_tick. rewrite CR. cbn [s_out]. eexists. split; [reflexivity|].
  apply in_map_iff. exists (id, true). split; auto. apply filter_In. split; auto. apply (I_prog _ _ J); auto.
Qed.
Lemma sstep_later_touched s s' id : slater s s' -> touched (s_out s) id -> touched (s_out s') id.
Proof. intros L T. destruct (slater_out _ _ L) as [o ->]. apply touched_app. auto. Qed.
Lemma touched_no_progress s s' id o : sreach s -> slater s s' -> touched (s_out s) id -> s_out s' = s_out s ++ o ->
  forall R, ~ In (MProgress R id) o.
Proof.
  intros H L T. revert o. induction L as [s|s s' a L IH P]; intros o E R I.
  - rewrite <- (app_nil_r (s_out s)) in E at 1. apply app_inv_head in E. subst. contradiction.
  - destruct (slater_out _ _ L) as [o1 E1]. destruct (sstep_out s' a) as (o2 & E2 & F). rewrite E2, E1, <- app_assoc in E. apply app_inv_head in E. subst o.
    apply in_app_iff in I. destruct I as [I|I]; [exact (IH H T o1 E1 R I)|].
    rewrite Forall_forall in F. specialize (F _ I). simpl in F. destruct F as [_ F].
    assert (H' : sreach s') by (eapply slater_sreach; eauto). destruct (sreach_SI s' H') as [g J].
    pose proof (sstep_later_touched _ _ _ L T) as T'. destruct (I_touched _ _ J id T') as ((r & A & B) & _ & K).
    destruct F as [->|F]; [|contradiction].
    pose proof (breach_gret _ _ _ (I_breach _ _ J) (I_group _ _ J)) as GR. pose proof (Q_regs _ GR r A). lia.
Qed.

(** ---- C33 ---- *)
Definition pos_returns (g : group) : Prop := forall id res, In (id, res) (g_returns g) -> 1 <= id.
Lemma pos_add g g' id res : Gret g -> pos_returns g -> (exists r p, pending_of id g = Some (r, p)) -> g_returns g' = g_returns g ++ [(id, res)] -> pos_returns g'.
Proof.
  intros GR P (r & p & E) F i res' I. rewrite F in I. apply in_app_iff in I. destruct I as [I|[[= <- <-]|[]]]; [exact (P _ _ I)|].
  destruct (pending_of_fst _ _ _ _ E) as [A B]. apply in_map_iff in A. destruct A as (x & <- & A).
  pose proof (Q_preg _ GR x A) as C. apply (Q_regs _ GR) in C. lia.
Qed.
Lemma pos_step b a : breach b -> Forall pos_returns (b_groups b) -> Forall pos_returns (b_groups (bstep b a)).
Proof.
  intros H P. pose proof (Gret_groups _ H) as GR.
  assert (BOTH : Forall (fun g => Gret g /\ pos_returns g) (b_groups b)) by (rewrite Forall_forall in *; auto).
  assert (SG : forall j f, (forall g, Gret g -> pos_returns g -> pos_returns (f g)) -> Forall pos_returns (b_groups (set_group b j f))).
  { intros j f F. cbn [set_group b_groups]. clear - BOTH F. revert j. induction BOTH as [|g l [A B] X IH]; intros [|j]; simpl; constructor; auto.
    clear - X. induction X as [|g l [A B] X IH]; auto. }
  destruct a as [op|f| | |j|j lo hi start|j id f|j id f|j id|j id|j]; cbn [bstep].
  - exact P.
  - destruct (fetch_same f b) as (_ & _ & E). rewrite E. exact P.
  - unfold publish_all. destruct (b_batch b) as [evs|]; [|exact P]. cbn [b_groups]. apply Forall_map. eapply Forall_impl; [|exact P].
    intros g Pg id res I. destruct (publish_keeps (last_rev evs (b_poll b)) evs g) as (_ & _ & _ & _ & E & _). rewrite E in I. eapply Pg; eauto.
  - cbn [new_group b_groups]. apply Forall_app. split; auto. constructor; auto. intros id res [].
  - apply SG. intros g _ Pg. exact Pg.
  - apply SG. intros g _ Pg id res. unfold watch_begin. destruct (0 <? start); cbn [g_returns]; [apply Pg|]. intros I. apply in_app_iff in I.
    destruct I as [I|[[= <- <-]|[]]]; [eapply Pg; eauto|]. cbn [r_id]. lia.
  - apply SG. intros g G Pg. unfold watch_check. destruct (pending_of id g) as [[r []]|] eqn:E; auto.
    destruct (interval_result f (b_world b)) as [[x y]|e]; [destruct (_ <? _)|]; auto; eapply (pos_add g); eauto; cbn [g_returns]; eauto.
  - apply SG. intros g G Pg. unfold watch_query. destruct (pending_of id g) as [[r []]|] eqn:E; auto.
    destruct (snd (sem f _ _)); auto. eapply (pos_add g); eauto; cbn [g_returns]; eauto.
  - apply SG. intros g G Pg. unfold watch_finish. destruct (pending_of id g) as [[r []]|] eqn:E; auto. eapply (pos_add g); eauto; cbn [g_returns]; eauto.
  - apply SG. intros g _ Pg. exact Pg.
  - apply SG. intros g _ Pg. unfold take. destruct (_ <? _)%nat; exact Pg.
Qed.
Lemma pos_breach b : breach b -> Forall pos_returns (b_groups b).
Proof. induction 1; [constructor|now apply pos_step]. Qed.
Lemma created_unique s : sreach s -> NoDup (created_ids (s_out s)) /\ forall id, In (MCreated id) (s_out s) -> 1 <= id.
Proof.
  intros H. destruct (sreach_SI s H) as [g J]. split; [apply (I_nodup _ _ J)|]. intros id I.
  pose proof (I_created _ _ J _ I) as RT. pose proof (pos_breach _ (I_breach _ _ J)) as F. rewrite Forall_forall in F.
  exact (F g (nth_error_In _ _ (I_group _ _ J)) _ _ RT).
Qed.
