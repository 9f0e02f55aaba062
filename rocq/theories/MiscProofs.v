(** Proofs for C53, C54, C60, C61. *)
From Coq Require Import String.
From Coq Require Import List ZArith NArith Bool Lia Permutation.
From Verif Require Import Bytes Server Misc.
Import ListNotations.
Open Scope string_scope.
Open Scope list_scope.
Open Scope Z_scope.

(** ---- cut ---- *)

Lemma sep_eq : sep = [58%N; 47%N; 47%N].
Proof. reflexivity. Qed.
Lemma starts_sep s : starts_with sep s = true <-> exists b, s = sep ++ b.
Proof.
  rewrite sep_eq. split.
  - destruct s as [|a [|b [|c s]]]; cbn [starts_with]; rewrite ?andb_false_r; try discriminate.
    rewrite !andb_true_iff, !N.eqb_eq. intros (<- & <- & <- & _). now exists s.
  - intros [b ->]. reflexivity.
Qed.
Lemma cut_none s : cut s = None <-> ~ contains s.
Proof.
  induction s as [|c s IH].
  - split; [|reflexivity]. intros _ (a & b & E). destruct a; discriminate.
  - cbn [cut]. destruct (starts_with sep (c :: s)) eqn:S.
    + split; [discriminate|]. intros N. apply starts_sep in S. destruct S as [b S]. contradiction N. exists [], b. exact S.
    + assert (NS : ~ exists b, c :: s = sep ++ b) by (rewrite <- starts_sep; congruence).
      destruct (cut s) as [[x y]|].
      * split; [discriminate|]. intros N. exfalso. destruct IH as [_ IH].
        assert (Q : ~ contains s). { intros (a & b & E). apply N. exists (c :: a), b. now rewrite E. }
        specialize (IH Q). discriminate.
      * split; [|reflexivity]. intros _ (a & b & E). destruct a as [|a0 a].
        -- apply NS. now exists b.
        -- injection E as E1 E2. apply (proj1 IH eq_refl). now exists a, b.
Qed.
Lemma cut_some s : forall n a, cut s = Some (n, a) -> s = n ++ sep ++ a /\ ~ contains n.
Proof.
  induction s as [|c s IH]; intros n a H; [discriminate|]. cbn [cut] in H.
  destruct (starts_with sep (c :: s)) eqn:S.
  - injection H as <- <-. apply starts_sep in S. destruct S as [b S]. change (match s with [] => [] | _ :: l => match l with [] => [] | _ :: l0 => l0 end end) with (skipn 3 (c :: s)).
    rewrite S. rewrite sep_eq. split; [reflexivity|].
    intros (x & y & E). destruct x; discriminate.
  - assert (NS : ~ exists b, c :: s = sep ++ b) by (rewrite <- starts_sep; congruence).
    destruct (cut s) as [[x y]|] eqn:C; [|discriminate]. injection H as <- <-.
    destruct (IH x y eq_refl) as [E N]. split; [now rewrite E|].
    intros (p & q & F). destruct p as [|p0 p].
    + apply NS. exists (q ++ sep ++ y). rewrite E. change (c :: x ++ sep ++ y) with ((c :: x) ++ sep ++ y). rewrite F.
      now rewrite <- !app_assoc.
    + injection F as F1 F2. apply N. now exists p, q.
Qed.
Lemma cut_unique n a n' a' : n ++ sep ++ a = n' ++ sep ++ a' -> ~ contains n -> ~ contains n' -> n = n' /\ a = a'.
Proof.
  rewrite sep_eq. revert n'. induction n as [|c n IH]; intros n' E N N'.
  - destruct n' as [|c1 [|c2 [|c3 n']]]; simpl in E.
    + injection E as E. auto.
    + injection E as E1 E2. discriminate E2.
    + injection E as E1 E2 E3. discriminate E3.
    + injection E as <- <- <- E. contradiction N'. now exists [], n'.
  - destruct n' as [|c' n'].
    + destruct n as [|c2 [|c3 n]]; simpl in E.
      * injection E as E1 E2. discriminate E2.
      * injection E as E1 E2 E3. discriminate E3.
      * injection E as -> -> -> E. contradiction N. now exists [], n.
    + injection E as -> E. destruct (IH n' E) as [-> ->]; auto.
      * intros (x & y & H). apply N. exists (c' :: x), y. now rewrite H.
      * intros (x & y & H). apply N'. exists (c' :: x), y. now rewrite H.
Qed.
Lemma cut_app n a : ~ contains n -> cut (n ++ sep ++ a) = Some (n, a).
Proof.
  intros N. destruct (cut (n ++ sep ++ a)) as [[x y]|] eqn:C.
  - apply cut_some in C. destruct C as [E M]. destruct (cut_unique _ _ _ _ E N M) as [-> ->]. reflexivity.
  - apply cut_none in C. contradiction C. now exists n, a.
Qed.

Lemma split_lemma s n a : network_and_address s = (n, a) <->
  (s = n ++ sep ++ a /\ ~ contains n) \/ (~ contains s /\ n = [] /\ a = s).
Proof.
  unfold network_and_address. split.
  - destruct (cut s) as [[x y]|] eqn:C.
    + intros [= <- <-]. left. apply cut_some, C.
    + intros [= <- <-]. right. apply cut_none in C. auto.
  - intros [[-> N]|(N & -> & ->)].
    + now rewrite cut_app.
    + apply cut_none in N. now rewrite N.
Qed.
Lemma no_scheme_fails s rm bd ot mode n : ~ contains s -> create_listener rm bd ot mode s n = ([], false).
Proof. intros N. unfold create_listener, network_and_address. apply cut_none in N. rewrite N. reflexivity. Qed.
Lemma unix_listener rm bd ot mode a n :
  create_listener rm bd ot mode (txt "unix" ++ sep ++ a) n = unix_listen rm bd mode n.
Proof.
  unfold create_listener, network_and_address. rewrite cut_app; [reflexivity|].
  intros (x & y & E). vm_compute in E.
  destruct x as [|x1 [|x2 [|x3 [|x4 [|x5 x]]]]]; discriminate E.
Qed.
Lemma other_listener rm bd ot mode net a n : ~ contains net -> net <> txt "unix" ->
  create_listener rm bd ot mode (net ++ sep ++ a) n = ([], known_network net && ot).
Proof.
  intros N U. unfold create_listener, network_and_address. rewrite cut_app by auto.
  apply beqb_false in U. rewrite U. reflexivity.
Qed.

(** ---- traces ---- *)

Lemma ended_app a b : ended (a ++ b) = ended a ++ ended b.
Proof. induction a as [|[s|k|] a IH]; simpl; auto. now rewrite IH. Qed.

Lemma pipeline_spec n d : n <> BadPattern -> exists f, pipeline n d = Some f /\
  forall s, 0 <= sp_duration s -> (f s = true <-> matches_name n s /\ long_enough d s).
Proof.
  intros NB. assert (D : forall s, 0 <= sp_duration s -> (0 < min_duration d -> (duration_filter (min_duration d) s = true <-> long_enough d s)) /\
    (min_duration d <= 0 -> long_enough d s)).
  { intros s P. unfold duration_filter. split.
    - intros M. replace (0 <? min_duration d) with true by (symmetry; now apply Z.ltb_lt). cbn [andb].
      rewrite negb_true_iff, Z.ltb_ge. destruct d; simpl in *; tauto.
    - intros M. destruct d; simpl in *; auto; lia. }
  destruct n as [| |m]; [|contradiction NB; reflexivity|]; eexists; (split; [reflexivity|]); intros s P; destruct (D s P) as [D1 D2];
    cbv beta; destruct (Z.ltb_spec 0 (min_duration d)) as [L|L]; cbn [matches_name name_filter].
  - rewrite andb_true_r, D1 by auto. tauto.
  - specialize (D2 L). tauto.
  - rewrite andb_true_iff, D1 by auto. tauto.
  - specialize (D2 L). tauto.
Qed.
Lemma trace_filter_const acts : forall t, tr_filter (fold_left trace_step acts t) = tr_filter t.
Proof.
  induction acts as [|a acts IH]; intros t; simpl; auto. rewrite IH. destruct a as [s|k|]; simpl; auto.
  destruct (tr_filter t) as [f|] eqn:F; [|congruence]. destruct (f s); simpl; congruence.
Qed.
Lemma trace_exact f acts : forall t, tr_filter t = Some f ->
  tr_exported (fold_left trace_step acts t) ++ tr_queue (fold_left trace_step acts t) =
  tr_exported t ++ tr_queue t ++ filter f (ended acts).
Proof.
  induction acts as [|a acts IH]; intros t F; simpl.
  - now rewrite app_nil_r.
  - rewrite IH.
    + destruct a as [s|k|]; simpl; auto.
      * rewrite F. destruct (f s); simpl; [now rewrite <- !app_assoc|reflexivity].
      * rewrite <- !app_assoc. f_equal. rewrite app_assoc. now rewrite firstn_skipn.
    + destruct a as [s|k|]; simpl; auto. rewrite F. destruct (f s); simpl; congruence.
Qed.
Lemma trace_none acts : forall t, tr_filter t = None -> tr_queue t = [] -> tr_exported (fold_left trace_step acts t) = tr_exported t.
Proof.
  induction acts as [|a acts IH]; intros t F Q; simpl; auto. rewrite IH.
  - destruct a as [s|k|]; simpl; auto; [now rewrite F|]. rewrite Q. destruct k; simpl; now rewrite app_nil_r.
  - destruct a as [s|k|]; simpl; auto. now rewrite F.
  - destruct a as [s|k|]; simpl; auto; [now rewrite F|]. rewrite Q. now destruct k.
Qed.
Lemma trace_lemma n d acts : n <> BadPattern -> Forall (fun s => 0 <= sp_duration s) (ended acts) ->
  let t := fold_left trace_step acts (setup_tracer n d) in
  exists sel, (forall s, 0 <= sp_duration s -> (sel s = true <-> matches_name n s /\ long_enough d s)) /\
    tr_exported t ++ tr_queue t = filter sel (ended acts).
Proof.
  intros NB _. cbv zeta. destruct (pipeline_spec n d NB) as (f & E & H). exists f. split; [exact H|].
  rewrite (trace_exact f) by exact E. reflexivity.
Qed.

(** ---- metrics ---- *)
Definition m_source (o : mop) : option counter := match o with MAdd _ _ => None | MTake _ _ c | MLoad _ _ c => Some c end.
Definition m_field (o : mop) : option counter := match o with MAdd _ _ => None | MTake _ f _ | MLoad _ f _ => Some f end.
Lemma counter_eqb_true a b : counter_eqb a b = true <-> a = b.
Proof. destruct a, b; simpl; split; congruence. Qed.
Lemma counter_eqb_refl a : counter_eqb a a = true.
Proof. now apply counter_eqb_true. Qed.
Lemma set_same c v g : set_counter c v g c = v.
Proof. unfold set_counter. now rewrite counter_eqb_refl. Qed.
Lemma set_other c v g x : x <> c -> set_counter c v g x = g x.
Proof. intros N. unfold set_counter. destruct (counter_eqb x c) eqn:E; auto. apply counter_eqb_true in E. contradiction. Qed.

(** sums *)
Lemma zsum_app a b : zsum (a ++ b) = zsum a + zsum b.
Proof. induction a; simpl; lia. Qed.
Lemma zsum_perm a b : Permutation a b -> zsum a = zsum b.
Proof. induction 1; simpl; lia. Qed.

Definition added (c : counter) (o : mop) : list Z := match o with MAdd c' n => if counter_eqb c' c then [n] else [] | _ => [] end.
Definition takers (c : counter) (o : mop) : list nat := match o with MTake r f _ => if counter_eqb f c then [r] else [] | _ => [] end.
Definition writers (c : counter) (o : mop) : list nat :=
  match o with MTake r f _ | MLoad r f _ => if counter_eqb f c then [r] else [] | _ => [] end.
Definition straight (c : counter) (o : mop) : Prop :=
  match o with MTake _ f s | MLoad _ f s => f = c <-> s = c | _ => True end.

Lemma flat_map_snoc {A B} (f : A -> list B) l x : flat_map f (l ++ [x]) = flat_map f l ++ f x.
Proof. rewrite flat_map_app. simpl. now rewrite app_nil_r. Qed.
Lemma takers_writers c ops r : In r (flat_map (takers c) ops) -> In r (flat_map (writers c) ops).
Proof.
  rewrite !in_flat_map. intros (o & A & B). exists o. split; auto. destruct o; simpl in *; tauto.
Qed.

Lemma conserve c ops : Forall (straight c) ops -> NoDup (flat_map (writers c) ops) ->
  let s := fold_left mstep ops metrics_init in
  (zsum (flat_map (added c) ops)) mod 2 ^ 64 =
  (zsum (map (fun r => m_read s r c) (flat_map (takers c) ops)) + m_global s c) mod 2 ^ 64.
Proof.
  cbv zeta. induction ops as [|o ops IH] using rev_ind; [reflexivity|]. intros HS HD.
  rewrite flat_map_snoc in HD. apply Forall_app in HS. destruct HS as [HS1 HS2]. inversion HS2 as [|? ? HS3 _]; subst.
  assert (HD1 : NoDup (flat_map (writers c) ops)).
  { clear -HD. induction (flat_map (writers c) ops) as [|x l IH]; [constructor|]. simpl in HD. inversion HD; subst.
    constructor; auto. intros HI. apply H1. apply in_app_iff; auto. }
  specialize (IH HS1 HD1). rewrite fold_left_app. simpl fold_left. rewrite !flat_map_snoc.
  set (s := fold_left mstep ops metrics_init) in *. set (T := flat_map (takers c) ops) in *.
  assert (OUT : forall r, writers c o = [r] -> ~ In r T).
  { intros r W HI. apply takers_writers in HI. rewrite W in HD. apply NoDup_remove_2 in HD. rewrite app_nil_r in HD. contradiction. }
  destruct o as [c' n|r f c'|r f c']; cbn [mstep added takers writers straight m_global m_read] in *.
  - rewrite app_nil_r. destruct (counter_eqb c' c) eqn:E.
    + apply counter_eqb_true in E. subst c'. rewrite set_same, zsum_app. cbn [zsum]. unfold u64.
      rewrite Z.add_mod_idemp_r by discriminate. rewrite Z.add_0_r, Z.add_assoc.
      rewrite <- Z.add_mod_idemp_l by discriminate. rewrite IH. now rewrite Z.add_mod_idemp_l by discriminate.
    + rewrite app_nil_r, set_other; [exact IH|]. intros ->. rewrite counter_eqb_refl in E. discriminate.
  - rewrite app_nil_r. destruct (counter_eqb f c) eqn:E.
    + apply counter_eqb_true in E. subst f. destruct HS3 as [HS3 _]. specialize (HS3 eq_refl). subst c'.
      rewrite map_app, zsum_app. cbn [map zsum]. rewrite Nat.eqb_refl, !set_same, !Z.add_0_r. rewrite IH. f_equal. f_equal. f_equal.
      apply map_ext_in. intros x HI. destruct (Nat.eqb x r) eqn:X; [|reflexivity]. apply Nat.eqb_eq in X. subst x.
      contradiction (OUT r eq_refl HI).
    + rewrite app_nil_r. assert (NE : c' <> c). { intros ->. rewrite (proj2 HS3 eq_refl), counter_eqb_refl in E. discriminate. }
      rewrite set_other by congruence. rewrite IH. f_equal. f_equal. f_equal. apply map_ext. intros x.
      destruct (Nat.eqb x r) eqn:X; [|reflexivity]. apply Nat.eqb_eq in X. subst x. rewrite set_other; [reflexivity|].
      intros ->. rewrite counter_eqb_refl in E. discriminate.
  - rewrite !app_nil_r. rewrite IH. f_equal. f_equal. f_equal. apply map_ext_in. intros x HI.
    destruct (Nat.eqb x r) eqn:X; [|reflexivity]. apply Nat.eqb_eq in X. subst x.
    destruct (counter_eqb f c) eqn:E.
    + contradiction (OUT r eq_refl HI).
    + rewrite set_other; [reflexivity|]. intros ->. rewrite counter_eqb_refl in E. discriminate.
Qed.

(** interleavings *)

Lemma interleave_perm ts ops : interleave ts ops -> Permutation (concat ts) ops.
Proof.
  induction 1 as [ts H|pre t post o rest _ IH].
  - induction H as [|x l H _ IH]; subst; simpl; auto.
  - rewrite concat_app in *. simpl in *. rewrite <- Permutation_middle. now constructor.
Qed.


Lemma flat_map_concat_map' {A B C} (f : B -> list C) (g : A -> list B) l :
  flat_map f (concat (map g l)) = flat_map (fun x => flat_map f (g x)) l.
Proof. induction l as [|x l IH]; simpl; auto. now rewrite flat_map_app, IH. Qed.
Lemma call_added k c : sound_counter k -> flat_map (added k) (mcall_ops c) = sample_of k c.
Proof.
  intros S. destruct c as [[a b d e f g]|r|r]; [|reflexivity|reflexivity].
  destruct S as [->|[->|[->| ->]]]; destruct g; reflexivity.
Qed.
Lemma call_takers k c : sound_counter k -> flat_map (takers k) (mcall_ops c) = resetters c.
Proof.
  intros S. destruct c as [[a b d e f g]|r|r]; [| |]; destruct S as [->|[->|[->| ->]]]; try destruct g; reflexivity.
Qed.
Lemma call_writers k c : sound_counter k -> flat_map (writers k) (mcall_ops c) = readers c.
Proof.
  intros S. destruct c as [[a b d e f g]|r|r]; [| |]; destruct S as [->|[->|[->| ->]]]; try destruct g; reflexivity.
Qed.
Lemma call_straight k c : sound_counter k -> Forall (straight k) (mcall_ops c).
Proof.
  intros S. destruct c as [[a b d e f g]|r|r]; destruct S as [->|[->|[->| ->]]];
    repeat constructor; simpl; congruence.
Qed.

Lemma flat_map_perm {A B} (f : A -> list B) a b : Permutation a b -> Permutation (flat_map f a) (flat_map f b).
Proof. apply Permutation_flat_map. Qed.

Lemma metrics_lemma k calls ops : sound_counter k -> NoDup (flat_map readers calls) ->
  interleave (map mcall_ops calls) ops ->
  let s := fold_left mstep ops metrics_init in
  zsum (flat_map (sample_of k) calls) mod 2 ^ 64 =
  (zsum (map (fun r => m_read s r k) (flat_map resetters calls)) + m_global s k) mod 2 ^ 64.
Proof.
  intros S ND HI. cbv zeta. pose proof (interleave_perm _ _ HI) as P.
  assert (EA : flat_map (sample_of k) calls = flat_map (added k) (concat (map mcall_ops calls))).
  { rewrite flat_map_concat_map'. apply flat_map_ext. intros; now rewrite call_added. }
  assert (ET : flat_map resetters calls = flat_map (takers k) (concat (map mcall_ops calls))).
  { rewrite flat_map_concat_map'. apply flat_map_ext. intros; now rewrite call_takers. }
  assert (EW : flat_map readers calls = flat_map (writers k) (concat (map mcall_ops calls))).
  { rewrite flat_map_concat_map'. apply flat_map_ext. intros; now rewrite call_writers. }
  rewrite EA, ET. rewrite EW in ND.
  rewrite (zsum_perm _ _ (flat_map_perm (added k) _ _ P)).
  rewrite (zsum_perm _ _ (Permutation_map _ (flat_map_perm (takers k) _ _ P))).
  apply conserve.
  - eapply Permutation_Forall; [exact P|]. apply Forall_concat. apply Forall_map. apply Forall_forall. intros c _. apply call_straight, S.
  - eapply Permutation_NoDup; [|exact ND]. apply flat_map_perm, P.
Qed.
Lemma spills_never calls ops : interleave (map mcall_ops calls) ops ->
  forall r, m_read (fold_left mstep ops metrics_init) r CSpills = 0.
Proof.
  intros HI. pose proof (interleave_perm _ _ HI) as P.
  assert (F : Forall (fun o => m_field o <> Some CSpills) ops).
  { eapply Permutation_Forall; [exact P|]. apply Forall_concat, Forall_map, Forall_forall. intros c _.
    destruct c as [x|r|r]; repeat constructor; discriminate. }
  clear HI P. assert (G : forall s, (forall r, m_read s r CSpills = 0) -> forall r, m_read (fold_left mstep ops s) r CSpills = 0).
  { induction ops as [|o ops IH]; intros s H; simpl; auto. inversion F as [|? ? F1 F2]; subst. apply IH; auto.
    intros r. destruct o as [c n|r' f c|r' f c]; simpl; auto.
    - destruct (Nat.eqb r r'); auto. rewrite set_other; auto. simpl in F1. congruence.
    - destruct (Nat.eqb r r'); auto. rewrite set_other; auto. simpl in F1. congruence. }
  apply G. reflexivity.
Qed.
