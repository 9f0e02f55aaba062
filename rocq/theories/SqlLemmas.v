(** Lemmas about the SQL building blocks. *)
From Coq Require Import List ZArith Bool Lia Sorting.Sorted Sorting.Permutation.
From Verif Require Import Bytes Sql.
Import ListNotations.
Open Scope Z_scope.

Definition id_lt (a b : row) : Prop := id a < id b.

Lemma max_opt_cons x l : exists m, max_opt (x :: l) = Some m /\ In m (x :: l) /\ forall y, In y (x :: l) -> y <= m.
Proof.
  simpl. revert x. induction l as [|a l IH]; intros x; simpl.
  - exists x. repeat split; auto. intros y [->|[]]; lia.
  - destruct (IH (Z.max x a)) as (m & E & I & U). exists m. split; auto. split.
    + destruct I as [I|I]; [|auto]. destruct (Z.max_spec x a) as [[? H]|[? H]]; rewrite H in I; auto.
    + intros y [->|[->|H]].
      * specialize (U (Z.max y a) (or_introl eq_refl)). lia.
      * specialize (U (Z.max x y) (or_introl eq_refl)). lia.
      * apply U. simpl; auto.
Qed.

Lemma max_opt_spec l m : max_opt l = Some m <-> In m l /\ forall y, In y l -> y <= m.
Proof.
  destruct l as [|x l].
  - simpl. split; [discriminate|intros [[] _]].
  - destruct (max_opt_cons x l) as (m' & E & I & U). rewrite E. split.
    + intros [= <-]; auto.
    + intros [I' U']. f_equal. specialize (U _ I'). specialize (U' _ I). lia.
Qed.
Lemma max_opt_none l : max_opt l = None <-> l = [].
Proof. destruct l; simpl; split; congruence. Qed.

Lemma max_row_spec l x : max_row l = Some x -> In x l /\ forall y, In y l -> id y <= id x.
Proof.
  revert x. induction l as [|a l IH]; simpl; intros x H; [discriminate|].
  destruct (max_row l) as [b|] eqn:E.
  - specialize (IH _ eq_refl). destruct IH as [I U].
    destruct (id a <? id b) eqn:C; inversion H; subst; clear H.
    + apply Z.ltb_lt in C. split; auto. intros y [->|]; auto. lia.
    + apply Z.ltb_ge in C. split; auto. intros y [->|Hy]; [lia|]. specialize (U _ Hy). lia.
  - inversion H; subst. split; auto. destruct l; [|simpl in E; destruct (max_row l); [destruct (id r <? id r0)|]; discriminate].
    intros y [->|[]]. lia.
Qed.
Lemma max_row_none l : max_row l = None <-> l = [].
Proof.
  destruct l; simpl; [tauto|]. split; [|discriminate].
  destruct (max_row l); [destruct (id r <? id r0)|]; discriminate.
Qed.
Lemma max_row_opt l : max_opt (map id l) = option_map id (max_row l).
Proof.
  destruct (max_row l) as [x|] eqn:E; simpl.
  - apply max_opt_spec. apply max_row_spec in E. destruct E as [I U]. split.
    + now apply in_map.
    + intros y Hy. apply in_map_iff in Hy. destruct Hy as (z & <- & Hz). auto.
  - apply max_row_none in E. now subst.
Qed.

(** ORDER BY *)
Lemma insert_perm {A} le (x : A) l : Permutation (x :: l) (insert_sorted le x l).
Proof.
  induction l; simpl; auto. destruct (le x a); auto.
  eapply perm_trans; [apply perm_swap|]. auto.
Qed.
Lemma order_by_perm {A} le (l : list A) : Permutation l (order_by le l).
Proof.
  induction l; simpl; auto. eapply perm_trans; [|apply insert_perm]. auto.
Qed.
Lemma order_by_in {A} le (l : list A) x : In x (order_by le l) <-> In x l.
Proof.
  split; apply Permutation_in; [apply Permutation_sym|]; apply order_by_perm.
Qed.
Lemma order_by_length {A} le (l : list A) : length (order_by le l) = length l.
Proof. symmetry. apply Permutation_length, order_by_perm. Qed.

Section OrderBy.
  Context {A : Type} (le : A -> A -> bool).
  Context (total : forall a b, le a b = true \/ le b a = true)
          (trans : forall a b c, le a b = true -> le b c = true -> le a c = true).
  Let leP a b := le a b = true.
  Lemma insert_sorted_sorted x l : StronglySorted leP l -> StronglySorted leP (insert_sorted le x l).
  Proof.
    induction 1 as [|a l S IH F]; simpl.
    - repeat constructor.
    - destruct (le x a) eqn:E.
      + constructor; [constructor; auto|]. constructor; auto.
        eapply Forall_impl; [|apply F]. intros b Hb. unfold leP in *. eauto.
      + constructor; auto. apply Forall_forall. intros y Hy.
        apply (Permutation_in _ (Permutation_sym (insert_perm le x l))) in Hy.
        destruct Hy as [->|Hy].
        * destruct (total a y); auto. congruence.
        * rewrite Forall_forall in F. auto.
  Qed.
  Lemma order_by_sorted l : StronglySorted leP (order_by le l).
  Proof. induction l; simpl; [constructor|]. now apply insert_sorted_sorted. Qed.
  Lemma order_by_id l : StronglySorted leP l -> order_by le l = l.
  Proof.
    induction 1 as [|a l S IH F]; auto. simpl. rewrite IH.
    destruct l as [|b l]; auto. simpl. rewrite Forall_forall in F.
    rewrite (F b); simpl; auto.
  Qed.
End OrderBy.

Lemma by_id_total a b : by_id a b = true \/ by_id b a = true.
Proof. unfold by_id. rewrite !Z.leb_le. lia. Qed.
Lemma by_id_trans a b c : by_id a b = true -> by_id b c = true -> by_id a c = true.
Proof. unfold by_id. rewrite !Z.leb_le. lia. Qed.
Lemma by_name_total a b : by_name a b = true \/ by_name b a = true.
Proof.
  unfold by_name. rewrite !bleb_true, !ble_lt_eq. destruct (blt_total (name a) (name b)) as [|[|]]; auto.
Qed.
Lemma by_name_trans a b c : by_name a b = true -> by_name b c = true -> by_name a c = true.
Proof. unfold by_name. rewrite !bleb_true. apply ble_trans. Qed.
Lemma by_name_id_true a b : by_name_id a b = true <-> blt (name a) (name b) \/ (name a = name b /\ id a <= id b).
Proof.
  unfold by_name_id, blt. destruct (bcmp (name a) (name b)) eqn:E.
  - apply bcmp_eq in E. rewrite Z.leb_le. intuition congruence.
  - intuition.
  - split; [discriminate|]. intros [|[H _]]; [discriminate|]. rewrite H, bcmp_refl in E. discriminate.
Qed.
Lemma by_name_id_total a b : by_name_id a b = true \/ by_name_id b a = true.
Proof.
  rewrite !by_name_id_true. destruct (blt_total (name a) (name b)) as [|[E|]]; auto.
  rewrite E. destruct (Z_le_dec (id a) (id b)); [left|right]; right; split; auto; lia.
Qed.
Lemma by_name_id_trans a b c : by_name_id a b = true -> by_name_id b c = true -> by_name_id a c = true.
Proof.
  rewrite !by_name_id_true. intros [H|[H K]] [H'|[H' K']].
  - left; eauto using blt_trans.
  - left; congruence.
  - left; congruence.
  - right. split; [congruence|lia].
Qed.

Lemma sorted_filter {A} (R : A -> A -> Prop) f (l : list A) : StronglySorted R l -> StronglySorted R (filter f l).
Proof.
  induction 1; simpl; [constructor|]. destruct (f a); auto. constructor; auto.
  rewrite Forall_forall in *. intros x Hx. apply filter_In in Hx. intuition.
Qed.
Lemma sorted_impl {A} (R S : A -> A -> Prop) (l : list A) : (forall a b, R a b -> S a b) -> StronglySorted R l -> StronglySorted S l.
Proof. intros H Q. induction Q; constructor; auto. eapply Forall_impl; [|eassumption]. auto. Qed.
Lemma sorted_impl_in {A} (R S : A -> A -> Prop) (l : list A) : (forall a b, In a l -> In b l -> R a b -> S a b) -> StronglySorted R l -> StronglySorted S l.
Proof.
  intros H Q. revert H. induction Q; constructor.
  - apply IHQ. intros; apply H0; simpl; auto.
  - rewrite Forall_forall in *. intros x Hx. apply H0; simpl; auto.
Qed.
Lemma sorted_map {A B} (R : B -> B -> Prop) (f : A -> B) (l : list A) : StronglySorted (fun a b => R (f a) (f b)) l <-> StronglySorted R (map f l).
Proof.
  split.
  - induction 1; simpl; constructor; auto. rewrite Forall_forall in *.
    intros x Hx. apply in_map_iff in Hx. destruct Hx as (y & <- & Hy). auto.
  - remember (map f l) as m. intros H. revert l Heqm. induction H; intros [|b l0]; simpl; try congruence; constructor.
    + inversion Heqm; subst. auto.
    + inversion Heqm; subst. rewrite Forall_forall in *. intros x Hx. apply H0. now apply in_map.
Qed.
Lemma sorted_app {A} (R : A -> A -> Prop) (l1 l2 : list A) :
  StronglySorted R (l1 ++ l2) <-> StronglySorted R l1 /\ StronglySorted R l2 /\ forall a b, In a l1 -> In b l2 -> R a b.
Proof.
  induction l1; simpl.
  - split; [|tauto]. intros; repeat split; auto. constructor. intros ? ? [].
  - split.
    + inversion 1; subst. apply IHl1 in H2. destruct H2 as (A1 & A2 & A3).
      apply Forall_app in H3. destruct H3 as [F1 F2]. repeat split; auto. constructor; auto.
      intros x y [->|Hx] Hy; auto. rewrite Forall_forall in F2. auto.
    + intros (A1 & A2 & A3). inversion A1; subst. constructor.
      * apply IHl1. repeat split; auto.
      * apply Forall_app. split; auto. rewrite Forall_forall. auto.
Qed.

(** unique ids *)
Definition unique_ids (l : list row) : Prop := NoDup (map id l).

Lemma sorted_unique l : StronglySorted id_lt l -> unique_ids l.
Proof.
  unfold unique_ids. induction 1; simpl; constructor; auto.
  intros H1. apply in_map_iff in H1. destruct H1 as (x & E & Hx).
  rewrite Forall_forall in H0. specialize (H0 _ Hx). unfold id_lt in H0. lia.
Qed.
Lemma unique_inj l a b : unique_ids l -> In a l -> In b l -> id a = id b -> a = b.
Proof.
  unfold unique_ids. induction l as [|x l IH]; simpl; [tauto|]. intros N.
  inversion N; subst. intros [->|Ha] [->|Hb] E; auto.
  - exfalso. apply H1. rewrite E. now apply in_map.
  - exfalso. apply H1. rewrite <- E. now apply in_map.
Qed.
Lemma unique_filter l f : unique_ids l -> unique_ids (filter f l).
Proof.
  unfold unique_ids. induction l; simpl; auto. intros N. inversion N; subst.
  destruct (f a); simpl; auto. constructor; auto. intros H. apply H1.
  apply in_map_iff in H. destruct H as (x & <- & Hx). apply filter_In in Hx. apply in_map. tauto.
Qed.
Lemma filter_id_single l x f : unique_ids l -> In x l ->
  (forall y, In y l -> f y = true <-> y = x) -> filter f l = [x].
Proof.
  unfold unique_ids. induction l as [|a l IH]; simpl; [tauto|]. intros N I E. inversion N; subst.
  assert (Hno : forall y, In y l -> id y = id a -> False).
  { intros y Hy Ey. apply H1. rewrite <- Ey. now apply in_map. }
  destruct I as [->|I].
  - replace (f x) with true by (symmetry; apply E; auto).
    f_equal. assert (forall y, In y l -> f y = false).
    { intros y Hy. destruct (f y) eqn:F; auto. exfalso. apply E in F; auto. subst.
      eapply Hno; eauto. }
    clear - H. induction l; simpl; auto. rewrite H by (simpl; auto). apply IHl. intros; apply H; simpl; auto.
  - replace (f a) with false.
    + apply IH; auto.
    + destruct (f a) eqn:F; auto. apply E in F; auto. subst. exfalso. eapply Hno; eauto.
Qed.
Lemma filter_none {A} (f : A -> bool) l : (forall y, In y l -> f y = false) -> filter f l = [].
Proof. induction l; simpl; auto. intros H. rewrite H by auto. auto. Qed.
Lemma filter_all {A} (f : A -> bool) l : (forall y, In y l -> f y = true) -> filter f l = l.
Proof. induction l; simpl; auto. intros H. rewrite H by auto. f_equal; auto. Qed.
Lemma nodup_unique l : unique_ids l -> NoDup l.
Proof. apply NoDup_map_inv. Qed.
Lemma filter_filter {A} (f g : A -> bool) l : filter f (filter g l) = filter (fun x => g x && f x) l.
Proof. induction l; simpl; auto. destruct (g a); simpl; auto. destruct (f a); simpl; rewrite IHl; auto. Qed.

Lemma group_max_in l x : In x (group_max l) <-> In x l /\ forall y, In y l -> name y = name x -> id y <= id x.
Proof.
  unfold group_max. rewrite filter_In, forallb_forall. split; intros [I H]; split; auto; intros y Hy.
  - intros E. specialize (H _ Hy). rewrite orb_true_iff, negb_true_iff, Z.leb_le in H.
    destruct H; auto. apply beqb_false in H. congruence.
  - rewrite orb_true_iff, negb_true_iff, Z.leb_le, beqb_false.
    destruct (bytes_eq_dec (name y) (name x)); auto.
Qed.

(** ztake *)
Lemma ztake_firstn {A} n (l : list A) : 0 <= n -> ztake n l = firstn (Z.to_nat n) l.
Proof.
  revert n. induction l; intros n H; simpl.
  - now rewrite firstn_nil.
  - destruct (n <=? 0) eqn:E.
    + apply Z.leb_le in E. replace n with 0 by lia. reflexivity.
    + apply Z.leb_gt in E. replace (Z.to_nat n) with (S (Z.to_nat (n - 1))) by lia.
      simpl. f_equal. apply IHl. lia.
Qed.
Lemma ztake_all {A} n (l : list A) : Z.of_nat (length l) <= n -> ztake n l = l.
Proof. intros. rewrite ztake_firstn by lia. apply firstn_all2. lia. Qed.
Lemma ztake_length {A} n (l : list A) : 0 <= n -> Z.of_nat (length (ztake n l)) = Z.min n (Z.of_nat (length l)).
Proof. intros. rewrite ztake_firstn, firstn_length by auto. lia. Qed.
Lemma ztake_map {A B} (f : A -> B) n l : map f (ztake n l) = ztake n (map f l).
Proof. revert n; induction l; intros; simpl; auto. destruct (n <=? 0); simpl; congruence. Qed.
Lemma ztake_ztake {A} a b (l : list A) : a <= b -> ztake a (ztake b l) = ztake a l.
Proof.
  revert a b; induction l; intros x y H; simpl; auto.
  destruct (y <=? 0) eqn:E; simpl; destruct (x <=? 0) eqn:F; auto.
  - apply Z.leb_le in E. apply Z.leb_gt in F. lia.
  - f_equal. apply IHl. lia.
Qed.
