(** Queries versus the specification. *)
From Coq Require Import List ZArith Bool Lia Sorting.Sorted Sorting.Permutation.
From Verif Require Import Bytes Spec Sql System Prog Backend SpecLemmas SqlLemmas Sim.
Import ListNotations.
Open Scope Z_scope.

(** The selected rows, before ordering. *)
Definition selected (lo hi : bytes) (rev : Z) (d : db) : list row :=
  filter (fun r => negb (deleted r)) (group_max (candidates lo hi rev d)).

Lemma existsb_id l x : existsb (Z.eqb (id x)) (map id l) = true <-> exists y, In y l /\ id y = id x.
Proof.
  rewrite existsb_exists. split.
  - intros (z & Hz & E). apply Z.eqb_eq in E. apply in_map_iff in Hz. destruct Hz as (y & <- & Hy). eauto.
  - intros (y & Hy & E). exists (id y). split; [now apply in_map|]. apply Z.eqb_eq; auto.
Qed.

(** joining back on the primary key gives the same rows *)
Lemma join_back (l0 : list row) (P : row -> bool) (g : list row -> list row) :
  unique_ids l0 -> (forall l, exists q, g l = filter q l) ->
  forall l, (exists q, l = filter q l0) ->
  filter (fun kv => existsb (Z.eqb (id kv)) (map id (g l)) && P kv) l0 = filter P (g l).
Proof.
  intros U G l (q & ->). destruct (G (filter q l0)) as (q' & ->).
  rewrite !filter_filter. apply filter_ext_in. intros y Hy.
  destruct (existsb (Z.eqb (id y)) (map id (filter (fun x => q x && q' x) l0))) eqn:E.
  - apply existsb_id in E. destruct E as (z & Hz & E). apply filter_In in Hz. destruct Hz as [Hz Q].
    assert (z = y) by (eapply unique_inj; eauto). subst z. rewrite Q. reflexivity.
  - simpl. destruct (q y && q' y) eqn:Q; auto. exfalso.
    assert (existsb (Z.eqb (id y)) (map id (filter (fun x => q x && q' x) l0)) = true).
    { apply existsb_id. exists y. split; auto. apply filter_In. auto. }
    congruence.
Qed.

Lemma group_max_filter l : exists q, group_max l = filter q l.
Proof. unfold group_max. eauto. Qed.

Lemma selected_rows lo hi rev d : unique_ids (rows d) ->
  filter (fun kv => existsb (Z.eqb (id kv)) (map id (group_max (candidates lo hi rev d))) && negb (deleted kv)) (rows d)
  = selected lo hi rev d.
Proof.
  intros U. apply (join_back (rows d) (fun r => negb (deleted r)) group_max); auto.
  - apply group_max_filter.
  - unfold candidates. eauto.
Qed.

Lemma selected_sub lo hi rev d x : In x (selected lo hi rev d) -> In x (rows d).
Proof.
  unfold selected. intros H. apply filter_In in H. destruct H as [H _].
  apply group_max_in in H. destruct H as [H _]. apply filter_In in H. tauto.
Qed.
Lemma selected_unique lo hi rev d : unique_ids (rows d) -> unique_ids (selected lo hi rev d).
Proof.
  intros. unfold selected. apply unique_filter. destruct (group_max_filter (candidates lo hi rev d)) as (q & ->).
  apply unique_filter. unfold candidates. now apply unique_filter.
Qed.
Lemma selected_names lo hi rev d a b : unique_ids (rows d) ->
  In a (selected lo hi rev d) -> In b (selected lo hi rev d) -> name a = name b -> a = b.
Proof.
  intros U Ha Hb E. pose proof (selected_sub _ _ _ _ _ Ha). pose proof (selected_sub _ _ _ _ _ Hb).
  unfold selected in *. apply filter_In in Ha, Hb. destruct Ha as [Ha _], Hb as [Hb _].
  apply group_max_in in Ha, Hb. destruct Ha as [Ha Ma], Hb as [Hb Mb].
  eapply unique_inj; eauto. specialize (Ma _ Hb). specialize (Mb _ Ha).
  specialize (Ma (eq_sym E)). specialize (Mb E). lia.
Qed.

Lemma order_by_ext {A} (le1 le2 : A -> A -> bool) l : NoDup l ->
  (forall a b, In a l -> In b l -> a <> b -> le1 a b = le2 a b) -> order_by le1 l = order_by le2 l.
Proof.
  induction l as [|x l IH]; simpl; auto. intros N H. inversion N; subst.
  rewrite IH; auto. 
  assert (HH : forall m, (forall y, In y m -> In y l) -> insert_sorted le1 x m = insert_sorted le2 x m).
  { induction m as [|a m IHm]; simpl; auto. intros Hm. rewrite (H x a).
    - rewrite IHm; auto.
    - auto.
    - auto.
    - intros ->. apply H2. auto. }
  apply HH. intros y. apply order_by_in.
Qed.

Lemma order_names lo hi rev d : unique_ids (rows d) ->
  order_by by_name_id (selected lo hi rev d) = order_by by_name (selected lo hi rev d).
Proof.
  intros U. apply order_by_ext. { now apply nodup_unique, selected_unique. }
  intros a b Ha Hb N. unfold by_name_id, by_name, bleb.
  destruct (bcmp (name a) (name b)) eqn:E; auto. exfalso. apply N.
  eapply selected_names; eauto. now apply bcmp_eq.
Qed.

Lemma list_sql_selected lo hi rev d : unique_ids (rows d) ->
  list_sql lo hi rev d = map project (order_by by_name (selected lo hi rev d)).
Proof. intros U. unfold list_sql. rewrite selected_rows by auto. now rewrite order_names. Qed.

Lemma list_sql_v1_selected lo hi rev d : unique_ids (rows d) ->
  list_sql_v1 lo hi rev d = map project (order_by by_name (selected lo hi rev d)).
Proof.
  intros U. unfold list_sql_v1. fold (selected lo hi rev d).
  assert (S : forall x, In x (order_by by_name (selected lo hi rev d)) -> In x (rows d)).
  { intros x. rewrite order_by_in. apply selected_sub. }
  induction (order_by by_name (selected lo hi rev d)) as [|x l IH]; simpl; auto.
  rewrite (filter_id_single (rows d) x); auto.
  - simpl. f_equal. apply IH. intros; apply S; simpl; auto.
  - apply S; simpl; auto.
  - intros y Hy. rewrite Z.eqb_eq. split; [|congruence]. intros E. eapply unique_inj; eauto. apply S; simpl; auto.
Qed.

Lemma list_sql_agree lo hi rev d : unique_ids (rows d) -> list_sql lo hi rev d = list_sql_v1 lo hi rev d.
Proof. intros. now rewrite list_sql_selected, list_sql_v1_selected. Qed.

Lemma count_sql_agree lo hi rev d : unique_ids (rows d) -> count_sql lo hi rev d = count_sql_v1 lo hi rev d.
Proof. intros. unfold count_sql, count_sql_v1. now rewrite selected_rows. Qed.

Lemma count_v1_list lo hi rev d : unique_ids (rows d) ->
  count_sql_v1 lo hi rev d = Z.of_nat (length (list_sql_v1 lo hi rev d)).
Proof.
  intros. rewrite list_sql_v1_selected by auto. rewrite map_length, order_by_length. reflexivity.
Qed.

Lemma scan_project x : scan_key_value (project x) = kv_of x.
Proof. reflexivity. Qed.

Lemma sorted_strict {A} (R S : A -> A -> Prop) (l : list A) : NoDup l ->
  (forall a b, In a l -> In b l -> a <> b -> R a b -> S a b) -> StronglySorted R l -> StronglySorted S l.
Proof.
  intros N H Q. revert N H. induction Q; intros N H'; constructor.
  - inversion N; subst. apply IHQ; auto. intros; apply H'; simpl; auto.
  - inversion N; subst. rewrite Forall_forall in *. intros x Hx. apply H'; simpl; auto. congruence.
Qed.

(** the list query returns the snapshot *)
Lemma selected_snapshot d s lo hi n : R d s -> floor_of s <= n ->
  is_snapshot (history_of s) n lo hi (map kv_of (order_by by_name (selected lo hi n d))).
Proof.
  intros HR Hn. pose proof (R_unique _ _ HR) as U. split.
  - apply (proj1 (sorted_map key_lt kv_of _)). unfold key_lt. simpl.
    eapply sorted_strict; [|  |apply (order_by_sorted by_name by_name_total by_name_trans)].
    + eapply Permutation_NoDup; [apply order_by_perm|]. now apply nodup_unique, selected_unique.
    + intros a b Ha Hb N L. unfold by_name in L. apply bleb_true in L. apply ble_lt_eq in L.
      destruct L as [L|L]; auto. exfalso. apply N. apply order_by_in in Ha, Hb. eapply selected_names; eauto.
  - intros x. rewrite in_map_iff. split.
    + intros (y & <- & Hy). apply order_by_in in Hy. unfold selected in Hy.
      apply filter_In in Hy. destruct Hy as [Hy D]. apply negb_true_iff in D.
      apply group_max_in in Hy. destruct Hy as [Hy M]. unfold candidates in Hy. apply filter_In in Hy.
      destruct Hy as [Hy C]. apply andb_true_iff in C. destruct C as [C1 C2].
      simpl. split.
      * unfold in_range_b in C1. apply andb_true_iff in C1. rewrite bleb_true, bltb_true in C1. exact C1.
      * rewrite (read_row d s n (name y)) by auto.
        destruct (max_row _) as [z|] eqn:E.
        -- apply max_row_spec in E. destruct E as [I V]. 
           assert (Iy : In y (filter (fun r => beqb (name r) (name y) && (id r <=? n)) (rows d))).
           { apply filter_In. split; auto. rewrite beqb_refl. auto. }
           specialize (V _ Iy). apply filter_In in I. destruct I as [I1 I2].
           apply andb_true_iff in I2. destruct I2 as [I2 I3]. apply beqb_true in I2.
           assert (Iz : In z (filter (fun r => in_range_b lo hi (name r) && (id r <=? n)) (rows d))).
           { apply filter_In. split; auto. rewrite I2, C1. auto. }
           specialize (M _ Iz I2).
           assert (z = y) by (eapply unique_inj; eauto; lia). subst z. now rewrite D.
        -- apply max_row_none in E.
           assert (Iy : In y (filter (fun r => beqb (name r) (name y) && (id r <=? n)) (rows d))).
           { apply filter_In. split; auto. rewrite beqb_refl. auto. }
           rewrite E in Iy. destruct Iy.
    + intros [Rg K]. rewrite (read_row d s n (kv_key x)) in K by auto.
      destruct (max_row _) as [y|] eqn:E; [|discriminate].
      destruct (deleted y) eqn:D; [discriminate|]. inversion K as [K']. exists y. split; auto.
      apply order_by_in. unfold selected. apply filter_In. rewrite D. split; auto.
      apply max_row_spec in E. destruct E as [I V]. apply filter_In in I. destruct I as [I1 I2].
      apply andb_true_iff in I2. destruct I2 as [I2 I3]. apply beqb_true in I2.
      assert (RB : in_range_b lo hi (name y) = true).
      { unfold in_range_b. apply andb_true_iff. rewrite bleb_true, bltb_true, I2. exact Rg. }
      apply group_max_in. split.
      * unfold candidates. apply filter_In. split; auto. now rewrite RB, I3.
      * intros z Hz E. unfold candidates in Hz. apply filter_In in Hz. destruct Hz as [Hz C].
        apply andb_true_iff in C. destruct C as [C1 C2]. apply V. apply filter_In. split; auto.
        rewrite C2, andb_true_r. apply beqb_true. congruence.
Qed.
