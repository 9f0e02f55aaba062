(** Read programs versus the specification, undisturbed and under interference. *)
From Coq Require Import List ZArith Bool Lia Sorting.Sorted.
From Verif Require Import Bytes Spec Sql System Prog Backend Limited SpecLemmas SqlLemmas Sim ReadLemmas ProgLemmas.
Import ListNotations.
Open Scope Z_scope.

(** the revision a read uses *)
Definition effective (revision current : Z) : Z :=
  if (revision =? 0) || (current <? revision) then current else revision.

Definition list_rows (v1 : bool) lo hi rev d := if v1 then list_sql_v1 lo hi rev d else list_sql lo hi rev d.
Definition count_rows (v1 : bool) lo hi rev d := if v1 then count_sql_v1 lo hi rev d else count_sql lo hi rev d.

Definition snap (d : db) lo hi n : list kv := map kv_of (order_by by_name (selected lo hi n d)).

Lemma list_rows_snap v1 lo hi n d : unique_ids (rows d) ->
  map scan_key_value (list_rows v1 lo hi n d) = snap d lo hi n.
Proof.
  intros U. unfold list_rows, snap. destruct v1.
  - rewrite list_sql_v1_selected by auto. rewrite map_map. reflexivity.
  - rewrite list_sql_selected by auto. rewrite map_map. reflexivity.
Qed.
Lemma count_rows_snap v1 lo hi n d : unique_ids (rows d) ->
  count_rows v1 lo hi n d = Z.of_nat (length (snap d lo hi n)).
Proof.
  intros U. rewrite <- (list_rows_snap v1 lo hi n d U). rewrite map_length. unfold count_rows, list_rows.
  destruct v1.
  - now apply count_v1_list.
  - rewrite count_sql_agree, list_sql_agree by auto. now apply count_v1_list.
Qed.
Lemma snap_ok d s lo hi n : R d s -> floor_of s <= n -> is_snapshot (history_of s) n lo hi (snap d lo hi n).
Proof. apply selected_snapshot. Qed.

Lemma opt_limit_map {A B} (f : A -> B) limit l : map f (opt_limit limit l) = opt_limit limit (map f l).
Proof. unfold opt_limit. destruct (0 <? limit); auto. apply ztake_map. Qed.

Lemma read_revision_cases rev compact current :
  compact <= current ->
  match read_revision rev compact current with
  | Ok n => n = effective rev current /\ compact <= n
  | Err e => e = ECompacted /\ rev < compact /\ rev <> 0 /\ rev <= current
  end.
Proof.
  intros H. unfold read_revision, effective.
  destruct (rev =? 0) eqn:E1; simpl; auto.
  destruct (current <? rev) eqn:E2; auto.
  apply Z.eqb_neq in E1. apply Z.ltb_ge in E2.
  destruct (rev <? compact) eqn:E3.
  - apply Z.ltb_lt in E3. auto.
  - apply Z.ltb_ge in E3. auto.
Qed.

Lemma floor_le_rev d s : R d s -> floor_of s <= revision (history_of s).
Proof. intros H. destruct (R_floor _ _ H) as [? [?|?]]; pose proof (revision_nonneg (history_of s)); lia. Qed.

(** undisturbed *)
Lemma run_b_list cfg key re limit rev w : wreach w ->
  run (b_list cfg key re limit rev) w =
  (w, match read_revision rev (floor_of (snd w)) (revision (history_of (snd w))) with
      | Ok n => Ok (revision (history_of (snd w)), opt_limit limit (snap (fst w) key (range_end key re) n))
      | Err e => Err e
      end).
Proof.
  intros HW. unfold b_list. rewrite run_rbind, (run_get_compact_revision w HW). simpl.
  destruct (read_revision rev _ _) as [n|e]; simpl; auto.
  rewrite run_rbind.
  assert (E : run (d_list cfg key re limit n) w =
    (w, Ok (RowSet (opt_limit limit (list_rows (cfg_v1 cfg) key (range_end key re) n (fst w))) None)))
    by exact (run_query (CList (cfg_v1 cfg) key (range_end key re) limit n) w).
  rewrite E. simpl.
  unfold scan_all. simpl rs_rows. rewrite opt_limit_map.
  rewrite list_rows_snap; auto. eapply R_unique, reach_R; eauto.
Qed.

Lemma run_b_count cfg key re rev w : wreach w ->
  run (b_count cfg key re rev) w =
  (w, match read_revision rev (floor_of (snd w)) (revision (history_of (snd w))) with
      | Ok n => Ok (revision (history_of (snd w)), Z.of_nat (length (snap (fst w) key (range_end key re) n)))
      | Err e => Err e
      end).
Proof.
  intros HW. unfold b_count. rewrite run_rbind, (run_get_compact_revision w HW). simpl.
  destruct (read_revision rev _ _) as [n|e]; simpl; auto.
  unfold d_count. rewrite !run_rbind.
  assert (E : run (d_query (CCount (cfg_v1 cfg) key (range_end key re) n)) w =
    (w, Ok (RowSet [count_rows (cfg_v1 cfg) key (range_end key re) n (fst w)] None)))
    by exact (run_query (CCount (cfg_v1 cfg) key (range_end key re) n) w).
  change (ret_of (CCount (cfg_v1 cfg) key (range_end key re) n)) with (rowset Z) in *.
  rewrite E. simpl.
  rewrite count_rows_snap; auto. eapply R_unique, reach_R; eauto.
Qed.

(** under interference *)
Lemma wsteps_snap w w' lo hi n : wreach w -> wsteps w w' -> n <= revision (history_of (snd w)) ->
  floor_of (snd w') <= n ->
  is_snapshot (history_of (snd w')) n lo hi (snap (fst w') lo hi n) /\
  is_snapshot (history_of (snd w)) n lo hi (snap (fst w') lo hi n).
Proof.
  intros HW S Hn Hf. pose proof (wsteps_reach _ _ HW S) as HW'.
  pose proof (snap_ok _ _ lo hi n (reach_R _ _ HW') Hf) as H. split; auto.
  destruct H as [H1 H2]. split; auto. intros x. rewrite H2.
  rewrite (extends_kv_at (snd w) (snd w')); [tauto| |auto]. now apply wsteps_extends.
Qed.

Definition list_post (w0 : world) key re limit rev (w' : world) (r : result (Z * list kv)) : Prop :=
  match r with
  | Ok (cur, kvs) =>
      revision (history_of (snd w0)) <= cur <= revision (history_of (snd w')) /\
      (floor_of (snd w') <= effective rev cur ->
       exists L, is_snapshot (history_of (snd w')) (effective rev cur) key (range_end key re) L /\
                 kvs = opt_limit limit L)
  | Err ECompacted => rev < floor_of (snd w') /\ rev <> 0
  | Err _ => True
  end.

Lemma wp_get_compact_revision_clean (okf : fault -> Prop) w (Q : world -> result (Z * Z) -> Prop) :
  (forall f, okf f -> db_fault f) ->
  wreach w ->
  (forall w1, wsteps w w1 -> Q w1 (Ok (floor_of (snd w1), revision (history_of (snd w1))))) ->
  (forall w1 e, wsteps w w1 -> e <> ECompacted -> Q w1 (Err e)) ->
  wp okf d_get_compact_revision Q w.
Proof.
  intros Hok HW HQ HE. unfold d_get_compact_revision. apply wp_rbind. apply wp_query.
  intros w1 S. split; [exact I|]. intros f Hf. specialize (Hok _ Hf). pose proof (wsteps_reach _ _ HW S) as R1.
  pose proof (interval_R _ _ (reach_R _ _ R1)) as [I1 I2].
  specialize (HQ _ S). pose proof (fun e => HE _ e S) as HE'.
  Opaque revision_interval_sql.
  destruct (revision_interval_sql (fst w1)) as [lo hi] eqn:E. simpl in I1, I2. subst.
  rewrite <- I1, <- I2 in HQ.
  change (weffect CInterval w1) with w1 in *.
  destruct f as [|e|e|n e|]; simpl; rewrite ?E; simpl; try apply HQ;
    try (apply HE'; destruct e; simpl in Hok; congruence).
  destruct n; simpl; rewrite ?E; simpl; try apply HQ; try (apply HE'; destruct e; simpl in Hok; congruence).
  Transparent revision_interval_sql.
Qed.

Lemma wp_b_list cfg key re limit rev w : wreach w ->
  wp clean (b_list cfg key re limit rev) (list_post w key re limit rev) w.
Proof.
  intros HW. unfold b_list. apply wp_rbind.
  apply wp_get_compact_revision_clean; auto. { intros f [_ H]; auto. }
  - intros w1 S1. pose proof (wsteps_reach _ _ HW S1) as HW1.
    pose proof (floor_le_rev _ _ (reach_R _ _ HW1)) as FL.
    pose proof (read_revision_cases rev _ _ FL) as RC.
    destruct (read_revision rev _ _) as [n|e]; simpl.
    + destruct RC as [-> Hle]. unfold rbind. apply wp_bind. apply wp_query. intros w2 S2. split; [exact I|].
      intros f [Hf Hd].
      pose proof (wsteps_reach _ _ HW1 S2) as HW2.
      pose proof (extends_revision _ _ (wsteps_extends _ _ S1)) as E1.
      pose proof (extends_revision _ _ (wsteps_extends _ _ S2)) as E2.
      set (cur := revision (history_of (snd w1))) in *.
      assert (G : list_post w key re limit rev w2
        (Ok (cur, opt_limit limit (snap (fst w2) key (range_end key re) (effective rev cur))))).
      { simpl. split; [lia|]. intros F. eexists. split; [|reflexivity].
        apply snap_ok; auto. now apply reach_R. }
      assert (G' : map scan_key_value
         (opt_limit limit (list_rows (cfg_v1 cfg) key (range_end key re) (effective rev cur) (fst w2))) =
         opt_limit limit (snap (fst w2) key (range_end key re) (effective rev cur))).
      { rewrite opt_limit_map, list_rows_snap; auto. eapply R_unique, reach_R; eauto. }
      unfold list_rows in G'.
      destruct f as [|e|e|k e|]; try contradiction; simpl; unfold scan_all; simpl rs_rows; 
        try (rewrite G'; exact G); destruct e; simpl in *; auto; contradiction.
    + destruct RC as (-> & A & B & C). split; auto.
  - intros w1 e S N. simpl. destruct e; simpl; auto; congruence.
Qed.

Definition count_post (w0 : world) key re rev (w' : world) (r : result (Z * Z)) : Prop :=
  match r with
  | Ok (cur, n) =>
      revision (history_of (snd w0)) <= cur <= revision (history_of (snd w')) /\
      (floor_of (snd w') <= effective rev cur ->
       exists L, is_snapshot (history_of (snd w')) (effective rev cur) key (range_end key re) L /\
                 n = Z.of_nat (length L))
  | Err ECompacted => rev < floor_of (snd w') /\ rev <> 0
  | Err _ => True
  end.

Lemma wp_b_count cfg key re rev w : wreach w ->
  wp db_fault (b_count cfg key re rev) (count_post w key re rev) w.
Proof.
  intros HW. unfold b_count. apply wp_rbind.
  apply wp_get_compact_revision_clean; auto.
  - intros w1 S1. pose proof (wsteps_reach _ _ HW S1) as HW1.
    pose proof (floor_le_rev _ _ (reach_R _ _ HW1)) as FL.
    pose proof (read_revision_cases rev _ _ FL) as RC.
    destruct (read_revision rev _ _) as [n|e]; simpl.
    + destruct RC as [-> Hle]. unfold d_count. apply wp_rbind. apply wp_rbind. apply wp_query. intros w2 S2. split; [exact I|].
      intros f Hd.
      pose proof (wsteps_reach _ _ HW1 S2) as HW2.
      pose proof (extends_revision _ _ (wsteps_extends _ _ S1)) as E1.
      pose proof (extends_revision _ _ (wsteps_extends _ _ S2)) as E2.
      set (cur := revision (history_of (snd w1))) in *.
      assert (G : count_post w key re rev w2
        (Ok (cur, Z.of_nat (length (snap (fst w2) key (range_end key re) (effective rev cur)))))).
      { simpl. split; [lia|]. intros F. eexists. split; [|reflexivity].
        apply snap_ok; auto. now apply reach_R. }
      pose proof (count_rows_snap (cfg_v1 cfg) key (range_end key re) (effective rev cur) (fst w2)
         (R_unique _ _ (reach_R _ _ HW2))) as G'.
      unfold count_rows in G'.
      destruct f as [|e|e|k e|]; simpl; try (rewrite G'; exact G);
       try (destruct e; simpl in *; auto; contradiction).
      destruct k; simpl; try (rewrite G'; exact G);
       try (destruct e; simpl in *; auto; contradiction).
    + destruct RC as (-> & A & B & C). split; auto.
  - intros w1 e S N. simpl. destruct e; simpl; auto; congruence.
Qed.
