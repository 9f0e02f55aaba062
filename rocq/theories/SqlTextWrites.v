(** The INSERT statement texts (Create, Update, Delete) of the driver, parsed and evaluated by
    SqlLang.v, do what the corresponding functions of Sql.v say. *)
From Coq Require Import List ZArith Bool String Lia Sorting.Permutation Sorting.Sorted.
From Verif Require Import Bytes Sql SqlLemmas ReadLemmas SqlLang SqlText SqlRep SqlTextProofs.
Import ListNotations.
Open Scope Z_scope.
Open Scope list_scope.

Lemma create_sql_text t d k ttl pv v : stored t d -> blob_arg pv v ->
  exists t', run_exec createSQL [VBlob k; VInt ttl; pv; VBlob k] t = Some (t', snd (create_sql k v ttl d)) /\
    stored t' (fst (create_sql k v ttl d)).
Proof.
  intros S B. destruct (blob_arg_enc _ _ B) as (nul & ->).
  destruct (stored_run_exec _ _ S) as (T & E2 & E3 & E4 & ->). rewrite parse_create. unfold ast_create.
  rewrite <- (app_nil_r (K T)), q_select, s_sub, (q_latest _ _ _ _ k) by reflexivity.
  cbn [obind fst snd cols body map]. unfold create_sql. rewrite E2.
  rewrite where_single. cbv beta.
  set (m := max_row (filter (fun r => beqb (name r) k) (map fst T))).
  match goal with |- context [ev ?n ?c ?p None ?s (EBin OOr ?a ?b)] =>
    assert (W : exists w, ev n c p None s (EBin OOr a b) = Some w /\ holds w = match m with None => true | Some r => deleted r end) end.
  { destruct m as [[]|]; autorewrite with sqle; ev_red.
    - destruct deleted; eexists; split; reflexivity.
    - eexists; split; reflexivity. }
  destruct W as (w & -> & Hw). cbn [obind]. rewrite Hw. clear Hw w.
  unfold do_group. match goal with |- context [is_agg ?a ?b] => change (is_agg a b) with false end. cbv iota.
  cbn [obind do_having do_order].
  assert (I : forall c a, c = match m with None => VNull | Some r => VInt (id r) end -> 
     exists x, omap (fun i => ev 11 (K T ++ []) [VBlob k; VInt ttl; enc_blob nul v; VBlob k] None
       [([("maxkv", ["id"; "deleted"])]%string, [[c; a]])] (fst i))
      [(ECastText (EPar 0), Some "name"); (EInt 1, Some "created");
           (EInt 0, Some "deleted"); (EInt 0, Some "create_revision");
           (ECoalesce (ECol None "id") (EInt 0), Some "prev_revision");
           (EPar 1, Some "lease"); (EPar 2, Some "value");
           (ENull, Some "old_value")]%string = Some x /\
      x = tl (enc_row (Row (next_id d) k true false 0 (match m with None => 0 | Some r => id r end) ttl v [], (nul, true)))).
  { intros c a ->. cbn [omap fst]. destruct m as [[]|]; autorewrite with sqle; ev_red; eexists; split; reflexivity. }
  destruct m as [r|].
  - destruct (deleted r) eqn:D.
    + cbn [map]. rewrite items_single. 
      destruct (I (VInt (id r)) (vbool true) eq_refl) as (x & Ox & Ex).
      match goal with |- context [omap ?f ?l] => replace (omap f l) with (Some x) by (symmetry; exact Ox) end.
      cbn [obind do_limit body map].
      apply (insert_one t d (Row (next_id d) k true false 0 (id r) ttl v []) x nul true S eq_refl Ex).
    + exists t. split; [reflexivity|exact S].
  - cbn [map]. rewrite items_single.
    destruct (I VNull VNull eq_refl) as (x & Ox & Ex).
    match goal with |- context [omap ?f ?l] => replace (omap f l) with (Some x) by (symmetry; exact Ox) end.
    cbn [obind do_limit body map].
    apply (insert_one t d (Row (next_id d) k true false 0 0 ttl v []) x nul true S eq_refl Ex).
Qed.

(** FROM kine WHERE id = (SELECT MAX(id) FROM kine WHERE name = ?) AND deleted = 0 AND id = ?:
    the rows of [live_at]. *)
Lemma q_live n T ps i j k rev : nth_error ps i = Some (VBlob k) -> nth_error ps j = Some (VInt rev) ->
  forall x, In x T ->
  exists w, ev (S (S (S (S (S (S (S (S n)))))))) (K T ++ []) ps None [([("kine"%string, kine_cols)], wrap x)]
    (EBin OAnd (EBin OAnd
       (EBin OEq (ECol None "id")
          (EScalar (Select [(EMax (ECol None "id"), None)] (Some (FTable "kine" None))
             (Some (EBin OEq (ECol None "name") (ECastText (EPar i)))) [] None [] None)))
       (EBin OEq (ECol None "deleted") (EInt 0)))
       (EBin OEq (ECol None "id") (EPar j))) = Some w /\
    holds w = match max_opt (map id (filter (fun r => beqb (name r) k) (map fst T))) with
              | None => false
              | Some m => (id (fst x) =? m) && negb (deleted (fst x)) && (id (fst x) =? rev)
              end.
Proof.
  intros Hi Hj x Hx. rewrite e_bin, e_bin, e_bin, e_scalar.
  rewrite (q_max _ _ _ _ _ _ _ _ _ (Some _) (fun t => beqb (name (fst t)) k) (fun t => id (fst t))).
  2: { intros [[] []] _. autorewrite with sqle. rewrite Hi. ev_red. autorewrite with sqlv.
       eexists. split; [reflexivity|]. autorewrite with sqlv. reflexivity. }
  2: { intros [[] []]. reflexivity. }
  cbn [obind]. autorewrite with sqle. rewrite Hj.
  rewrite map_fst_filter, map_map.
  destruct x as [[] []]. destruct (max_opt _) as [m|].
  - ev_red. autorewrite with sqlv. eexists. split; [reflexivity|]. autorewrite with sqlv. reflexivity.
  - ev_red. autorewrite with sqlv. eexists. split; [reflexivity|].
    cbn. destruct deleted, (id =? rev); reflexivity.
Qed.

Lemma live_rep T k rev d : rows d = map fst T ->
  live_at k rev d = map fst (filter (fun x : nrow => match max_opt (map id (filter (fun r => beqb (name r) k) (map fst T))) with
              | None => false
              | Some m => (id (fst x) =? m) && negb (deleted (fst x)) && (id (fst x) =? rev)
              end) T).
Proof.
  intros E. unfold live_at. rewrite E. destruct (max_opt _).
  - apply map_fst_filter.
  - rewrite filter_none; auto.
Qed.

Lemma unique_live k rev d : unique_ids (rows d) -> live_at k rev d = [] \/ exists o, live_at k rev d = [o].
Proof.
  intros U. unfold live_at. destruct (max_opt _) as [m|]; auto.
  set (f := fun r => (id r =? m) && negb (deleted r) && (id r =? rev)).
  assert (U' := unique_filter _ f U).
  assert (F : forall x, In x (filter f (rows d)) -> id x = m).
  { intros x Hx. apply filter_In in Hx. destruct Hx as [_ Hx]. unfold f in Hx.
    apply andb_true_iff in Hx. destruct Hx as [Hx _]. apply andb_true_iff in Hx. destruct Hx as [Hx _]. now apply Z.eqb_eq. }
  destruct (filter f (rows d)) as [|a [|b l]]; eauto. exfalso.
  unfold unique_ids in U'. cbn in U'. inversion U' as [|? ? N _]; subst. apply N. left.
  rewrite (F a), (F b); cbn; auto.
Qed.

Lemma update_sql_text t d k ttl pv v rev : stored t d -> unique_ids (rows d) -> blob_arg pv v ->
  exists t', run_exec updateSQL [VBlob k; VInt ttl; pv; VBlob k; VInt rev] t = Some (t', snd (update_sql k v rev ttl d)) /\
    stored t' (fst (update_sql k v rev ttl d)).
Proof.
  intros S U B. destruct (blob_arg_enc _ _ B) as (nul & ->).
  destruct (stored_run_exec _ _ S) as (T & E2 & E3 & E4 & ->). rewrite parse_update. unfold ast_update.
  rewrite <- (app_nil_r (K T)), q_select, src_kine. cbn [obind fst snd].
  erewrite (where_rep wrap _ (Some _)).
  2: { intros x Hx. apply q_live; [reflexivity|reflexivity|exact Hx]. }
  unfold do_group. match goal with |- context [is_agg ?a ?b] => change (is_agg a b) with false end. cbv iota.
  cbn [obind do_having do_order]. unfold update_sql.
  pose proof (live_rep T k rev d E2) as L. destruct (unique_live k rev d U) as [Hl|[o Hl]]; rewrite Hl in *.
  - symmetry in L. apply map_eq_nil in L. rewrite L. cbn. eauto.
  - symmetry in L. set (fl := filter _ T) in *. destruct fl as [|[r [nv no]] [|? ?]]; try discriminate. clear Hl.
    injection L as <-. cbn [map]. rewrite items_single.
    match goal with |- context [omap ?f ?l] =>
      assert (I : omap f l = Some (tl (enc_row (Row (next_id d) k false false (create_rev_of r) (id r) ttl v (value r), (nul, nv))))) end.
    { destruct r as [? ? cr]. cbn [omap fst]. autorewrite with sqle. ev_red. autorewrite with sqlv. destruct cr; reflexivity. }
    rewrite I. cbn [obind do_limit body map].
    apply (insert_one t d (Row (next_id d) k false false (create_rev_of r) (id r) ttl v (value r)) _ nul nv S eq_refl eq_refl).
Qed.

Lemma delete_sql_text t d k rev : stored t d -> unique_ids (rows d) ->
  exists t', run_exec deleteSQL [VBlob k; VInt rev] t = Some (t', snd (delete_sql k rev d)) /\
    stored t' (fst (delete_sql k rev d)).
Proof.
  intros S U.
  destruct (stored_run_exec _ _ S) as (T & E2 & E3 & E4 & ->). rewrite parse_delete. unfold ast_delete.
  rewrite <- (app_nil_r (K T)), q_select, src_kine. cbn [obind fst snd].
  erewrite (where_rep wrap _ (Some _)).
  2: { intros x Hx. apply q_live; [reflexivity|reflexivity|exact Hx]. }
  unfold do_group. match goal with |- context [is_agg ?a ?b] => change (is_agg a b) with false end. cbv iota.
  cbn [obind do_having do_order]. unfold delete_sql.
  pose proof (live_rep T k rev d E2) as L. destruct (unique_live k rev d U) as [Hl|[o Hl]]; rewrite Hl in *.
  - symmetry in L. apply map_eq_nil in L. rewrite L. cbn. eauto.
  - symmetry in L. set (fl := filter _ T) in *. destruct fl as [|[r [nv no]] [|? ?]]; try discriminate. clear Hl.
    injection L as <-. cbn [map]. rewrite items_single.
    match goal with |- context [omap ?f ?l] =>
      assert (I : omap f l = Some (tl (enc_row (Row (next_id d) (name r) false true (create_rev_of r) (id r) (lease r) [] (value r), (true, nv))))) end.
    { destruct r as [? ? cr]. cbn [omap fst]. autorewrite with sqle. ev_red. autorewrite with sqlv. destruct cr; reflexivity. }
    rewrite I. cbn [obind do_limit body map].
    apply (insert_one t d (Row (next_id d) (name r) false true (create_rev_of r) (id r) (lease r) [] (value r)) _ true nv S eq_refl eq_refl).
Qed.
