(** The driver run on SQL texts does what the driver run on the model's tables does. *)
From Coq Require Import List ZArith Bool String Lia Sorting.Sorted.
From Verif Require Import Bytes Spec Sql System Prog Backend Limited Api SpecLemmas SqlLemmas Sim
  ReadLemmas ProgLemmas ReadProgs WatchLemmas ApiLemmas SqlLang SqlText SqlRep SqlDriver SqlTextProofs SqlTextWrites.
Import ListNotations.
Open Scope Z_scope.
Open Scope list_scope.

(** Row numbers grow along the table and stay below the counter. *)
Definition tidy (d : db) : Prop := StronglySorted id_lt (rows d) /\ Forall (fun r => id r <= Sql.seq d) (rows d).

Lemma tidy_unique d : tidy d -> unique_ids (rows d).
Proof. intros [S _]. now apply sorted_unique. Qed.

Lemma tidy_empty : tidy empty_db.
Proof. split; constructor. Qed.

Lemma tidy_insert d r : tidy d -> id r = next_id d -> tidy (insert d r).
Proof.
  intros [S F] E. unfold next_id in E. split; unfold insert; cbn [rows Sql.seq].
  - apply sorted_app. split; auto. split; [repeat constructor|].
    intros a b Ha [<-|[]]. rewrite Forall_forall in F. specialize (F _ Ha). unfold id_lt. lia.
  - apply Forall_app. split; [|repeat constructor; lia].
    eapply Forall_impl; [|exact F]. cbn. intros. lia.
Qed.

Lemma tidy_filter d f : tidy d -> tidy (Db (filter f (rows d)) (Sql.seq d)).
Proof.
  intros [S F]. split; cbn [rows Sql.seq].
  - now apply sorted_filter.
  - rewrite Forall_forall in *. intros x Hx. apply filter_In in Hx. apply F, Hx.
Qed.

Lemma tidy_map d f : (forall r, id (f r) = id r) -> tidy d -> tidy (Db (map f (rows d)) (Sql.seq d)).
Proof.
  intros E [S F]. split; cbn [rows Sql.seq].
  - apply sorted_map with (R := id_lt) (f := f). eapply sorted_impl; [|exact S]. unfold id_lt. intros a b. rewrite !E. auto.
  - rewrite Forall_forall in *. intros x Hx. apply in_map_iff in Hx. destruct Hx as (y & <- & Hy). rewrite E. now apply F.
Qed.

Lemma tidy_apply d a : tidy d -> tidy (fst (apply d a)).
Proof.
  intros T. destruct a; cbn [apply fst].
  - unfold create_sql. destruct (max_row _) as [m|]; [destruct (deleted m)|]; cbn [fst]; auto; now apply tidy_insert.
  - unfold update_sql. destruct (live_at _ _ _); cbn [fst]; auto. now apply tidy_insert.
  - unfold delete_sql. destruct (live_at _ _ _); cbn [fst]; auto. now apply tidy_insert.
  - unfold try_compact_tx, update_compact_sql. apply tidy_map.
    + intros r. destruct (beqb _ _); reflexivity.
    + unfold compact_tombstones_sql. apply tidy_filter. unfold compact_superseded_sql. now apply tidy_filter.
  - unfold delete_rev_sql. cbn [fst]. now apply tidy_filter.
Qed.

Lemma text_apply_ok pv t d a : (forall b, blob_arg (pv b) b) -> stored t d -> tidy d ->
  exists t', text_apply pv t a = Some (t', snd (apply d a)) /\ stored t' (fst (apply d a)).
Proof.
  intros P S T. pose proof (tidy_unique _ T) as U. destruct a; cbn [text_apply apply].
  - now apply create_sql_text.
  - now apply update_sql_text.
  - now apply delete_sql_text.
  - destruct (compact_tx_sql_text t d start stop S) as (t1 & t2 & t3 & n1 & n2 & n3 & E1 & E2 & E3 & S').
    rewrite E1, E2, E3. exists t3. auto.
  - now apply delete_rev_sql_text.
Qed.

Lemma text_rows_ok {A} (scan : list val -> option A) cut q l :
  (exists out, q = Some out /\ map scan (body out) = map Some l) ->
  text_rows scan cut q = Some (cut_rows cut l).
Proof.
  intros (out & -> & E). unfold text_rows.
  enough (O : omap scan (body out) = Some l) by now rewrite O.
  revert l E. induction (body out) as [|x xs IH]; intros [|y l] E; try discriminate; auto.
  injection E as Ex El. cbn [omap]. rewrite Ex, (IH _ El). reflexivity.
Qed.

Lemma one_row {A} (f : val -> option A) q a :
  (exists out, q = Some out /\ map (map f) (body out) = [[Some a]]) ->
  exists out, q = Some out /\ map (scan_one f) (body out) = map Some [a].
Proof.
  intros (out & -> & E). exists out. split; auto.
  destruct (body out) as [|[|c [|? ?]] [|? ?]]; try discriminate. injection E as E. cbn. now rewrite E.
Qed.

Lemma pair_row q a b :
  (exists out, q = Some out /\ map (map scan_null_int) (body out) = [[Some a; Some b]]) ->
  exists out, q = Some out /\ map scan_pair (body out) = map Some [(a, b)].
Proof.
  intros (out & -> & E). exists out. split; auto.
  destruct (body out) as [|[|c [|c' [|? ?]]] [|? ?]]; try discriminate. injection E as E E'. cbn. now rewrite E, E'.
Qed.

Lemma text_answer_ok pv cut leader c t d : (forall b, blob_arg (pv b) b) -> stored t d -> tidy d ->
  text_answer pv cut leader c t = Some (answer cut leader c d).
Proof.
  intros P S T. pose proof (tidy_unique _ T) as U. destruct c; cbn [text_answer answer].
  - destruct (text_apply_ok pv t d a P S T) as (t' & -> & _). reflexivity.
  - apply text_rows_ok, one_row. now apply rev_sql_text.
  - apply text_rows_ok. destruct (revision_interval_sql d) as [x y] eqn:E. apply pair_row.
    pose proof (interval_sql_text t d S) as H. rewrite E in H. exact H.
  - apply text_rows_ok. unfold opt_limit. destruct (Z.ltb_spec 0 limit); destruct v1.
    + now apply list_v1_lim_sql_text.
    + now apply list_lim_sql_text.
    + now apply list_v1_sql_text.
    + now apply list_sql_text.
  - apply text_rows_ok, one_row. destruct v1.
    + now apply count_v1_sql_text.
    + now apply count_sql_text.
  - apply text_rows_ok. unfold opt_limit. destruct (Z.ltb_spec 0 limit).
    + now apply after_lim_sql_text.
    + now apply after_sql_text.
  - apply text_rows_ok. now apply after_prefix_sql_text.
  - apply text_rows_ok. now apply ttl_sql_text.
  - reflexivity.
Qed.

Lemma text_effect_ok pv c t w : (forall b, blob_arg (pv b) b) -> stored t (fst w) -> tidy (fst w) ->
  exists t', text_effect pv c t = Some t' /\ stored t' (fst (weffect c w)) /\ tidy (fst (weffect c w)).
Proof.
  intros P S T. destruct c; try (exists t; auto; fail).
  cbn [text_effect]. destruct (text_apply_ok pv t _ a P S T) as (t' & -> & S').
  exists t'. unfold weffect. cbn [op_of]. unfold wapply. cbn [fst]. auto using tidy_apply.
Qed.

Lemma text_sem_ok pv f c t w : (forall b, blob_arg (pv b) b) -> stored t (fst w) -> tidy (fst w) ->
  exists t', text_sem pv f c t = Some (t', snd (sem f c w)) /\ stored t' (fst (fst (sem f c w))) /\ tidy (fst (fst (sem f c w))).
Proof.
  intros P S T. destruct (text_effect_ok pv c t w P S T) as (t' & E & S' & T').
  destruct f; cbn [text_sem sem fst snd]; try rewrite E; try rewrite (text_answer_ok pv _ _ c t _ P S T); cbn [both option_map]; eauto.
Qed.

Lemma text_env_ok pv env : forall t w, (forall b, blob_arg (pv b) b) -> stored t (fst w) -> tidy (fst w) ->
  exists t', text_env pv env t = Some t' /\ stored t' (fst (fold_left wapply env w)) /\ tidy (fst (fold_left wapply env w)).
Proof.
  induction env as [|a env IH]; intros t w P S T; cbn [text_env fold_left]; eauto.
  destruct (text_apply_ok pv t _ a P S T) as (t' & -> & S').
  apply IH; auto. unfold wapply. cbn [fst]. now apply tidy_apply.
Qed.

Lemma text_exec_ok {A} pv (p : prog A) : forall sched t w, (forall b, blob_arg (pv b) b) -> stored t (fst w) -> tidy (fst w) ->
  exists t', text_exec pv p sched t = Some (t', snd (exec p sched w)) /\ stored t' (fst (fst (exec p sched w))).
Proof.
  induction p as [a|c k IH]; intros sched t w P S T; cbn [text_exec exec]; eauto.
  destruct sched as [|[env f] sched]; cbn [fst snd]; eauto.
  destruct (text_env_ok pv env t w P S T) as (t1 & -> & S1 & T1).
  destruct (text_sem_ok pv f c t1 _ P S1 T1) as (t2 & -> & S2 & T2).
  destruct (sem f c (fold_left wapply env w)) as [w2 r]. cbn [fst snd] in *. now apply IH.
Qed.

Lemma text_run_ok {A} pv (p : prog A) : forall t w, (forall b, blob_arg (pv b) b) -> stored t (fst w) -> tidy (fst w) ->
  exists t', text_run pv p t = Some (t', snd (run p w)) /\ stored t' (fst (fst (run p w))) /\ tidy (fst (fst (run p w))).
Proof.
  induction p as [a|c k IH]; intros t w P S T; cbn [text_run run]; eauto.
  destruct (text_sem_ok pv NoFault c t w P S T) as (t2 & -> & S2 & T2).
  destruct (sem NoFault c w) as [w2 r]. cbn [fst snd] in *. now apply IH.
Qed.

Lemma text_api_ok pv cfg reqs : forall t w, (forall b, blob_arg (pv b) b) -> stored t (fst w) -> tidy (fst w) ->
  exists t', text_api pv cfg reqs t = Some (t', snd (run_api cfg reqs w)) /\ stored t' (fst (fst (run_api cfg reqs w))).
Proof.
  induction reqs as [|a rest IH]; intros t w P S T; cbn [text_api run_api]; eauto.
  assert (O : exists t', text_one pv cfg a t = Some (t', snd (run_one cfg a w)) /\ stored t' (fst (fst (run_one cfg a w))) /\
     tidy (fst (fst (run_one cfg a w)))).
  { destruct a; unfold text_one, run_one; cbv zeta;
    match goal with |- context [text_run pv ?p t] => destruct (text_run_ok pv p t w P S T) as (t' & -> & S' & T') end;
    match goal with |- context [run ?p w] => destruct (run p w) end; cbn [option_map fst snd] in *; eauto. }
  destruct O as (t' & -> & S' & T'). destruct (run_one cfg a w) as [w' r]. cbn [fst snd] in *.
  destruct (IH _ _ P S' T') as (t'' & -> & S''). destruct (run_api cfg rest w') as [w'' rs]. cbn [fst snd] in *. eauto.
Qed.

Lemma stored_empty : stored empty_tdb empty_db.
Proof. exists []. auto. Qed.

Lemma reach_tidy d s : reach d s -> tidy d.
Proof. induction 1; [apply tidy_empty|now apply tidy_apply]. Qed.

Lemma text_reach_stored pv t s : (forall b, blob_arg (pv b) b) -> text_reach pv t s ->
  exists d, stored t d /\ reach d s.
Proof.
  intros P. induction 1 as [|t s a t' r H (d & S & D) A E].
  - exists empty_db. split; [apply stored_empty|constructor].
  - destruct (text_apply_ok pv t d a P S (reach_tidy _ _ D)) as (t1 & E1 & S1).
    rewrite E in E1. injection E1 as <- _. eexists. split; [exact S1|]. now constructor.
Qed.

Lemma text_reach_write pv t s a : (forall b, blob_arg (pv b) b) -> text_reach pv t s -> allowed s a ->
  exists t', text_apply pv t a = Some (t', snd (spec_apply s a)) /\ text_reach pv t' (fst (spec_apply s a)).
Proof.
  intros P H A. destruct (text_reach_stored pv t s P H) as (d & S & D).
  destruct (text_apply_ok pv t d a P S (reach_tidy _ _ D)) as (t' & E & _).
  rewrite (proj2 (R_step _ _ a (reach_R _ _ D) A)) in E. exists t'. split; auto. econstructor; eauto.
Qed.

Lemma text_reach_list pv t s lo hi n (v1 : bool) : (forall b, blob_arg (pv b) b) -> text_reach pv t s -> floor_of s <= n ->
  exists out L, run_query [] (if v1 then listSqlV1_0 else listSQL) [VBlob lo; VBlob hi; VInt n] t = Some out /\
    map scan_lrow (body out) = map Some L /\ is_snapshot (history_of s) n lo hi (map scan_key_value L).
Proof.
  intros P H F. destruct (text_reach_stored pv t s P H) as (d & S & D).
  pose proof (tidy_unique _ (reach_tidy _ _ D)) as U. pose proof (reach_R _ _ D) as HR.
  pose proof (list_rows_snap v1 lo hi n d U) as E. pose proof (snap_ok d s lo hi n HR F) as SN. rewrite <- E in SN.
  unfold list_rows in SN. destruct v1.
  - destruct (list_v1_sql_text t d lo hi n S U) as (out & Q & M). eauto.
  - destruct (list_sql_text t d lo hi n S U) as (out & Q & M). eauto.
Qed.

Lemma text_reach_count pv t s lo hi n (v1 : bool) : (forall b, blob_arg (pv b) b) -> text_reach pv t s -> floor_of s <= n ->
  exists L, is_snapshot (history_of s) n lo hi L /\
    exists out, run_query [] (if v1 then countRevisionSQLV1_0 else countRevisionSQL) [VBlob lo; VBlob hi; VInt n] t = Some out /\
      map (map scan_int) (body out) = [[Some (Z.of_nat (List.length L))]].
Proof.
  intros P H F. destruct (text_reach_stored pv t s P H) as (d & S & D).
  pose proof (tidy_unique _ (reach_tidy _ _ D)) as U. pose proof (reach_R _ _ D) as HR.
  exists (snap d lo hi n). split; [now apply snap_ok|].
  pose proof (count_rows_snap v1 lo hi n d U) as E. rewrite <- E. unfold count_rows. destruct v1.
  - now apply count_v1_sql_text.
  - now apply count_sql_text.
Qed.

Lemma text_reach_events pv t s lo hi a b : (forall b, blob_arg (pv b) b) -> text_reach pv t s ->
  floor_of s <= a -> b <= revision (history_of s) ->
  exists out L, run_query [] afterSQLPrefix [VBlob lo; VBlob hi; VInt a; VInt b] t = Some out /\
    map scan_row (body out) = map Some L /\ reports (history_of s) (in_range lo hi) a b (map scan_event L).
Proof.
  intros P H F B. destruct (text_reach_stored pv t s P H) as (d & S & D). pose proof (reach_R _ _ D) as HR.
  destruct (after_prefix_sql_text t d lo hi a b S) as (out & Q & M).
  exists out, (after_prefix_sql lo hi a b d). split; auto. split; auto.
  apply reports_rep. apply after_prefix_reports; auto. intros _. left. exact F.
Qed.

Lemma text_reach_interval pv t s : (forall b, blob_arg (pv b) b) -> text_reach pv t s ->
  exists out lo hi, run_query [] revisionIntervalSQL [] t = Some out /\
    map (map scan_null_int) (body out) = [[Some lo; Some hi]] /\
    null_int64 lo = floor_of s /\ null_int64 hi = revision (history_of s).
Proof.
  intros P H. destruct (text_reach_stored pv t s P H) as (d & S & D). pose proof (reach_R _ _ D) as HR.
  destruct (interval_sql_text t d S) as (out & Q & M). destruct (interval_R _ _ HR) as [L U].
  exists out. eauto 8.
Qed.

Lemma text_reach_list_limit pv t s lo hi n lim (v1 : bool) : (forall b, blob_arg (pv b) b) -> text_reach pv t s ->
  floor_of s <= n -> 0 < lim ->
  exists out L, run_query [] (with_limit (if v1 then listSqlV1_0 else listSQL)) [VBlob lo; VBlob hi; VInt n; VInt lim] t = Some out /\
    map scan_lrow (body out) = map Some (firstn (Z.to_nat lim) L) /\ is_snapshot (history_of s) n lo hi (map scan_key_value L).
Proof.
  intros P H F Lp. destruct (text_reach_stored pv t s P H) as (d & S & D).
  pose proof (tidy_unique _ (reach_tidy _ _ D)) as U. pose proof (reach_R _ _ D) as HR.
  pose proof (list_rows_snap v1 lo hi n d U) as E. pose proof (snap_ok d s lo hi n HR F) as SN. rewrite <- E in SN.
  unfold list_rows in SN.
  assert (Z : forall l : list lrow, firstn (Z.to_nat lim) l = ztake lim l) by (intros; symmetry; apply ztake_firstn; lia).
  destruct v1.
  - destruct (list_v1_lim_sql_text t d lo hi n lim S U Lp) as (out & Q & M). exists out. eexists. split; [exact Q|]. split; [|exact SN].
    now rewrite Z.
  - destruct (list_lim_sql_text t d lo hi n lim S U Lp) as (out & Q & M). exists out. eexists. split; [exact Q|]. split; [|exact SN].
    now rewrite Z.
Qed.
