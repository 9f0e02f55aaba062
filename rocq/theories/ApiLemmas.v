(** Undisturbed executions of the API programs against Api.v. *)
From Coq Require Import List ZArith Bool Lia Sorting.Sorted.
From Verif Require Import Bytes Spec Sql System Prog Backend Limited Api SpecLemmas SqlLemmas Sim ReadLemmas ProgLemmas ReadProgs Safety.
Import ListNotations.
Open Scope Z_scope.

Local Notation ck := compact_rev_key.

(** one sequential request *)
Definition run_one (cfg : driver_cfg) (a : api) (w : world) : world * api_resp :=
  match a with
  | ApiCreate k v l => let '(w', r) := run (s_txn cfg (create_txn k v l)) w in (w', RTxn r)
  | ApiUpdate k v e l => let '(w', r) := run (s_txn cfg (update_txn k v e l)) w in (w', RTxn r)
  | ApiDelete k e => let '(w', r) := run (s_txn cfg (delete_txn k e)) w in (w', RTxn r)
  | ApiRange q => let '(w', r) := run (s_range cfg q) w in (w', RRange r)
  | ApiCompaction => let '(w', r) := run (b_do_compact cfg) w in (w', RCompaction r)
  end.
Fixpoint run_api (cfg : driver_cfg) (reqs : list api) (w : world) : world * list api_resp :=
  match reqs with
  | [] => (w, [])
  | a :: rest =>
      let '(w', r) := run_one cfg a w in
      let '(w'', rs) := run_api cfg rest w' in (w'', r :: rs)
  end.

(** the number of keys never exceeds the number of revisions *)
Lemma bounded_nodup (l : list Z) n : NoDup l -> (forall x, In x l -> 1 <= x <= n) -> Z.of_nat (length l) <= Z.max 0 n.
Proof.
  intros ND H.
  assert (I : incl l (map Z.of_nat (List.seq 1 (Z.to_nat n)))).
  { intros x Hx. apply H in Hx. apply in_map_iff. exists (Z.to_nat x). split; [lia|]. apply in_seq. lia. }
  pose proof (NoDup_incl_length ND I) as L. rewrite map_length, seq_length in L. lia.
Qed.

Lemma snapshot_length h n lo hi L : is_snapshot h n lo hi L -> Z.of_nat (length L) <= revision h.
Proof.
  intros [S M].
  assert (ND : NoDup (map kv_mod L)).
  { assert (G : forall x y, In x L -> In y L -> kv_mod x = kv_mod y -> x = y).
    { intros x y Hx Hy E. apply M in Hx, Hy. destruct Hx as [_ Hx], Hy as [_ Hy].
      destruct (kv_at_facts _ _ _ _ Hx) as (_ & _ & _ & _ & EX & _).
      destruct (kv_at_facts _ _ _ _ Hy) as (_ & _ & _ & _ & EY & _).
      assert (kv_key x = kv_key y) by congruence. congruence. }
    clear M. induction S as [|a L S IH F]; simpl; constructor.
    - intros I. apply in_map_iff in I. destruct I as (y & E & Hy).
      assert (y = a) by (apply G; simpl; auto). subst y. rewrite Forall_forall in F.
      apply F in Hy. eapply blt_irrefl; eauto.
    - apply IH. intros x y Hx Hy. apply G; simpl; auto. }
  pose proof (bounded_nodup (map kv_mod L) (revision h) ND) as B. rewrite map_length in B.
  rewrite Z.max_r in B by apply revision_nonneg. apply B.
  intros x Hx. apply in_map_iff in Hx. destruct Hx as (y & <- & Hy). apply M in Hy. destruct Hy as [_ Hy].
  destruct (kv_at_facts _ _ _ _ Hy) as (_ & A1 & _ & A2 & _). lia.
Qed.

(** ---- reads ---- *)
Lemma effective_read_at rev cur : effective rev cur = read_at rev cur.
Proof. reflexivity. Qed.

Lemma read_revision_answer rev compact current : 0 <= compact <= current ->
  read_revision rev compact current =
  if negb (rev =? 0) && (rev <? compact) then Err ECompacted else Ok (read_at rev current).
Proof.
  intros H. unfold read_revision, read_at.
  destruct (Z.eqb_spec rev 0); simpl; auto.
  destruct (Z.ltb_spec current rev); simpl; destruct (Z.ltb_spec rev compact); auto; lia.
Qed.

Lemma succ_snapshot h n k L : is_snapshot h n k (k ++ [0%N]) L ->
  L = match kv_at h n k with Some x => [x] | None => [] end.
Proof.
  intros H. eapply snapshot_unique; eauto. split.
  - destruct (kv_at h n k); repeat constructor.
  - intros x. split.
    + intros I. destruct (kv_at h n k) as [y|] eqn:E; simpl in I; [|tauto]. destruct I as [<-|[]].
      destruct (kv_at_facts _ _ _ _ E) as (K & _). rewrite K. split; auto. apply bsucc_spec. reflexivity.
    + intros [I E]. apply bsucc_spec in I. rewrite I in E. rewrite E. simpl. auto.
Qed.

Lemma floor_bounds w : wreach w -> 0 <= floor_of (snd w) <= revision (history_of (snd w)).
Proof.
  intros H. pose proof (reach_R _ _ H) as HR. split; [apply (R_floor _ _ HR)|]. eapply floor_le_rev; eauto.
Qed.

Lemma read_at_floor w rev : wreach w ->
  negb (rev =? 0) && (rev <? floor_of (snd w)) = false ->
  floor_of (snd w) <= read_at rev (revision (history_of (snd w))).
Proof.
  intros H E. pose proof (floor_bounds w H). unfold read_at.
  destruct (Z.eqb_spec rev 0); simpl in *; try lia. apply Z.ltb_ge in E.
  destruct (Z.ltb_spec (revision (history_of (snd w))) rev); lia.
Qed.

Lemma run_s_range cfg r w : wreach w -> supported_range r -> int64 (r_limit r) ->
  (r_limit r = int64_max -> revision (history_of (snd w)) <= int64_max) ->
  fst (run (s_range cfg r) w) = w /\ range_answer (snd w) r (snd (run (s_range cfg r) w)).
Proof.
  intros HW (S1 & S2 & S3 & S4 & S5 & S6 & S7 & S8) HL HM.
  pose proof (floor_bounds w HW) as FB.
  unfold s_range. rewrite S1, S2, S3, S4, S5, S6, S7, S8. simpl negb. cbv iota.
  set (s := snd w) in *. set (h := history_of s) in *.
  unfold range_answer. fold h. cbv zeta.
  unfold l_range. destruct (r_range_end r) as [|b re] eqn:RE.
  - unfold l_get. rewrite run_rbind, run_b_list by auto. fold s h.
    rewrite read_revision_answer by auto. cbn [fst snd].
    destruct (negb (r_revision r =? 0) && (r_revision r <? floor_of s)) eqn:C; simpl; auto.
    split; auto.
    pose proof (snap_ok (fst w) s (r_key r) (r_key r ++ [0%N]) _ (reach_R _ _ HW) (read_at_floor w _ HW C)) as SN.
    fold s in SN. fold h in SN. apply succ_snapshot in SN. fold s. fold h. rewrite SN. eexists. split; [reflexivity|].
    destruct (kv_at h _ (r_key r)); reflexivity.
  - unfold l_list. rewrite RE. destruct (r_count_only r) eqn:CO.
    + rewrite run_rbind, run_b_count by auto. fold s h. cbn [fst snd].
      rewrite read_revision_answer by auto.
      destruct (negb (r_revision r =? 0) && (r_revision r <? floor_of s)) eqn:C; simpl; auto.
      split; auto. eexists. split; [|reflexivity].
      apply snap_ok; [apply reach_R; auto|]. now apply read_at_floor.
    + rewrite run_rbind, run_b_list by auto. fold s h. cbn [fst snd].
      rewrite read_revision_answer by auto.
      destruct (negb (r_revision r =? 0) && (r_revision r <? floor_of s)) eqn:C; [simpl; auto|].
      pose proof (snap_ok (fst w) s (r_key r) (b :: re) _ (reach_R _ _ HW) (read_at_floor w _ HW C)) as SN.
      fold s h in SN. change (range_end (r_key r) (b :: re)) with (b :: re).
      set (n := read_at (r_revision r) (revision h)) in *.
      set (L := snap (fst w) (r_key r) (b :: re) n) in *.
      pose proof (snapshot_length _ _ _ _ _ SN) as LL.
      set (cur := revision h) in *. cbv zeta.
      assert (G : forall p more, p = page (r_limit r) L ->
          more = ((0 <? r_limit r) && (r_limit r <? Z.of_nat (length L))) ->
          exists L0, is_snapshot h n (r_key r) (b :: re) L0 /\
          Ok (RangeResp cur p more (Z.of_nat (length L))) =
          Ok (RangeResp cur (page (r_limit r) L0) ((0 <? r_limit r) && (r_limit r <? Z.of_nat (length L0)))
             (Z.of_nat (length L0)))).
      { intros p more -> ->. eauto. }
      assert (W : wrap64 (r_limit r + 1) = if r_limit r =? int64_max then - int64_max - 1 else r_limit r + 1).
      { unfold wrap64, int64, int64_max in *. destruct (Z.eqb_spec (r_limit r) 9223372036854775807) as [->|N].
        - reflexivity.
        - rewrite Z.mod_small by lia. lia. }
      destruct (Z.ltb_spec 0 (r_limit r)) as [P|P].
      * rewrite W. destruct (Z.eqb_spec (r_limit r) int64_max) as [M|M].
        -- unfold opt_limit. simpl (0 <? _). cbv iota. cbn [andb]. split; auto.
           specialize (HM M). apply G; [|rewrite M; symmetry; apply Z.ltb_ge; lia].
           unfold page. rewrite M. simpl (0 <? _). cbv iota. rewrite firstn_all2; auto.
           unfold int64_max in *. lia.
        -- assert (L0 : (0 <? r_limit r + 1) = true) by (apply Z.ltb_lt; lia).
           unfold opt_limit. rewrite L0. rewrite ztake_length by lia. cbn [andb].
           destruct (Z.ltb_spec (r_limit r) (Z.min (r_limit r + 1) (Z.of_nat (length L)))).
           ++ rewrite run_rbind, run_b_count by auto. fold s h cur. cbn [fst snd].
              set (rev' := if r_revision r =? 0 then cur else r_revision r).
              assert (RA : read_revision rev' (floor_of s) cur = Ok n).
              { rewrite read_revision_answer by auto. unfold rev', n, read_at.
                destruct (Z.eqb_spec (r_revision r) 0) as [Z0|NZ].
                - destruct (Z.eqb_spec cur 0), (Z.ltb_spec cur (floor_of s)); simpl; try lia;
                    rewrite ?Z.ltb_irrefl; reflexivity.
                - simpl in C. replace (r_revision r =? 0) with false by (symmetry; now apply Z.eqb_neq).
                  simpl. rewrite C. reflexivity. }
              rewrite RA. cbn [fst snd]. change (range_end (r_key r) (b :: re)) with (b :: re). fold L.
              split; auto. apply G.
              ** rewrite ztake_ztake by lia. unfold page.
                 replace (0 <? r_limit r) with true by (symmetry; now apply Z.ltb_lt).
                 replace (r_limit r + 1 - 1) with (r_limit r) by lia. apply ztake_firstn. lia.
              ** symmetry. apply Z.ltb_lt. lia.
           ++ split; auto. cbn [run snd].
              assert (LE : Z.of_nat (length L) <= r_limit r) by lia.
              rewrite (ztake_all (r_limit r + 1) L) by lia.
              replace (Z.min (r_limit r + 1) (Z.of_nat (length L))) with (Z.of_nat (length L)) by lia.
              apply G; [|symmetry; apply Z.ltb_ge; lia].
              unfold page. replace (0 <? r_limit r) with true by (symmetry; now apply Z.ltb_lt).
              rewrite firstn_all2; auto. lia.
      * assert (L0 : (0 <? r_limit r) = false) by (apply Z.ltb_ge; lia).
        rewrite L0. cbn [andb run fst snd]. split; auto.
        unfold opt_limit. rewrite L0. apply G; auto. unfold page. now rewrite L0.
Qed.

(** ---- writes ---- *)
Lemma run_exec a w : wreach w -> allowed (snd w) a ->
  run (d_execute a) w = (wapply w a, Ok (snd (spec_apply (snd w) a))).
Proof.
  intros HW HA. unfold d_execute.
  assert (E : run (with_retry max_retries (CExec a)) w = (wapply w a, Ok (snd (apply (fst w) a))))
    by exact (run_query (CExec a) w).
  change (ret_of (CExec a)) with (Z * Z)%type in E. rewrite E.
  now rewrite (proj2 (R_step _ _ a (reach_R _ _ HW) HA)).
Qed.

Lemma wapply_reach w a : wreach w -> allowed (snd w) a -> wreach (wapply w a).
Proof. intros. unfold wreach. simpl. now constructor. Qed.

Lemma run_failure cfg k w : wreach w ->
  run (l_failure cfg k 0) w = (w, Ok (conflict (snd w) k)).
Proof.
  intros HW. unfold l_failure. rewrite run_rbind, run_b_list by auto. cbn [fst snd].
  pose proof (floor_bounds w HW) as FB.
  rewrite read_revision_answer by auto. cbn [Z.eqb negb andb].
  unfold read_at. cbn [Z.eqb orb].
  pose proof (snap_ok (fst w) (snd w) k (k ++ [0%N]) _ (reach_R _ _ HW) (proj2 FB)) as SN.
  apply succ_snapshot in SN. rewrite kv_at_now in SN.
  change (range_end k []) with (k ++ [0%N]). rewrite SN. unfold conflict, current_of.
  destruct (now (history_of (snd w)) k); reflexivity.
Qed.

Definition outcome (r : option Z) : Z * bool := match r with Some n => (n, true) | None => (0, false) end.
Lemma outcome_spec r : exec_outcome (spec_result r) = outcome r.
Proof. destruct r; reflexivity. Qed.

Lemma run_d_create k v l w : wreach w -> (k = ck -> v = [] /\ l = 0) ->
  snd (run (d_create k v l) w) = Ok (outcome (snd (spec_create (snd w) k v l))) /\
  snd (fst (run (d_create k v l) w)) = fst (spec_create (snd w) k v l) /\
  wreach (fst (run (d_create k v l) w)).
Proof.
  intros HW HK. unfold d_create. rewrite run_rbind, run_exec by auto. cbn [run fst snd].
  pose proof (wapply_reach w (ACreate k v l) HW HK). cbn [wapply spec_apply fst snd] in *.
  destruct (spec_create (snd w) k v l) as [s' r]. cbn [fst snd] in *. rewrite outcome_spec. auto.
Qed.
Lemma run_d_update k v e l w : wreach w -> k <> ck ->
  snd (run (d_update k v e l) w) = Ok (outcome (snd (spec_update (snd w) k v e l))) /\
  snd (fst (run (d_update k v e l) w)) = fst (spec_update (snd w) k v e l) /\
  wreach (fst (run (d_update k v e l) w)).
Proof.
  intros HW HK. unfold d_update. rewrite run_rbind, run_exec by auto. cbn [run fst snd].
  pose proof (wapply_reach w (AUpdate k v e l) HW HK). cbn [wapply spec_apply fst snd] in *.
  destruct (spec_update (snd w) k v e l) as [s' r]. cbn [fst snd] in *. rewrite outcome_spec. auto.
Qed.
Lemma run_d_delete k e w : wreach w -> k <> ck ->
  snd (run (d_delete k e) w) = Ok (outcome (snd (spec_delete (snd w) k e))) /\
  snd (fst (run (d_delete k e) w)) = fst (spec_delete (snd w) k e) /\
  wreach (fst (run (d_delete k e) w)).
Proof.
  intros HW HK. unfold d_delete. rewrite run_rbind, run_exec by auto. cbn [run fst snd].
  pose proof (wapply_reach w (ADelete k e) HW HK). cbn [wapply spec_apply fst snd] in *.
  destruct (spec_delete (snd w) k e) as [s' r]. cbn [fst snd] in *. rewrite outcome_spec. auto.
Qed.

Lemma spec_create_none s k v l : snd (spec_create s k v l) = None -> fst (spec_create s k v l) = s.
Proof. unfold spec_create. destruct (now _ k); simpl; [auto|discriminate]. Qed.
Lemma spec_update_none s k v e l : snd (spec_update s k v e l) = None -> fst (spec_update s k v e l) = s.
Proof. unfold spec_update. destruct (now _ k) as [x|]; [destruct (kv_mod x =? e)|]; simpl; auto; discriminate. Qed.
Lemma spec_delete_none s k e : snd (spec_delete s k e) = None -> fst (spec_delete s k e) = s.
Proof. unfold spec_delete. destruct (now _ k) as [x|]; [destruct (kv_mod x =? e)|]; simpl; auto; discriminate. Qed.

Lemma txn_create cfg k v l : s_txn cfg (create_txn k v l) = l_create (PutReq k v l false false false).
Proof. reflexivity. Qed.
Lemma txn_update cfg k v e l : s_txn cfg (update_txn k v e l) = l_update cfg e k v l.
Proof. reflexivity. Qed.
Lemma txn_delete cfg k e : s_txn cfg (delete_txn k e) = l_delete cfg k e.
Proof. reflexivity. Qed.

Lemma run_create cfg k v l w : wreach w -> (k = ck -> v = [] /\ l = 0) ->
  let out := run (s_txn cfg (create_txn k v l)) w in
  wreach (fst out) /\
  snd (fst out) = fst (create_answer (snd w) k v l) /\
  snd out = Ok (snd (create_answer (snd w) k v l)).
Proof.
  intros HW HK. cbv zeta. rewrite txn_create. unfold l_create. cbn [p_ignore_lease p_ignore_value p_prev_kv orb p_key p_value p_lease].
  unfold b_create. rewrite run_rbind.
  destruct (run_d_create k v l w HW HK) as (A & B & C).
  rewrite A. unfold create_answer.
  pose proof (spec_create_none (snd w) k v l) as N.
  destruct (spec_create (snd w) k v l) as [s' [r|]]; cbn [fst snd outcome] in *; cbn [run fst snd]; auto.
  rewrite N in B by auto. auto.
Qed.

Lemma run_update cfg k v e l w : wreach w -> k <> ck ->
  let out := run (s_txn cfg (update_txn k v e l)) w in
  wreach (fst out) /\
  snd (fst out) = fst (update_answer (snd w) k v e l) /\
  snd out = Ok (snd (update_answer (snd w) k v e l)).
Proof.
  intros HW HK. cbv zeta. rewrite txn_update. unfold l_update, update_answer. rewrite run_rbind.
  destruct (e =? 0).
  - destruct (run_d_create k v l w HW ltac:(intros; contradiction)) as (A & B & C). unfold b_create.
    rewrite A. pose proof (spec_create_none (snd w) k v l) as N.
    destruct (spec_create (snd w) k v l) as [s' [r|]]; cbn [fst snd outcome] in *.
    + cbn [run fst snd]. auto.
    + rewrite run_failure by auto. cbn [fst snd]. rewrite B, N by auto. auto.
  - destruct (run_d_update k v e l w HW HK) as (A & B & C). unfold b_update.
    rewrite A. pose proof (spec_update_none (snd w) k v e l) as N.
    destruct (spec_update (snd w) k v e l) as [s' [r|]]; cbn [fst snd outcome] in *.
    + cbn [run fst snd]. auto.
    + rewrite run_failure by auto. cbn [fst snd]. rewrite B, N by auto. auto.
Qed.

Lemma run_delete cfg k e w : wreach w -> k <> ck ->
  let out := run (s_txn cfg (delete_txn k e)) w in
  wreach (fst out) /\
  snd (fst out) = fst (delete_answer (snd w) k e) /\
  snd out = Ok (snd (delete_answer (snd w) k e)).
Proof.
  intros HW HK. cbv zeta. rewrite txn_delete. unfold l_delete, delete_answer. rewrite run_rbind.
  destruct (run_d_delete k e w HW HK) as (A & B & C). unfold b_delete.
  rewrite A. pose proof (spec_delete_none (snd w) k e) as N.
  destruct (spec_delete (snd w) k e) as [s' [r|]]; cbn [fst snd outcome] in *.
  - cbn [run fst snd]. auto.
  - rewrite run_failure by auto. cbn [fst snd]. rewrite B, N by auto. auto.
Qed.

(** ---- compaction ---- *)
Lemma run_current_revision w : wreach w ->
  run d_current_revision w =
  (w, if revision (history_of (snd w)) =? 0 then Err ENull else Ok (revision (history_of (snd w)))).
Proof.
  intros HW. unfold d_current_revision. rewrite run_rbind.
  assert (E : run (d_query CRev) w = (w, Ok (RowSet [rev_sql (fst w)] None))) by exact (run_query CRev w).
  change (ret_of CRev) with (rowset (option Z)) in *. rewrite E. cbn [fst snd run one_row rs_rows].
  rewrite (rev_sql_R _ _ (reach_R _ _ HW)). destruct (revision (history_of (snd w)) =? 0); auto.
Qed.

Lemma firstn_single {A} (l : list A) : NoDup l -> (forall x y, In x l -> In y l -> x = y) -> l = [] \/ exists x, l = [x].
Proof.
  intros ND H. destruct l as [|x [|y l]]; eauto. exfalso.
  assert (x = y) by (apply H; simpl; auto). subst. inversion ND; subst. apply H2. simpl; auto.
Qed.

Lemma run_compact_start w : wreach w ->
  let out := run b_compact_start w in
  if revision (history_of (snd w)) =? 0 then out = (w, Err ENull)
  else snd out = Ok tt /\ wreach (fst out) /\ snd (fst out) = fst (spec_create (snd w) ck [] 0) /\
       now (history_of (snd (fst out))) ck <> None.
Proof.
  intros HW. cbv zeta. unfold b_compact_start. rewrite run_rbind, run_current_revision by auto.
  destruct (Z.eqb_spec (revision (history_of (snd w))) 0) as [E|NE]; cbn [fst snd]; auto.
  set (cur := revision (history_of (snd w))) in *.
  rewrite run_rbind.
  assert (E : run (d_after_prefix ck (ck ++ [0%N]) 0 cur) w =
    (w, Ok (RowSet (after_prefix_sql ck (ck ++ [0%N]) 0 cur (fst w)) None)))
    by exact (run_query (CAfterPrefix ck (ck ++ [0%N]) 0 cur) w).
  rewrite E. cbn [fst snd]. unfold scan_all. cbn [rs_rows].
  pose proof (reach_R _ _ HW) as HR.
  set (l := after_prefix_sql ck (ck ++ [0%N]) 0 cur (fst w)).
  assert (L : forall x, In x l <-> In x (rows (fst w)) /\ name x = ck).
  { intros x. unfold l, after_prefix_sql. rewrite order_by_in, filter_In, !andb_true_iff, Z.ltb_lt, Z.leb_le.
    rewrite in_range_succ. split; [tauto|]. intros [I N]. pose proof (R_rows_rev _ _ _ HR I). fold cur in H. intuition lia. }
  assert (ND : NoDup l).
  { unfold l, after_prefix_sql. eapply Permutation.Permutation_NoDup; [apply order_by_perm|].
    apply nodup_unique, unique_filter. eapply R_unique; eauto. }
  destruct (firstn_single l ND) as [El|[x El]].
  { intros x y Hx Hy. apply L in Hx, Hy. destruct Hx, Hy. eapply ck_row_unique; eauto. }
  - rewrite El. cbn [map]. rewrite run_rbind. unfold b_create.
    destruct (run_d_create ck [] 0 w HW ltac:(auto)) as (A & B & C).
    rewrite A. cbn [run fst snd]. repeat split; auto. rewrite B.
    unfold spec_create. destruct (now (history_of (snd w)) ck) eqn:N; cbn [fst].
    + congruence.
    + cbn [commit history_of fst]. rewrite now_snoc, change_key_same. discriminate.
  - rewrite El. cbn [map run fst snd].
    assert (I : In x l) by (rewrite El; simpl; auto). apply L in I. destruct I as [I N].
    pose proof (ck_row_now _ _ _ HR I N) as NN. repeat split; auto.
    unfold spec_create. destruct (now (history_of (snd w)) ck); [reflexivity|congruence].
Qed.

Lemma run_d_compact cfg b w : wreach w -> now (history_of (snd w)) ck <> None ->
  b < revision (history_of (snd w)) ->
  let out := run (d_compact cfg b) w in
  snd out = Ok tt /\ wreach (fst out) /\ snd (fst out) = spec_compact (snd w) b.
Proof.
  intros HW CK HB. cbv zeta.
  assert (G : run (d_compact cfg b) w = run (d_compact_sqlite b) w).
  { unfold d_compact. destruct (cfg_dqlite cfg); reflexivity. }
  rewrite G. clear G. unfold d_compact_sqlite. rewrite run_rbind, run_get_compact_revision by auto. cbn [fst snd].
  destruct (Z.leb_spec b (floor_of (snd w))) as [L|L].
  - cbn [run fst snd]. repeat split; auto. unfold spec_compact. rewrite Z.max_l by lia. destruct (snd w); auto.
  - replace (revision (history_of (snd w)) <? b) with false by (symmetry; apply Z.ltb_ge; lia).
    rewrite run_rbind.
    assert (AL : allowed (snd w) (ACompact (floor_of (snd w)) b)) by (simpl; repeat split; auto; lia).
    pose proof (run_exec (ACompact (floor_of (snd w)) b) w HW AL) as E. unfold d_execute in E.
    change (ret_of (CExec (ACompact (floor_of (snd w)) b))) with (Z * Z)%type.
    rewrite E. cbn [run fst snd]. repeat split; auto. now apply wapply_reach.
Qed.

Lemma run_compact_loop cfg : forall fuel start target (w : world), wreach w -> now (history_of (snd w)) ck <> None ->
  target < revision (history_of (snd w)) -> start <= floor_of (snd w) ->
  (target - start + compact_batch_size - 1) / compact_batch_size <= Z.of_nat fuel ->
  let out := run (compact_loop cfg fuel start target) w in
  snd out = Ok tt /\ wreach (fst out) /\ snd (fst out) = spec_compact (snd w) target.
Proof.
  assert (DONE : forall (w : world) target, target <= floor_of (snd w) -> snd w = spec_compact (snd w) target).
  { intros. unfold spec_compact. rewrite Z.max_l by lia. destruct (snd w); auto. }
  induction fuel; intros start target w HW CK HB HS HF; cbv zeta; cbn [compact_loop].
  - cbn [run fst snd]. repeat split; auto. apply DONE. unfold compact_batch_size in HF.
    destruct (Z_le_gt_dec target start); [lia|]. exfalso.
    assert (1 <= (target - start + 1000 - 1) / 1000) by (apply Z.div_le_lower_bound; lia). lia.
  - destruct (Z.ltb_spec start target) as [L|L].
    2:{ cbn [run fst snd]. repeat split; auto. apply DONE. lia. }
    set (b := if target <? start + compact_batch_size then target else start + compact_batch_size).
    assert (Hb : start < b <= target).
    { unfold b, compact_batch_size. destruct (Z.ltb_spec target (start + 1000)); lia. }
    rewrite run_rbind.
    destruct (run_d_compact cfg b w HW CK ltac:(lia)) as (A & B & C).
    rewrite A.
    destruct (IHfuel b target (fst (run (d_compact cfg b) w))) as (D & E & F); auto.
    + rewrite C. auto.
    + rewrite C. auto.
    + rewrite C. unfold spec_compact. cbn [floor_of]. lia.
    + unfold b, compact_batch_size in *. destruct (Z.ltb_spec target (start + 1000)).
      * replace (target - target + 1000 - 1) with 999 by lia. rewrite Z.div_small by lia. lia.
      * replace (target - start + 1000 - 1) with (target - (start + 1000) + 1000 - 1 + 1 * 1000) in HF by lia.
        rewrite Z.div_add in HF by lia. lia.
    + repeat split; auto. rewrite F, C. unfold spec_compact. cbn [history_of floor_of]. f_equal. lia.
Qed.

Lemma run_do_compact cfg w : wreach w ->
  let out := run (b_do_compact cfg) w in
  wreach (fst out) /\
  if revision (history_of (snd w)) =? 0 then out = (w, Err ENull)
  else snd out = Ok tt /\ snd (fst out) = compaction ck (snd w).
Proof.
  intros HW. cbv zeta. unfold b_do_compact. rewrite run_rbind.
  pose proof (run_compact_start w HW) as H. cbv zeta in H.
  destruct (revision (history_of (snd w)) =? 0).
  - rewrite H. cbn [fst snd]. auto.
  - destruct H as (A & B & C & D). rewrite A.
    set (w1 := fst (run b_compact_start w)) in *.
    rewrite run_rbind, run_get_compact_revision by auto. cbn [fst snd].
    destruct (run_compact_loop cfg (compact_fuel (floor_of (snd w1)) (revision (history_of (snd w1)) - superseded_count))
       (floor_of (snd w1)) (revision (history_of (snd w1)) - superseded_count) w1) as (E & F & G); auto.
    + unfold superseded_count. lia.
    + lia.
    + unfold compact_fuel. set (q := (_ / _)). lia.
    + repeat split; auto. rewrite G, C. reflexivity.
Qed.

(** ---- sequences ---- *)
Lemma run_one_ok cfg a w : wreach w -> api_ok ck a -> revision (history_of (snd w)) <= int64_max ->
  wreach (fst (run_one cfg a w)) /\
  api_answer ck (snd w) a (snd (fst (run_one cfg a w))) (snd (run_one cfg a w)).
Proof.
  intros HW HA HM. destruct a as [k v l|k v e l|k e|r|]; cbn [run_one api_ok] in *.
  - pose proof (run_create cfg k v l w HW ltac:(intros; contradiction)) as H. cbv zeta in H.
    destruct (run (s_txn cfg (create_txn k v l)) w) as [w' r]. cbn [fst snd] in *. destruct H as (A & B & ->). simpl. auto.
  - pose proof (run_update cfg k v e l w HW HA) as H. cbv zeta in H.
    destruct (run (s_txn cfg (update_txn k v e l)) w) as [w' r]. cbn [fst snd] in *. destruct H as (A & B & ->). simpl. auto.
  - pose proof (run_delete cfg k e w HW HA) as H. cbv zeta in H.
    destruct (run (s_txn cfg (delete_txn k e)) w) as [w' r]. cbn [fst snd] in *. destruct H as (A & B & ->). simpl. auto.
  - destruct HA as [HA HL]. pose proof (run_s_range cfg r w HW HA HL (fun _ => HM)) as [E F].
    destruct (run (s_range cfg r) w) as [w' x]. cbn [fst snd] in *. subst w'. simpl. eauto.
  - pose proof (run_do_compact cfg w HW) as [A B].
    destruct (run (b_do_compact cfg) w) as [w' x]. cbn [fst snd] in *. split; auto. simpl.
    destruct (revision (history_of (snd w)) =? 0).
    + injection B as -> ->. auto.
    + destruct B as [-> ->]. auto.
Qed.

Lemma commit_rev s k c : revision (history_of (fst (commit s k c))) = revision (history_of s) + 1.
Proof. unfold commit. cbn [fst history_of]. apply revision_snoc. Qed.
Lemma create_rev s k v l : revision (history_of (fst (spec_create s k v l))) <= revision (history_of s) + 1.
Proof. unfold spec_create. destruct (now _ k); [cbn [fst]; lia|]. rewrite commit_rev. lia. Qed.
Lemma update_rev s k v e l : revision (history_of (fst (spec_update s k v e l))) <= revision (history_of s) + 1.
Proof. unfold spec_update. destruct (now _ k) as [x|]; [destruct (kv_mod x =? e)|]; try (cbn [fst]; lia). rewrite commit_rev. lia. Qed.
Lemma delete_rev s k e : revision (history_of (fst (spec_delete s k e))) <= revision (history_of s) + 1.
Proof. unfold spec_delete. destruct (now _ k) as [x|]; [destruct (kv_mod x =? e)|]; try (cbn [fst]; lia). rewrite commit_rev. lia. Qed.

Lemma answer_rev s a s' r : api_answer ck s a s' r -> revision (history_of s') <= revision (history_of s) + 1.
Proof.
  destruct a as [k v l|k v e l|k e|q|]; simpl.
  - intros [-> _]. unfold create_answer. pose proof (create_rev s k v l) as H.
    destruct (spec_create s k v l) as [s1 [x|]]; cbn [fst] in *; lia.
  - intros [-> _]. unfold update_answer. destruct (e =? 0).
    + pose proof (create_rev s k v l) as H. destruct (spec_create s k v l) as [s1 [x|]]; cbn [fst] in *; lia.
    + pose proof (update_rev s k v e l) as H. destruct (spec_update s k v e l) as [s1 [x|]]; cbn [fst] in *; lia.
  - intros [-> _]. unfold delete_answer. pose proof (delete_rev s k e) as H.
    destruct (spec_delete s k e) as [s1 [x|]]; cbn [fst] in *; lia.
  - intros [-> _]. lia.
  - destruct (revision (history_of s) =? 0); intros [-> _]; [lia|]. unfold compaction, spec_compact. cbn [history_of].
    apply create_rev.
Qed.

Lemma run_api_ok cfg reqs : forall w, wreach w -> Forall (api_ok ck) reqs ->
  revision (history_of (snd w)) + Z.of_nat (length reqs) <= int64_max ->
  wreach (fst (run_api cfg reqs w)) /\
  api_answers ck (snd w) reqs (snd (run_api cfg reqs w)) (snd (fst (run_api cfg reqs w))).
Proof.
  induction reqs as [|a rest IH]; intros w HW HF HM; cbn [run_api].
  - split; auto. constructor.
  - inversion HF; subst. cbn [length] in HM. rewrite Nat2Z.inj_succ in HM.
    destruct (run_one_ok cfg a w HW H1 ltac:(lia)) as [A B].
    destruct (run_one cfg a w) as [w' r]. cbn [fst snd] in *.
    pose proof (answer_rev _ _ _ _ B) as AR.
    destruct (IH w' A H2 ltac:(lia)) as [C D].
    destruct (run_api cfg rest w') as [w'' rs]. cbn [fst snd] in *. split; auto.
    econstructor; eauto.
Qed.
