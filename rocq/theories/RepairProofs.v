(** Proofs for C22 and C23. *)
From Coq Require Import List ZArith Bool Lia Sorting.Permutation.
From Verif Require Import Bytes Spec Sql System Prog Backend Limited Api Pool Observe SpecLemmas SqlLemmas Sim ReadLemmas ProgLemmas ReadProgs TraceLemmas Safety ApiLemmas StoreProofs ReadProofs Demo.
Import ListNotations.
Open Scope Z_scope.

Local Notation ck := compact_rev_key.

(** ---- C23 ---- *)
Definition keeper (l : list row) : Z * Z := pick_keeper (map scan_event l).

Definition pick (p : Z * Z) (x : row) : Z * Z :=
  if created x then p else if fst p <? prev_revision x then (prev_revision x, id x) else p.
Lemma pick_fold l : forall p,
  fold_left (fun '(maxRev, maxID) ev =>
      match ev_prev ev with
      | Some p => if maxRev <? kv_mod p then (kv_mod p, kv_mod (ev_kv ev)) else (maxRev, maxID)
      | None => (maxRev, maxID)
      end) (map scan_event l) p = fold_left pick l p.
Proof.
  induction l as [|x l IH]; intros [a b]; [reflexivity|]. cbn [map fold_left]. rewrite IH. f_equal.
  unfold pick, scan_event. destruct (created x); reflexivity.
Qed.

Lemma pick_spec l : forall a b,
  let '(m, i) := fold_left pick l (a, b) in
  a <= m /\ (forall y, In y l -> created y = false -> prev_revision y <= m) /\
  ((m, i) = (a, b) \/ exists y, In y l /\ created y = false /\ prev_revision y = m /\ id y = i /\ a < m).
Proof.
  induction l as [|x l IH]; intros a b; simpl.
  - split; [lia|]. split; auto. intros ? [].
  - unfold pick at 2. cbn [fst]. destruct (created x) eqn:C.
    + specialize (IH a b). destruct (fold_left pick l (a, b)) as [m i]. destruct IH as (A & B & D).
      split; auto. split. { intros y [<-|H] E; auto. congruence. }
      destruct D as [D|(y & D1 & D2)]; auto. right. exists y. auto.
    + destruct (a <? prev_revision x) eqn:L.
      * apply Z.ltb_lt in L. specialize (IH (prev_revision x) (id x)).
        destruct (fold_left pick l (prev_revision x, id x)) as [m i]. destruct IH as (A & B & D).
        split; [lia|]. split. { intros y [<-|H] E; auto. }
        right. destruct D as [D|(y & D1 & D2 & D3 & D4 & D5)].
        -- injection D as -> ->. exists x. repeat split; auto.
        -- exists y. repeat split; auto. lia.
      * apply Z.ltb_ge in L. specialize (IH a b). destruct (fold_left pick l (a, b)) as [m i]. destruct IH as (A & B & D).
        split; auto. split. { intros y [<-|H] E; auto. lia. }
        destruct D as [D|(y & D1 & D2)]; auto. right. exists y. auto.
Qed.

Lemma run_delete_others keep l : forall w,
  run (delete_others keep (map scan_event l)) w =
  ((Db (filter (fun r => negb (existsb (fun y => (id y =? id r) && negb (id y =? keep)) l)) (rows (fst w))) (seq (fst w)),
    snd w), Ok tt).
Proof.
  induction l as [|x l IH]; intros w.
  - simpl. destruct w as [[rs sq] s]. cbn [fst snd rows seq]. rewrite filter_all; auto.
  - cbn [map delete_others].
    assert (E : kv_mod (ev_kv (scan_event x)) = id x) by (unfold scan_event; destruct (created x); reflexivity).
    rewrite E. destruct (id x =? keep) eqn:K.
    + rewrite IH. do 3 f_equal. apply filter_ext. intros r. cbn [existsb]. rewrite K. cbn. now rewrite andb_false_r.
    + rewrite run_rbind. unfold d_delete_revision. rewrite run_rbind. unfold d_execute.
      pose proof (run_query (CExec (ADeleteRev (id x))) w) as RQ. cbn [ret_of] in *. rewrite RQ.
      cbn [fst snd run]. rewrite IH. unfold weffect. cbn [op_of]. unfold wapply. cbn [apply delete_rev_sql fst snd rows seq spec_apply].
      do 3 f_equal. rewrite filter_filter. apply filter_ext. intros r. cbn [existsb]. rewrite K. cbn [negb].
      rewrite andb_true_r, negb_orb. f_equal. rewrite Z.eqb_sym. reflexivity.
Qed.

Lemma run_compact_start_any (w : world) m : rev_sql (fst w) = Some m ->
  let l := after_prefix_sql ck (ck ++ [0%N]) 0 m (fst w) in
  (2 <= length l)%nat ->
  run b_compact_start w = run (delete_others (snd (keeper l)) (map scan_event l)) w.
Proof.
  intros E l L.
  assert (CR : run d_current_revision w = (w, Ok m)).
  { unfold d_current_revision. rewrite run_rbind.
    assert (E1 : run (d_query CRev) w = (w, Ok (RowSet [rev_sql (fst w)] None))) by exact (run_query CRev w).
    change (ret_of CRev) with (rowset (option Z)) in *. rewrite E1. cbn [fst snd run one_row rs_rows]. now rewrite E. }
  unfold b_compact_start. rewrite run_rbind, CR. cbn [fst snd].
  rewrite run_rbind.
  assert (E2 : run (d_after_prefix ck (ck ++ [0%N]) 0 m) w = (w, Ok (RowSet l None)))
    by exact (run_query (CAfterPrefix ck (ck ++ [0%N]) 0 m) w).
  rewrite E2. cbn [fst snd].
  unfold scan_all. cbn [rs_rows]. unfold keeper.
  destruct l as [|x [|y l']]; simpl in L; try lia. reflexivity.
Qed.

Lemma repair_lemma (w : world) x : NoDup (map id (rows (fst w))) ->
  (forall y, In y (rows (fst w)) -> 0 < id y) ->
  (exists y z, In y (rows (fst w)) /\ In z (rows (fst w)) /\ name y = ck /\ name z = ck /\ y <> z) ->
  In x (rows (fst w)) -> name x = ck -> created x = false -> 0 < prev_revision x ->
  (forall y, In y (rows (fst w)) -> name y = ck -> prev_revision y <= prev_revision x) ->
  exists w', run b_compact_start w = (w', Ok tt) /\ snd w' = snd w /\
  exists k, In k (rows (fst w)) /\ name k = ck /\ prev_revision k = prev_revision x /\
    rows (fst w') = filter (fun r => negb (beqb (name r) ck) || (id r =? id k)) (rows (fst w)) /\
    revision_interval_sql (fst w') = (Some (prev_revision x), snd (revision_interval_sql (fst w'))).
Proof.
  intros ND POS (y1 & y2 & Y1 & Y2 & N1 & N2 & NE) IX NX CX PX MX.
  assert (EM : exists m, rev_sql (fst w) = Some m).
  { unfold rev_sql. destruct (rows (fst w)) as [|r rs]; [destruct IX|].
    destruct (max_opt_cons (id r) (map id rs)) as (m & E & _). exists m. exact E. }
  destruct EM as [m EM].
  assert (LE : forall y, In y (rows (fst w)) -> id y <= m).
  { intros y Hy. unfold rev_sql in EM. apply max_opt_spec in EM. apply EM. now apply in_map. }
  set (l := after_prefix_sql ck (ck ++ [0%N]) 0 m (fst w)).
  assert (IL : forall y, In y l <-> In y (rows (fst w)) /\ name y = ck).
  { intros y. unfold l, after_prefix_sql. rewrite order_by_in, filter_In, !andb_true_iff, Z.ltb_lt, Z.leb_le, in_range_succ.
    split; [tauto|]. intros [A B]. repeat split; auto. }
  assert (LL : (2 <= length l)%nat).
  { assert (A : In y1 l) by (apply IL; auto). assert (B : In y2 l) by (apply IL; auto).
    destruct l as [|a [|b l']]; simpl in *; [tauto| |lia]. destruct A as [<-|[]], B as [<-|[]]. congruence. }
  pose proof (run_compact_start_any w m EM LL) as RUN. fold l in RUN. rewrite run_delete_others in RUN.
  pose proof (pick_spec l 0 0) as PS.
  assert (KE : keeper l = fold_left pick l (0, 0)) by (unfold keeper, pick_keeper; apply pick_fold).
  rewrite <- KE in PS. destruct (keeper l) as [mr mi] eqn:KK. destruct PS as (P1 & P2 & P3).
  assert (XL : In x l) by (apply IL; auto). specialize (P2 x XL CX).
  destruct P3 as [P3|(k & K1 & K2 & K3 & K4 & K5)]. { injection P3 as -> ->. lia. }
  apply IL in K1. destruct K1 as [K1 K1'].
  assert (PK : prev_revision k = prev_revision x) by (specialize (MX k K1 K1'); lia).
  eexists. split; [exact RUN|]. split; [reflexivity|]. exists k. split; [auto|]. split; [auto|]. split; [auto|].
  cbn [fst rows].
  assert (ROWS : filter (fun r => negb (existsb (fun y => (id y =? id r) && negb (id y =? snd (mr, mi))) l)) (rows (fst w)) =
     filter (fun r => negb (beqb (name r) ck) || (id r =? id k)) (rows (fst w))).
  { apply filter_ext_in. intros r Hr. cbn [snd]. rewrite <- K4.
    destruct (beqb (name r) ck) eqn:B; cbn [negb orb].
    - apply beqb_true in B. destruct (id r =? id k) eqn:D.
      + apply negb_true_iff. apply Z.eqb_eq in D.
        destruct (existsb _ l) eqn:X; auto. apply existsb_exists in X. destruct X as (z & Z1 & Z2).
        apply andb_true_iff in Z2. destruct Z2 as [Z2 Z3]. apply Z.eqb_eq in Z2. apply negb_true_iff, Z.eqb_neq in Z3. lia.
      + apply negb_false_iff. apply existsb_exists. exists r. split; [now apply IL|]. rewrite Z.eqb_refl, D. reflexivity.
    - apply negb_true_iff. destruct (existsb _ l) eqn:X; auto. apply existsb_exists in X. destruct X as (z & Z1 & Z2).
      apply andb_true_iff in Z2. destruct Z2 as [Z2 _]. apply Z.eqb_eq in Z2. apply IL in Z1.
      assert (z = r) by (eapply unique_inj; eauto; tauto). subst z. apply beqb_false in B. tauto. }
  split; [exact ROWS|]. cbn [snd] in ROWS.
  unfold revision_interval_sql. cbn [rows fst snd]. f_equal. rewrite ROWS, filter_filter.
  apply max_opt_spec. split.
  - rewrite <- PK. apply in_map, filter_In. split; auto. rewrite Z.eqb_refl, orb_true_r. simpl. now apply beqb_true.
  - intros z Hz. apply in_map_iff in Hz. destruct Hz as (r & <- & Hr). apply filter_In in Hr. destruct Hr as [Hr B].
    apply andb_true_iff in B. destruct B as [_ B]. apply beqb_true in B. auto.
Qed.

(** two bookkeeping rows, both inserted by a create, as left by two racing
    creations of an old version *)
Definition dup_db : db :=
  Db [Row 1 ka true false 0 0 0 v1 []; Row 2 ck true false 0 5 0 [] []; Row 3 ck true false 0 5 0 [] [];
      Row 6 ka false false 1 1 0 v2 v1] 6.
Definition dup_world : world := (dup_db, Store [] 5).
Lemma repair_loses :
  refused cfg0 dup_world 4 /\
  snd (run b_compact_start dup_world) = Ok tt /\
  (forall x, In x (rows (fst (fst (run b_compact_start dup_world)))) -> name x <> ck) /\
  answered cfg0 (fst (run b_compact_start dup_world)) 4.
Proof.
  assert (E : run b_compact_start dup_world =
     ((Db [Row 1 ka true false 0 0 0 v1 []; Row 6 ka false false 1 1 0 v2 v1] 6, Store [] 5), Ok tt)) by (vm_compute; reflexivity).
  rewrite E. cbn [fst snd]. split; [|split; [auto|split]].
  - intros lo hi limit. unfold ask, s_range, range. cbn -[l_range]. unfold l_range. cbn [r_range_end].
    destruct hi as [|h hi]; vm_compute; reflexivity.
  - intros x [<-|[<-|[]]]; vm_compute; discriminate.
  - intros lo hi limit. set (w0 := (_, Store [] 5)). unfold ask, s_range, range. cbn -[l_range w0]. unfold l_range. cbn [r_range_end].
    assert (G : run d_get_compact_revision w0 = (w0, Ok (0, 6))) by (vm_compute; reflexivity).
    assert (BL : forall k re n, exists kvs, run (b_list cfg0 k re n 4) w0 = (w0, Ok (6, kvs))).
    { intros. unfold b_list. rewrite run_rbind, G. cbn [snd fst]. cbn [read_revision Z.eqb orb Z.ltb Z.compare Pos.compare Pos.compare_cont].
      rewrite run_rbind.
      assert (E1 : exists l, run (d_list cfg0 k re n 4) w0 = (w0, Ok (RowSet l None))) by (eexists; exact (run_query (CList true k (range_end k re) n 4) w0)).
      destruct E1 as [l ->]. cbn [fst snd run]. eexists. reflexivity. }
    assert (BC : forall k re r, 0 < r -> exists n, run (b_count cfg0 k re r) w0 = (w0, Ok (6, n))).
    { intros k re r Hr. unfold b_count. rewrite run_rbind, G. cbn [snd fst].
      assert (RR : exists q, read_revision r 0 6 = Ok q).
      { unfold read_revision. destruct ((r =? 0) || (6 <? r)); eauto. destruct (Z.ltb_spec r 0); eauto. lia. }
      destruct RR as [q ->]. rewrite run_rbind.
      assert (E1 : exists n, run (d_count cfg0 k re q) w0 = (w0, Ok n)).
      { unfold d_count. rewrite run_rbind.
        assert (E2 : exists x, run (d_query (CCount true k (range_end k re) q)) w0 = (w0, Ok (RowSet [x] None))) by (eexists; exact (run_query (CCount true k (range_end k re) q) w0)).
        destruct E2 as [x E2]. change (cfg_v1 cfg0) with true.
        change (ret_of (CCount true k (range_end k re) q)) with (rowset Z) in *. rewrite E2. cbn. eauto. }
      destruct E1 as [n ->]. cbn [fst snd run]. eexists. reflexivity. }
    destruct hi as [|h hi].
    + unfold l_get. rewrite run_rbind. cbn [r_key r_revision]. destruct (BL lo [] 1) as [kvs ->]. cbn. eauto.
    + unfold l_list. cbn [r_range_end r_count_only]. cbv zeta. rewrite run_rbind. cbn [r_key r_range_end r_revision r_limit].
      match goal with |- context [b_list cfg0 lo (h :: hi) ?n 4] => destruct (BL lo (h :: hi) n) as [kvs ->] end.
      cbn [fst snd]. destruct (_ && _).
      * cbn [Z.eqb]. rewrite run_rbind. destruct (BC lo (h :: hi) 4 ltac:(lia)) as [n ->]. cbn. eauto.
      * cbn. eauto.
Qed.

(** ---- C22 ---- *)
Definition no_floor_change (c : call) : Prop :=
  match c with CExec (ACompact _ _) | CExec (ADeleteRev _) => False | _ => True end.

Lemma spec_floor s a : match a with ACompact _ _ => False | _ => True end -> floor_of (fst (spec_apply s a)) = floor_of s.
Proof.
  destruct a as [k v ttl|k v rev ttl|k rev|start stop|rev]; simpl; try tauto; intros _.
  - unfold spec_create. destruct (now _ k); reflexivity.
  - unfold spec_update. destruct (now _ k) as [x|]; [destruct (kv_mod x =? rev)|]; reflexivity.
  - unfold spec_delete. destruct (now _ k) as [x|]; [destruct (kv_mod x =? rev)|]; reflexivity.
Qed.

Lemma exec_floor {A} (p : prog A) : issues (fun _ _ => True) no_floor_change p -> forall sched w,
  Forall (fun x => fst x = []) sched -> floor_of (snd (fst (exec p sched w))) = floor_of (snd w).
Proof.
  induction p as [a|c k IH]; intros H sched w F; [reflexivity|].
  destruct sched as [|[env f] sched]; [reflexivity|]. inversion F as [|? ? F1 F2]; subst. cbn [fst] in F1. subst env.
  cbn [exec fold_left]. destruct H as [H1 H2]. specialize (H2 f w I).
  destruct (sem f c w) as [w' r] eqn:E. cbn [snd] in H2. rewrite IH; auto.
  assert (G : w' = w \/ w' = weffect c w) by (destruct f; cbn [sem] in E; injection E as <- _; auto).
  destruct G as [-> | ->]; auto. unfold weffect. destruct c as [a| | | | | | | |]; cbn [op_of]; auto.
  cbn [wapply snd]. apply spec_floor. destruct a; simpl in *; auto.
Qed.

Lemma issues_b_list (P : call -> Prop) allow cfg key re limit rev :
  P CInterval -> (forall a b c d e, P (CList a b c d e)) -> issues allow P (b_list cfg key re limit rev).
Proof.
  intros A B. unfold b_list. apply issues_rbind.
  { unfold d_get_compact_revision. apply issues_rbind; [apply issues_query; auto|intros; exact I]. }
  intros [lo hi]. destruct (read_revision rev lo hi); [|exact I]. apply issues_rbind; [|intros; exact I].
  apply issues_query. auto.
Qed.
Lemma issues_b_count (P : call -> Prop) allow cfg key re rev :
  P CInterval -> (forall a b c d, P (CCount a b c d)) -> issues allow P (b_count cfg key re rev).
Proof.
  intros A B. unfold b_count. apply issues_rbind.
  { unfold d_get_compact_revision. apply issues_rbind; [apply issues_query; auto|intros; exact I]. }
  intros [lo hi]. destruct (read_revision rev lo hi); [|exact I]. apply issues_rbind; [|intros; exact I].
  unfold d_count. apply issues_rbind; [apply issues_query; auto|intros; exact I].
Qed.

(** the calls of a transaction: one kind of write, on the transaction's key, and the read of the failure branch *)
Definition txn_call (t : txn_req) (c : call) : Prop :=
  match c with
  | CExec (ACreate k _ _) | CExec (AUpdate k _ _ _) | CExec (ADelete k _) => txn_key t = Some k
  | CInterval | CList _ _ _ _ _ => True
  | _ => False
  end.
Lemma issues_txn cfg t allow : issues allow (txn_call t) (s_txn cfg t).
Proof.
  unfold s_txn, l_txn.
  assert (F : forall k rev, issues allow (txn_call t) (l_failure cfg k rev)).
  { intros. unfold l_failure. apply issues_rbind; [apply issues_b_list; simpl; auto|]. intros [a b]; exact I. }
  assert (K : txn_key t = txn_key t) by auto. revert K. generalize (txn_key t) at 1. intros o K. unfold txn_key in K.
  destruct (is_create t) as [p|] eqn:E1.
  { unfold l_create. destruct (_ || _ || _); [exact I|]. apply issues_rbind; [|intros [a [|]]; exact I].
    unfold b_create, d_create. apply issues_rbind; [|intros; exact I]. apply issues_execute. simpl. unfold txn_key. now rewrite E1. }
  destruct (is_delete t) as [[rev k]|] eqn:E2.
  { unfold l_delete. apply issues_rbind; [|intros [a [|]]; [exact I|apply F]].
    unfold b_delete, d_delete. apply issues_rbind; [|intros; exact I]. apply issues_execute. simpl. unfold txn_key. now rewrite E1, E2. }
  destruct (is_update t) as [[[[rev k] v] l]|] eqn:E3.
  { unfold l_update. apply issues_rbind; [|intros [a [|]]; [exact I|apply F]].
    destruct (rev =? 0); [unfold b_create, d_create|unfold b_update, d_update]; (apply issues_rbind; [|intros; exact I]);
      apply issues_execute; simpl; unfold txn_key; now rewrite E1, E2, E3. }
  destruct (is_compact t); exact I.
Qed.
Lemma issues_weaken {A} allow (P Q : call -> Prop) (p : prog A) : (forall c, P c -> Q c) -> issues allow P p -> issues allow Q p.
Proof. intros H. induction p as [a|c k IH]; simpl; auto. intros [A1 A2]. split; auto. Qed.

Lemma issues_range cfg r allow (P : call -> Prop) :
  P CInterval -> (forall a b c d e, P (CList a b c d e)) -> (forall a b c d, P (CCount a b c d)) ->
  issues allow P (s_range cfg r).
Proof.
  intros A B C. unfold s_range. repeat (match goal with |- context [if ?b then Ret _ else _] => destruct b; [exact I|] end).
  unfold l_range. destruct (r_range_end r) eqn:E.
  - unfold l_get. apply issues_rbind; [apply issues_b_list; auto|]. intros [a b]; exact I.
  - unfold l_list. rewrite E. destruct (r_count_only r).
    + apply issues_rbind; [apply issues_b_count; auto|]. intros [a b']; exact I.
    + apply issues_rbind; [apply issues_b_list; auto|]. intros [a b']. destruct (_ && _); [|exact I].
      apply issues_rbind; [apply issues_b_count; auto|]. intros [x y]; exact I.
Qed.

Lemma txn_floor cfg t w sched : wreach w -> txn_key t <> Some ck -> Forall (fun x => fst x = []) sched ->
  let w' := fst (exec (s_txn cfg t) sched w) in
  forall r, supported_range r -> bounded w' r ->
  (ask cfg w' r = Err ECompacted <-> ask cfg w r = Err ECompacted).
Proof.
  intros HW HK F. cbv zeta. intros r S B.
  assert (FA : forall {A} (p : prog A) sched w, Forall (fun x => fst x = []) sched -> fair p sched w).
  { clear. intros A p. induction p as [a|c k IH]; simpl; auto. intros [|[env f] sched] w H; auto.
    inversion H as [|? ? H1 H2]; subst. cbn in H1. subst env. split; [exact I|]. cbn [fold_left]. auto. }
  assert (ST : wsteps w (fst (exec (s_txn cfg t) sched w))).
  { apply (wp_exec any_fault _ (fun _ _ => True)); auto.
    - now apply wp_txn.
    - apply Forall_forall. intros; exact I. }
  pose proof (extends_revision _ _ (wsteps_extends _ _ ST)).
  rewrite !ask_refused_iff; auto.
  - rewrite exec_floor; [tauto| |auto]. eapply issues_weaken; [|apply issues_txn].
    intros [[]| | | | | | | |]; simpl; auto.
  - destruct B; split; auto. lia.
  - eapply wsteps_reach; eauto.
Qed.

(** a client deletes the bookkeeping key; the next compaction run "repairs" the
    duplicate and the floor falls from 5 to 2 *)
Lemma floor_destroyed :
  wreach demo /\ ask cfg0 demo (range ka kc 0 3) = Err ECompacted /\
  exists resp,
    ask cfg0 (after_compaction cfg0 (after_txn cfg0 demo (delete_txn ck 2))) (range ka kc 0 3) = Ok resp /\
    ~ is_snapshot (history_of (snd demo)) 3 ka kc (rr_kvs resp).
Proof.
  split; [apply demo_reach|]. split; [vm_compute; reflexivity|].
  eexists. split; [vm_compute; reflexivity|]. cbn [rr_kvs].
  intros [_ H]. specialize (H (KV ka v1 0 1 1)). destruct H as [_ H].
  assert (A : in_range ka kc (kv_key (KV ka v1 0 1 1)) /\ kv_at (history_of (snd demo)) 3 (kv_key (KV ka v1 0 1 1)) = Some (KV ka v1 0 1 1)).
  { split; [split; vm_compute; auto; discriminate|vm_compute; reflexivity]. }
  specialize (H A). simpl in H. intuition discriminate.
Qed.
(** a client updates the bookkeeping key: everything before its revision is
    refused although nothing was compacted *)
Definition small_world : world :=
  fold_left wapply [ACreate ka v1 0; AUpdate ka v2 1 0; ACreate ck [] 0; ACreate kb v1 0] init_world.
Lemma floor_raised :
  wreach small_world /\
  ask cfg0 small_world (range ka kc 0 1) = Ok (RangeResp 4 [KV ka v1 0 1 1] false 1) /\
  ask cfg0 (after_txn cfg0 small_world (update_txn ck v1 3 0)) (range ka kc 0 1) = Err ECompacted.
Proof.
  split; [|vm_compute; auto].
  apply (wsteps_reach init_world); [apply reach_init|]. apply wsteps_env, env_okb_ok. vm_compute. reflexivity.
Qed.
