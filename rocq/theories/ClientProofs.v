(** Proofs for C51, C52 and C59. *)
From Coq Require Import List ZArith NArith Bool Lia Sorting.Sorted.
From Verif Require Import Bytes Spec Sql System Prog Backend Limited Api Pool Observe Client SpecLemmas SqlLemmas Sim ReadLemmas ProgLemmas ReadProgs TraceLemmas Safety ApiLemmas StoreProofs ReadProofs TxnProofs.
Import ListNotations.
Open Scope Z_scope.

Local Notation ck := compact_rev_key.

(** ---- prefixes ---- *)
Definition octets (k : bytes) : Prop := Forall (fun b => (b <= 255)%N) k.

Lemma all255_prefix p : forall k, forallb (N.eqb 255) p = true -> octets k ->
  (ble p k <-> exists r, k = p ++ r).
Proof.
  induction p as [|b p IH]; intros k A K.
  - split; [intros _; now exists k|]. intros _. unfold ble. destruct k; simpl; discriminate.
  - cbn [forallb] in A. apply andb_true_iff in A. destruct A as [A1 A2]. apply N.eqb_eq in A1. subst b.
    destruct k as [|c k].
    + split; [unfold ble; simpl; congruence|]. intros [r E]. discriminate.
    + inversion K as [|? ? K1 K2]; subst. unfold ble. cbn [bcmp].
      destruct (N.compare_spec 255 c) as [E|E|E]; [subst c| lia |].
      * change (bcmp p k <> Gt) with (ble p k). rewrite IH by auto. split; intros [r Er]; exists r; [now rewrite Er|now injection Er].
      * split; [congruence|]. intros [r Er]. injection Er as Er1 Er2. lia.
Qed.
Lemma prefix_range p : forall k, forallb (N.eqb 255) p = false -> octets p -> octets k ->
  (in_range p (prefix_end p) k <-> exists r, k = p ++ r).
Proof.
  induction p as [|b p IH]; intros k A P K; [discriminate|].
  inversion P as [|? ? P1 P2]; subst. cbn [prefix_end].
  destruct k as [|c k].
  { split; [intros [H _]; unfold ble in H; simpl in H; congruence|intros [r E]; discriminate]. }
  inversion K as [|? ? K1 K2]; subst. unfold in_range, ble, blt.
  destruct (forallb (N.eqb 255) p) eqn:F.
  - cbn [forallb] in A. rewrite F, andb_true_r in A. apply N.eqb_neq in A.
    destruct (N.ltb_spec b 255) as [LT|]; [|lia]. cbn [bcmp].
    destruct (N.compare_spec b c) as [E|E|E].
    + subst c. destruct (N.compare_spec b (b+1)); try lia.
      change (bcmp p k <> Gt) with (ble p k). rewrite (all255_prefix p k F K2). split.
      * intros [[r ->] _]. now exists r.
      * intros [r E]. injection E as E. split; eauto.
    + split.
      * intros [_ H]. destruct (N.compare_spec c (b+1)); try lia; try discriminate. destruct k; discriminate.
      * intros [r X]. injection X as X1 X2. lia.
    + split; [intros [H _]; congruence|]. intros [r X]. injection X as X1 X2. lia.
  - cbn [bcmp]. destruct (N.compare_spec b c) as [E|E|E].
    + subst c. rewrite N.compare_refl.
      change (bcmp p k <> Gt /\ bcmp k (prefix_end p) = Lt) with (in_range p (prefix_end p) k).
      rewrite IH by auto. split; intros [r Er]; exists r; [now rewrite Er|now injection Er].
    + split.
      * intros [_ H]. destruct (N.compare_spec c b); try lia; discriminate.
      * intros [r X]. injection X as X1 X2. lia.
    + split; [intros [H _]; congruence|]. intros [r X]. injection X as X1 X2. lia.
Qed.
(** keys under "/" need no bound on bytes *)
Lemma slash_range k : in_range slash (prefix_end slash) k <-> exists r, k = 47%N :: r.
Proof.
  change (prefix_end slash) with [48%N]. unfold in_range, ble, blt, slash. destruct k as [|c k]; cbn [bcmp].
  - split; [intros [H _]; congruence|]. intros [r E]. discriminate.
  - destruct (N.compare_spec 47 c) as [E|E|E].
    + subst c. simpl. split; [intros _; now exists k|]. intros _. split; [destruct k; discriminate|reflexivity].
    + split.
      * intros [_ H]. destruct (N.compare_spec c 48); try lia; try discriminate. destruct k; discriminate.
      * intros [r X]. injection X as X1 X2. lia.
    + split; [intros [H _]; congruence|]. intros [r X]. injection X as X1 X2. lia.
Qed.
Lemma prefix_end_ne p : prefix_end p <> [].
Proof. destruct p as [|b p]; simpl; [discriminate|]. destruct (forallb _ p); [destruct (N.ltb b 255)|]; discriminate. Qed.

(** ---- undisturbed client calls ---- *)
Lemma run_ask cfg w lo hi limit rev : wreach w -> int64 limit -> limit <> int64_max ->
  run (s_range cfg (range lo hi limit rev)) w = (w, ask cfg w (range lo hi limit rev)).
Proof.
  intros HW HL HM. unfold ask.
  destruct (run_s_range cfg (range lo hi limit rev) w HW (supported_plain _ _ _ _) HL ltac:(intros E; contradiction (HM E))) as [E _].
  destruct (run (s_range cfg (range lo hi limit rev)) w). simpl in *. now subst.
Qed.
Lemma run_c_get cfg k w : wreach w ->
  run (c_get cfg k) w = (w, match now (history_of (snd w)) k with Some x => COk x | None => CFail XNotFound end).
Proof.
  intros HW. unfold c_get. rewrite run_bind. rewrite run_ask by (auto using int64_0; discriminate). cbn [fst snd].
  rewrite ask_get by auto. cbn [Z.eqb negb andb rr_kvs]. unfold read_at. cbn [Z.eqb orb]. rewrite kv_at_now.
  destruct (now _ k); reflexivity.
Qed.
Lemma run_c_list cfg p w : wreach w -> exists L, run (c_list cfg p 0) w = (w, COk L) /\
  is_snapshot (history_of (snd w)) (revision (history_of (snd w))) (prefix_start p) (prefix_end p) L.
Proof.
  intros HW. unfold c_list. rewrite run_bind. rewrite run_ask by (auto using int64_0; discriminate). cbn [fst snd].
  pose proof (list_now cfg w (prefix_start p) (prefix_end p) 0 HW (prefix_end_ne p)) as H.
  destruct (ask cfg w (range (prefix_start p) (prefix_end p) 0 0)) as [resp|e]; [|destruct H as (_ & H & _); congruence].
  destruct H as [H1 H2]. exists (rr_kvs resp). split; auto. rewrite H1 in H2. exact H2.
Qed.
Lemma run_c_txn cfg t e w : run (c_txn cfg t e) w =
  (after_txn cfg w t, match transact cfg w t with
                      | Err x => CFail (XServer x)
                      | Ok resp => if tr_succeeded resp then COk tt else CFail e end).
Proof.
  unfold c_txn, after_txn, transact. rewrite run_bind. destruct (run (s_txn cfg t) w) as [w' [r|x]]; cbn [fst snd]; [|reflexivity].
  destruct (tr_succeeded r); reflexivity.
Qed.

Definition same_others (k : bytes) (w w' : world) : Prop :=
  forall k', k' <> k -> now (history_of (snd w')) k' = now (history_of (snd w)) k'.

Lemma run_c_create cfg k v w : wreach w -> k <> ck ->
  let r := revision (history_of (snd w)) + 1 in
  match now (history_of (snd w)) k with
  | None => exists w', run (c_create cfg k v) w = (w', COk tt) /\ wreach w' /\
              now (history_of (snd w')) k = Some (KV k v 0 r r) /\ revision (history_of (snd w')) = r /\ same_others k w w'
  | Some _ => run (c_create cfg k v) w = (w, CFail XExists)
  end.
Proof.
  intros HW HK. cbv zeta. pose proof (create_lemma cfg w k v 0 HW HK) as H. cbv zeta in H.
  unfold c_create. rewrite run_c_txn. pose proof (create_reach cfg k v 0 w HW HK) as HR.
  rewrite value_of_now in H by auto. destruct (now (history_of (snd w)) k) as [x|].
  - destruct H as [-> ->]. reflexivity.
  - destruct H as (A & B & C & D). rewrite A. cbn [tr_succeeded]. eexists. split; [reflexivity|]. split; [exact HR|].
    rewrite current_rev in B by auto. rewrite current_rev in B by auto. rewrite value_of_now in C by auto.
    rewrite current_rev in C by auto. split; [exact C|]. split; [exact B|].
    intros k' NE. specialize (D k' NE). rewrite !value_of_now in D by auto. exact D.
Qed.
Lemma run_c_update cfg k v e w : wreach w -> k <> ck -> e <> 0 ->
  let r := revision (history_of (snd w)) + 1 in
  match now (history_of (snd w)) k with
  | Some x => if kv_mod x =? e then
      exists w', run (c_update cfg k v e) w = (w', COk tt) /\ wreach w' /\
         now (history_of (snd w')) k = Some (KV k v 0 (kv_create x) r) /\ revision (history_of (snd w')) = r /\ same_others k w w'
      else run (c_update cfg k v e) w = (w, CFail XMismatch)
  | None => run (c_update cfg k v e) w = (w, CFail XMismatch)
  end.
Proof.
  intros HW HK HE. cbv zeta. pose proof (update_lemma cfg w k v e 0 HW HK) as H. cbv zeta in H.
  unfold c_update. rewrite run_c_txn. pose proof (update_reach cfg k v e 0 w HW HK) as HR.
  pose proof (update_fail_world cfg k v e 0 w HW HK) as HN. rewrite (proj2 (Z.eqb_neq e 0) HE) in HN.
  rewrite value_of_now in H by auto. destruct (now (history_of (snd w)) k) as [x|].
  - destruct (kv_mod x =? e) eqn:E.
    + destruct H as (A & B & C & D). rewrite A. cbn [tr_succeeded]. eexists. split; [reflexivity|]. split; [exact HR|].
      rewrite current_rev in B by auto. rewrite current_rev in B by auto. rewrite value_of_now in C by auto.
      rewrite current_rev in C by auto. split; [exact C|]. split; [exact B|].
      intros k' NE. specialize (D k' NE). rewrite !value_of_now in D by auto. exact D.
    + apply Z.eqb_neq in E. specialize (HN E). unfold after_txn, transact. rewrite HN. reflexivity.
  - specialize (HN Logic.I). unfold after_txn, transact. rewrite HN. reflexivity.
Qed.
Lemma run_c_put cfg k v w : wreach w -> k <> ck ->
  let r := revision (history_of (snd w)) + 1 in
  match now (history_of (snd w)) k with
  | Some x => exists w', run (c_put cfg k v) w = (w', COk tt) /\ wreach w' /\
         now (history_of (snd w')) k = Some (KV k v 0 (kv_create x) r) /\ revision (history_of (snd w')) = r /\ same_others k w w'
  | None => run (c_put cfg k v) w = (w, CFail XNotFound)
  end.
Proof.
  intros HW HK. cbv zeta. unfold c_put. rewrite run_bind, run_c_get by auto. cbn [fst snd].
  destruct (now (history_of (snd w)) k) as [x|] eqn:N; [|reflexivity].
  assert (M : 1 <= kv_mod x).
  { pose proof (now_facts _ _ _ N). lia. }
  destruct (kv_mod x =? 0) eqn:Z0; [apply Z.eqb_eq in Z0; lia|].
  pose proof (run_c_update cfg k v (kv_mod x) w HW HK ltac:(lia)) as H. cbv zeta in H.
  rewrite N, Z.eqb_refl in H. exact H.
Qed.

(** ---- putKey and restore ---- *)
Lemma run_put_key cfg k v w : wreach w -> k <> ck ->
  exists w' x, run (put_key cfg k v) w = (w', COk tt) /\ wreach w' /\
    now (history_of (snd w')) k = Some x /\ kv_value x = v /\ same_others k w w'.
Proof.
  intros HW HK. unfold put_key. rewrite run_bind.
  pose proof (run_c_create cfg k v w HW HK) as H. cbv zeta in H.
  pose proof (run_c_put cfg k v w HW HK) as P. cbv zeta in P.
  destruct (now (history_of (snd w)) k) as [x|].
  - rewrite H. cbn [fst snd]. destruct P as (w' & A & B & C & _ & D).
    cbn [put_attempts]. rewrite run_bind, A. cbn [fst snd]. exists w'. eexists. split; [reflexivity|].
    split; [exact B|]. split; [exact C|]. split; [reflexivity|exact D].
  - destruct H as (w' & A & B & C & _ & D). rewrite A. cbn [fst snd]. exists w'. eexists. split; [reflexivity|].
    split; [exact B|]. split; [exact C|]. split; [reflexivity|exact D].
Qed.

Definition newest (k : bytes) (l : list (bytes * bytes)) : option bytes :=
  fold_left (fun (acc : option bytes) (x : bytes * bytes) => if beqb (fst x) k then Some (snd x) else acc) l None.
Lemma newest_from k l : forall acc : option bytes,
  fold_left (fun (acc : option bytes) (x : bytes * bytes) => if beqb (fst x) k then Some (snd x) else acc) l acc =
  match newest k l with Some v => Some v | None => acc end.
Proof.
  unfold newest. induction l as [|[k' v] l IH]; intros acc; [reflexivity|]. cbn [fold_left fst snd].
  rewrite IH. symmetry. rewrite IH. destruct (fold_left _ l None); [reflexivity|]. destruct (beqb k' k); reflexivity.
Qed.
Lemma newest_cons k k' v l : newest k ((k', v) :: l) =
  match newest k l with Some x => Some x | None => if beqb k' k then Some v else None end.
Proof. unfold newest at 1. cbn [fold_left fst snd]. rewrite newest_from. destruct (newest k l); reflexivity. Qed.

Lemma run_put_entries cfg l : forall w, wreach w -> Forall (fun x : bytes * bytes => fst x <> ck) l ->
  wreach (fst (run (put_entries cfg l) w)) /\
  (forall k, match newest k l with
     | Some v => option_map kv_value (now (history_of (snd (fst (run (put_entries cfg l) w)))) k) = Some v
     | None => now (history_of (snd (fst (run (put_entries cfg l) w)))) k = now (history_of (snd w)) k
     end).
Proof.
  induction l as [|[k v] l IH]; intros w HW HF.
  - cbn [put_entries run fst]. split; auto. intros k. reflexivity.
  - inversion HF as [|? ? F1 F2]; subst. cbn [fst] in F1. cbn [put_entries]. rewrite run_bind.
    destruct (run_put_key cfg k v w HW F1) as (w1 & x & A & B & C & D & Eo). rewrite A. cbn [fst snd].
    destruct (IH w1 B F2) as [IH1 IH2]. split; [exact IH1|]. intros k'. specialize (IH2 k').
    rewrite newest_cons. destruct (newest k' l) as [y|]; [exact IH2|]. rewrite IH2.
    destruct (beqb k k') eqn:E.
    + apply beqb_true in E. subst k'. rewrite C. simpl. now rewrite D.
    + apply beqb_false in E. apply Eo. congruence.
Qed.

Lemma read_write_other d f g c : file_eqb g f = false -> read_file (write_file d (g, c)) f = read_file d f.
Proof. intros H. cbn. now rewrite H. Qed.
Lemma read_write_same d f c : read_file (write_file d (f, c)) f = Some c.
Proof. cbn. destruct f; simpl; rewrite Nat.eqb_refl; reflexivity. Qed.

Definition index_of (f : file) : nat := match f with KeyFile i | DataFile i => i end.
Lemma read_backup_outside L : forall i d f, (index_of f < i \/ i + length L <= index_of f)%nat ->
  read_file (fold_left write_file (backup_writes i L) d) f = read_file d f.
Proof.
  induction L as [|x L IH]; intros i d f H; [reflexivity|]. cbn [backup_writes fold_left length] in *.
  rewrite IH by lia. rewrite !read_write_other; auto.
  - destruct f as [j|j]; simpl; auto. apply Nat.eqb_neq. simpl in H. lia.
  - destruct f as [j|j]; simpl; auto. apply Nat.eqb_neq. simpl in H. lia.
Qed.
Lemma read_backup_nth L : forall i d m x, nth_error L m = Some x ->
  read_file (fold_left write_file (backup_writes i L) d) (KeyFile (i + m)) = Some (kv_key x) /\
  read_file (fold_left write_file (backup_writes i L) d) (DataFile (i + m)) = Some (kv_value x).
Proof.
  induction L as [|y L IH]; intros i d m x H; [destruct m; discriminate|].
  cbn [backup_writes fold_left]. destruct m as [|m].
  - injection H as ->. rewrite Nat.add_0_r. rewrite !read_backup_outside by (simpl; lia).
    split; [|apply read_write_same]. rewrite read_write_other by reflexivity. apply read_write_same.
  - simpl in H. replace (i + S m)%nat with (S i + m)%nat by lia. apply IH, H.
Qed.
Lemma read_entries_suffix L D : 
  (forall m x, nth_error L m = Some x ->
     read_file D (KeyFile m) = Some (kv_key x) /\ read_file D (DataFile m) = Some (kv_value x)) ->
  read_file D (KeyFile (length L)) = None ->
  forall rest pre fuel, L = pre ++ rest -> (length rest < fuel)%nat ->
  read_entries fuel (length pre) D = (map (fun x => (kv_key x, kv_value x)) rest, true).
Proof.
  intros H N. induction rest as [|x rest IH]; intros pre fuel E F; (destruct fuel as [|fuel]; [simpl in F; lia|]);
    cbn [read_entries].
  - rewrite app_nil_r in E. subst pre. rewrite N. reflexivity.
  - destruct (H (length pre) x) as [K V].
    { rewrite E, nth_error_app2, Nat.sub_diag by lia. reflexivity. }
    rewrite K, V. replace (S (length pre)) with (length (pre ++ [x])) by (rewrite app_length; simpl; lia).
    rewrite (IH (pre ++ [x]) fuel); [reflexivity| |simpl in F; lia]. rewrite <- app_assoc. exact E.
Qed.
Lemma backup_writes_length L : forall i, length (backup_writes i L) = (2 * length L)%nat.
Proof. induction L as [|x L IH]; intros i; simpl; auto. rewrite IH. simpl. lia. Qed.
Lemma fold_write_length ws : forall d, length (fold_left write_file ws d) = (length ws + length d)%nat.
Proof. induction ws as [|x ws IH]; intros d; simpl; auto. rewrite IH. simpl. lia. Qed.
Lemma read_whole_backup L d : read_file d (KeyFile (length L)) = None ->
  let D := fold_left write_file (backup_writes 0 L) d in
  read_entries (S (length D)) 0 D = (map (fun x => (kv_key x, kv_value x)) L, true).
Proof.
  intros N. cbv zeta. apply (read_entries_suffix L) with (pre := []); auto.
  - intros m x H. apply (read_backup_nth L 0 d m x H).
  - rewrite read_backup_outside by (simpl; lia). exact N.
  - rewrite fold_write_length, backup_writes_length. lia.
Qed.

Lemma newest_map h n lo hi L k : is_snapshot h n lo hi L ->
  newest k (map (fun x => (kv_key x, kv_value x)) L) =
  match find (fun x => beqb (kv_key x) k) L with Some x => Some (kv_value x) | None => None end.
Proof.
  intros [S _]. induction L as [|x L IH]; [reflexivity|]. inversion S as [|? ? S1 S2]; subst.
  cbn [map find]. rewrite newest_cons, IH by auto. destruct (beqb (kv_key x) k) eqn:E; [|destruct (find _ L); reflexivity].
  apply beqb_true in E. destruct (find (fun x => beqb (kv_key x) k) L) as [y|] eqn:F; [|reflexivity].
  apply find_some in F. destruct F as [F1 F2]. apply beqb_true in F2. rewrite Forall_forall in S2.
  specialize (S2 y F1). unfold key_lt in S2. rewrite E, F2 in S2. contradiction (blt_irrefl _ S2).
Qed.
Lemma snapshot_find h lo hi L k : is_snapshot h (revision h) lo hi L -> in_range lo hi k ->
  find (fun x => beqb (kv_key x) k) L = now h k.
Proof.
  intros [S M] HR. destruct (find (fun x => beqb (kv_key x) k) L) as [y|] eqn:F.
  - apply find_some in F. destruct F as [F1 F2]. apply beqb_true in F2. apply M in F1. rewrite kv_at_now in F1.
    destruct F1 as [_ F1]. now rewrite F2 in F1.
  - destruct (now h k) as [x|] eqn:N; [|reflexivity]. pose proof (proj1 (now_facts _ _ _ N)) as K.
    assert (IX : In x L). { apply M. rewrite K, kv_at_now. auto. }
    pose proof (find_none _ _ F x IX) as X. simpl in X. rewrite K, beqb_refl in X. discriminate.
Qed.
Lemma snapshot_find_out h n lo hi L k : is_snapshot h n lo hi L -> ~ in_range lo hi k ->
  find (fun x => beqb (kv_key x) k) L = None.
Proof.
  intros [S M] HR. destruct (find (fun x => beqb (kv_key x) k) L) as [y|] eqn:F; [|reflexivity].
  apply find_some in F. destruct F as [F1 F2]. apply beqb_true in F2. apply M in F1. subst k. tauto.
Qed.

Lemma roundtrip_lemma cfg ws wt d L : wreach ws -> wreach wt ->
  snd (run (backup_list cfg) ws) = COk L -> read_file d (KeyFile (length L)) = None ->
  let out := run (restore cfg (backup_files (2 * length L) L d)) wt in
  snd out = true /\ wreach (fst out) /\
  forall k, (under_slash k ->
     option_map kv_value (value_of cfg (fst out) k) =
     match value_of cfg ws k with Some x => Some (kv_value x) | None => option_map kv_value (value_of cfg wt k) end) /\
    (~ under_slash k -> value_of cfg (fst out) k = value_of cfg wt k).
Proof.
  intros HS HT HL HN. cbv zeta. unfold backup_list in HL.
  destruct (run_c_list cfg slash ws HS) as (L' & A & SN). rewrite A in HL. injection HL as ->.
  unfold backup_files. rewrite firstn_all2 by (rewrite backup_writes_length; lia).
  unfold restore. pose proof (read_whole_backup L d HN) as RE. cbv zeta in RE. rewrite RE.
  rewrite run_bind. cbn [run fst snd].
  destruct (run_put_entries cfg (map (fun x => (kv_key x, kv_value x)) L) wt HT) as [P1 P2].
  { apply Forall_forall. intros [k v] HI. apply in_map_iff in HI. destruct HI as (x & E & HI). injection E as E1 E2.
    simpl. destruct SN as [_ M]. apply M in HI. destruct HI as [HI _]. apply slash_range in HI. destruct HI as [r HI].
    rewrite <- E1, HI. discriminate. }
  split; [reflexivity|]. split; [exact P1|]. intros k. specialize (P2 k).
  rewrite (newest_map _ _ _ _ _ _ SN) in P2. rewrite !value_of_now by auto.
  assert (U : under_slash k <-> in_range slash (prefix_end slash) k) by (rewrite slash_range; reflexivity).
  split; intros HK.
  - rewrite (snapshot_find _ _ _ _ _ SN (proj1 U HK)) in P2.
    destruct (now (history_of (snd ws)) k) as [x|]; [exact P2|]. exact (f_equal (option_map kv_value) P2).
  - rewrite (snapshot_find_out _ _ _ _ _ k SN) in P2; [exact P2|]. rewrite <- U. exact HK.
Qed.

(** ---- put under interference ---- *)
Definition wrote (w0 : world) (k v : bytes) (w' : world) : Prop :=
  exists r x, revision (history_of (snd w0)) < r <= revision (history_of (snd w')) /\
    kv_at (history_of (snd w')) r k = Some x /\ kv_value x = v /\ kv_mod x = r.

Lemma wrote_later w0 k v w1 w2 : wrote w0 k v w1 -> wsteps w1 w2 -> wrote w0 k v w2.
Proof.
  intros (r & x & A & B & C & D) S. exists r, x. pose proof (wsteps_extends _ _ S) as X.
  pose proof (extends_revision _ _ X). split; [lia|]. split; [|auto].
  rewrite (extends_kv_at (snd w1) (snd w2)); auto. lia.
Qed.
Lemma wrote_commit w0 w1 w' k v l : wsteps w0 w1 ->
  snd w' = fst (commit (snd w1) k (Put v l)) -> wrote w0 k v w'.
Proof.
  intros S E. pose proof (extends_revision _ _ (wsteps_extends _ _ S)).
  assert (RV : revision (history_of (snd w')) = revision (history_of (snd w1)) + 1).
  { rewrite E. apply commit_rev. }
  exists (revision (history_of (snd w'))). eexists. split; [lia|].
  rewrite kv_at_now. rewrite E, now_commit, beqb_refl. split; [reflexivity|]. split; [reflexivity|].
  rewrite E in RV. symmetry. exact RV.
Qed.
Definition txn_wrote (w0 : world) (k v : bytes) (w' : world) (r : result txn_resp) : Prop :=
  match r with Ok resp => tr_succeeded resp = true -> wrote w0 k v w' | Err _ => True end.

Lemma wp_wrote_create cfg k v w : wreach w -> k <> ck ->
  wp any_fault (s_txn cfg (create_txn k v 0)) (txn_wrote w k v) w.
Proof.
  intros HW HK. rewrite txn_create. unfold l_create. cbn [p_ignore_lease p_ignore_value p_prev_kv orb p_key p_value p_lease].
  unfold b_create, d_create. apply wp_rbind, wp_rbind.
  eapply wp_mono; [|apply wp_strengthen, wp_write].
  2:{ intros s. split; simpl; auto. intros E. contradiction. }
  intros w' [x|e] [S H]; [|exact Logic.I]. destruct H as (w1 & S1 & -> & ->). cbn [wp].
  pose proof (wsteps_reach _ _ HW S1) as HW1.
  rewrite (proj2 (R_step _ _ (ACreate k v 0) (reach_R _ _ HW1) ltac:(simpl; intros; contradiction))).
  cbn [spec_apply]. unfold spec_create. unfold exec_outcome.
  destruct (now (history_of (snd w1)) k) as [y|] eqn:N; cbn [commit spec_result snd fst Z.eqb wp txn_wrote tr_succeeded]; [discriminate|].
  intros _. apply (wrote_commit w w1 _ k v 0 S1). unfold wapply. cbn [snd spec_apply]. unfold spec_create. rewrite N. reflexivity.
Qed.
Lemma wp_wrote_update cfg k v e w0 w : wsteps w0 w -> wreach w -> k <> ck -> e <> 0 ->
  wp any_fault (s_txn cfg (update_txn k v e 0)) (txn_wrote w0 k v) w.
Proof.
  intros S0 HW HK HE. rewrite txn_update. unfold l_update. rewrite (proj2 (Z.eqb_neq e 0) HE).
  unfold b_update, d_update. apply wp_rbind, wp_rbind.
  eapply wp_mono; [|apply wp_strengthen, wp_write].
  2:{ intros s. split; simpl; auto. }
  intros w' [x|er] [S H]; [|exact Logic.I]. destruct H as (w1 & S1 & -> & ->). cbn [wp].
  pose proof (wsteps_reach _ _ HW S1) as HW1.
  rewrite (proj2 (R_step _ _ (AUpdate k v e 0) (reach_R _ _ HW1) HK)).
  assert (F : forall w2, wp any_fault (l_failure cfg k 0) (txn_wrote w0 k v) w2).
  { intros w2. unfold l_failure. apply wp_rbind. eapply wp_mono; [|apply wp_b_list_any].
    intros w3 [[a b]|e'] _; [|exact Logic.I]. cbn [wp txn_wrote tr_succeeded]. discriminate. }
  cbn [spec_apply]. unfold spec_update. unfold exec_outcome.
  destruct (now (history_of (snd w1)) k) as [y|] eqn:N; [|cbn [spec_result snd fst Z.eqb]; apply F].
  destruct (kv_mod y =? e) eqn:M; [|cbn [spec_result snd fst Z.eqb]; apply F].
  cbn [commit spec_result snd fst Z.eqb wp txn_wrote tr_succeeded].
  intros _. apply (wrote_commit w0 w1 _ k v 0); [eapply wsteps_trans; eauto|].
  unfold wapply. cbn [snd spec_apply]. unfold spec_update. rewrite N, M. reflexivity.
Qed.
Lemma wp_c_txn cfg t e k v w0 w :
  wp any_fault (s_txn cfg t) (txn_wrote w0 k v) w ->
  wp any_fault (c_txn cfg t e) (fun w' r => r = COk tt -> wrote w0 k v w') w.
Proof.
  intros H. unfold c_txn. apply wp_bind. eapply wp_mono; [|exact H].
  intros w' [resp|x] HP; [|cbn [wp]; discriminate]. simpl in HP.
  destruct (tr_succeeded resp); cbn [wp]; [auto|discriminate].
Qed.
Lemma wp_c_put cfg k v w : wreach w -> k <> ck ->
  wp any_fault (c_put cfg k v) (fun w' r => r = COk tt -> wrote w k v w') w.
Proof.
  intros HW HK. unfold c_put. apply wp_bind.
  assert (G : wp any_fault (c_get cfg k) (fun w' r => True) w).
  { unfold c_get. apply wp_bind. unfold s_range. cbn [range r_keys_only r_max_create r_sort_order r_sort_target r_serializable r_min_mod r_min_create r_max_mod Z.eqb negb].
    unfold l_range. cbn [r_range_end range]. unfold l_get.
    apply wp_rbind. eapply wp_mono; [|apply wp_b_list_any].
    intros w3 [[a b]|e'] _; cbn [wp]; [|exact Logic.I]. destruct (rr_kvs _) as [|? [|? ?]]; exact Logic.I. }
  eapply wp_mono; [|apply wp_strengthen, G]. intros w' [x|e] [S _]; cbn [wp]; [|discriminate].
  destruct (kv_mod x =? 0) eqn:Z0.
  - unfold c_create. apply wp_c_txn. eapply wp_mono; [|apply wp_wrote_create; eauto using wsteps_reach].
    intros w2 [r|e] H; [|exact Logic.I]. simpl in *. intros T. destruct (H T) as (n & y & A & B). exists n, y.
    pose proof (extends_revision _ _ (wsteps_extends _ _ S)). split; [lia|exact B].
  - unfold c_update. apply wp_c_txn. apply Z.eqb_neq in Z0. apply wp_wrote_update; eauto using wsteps_reach.
Qed.
Lemma put_lemma cfg k v w sched w' : wreach w -> k <> ck ->
  fair (c_put cfg k v) sched w -> exec (c_put cfg k v) sched w = (w', Some (COk tt)) -> wrote w k v w'.
Proof.
  intros HW HK HF E. destruct (wp_exec any_fault _ _ sched w (wp_c_put cfg k v w HW HK) HF) as [_ A].
  - apply Forall_forall. intros; exact Logic.I.
  - rewrite E in A. apply (A (COk tt)); reflexivity.
Qed.
Lemma put_present cfg k v w x : wreach w -> k <> ck -> value_of cfg w k = Some x ->
  exists w', run (c_put cfg k v) w = (w', COk tt) /\ current cfg w' = current cfg w + 1 /\
    value_of cfg w' k = Some (KV k v 0 (kv_create x) (current cfg w')) /\
    (forall k', k' <> k -> value_of cfg w' k' = value_of cfg w k').
Proof.
  intros HW HK HV. rewrite value_of_now in HV by auto. pose proof (run_c_put cfg k v w HW HK) as P. cbv zeta in P.
  rewrite HV in P. destruct P as (w' & A & B & C & D & Eo). exists w'. split; [exact A|].
  rewrite !current_rev, D by auto. split; [reflexivity|]. split; [now rewrite value_of_now|].
  intros k' NE. rewrite !value_of_now by auto. apply Eo, NE.
Qed.
Lemma put_absent cfg k v w : wreach w -> k <> ck -> value_of cfg w k = None ->
  run (c_put cfg k v) w = (w, CFail XNotFound).
Proof.
  intros HW HK HV. rewrite value_of_now in HV by auto. pose proof (run_c_put cfg k v w HW HK) as P. cbv zeta in P.
  rewrite HV in P. exact P.
Qed.

Lemma list_lemma cfg p w : wreach w -> p <> [] -> exists L, run (c_list cfg p 0) w = (w, COk L) /\
  is_snapshot (history_of (snd w)) (revision (history_of (snd w))) p (prefix_end p) L.
Proof. intros HW HP. destruct (run_c_list cfg p w HW) as (L & A & B). exists L. destruct p; [congruence|]. auto. Qed.
