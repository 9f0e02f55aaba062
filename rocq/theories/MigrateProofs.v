(** Proofs for C141 and C142. *)
From Coq Require Import List ZArith NArith Bool Lia Sorting.Sorted.
From Verif Require Import Bytes Spec Sql System Prog Backend Limited Api Pool Observe Client Migrate SpecLemmas SqlLemmas Sim ReadLemmas ProgLemmas ReadProgs TraceLemmas Safety ApiLemmas StoreProofs ReadProofs TxnProofs ClientProofs.
Import ListNotations.
Open Scope Z_scope.

Local Notation ck := compact_rev_key.
Definition key_gt (a b : kv) : Prop := blt (kv_key b) (kv_key a).

Lemma In_insert x l y : In y (insert_desc x l) -> y = x \/ In y l.
Proof.
  induction l as [|z l IH]; cbn; [intros [<-|[]]; auto|]. destruct (bcmp (kv_key x) (kv_key z)); cbn; [tauto| |intros [<-|H]; tauto].
  intros [<-|H]; [tauto|]. apply IH in H. tauto.
Qed.
Lemma insert_keeps x l y : In y l -> In y (insert_desc x l).
Proof. induction l as [|z l IH]; cbn; [tauto|]. destruct (bcmp (kv_key x) (kv_key z)); cbn; tauto. Qed.
Lemma insert_has x l : exists y, kv_key y = kv_key x /\ In y (insert_desc x l).
Proof.
  induction l as [|z l IH]; cbn; [exists x; auto|]. destruct (bcmp (kv_key x) (kv_key z)) eqn:E; cbn.
  - apply bcmp_eq in E. exists z. auto.
  - destruct IH as (y & A & B). exists y. auto.
  - exists x. auto.
Qed.
Lemma insert_sorted x l : StronglySorted key_gt l -> StronglySorted key_gt (insert_desc x l).
Proof.
  induction 1 as [|z l S IH F]; cbn; [repeat constructor|]. destruct (bcmp (kv_key x) (kv_key z)) eqn:E.
  - now constructor.
  - constructor; auto. apply Forall_forall. intros y I. apply In_insert in I. destruct I as [->|I]; [exact E|]. rewrite Forall_forall in F. auto.
  - assert (G : blt (kv_key z) (kv_key x)). { unfold blt. rewrite (bcmp_opp (kv_key x) (kv_key z)), E. reflexivity. }
    constructor; [now constructor|]. constructor; [exact G|]. eapply Forall_impl; [|exact F]. intros y Y. unfold key_gt in *. eapply blt_trans; eauto.
Qed.
Lemma fold_insert l : StronglySorted key_gt (fold_right insert_desc [] l) /\
  (forall y, In y (fold_right insert_desc [] l) -> In y l) /\
  (forall x, In x l -> exists y, kv_key y = kv_key x /\ In y (fold_right insert_desc [] l)).
Proof.
  induction l as [|x l (A & B & C)]; cbn [fold_right]; [repeat split; try constructor; intros ? []|]. split; [now apply insert_sorted|]. split.
  - intros y H. apply In_insert in H. destruct H as [->|H]; [now left|right; auto].
  - intros z [<-|H]; [apply insert_has|]. destruct (C z H) as (y & E & I). exists y. split; auto. now apply insert_keeps.
Qed.
Lemma now_mentioned h k x : now h k = Some x -> exists e, In e h /\ e_key e = k.
Proof.
  revert x. induction h as [|e h IH] using rev_ind; [discriminate|]. intros x. rewrite now_snoc. unfold change_key.
  destruct (beqb (e_key e) k) eqn:E.
  - apply beqb_true in E. intros _. exists e. split; auto. apply in_app_iff. right. now left.
  - intros H. apply IH in H. destruct H as (e' & I & K). exists e'. split; auto. apply in_app_iff. now left.
Qed.
Lemma etcd_all_spec h : StronglySorted key_gt (etcd_all h) /\ forall x, In x (etcd_all h) <-> now h (kv_key x) = Some x.
Proof.
  unfold etcd_all. set (l := flat_map _ h). destruct (fold_insert l) as (A & B & C). split; auto.
  assert (M : forall x, In x l <-> now h (kv_key x) = Some x).
  { intros x. unfold l. rewrite in_flat_map. split.
    - intros (e & I & J). destruct (now h (e_key e)) as [y|] eqn:N; [|destruct J]. destruct J as [<-|[]].
      rewrite (proj1 (now_facts _ _ _ N)). exact N.
    - intros N. destruct (now_mentioned _ _ _ N) as (e & I & K). exists e. split; auto. rewrite K, N. now left. }
  intros x. split; [intros I; apply M, B, I|]. intros N. destruct (C x (proj2 (M x) N)) as (y & K & I).
  pose proof (proj1 (M y) (B y I)) as Y. rewrite K in Y. congruence.
Qed.

Lemma newest_find_gt L k : StronglySorted key_gt L ->
  newest k (map (fun x => (kv_key x, kv_value x)) L) =
  match find (fun x => beqb (kv_key x) k) L with Some x => Some (kv_value x) | None => None end.
Proof.
  induction L as [|x L IH]; intros S; [reflexivity|]. inversion S as [|? ? S1 S2]; subst.
  cbn [map find]. rewrite newest_cons, IH by auto. destruct (beqb (kv_key x) k) eqn:E; [|destruct (find _ L); reflexivity].
  apply beqb_true in E. destruct (find (fun x => beqb (kv_key x) k) L) as [y|] eqn:F; [|reflexivity].
  apply find_some in F. destruct F as [F1 F2]. apply beqb_true in F2. rewrite Forall_forall in S2.
  specialize (S2 y F1). unfold key_gt in S2. rewrite E, F2 in S2. contradiction (blt_irrefl _ S2).
Qed.
Lemma etcd_find h k : find (fun x => beqb (kv_key x) k) (etcd_all h) = now h k.
Proof.
  destruct (etcd_all_spec h) as [S M]. destruct (find _ (etcd_all h)) as [y|] eqn:F.
  - apply find_some in F. destruct F as [F1 F2]. apply beqb_true in F2. apply M in F1. now rewrite F2 in F1.
  - destruct (now h k) as [x|] eqn:N; [|reflexivity]. pose proof (proj1 (now_facts _ _ _ N)) as K.
    assert (IX : In x (etcd_all h)) by (apply M; now rewrite K).
    pose proof (find_none _ _ F x IX) as X. cbn in X. rewrite K, beqb_refl in X. discriminate.
Qed.

Lemma to_dqlite cfg h d w : wreach w -> now h ck = None -> read_file d (KeyFile (length (etcd_all h))) = None ->
  let out := run (restore cfg (backup_etcd h d)) w in
  snd out = true /\ wreach (fst out) /\
  forall k, match now h k with
            | Some x => option_map kv_value (value_of cfg (fst out) k) = Some (kv_value x)
            | None => value_of cfg (fst out) k = value_of cfg w k
            end.
Proof.
  intros HW NC HN. cbv zeta. unfold backup_etcd, backup_files. rewrite firstn_all2 by (rewrite backup_writes_length; lia).
  unfold restore. pose proof (read_whole_backup (etcd_all h) d HN) as RE. cbv zeta in RE. rewrite RE.
  rewrite run_bind. cbn [run fst snd]. destruct (etcd_all_spec h) as [S M].
  destruct (run_put_entries cfg (map (fun x => (kv_key x, kv_value x)) (etcd_all h)) w HW) as [P1 P2].
  { apply Forall_forall. intros [k v] HI. apply in_map_iff in HI. destruct HI as (x & E & HI). injection E as E1 E2.
    cbn. apply M in HI. rewrite <- E1. intros E. rewrite E in HI. congruence. }
  split; [reflexivity|]. split; [exact P1|]. intros k. specialize (P2 k). rewrite (newest_find_gt _ _ S), etcd_find in P2.
  rewrite !value_of_now by auto. destruct (now h k); exact P2.
Qed.

(** ---- to etcd ---- *)
Lemma etcd_put_spec l : forall h, forall k, 
  match newest k l with
  | Some v => option_map kv_value (now (etcd_put_entries h [] l) k) = Some v
  | None => now (etcd_put_entries h [] l) k = now h k
  end.
Proof.
  induction l as [|[k v] l IH]; intros h k'; [reflexivity|]. cbn [etcd_put_entries hd tl]. rewrite newest_cons.
  specialize (IH (etcd_put h k v false) k'). destruct (newest k' l) as [y|]; [exact IH|]. rewrite IH. cbn [etcd_put].
  rewrite now_snoc. unfold change_key. cbn [e_key e_change]. destruct (beqb k k'); reflexivity.
Qed.
Lemma to_etcd cfg w d L h : wreach w -> snd (run (backup_list cfg) w) = COk L -> read_file d (KeyFile (length L)) = None ->
  let out := restore_etcd [] (backup_files (2 * length L) L d) h in
  snd out = true /\
  forall k, (under_slash k ->
      match value_of cfg w k with
      | Some x => option_map kv_value (now (fst out) k) = Some (kv_value x)
      | None => now (fst out) k = now h k
      end) /\
    (~ under_slash k -> now (fst out) k = now h k).
Proof.
  intros HW HL HN. cbv zeta. unfold backup_list in HL. destruct (run_c_list cfg slash w HW) as (L' & A & SN). rewrite A in HL. injection HL as ->.
  unfold backup_files. rewrite firstn_all2 by (rewrite backup_writes_length; lia).
  unfold restore_etcd. pose proof (read_whole_backup L d HN) as RE. cbv zeta in RE. rewrite RE. split; [reflexivity|]. intros k.
  pose proof (etcd_put_spec (map (fun x => (kv_key x, kv_value x)) L) h k) as P. cbn [fst].
  rewrite (newest_map _ _ _ _ _ _ SN) in P. rewrite value_of_now by auto.
  assert (U : under_slash k <-> in_range slash (prefix_end slash) k) by (rewrite slash_range; reflexivity).
  split; intros HK.
  - rewrite (snapshot_find _ _ _ _ _ SN (proj1 U HK)) in P. destruct (now (history_of (snd w)) k); exact P.
  - rewrite (snapshot_find_out _ _ _ _ _ k SN) in P; [exact P|]. rewrite <- U. exact HK.
Qed.

Lemma etcd_put_keeps l : forall h fails k, ~ In k (map fst l) -> now (etcd_put_entries h fails l) k = now h k.
Proof.
  induction l as [|[k v] l IH]; intros h fails k' NI; [reflexivity|]. cbn [etcd_put_entries map fst In] in *. rewrite IH by tauto.
  unfold etcd_put. destruct (hd false fails); [reflexivity|]. rewrite now_snoc, change_key_other; auto.
Qed.
Lemma etcd_put_each l : forall h fails n k v, NoDup (map fst l) -> nth_error l n = Some (k, v) ->
  if nth n fails false then now (etcd_put_entries h fails l) k = now h k else option_map kv_value (now (etcd_put_entries h fails l) k) = Some v.
Proof.
  induction l as [|[k0 v0] l IH]; intros h fails n k v ND N; [destruct n; discriminate|]. cbn [map fst] in ND. inversion ND as [|x y NI ND']. subst.
  cbn [etcd_put_entries]. destruct n as [|n]; cbn [nth_error] in N.
  - injection N as -> ->. rewrite etcd_put_keeps by exact NI. unfold etcd_put. replace (nth 0 fails false) with (hd false fails) by (destruct fails; reflexivity).
    destruct (hd false fails); [reflexivity|]. rewrite now_snoc, change_key_same. reflexivity.
  - replace (nth (S n) fails false) with (nth n (tl fails) false) by (destruct fails; [destruct n|]; reflexivity).
    specialize (IH (etcd_put h k0 v0 (hd false fails)) (tl fails) n k v ND' N). destruct (nth n (tl fails) false); [|exact IH]. rewrite IH.
    unfold etcd_put. destruct (hd false fails); [reflexivity|]. rewrite now_snoc, change_key_other; auto. cbn [e_key]. intros ->. apply NI. apply in_map_iff. exists (k, v). split; auto. eapply nth_error_In; eauto.
Qed.
Lemma to_etcd_each cfg w d L h fails : wreach w -> snd (run (backup_list cfg) w) = COk L -> read_file d (KeyFile (length L)) = None ->
  let out := restore_etcd fails (backup_files (2 * length L) L d) h in
  snd out = true /\
  (forall k, (forall x, In x L -> kv_key x <> k) -> now (fst out) k = now h k) /\
  forall n x, nth_error L n = Some x ->
    if nth n fails false then now (fst out) (kv_key x) = now h (kv_key x) else option_map kv_value (now (fst out) (kv_key x)) = Some (kv_value x).
Proof.
  intros HW HL HN. cbv zeta. unfold backup_list in HL. destruct (run_c_list cfg slash w HW) as (L' & A & SN). rewrite A in HL. injection HL as ->.
  unfold backup_files. rewrite firstn_all2 by (rewrite backup_writes_length; lia).
  unfold restore_etcd. pose proof (read_whole_backup L d HN) as RE. cbv zeta in RE. rewrite RE. cbn [fst snd]. split; [reflexivity|].
  assert (MM : map fst (map (fun x => (kv_key x, kv_value x)) L) = map kv_key L) by (rewrite map_map; reflexivity). split.
  - intros k NI. apply etcd_put_keeps. rewrite MM. intros I. apply in_map_iff in I. destruct I as (x & E & I). exact (NI x I E).
  - intros n x N. apply etcd_put_each; [rewrite MM|exact (map_nth_error _ _ _ N)].
    destruct SN as [SS _]. clear - SS. induction SS as [|x l SS IH FA]; cbn [map]; constructor; auto.
    intros I. apply in_map_iff in I. destruct I as (y & E & I). rewrite Forall_forall in FA. specialize (FA y I). unfold key_lt in FA. rewrite E in FA. now apply blt_irrefl in FA.
Qed.

(** there and back: a fresh etcd, a fresh directory, a fresh store *)
Lemma there_and_back cfg w L w' : wreach w -> wreach w' -> snd (run (backup_list cfg) w) = COk L ->
  let h := fst (restore_etcd [] (backup_files (2 * length L) L []) []) in
  let out := run (restore cfg (backup_etcd h [])) w' in
  snd out = true /\
  forall k, (under_slash k ->
      match value_of cfg w k with
      | Some x => option_map kv_value (value_of cfg (fst out) k) = Some (kv_value x)
      | None => value_of cfg (fst out) k = value_of cfg w' k
      end) /\
    (~ under_slash k -> value_of cfg (fst out) k = value_of cfg w' k).
Proof.
  intros HW HW' HL. cbv zeta. destruct (to_etcd cfg w [] L [] HW HL eq_refl) as [_ E]. set (h := fst (restore_etcd _ _ _)) in *.
  assert (NC : now h ck = None). { apply E. intros [r X]. discriminate. }
  destruct (to_dqlite cfg h [] w' HW' NC eq_refl) as (A & _ & B). split; [exact A|]. intros k. specialize (B k). destruct (E k) as [E1 E2]. split; intros K.
  - specialize (E1 K). destruct (value_of cfg w k) as [x|].
    + destruct (now h k) as [y|]; [|discriminate]. cbn in E1. injection E1 as E1. rewrite B. now rewrite E1.
    + rewrite E1 in B. exact B.
  - rewrite (E2 K) in B. exact B.
Qed.
