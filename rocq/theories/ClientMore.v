(** The Go client's single operations, and backups cut short. *)
From Coq Require Import List ZArith NArith Bool Lia.
From Verif Require Import Bytes Spec Sql System Prog Backend Limited Api Pool Observe Client SpecLemmas SqlLemmas Sim ReadLemmas ProgLemmas ReadProgs TraceLemmas Safety ApiLemmas StoreProofs ReadProofs ClientProofs.
Import ListNotations.
Open Scope Z_scope.
Local Notation ck := compact_rev_key.

(** ---- list at a revision ---- *)
Lemma client_list cfg p rev w : wreach w -> p <> [] ->
  exists r, run (c_list cfg p rev) w = (w, r) /\
  match r with
  | COk L => is_snapshot (history_of (snd w)) (read_at rev (revision (history_of (snd w)))) p (prefix_end p) L
  | CFail e => e = XServer ECompacted /\ rev <> 0 /\ rev < floor_of (snd w)
  end.
Proof.
  intros HW HP. unfold c_list. rewrite run_bind. rewrite run_ask by (auto using int64_0; discriminate). cbn [fst snd].
  assert (PS : prefix_start p = p) by (destruct p; [congruence|reflexivity]). rewrite PS.
  pose proof (list_now cfg w p (prefix_end p) rev HW (prefix_end_ne p)) as H.
  destruct (ask cfg w (range p (prefix_end p) 0 rev)) as [resp|e].
  - destruct H as [H1 H2]. exists (COk (rr_kvs resp)). split; [reflexivity|]. rewrite H1 in H2. exact H2.
  - destruct H as (-> & H). exists (CFail (XServer ECompacted)). split; [reflexivity|]. auto.
Qed.

(** ---- get, create, update, delete ---- *)
Lemma client_get cfg k w : wreach w ->
  run (c_get cfg k) w = (w, match value_of cfg w k with Some x => COk x | None => CFail XNotFound end).
Proof. intros HW. rewrite run_c_get, value_of_now by auto. reflexivity. Qed.
Lemma client_create cfg k v w : wreach w -> k <> ck ->
  match value_of cfg w k with
  | None => exists w', run (c_create cfg k v) w = (w', COk tt) /\ current cfg w' = current cfg w + 1 /\
      value_of cfg w' k = Some (KV k v 0 (current cfg w') (current cfg w')) /\ (forall k', k' <> k -> value_of cfg w' k' = value_of cfg w k')
  | Some _ => run (c_create cfg k v) w = (w, CFail XExists)
  end.
Proof.
  intros HW HK. pose proof (create_lemma cfg w k v 0 HW HK) as H. cbv zeta in H. unfold c_create. rewrite run_c_txn.
  destruct (value_of cfg w k).
  - destruct H as [-> ->]. reflexivity.
  - destruct H as (A & B & C & D). rewrite A. cbn [tr_succeeded]. eexists. split; [reflexivity|]. rewrite B. auto.
Qed.
Lemma client_update cfg k v e w : wreach w -> k <> ck -> e <> 0 ->
  match value_of cfg w k with
  | Some x => if kv_mod x =? e then exists w', run (c_update cfg k v e) w = (w', COk tt) /\ current cfg w' = current cfg w + 1 /\
      value_of cfg w' k = Some (KV k v 0 (kv_create x) (current cfg w')) /\ (forall k', k' <> k -> value_of cfg w' k' = value_of cfg w k')
    else run (c_update cfg k v e) w = (w, CFail XMismatch)
  | None => run (c_update cfg k v e) w = (w, CFail XMismatch)
  end.
Proof.
  intros HW HK HE. pose proof (update_lemma cfg w k v e 0 HW HK) as H. cbv zeta in H. unfold c_update. rewrite run_c_txn.
  destruct (value_of cfg w k) as [x|]; [destruct (kv_mod x =? e)|].
  - destruct H as (A & B & C & D). rewrite A. cbn [tr_succeeded]. eexists. split; [reflexivity|]. rewrite B. auto.
  - destruct H as [[h ->] ->]. reflexivity.
  - rewrite (proj2 (Z.eqb_neq e 0) HE) in H. destruct H as [[h ->] ->]. reflexivity.
Qed.
Lemma client_delete cfg k e w : wreach w -> k <> ck ->
  match value_of cfg w k with
  | Some x => if kv_mod x =? e then exists w', run (c_delete cfg k e) w = (w', COk tt) /\ current cfg w' = current cfg w + 1 /\
      value_of cfg w' k = None /\ (forall k', k' <> k -> value_of cfg w' k' = value_of cfg w k')
    else run (c_delete cfg k e) w = (w, CFail XMismatch)
  | None => run (c_delete cfg k e) w = (w, CFail XMismatch)
  end.
Proof.
  intros HW HK. pose proof (delete_lemma cfg w k e HW HK) as H. cbv zeta in H. unfold c_delete. rewrite run_c_txn.
  destruct (value_of cfg w k) as [x|]; [destruct (kv_mod x =? e)|].
  - destruct H as (A & B & C & D). rewrite A. cbn [tr_succeeded]. eexists. split; [reflexivity|]. rewrite B. auto.
  - destruct H as [[h ->] ->]. reflexivity.
  - destruct H as [[h ->] ->]. reflexivity.
Qed.
(** under any schedule and faults: success means committed during the call *)
Lemma create_wrote cfg k v w sched w' : wreach w -> k <> ck ->
  fair (c_create cfg k v) sched w -> exec (c_create cfg k v) sched w = (w', Some (COk tt)) -> wrote w k v w'.
Proof.
  intros HW HK HF E. destruct (wp_exec any_fault _ _ sched w (wp_c_txn cfg _ XExists k v w w (wp_wrote_create cfg k v w HW HK)) HF) as [_ A].
  - apply Forall_forall. intros; exact Logic.I.
  - unfold c_create in E. rewrite E in A. apply (A (COk tt)); reflexivity.
Qed.
Lemma update_wrote cfg k v e w sched w' : wreach w -> k <> ck -> e <> 0 ->
  fair (c_update cfg k v e) sched w -> exec (c_update cfg k v e) sched w = (w', Some (COk tt)) -> wrote w k v w'.
Proof.
  intros HW HK HE HF E. destruct (wp_exec any_fault _ _ sched w (wp_c_txn cfg _ XMismatch k v w w (wp_wrote_update cfg k v e w w (wsteps_refl w) HW HK HE)) HF) as [_ A].
  - apply Forall_forall. intros; exact Logic.I.
  - unfold c_update in E. rewrite E in A. apply (A (COk tt)); reflexivity.
Qed.

(** ---- backups cut short ---- *)
Lemma backup_writes_firstn n : forall i L, firstn (2 * n) (backup_writes i L) = backup_writes i (firstn n L).
Proof.
  induction n as [|n IH]; intros i L; [reflexivity|]. replace (2 * S n)%nat with (S (S (2 * n))) by lia.
  destruct L as [|x L]; [reflexivity|]. cbn [backup_writes firstn]. now rewrite IH.
Qed.
Lemma backup_writes_odd n : forall i L x, nth_error L n = Some x ->
  firstn (2 * n + 1) (backup_writes i L) = backup_writes i (firstn n L) ++ [(KeyFile (i + n), kv_key x)].
Proof.
  induction n as [|n IH]; intros i L x H.
  - destruct L as [|y L]; [discriminate|]. injection H as ->. cbn. now rewrite Nat.add_0_r.
  - destruct L as [|y L]; [discriminate|]. replace (2 * S n + 1)%nat with (S (S (2 * n + 1))) by lia. cbn [backup_writes firstn].
    rewrite (IH (S i) L x H). replace (S i + n)%nat with (i + S n)%nat by lia. reflexivity.
Qed.
Lemma read_entries_torn L D :
  (forall m x, nth_error L m = Some x ->
     read_file D (KeyFile m) = Some (kv_key x) /\ read_file D (DataFile m) = Some (kv_value x)) ->
  read_file D (KeyFile (length L)) <> None -> read_file D (DataFile (length L)) = None ->
  forall rest pre fuel, L = pre ++ rest -> (length rest < fuel)%nat ->
  read_entries fuel (length pre) D = (map (fun x => (kv_key x, kv_value x)) rest, false).
Proof.
  intros H K0 N. induction rest as [|x rest IH]; intros pre fuel E F; (destruct fuel as [|fuel]; [simpl in F; lia|]);
    cbn [read_entries].
  - rewrite app_nil_r in E. subst pre. destruct (read_file D (KeyFile (length L))); [|congruence]. rewrite N. reflexivity.
  - destruct (H (length pre) x) as [K V].
    { rewrite E, nth_error_app2, Nat.sub_diag by lia. reflexivity. }
    rewrite K, V. replace (S (length pre)) with (length (pre ++ [x])) by (rewrite app_length; simpl; lia).
    rewrite (IH (pre ++ [x]) fuel); [reflexivity| |simpl in F; lia]. rewrite <- app_assoc. exact E.
Qed.
Lemma snd_run_restore cfg d w : snd (run (restore cfg d) w) = snd (read_entries (S (length d)) 0 d).
Proof.
  unfold restore. destruct (read_entries _ 0 d) as [l ok]. rewrite run_bind. destruct (run (put_entries cfg l) w) as [w1 r]. reflexivity.
Qed.
Lemma torn_reported cfg L n d w : (n < length L)%nat -> read_file d (DataFile n) = None ->
  snd (run (restore cfg (backup_files (2 * n + 1) L d)) w) = false.
Proof.
  intros HN HD. rewrite snd_run_restore. unfold backup_files.
  destruct (nth_error L n) as [x|] eqn:N; [|apply nth_error_None in N; lia].
  rewrite (backup_writes_odd n 0 L x N). rewrite fold_left_app. cbn [fold_left]. cbn [Nat.add].
  set (D0 := fold_left write_file (backup_writes 0 (firstn n L)) d). set (D := write_file D0 (KeyFile n, kv_key x)).
  assert (LN : length (firstn n L) = n) by (rewrite firstn_length; lia).
  rewrite (read_entries_torn (firstn n L) D) with (pre := []) (rest := firstn n L); [reflexivity| | | |reflexivity|].
  - intros m y H. assert (m < n)%nat by (rewrite <- LN; apply nth_error_Some; congruence).
    unfold D. rewrite !read_write_other; [exact (read_backup_nth _ 0 d m y H)|reflexivity|apply Nat.eqb_neq; lia].
  - rewrite LN. unfold D. rewrite read_write_same. discriminate.
  - rewrite LN. unfold D. rewrite read_write_other by reflexivity. unfold D0. rewrite read_backup_outside by (cbn [index_of]; rewrite LN; lia). exact HD.
  - unfold D, D0, write_file. cbn [length]. rewrite fold_write_length, backup_writes_length, LN. lia.
Qed.
Lemma cut_unnoticed cfg L n w : (n <= length L)%nat ->
  backup_files (2 * n) L [] = backup_files (2 * n) (firstn n L) [] /\
  snd (run (restore cfg (backup_files (2 * n) L [])) w) = true.
Proof.
  intros HN. assert (LN : length (firstn n L) = n) by (rewrite firstn_length; lia).
  assert (E : backup_files (2 * n) L [] = fold_left write_file (backup_writes 0 (firstn n L)) []) by (unfold backup_files; rewrite backup_writes_firstn; reflexivity).
  split.
  - rewrite E. unfold backup_files. rewrite backup_writes_firstn, firstn_firstn, Nat.min_id. reflexivity.
  - rewrite E, snd_run_restore. pose proof (read_whole_backup (firstn n L) [] eq_refl) as H. cbv zeta in H. rewrite H. reflexivity.
Qed.
