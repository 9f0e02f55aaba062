(** Proofs for C01-C05. *)
From Coq Require Import List ZArith Bool Lia Sorting.Sorted.
From Verif Require Import Bytes Spec Sql System Prog Backend Limited Api Pool Observe SpecLemmas SqlLemmas Sim ReadLemmas ProgLemmas ReadProgs Safety ApiLemmas.
Import ListNotations.
Open Scope Z_scope.

Local Notation ck := compact_rev_key.

Lemma ask_answer cfg w r : wreach w -> supported_range r -> int64 (r_limit r) ->
  (r_limit r = int64_max -> revision (history_of (snd w)) <= int64_max) ->
  range_answer (snd w) r (ask cfg w r).
Proof. intros. apply run_s_range; auto. Qed.

Lemma supported_plain lo hi limit rev : supported_range (range lo hi limit rev).
Proof. repeat split. Qed.
Lemma int64_0 : int64 0.
Proof. unfold int64, int64_max. lia. Qed.

Lemma ask_get cfg w k rev : wreach w ->
  ask cfg w (range k [] 0 rev) =
  if negb (rev =? 0) && (rev <? floor_of (snd w)) then Err ECompacted
  else Ok (RangeResp (revision (history_of (snd w)))
            (match kv_at (history_of (snd w)) (read_at rev (revision (history_of (snd w)))) k with
             | Some x => [x] | None => [] end) false 0).
Proof.
  intros HW. pose proof (ask_answer cfg w (range k [] 0 rev) HW (supported_plain _ _ _ _) int64_0 ltac:(discriminate)) as H.
  unfold range_answer in H. cbn [range r_revision r_range_end r_key] in H. cbv zeta in H.
  destruct (negb (rev =? 0) && (rev <? floor_of (snd w))); auto.
  destruct H as (L & -> & H). exact H.
Qed.

Lemma value_of_now cfg w k : wreach w -> value_of cfg w k = now (history_of (snd w)) k.
Proof.
  intros HW. unfold value_of. rewrite ask_get by auto. cbn [Z.eqb negb andb rr_kvs].
  unfold read_at. cbn [Z.eqb orb]. rewrite kv_at_now. destruct (now _ k); reflexivity.
Qed.
Lemma current_rev cfg w : wreach w -> current cfg w = revision (history_of (snd w)).
Proof. intros HW. unfold current. rewrite ask_get by auto. reflexivity. Qed.

Lemma now_commit s k c k' :
  now (history_of (fst (commit s k c))) k' =
  if beqb k k' then
    match c with
    | Put v l => Some (KV k' v l (match now (history_of s) k' with Some o => kv_create o | None => revision (history_of s) + 1 end)
                          (revision (history_of s) + 1))
    | Del => None
    end
  else now (history_of s) k'.
Proof. unfold commit. cbn [fst history_of]. rewrite now_snoc. unfold change_key. simpl. destruct c; auto. Qed.

(** a write that reports nothing leaves the table as it was *)
Lemma create_noop k v l d : snd (create_sql k v l d) = (0, 0) -> fst (create_sql k v l d) = d.
Proof. unfold create_sql. destruct (max_row _) as [m|]; [destruct (deleted m)|]; simpl; auto; discriminate. Qed.
Lemma update_noop k v e l d : snd (update_sql k v e l d) = (0, 0) -> fst (update_sql k v e l d) = d.
Proof. unfold update_sql. destruct (live_at k e d); simpl; auto; discriminate. Qed.
Lemma delete_noop k e d : snd (delete_sql k e d) = (0, 0) -> fst (delete_sql k e d) = d.
Proof. unfold delete_sql. destruct (live_at k e d); simpl; auto; discriminate. Qed.

Definition is_write (a : aop) : Prop :=
  match a with ACreate _ _ _ | AUpdate _ _ _ _ | ADelete _ _ => True | _ => False end.

Lemma write_noop w a : wreach w -> allowed (snd w) a -> is_write a ->
  snd (spec_apply (snd w) a) = (0, 0) -> wapply w a = w.
Proof.
  intros HW HA HI H. pose proof (proj2 (R_step _ _ a (reach_R _ _ HW) HA)) as E. rewrite H in E.
  unfold wapply. destruct w as [d s]. cbn [fst snd] in *. f_equal.
  - destruct a; simpl in *; try tauto; auto using create_noop, update_noop, delete_noop.
  - destruct a as [k v l|k v e l|k e| |]; simpl in *; try tauto.
    + pose proof (spec_create_none s k v l) as N. destruct (spec_create s k v l) as [s' [r|]]; simpl in *; auto. discriminate.
    + pose proof (spec_update_none s k v e l) as N. destruct (spec_update s k v e l) as [s' [r|]]; simpl in *; auto. discriminate.
    + pose proof (spec_delete_none s k e) as N. destruct (spec_delete s k e) as [s' [r|]]; simpl in *; auto. discriminate.
Qed.

Lemma run_write_world {B} a (g : Z * Z -> prog (result B)) w : wreach w -> allowed (snd w) a ->
  run (rbind (d_execute a) g) w = run (g (snd (spec_apply (snd w) a))) (wapply w a).
Proof. intros. rewrite run_rbind, run_exec by auto. reflexivity. Qed.

Lemma create_reach cfg k v l w : wreach w -> k <> ck -> wreach (after_txn cfg w (create_txn k v l)).
Proof. intros HW HK. apply (run_create cfg k v l w HW). intros; contradiction. Qed.
Lemma update_reach cfg k v e l w : wreach w -> k <> ck -> wreach (after_txn cfg w (update_txn k v e l)).
Proof. intros HW HK. now apply (run_update cfg k v e l w HW). Qed.
Lemma delete_reach cfg k e w : wreach w -> k <> ck -> wreach (after_txn cfg w (delete_txn k e)).
Proof. intros HW HK. now apply (run_delete cfg k e w HW). Qed.

Lemma create_fail_world cfg k v l w : wreach w -> k <> ck ->
  now (history_of (snd w)) k <> None -> after_txn cfg w (create_txn k v l) = w.
Proof.
  intros HW HK N. unfold after_txn. rewrite txn_create. unfold l_create.
  cbn [p_ignore_lease p_ignore_value p_prev_kv orb p_key p_value p_lease].
  assert (AL : allowed (snd w) (ACreate k v l)) by (simpl; intros; contradiction).
  assert (Z0 : snd (spec_apply (snd w) (ACreate k v l)) = (0, 0)).
  { simpl. unfold spec_create. destruct (now (history_of (snd w)) k); [reflexivity|congruence]. }
  unfold b_create, d_create. rewrite !run_rbind, run_exec by auto. cbn [run fst snd]. rewrite Z0. cbn [exec_outcome fst Z.eqb run].
  apply write_noop; simpl; auto.
Qed.

Lemma write_fail_world cfg k w a : wreach w -> allowed (snd w) a -> is_write a ->
  snd (spec_apply (snd w) a) = (0, 0) ->
  run (rbind (rbind (d_execute a) (fun x => Ret (Ok (exec_outcome x))))
     (fun '(rev, ok) => if (ok : bool) then Ret (Ok (TxnResp rev true [RespPut rev])) else l_failure cfg k rev)) w
   = (w, Ok (conflict (snd w) k)).
Proof.
  intros HW AL WR Z0. rewrite !run_rbind, run_exec by auto. cbn [run fst snd]. rewrite Z0. cbn [exec_outcome fst Z.eqb].
  rewrite write_noop by auto. now apply run_failure.
Qed.

Lemma update_fail_world cfg k v e l w : wreach w -> k <> ck ->
  (if e =? 0 then now (history_of (snd w)) k <> None
   else match now (history_of (snd w)) k with Some x => kv_mod x <> e | None => True end) ->
  run (s_txn cfg (update_txn k v e l)) w = (w, Ok (conflict (snd w) k)).
Proof.
  intros HW HK N. rewrite txn_update. unfold l_update. destruct (e =? 0).
  - apply write_fail_world; simpl; auto; [intros; contradiction|].
    unfold spec_create. destruct (now (history_of (snd w)) k); [reflexivity|congruence].
  - apply write_fail_world; simpl; auto.
    unfold spec_update. destruct (now (history_of (snd w)) k) as [x|]; [|reflexivity].
    destruct (Z.eqb_spec (kv_mod x) e); [contradiction|reflexivity].
Qed.

Lemma delete_fail_world cfg k e w : wreach w -> k <> ck ->
  match now (history_of (snd w)) k with Some x => kv_mod x <> e | None => True end ->
  run (s_txn cfg (delete_txn k e)) w = (w, Ok (conflict (snd w) k)).
Proof.
  intros HW HK N. rewrite txn_delete. unfold l_delete, b_delete, d_delete.
  assert (AL : allowed (snd w) (ADelete k e)) by (simpl; auto).
  assert (Z0 : snd (spec_apply (snd w) (ADelete k e)) = (0, 0)).
  { simpl. unfold spec_delete. destruct (now (history_of (snd w)) k) as [x|]; [|reflexivity].
    destruct (Z.eqb_spec (kv_mod x) e); [contradiction|reflexivity]. }
  rewrite !run_rbind, run_exec by auto. cbn [run fst snd]. rewrite Z0. cbn [exec_outcome fst Z.eqb].
  rewrite write_noop by (simpl; auto). now apply run_failure.
Qed.

(** C02 *)
Lemma create_lemma cfg w k v lease : wreach w -> k <> ck ->
  let w' := after_txn cfg w (create_txn k v lease) in
  let resp := transact cfg w (create_txn k v lease) in
  let r := current cfg w + 1 in
  match value_of cfg w k with
  | None => resp = Ok (TxnResp r true [RespPut r]) /\ current cfg w' = r /\
            value_of cfg w' k = Some (KV k v lease r r) /\
            (forall k', k' <> k -> value_of cfg w' k' = value_of cfg w k')
  | Some _ => resp = Ok (TxnResp 0 false []) /\ w' = w
  end.
Proof.
  intros HW HK. cbv zeta. pose proof (create_reach cfg k v lease w HW HK) as HW'.
  destruct (run_create cfg k v lease w HW ltac:(intros; contradiction)) as (_ & B & C).
  unfold transact. rewrite C. fold (after_txn cfg w (create_txn k v lease)) in B.
  rewrite value_of_now by auto. rewrite !(current_rev cfg) by auto.
  destruct (now (history_of (snd w)) k) eqn:N.
  - split; [|apply create_fail_world; auto; congruence]. unfold create_answer, spec_create. rewrite N. reflexivity.
  - rewrite value_of_now by auto. rewrite B. unfold create_answer, spec_create. rewrite N.
    pose proof (now_commit (snd w) k (Put v lease)) as NC.
    pose proof (commit_rev (snd w) k (Put v lease)) as CR.
    unfold commit in *. cbn [fst snd] in *. repeat split; auto.
    + rewrite NC, beqb_refl, N. reflexivity.
    + intros k' NK. rewrite (value_of_now cfg _ k' HW'), (value_of_now cfg w k' HW), B.
      unfold create_answer, spec_create. rewrite N. unfold commit. cbn [fst]. rewrite NC.
      destruct (beqb k k') eqn:E; auto. apply beqb_true in E. congruence.
Qed.

(** C03; an update expecting 0 is a create *)
Lemma update_lemma cfg w k v expect lease : wreach w -> k <> ck ->
  let w' := after_txn cfg w (update_txn k v expect lease) in
  let resp := transact cfg w (update_txn k v expect lease) in
  let r := current cfg w + 1 in
  match value_of cfg w k with
  | Some x =>
      if kv_mod x =? expect then
        resp = Ok (TxnResp r true [RespPut r]) /\ current cfg w' = r /\
        value_of cfg w' k = Some (KV k v lease (kv_create x) r) /\
        (forall k', k' <> k -> value_of cfg w' k' = value_of cfg w k')
      else (exists h, resp = Ok (TxnResp 0 false [RespRange (RangeResp h [x] false 0)])) /\ w' = w
  | None =>
      if expect =? 0 then
        resp = Ok (TxnResp r true [RespPut r]) /\ current cfg w' = r /\
        value_of cfg w' k = Some (KV k v lease r r) /\
        (forall k', k' <> k -> value_of cfg w' k' = value_of cfg w k')
      else (exists h, resp = Ok (TxnResp 0 false [RespRange (RangeResp h [] false 0)])) /\ w' = w
  end.
Proof.
  intros HW HK. cbv zeta. pose proof (update_reach cfg k v expect lease w HW HK) as HW'.
  destruct (run_update cfg k v expect lease w HW HK) as (_ & B & C).
  pose proof (update_fail_world cfg k v expect lease w HW HK) as UF.
  unfold transact. fold (after_txn cfg w (update_txn k v expect lease)) in B.
  rewrite value_of_now by auto. rewrite !(current_rev cfg) by auto.
  assert (FR : forall s', snd (after_txn cfg w (update_txn k v expect lease)) = s' ->
     forall c, s' = fst (commit (snd w) k c) ->
     forall k', k' <> k -> value_of cfg (after_txn cfg w (update_txn k v expect lease)) k' = value_of cfg w k').
  { intros s' E c E2 k' NK. rewrite (value_of_now cfg _ k' HW'), (value_of_now cfg w k' HW), E, E2, now_commit.
    destruct (beqb k k') eqn:F; auto. apply beqb_true in F. congruence. }
  pose proof (now_commit (snd w) k (Put v lease)) as NC.
  pose proof (commit_rev (snd w) k (Put v lease)) as CR.
  destruct (now (history_of (snd w)) k) as [x|] eqn:N.
  - destruct (Z.eqb_spec (kv_mod x) expect) as [E|E].
    + pose proof (now_facts _ _ _ N) as (_ & F & _).
      assert (E0 : (expect =? 0) = false) by (apply Z.eqb_neq; lia).
      unfold update_answer, spec_update in B, C. rewrite E0, N in B, C.
      replace (kv_mod x =? expect) with true in B, C by (symmetry; now apply Z.eqb_eq).
      cbn [commit fst snd] in B. rewrite C. cbn [commit fst snd].
      repeat split; auto.
      * rewrite B. apply CR.
      * rewrite value_of_now, B by auto. change (Store (history_of (snd w) ++ [Entry k (Put v lease)]) (floor_of (snd w)))
          with (fst (commit (snd w) k (Put v lease))). rewrite NC, beqb_refl, N. reflexivity.
      * apply (FR _ B (Put v lease)). reflexivity.
    + unfold after_txn. rewrite UF.
      * split; auto. unfold conflict, current_of. rewrite N. eexists. reflexivity.
      * destruct (expect =? 0); auto. discriminate.
  - destruct (Z.eqb_spec expect 0) as [E|E].
    + subst expect. unfold update_answer, spec_create in B, C. cbn [Z.eqb] in B, C. rewrite N in B, C.
      cbn [commit fst snd] in B. rewrite C. cbn [commit fst snd]. repeat split; auto.
      * rewrite B. apply CR.
      * rewrite value_of_now, B by auto. change (Store (history_of (snd w) ++ [Entry k (Put v lease)]) (floor_of (snd w)))
          with (fst (commit (snd w) k (Put v lease))). rewrite NC, beqb_refl, N. reflexivity.
      * apply (FR _ B (Put v lease)). reflexivity.
    + unfold after_txn. rewrite UF.
      * split; auto. unfold conflict, current_of. rewrite N. eexists. reflexivity.
      * exact I.
Qed.

(** C04 *)
Lemma delete_lemma cfg w k expect : wreach w -> k <> ck ->
  let w' := after_txn cfg w (delete_txn k expect) in
  let resp := transact cfg w (delete_txn k expect) in
  let r := current cfg w + 1 in
  match value_of cfg w k with
  | Some x =>
      if kv_mod x =? expect then
        resp = Ok (TxnResp r true [RespDelete r]) /\ current cfg w' = r /\
        value_of cfg w' k = None /\
        (forall k', k' <> k -> value_of cfg w' k' = value_of cfg w k')
      else (exists h, resp = Ok (TxnResp 0 false [RespRange (RangeResp h [x] false 0)])) /\ w' = w
  | None => (exists h, resp = Ok (TxnResp 0 false [RespRange (RangeResp h [] false 0)])) /\ w' = w
  end.
Proof.
  intros HW HK. cbv zeta. pose proof (delete_reach cfg k expect w HW HK) as HW'.
  destruct (run_delete cfg k expect w HW HK) as (_ & B & C).
  pose proof (delete_fail_world cfg k expect w HW HK) as UF.
  unfold transact. fold (after_txn cfg w (delete_txn k expect)) in B.
  rewrite value_of_now by auto. rewrite !(current_rev cfg) by auto.
  pose proof (now_commit (snd w) k Del) as NC.
  pose proof (commit_rev (snd w) k Del) as CR.
  destruct (now (history_of (snd w)) k) as [x|] eqn:N.
  - destruct (Z.eqb_spec (kv_mod x) expect) as [E|E].
    + unfold delete_answer, spec_delete in B, C. rewrite N in B, C.
      replace (kv_mod x =? expect) with true in B, C by (symmetry; now apply Z.eqb_eq).
      change (snd (after_txn cfg w (delete_txn k expect)) = fst (commit (snd w) k Del)) in B.
      rewrite C. cbn [commit snd]. repeat split; auto.
      * rewrite B. apply CR.
      * rewrite value_of_now, B, NC, beqb_refl by auto. reflexivity.
      * intros k' NK. rewrite (value_of_now cfg _ k' HW'), (value_of_now cfg w k' HW), B, NC.
        destruct (beqb k k') eqn:F; auto. apply beqb_true in F. congruence.
    + unfold after_txn. rewrite UF by auto. split; auto. unfold conflict, current_of. rewrite N. eexists. reflexivity.
  - unfold after_txn. rewrite UF by auto. split; auto. unfold conflict, current_of. rewrite N. eexists. reflexivity.
Qed.

(** C05 *)
Lemma spec_write_result s a : 
  (snd (spec_apply s a) = (0, 0) /\ revision (history_of (fst (spec_apply s a))) = revision (history_of s)) \/
  (snd (spec_apply s a) = (1, revision (history_of s) + 1) /\
   revision (history_of (fst (spec_apply s a))) = revision (history_of s) + 1).
Proof.
  assert (C : forall k c, revision (history_of (fst (commit s k c))) = revision (history_of s) + 1) by (intros; apply commit_rev).
  destruct a as [k v l|k v e l|k e|a b|r]; simpl; auto.
  - unfold spec_create. destruct (now _ k); simpl; auto. right. split; auto. apply (C k (Put v l)).
  - unfold spec_update. destruct (now _ k) as [x|]; [destruct (kv_mod x =? e)|]; simpl; auto. right. split; auto. apply (C k (Put v l)).
  - unfold spec_delete. destruct (now _ k) as [x|]; [destruct (kv_mod x =? e)|]; simpl; auto. right. split; auto. apply (C k Del).
Qed.

Lemma results_from ops : forall w, wreach w -> env_ok w ops ->
  wreach (fold_left wapply ops w) /\
  revision (history_of (snd w)) <= revision (history_of (snd (fold_left wapply ops w))) /\
  map snd (filter performed (results ops (fst w))) =
  map Z.of_nat (List.seq (S (Z.to_nat (revision (history_of (snd w)))))
     (Z.to_nat (revision (history_of (snd (fold_left wapply ops w))) - revision (history_of (snd w))))).
Proof.
  induction ops as [|a ops IH]; intros w HW HE; simpl.
  - repeat split; auto; try lia. rewrite Z.sub_diag. reflexivity.
  - destruct HE as [HA HE]. pose proof (wapply_reach w a HW HA) as HW'.
    destruct (IH _ HW' HE) as (A & B & C).
    set (X := fold_left wapply ops (wapply w a)) in *.
    set (T := results ops (fst (apply (fst w) a))) in *.
    change (results ops (fst (wapply w a))) with T in C.
    change (snd (wapply w a)) with (fst (spec_apply (snd w) a)) in *.
    pose proof (proj2 (R_step _ _ a (reach_R _ _ HW) HA)) as E. rewrite E.
    pose proof (revision_nonneg (history_of (snd w))) as NN.
    destruct (spec_write_result (snd w) a) as [[P Q]|[P Q]]; rewrite P; cbn [performed fst negb Z.eqb];
      rewrite Q in *; (split; [exact A|]); (split; [lia|]).
    + exact C.
    + cbn [map snd]. rewrite C.
      replace (revision (history_of (snd X)) - revision (history_of (snd w)))
        with (Z.succ (revision (history_of (snd X)) - (revision (history_of (snd w)) + 1))) by lia.
      rewrite (Z2Nat.inj_succ (revision (history_of (snd X)) - (revision (history_of (snd w)) + 1))) by lia.
      cbn [List.seq map]. f_equal; [lia|]. do 2 f_equal. lia.
Qed.

Lemma revisions_lemma cfg ops : env_ok init_world ops ->
  let n := current cfg (fold_left wapply ops init_world) in
  map snd (filter performed (results ops empty_db)) = upto n.
Proof.
  intros H. destruct (results_from ops init_world reach_init H) as (A & _ & C).
  cbv zeta. rewrite current_rev by auto. unfold upto.
  change (fst init_world) with empty_db in C. change (revision (history_of (snd init_world))) with 0 in C.
  rewrite Z.sub_0_r in C. exact C.
Qed.

Lemma current_monotone cfg w w' : wreach w -> wsteps w w' -> current cfg w <= current cfg w'.
Proof.
  intros HW S. rewrite !current_rev; auto.
  - apply extends_revision. now apply wsteps_extends.
  - eapply wsteps_reach; eauto.
Qed.
