(** Every server program only performs allowed operations. *)
From Coq Require Import List ZArith Bool Lia Sorting.Sorted.
From Verif Require Import Bytes Spec Sql System Prog Backend Limited Pool SpecLemmas SqlLemmas Sim ReadLemmas ProgLemmas.
Import ListNotations.
Open Scope Z_scope.

Local Notation ck := compact_rev_key.

Lemma ck_entry_unique d s r1 r2 e1 e2 : R d s ->
  ent (history_of s) r1 = Some e1 -> ent (history_of s) r2 = Some e2 ->
  e_key e1 = ck -> e_key e2 = ck -> r1 = r2.
Proof.
  intros HR.
  assert (G : forall r1 r2 e1 e2, ent (history_of s) r1 = Some e1 -> ent (history_of s) r2 = Some e2 ->
    e_key e1 = ck -> e_key e2 = ck -> r1 < r2 -> False).
  { intros r r' e e' E E' K K' L.
    destruct (R_ck _ _ HR _ _ E' K') as [_ N].
    destruct (last_change (history_of s) (r' - 1) ck) as [No|(q & eq & Q1 & Q2 & Q3 & Q4)].
    - apply (No r e); auto. lia.
    - rewrite (kv_at_last _ _ _ _ _ Q1 Q2 Q4) in N. rewrite (kv_at_step _ _ _ _ Q2) in N.
      destruct (R_ck _ _ HR _ _ Q2 Q3) as [C _]. destruct eq as [k c]. simpl in *. subst.
      rewrite change_key_same in N. discriminate. }
  intros. destruct (Z.lt_trichotomy r1 r2) as [L|[L|L]]; auto; exfalso; eauto.
Qed.

Lemma ck_row_unique d s x y : R d s -> In x (rows d) -> In y (rows d) -> name x = ck -> name y = ck -> x = y.
Proof.
  intros HR Hx Hy Nx Ny. eapply unique_inj; eauto. { eapply R_unique; eauto. }
  destruct (R_row _ _ HR _ Hx) as (c & E & _). destruct (R_row _ _ HR _ Hy) as (c' & E' & _).
  eapply ck_entry_unique; eauto.
Qed.

Lemma ck_row_now d s x : R d s -> In x (rows d) -> name x = ck -> now (history_of s) ck <> None.
Proof.
  intros HR I N. rewrite <- kv_at_now.
  destruct (R_row _ _ HR _ I) as (c & E & _).
  pose proof (ent_bounds _ _ _ E) as B.
  destruct (R_ck _ _ HR _ _ E N) as [C _]. simpl in C. subst c.
  rewrite (kv_at_last (history_of s) (revision (history_of s)) ck (id x) _ ltac:(lia) E).
  - rewrite (kv_at_step _ _ _ _ E), N, change_key_same. discriminate.
  - intros r' e' L E' K. assert (id x = r') by (eapply ck_entry_unique; eauto). lia.
Qed.

Lemma after_prefix_in lo hi a b d x : In x (after_prefix_sql lo hi a b d) ->
  In x (rows d) /\ in_range_b lo hi (name x) = true /\ a < id x <= b.
Proof.
  unfold after_prefix_sql. rewrite order_by_in, filter_In, !andb_true_iff, Z.ltb_lt, Z.leb_le. tauto.
Qed.

Lemma in_range_succ k x : in_range_b k (k ++ [0%N]) x = true <-> x = k.
Proof.
  unfold in_range_b. rewrite andb_true_iff, bleb_true, bltb_true. apply (bsucc_spec k x).
Qed.

Lemma wp_any_true {A} (p : prog A) (Q : world -> A -> Prop) okf w : wp okf p Q w -> wp okf p (fun _ _ => True) w.
Proof. apply wp_mono. auto. Qed.

(** a retried write *)
Lemma wp_write a w : (forall s, allowed s a /\ margin s a) ->
  wp any_fault (with_retry max_retries (CExec a))
    (fun w' r => match r with Ok x => exists w1, wsteps w w1 /\ w' = wapply w1 a /\ x = snd (apply (fst w1) a)
                            | Err _ => True end) w.
Proof.
  intros H. apply wp_query. intros w1 S. split; [apply H|]. intros f _.
  destruct f; simpl; auto; exists w1; auto.
Qed.

(** the bookkeeping rows *)
Lemma wp_ck_rows cur w (Q : world -> result (rowset row) -> Prop) : wreach w ->
  (forall w1 r, wsteps w w1 ->
     match r with
     | Ok rs => (forall x, In x (rs_rows rs) -> In x (rows (fst w1)) /\ name x = ck) /\ NoDup (rs_rows rs)
     | Err _ => True end -> Q w1 r) ->
  wp any_fault (d_after_prefix ck (ck ++ [0%N]) 0 cur) Q w.
Proof.
  intros HW H. unfold d_after_prefix. apply wp_query. intros w1 S1. split; [exact I|]. intros f _.
  pose proof (wsteps_reach _ _ HW S1) as HW1. pose proof (reach_R _ _ HW1) as HR.
  change (range_end ck (ck ++ [0%N])) with (ck ++ [0%N]).
  set (l := after_prefix_sql ck (ck ++ [0%N]) 0 cur (fst w1)).
  assert (L : forall x, In x l -> In x (rows (fst w1)) /\ name x = ck).
  { intros x Hx. apply after_prefix_in in Hx. destruct Hx as (A & B & _). apply in_range_succ in B. auto. }
  assert (ND : NoDup l).
  { unfold l, after_prefix_sql. eapply Permutation.Permutation_NoDup; [apply order_by_perm|].
    apply nodup_unique, unique_filter. eapply R_unique; eauto. }
  assert (CUT : forall n (l : list row), NoDup l -> NoDup (firstn n l)).
  { clear. intros n l. revert n. induction l; intros [|n] H; simpl; try constructor; inversion H; subst; auto.
    intros X. apply H2. rewrite <- (firstn_skipn n l). apply in_app_iff; auto. }
  destruct f as [|e|e|n e|]; apply H; auto; simpl; fold l; auto. split; auto.
  intros x Hx. apply L. rewrite <- (firstn_skipn n l). apply in_app_iff; auto.
Qed.

Lemma wp_current_revision w (Q : world -> result Z -> Prop) :
  (forall w1 r, wsteps w w1 -> Q w1 r) -> wp any_fault d_current_revision Q w.
Proof.
  intros H. unfold d_current_revision. apply wp_rbind. apply wp_query. intros w1 S1. split; [exact I|]. intros f _.
  assert (W : fst (sem f CRev w1) = w1) by (destruct f; reflexivity). rewrite W.
  destruct (snd (sem f CRev w1)) as [rs|e]; simpl; apply H; auto.
Qed.

(** compactStart: afterwards the bookkeeping key exists *)
Lemma wp_compact_start w : wreach w ->
  wp any_fault b_compact_start
    (fun w' r => r = Ok tt -> now (history_of (snd w')) ck <> None) w.
Proof.
  intros HW. unfold b_compact_start. apply wp_rbind.
  apply wp_current_revision. intros w0 [cur|e] S0; [|discriminate].
  pose proof (wsteps_reach _ _ HW S0) as HW0. clear w HW S0. rename w0 into w. rename HW0 into HW.
  apply wp_rbind. apply wp_ck_rows; auto. intros w1 [rs|e] S1 A; [|discriminate].
  pose proof (wsteps_reach _ _ HW S1) as HW1. pose proof (reach_R _ _ HW1) as HR.
  destruct A as [A ND]. unfold scan_all. destruct (rs_rows rs) as [|x l]; simpl map; cbv iota.
  - (* create *)
    apply wp_rbind. unfold b_create, d_create. apply wp_rbind.
    eapply wp_mono; [|apply wp_write].
    + intros w' [y|e]; [|discriminate]. intros (w2 & S2 & -> & _) _. cbn [wapply snd spec_apply].
      unfold spec_create. destruct (now (history_of (snd w2)) ck) eqn:N; simpl; [congruence|].
      rewrite now_snoc, change_key_same. discriminate.
    + intros s. split; simpl; auto.
  - destruct l as [|y l]; cbn [map].
    + intros _. destruct (A x) as [I1 I2]; [simpl; auto|]. eapply ck_row_now; eauto.
    + exfalso. destruct (A x) as [I1 I2]; [simpl; auto|]. destruct (A y) as [J1 J2]; [simpl; auto|].
      assert (x = y) by (eapply ck_row_unique; eauto). subst y. inversion ND; subst. apply H1. simpl; auto.
Qed.

Lemma wp_d_compact cfg rev w : wreach w ->
  now (history_of (snd w)) ck <> None ->
  rev + superseded_count <= revision (history_of (snd w)) ->
  wp any_fault (d_compact cfg rev) (fun _ _ => True) w.
Proof.
  assert (G : forall w, wreach w -> now (history_of (snd w)) ck <> None ->
    rev + superseded_count <= revision (history_of (snd w)) ->
    wp any_fault (d_compact_sqlite rev) (fun _ _ => True) w).
  { clear w. intros w HW CK M. unfold d_compact_sqlite. apply wp_rbind.
    apply wp_get_compact_revision; auto. intros w1 S1.
    destruct (rev <=? floor_of (snd w1)); simpl; auto.
    pose proof (extends_revision _ _ (wsteps_extends _ _ S1)) as E1.
    destruct (revision (history_of (snd w1)) <? rev) eqn:E.
    { apply Z.ltb_lt in E. unfold superseded_count in *. lia. }
    apply wp_rbind. apply wp_query. intros w2 S2. split.
    - unfold call_ok, op_of. pose proof (extends_revision _ _ (wsteps_extends _ _ S2)) as E2.
      split.
      + destruct (wsteps_extends _ _ S2) as [_ F2]. split; [lia|]. unfold superseded_count in *. split; [lia|].
        eapply wsteps_ck; [|eauto]. eapply wsteps_trans; eauto.
      + simpl. lia.
    - intros f _. destruct (snd (sem f _ w2)); simpl; auto. }
  intros HW CK M. unfold d_compact. destruct (cfg_dqlite cfg); auto.
  simpl. intros w1 S1. split; [exact I|]. intros f _.
  assert (H1 : wp any_fault (d_compact_sqlite rev) (fun _ _ => True) w1).
  { apply G.
    - eapply wsteps_reach; eauto.
    - eapply wsteps_ck; eauto.
    - pose proof (extends_revision _ _ (wsteps_extends _ _ S1)). lia. }
  destruct f; simpl; auto.
Qed.

Lemma wp_compact_loop cfg fuel start target w : wreach w ->
  now (history_of (snd w)) ck <> None ->
  target + superseded_count <= revision (history_of (snd w)) ->
  wp any_fault (compact_loop cfg fuel start target) (fun _ _ => True) w.
Proof.
  revert start w. induction fuel; simpl; auto. intros start w HW CK M.
  destruct (start <? target) eqn:E; simpl; auto. apply wp_rbind.
  apply Z.ltb_lt in E.
  eapply wp_mono; [|apply wp_strengthen, wp_d_compact; eauto].
  - intros w' [u|e] [S _]; auto. apply IHfuel.
    + eapply wsteps_reach; eauto.
    + eapply wsteps_ck; eauto.
    + pose proof (extends_revision _ _ (wsteps_extends _ _ S)). lia.
  - destruct (target <? start + compact_batch_size) eqn:F; [lia|]. apply Z.ltb_ge in F. lia.
Qed.

Lemma wp_do_compact cfg w : wreach w -> wp any_fault (b_do_compact cfg) (fun _ _ => True) w.
Proof.
  intros HW. unfold b_do_compact. apply wp_rbind.
  eapply wp_mono; [|apply wp_strengthen, wp_compact_start; auto].
  intros w' [[]|e] [S CK]; auto. specialize (CK eq_refl).
  pose proof (wsteps_reach _ _ HW S) as HW'. apply wp_rbind.
  apply wp_get_compact_revision; auto. intros w1 S1.
  apply wp_compact_loop.
  - eapply wsteps_reach; eauto.
  - eapply wsteps_ck; eauto.
  - lia.
Qed.

Lemma health_not_ck : health_key <> ck.
Proof. apply beqb_false. reflexivity. Qed.

Lemma wp_start w : wreach w -> wp any_fault b_start (fun _ _ => True) w.
Proof.
  intros HW. unfold b_start. apply wp_rbind. unfold b_create, d_create. apply wp_rbind.
  eapply wp_mono; [|apply wp_strengthen, (wp_write (ACreate health_key health_value 0))].
  2:{ intros s. split; simpl; auto. intros E. now apply health_not_ck in E. }
  intros w' [x|e] [S _]; simpl; auto. apply wp_rbind.
  pose proof (wsteps_reach _ _ HW S) as HW'.
  eapply wp_mono; [|apply wp_strengthen, wp_compact_start; auto].
  intros w2 [[]|e] [S2 _]; auto. apply wp_rbind.
  apply wp_get_compact_revision; [eapply wsteps_reach; eauto|intros; exact I|intros; exact I].
Qed.

(** reads perform no operation *)
Lemma wp_read c w : op_of c = None -> wp any_fault (with_retry max_retries c) (fun _ _ => True) w.
Proof. intros E. apply wp_query. intros w1 S. unfold call_ok. rewrite E. auto. Qed.

Lemma wp_b_list_any cfg key re limit rev w : wp any_fault (b_list cfg key re limit rev) (fun _ _ => True) w.
Proof.
  unfold b_list. apply wp_rbind. unfold d_get_compact_revision. apply wp_rbind.
  eapply wp_mono; [|apply wp_read; reflexivity]. intros w1 [rs|e] _; simpl; auto.
  destruct (one_row rs) as [[lo hi]|e]; auto.
  destruct (read_revision rev _ _); simpl; auto. apply wp_rbind.
  eapply wp_mono; [|apply (wp_read (CList (cfg_v1 cfg) key (range_end key re) limit a)); reflexivity].
  intros w2 [r|e] _; simpl; auto.
Qed.

Lemma wp_b_count_any cfg key re rev w : wp any_fault (b_count cfg key re rev) (fun _ _ => True) w.
Proof.
  unfold b_count. apply wp_rbind. unfold d_get_compact_revision. apply wp_rbind.
  eapply wp_mono; [|apply wp_read; reflexivity]. intros w1 [rs|e] _; simpl; auto.
  destruct (one_row rs) as [[lo hi]|e]; auto.
  destruct (read_revision rev _ _); simpl; auto. apply wp_rbind. unfold d_count. apply wp_rbind.
  eapply wp_mono; [|apply (wp_read (CCount (cfg_v1 cfg) key (range_end key re) a)); reflexivity].
  intros w2 [r|e] _; simpl; auto. destruct (one_row r); auto.
Qed.

Lemma wp_exec_any a w : (forall s, allowed s a /\ margin s a) ->
  wp any_fault (with_retry max_retries (CExec a)) (fun _ _ => True) w.
Proof. intros H. eapply wp_mono; [|apply wp_write; auto]. auto. Qed.

Lemma wp_l_failure cfg key rev w : wp any_fault (l_failure cfg key rev) (fun _ _ => True) w.
Proof.
  unfold l_failure. apply wp_rbind. eapply wp_mono; [|apply wp_b_list_any].
  intros w1 [[a b]|e] _; simpl; auto.
Qed.

Lemma wp_txn cfg t w : txn_key t <> Some ck -> wp any_fault (s_txn cfg t) (fun _ _ => True) w.
Proof.
  unfold s_txn, l_txn, txn_key. intros H.
  destruct (is_create t) as [p|].
  { unfold l_create. destruct (_ || _ || _); simpl; auto. apply wp_rbind. unfold b_create, d_create. apply wp_rbind.
    eapply wp_mono; [|apply (wp_exec_any (ACreate (p_key p) (p_value p) (p_lease p)))].
    - intros w1 [x|e] _; simpl; auto. destruct (exec_outcome x); simpl; auto.
    - intros s. split; simpl; auto. congruence. }
  destruct (is_delete t) as [[rev k]|].
  { unfold l_delete. apply wp_rbind. unfold b_delete, d_delete. apply wp_rbind.
    eapply wp_mono; [|apply (wp_exec_any (ADelete k rev))].
    - intros w1 [x|e] _; simpl; auto. destruct (exec_outcome x) as [n [|]]; simpl; auto. apply wp_l_failure.
    - intros s. split; simpl; auto. congruence. }
  destruct (is_update t) as [[[[rev k] v] l]|].
  { unfold l_update. apply wp_rbind. destruct (rev =? 0).
    - unfold b_create, d_create. apply wp_rbind.
      eapply wp_mono; [|apply (wp_exec_any (ACreate k v l))].
      + intros w1 [x|e] _; simpl; auto. destruct (exec_outcome x) as [n [|]]; simpl; auto. apply wp_l_failure.
      + intros s. split; simpl; auto. congruence.
    - unfold b_update, d_update. apply wp_rbind.
      eapply wp_mono; [|apply (wp_exec_any (AUpdate k v rev l))].
      + intros w1 [x|e] _; simpl; auto. destruct (exec_outcome x) as [n [|]]; simpl; auto. apply wp_l_failure.
      + intros s. split; simpl; auto. congruence. }
  destruct (is_compact t); simpl; auto.
Qed.

Lemma wp_range cfg r w : wp any_fault (s_range cfg r) (fun _ _ => True) w.
Proof.
  unfold s_range. repeat (match goal with |- context [if ?b then Ret _ else _] => destruct b; [exact I|] end).
  unfold l_range. destruct (r_range_end r) eqn:E.
  - unfold l_get. apply wp_rbind. eapply wp_mono; [|apply wp_b_list_any]. intros w1 [[a b]|e] _; simpl; auto.
  - unfold l_list. rewrite E. destruct (r_count_only r).
    + apply wp_rbind. eapply wp_mono; [|apply wp_b_count_any]. intros w1 [[a c]|e] _; simpl; auto.
    + apply wp_rbind. eapply wp_mono; [|apply wp_b_list_any]. intros w1 [[a c]|e] _; [|simpl; auto].
      cbv zeta. destruct (_ && _); simpl; auto. apply wp_rbind.
      eapply wp_mono; [|apply wp_b_count_any]. intros w2 [[a' c']|e] _; simpl; auto.
Qed.

Lemma wp_delete k rev w : k <> ck -> wp any_fault (b_delete k rev) (fun _ _ => True) w.
Proof.
  intros H. unfold b_delete, d_delete. apply wp_rbind.
  eapply wp_mono; [|apply (wp_exec_any (ADelete k rev))].
  - intros w1 [x|e] _; simpl; auto.
  - intros s. split; simpl; auto.
Qed.


(** ---- pools ---- *)
Lemma wp_forget {A} okf (p : prog A) w : wp okf p (fun _ _ => True) w -> wp okf (forget p) (fun _ _ => True) w.
Proof. intros H. unfold forget. apply wp_bind. eapply wp_mono; [|apply H]. simpl. auto. Qed.

Lemma wp_program cfg q w : wreach w -> work_ok q -> wp any_fault (program cfg q) (fun _ _ => True) w.
Proof.
  intros HW HQ. destruct q; simpl in *; apply wp_forget.
  - now apply wp_txn.
  - apply wp_range.
  - now apply wp_do_compact.
  - now apply wp_start.
  - now apply wp_delete.
Qed.

(** the floor stays 100 revisions behind *)
Definition margin_inv (s : store) : Prop := floor_of s <= Z.max 0 (revision (history_of s) - superseded_count).

Definition pool_inv (s : pool) : Prop :=
  wreach (fst s) /\ margin_inv (snd (fst s)) /\ Forall (fun p => wp any_fault p (fun _ _ => True) (fst s)) (snd s).

Lemma spec_apply_margin s a : margin_inv s -> margin s a -> margin_inv (fst (spec_apply s a)).
Proof.
  unfold margin_inv. intros H M.
  destruct (spec_apply_extends s a) as [X _]. destruct X as [l X].
  assert (RV : revision (history_of s) <= revision (history_of (fst (spec_apply s a)))).
  { rewrite X, revision_app. pose proof (revision_nonneg l). lia. }
  assert (FL : floor_of (fst (spec_apply s a)) =
               match a with ACompact _ stop => Z.max (floor_of s) stop | _ => floor_of s end).
  { clear. destruct a as [k v ttl|k v rev ttl|k rev|start stop|rev]; simpl; auto.
    - unfold spec_create. destruct (now _ k); reflexivity.
    - unfold spec_update. destruct (now _ k) as [x|]; [destruct (kv_mod x =? rev)|]; reflexivity.
    - unfold spec_delete. destruct (now _ k) as [x|]; [destruct (kv_mod x =? rev)|]; reflexivity. }
  rewrite FL. destruct a; simpl in M; lia.
Qed.

Lemma sem_margin f c w : margin_inv (snd w) -> call_ok (snd w) c -> margin_inv (snd (fst (sem f c w))).
Proof.
  intros H C.
  assert (G : margin_inv (snd (weffect c w))).
  { unfold weffect, call_ok in *. destruct (op_of c) as [a|]; auto. simpl. apply spec_apply_margin; tauto. }
  destruct f; simpl; auto.
Qed.

Lemma pool_step_inv cfg s s' : pool_inv s -> pool_step cfg s s' -> pool_inv s'.
Proof.
  intros (A & M & B) S. destruct S as [w ts q Q|w ts1 c k ts2 f|w ts1 p ts2]; unfold pool_inv in *; simpl in *.
  - repeat split; auto. constructor; auto. now apply wp_program.
  - apply Forall_app in B. destruct B as [B1 B2]. inversion B2; subst.
    destruct (H1 w (wsteps_refl w)) as [OK K].
    pose proof (sem_wsteps f c w OK) as ST.
    split; [eapply wsteps_reach; eauto|]. split; [now apply sem_margin|].
    assert (MV : forall p : prog unit, wp any_fault p (fun _ _ => True) w -> wp any_fault p (fun _ _ => True) (fst (sem f c w))).
    { intros p. apply wp_step; auto. }
    apply Forall_app. split; [eapply Forall_impl; [|apply B1]; auto|].
    constructor; [apply K; exact I|]. eapply Forall_impl; [|apply H2]; auto.
  - repeat split; auto. apply Forall_app in B. destruct B as [B1 B2]. inversion B2; subst. now apply Forall_app.
Qed.

Lemma pool_reach_inv cfg s : pool_reach cfg s -> pool_inv s.
Proof.
  induction 1; [|eapply pool_step_inv; eauto].
  split; [apply reach_init|]. split; [|constructor]. unfold margin_inv. simpl. lia.
Qed.
