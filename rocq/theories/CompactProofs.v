(** Proofs for C14, C15, C16, C22, C23, C55. *)
From Coq Require Import List ZArith Bool Lia Sorting.Sorted.
From Verif Require Import Bytes Spec Sql System Prog Backend Limited Api Pool Observe SpecLemmas SqlLemmas Sim ReadLemmas ProgLemmas ReadProgs TraceLemmas Safety ApiLemmas StoreProofs ReadProofs.
Import ListNotations.
Open Scope Z_scope.

Local Notation ck := compact_rev_key.

(** C14 *)
Lemma compaction_run cfg w : wreach w -> revision (history_of (snd w)) <> 0 ->
  let w' := after_compaction cfg w in
  snd (run (b_do_compact cfg) w) = Ok tt /\ wreach w' /\
  floor_of (snd w') = Z.max (floor_of (snd w)) (revision (history_of (snd w')) - 100) /\
  (history_of (snd w') = history_of (snd w) \/
   now (history_of (snd w)) ck = None /\ history_of (snd w') = history_of (snd w) ++ [Entry ck (Put [] 0)]).
Proof.
  intros HW NZ. cbv zeta. unfold after_compaction.
  destruct (run_do_compact cfg w HW) as [A B].
  destruct (Z.eqb_spec (revision (history_of (snd w))) 0); [contradiction|].
  destruct B as [-> B]. rewrite B. split; auto. split; auto.
  unfold compaction, spec_compact. cbn [history_of floor_of].
  unfold spec_create. destruct (now (history_of (snd w)) ck) eqn:N; cbn [fst commit history_of floor_of].
  - split; auto.
  - split; auto. 
Qed.

Lemma compaction_visible cfg w : wreach w -> current cfg w <> 0 ->
  let w' := after_compaction cfg w in
  (forall r, supported_range r -> bounded w' r ->
    (ask cfg w' r = Err ECompacted <->
     ask cfg w r = Err ECompacted \/ r_revision r <> 0 /\ r_revision r < current cfg w' - 100)) /\
  current cfg w <= current cfg w' <= current cfg w + 1.
Proof.
  intros HW NZ. cbv zeta. pose proof (current_rev cfg w HW) as CW. rewrite CW in NZ.
  destruct (compaction_run cfg w HW NZ) as (_ & HW' & F & H).
  set (w' := after_compaction cfg w) in *.
  assert (RV : revision (history_of (snd w)) <= revision (history_of (snd w')) <= revision (history_of (snd w)) + 1).
  { destruct H as [->|[_ ->]]; [lia|]. rewrite revision_snoc. lia. }
  rewrite (current_rev cfg w') by auto. rewrite CW. split; [|exact RV].
  intros r S B. rewrite !ask_refused_iff; auto.
  - rewrite F. lia.
  - destruct B as [B1 B2]; split; auto. lia.
Qed.

(** batches of at most 1000 *)

Lemma issues_current (P : call -> Prop) allow : P CRev -> issues allow P d_current_revision.
Proof.
  intros H. unfold d_current_revision. apply issues_rbind; [apply issues_query; auto|]. intros a; exact I.
Qed.
Lemma issues_gcr (P : call -> Prop) allow : P CInterval -> issues allow P d_get_compact_revision.
Proof.
  intros H. unfold d_get_compact_revision. apply issues_rbind; [apply issues_query; auto|]. intros a; exact I.
Qed.
Lemma issues_delete_others (P : call -> Prop) allow keep l : (forall r, P (CExec (ADeleteRev r))) ->
  issues allow P (delete_others keep l).
Proof.
  intros H. induction l as [|e l IH]; [exact I|]. cbn [delete_others]. destruct (_ =? keep); auto.
  apply issues_rbind; [|auto]. unfold d_delete_revision. apply issues_rbind; [apply issues_execute; auto|intros; exact I].
Qed.
Lemma issues_compact_start (P : call -> Prop) allow :
  P CRev -> (forall a b c d, P (CAfterPrefix a b c d)) -> (forall k v l, P (CExec (ACreate k v l))) ->
  (forall r, P (CExec (ADeleteRev r))) -> issues allow P b_compact_start.
Proof.
  intros A B C D. unfold b_compact_start. apply issues_rbind; [apply issues_current; auto|]. intros cur.
  apply issues_rbind; [unfold d_after_prefix; apply issues_query; auto|]. intros rs.
  destruct (scan_all scan_event rs) as [|e [|e' l]].
  - apply issues_rbind; [|intros; exact I]. unfold b_create, d_create.
    apply issues_rbind; [apply issues_execute; auto|]. intros; exact I.
  - exact I.
  - now apply issues_delete_others.
Qed.

Lemma emits_d_compact rev w : wreach w ->
  now (history_of (snd w)) ck <> None ->
  rev + superseded_count <= revision (history_of (snd w)) ->
  rev - 1000 <= floor_of (snd w) ->
  emits any_fault small_batch (d_compact_sqlite rev)
    (fun w' r => wsteps w w' /\ (r = Ok tt -> rev <= floor_of (snd w'))) w.
Proof.
  intros HW CK M B. unfold d_compact_sqlite. apply emits_rbind.
  apply emits_wp; [|apply issues_gcr; exact I].
  apply wp_get_compact_revision; auto.
  2:{ intros w1 e S1. split; auto. discriminate. }
  intros w1 S1. destruct (wsteps_extends _ _ S1) as [_ F1].
  pose proof (extends_revision _ _ (wsteps_extends _ _ S1)) as E1.
  destruct (rev <=? floor_of (snd w1)) eqn:E.
  { apply Z.leb_le in E. simpl. auto. }
  apply Z.leb_gt in E. destruct (revision (history_of (snd w1)) <? rev) eqn:E'.
  { apply Z.ltb_lt in E'. unfold superseded_count in *. lia. }
  apply emits_rbind. apply emits_wp; [|apply issues_retry; simpl; lia].
  apply wp_query. intros w2 S2. pose proof (extends_revision _ _ (wsteps_extends _ _ S2)) as E2.
  destruct (wsteps_extends _ _ S2) as [_ F2].
  assert (A : allowed (snd w2) (ACompact (floor_of (snd w1)) rev)).
  { split; [lia|]. unfold superseded_count in *. split; [lia|]. eapply wsteps_ck; [|eauto]. eapply wsteps_trans; eauto. }
  assert (S : wsteps w w2) by (eapply wsteps_trans; eauto).
  assert (S' : wsteps w (wapply w2 (ACompact (floor_of (snd w1)) rev))) by (constructor; auto).
  split.
  - unfold call_ok, op_of. split; auto. simpl. lia.
  - intros f _. destruct f; cbn [sem fst snd]; try (split; [auto|discriminate]); cbn [emits];
      (split; [exact S'|]); intros _; cbn; lia.
Qed.

Lemma emits_loop fuel start target w : wreach w ->
  now (history_of (snd w)) ck <> None ->
  target + superseded_count <= revision (history_of (snd w)) ->
  start <= floor_of (snd w) ->
  emits any_fault small_batch (compact_loop (DriverCfg true false) fuel start target) (fun _ _ => True) w /\
  emits any_fault small_batch (compact_loop (DriverCfg false false) fuel start target) (fun _ _ => True) w.
Proof.
  assert (G : forall cfg, cfg_dqlite cfg = false -> wreach w ->
  now (history_of (snd w)) ck <> None ->
  target + superseded_count <= revision (history_of (snd w)) ->
  start <= floor_of (snd w) ->
  emits any_fault small_batch (compact_loop cfg fuel start target) (fun _ _ => True) w).
  2:{ intros. split; apply G; auto. }
  intros cfg HC. revert start w. induction fuel as [|fuel IH]; [simpl; auto|]. intros start w HW CK M F.
  cbn [compact_loop]. destruct (start <? target) eqn:E; [|exact I]. apply Z.ltb_lt in E.
  apply emits_rbind. unfold d_compact. rewrite HC.
  set (b := if target <? start + compact_batch_size then target else start + compact_batch_size).
  assert (HB : b <= target /\ b <= start + 1000).
  { unfold b, compact_batch_size. destruct (target <? start + 1000) eqn:L; [apply Z.ltb_lt in L|apply Z.ltb_ge in L]; lia. }
  eapply emits_mono; [|apply emits_d_compact; auto; lia].
  intros w' [[]|e] [S K]; [|exact I]. specialize (K eq_refl). apply IH; auto.
  - eapply wsteps_reach; eauto.
  - eapply wsteps_ck; eauto.
  - pose proof (extends_revision _ _ (wsteps_extends _ _ S)). lia.
Qed.

Lemma batches cfg w sched : wreach w -> cfg_dqlite cfg = false ->
  fair (b_do_compact cfg) sched w -> Forall small_batch (calls (b_do_compact cfg) sched w).
Proof.
  intros HW HC HF. apply (emits_calls any_fault small_batch _ (fun _ _ => True)); auto.
  2:{ unfold all_faults. apply Forall_forall. intros; exact I. }
  unfold b_do_compact. apply emits_rbind.
  eapply emits_mono; [|apply emits_wp; [apply wp_strengthen, wp_compact_start; auto|apply issues_compact_start; intros; exact I]].
  intros w' [[]|e] [S CK]; [|exact I]. specialize (CK eq_refl). pose proof (wsteps_reach _ _ HW S) as HW'.
  apply emits_rbind. apply emits_wp; [|apply issues_gcr; exact I].
  apply wp_get_compact_revision; auto. intros w1 S1.
  assert (X : cfg = DriverCfg true false \/ cfg = DriverCfg false false).
  { destruct cfg as [[|] d]; simpl in HC; subst; auto. }
  destruct X as [-> | ->]; apply emits_loop; auto; try lia; try (eapply wsteps_reach; eauto); eapply wsteps_ck; eauto.
Qed.

(** C55 *)
Lemma follower cfg w sched : cfg_dqlite cfg = true ->
  faults_ok (fun c f => c = CLeader -> f = NotLeader) (b_do_compact cfg) sched w ->
  Forall (fun c => ~ is_compaction c) (calls (b_do_compact cfg) sched w).
Proof.
  intros HC. apply (issues_calls (fun c f => c = CLeader -> f = NotLeader)). unfold b_do_compact.
  apply issues_rbind; [apply issues_compact_start; simpl; auto|]. intros u.
  apply issues_rbind; [apply issues_gcr; simpl; auto|]. intros [a b]. generalize (compact_fuel a (b - superseded_count)).
  intros fuel. revert a. induction fuel as [|fuel IH]; intros a; [exact I|]. cbn [compact_loop].
  destruct (a <? _); [|exact I]. apply issues_rbind; [|intros; apply IH].
  unfold d_compact. rewrite HC. cbn [issues]. split; [simpl; auto|].
  intros f w' Hf. rewrite (Hf eq_refl). simpl. exact I.
Qed.

(** C15 *)
Lemma reclaimed w : wreach w ->
  let h := history_of (snd w) in let f := floor_of (snd w) in
  (* at or below the floor: exactly the versions live at the floor, and the bookkeeping row *)
  (forall x, In x (rows (fst w)) -> id x <= f ->
     name x = ck \/
     kv_at h f (name x) = Some (KV (name x) (value x) (lease x) (create_rev_of x) (id x))) /\
  (forall k v, kv_at h f k = Some v -> exists x, In x (rows (fst w)) /\ name x = k /\ id x = kv_mod v) /\
  (* above the floor: one row per revision *)
  (forall r, f < r <= revision h -> exists x, In x (rows (fst w)) /\ id x = r) /\
  (* nothing else, nothing twice *)
  (forall x, In x (rows (fst w)) -> 1 <= id x <= revision h) /\ NoDup (map id (rows (fst w))).
Proof.
  intros HW. cbv zeta. pose proof (reach_R _ _ HW) as HR.
  set (h := history_of (snd w)) in *. set (f := floor_of (snd w)) in *.
  assert (FB : 0 <= f <= revision h) by (apply floor_bounds; auto).
  repeat split.
  - intros x I L. destruct (R_row _ _ HR _ I) as (c & E & D & V & P). fold h in E, V, P. fold f in P.
    assert (K : retained h f (id x) (Entry (name x) c)) by (apply (R_keep _ _ HR); eauto).
    destruct K as [K|[K|[K1 K2]]]; [auto|lia|]. right. simpl in K1, K2.
    rewrite (kv_at_last h f (name x) (id x) (Entry (name x) c)) by auto.
    rewrite (row_kv h f x); [|exists c; auto]. rewrite D, K1. reflexivity.
  - intros k v E. destruct (kv_at_facts _ _ _ _ E) as (K1 & K2 & K3 & K4 & K5 & K6 & K7).
    assert (K : retained h f (kv_mod v) (Entry k (Put (kv_value v) (kv_lease v)))).
    { right; right. split; auto. }
    apply (R_keep _ _ HR) in K; auto. destruct K as (x & I & X). exists x. split; auto. split; auto.
    destruct (R_row _ _ HR _ I) as (c & E' & _). rewrite X in E'. fold h in E'. rewrite K5 in E'. injection E' as ->. auto.
  - intros r Hr. destruct (ent_some h r) as [e E]; [lia|].
    assert (K : retained h f r e) by (right; left; lia). apply (R_keep _ _ HR) in K; auto.
  - apply (R_rows_rev _ _ _ HR H).
  - apply (R_rows_rev _ _ _ HR H).
  - apply (R_unique _ _ HR).
Qed.

(** C16 *)
Lemma pool_safe cfg w ts : pool_reach cfg (w, ts) ->
  (forall r, supported_range r -> bounded w r -> range_answer (snd w) r (ask cfg w r)) /\
  0 <= floor_of (snd w) <= Z.max 0 (revision (history_of (snd w)) - 100) /\
  (forall x y, In x (rows (fst w)) -> In y (rows (fst w)) -> name x = ck -> name y = ck -> x = y).
Proof.
  intros H. destruct (pool_reach_inv _ _ H) as (A & B & _). cbn [fst snd] in A, B.
  split; [|split].
  - intros. now apply ask_bounded.
  - unfold margin_inv, superseded_count in B. pose proof (floor_bounds w A). lia.
  - intros x y. apply (ck_row_unique _ _ x y (reach_R _ _ A)).
Qed.

Lemma pool_linear cfg s s' : pool_reach cfg s -> pool_step cfg s s' ->
  fst s' = fst s \/
  exists a, allowed (snd (fst s)) a /\ fst s' = wapply (fst s) a /\
            snd (apply (fst (fst s)) a) = snd (spec_apply (snd (fst s)) a).
Proof.
  intros H S. destruct (pool_reach_inv _ _ H) as (A & _ & B).
  destruct S as [w ts q Q|w ts1 c k ts2 f|w ts1 p ts2]; cbn [fst snd] in *; auto.
  apply Forall_app in B. destruct B as [_ B]. inversion B as [|? ? B1 B2]; subst.
  destruct (B1 w (wsteps_refl w)) as [OK _]. unfold call_ok in OK.
  assert (G : fst (sem f c w) = w \/ fst (sem f c w) = weffect c w) by (destruct f; cbn [sem fst]; auto).
  destruct G as [G|G]; auto. rewrite G. unfold weffect. destruct (op_of c) as [a|]; auto.
  right. exists a. split; [tauto|]. split; auto. apply (R_step _ _ a (reach_R _ _ A)). tauto.
Qed.

(** C14: the margin in the pool *)
Lemma pool_margin cfg w ts r : pool_reach cfg (w, ts) -> supported_range r -> bounded w r ->
  r_revision r = 0 \/ current cfg w - 100 <= r_revision r /\ 0 < r_revision r ->
  exists a, ask cfg w r = Ok a.
Proof.
  intros H HS HB HR. destruct (pool_reach_inv _ _ H) as (A & M & _). cbn [fst snd] in A, M.
  rewrite current_rev in HR by auto. unfold margin_inv, superseded_count in M.
  destruct (refusal_lemma cfg w r A HS HB) as (I1 & I2 & _). apply I2. rewrite I1. lia.
Qed.
Lemma pool_rows cfg w ts n : pool_reach cfg (w, ts) ->
  current cfg w - 100 < n <= current cfg w -> 0 < n -> exists x, In x (rows (fst w)) /\ id x = n.
Proof.
  intros H HN HP. destruct (pool_reach_inv _ _ H) as (A & M & _). cbn [fst snd] in A, M.
  rewrite current_rev in HN by auto. unfold margin_inv, superseded_count in M.
  destruct (reclaimed w A) as (_ & _ & G & _). apply G. lia.
Qed.

(** C56 *)
Lemma prev_lt d s x : R d s -> In x (rows d) -> name x <> ck -> prev_revision x < id x.
Proof.
  intros HR I N. destruct (R_row _ _ HR _ I) as (c & E & _ & _ & P).
  destruct (kv_at (history_of s) (id x - 1) (name x)) as [o|] eqn:K.
  - destruct P as (_ & _ & -> & _). apply kv_at_facts in K. lia.
  - destruct P as (_ & _ & _ & _ & P). specialize (P N). lia.
Qed.

Definition uniq_prev (d : db) : Prop :=
  forall x y, In x (rows d) -> In y (rows d) -> name x = name y -> prev_revision x = prev_revision y -> x = y.

Lemma uniq_insert d s k x : R d s -> uniq_prev d -> k <> ck ->
  name x = k -> id x = seq d + 1 ->
  (forall y, In y (rows d) -> name y = k -> prev_revision x <> prev_revision y) ->
  uniq_prev (insert d x).
Proof.
  intros HR U HK N I P a b. unfold insert. cbn [rows]. rewrite !in_app_iff. simpl.
  intros [A|[<-|[]]] [B|[<-|[]]] E1 E2; auto.
  - exfalso. apply (P a); auto. congruence.
  - exfalso. apply (P b); auto. congruence.
Qed.

Lemma uniq_step w a : wreach w -> allowed (snd w) a -> uniq_prev (fst w) -> uniq_prev (fst (apply (fst w) a)).
Proof.
  intros HW HA U. pose proof (reach_R _ _ HW) as HR.
  assert (NX : forall k m, max_row (filter (fun r => beqb (name r) k) (rows (fst w))) = Some m ->
    k <> ck -> In m (rows (fst w)) /\ name m = k /\
    forall y, In y (rows (fst w)) -> name y = k -> prev_revision y < id m).
  { intros k m E NK. apply max_row_spec in E. destruct E as [I M]. apply filter_In in I. destruct I as [I B].
    apply beqb_true in B. repeat split; auto. intros y Hy Ny.
    assert (id y <= id m). { apply M. apply filter_In. rewrite beqb_true. auto. }
    pose proof (prev_lt _ _ y HR Hy ltac:(congruence)). lia. }
  assert (CKR : forall k v l, k = ck -> uniq_prev (fst (create_sql k v l (fst w)))).
  { intros k v l ->. 
    assert (K : forall x y, In x (rows (fst (create_sql ck v l (fst w)))) -> In y (rows (fst (create_sql ck v l (fst w)))) ->
      name x = ck -> name y = ck -> x = y).
    { pose proof (proj1 (R_create _ _ ck [] 0 HR ltac:(auto))) as HR'.
      unfold create_sql in *. destruct (max_row _) as [m|] eqn:E.
      - apply max_row_spec in E. destruct E as [I M]. apply filter_In in I. destruct I as [I B]. apply beqb_true in B.
        destruct (R_row _ _ HR _ I) as (c & E' & D & _).
        destruct (R_ck _ _ HR _ _ E') as [C _]; [simpl; auto|]. simpl in C. subst c. rewrite D. simpl.
        intros x y. apply (ck_row_unique _ _ x y HR).
      - apply max_row_none in E. intros x y. unfold insert. cbn [fst rows]. rewrite !in_app_iff. simpl.
        assert (Z0 : forall z, In z (rows (fst w)) -> name z = ck -> False).
        { intros z Hz Nz. assert (In z []); [|auto]. rewrite <- E. apply filter_In. rewrite beqb_true. auto. }
        intros [A|[<-|[]]] [B|[<-|[]]] N1 N2; auto; exfalso; eauto. }
    intros x y Hx Hy N P.
    destruct (beqb (name x) ck) eqn:E; [apply beqb_true in E; apply K; auto; congruence|].
    apply beqb_false in E.
    assert (O : forall z, In z (rows (fst (create_sql ck v l (fst w)))) -> name z <> ck -> In z (rows (fst w))).
    { intros z. unfold create_sql. destruct (max_row _) as [m|]; [destruct (deleted m)|]; simpl; auto;
        rewrite in_app_iff; simpl; intros [H|[<-|[]]]; simpl; congruence. }
    apply U; auto. apply O; auto. congruence. }
  assert (LV : forall k rev o l, live_at k rev (fst w) = o :: l -> k <> ck ->
     In o (rows (fst w)) /\ name o = k /\ forall y, In y (rows (fst w)) -> name y = k -> prev_revision y < id o).
  { intros k rev o l E NK. rewrite (live_at_spec _ _ k rev HR) in E.
    destruct (max_row _) as [m|] eqn:M; [|discriminate]. destruct (_ && _); [|discriminate]. injection E as -> _.
    now apply NX. }
  destruct a as [k v l|k v rev l|k rev|start stop|rev]; cbn [apply fst allowed] in *.
  - destruct (beqb k ck) eqn:E; [apply beqb_true in E; auto|]. apply beqb_false in E.
    unfold create_sql, next_id. destruct (max_row _) as [m|] eqn:M.
    + destruct (deleted m); [|exact U]. cbn [fst]. destruct (NX _ _ M E) as (I1 & I2 & I3).
      eapply uniq_insert; eauto. cbn [prev_revision]. intros y Hy Ny. specialize (I3 y Hy Ny). lia.
    + apply max_row_none in M. cbn [fst]. eapply uniq_insert; eauto.
      intros y Hy Ny. exfalso. assert (In y []); [|auto]. rewrite <- M. apply filter_In. rewrite beqb_true. auto.
  - unfold update_sql, next_id. destruct (live_at k rev (fst w)) as [|o r] eqn:E; [exact U|]. cbn [fst].
    destruct (LV _ _ _ _ E HA) as (I1 & I2 & I3). eapply uniq_insert; eauto. cbn [prev_revision].
    intros y Hy Ny. specialize (I3 y Hy Ny). lia.
  - unfold delete_sql, next_id. destruct (live_at k rev (fst w)) as [|o r] eqn:E; [exact U|]. cbn [fst].
    destruct (LV _ _ _ _ E HA) as (I1 & I2 & I3). eapply uniq_insert; eauto. cbn [prev_revision].
    intros y Hy Ny. specialize (I3 y Hy Ny). lia.
  - intros x y Hx Hy N P. apply compact_in in Hx, Hy. destruct Hx as (x0 & X1 & _ & ->), Hy as (y0 & Y1 & _ & ->).
    rewrite !touch_name in N. f_equal.
    destruct (beqb (name x0) ck) eqn:E.
    + apply beqb_true in E. eapply ck_row_unique; eauto. congruence.
    + unfold touch in P. rewrite <- N, E in P. apply U; auto.
  - destruct HA.
Qed.

Lemma legacy_index w : wreach w -> NoDup (map (fun x => (prev_revision x, name x)) (rows (fst w))).
Proof.
  intros HW. assert (U : uniq_prev (fst w)).
  { destruct w as [d s]. unfold wreach in HW. cbn [fst snd] in *. induction HW.
    - intros x y [].
    - apply (uniq_step (d, s) a); auto. }
  pose proof (nodup_unique _ (R_unique _ _ (reach_R _ _ HW))) as N.
  revert U N. unfold uniq_prev. induction (rows (fst w)) as [|x l IH]; intros U N; [constructor|].
  inversion N; subst. cbn [map]. constructor.
  - intros I. apply in_map_iff in I. destruct I as (y & E & Hy). injection E as E1 E2.
    assert (x = y) by (apply U; simpl; auto). subst. contradiction.
  - apply IH; auto. intros a b Ha Hb. apply U; simpl; auto.
Qed.
