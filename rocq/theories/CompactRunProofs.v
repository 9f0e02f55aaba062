(** Proofs for C146: compaction runs under interference. *)
From Coq Require Import List ZArith Bool Lia.
From Verif Require Import Bytes Spec Sql System Prog Backend Limited Api Pool Observe SpecLemmas SqlLemmas Sim ReadLemmas ProgLemmas ReadProgs TraceLemmas Safety ApiLemmas StoreProofs ReadProofs CompactProofs SizeProofs.
Import ListNotations.
Open Scope Z_scope.
Local Notation ck := compact_rev_key.

Lemma wp_weaken {A} (okf okf' : fault -> Prop) (p : prog A) Q : (forall f, okf' f -> okf f) -> forall w, wp okf p Q w -> wp okf' p Q w.
Proof.
  intros H. induction p as [a|c k IH]; cbn [wp]; auto. intros w K w1 S. destruct (K w1 S) as [K1 K2]. split; auto.
Qed.

(** The faults considered: on dqlite the node is the leader throughout. *)
Definition leading (cfg : driver_cfg) (f : fault) : Prop := cfg_dqlite cfg = true -> f <> NotLeader.

Lemma wp_sqlite_floor okf rev w : wreach w -> now (history_of (snd w)) ck <> None ->
  rev + superseded_count <= revision (history_of (snd w)) ->
  wp okf (d_compact_sqlite rev) (fun w' r => r = Ok tt -> rev <= floor_of (snd w')) w.
Proof.
  intros HW CK M. unfold d_compact_sqlite. apply wp_rbind. apply wp_get_compact_revision; auto.
  2:{ intros w1 e S1. discriminate. }
  intros w1 S1. destruct (wsteps_extends _ _ S1) as [_ F1].
  pose proof (extends_revision _ _ (wsteps_extends _ _ S1)) as E1.
  destruct (rev <=? floor_of (snd w1)) eqn:E.
  { apply Z.leb_le in E. cbn [wp]. auto. }
  apply Z.leb_gt in E. destruct (revision (history_of (snd w1)) <? rev) eqn:E'.
  { apply Z.ltb_lt in E'. unfold superseded_count in *. lia. }
  apply wp_rbind. apply wp_query. intros w2 S2. pose proof (extends_revision _ _ (wsteps_extends _ _ S2)) as E2.
  destruct (wsteps_extends _ _ S2) as [_ F2].
  assert (A : allowed (snd w2) (ACompact (floor_of (snd w1)) rev)).
  { split; [lia|]. unfold superseded_count in *. split; [lia|]. eapply wsteps_ck; [|eauto]. eapply wsteps_trans; eauto. }
  split.
  - unfold call_ok, op_of. split; auto. cbn. lia.
  - intros f _. destruct f; cbn [sem fst snd]; try discriminate; cbn [wp]; intros _; cbn; lia.
Qed.
Lemma wp_compact_floor cfg rev w : wreach w -> now (history_of (snd w)) ck <> None ->
  rev + superseded_count <= revision (history_of (snd w)) ->
  wp (leading cfg) (d_compact cfg rev) (fun w' r => r = Ok tt -> rev <= floor_of (snd w')) w.
Proof.
  intros HW CK M. unfold d_compact. destruct (cfg_dqlite cfg) eqn:D; [|apply wp_sqlite_floor; auto].
  cbn [wp]. intros w1 S1. split; [exact Logic.I|]. intros f L. 
  assert (W : wp (leading cfg) (d_compact_sqlite rev) (fun w' r => r = Ok tt -> rev <= floor_of (snd w')) w1).
  { apply wp_sqlite_floor; [eapply wsteps_reach; eauto|eapply wsteps_ck; eauto|].
    pose proof (extends_revision _ _ (wsteps_extends _ _ S1)). lia. }
  destruct f; cbn [sem fst snd weffect op_of answer]; auto. exfalso. now apply (L D).
Qed.

Lemma ceil_steps a : (0 <= (a + compact_batch_size - 1) / compact_batch_size) \/ a <= 0.
Proof. destruct (Z_le_gt_dec a 0); [auto|]. left. apply Z.div_pos; unfold compact_batch_size; lia. Qed.

Lemma wp_loop_floor cfg fuel : forall start target w, wreach w -> now (history_of (snd w)) ck <> None ->
  target + superseded_count <= revision (history_of (snd w)) -> start <= floor_of (snd w) ->
  (target - start <= Z.of_nat fuel * compact_batch_size) ->
  wp (leading cfg) (compact_loop cfg fuel start target) (fun w' r => r = Ok tt -> target <= floor_of (snd w')) w.
Proof.
  induction fuel as [|fuel IH]; intros start target w HW CK M F N; cbn [compact_loop].
  - cbn [wp]. intros _. lia.
  - destruct (start <? target) eqn:E; [|apply Z.ltb_ge in E; cbn [wp]; intros _; lia]. apply Z.ltb_lt in E.
    apply wp_rbind. set (b := if target <? start + compact_batch_size then target else start + compact_batch_size).
    assert (HB : b <= target /\ (b = target \/ b = start + compact_batch_size)).
    { unfold b. destruct (target <? start + compact_batch_size) eqn:L; [apply Z.ltb_lt in L|apply Z.ltb_ge in L]; split; auto; lia. }
    eapply wp_mono; [|apply wp_strengthen, wp_compact_floor; auto; lia].
    intros w' [[]|e] [S K]; [|discriminate]. specialize (K eq_refl). apply IH; auto.
    + eapply wsteps_reach; eauto.
    + eapply wsteps_ck; eauto.
    + pose proof (extends_revision _ _ (wsteps_extends _ _ S)). lia.
    + rewrite Nat2Z.inj_succ in N. unfold compact_batch_size in *. destruct HB as [_ [->| ->]]; lia.
Qed.
Lemma fuel_enough start target : target - start <= Z.of_nat (compact_fuel start target) * compact_batch_size.
Proof.
  unfold compact_fuel, compact_batch_size. destruct (Z_le_gt_dec (target - start) 0) as [L|L].
  - lia.
  - rewrite Z2Nat.id by (apply Z.div_pos; lia). pose proof (Z.div_mod (target - start + 1000 - 1) 1000 ltac:(lia)) as D.
    pose proof (Z.mod_pos_bound (target - start + 1000 - 1) 1000 ltac:(lia)). lia.
Qed.
Lemma wp_run_floor cfg w : wreach w ->
  wp (leading cfg) (b_do_compact cfg) (fun w' r => r = Ok tt -> revision (history_of (snd w)) - 100 <= floor_of (snd w')) w.
Proof.
  intros HW. unfold b_do_compact. apply wp_rbind.
  eapply wp_mono; [|apply (wp_weaken any_fault); [intros; exact Logic.I|apply wp_strengthen, wp_compact_start; auto]].
  intros w' [[]|e] [S CK]; [|discriminate]. specialize (CK eq_refl). pose proof (wsteps_reach _ _ HW S) as HW'.
  apply wp_rbind. apply wp_get_compact_revision; auto; [|intros; discriminate]. intros w1 S1.
  pose proof (extends_revision _ _ (wsteps_extends _ _ S)). pose proof (extends_revision _ _ (wsteps_extends _ _ S1)).
  eapply wp_mono; [|apply wp_loop_floor].
  - intros w2 r K E. specialize (K E). unfold superseded_count in K. lia.
  - eapply wsteps_reach; eauto.
  - eapply wsteps_ck; eauto.
  - lia.
  - lia.
  - apply fuel_enough.
Qed.

Lemma run_compacted cfg w sched w' : wreach w -> fair (b_do_compact cfg) sched w ->
  (cfg_dqlite cfg = true -> Forall (fun x => snd x <> NotLeader) sched) ->
  exec (b_do_compact cfg) sched w = (w', Some (Ok tt)) ->
  revision (history_of (snd w)) - 100 <= floor_of (snd w') /\ wreach w'.
Proof.
  intros HW F L E. assert (O : all_faults (leading cfg) sched).
  { apply Forall_forall. intros x I D. specialize (L D). rewrite Forall_forall in L. now apply L. }
  destruct (wp_exec (leading cfg) _ _ sched w (wp_run_floor cfg w HW) F O) as [S P]. rewrite E in S, P. cbn [fst snd] in *.
  split; [now apply (P (Ok tt))|]. eapply wsteps_reach; eauto.
Qed.
Lemma run_compacted_size cfg w sched w' live : wreach w -> fair (b_do_compact cfg) sched w ->
  (cfg_dqlite cfg = true -> Forall (fun x => snd x <> NotLeader) sched) ->
  exec (b_do_compact cfg) sched w = (w', Some (Ok tt)) ->
  (forall k, value_of cfg w' k <> None -> In k live) ->
  Z.of_nat (length (rows (fst w'))) <= Z.of_nat (length live) + 200 + 2 * (current cfg w' - current cfg w).
Proof.
  intros HW F L E A. destruct (run_compacted cfg w sched w' HW F L E) as [B HW'].
  rewrite !current_rev by auto. pose proof (rows_bound w' live HW' ltac:(intros k N; apply A; rewrite value_of_now by auto; exact N)). lia.
Qed.
Lemma run_compacted_refuses cfg w sched w' r : wreach w -> fair (b_do_compact cfg) sched w ->
  (cfg_dqlite cfg = true -> Forall (fun x => snd x <> NotLeader) sched) ->
  exec (b_do_compact cfg) sched w = (w', Some (Ok tt)) ->
  supported_range r -> bounded w' r -> r_revision r <> 0 -> r_revision r < current cfg w - 100 ->
  ask cfg w' r = Err ECompacted.
Proof.
  intros HW F L E SU BO NZ LT. destruct (run_compacted cfg w sched w' HW F L E) as [B HW'].
  rewrite current_rev in LT by auto. apply ask_refused_iff; auto. split; auto. lia.
Qed.
