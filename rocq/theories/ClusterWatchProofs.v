(** Watches in a cluster: its schedules as schedules of the system without expiry goroutines. *)
From Coq Require Import List ZArith Bool Lia.
From Verif Require Import Bytes Spec Sql System Prog Backend Limited Api Pool Ledger Batch BatchKine Node Fair Watch Stream Resume Whole.
From Verif Require Import SpecLemmas SqlLemmas Sim ProgLemmas Safety LedgerLemmas LedgerMore NodeProofs FairProofs WatchLemmas WatchProofs WatchResults StreamProofs ResumeProofs WholeProofs WholeResults Ttl TtlProofs TtlLive Lease LeaseProofs FairWatch FairWatchProofs FairCreateProofs FairTtl FairTtlProofs Cluster ClusterProofs ClusterView ExpireProofs ClusterExpire ClusterResults Calm CalmProofs ClusterFair ClusterFairProofs ClusterHearProofs.
From Verif Require Import Watch Stream Whole FairWatch ClusterFair.
Import ListNotations.
Open Scope Z_scope.

Section Run.
Variables (cfg : driver_cfg) (okf : fault -> Prop) (st : bool) (sch : nat -> cturn).
Hypothesis T : tolerant okf.
Hypothesis OK : forall t, cturn_ok okf st (cat cfg sch t) (sch t).
Local Notation S_ t := (cat cfg sch t).

(** the step of the rest of the system *)
Definition rest_of (s : cstate) (a : caction) : kaction :=
  match a with
  | CWhole x => if not_expiry s x then x else KNode NBoot
  | _ => match cstep cfg s a with Some _ => match whole_part s a with Some x => x | None => KNode NBoot end | None => KNode NBoot end
  end.
Definition ksch (t : nat) : kaction :=
  match sch t with
  | COwn pid f => match own_action (S_ t) pid f with Some a => rest_of (S_ t) a | None => KNode NBoot end
  | CStep a => rest_of (S_ t) a
  end.
Lemma ktry_noop k : ktry cfg k (KNode NBoot) = k.
Proof. destruct k. reflexivity. Qed.
Lemma rest_step s a : c_whole (ctry cfg s a) = ktry cfg (c_whole s) (rest_of s a).
Proof.
  unfold ctry. destruct a as [x|d|j a|j n].
  - cbn [cstep rest_of whole_part]. destruct (not_expiry s x); [|now rewrite ktry_noop]. unfold ktry. destruct (kstep cfg (c_whole s) x); reflexivity.
  - cbn [cstep rest_of whole_part]. now rewrite ktry_noop.
  - unfold rest_of. destruct (cstep cfg s (CExpiry j a)) as [s'|] eqn:E; [|now rewrite ktry_noop]. apply cstep_part in E.
    destruct (whole_part s (CExpiry j a)) as [x|]; [unfold ktry; now rewrite E|rewrite ktry_noop; exact E].
  - unfold rest_of. destruct (cstep cfg s (CFire j n)) as [s'|] eqn:E; [|now rewrite ktry_noop]. apply cstep_part in E.
    destruct (whole_part s (CFire j n)) as [x|]; [unfold ktry; now rewrite E|rewrite ktry_noop; exact E].
Qed.
Lemma whole_at t : c_whole (S_ t) = kat cfg ksch t.
Proof.
  induction t as [|t IH]; [reflexivity|]. cbn [cat kat]. rewrite <- IH. unfold ksch. destruct (sch t) as [pid f|a]; cbn [take_cturn]; [|apply rest_step].
  destruct (own_action (S_ t) pid f) as [a|]; [apply rest_step|now rewrite ktry_noop].
Qed.
Lemma rest_ok t a : caction_ok okf st (S_ t) a -> kaction_ok okf st (c_whole (S_ t)) (rest_of (S_ t) a).
Proof.
  assert (NO : kaction_ok okf st (c_whole (S_ t)) (KNode NBoot)) by exact Logic.I.
  pose proof (creach_CI cfg okf st T _ (cat_reach cfg okf st sch OK t)) as J.
  destruct a as [x|d|j a|j n]; cbn [rest_of cstep].
  - destruct (not_expiry _ _); [exact (fun x => x)|auto].
  - auto.
  - intros O. destruct (match a with TBack _ | TTime _ | TAttempt _ _ => None | _ => _ end) as [s'|]; [|exact NO].
    destruct (whole_part (S_ t) (CExpiry j a)) as [x|] eqn:WP; [|exact NO].
    destruct a; try (unfold caction_ok in O; rewrite WP in O; exact O). cbn [whole_part] in WP. destruct (nth_error (c_expiry (S_ t)) j) as [e|]; [|discriminate]. cbn in WP. destruct (x_phase e); discriminate.
  - intros _. destruct (view (S_ t) j) as [v|] eqn:V; [|exact NO]. destruct (view_TI cfg okf st T _ _ _ J V) as (TT & e & NE & ET & _). cbn [whole_part]. rewrite NE, <- ET.
    destruct (nth_error (t_timers v) n) as [tm|] eqn:NT; [|exact NO]. destruct (tm_due tm <=? c_clock (S_ t)); [|exact NO].
    destruct (option_map _ _); [|exact NO]. cbn. eapply timer_key; eauto. eapply nth_error_In; eauto.
Qed.
Lemma ksch_ok t : kaction_ok okf st (kat cfg ksch t) (ksch t).
Proof.
  rewrite <- whole_at. pose proof (OK t) as O. unfold ksch. destruct (sch t) as [pid f|a]; cbn [cturn_ok] in O; [|now apply rest_ok].
  unfold own_action. destruct (position pid _) as [i|]; [|exact Logic.I]. destruct (nth_error _ i) as [p|]; [|exact Logic.I]. apply rest_ok. cbn. apply own_ok. exact O.
Qed.
(** steps of the system are those of the cluster *)
Lemma ksch_stream t j i a : sch t = CStep (CWhole (KStream j i a)) -> ksch t = KStream j i a.
Proof. unfold ksch. intros ->. reflexivity. Qed.
Lemma ksch_poll t j a : (forall b, Ttl.outside b a = true) -> sch t = CStep (CWhole (KBack j a)) -> ksch t = KBack j a.
Proof. unfold ksch. intros O ->. cbn [rest_of not_expiry]. destruct (nth_error _ j) as [e|]; [now rewrite O|reflexivity]. Qed.
Lemma outside_fetch f b : Ttl.outside b (AFetch f) = true.
Proof. unfold Ttl.outside. now destruct (Ttl.own_group b). Qed.
Lemma outside_publish b : Ttl.outside b APublish = true.
Proof. unfold Ttl.outside. now destruct (Ttl.own_group b). Qed.
Lemma ksch_from t x : ksch t = x -> match x with
  | KStream j i a => sch t = CStep (CWhole (KStream j i a))
  | KBack j (AFetch f) => sch t = CStep (CWhole (KBack j (AFetch f)))
  | KCrash j => sch t = CStep (CWhole (KCrash j))
  | _ => True end.
Proof.
  unfold ksch. intros <-.
  assert (R : forall a, match rest_of (S_ t) a with
    | KStream j i x => a = CWhole (KStream j i x) | KBack j (AFetch f) => a = CWhole (KBack j (AFetch f)) | KCrash j => a = CWhole (KCrash j) | _ => True end).
  { intros [x|d|j a|j n]; cbn [rest_of].
    - destruct (not_expiry _ _); [|exact Logic.I]. destruct x as [y| |j|j [] |j|j i a]; auto.
    - now destruct (cstep _ _ _).
    - destruct (cstep _ _ _); [|exact Logic.I]. cbn [whole_part]. destruct (nth_error _ j) as [e|]; [|exact Logic.I]. destruct a, (x_phase e); cbn; exact Logic.I.
    - destruct (cstep _ _ _); [|exact Logic.I]. cbn [whole_part]. destruct (nth_error _ j) as [e|]; [|exact Logic.I]. destruct (nth_error _ n); exact Logic.I. }
  destruct (sch t) as [pid f|a].
  - destruct (own_action (S_ t) pid f) as [a|] eqn:E; [|exact Logic.I]. specialize (R a). unfold own_action in E.
    destruct (position pid _) as [i|]; [|discriminate]. destruct (nth_error _ i) as [p|]; [|discriminate]. injection E as <-.
    destruct (rest_of _ _) as [y| |j|j [] |j|j i' a']; try exact Logic.I; discriminate R.
  - specialize (R a). destruct (rest_of _ a) as [y| |j|j [] |j|j i' a']; try exact Logic.I; now rewrite R.
Qed.
Lemma ksch_polling j : polls j sch -> polling j ksch.
Proof.
  intros (A & B & C). split; [|split].
  - intros t. destruct (A t) as (t' & L & E). exists t'. split; [exact L|]. apply ksch_poll; [apply outside_fetch|now symmetry].
  - intros t. destruct (B t) as (t' & L & E). exists t'. split; [exact L|]. apply ksch_poll; [apply outside_publish|now symmetry].
  - intros t f E. apply ksch_from in E. eauto.
Qed.
Lemma ksch_consuming j i : consumes cfg j i sch -> consuming cfg j i ksch.
Proof.
  intros (A & B). split.
  - intros t. destruct (A t) as (t' & L & E). exists t'. split; [exact L|]. apply ksch_stream. now symmetry.
  - intros t. destruct (B t) as (t' & L & E & ID). exists t'. split; [exact L|]. split; [now apply ksch_stream|]. now rewrite <- whole_at.
Qed.
End Run.

Lemma cluster_comes_out cfg okf sch T0 j i conn id lo hi start t0 R e : tolerant okf -> (forall t, cturn_ok okf true (cat cfg sch t) (sch t)) ->
  watching (c_whole (cat cfg sch T0)) j i conn id lo hi start ->
  (forall t, (T0 <= t)%nat -> sch t <> CStep (CWhole (KCrash j))) -> (forall t, (T0 <= t)%nat -> sch t <> CStep (CWhole (KStream j i (SCancel id)))) ->
  polls j sch -> consumes cfg j i sch ->
  (T0 <= t0)%nat -> 1 <= R -> nth_error (commits (c_log (cat cfg sch t0))) (Z.to_nat (R - 1)) = Some e -> in_range lo hi (e_key e) ->
  (0 < start <= R \/ revision (commits (c_log (cat cfg sch T0))) < R) ->
  exists t, (T0 <= t)%nat /\
    ((exists ev, received (k_log (c_whole (cat cfg sch t))) conn id ev /\ ev_rev ev = R /\ truthful_event (commits (c_log (cat cfg sch t))) R ev) \/ closed (c_whole (cat cfg sch t)) j i).
Proof.
  intros TO OK WA NC NK PO CO L R1 C IR ST. unfold c_log in *.
  destruct (comes_out cfg okf (ksch cfg sch) T0 j i conn id lo hi start TO (ksch_ok cfg okf true sch TO OK)) with (t0 := t0) (R := R) (e := e) as (t & Lt & X); rewrite <- ?(whole_at cfg sch); auto.
  - intros t Lt E. apply ksch_from in E. exact (NC t Lt E).
  - intros t Lt E. apply ksch_from in E. exact (NK t Lt E).
  - now apply ksch_polling.
  - now apply ksch_consuming.
  - exists t. rewrite (whole_at cfg sch). auto.
Qed.

(** the change that ends a version *)
Lemma first_change l : forall h k x, now h k = Some x -> (forall y, now (h ++ l) k = Some y -> kv_mod y <> kv_mod x) ->
  exists l1 e l2, l = l1 ++ e :: l2 /\ e_key e = k /\ now (h ++ l1) k = Some x.
Proof.
  induction l as [|e l IH]; intros h k x N NO.
  - rewrite app_nil_r in NO. exfalso. exact (NO x N eq_refl).
  - destruct (list_eq_dec N.eq_dec (e_key e) k) as [E|E].
    + exists [], e, l. rewrite app_nil_r. auto.
    + assert (N' : now (h ++ [e]) k = Some x).
      { rewrite now_snoc. unfold change_key. destruct (beqb (e_key e) k) eqn:B; [apply beqb_true in B; contradiction|exact N]. }
      destruct (IH (h ++ [e]) k x N') as (l1 & e' & l2 & -> & E1 & E2).
      { rewrite <- app_assoc. exact NO. }
      exists (e :: l1), e', l2. split; [reflexivity|]. split; [exact E1|]. rewrite <- app_assoc in E2. exact E2.
Qed.

Lemma lease_end_seen cfg okf sch j T0 v0 start0 g0 t0 tc k x T1 j' i conn id lo hi start : tolerant okf -> (forall t, cturn_ok okf true (cat cfg sch t) (sch t)) ->
  view (cat cfg sch T0) j = Some v0 -> caring v0 start0 g0 -> (forall t, (T0 <= t)%nat -> sch t <> CStep (CWhole (KCrash j))) ->
  polls j sch -> hears j sch ->
  (T0 <= t0)%nat -> now (commits (c_log (cat cfg sch t0))) k = Some x -> 0 < kv_lease x <= 9223372035 -> (kv_mod x <= start0 \/ in_range [0%N] [255%N] k) ->
  (forall t', (tc <= t')%nat -> ccalm (sch t')) -> undisturbed (k_node (c_whole (cat cfg sch tc))) ->
  time_passes cfg sch -> (forall t m, (T0 <= t)%nat -> ClusterFair.has_timer (cat cfg sch t) j m k (kv_mod x) -> tries cfg sch j m k (kv_mod x)) ->
  (forall pid, cagain sch (fun y => exists f, y = COwn pid f)) -> cbatching j sch ->
  watching (c_whole (cat cfg sch T1)) j' i conn id lo hi start -> (T1 <= t0)%nat -> in_range lo hi k ->
  (forall t, (T1 <= t)%nat -> sch t <> CStep (CWhole (KCrash j'))) -> (forall t, (T1 <= t)%nat -> sch t <> CStep (CWhole (KStream j' i (SCancel id)))) ->
  polls j' sch -> consumes cfg j' i sch ->
  exists t,
    ((exists ev p, received (k_log (c_whole (cat cfg sch t))) conn id ev /\ truthful_event (commits (c_log (cat cfg sch t))) (ev_rev ev) ev /\
        kv_key (ev_kv ev) = k /\ ev_prev ev = Some p /\ kv_mod p = kv_mod x) \/
     closed (c_whole (cat cfg sch t)) j' i \/
     (exists v, view (cat cfg sch t) j = Some v /\ dropped v g0)).
Proof.
  intros TO OK V C NC PO HE L0 N LE RA CALM U TP TR OWN BAT WA L1 IR NC' NK PO' CO.
  destruct (lease_live_all cfg okf sch j T0 v0 start0 g0 t0 tc k x TO OK V C NC PO HE L0 N LE RA CALM U TP TR OWN BAT) as [(t' & H)|(t & v & L & Vt & D)].
  2: { exists t. right; right. eauto. }
  set (t1 := Nat.max t' t0). destruct (log_grows cfg okf true sch TO OK t0 t1 ltac:(lia)) as [l EL].
  assert (EC : commits (c_log (cat cfg sch t1)) = commits (c_log (cat cfg sch t0)) ++ commits l) by (rewrite EL; apply commits_app).
  destruct (first_change (commits l) (commits (c_log (cat cfg sch t0))) k x N) as (l1 & e & l2 & EL2 & KE & NX).
  { intros y NY. rewrite <- EC in NY. apply (H t1 y); [lia|exact NY]. }
  set (h0 := commits (c_log (cat cfg sch t0)) ++ l1) in *. set (R := revision h0 + 1).
  assert (EC1 : commits (c_log (cat cfg sch t1)) = h0 ++ e :: l2) by (rewrite EC, EL2; unfold h0; now rewrite <- app_assoc).
  assert (RH : 0 <= revision h0) by (unfold revision; lia).
  destruct (now_facts _ _ _ NX) as (_ & _ & MX & _ & _ & _).
  assert (RT : revision (commits (c_log (cat cfg sch T1))) <= revision h0).
  { destruct (log_grows cfg okf true sch TO OK T1 t0 L1) as [l3 E3]. unfold h0. rewrite E3, commits_app, !revision_app. unfold revision. lia. }
  destruct (cluster_comes_out cfg okf sch T1 j' i conn id lo hi start t1 R e) as (t2 & L2 & X); auto; try lia.
  { unfold R, revision. rewrite EC1. replace (Z.to_nat (Z.of_nat (length h0) + 1 - 1)) with (length h0 + 0)%nat by lia. rewrite nth_error_app2 by lia. now replace (length h0 + 0 - length h0)%nat with 0%nat by lia. }
  { now rewrite KE. }
  exists t2. destruct X as [(ev & RC & ER & TE)|CL]; [left|right; left; exact CL].
  assert (TE0 := TE). destruct TE as (e' & R1 & NE & KK & KM & _ & PV).
  assert (RL : R - 1 <= revision h0) by (unfold R; lia).
  assert (HH : e' = e /\ kv_at (commits (c_log (cat cfg sch t2))) (R - 1) k = Some x).
  { assert (X0 : kv_at (h0 ++ e :: l2) (R - 1) k = Some x) by (rewrite kv_at_app by lia; unfold R; replace (revision h0 + 1 - 1) with (revision h0) by lia; rewrite kv_at_now; exact NX).
    assert (E0 : nth_error (h0 ++ e :: l2) (Z.to_nat (R - 1)) = Some e).
    { unfold R, revision. replace (Z.to_nat (Z.of_nat (length h0) + 1 - 1)) with (length h0) by lia. rewrite nth_error_app2 by lia. now rewrite Nat.sub_diag. }
    rewrite <- EC1 in X0, E0. destruct (Nat.le_gt_cases t1 t2) as [LT|LT].
    - destruct (log_grows cfg okf true sch TO OK t1 t2 LT) as [l3 E3]. rewrite E3, commits_app in NE |- *.
      assert (RL1 : R <= revision (commits (c_log (cat cfg sch t1)))) by (rewrite EC1, revision_app; unfold R, revision; cbn [length]; lia).
      split; [|rewrite kv_at_app by lia; exact X0]. rewrite nth_error_app1 in NE by (unfold revision in RL1; lia). congruence.
    - destruct (log_grows cfg okf true sch TO OK t2 t1 ltac:(lia)) as [l3 E3]. rewrite E3, commits_app in X0, E0.
      assert (RL1 : R <= revision (commits (c_log (cat cfg sch t2)))) by (assert (X1 : nth_error (commits (c_log (cat cfg sch t2))) (Z.to_nat (R - 1)) <> None) by congruence; apply nth_error_Some in X1; unfold revision; lia).
      split; [|rewrite kv_at_app in X0 by lia; exact X0]. rewrite nth_error_app1 in E0 by (unfold revision in RL1; lia). congruence. }
  destruct HH as [-> X0]. rewrite KE in KK, PV. rewrite X0 in PV. destruct (ev_prev ev) as [p|] eqn:EP; [|contradiction].
  exists ev, p. rewrite ER. split; [exact RC|]. split; [exact TE0|]. split; [exact KK|]. split; [exact EP|apply PV].
Qed.

(** ---- requests of clients in a cluster ---- *)
Section Ask.
Variables (cfg : driver_cfg) (okf : fault -> Prop) (st : bool) (sch : nat -> cturn).
Hypothesis T : tolerant okf.
Hypothesis OK : forall t, cturn_ok okf st (cat cfg sch t) (sch t).
Local Notation S_ t := (cat cfg sch t).
Lemma expiries_step t : (length (c_expiry (S_ t)) <= length (c_expiry (S_ (S t))))%nat.
Proof.
  destruct (cat_step cfg okf st sch OK t) as [E0|(a & _ & E & _)]; [rewrite E0; lia|]. revert E. generalize (cat cfg sch (S t)). intros s1 E. destruct a as [x|d|j' a|j' n].
  - cbn [cstep whole_part] in E. destruct (not_expiry (S_ t) x); [|discriminate]. destruct (kstep cfg (c_whole (S_ t)) x); [|discriminate]. injection E as E. rewrite <- E. cbn.
    destruct x; cbn [restarted]; rewrite ?app_length, ?put_length; lia.
  - injection E as E. rewrite <- E. cbn. lia.
  - assert (O' : match a with TBack _ | TTime _ | TAttempt _ _ => False | _ => True end) by (destruct a; try discriminate; exact Logic.I).
    assert (ST' : match view (S_ t) j', (match whole_part (S_ t) (CExpiry j' a) with Some x => kstep cfg (c_whole (S_ t)) x | None => Some (c_whole (S_ t)) end) with
      | Some v, Some k => let t' := tstep v a in Some (with_whole (S_ t) k (put j' (Expiry (t_phase t') (t_timers t') (t_ack t')) (c_expiry (S_ t))))
      | _, _ => None end = Some s1) by (destruct a; try contradiction; exact E).
    clear E. destruct (view (S_ t) j'); [|discriminate].
    destruct (whole_part (S_ t) (CExpiry j' a)) as [x|]; [destruct (kstep cfg (c_whole (S_ t)) x); [|discriminate]|]; cbv zeta in ST'; injection ST' as ST'; rewrite <- ST'; cbn [with_whole c_expiry]; rewrite put_length; lia.
  - cbn [cstep] in E. destruct (view (S_ t) j'); [|discriminate]. destruct (nth_error (t_timers _) n) as [tm'|]; [|discriminate]. destruct (tm_due tm' <=? c_clock (S_ t)); [|discriminate].
    destruct (whole_part (S_ t) (CFire j' n)) as [x|]; [destruct (kstep cfg (c_whole (S_ t)) x); [|discriminate]|]; cbn [option_map] in E; injection E as E; rewrite <- E; cbn; lia.
Qed.
Lemma nservers t : length (n_servers (cnode (S_ t))) = length (c_expiry (S_ t)).
Proof.
  pose proof (V_len _ _ (creach_CV cfg okf st T _ (cat_reach cfg okf st sch OK t))) as L. unfold cnode.
  now rewrite (kreach_servers cfg okf st _ (I_reach _ _ _ _ (creach_CI cfg okf st T _ (cat_reach cfg okf st sch OK t)))), <- L.
Qed.
Lemma server_stays t t' j : (t <= t')%nat -> (j < length (n_servers (cnode (S_ t))))%nat -> exists b, nth_error (n_servers (cnode (S_ t'))) j = Some b.
Proof.
  intros L. rewrite nservers. intros LJ. assert (X : (j < length (n_servers (cnode (S_ t'))))%nat).
  { rewrite nservers. induction L as [|t' L IH]; [exact LJ|]. pose proof (expiries_step t'). lia. }
  apply nth_error_Some in X. destruct (nth_error _ j) as [b|]; [eauto|contradiction].
Qed.
Lemma cluster_answered t j q tc : (forall t', (tc <= t')%nat -> ccalm (sch t')) -> undisturbed (cnode (S_ tc)) -> (tc <= t)%nat ->
  sch t = CStep (CWhole (KNode (NAsk j q))) -> (match q with WExpire _ _ => False | _ => True end) -> (j < length (n_servers (cnode (S_ t))))%nat ->
  let pid := n_next (cnode (S_ t)) in
  (forall t', (t < t')%nat -> sch t' <> CStep (CWhole (KCrash j))) -> cagain sch (fun x => exists f, x = COwn pid f) -> cbatching j sch ->
  exists t' o, (t < t')%nat /\ In (Answered pid o) (c_log (S_ t')) /\ in_order (commits (c_log (S_ t))) q o.
Proof.
  intros CALM U L E NQ LJ pid NC OWN (B1 & B2 & B3).
  assert (SRV : forall u, (t <= u)%nat -> exists b, nth_error (n_servers (cnode (S_ u))) j = Some b) by (intros u Lu; exact (server_stays t u j Lu LJ)).
  assert (NS : nsch cfg sch t = Other (NAsk j q)).
  { unfold nsch. rewrite E. cbn [node_turn cstep whole_part]. assert (NE : not_expiry (S_ t) (KNode (NAsk j q)) = true) by (destruct q; auto; contradiction). rewrite NE.
    destruct (SRV t (le_n _)) as [b SB]. unfold cnode in SB. destruct (c_whole (S_ t)) as [nd sv log n]. destruct nd as [w bs ps lg nx]. cbn [k_node n_servers] in SB. cbn [kstep nstep]. now rewrite SB. }
  destruct (calm_answered cfg okf (nsch cfg sch) tc t j q T (nsch_ok cfg okf st sch T OK)) as (t' & o & Lt & AN & IO); auto.
  { intros u Lu. apply nsch_calm. auto. }
  { rewrite <- node_at. exact U. }
  { rewrite <- node_at. exact LJ. }
  { intros u Lu. apply nsch_no_crash. auto. }
  { intros u. destruct (OWN u) as (u' & Lu & f & Eu). exists u'. split; [exact Lu|]. exists f. unfold nsch. rewrite Eu. cbn [node_turn]. unfold pid. now rewrite node_at. }
  { split; [|split].
    - intros u. destruct (B1 (t + u)%nat) as (u' & Lu & Eu). destruct (SRV u' ltac:(lia)) as [b SB]. exists u'. split; [lia|]. symmetry. eapply nsch_batch; eauto.
    - intros u. destruct (B2 (t + u)%nat) as (u' & Lu & f & Eu). destruct (SRV u' ltac:(lia)) as [b SB]. exists u'. split; [lia|]. exists f. eapply nsch_batch; eauto.
    - intros u. destruct (B3 (t + u)%nat) as (u' & Lu & Eu). destruct (SRV u' ltac:(lia)) as [b SB]. exists u'. split; [lia|]. symmetry. eapply nsch_batch; eauto. }
  exists t', o. split; [exact Lt|]. rewrite <- !(node_at cfg sch), <- !(log_node cfg okf st sch T OK) in *. unfold pid. split; [exact AN|exact IO].
Qed.
End Ask.
