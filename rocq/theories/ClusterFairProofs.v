(** Liveness of leases in a cluster. *)
From Coq Require Import List ZArith Bool Lia.
From Verif Require Import Bytes Spec Sql System Prog Backend Limited Api Pool Ledger Batch BatchKine Node Fair Watch Stream Resume Whole.
From Verif Require Import SpecLemmas SqlLemmas Sim ProgLemmas Safety LedgerLemmas LedgerMore NodeProofs FairProofs WatchLemmas WatchProofs WatchResults StreamProofs ResumeProofs WholeProofs WholeResults Ttl TtlProofs TtlLive Lease LeaseProofs Cluster ClusterProofs ClusterView ExpireProofs ClusterExpire ClusterResults Calm CalmProofs ClusterFair.
From Verif Require Import Watch Stream Whole.
Import ListNotations.
Open Scope Z_scope.

Definition cnode (s : cstate) : nstate := k_node (c_whole s).
Definition noop (s : nstate) : turn := Other (NAnswer (length (n_procs s))).
Lemma noop_step cfg s : take_turn cfg s (noop s) = s.
Proof.
  unfold take_turn, noop, attempt. destruct s as [w sv ps log n]. cbn [n_procs nstep]. now rewrite (proj2 (nth_error_None ps (length ps)) (Nat.le_refl _)).
Qed.
(** the node's part of a turn *)
Definition node_turn (cfg : driver_cfg) (s : cstate) (x : cturn) : turn :=
  match x with
  | COwn pid f => Own pid f
  | CStep a => match cstep cfg s a with
               | None => noop (cnode s)
               | Some _ => match whole_part s a with
                           | Some (KNode y) => Other y
                           | Some KBoot => Other NBoot
                           | Some (KCrash j) => Other (NCrash j)
                           | _ => noop (cnode s)
                           end
               end
  end.
Lemma kstep_knode cfg k y : (match y with NBoot | NCrash _ => False | _ => True end) ->
  match nstep cfg (k_node k) y with Some nd => exists k', kstep cfg k (KNode y) = Some k' /\ k_node k' = nd | None => kstep cfg k (KNode y) = None end.
Proof. intros N. destruct k as [nd sv log n]. destruct y; try contradiction; cbn [kstep k_node]; destruct (nstep cfg nd _); eauto. Qed.
Lemma own_step_plain i f a : match own_step i f a with NBoot | NCrash _ | NAsk _ _ => False | _ => True end.
Proof. destruct a as [[o|c k]|]; cbn; auto. destruct (op_of c) as [a|]; [destruct (batched a)|]; cbn; auto. Qed.
(** a step that is possible moves the part of Whole.v by [whole_part] *)
Lemma cstep_part cfg s a s' : cstep cfg s a = Some s' ->
  match whole_part s a with Some x => kstep cfg (c_whole s) x = Some (c_whole s') | None => c_whole s' = c_whole s end.
Proof.
  destruct a as [x|d|j a|j n].
  - cbn [cstep whole_part]. destruct (not_expiry s x); [|discriminate]. destruct (kstep cfg (c_whole s) x); [|discriminate]. now intros [= <-].
  - intros [= <-]. reflexivity.
  - intros ST. assert (O : match a with TBack _ | TTime _ | TAttempt _ _ => False | _ => True end) by (destruct a; try discriminate; exact Logic.I).
    assert (ST' : match view s j, (match whole_part s (CExpiry j a) with Some x => kstep cfg (c_whole s) x | None => Some (c_whole s) end) with
      | Some t, Some k => let t' := tstep t a in Some (with_whole s k (put j (Expiry (t_phase t') (t_timers t') (t_ack t')) (c_expiry s)))
      | _, _ => None end = Some s') by (destruct a; try contradiction; exact ST).
    clear ST. destruct (view s j); [|discriminate]. destruct (whole_part s (CExpiry j a)) as [x|]; [destruct (kstep cfg (c_whole s) x); [|discriminate]|]; cbv zeta in ST'; injection ST' as <-; reflexivity.
  - cbn [cstep]. destruct (view s j); [|discriminate]. destruct (nth_error (t_timers t) n) as [tm|]; [|discriminate]. destruct (tm_due tm <=? c_clock s); [|discriminate].
    destruct (whole_part s (CFire j n)) as [x|]; [destruct (kstep cfg (c_whole s) x); [|discriminate]|]; cbn [option_map]; intros [= <-]; reflexivity.
Qed.
Lemma node_turn_step cfg s x : cnode (take_cturn cfg s x) = take_turn cfg (cnode s) (node_turn cfg s x).
Proof.
  destruct x as [pid f|a]; cbn [take_cturn node_turn].
  - unfold own_action, take_turn. fold (cnode s). destruct (position pid (n_procs (cnode s))) as [i|]; [|reflexivity].
    destruct (nth_error (n_procs (cnode s)) i) as [p|]; [|reflexivity]. unfold ctry, attempt. cbn [cstep].
    pose proof (own_step_plain i f (np_act p)) as PL. generalize dependent (own_step i f (np_act p)). intros y PL.
    assert (NE : not_expiry s (KNode y) = true) by (destruct y; try contradiction; reflexivity). rewrite NE. cbn [whole_part].
    pose proof (kstep_knode cfg (c_whole s) y) as K. unfold cnode at 2 3. destruct (nstep cfg (k_node (c_whole s)) y) as [nd|].
    + destruct K as (k' & -> & <-); [destruct y; auto|reflexivity].
    + rewrite K; [reflexivity|destruct y; auto].
  - unfold ctry. destruct (cstep cfg s a) as [s'|] eqn:E; [|now rewrite noop_step]. apply cstep_part in E. unfold cnode.
    assert (NO : forall x, whole_part s a = Some x -> k_node (c_whole s') = k_node (c_whole s) -> k_node (c_whole s') = take_turn cfg (k_node (c_whole s)) (noop (k_node (c_whole s)))) by (intros; rewrite noop_step; auto).
    destruct (whole_part s a) as [x|] eqn:W; [|rewrite noop_step; now rewrite E].
    destruct (c_whole s) as [nd sv log n]. destruct x as [y| |j|j a'|j|j i a']; cbn [take_turn k_node].
    + unfold attempt. destruct y; try discriminate E; cbn [kstep k_node] in *; destruct (nstep cfg nd _); try discriminate; injection E as <-; reflexivity.
    + unfold attempt. cbn [kstep] in E. destruct (nstep cfg nd NBoot); [|discriminate]. now injection E as <-.
    + unfold attempt. cbn [kstep] in E. destruct (nstep cfg nd (NCrash j)); [|discriminate]. now injection E as <-.
    + apply (NO _ eq_refl). destruct (kstep_node _ _ _ _ E) as [X|[(y & Y & X)|[(Y & X)|(j' & Y & X)]]]; try discriminate Y. exact X.
    + apply (NO _ eq_refl). destruct (kstep_node _ _ _ _ E) as [X|[(y & Y & X)|[(Y & X)|(j' & Y & X)]]]; try discriminate Y. exact X.
    + apply (NO _ eq_refl). destruct (kstep_node _ _ _ _ E) as [X|[(y & Y & X)|[(Y & X)|(j' & Y & X)]]]; try discriminate Y. exact X.
Qed.

Section Run.
Variables (cfg : driver_cfg) (okf : fault -> Prop) (st : bool) (sch : nat -> cturn).
Hypothesis T : tolerant okf.
Hypothesis OK : forall t, cturn_ok okf st (cat cfg sch t) (sch t).
Local Notation S_ t := (cat cfg sch t).
Definition nsch (t : nat) : turn := node_turn cfg (S_ t) (sch t).
Lemma node_at t : cnode (S_ t) = at_time cfg nsch t.
Proof. induction t as [|t IH]; [reflexivity|]. cbn [cat at_time]. rewrite node_turn_step, IH. reflexivity. Qed.
Lemma cat_step t : S_ (S t) = S_ t \/ exists a, caction_ok okf st (S_ t) a /\ cstep cfg (S_ t) a = Some (S_ (S t)) /\ (sch t = CStep a \/ exists y, a = CWhole (KNode y)).
Proof.
  pose proof (OK t) as O. cbn [cat]. destruct (sch t) as [pid f|a]; cbn [take_cturn cturn_ok] in *.
  - unfold own_action. destruct (position pid _) as [i|]; [|auto]. destruct (nth_error _ i) as [p|]; [|auto]. unfold ctry. destruct (cstep cfg (S_ t) _) eqn:E; [|auto]. right.
    eexists. split; [|split; [exact E|eauto]]. cbn. apply own_ok. exact O.
  - unfold ctry. destruct (cstep cfg (S_ t) a) eqn:E; [|auto]. right. exists a. auto.
Qed.
Lemma cat_reach t : creach cfg okf st (S_ t).
Proof. induction t as [|t IH]; [constructor|]. destruct (cat_step t) as [->|(a & O & E & _)]; [exact IH|]. econstructor; eauto. Qed.
Lemma nsch_ok t : turn_ok okf (nsch t).
Proof.
  unfold nsch. pose proof (OK t) as O. destruct (sch t) as [pid f|a]; cbn [node_turn cturn_ok] in *; [exact O|].
  destruct (cstep cfg (S_ t) a) as [s'|] eqn:E; [|exact Logic.I]. pose proof E as E0. apply cstep_part in E.
  destruct (whole_part (S_ t) a) as [x|] eqn:WP; [|exact Logic.I]. destruct x as [y| |j|j a'|j|j i a']; try exact Logic.I. cbn.
  destruct a as [x|d|j a|j n].
  - cbn [whole_part] in WP. injection WP as ->. exact O.
  - discriminate WP.
  - cbn [whole_part] in WP. destruct (nth_error (c_expiry (S_ t)) j) as [e|]; [|discriminate]. destruct (backend_part _ _); discriminate WP.
  - cbn [whole_part] in WP. destruct (nth_error (c_expiry (S_ t)) j) as [e|] eqn:NE; [|discriminate]. destruct (nth_error (x_timers e) n) as [tm|] eqn:NT; [|discriminate]. injection WP as <-. cbn.
    pose proof (creach_CI cfg okf st T _ (cat_reach t)) as J. unfold turn_ok, naction_ok, work_ok.
    assert (V : exists v, view (S_ t) j = Some v) by (cbn [cstep] in E0; destruct (view (S_ t) j); [eauto|discriminate E0]). destruct V as [v V].
    destruct (view_TI cfg okf st T _ _ _ J V) as (TT & e' & NE' & ET & _). rewrite NE in NE'. injection NE' as <-.
    eapply timer_key; [exact TT|]. rewrite ET. eapply nth_error_In; eauto.
Qed.
Lemma nsch_calm t : ccalm (sch t) -> Calm.calm (nsch t).
Proof.
  unfold nsch. destruct (sch t) as [pid f|a]; cbn [node_turn ccalm]; [exact (fun x => x)|]. intros C.
  destruct (cstep cfg (S_ t) a) as [s'|] eqn:E; [|exact Logic.I].
  destruct (whole_part (S_ t) a) as [x|] eqn:WP; [|exact Logic.I]. destruct x as [y| |j|j a'|j|j i a']; try exact Logic.I.
  destruct a as [x|d|j a|j n].
  - cbn [whole_part] in WP. injection WP as ->. exact C.
  - discriminate WP.
  - cbn [whole_part] in WP. destruct (nth_error (c_expiry (S_ t)) j) as [e|]; [|discriminate]. destruct (backend_part _ _); discriminate WP.
  - cbn [whole_part] in WP. destruct (nth_error (c_expiry (S_ t)) j) as [e|] eqn:NE; [|discriminate]. destruct (nth_error (x_timers e) n) as [tm|] eqn:NT; [|discriminate]. injection WP as <-. exact Logic.I.
Qed.
Lemma nsch_batch t j a b : (match a with BSubmit _ _ | BOther _ _ => False | _ => True end) -> nth_error (n_servers (cnode (S_ t))) j = Some b ->
  sch t = CStep (CWhole (KNode (NBatch j a))) -> nsch t = Other (NBatch j a).
Proof.
  intros A N E. unfold nsch. rewrite E. cbn [node_turn]. unfold cnode in *. cbn [cstep whole_part not_expiry].
  assert (X : exists k', kstep cfg (c_whole (S_ t)) (KNode (NBatch j a)) = Some k').
  { destruct (c_whole (S_ t)) as [nd sv log n]. destruct nd as [w bs ps lg nx]. cbn [k_node n_servers] in N. destruct (batch_nstep cfg w bs ps lg nx j b a N A) as [log' Y]. cbn [kstep]. rewrite Y. eauto. }
  destruct X as [k' ->]. reflexivity.
Qed.
(** ---- timers stay ---- *)
Lemma timer_step t j m e tm : nth_error (c_expiry (S_ t)) j = Some e -> nth_error (x_timers e) m = Some tm -> sch t <> CStep (CWhole (KCrash j)) ->
  exists e', nth_error (c_expiry (S_ (S t))) j = Some e' /\ nth_error (x_timers e') m = Some tm.
Proof.
  intros NE NT NC. destruct (cat_step t) as [E0|(a & O & E & W)]; [rewrite E0; eauto|]. revert E. generalize (cat cfg sch (S t)). intros s1 E. destruct a as [x|d|j' a|j' n].
  - cbn [cstep whole_part] in E. destruct (not_expiry (S_ t) x); [|discriminate]. destruct (kstep cfg (c_whole (S_ t)) x); [|discriminate]. injection E as E. rewrite <- E.
    cbn [with_whole c_expiry]. destruct x as [y| |j'|j' a'|j'|j' i a']; cbn [restarted]; eauto.
    + exists e. split; [|exact NT]. rewrite nth_error_app1; [exact NE|]. apply nth_error_Some. congruence.
    + exists e. split; [|exact NT]. rewrite put_other; [exact NE|]. intros ->. destruct W as [W|[y W]]; [contradiction|discriminate].
  - injection E as E. rewrite <- E. cbn [c_expiry]. eauto.
  - assert (O' : match a with TBack _ | TTime _ | TAttempt _ _ => False | _ => True end) by (destruct a; try discriminate; exact Logic.I).
    assert (ST' : match view (S_ t) j', (match whole_part (S_ t) (CExpiry j' a) with Some x => kstep cfg (c_whole (S_ t)) x | None => Some (c_whole (S_ t)) end) with
      | Some v, Some k => let t' := tstep v a in Some (with_whole (S_ t) k (put j' (Expiry (t_phase t') (t_timers t') (t_ack t')) (c_expiry (S_ t))))
      | _, _ => None end = Some s1) by (destruct a; try contradiction; exact E).
    clear E. destruct (view (S_ t) j') as [v|] eqn:V; [|discriminate].
    destruct (view_TI cfg okf st T _ _ _ (creach_CI cfg okf st T _ (cat_reach t)) V) as (_ & e' & NE' & ET & _).
    assert (X : exists k, with_whole (S_ t) k (put j' (Expiry (t_phase (tstep v a)) (t_timers (tstep v a)) (t_ack (tstep v a))) (c_expiry (S_ t))) = s1).
    { destruct (whole_part (S_ t) (CExpiry j' a)) as [x|]; [destruct (kstep cfg (c_whole (S_ t)) x); [|discriminate]|]; cbv zeta in ST'; injection ST' as ST'; eauto. }
    destruct X as [k X]. rewrite <- X. cbn [with_whole c_expiry]. destruct (Nat.eq_dec j' j) as [->|NJ].
    + rewrite (put_same _ _ _ _ NE). eexists. split; [reflexivity|]. cbn [x_timers]. rewrite NE in NE'. injection NE' as <-. destruct (tstep_timers v a) as [l ->]. rewrite ET.
      rewrite nth_error_app1; [exact NT|]. apply nth_error_Some. congruence.
    + rewrite (put_other _ _ _ _ NJ). eauto.
  - cbn [cstep] in E. destruct (view (S_ t) j'); [|discriminate]. destruct (nth_error (t_timers _) n) as [tm'|]; [|discriminate]. destruct (tm_due tm' <=? c_clock (S_ t)); [|discriminate].
    destruct (whole_part (S_ t) (CFire j' n)) as [x|]; [destruct (kstep cfg (c_whole (S_ t)) x); [|discriminate]|]; cbn [option_map] in E; injection E as E; rewrite <- E; cbn [with_whole c_expiry]; eauto.
Qed.
Lemma timer_stays t j m e tm : nth_error (c_expiry (S_ t)) j = Some e -> nth_error (x_timers e) m = Some tm -> (forall t', (t <= t')%nat -> sch t' <> CStep (CWhole (KCrash j))) ->
  forall t', (t <= t')%nat -> exists e', nth_error (c_expiry (S_ t')) j = Some e' /\ nth_error (x_timers e') m = Some tm.
Proof.
  intros NE NT NC t' L. induction L as [|t' L IH]; [eauto|]. destruct IH as (e' & A & B). exact (timer_step t' j m e' tm A B (NC _ L)).
Qed.
Lemma expiry_view t j e : nth_error (c_expiry (S_ t)) j = Some e -> exists v, view (S_ t) j = Some v /\ t_timers v = x_timers e /\ (j < length (n_servers (cnode (S_ t))))%nat.
Proof.
  intros NE. pose proof (V_len _ _ (creach_CV cfg okf st T _ (cat_reach t))) as L. assert (LJ : (j < length (c_expiry (S_ t)))%nat) by (apply nth_error_Some; congruence).
  unfold cnode. rewrite (kreach_servers cfg okf st _ (I_reach _ _ _ _ (creach_CI cfg okf st T _ (cat_reach t)))), <- L.
  unfold view. rewrite NE. destruct (nth_error (k_servers (c_whole (S_ t))) j) as [v|] eqn:N; [|apply nth_error_None in N; lia]. eexists. split; [reflexivity|]. split; [reflexivity|exact LJ].
Qed.
Lemma clock_step t : c_clock (S_ t) <= c_clock (S_ (S t)).
Proof.
  destruct (cat_step t) as [E0|(a & _ & E & _)]; [rewrite E0; lia|]. revert E. generalize (cat cfg sch (S t)). intros s1 E. destruct a as [x|d|j' a|j' n].
  - cbn [cstep whole_part] in E. destruct (not_expiry (S_ t) x); [|discriminate]. destruct (kstep cfg (c_whole (S_ t)) x); [|discriminate]. injection E as E. rewrite <- E. cbn. lia.
  - injection E as E. rewrite <- E. cbn. lia.
  - assert (O' : match a with TBack _ | TTime _ | TAttempt _ _ => False | _ => True end) by (destruct a; try discriminate; exact Logic.I).
    assert (ST' : match view (S_ t) j', (match whole_part (S_ t) (CExpiry j' a) with Some x => kstep cfg (c_whole (S_ t)) x | None => Some (c_whole (S_ t)) end) with
      | Some v, Some k => let t' := tstep v a in Some (with_whole (S_ t) k (put j' (Expiry (t_phase t') (t_timers t') (t_ack t')) (c_expiry (S_ t))))
      | _, _ => None end = Some s1) by (destruct a; try contradiction; exact E).
    clear E. destruct (view (S_ t) j'); [|discriminate].
    destruct (whole_part (S_ t) (CExpiry j' a)) as [x|]; [destruct (kstep cfg (c_whole (S_ t)) x); [|discriminate]|]; cbv zeta in ST'; injection ST' as ST'; rewrite <- ST'; cbn; lia.
  - cbn [cstep] in E. destruct (view (S_ t) j'); [|discriminate]. destruct (nth_error (t_timers _) n) as [tm'|]; [|discriminate]. destruct (tm_due tm' <=? c_clock (S_ t)); [|discriminate].
    destruct (whole_part (S_ t) (CFire j' n)) as [x|]; [destruct (kstep cfg (c_whole (S_ t)) x); [|discriminate]|]; cbn [option_map] in E; injection E as E; rewrite <- E; cbn; lia.
Qed.
Lemma clock_mono t t' : (t <= t')%nat -> c_clock (S_ t) <= c_clock (S_ t').
Proof. induction 1 as [|t' L IH]; [lia|]. pose proof (clock_step t'). lia. Qed.
Lemma log_grows t t' : (t <= t')%nat -> exists l, c_log (S_ t') = c_log (S_ t) ++ l.
Proof.
  induction 1 as [|t' L (l & IH)]; [exists []; now rewrite app_nil_r|]. destruct (cat_step t') as [E0|(a & O & E & _)]; [rewrite E0; eauto|].
  destruct (cstep_log cfg okf st T _ _ _ (cat_reach t') O E) as (l' & X & _). exists (l ++ l'). now rewrite X, IH, app_assoc.
Qed.
Lemma log_node t : c_log (S_ t) = n_log (cnode (S_ t)).
Proof. unfold c_log, cnode. apply (K_dids _ _ _ _ (kreach_KI cfg okf st T _ (I_reach _ _ _ _ (creach_CI cfg okf st T _ (cat_reach t))))). Qed.
Lemma nsch_no_crash t j : sch t <> CStep (CWhole (KCrash j)) -> nsch t <> Other (NCrash j).
Proof.
  unfold nsch. intros N. destruct (sch t) as [pid f|a]; cbn [node_turn]; [discriminate|].
  destruct (cstep cfg (S_ t) a) as [s'|] eqn:E; [|discriminate]. apply cstep_part in E.
  destruct (whole_part (S_ t) a) as [x|] eqn:WP; [|discriminate]. destruct x as [y| |j'|j' a'|j'|j' i a']; try discriminate.
  - destruct y; try discriminate. destruct (c_whole (S_ t)). discriminate E.
  - intros [= ->]. destruct a as [x|d|j0 a|j0 n]; cbn [whole_part] in WP; try discriminate.
    + injection WP as ->. contradiction.
    + destruct (nth_error (c_expiry (S_ t)) j0); [|discriminate]. destruct (backend_part _ _); discriminate.
    + destruct (nth_error (c_expiry (S_ t)) j0); [|discriminate]. destruct (nth_error _ _); discriminate.
Qed.
(** ---- the expired version goes ---- *)
Lemma attempt_final t pid k rev : In (Asked pid (WExpire k rev)) (c_log (S_ t)) -> In (Answered pid (ReDone (Ok tt))) (c_log (S_ t)) ->
  forall t' x, (t <= t')%nat -> now (commits (c_log (S_ t'))) k = Some x -> kv_mod x <> rev.
Proof.
  intros AS AN t'' x L NOW. destruct (log_grows t t'' L) as [l2 G2].
  assert (AS2 : In (Asked pid (WExpire k rev)) (c_log (S_ t''))) by (rewrite G2, in_app_iff; auto).
  assert (AN2 : In (Answered pid (ReDone (Ok tt))) (c_log (S_ t''))) by (rewrite G2, in_app_iff; auto).
  apply in_split in AN2. destruct AN2 as (C & D & SP).
  destruct (whole_ledger cfg okf st _ T (I_reach _ _ _ _ (creach_CI cfg okf st T _ (cat_reach t'')))) as (ls & HL & EL). change (l_log ls = c_log (S_ t'')) in EL.
  pose proof (lreach_inv cfg _ nothing _ nothing_stable (nothing_keeps _ _) HL) as INV.
  assert (SP' : l_log ls = C ++ Answered pid (ReDone (Ok tt)) :: D) by (rewrite EL; exact SP).
  destruct (V_done _ _ _ _ INV _ _ _ _ SP') as (A & q & _ & D' & _ & EC & _).
  assert (q = WExpire k rev) as ->.
  { apply (asked_once _ _ _ pid q _ HL); rewrite EL; [rewrite SP, EC, !in_app_iff; left; right; now left|exact AS2]. }
  assert (AR : answered_request (c_log (S_ t'')) A D' D pid (WExpire k rev) (ReDone (Ok tt))).
  { unfold answered_request. rewrite SP, EC, <- app_assoc. reflexivity. }
  destruct (cluster_expired cfg okf st T _ _ _ _ _ _ _ _ (cat_reach t'') AR) as [_ G]. exact (G x NOW).
Qed.
Lemma lease_ends t0 t j m k rev : (forall t', (t0 <= t')%nat -> ccalm (sch t')) -> undisturbed (cnode (S_ t0)) ->
  ClusterFair.has_timer (S_ t) j m k rev -> (forall t', (t <= t')%nat -> sch t' <> CStep (CWhole (KCrash j))) ->
  time_passes cfg sch -> tries cfg sch j m k rev -> (forall pid, cagain sch (fun x => exists f, x = COwn pid f)) -> cbatching j sch ->
  exists t', forall t'' x, (t' <= t'')%nat -> now (commits (c_log (S_ t''))) k = Some x -> kv_mod x <> rev.
Proof.
  intros CALM U HT NC TP TR OWN (B1 & B2 & B3). destruct TR as [FIRE|(t' & pid & AS & AN)]; [|exists t'; intros t'' x; exact (attempt_final t' pid k rev AS AN t'' x)].
  destruct HT as (v & tm & V & NT & <- & <-).
  destruct (view_TI cfg okf st T _ _ _ (creach_CI cfg okf st T _ (cat_reach t)) V) as (_ & e & NE & ET & _). rewrite ET in NT.
  pose proof (timer_stays t j m e tm NE NT NC) as STAY. destruct (TP (tm_due tm)) as [td TD].
  destruct (FIRE (t0 + t + td)%nat) as (t1 & L1 & F1).
  destruct (STAY t1 ltac:(lia)) as (e1 & NE1 & NT1). destruct (expiry_view t1 j e1 NE1) as (v1 & V1 & ET1 & LJ).
  assert (DUE : tm_due tm <= c_clock (S_ t1)) by (pose proof (clock_mono td t1 ltac:(lia)); lia).
  rewrite <- ET1 in NT1. destruct (fire_possible cfg okf st T (S_ t1) j v1 m tm (cat_reach t1) V1 NT1 DUE) as (s1 & ST1 & LOG1).
  assert (NS : nsch t1 = Other (NAsk j (WExpire (tm_key tm) (tm_rev tm)))).
  { unfold nsch. rewrite <- F1. cbn [node_turn]. rewrite ST1. cbn [whole_part]. rewrite NE1. rewrite <- ET1, NT1. reflexivity. }
  assert (E1 : S_ (S t1) = s1) by (cbn [cat]; rewrite <- F1; cbn [take_cturn]; unfold ctry; now rewrite ST1).
  assert (SRV : forall u, (t <= u)%nat -> exists b, nth_error (n_servers (cnode (S_ u))) j = Some b).
  { intros u Lu. destruct (STAY u Lu) as (eu & NEu & _). destruct (expiry_view u j eu NEu) as (vu & _ & _ & Lj). apply nth_error_Some in Lj. destruct (nth_error (n_servers (cnode (S_ u))) j) as [b|]; [eauto|contradiction]. }
  destruct (calm_answered cfg okf nsch t0 t1 j (WExpire (tm_key tm) (tm_rev tm)) T nsch_ok) as (t' & o & Lt & AN & IO); auto.
  { intros u Lu. apply nsch_calm. auto. }
  { rewrite <- node_at. exact U. }
  { lia. }
  { rewrite <- node_at. exact LJ. }
  { intros u Lu. apply nsch_no_crash. apply NC. lia. }
  { intros u. destruct (OWN (n_next (at_time cfg nsch t1)) u) as (u' & Lu & f & Eu). exists u'. split; [exact Lu|]. exists f. unfold nsch. rewrite Eu. reflexivity. }
  { split; [|split].
    - intros u. destruct (B1 (t + u)%nat) as (u' & Lu & Eu). destruct (SRV u' ltac:(lia)) as [b SB]. exists u'. split; [lia|]. symmetry. eapply nsch_batch; eauto.
    - intros u. destruct (B2 (t + u)%nat) as (u' & Lu & f & Eu). destruct (SRV u' ltac:(lia)) as [b SB]. exists u'. split; [lia|]. exists f. eapply nsch_batch; eauto.
    - intros u. destruct (B3 (t + u)%nat) as (u' & Lu & Eu). destruct (SRV u' ltac:(lia)) as [b SB]. exists u'. split; [lia|]. symmetry. eapply nsch_batch; eauto. }
  cbn [in_order] in IO. subst o. rewrite <- (node_at t'), <- log_node in AN.
  destruct (log_grows (S t1) t' Lt) as [l1 G1].
  assert (AS : In (Asked (n_next (at_time cfg nsch t1)) (WExpire (tm_key tm) (tm_rev tm))) (c_log (S_ t'))).
  { rewrite G1, E1, LOG1. rewrite !in_app_iff. left. right. left. now rewrite <- node_at. }
  exists t'. intros t'' x. exact (attempt_final t' _ _ _ AS AN t'' x).
Qed.
End Run.
(** from the written version to its end *)
Lemma lease_live cfg okf sch t0 t j v start i g n u k x : tolerant okf -> (forall t, cturn_ok okf true (cat cfg sch t) (sch t)) ->
  (forall t', (t0 <= t')%nat -> ccalm (sch t')) -> undisturbed (k_node (c_whole (cat cfg sch t0))) ->
  view (cat cfg sch t) j = Some v -> t_phase v = TPLoop start i -> nth_error (b_groups (t_b v)) i = Some g -> t_ack v = Some n -> (n < g_taken g)%nat ->
  nth_error (g_updates g) (g_taken g - 1) = Some u -> now (commits (c_log (cat cfg sch t))) k = Some x -> 0 < kv_lease x <= 9223372035 -> kv_mod x <= u_rev u ->
  (kv_mod x <= start \/ in_range [0%N] [255%N] k) ->
  (forall t', (t <= t')%nat -> sch t' <> CStep (CWhole (KCrash j))) -> time_passes cfg sch -> (forall m, ClusterFair.has_timer (cat cfg sch t) j m k (kv_mod x) -> tries cfg sch j m k (kv_mod x)) ->
  (forall pid, cagain sch (fun y => exists f, y = COwn pid f)) -> cbatching j sch ->
  exists t', forall t'' y, (t' <= t'')%nat -> now (commits (c_log (cat cfg sch t''))) k = Some y -> kv_mod y <> kv_mod x.
Proof.
  intros T OK CALM U V P G AK TK GU N L M C NC TP TR OWN BAT.
  destruct (cluster_timer cfg okf _ j v start i g n u k x T (cat_reach cfg okf true sch OK t) V P G AK TK GU N L M C) as (m & tm & NM & E1 & E2 & _).
  assert (HT : ClusterFair.has_timer (cat cfg sch t) j m k (kv_mod x)) by (exists v, tm; auto). apply (lease_ends cfg okf true sch T OK t0 t j m k (kv_mod x)); auto.
Qed.
