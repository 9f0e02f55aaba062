(** C211, C212: watches in the whole cluster; clients see the end of leases.
    [cat cfg sch t]: the state of the whole cluster after the first [t] turns of the infinite schedule
    [sch] (Cluster.v, ClusterFair.v); [watching], [closed]: FairWatch.v; [caring], [dropped]: FairTtl.v; [polls],
    [hears], [consumes], [ccalm], [cagain], [cbatching], [time_passes], [has_timer], [tries]: ClusterFair.v;
    [undisturbed]: Calm.v. *)
From Coq Require Import List ZArith Bool Lia Arith.
From Verif Require Import Bytes Spec Sql System Prog Backend Limited Api Pool Ledger Batch BatchKine Node Fair Calm Watch Stream Resume Whole Ttl FairTtl.
From Verif Require Import Demo SpecLemmas LedgerLemmas LedgerMore NodeProofs FairProofs WatchProofs WholeProofs WholeResults TtlProofs TtlLive FairTtlProofs Cluster ClusterProofs ClusterView ClusterExpire ClusterResults ClusterFair ClusterFairProofs ClusterHearProofs ClusterWatchProofs ClusterWitness P_Whole P_FairWatch P_ClusterHear.
From Verif Require Import Watch Stream Whole FairWatch ClusterFair.
Import ListNotations.
Open Scope Z_scope.

(** C211.  In the whole cluster, with its expiry goroutines, clients, compactions, crashes and faults: a watch
    is acknowledged at time [T].  Its server does not crash, its poller and the goroutine that sends get their turns,
    the watch is not cancelled.  Then every change [e] of its range that is ever committed - by a client or
    because a lease ran out - as revision [R], not before the requested revision, or after time [T], is sent to
    the client sooner or later, or the server closes the stream. *)
Theorem C211_delivered : forall cfg okf sch T j i conn id lo hi start t0 R e, tolerant okf -> (forall t, cturn_ok okf true (cat cfg sch t) (sch t)) ->
  watching (c_whole (cat cfg sch T)) j i conn id lo hi start ->
  (forall t, (T <= t)%nat -> sch t <> CStep (CWhole (KCrash j))) -> (forall t, (T <= t)%nat -> sch t <> CStep (CWhole (KStream j i (SCancel id)))) ->
  polls j sch -> consumes cfg j i sch ->
  (T <= t0)%nat -> 1 <= R -> nth_error (commits (c_log (cat cfg sch t0))) (Z.to_nat (R - 1)) = Some e -> in_range lo hi (e_key e) ->
  (0 < start <= R \/ revision (commits (c_log (cat cfg sch T))) < R) ->
  exists t, (T <= t)%nat /\
    ((exists ev, received (k_log (c_whole (cat cfg sch t))) conn id ev /\ ev_rev ev = R /\ truthful_event (commits (c_log (cat cfg sch t))) R ev) \/ closed (c_whole (cat cfg sch t)) j i).
Proof. exact cluster_comes_out. Qed.
Print Assumptions C211_delivered.

(** C212.  A server [j] whose expiry goroutine is past its start-up keeps running; so does a server [j'], on which a
    client has an acknowledged watch of a range with key [k]; their pollers and goroutines, timers and everybody's
    requests get their turns; from some point on the database answers.  At time [t0] version [x] of [k] is
    current, written with a lease.  Then the client that watches is told of the end of that very version: it is sent
    a truthful event of [k] whose previous value is that version - unless its stream is closed because it is
    too slow, or the server gave up the expiry goroutine's watch for the same reason (watcher.go:222-228). *)
Theorem C212_end_seen : forall cfg okf sch j T0 v0 start0 g0 t0 tc k x T1 j' i conn id lo hi start, tolerant okf -> (forall t, cturn_ok okf true (cat cfg sch t) (sch t)) ->
  view (cat cfg sch T0) j = Some v0 -> caring v0 start0 g0 -> (forall t, (T0 <= t)%nat -> sch t <> CStep (CWhole (KCrash j))) ->
  polls j sch -> hears j sch ->
  (T0 <= t0)%nat -> now (commits (c_log (cat cfg sch t0))) k = Some x -> 0 < kv_lease x <= 9223372035 -> (kv_mod x <= start0 \/ in_range [0%N] [255%N] k) ->
  (forall t', (tc <= t')%nat -> ccalm (sch t')) -> undisturbed (k_node (c_whole (cat cfg sch tc))) ->
  time_passes cfg sch -> (forall t m, (T0 <= t)%nat -> has_timer (cat cfg sch t) j m k (kv_mod x) -> tries cfg sch j m k (kv_mod x)) ->
  (forall pid, cagain sch (fun y => exists f, y = COwn pid f)) -> cbatching j sch ->
  watching (c_whole (cat cfg sch T1)) j' i conn id lo hi start -> (T1 <= t0)%nat -> in_range lo hi k ->
  (forall t, (T1 <= t)%nat -> sch t <> CStep (CWhole (KCrash j'))) -> (forall t, (T1 <= t)%nat -> sch t <> CStep (CWhole (KStream j' i (SCancel id)))) ->
  polls j' sch -> consumes cfg j' i sch ->
  exists t,
    ((exists ev p, received (k_log (c_whole (cat cfg sch t))) conn id ev /\ truthful_event (commits (c_log (cat cfg sch t))) (ev_rev ev) ev /\
        kv_key (ev_kv ev) = k /\ ev_prev ev = Some p /\ kv_mod p = kv_mod x) \/
     closed (c_whole (cat cfg sch t)) j' i \/
     (exists v, view (cat cfg sch t) j = Some v /\ dropped v g0)).
Proof. exact lease_end_seen. Qed.
Print Assumptions C212_end_seen.

(** Two servers: the expiry goroutine of server 1 has started; a client watches at server 0; server 0 writes [kb] with a
    lease of 20 s.  Then everybody gets turns. *)
Definition wprefix : list caction :=
  [CWhole KBoot; CWhole KBoot; CTime (5 * second)] ++ map CWhole (exec_write 0 (CreateKey ka v1 10)) ++
  map (CExpiry 1) [TRev NoFault; TList NoFault; TGroup; TWatch; TCheck NoFault; TQuery NoFault; TFinish] ++
  map CWhole [KOpen 0; KStream 0 0 (SCreate 0 ka kd 0); KStream 0 0 (SCheck NoFault); KStream 0 0 (SQuery NoFault); KStream 0 0 SFinish] ++
  map CWhole (exec_write 0 (CreateKey kb v2 20)) ++ map CWhole (exec_write 0 (UpdateKey ka v3 1 0)).
Definition wpart (q r : nat) : cturn :=
  match r with
  | 9 => CStep (CWhole (KBack 0 (AFetch NoFault)))
  | 10 => CStep (CWhole (KBack 0 APublish))
  | 11 => CStep (CWhole (KStream 0 0 SRecv))
  | 12 => CStep (CWhole (KStream 0 0 SSend))
  | _ => hpart q r
  end%nat.
Definition wcycle (n : nat) : cturn := wpart (n / 13) (n mod 13).
Definition wfair (t : nat) : cturn := match nth_error wprefix t with Some a => CStep a | None => wcycle (t - length wprefix) end.
Definition wstart : nat := length wprefix.
Lemma wcycle_at q r : (r < 13)%nat -> wcycle (13 * q + r) = wpart q r.
Proof.
  intros L. unfold wcycle. replace ((13 * q + r) mod 13)%nat with r; [|rewrite Nat.add_comm, Nat.mul_comm, Nat.mod_add by lia; symmetry; now apply Nat.mod_small].
  replace ((13 * q + r) / 13)%nat with q; [reflexivity|]. rewrite Nat.add_comm, Nat.mul_comm, Nat.div_add by lia. now rewrite Nat.div_small.
Qed.
Lemma wfair_later n : wfair (wstart + n) = wcycle n.
Proof. unfold wfair, wstart. rewrite (proj2 (nth_error_None wprefix (length wprefix + n))) by lia. f_equal. lia. Qed.
Lemma wfair_again t n r : (r < 13)%nat -> exists t' q, (t <= t')%nat /\ (wstart <= t')%nat /\ wfair t' = wpart q r /\ (q - Nat.sqrt q * Nat.sqrt q = n)%nat.
Proof.
  intros L. set (s := (t + n)%nat). exists (wstart + (13 * (s * s + n) + r))%nat, (s * s + n)%nat. split; [unfold s; nia|]. split; [lia|]. split; [now rewrite wfair_later, wcycle_at|].
  replace (Nat.sqrt (s * s + n)) with s; [lia|]. symmetry. apply Nat.sqrt_unique. unfold s. nia.
Qed.
Lemma wfair_cases (P : cturn -> Prop) : (forall q r, (r < 13)%nat -> P (wpart q r)) -> forall t, (wstart <= t)%nat -> P (wfair t).
Proof.
  intros H t L. replace t with (wstart + (t - wstart))%nat by lia. rewrite wfair_later. unfold wcycle. apply H. apply Nat.mod_upper_bound. lia.
Qed.
(** the stream exists and nobody is inside of Create *)
Definition streamy (k : kstate) : Prop := exists v c st, nth_error (k_servers k) 0 = Some v /\ nth_error (k_streams v) 0 = Some (c, st) /\ s_creating st = None.
Definition harmless (x : kaction) : Prop := match x with KNode _ | KBack _ _ | KStream 0 0 SRecv | KStream 0 0 SSend => True | _ => False end.
Lemma streamy_step k x : harmless x -> streamy k -> streamy (ktry cfg0 k x).
Proof.
  intros HA (v & c & st & N & NS & CR). unfold ktry. destruct (kstep cfg0 k x) as [k'|] eqn:E; [|exists v, c, st; auto]. destruct k as [nd sv log n]. cbn [k_servers] in N.
  destruct x as [y| |j|j a|j|j i a]; try contradiction.
  - assert (X : k_servers k' = sv).
    { destruct y; try discriminate E; cbn [kstep] in E; destruct (nstep cfg0 nd _); try discriminate; injection E as <-; reflexivity. }
    exists v, c, st. rewrite X. auto.
  - cbn [kstep] in E. destruct (nth_error sv j) as [v'|] eqn:NJ; [|discriminate]. destruct (internal a && _); [|discriminate]. injection E as <-. unfold streamy. cbn [k_servers].
    destruct (Nat.eq_dec j 0) as [->|NE].
    + rewrite (put_same _ _ _ _ N). rewrite N in NJ. injection NJ as <-. do 3 eexists. split; [reflexivity|]. cbn [k_streams]. eauto.
    + rewrite (put_other _ _ _ _ NE). eauto 6.
  - destruct j; [|contradiction]. destruct i; [|contradiction].
    assert (E2 : a = SRecv \/ a = SSend) by (destruct a; try contradiction; auto).
    assert (X : s_creating (sstep (synced (n_world nd) v st) a) = None) by (destruct E2 as [-> | ->]; [rewrite creating_recv|rewrite creating_send]; exact CR).
    assert (E3 : match nth_error sv 0 with Some v => match nth_error (k_streams v) 0 with Some (conn, st0) => let st := synced (n_world nd) v st0 in let st' := sstep st a in
        Some (KState nd (put 0 (KServer (s_b st') (put 0 (conn, st') (k_streams v))) sv) (log ++ told_by conn a st st') n) | None => None end | None => None end = Some k') by (destruct E2 as [-> | ->]; exact E).
    clear E. rewrite N, NS in E3. cbv zeta in E3. injection E3 as <-. unfold streamy. cbn [k_servers]. destruct sv as [|v0 sv]; [discriminate N|]. destruct (k_streams v) as [|c0 l0] eqn:KS; [discriminate NS|]. do 3 eexists. split; [reflexivity|]. cbn [k_streams]. split; [reflexivity|exact X].
Qed.
Lemma harmless_rest s a : (match a with CWhole x => harmless x | _ => True end) -> harmless (rest_of cfg0 s a).
Proof.
  destruct a as [x|d|j a|j n]; intros H; cbn [rest_of].
  - destruct (not_expiry s x); [exact H|exact Logic.I].
  - destruct (cstep cfg0 s (CTime d)); exact Logic.I.
  - destruct (cstep cfg0 s (CExpiry j a)); [|exact Logic.I]. cbn [whole_part]. destruct (nth_error _ j) as [e|]; [|exact Logic.I]. destruct (backend_part (x_phase e) a); exact Logic.I.
  - destruct (cstep cfg0 s (CFire j n)); [|exact Logic.I]. cbn [whole_part]. destruct (nth_error _ j) as [e|]; [|exact Logic.I]. destruct (nth_error _ n); exact Logic.I.
Qed.
Lemma wpart_harmless q r : match wpart q r with CStep (CWhole x) => harmless x | _ => True end.
Proof. destruct r as [|[|[|[|[|[|[|[|[|[|[|[|[|r]]]]]]]]]]]]]; exact Logic.I. Qed.
Lemma wturn_streamy s q r : streamy (c_whole s) -> streamy (c_whole (take_cturn cfg0 s (wpart q r))).
Proof.
  intros H. pose proof (wpart_harmless q r) as HA. destruct (wpart q r) as [pid f|a]; cbn [take_cturn].
  - unfold own_action. destruct (position _ _) as [i|]; [|exact H]. destruct (nth_error _ i) as [p|]; [|exact H]. rewrite rest_step. apply streamy_step; [|exact H]. apply harmless_rest. exact Logic.I.
  - rewrite rest_step. apply streamy_step; [|exact H]. apply harmless_rest. destruct a; auto.
Qed.
Lemma fetch_fine s j : quiet s -> caction_ok clean true s (CWhole (KBack j (AFetch NoFault))).
Proof.
  intros Q. pose proof Q as (H & _). pose proof (creach_CI _ _ _ clean_tolerant _ H) as J. pose proof (I_reach _ _ _ _ J) as KR. cbn [caction_ok whole_part kaction_ok].
  split; [exact Logic.I|]. intros _ v N. change (revision (history_of (snd (b_world (seen (n_world (k_node (c_whole s))) (k_back v))))) - b_poll (k_back v) <= 100).
  assert (HB : history_of (snd (b_world (seen (n_world (k_node (c_whole s))) (k_back v)))) = commits (c_log s)) by (symmetry; exact (whole_hist cfg0 clean true clean_tolerant _ KR)).
  rewrite HB. assert (RV : revision (commits (c_log s)) <= 4) by (destruct (quiet_hist s Q) as [-> | ->]; vm_compute; discriminate).
  assert (PO : 0 <= b_poll (k_back v)); [|lia].
  destruct (nth_error (c_expiry s) j) as [e|] eqn:NE; [|apply nth_error_None in NE; rewrite (V_len _ _ (creach_CV _ _ _ clean_tolerant _ H)) in NE; assert (j < length (k_servers (c_whole s)))%nat by (apply nth_error_Some; intros XX; rewrite XX in N; discriminate N); lia].
  assert (V : exists v', view s j = Some v' /\ b_poll (t_b v') = b_poll (k_back v)) by (unfold view; rewrite N, NE; eexists; split; reflexivity).
  destruct V as (v' & V & <-). destruct (cluster_server _ _ _ clean_tolerant _ _ _ H V) as [_ TC]. apply (B_poll _ _ (calm_Binv _ (proj1 (tcalm_PI _ (TC eq_refl))))).
Qed.
Lemma wpart_ok s q r : quiet s -> (r < 13)%nat -> cturn_ok clean true s (wpart q r).
Proof.
  intros Q L. destruct (Nat.lt_ge_cases r 9) as [L9|L9].
  - assert (E : wpart q r = hpart q r) by (do 9 (destruct r as [|r]; [reflexivity|]); lia). rewrite E. now apply hpart_ok.
  - do 9 (destruct r as [|r]; [lia|]). destruct r as [|[|[|[|r]]]]; try lia; cbn [wpart cturn_ok].
    + now apply fetch_fine.
    + split; [exact Logic.I|]. intros _ v _. exact Logic.I.
    + intros _ v c st _ _. exact Logic.I.
    + intros _ v c st _ _. exact Logic.I.
Qed.
Lemma wquiet_turn s q r : quiet s -> (r < 13)%nat -> quiet (take_cturn cfg0 s (wpart q r)).
Proof.
  intros Q L. pose proof (wpart_ok s q r Q L) as OK. destruct (Nat.lt_ge_cases r 9) as [L9|L9].
  - assert (E : wpart q r = hpart q r) by (do 9 (destruct r as [|r]; [reflexivity|]); lia). rewrite E. now apply quiet_turn.
  - assert (X : exists a, wpart q r = CStep a /\ forall j q', a <> CWhole (KNode (NAsk j q'))).
    { do 9 (destruct r as [|r]; [lia|]). destruct r as [|[|[|[|r]]]]; try lia; cbn [wpart]; eexists; (split; [reflexivity|discriminate]). }
    destruct X as (a & E & NA). rewrite E in OK |- *. cbn [take_cturn]. now apply quiet_step.
Qed.
Lemma wprefix_ok : forall t, (t < wstart)%nat -> cturn_ok clean true (cat cfg0 wfair t) (wfair t).
Proof.
  assert (C : forallb (fun t => match wfair t with CStep a => cokb (cat cfg0 wfair t) a | _ => false end) (List.seq 0 wstart) = true) by (vm_compute; reflexivity).
  intros t L. rewrite forallb_forall in C. specialize (C t ltac:(apply in_seq; lia)). destruct (wfair t) as [|a]; [discriminate|]. now apply cokb_ok.
Qed.
Lemma wlog0 : c_log (cat cfg0 wfair wstart) = hlog0.
Proof. rewrite hlog0_known. vm_compute. reflexivity. Qed.
Lemma wgood t : (wstart <= t)%nat -> quiet (cat cfg0 wfair t) /\ streamy (c_whole (cat cfg0 wfair t)).
Proof.
  intros L. induction L as [|t L [IH1 IH2]].
  - split.
    + split; [|exists []; rewrite app_nil_r; split; [exact wlog0|intros ? ? []]].
      assert (X : forall t, (t <= wstart)%nat -> creach cfg0 clean true (cat cfg0 wfair t)); [|apply X; lia].
      induction t as [|t IH]; intros Lt; [constructor|]. specialize (IH ltac:(lia)). pose proof (wprefix_ok t ltac:(lia)) as O. cbn [cat].
      assert (A : exists a, wfair t = CStep a) by (unfold wfair; unfold wstart in Lt; destruct (nth_error wprefix t) eqn:E; [eauto|apply nth_error_None in E; lia]).
      destruct A as [a A]. rewrite A in O |- *. cbn [take_cturn cturn_ok] in *. unfold ctry. destruct (cstep cfg0 (cat cfg0 wfair t) a) eqn:E; [|exact IH]. econstructor; eauto.
    + eexists _, _, _. split; [vm_compute; reflexivity|]. split; reflexivity.
  - cbn [cat]. split.
    + apply (wfair_cases (fun x => quiet (take_cturn cfg0 (cat cfg0 wfair t) x))); auto. intros q r Lr. now apply wquiet_turn.
    + apply (wfair_cases (fun x => streamy (c_whole (take_cturn cfg0 (cat cfg0 wfair t) x)))); auto. intros q r Lr. now apply wturn_streamy.
Qed.
Lemma wfair_ok : forall t, cturn_ok clean true (cat cfg0 wfair t) (wfair t).
Proof.
  intros t. destruct (Nat.lt_ge_cases t wstart) as [L|L]; [now apply wprefix_ok|]. apply (wfair_cases (cturn_ok clean true (cat cfg0 wfair t))); auto. intros q r Lr. apply wpart_ok; auto. now apply wgood.
Qed.
Lemma wfair_time : time_passes cfg0 wfair.
Proof.
  assert (H : forall q : nat, exists t, Z.of_nat q <= c_clock (cat cfg0 wfair t)).
  { induction q as [|q (t & IH)]; [exists 0%nat; vm_compute; discriminate|]. destruct (wfair_again t 0 4) as (t' & n & L & _ & E & _); [lia|]. exists (S t').
    pose proof (clock_mono cfg0 clean true wfair wfair_ok t t' L) as M. cbn [cat]. rewrite E. cbn [wpart hpart take_cturn]. unfold ctry. cbn [cstep c_clock].
    change second with 1000000000 in *. lia. }
  intros z. destruct (H (Z.to_nat z)) as (t & L). exists t. lia.
Qed.
Lemma wfair_gets r x : (r < 13)%nat -> (forall q, wpart q r = x) -> cagain wfair (eq x).
Proof. intros L E t. destruct (wfair_again t 0 r L) as (t' & q & Lt & _ & Et & _). exists t'. split; [exact Lt|]. now rewrite Et, E. Qed.
Ltac parts r L := destruct r as [|[|[|[|[|[|[|[|[|[|[|[|[|?]]]]]]]]]]]]]; [..|lia]; cbn [wpart hpart].
Lemma wfair_polls j : (j < 2)%nat -> polls j wfair.
Proof.
  intros LJ. split; [|split].
  - destruct j as [|[|j]]; [apply (wfair_gets 9)|apply (wfair_gets 6)|]; try lia; reflexivity.
  - destruct j as [|[|j]]; [apply (wfair_gets 10)|apply (wfair_gets 7)|]; try lia; reflexivity.
  - intros t f E. destruct (Nat.lt_ge_cases t wstart) as [L|L].
    + assert (C : forallb (fun t => match wfair t with CStep (CWhole (KBack _ (AFetch _))) => false | _ => true end) (List.seq 0 wstart) = true) by (vm_compute; reflexivity).
      rewrite forallb_forall in C. specialize (C t ltac:(apply in_seq; lia)). rewrite E in C. discriminate C.
    + revert E. apply (wfair_cases (fun x => x = CStep (CWhole (KBack j (AFetch f))) -> bearable f)); [|exact L]. intros q r L'. parts r L'; try discriminate; intros [= E2 E3]; subst f; exact Logic.I.
Qed.
Lemma wfair_consumes : consumes cfg0 0 0 wfair.
Proof.
  split; [apply (wfair_gets 11); [lia|reflexivity]|]. intros t. destruct (wfair_again t 0 12) as (t' & q & L & L' & E & _); [lia|]. exists t'. split; [exact L|]. split; [exact E|].
  destruct (wgood t' L') as (_ & v & c & st & N & NS & CR). unfold idle, stream_of. rewrite N, NS. eexists _, _. split; [reflexivity|]. exact CR.
Qed.
Lemma wfair_calm : forall t, (wstart <= t)%nat -> ccalm (wfair t).
Proof. apply wfair_cases. intros q r L. parts r L; cbn; auto. Qed.
Lemma wfair_no j id : forall t, (wstart <= t)%nat -> wfair t <> CStep (CWhole (KCrash j)) /\ wfair t <> CStep (CWhole (KStream 0 0 (SCancel id))).
Proof. apply (wfair_cases (fun x => x <> CStep (CWhole (KCrash j)) /\ x <> CStep (CWhole (KStream 0 0 (SCancel id))))). intros q r L. parts r L; split; discriminate. Qed.
Lemma wfair_watching : watching (c_whole (cat cfg0 wfair wstart)) 0 0 0 1 ka kd 0.
Proof.
  split; [vm_compute; tauto|]. split; [vm_compute; tauto|]. eexists _, _. split; [vm_compute; reflexivity|]. split; [vm_compute; reflexivity|]. split; [vm_compute; tauto|vm_compute; reflexivity].
Qed.

(** The client is told of the writes and of the end of the lease of [kb] (of revision 1 too: the poller of server 0 had not
    seen it when the watch began). *)
Example C211_nonvacuous : tolerant clean /\ (forall t, cturn_ok clean true (cat cfg0 wfair t) (wfair t)) /\
  watching (c_whole (cat cfg0 wfair wstart)) 0 0 0 1 ka kd 0 /\
  (forall t, (wstart <= t)%nat -> wfair t <> CStep (CWhole (KCrash 0))) /\ (forall t, (wstart <= t)%nat -> wfair t <> CStep (CWhole (KStream 0 0 (SCancel 1)))) /\
  polls 0 wfair /\ consumes cfg0 0 0 wfair /\
  nth_error (commits (c_log (cat cfg0 wfair (wstart + 700)))) 3 = Some (Entry kb Del) /\ in_range ka kd kb /\ revision (commits (c_log (cat cfg0 wfair wstart))) = 3 /\
  map (fun ev => (ev_rev ev, kv_key (ev_kv ev), ev_delete ev)) (sent (said 0 (k_log (c_whole (cat cfg0 wfair (wstart + 700))))) 1) = [(1, ka, false); (2, kb, false); (3, ka, false); (4, kb, true)].
Proof.
  split; [exact clean_tolerant|]. split; [exact wfair_ok|]. split; [exact wfair_watching|]. split; [intros t L; apply (wfair_no 0 1 t L)|]. split; [intros t L; apply (wfair_no 0 1 t L)|].
  split; [apply wfair_polls; lia|]. split; [exact wfair_consumes|]. split; [vm_compute; reflexivity|]. split; [split; [vm_compute; discriminate|vm_compute; reflexivity]|]. split; [vm_compute; reflexivity|]. vm_compute. reflexivity.
Qed.
Example C212_nonvacuous : tolerant clean /\ (forall t, cturn_ok clean true (cat cfg0 wfair t) (wfair t)) /\
  (exists v0, view (cat cfg0 wfair wstart) 1 = Some v0 /\ caring v0 1 0) /\ (forall t, (wstart <= t)%nat -> wfair t <> CStep (CWhole (KCrash 1))) /\
  polls 1 wfair /\ hears 1 wfair /\ now (commits (c_log (cat cfg0 wfair wstart))) kb = Some (KV kb v2 20 2 2) /\ in_range [0%N] [255%N] kb /\
  (forall t', (wstart <= t')%nat -> ccalm (wfair t')) /\ undisturbed (k_node (c_whole (cat cfg0 wfair wstart))) /\
  time_passes cfg0 wfair /\ (forall m, tries cfg0 wfair 1 m kb 2) /\ (forall pid, cagain wfair (fun x => exists f, x = COwn pid f)) /\ cbatching 1 wfair /\
  watching (c_whole (cat cfg0 wfair wstart)) 0 0 0 1 ka kd 0 /\ in_range ka kd kb /\ polls 0 wfair /\ consumes cfg0 0 0 wfair /\
  (exists v, view (cat cfg0 wfair (wstart + 700)) 1 = Some v /\ match nth_error (b_groups (t_b v)) 0 with Some g => g_open g = true | None => False end) /\
  (exists ev, In ev (sent (said 0 (k_log (c_whole (cat cfg0 wfair (wstart + 700))))) 1) /\ kv_key (ev_kv ev) = kb /\ ev_delete ev = true /\ ev_prev ev = Some (KV kb v2 20 2 2)).
Proof.
  split; [exact clean_tolerant|]. split; [exact wfair_ok|]. split.
  { eexists. split; [vm_compute; reflexivity|]. split; [vm_compute; reflexivity|split; [vm_compute; discriminate|vm_compute; reflexivity]]. }
  split; [intros t L; apply (wfair_no 1 1 t L)|]. split; [apply wfair_polls; lia|].
  split. { intros t. destruct (wfair_again t 0 8) as (t' & q & L & _ & E & _); [lia|]. exists t'. split; [exact L|]. exists []. exact E. }
  split; [vm_compute; reflexivity|]. split; [split; [vm_compute; discriminate|vm_compute; reflexivity]|]. split; [exact wfair_calm|].
  split. { intros j b N. vm_compute in N. do 2 (destruct j as [|j]; [injection N as <-; split; [reflexivity|]; intros i jb E O; do 8 (destruct i as [|i]; [cbn in E; try discriminate; injection E as <-; discriminate|]); destruct i; discriminate|]). destruct j; discriminate. }
  split; [exact wfair_time|]. split. { intros m. left. intros t. destruct (wfair_again t m 5) as (t' & q & L & _ & E & Eq); [lia|]. exists t'. split; [exact L|]. rewrite E. cbn [wpart hpart]. now rewrite Eq. }
  split. { intros pid t. destruct (wfair_again t pid 0) as (t' & q & L & _ & E & Eq); [lia|]. exists t'. split; [exact L|]. exists NoFault. rewrite E. cbn [wpart hpart]. now rewrite Eq. }
  split. { split; [apply (wfair_gets 1); [lia|reflexivity]|]. split; [|apply (wfair_gets 3); [lia|reflexivity]]. intros t. destruct (wfair_again t 0 2) as (t' & q & L & _ & E & _); [lia|]. exists t'. split; [exact L|]. exists BFNone. exact E. }
  split; [exact wfair_watching|]. split; [split; [vm_compute; discriminate|vm_compute; reflexivity]|]. split; [apply wfair_polls; lia|]. split; [exact wfair_consumes|].
  split; [eexists; split; vm_compute; reflexivity|]. eexists. split; [vm_compute; right; right; right; left; reflexivity|]. split; [reflexivity|]. split; reflexivity.
Qed.

(** C213.  In the whole cluster, with its expiry goroutines, pollers and streams, whatever happened before: once the
    database answers - no database call of a request and no batch fails from turn [tc] on, nobody cancels a
    waiting write or closes a server - every request of a client is answered, and not with a failure ([in_order],
    Calm.v).  Nothing is asked of pollers, streams, expiry goroutines, the clock or other servers. *)
Theorem C213_available : forall cfg okf st sch, tolerant okf -> (forall t, cturn_ok okf st (cat cfg sch t) (sch t)) ->
  forall t j q tc, (forall t', (tc <= t')%nat -> ccalm (sch t')) -> undisturbed (k_node (c_whole (cat cfg sch tc))) -> (tc <= t)%nat ->
  sch t = CStep (CWhole (KNode (NAsk j q))) -> (match q with WExpire _ _ => False | _ => True end) -> (j < length (n_servers (k_node (c_whole (cat cfg sch t)))))%nat ->
  let pid := n_next (k_node (c_whole (cat cfg sch t))) in
  (forall t', (t < t')%nat -> sch t' <> CStep (CWhole (KCrash j))) -> cagain sch (fun x => exists f, x = COwn pid f) -> cbatching j sch ->
  exists t' o, (t < t')%nat /\ In (Answered pid o) (c_log (cat cfg sch t')) /\ in_order (commits (c_log (cat cfg sch t))) q o.
Proof. exact cluster_answered. Qed.
Print Assumptions C213_available.

(** Two servers; the expiry goroutine of server 1 starts; a create request fails because its batch cannot begin; then the
    database answers: another client's create request is served, while time passes and server 1 crashes again and again. *)
Definition aprefix : list cturn :=
  map CStep ([CWhole KBoot; CWhole KBoot; CTime (5 * second)] ++ map (CExpiry 1) [TRev NoFault; TList NoFault; TGroup; TWatch; TCheck NoFault; TQuery NoFault; TFinish]) ++
  [CStep (CWhole (KNode (NAsk 0 (WTxn (request (CreateKey ka v1 0)))))); COwn 0 NoFault; CStep (CWhole (KNode (NBatch 0 (BTake _)))); CStep (CWhole (KNode (NBatch 0 (BExecute _ (BFBegin EOther)))));
   CStep (CWhole (KNode (NBatch 0 (BFinish _)))); COwn 0 NoFault; COwn 0 NoFault].
Definition aask : nat := length aprefix.
Definition acycle (n : nat) : cturn :=
  match n mod 6 with
  | 0 => COwn 1 NoFault
  | 1 => CStep (CWhole (KNode (NBatch 0 (BTake _))))
  | 2 => CStep (CWhole (KNode (NBatch 0 (BExecute _ BFNone))))
  | 3 => CStep (CWhole (KNode (NBatch 0 (BFinish _))))
  | 4 => CStep (CTime second)
  | _ => CStep (CWhole (KCrash 1))
  end%nat.
Definition afair (t : nat) : cturn :=
  match nth_error aprefix t with
  | Some x => x
  | None => match (t - aask)%nat with O => CStep (CWhole (KNode (NAsk 0 (WTxn (request (CreateKey ka v1 0)))))) | S n => acycle n end
  end.
Lemma afair_later n : afair (aask + S n) = acycle n.
Proof. unfold afair, aask. rewrite (proj2 (nth_error_None aprefix (length aprefix + S n))) by lia. now replace (length aprefix + S n - length aprefix)%nat with (S n) by lia. Qed.
Lemma afair_again r t : (r < 6)%nat -> exists t', (t <= t')%nat /\ afair t' = acycle r.
Proof.
  intros L. exists (aask + S (t * 6 + r))%nat. split; [lia|]. rewrite afair_later. unfold acycle.
  now replace ((t * 6 + r) mod 6)%nat with (r mod 6)%nat by (rewrite Nat.add_comm, Nat.mod_add by lia; reflexivity).
Qed.
Lemma afair_cases (P : cturn -> Prop) : (forall r, (r < 6)%nat -> P (acycle r)) -> forall t, (aask < t)%nat -> P (afair t).
Proof.
  intros H t L. replace t with (aask + S (t - aask - 1))%nat by lia. rewrite afair_later. generalize (t - aask - 1)%nat. clear t L. intros n.
  specialize (H (n mod 6)%nat ltac:(apply Nat.mod_upper_bound; lia)). unfold acycle in *. now rewrite Nat.mod_mod in H by lia.
Qed.
Lemma aprefix_forall (P : cturn -> Prop) : (forall x, In x aprefix -> P x) -> forall t, (t < aask)%nat -> P (afair t).
Proof. intros H t L. unfold afair. destruct (nth_error aprefix t) as [x|] eqn:E; [apply H; eapply nth_error_In; eauto|apply nth_error_None in E; unfold aask in L; lia]. Qed.
Example C213_nonvacuous : tolerant Prog.any_fault /\ (forall t, cturn_ok Prog.any_fault false (cat cfg0 afair t) (afair t)) /\
  (forall t, (aask <= t)%nat -> ccalm (afair t)) /\ undisturbed (k_node (c_whole (cat cfg0 afair aask))) /\
  afair aask = CStep (CWhole (KNode (NAsk 0 (WTxn (request (CreateKey ka v1 0)))))) /\ length (n_servers (k_node (c_whole (cat cfg0 afair aask)))) = 2%nat /\
  n_next (k_node (c_whole (cat cfg0 afair aask))) = 1%nat /\ (forall t, afair t <> CStep (CWhole (KCrash 0))) /\
  cagain afair (fun x => exists f, x = COwn 1 f) /\ cbatching 0 afair /\
  c_log (cat cfg0 afair (aask + 20)) = [Asked 0 (WTxn (request (CreateKey ka v1 0))); Answered 0 (ReTxn (Err EOther));
    Asked 1 (WTxn (request (CreateKey ka v1 0))); Committed 1 (Entry ka (Put v1 0)); Answered 1 (ReTxn (Ok (success (CreateKey ka v1 0) 1)))].
Proof.
  assert (AC : forall (P : cturn -> Prop), (forall x, In x aprefix -> P x) -> P (afair aask) -> (forall r, (r < 6)%nat -> P (acycle r)) -> forall t, P (afair t)).
  { intros P A B C t. destruct (Nat.lt_trichotomy t aask) as [L|[->|L]]; [now apply aprefix_forall|exact B|now apply afair_cases]. }
  split; [unfold tolerant, Prog.any_fault; auto|]. split.
  { intros t. apply (AC (fun x => cturn_ok Prog.any_fault false (cat cfg0 afair t) x)).
    - generalize (cat cfg0 afair t). intros s x IN. cbn -[second] in IN. repeat (destruct IN as [<-|IN]; [cbn; try exact Logic.I|]); [..|contradiction].
      all: try (destruct (c_expiry s) as [|e0 [|e1 l1]]; try exact Logic.I; destruct (x_phase e1); cbn; try exact Logic.I; try (split; [try exact Logic.I; discriminate|intros X; discriminate X])).
      all: try (unfold work_ok; cbn; discriminate). all: try discriminate. all: unfold Prog.any_fault; auto.
    - cbn. unfold work_ok. cbn. discriminate.
    - intros r L. do 6 (destruct r as [|r]; [cbn; unfold Prog.any_fault; auto|]); lia. }
  split. { intros t L. assert (X : t = aask \/ (aask < t)%nat) by lia. destruct X as [->|X]; [exact Logic.I|]. revert t X L. intros t X _. revert t X. apply afair_cases. intros r L. do 6 (destruct r as [|r]; [cbn; auto|]); lia. }
  split. { intros j b N. vm_compute in N. do 2 (destruct j as [|j]; [injection N as <-; split; [reflexivity|]; intros i jb E O; do 8 (destruct i as [|i]; [cbn in E; try discriminate; injection E as <-; discriminate|]); destruct i; discriminate|]). destruct j; discriminate. }
  split; [reflexivity|]. split; [vm_compute; reflexivity|]. split; [vm_compute; reflexivity|]. split.
  { apply (AC (fun x => x <> CStep (CWhole (KCrash 0)))).
    - intros x IN. cbn -[second] in IN. repeat (destruct IN as [<-|IN]; [discriminate|]). contradiction.
    - discriminate.
    - intros r L. do 6 (destruct r as [|r]; [discriminate|]); lia. }
  split. { intros t. destruct (afair_again 0 t) as (t' & L & E); [lia|]. exists t'. split; [exact L|]. exists NoFault. exact E. }
  split. { split; [|split]; intros t.
    - destruct (afair_again 1 t) as (t' & L & E); [lia|]. exists t'. split; [exact L|]. now rewrite E.
    - destruct (afair_again 2 t) as (t' & L & E); [lia|]. exists t'. split; [exact L|]. exists BFNone. exact E.
    - destruct (afair_again 3 t) as (t' & L & E); [lia|]. exists t'. split; [exact L|]. now rewrite E. }
  vm_compute. reflexivity.
Qed.
