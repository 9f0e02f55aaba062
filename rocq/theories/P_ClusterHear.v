(** C210: leases end, from the write on.
    [cat cfg sch t]: the state of the whole cluster after the first [t] turns of the infinite schedule
    [sch] (Cluster.v, ClusterFair.v); [caring], [dropped]: FairTtl.v; [polls], [hears], [ccalm],
    [cagain], [cbatching], [time_passes], [has_timer], [tries]: ClusterFair.v; [undisturbed]: Calm.v. *)
From Coq Require Import List ZArith Bool Lia Arith.
From Verif Require Import Bytes Spec Sql System Prog Backend Limited Api Pool Ledger Batch BatchKine Node Fair Calm Watch Stream Resume Whole Ttl FairTtl.
From Verif Require Import Demo SpecLemmas LedgerLemmas LedgerMore NodeProofs FairProofs WatchProofs WholeProofs WholeResults TtlProofs TtlLive FairTtlProofs Cluster ClusterProofs ClusterView ClusterExpire ClusterResults ClusterFair ClusterFairProofs ClusterHearProofs ClusterWitness P_Whole.
From Verif Require Import Watch Stream Whole FairWatch ClusterFair.
Import ListNotations.
Open Scope Z_scope.

(** C210.  One server whose expiry goroutine is past its start-up keeps running, and its poller, its expiry goroutine, its
    timers, its batching goroutine and everybody else's requests get their turns; from some point on the
    database answers.  Then whatever is written with a lease by any server, before or after that point,
    ends: at last that version is not the current one of its key, and stays so - unless the
    server gave up the goroutine's watch because the goroutine was too slow (watcher.go:222-228). *)
Theorem C210_lease_ends : forall cfg okf sch j T0 v0 start i t0 tc k x, tolerant okf -> (forall t, cturn_ok okf true (cat cfg sch t) (sch t)) ->
  view (cat cfg sch T0) j = Some v0 -> caring v0 start i -> (forall t, (T0 <= t)%nat -> sch t <> CStep (CWhole (KCrash j))) ->
  polls j sch -> hears j sch ->
  (T0 <= t0)%nat -> now (commits (c_log (cat cfg sch t0))) k = Some x -> 0 < kv_lease x <= 9223372035 -> (kv_mod x <= start \/ in_range [0%N] [255%N] k) ->
  (forall t', (tc <= t')%nat -> ccalm (sch t')) -> undisturbed (k_node (c_whole (cat cfg sch tc))) ->
  time_passes cfg sch -> (forall t m, (T0 <= t)%nat -> has_timer (cat cfg sch t) j m k (kv_mod x) -> tries cfg sch j m k (kv_mod x)) ->
  (forall pid, cagain sch (fun y => exists f, y = COwn pid f)) -> cbatching j sch ->
  (exists t', forall t'' y, (t' <= t'')%nat -> now (commits (c_log (cat cfg sch t''))) k = Some y -> kv_mod y <> kv_mod x) \/
  (exists t v, (T0 <= t)%nat /\ view (cat cfg sch t) j = Some v /\ dropped v i).
Proof. exact lease_live_all. Qed.
Print Assumptions C210_lease_ends.

(** Two servers: the expiry goroutine of server 1 has started; server 0 has written [kb] with a lease of 20 s, server 1 has not
    heard of it yet.  Then everybody gets turns. *)
Definition hprefix : list caction :=
  [CWhole KBoot; CWhole KBoot; CTime (5 * second)] ++ map CWhole (exec_write 0 (CreateKey ka v1 10)) ++
  map (CExpiry 1) [TRev NoFault; TList NoFault; TGroup; TWatch; TCheck NoFault; TQuery NoFault; TFinish] ++
  map CWhole (exec_write 0 (CreateKey kb v2 20)) ++ map CWhole (exec_write 0 (UpdateKey ka v3 1 0)).
Definition hpart (q r : nat) : cturn :=
  match r with
  | 0 => COwn (q - Nat.sqrt q * Nat.sqrt q) NoFault
  | 1 => CStep (CWhole (KNode (NBatch 1 (BTake _))))
  | 2 => CStep (CWhole (KNode (NBatch 1 (BExecute _ BFNone))))
  | 3 => CStep (CWhole (KNode (NBatch 1 (BFinish _))))
  | 4 => CStep (CTime second)
  | 5 => CStep (CFire 1 (q - Nat.sqrt q * Nat.sqrt q))
  | 6 => CStep (CWhole (KBack 1 (AFetch NoFault)))
  | 7 => CStep (CWhole (KBack 1 APublish))
  | _ => CStep (CExpiry 1 (TRecv []))
  end%nat.
Definition hcycle (n : nat) : cturn := hpart (n / 9) (n mod 9).
Definition hfair (t : nat) : cturn := match nth_error hprefix t with Some a => CStep a | None => hcycle (t - length hprefix) end.
Definition hstart : nat := length hprefix.
Lemma hcycle_at q r : (r < 9)%nat -> hcycle (9 * q + r) = hpart q r.
Proof.
  intros L. unfold hcycle. replace ((9 * q + r) mod 9)%nat with r; [|rewrite Nat.add_comm, Nat.mul_comm, Nat.mod_add by lia; symmetry; now apply Nat.mod_small].
  replace ((9 * q + r) / 9)%nat with q; [reflexivity|]. rewrite Nat.add_comm, Nat.mul_comm, Nat.div_add by lia. now rewrite Nat.div_small.
Qed.
Lemma hfair_later n : hfair (hstart + n) = hcycle n.
Proof. unfold hfair, hstart. rewrite (proj2 (nth_error_None hprefix (length hprefix + n))) by lia. f_equal. lia. Qed.
Lemma hfair_again t n r : (r < 9)%nat -> exists t' q, (t <= t')%nat /\ hfair t' = hpart q r /\ (q - Nat.sqrt q * Nat.sqrt q = n)%nat.
Proof.
  intros L. set (s := (t + n)%nat). exists (hstart + (9 * (s * s + n) + r))%nat, (s * s + n)%nat. split; [unfold s; nia|]. split; [now rewrite hfair_later, hcycle_at|].
  replace (Nat.sqrt (s * s + n)) with s; [lia|]. symmetry. apply Nat.sqrt_unique. unfold s. nia.
Qed.
Lemma hfair_cases (P : cturn -> Prop) : (forall q r, (r < 9)%nat -> P (hpart q r)) -> forall t, (hstart <= t)%nat -> P (hfair t).
Proof.
  intros H t L. replace t with (hstart + (t - hstart))%nat by lia. rewrite hfair_later. unfold hcycle. apply H. apply Nat.mod_upper_bound. lia.
Qed.
(** nothing is asked after the prefix but for expired leases *)
Definition hlog0 : ledger := c_log (cat cfg0 hfair hstart).
Definition quiet (s : cstate) : Prop := creach cfg0 clean true s /\ exists l, c_log s = hlog0 ++ l /\ forall i q, In (Asked i q) l -> exists k r, q = WExpire k r.
Lemma hlog0_known : hlog0 = [Asked 0 (WTxn (request (CreateKey ka v1 10))); Committed 0 (Entry ka (Put v1 10)); Answered 0 (ReTxn (Ok (success (CreateKey ka v1 10) 1)));
  Asked 1 (WTxn (request (CreateKey kb v2 20))); Committed 1 (Entry kb (Put v2 20)); Answered 1 (ReTxn (Ok (success (CreateKey kb v2 20) 2)));
  Asked 2 (WTxn (request (UpdateKey ka v3 1 0))); Committed 2 (Entry ka (Put v3 0)); Answered 2 (ReTxn (Ok (success (UpdateKey ka v3 1 0) 3)))].
Proof. vm_compute. reflexivity. Qed.
Lemma hlog0_quiet_start : commits hlog0 = [Entry ka (Put v1 10); Entry kb (Put v2 20); Entry ka (Put v3 0)].
Proof. rewrite hlog0_known. reflexivity. Qed.
Lemma hlog0_def : c_log (cat cfg0 hfair hstart) = hlog0.
Proof. unfold hlog0. reflexivity. Qed.
Opaque hlog0.
Definition h0 : history := [Entry ka (Put v1 10); Entry kb (Put v2 20); Entry ka (Put v3 0)].
Lemma leased_live (x : kv) : now h0 (kv_key x) = Some x -> kv_lease x <> 0 -> kv_key x = kb.
Proof.
  intros N L. destruct (now_facts _ _ _ N) as (_ & M & R & E & F & _). change (revision h0) with 3 in R.
  assert (C : kv_mod x = 1 \/ kv_mod x = 2 \/ kv_mod x = 3) by lia. destruct C as [C|[C|C]]; rewrite C in E.
  - injection E as E1 E2 E3. exfalso. apply (F 3 (Entry ka (Put v3 0))); [lia|reflexivity|exact E1].
  - injection E as E1 E2 E3. now rewrite <- E1.
  - injection E as E1 E2 E3. congruence.
Qed.
Lemma dead_live (x : kv) : now (h0 ++ [Entry kb Del]) (kv_key x) = Some x -> kv_lease x = 0.
Proof.
  intros N. destruct (now_facts _ _ _ N) as (_ & M & R & E & F & _). change (revision (h0 ++ [Entry kb Del])) with 4 in R.
  assert (C : kv_mod x = 1 \/ kv_mod x = 2 \/ kv_mod x = 3 \/ kv_mod x = 4) by lia. destruct C as [C|[C|[C|C]]]; rewrite C in E.
  - injection E as E1 E2 E3. exfalso. apply (F 3 (Entry ka (Put v3 0))); [lia|reflexivity|exact E1].
  - injection E as E1 E2 E3. exfalso. apply (F 4 (Entry kb Del)); [lia|reflexivity|exact E1].
  - injection E as E1 E2 E3. congruence.
  - discriminate E.
Qed.
Lemma quiet_hist s : quiet s -> commits (c_log s) = h0 \/ commits (c_log s) = h0 ++ [Entry kb Del].
Proof.
  intros (H & l & E & AS). rewrite E.
  assert (P : forall A B, l = A ++ B -> commits (hlog0 ++ A) = h0 \/ commits (hlog0 ++ A) = h0 ++ [Entry kb Del]).
  { induction A as [|x A IH] using rev_ind; intros B EB; [left; rewrite app_nil_r; apply hlog0_quiet_start|].
    rewrite <- app_assoc in EB. specialize (IH _ EB). destruct x as [i q|i e|i o]; [rewrite app_assoc, commits_app; cbn; rewrite app_nil_r; exact IH| |rewrite app_assoc, commits_app; cbn; rewrite app_nil_r; exact IH].
    assert (SP : c_log s = (hlog0 ++ A) ++ Committed i e :: B) by (rewrite E, EB; now rewrite <- !app_assoc).
    destruct (whole_ledger cfg0 clean true _ clean_tolerant (cluster_whole cfg0 clean true clean_tolerant _ H)) as (ls & HL & EL). pose proof SP as SP'. unfold c_log in SP'. rewrite <- EL in SP'.
    destruct (every_commit _ _ _ _ _ _ _ HL SP') as (q & Q1 & Q2 & Q3).
    assert (QE : exists k r, q = WExpire k r).
    { rewrite in_app_iff in Q1. destruct Q1 as [Q1|Q1]; [exfalso|apply (AS i q); rewrite EB, in_app_iff; auto].
      rewrite hlog0_known in Q1. cbn in Q1.
      assert (AN : forall o, ~ In (Answered i o) hlog0) by (intros o AO; apply (Q2 o); apply in_or_app; left; exact AO). rewrite hlog0_known in AN. cbn in AN.
      repeat (destruct Q1 as [Q1|Q1]; [try discriminate Q1; injection Q1 as <- <-; eapply AN; eauto 12|]). exact Q1. }
    destruct QE as (k & r & ->).
    destruct (cluster_commit cfg0 clean true clean_tolerant s _ _ _ _ H SP) as [(t & Q4 & _)|[(_ & Q4)|(x & t & t' & -> & X2 & X3 & _)]].
    - exfalso. assert (X : WTxn t = WExpire k r); [|discriminate X]. apply (asked_once _ _ _ i _ _ HL); rewrite SP', in_app_iff; auto.
    - exfalso. cbn [warranted] in Q3. destruct Q3 as [-> _]. destruct Q4 as [Q4|Q4]; discriminate Q4.
    - rewrite app_assoc, commits_app. change (commits [Committed i (Entry (kv_key x) Del)]) with [Entry (kv_key x) Del].
      destruct IH as [IH|IH]; rewrite IH in X2 |- *.
      + right. now rewrite (leased_live x X2 X3).
      + exfalso. exact (X3 (dead_live x X2)). }
  destruct (P l []) as [X|X]; [now rewrite app_nil_r| |]; auto.
Qed.
Lemma own_not_ask i f a j q : own_step i f a <> NAsk j q.
Proof. destruct a as [[o|c k]|]; cbn; try discriminate. destruct (op_of c) as [a|]; [destruct (batched a)|]; discriminate. Qed.
Lemma step_asks s a s' : creach cfg0 clean true s -> caction_ok clean true s a -> (forall j q, a <> CWhole (KNode (NAsk j q))) -> cstep cfg0 s a = Some s' ->
  exists l, c_log s' = c_log s ++ l /\ forall i q, In (Asked i q) l -> exists k r, q = WExpire k r.
Proof.
  intros H OK NA ST. pose proof (creach_CI _ _ _ clean_tolerant _ H) as J. pose proof (cstep_part cfg0 _ _ _ ST) as PT. unfold c_log.
  assert (ID : c_whole s' = c_whole s -> exists l, dids (k_log (c_whole s')) = dids (k_log (c_whole s)) ++ l /\ forall i q, In (Asked i q) l -> exists k r, q = WExpire k r) by (intros ->; exists []; rewrite app_nil_r; split; [reflexivity|intros ? ? []]).
  destruct (whole_part s a) as [x|] eqn:WP; [|auto].
  assert (KO : kaction_ok clean true (c_whole s) x).
  { destruct a as [y|d|j a|j n]; [cbn [whole_part] in WP; injection WP as ->; exact OK|discriminate WP| |].
    - destruct a; try (unfold caction_ok in OK; rewrite WP in OK; exact OK). cbn [whole_part] in WP. destruct (nth_error (c_expiry s) j) as [e|]; [|discriminate]. cbn in WP. destruct (x_phase e); discriminate.
    - cbn [cstep] in ST. destruct (view s j) as [t|] eqn:V; [|discriminate]. destruct (view_TI _ _ _ clean_tolerant _ _ _ J V) as (TT & e & NE & ET & _). cbn [whole_part] in WP. rewrite NE, <- ET in WP.
      destruct (nth_error (t_timers t) n) as [tm|] eqn:NT; [|discriminate]. injection WP as <-. cbn. eapply timer_key; eauto. eapply nth_error_In; eauto. }
  destruct (whole_step _ _ _ clean_tolerant _ x _ (I_reach _ _ _ _ J) KO PT) as [_ (l & L & Q)]. exists l. split; [exact L|].
  intros i q IN. destruct (Q i q IN) as (j & ->). destruct a as [y|d|j' a|j' n]; cbn [whole_part] in WP.
  - injection WP as ->. exfalso. eapply NA; reflexivity.
  - discriminate.
  - destruct (nth_error (c_expiry s) j') as [e|]; [|discriminate]. destruct (backend_part _ _); discriminate.
  - destruct (nth_error (c_expiry s) j') as [e|]; [|discriminate]. destruct (nth_error (x_timers e) n) as [tm|]; [|discriminate]. injection WP as <- <-. eauto.
Qed.
Lemma quiet_step s a : quiet s -> caction_ok clean true s a -> (forall j q, a <> CWhole (KNode (NAsk j q))) -> quiet (ctry cfg0 s a).
Proof.
  intros (H & l & E & AS) OK NA. unfold ctry. destruct (cstep cfg0 s a) as [s'|] eqn:ST; [|split; eauto]. split; [econstructor; eauto|].
  destruct (step_asks s a s' H OK NA ST) as (l' & E' & AS'). exists (l ++ l'). rewrite E', E, app_assoc. split; [reflexivity|]. intros i q IN. apply in_app_iff in IN. destruct IN; eauto.
Qed.
Lemma hpart_ok s q r : quiet s -> (r < 9)%nat -> cturn_ok clean true s (hpart q r).
Proof.
  intros Q L. pose proof Q as (H & _). pose proof (creach_CI _ _ _ clean_tolerant _ H) as J. pose proof (I_reach _ _ _ _ J) as KR.
  destruct r as [|[|[|[|[|[|[|[|[|r]]]]]]]]]; try lia; cbn; auto; try exact Logic.I.
  - unfold clean. cbn. auto.
  - split; [exact Logic.I|]. intros _ v N. change (nth_error (k_servers (c_whole s)) 1 = Some v) in N. change (revision (history_of (snd (b_world (seen (n_world (k_node (c_whole s))) (k_back v))))) - b_poll (k_back v) <= 100).
    assert (HB : history_of (snd (b_world (seen (n_world (k_node (c_whole s))) (k_back v)))) = commits (c_log s)) by (symmetry; exact (whole_hist cfg0 clean true clean_tolerant _ KR)).
    rewrite HB. assert (RV : revision (commits (c_log s)) <= 4) by (destruct (quiet_hist s Q) as [-> | ->]; vm_compute; discriminate).
    assert (PO : 0 <= b_poll (k_back v)); [|lia].
    destruct (nth_error (c_expiry s) 1) as [e|] eqn:NE; [|apply nth_error_None in NE; rewrite (V_len _ _ (creach_CV _ _ _ clean_tolerant _ H)) in NE; assert (1 < length (k_servers (c_whole s)))%nat by (apply nth_error_Some; intros XX; rewrite XX in N; discriminate N); lia].
    assert (V : exists v', view s 1 = Some v' /\ b_poll (t_b v') = b_poll (k_back v)) by (unfold view; rewrite N, NE; eexists; split; reflexivity).
    destruct V as (v' & V & <-). destruct (cluster_server _ _ _ clean_tolerant _ _ _ H V) as [_ TC]. apply (B_poll _ _ (calm_Binv _ (proj1 (tcalm_PI _ (TC eq_refl))))).
  - change (match whole_part s (CExpiry 1 (TRecv [])) with Some x => kaction_ok clean true (c_whole s) x | None => True end). cbn [whole_part].
    destruct (nth_error (c_expiry s) 1) as [e|] eqn:NE; [|exact Logic.I]. destruct (x_phase e); cbn; try exact Logic.I. split; [exact Logic.I|]. intros _ v N. exact Logic.I.
Qed.
Lemma quiet_turn s q r : quiet s -> (r < 9)%nat -> quiet (take_cturn cfg0 s (hpart q r)).
Proof.
  intros Q L. pose proof (hpart_ok s q r Q L) as OK. destruct r as [|r].
  - cbn [hpart take_cturn]. unfold own_action. destruct (position _ _) as [i|]; [|exact Q]. destruct (nth_error _ i) as [p|]; [|exact Q]. apply quiet_step; auto.
    + cbn. apply own_ok. exact OK.
    + intros j q0 X. injection X as X. revert X. apply own_not_ask.
  - assert (X : exists a, hpart q (S r) = CStep a /\ forall j q', a <> CWhole (KNode (NAsk j q'))) by (destruct r as [|[|[|[|[|[|[|r]]]]]]]; cbn [hpart]; eexists; (split; [reflexivity|discriminate])).
    destruct X as (a & E & NA). rewrite E in OK |- *. cbn [take_cturn]. now apply quiet_step.
Qed.
Lemma hprefix_ok : forall t, (t < hstart)%nat -> cturn_ok clean true (cat cfg0 hfair t) (hfair t).
Proof.
  assert (C : forallb (fun t => match hfair t with CStep a => cokb (cat cfg0 hfair t) a | _ => false end) (List.seq 0 hstart) = true) by (vm_compute; reflexivity).
  intros t L. rewrite forallb_forall in C. specialize (C t ltac:(apply in_seq; lia)). destruct (hfair t) as [|a]; [discriminate|]. now apply cokb_ok.
Qed.
Lemma hquiet t : (hstart <= t)%nat -> quiet (cat cfg0 hfair t).
Proof.
  intros L. induction L as [|t L IH].
  - split; [|exists []; rewrite app_nil_r; split; [exact hlog0_def|intros ? ? []]].
    assert (X : forall t, (t <= hstart)%nat -> creach cfg0 clean true (cat cfg0 hfair t)); [|apply X; lia].
    induction t as [|t IH]; intros Lt; [constructor|]. specialize (IH ltac:(lia)). pose proof (hprefix_ok t ltac:(lia)) as O. cbn [cat].
    assert (A : exists a, hfair t = CStep a) by (unfold hfair; unfold hstart in Lt; destruct (nth_error hprefix t) eqn:E; [eauto|apply nth_error_None in E; lia]).
    destruct A as [a A]. rewrite A in O |- *. cbn [take_cturn cturn_ok] in *. unfold ctry. destruct (cstep cfg0 (cat cfg0 hfair t) a) eqn:E; [|exact IH]. econstructor; eauto.
  - cbn [cat]. apply (hfair_cases (fun x => quiet (take_cturn cfg0 (cat cfg0 hfair t) x))); auto. intros q r Lr. now apply quiet_turn.
Qed.
Lemma hfair_ok : forall t, cturn_ok clean true (cat cfg0 hfair t) (hfair t).
Proof.
  intros t. destruct (Nat.lt_ge_cases t hstart) as [L|L]; [now apply hprefix_ok|]. apply (hfair_cases (cturn_ok clean true (cat cfg0 hfair t))); auto. intros q r Lr. apply hpart_ok; auto. now apply hquiet.
Qed.
Lemma hfair_time : time_passes cfg0 hfair.
Proof.
  assert (H : forall q : nat, exists t, Z.of_nat q <= c_clock (cat cfg0 hfair t)).
  { induction q as [|q (t & IH)]; [exists 0%nat; vm_compute; discriminate|]. destruct (hfair_again t 0 4) as (t' & n & L & E & _); [lia|]. exists (S t').
    pose proof (clock_mono cfg0 clean true hfair hfair_ok t t' L) as M. cbn [cat]. rewrite E. cbn [hpart take_cturn]. unfold ctry. cbn [cstep c_clock].
    change second with 1000000000 in *. lia. }
  intros z. destruct (H (Z.to_nat z)) as (t & L). exists t. lia.
Qed.
Lemma hfair_gets r x : (r < 9)%nat -> (forall q, hpart q r = x) -> cagain hfair (eq x).
Proof. intros L E t. destruct (hfair_again t 0 r L) as (t' & q & Lt & Et & _). exists t'. split; [exact Lt|]. now rewrite Et, E. Qed.
Example C210_nonvacuous : tolerant clean /\ (forall t, cturn_ok clean true (cat cfg0 hfair t) (hfair t)) /\
  (exists v0, view (cat cfg0 hfair hstart) 1 = Some v0 /\ caring v0 1 0 /\ (exists g, nth_error (b_groups (t_b v0)) 0 = Some g /\ g_taken g = 0%nat)) /\ (forall t', (hstart <= t')%nat -> hfair t' <> CStep (CWhole (KCrash 1))) /\
  polls 1 hfair /\ hears 1 hfair /\ now (commits (c_log (cat cfg0 hfair hstart))) kb = Some (KV kb v2 20 2 2) /\ in_range [0%N] [255%N] kb /\
  (forall t', (hstart <= t')%nat -> ccalm (hfair t')) /\ undisturbed (k_node (c_whole (cat cfg0 hfair hstart))) /\
  time_passes cfg0 hfair /\ (forall m, tries cfg0 hfair 1 m kb 2) /\ (forall pid, cagain hfair (fun x => exists f, x = COwn pid f)) /\ cbatching 1 hfair /\
  now (commits (c_log (cat cfg0 hfair (hstart + 400)))) kb = None /\
  (exists v, view (cat cfg0 hfair (hstart + 400)) 1 = Some v /\ match nth_error (b_groups (t_b v)) 0 with Some g => g_open g = true | None => False end).
Proof.
  split; [exact clean_tolerant|]. split; [exact hfair_ok|]. split.
  { eexists. split; [vm_compute; reflexivity|]. split; [split; [vm_compute; reflexivity|split; [vm_compute; discriminate|vm_compute; reflexivity]]|]. eexists. split; vm_compute; reflexivity. }
  split. { apply (hfair_cases (fun x => x <> CStep (CWhole (KCrash 1)))). intros q [|[|[|[|[|[|[|[|[|r]]]]]]]]] L'; try lia; cbn; discriminate. }
  split. { split; [apply (hfair_gets 6); [lia|reflexivity]|]. split; [apply (hfair_gets 7); [lia|reflexivity]|]. intros t f E.
    destruct (Nat.lt_ge_cases t hstart) as [L|L].
    - assert (C : forallb (fun t => match hfair t with CStep (CWhole (KBack 1 (AFetch _))) => false | _ => true end) (List.seq 0 hstart) = true) by (vm_compute; reflexivity).
      rewrite forallb_forall in C. specialize (C t ltac:(apply in_seq; lia)). rewrite E in C. discriminate C.
    - revert E. apply (hfair_cases (fun x => x = CStep (CWhole (KBack 1 (AFetch f))) -> bearable f)); [|exact L]. intros q [|[|[|[|[|[|[|[|[|r]]]]]]]]] L'; try lia; cbn; try discriminate. intros [= <-]. exact Logic.I. }
  split. { intros t. destruct (hfair_again t 0 8) as (t' & q & L & E & _); [lia|]. exists t'. split; [exact L|]. exists []. exact E. }
  split; [vm_compute; reflexivity|]. split; [split; [vm_compute; discriminate|vm_compute; reflexivity]|]. split.
  { apply hfair_cases. intros q [|[|[|[|[|[|[|[|[|r]]]]]]]]] L'; try lia; cbn; auto. }
  split. { intros j b N. vm_compute in N. do 2 (destruct j as [|j]; [injection N as <-; split; [reflexivity|]; intros i jb E O; do 8 (destruct i as [|i]; [cbn in E; try discriminate; injection E as <-; discriminate|]); destruct i; discriminate|]). destruct j; discriminate. }
  split; [exact hfair_time|]. split. { intros m. left. intros t. destruct (hfair_again t m 5) as (t' & q & L & E & Eq); [lia|]. exists t'. split; [exact L|]. rewrite E. cbn [hpart]. now rewrite Eq. }
  split. { intros pid t. destruct (hfair_again t pid 0) as (t' & q & L & E & Eq); [lia|]. exists t'. split; [exact L|]. exists NoFault. rewrite E. cbn [hpart]. now rewrite Eq. }
  split. { split; [apply (hfair_gets 1); [lia|reflexivity]|]. split; [|apply (hfair_gets 3); [lia|reflexivity]]. intros t. destruct (hfair_again t 0 2) as (t' & q & L & E & _); [lia|]. exists t'. split; [exact L|]. exists BFNone. exact E. }
  split; [vm_compute; reflexivity|]. eexists. split; vm_compute; reflexivity.
Qed.
