(** C209: leases end.
    [cat cfg sch t]: the state of the whole cluster - servers, clients, batching layer, compaction, polling,
    crashes, expiry goroutines and their timers - after the first [t] turns of the infinite
    schedule [sch] (Cluster.v, ClusterFair.v).
    [undisturbed]: Calm.v; [ccalm], [cagain], [cbatching], [time_passes], [has_timer], [tries]: ClusterFair.v. *)
From Coq Require Import List ZArith Bool Lia Arith.
From Verif Require Import Bytes Spec Sql System Prog Backend Limited Api Pool Ledger Batch BatchKine Node Fair Calm Watch Stream Resume Whole Ttl.
From Verif Require Import Demo NodeProofs Cluster ClusterFair ClusterFairProofs ClusterWitness P_Whole.
From Verif Require Import Watch Stream Whole.
Import ListNotations.
Open Scope Z_scope.

(** C209.  Whatever happened before: once the database answers and as long as one server that has a timer for a
    version keeps running and its goroutines get their turns, that version is at last not the current one
    of its key, and stays so: however many other requests there are, whatever other servers do,
    and however often the attempts to delete it had failed. *)
Theorem C209_ends : forall cfg okf st sch t0 t j m k rev, tolerant okf -> (forall t, cturn_ok okf st (cat cfg sch t) (sch t)) ->
  (forall t', (t0 <= t')%nat -> ccalm (sch t')) -> undisturbed (k_node (c_whole (cat cfg sch t0))) ->
  has_timer (cat cfg sch t) j m k rev -> (forall t', (t <= t')%nat -> sch t' <> CStep (CWhole (KCrash j))) ->
  time_passes cfg sch -> tries cfg sch j m k rev -> (forall pid, cagain sch (fun x => exists f, x = COwn pid f)) -> cbatching j sch ->
  exists t', forall t'' x, (t' <= t'')%nat -> now (commits (c_log (cat cfg sch t''))) k = Some x -> kv_mod x <> rev.
Proof. exact (fun cfg okf st sch t0 t j m k rev T OK => lease_ends cfg okf st sch T OK t0 t j m k rev). Qed.
Print Assumptions C209_ends.
(** ... so a version with a lease that some server's expiry goroutine has heard of (C204) ends. *)
Theorem C209_lease : forall cfg okf sch t0 t j v start i g n u k x, tolerant okf -> (forall t, cturn_ok okf true (cat cfg sch t) (sch t)) ->
  (forall t', (t0 <= t')%nat -> ccalm (sch t')) -> undisturbed (k_node (c_whole (cat cfg sch t0))) ->
  view (cat cfg sch t) j = Some v -> t_phase v = TPLoop start i -> nth_error (b_groups (t_b v)) i = Some g -> t_ack v = Some n -> (n < g_taken g)%nat ->
  nth_error (g_updates g) (g_taken g - 1) = Some u -> now (commits (c_log (cat cfg sch t))) k = Some x -> 0 < kv_lease x <= 9223372035 -> kv_mod x <= u_rev u ->
  (kv_mod x <= start \/ in_range [0%N] [255%N] k) ->
  (forall t', (t <= t')%nat -> sch t' <> CStep (CWhole (KCrash j))) -> time_passes cfg sch ->
  (forall m, has_timer (cat cfg sch t) j m k (kv_mod x) -> tries cfg sch j m k (kv_mod x)) ->
  (forall pid, cagain sch (fun y => exists f, y = COwn pid f)) -> cbatching j sch ->
  exists t', forall t'' y, (t' <= t'')%nat -> now (commits (c_log (cat cfg sch t''))) k = Some y -> kv_mod y <> kv_mod x.
Proof. exact lease_live. Qed.
Print Assumptions C209_lease.

(** Two servers: server 1 has heard of [kb], written at server 0 with a lease of 20 s (ClusterWitness.v); then everybody
    gets turns: every request, the batching goroutine of server 1, the clock, a timer of server 1. *)
Definition cprefix : list caction := before_expiry.
Definition ccycle (n : nat) : cturn :=
  match n mod 6 with
  | 0 => COwn (n / 6 - Nat.sqrt (n / 6) * Nat.sqrt (n / 6)) NoFault
  | 1 => CStep (CWhole (KNode (NBatch 1 (BTake _))))
  | 2 => CStep (CWhole (KNode (NBatch 1 (BExecute _ BFNone))))
  | 3 => CStep (CWhole (KNode (NBatch 1 (BFinish _))))
  | 4 => CStep (CTime second)
  | _ => CStep (CFire 1 2)
  end%nat.
Definition cfair (t : nat) : cturn := match nth_error cprefix t with Some a => CStep a | None => ccycle (t - length cprefix) end.
Definition cstart : nat := length cprefix.
Lemma ccycle_at q r : (r < 6)%nat -> ccycle (6 * q + r) = match r with
  | 0 => COwn (q - Nat.sqrt q * Nat.sqrt q) NoFault
  | 1 => CStep (CWhole (KNode (NBatch 1 (BTake _))))
  | 2 => CStep (CWhole (KNode (NBatch 1 (BExecute _ BFNone))))
  | 3 => CStep (CWhole (KNode (NBatch 1 (BFinish _))))
  | 4 => CStep (CTime second)
  | _ => CStep (CFire 1 2)
  end%nat.
Proof.
  intros L. unfold ccycle. replace ((6 * q + r) mod 6)%nat with r; [|rewrite Nat.add_comm, Nat.mul_comm, Nat.mod_add by lia; symmetry; now apply Nat.mod_small].
  replace ((6 * q + r) / 6)%nat with q; [reflexivity|]. rewrite Nat.add_comm, Nat.mul_comm, Nat.div_add by lia. now rewrite Nat.div_small.
Qed.
Lemma cfair_later n : cfair (cstart + n) = ccycle n.
Proof.
  unfold cfair, cstart. rewrite (proj2 (nth_error_None cprefix (length cprefix + n))) by lia. f_equal. lia.
Qed.
Lemma cfair_again t r : (r < 6)%nat -> r <> 0%nat -> exists t', (t <= t')%nat /\ cfair t' = ccycle r.
Proof.
  intros L N. exists (cstart + (6 * t + r))%nat. split; [lia|]. rewrite cfair_later, ccycle_at by exact L. rewrite <- (Nat.add_0_l r) at 2.
  change (0 + r)%nat with (6 * 0 + r)%nat. rewrite ccycle_at by exact L. destruct r; [contradiction|reflexivity].
Qed.
Lemma cfair_cases (P : cturn -> Prop) : (forall pid, P (COwn pid NoFault)) -> (forall r, (r < 6)%nat -> r <> 0%nat -> P (ccycle r)) -> forall t, (cstart <= t)%nat -> P (cfair t).
Proof.
  intros H0 H1 t L. replace t with (cstart + (t - cstart))%nat by lia. rewrite cfair_later. generalize (t - cstart)%nat. intros n.
  pose proof (Nat.mod_upper_bound n 6 ltac:(lia)) as B. rewrite (Nat.div_mod n 6) by lia. generalize dependent (n mod 6)%nat. intros r B.
  rewrite ccycle_at by exact B. destruct r as [|r]; [apply H0|]. specialize (H1 (S r) B ltac:(lia)). replace (S r) with (6 * 0 + S r)%nat in H1 at 1 by lia. rewrite ccycle_at in H1 by exact B. exact H1.
Qed.
Lemma cfair_ok : forall t, cturn_ok clean true (cat cfg0 cfair t) (cfair t).
Proof.
  assert (C : forallb (fun t => match cfair t with CStep a => cokb (cat cfg0 cfair t) a | _ => false end) (List.seq 0 cstart) = true) by (vm_compute; reflexivity).
  intros t. destruct (Nat.lt_ge_cases t cstart) as [L|L].
  - rewrite forallb_forall in C. specialize (C t ltac:(apply in_seq; lia)). destruct (cfair t) as [|a]; [discriminate|]. now apply cokb_ok.
  - generalize (cat cfg0 cfair t). intros s. apply (cfair_cases (cturn_ok clean true s)); auto.
    + intros pid. cbn. unfold clean. cbn. auto.
    + intros [|[|[|[|[|[|r]]]]]] L' N'; try lia; cbn; try exact Logic.I. 
Qed.
Lemma cfair_time : time_passes cfg0 cfair.
Proof.
  assert (H : forall q : nat, exists t, Z.of_nat q <= c_clock (cat cfg0 cfair t)).
  { induction q as [|q (t & IH)]; [exists 0%nat; vm_compute; discriminate|]. destruct (cfair_again t 4) as (t' & L & E); [lia|lia|]. exists (S t').
    pose proof (clock_mono cfg0 clean true cfair cfair_ok t t' L) as M. cbn [cat]. rewrite E. cbn [ccycle]. change (ccycle 4) with (CStep (CTime second)). cbn [take_cturn ctry cstep c_clock]. unfold ctry. cbn [cstep c_clock].
    change second with 1000000000 in *. lia. }
  intros z. destruct (H (Z.to_nat z)) as (t & L). exists t. lia.
Qed.
Lemma cfair_own pid : cagain cfair (fun x => exists f, x = COwn pid f).
Proof.
  intros t. set (s := (t + pid)%nat). exists (cstart + (6 * (s * s + pid) + 0))%nat. split; [unfold s; nia|]. rewrite cfair_later, ccycle_at by lia. exists NoFault. f_equal.
  replace (Nat.sqrt (s * s + pid)) with s; [lia|]. symmetry. apply Nat.sqrt_unique. unfold s. nia.
Qed.
Example C209_nonvacuous : tolerant clean /\ (forall t, cturn_ok clean true (cat cfg0 cfair t) (cfair t)) /\
  (forall t', (cstart <= t')%nat -> ccalm (cfair t')) /\ undisturbed (k_node (c_whole (cat cfg0 cfair cstart))) /\
  has_timer (cat cfg0 cfair cstart) 1 2 kb 2 /\ (forall t', (cstart <= t')%nat -> cfair t' <> CStep (CWhole (KCrash 1))) /\
  time_passes cfg0 cfair /\ tries cfg0 cfair 1 2 kb 2 /\ (forall pid, cagain cfair (fun x => exists f, x = COwn pid f)) /\ cbatching 1 cfair /\
  now (commits (c_log (cat cfg0 cfair cstart))) kb = Some (KV kb v2 20 2 2) /\
  now (commits (c_log (cat cfg0 cfair (cstart + 180)))) kb = None /\
  (exists v g u, view (cat cfg0 cfair cstart) 1 = Some v /\ t_phase v = TPLoop 1 0 /\ nth_error (b_groups (t_b v)) 0 = Some g /\ t_ack v = Some 0%nat /\ g_taken g = 1%nat /\
    nth_error (g_updates g) 0 = Some u /\ u_rev u = 3 /\ in_range [0%N] [255%N] kb) /\
  (forall m, has_timer (cat cfg0 cfair cstart) 1 m kb 2 -> m = 2%nat).
Proof.
  split; [exact clean_tolerant|]. split; [exact cfair_ok|]. split.
  { apply cfair_cases; [reflexivity|]. intros [|[|[|[|[|[|r]]]]]] L' N'; try lia; cbn; auto. }
  split. { intros j b N. vm_compute in N. do 2 (destruct j as [|j]; [injection N as <-; split; [reflexivity|]; intros i jb E O; do 8 (destruct i as [|i]; [cbn in E; try discriminate; injection E as <-; discriminate|]); destruct i; discriminate|]). destruct j; discriminate. }
  split. { eexists _, _. split; [vm_compute; reflexivity|]. split; [vm_compute; reflexivity|]. split; reflexivity. }
  split. { apply (cfair_cases (fun x => x <> CStep (CWhole (KCrash 1)))); [discriminate|]. intros [|[|[|[|[|[|r]]]]]] L' N'; try lia; cbn; discriminate. }
  split; [exact cfair_time|]. split. { left. intros t. destruct (cfair_again t 5) as (t' & L & E); [lia|lia|]. exists t'. split; [exact L|]. now rewrite E. }
  split; [exact cfair_own|]. split.
  { split; [|split]; intros t.
    - destruct (cfair_again t 1) as (t' & L & E); [lia|lia|]. exists t'. split; [exact L|]. now rewrite E.
    - destruct (cfair_again t 2) as (t' & L & E); [lia|lia|]. exists t'. split; [exact L|]. exists BFNone. now rewrite E.
    - destruct (cfair_again t 3) as (t' & L & E); [lia|lia|]. exists t'. split; [exact L|]. now rewrite E. }
  split; [vm_compute; reflexivity|]. split; [vm_compute; reflexivity|]. split.
  { eexists _, _, _. split; [vm_compute; reflexivity|]. split; [vm_compute; reflexivity|]. split; [vm_compute; reflexivity|]. split; [vm_compute; reflexivity|]. split; [vm_compute; reflexivity|].
    split; [vm_compute; reflexivity|]. split; [vm_compute; reflexivity|]. split; [vm_compute; discriminate|vm_compute; reflexivity]. }
  intros m (v & tm & V & NT & K & R). assert (X : option_map (fun v => map (fun tm => (tm_key tm, tm_rev tm)) (t_timers v)) (view (cat cfg0 cfair cstart) 1) = Some [(ka, 1); (ka, 1); (kb, 2)]) by (vm_compute; reflexivity).
  rewrite V in X. cbn [option_map] in X. injection X as X. pose proof (map_nth_error (fun tm => (tm_key tm, tm_rev tm)) m (t_timers v) NT) as Y. rewrite X, K, R in Y.
  revert Y. clear. intros Y. destruct m as [|[|[|m]]]; [discriminate Y|discriminate Y|reflexivity|destruct m; discriminate Y].
Qed.
