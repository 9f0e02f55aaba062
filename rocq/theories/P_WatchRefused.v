(** C225: a watch from a compacted revision is refused.
    [kat cfg sch t], [cat cfg sch t]: the state of the system (Whole.v, FairWatch.v) and of the whole cluster with its
    expiry goroutines (Cluster.v, ClusterFair.v) after the first [t] turns of the infinite schedule [sch].
    [ask]: what a read request would answer now (Observe.v); [requests conn l], [answers conn l]: the create requests
    received on a connection, and the answers to create requests sent on it, in order (FairWatch.v): the [n]-th answer
    belongs to the [n]-th request (C140).  [creates]: ServeRequests of the stream gets its turns (ClusterFair.v). *)
From Coq Require Import List ZArith Bool Lia Arith.
From Verif Require Import Bytes Spec Sql System Prog Backend Limited Api Pool Ledger Observe Batch BatchKine Node Fair Calm Watch Stream Resume Whole FairWatch Ttl.
From Verif Require Import Demo SpecLemmas NodeProofs ReadProofs FairCreateProofs Cluster ClusterFair ClusterFairProofs ClusterCompactProofs RefusedWatchProofs P_Whole P_ClusterCompact.
From Verif Require Import Watch Stream Whole FairWatch Calm Observe.
Import ListNotations.
Open Scope Z_scope.

(** C225.  At time [T] a read request [r] would be refused as compacted - through whichever server.  Server [j] does not
    crash; connection [conn] is stream [i] of that server.  Whatever all servers, clients and pollers do, and whatever
    queries fail: a create request that comes on this connection after [T], and asks for a watch from the revision of [r] or
    from an earlier one, is never answered with a confirmation. *)
Theorem C225_refused : forall cfg okf c sch T j i conn st0, tolerant okf -> (forall t, kaction_ok okf c (kat cfg sch t) (sch t)) ->
  (forall t, (T <= t)%nat -> sch t <> KCrash j) -> stream_of (kat cfg sch T) j i = Some (conn, st0) ->
  forall r, supported_range r -> bounded (n_world (k_node (kat cfg sch T))) r -> ask cfg (n_world (k_node (kat cfg sch T))) r = Err ECompacted ->
  forall t n id lo hi start, (T <= t)%nat -> (length (requests conn (k_log (kat cfg sch T))) <= n)%nat ->
  nth_error (requests conn (k_log (kat cfg sch t))) n = Some (id, lo, hi, start) -> 0 < start <= r_revision r ->
  forall id', nth_error (answers conn (k_log (kat cfg sch t))) n <> Some (MCreated id').
Proof. exact read_refused. Qed.
Print Assumptions C225_refused.

(** In the whole cluster.  And when the goroutine that serves the request gets its turns, the answer comes: it says that
    the revision is compacted, or, when a query failed, that the server is unhealthy. *)
Theorem C225_cluster : forall cfg okf c sch T j i conn st0, tolerant okf -> (forall t, cturn_ok okf c (cat cfg sch t) (sch t)) ->
  (forall t, (T <= t)%nat -> sch t <> CStep (CWhole (KCrash j))) -> stream_of (c_whole (cat cfg sch T)) j i = Some (conn, st0) ->
  forall r, supported_range r -> bounded (c_world (cat cfg sch T)) r -> ask cfg (c_world (cat cfg sch T)) r = Err ECompacted ->
  forall t n id lo hi start, (T <= t)%nat -> (length (requests conn (k_log (c_whole (cat cfg sch T)))) <= n)%nat ->
  nth_error (requests conn (k_log (c_whole (cat cfg sch t)))) n = Some (id, lo, hi, start) -> 0 < start <= r_revision r ->
  (forall id', nth_error (answers conn (k_log (c_whole (cat cfg sch t)))) n <> Some (MCreated id')) /\
  (creates j i sch -> exists t' m, (t <= t')%nat /\ nth_error (answers conn (k_log (c_whole (cat cfg sch t')))) n = Some m /\ ((exists rev, m = MCompacted rev) \/ exists rev, m = MUnhealthy rev)).
Proof. exact cluster_read_refused. Qed.
Print Assumptions C225_cluster.

(** With C224: so as long as the database answers and the compaction ticker of one server that keeps running ticks, no watch is
    confirmed any more, sooner or later, by any server, from a revision that was more than 100 behind at some moment [t0].
    (Revisions fit in 64 bits.) *)
Theorem C225_again : forall cfg okf c sch, tolerant okf -> (forall t, cturn_ok okf c (cat cfg sch t) (sch t)) ->
  forall j tc t0, (forall t', (tc <= t')%nat -> ccalm (sch t')) -> Calm.undisturbed (k_node (c_whole (cat cfg sch tc))) ->
  (j < length (n_servers (k_node (c_whole (cat cfg sch tc)))))%nat -> cagain sch (fun x => x = CStep (CWhole (KNode (NAsk j WCompact)))) ->
  (forall t', (tc <= t')%nat -> sch t' <> CStep (CWhole (KCrash j))) -> (forall pid, cagain sch (fun x => exists f, x = COwn pid f)) -> cbatching j sch ->
  exists t', forall T j' i conn st0, (t' <= T)%nat -> (forall t, (T <= t)%nat -> sch t <> CStep (CWhole (KCrash j'))) ->
    stream_of (c_whole (cat cfg sch T)) j' i = Some (conn, st0) -> revision (commits (c_log (cat cfg sch T))) <= int64_max ->
    forall t n id lo hi start, (T <= t)%nat -> (length (requests conn (k_log (c_whole (cat cfg sch T)))) <= n)%nat ->
    nth_error (requests conn (k_log (c_whole (cat cfg sch t)))) n = Some (id, lo, hi, start) -> 0 < start < revision (commits (c_log (cat cfg sch t0))) - 100 ->
    forall id', nth_error (answers conn (k_log (c_whole (cat cfg sch t)))) n <> Some (MCreated id').
Proof. exact sooner_or_later. Qed.
Print Assumptions C225_again.

(** ---- a case ---- *)
(** The schedule of P_ClusterCompact.v up to the compaction; then a client opens a watch stream at server 1 and asks for a
    watch from revision 9. *)
Definition rprefix : list cturn :=
  gprefix ++ [CStep (CWhole (KOpen 1)); CStep (CWhole (KStream 1 0 (SCreate 0 ka [] 9))); CStep (CWhole (KStream 1 0 (SCheck NoFault)))].
Definition rcycle (n : nat) : cturn :=
  match n mod 3 with
  | 0 => CStep (CWhole (KStream 1 0 (SCheck NoFault)))
  | 1 => CStep (CWhole (KStream 1 0 (SQuery NoFault)))
  | _ => CStep (CWhole (KStream 1 0 SFinish))
  end%nat.
Definition rfair (t : nat) : cturn := match nth_error rprefix t with Some x => x | None => rcycle (t - length rprefix) end.
Definition ropen : nat := S (length gprefix).
Lemma rfair_later n : rfair (length rprefix + n) = rcycle n.
Proof. unfold rfair. rewrite (proj2 (nth_error_None rprefix (length rprefix + n))) by lia. f_equal. lia. Qed.
Lemma rfair_cases (P : cturn -> Prop) : (forall x, In x gprefix -> P x) -> P (CStep (CWhole (KOpen 1))) -> P (CStep (CWhole (KStream 1 0 (SCreate 0 ka [] 9)))) ->
  P (CStep (CWhole (KStream 1 0 (SCheck NoFault)))) -> P (CStep (CWhole (KStream 1 0 (SQuery NoFault)))) -> P (CStep (CWhole (KStream 1 0 SFinish))) -> forall t, P (rfair t).
Proof.
  intros HP H1 H2 H3 H4 H5 t. unfold rfair. destruct (nth_error rprefix t) as [x|] eqn:E.
  - apply nth_error_In in E. unfold rprefix in E. apply in_app_iff in E. destruct E as [E|E]; [auto|]. cbn [In] in E. intuition (subst; auto).
  - unfold rcycle. destruct (Nat.modulo _ 3) as [|[|m]]; auto.
Qed.
Lemma rfair_again k : (k < 3)%nat -> forall t, exists t', (t <= t')%nat /\ rfair t' = rcycle k.
Proof.
  intros L t. exists (length rprefix + (t * 3 + k))%nat. split; [lia|]. rewrite rfair_later. unfold rcycle.
  replace (t * 3 + k)%nat with (k + t * 3)%nat by lia. rewrite Nat.mod_add by lia. reflexivity.
Qed.
Definition r_at (t : nat) : cstate := cat cfg0 rfair t.
Definition rsummary (t : nat) : list (Z * bytes * bytes * Z) * list msg * bool :=
  (requests 0 (k_log (c_whole (r_at t))), answers 0 (k_log (c_whole (r_at t))),
   match ask cfg0 (c_world (r_at t)) (range ka [] 0 9) with Err ECompacted => true | _ => false end).
Example C225_nonvacuous : tolerant Prog.any_fault /\ (forall t, cturn_ok Prog.any_fault false (r_at t) (rfair t)) /\
  (forall t, rfair t <> CStep (CWhole (KCrash 1))) /\ creates 1 0 rfair /\
  (exists st0, stream_of (c_whole (r_at ropen)) 1 0 = Some (0%nat, st0)) /\
  supported_range (range ka [] 0 9) /\ bounded (c_world (r_at ropen)) (range ka [] 0 9) /\
  rsummary ropen = ([], [], true) /\ rsummary (S ropen) = ([(1, ka, ka ++ [0%N], 9)], [], true) /\ rsummary (S (S ropen)) = ([(1, ka, ka ++ [0%N], 9)], [MCompacted 112], true).
Proof.
  split; [unfold tolerant, Prog.any_fault; auto|]. split.
  { intros t. generalize (r_at t). intros s. apply (rfair_cases (cturn_ok Prog.any_fault false s)); try (intros X; discriminate).
    - apply gprefix_in; cbn; unfold Prog.any_fault, work_ok; cbn; auto; discriminate.
    - exact Logic.I. }
  split. { apply (rfair_cases (fun x => x <> CStep (CWhole (KCrash 1)))); try discriminate. apply gprefix_in; try discriminate; intros; discriminate. }
  split. { split; [|split]; intros t.
    - destruct (rfair_again 0 ltac:(lia) t) as (t' & L & E). exists t'. split; [exact L|]. exists NoFault. exact E.
    - destruct (rfair_again 1 ltac:(lia) t) as (t' & L & E). exists t'. split; [exact L|]. exists NoFault. exact E.
    - destruct (rfair_again 2 ltac:(lia) t) as (t' & L & E). exists t'. split; [exact L|]. symmetry. exact E. }
  split. { assert (X : match stream_of (c_whole (r_at ropen)) 1 0 with Some (0%nat, _) => true | _ => false end = true) by (vm_compute; reflexivity).
    destruct (stream_of _ _ _) as [[[|x] st0]|]; try discriminate X. eauto. }
  split; [repeat split; reflexivity|]. split; [split; vm_compute; [split|]; discriminate|].
  split; [vm_compute; reflexivity|]. split; vm_compute; reflexivity.
Qed.

(** The same beginning; afterwards, as in P_ClusterCompact.v, server 0 crashes, time passes, and server 1 compacts, again and again. *)
Definition rgfair (t : nat) : cturn := match nth_error rprefix t with Some x => x | None => gcycle (t - length rprefix) end.
Lemma rgfair_later n : rgfair (length rprefix + n) = gcycle n.
Proof. unfold rgfair. rewrite (proj2 (nth_error_None rprefix (length rprefix + n))) by lia. f_equal. lia. Qed.
Lemma rgfair_cases (P : cturn -> Prop) : (forall x, In x gprefix -> P x) -> P (CStep (CWhole (KOpen 1))) -> P (CStep (CWhole (KStream 1 0 (SCreate 0 ka [] 9)))) ->
  P (CStep (CWhole (KStream 1 0 (SCheck NoFault)))) -> (forall pid, P (COwn pid NoFault)) -> (forall r, (r < 7)%nat -> r <> 0%nat -> P (gcycle r)) -> forall t, P (rgfair t).
Proof.
  intros HP H1 H2 H3 H4 H5 t. destruct (Nat.lt_ge_cases t (length rprefix)) as [L|L].
  - unfold rgfair. destruct (nth_error rprefix t) as [x|] eqn:E; [|apply nth_error_None in E; lia].
    apply nth_error_In in E. unfold rprefix in E. apply in_app_iff in E. destruct E as [E|E]; [auto|]. cbn [In] in E. intuition (subst; auto).
  - replace t with (length rprefix + (t - length rprefix))%nat by lia. rewrite rgfair_later. generalize (t - length rprefix)%nat. intros n.
    pose proof (Nat.mod_upper_bound n 7 ltac:(lia)) as B. rewrite (Nat.div_mod n 7) by lia. rewrite gcycle_at by exact B.
    destruct (n mod 7)%nat as [|r]; [apply H4|]. apply H5; [exact B|discriminate].
Qed.
Lemma rgfair_again t r : (r < 7)%nat -> r <> 0%nat -> exists t', (t <= t')%nat /\ rgfair t' = gcycle r.
Proof.
  intros L N. exists (length rprefix + (7 * t + r))%nat. split; [lia|]. rewrite rgfair_later, gcycle_at by exact L. now destruct r.
Qed.
Lemma rgfair_own pid : cagain rgfair (fun x => exists f, x = COwn pid f).
Proof.
  intros t. set (s := (t + pid)%nat). exists (length rprefix + (7 * (s * s + pid) + 0))%nat. split; [unfold s; nia|]. rewrite rgfair_later, gcycle_at by lia. exists NoFault. f_equal.
  replace (Nat.sqrt (s * s + pid)) with s; [lia|]. symmetry. apply Nat.sqrt_unique. unfold s. nia.
Qed.
Definition rg_at (t : nat) : cstate := cat cfg0 rgfair t.
Example C225_again_nonvacuous : tolerant Prog.any_fault /\ (forall t, cturn_ok Prog.any_fault false (rg_at t) (rgfair t)) /\
  (forall t, ccalm (rgfair t)) /\ Calm.undisturbed (k_node (c_whole (rg_at 2))) /\ (1 < length (n_servers (k_node (c_whole (rg_at 2)))))%nat /\
  (forall t, rgfair t <> CStep (CWhole (KCrash 1))) /\ (forall pid, cagain rgfair (fun x => exists f, x = COwn pid f)) /\ cbatching 1 rgfair /\
  cagain rgfair (fun x => x = CStep (CWhole (KNode (NAsk 1 WCompact)))) /\
  (exists st0, stream_of (c_whole (rg_at ropen)) 1 0 = Some (0%nat, st0)) /\ revision (commits (c_log (rg_at ropen))) = 112 /\
  (length (requests 0 (k_log (c_whole (rg_at ropen)))) <= 0)%nat /\ nth_error (requests 0 (k_log (c_whole (rg_at (S ropen))))) 0 = Some (1, ka, ka ++ [0%N], 9).
Proof.
  split; [unfold tolerant, Prog.any_fault; auto|]. split.
  { intros t. generalize (rg_at t). intros s. apply (rgfair_cases (cturn_ok Prog.any_fault false s)); try (intros X; discriminate).
    - apply gprefix_in; cbn; unfold Prog.any_fault, work_ok; cbn; auto; discriminate.
    - exact Logic.I.
    - cbn. unfold Prog.any_fault. auto.
    - intros r L N. do 7 (destruct r as [|r]; [cbn; unfold Prog.any_fault, work_ok; auto|]); lia. }
  split. { apply rgfair_cases; [apply gprefix_in; cbn; auto|cbn; auto|cbn; auto|cbn; auto|cbn; auto|]. intros r L N. do 7 (destruct r as [|r]; [cbn; auto|]); lia. }
  split.
  { assert (X : forallb (fun b => negb (kclosed b) && match kjobs b with [] => true | l => forallb (fun jb => match j_outcome _ _ jb with Some _ => true | None => false end) l end) (n_servers (k_node (c_whole (rg_at 2)))) = true) by (vm_compute; reflexivity).
    rewrite forallb_forall in X. intros j b N. apply nth_error_In in N. specialize (X b N). apply andb_true_iff in X. destruct X as [X1 X2]. apply negb_true_iff in X1. split; [exact X1|].
    intros i jb E O. destruct (kjobs b) as [|j0 l] eqn:KJ; [destruct i; discriminate|]. rewrite forallb_forall in X2. apply nth_error_In in E. specialize (X2 jb E). cbv beta in X2. rewrite O in X2. exact (False_ind _ (Bool.diff_false_true X2)). }
  split; [vm_compute; lia|]. split.
  { apply (rgfair_cases (fun x => x <> CStep (CWhole (KCrash 1)))); try discriminate; [apply gprefix_in; try discriminate; intros; discriminate|]. intros r L N. do 7 (destruct r as [|r]; [cbn; discriminate|]); lia. }
  split; [exact rgfair_own|]. split.
  { split; [|split]; intros t.
    - destruct (rgfair_again t 1) as (t' & L & E); [lia|lia|]. exists t'. split; [exact L|]. now rewrite E.
    - destruct (rgfair_again t 2) as (t' & L & E); [lia|lia|]. exists t'. split; [exact L|]. exists BFNone. now rewrite E.
    - destruct (rgfair_again t 3) as (t' & L & E); [lia|lia|]. exists t'. split; [exact L|]. now rewrite E. }
  split. { intros t. destruct (rgfair_again t 6) as (t' & L & E); [lia|lia|]. exists t'. split; [exact L|]. now rewrite E. }
  split. { assert (X : match stream_of (c_whole (rg_at ropen)) 1 0 with Some (0%nat, _) => true | _ => false end = true) by (vm_compute; reflexivity).
    destruct (stream_of _ _ _) as [[[|x] st0]|]; try discriminate X. eauto. }
  split; [vm_compute; reflexivity|]. split; [vm_compute; apply le_n|]. vm_compute. reflexivity.
Qed.
