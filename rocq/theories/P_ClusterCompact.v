(** C224, C225: compaction in a running cluster.
    [cat cfg sch t]: the state of the whole cluster - servers, clients, batching layer, compaction, polling, streams,
    crashes, expiry goroutines and their timers - after the first [t] turns of the infinite schedule [sch] (Cluster.v,
    ClusterFair.v).  [KNode (NAsk j WCompact)]: the compaction goroutine of server [j] begins a run
    (backend.go:281-295).  [ask]: what a read request would answer now (Observe.v).  [undisturbed]: Calm.v;
    [ccalm], [cagain], [cbatching]: ClusterFair.v. *)
From Coq Require Import List ZArith Bool Lia Arith.
From Verif Require Import Bytes Spec Sql System Prog Backend Limited Api Pool Ledger Observe Batch BatchKine Node Fair Calm Watch Stream Resume Whole Ttl.
From Verif Require Import Demo SpecLemmas NodeProofs Cluster ClusterFair ClusterFairProofs ClusterCompactProofs P_Whole.
From Verif Require Import Watch Stream Whole Calm.
Import ListNotations.
Open Scope Z_scope.

(** C224.  Whatever happened before: once the database answers, a compaction run that begins on a server that keeps
    running ends with success - whatever clients write meanwhile, through any server, whatever other servers, their
    compaction runs, pollers, streams and expiry goroutines do - and from then on every revision that was more than
    100 behind when the run began is refused, and the table has at most 200 rows more than there are live keys and
    two for each change since the run began. *)
Theorem C224_compacts : forall cfg okf st sch, tolerant okf -> (forall t, cturn_ok okf st (cat cfg sch t) (sch t)) ->
  forall t j tc, (forall t', (tc <= t')%nat -> ccalm (sch t')) -> undisturbed (k_node (c_whole (cat cfg sch tc))) -> (tc <= t)%nat ->
  sch t = CStep (CWhole (KNode (NAsk j WCompact))) -> (j < length (n_servers (k_node (c_whole (cat cfg sch t)))))%nat -> commits (c_log (cat cfg sch t)) <> [] ->
  let pid := n_next (k_node (c_whole (cat cfg sch t))) in
  (forall t', (t < t')%nat -> sch t' <> CStep (CWhole (KCrash j))) -> cagain sch (fun x => exists f, x = COwn pid f) -> cbatching j sch ->
  exists t', (t < t')%nat /\ In (Answered pid (ReDone (Ok tt))) (c_log (cat cfg sch t')) /\ forall t'', (t' <= t'')%nat ->
    (forall r, supported_range r -> bounded (c_world (cat cfg sch t'')) r -> r_revision r <> 0 -> r_revision r < revision (commits (c_log (cat cfg sch t))) - 100 ->
      ask cfg (c_world (cat cfg sch t'')) r = Err ECompacted) /\
    (forall live, (forall k, value_of cfg (c_world (cat cfg sch t'')) k <> None -> In k live) ->
      Z.of_nat (length (rows (fst (c_world (cat cfg sch t''))))) <=
      Z.of_nat (length live) + 200 + 2 * (current cfg (c_world (cat cfg sch t'')) - current cfg (c_world (cat cfg sch t)))).
Proof. exact cluster_compacts. Qed.
Print Assumptions C224_compacts.
(** ... so as long as the ticker of one server that keeps running ticks, every revision that is more than 100 behind
    the current one at some moment is sooner or later refused for good. *)
Theorem C224_again : forall cfg okf st sch, tolerant okf -> (forall t, cturn_ok okf st (cat cfg sch t) (sch t)) ->
  forall j tc t, (forall t', (tc <= t')%nat -> ccalm (sch t')) -> undisturbed (k_node (c_whole (cat cfg sch tc))) ->
  (j < length (n_servers (k_node (c_whole (cat cfg sch tc)))))%nat -> cagain sch (fun x => x = CStep (CWhole (KNode (NAsk j WCompact)))) ->
  (forall t', (tc <= t')%nat -> sch t' <> CStep (CWhole (KCrash j))) -> (forall pid, cagain sch (fun x => exists f, x = COwn pid f)) -> cbatching j sch ->
  exists t', forall t'' r, (t' <= t'')%nat -> supported_range r -> bounded (c_world (cat cfg sch t'')) r -> r_revision r <> 0 ->
    r_revision r < revision (commits (c_log (cat cfg sch t))) - 100 -> ask cfg (c_world (cat cfg sch t'')) r = Err ECompacted.
Proof. exact cluster_refused. Qed.
Print Assumptions C224_again.

(** Two servers; a client writes a key 110 times through server 0; then server 1 compacts, while a client of server 0 writes
    once more; then server 0 crashes, time passes, and server 1 compacts, again and again. *)
Definition ground_write (n : nat) : list cturn :=
  [CStep (CWhole (KNode (NAsk 0 (WTxn (request (match n with O => CreateKey ka v1 0 | _ => UpdateKey ka v2 (Z.of_nat n) 0 end))))));
   COwn n NoFault; CStep (CWhole (KNode (NBatch 0 (BTake _)))); CStep (CWhole (KNode (NBatch 0 (BExecute _ BFNone)))); CStep (CWhole (KNode (NBatch 0 (BFinish _)))); COwn n NoFault; COwn n NoFault].
Definition ground_run (pid : nat) : list cturn :=
  [COwn pid NoFault; CStep (CWhole (KNode (NBatch 1 (BTake _)))); CStep (CWhole (KNode (NBatch 1 (BExecute _ BFNone)))); CStep (CWhole (KNode (NBatch 1 (BFinish _))))].
Definition gbefore : list cturn := [CStep (CWhole KBoot); CStep (CWhole KBoot)] ++ flat_map ground_write (List.seq 0 110).
Definition gask : nat := length gbefore.
Definition gprefix : list cturn :=
  gbefore ++ CStep (CWhole (KNode (NAsk 1 WCompact))) :: ground_run 110 ++ 
  [CStep (CWhole (KNode (NAsk 0 (WTxn (request (UpdateKey ka v3 110 0))))))] ++ ground_run 110 ++ [COwn 111 NoFault; CStep (CWhole (KNode (NBatch 0 (BTake _)))); CStep (CWhole (KNode (NBatch 0 (BExecute _ BFNone)))); CStep (CWhole (KNode (NBatch 0 (BFinish _)))); COwn 111 NoFault; COwn 111 NoFault] ++
  flat_map (fun _ => ground_run 110) (List.seq 0 10).
Definition gcycle (n : nat) : cturn :=
  match n mod 7 with
  | 0 => COwn (n / 7 - Nat.sqrt (n / 7) * Nat.sqrt (n / 7)) NoFault
  | 1 => CStep (CWhole (KNode (NBatch 1 (BTake _))))
  | 2 => CStep (CWhole (KNode (NBatch 1 (BExecute _ BFNone))))
  | 3 => CStep (CWhole (KNode (NBatch 1 (BFinish _))))
  | 4 => CStep (CTime second)
  | 5 => CStep (CWhole (KCrash 0))
  | _ => CStep (CWhole (KNode (NAsk 1 WCompact)))
  end%nat.
Definition gend : nat := length gprefix.
Definition gfair (t : nat) : cturn := match nth_error gprefix t with Some x => x | None => gcycle (t - gend) end.
Lemma gfair_later n : gfair (gend + n) = gcycle n.
Proof. unfold gfair. rewrite (proj2 (nth_error_None gprefix (gend + n))) by (unfold gend; lia). f_equal. lia. Qed.
Lemma gcycle_at q r : (r < 7)%nat -> gcycle (7 * q + r) = match r with O => COwn (q - Nat.sqrt q * Nat.sqrt q) NoFault | _ => gcycle r end.
Proof.
  intros L. assert (M : ((7 * q + r) mod 7 = r)%nat) by (rewrite Nat.add_comm, Nat.mul_comm, Nat.mod_add by lia; now apply Nat.mod_small).
  assert (D : ((7 * q + r) / 7 = q)%nat) by (rewrite Nat.add_comm, Nat.mul_comm, Nat.div_add by lia; now rewrite Nat.div_small).
  unfold gcycle. rewrite M, D, (Nat.mod_small r 7) by exact L. destruct r; reflexivity.
Qed.
Lemma gfair_again t r : (r < 7)%nat -> r <> 0%nat -> exists t', (t <= t')%nat /\ gfair t' = gcycle r.
Proof.
  intros L N. exists (gend + (7 * t + r))%nat. split; [lia|]. rewrite gfair_later, gcycle_at by exact L. now destruct r.
Qed.
Lemma gfair_cases (P : cturn -> Prop) : (forall x, In x gprefix -> P x) -> (forall pid, P (COwn pid NoFault)) -> (forall r, (r < 7)%nat -> r <> 0%nat -> P (gcycle r)) -> forall t, P (gfair t).
Proof.
  intros HP H0 H1 t. destruct (Nat.lt_ge_cases t gend) as [L|L].
  - unfold gfair. destruct (nth_error gprefix t) as [x|] eqn:E; [apply HP; eapply nth_error_In; eauto|apply nth_error_None in E; unfold gend in L; lia].
  - replace t with (gend + (t - gend))%nat by lia. rewrite gfair_later. generalize (t - gend)%nat. intros n.
    pose proof (Nat.mod_upper_bound n 7 ltac:(lia)) as B. rewrite (Nat.div_mod n 7) by lia. rewrite gcycle_at by exact B.
    destruct (n mod 7)%nat as [|r]; [apply H0|]. apply H1; [exact B|discriminate].
Qed.
Lemma gfair_own pid : cagain gfair (fun x => exists f, x = COwn pid f).
Proof.
  intros t. set (s := (t + pid)%nat). exists (gend + (7 * (s * s + pid) + 0))%nat. split; [unfold s; nia|]. rewrite gfair_later, gcycle_at by lia. exists NoFault. f_equal.
  replace (Nat.sqrt (s * s + pid)) with s; [lia|]. symmetry. apply Nat.sqrt_unique. unfold s. nia.
Qed.
Lemma gprefix_in (P : cturn -> Prop) : P (CStep (CWhole KBoot)) -> (forall i k n, P (CStep (CWhole (KNode (NAsk i (WTxn (request (UpdateKey ka k n 0)))))))) ->
  P (CStep (CWhole (KNode (NAsk 0 (WTxn (request (CreateKey ka v1 0))))))) -> P (CStep (CWhole (KNode (NAsk 1 WCompact)))) -> (forall pid, P (COwn pid NoFault)) ->
  (forall j, P (CStep (CWhole (KNode (NBatch j (BTake _)))))) -> (forall j, P (CStep (CWhole (KNode (NBatch j (BExecute _ BFNone)))))) -> (forall j, P (CStep (CWhole (KNode (NBatch j (BFinish _)))))) ->
  forall x, In x gprefix -> P x.
Proof.
  intros P1 P2 P3 P4 P5 P6 P7 P8. assert (W : forall n, Forall P (ground_write n)) by (intros n; unfold ground_write; destruct n; repeat (apply Forall_cons; [auto|]); apply Forall_nil).
  assert (R : forall n, Forall P (ground_run n)) by (intros n; unfold ground_run; repeat (apply Forall_cons; [auto|]); apply Forall_nil).
  apply Forall_forall. unfold gprefix, gbefore. repeat (apply Forall_app; split); repeat (apply Forall_cons; [auto|]); auto.
Qed.
Definition refused_at (t : nat) (rev : Z) : bool :=
  match ask cfg0 (c_world (cat cfg0 gfair t)) (range ka [] 0 rev) with Err ECompacted => true | _ => false end.
Definition gsummary (t : nat) : nat * nat * nat * Z * nat :=
  let s := cat cfg0 gfair t in
  (length (n_servers (k_node (c_whole s))), n_next (k_node (c_whole s)), length (commits (c_log s)), current cfg0 (c_world s), length (rows (fst (c_world s)))).
Example C224_nonvacuous : tolerant Prog.any_fault /\ (forall t, cturn_ok Prog.any_fault false (cat cfg0 gfair t) (gfair t)) /\
  (forall t, ccalm (gfair t)) /\ undisturbed (k_node (c_whole (cat cfg0 gfair 0))) /\ undisturbed (k_node (c_whole (cat cfg0 gfair gask))) /\
  gfair gask = CStep (CWhole (KNode (NAsk 1 WCompact))) /\ gsummary gask = (2, 110, 110, 110%Z, 110)%nat /\
  (forall t, gfair t <> CStep (CWhole (KCrash 1))) /\ (forall pid, cagain gfair (fun x => exists f, x = COwn pid f)) /\ cbatching 1 gfair /\
  cagain gfair (fun x => x = CStep (CWhole (KNode (NAsk 1 WCompact)))) /\
  gsummary gend = (2, 112, 112, 112%Z, 101)%nat /\ existsb (fun x => match x with Answered 110 (ReDone (Ok tt)) => true | _ => false end) (c_log (cat cfg0 gfair gend)) = true /\
  map (refused_at gask) [1; 9; 10] = [false; false; false] /\ map (refused_at gend) [1; 9; 10; 11; 12; 13] = [true; true; true; true; false; false] /\
  supported_range (range ka [] 0 9) /\ bounded (c_world (cat cfg0 gfair gend)) (range ka [] 0 9).
Proof.
  split; [unfold tolerant, Prog.any_fault; auto|]. split.
  { intros t. generalize (cat cfg0 gfair t). intros s. apply (gfair_cases (cturn_ok Prog.any_fault false s)).
    - apply gprefix_in; cbn; unfold Prog.any_fault, work_ok; cbn; auto; discriminate.
    - cbn. unfold Prog.any_fault. auto.
    - intros r L N. do 7 (destruct r as [|r]; [cbn; unfold Prog.any_fault, work_ok; auto|]); lia. }
  split. { apply gfair_cases; [apply gprefix_in; cbn; auto|cbn; auto|]. intros r L N. do 7 (destruct r as [|r]; [cbn; auto|]); lia. }
  split. { intros [|j] b N; discriminate. }
  split.
  { assert (X : forallb (fun b => negb (kclosed b) && match kjobs b with [] => true | l => forallb (fun jb => match j_outcome _ _ jb with Some _ => true | None => false end) l end) (n_servers (k_node (c_whole (cat cfg0 gfair gask)))) = true) by (vm_compute; reflexivity).
    rewrite forallb_forall in X. intros j b N. apply nth_error_In in N. specialize (X b N). apply andb_true_iff in X. destruct X as [X1 X2]. apply negb_true_iff in X1. split; [exact X1|].
    intros i jb E O. destruct (kjobs b) as [|j0 l] eqn:KJ; [destruct i; discriminate|]. rewrite forallb_forall in X2. apply nth_error_In in E. specialize (X2 jb E). cbv beta in X2. rewrite O in X2. exact (False_ind _ (Bool.diff_false_true X2)). }
  split; [vm_compute; reflexivity|]. split; [vm_compute; reflexivity|]. split.
  { apply (gfair_cases (fun x => x <> CStep (CWhole (KCrash 1)))); [apply gprefix_in; try discriminate; intros; discriminate|discriminate|]. intros r L N. do 7 (destruct r as [|r]; [cbn; discriminate|]); lia. }
  split; [exact gfair_own|]. split.
  { split; [|split]; intros t.
    - destruct (gfair_again t 1) as (t' & L & E); [lia|lia|]. exists t'. split; [exact L|]. now rewrite E.
    - destruct (gfair_again t 2) as (t' & L & E); [lia|lia|]. exists t'. split; [exact L|]. exists BFNone. now rewrite E.
    - destruct (gfair_again t 3) as (t' & L & E); [lia|lia|]. exists t'. split; [exact L|]. now rewrite E. }
  split. { intros t. destruct (gfair_again t 6) as (t' & L & E); [lia|lia|]. exists t'. split; [exact L|]. now rewrite E. }
  split; [vm_compute; reflexivity|]. split; [vm_compute; reflexivity|]. split; [vm_compute; reflexivity|]. split; [vm_compute; reflexivity|].
  split; [repeat split; reflexivity|]. split; [split; vm_compute; discriminate|]. vm_compute. discriminate.
Qed.
