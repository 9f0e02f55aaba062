(** C201-C204: the whole system with lease expiry.
    [creach cfg okf st s]: [s] is a reachable state of any number of servers that share one
    database, each with requests in progress, a batching layer, a poller, watch streams and
    an expiry goroutine with its timers, under any interleaving, crashes, and passing of time
    (Cluster.v); the faults of requests satisfy [okf]; [st] = true: pollers, registrations and
    start-up scans are not too late and not cut short (Whole.v, Ttl.v).
    [c_log s]: everything that clients and timers asked for, everything committed and
    answered, in real-time order; [committed_at s r]: the time (in ns) at which revision [r] was
    committed; [view s j]: server [j] with its expiry goroutine, as in P_Ttl.v. *)
From Coq Require Import List ZArith Bool Lia.
From Verif Require Import Bytes Spec Sql System Prog Backend Limited Api Pool Ledger Batch BatchKine Node Watch Stream Resume Whole Ttl.
From Verif Require Import Demo WholeProofs TtlLive Cluster ClusterProofs ClusterView ClusterResults P_Whole ClusterWitness.
From Verif Require Import Watch Stream Whole.
Import ListNotations.
Open Scope Z_scope.

(** C201.  Every change that is ever committed in the cluster is one of these: it was asked for by a
    client, whose condition held; it creates one of the two keys servers need, which was absent; it
    deletes a key whose current version has a lease, and then - for leases of up to
    9223372035 s - at least the lease after that version was committed. *)
Theorem C201_commits : forall cfg okf st s A i e B, tolerant okf -> creach cfg okf st s -> c_log s = A ++ Committed i e :: B ->
  (exists t, In (Asked i (WTxn t)) A /\ warranted (WTxn t) e (commits A)) \/
  (now (commits A) (e_key e) = None /\ (e = Entry compact_rev_key (Put [] 0) \/ e = Entry health_key (Put health_value 0))) \/
  (exists x t t', e = Entry (kv_key x) Del /\ now (commits A) (kv_key x) = Some x /\ kv_lease x <> 0 /\
     committed_at s (kv_mod x) = Some t /\ committed_at s (revision (commits A) + 1) = Some t' /\
     (0 < kv_lease x <= 9223372035 -> t + kv_lease x * 1000000000 <= t')).
Proof. exact (fun cfg okf st s A i e B T => cluster_commit cfg okf st T s A i e B). Qed.
Print Assumptions C201_commits.
(** The commits are the content of the database, so nothing else changes it. *)
Theorem C201_content : forall cfg okf st s, tolerant okf -> creach cfg okf st s ->
  commits (c_log s) = history_of (snd (c_world s)) /\ length (c_stamps s) = length (commits (c_log s)).
Proof.
  intros cfg okf st s T H. pose proof (creach_CI cfg okf st T s H) as J. pose proof (whole_hist cfg okf st T _ (I_reach _ _ _ _ J)) as E.
  split; [exact E|]. unfold c_log. rewrite E. exact (I_len _ _ _ _ J).
Qed.
Print Assumptions C201_content.
(** All that is proved of requests and watches without expiry (C121-C126) holds in the
    cluster, with the deletions by timers among the commits. *)
Theorem C201_whole : forall cfg okf st s, tolerant okf -> creach cfg okf st s -> kreach cfg okf st (c_whole s).
Proof. exact (fun cfg okf st s T => cluster_whole cfg okf st T s). Qed.
Print Assumptions C201_whole.
Example C201_nonvacuous : tolerant clean /\ creach cfg0 clean true cfinal /\
  c_log cfinal = firstn 12 (c_log cfinal) ++ Committed 4 (Entry kb Del) :: skipn 13 (c_log cfinal) /\
  In (Asked 4 (WExpire kb 2)) (firstn 12 (c_log cfinal)) /\ now (commits (firstn 12 (c_log cfinal))) kb = Some (KV kb v2 20 2 2) /\
  committed_at cfinal 2 = Some (5 * second) /\ committed_at cfinal 4 = Some (65 * second).
Proof.
  split; [exact clean_tolerant|]. split; [exact cfinal_reach|]. split; [vm_compute; reflexivity|].
  split; [vm_compute; do 11 right; left; reflexivity|]. split; [exact (proj1 (proj2 (proj2 cfinal_log)))|]. split; vm_compute; reflexivity.
Qed.

(** C202.  A key whose current version has no lease, or a lease that has not run out yet, disappears
    only because a client asked for its deletion, and if that insisted on a version, on this one. *)
Theorem C202_kept : forall cfg okf st s A i k B x t t', tolerant okf -> creach cfg okf st s ->
  c_log s = A ++ Committed i (Entry k Del) :: B -> now (commits A) k = Some x ->
  committed_at s (kv_mod x) = Some t -> committed_at s (revision (commits A) + 1) = Some t' ->
  kv_lease x = 0 \/ 0 < kv_lease x <= 9223372035 /\ t' < t + kv_lease x * 1000000000 ->
  exists q, In (Asked i (WTxn q)) A /\ txn_key q = Some k /\ forall c, q = request c -> c = DeleteKey k (kv_mod x).
Proof. exact (fun cfg okf st s A i k B x t t' T => cluster_early cfg okf st T s A i k B x t t'). Qed.
Print Assumptions C202_kept.
(** [ka], overwritten without lease: its old timer has fired (request 3), in vain. *)
Example C202_nonvacuous : creach cfg0 clean true cfinal /\
  c_log cfinal = firstn 15 (c_log cfinal) ++ Committed 5 (Entry ka Del) :: skipn 16 (c_log cfinal) /\
  now (commits (firstn 15 (c_log cfinal))) ka = Some (KV ka v3 0 1 3) /\ committed_at cfinal 3 = Some (5 * second) /\
  committed_at cfinal (revision (commits (firstn 15 (c_log cfinal))) + 1) = Some (65 * second) /\ In (Asked 3 (WExpire ka 1)) (firstn 15 (c_log cfinal)).
Proof.
  split; [exact cfinal_reach|]. split; [vm_compute; reflexivity|]. split; [vm_compute; reflexivity|]. split; [vm_compute; reflexivity|]. split; [vm_compute; reflexivity|].
  vm_compute; do 9 right; left; reflexivity.
Qed.

(** C203.  Every server of the cluster, seen with its expiry goroutine alone, is in a state that
    P_Ttl.v and P_Lease.v are about, so C36, C86, C130, C154, C155 hold of it. *)
Theorem C203_server : forall cfg okf st s j t, tolerant okf -> creach cfg okf st s -> view s j = Some t -> treach t /\ (st = true -> tcalm t).
Proof. exact (fun cfg okf st s j t T => cluster_server cfg okf st T s j t). Qed.
Print Assumptions C203_server.
(** Nothing in the rest of the cluster blocks its next step ... *)
Theorem C203_moves : forall cfg okf st s j a, tolerant okf -> creach cfg okf st s -> (j < length (k_servers (c_whole s)))%nat ->
  match a with TBack _ | TTime _ | TAttempt _ _ => False | _ => True end ->
  exists t s', view s j = Some t /\ cstep cfg s (CExpiry j a) = Some s' /\ (caction_ok okf st s (CExpiry j a) -> view s' j = Some (tstep t a)).
Proof.
  intros cfg okf st s j a T H L O. destruct (expiry_possible cfg okf st T s j a H O L) as [s' E].
  assert (V : exists t, view s j = Some t) by (destruct a; try contradiction; cbn [cstep] in E; destruct (view s j); eauto; discriminate E).
  destruct V as [t V]. exists t, s'. split; [exact V|]. split; [exact E|]. intros OK.
  destruct (CV_own_step cfg okf st T s j a s' (creach_CI cfg okf st T s H) (creach_CV cfg okf st T s H) OK E) as (_ & t0 & V0 & V1). rewrite V in V0. now injection V0 as <-.
Qed.
Print Assumptions C203_moves.
Example C203_nonvacuous : creach cfg0 clean true cbefore /\ length (k_servers (c_whole cbefore)) = 2%nat /\
  exists t, view cbefore 1 = Some t /\ length (t_timers t) = 3%nat /\ t_phase t = TPLoop 1 0 /\ view cbefore 0 <> Some t.
Proof.
  split; [exact cbefore_reach|]. split; [vm_compute; reflexivity|]. eexists. split; [vm_compute; reflexivity|]. split; [vm_compute; reflexivity|]. split; [vm_compute; reflexivity|].
  vm_compute. discriminate.
Qed.

(** C204.  Wherever in the cluster a version with a lease of up to 9223372035 s was written: once a server,
    whose expiry goroutine is up, has received an update that covers the version, it has a timer for
    it, due at most the lease and one second later; (with the restrictions on keys of C37). *)
Theorem C204_timer : forall cfg okf s j t start i g n u k x, tolerant okf -> creach cfg okf true s -> view s j = Some t -> t_phase t = TPLoop start i ->
  nth_error (b_groups (t_b t)) i = Some g -> t_ack t = Some n -> (n < g_taken g)%nat -> nth_error (g_updates g) (g_taken g - 1) = Some u ->
  now (commits (c_log s)) k = Some x -> 0 < kv_lease x <= 9223372035 -> kv_mod x <= u_rev u -> (kv_mod x <= start \/ in_range [0%N] [255%N] k) ->
  exists m tm, nth_error (t_timers t) m = Some tm /\ tm_key tm = k /\ tm_rev tm = kv_mod x /\ tm_due tm <= c_clock s + kv_lease x * 1000000000 + 1000000000.
Proof. exact cluster_timer. Qed.
Print Assumptions C204_timer.
(** ... and a timer that is due can always ask its server for the deletion of that version, of that key. *)
Theorem C204_fires : forall cfg okf st s j t n tm, tolerant okf -> creach cfg okf st s -> view s j = Some t -> nth_error (t_timers t) n = Some tm -> tm_due tm <= c_clock s ->
  exists s', cstep cfg s (CFire j n) = Some s' /\ c_log s' = c_log s ++ [Asked (n_next (k_node (c_whole s))) (WExpire (tm_key tm) (tm_rev tm))].
Proof. exact (fun cfg okf st s j t n tm T => fire_possible cfg okf st T s j t n tm). Qed.
Print Assumptions C204_fires.
Example C204_nonvacuous : creach cfg0 clean true cbefore /\ now (commits (c_log cbefore)) kb = Some (KV kb v2 20 2 2) /\ in_range [0%N] [255%N] kb /\
  exists t g u, view cbefore 1 = Some t /\ t_phase t = TPLoop 1 0 /\ nth_error (b_groups (t_b t)) 0 = Some g /\ t_ack t = Some 0%nat /\ g_taken g = 1%nat /\
    nth_error (g_updates g) 0 = Some u /\ u_rev u = 3.
Proof.
  split; [exact cbefore_reach|]. split; [vm_compute; reflexivity|]. split; [split; [vm_compute; discriminate|vm_compute; reflexivity]|].
  eexists _, _, _. split; [vm_compute; reflexivity|]. split; [vm_compute; reflexivity|]. split; [vm_compute; reflexivity|]. split; [vm_compute; reflexivity|]. split; [vm_compute; reflexivity|].
  split; vm_compute; reflexivity.
Qed.
