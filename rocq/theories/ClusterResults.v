(** What follows for clients of a cluster with expiry. *)
From Coq Require Import List ZArith Bool Lia.
From Verif Require Import Bytes Spec Sql System Prog Backend Limited Api Pool Ledger Batch BatchKine Node Watch Stream Resume Whole.
From Verif Require Import SpecLemmas SqlLemmas Sim ProgLemmas Safety LedgerLemmas LedgerMore NodeProofs WatchLemmas WatchProofs WatchResults StreamProofs ResumeProofs WholeProofs WholeResults Ttl TtlProofs TtlLive Lease LeaseProofs Cluster ClusterProofs ClusterView.
From Verif Require Import Watch Stream Whole.
Import ListNotations.
Open Scope Z_scope.

Section Results.
Context (cfg : driver_cfg) (okf : fault -> Prop) (st : bool).
Hypothesis T : tolerant okf.

Lemma cluster_whole s : creach cfg okf st s -> kreach cfg okf st (c_whole s).
Proof. intros H. exact (I_reach _ _ _ _ (creach_CI cfg okf st T _ H)). Qed.

Lemma at_stamp s r t : 1 <= r -> nth_error (c_stamps s) (Z.to_nat (r - 1)) = Some t -> committed_at s r = Some t.
Proof. intros L E. unfold committed_at. destruct (Z.leb_spec 1 r); [exact E|lia]. Qed.
Lemma cluster_commit s A i e B : creach cfg okf st s -> c_log s = A ++ Committed i e :: B ->
  (exists t, In (Asked i (WTxn t)) A /\ warranted (WTxn t) e (commits A)) \/
  (now (commits A) (e_key e) = None /\ (e = Entry compact_rev_key (Put [] 0) \/ e = Entry health_key (Put health_value 0))) \/
  (exists x t t', e = Entry (kv_key x) Del /\ now (commits A) (kv_key x) = Some x /\ kv_lease x <> 0 /\
     committed_at s (kv_mod x) = Some t /\ committed_at s (revision (commits A) + 1) = Some t' /\
     (0 < kv_lease x <= 9223372035 -> t + kv_lease x * 1000000000 <= t')).
Proof.
  intros H E. pose proof (creach_CI cfg okf st T _ H) as J. destruct (whole_ledger cfg okf st (c_whole s) T (I_reach _ _ _ _ J)) as (l & HL & EL).
  pose proof E as E0. unfold c_log in E0. rewrite <- EL in E0. destruct (every_commit _ _ _ _ _ _ _ HL E0) as (q & Q1 & _ & Q3). destruct q as [t|r| | |k rev].
  - left. eauto.
  - destruct Q3.
  - right. left. destruct Q3 as [-> Q]. auto.
  - right. left. destruct Q3 as [Q Q']. auto.
  - right. right. destruct (I_done _ _ _ _ J _ _ _ _ _ _ E Q1) as (x & t & t' & X1 & X2 & X3 & X4 & X5 & X6).
    cbn [warranted] in Q3. destruct Q3 as [-> _]. destruct (now_facts _ _ _ X1) as (K & M & _).
    exists x, t, t'. rewrite K. split; [reflexivity|]. split; [exact X1|]. split; [exact X3|].
    split; [apply at_stamp; [lia|now rewrite X2]|]. split; [|exact X6].
    apply at_stamp; [unfold revision; lia|]. replace (Z.to_nat (revision (commits A) + 1 - 1)) with (length (commits A)) by (unfold revision; lia). exact X5.
Qed.
Lemma cluster_early s A i k B x t t' : creach cfg okf st s -> c_log s = A ++ Committed i (Entry k Del) :: B -> now (commits A) k = Some x ->
  committed_at s (kv_mod x) = Some t -> committed_at s (revision (commits A) + 1) = Some t' ->
  kv_lease x = 0 \/ 0 < kv_lease x <= 9223372035 /\ t' < t + kv_lease x * 1000000000 ->
  exists q, In (Asked i (WTxn q)) A /\ txn_key q = Some k /\ forall c, q = request c -> c = DeleteKey k (kv_mod x).
Proof.
  intros H E N T1 T2 L. destruct (cluster_commit s A i _ B H E) as [(q & Q1 & Q2 & Q3)|[(_ & [X|X])|(y & u & u' & Y1 & Y2 & Y3 & Y4 & Y5 & Y6)]]; try discriminate X.
  - exists q. split; [exact Q1|]. split; [exact Q2|]. intros c ->. destruct (Q3 c eq_refl) as [E1 E2]. destruct c; cbn in E1; try discriminate.
    injection E1 as <-. f_equal. cbn in E2. rewrite N in E2. unfold condition in E2. symmetry. exact E2.
  - injection Y1 as ->. rewrite Y2 in N. injection N as ->. rewrite Y4 in T1. injection T1 as ->. rewrite Y5 in T2. injection T2 as ->. destruct L as [L|[L1 L2]]; [contradiction|].
    specialize (Y6 L1). lia.
Qed.

Lemma cluster_server s j t : creach cfg okf st s -> view s j = Some t -> treach t /\ (st = true -> tcalm t).
Proof.
  intros H V. pose proof (V_view _ _ (creach_CV cfg okf st T _ H) _ _ V) as R. unfold rt in R. destruct st.
  - split; [apply tcalm_treach; exact R|auto].
  - split; [exact R|discriminate].
Qed.
End Results.
Lemma cluster_timer cfg okf s j t start i g n u k x : tolerant okf -> creach cfg okf true s -> view s j = Some t -> t_phase t = TPLoop start i ->
  nth_error (b_groups (t_b t)) i = Some g -> t_ack t = Some n -> (n < g_taken g)%nat -> nth_error (g_updates g) (g_taken g - 1) = Some u ->
  now (commits (c_log s)) k = Some x -> 0 < kv_lease x <= 9223372035 -> kv_mod x <= u_rev u -> (kv_mod x <= start \/ in_range [0%N] [255%N] k) ->
  exists m tm, nth_error (t_timers t) m = Some tm /\ tm_key tm = k /\ tm_rev tm = kv_mod x /\ tm_due tm <= c_clock s + kv_lease x * 1000000000 + 1000000000.
Proof.
  intros T H V P G AK TK U N L M C. destruct (cluster_server cfg okf true T s j t H V) as [TR TC]. specialize (TC eq_refl).
  pose proof (creach_CI cfg okf true T _ H) as J. destruct (view_TI cfg okf true T _ _ _ J V) as (TT & _).
  assert (HH : history_of (snd (b_world (t_b t))) = commits (c_log s) /\ t_now t = c_clock s).
  { unfold c_log. rewrite (whole_hist cfg okf true T _ (I_reach _ _ _ _ J)). unfold view in V. destruct (nth_error (k_servers _) j); [|discriminate].
    destruct (nth_error (c_expiry s) j); [|discriminate]. injection V as <-. split; reflexivity. }
  destruct HH as [HH HN]. rewrite <- HH in N.
  destruct (all_leased_have_timers t start i g n u k x TC P G AK TK U N ltac:(lia) M C) as (tm & I1 & T1 & T2 & T3).
  destruct (In_nth_error _ _ I1) as [m NM]. exists m, tm. split; auto. split; auto. split; auto.
  pose proof (timer_due t tm TT I1 ltac:(lia)) as D. rewrite T3, HN in D. exact D.
Qed.
