(** A watch asked for: once it is confirmed it works. *)
From Coq Require Import List ZArith Bool Lia Arith.
From Verif Require Import Bytes Spec Sql System Prog Backend Limited Api Pool Ledger Batch BatchKine Node Fair Watch Stream Resume Whole.
From Verif Require Import SpecLemmas SqlLemmas Sim ProgLemmas Safety LedgerLemmas LedgerMore NodeProofs FairProofs WatchLemmas WatchProofs WatchResults StreamProofs ResumeProofs WholeProofs WholeResults Ttl TtlProofs TtlLive Lease LeaseProofs FairWatch FairWatchProofs FairCreateProofs FairTtl FairTtlProofs Cluster ClusterProofs ClusterView ExpireProofs ClusterExpire ClusterResults Calm CalmProofs ClusterFair ClusterFairProofs ClusterHearProofs ClusterWatchProofs.
From Verif Require Import Watch Stream Whole FairWatch ClusterFair.
Import ListNotations.
Open Scope Z_scope.

Section Run.
Variables (cfg : driver_cfg) (okf : fault -> Prop) (sch : nat -> kaction) (T j i conn n : nat) (id : Z) (lo hi : bytes) (start : Z).
Hypothesis TO : tolerant okf.
Hypothesis OK : forall t, kaction_ok okf true (kat cfg sch t) (sch t).
Hypothesis NC : forall t, (T <= t)%nat -> sch t <> KCrash j.
Hypothesis NK : forall t, (T <= t)%nat -> sch t <> KStream j i (SCancel id).
Hypothesis BE : forall t f, sch t = KBack j (AFetch f) -> bearable f.
Hypothesis WA : wanted (kat cfg sch T) j i conn n id lo hi start.
Definition alive (st : sstate) : Prop := exists g, group_of st = Some g /\ ~ In id (g_cancelled g) /\ b_dead (s_b st) = false.
Lemma alive_quiet st st' : quiet st st' -> alive st -> alive st'.
Proof. intros [Q1 Q2 _ _ Q5 _] (g & G & C & D). exists g. rewrite Q2, Q5. auto. Qed.
Lemma alive_all t : (T <= t)%nat -> exists st, stream_of (kat cfg sch t) j i = Some (conn, st) /\ alive st.
Proof.
  intros L. induction L as [|t L (st & ST & A)].
  - destruct WA as (_ & st & g & E & G & C & D). exists st. split; [exact E|]. exists g. auto.
  - assert (J : KI cfg okf true (kat cfg sch t)) by (apply (kat_KI' cfg okf true sch TO OK)).
    destruct (follow cfg okf true TO _ (sch t) j i conn st J (OK t) (NC t L) ST) as (st' & E & M). exists st'. cbn [kat]. split; [exact E|].
    assert (BK : forall act, (forall k, act <> AUnwatch k id) -> foreign (s_i st) act = true -> st' = with_b st (bstep (s_b st) act) -> b_dead (bstep (s_b st) act) = b_dead (s_b st) -> alive st').
    { intros act NU F V DD. destruct A as (g & G & C & D). destruct (foreign_group (s_b st) act (s_i st) g F G) as (g' & N' & _ & _ & _ & E4 & E5 & E6).
      exists g'. rewrite V. split; [exact N'|]. split; [|cbn [with_b s_b]; congruence]. first [now rewrite E5|now rewrite E4|now rewrite E6]. }
    destruct (sch t) as [x| |j'|j' a|j'|j' i' a] eqn:ES; cbn [moved] in M; try (eapply alive_quiet; eauto; fail).
    + destruct a as [op|f| | |k|k lo' hi' st1|k id' f|k id' f|k id'|k id'|k]; try (eapply alive_quiet; eauto; fail).
      * destruct (Nat.eqb_spec j' j) as [->|]; [|eapply alive_quiet; eauto]. apply (BK (AFetch f)); auto; try discriminate. apply fetch_bearable. eapply BE; eauto.
      * destruct (Nat.eqb_spec j' j) as [->|]; [|eapply alive_quiet; eauto]. apply (BK APublish); auto; try discriminate. cbn [bstep]. unfold publish_all. destruct (b_batch _); reflexivity.
    + destruct (_ && _) eqn:HERE; [|eapply alive_quiet; eauto]. apply andb_true_iff in HERE. rewrite !Nat.eqb_eq in HERE. destruct HERE as [-> ->].
      destruct (match a with SBack _ => true | _ => false end) eqn:SB; [destruct a; try discriminate; eapply alive_quiet; eauto|].
      assert (V : st' = sstep st a) by (destruct a; try discriminate; exact M).
      destruct A as (g & G & C & D).
      destruct (own_group st a g id ltac:(intros x ->; discriminate) G) as (g' & N' & _ & _ & _ & _ & CN & _ & _ & E3 & _).
      exists g'. rewrite V. split; [exact N'|]. split; [|congruence]. intros X. apply C. apply CN; [|exact X]. intros ->. exact (NK t L ES).
Qed.
Lemma answer_said l m : In m (answers conn l) -> In (Said conn m) l.
Proof.
  unfold answers. intros X. apply filter_In in X. destruct X as [X _]. unfold said in X. apply in_flat_map in X. destruct X as (x & X & Y).
  destruct x; cbn in Y; try contradiction. destruct (Nat.eqb_spec conn0 conn) as [->|]; [|contradiction]. destruct Y as [->|[]]. exact X.
Qed.
Lemma request_watched l : nth_error (requests conn l) n = Some (id, lo, hi, start) -> In (Watched conn id lo hi start) l.
Proof.
  intros X. apply nth_error_In in X. unfold requests in X. apply in_flat_map in X. destruct X as (x & X & Y).
  destruct x; cbn in Y; try contradiction. destruct (Nat.eqb_spec conn0 conn) as [->|]; [|contradiction]. destruct Y as [Y|[]]. injection Y as -> -> -> ->. exact X.
Qed.
Lemma requests_stay t : (T <= t)%nat -> nth_error (requests conn (k_log (kat cfg sch t))) n = Some (id, lo, hi, start).
Proof. intros L. destruct (kat_log cfg sch T t L) as [l ->]. rewrite requests_app. apply nth_app_some. apply WA. Qed.
(** confirmed: it is watched *)
Lemma confirmed t : (T <= t)%nat -> nth_error (answers conn (k_log (kat cfg sch t))) n = Some (MCreated id) -> watching (kat cfg sch t) j i conn id lo hi start.
Proof.
  intros L A. split; [apply request_watched, requests_stay, L|]. split; [apply answer_said; eapply nth_error_In; eauto|].
  destruct (alive_all t L) as (st & E & g & G & C & D). eauto 6.
Qed.
Hypothesis PO : polling j sch.
Hypothesis CO : consuming cfg j i sch.
Lemma confirmed_delivers t t0 R e : (T <= t)%nat -> nth_error (answers conn (k_log (kat cfg sch t))) n = Some (MCreated id) ->
  (t <= t0)%nat -> 1 <= R -> nth_error (commits (dids (k_log (kat cfg sch t0)))) (Z.to_nat (R - 1)) = Some e -> in_range lo hi (e_key e) ->
  (0 < start <= R \/ revision (commits (dids (k_log (kat cfg sch t)))) < R) ->
  exists t', (t <= t')%nat /\
    ((exists ev, received (k_log (kat cfg sch t')) conn id ev /\ ev_rev ev = R /\ truthful_event (commits (dids (k_log (kat cfg sch t')))) R ev) \/ closed (kat cfg sch t') j i).
Proof.
  intros L A L0 R1 N IR ST. apply (comes_out cfg okf sch t j i conn id lo hi start TO OK) with (t0 := t0) (e := e); auto.
  - intros u Lu. apply NC. lia.
  - intros u Lu. apply NK. lia.
  - now apply confirmed.
Qed.
Hypothesis CR : creating j i sch.
Lemma starts : exists t m, (T <= t)%nat /\ nth_error (answers conn (k_log (kat cfg sch t))) n = Some m /\
  ((exists rev, m = MCompacted rev) \/ (exists rev, m = MUnhealthy rev) \/
   m = MCreated id /\ forall t0 R e, (t <= t0)%nat -> 1 <= R -> nth_error (commits (dids (k_log (kat cfg sch t0)))) (Z.to_nat (R - 1)) = Some e -> in_range lo hi (e_key e) ->
     (0 < start <= R \/ revision (commits (dids (k_log (kat cfg sch t)))) < R) ->
     exists t', (t <= t')%nat /\
       ((exists ev, received (k_log (kat cfg sch t')) conn id ev /\ ev_rev ev = R /\ truthful_event (commits (dids (k_log (kat cfg sch t')))) R ev) \/ closed (kat cfg sch t') j i)).
Proof.
  destruct WA as (RQ & st & g & E & _).
  destruct (answered cfg okf true sch T j i conn st n id lo hi start TO OK NC E CR RQ) as (t & m & L & A & D).
  exists t, m. split; [exact L|]. split; [exact A|]. destruct D as [-> |[D|D]]; auto. right; right. split; [reflexivity|]. intros t0 R e. now apply confirmed_delivers.
Qed.
End Run.
(** ---- in a cluster ---- *)
Lemma ksch_creating cfg okf st sch j i : tolerant okf -> (forall t, cturn_ok okf st (cat cfg sch t) (sch t)) -> creates j i sch -> creating j i (ksch cfg sch).
Proof.
  intros TO OK (A & B & C). split; [|split]; intros t.
  - destruct (A t) as (t' & L & f & E). exists t', f. split; [exact L|]. now apply ksch_stream.
  - destruct (B t) as (t' & L & f & E). exists t', f. split; [exact L|]. now apply ksch_stream.
  - destruct (C t) as (t' & L & E). exists t'. split; [exact L|]. apply ksch_stream. now symmetry.
Qed.
Lemma cluster_starts cfg okf sch T0 j i conn n id lo hi start : tolerant okf -> (forall t, cturn_ok okf true (cat cfg sch t) (sch t)) ->
  wanted (c_whole (cat cfg sch T0)) j i conn n id lo hi start ->
  (forall t, (T0 <= t)%nat -> sch t <> CStep (CWhole (KCrash j))) -> (forall t, (T0 <= t)%nat -> sch t <> CStep (CWhole (KStream j i (SCancel id)))) ->
  polls j sch -> consumes cfg j i sch -> creates j i sch ->
  exists t m, (T0 <= t)%nat /\ nth_error (answers conn (k_log (c_whole (cat cfg sch t)))) n = Some m /\
  ((exists rev, m = MCompacted rev) \/ (exists rev, m = MUnhealthy rev) \/
   m = MCreated id /\ forall t0 R e, (t <= t0)%nat -> 1 <= R -> nth_error (commits (c_log (cat cfg sch t0))) (Z.to_nat (R - 1)) = Some e -> in_range lo hi (e_key e) ->
     (0 < start <= R \/ revision (commits (c_log (cat cfg sch t))) < R) ->
     exists t', (t <= t')%nat /\
       ((exists ev, received (k_log (c_whole (cat cfg sch t'))) conn id ev /\ ev_rev ev = R /\ truthful_event (commits (c_log (cat cfg sch t'))) R ev) \/ closed (c_whole (cat cfg sch t')) j i)).
Proof.
  intros TO OK WA NC NK PO CO CR. unfold c_log in *. rewrite (whole_at cfg sch) in WA.
  assert (NC' : forall t, (T0 <= t)%nat -> ksch cfg sch t <> KCrash j) by (intros t Lt E; apply ksch_from in E; exact (NC t Lt E)).
  assert (NK' : forall t, (T0 <= t)%nat -> ksch cfg sch t <> KStream j i (SCancel id)) by (intros t Lt E; apply ksch_from in E; exact (NK t Lt E)).
  assert (BE : forall t f, ksch cfg sch t = KBack j (AFetch f) -> bearable f) by (intros t f E; apply ksch_from in E; destruct PO as (_ & _ & P); exact (P t f E)).
  destruct (starts cfg okf (ksch cfg sch) T0 j i conn n id lo hi start TO (ksch_ok cfg okf true sch TO OK) NC' NK' BE WA) as (t & m & L & A & D).
  - now apply ksch_polling.
  - now apply ksch_consuming.
  - eapply ksch_creating; eauto.
  - exists t, m. rewrite (whole_at cfg sch). split; [exact L|]. split; [exact A|]. destruct D as [D|[D|[D1 D2]]]; auto. right; right. split; [exact D1|].
    intros t0 R e. specialize (D2 t0 R e). rewrite (whole_at cfg sch). intros X1 X2 X3 X4 X5. destruct (D2 X1 X2 X3 X4 X5) as (t' & L' & Y). exists t'. rewrite (whole_at cfg sch). auto.
Qed.
