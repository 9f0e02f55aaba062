(** Proofs for C228: list-and-watch clients agree at last. *)
From Coq Require Import List ZArith Bool Lia Arith.
From Verif Require Import Bytes Spec Sql System Prog Backend Limited Api Pool Ledger Batch BatchKine Node Fair Watch Stream Resume Whole Reflector.
From Verif Require Import SpecLemmas SqlLemmas Sim ReadLemmas ProgLemmas ReadProgs ReadProofs Safety LedgerLemmas LedgerMore LedgerReads NodeProofs WholeProofs WholeResults ReflectorProofs FairWatch FairWatchProofs FairCreateProofs Ttl Cluster ClusterProofs ClusterResults ClusterFair ClusterFairProofs ClusterWatchProofs ConvergeProofs ConfirmedProofs Holder.
From Verif Require Import Watch Stream Whole FairWatch ClusterFair Reflector.
Import ListNotations.
Open Scope Z_scope.

Lemma list_fresh cfg s lo hi before during after i resp : kreach cfg clean true s -> hi <> [] ->
  answered_request (dids (k_log s)) before during after i (WRange (range lo hi 0 0)) (ReRange (Ok resp)) -> revision (commits during) <= 100 ->
  revision (commits before) <= rr_header resp.
Proof.
  intros H HI AN DU. assert (T : tolerant clean) by (unfold tolerant, clean; cbn; auto).
  destruct (whole_ledger _ _ _ _ T H) as (l & R & LG). pose proof AN as AN'. rewrite <- LG in AN'.
  destruct (read_linear cfg l before during after i (range lo hi 0 0) resp R) as (D1 & D2 & L & ED & CO & HD & _ & PG); auto.
  { split; [|split]; [repeat split; auto|vm_compute; split; congruence|vm_compute; congruence]. }
  cbn [range r_range_end r_count_only r_limit r_key r_revision] in *. destruct hi as [|x hi]; [congruence|].
  destruct PG as (_ & _ & PM). cbn in PM. specialize (HD PM). rewrite HD, commits_app, revision_app. pose proof (revision_nonneg (commits D1)). lia.
Qed.
Section Run.
Variables (cfg : driver_cfg) (sch : nat -> cturn).
Hypothesis OK : forall t, cturn_ok clean true (cat cfg sch t) (sch t).
Let h (t : nat) : history := commits (c_log (cat cfg sch t)).
Lemma TOc : tolerant clean.
Proof. unfold tolerant, clean; cbn; auto. Qed.
Lemma hist_grows t t' : (t <= t')%nat -> exists l, h t' = h t ++ l.
Proof.
  intros L. unfold h, c_log. rewrite !(whole_at cfg sch). destruct (kat_log cfg (ksch cfg sch) t t' L) as [l ->]. rewrite dids_app, commits_app. eauto.
Qed.
Lemma rev_grows t t' : (t <= t')%nat -> revision (h t) <= revision (h t').
Proof. intros L. destruct (hist_grows t t' L) as [l ->]. rewrite revision_app. pose proof (revision_nonneg l). lia. Qed.
Lemma rest_later t0 t1 lo hi : (t0 <= t1)%nat -> at_rest cfg sch t0 lo hi -> at_rest cfg sch t1 lo hi.
Proof.
  intros L R t r x L1 RR. apply (R t r x); [lia|]. pose proof (rev_grows t0 t1 L) as Q. unfold h in Q. eapply Z.le_lt_trans; [exact Q|exact RR].
Qed.
Lemma client_settles T j i conn n id lo hi resp t0 : has_asked cfg sch T j i conn n id lo hi resp -> is_served cfg sch T j i conn n id resp -> at_rest cfg sch t0 lo hi ->
  (exists t1, closed (c_whole (cat cfg sch t1)) j i) \/
  exists t1, (t0 <= t1)%nat /\ forall t2, (t1 <= t2)%nat -> copy_at (h t2) (revision (h t2)) lo hi (held cfg sch conn id resp t2).
Proof.
  intros (HI & (before & during & after & li & LI & DU) & WA & UN) (NC & NK & WE & RE & PO & CO & CR) R.
  destruct (confirmed_catches cfg sch T j i conn n id lo hi before during after li resp OK NC NK WE HI LI DU WA UN RE PO CO CR) as (t & L & _ & _ & D).
  pose proof (rest_later t0 (Nat.max t t0) lo hi ltac:(lia) R) as R'.
  destruct (D (Nat.max t t0) ltac:(lia) R') as (t1 & L1 & [X|X]); [left; eauto|]. right. exists (Nat.max t0 t1). split; [lia|]. intros t2 L2. apply X. lia.
Qed.
Lemma clients_agree T j i conn n id lo hi resp T' j' i' conn' n' id' lo' hi' resp' t0 :
  has_asked cfg sch T j i conn n id lo hi resp -> is_served cfg sch T j i conn n id resp -> at_rest cfg sch t0 lo hi ->
  has_asked cfg sch T' j' i' conn' n' id' lo' hi' resp' -> is_served cfg sch T' j' i' conn' n' id' resp' -> at_rest cfg sch t0 lo' hi' ->
  (exists t1, closed (c_whole (cat cfg sch t1)) j i \/ closed (c_whole (cat cfg sch t1)) j' i') \/
  exists t1, (t0 <= t1)%nat /\ forall t2 k, (t1 <= t2)%nat -> in_range lo hi k -> in_range lo' hi' k -> held cfg sch conn id resp t2 k = held cfg sch conn' id' resp' t2 k.
Proof.
  intros A S R A' S' R'. destruct (client_settles _ _ _ _ _ _ _ _ _ _ A S R) as [(t1 & C)|(t1 & L & H)]; [left; eauto|].
  destruct (client_settles _ _ _ _ _ _ _ _ _ _ A' S' R') as [(t2 & C)|(t2 & L' & H')]; [left; eauto|].
  right. exists (Nat.max t1 t2). split; [lia|]. intros t k L2 K K'.
  destruct (H t ltac:(lia) k) as [E _]. destruct (H' t ltac:(lia) k) as [E' _]. rewrite (E K), (E' K'). reflexivity.
Qed.
Lemma reader_agrees T j i conn n id lo hi resp t0 : has_asked cfg sch T j i conn n id lo hi resp -> is_served cfg sch T j i conn n id resp -> at_rest cfg sch t0 lo hi ->
  (exists t1, closed (c_whole (cat cfg sch t1)) j i) \/
  exists t1, (t0 <= t1)%nat /\ forall t2 early during after li lo' hi' resp', (t1 <= t2)%nat -> hi' <> [] ->
    answered_request (c_log (cat cfg sch t2)) (c_log (cat cfg sch t1) ++ early) during after li (WRange (range lo' hi' 0 0)) (ReRange (Ok resp')) -> revision (commits during) <= 100 ->
    forall k, in_range lo hi k -> in_range lo' hi' k -> held cfg sch conn id resp t2 k = copy_of (rr_kvs resp') k.
Proof.
  intros A S R. destruct (client_settles _ _ _ _ _ _ _ _ _ _ A S R) as [(t1 & C)|(t1 & L & H)]; [left; eauto|].
  right. exists t1. split; [exact L|]. intros t2 early during after li lo' hi' resp' L2 HI AN DU k K K'.
  assert (KR : kreach cfg clean true (c_whole (cat cfg sch t2))) by (apply (cluster_whole cfg clean true TOc), cat_reach; exact OK).
  unfold c_log at 1 in AN. destruct (list_snapshot cfg _ lo' hi' _ during after li resp' KR HI AN DU) as (B & SN).
  pose proof (list_fresh cfg _ lo' hi' _ during after li resp' KR HI AN DU) as FR.
  fold (c_log (cat cfg sch t2)) in B, SN. fold (h t2) in B, SN. rewrite commits_app, revision_app in FR. fold (h t1) in FR. pose proof (revision_nonneg (commits early)) as NN.
  destruct (copy_of_snapshot _ _ _ _ _ k SN) as [E _]. rewrite (E K'). destruct (H t2 L2 k) as [E2 _]. rewrite (E2 K).
  apply kv_at_unchanged; [lia|]. intros r x [R1 R2] EX. intros EK. apply (R t2 r x); [lia| | |now rewrite EK].
  - pose proof (rev_grows t0 t1 L) as Q. fold (h t0). lia.
  - unfold ent in EX. destruct (1 <=? r); [exact EX|discriminate].
Qed.
End Run.
