(** List-and-watch clients catch up. *)
From Coq Require Import List ZArith Bool Lia Arith.
From Verif Require Import Bytes Spec Sql System Prog Backend Limited Api Pool Ledger Batch BatchKine Node Fair Watch Stream Resume Whole Reflector.
From Verif Require Import SpecLemmas SqlLemmas Sim ReadLemmas ProgLemmas ReadProgs ReadProofs Safety LedgerLemmas LedgerMore LedgerReads NodeProofs FairProofs WatchLemmas WatchProofs WatchResults StreamProofs ResumeProofs WholeProofs WholeResults ReflectorProofs Ttl TtlProofs TtlLive Lease LeaseProofs FairWatch FairWatchProofs FairCreateProofs FairTtl FairTtlProofs Cluster ClusterProofs ClusterView ExpireProofs ClusterExpire ClusterResults Calm CalmProofs ClusterFair ClusterFairProofs ClusterHearProofs ClusterWatchProofs WatchStartProofs.
From Verif Require Import Watch Stream Whole FairWatch ClusterFair Reflector.
Import ListNotations.
Open Scope Z_scope.

(** what a list has read stays the content of its revision *)
Lemma list_snapshot cfg s lo hi before during after i resp : kreach cfg clean true s -> hi <> [] ->
  answered_request (dids (k_log s)) before during after i (WRange (range lo hi 0 0)) (ReRange (Ok resp)) -> revision (commits during) <= 100 ->
  0 <= rr_header resp <= revision (commits (dids (k_log s))) /\ is_snapshot (commits (dids (k_log s))) (rr_header resp) lo hi (rr_kvs resp).
Proof.
  intros H HI AN DU. assert (T : tolerant clean) by (unfold tolerant, clean; cbn; auto). set (h := commits (dids (k_log s))).
  destruct (whole_ledger _ _ _ _ T H) as (l & R & LG). pose proof AN as AN'. rewrite <- LG in AN'.
  destruct (read_linear cfg l before during after i (range lo hi 0 0) resp R) as (D1 & D2 & L & ED & CO & HD & _ & PG); auto.
  { split; [|split]; [repeat split; auto|vm_compute; split; congruence|vm_compute; congruence]. }
  cbn [range r_range_end r_count_only r_limit r_key r_revision] in *. destruct hi as [|x hi]; [congruence|].
  cbn [content] in CO. destruct PG as (PK & _ & PM). cbn in PM.
  specialize (HD PM). rewrite <- HD in CO. assert (PK' : rr_kvs resp = L) by (rewrite PK; unfold page; cbn; reflexivity).
  assert (HN : 0 <= rr_header resp) by (rewrite HD; apply revision_nonneg).
  assert (EH : exists M, h = commits (before ++ D1) ++ M).
  { unfold h. rewrite AN, ED. replace (before ++ Asked i (WRange (range lo (x :: hi) 0 0)) :: (D1 ++ D2) ++ Answered i (ReRange (Ok resp)) :: after)
      with ((before ++ [Asked i (WRange (range lo (x :: hi) 0 0))]) ++ D1 ++ (D2 ++ Answered i (ReRange (Ok resp)) :: after)) by (rewrite <- !app_assoc; reflexivity).
    rewrite app_assoc, commits_app. replace (commits ((before ++ [Asked i (WRange (range lo (x :: hi) 0 0))]) ++ D1)) with (commits (before ++ D1)) by (rewrite !commits_app; cbn; now rewrite app_nil_r).
    eauto. }
  destruct EH as (M & EH). split.
  - split; [exact HN|]. rewrite EH, HD, revision_app. pose proof (revision_nonneg M). lia.
  - rewrite PK', EH. destruct CO as [S1 S2]. split; [exact S1|]. intros y. rewrite S2, kv_at_app by lia. tauto.
Qed.

(** the last change of a range up to a revision *)
Lemma last_change h lo hi a : forall m, 
  (forall r x, a < r <= a + Z.of_nat m -> ent h r = Some x -> ~ in_range lo hi (e_key x)) \/
  exists R x, a < R <= a + Z.of_nat m /\ ent h R = Some x /\ in_range lo hi (e_key x) /\
    forall r y, R < r <= a + Z.of_nat m -> ent h r = Some y -> ~ in_range lo hi (e_key y).
Proof.
  induction m as [|m IH]; [left; intros r x RR; lia|].
  set (N := a + Z.of_nat (S m)). assert (EN : N = a + Z.of_nat m + 1) by (unfold N; lia).
  destruct (ent h N) as [x|] eqn:E.
  - destruct (in_range_b lo hi (e_key x)) eqn:B.
    + right. exists N, x. split; [lia|]. split; [exact E|]. split; [now apply in_range_b_iff|]. intros r y RR. lia.
    + assert (NB : ~ in_range lo hi (e_key x)) by (intros X; apply in_range_b_iff in X; congruence).
      destruct IH as [IH|(R & y & IH1 & IH2 & IH3 & IH4)].
      * left. intros r y RR EY. destruct (Z.eq_dec r N) as [->|]; [congruence|apply (IH r y); auto; lia].
      * right. exists R, y. split; [lia|]. split; [exact IH2|]. split; [exact IH3|]. intros r z RR EZ. destruct (Z.eq_dec r N) as [->|]; [congruence|apply (IH4 r z); auto; lia].
  - destruct IH as [IH|(R & y & IH1 & IH2 & IH3 & IH4)].
    * left. intros r y RR EY. destruct (Z.eq_dec r N) as [->|]; [congruence|apply (IH r y); auto; lia].
    * right. exists R, y. split; [lia|]. split; [exact IH2|]. split; [exact IH3|]. intros r z RR EZ. destruct (Z.eq_dec r N) as [->|]; [congruence|apply (IH4 r z); auto; lia].
Qed.
Lemma copy_later h lo hi c b N : 0 <= b <= N -> (forall r x, b < r <= N -> ent h r = Some x -> ~ in_range lo hi (e_key x)) -> copy_at h b lo hi c -> copy_at h N lo hi c.
Proof.
  intros L NO C k. destruct (C k) as [C1 C2]. split; [|exact C2]. intros IR. rewrite (C1 IR). symmetry. apply kv_at_unchanged; [exact L|].
  intros r x RR X E. apply (NO r x RR X). now rewrite E.
Qed.
Lemma ent_more h l r x : ent h r = Some x -> ent (h ++ l) r = Some x.
Proof. unfold ent. destruct (1 <=? r); [|discriminate]. apply nth_app_some. Qed.
Lemma ent_le h r x : ent h r = Some x -> 1 <= r <= revision h.
Proof.
  unfold ent. destruct (1 <=? r) eqn:E; [|discriminate]. apply Z.leb_le in E. intros X. assert (Y : nth_error h (Z.to_nat (r - 1)) <> None) by congruence. apply nth_error_Some in Y. unfold revision. lia.
Qed.
Lemma ent_less h l r : r <= revision h -> ent (h ++ l) r = ent h r.
Proof. unfold ent, revision. intros L. destruct (1 <=? r) eqn:E; [|reflexivity]. apply Z.leb_le in E. apply nth_error_app1. lia. Qed.
Lemma kat_reach cfg okf c sch t : (forall t, kaction_ok okf c (kat cfg sch t) (sch t)) -> kreach cfg okf c (kat cfg sch t).
Proof.
  intros OK. induction t as [|t IH]; [constructor|]. cbn [kat]. unfold ktry. destruct (kstep cfg (kat cfg sch t) (sch t)) as [s'|] eqn:E; [|exact IH]. econstructor; eauto.
Qed.

Section Run.
Variables (cfg : driver_cfg) (sch : nat -> kaction) (T j i conn n : nat) (id : Z) (lo hi : bytes).
Variables (before during after : ledger) (li : nat) (resp : range_resp).
Hypothesis OK : forall t, kaction_ok clean true (kat cfg sch t) (sch t).
Hypothesis NC : forall t, (T <= t)%nat -> sch t <> KCrash j.
Hypothesis NK : forall t, (T <= t)%nat -> sch t <> KStream j i (SCancel id).
Hypothesis BE : forall t f, sch t = KBack j (AFetch f) -> bearable f.
Hypothesis HI : hi <> [].
Hypothesis LI : answered_request (dids (k_log (kat cfg sch T))) before during after li (WRange (range lo hi 0 0)) (ReRange (Ok resp)).
Hypothesis DU : revision (commits during) <= 100.
Hypothesis WA : wanted (kat cfg sch T) j i conn n id lo hi (rr_header resp + 1).
Let TO : tolerant clean. Proof. unfold tolerant, clean; cbn; auto. Qed.
Definition clog (t : nat) : history := commits (dids (k_log (kat cfg sch t))).
Definition client (t : nat) : copy := mirror (rr_kvs resp) (newer (rr_header resp) (sent (said conn (k_log (kat cfg sch t))) id)).
Lemma clog_grows t t' : (t <= t')%nat -> exists l, clog t' = clog t ++ l.
Proof. intros L. destruct (kat_log cfg sch t t' L) as [l E]. unfold clog. rewrite E, dids_app, commits_app. eauto. Qed.
Lemma listed t : (T <= t)%nat -> 0 <= rr_header resp <= revision (clog t) /\ is_snapshot (clog t) (rr_header resp) lo hi (rr_kvs resp).
Proof.
  intros L. destruct (kat_log cfg sch T t L) as [l E].
  apply (list_snapshot cfg (kat cfg sch t) lo hi before during (after ++ dids l) li resp); auto; [now apply kat_reach|].
  unfold answered_request in *. rewrite E, dids_app, LI. rewrite <- !app_assoc. cbn. rewrite <- !app_assoc. reflexivity.
Qed.
Lemma client_right t : (T <= t)%nat -> exists b, rr_header resp <= b /\ b <= revision (clog t) /\
  (forall ev, received (k_log (kat cfg sch t)) conn id ev -> ev_rev ev <= b) /\ copy_at (clog t) b lo hi (client t).
Proof.
  intros L. destruct (alive_all cfg clean sch T j i conn n id lo hi (rr_header resp + 1) TO OK NC NK BE WA t L) as (st & ST & _).
  destruct (stream_inv cfg clean true TO _ j i conn st (kat_KI' cfg clean true sch TO OK t) ST) as (v & st0 & _ & _ & _ & SC & SA & W & HH).
  cbn [rs] in SC. destruct (sreach_SI _ (scalm_sreach _ SC)) as [g J]. pose proof (I_group _ _ J) as G.
  pose proof (requests_stay cfg sch T j i conn n id lo hi (rr_header resp + 1) WA t L) as RQ.
  apply nth_error_In in RQ. change (requests conn (k_log (kat cfg sch t))) with (watches conn (k_log (kat cfg sch t))) in RQ. rewrite W in RQ.
  unfold regs_of in RQ. rewrite G in RQ. apply in_map_iff in RQ. destruct RQ as (r & E & I). unfold params in E. injection E as E1 E2 E3 E4.
  destruct (listed t L) as [HD SN].
  destruct (captured_nonneg st g r SC G I) as [CP BP].
  destruct (begins_start r (rr_header resp) (proj1 HD) E4 (proj1 CP)) as [BG _].
  destruct (stream_prefix st g r SC G I) as (b & BL & RP). rewrite E1, E2, E3, <- SA in RP. unfold hist in HH. rewrite HH in RP, BP. fold (clog t) in RP, BP.
  exists (Z.max (rr_header resp) b). split; [lia|]. split; [lia|]. split.
  - intros ev IV. destruct RP as (_ & SUB & _). unfold received in IV. apply (in_map ev_rev) in IV. apply SUB in IV. lia.
  - unfold client. eapply mirror_correct; [| |exact SN|]; [|apply Z.le_max_l|eapply reports_newer; [|exact RP]; lia]. lia.
Qed.
Lemma received_stays t t' ev : (t <= t')%nat -> received (k_log (kat cfg sch t)) conn id ev -> received (k_log (kat cfg sch t')) conn id ev.
Proof. intros L R. destruct (kat_log cfg sch t t' L) as [l E]. unfold received in *. rewrite E, said_app, sent_app. apply in_app_iff. auto. Qed.
Hypothesis PO : polling j sch.
Hypothesis CO : consuming cfg j i sch.
(** once confirmed, the copy passes every revision *)
Lemma catches_up t t0 N : (T <= t)%nat -> nth_error (answers conn (k_log (kat cfg sch t))) n = Some (MCreated id) -> (t <= t0)%nat -> N <= revision (clog t0) ->
  exists t1, (t <= t1)%nat /\ (closed (kat cfg sch t1) j i \/
    forall t2, (t1 <= t2)%nat -> exists b, N <= b <= revision (clog t2) /\ copy_at (clog t2) b lo hi (client t2)).
Proof.
  intros L A L0 LN. set (a := rr_header resp) in *.
  assert (BUMP : forall t2 M, (t0 <= t2)%nat -> a <= M <= N -> (forall r x, M < r <= N -> ent (clog t0) r = Some x -> ~ in_range lo hi (e_key x)) ->
    (forall ev, M = a \/ (received (k_log (kat cfg sch t2)) conn id ev /\ ev_rev ev = M) -> exists b, N <= b <= revision (clog t2) /\ copy_at (clog t2) b lo hi (client t2))).
  { intros t2 M L2 LM NO ev C. destruct (client_right t2 ltac:(lia)) as (b & B1 & B2 & B3 & B4). fold a in B1.
    assert (MB : M <= b) by (destruct C as [-> |[C1 C2]]; [exact B1|rewrite <- C2; auto]).
    destruct (Z_le_gt_dec N b) as [NB|NB]; [exists b; split; [lia|exact B4]|]. exists N.
    destruct (clog_grows t0 t2 L2) as [l E]. assert (NR : N <= revision (clog t2)) by (rewrite E, revision_app; pose proof (revision_nonneg l); lia).
    split; [lia|]. destruct (listed T (le_n _)) as [[X _] _]. fold a in X. apply (copy_later (clog t2) lo hi _ b N); [lia| |exact B4].
    intros r x RR EX. rewrite E in EX. rewrite ent_less in EX by lia. apply (NO r x); [lia|exact EX]. }
  destruct (Z_le_gt_dec N a) as [NA|NA].
  { exists t0. split; [lia|]. right. intros t2 L2. destruct (client_right t2 ltac:(lia)) as (b & B1 & B2 & _ & B4). fold a in B1. exists b. split; [lia|exact B4]. }
  destruct (last_change (clog t0) lo hi a (Z.to_nat (N - a))) as [NO|(R & x & RR & EX & IR & NO)].
  - exists t0. split; [lia|]. right. intros t2 L2. apply (BUMP t2 a L2 ltac:(lia)) with (ev := Event false (KV [] [] 0 0 0) None); [|auto]. intros r x RR. apply (NO r x). lia.
  - replace (a + Z.of_nat (Z.to_nat (N - a))) with N in * by lia.
    destruct (ent_le _ _ _ EX) as [R1 R2].
    assert (NE : nth_error (clog t0) (Z.to_nat (R - 1)) = Some x) by (unfold ent in EX; replace (1 <=? R) with true in EX by (symmetry; apply Z.leb_le; lia); exact EX).
    destruct (listed T (le_n _)) as [[X _] _]. fold a in X.
    destruct (confirmed_delivers cfg clean sch T j i conn n id lo hi (a + 1) TO OK NC NK BE WA PO CO t t0 R x L A L0 R1 NE IR ltac:(left; lia)) as (t1 & L1 & [(ev & RC & ER & _)|CL]).
    + exists (Nat.max t0 t1). split; [lia|]. right. intros t2 L2. apply (BUMP t2 R ltac:(lia) ltac:(lia)) with (ev := ev); [exact NO|]. right. split; [|exact ER]. apply (received_stays t1); [lia|exact RC].
    + exists t1. split; [lia|]. left. exact CL.
Qed.
(** when the range has come to rest, the copy is its content *)
Lemma settles t t0 : (T <= t)%nat -> nth_error (answers conn (k_log (kat cfg sch t))) n = Some (MCreated id) -> (t <= t0)%nat ->
  (forall t2 r x, (t0 <= t2)%nat -> revision (clog t0) < r -> ent (clog t2) r = Some x -> ~ in_range lo hi (e_key x)) ->
  exists t1, (t <= t1)%nat /\ (closed (kat cfg sch t1) j i \/
    forall t2, (t1 <= t2)%nat -> copy_at (clog t2) (revision (clog t2)) lo hi (client t2)).
Proof.
  intros L A L0 REST. destruct (catches_up t t0 (revision (clog t0)) L A L0 ltac:(lia)) as (t1 & L1 & [CL|C]); [exists t1; auto|].
  exists (Nat.max t0 t1). split; [lia|]. right. intros t2 L2. destruct (C t2 ltac:(lia)) as (b & B1 & B2). pose proof (revision_nonneg (clog t0)).
  apply (copy_later (clog t2) lo hi _ b); [lia| |exact B2]. intros r x RR EX. apply (REST t2 r x); [lia|lia|exact EX].
Qed.
Hypothesis CR : creating j i sch.
Lemma converges : exists t m, (T <= t)%nat /\ nth_error (answers conn (k_log (kat cfg sch t))) n = Some m /\
  ((exists rev, m = MCompacted rev) \/ (exists rev, m = MUnhealthy rev) \/
   m = MCreated id /\ forall t0 N, (t <= t0)%nat -> N <= revision (clog t0) ->
     exists t1, (t <= t1)%nat /\ (closed (kat cfg sch t1) j i \/
       forall t2, (t1 <= t2)%nat -> exists b, N <= b <= revision (clog t2) /\ copy_at (clog t2) b lo hi (client t2))).
Proof.
  destruct WA as (RQ & st & g & E & _).
  destruct (answered cfg clean true sch T j i conn st n id lo hi (rr_header resp + 1) TO OK NC E CR RQ) as (t & m & L & A & D).
  exists t, m. split; [exact L|]. split; [exact A|]. destruct D as [-> |[D|D]]; auto. right; right. split; [reflexivity|]. intros t0 N. now apply catches_up.
Qed.
End Run.
(** ---- in a cluster ---- *)
Lemma cluster_converges cfg sch T j i conn n id lo hi before during after li resp : (forall t, cturn_ok clean true (cat cfg sch t) (sch t)) ->
  (forall t, (T <= t)%nat -> sch t <> CStep (CWhole (KCrash j))) -> (forall t, (T <= t)%nat -> sch t <> CStep (CWhole (KStream j i (SCancel id)))) ->
  hi <> [] -> answered_request (c_log (cat cfg sch T)) before during after li (WRange (range lo hi 0 0)) (ReRange (Ok resp)) -> revision (commits during) <= 100 ->
  wanted (c_whole (cat cfg sch T)) j i conn n id lo hi (rr_header resp + 1) ->
  polls j sch -> consumes cfg j i sch -> creates j i sch ->
  let h := fun t => commits (c_log (cat cfg sch t)) in
  let copy := fun t => mirror (rr_kvs resp) (newer (rr_header resp) (sent (said conn (k_log (c_whole (cat cfg sch t)))) id)) in
  exists t m, (T <= t)%nat /\ nth_error (answers conn (k_log (c_whole (cat cfg sch t)))) n = Some m /\
  ((exists rev, m = MCompacted rev) \/ (exists rev, m = MUnhealthy rev) \/
   m = MCreated id /\
   (forall t0 N, (t <= t0)%nat -> N <= revision (h t0) ->
     exists t1, (t <= t1)%nat /\ (closed (c_whole (cat cfg sch t1)) j i \/
       forall t2, (t1 <= t2)%nat -> exists b, N <= b <= revision (h t2) /\ copy_at (h t2) b lo hi (copy t2))) /\
   (forall t0, (t <= t0)%nat -> (forall t2 r x, (t0 <= t2)%nat -> revision (h t0) < r -> nth_error (h t2) (Z.to_nat (r - 1)) = Some x -> ~ in_range lo hi (e_key x)) ->
     exists t1, (t <= t1)%nat /\ (closed (c_whole (cat cfg sch t1)) j i \/
       forall t2, (t1 <= t2)%nat -> copy_at (h t2) (revision (h t2)) lo hi (copy t2)))).
Proof.
  intros OK NC NK HI LI DU WA PO CO CR h copy. assert (TO : tolerant clean) by (unfold tolerant, clean; cbn; auto).
  assert (WH : forall t, c_whole (cat cfg sch t) = kat cfg (ksch cfg sch) t) by (intros t; apply (whole_at cfg sch)).
  assert (EH : forall t, h t = clog cfg (ksch cfg sch) t) by (intros t; unfold h, clog, c_log; now rewrite WH).
  assert (EC : forall t, copy t = client cfg (ksch cfg sch) conn id resp t) by (intros t; unfold copy, client; now rewrite WH).
  assert (NC' : forall t, (T <= t)%nat -> ksch cfg sch t <> KCrash j) by (intros t Lt E; apply ksch_from in E; exact (NC t Lt E)).
  assert (NK' : forall t, (T <= t)%nat -> ksch cfg sch t <> KStream j i (SCancel id)) by (intros t Lt E; apply ksch_from in E; exact (NK t Lt E)).
  assert (BE : forall t f, ksch cfg sch t = KBack j (AFetch f) -> bearable f) by (intros t f E; apply ksch_from in E; destruct PO as (_ & _ & P); exact (P t f E)).
  unfold c_log in LI. rewrite WH in LI, WA. pose proof (ksch_ok cfg clean true sch TO OK) as OK'.
  pose proof (ksch_polling cfg sch j PO) as PO'. pose proof (ksch_consuming cfg sch j i CO) as CO'.
  destruct (converges cfg (ksch cfg sch) T j i conn n id lo hi before during after li resp OK' NC' NK' BE HI LI DU WA PO' CO') as (t & m & L & A & D).
  { eapply ksch_creating; eauto. }
  exists t, m. rewrite WH. split; [exact L|]. split; [exact A|]. destruct D as [D|[D|[D1 D2]]]; auto. right; right. split; [exact D1|]. split.
  - intros t0 N L0 LN. rewrite EH in LN. destruct (D2 t0 N L0 LN) as (t1 & L1 & X). exists t1. split; [exact L1|]. rewrite WH. destruct X as [X|X]; [auto|]. right. intros t2 L2. rewrite EH, EC. auto.
  - intros t0 L0 REST. subst m. destruct (settles cfg (ksch cfg sch) T j i conn n id lo hi before during after li resp OK' NC' NK' BE HI LI DU WA PO' CO' t t0 L A L0) as (t1 & L1 & X).
    + intros t2 r x L2 RR EX. apply (REST t2 r x L2); [now rewrite EH|]. rewrite EH. unfold ent in EX. destruct (1 <=? r); [exact EX|discriminate].
    + exists t1. split; [exact L1|]. rewrite WH. destruct X as [X|X]; [auto|]. right. intros t2 L2. rewrite EH, EC. auto.
Qed.
Lemma cluster_client_right cfg sch T j i conn n id lo hi before during after li resp : (forall t, cturn_ok clean true (cat cfg sch t) (sch t)) ->
  (forall t, (T <= t)%nat -> sch t <> CStep (CWhole (KCrash j))) -> (forall t, (T <= t)%nat -> sch t <> CStep (CWhole (KStream j i (SCancel id)))) ->
  (forall t f, sch t = CStep (CWhole (KBack j (AFetch f))) -> bearable f) ->
  hi <> [] -> answered_request (c_log (cat cfg sch T)) before during after li (WRange (range lo hi 0 0)) (ReRange (Ok resp)) -> revision (commits during) <= 100 ->
  wanted (c_whole (cat cfg sch T)) j i conn n id lo hi (rr_header resp + 1) ->
  forall t, (T <= t)%nat -> exists b, rr_header resp <= b <= revision (commits (c_log (cat cfg sch t))) /\
    (forall ev, received (k_log (c_whole (cat cfg sch t))) conn id ev -> ev_rev ev <= b) /\
    copy_at (commits (c_log (cat cfg sch t))) b lo hi (mirror (rr_kvs resp) (newer (rr_header resp) (sent (said conn (k_log (c_whole (cat cfg sch t)))) id))).
Proof.
  intros OK NC NK BE0 HI LI DU WA t L. assert (TO : tolerant clean) by (unfold tolerant, clean; cbn; auto).
  assert (WH : forall t, c_whole (cat cfg sch t) = kat cfg (ksch cfg sch) t) by (intros u; apply (whole_at cfg sch)).
  unfold c_log in *. rewrite WH in LI, WA. rewrite !WH.
  destruct (client_right cfg (ksch cfg sch) T j i conn n id lo hi before during after li resp) with (t := t) as (b & B1 & B2 & B3 & B4); auto.
  - apply (ksch_ok cfg clean true sch TO OK).
  - intros u Lu E; apply ksch_from in E; exact (NC u Lu E).
  - intros u Lu E; apply ksch_from in E; exact (NK u Lu E).
  - intros u f E; apply ksch_from in E. exact (BE0 u f E).
  - exists b. auto.
Qed.
