(** What clients of the whole system can rely on, from the invariant of WholeProofs.v. *)
From Coq Require Import List ZArith Bool Lia Sorting.Sorted.
From Verif Require Import Bytes Spec Sql System Prog Backend Limited Api Pool Observe Ledger Shown Batch BatchKine Node Watch Stream Reflector Resume Whole.
From Verif Require Import SpecLemmas SqlLemmas Sim ProgLemmas ReadLemmas Safety LedgerLemmas LedgerMore LedgerReads LedgerValues NodeProofs WatchLemmas WatchProofs WatchResults StreamProofs ReflectorProofs ResumeProofs WholeProofs.
From Verif Require Import Watch Stream Whole.
Import ListNotations.
Open Scope Z_scope.

Section Results.
Variables (cfg : driver_cfg) (okf : fault -> Prop) (st : bool) (s : kstate).
Hypothesis TO : tolerant okf.
Hypothesis H : kreach cfg okf st s.

Lemma whole_ledger : exists l, lreach cfg okf l /\ l_log l = dids (k_log s).
Proof.
  pose proof (kreach_KI _ _ _ TO _ H) as K. exists (nview (k_node s)). split; [apply node_view; auto; apply K|]. cbn. symmetry. apply K.
Qed.
Lemma told_fact A conn m B : k_log s = A ++ Said conn m :: B -> fact st A conn m.
Proof. exact (K_said _ _ _ _ (kreach_KI _ _ _ TO _ H) A conn m B). Qed.
Lemma dids_prefix A x B : k_log s = A ++ x :: B -> exists l, dids (k_log s) = dids A ++ l.
Proof. intros E. rewrite E, dids_app. eauto. Qed.

Lemma event_truth A conn rev id evs B ev : k_log s = A ++ Said conn (MEvents rev id evs) :: B -> In ev evs ->
  truthful_event (commits (dids A)) (ev_rev ev) ev.
Proof. intros E I. destruct (told_fact _ _ _ _ E ev I) as (lo & hi & start & _ & _ & _ & T & _). exact T. Qed.
Lemma event_place h r ev : truthful_event h r ev -> 1 <= r <= revision h.
Proof.
  intros (e & P & N & _). split; auto. assert (nth_error h (Z.to_nat (r - 1)) <> None) by congruence. apply nth_error_Some in H0. unfold revision. lia.
Qed.
(** the place of a committed change in the log *)
Lemma commit_place : forall l n e, nth_error (commits l) n = Some e -> exists L1 i L2, l = L1 ++ Committed i e :: L2 /\ length (commits L1) = n.
Proof.
  induction l as [|x l IH]; intros n e N; [destruct n; discriminate|].
  assert (SKIP : commits (x :: l) = commits l -> exists L1 i L2, x :: l = L1 ++ Committed i e :: L2 /\ length (commits L1) = n).
  { intros E. rewrite E in N. destruct (IH _ _ N) as (L1 & i & L2 & -> & L). exists (x :: L1), i, L2. split; [reflexivity|].
    change (x :: L1) with ([x] ++ L1). change (x :: L1 ++ Committed i e :: L2) with ([x] ++ L1 ++ Committed i e :: L2) in E. rewrite commits_app in *.
    assert (commits [x] = []) as ->; [|exact L]. apply (f_equal (@length _)) in E. rewrite app_length in E. destruct (commits [x]); [reflexivity|cbn in E; lia]. }
  destruct x as [i q|i e0|i o]; try (apply SKIP; reflexivity). cbn in N. destruct n as [|n]; cbn in N.
  - injection N as ->. exists [], i, l. auto.
  - destruct (IH _ _ N) as (L1 & i' & L2 & -> & L). exists (Committed i e0 :: L1), i', L2. split; [reflexivity|]. change (commits (Committed i e0 :: L1)) with (e0 :: commits L1). cbn [length]. now rewrite L.
Qed.

Lemma seen_committed A conn rev id evs B ev : k_log s = A ++ Said conn (MEvents rev id evs) :: B -> In ev evs ->
  exists L1 i e L2 q, dids A = L1 ++ Committed i e :: L2 /\ ev_rev ev = revision (commits L1) + 1 /\
    e_key e = kv_key (ev_kv ev) /\
    match e_change e with Put v l => ev_delete ev = false /\ kv_value (ev_kv ev) = v /\ kv_lease (ev_kv ev) = l | Del => ev_delete ev = true end /\
    In (Asked i q) L1 /\ warranted q e (commits L1).
Proof.
  intros E I. pose proof (event_truth _ _ _ _ _ _ _ E I) as T. pose proof (event_place _ _ _ T) as PL. destruct T as (e & P & N & K & _ & C & _).
  destruct (commit_place _ _ _ N) as (L1 & i & L2 & EL & LL). destruct whole_ledger as (l & R & LG).
  assert (EL' : l_log l = L1 ++ Committed i e :: (L2 ++ dids (Said conn (MEvents rev id evs) :: B))).
  { rewrite LG, E, dids_app, EL, <- app_assoc. reflexivity. }
  destruct (every_commit _ _ _ _ _ _ _ R EL') as (q & Q1 & _ & Q2).
  exists L1, i, e, L2, q. split; [exact EL|]. split; [unfold revision; lia|]. split; [auto|]. split; [|auto].
  destruct (e_change e) as [v le|] eqn:EC; [|exact C]. destruct C as [C1 C2]. split; [exact C1|].
  pose proof (kv_at_facts _ _ _ _ C2) as (F1 & F2 & F3 & F4 & F5 & _). unfold ev_rev in N.
  unfold ent in F5. replace (1 <=? kv_mod (ev_kv ev)) with true in F5 by (symmetry; apply Z.leb_le; lia). rewrite N in F5. injection F5 as E5.
  rewrite E5 in EC. cbn in EC. injection EC as -> ->. auto.
Qed.

(** a request made after an event was received knows of it *)
Lemma asked_after A x B i q before during after o l : lreach cfg okf l -> l_log l = dids (k_log s) -> k_log s = A ++ x :: B -> In (Did (Asked i q)) B ->
  answered_request (dids (k_log s)) before during after i q o -> exists M, before = dids A ++ M.
Proof.
  intros R LG E IB AN. apply in_split in IB. destruct IB as (B1 & B2 & ->).
  assert (E1 : l_log l = (dids A ++ dids (x :: B1)) ++ Asked i q :: dids B2).
  { rewrite LG, E. change (A ++ x :: B1 ++ Did (Asked i q) :: B2) with (A ++ (x :: B1) ++ Did (Asked i q) :: B2). rewrite !dids_app, <- app_assoc. reflexivity. }
  rewrite <- LG in AN. destruct (asked_place _ _ _ _ _ _ _ _ _ _ R E1 AN) as [<- _]. eauto.
Qed.
Lemma seen_then_header A conn rev id evs B ev i r before during after a :
  k_log s = A ++ Said conn (MEvents rev id evs) :: B -> In ev evs -> In (Did (Asked i (WRange r))) B ->
  answered_request (dids (k_log s)) before during after i (WRange r) (ReRange (Ok a)) -> ev_rev ev <= rr_header a.
Proof.
  intros E I IB AN. destruct whole_ledger as (l & R & LG). destruct (asked_after _ _ _ _ _ _ _ _ _ l R LG E IB AN) as (M & ->).
  rewrite <- LG in AN. pose proof (header_bounds _ _ _ _ _ _ _ _ _ R AN) as [HB _]. rewrite commits_app, revision_app in HB.
  pose proof (revision_nonneg (commits M)). pose proof (event_place _ _ _ (event_truth _ _ _ _ _ _ _ E I)). lia.
Qed.

(** versions seen in events *)
Lemma put_genuine A conn rev id evs B ev : k_log s = A ++ Said conn (MEvents rev id evs) :: B -> In ev evs -> ev_delete ev = false ->
  genuine (commits (dids A)) (ev_kv ev).
Proof.
  intros E I D. destruct (truthful_ent _ _ (event_truth _ _ _ _ _ _ _ E I)) as (e & _ & _ & K). rewrite D in K. exact K.
Qed.
Lemma seen_no_lost A conn rev id evs B ev L1 j e L2 c : k_log s = A ++ Said conn (MEvents rev id evs) :: B -> In ev evs -> ev_delete ev = false ->
  In (Asked j (WTxn (request c))) (dids (k_log s)) -> expects c (kv_key (ev_kv ev)) (ev_rev ev) ->
  dids (k_log s) = L1 ++ Committed j e :: L2 -> e = effect c /\ now (commits L1) (kv_key (ev_kv ev)) = Some (ev_kv ev).
Proof.
  intros E I D AS EX EL. destruct whole_ledger as (l & R & LG). rewrite <- LG in AS, EL.
  destruct (commit_of_request _ _ _ _ _ _ _ c R EL AS) as [-> CO]. split; [reflexivity|].
  destruct (expects_now _ _ _ _ EX CO) as (y & N & M). rewrite N. f_equal.
  pose proof (put_genuine _ _ _ _ _ _ _ E I D) as G. apply (genuine_app _ (commits (dids (Said conn (MEvents rev id evs) :: B)))) in G.
  rewrite <- commits_app, <- dids_app, <- E, <- LG, EL, commits_app in G. eapply same_version; eauto.
Qed.

(** two clients never disagree *)
Lemma event_whole A conn rev id evs B ev : k_log s = A ++ Said conn (MEvents rev id evs) :: B -> In ev evs ->
  truthful_event (commits (dids (k_log s))) (ev_rev ev) ev.
Proof. intros E I. rewrite E, dids_app, commits_app. apply truthful_extend. eapply event_truth; eauto. Qed.
Lemma agree A conn rev id evs B ev A' conn' rev' id' evs' B' ev' :
  k_log s = A ++ Said conn (MEvents rev id evs) :: B -> In ev evs ->
  k_log s = A' ++ Said conn' (MEvents rev' id' evs') :: B' -> In ev' evs' -> ev_rev ev = ev_rev ev' ->
  kv_key (ev_kv ev) = kv_key (ev_kv ev') /\ ev_delete ev = ev_delete ev' /\ (ev_delete ev = false -> ev_kv ev = ev_kv ev').
Proof.
  intros E I E' I' R. destruct (truthful_ent _ _ (event_whole _ _ _ _ _ _ _ E I)) as (e & N & K & V).
  destruct (truthful_ent _ _ (event_whole _ _ _ _ _ _ _ E' I')) as (e' & N' & K' & V'). rewrite R, N' in N. injection N as ->.
  assert (KK : kv_key (ev_kv ev) = kv_key (ev_kv ev')) by congruence. split; [exact KK|]. rewrite R, KK, V' in V.
  destruct (ev_delete ev), (ev_delete ev'); try discriminate; split; auto; try discriminate. intros _. congruence.
Qed.
Lemma agree_shown A conn rev id evs B ev before during after i q o x :
  k_log s = A ++ Said conn (MEvents rev id evs) :: B -> In ev evs ->
  answered_request (dids (k_log s)) before during after i q o -> (forall t, q = WTxn t -> is_compact t = false) -> shows o x ->
  kv_key x = kv_key (ev_kv ev) -> kv_mod x = ev_rev ev -> ev_delete ev = false /\ x = ev_kv ev.
Proof.
  intros E I AN C SH K M. destruct whole_ledger as (l & R & LG). rewrite <- LG in AN.
  pose proof (shown_genuine _ _ _ _ _ _ _ _ _ _ R AN C SH) as G. rewrite LG in G. unfold genuine in G.
  destruct (truthful_ent _ _ (event_whole _ _ _ _ _ _ _ E I)) as (e & _ & _ & V). rewrite M, K, V in G. destruct (ev_delete ev); [discriminate|]. split; congruence.
Qed.

(** what a watch has sent *)
Lemma seen_order A conn rev id evs B : k_log s = A ++ Said conn (MEvents rev id evs) :: B ->
  StronglySorted Z.lt (map ev_rev (sent (said conn (A ++ [Said conn (MEvents rev id evs)])) id)) \/ evs = [].
Proof.
  intros E. destruct evs as [|ev evs]; [now right|left]. destruct (told_fact _ _ _ _ E ev (or_introl eq_refl)) as (lo & hi & start & _ & _ & _ & _ & S & _). exact S.
Qed.
Lemma seen_range A conn rev id evs B ev lo hi start : k_log s = A ++ Said conn (MEvents rev id evs) :: B -> In ev evs ->
  In (Watched conn id lo hi start) A -> in_range lo hi (kv_key (ev_kv ev)).
Proof.
  intros E I W. destruct (told_fact _ _ _ _ E ev I) as (lo' & hi' & start' & _ & U & R & _). destruct (U _ _ _ W) as (-> & -> & _). exact R.
Qed.
Lemma seen_complete A conn rev id evs B ev lo hi start : st = true -> k_log s = A ++ Said conn (MEvents rev id evs) :: B -> In ev evs ->
  In (Watched conn id lo hi start) A ->
  let got := sent (said conn (A ++ [Said conn (MEvents rev id evs)])) id in
  exists a, 0 <= a /\ (0 < start -> a < start) /\ reports (commits (dids A)) (in_range lo hi) a (last_seen a got) got.
Proof.
  intros ST E I W. destruct (told_fact _ _ _ _ E ev I) as (lo' & hi' & start' & _ & U & _ & _ & _ & C). destruct (U _ _ _ W) as (-> & -> & ->). exact (C ST).
Qed.
Lemma seen_watch A conn rev id evs B ev : k_log s = A ++ Said conn (MEvents rev id evs) :: B -> In ev evs ->
  exists lo hi start, In (Watched conn id lo hi start) A.
Proof. intros E I. destruct (told_fact _ _ _ _ E ev I) as (lo' & hi' & start' & W & _). eauto. Qed.
End Results.

(** list, then watch *)
Lemma whole_mirror cfg s A conn rev id evs B ev lo hi start before during after i resp : kreach cfg clean true s -> hi <> [] ->
  answered_request (dids (k_log s)) before during after i (WRange (range lo hi 0 0)) (ReRange (Ok resp)) -> revision (commits during) <= 100 ->
  k_log s = A ++ Said conn (MEvents rev id evs) :: B -> In ev evs ->
  In (Watched conn id lo hi start) A -> start = rr_header resp + 1 ->
  let got := sent (said conn (A ++ [Said conn (MEvents rev id evs)])) id in
  let h := commits (dids (k_log s)) in
  exists b, rr_header resp <= b /\ last_seen 0 got <= b /\ (b = rr_header resp \/ b = last_seen 0 got) /\
    copy_at h b lo hi (mirror (rr_kvs resp) (newer (rr_header resp) got)).
Proof.
  intros H HI AN DU E I W ST got h. assert (T : tolerant clean) by (unfold tolerant, clean; cbn; auto).
  destruct (whole_ledger _ _ _ _ T H) as (l & R & LG). pose proof AN as AN'. rewrite <- LG in AN'.
  destruct (read_linear cfg l before during after i (range lo hi 0 0) resp R) as (D1 & D2 & L & ED & CO & HD & _ & PG); auto.
  { split; [|split]; [repeat split; auto|vm_compute; split; congruence|vm_compute; congruence]. }
  cbn [range r_range_end r_count_only r_limit r_key r_revision] in *. destruct hi as [|x hi]; [congruence|].
  cbn [content] in CO. destruct PG as (PK & _ & PM). cbn in PM.
  specialize (HD PM). rewrite <- HD in CO. assert (PK' : rr_kvs resp = L) by (rewrite PK; unfold page; cbn; reflexivity).
  destruct (seen_complete cfg clean true s T H A conn rev id evs B ev lo (x :: hi) start eq_refl E I W) as (a & A0 & AS & RP). fold got in RP.
  assert (HN : 0 <= rr_header resp) by (rewrite HD; apply revision_nonneg).
  assert (GN : got <> []). { intros EG. assert (In ev got); [|rewrite EG in *; contradiction]. unfold got. rewrite said_app, sent_app, sent_one. apply in_app_iff. auto. }
  assert (LS : last_seen a got = last_seen 0 got). { clear - GN. destruct got as [|e g _] using rev_ind; [congruence|]. now rewrite !last_seen_app. }
  assert (AL : a <= rr_header resp) by (assert (0 < start) by lia; specialize (AS H0); lia).
  assert (LB : last_seen a got <= revision (commits (dids A))).
  { pose proof (last_in a got GN) as LI. destruct RP as (_ & RX & _). apply RX in LI. destruct LI as (_ & P1 & e & NE & _).
    assert (nth_error (commits (dids A)) (Z.to_nat (last_seen a got - 1)) <> None) by congruence. apply nth_error_Some in H0. unfold revision. lia. }
  assert (EH : exists M, h = commits (dids A) ++ M). { unfold h. rewrite E, dids_app, commits_app. eauto. } destruct EH as (M & EH).
  assert (RP' : reports h (in_range lo (x :: hi)) a (last_seen a got) got) by (rewrite EH; apply reports_extend; auto).
  pose proof (reports_newer _ _ _ _ (rr_header resp) _ AL RP') as RN.
  assert (SN : is_snapshot h (rr_header resp) lo (x :: hi) L).
  { unfold h. rewrite AN, ED. replace (before ++ Asked i (WRange (range lo (x :: hi) 0 0)) :: (D1 ++ D2) ++ Answered i (ReRange (Ok resp)) :: after)
      with ((before ++ [Asked i (WRange (range lo (x :: hi) 0 0))]) ++ D1 ++ (D2 ++ Answered i (ReRange (Ok resp)) :: after)) by (rewrite <- !app_assoc; reflexivity).
    rewrite app_assoc, commits_app. replace (commits ((before ++ [Asked i (WRange (range lo (x :: hi) 0 0))]) ++ D1)) with (commits (before ++ D1)) by (rewrite !commits_app; cbn; now rewrite app_nil_r).
    destruct CO as [S1 S2]. split; [exact S1|]. intros y. rewrite S2, kv_at_app by lia. tauto. }
  exists (Z.max (rr_header resp) (last_seen a got)). split; [lia|]. rewrite <- LS. split; [lia|]. split; [lia|].
  rewrite PK'. apply (mirror_correct h lo (x :: hi) (rr_header resp) (rr_header resp)); auto; lia.
Qed.

(** a get after an event *)
Lemma gone_since h k : forall m r0 e, ent h r0 = Some e -> e_key e = k -> kv_at h (r0 + Z.of_nat m) k = None ->
  exists r, r0 <= r <= r0 + Z.of_nat m /\ ent h r = Some (Entry k Del).
Proof.
  induction m as [|m IH]; intros r0 e N K V.
  - exists r0. split; [lia|]. replace (r0 + Z.of_nat 0) with r0 in V by lia. rewrite (kv_at_step _ _ _ k N) in V. rewrite N. f_equal.
    destruct e as [k' c]. cbn in K. subst k'. unfold change_key in V. cbn [e_key e_change] in V. rewrite beqb_refl in V. destruct c; [destruct (kv_at h (r0 - 1) k); discriminate|reflexivity].
  - destruct (ent h (r0 + Z.of_nat (S m))) as [e'|] eqn:N'.
    + rewrite (kv_at_step _ _ _ k N') in V. unfold change_key in V. destruct (beqb (e_key e') k) eqn:B.
      * apply beqb_true in B. exists (r0 + Z.of_nat (S m)). split; [lia|]. rewrite N'. f_equal. destruct e' as [k' c]. cbn in *. subst k'. destruct c; [destruct (kv_at h (r0 + Z.of_nat (S m) - 1) k); discriminate|reflexivity].
      * replace (r0 + Z.of_nat (S m) - 1) with (r0 + Z.of_nat m) in V by lia. destruct (IH _ _ N K V) as (r & R1 & R2). exists r. split; [lia|exact R2].
    + pose proof (ent_bounds _ _ _ N) as RB.
      assert (V' : kv_at h (r0 + Z.of_nat m) k = None).
      { rewrite <- V. symmetry. apply kv_at_unchanged; [lia|]. intros r e' R1 R2. replace r with (r0 + Z.of_nat (S m)) in R2 by lia. congruence. }
      destruct (IH _ _ N K V') as (r & R1 & R2). exists r. split; [lia|exact R2].
Qed.
Lemma seen_then_get cfg st s A conn rev id evs B ev i k before during after a : kreach cfg clean st s ->
  k_log s = A ++ Said conn (MEvents rev id evs) :: B -> In ev evs -> k = kv_key (ev_kv ev) ->
  In (Did (Asked i (WRange (range k [] 0 0)))) B ->
  answered_request (dids (k_log s)) before during after i (WRange (range k [] 0 0)) (ReRange (Ok a)) -> revision (commits during) <= 100 ->
  match rr_kvs a with
  | [] => exists r, ev_rev ev <= r <= rr_header a /\ nth_error (commits (dids (k_log s))) (Z.to_nat (r - 1)) = Some (Entry k Del)
  | [x] => kv_key x = k /\ ev_rev ev <= kv_mod x /\ (kv_mod x = ev_rev ev -> ev_delete ev = false /\ x = ev_kv ev)
  | _ => False
  end.
Proof.
  intros H E I EK IB AN DU. assert (T : tolerant clean) by (unfold tolerant, clean; cbn; auto).
  destruct (whole_ledger _ _ _ _ T H) as (l & R & LG). destruct (asked_after cfg clean s _ _ _ _ _ _ _ _ _ l R LG E IB AN) as (M & ->).
  pose proof AN as AN'. rewrite <- LG in AN'.
  destruct (read_linear cfg l (dids A ++ M) during after i (range k [] 0 0) a R) as (D1 & D2 & L & ED & CO & HD & _ & PG); auto.
  { split; [|split]; [repeat split; auto|vm_compute; split; congruence|vm_compute; congruence]. }
  cbn [range r_range_end r_key] in *. destruct PG as [PK PM]. specialize (HD PM). rewrite PK. cbn [content] in CO. subst L.
  set (h := commits ((dids A ++ M) ++ D1)) in *.
  assert (TH : truthful_event h (ev_rev ev) ev).
  { unfold h. rewrite <- app_assoc, commits_app. apply truthful_extend. eapply event_truth; eauto. }
  destruct (truthful_ent _ _ TH) as (e & N & K & V). rewrite <- EK in *. pose proof (ent_bounds _ _ _ N) as NB.
  assert (EH : exists X, commits (dids (k_log s)) = h ++ X).
  { exists (commits (D2 ++ Answered i (ReRange (Ok a)) :: after)). unfold h. rewrite AN, ED. generalize (dids A ++ M). intros P.
    rewrite (commits_app P D1), (commits_app P). change (commits (Asked i (WRange (range k [] 0 0)) :: (D1 ++ D2) ++ Answered i (ReRange (Ok a)) :: after)) with (commits ((D1 ++ D2) ++ Answered i (ReRange (Ok a)) :: after)).
    rewrite <- (app_assoc D1), (commits_app D1). now rewrite app_assoc. }
  destruct EH as (X & EH).
  destruct (kv_at h (revision h) k) as [x|] eqn:G.
  - destruct (kv_at_facts _ _ _ _ G) as (F1 & F2 & F3 & F4 & F5 & F6 & F7). split; [exact F1|].
    assert (LE : ev_rev ev <= kv_mod x). { destruct (Z_le_dec (ev_rev ev) (kv_mod x)); auto. exfalso. apply (F6 (ev_rev ev) e); auto; lia. }
    split; [exact LE|]. intros Q. rewrite Q in F7. rewrite V in F7. destruct (ev_delete ev); [discriminate|]. split; congruence.
  - replace (revision h) with (ev_rev ev + Z.of_nat (Z.to_nat (revision h - ev_rev ev))) in G by lia.
    destruct (gone_since _ _ _ _ _ N K G) as (r & R1 & R2). exists r. split; [lia|]. rewrite EH. unfold ent in R2. destruct (1 <=? r); [|discriminate]. rewrite nth_error_app1; [exact R2|]. apply nth_error_Some. congruence.
Qed.
