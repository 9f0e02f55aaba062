(** Reads in the log. *)
From Coq Require Import List ZArith Bool Lia.
From Verif Require Import Bytes Spec Sql System Prog Backend Limited Api Pool Ledger Observe SpecLemmas SqlLemmas Sim ProgLemmas ReadProgs Safety ApiLemmas StoreProofs ReadProofs TraceLemmas TxnProofs LedgerLemmas LedgerProofs LedgerMore.
Import ListNotations.
Open Scope Z_scope.

Local Notation ck := compact_rev_key.

Lemma range_post_later w0 r w w' x : wsteps w w' -> range_post w0 r w x -> range_post w0 r w' x.
Proof.
  intros S. pose proof (wsteps_extends _ _ S) as EX. pose proof (extends_revision _ _ EX) as ER. destruct EX as [EX EF].
  unfold range_post. destruct x as [a|e].
  2:{ destruct e; auto. lia. }
  intros (cur & H1 & H2 & H3 & H4 & H5). exists cur. split; [lia|]. split; [lia|]. split; [auto|]. split; [auto|].
  intros F. destruct H5 as (L & C & K); [lia|]. exists L. split; [|exact K].
  pose proof (read_at_le (r_revision r) cur).
  apply (extends_content (snd w) (snd w')); auto; [split; auto|lia].
Qed.


Definition read_promise : promise := fun i q A w0 L w o => forall r, q = WRange r /\ plain_range r ->
  match o with ReRange x => range_post w0 r w x | _ => False end.
Lemma read_stable : stable read_promise.
Proof.
  intros i q A w0 L w o w' D S _ _ _ H r E. specialize (H r E). destruct o as [|x|]; auto. eapply range_post_later; eauto.
Qed.
Lemma read_keeps cfg : keeps cfg clean read_promise.
Proof.
  intros i q A w HQ HW E. unfold read_promise. apply lwp_all. intros r (-> & S1 & S2 & S3).
  apply (wp_lwp clean i (served cfg (WRange r)) (fun w' o => match o with ReRange x => range_post w r w' x | _ => False end)).
  cbn [served]. apply wp_bind. eapply wp_mono; [|apply wp_s_range; eauto]. intros w' x H. exact H.
Qed.

Lemma read_kept cfg s before during after i r x : lreach cfg clean s -> plain_range r ->
  answered_request (l_log s) before during after i (WRange r) (ReRange x) ->
  exists w0 w, commits before = history_of (snd w0) /\ commits (before ++ during) = history_of (snd w) /\
    wreach w /\ margin_inv (snd w) /\ range_post w0 r w x.
Proof.
  intros H P E. destruct (promise_kept cfg clean read_promise s before during after i _ _ read_stable (read_keeps cfg) H E)
    as (w0 & w & A1 & A2 & A3 & A4 & A5 & A6 & A7 & A8).
  exists w0, w. split; [exact A5|]. split; [exact A6|]. split; [exact A3|]. split; [exact A7|]. exact (A8 r (conj eq_refl P)).
Qed.

(** a revision in between was the current one at some moment in between *)
Lemma moment before during n : revision (commits before) <= n <= revision (commits (before ++ during)) ->
  exists D1 D2, during = D1 ++ D2 /\ n = revision (commits (before ++ D1)).
Proof.
  intros H. rewrite commits_app, revision_app in H. remember (n - revision (commits before)) as m eqn:EM.
  assert (B : 0 <= m <= revision (commits during)) by lia. clear H.
  assert (G : exists D1 D2, during = D1 ++ D2 /\ m = revision (commits D1)).
  { clear EM. revert m B. induction during as [|x D IH]; intros m B.
    - exists [], []. split; auto. cbn in *. lia.
    - destruct (Z.eq_dec m 0) as [->|NZ]; [exists [], (x :: D); auto|].
      destruct x as [j q|j e|j o].
      + destruct (IH m) as (D1 & D2 & -> & E); [exact B|]. exists (Asked j q :: D1), D2. auto.
      + destruct (IH (m - 1)) as (D1 & D2 & -> & E).
        { change (commits (Committed j e :: D)) with ([e] ++ commits D) in B. rewrite revision_app in B. change (revision [e]) with 1 in B. lia. }
        exists (Committed j e :: D1), D2. split; auto.
        change (commits (Committed j e :: D1)) with ([e] ++ commits D1). rewrite revision_app. change (revision [e]) with 1. lia.
      + destruct (IH m) as (D1 & D2 & -> & E); [exact B|]. exists (Answered j o :: D1), D2. auto. }
  destruct G as (D1 & D2 & -> & E). exists D1, D2. split; auto. rewrite commits_app, revision_app. lia.
Qed.

Lemma content_prefix h l key re L : content (h ++ l) (revision h) key re L -> content h (revision h) key re L.
Proof.
  unfold content. destruct re.
  - rewrite kv_at_app by lia. auto.
  - intros [A B]. split; auto. intros x. rewrite B. rewrite kv_at_app by lia. tauto.
Qed.

Lemma read_linear cfg s before during after i r a : lreach cfg clean s -> plain_range r -> r_revision r = 0 ->
  answered_request (l_log s) before during after i (WRange r) (ReRange (Ok a)) ->
  revision (commits during) <= 100 ->
  exists D1 D2 L, during = D1 ++ D2 /\
    content (commits (before ++ D1)) (revision (commits (before ++ D1))) (r_key r) (r_range_end r) L /\
    (rr_more a = false -> rr_header a = revision (commits (before ++ D1))) /\
    revision (commits (before ++ D1)) <= rr_header a <= revision (commits (before ++ during)) /\
    match r_range_end r with
    | [] => rr_kvs a = L /\ rr_more a = false
    | _ => if r_count_only r then rr_kvs a = [] /\ rr_more a = false /\ rr_count a = Z.of_nat (length L)
           else rr_kvs a = page (r_limit r) L /\ rr_count a = Z.of_nat (length L) /\
                rr_more a = ((0 <? r_limit r) && (r_limit r <? Z.of_nat (length L)))
    end.
Proof.
  intros H P R0 E B. destruct (read_kept _ _ _ _ _ _ _ _ H P E) as (w0 & w & E1 & E2 & HW & M & Q).
  unfold range_post in Q. destruct Q as (cur & Q1 & Q2 & Q3 & Q4 & Q5). rewrite <- E1 in *. rewrite <- E2 in *.
  destruct (moment before during cur) as (D1 & D2 & ED & EC); [lia|].
  rewrite R0 in Q5. change (read_at 0 cur) with cur in Q5.
  assert (F : floor_of (snd w) <= cur).
  { unfold margin_inv in M. rewrite <- E2, commits_app, revision_app in M. unfold superseded_count in M.
    pose proof (revision_nonneg (commits before)). lia. }
  destruct (Q5 F) as (L & C & K). exists D1, D2, L. split; auto. rewrite EC in *.
  split. { apply content_prefix with (l := commits D2). rewrite ED, app_assoc, commits_app in C. exact C. }
  split; [intros Z; symmetry; auto|]. split; [lia|]. destruct (r_range_end r); auto. destruct (r_count_only r); auto.
  destruct K as (K1 & K2 & K3). split; auto. split; auto. apply K3. pose proof (revision_nonneg (commits (before ++ D1))). lia.
Qed.

(** real time: whatever fails *)
Definition header_post (w0 w : world) (x : result range_resp) : Prop :=
  match x with
  | Ok a => revision (history_of (snd w0)) <= rr_header a <= revision (history_of (snd w))
  | Err _ => True
  end.
Lemma wp_list_header cfg key re limit rev w0 w : wreach w -> wsteps w0 w ->
  wp any_fault (b_list cfg key re limit rev) (fun w' r => match r with Ok (cur, _) => wsteps w0 w' /\ revision (history_of (snd w0)) <= cur <= revision (history_of (snd w')) | Err _ => True end) w.
Proof.
  intros HW S0. unfold b_list. apply wp_rbind. apply wp_get_compact_revision; auto. intros w1 S1.
  destruct (read_revision rev _ _) as [n|e]; [|exact I]. apply wp_rbind.
  pose proof (extends_revision _ _ (wsteps_extends _ _ (wsteps_trans _ _ _ S0 S1))) as E0.
  unfold d_list. apply wp_query. intros w2 S2. split; [exact I|]. intros f _.
  assert (SF : fst (sem f (CList (cfg_v1 cfg) key (range_end key re) limit n) w2) = w2) by (destruct f; reflexivity).
  rewrite SF. destruct (snd (sem f _ w2)) as [rs|e]; [|exact I]. cbn [wp].
  pose proof (extends_revision _ _ (wsteps_extends _ _ S2)). split; [|lia].
  eapply wsteps_trans; [|exact S2]. eapply wsteps_trans; eauto.
Qed.
Lemma wp_count_header cfg key re rev w0 w : wreach w -> wsteps w0 w ->
  wp any_fault (b_count cfg key re rev) (fun w' r => match r with Ok (cur, _) => wsteps w0 w' /\ revision (history_of (snd w0)) <= cur <= revision (history_of (snd w')) | Err _ => True end) w.
Proof.
  intros HW S0. unfold b_count. apply wp_rbind. apply wp_get_compact_revision; auto. intros w1 S1.
  destruct (read_revision rev _ _) as [n|e]; [|exact I]. apply wp_rbind.
  pose proof (extends_revision _ _ (wsteps_extends _ _ (wsteps_trans _ _ _ S0 S1))) as E0.
  unfold d_count. apply wp_rbind. apply wp_query. intros w2 S2. split; [exact I|]. intros f _.
  assert (SF : fst (sem f (CCount (cfg_v1 cfg) key (range_end key re) n) w2) = w2) by (destruct f; reflexivity).
  rewrite SF. destruct (snd (sem f _ w2)) as [rs|e]; [|exact I].
  assert (K : wsteps w0 w2 /\ revision (history_of (snd w0)) <= revision (history_of (snd w1)) <= revision (history_of (snd w2))).
  { pose proof (extends_revision _ _ (wsteps_extends _ _ S2)). split; [|lia].
    eapply wsteps_trans; [|exact S2]. eapply wsteps_trans; eauto. }
  cbn [wp]. repeat match goal with |- context [match ?x with _ => _ end] => destruct x end; cbn [wp]; auto.
Qed.
Lemma wp_header cfg r w : wreach w -> wp any_fault (s_range cfg r) (header_post w) w.
Proof.
  intros HW. unfold s_range. repeat (match goal with |- context [if ?b then Ret _ else _] => destruct b; [exact I|] end).
  unfold l_range. destruct (r_range_end r) as [|b re] eqn:RE.
  - unfold l_get. apply wp_rbind. eapply wp_mono; [|apply (wp_list_header cfg _ _ _ _ w w HW); constructor].
    intros w' [[cur kvs]|e] H; [|exact I]. cbn [wp header_post rr_header]. tauto.
  - unfold l_list. rewrite RE. destruct (r_count_only r).
    + apply wp_rbind. eapply wp_mono; [|apply (wp_count_header cfg _ _ _ w w HW); constructor].
      intros w' [[cur n]|e] H; [|exact I]. cbn [wp header_post rr_header]. tauto.
    + cbv zeta. apply wp_rbind. eapply wp_mono; [|apply (wp_list_header cfg _ _ _ _ w w HW); constructor].
      intros w1 [[cur kvs]|e] H; [|exact I]. destruct (_ && _); [|cbn [wp header_post rr_header]; tauto].
      destruct H as [S1 H]. apply wp_rbind.
      eapply wp_mono; [|apply (wp_count_header cfg _ _ _ w w1); eauto using wsteps_reach].
      intros w' [[cur2 n]|e] H2; [|exact I]. cbn [wp header_post rr_header]. tauto.
Qed.
Definition header_promise : promise := fun i q A w0 L w o => forall r, q = WRange r ->
  match o with ReRange x => header_post w0 w x | _ => False end.
Lemma header_stable : stable header_promise.
Proof.
  intros i q A w0 L w o w' D S _ _ _ H r E. specialize (H r E). destruct o as [|[a|e]|]; auto.
  cbn in *. pose proof (extends_revision _ _ (wsteps_extends _ _ S)). lia.
Qed.
Lemma header_keeps cfg okf : keeps cfg okf header_promise.
Proof.
  intros i q A w HQ HW E. unfold header_promise. apply lwp_all. intros r ->.
  apply (lwp_faults any_fault okf); [intros; exact I|].
  apply (wp_lwp any_fault i (served cfg (WRange r)) (fun w' o => match o with ReRange x => header_post w w' x | _ => False end)).
  cbn [served]. apply wp_bind. eapply wp_mono; [|apply wp_header; eauto]. intros w' x H. exact H.
Qed.
Lemma header_bounds cfg okf s before during after i r a : lreach cfg okf s ->
  answered_request (l_log s) before during after i (WRange r) (ReRange (Ok a)) ->
  revision (commits before) <= rr_header a <= revision (commits (before ++ during)).
Proof.
  intros H E. destruct (promise_kept cfg okf header_promise s before during after i _ _ header_stable (header_keeps cfg okf) H E)
    as (w0 & w & A1 & A2 & A3 & A4 & A5 & A6 & A7 & A8).
  specialize (A8 r eq_refl). cbn in A8. rewrite A5, A6. exact A8.
Qed.
Lemma asked_place cfg okf s A q i B A' q' B' : lreach cfg okf s -> l_log s = A ++ Asked i q :: B -> l_log s = A' ++ Asked i q' :: B' -> A = A' /\ B = B'.
Proof.
  intros H E1 E2. pose proof (V_once _ _ _ _ (X_base _ _ (lreach_cinv _ _ _ H))) as O.
  pose proof (O _ _ _ _ E1) as N1. pose proof (O _ _ _ _ E2) as N2. rewrite E1 in E2.
  destruct (two_places _ _ _ _ _ _ E2) as [(X & _ & Y)|[(M & -> & _)|(M & -> & _)]]; auto; exfalso.
  - apply (N2 q). apply in_app_iff; simpl; auto.
  - apply (N1 q'). apply in_app_iff; simpl; auto.
Qed.
Definition quiet_after (log : ledger) (i : nat) : Prop := forall A o B, log = A ++ Answered i o :: B -> forall o', ~ In (Answered i o') A.
Lemma answered_once cfg okf s : lreach cfg okf s -> forall i, quiet_after (l_log s) i.
Proof.
  intros H. assert (G : lreach cfg any_fault s) by (eapply lreach_any; eauto). clear H.
  induction G as [|s s' R IH S]; [intros i A o B E; destruct A; discriminate|].
  pose proof (lreach_cinv _ _ _ R) as V. destruct V as [_ L _]. intros j A o' B E o2 Y.
  destruct S as [w ps log n q HQ|w ps1 i c k ps2 log n f O|w ps1 i o ps2 log n|w ps1 x ps2 log n]; cbn [l_log l_procs] in *.
  - apply snoc_split in E. destruct E as [(_ & _ & X)|(B' & _ & E)]; [discriminate|]. apply (IH j A o' B' E o2 Y).
  - apply app_split in E; [destruct E as (B' & _ & E); apply (IH j A o' B' E o2 Y)|].
    intros Z. apply in_map_iff in Z. destruct Z as (e & Z & _). discriminate.
  - apply snoc_split in E. destruct E as [(_ & -> & X)|(B' & _ & E)]; [|apply (IH j A o' B' E o2 Y)].
    injection X as -> ->. destruct (L j (Ret o')) as (q & _ & _ & Z & _); [apply in_app_iff; simpl; auto|]. apply (Z o2 Y).
  - apply (IH j A o' B E o2 Y).
Qed.
(** what was committed when [i] was answered is committed when a later request is asked *)
Lemma precedes_commits cfg okf s b1 d1 a1 i q1 o1 b2 d2 a2 j q2 o2 : lreach cfg okf s ->
  answered_request (l_log s) b1 d1 a1 i q1 o1 -> answered_request (l_log s) b2 d2 a2 j q2 o2 ->
  precedes (l_log s) i o1 j q2 -> exists M, commits b2 = commits (b1 ++ d1) ++ M.
Proof.
  intros H A1 A2 (A & B & C & E). unfold answered_request in *.
  assert (E' : l_log s = (A ++ Answered i o1 :: B) ++ Asked j q2 :: C) by (rewrite E, <- app_assoc; reflexivity).
  destruct (asked_place _ _ _ _ _ _ _ _ _ _ H A2 E') as [-> _].
  assert (A1' : l_log s = (b1 ++ Asked i q1 :: d1) ++ Answered i o1 :: a1) by (rewrite A1, <- app_assoc; reflexivity).
  assert (EQ : b1 ++ Asked i q1 :: d1 = A).
  { pose proof (answered_once _ _ _ H i _ _ _ A1') as N1. pose proof (answered_once _ _ _ H i _ _ _ E) as N2.
    rewrite E in A1'. destruct (two_places _ _ _ _ _ _ A1') as [(X & _ & _)|[(M & X & _)|(M & X & _)]]; auto; exfalso.
    - apply (N1 o1). rewrite X. apply in_app_iff; simpl; auto.
    - apply (N2 o1). rewrite X. apply in_app_iff; simpl; auto. }
  subst A. rewrite !commits_app. rewrite <- commits_app. exists (commits B). rewrite !commits_app. reflexivity.
Qed.

Lemma monotonic_reads cfg okf s b1 d1 a1 i r1 x1 b2 d2 a2 j r2 x2 : lreach cfg okf s ->
  answered_request (l_log s) b1 d1 a1 i (WRange r1) (ReRange (Ok x1)) ->
  answered_request (l_log s) b2 d2 a2 j (WRange r2) (ReRange (Ok x2)) ->
  precedes (l_log s) i (ReRange (Ok x1)) j (WRange r2) -> rr_header x1 <= rr_header x2.
Proof.
  intros H A1 A2 PR. destruct (precedes_commits _ _ _ _ _ _ _ _ _ _ _ _ _ _ _ H A1 A2 PR) as (M & E).
  pose proof (header_bounds _ _ _ _ _ _ _ _ _ H A1). pose proof (header_bounds _ _ _ _ _ _ _ _ _ H A2).
  rewrite E, revision_app in *. pose proof (revision_nonneg M). lia.
Qed.
Lemma read_own_writes cfg okf s b1 d1 a1 i c rev b2 d2 a2 j r2 x2 : lreach cfg okf s ->
  answered_request (l_log s) b1 d1 a1 i (WTxn (request c)) (ReTxn (Ok (success c rev))) ->
  answered_request (l_log s) b2 d2 a2 j (WRange r2) (ReRange (Ok x2)) ->
  precedes (l_log s) i (ReTxn (Ok (success c rev))) j (WRange r2) ->
  rev <= rr_header x2 /\ nth_error (commits b2) (Z.to_nat (rev - 1)) = Some (effect c).
Proof.
  intros H A1 A2 PR. destruct (precedes_commits _ _ _ _ _ _ _ _ _ _ _ _ _ _ _ H A1 A2 PR) as (M & E).
  pose proof (header_bounds _ _ _ _ _ _ _ _ _ H A2) as HB.
  destruct (conditional_success _ _ _ _ _ _ _ _ _ H A1) as (D1 & D2 & -> & C & R); [reflexivity|].
  assert (RV : rev = revision (commits (b1 ++ D1)) + 1) by (injection R; auto).
  assert (EC : commits b2 = commits (b1 ++ D1) ++ effect c :: commits D2 ++ M).
  { rewrite E, !commits_app. change (commits (Committed i (effect c) :: D2)) with (effect c :: commits D2). now rewrite <- !app_assoc. }
  split.
  - assert (G : revision (commits b2) = revision (commits (b1 ++ D1)) + (1 + revision (commits D2 ++ M))).
    { rewrite EC, revision_app. unfold revision. cbn [length]. lia. }
    pose proof (revision_nonneg (commits D2 ++ M)). lia.
  - rewrite EC. replace (Z.to_nat (rev - 1)) with (length (commits (b1 ++ D1))) by (unfold revision in RV; lia).
    rewrite nth_error_app2 by lia. now rewrite Nat.sub_diag.
Qed.

Lemma no_moment before during n k x : kv_at (commits (before ++ during)) n k = Some x ->
  forall D1 D2, during = D1 ++ D2 -> n = revision (commits (before ++ D1)) -> ~ content (commits (before ++ D1)) n k [] [].
Proof.
  intros K D1 D2 -> N C. rewrite app_assoc, commits_app, kv_at_app in K by lia. cbn in C. rewrite K in C. discriminate.
Qed.
