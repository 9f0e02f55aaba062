(** What answers show is what was committed; no lost updates. *)
From Coq Require Import List ZArith Bool Lia.
From Verif Require Import Bytes Spec Sql System Prog Backend Limited Api Pool Ledger Shown Observe SpecLemmas SqlLemmas Sim ReadLemmas WatchLemmas ProgLemmas ReadProgs Safety ApiLemmas StoreProofs ReadProofs TraceLemmas TxnProofs LedgerLemmas LedgerProofs LedgerMore LedgerReads.
Import ListNotations.
Open Scope Z_scope.

Definition genuine (h : history) (x : kv) : Prop := kv_at h (kv_mod x) (kv_key x) = Some x.
Lemma genuine_le h x : genuine h x -> kv_mod x <= revision h.
Proof. intros H. apply kv_at_facts in H. lia. Qed.
Lemma genuine_app h l x : genuine h x -> genuine (h ++ l) x.
Proof. intros H. unfold genuine. rewrite kv_at_app; auto. now apply genuine_le. Qed.

(** rows of the list queries *)
Lemma snap_genuine d s lo hi n x : R d s -> In x (snap d lo hi n) ->
  genuine (history_of s) x /\ in_range lo hi (kv_key x) /\ kv_mod x <= n.
Proof.
  intros HR H. unfold snap in H. apply in_map_iff in H. destruct H as (y & <- & H). apply order_by_in in H.
  pose proof (selected_sub _ _ _ _ _ H) as Y. unfold selected in H. apply filter_In in H. destruct H as [H D].
  apply group_max_in in H. destruct H as [H _]. unfold candidates in H. apply filter_In in H. destruct H as [_ H].
  apply negb_true_iff in D. pose proof (row_kv _ _ _ (R_row _ _ HR _ Y)) as K. rewrite D in K.
  split; [exact K|]. apply andb_true_iff in H. destruct H as [H1 H2]. cbn [kv_of kv_key kv_mod].
  rewrite <- in_range_b_iff. split; [exact H1|]. now apply Z.leb_le.
Qed.
Lemma ztake_in {A} n (l : list A) x : In x (ztake n l) -> In x l.
Proof.
  revert n. induction l as [|a l IH]; cbn [ztake]; auto. intros n. destruct (n <=? 0); [intros []|].
  intros [->|H]; [now left|]. right. eauto.
Qed.
Lemma opt_limit_in {A} n (l : list A) x : In x (opt_limit n l) -> In x l.
Proof. unfold opt_limit. destruct (0 <? n); auto. apply ztake_in. Qed.
Lemma cut_rows_in {A} c (l : list A) x : In x (rs_rows (cut_rows c l)) -> In x l.
Proof.
  destruct c as [[n e]|]; cbn [cut_rows rs_rows]; auto.
  intros H. rewrite <- (firstn_skipn n l). apply in_app_iff. auto.
Qed.
Lemma answer_genuine cut ld v1 lo hi limit n d s x : R d s ->
  In x (scan_all scan_key_value (answer cut ld (CList v1 lo hi limit n) d)) ->
  genuine (history_of s) x /\ in_range lo hi (kv_key x) /\ kv_mod x <= n.
Proof.
  intros HR H. apply (snap_genuine d s); auto. rewrite <- (list_rows_snap v1) by (eapply R_unique; eauto).
  unfold scan_all in H. apply in_map_iff in H. destruct H as (y & <- & H). apply in_map.
  cbn [answer] in H. apply cut_rows_in, opt_limit_in in H. exact H.
Qed.

Definition lpost (key re : bytes) (rev : Z) (w0 w : world) (r : result (Z * list kv)) : Prop :=
  match r with
  | Ok (cur, kvs) => wsteps w0 w /\ cur <= revision (history_of (snd w)) /\
      forall x, In x kvs -> genuine (history_of (snd w)) x /\ in_range key (range_end key re) (kv_key x) /\
        (rev <> 0 -> kv_mod x <= rev) /\ kv_mod x <= cur
  | Err _ => True
  end.
Lemma wp_list_genuine cfg key re limit rev w0 w : wreach w -> wsteps w0 w ->
  wp any_fault (b_list cfg key re limit rev) (lpost key re rev w0) w.
Proof.
  intros HW S0. unfold b_list. apply wp_rbind. apply wp_get_compact_revision; auto; [|intros; exact I]. intros w1 S1.
  destruct (read_revision rev _ _) as [n|e] eqn:RR; [|exact I]. apply wp_rbind.
  assert (N : n <= revision (history_of (snd w1)) /\ (rev <> 0 -> n <= rev)).
  { unfold read_revision in RR. destruct (Z.eqb_spec rev 0) as [->|]; cbn [orb] in RR.
    - injection RR as <-. split; [lia|]. intros C; now contradiction C.
    - destruct (Z.ltb_spec (revision (history_of (snd w1))) rev).
      + injection RR as <-. split; lia.
      + destruct (rev <? _); [discriminate|]. injection RR as <-. split; lia. }
  unfold d_list. apply wp_query. intros w2 S2. split; [exact I|]. intros f _.
  assert (SF : fst (sem f (CList (cfg_v1 cfg) key (range_end key re) limit n) w2) = w2) by (destruct f; reflexivity).
  rewrite SF. pose proof (reach_R _ _ (wsteps_reach _ _ (wsteps_reach _ _ HW S1) S2)) as HR.
  pose proof (extends_revision _ _ (wsteps_extends _ _ S2)) as E2.
  assert (G : forall rs, snd (sem f (CList (cfg_v1 cfg) key (range_end key re) limit n) w2) = Ok rs ->
     lpost key re rev w0 w2 (Ok (revision (history_of (snd w1)), scan_all scan_key_value rs))).
  { intros rs ER. cbn [lpost]. split; [eapply wsteps_trans; [|exact S2]; eapply wsteps_trans; eauto|]. split; [lia|].
    intros x X. assert (K : exists cut ld, rs = answer cut ld (CList (cfg_v1 cfg) key (range_end key re) limit n) (fst w2)).
    { destruct f as [|e|e|m e|]; cbn [sem snd] in ER; try discriminate; injection ER as <-; [exists None, true|exists (Some (m, e)), true|exists None, false]; reflexivity. }
    destruct K as (cut & ld & ->). destruct (answer_genuine _ _ _ _ _ _ _ _ _ _ HR X) as (K1 & K2 & K3).
    split; [exact K1|]. split; [exact K2|]. split; [intros NZ; apply N in NZ|]; lia. }
  destruct (snd (sem f _ w2)) as [rs|e]; [|exact I]. cbn [wp]. apply G. reflexivity.
Qed.

Definition value_post (q : work) (w : world) (o : reply) : Prop :=
  (forall t, q = WTxn t -> is_compact t = false) ->
  forall x rev, told o x rev -> genuine (history_of (snd w)) x /\ asked_about q x /\ kv_mod x <= rev <= revision (history_of (snd w)).
Lemma in_succ key x : in_range key (range_end key []) (kv_key x) -> kv_key x = key.
Proof. intros H. cbn [range_end] in H. apply in_range_b_iff in H. now apply in_range_succ in H. Qed.
Lemma wp_range_values cfg r w : wreach w -> wp any_fault (s_range cfg r) (fun w' x => value_post (WRange r) w' (ReRange x)) w.
Proof.
  intros HW. unfold s_range. repeat (match goal with |- context [if ?b then Ret _ else _] => destruct b; [intros _ x rev []|] end).
  unfold l_range. destruct (r_range_end r) as [|b re] eqn:RE.
  - unfold l_get. apply wp_rbind. eapply wp_mono; [|apply (wp_list_genuine cfg _ _ _ _ w w HW); constructor].
    intros w' [[cur kvs]|e] H; [|intros _ x rev []]. destruct H as (_ & C & H). intros _ x rev [X ->].
    cbn [rr_kvs rr_header] in *. destruct (H x X) as (A & B & D & E). split; [exact A|]. split; [|lia].
    cbn [asked_about]. rewrite RE. split; [now apply in_succ|exact D].
  - unfold l_list. rewrite RE. destruct (r_count_only r).
    + apply wp_rbind. eapply wp_mono; [|apply (wp_count_header cfg _ _ _ w w HW); constructor].
      intros w' [[cur n]|e] H; [|intros _ x rev []]. intros _ x rev [X _]. destruct X.
    + cbv zeta. apply wp_rbind. eapply wp_mono; [|apply (wp_list_genuine cfg _ _ _ _ w w HW); constructor].
      intros w1 [[cur kvs]|e] H; [|intros _ x rev []]. destruct H as (S1 & C & H).
      assert (G : forall w2 x, wsteps w1 w2 -> In x kvs -> genuine (history_of (snd w2)) x /\ asked_about (WRange r) x /\ kv_mod x <= cur).
      { intros w2 x S2 X. destruct (H x X) as (A & B & D & E).
        destruct (wsteps_extends _ _ S2) as ((l & EX) & _). rewrite EX. split; [now apply genuine_app|].
        cbn [asked_about]. rewrite RE. auto. }
      destruct (_ && _).
      * apply wp_rbind. eapply wp_mono; [|apply (wp_count_header cfg _ _ _ w1 w1); [eauto using wsteps_reach|constructor]].
        intros w' [[cur2 n]|e] H2; [|intros _ x rev []]. intros _ x rev [X ->]. cbn [rr_kvs rr_header] in *.
        apply ztake_in in X. destruct H2 as [S2 H2]. destruct (G w' x S2 X) as (A & B & D). split; [exact A|]. split; [exact B|]. lia.
      * intros _ x rev [X ->]. cbn [rr_kvs rr_header] in *. destruct (G w1 x (wsteps_refl _) X) as (A & B & D).
        split; [exact A|]. split; [exact B|]. lia.
Qed.
Lemma wp_failure_values cfg key rev0 w t : wreach w -> txn_key t = Some key ->
  wp any_fault (l_failure cfg key rev0) (fun w' x => value_post (WTxn t) w' (ReTxn x)) w.
Proof.
  intros HW K. unfold l_failure. apply wp_rbind. eapply wp_mono; [|apply (wp_list_genuine cfg _ _ _ _ w w HW); constructor].
  intros w' [[cur kvs]|e] H; [|intros _ x rev []]. destruct H as (_ & C & H).
  intros _ x rev (a & X1 & X2 & ->). destruct X1 as [X1|[]]. injection X1 as <-. cbn [rr_kvs rr_header] in *.
  destruct (H x X2) as (A & B & D & E). split; [exact A|]. split; [|lia]. cbn [asked_about]. rewrite K. f_equal.
  symmetry. now apply in_succ.
Qed.

Lemma wp_txn_values cfg t w : wreach w -> txn_key t <> Some compact_rev_key ->
  wp any_fault (s_txn cfg t) (fun w' x => value_post (WTxn t) w' (ReTxn x)) w.
Proof.
  intros HW H. pose proof (fun key rev0 w1 => wp_failure_values cfg key rev0 w1 t) as F.
  unfold s_txn, l_txn. unfold txn_key in H, F.
  assert (N : forall w1 h b l, (forall a, ~ In (RespRange a) l) -> value_post (WTxn t) w1 (ReTxn (Ok (TxnResp h b l)))).
  { intros w1 h b l NR _ x rev (a & X & _). destruct (NR a X). }
  assert (Z : forall w1 e, value_post (WTxn t) w1 (ReTxn (Err e))) by (intros w1 e _ x rev []).
  destruct (is_create t) as [p|].
  { unfold l_create. destruct (_ || _ || _); [apply Z|]. apply wp_rbind. unfold b_create, d_create. apply wp_rbind.
    eapply wp_mono; [|apply (wp_exec_any (ACreate (p_key p) (p_value p) (p_lease p)))].
    - intros w1 [x|e] _; [|apply Z]. cbn [wp]. destruct (exec_outcome x) as [n [|]]; cbn [wp]; apply N; cbn; intuition discriminate.
    - intros s. split; simpl; auto. congruence. }
  destruct (is_delete t) as [[rev k]|].
  { unfold l_delete. apply wp_rbind. unfold b_delete, d_delete. apply wp_rbind.
    eapply wp_mono; [|apply wp_strengthen, (wp_exec_any (ADelete k rev))].
    - intros w1 [x|e] [S _]; [|apply Z]. cbn [wp]. destruct (exec_outcome x) as [n [|]]; [cbn [wp]; apply N; cbn; intuition discriminate|].
      apply F; auto. eapply wsteps_reach; eauto.
    - intros s. split; simpl; auto. congruence. }
  destruct (is_update t) as [[[[rev k] v] l]|].
  { unfold l_update. apply wp_rbind. destruct (rev =? 0).
    - unfold b_create, d_create. apply wp_rbind.
      eapply wp_mono; [|apply wp_strengthen, (wp_exec_any (ACreate k v l))].
      + intros w1 [x|e] [S _]; [|apply Z]. cbn [wp]. destruct (exec_outcome x) as [n [|]]; [cbn [wp]; apply N; cbn; intuition discriminate|].
        apply F; auto. eapply wsteps_reach; eauto.
      + intros s. split; simpl; auto. congruence.
    - unfold b_update, d_update. apply wp_rbind.
      eapply wp_mono; [|apply wp_strengthen, (wp_exec_any (AUpdate k v rev l))].
      + intros w1 [x|e] [S _]; [|apply Z]. cbn [wp]. destruct (exec_outcome x) as [n [|]]; [cbn [wp]; apply N; cbn; intuition discriminate|].
        apply F; auto. eapply wsteps_reach; eauto.
      + intros s. split; simpl; auto. congruence. }
  destruct (is_compact t) eqn:CT; [|apply Z]. intros C. specialize (C t eq_refl). congruence.
Qed.

Definition value_promise : promise := fun i q A w0 L w o => value_post q w o.
Lemma value_stable : stable value_promise.
Proof.
  intros i q A w0 L w o w' D S _ _ _ H C x rev T. destruct (H C x rev T) as (H1 & H2 & H3).
  destruct (wsteps_extends _ _ S) as ((l & EX) & _). rewrite EX. split; [now apply genuine_app|]. split; [exact H2|].
  rewrite revision_app. pose proof (revision_nonneg l). lia.
Qed.
Lemma value_keeps cfg okf : keeps cfg okf value_promise.
Proof.
  intros i q A w HQ HW E. unfold value_promise.
  apply (lwp_faults any_fault okf); [intros; exact I|].
  apply (wp_lwp any_fault i (served cfg q) (value_post q)).
  destruct q as [t|r| | |k rev]; cbn [served]; apply wp_bind.
  - eapply wp_mono; [|apply wp_txn_values; eauto]. intros w' x H. exact H.
  - eapply wp_mono; [|apply wp_range_values; eauto]. intros w' x H. exact H.
  - eapply wp_mono; [|now apply wp_do_compact]. intros w' x H _ y z [].
  - eapply wp_mono; [|now apply wp_start]. intros w' x H _ y z [].
  - eapply wp_mono; [|now apply wp_delete]. intros w' x H _ y z [].
Qed.
Lemma shows_told o x : shows o x -> exists rev, told o x rev.
Proof.
  destruct o as [[t|]|[a|]|]; cbn; try tauto.
  - intros (a & A & B). exists (rr_header a), a. auto.
  - intros H. exists (rr_header a). auto.
Qed.
Lemma told_genuine cfg okf s before during after i q o x rev : lreach cfg okf s ->
  answered_request (l_log s) before during after i q o -> (forall t, q = WTxn t -> is_compact t = false) -> told o x rev ->
  kv_at (commits (before ++ during)) (kv_mod x) (kv_key x) = Some x /\ asked_about q x /\
  kv_mod x <= rev <= revision (commits (before ++ during)).
Proof.
  intros H E C T. destruct (promise_kept cfg okf value_promise s before during after i _ _ value_stable (value_keeps cfg okf) H E)
    as (w0 & w & A1 & A2 & A3 & A4 & A5 & A6 & A7 & A8).
  rewrite A6. exact (A8 C x rev T).
Qed.
Lemma shown_genuine cfg okf s before during after i q o x : lreach cfg okf s ->
  answered_request (l_log s) before during after i q o -> (forall t, q = WTxn t -> is_compact t = false) -> shows o x ->
  genuine (commits (l_log s)) x.
Proof.
  intros H E C T. apply shows_told in T. destruct T as (rev & T).
  destruct (told_genuine _ _ _ _ _ _ _ _ _ _ _ H E C T) as (G & _). rewrite E.
  assert (X : exists l, commits (before ++ Asked i q :: during ++ Answered i o :: after) = commits (before ++ during) ++ l).
  { exists (commits (Answered i o :: after)). rewrite !commits_app.
    change (commits (Asked i q :: during ++ Answered i o :: after)) with (commits (during ++ Answered i o :: after)).
    rewrite commits_app. now rewrite app_assoc. }
  destruct X as (l & ->). now apply genuine_app.
Qed.
Lemma same_version h1 h2 x y : genuine (h1 ++ h2) x -> now h1 (kv_key x) = Some y -> kv_mod y = kv_mod x -> y = x.
Proof.
  intros G N M. apply now_facts in N. destruct N as (K & _ & L & _ & _ & N). unfold genuine in G.
  rewrite kv_at_app in G by lia. rewrite M, G in N. congruence.
Qed.
Lemma no_lost_commit cfg okf s before during after i q o x A j e B c : lreach cfg okf s ->
  answered_request (l_log s) before during after i q o -> (forall t, q = WTxn t -> is_compact t = false) -> shows o x ->
  In (Asked j (WTxn (request c))) (l_log s) -> expects c (kv_key x) (kv_mod x) ->
  l_log s = A ++ Committed j e :: B -> e = effect c /\ now (commits A) (kv_key x) = Some x.
Proof.
  intros H E C SH AS EX EL. pose proof (shown_genuine _ _ _ _ _ _ _ _ _ _ H E C SH) as G.
  destruct (commit_of_request _ _ _ _ _ _ _ c H EL AS) as [-> CO]. split; [reflexivity|].
  destruct (expects_now _ _ _ _ EX CO) as (y & N & M). rewrite EL, commits_app in G. rewrite N. f_equal.
  eapply same_version; eauto.
Qed.
Lemma no_lost_success cfg okf s before during after i q o x b d a j c resp : lreach cfg okf s ->
  answered_request (l_log s) before during after i q o -> (forall t, q = WTxn t -> is_compact t = false) -> shows o x ->
  expects c (kv_key x) (kv_mod x) ->
  answered_request (l_log s) b d a j (WTxn (request c)) (ReTxn (Ok resp)) -> tr_succeeded resp = true ->
  exists D1 D2, d = D1 ++ Committed j (effect c) :: D2 /\ now (commits (b ++ D1)) (kv_key x) = Some x.
Proof.
  intros H E C SH EX EA T. destruct (conditional_success _ _ _ _ _ _ _ _ _ H EA T) as (D1 & D2 & ED & CO & R).
  exists D1, D2. split; [exact ED|]. pose proof (shown_genuine _ _ _ _ _ _ _ _ _ _ H E C SH) as G.
  destruct (expects_now _ _ _ _ EX CO) as (y & N & M). rewrite N. f_equal.
  apply (same_version (commits (b ++ D1)) (effect c :: commits (D2 ++ Answered j (ReTxn (Ok resp)) :: a))); auto.
  rewrite EA, ED in G. rewrite !commits_app in *. cbn [app] in G.
  change (commits (Asked j (WTxn (request c)) :: (D1 ++ Committed j (effect c) :: D2) ++ Answered j (ReTxn (Ok resp)) :: a))
    with (commits ((D1 ++ Committed j (effect c) :: D2) ++ Answered j (ReTxn (Ok resp)) :: a)) in G.
  rewrite !commits_app in G. change (commits (Committed j (effect c) :: D2)) with (effect c :: commits D2) in G.
  rewrite <- !app_assoc in *. cbn [app] in *. exact G.
Qed.
