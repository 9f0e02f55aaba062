(** Proofs for C06-C13, C18, C19, C35. *)
From Coq Require Import List ZArith Bool Lia Sorting.Sorted.
From Verif Require Import Bytes Spec Sql System Prog Backend Limited Api Pool Observe SpecLemmas SqlLemmas Sim ReadLemmas ProgLemmas ReadProgs Safety ApiLemmas StoreProofs.
Import ListNotations.
Open Scope Z_scope.

Local Notation ck := compact_rev_key.

(** What a range request returns when other processes work at the same time.
    [w] = state when it was received, [w'] = state when it was answered. *)
Definition range_post (w : world) (r : range_req) (w' : world) (resp : result range_resp) : Prop :=
  let rev := r_revision r in
  match resp with
  | Err ECompacted =>
      (rev <> 0 /\ rev < floor_of (snd w')) \/ (rev = 0 /\ revision (history_of (snd w)) < floor_of (snd w'))
  | Err _ => True
  | Ok a =>
      exists cur, revision (history_of (snd w)) <= cur <= rr_header a /\
        rr_header a <= revision (history_of (snd w')) /\
        (rr_more a = false -> cur = rr_header a) /\
        (r_range_end r = [] \/ r_count_only r = true \/ r_limit r <= 0 -> rr_more a = false) /\
        (floor_of (snd w') <= read_at rev cur ->
         exists L, content (history_of (snd w')) (read_at rev cur) (r_key r) (r_range_end r) L /\
         match r_range_end r with
         | [] => rr_kvs a = L /\ rr_more a = false
         | _ => if r_count_only r then rr_kvs a = [] /\ rr_more a = false /\ rr_count a = Z.of_nat (length L)
                else rr_kvs a = page (r_limit r) L /\
                     rr_more a = ((0 <? r_limit r) && (r_limit r <? Z.of_nat (length L))) /\
                     (rev <= cur -> rr_count a = Z.of_nat (length L))
         end)
  end.

Lemma content_range h n key re L : re <> [] -> is_snapshot h n key re L -> content h n key re L.
Proof. destruct re; simpl; auto. congruence. Qed.

Lemma later_snapshot w w' n lo hi L : wsteps w w' -> n <= revision (history_of (snd w)) ->
  is_snapshot (history_of (snd w)) n lo hi L -> is_snapshot (history_of (snd w')) n lo hi L.
Proof.
  intros S Hn [A B]. split; auto. intros x. rewrite B.
  rewrite (extends_kv_at (snd w) (snd w')); [tauto| |auto]. now apply wsteps_extends.
Qed.

Lemma read_at_le rev cur : read_at rev cur <= cur.
Proof. unfold read_at. destruct (Z.eqb_spec rev 0); simpl; [lia|]. destruct (Z.ltb_spec cur rev); lia. Qed.

Lemma wp_faults {A} (okf okf' : fault -> Prop) (p : prog A) Q : (forall f, okf' f -> okf f) ->
  forall w, wp okf p Q w -> wp okf' p Q w.
Proof.
  intros H. induction p as [a|c k IH]; simpl; auto. intros w K w1 S. destruct (K w1 S). split; auto.
Qed.

Lemma wp_s_range cfg r w : wreach w -> supported_range r -> int64 (r_limit r) -> r_limit r <> int64_max ->
  wp clean (s_range cfg r) (range_post w r) w.
Proof.
  intros HW (S1 & S2 & S3 & S4 & S5 & S6 & S7 & S8) HL HM.
  unfold s_range. rewrite S1, S2, S3, S4, S5, S6, S7, S8. simpl negb. cbv iota.
  unfold l_range. destruct (r_range_end r) as [|b re] eqn:RE.
  - unfold l_get. apply wp_rbind. eapply wp_mono; [|apply wp_strengthen, wp_b_list; auto].
    intros w' [[cur kvs]|e] [ST H]; unfold list_post in H.
    + cbn [wp]. unfold range_post. destruct H as [H1 H2]. exists cur. cbn [rr_header rr_more rr_kvs].
      repeat split; try tauto; try lia. intros F. rewrite RE.
      destruct (H2 F) as (L & A & ->). rewrite effective_read_at in A. change (range_end (r_key r) []) with (r_key r ++ [0%N]) in A.
      apply succ_snapshot in A. subst L. eexists. split; [reflexivity|]. split; auto.
      destruct (kv_at _ _ (r_key r)); reflexivity.
    + destruct e; simpl; auto. left. lia.
  - unfold l_list. rewrite RE. destruct (r_count_only r) eqn:CO.
    + apply wp_rbind. eapply wp_mono; [|apply wp_strengthen].
      2:{ apply (wp_faults db_fault); [intros f [_ Hf]; exact Hf|]. now apply wp_b_count. }
      intros w' [[cur n]|e] [ST H]; unfold count_post in H.
      * cbn [wp]. unfold range_post. destruct H as [H1 H2]. exists cur. cbn [rr_header rr_more rr_kvs rr_count].
        repeat split; try tauto; try lia. intros F. rewrite RE, CO.
        destruct (H2 F) as (L & A & ->). exists L. split; [exact A|]. auto.
      * destruct e; simpl; auto. left. lia.
    + set (limit := if 0 <? r_limit r then wrap64 (r_limit r + 1) else r_limit r).
      assert (W : limit = if 0 <? r_limit r then r_limit r + 1 else r_limit r).
      { unfold limit. destruct (0 <? r_limit r) eqn:E; auto. apply Z.ltb_lt in E.
        unfold wrap64, int64, int64_max in *. rewrite Z.mod_small by lia. lia. }
      clearbody limit. subst limit. cbv zeta.
      apply wp_rbind. eapply wp_mono; [|apply wp_strengthen, wp_b_list; auto].
      intros w1 [[cur kvs]|e] [ST1 H]; unfold list_post in H.
      2:{ destruct e; simpl; auto. left. lia. }
      destruct H as [H1 H2]. change (range_end (r_key r) (b :: re)) with (b :: re) in H2.
      pose proof (wsteps_reach _ _ HW ST1) as HW1.
      destruct (Z.ltb_spec 0 (r_limit r)) as [P|P].
      2:{ replace (0 <? r_limit r) with false by (symmetry; apply Z.ltb_ge; lia).
          cbn [andb wp]. unfold range_post. exists cur. cbn [rr_header rr_more rr_kvs rr_count].
          repeat split; try tauto; try lia. intros F. rewrite RE, CO.
          destruct (H2 F) as (L & A & ->). exists L. unfold opt_limit, page.
          replace (0 <? r_limit r) with false by (symmetry; apply Z.ltb_ge; lia).
          split; [exact A|]. auto. }
      assert (P1 : (0 <? r_limit r + 1) = true) by (apply Z.ltb_lt; lia).
      assert (P2 : (0 <? r_limit r) = true) by (apply Z.ltb_lt; lia).
      rewrite P1. cbn [andb].
      destruct (Z.ltb_spec (r_limit r) (Z.of_nat (length kvs))) as [M|M].
      * apply wp_rbind.
        set (rev' := if r_revision r =? 0 then cur else r_revision r).
        eapply wp_mono; [|apply wp_strengthen].
        2:{ apply (wp_faults db_fault); [intros f [_ Hf]; exact Hf|]. now apply wp_b_count. }
        intros w' [[cur2 n]|e] [ST2 H]; unfold count_post in H.
        -- cbn [wp]. unfold range_post. destruct H as [H3 H4]. exists cur. cbn [rr_header rr_more rr_kvs rr_count].
           split; [lia|]. split; [lia|]. split; [discriminate|]. split; [intros [?|[?|?]]; [congruence|congruence|lia]|]. intros F. rewrite RE, CO.
           pose proof (extends_revision _ _ (wsteps_extends _ _ ST2)) as E2.
           destruct (wsteps_extends _ _ ST2) as [_ F2].
           change (effective (r_revision r) cur) with (read_at (r_revision r) cur) in *.
           destruct H2 as (L & A & K); [lia|].
           pose proof (read_at_le (r_revision r) cur) as RL.
           assert (A' : is_snapshot (history_of (snd w')) (read_at (r_revision r) cur) (r_key r) (b :: re) L).
           { eapply later_snapshot; eauto. lia. }
           exists L. unfold opt_limit in K. rewrite P1 in K. subst kvs. rewrite ztake_length in M by lia.
           unfold page. rewrite P2. split; [exact A'|]. repeat split.
           ++ rewrite ztake_ztake by lia. replace (r_limit r + 1 - 1) with (r_limit r) by lia. apply ztake_firstn; lia.
           ++ symmetry. apply Z.ltb_lt. lia.
           ++ intros LE. assert (RR : effective rev' cur2 = read_at (r_revision r) cur).
              { assert (C0 : 0 < cur).
                { pose proof (snapshot_length _ _ _ _ _ A) as SL. destruct L; [simpl in M; lia|].
                  destruct A as [_ A]. destruct (A k) as [A1 _]. destruct (A1 ltac:(simpl; auto)) as [_ A2].
                  destruct (Z_le_gt_dec cur 0); [|lia]. rewrite kv_at_zero in A2 by lia. discriminate. }
                unfold rev', effective, read_at. destruct (Z.eqb_spec (r_revision r) 0) as [Z0|Z0].
                - simpl. destruct (Z.eqb_spec cur 0); [lia|]. destruct (Z.ltb_spec cur2 cur); [lia|]. reflexivity.
                - destruct (Z.eqb_spec (r_revision r) 0); [lia|]. simpl.
                  destruct (Z.ltb_spec cur2 (r_revision r)), (Z.ltb_spec cur (r_revision r)); simpl; auto; lia. }
              rewrite RR in H4. destruct (H4 F) as (L' & B & ->). change (range_end (r_key r) (b :: re)) with (b :: re) in B.
              now rewrite (snapshot_unique _ _ _ _ _ _ B A').
        -- destruct e; simpl; auto. unfold rev' in H. destruct (Z.eqb_spec (r_revision r) 0); [right|left]; lia.
      * cbn [wp]. unfold range_post. exists cur. cbn [rr_header rr_more rr_kvs rr_count].
        repeat split; try tauto; try lia. intros F. rewrite RE, CO.
        destruct (H2 F) as (L & A & K). exists L. unfold opt_limit in K. rewrite P1 in K.
        assert (LL : Z.of_nat (length L) <= r_limit r).
        { subst kvs. rewrite ztake_length in M by lia. lia. }
        rewrite ztake_all in K by lia. subst kvs. unfold page. rewrite P2.
        split; [exact A|]. repeat split.
        -- rewrite firstn_all2; auto. lia.
        -- symmetry. apply Z.ltb_ge. lia.
Qed.

Lemma exec_range cfg r w sched w' resp : wreach w -> supported_range r -> int64 (r_limit r) -> r_limit r <> int64_max ->
  fair (s_range cfg r) sched w -> all_faults clean sched ->
  exec (s_range cfg r) sched w = (w', Some resp) ->
  wsteps w w' /\ range_post w r w' resp.
Proof.
  intros HW HS HI HM HF HA E.
  pose proof (wp_exec clean _ _ sched w (wp_s_range cfg r w HW HS HI HM) HF HA) as [A B].
  rewrite E in *. split; auto.
Qed.

(** C06/C07/C18: unlimited list and get under interference *)
Lemma list_concurrent cfg lo hi rev w sched w' resp : wreach w -> hi <> [] ->
  fair (s_range cfg (range lo hi 0 rev)) sched w -> Forall (fun x => clean (snd x)) sched ->
  exec (s_range cfg (range lo hi 0 rev)) sched w = (w', Some (Ok resp)) ->
  let n := read_at rev (rr_header resp) in
  revision (history_of (snd w)) <= rr_header resp <= revision (history_of (snd w')) /\
  (floor_of (snd w') <= n -> is_snapshot (history_of (snd w')) n lo hi (rr_kvs resp) /\
     rr_more resp = false /\ (rev <= rr_header resp -> rr_count resp = Z.of_nat (length (rr_kvs resp)))).
Proof.
  intros HW NE HF HA E. cbv zeta.
  destruct (exec_range cfg _ w sched w' (Ok resp) HW (supported_plain _ _ _ _) int64_0 ltac:(discriminate) HF HA E) as [_ P].
  unfold range_post in P. cbn [range r_revision r_key r_range_end r_count_only r_limit] in P.
  destruct P as (cur & P1 & P2 & P3 & P4 & P5). rewrite P3 in * by (apply P4; right; right; lia).
  split; [lia|]. intros F. destruct (P5 F) as (L & A & B).
  destruct hi as [|b hi]; [congruence|]. destruct B as (B & C & D). cbn [page Z.ltb Z.compare andb] in *.
  unfold page in B. simpl in B. rewrite B. split; [exact A|]. split; [exact C|exact D].
Qed.

Lemma get_concurrent cfg k rev w sched w' resp : wreach w ->
  fair (s_range cfg (range k [] 0 rev)) sched w -> Forall (fun x => clean (snd x)) sched ->
  exec (s_range cfg (range k [] 0 rev)) sched w = (w', Some (Ok resp)) ->
  let n := read_at rev (rr_header resp) in
  revision (history_of (snd w)) <= rr_header resp <= revision (history_of (snd w')) /\
  (floor_of (snd w') <= n ->
   rr_kvs resp = match kv_at (history_of (snd w')) n k with Some x => [x] | None => [] end).
Proof.
  intros HW HF HA E. cbv zeta.
  destruct (exec_range cfg _ w sched w' (Ok resp) HW (supported_plain _ _ _ _) int64_0 ltac:(discriminate) HF HA E) as [_ P].
  unfold range_post in P. cbn [range r_revision r_key r_range_end r_count_only r_limit] in P.
  destruct P as (cur & P1 & P2 & P3 & P4 & P5). rewrite P3 in * by (apply P4; auto).
  split; [lia|]. intros F. destruct (P5 F) as (L & A & B & C). rewrite B. exact A.
Qed.

(** C13 under interference: a refusal is always justified *)
Lemma refusal_concurrent cfg r w sched w' : wreach w -> supported_range r -> int64 (r_limit r) -> r_limit r <> int64_max ->
  fair (s_range cfg r) sched w -> Forall (fun x => clean (snd x)) sched ->
  exec (s_range cfg r) sched w = (w', Some (Err ECompacted)) ->
  (r_revision r <> 0 /\ r_revision r < floor_of (snd w')) \/
  (r_revision r = 0 /\ revision (history_of (snd w)) < floor_of (snd w')).
Proof.
  intros HW HS HI HM HF HA E.
  exact (proj2 (exec_range cfg r w sched w' (Err ECompacted) HW HS HI HM HF HA E)).
Qed.

(** C10 *)
Lemma rest_snapshot h n lo hi l x rest : is_snapshot h n lo hi (l ++ x :: rest) ->
  is_snapshot h n (kv_key x ++ [0%N]) hi rest.
Proof.
  intros [S M]. apply sorted_app in S. destruct S as (S1 & S2 & S3). inversion S2; subst. split; auto.
  rewrite Forall_forall in H2. intros y. split.
  - intros I. assert (J : In y (l ++ x :: rest)) by (apply in_app_iff; right; right; auto).
    apply M in J. destruct J as [[J1 J2] J3]. repeat split; auto. apply blt_ble_bsucc. now apply H2.
  - intros [[J1 J2] J3]. apply blt_ble_bsucc in J1.
    assert (IX : In x (l ++ x :: rest)) by (apply in_app_iff; right; left; auto).
    apply M in IX. destruct IX as [[X1 X2] X3].
    assert (J : In y (l ++ x :: rest)).
    { apply M. repeat split; auto. eapply ble_trans; eauto. now apply blt_ble. }
    apply in_app_iff in J. destruct J as [J|[->|J]]; auto.
    + exfalso. apply (S3 y x) in J; [|simpl; auto]. eapply blt_asym; eauto.
    + exfalso. eapply blt_irrefl; eauto.
Qed.

Lemma pages_steps cfg hi limit rev lo w w' L : wreach w ->
  pages cfg clean hi limit rev lo w w' L -> 0 < limit < int64_max -> wsteps w w'.
Proof.
  intros HW P HL. revert HW. induction P; intros HW.
  - eapply wsteps_trans; eauto. apply (exec_range cfg _ w1 sched w' (Ok resp)
      (wsteps_reach _ _ HW H) (supported_plain lo hi limit rev)); auto; simpl; unfold int64; lia.
  - pose proof (wsteps_reach _ _ HW H) as HW1.
    assert (S : wsteps w1 w2) by (apply (exec_range cfg _ w1 sched w2 (Ok resp)
      HW1 (supported_plain lo hi limit rev)); auto; simpl; unfold int64; lia).
    eapply wsteps_trans; [eauto|]. eapply wsteps_trans; [eauto|]. apply IHP. eapply wsteps_reach; eauto.
Qed.

Lemma pages_lemma cfg hi limit rev lo w w' L : wreach w -> hi <> [] ->
  0 < limit < int64_max -> 0 < rev <= revision (history_of (snd w)) ->
  pages cfg clean hi limit rev lo w w' L ->
  floor_of (snd w') <= rev ->
  is_snapshot (history_of (snd w')) rev lo hi L.
Proof.
  intros HW NE HL HR P. revert HW HR. destruct hi as [|b hi']; [congruence|]. set (hi := b :: hi') in *.
  induction P as [lo w w1 sched w' resp H H0 H1 H2 H3|lo w w1 sched w2 w' resp l x rest H H0 H1 H2 H3 H4 P IH]; intros HW HR HF.
  - pose proof (wsteps_reach _ _ HW H) as HW1.
    destruct (exec_range cfg _ w1 sched w' (Ok resp) HW1 (supported_plain lo hi limit rev)
       ltac:(simpl; unfold int64; lia) ltac:(simpl; lia) H0 H1 H2) as [S Q].
    unfold range_post in Q. cbn [range r_revision r_key r_range_end r_count_only r_limit] in Q.
    destruct Q as (cur & Q1 & Q2 & Q3 & _ & Q5).
    pose proof (extends_revision _ _ (wsteps_extends _ _ H)) as E1.
    assert (RA : read_at rev cur = rev).
    { unfold read_at. destruct (Z.eqb_spec rev 0); [lia|]. destruct (Z.ltb_spec cur rev); [lia|]. reflexivity. }
    rewrite RA in Q5. destruct (Q5 HF) as (M & A & B & C & _). unfold hi in A. cbn [content] in A.
    rewrite H3 in C. unfold page in B. replace (0 <? limit) with true in B, C by (symmetry; apply Z.ltb_lt; lia).
    cbn [andb] in C. symmetry in C. apply Z.ltb_ge in C. rewrite firstn_all2 in B by lia. rewrite B. exact A.
  - pose proof (wsteps_reach _ _ HW H) as HW1.
    destruct (exec_range cfg _ w1 sched w2 (Ok resp) HW1 (supported_plain lo hi limit rev)
       ltac:(simpl; unfold int64; lia) ltac:(simpl; lia) H0 H1 H2) as [S Q].
    unfold range_post in Q. cbn [range r_revision r_key r_range_end r_count_only r_limit] in Q.
    destruct Q as (cur & Q1 & Q2 & Q3 & _ & Q5).
    pose proof (extends_revision _ _ (wsteps_extends _ _ H)) as E1.
    pose proof (extends_revision _ _ (wsteps_extends _ _ S)) as E2.
    pose proof (wsteps_reach _ _ HW1 S) as HW2.
    pose proof (pages_steps _ _ _ _ _ _ _ _ HW2 P HL) as S2.
    destruct (wsteps_extends _ _ S2) as [_ F2].
    assert (RA : read_at rev cur = rev).
    { unfold read_at. destruct (Z.eqb_spec rev 0); [lia|]. destruct (Z.ltb_spec cur rev); [lia|]. reflexivity. }
    rewrite RA in Q5. destruct Q5 as (M & A & B & C & _); [lia|]. unfold hi in A. cbn [content] in A. fold hi in A.
    rewrite H3 in C. unfold page in B. replace (0 <? limit) with true in B, C by (symmetry; apply Z.ltb_lt; lia).
    cbn [andb] in C. symmetry in C. apply Z.ltb_lt in C.
    assert (A' : is_snapshot (history_of (snd w')) rev lo hi M).
    { eapply later_snapshot; eauto. lia. }
    pose proof (IH HW2 ltac:(lia) HF) as R.
    set (N := Z.to_nat limit) in *.
    assert (EM : M = l ++ x :: skipn N M).
    { rewrite <- (firstn_skipn N M) at 1. rewrite <- B, H4, <- app_assoc. reflexivity. }
    rewrite EM in A'. pose proof (rest_snapshot _ _ _ _ _ _ _ A') as A2.
    rewrite (snapshot_unique _ _ _ _ _ _ R A2), H4, <- app_assoc. exact A'.
Qed.

(** ---- undisturbed requests ---- *)
Lemma content_unique h n key re L L' : content h n key re L -> content h n key re L' -> L = L'.
Proof. destruct re; simpl; [congruence|]. apply snapshot_unique. Qed.

(** the answer depends on the history and on whether the revision is refused only *)
Lemma answer_det s s' r x y : history_of s = history_of s' ->
  negb (r_revision r =? 0) && (r_revision r <? floor_of s) = negb (r_revision r =? 0) && (r_revision r <? floor_of s') ->
  range_answer s r x -> range_answer s' r y -> x = y.
Proof.
  unfold range_answer. intros -> E. rewrite E.
  destruct (negb (r_revision r =? 0) && (r_revision r <? floor_of s')); [congruence|].
  intros (L & C1 & H1) (L' & C2 & H2). pose proof (content_unique _ _ _ _ _ _ C1 C2). subst L'.
  destruct (r_range_end r); [congruence|]. destruct (r_count_only r); congruence.
Qed.

Lemma ask_bounded cfg w r : wreach w -> supported_range r -> bounded w r -> range_answer (snd w) r (ask cfg w r).
Proof. intros HW HS [B1 B2]. apply ask_answer; auto. Qed.

Lemma cfg_irrelevant cfg cfg' w r : wreach w -> run (s_range cfg r) w = run (s_range cfg' r) w.
Proof.
  intros HW. unfold s_range.
  repeat match goal with |- context [if ?b then Ret _ else _] => destruct b; [reflexivity|] end.
  unfold l_range. destruct (r_range_end r) as [|b re] eqn:RE.
  - unfold l_get. rewrite !run_rbind, !run_b_list by auto. reflexivity.
  - unfold l_list. rewrite RE. destruct (r_count_only r).
    + rewrite !run_rbind, !run_b_count by auto. reflexivity.
    + rewrite !run_rbind, !run_b_list by auto. cbn [fst snd].
      destruct (read_revision _ _ _); [|reflexivity]. cbv zeta. destruct (_ && _); [|reflexivity].
      rewrite !run_rbind, !run_b_count by auto. reflexivity.
Qed.

Lemma schemas_sql lo hi rev d : NoDup (map id (rows d)) ->
  list_sql lo hi rev d = list_sql_v1 lo hi rev d /\ count_sql lo hi rev d = count_sql_v1 lo hi rev d.
Proof.
  intros H. assert (U : unique_ids (rows d)).
  { unfold unique_ids. auto. }
  split; [now apply list_sql_agree|]. rewrite count_sql_agree; auto.
Qed.

Lemma ask_refused_iff cfg w r : wreach w -> supported_range r -> bounded w r ->
  (ask cfg w r = Err ECompacted <-> r_revision r <> 0 /\ r_revision r < floor_of (snd w)).
Proof.
  intros HW HS HB. pose proof (ask_bounded cfg w r HW HS HB) as H. unfold range_answer in H. cbv zeta in H.
  destruct (negb (r_revision r =? 0) && (r_revision r <? floor_of (snd w))) eqn:E.
  - rewrite andb_true_iff, negb_true_iff, Z.eqb_neq, Z.ltb_lt in E. tauto.
  - destruct H as (L & _ & H). split.
    + intros X. rewrite X in H. destruct (r_range_end r); [discriminate|]. destruct (r_count_only r); discriminate.
    + intros [A B]. exfalso. rewrite andb_false_iff, negb_false_iff, Z.eqb_eq, Z.ltb_ge in E. lia.
Qed.

Lemma ask_ok_or_refused cfg w r : wreach w -> supported_range r -> bounded w r ->
  ask cfg w r <> Err ECompacted -> exists a, ask cfg w r = Ok a.
Proof.
  intros HW HS HB N. pose proof (ask_bounded cfg w r HW HS HB) as H. unfold range_answer in H. cbv zeta in H.
  destruct (negb (r_revision r =? 0) && (r_revision r <? floor_of (snd w))); [contradiction|].
  destruct H as (L & _ & H). destruct (r_range_end r); eauto. destruct (r_count_only r); eauto.
Qed.

(** C06 *)
Lemma list_now cfg w lo hi rev : wreach w -> hi <> [] ->
  match ask cfg w (range lo hi 0 rev) with
  | Ok resp => rr_header resp = revision (history_of (snd w)) /\
               is_snapshot (history_of (snd w)) (read_at rev (rr_header resp)) lo hi (rr_kvs resp)
  | Err e => e = ECompacted /\ rev <> 0 /\ rev < floor_of (snd w)
  end.
Proof.
  intros HW NE.
  pose proof (ask_answer cfg w (range lo hi 0 rev) HW (supported_plain _ _ _ _) int64_0 ltac:(discriminate)) as H.
  unfold range_answer in H. cbn [range r_revision r_range_end r_key r_count_only r_limit] in H. cbv zeta in H.
  destruct (negb (rev =? 0) && (rev <? floor_of (snd w))) eqn:E.
  - rewrite H. rewrite andb_true_iff, negb_true_iff, Z.eqb_neq, Z.ltb_lt in E. tauto.
  - destruct H as (L & C & H). destruct hi as [|b hi]; [congruence|]. rewrite H. cbn [rr_header rr_kvs page Z.ltb].
    split; auto.
Qed.

(** C08 *)
Lemma count_list cfg w lo hi rev : wreach w -> hi <> [] ->
  match ask cfg w (count_req lo hi rev), ask cfg w (range lo hi 0 rev) with
  | Ok c, Ok l => rr_count c = Z.of_nat (length (rr_kvs l)) /\ rr_count l = rr_count c /\ rr_header c = rr_header l
  | Err e, Err e' => e = ECompacted /\ e' = ECompacted
  | _, _ => False
  end.
Proof.
  intros HW NE.
  pose proof (ask_answer cfg w (range lo hi 0 rev) HW (supported_plain _ _ _ _) int64_0 ltac:(discriminate)) as H.
  assert (SC : supported_range (count_req lo hi rev)) by (repeat split).
  pose proof (ask_answer cfg w (count_req lo hi rev) HW SC int64_0 ltac:(discriminate)) as K.
  unfold range_answer in H, K. cbn [range count_req r_revision r_range_end r_key r_count_only r_limit] in H, K. cbv zeta in H, K.
  destruct (negb (rev =? 0) && (rev <? floor_of (snd w))) eqn:E.
  - rewrite H, K. auto.
  - destruct H as (L & C & H), K as (L' & C' & K). pose proof (content_unique _ _ _ _ _ _ C C'). subst L'.
    destruct hi as [|b hi]; [congruence|]. rewrite H, K. cbn. auto.
Qed.

(** C11 *)
Lemma limited_list cfg w lo hi limit rev : wreach w -> hi <> [] -> int64 limit ->
  (limit = int64_max -> revision (history_of (snd w)) <= int64_max) ->
  forall resp, ask cfg w (range lo hi limit rev) = Ok resp ->
  exists L, is_snapshot (history_of (snd w)) (read_at rev (rr_header resp)) lo hi L /\
    rr_header resp = revision (history_of (snd w)) /\
    rr_kvs resp = page limit L /\
    (rr_more resp = true <-> 0 < limit < Z.of_nat (length L)) /\
    rr_count resp = Z.of_nat (length L).
Proof.
  intros HW NE HI HM resp E.
  pose proof (ask_answer cfg w (range lo hi limit rev) HW (supported_plain _ _ _ _) HI HM) as H.
  rewrite E in H. unfold range_answer in H. cbn [range r_revision r_range_end r_key r_count_only r_limit] in H. cbv zeta in H.
  destruct (negb (rev =? 0) && (rev <? floor_of (snd w))); [discriminate|].
  destruct H as (L & C & H). destruct hi as [|b hi]; [congruence|]. injection H as ->.
  exists L. cbn [rr_header rr_kvs rr_more rr_count]. split; [exact C|]. split; auto. split; auto. split; auto.
  rewrite andb_true_iff, !Z.ltb_lt. tauto.
Qed.

(** C12 *)
Lemma compaction_step_invisible cfg w start stop r : wreach w -> supported_range r -> bounded w r ->
  allowed (snd w) (ACompact start stop) ->
  let w' := wapply w (ACompact start stop) in
  (ask cfg w' r <> Err ECompacted -> ask cfg w' r = ask cfg w r) /\
  (r_revision r = 0 \/ Z.max (floor_of (snd w)) stop <= r_revision r -> ask cfg w' r = ask cfg w r).
Proof.
  intros HW HS HB HA. cbv zeta. pose proof (wapply_reach w _ HW HA) as HW'.
  set (w' := wapply w (ACompact start stop)) in *.
  assert (HB' : bounded w' r) by (destruct HB; split; auto).
  assert (EF : floor_of (snd w') = Z.max (floor_of (snd w)) stop) by reflexivity.
  pose proof (ask_bounded cfg w r HW HS HB) as A. pose proof (ask_bounded cfg w' r HW' HS HB') as A'.
  assert (G : ~ (r_revision r <> 0 /\ r_revision r < floor_of (snd w')) -> ask cfg w' r = ask cfg w r).
  { intros N. eapply answer_det; [| |apply A'|apply A]; auto. rewrite EF in *.
    destruct (Z.eqb_spec (r_revision r) 0); simpl; auto.
    destruct (Z.ltb_spec (r_revision r) (Z.max (floor_of (snd w)) stop)); [lia|].
    symmetry. apply Z.ltb_ge. lia. }
  split; intros H; apply G.
  - intros X. apply H. now apply ask_refused_iff.
  - rewrite EF. lia.
Qed.

Definition body (r : range_resp) : list kv * bool * Z := (rr_kvs r, rr_more r, rr_count r).

Lemma extends_content s s' n key re L : extends s s' -> n <= revision (history_of s) ->
  content (history_of s) n key re L -> content (history_of s') n key re L.
Proof.
  intros E H. unfold content. destruct re.
  - rewrite (extends_kv_at s s'); auto.
  - intros [A B]. split; auto. intros x. rewrite B, (extends_kv_at s s'); auto. tauto.
Qed.

(** whatever happened in between, a read at a fixed past revision gives the same
    content or is refused *)
Lemma past_stable cfg w w' r : wreach w -> wsteps w w' -> supported_range r -> bounded w' r ->
  0 < r_revision r <= revision (history_of (snd w)) ->
  match ask cfg w' r with
  | Ok a => exists b, ask cfg w r = Ok b /\ body a = body b
  | Err e => e = ECompacted
  end.
Proof.
  intros HW ST HS HB HR. pose proof (wsteps_reach _ _ HW ST) as HW'.
  pose proof (wsteps_extends _ _ ST) as EX. pose proof (extends_revision _ _ EX) as ER.
  assert (HB0 : bounded w r) by (destruct HB; split; auto; lia).
  pose proof (ask_bounded cfg w r HW HS HB0) as A. pose proof (ask_bounded cfg w' r HW' HS HB) as A'.
  unfold range_answer in A, A'. cbv zeta in A, A'.
  assert (N0 : (r_revision r =? 0) = false) by (apply Z.eqb_neq; lia). rewrite N0 in A, A'. cbn [negb andb] in A, A'.
  assert (RA : forall cur, revision (history_of (snd w)) <= cur -> read_at (r_revision r) cur = r_revision r).
  { intros cur H. unfold read_at. rewrite N0. simpl. destruct (Z.ltb_spec cur (r_revision r)); auto; lia. }
  rewrite RA in A, A' by lia.
  destruct (r_revision r <? floor_of (snd w')) eqn:F'; [rewrite A'; auto|].
  destruct EX as [EX1 EX2]. apply Z.ltb_ge in F'.
  replace (r_revision r <? floor_of (snd w)) with false in A by (symmetry; apply Z.ltb_ge; lia).
  destruct A as (L & C & A), A' as (L' & C' & A').
  pose proof (extends_content (snd w) (snd w') _ _ _ _ (wsteps_extends _ _ ST) ltac:(apply HR) C) as C2.
  pose proof (content_unique _ _ _ _ _ _ C2 C'). subst L'.
  destruct (r_range_end r).
  - rewrite A'. eexists. split; [exact A|]. reflexivity.
  - destruct (r_count_only r); rewrite A'; (eexists; split; [exact A|]; reflexivity).
Qed.

(** C13 *)
Lemma refused_iff cfg w rev : wreach w -> revision (history_of (snd w)) <= int64_max ->
  (forall lo hi limit, int64 limit -> ask cfg w (range lo hi limit rev) = Err ECompacted) <->
  rev <> 0 /\ rev < floor_of (snd w).
Proof.
  intros HW HM. split.
  - intros H. specialize (H [] [] 0 int64_0). apply ask_refused_iff in H; auto. { apply supported_plain. } split; auto. apply int64_0.
  - intros H lo hi limit HI. apply ask_refused_iff; auto. { apply supported_plain. } split; auto.
Qed.

Lemma past_stable' cfg w w' r : wreach w -> wsteps w w' -> supported_range r -> bounded w' r ->
  0 < r_revision r <= revision (history_of (snd w)) ->
  match ask cfg w' r with
  | Ok a => exists b, ask cfg w r = Ok b /\ rr_kvs a = rr_kvs b /\ rr_more a = rr_more b /\ rr_count a = rr_count b
  | Err e => e = ECompacted
  end.
Proof.
  intros A B C D E. pose proof (past_stable cfg w w' r A B C D E) as H.
  destruct (ask cfg w' r) as [a|e]; auto. destruct H as (b & H1 & H2). exists b. unfold body in H2.
  injection H2 as -> -> ->. auto.
Qed.

Lemma refusal_lemma cfg w r : wreach w -> supported_range r -> bounded w r ->
  (ask cfg w r = Err ECompacted <-> r_revision r <> 0 /\ r_revision r < floor_of (snd w)) /\
  (ask cfg w r <> Err ECompacted -> exists a, ask cfg w r = Ok a) /\
  0 <= floor_of (snd w) <= revision (history_of (snd w)).
Proof.
  intros A B C. split; [now apply ask_refused_iff|]. split; [now apply ask_ok_or_refused|now apply floor_bounds].
Qed.

Lemma refusal_forever cfg w w' r : wreach w -> wsteps w w' -> supported_range r -> bounded w' r ->
  ask cfg w r = Err ECompacted -> ask cfg w' r = Err ECompacted.
Proof.
  intros A B C D. pose proof (wsteps_extends _ _ B) as E. pose proof (extends_revision _ _ E). destruct E as [_ E].
  rewrite !ask_refused_iff; auto; [lia| |].
  - eapply wsteps_reach; eauto.
  - destruct D; split; auto. lia.
Qed.

Lemma header_partial cfg lo hi w sched w' resp : wreach w -> hi <> [] ->
  fair (s_range cfg (range lo hi 0 0)) sched w -> Forall (fun x => clean (snd x)) sched ->
  exec (s_range cfg (range lo hi 0 0)) sched w = (w', Some (Ok resp)) ->
  floor_of (snd w') <= rr_header resp ->
  is_snapshot (history_of (snd w')) (rr_header resp) lo hi (rr_kvs resp).
Proof.
  intros A B C D E F. pose proof (list_concurrent cfg lo hi 0 w sched w' resp A B C D E) as [_ H].
  apply H. exact F.
Qed.

Lemma race_partial cfg lo hi rev w sched w' resp : wreach w -> hi <> [] ->
  fair (s_range cfg (range lo hi 0 rev)) sched w -> Forall (fun x => clean (snd x)) sched ->
  exec (s_range cfg (range lo hi 0 rev)) sched w = (w', Some (Ok resp)) ->
  let n := read_at rev (rr_header resp) in
  n <> 0 -> ask cfg w' (range lo hi 0 n) <> Err ECompacted ->
  is_snapshot (history_of (snd w')) n lo hi (rr_kvs resp).
Proof.
  intros A B C D E n N0 F. pose proof (list_concurrent cfg lo hi rev w sched w' resp A B C D E) as [_ H].
  apply H. clear H. fold n.
  destruct (exec_range cfg _ w sched w' (Ok resp) A (supported_plain lo hi 0 rev) int64_0 ltac:(discriminate) C D E) as [S P].
  pose proof (wsteps_reach _ _ A S) as A'.
  pose proof (ask_answer cfg w' (range lo hi 0 n) A' (supported_plain _ _ _ _) int64_0 ltac:(discriminate)) as Q.
  unfold range_answer in Q. cbn [range r_revision] in Q. cbv zeta in Q.
  destruct (negb (n =? 0) && (n <? floor_of (snd w'))) eqn:X; [contradiction|].
  rewrite andb_false_iff, negb_false_iff, Z.eqb_eq, Z.ltb_ge in X. tauto.
Qed.

Lemma count_faulty cfg lo hi rev w sched w' resp : wreach w -> hi <> [] ->
  fair (s_range cfg (count_req lo hi rev)) sched w -> Forall (fun x => db_fault (snd x)) sched ->
  exec (s_range cfg (count_req lo hi rev)) sched w = (w', Some (Ok resp)) ->
  floor_of (snd w') <= read_at rev (rr_header resp) ->
  exists L, is_snapshot (history_of (snd w')) (read_at rev (rr_header resp)) lo hi L /\
            rr_count resp = Z.of_nat (length L).
Proof.
  intros HW NE HF HA E FL.
  assert (W : wp db_fault (s_range cfg (count_req lo hi rev)) (fun w' r => match r with
     | Ok a => floor_of (snd w') <= read_at rev (rr_header a) -> exists L, is_snapshot (history_of (snd w')) (read_at rev (rr_header a)) lo hi L /\
            rr_count a = Z.of_nat (length L) | Err _ => True end) w).
  { unfold s_range. cbn [count_req r_keys_only r_max_create r_sort_order r_sort_target r_serializable r_min_mod r_min_create r_max_mod Z.eqb negb].
    unfold l_range. cbn [r_range_end]. destruct hi as [|b hi]; [congruence|].
    unfold l_list. cbn [r_range_end r_count_only r_key r_revision].
    apply wp_rbind. eapply wp_mono; [|apply wp_b_count; auto].
    intros w1 [[cur n]|e] H; [|exact I]. cbn [wp rr_header rr_count]. unfold count_post in H.
    destruct H as [_ H]. exact H. }
  destruct (wp_exec db_fault _ _ sched w W HF HA) as [_ G]. rewrite E in G. cbn [fst snd] in G.
  apply (G (Ok resp) eq_refl FL).
Qed.
