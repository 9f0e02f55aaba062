(** Proofs for C227: on a healthy database a watch from a recent revision is confirmed. *)
From Coq Require Import List ZArith Bool Lia Arith.
From Verif Require Import Bytes Spec Sql System Prog Backend Limited Api Pool Ledger Observe Batch BatchKine Node Fair Watch Stream Resume Whole.
From Verif Require Import SpecLemmas SqlLemmas Sim ProgLemmas ReadProofs Safety ApiLemmas LedgerLemmas LedgerMore NodeProofs FairProofs WatchLemmas WatchProofs WatchResults StreamProofs ResumeProofs WholeProofs FairWatch FairWatchProofs FairCreateProofs TrueRefusalProofs.
From Verif Require Import Ttl Cluster ClusterProofs ClusterResults ClusterFair ClusterFairProofs ClusterWatchProofs Reflector ConvergeProofs.
From Verif Require Import Watch Stream Whole FairWatch ClusterFair Reflector.
Import ListNotations.
Open Scope Z_scope.

Definition no_failure (l : list msg) : Prop := forall m rev, In m l -> m <> MUnhealthy rev.
Definition well (a : saction) : Prop := match a with SCheck f | SQuery f => f = NoFault | _ => True end.
Lemma well_step s g a : SI s g -> well a -> (forall x, a <> SBack x) -> exists l, ans (s_out (sstep s a)) = ans (s_out s) ++ l /\ no_failure l.
Proof.
  intros J OK NB. pose proof (I_group _ _ J) as G. pose proof (breach_Binv _ (I_breach _ _ J)) as B.
  assert (NIL : forall s', ans (s_out s') = ans (s_out s) -> exists l, ans (s_out s') = ans (s_out s) ++ l /\ no_failure l) by (intros s' E; exists []; rewrite app_nil_r; split; [exact E|intros m rev []]).
  assert (CONT : forall id a f, s_creating s = Some id -> bstep (s_b s) a = set_group (s_b s) (s_i s) f ->
    (forall r p, g_pending g = [(r, p)] -> r_id r = id -> let g' := f g in
      (exists r p, g_pending g' = [(r, p)] /\ r_id r = id) /\ g_returns g' = g_returns g \/
      g_pending g' = [] /\ exists res, g_returns g' = g_returns g ++ [(id, res)]) ->
    (forall r p e, g_pending g = [(r, p)] -> r_id r = id -> g_returns (f g) <> g_returns g ++ [(id, WFailed e)]) ->
    exists l, ans (s_out (watch_step s id a)) = ans (s_out s) ++ l /\ no_failure l).
  { intros id a0 f CR E C D. pose proof (I_pending _ _ J) as P. rewrite CR in P. destruct P as (r & p & PP & RI).
    pose proof (breach_gret _ _ _ (I_breach _ _ J) G) as GR.
    assert (NR : forall res, ~ In (id, res) (g_returns g)).
    { intros res X. destruct (Q_ret _ GR _ _ X) as [_ K]. apply (K (r, p)); [rewrite PP; simpl; auto|auto]. }
    assert (N : nth_error (b_groups (bstep (s_b s) a0)) (s_i s) = Some (f g)) by (rewrite E; apply set_group_nth; exact G).
    specialize (D r p). unfold watch_step. unfold group_of. cbn [with_b s_b s_i]. rewrite N.
    specialize (C r p PP RI). cbv zeta in C. destruct C as [[_ RT]|[_ [res RT]]]; rewrite RT.
    - rewrite (find_none_ret g id NR). apply NIL. reflexivity.
    - rewrite (returns_find g id res GR NR). rewrite RT in D. destruct res as [|fl cur|e]; cbn [answer_create s_out]; rewrite ans_app; eexists; (split; [reflexivity|]).
      + intros m rev [<-|[]]. discriminate.
      + intros m rev [<-|[]]. discriminate.
      + destruct (D e PP RI eq_refl). }
  unfold sstep. destruct a as [a| | | | |wid lo hi start|f|f| |id| | | ]; cbn [well] in OK.
  - exfalso. eapply NB; eauto.
  - destruct (s_done s); [now apply NIL|]. unfold s_recv. destruct (s_hold s); [now apply NIL|]. rewrite G. destruct (nth_error _ _); [|destruct (g_open g)]; now apply NIL.
  - apply NIL. unfold s_send. destruct (s_hold s); [|reflexivity]. destruct (s_creating s); [reflexivity|]. cbn [s_out]. rewrite ans_app, ans_none by reflexivity. apply app_nil_r.
  - apply NIL. unfold s_tick. destruct (s_creating s); [reflexivity|]. cbn [s_out]. rewrite ans_app, ans_none by reflexivity. apply app_nil_r.
  - apply NIL. destruct (s_ended s); [reflexivity|]. unfold s_progress_req. destruct (s_creating s); [reflexivity|]. destruct (s_closing s); [reflexivity|]. cbn [s_out]. rewrite ans_app. apply app_nil_r.
  - destruct (s_ended s); [now apply NIL|]. unfold s_create. destruct (s_creating s) eqn:CR; [now apply NIL|]. destruct (s_closing s) eqn:CL; [now apply NIL|]. rewrite G.
    destruct (negb _); [now apply NIL|].
    set (id := Z.of_nat (length (g_regs g)) + 1).
    set (s1 := SState (s_b s) (s_i s) (s_rev s) (s_hold s) (s_progress s) (s_out s) (Some id) None (s_done s) (s_ended s)).
    set (a := AWatch (s_i s) lo (range_end lo hi) start).
    pose proof (breach_gret _ _ _ (I_breach _ _ J) G) as GR.
    assert (NR : forall res, ~ In (id, res) (g_returns g)) by (intros res X; destruct (Q_ret _ GR _ _ X) as [K _]; unfold id in K; lia).
    assert (N : nth_error (b_groups (bstep (s_b s) a)) (s_i s) = Some (watch_begin lo (range_end lo hi) start g)) by (cbn [a bstep]; apply set_group_nth, G).
    unfold watch_step, group_of. cbn [with_b s_b s_i s1]. rewrite N. unfold watch_begin. destruct (0 <? start); cbn [g_returns].
    + rewrite (find_none_ret g id NR). now apply NIL.
    + cbn [r_id]. fold id. rewrite (returns_find g id WOk GR NR). cbn [answer_create s_out]. rewrite ans_app. eexists. split; [reflexivity|]. intros m rev [<-|[]]. discriminate.
  - destruct (s_creating s) as [id|] eqn:CR; [|now apply NIL]. subst f.
    apply (CONT id _ (watch_check id NoFault (b_world (s_b s)))); auto; [apply check_cases|].
    intros r p e PP RI. unfold watch_check. rewrite (pending_single _ _ _ _ PP RI). destruct p; try (intros X; now apply app_one_inv in X).
    rewrite (interval_result_nofault _ (B_reach _ _ B)). destruct (_ <? _); cbn [g_returns]; intros X; [apply app_inv_head in X; discriminate|now apply app_one_inv in X].
  - destruct (s_creating s) as [id|] eqn:CR; [|now apply NIL]. subst f.
    apply (CONT id _ (watch_query id NoFault (b_world (s_b s)))); auto; [apply query_cases|].
    intros r p e PP RI. unfold watch_query. rewrite (pending_single _ _ _ _ PP RI). destruct p; try (intros X; now apply app_one_inv in X).
  - destruct (s_creating s) as [id|] eqn:CR; [|now apply NIL].
    apply (CONT id _ (watch_finish id)); auto; [apply finish_cases|].
    intros r p e PP RI. unfold watch_finish. rewrite (pending_single _ _ _ _ PP RI). destruct p; try (intros X; now apply app_one_inv in X).
    cbn [g_returns]. intros X. apply app_inv_head in X. discriminate.
  - apply NIL. destruct (s_ended s); [reflexivity|]. unfold s_cancel. destruct (s_creating s); [reflexivity|]. destruct (s_closing s); reflexivity.
  - apply NIL. unfold s_forget. destruct (s_closing s); reflexivity.
  - apply NIL. unfold s_eof. destruct (s_creating s); [reflexivity|]. destruct (s_closing s); reflexivity.
  - apply NIL. destruct (s_ended s); reflexivity.
Qed.

Section Run.
Variables (cfg : driver_cfg) (okf : fault -> Prop) (c : bool) (sch : nat -> kaction) (T j i conn : nat) (st0 : sstate).
Hypothesis TO : tolerant okf.
Hypothesis OK : forall t, kaction_ok okf c (kat cfg sch t) (sch t).
Hypothesis NC : forall t, (T <= t)%nat -> sch t <> KCrash j.
Hypothesis ST : stream_of (kat cfg sch T) j i = Some (conn, st0).
Hypothesis WE : forall t a, (T <= t)%nat -> sch t = KStream j i a -> well a.
Let V (t : nat) := view' cfg sch j i st0 t.
Lemma no_failures t : (T <= t)%nat -> exists l, answers conn (k_log (kat cfg sch t)) = answers conn (k_log (kat cfg sch T)) ++ l /\ no_failure l.
Proof.
  intros L. rewrite !(answers_ans cfg okf c sch T j i conn st0 TO OK NC ST) by lia. induction L as [|t L (l & E & N)]; [exists []; rewrite app_nil_r; split; [reflexivity|intros m rev []]|].
  destruct (view_inv' cfg okf c sch T j i conn st0 TO OK NC ST t L) as (SR & _ & _). destruct (sreach_SI _ SR) as [g J].
  pose proof (view_step' cfg okf c sch T j i conn st0 TO OK NC ST t L) as M. fold (V t) (V (S t)) in *. fold (V T) in *.
  assert (SAME : s_out (V (S t)) = s_out (V t) -> exists l, ans (s_out (V (S t))) = ans (s_out (V T)) ++ l /\ no_failure l) by (intros X; exists l; rewrite X; auto).
  assert (QU : quiet (V t) (V (S t)) -> exists l, ans (s_out (V (S t))) = ans (s_out (V T)) ++ l /\ no_failure l) by (intros [Q1 _ _ _ _ _]; apply SAME; rewrite Q1; reflexivity).
  destruct (sch t) as [x| |j'|j' a|j'|j' i' a] eqn:ES; cbn [moved] in M; auto.
  - destruct a; auto; (destruct (Nat.eqb_spec j' j) as [->|]; [|auto]); apply SAME; rewrite M; reflexivity.
  - destruct (_ && _) eqn:HERE; [|auto]. apply andb_true_iff in HERE. rewrite !Nat.eqb_eq in HERE. destruct HERE as [-> ->].
    destruct (match a with SBack _ => true | _ => false end) eqn:SB; [destruct a; try discriminate; auto|].
    assert (E' : V (S t) = sstep (V t) a) by (destruct a; try discriminate; exact M).
    destruct (well_step (V t) g a J (WE t a L ES) ltac:(intros x ->; discriminate)) as (l' & E1 & N1). exists (l ++ l'). rewrite E', E1, E, app_assoc. split; [reflexivity|].
    intros m rev X. apply in_app_iff in X. destruct X as [X|X]; [eapply N; eauto|eapply N1; eauto].
Qed.
End Run.
Lemma answers_app conn a b : answers conn (a ++ b) = answers conn a ++ answers conn b.
Proof. unfold answers, said. now rewrite flat_map_app, filter_app. Qed.
Lemma first_answer {X} (f : nat -> option X) T t : (T <= t)%nat -> f T = None -> f t <> None -> exists u, (T <= u < t)%nat /\ f u = None /\ f (S u) <> None.
Proof.
  intros L N S. induction L as [|t L IH]; [contradiction|]. destruct (f t) as [x|] eqn:E.
  - destruct IH as (u & U & U1 & U2); [discriminate|]. exists u. split; [lia|auto].
  - exists t. split; [lia|auto].
Qed.
(** ---- in a cluster ---- *)
Lemma answer_is_created cfg okf c sch T j i conn n id lo hi start : tolerant okf -> (forall t, cturn_ok okf c (cat cfg sch t) (sch t)) ->
  wanted (c_whole (cat cfg sch T)) j i conn n id lo hi start -> nth_error (answers conn (k_log (c_whole (cat cfg sch T)))) n = None ->
  (forall t, (T <= t)%nat -> sch t <> CStep (CWhole (KCrash j))) ->
  (forall t f, (T <= t)%nat -> sch t = CStep (CWhole (KStream j i (SCheck f))) \/ sch t = CStep (CWhole (KStream j i (SQuery f))) -> f = NoFault) ->
  (start <= 0 \/ forall t, (T <= t)%nat -> nth_error (answers conn (k_log (c_whole (cat cfg sch t)))) n = None -> revision (commits (c_log (cat cfg sch (S t)))) <= start + 100) ->
  forall t m, (T <= t)%nat -> nth_error (answers conn (k_log (c_whole (cat cfg sch t)))) n = Some m -> m = MCreated id.
Proof.
  intros TO OK WA UN NC WE RE t m L A. pose proof WA as WA0. destruct WA as (RQ & st & g & ST & _).
  assert (WH : forall t, c_whole (cat cfg sch t) = kat cfg (ksch cfg sch) t) by (intros u; apply (whole_at cfg sch)).
  pose proof (ksch_ok cfg okf c sch TO OK) as OK'.
  assert (NC' : forall t, (T <= t)%nat -> ksch cfg sch t <> KCrash j) by (intros u Lt E; apply ksch_from in E; exact (NC u Lt E)).
  rewrite WH in ST, RQ, UN.
  assert (WE' : forall t a, (T <= t)%nat -> ksch cfg sch t = KStream j i a -> well a).
  { intros u a Lu E. apply ksch_from in E. destruct a; cbn; auto; eapply WE; eauto. }
  assert (RU : forall u, (T <= u)%nat -> nth_error (requests conn (k_log (kat cfg (ksch cfg sch) u))) n = Some (id, lo, hi, start)).
  { intros u Lu. destruct (kat_log cfg (ksch cfg sch) T u Lu) as [l ->]. rewrite requests_app. now apply nth_app_some. }
  pose proof A as A0. rewrite WH in A.
  pose proof (answers_ans cfg okf c (ksch cfg sch) T j i conn st TO OK' NC' ST t L) as EA.
  assert (IA : is_answer m = true). { pose proof (nth_error_In _ _ A) as X. rewrite EA in X. unfold ans in X. apply filter_In in X. tauto. }
  assert (NU : forall rev, m <> MUnhealthy rev).
  { intros rev. destruct (no_failures cfg okf c (ksch cfg sch) T j i conn st TO OK' NC' ST WE' t L) as (l & E & NF). rewrite E in A.
    apply nth_error_None in UN. rewrite nth_error_app2 in A by exact UN. apply nth_error_In in A. eapply NF; eauto. }
  assert (NM : forall rev, m <> MCompacted rev).
  { intros rev ->. destruct (first_answer (fun u => nth_error (answers conn (k_log (kat cfg (ksch cfg sch) u))) n) T t L UN ltac:(cbn beta; congruence)) as (u & [U1 U2] & X1 & X2).
    destruct (nth_error (answers conn (k_log (kat cfg (ksch cfg sch) (S u)))) n) as [m'|] eqn:Y; [|now destruct X2].
    assert (m' = MCompacted rev) as ->.
    { destruct (kat_log cfg (ksch cfg sch) (S u) t ltac:(lia)) as [l El]. rewrite El, answers_app in A. rewrite (nth_app_some _ _ _ _ Y) in A. congruence. }
    assert (KR : kreach cfg okf c (c_whole (cat cfg sch (S u)))) by (apply (cluster_whole cfg okf c TO), cat_reach; exact OK).
    pose proof (view_some' cfg okf c (ksch cfg sch) T j i conn st TO OK' NC' ST (S u) ltac:(lia)) as ST'. rewrite <- WH in ST', Y.
    destruct (refusal_true cfg okf c _ j i conn _ n rev TO KR ST' Y) as (id' & lo' & hi' & start' & R' & B1 & B2 & _).
    rewrite WH, (RU (S u) ltac:(lia)) in R'. injection R' as _ _ _ <-. destruct RE as [RE|RE]; [lia|].
    specialize (RE u U1). rewrite WH in RE. specialize (RE X1). unfold c_log in RE. lia. }
  pose proof (answered_order cfg okf c (ksch cfg sch) T j i conn st TO OK' NC' ST t n id lo hi start m L (RU t L) A) as AO.
  destruct m; try discriminate; try (exfalso; eapply NU; reflexivity); try (exfalso; eapply NM; reflexivity). f_equal. apply AO. reflexivity.
Qed.
Lemma confirmed_catches cfg sch T j i conn n id lo hi before during after li resp : (forall t, cturn_ok clean true (cat cfg sch t) (sch t)) ->
  (forall t, (T <= t)%nat -> sch t <> CStep (CWhole (KCrash j))) -> (forall t, (T <= t)%nat -> sch t <> CStep (CWhole (KStream j i (SCancel id)))) ->
  (forall t f, (T <= t)%nat -> sch t = CStep (CWhole (KStream j i (SCheck f))) \/ sch t = CStep (CWhole (KStream j i (SQuery f))) -> f = NoFault) ->
  hi <> [] -> answered_request (c_log (cat cfg sch T)) before during after li (WRange (range lo hi 0 0)) (ReRange (Ok resp)) -> revision (commits during) <= 100 ->
  wanted (c_whole (cat cfg sch T)) j i conn n id lo hi (rr_header resp + 1) -> nth_error (answers conn (k_log (c_whole (cat cfg sch T)))) n = None ->
  (forall t, (T <= t)%nat -> nth_error (answers conn (k_log (c_whole (cat cfg sch t)))) n = None -> revision (commits (c_log (cat cfg sch (S t)))) <= rr_header resp + 101) ->
  polls j sch -> consumes cfg j i sch -> creates j i sch ->
  let h := fun t => commits (c_log (cat cfg sch t)) in
  let copy := fun t => mirror (rr_kvs resp) (newer (rr_header resp) (sent (said conn (k_log (c_whole (cat cfg sch t)))) id)) in
  exists t, (T <= t)%nat /\ nth_error (answers conn (k_log (c_whole (cat cfg sch t)))) n = Some (MCreated id) /\
   (forall t0 N, (t <= t0)%nat -> N <= revision (h t0) ->
     exists t1, (t <= t1)%nat /\ (closed (c_whole (cat cfg sch t1)) j i \/
       forall t2, (t1 <= t2)%nat -> exists b, N <= b <= revision (h t2) /\ copy_at (h t2) b lo hi (copy t2))) /\
   (forall t0, (t <= t0)%nat -> (forall t2 r x, (t0 <= t2)%nat -> revision (h t0) < r -> nth_error (h t2) (Z.to_nat (r - 1)) = Some x -> ~ in_range lo hi (e_key x)) ->
     exists t1, (t <= t1)%nat /\ (closed (c_whole (cat cfg sch t1)) j i \/
       forall t2, (t1 <= t2)%nat -> copy_at (h t2) (revision (h t2)) lo hi (copy t2))).
Proof.
  intros OK NC NK WE HI LI DU WA UN RE PO CO CR h copy.
  assert (TO : tolerant clean) by (unfold tolerant, clean; cbn; auto).
  destruct (cluster_converges cfg sch T j i conn n id lo hi before during after li resp OK NC NK HI LI DU WA PO CO CR) as (t & m & L & A & D).
  assert (m = MCreated id) as ->.
  { eapply (answer_is_created cfg clean true sch T j i conn n id lo hi (rr_header resp + 1) TO OK WA UN NC WE); [|exact L|exact A].
    right. intros u U1 U2. specialize (RE u U1 U2). lia. }
  exists t. split; [exact L|]. split; [exact A|]. destruct D as [[rev D]|[[rev D]|[_ D]]]; try discriminate D. exact D.
Qed.
