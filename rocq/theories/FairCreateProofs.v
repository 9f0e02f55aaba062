(** Proofs for FairWatch.v: create requests are answered. *)
From Coq Require Import List ZArith Bool Lia Arith.
From Verif Require Import Bytes Spec Sql System Prog Backend Limited Api Pool Ledger Batch BatchKine Node Watch Stream Resume Whole FairWatch.
From Verif Require Import SpecLemmas SqlLemmas Sim ProgLemmas Safety LedgerLemmas LedgerMore NodeProofs WatchLemmas WatchProofs WatchResults StreamProofs WholeProofs FairWatchProofs.
From Verif Require Import Watch Stream Whole FairWatch.
Import ListNotations.
Open Scope Z_scope.

(** ---- answers and requests of one stream ---- *)
Definition is_answer (m : msg) : bool := match m with MCreated _ | MCompacted _ | MUnhealthy _ => true | _ => false end.
Definition ans (out : list msg) : list msg := filter is_answer out.
Lemma ans_app a b : ans (a ++ b) = ans a ++ ans b.
Proof. unfold ans. apply filter_app. Qed.
Definition made (s : sstate) : nat := match s_creating s with Some _ => 1%nat | None => 0%nat end.
Record AN (s : sstate) : Prop := {
  A_count : (length (ans (s_out s)) + made s = length (regs_of s))%nat;
  A_ids : forall n id, nth_error (ans (s_out s)) n = Some (MCreated id) -> id = Z.of_nat n + 1;
  A_cur : forall id, s_creating s = Some id -> id = Z.of_nat (length (regs_of s)) }.

(** a Watch call in progress moved on *)
Lemma watch_step_cases s g id a f : SI s g -> s_creating s = Some id ->
  bstep (s_b s) a = set_group (s_b s) (s_i s) f -> g_regs (f g) = g_regs g ->
  (forall r p, g_pending g = [(r, p)] -> r_id r = id -> let g' := f g in
  (exists r p, g_pending g' = [(r, p)] /\ r_id r = id) /\ g_returns g' = g_returns g \/
  g_pending g' = [] /\ exists res, g_returns g' = g_returns g ++ [(id, res)]) ->
  group_of (watch_step s id a) = Some (f g) /\
  ((s_out (watch_step s id a) = s_out s /\ s_creating (watch_step s id a) = Some id) \/
   (s_creating (watch_step s id a) = None /\ exists m, s_out (watch_step s id a) = s_out s ++ [m] /\ is_answer m = true /\ forall i, m = MCreated i -> i = id)).
Proof.
  intros J CR E EG C. pose proof (I_pending _ _ J) as P. rewrite CR in P. destruct P as (r & p & PP & RI).
  pose proof (breach_gret _ _ _ (I_breach _ _ J) (I_group _ _ J)) as GR.
  assert (NR : forall res, ~ In (id, res) (g_returns g)).
  { intros res X. destruct (Q_ret _ GR _ _ X) as [_ K]. apply (K (r, p)); [rewrite PP; simpl; auto|auto]. }
  assert (N : nth_error (b_groups (bstep (s_b s) a)) (s_i s) = Some (f g)) by (rewrite E; apply set_group_nth; apply (I_group _ _ J)).
  split. { unfold group_of. destruct (watch_step_b s id a) as [F1 F2]. rewrite F1, F2. exact N. }
  unfold watch_step. unfold group_of. cbn [with_b s_b s_i]. rewrite N.
  specialize (C r p PP RI). cbv zeta in C. destruct C as [[_ RT]|[_ [res RT]]]; rewrite RT.
  - rewrite (find_none_ret g id NR). left. split; [reflexivity|exact CR].
  - rewrite (returns_find g id res GR NR). right. destruct res; cbn; (split; [reflexivity|]); eexists; (split; [reflexivity|]); (split; [reflexivity|]); intros i [=]; congruence.
Qed.

Lemma AN_same s s' : AN s -> s_creating s' = s_creating s -> regs_of s' = regs_of s -> ans (s_out s') = ans (s_out s) -> AN s'.
Proof. intros [A1 A2 A3] E1 E2 E3. constructor; unfold made in *; rewrite ?E1, ?E2, ?E3; auto. Qed.
Lemma AN_watch s s' id m : AN s -> s_creating s = Some id -> regs_of s' = regs_of s -> s_creating s' = None -> s_out s' = s_out s ++ [m] -> is_answer m = true ->
  (forall i, m = MCreated i -> i = id) -> AN s'.
Proof.
  intros [A1 A2 A3] CR E CN EO IA MI. unfold made in A1. rewrite CR in A1. assert (EA : ans (s_out s') = ans (s_out s) ++ [m]) by (rewrite EO, ans_app; unfold ans at 2; cbn; now rewrite IA).
  constructor; unfold made; rewrite ?CN, ?E, ?EA, ?app_length; cbn [length]; auto; [lia| |discriminate].
  intros n i N. destruct (Nat.lt_ge_cases n (length (ans (s_out s)))) as [L|L].
  - rewrite nth_error_app1 in N by exact L. eauto.
  - rewrite nth_error_app2 in N by exact L. destruct (n - length (ans (s_out s)))%nat as [|k] eqn:K; cbn in N; [|destruct k; discriminate].
    injection N as ->. rewrite (MI i eq_refl), (A3 id CR). lia.
Qed.
Lemma AN_cont s g id a f : SI s g -> AN s -> s_creating s = Some id ->
  bstep (s_b s) a = set_group (s_b s) (s_i s) f -> g_regs (f g) = g_regs g ->
  (forall r p, g_pending g = [(r, p)] -> r_id r = id -> let g' := f g in
  (exists r p, g_pending g' = [(r, p)] /\ r_id r = id) /\ g_returns g' = g_returns g \/
  g_pending g' = [] /\ exists res, g_returns g' = g_returns g ++ [(id, res)]) -> AN (watch_step s id a).
Proof.
  intros J A CR E EG C. destruct (watch_step_cases s g id a f J CR E EG C) as (G & D).
  assert (RR : regs_of (watch_step s id a) = regs_of s) by (unfold regs_of; rewrite G, (I_group _ _ J); exact EG).
  destruct D as [[O K]|(K & m & O & IA & MI)].
  - apply (AN_same s); auto; [congruence|now rewrite O].
  - apply (AN_watch s _ id m); auto.
Qed.
Lemma ans_none {A} (f : A -> msg) l : (forall x, is_answer (f x) = false) -> ans (map f l) = [].
Proof. intros H. unfold ans. induction l as [|x l IH]; [reflexivity|]. cbn. rewrite H. exact IH. Qed.
Lemma AN_step s g a : SI s g -> AN s -> AN (sstep s a).
Proof.
  intros J A. pose proof (I_group _ _ J) as G. unfold sstep. destruct a as [a| | | | |wid lo hi start|f|f| |id| | | ].
  - destruct (foreign (s_i s) a) eqn:F; [|exact A]. destruct (foreign_group (s_b s) a (s_i s) g F G) as (g' & N & _ & E2 & _).
    apply (AN_same s); auto. unfold regs_of, group_of. cbn [with_b s_b s_i]. rewrite N. unfold group_of in G. now rewrite G.
  - destruct (s_done s); [exact A|]. unfold s_recv. destruct (s_hold s); [exact A|]. rewrite G. destruct (nth_error _ _) eqn:N; [|destruct (g_open g); [exact A|apply (AN_same s); auto]].
    apply (AN_same s); auto. unfold regs_of, group_of. cbn [s_b s_i bstep]. rewrite (set_group_nth _ _ _ g G). unfold group_of in G. rewrite G. unfold take. destruct (_ <? _)%nat; reflexivity.
  - unfold s_send. destruct (s_hold s); [|exact A]. destruct (s_creating s) eqn:CR; [exact A|]. apply (AN_same s); auto. cbn [s_out]. rewrite ans_app, ans_none by reflexivity. apply app_nil_r.
  - unfold s_tick. destruct (s_creating s) eqn:CR; [exact A|]. apply (AN_same s); auto. cbn [s_out]. rewrite ans_app, ans_none by reflexivity. apply app_nil_r.
  - destruct (s_ended s); [exact A|]. unfold s_progress_req. destruct (s_creating s) eqn:CR; [exact A|]. destruct (s_closing s); [exact A|]. apply (AN_same s); auto. cbn [s_out]. rewrite ans_app. apply app_nil_r.
  - destruct (s_ended s); [exact A|]. unfold s_create. destruct (s_creating s) eqn:CR; [exact A|]. destruct (s_closing s) eqn:CL; [exact A|]. rewrite G.
    destruct (negb _); [apply (AN_same s); auto|].
    set (id := Z.of_nat (length (g_regs g)) + 1).
    set (s1 := SState (s_b s) (s_i s) (s_rev s) (s_hold s) (s_progress s) (s_out s) (Some id) None (s_done s) (s_ended s)).
    set (a := AWatch (s_i s) lo (range_end lo hi) start).
    pose proof (breach_gret _ _ _ (I_breach _ _ J) G) as GR.
    assert (NR : forall res, ~ In (id, res) (g_returns g)) by (intros res X; destruct (Q_ret _ GR _ _ X) as [K _]; unfold id in K; lia).
    assert (N : nth_error (b_groups (bstep (s_b s) a)) (s_i s) = Some (watch_begin lo (range_end lo hi) start g)) by (cbn [a bstep]; apply set_group_nth, G).
    destruct A as [A1 A2 A3]. unfold made in A1. rewrite CR in A1. unfold regs_of in A1. rewrite G in A1.
    assert (RB : length (g_regs (watch_begin lo (range_end lo hi) start g)) = S (length (g_regs g))) by (unfold watch_begin; destruct (0 <? start); cbn [g_regs]; rewrite app_length; cbn; lia).
    assert (RW : regs_of (watch_step s1 id a) = g_regs (watch_begin lo (range_end lo hi) start g)).
    { unfold regs_of, group_of. destruct (watch_step_b s1 id a) as [F1 F2]. rewrite F1, F2. cbn [s1 s_b s_i]. rewrite N. reflexivity. }
    assert (CASES : s_out (watch_step s1 id a) = s_out s /\ s_creating (watch_step s1 id a) = Some id \/ s_creating (watch_step s1 id a) = None /\ s_out (watch_step s1 id a) = s_out s ++ [MCreated id]).
    { unfold watch_step, group_of. cbn [with_b s_b s_i s1]. rewrite N. unfold watch_begin. destruct (0 <? start); cbn [g_returns].
      - rewrite (find_none_ret g id NR). left. auto.
      - cbn [r_id]. fold id. rewrite (returns_find g id WOk GR NR). right. auto. }
    destruct CASES as [[O K]|[K O]]; constructor; unfold made; rewrite ?RW, ?K, ?O, ?RB; auto; try lia.
    + intros i [= <-]. unfold id. lia.
    + rewrite ans_app, app_length. cbn. lia.
    + rewrite ans_app. intros n i X. destruct (Nat.lt_ge_cases n (length (ans (s_out s)))) as [L|L].
      * rewrite nth_error_app1 in X by exact L. eauto.
      * rewrite nth_error_app2 in X by exact L. destruct (n - length (ans (s_out s)))%nat as [|k] eqn:Q; cbn in X; [|destruct k; discriminate]. injection X as <-. unfold id. lia.
    + discriminate.
  - destruct (s_creating s) as [id|] eqn:CR; [|exact A]. apply (AN_cont s g id _ (watch_check id f (b_world (s_b s)))); auto; [apply check_keeps|apply check_cases].
  - destruct (s_creating s) as [id|] eqn:CR; [|exact A]. apply (AN_cont s g id _ (watch_query id f (b_world (s_b s)))); auto; [apply query_keeps|apply query_cases].
  - destruct (s_creating s) as [id|] eqn:CR; [|exact A]. apply (AN_cont s g id _ (watch_finish id)); auto; [apply finish_keeps|apply finish_cases].
  - destruct (s_ended s); [exact A|]. unfold s_cancel. destruct (s_creating s) eqn:CR; [exact A|]. destruct (s_closing s); [exact A|]. apply (AN_same s); auto.
    unfold regs_of, group_of. cbn [s_b s_i bstep]. rewrite (set_group_nth _ _ _ g G). unfold group_of in G. now rewrite G.
  - unfold s_forget. destruct (s_closing s); [|exact A]. apply (AN_same s); auto.
  - unfold s_eof. destruct (s_creating s) eqn:CR; [exact A|]. destruct (s_closing s); [exact A|]. apply (AN_same s); auto.
  - destruct (s_ended s); [|exact A]. apply (AN_same s); auto. unfold regs_of, group_of. cbn [with_b s_b s_i bstep]. rewrite (set_group_nth _ _ _ g G). unfold group_of in G. now rewrite G.
Qed.
Lemma sreach_AN s : sreach s -> AN s.
Proof.
  induction 1 as [b B|s a H IH OK].
  - destruct (SI_open b B) as [g J]. assert (GN : group_of (sopen b) = Some (Group (b_poll b) [] [] [] 0 true [] [] [])).
    { unfold group_of, sopen. cbn [s_b s_i bstep new_group b_groups]. rewrite nth_error_app2, Nat.sub_diag by lia. reflexivity. }
    constructor; unfold made, regs_of; rewrite ?GN; cbn; auto; [|discriminate]. intros n id N. destruct n; discriminate.
  - destruct (sreach_SI _ H) as [g J]. eapply AN_step; eauto.
Qed.

(** ---- it moves on ---- *)
Definition rank (p : phase) : nat := match p with PCheck => 2 | PQuery => 1 | PFinish _ => 0 end.
Definition pend (s : sstate) (id : Z) (p : phase) : Prop := s_creating s = Some id /\ exists g r, group_of s = Some g /\ g_pending g = [(r, p)] /\ r_id r = id.
Definition turn (a : saction) (p : phase) : bool :=
  match a, p with SCheck _, PCheck | SQuery _, PQuery | SFinish, PFinish _ => true | _, _ => false end.
Lemma pend_cont s g id p a f : SI s g -> pend s id p -> bstep (s_b s) a = set_group (s_b s) (s_i s) f -> g_regs (f g) = g_regs g ->
  (forall r p, g_pending g = [(r, p)] -> r_id r = id -> let g' := f g in
  (exists r p, g_pending g' = [(r, p)] /\ r_id r = id) /\ g_returns g' = g_returns g \/
  g_pending g' = [] /\ exists res, g_returns g' = g_returns g ++ [(id, res)]) ->
  (forall r, g_pending g = [(r, p)] -> r_id r = id -> g_pending (f g) = [] \/ exists p', g_pending (f g) = [(r, p')] /\ (p' = p \/ (rank p' < rank p)%nat)) ->
  s_creating (watch_step s id a) = None \/ exists p', pend (watch_step s id a) id p' /\ exists r, g_pending (f g) = [(r, p')] /\ (p' = p \/ (rank p' < rank p)%nat).
Proof.
  intros J [CR (g1 & r & G1 & PP & RI)] E EG C R. assert (g1 = g) as -> by (pose proof (I_group _ _ J); congruence).
  destruct (watch_step_cases s g id a f J CR E EG C) as (GG & D). destruct D as [[O K]|(K & _)]; [right|left; exact K].
  specialize (C r p PP RI). cbv zeta in C. specialize (R r PP RI). 
  destruct R as [R|(p' & R & L)].
  - exfalso. destruct C as [[(r' & p' & X & _) _]|[_ [res RT]]]; [congruence|].
    (* returned, yet still creating *)
    unfold watch_step, group_of in K. cbn [with_b s_b s_i] in K. rewrite E in K. rewrite (set_group_nth _ _ f g (I_group _ _ J)) in K. rewrite RT in K.
    assert (NR : forall res, ~ In (id, res) (g_returns g)).
    { intros res' X. destruct (Q_ret _ (breach_gret _ _ _ (I_breach _ _ J) (I_group _ _ J)) _ _ X) as [_ Q]. apply (Q (r, p)); [rewrite PP; simpl; auto|auto]. }
    rewrite (returns_find g id res (breach_gret _ _ _ (I_breach _ _ J) (I_group _ _ J)) NR) in K. destruct res; discriminate.
  - exists p'. split; [|exists r; auto]. split; [exact K|]. exists (f g), r. auto.
Qed.
Lemma check_phase id f w g r p : g_pending g = [(r, p)] -> r_id r = id -> 
  g_pending (watch_check id f w g) = [] \/ exists p', g_pending (watch_check id f w g) = [(r, p')] /\ (p' = p \/ (rank p' < rank p)%nat) /\ (p = PCheck -> p' = PQuery).
Proof.
  intros E F. unfold watch_check. rewrite (pending_single _ _ _ _ E F). destruct p; try (right; eexists; split; [exact E|split; [auto|discriminate]]).
  destruct (interval_result f w) as [[a b]|e]; [destruct (_ <? _)|]; cbn [g_pending]; rewrite E, ?(drop_single _ _ _ F), ?(phase_single _ _ _ _ F); auto.
  right. eexists. split; [reflexivity|]. split; [right; cbn; lia|auto].
Qed.
Lemma query_phase id f w g r p : g_pending g = [(r, p)] -> r_id r = id -> 
  g_pending (watch_query id f w g) = [] \/ exists p', g_pending (watch_query id f w g) = [(r, p')] /\ (p' = p \/ (rank p' < rank p)%nat) /\ (p = PQuery -> exists l, p' = PFinish l).
Proof.
  intros E F. unfold watch_query. rewrite (pending_single _ _ _ _ E F). destruct p; try (right; eexists; split; [exact E|split; [auto|discriminate]]).
  destruct (snd (sem f _ w)); cbn [g_pending]; rewrite E, ?(drop_single _ _ _ F), ?(phase_single _ _ _ _ F); auto.
  right. eexists. split; [reflexivity|]. split; [right; cbn; lia|eauto].
Qed.
Lemma finish_phase id g r p : g_pending g = [(r, p)] -> r_id r = id -> 
  g_pending (watch_finish id g) = [] \/ exists p', g_pending (watch_finish id g) = [(r, p')] /\ p' = p /\ (forall l, p <> PFinish l).
Proof.
  intros E F. unfold watch_finish. rewrite (pending_single _ _ _ _ E F). destruct p; try (right; eexists; split; [exact E|split; [auto|discriminate]]).
  cbn [g_pending]; rewrite E, ?(drop_single _ _ _ F). auto.
Qed.
(** the mutex is held: other requests wait, the call keeps its place or moves on *)
Lemma pend_step s g id p a : SI s g -> pend s id p -> (forall x, a <> SBack x) ->
  s_creating (sstep s a) = None \/ exists p', pend (sstep s a) id p' /\ (p' = p \/ (rank p' < rank p)%nat) /\ (turn a p = true -> (rank p' < rank p)%nat).
Proof.
  intros J PE NB. pose proof PE as [CR (g1 & r & G1 & PP & RI)]. assert (g1 = g) as -> by (pose proof (I_group _ _ J); congruence).
  assert (SAME : forall s', s_creating s' = s_creating s -> group_of s' = group_of s \/ (exists g', group_of s' = Some g' /\ g_pending g' = g_pending g) -> turn a p = false ->
    s_creating s' = None \/ exists p', pend s' id p' /\ (p' = p \/ (rank p' < rank p)%nat) /\ (turn a p = true -> (rank p' < rank p)%nat)).
  { intros s' E1 E2 T. right. exists p. split; [|split; [auto|congruence]]. split; [congruence|]. destruct E2 as [E2|(g' & E2 & E3)]; [exists g, r; rewrite E2; auto|exists g', r; rewrite E3; auto]. }
  assert (TF : turn a p = false \/ exists f, a = SCheck f \/ a = SQuery f \/ a = SFinish) by (destruct a; auto; right; try (exists f; auto); exists NoFault; auto).
  unfold sstep. destruct a as [a| | | | |wid lo hi start|f|f| |id'| | | ].
  - exfalso. eapply NB; eauto.
  - destruct (s_done s); [now apply SAME; auto|]. unfold s_recv. destruct (s_hold s); [now apply SAME; auto|]. rewrite G1. destruct (nth_error _ _); [|destruct (g_open g); now apply SAME; auto].
    apply SAME; [reflexivity| |reflexivity]. right. exists (take g). split; [unfold group_of; cbn [s_b s_i bstep]; apply set_group_nth; exact G1|]. unfold take. destruct (_ <? _)%nat; reflexivity.
  - apply SAME; [| |reflexivity]; unfold s_send; destruct (s_hold s); auto; rewrite CR; auto.
  - apply SAME; [| |reflexivity]; unfold s_tick; rewrite CR; auto.
  - apply SAME; [| |reflexivity]; destruct (s_ended s); auto; unfold s_progress_req; rewrite CR; auto.
  - apply SAME; [| |reflexivity]; destruct (s_ended s); auto; unfold s_create; rewrite CR; auto.
  - rewrite CR. destruct (pend_cont s g id p (ACheck (s_i s) id f) (watch_check id f (b_world (s_b s))) J PE eq_refl) as [K|(p' & PE' & r' & R1 & R2)]; auto; [apply check_keeps|apply check_cases| |].
    + intros r' PP' RI'. destruct (check_phase id f (b_world (s_b s)) g r' p PP' RI') as [K|(p' & K1 & K2 & _)]; eauto.
    + right. exists p'. split; [exact PE'|]. split; [exact R2|]. intros T. destruct p; try discriminate. destruct (check_phase id f (b_world (s_b s)) g r PCheck PP RI) as [K|(p2 & K1 & K2 & K3)]; [congruence|].
      rewrite R1 in K1. injection K1 as _ ->. rewrite (K3 eq_refl). cbn. lia.
  - rewrite CR. destruct (pend_cont s g id p (AQuery (s_i s) id f) (watch_query id f (b_world (s_b s))) J PE eq_refl) as [K|(p' & PE' & r' & R1 & R2)]; auto; [apply query_keeps|apply query_cases| |].
    + intros r' PP' RI'. destruct (query_phase id f (b_world (s_b s)) g r' p PP' RI') as [K|(p' & K1 & K2 & _)]; eauto.
    + right. exists p'. split; [exact PE'|]. split; [exact R2|]. intros T. destruct p; try discriminate. destruct (query_phase id f (b_world (s_b s)) g r PQuery PP RI) as [K|(p2 & K1 & K2 & K3)]; [congruence|].
      rewrite R1 in K1. injection K1 as _ ->. destruct (K3 eq_refl) as [l ->]. cbn. lia.
  - rewrite CR. destruct (pend_cont s g id p (AFinish (s_i s) id) (watch_finish id) J PE eq_refl) as [K|(p' & PE' & r' & R1 & R2)]; auto; [apply finish_keeps|apply finish_cases| |].
    + intros r' PP' RI'. destruct (finish_phase id g r' p PP' RI') as [K|(p' & K1 & -> & _)]; eauto.
    + right. exists p'. split; [exact PE'|]. split; [exact R2|]. intros T. destruct p; try discriminate. destruct (finish_phase id g r _ PP RI) as [K|(p2 & K1 & -> & K3)]; [congruence|]. destruct (K3 _ eq_refl).
  - apply SAME; [| |reflexivity]; destruct (s_ended s); auto; unfold s_cancel; rewrite CR; auto.
  - apply SAME; [| |reflexivity]; unfold s_forget; destruct (s_closing s); auto.
  - apply SAME; [| |reflexivity]; unfold s_eof; rewrite CR; auto.
  - apply SAME; [| |reflexivity]; destruct (s_ended s); auto. right. exists (stop_group g). split; [unfold group_of; cbn [with_b s_b s_i bstep]; apply set_group_nth; exact G1|reflexivity].
Qed.

Section Run.
Variables (cfg : driver_cfg) (okf : fault -> Prop) (c : bool) (sch : nat -> kaction) (T j i conn : nat) (st0 : sstate).
Hypothesis TO : tolerant okf.
Hypothesis OK : forall t, kaction_ok okf c (kat cfg sch t) (sch t).
Hypothesis NC : forall t, (T <= t)%nat -> sch t <> KCrash j.
Hypothesis ST : stream_of (kat cfg sch T) j i = Some (conn, st0).
Hypothesis CR : creating j i sch.

Lemma kat_KI' t : KI cfg okf c (kat cfg sch t).
Proof.
  induction t as [|t IH]; cbn [kat]; [apply KI_init|]. unfold ktry. destruct (kstep cfg (kat cfg sch t) (sch t)) as [s'|] eqn:E; [|exact IH].
  eapply KI_step; eauto.
Qed.
Definition view' (t : nat) : sstate := match stream_of (kat cfg sch t) j i with Some (_, st) => st | None => st0 end.
Lemma view_some' t : (T <= t)%nat -> stream_of (kat cfg sch t) j i = Some (conn, view' t).
Proof.
  intros L. induction L as [|t L IH].
  - unfold view'. rewrite ST. reflexivity.
  - destruct (follow cfg okf c TO _ (sch t) j i conn (view' t) (kat_KI' t) (OK t) (NC t L) IH) as (st' & E & _). unfold view' at 1. cbn [kat]. rewrite E. reflexivity.
Qed.
Lemma view_step' t : (T <= t)%nat -> moved j i (sch t) (view' t) (view' (S t)).
Proof.
  intros L. destruct (follow cfg okf c TO _ (sch t) j i conn (view' t) (kat_KI' t) (OK t) (NC t L) (view_some' t L)) as (st' & E & M). unfold view' at 2. cbn [kat]. rewrite E. exact M.
Qed.
Lemma view_inv' t : (T <= t)%nat -> sreach (view' t) /\ said conn (k_log (kat cfg sch t)) = s_out (view' t) /\ watches conn (k_log (kat cfg sch t)) = map params (regs_of (view' t)).
Proof.
  intros L. destruct (stream_inv cfg okf c TO _ j i conn (view' t) (kat_KI' t) (view_some' t L)) as (v & s0 & _ & _ & _ & R & S & W & _).
  split; [eapply rs_sreach; eauto|auto].
Qed.
Lemma own_turn t : (T <= t)%nat -> 
  (exists a, sch t = KStream j i a /\ (forall x, a <> SBack x) /\ view' (S t) = sstep (view' t) a) \/
  (s_creating (view' (S t)) = s_creating (view' t) /\ exists g g', group_of (view' t) = Some g /\ group_of (view' (S t)) = Some g' /\ g_pending g' = g_pending g).
Proof.
  intros L. pose proof (view_step' t L) as M. destruct (view_inv' t L) as (R & _). destruct (sreach_SI _ R) as [g J]. pose proof (I_group _ _ J) as G.
  assert (QU : quiet (view' t) (view' (S t)) -> s_creating (view' (S t)) = s_creating (view' t) /\ exists g g', group_of (view' t) = Some g /\ group_of (view' (S t)) = Some g' /\ g_pending g' = g_pending g).
  { intros [Q1 Q2 _ _ _ _]. split; [rewrite Q1; reflexivity|]. exists g, g. rewrite Q2. auto. }
  assert (BK : forall act, foreign (s_i (view' t)) act = true -> view' (S t) = with_b (view' t) (bstep (s_b (view' t)) act) ->
     s_creating (view' (S t)) = s_creating (view' t) /\ exists g g', group_of (view' t) = Some g /\ group_of (view' (S t)) = Some g' /\ g_pending g' = g_pending g).
  { intros act F V. destruct (foreign_group (s_b (view' t)) act (s_i (view' t)) g F G) as (g' & N & _ & _ & E3 & _). rewrite V. split; [reflexivity|]. exists g, g'. split; [exact G|]. split; [exact N|exact E3]. }
  destruct (sch t) as [x| |j'|j' a|j'|j' i' a] eqn:E; cbn [moved] in M; auto.
  - destruct a; auto; (destruct (Nat.eqb_spec j' j) as [->|]; [|auto]); right; [apply (BK (AFetch f))|apply (BK APublish)]; auto.
  - destruct (_ && _) eqn:HERE; [|auto]. apply andb_true_iff in HERE. rewrite !Nat.eqb_eq in HERE. destruct HERE as [-> ->].
    destruct (match a with SBack _ => true | _ => false end) eqn:SB; [destruct a; try discriminate; auto|].
    left. exists a. split; [reflexivity|]. split; [intros x ->; discriminate|]. destruct a; try discriminate; exact M.
Qed.
Lemma keeps_place t id p : (T <= t)%nat -> pend (view' t) id p ->
  s_creating (view' (S t)) = None \/ exists p', pend (view' (S t)) id p' /\ (p' = p \/ (rank p' < rank p)%nat) /\
    (forall a, sch t = KStream j i a -> turn a p = true -> (rank p' < rank p)%nat).
Proof.
  intros L PE. destruct (view_inv' t L) as (R & _). destruct (sreach_SI _ R) as [g J]. destruct (own_turn t L) as [(a & E & NB & V)|(E & g1 & g2 & G1 & G2 & P)].
  - rewrite V. destruct (pend_step (view' t) g id p a J PE NB) as [K|(p' & K1 & K2 & K3)]; auto. right. exists p'. split; [exact K1|]. split; [exact K2|]. intros a' E'. rewrite E in E'. injection E' as <-. exact K3.
  - pose proof (view_step' t L) as M. right. exists p. destruct PE as (C0 & g0 & r & G0 & PP & RI). assert (g0 = g1) as -> by congruence.
    split; [split; [congruence|]; exists g2, r; rewrite P; auto|]. split; [auto|]. intros a E' TN. rewrite E' in M. cbn [moved] in M. rewrite !Nat.eqb_refl in M. cbn [andb] in M.
    assert (V : view' (S t) = sstep (view' t) a) by (destruct a; try discriminate; exact M).
    exfalso. destruct (pend_step (view' t) g id p a J) as [K|(p' & [K1 (g3 & r3 & K2 & K3 & K4)] & _ & K5)].
    + split; [exact C0|]. exists g1, r. auto.
    + intros x ->. discriminate.
    + rewrite <- V in K. congruence.
    + specialize (K5 TN). rewrite <- V in K2. assert (g3 = g2) as -> by congruence. rewrite P, PP in K3. injection K3 as _ ->. lia.
Qed.
Lemma next_turn t p : exists u a, (t <= u)%nat /\ sch u = KStream j i a /\ turn a p = true.
Proof.
  destruct CR as (C1 & C2 & C3). destruct p.
  - destruct (C1 t) as (u & f & L & E). exists u, (SCheck f). auto.
  - destruct (C2 t) as (u & f & L & E). exists u, (SQuery f). auto.
  - destruct (C3 t) as (u & L & E). exists u, SFinish. auto.
Qed.
Lemma over t : (T <= t)%nat -> exists t', (t <= t')%nat /\ s_creating (view' t') = None.
Proof.
  intros L. destruct (s_creating (view' t)) as [id|] eqn:C0; [|exists t; auto].
  assert (PE : exists p, pend (view' t) id p).
  { destruct (view_inv' t L) as (R & _). destruct (sreach_SI _ R) as [g J]. pose proof (I_pending _ _ J) as P. rewrite C0 in P. destruct P as (r & p & PP & RI). exists p. split; [exact C0|]. exists g, r. split; [apply (I_group _ _ J)|auto]. }
  destruct PE as [p PE]. clear C0. assert (IND : forall n t p, (rank p < n)%nat -> (T <= t)%nat -> pend (view' t) id p -> exists t', (t <= t')%nat /\ s_creating (view' t') = None).
  { clear t p L PE. induction n as [|n IH]; intros t p RK L PE; [lia|].
    destruct (next_turn t p) as (u & a & LU & EU & TU).
    assert (W : forall v, (t <= v <= u)%nat -> (exists t', (t <= t')%nat /\ s_creating (view' t') = None) \/ (exists t1 p1, (t <= t1)%nat /\ (rank p1 < rank p)%nat /\ pend (view' t1) id p1) \/ pend (view' v) id p).
    { intros v [L1 L2]. induction L1 as [|v L1 IHv]; [auto|]. destruct (IHv ltac:(lia)) as [X|[X|X]]; auto.
      destruct (keeps_place v id p ltac:(lia) X) as [K|(p' & K1 & K2 & _)]; [left; exists (S v); split; [lia|exact K]|].
      destruct K2 as [->|K2]; auto. right. left. exists (S v), p'. split; [lia|auto]. }
    destruct (W u ltac:(lia)) as [X|[(t1 & p1 & L1 & R1 & P1)|X]]; [exact X| |].
    - destruct (IH t1 p1 ltac:(lia) ltac:(lia) P1) as (t' & L' & E'). exists t'. split; [lia|exact E'].
    - destruct (keeps_place u id p ltac:(lia) X) as [K|(p' & K1 & _ & K3)]; [exists (S u); split; [lia|exact K]|].
      destruct (IH (S u) p' ltac:(specialize (K3 a EU TU); lia) ltac:(lia) K1) as (t' & L' & E'). exists t'. split; [lia|exact E']. }
  apply (IND (S (rank p)) t p); auto.
Qed.
Lemma answers_ans t : (T <= t)%nat -> answers conn (k_log (kat cfg sch t)) = ans (s_out (view' t)).
Proof. intros L. unfold answers. rewrite (proj1 (proj2 (view_inv' t L))). reflexivity. Qed.
Lemma answered_order t n id lo hi start m : (T <= t)%nat -> nth_error (requests conn (k_log (kat cfg sch t))) n = Some (id, lo, hi, start) ->
  nth_error (answers conn (k_log (kat cfg sch t))) n = Some m -> forall id', m = MCreated id' -> id' = id.
Proof.
  intros L R A id' ->. rewrite (answers_ans t L) in A. destruct (view_inv' t L) as (SR & _ & W). pose proof (sreach_AN _ SR) as AA.
  change (requests conn (k_log (kat cfg sch t))) with (watches conn (k_log (kat cfg sch t))) in R. rewrite W in R. rewrite nth_error_map in R.
  destruct (nth_error (regs_of (view' t)) n) as [r|] eqn:N; [|discriminate]. cbn in R. injection R as RI _ _ _.
  destruct (sreach_SI _ SR) as [g J]. unfold regs_of in N. rewrite (I_group _ _ J) in N.
  pose proof (breach_Binv _ (I_breach _ _ J)) as B. pose proof (B_groups _ _ B) as BG. rewrite Forall_forall in BG. specialize (BG g (nth_error_In _ _ (I_group _ _ J))).
  pose proof (G_ids _ _ _ _ BG _ _ N). rewrite (A_ids _ AA _ _ A). lia.
Qed.
End Run.

Lemma kstep_log cfg s x s' : kstep cfg s x = Some s' -> exists l, k_log s' = k_log s ++ l.
Proof.
  destruct s as [nd sv log n]. intros K.
  assert (NIL : exists l, log = log ++ l) by (exists []; now rewrite app_nil_r).
  destruct x as [x| |j|j a|j|j i a]; cbn [kstep] in K.
  - assert (X : match nstep cfg nd x with Some nd' => Some (KState nd' sv (log ++ map Did (skipn (length (n_log nd)) (n_log nd'))) n) | None => None end = Some s') by (destruct x; try discriminate; exact K).
    destruct (nstep cfg nd x); [|discriminate]. injection X as <-. eexists. reflexivity.
  - destruct (nstep _ _ _); [|discriminate]. injection K as <-. exact NIL.
  - destruct (nstep _ _ _); [|discriminate]. injection K as <-. exact NIL.
  - destruct (nth_error sv j); [|discriminate]. destruct (_ && _); [|discriminate]. injection K as <-. exact NIL.
  - destruct (nth_error sv j); [|discriminate]. injection K as <-. exact NIL.
  - assert (X : match nth_error sv j with Some v => match nth_error (k_streams v) i with Some (conn, st0) =>
       let st := synced (n_world nd) v st0 in let st' := sstep st a in
       Some (KState nd (put j (KServer (s_b st') (put i (conn, st') (k_streams v))) sv) (log ++ told_by conn a st st') n) | None => None end | None => None end = Some s') by (destruct a; try discriminate; exact K).
    destruct (nth_error sv j) as [v|]; [|discriminate]. destruct (nth_error (k_streams v) i) as [[cn st]|]; [|discriminate]. injection X as <-. eexists. reflexivity.
Qed.
Lemma kat_log cfg sch t t' : (t <= t')%nat -> exists l, k_log (kat cfg sch t') = k_log (kat cfg sch t) ++ l.
Proof.
  intros L. induction L as [|t' L [l IH]]; [exists []; now rewrite app_nil_r|]. cbn [kat]. unfold ktry. destruct (kstep cfg (kat cfg sch t') (sch t')) as [s'|] eqn:E; [|eauto].
  destruct (kstep_log _ _ _ _ E) as [m ->]. rewrite IH, <- app_assoc. eauto.
Qed.
Lemma requests_app conn a b : requests conn (a ++ b) = requests conn a ++ requests conn b.
Proof. unfold requests. apply flat_map_app. Qed.

Lemma answered cfg okf c sch T j i conn st n id lo hi start : tolerant okf -> (forall t, kaction_ok okf c (kat cfg sch t) (sch t)) ->
  (forall t, (T <= t)%nat -> sch t <> KCrash j) -> stream_of (kat cfg sch T) j i = Some (conn, st) -> creating j i sch ->
  nth_error (requests conn (k_log (kat cfg sch T))) n = Some (id, lo, hi, start) ->
  exists t m, (T <= t)%nat /\ nth_error (answers conn (k_log (kat cfg sch t))) n = Some m /\
    (m = MCreated id \/ (exists rev, m = MCompacted rev) \/ exists rev, m = MUnhealthy rev).
Proof.
  intros TO OK NC ST CR R. destruct (over cfg okf c sch T j i conn st TO OK NC ST CR T (le_n _)) as (t & L & O).
  assert (SR : sreach (view' cfg sch j i st t)) by (apply (view_inv' cfg okf c sch T j i conn st TO OK NC ST t L)).
  pose proof (A_count _ (sreach_AN _ SR)) as C. unfold made in C. rewrite O in C.
  destruct (view_inv' cfg okf c sch T j i conn st TO OK NC ST t L) as (_ & _ & W).
  assert (R' : nth_error (requests conn (k_log (kat cfg sch t))) n = Some (id, lo, hi, start)).
  { destruct (kat_log cfg sch T t L) as [l ->]. rewrite requests_app. now apply nth_app_some. }
  assert (LN : (n < length (regs_of (view' cfg sch j i st t)))%nat).
  { change (requests conn (k_log (kat cfg sch t))) with (watches conn (k_log (kat cfg sch t))) in R'. rewrite W in R'. rewrite <- (map_length params). apply nth_error_Some. congruence. }
  pose proof (answers_ans cfg okf c sch T j i conn st TO OK NC ST t L) as EA.
  destruct (nth_error (answers conn (k_log (kat cfg sch t))) n) as [m|] eqn:E.
  - exists t, m. split; [exact L|]. split; [exact E|].
    pose proof (answered_order cfg okf c sch T j i conn st TO OK NC ST t n id lo hi start m L R' E) as X.
    assert (IA : is_answer m = true). { apply nth_error_In in E. rewrite EA in E. unfold ans in E. apply filter_In in E. tauto. }
    destruct m; try discriminate; eauto. left. f_equal. apply X. reflexivity.
  - exfalso. apply nth_error_None in E. rewrite EA in E. lia.
Qed.
Lemma matched cfg okf c s j i conn st : tolerant okf -> kreach cfg okf c s -> stream_of s j i = Some (conn, st) ->
  (length (answers conn (k_log s)) <= length (requests conn (k_log s)) <= S (length (answers conn (k_log s))))%nat /\
  forall n id lo hi start id', nth_error (requests conn (k_log s)) n = Some (id, lo, hi, start) -> nth_error (answers conn (k_log s)) n = Some (MCreated id') -> id' = id.
Proof.
  intros TO KR ST. pose proof (kreach_KI cfg okf c TO s KR) as J. destruct (stream_inv cfg okf c TO s j i conn st J ST) as (v & s0 & _ & _ & _ & RS & S & W & _).
  pose proof (rs_sreach _ _ RS) as SR. pose proof (sreach_AN _ SR) as AA. pose proof (A_count _ AA) as C.
  assert (EA : answers conn (k_log s) = ans (s_out st)) by (unfold answers; rewrite S; reflexivity).
  change (requests conn (k_log s)) with (watches conn (k_log s)). rewrite W, EA. split.
  - rewrite map_length. unfold made in C. destruct (s_creating st); lia.
  - intros n id lo hi start id' R A. rewrite nth_error_map in R. destruct (nth_error (regs_of st) n) as [r|] eqn:N; [|discriminate]. cbn in R. injection R as RI _ _ _.
    destruct (sreach_SI _ SR) as [g G]. unfold regs_of in N. rewrite (I_group _ _ G) in N.
    pose proof (breach_Binv _ (I_breach _ _ G)) as B. pose proof (B_groups _ _ B) as BG. rewrite Forall_forall in BG. specialize (BG g (nth_error_In _ _ (I_group _ _ G))).
    pose proof (G_ids _ _ _ _ BG _ _ N). rewrite (A_ids _ AA _ _ A). lia.
Qed.
