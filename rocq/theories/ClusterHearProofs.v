(** In a cluster, what is committed reaches the expiry goroutine of every server that keeps
    polling (C210). *)
From Coq Require Import List ZArith Bool Lia Arith.
From Verif Require Import Bytes Spec Sql System Prog Backend Limited Api Pool Ledger Batch BatchKine Node Fair Watch Stream Resume Whole.
From Verif Require Import SpecLemmas SqlLemmas Sim ReadLemmas ProgLemmas ReadProgs Safety LedgerLemmas LedgerMore NodeProofs WatchLemmas WatchProofs WatchResults StreamProofs ResumeProofs WholeProofs WholeResults Ttl TtlProofs TtlLive Lease LeaseProofs FairWatch FairWatchProofs FairTtl FairTtlProofs Cluster ClusterProofs ClusterView ExpireProofs ClusterExpire ClusterResults Calm CalmProofs ClusterFair ClusterFairProofs.
From Verif Require Import Watch Stream Whole Ttl FairTtl.
Import ListNotations.
Open Scope Z_scope.
Local Notation hist s := (history_of (snd (b_world (t_b s)))).

(** ---- one server in a step of the cluster ---- *)
Definition same_group (p : tphase) (b b' : bstate) : Prop :=
  forall i g, own_group p = Some i -> nth_error (b_groups b) i = Some g ->
    exists g', nth_error (b_groups b') i = Some g' /\ (exists l, g_updates g' = g_updates g ++ l) /\ g_taken g' = g_taken g.
Record carried (v0 v1 : tstate) : Prop := {
  C_phase : t_phase v1 = t_phase v0;
  C_timers : t_timers v1 = t_timers v0;
  C_ack : t_ack v1 = t_ack v0;
  C_group : same_group (t_phase v0) (t_b v0) (t_b v1);
  C_hist : exists l, hist v1 = hist v0 ++ l;
  C_time : t_now v0 <= t_now v1 }.
(** the step of the poller of server [j] in [a] *)
Definition poll_part (j : nat) (a : caction) : option action :=
  match a with
  | CWhole (KBack j' (AFetch f)) => if Nat.eqb j' j then Some (AFetch f) else None
  | CWhole (KBack j' APublish) => if Nat.eqb j' j then Some APublish else None
  | _ => None
  end.
Definition goes (j : nat) (a : caction) (v0 v1 : tstate) : Prop :=
  match a with
  | CExpiry j' x => if Nat.eqb j' j then v1 = tstep v0 x else carried v0 v1 /\ still (t_b v0) (t_b v1)
  | _ => carried v0 v1 /\ match poll_part j a with Some x => t_b v1 = bstep (t_b v0) x /\ calm (t_b v0) x | None => still (t_b v0) (t_b v1) end
  end.
Lemma same_group_refl p b : same_group p b b.
Proof. intros i g _ N. exists g. split; auto. split; auto. exists []. now rewrite app_nil_r. Qed.
Lemma carried_refl v : carried v v.
Proof. constructor; auto using same_group_refl; [|lia]. exists []. now rewrite app_nil_r. Qed.
Lemma still_refl b : still b b.
Proof. repeat split. Qed.

Section Server.
Context (cfg : driver_cfg) (okf : fault -> Prop).
Hypothesis T : tolerant okf.

Lemma view_parts s j v0 : view s j = Some v0 -> exists v e, nth_error (k_servers (c_whole s)) j = Some v /\ nth_error (c_expiry s) j = Some e /\
  v0 = TState (seen (c_world s) (k_back v)) (c_clock s) (c_stamps s) (x_phase e) (x_timers e) (x_ack e).
Proof.
  unfold view. destruct (nth_error (k_servers (c_whole s)) j) as [v|]; [|discriminate]. destruct (nth_error (c_expiry s) j) as [e|]; [|discriminate]. intros [= <-]. eauto.
Qed.
(** a server whose memory did not change *)
Lemma view_same s s' j v e : nth_error (k_servers (c_whole s)) j = Some v -> nth_error (c_expiry s) j = Some e ->
  nth_error (k_servers (c_whole s')) j = Some v -> nth_error (c_expiry s') j = Some e -> wsteps (c_world s) (c_world s') -> c_clock s <= c_clock s' ->
  forall v0, view s j = Some v0 -> exists v1, view s' j = Some v1 /\ carried v0 v1 /\ still (t_b v0) (t_b v1).
Proof.
  intros N NE N' NE' W C v0 V. unfold view in *. rewrite N, NE in V. injection V as <-. rewrite N', NE'. eexists. split; [reflexivity|]. split; [|repeat split].
  constructor; cbn [t_phase t_timers t_ack t_b t_now seen b_world]; auto; [|exact (proj1 (wsteps_extends _ _ W))].
  intros i g _ G. exists g. split; [exact G|]. split; auto. exists []. now rewrite app_nil_r.
Qed.
(** a server whose poller or groups changed *)
Lemma view_back s k' j v e v' act (v0 : tstate) : length (c_stamps s) = length (history_of (snd (c_world s))) ->
  nth_error (k_servers (c_whole s)) j = Some v -> nth_error (c_expiry s) j = Some e ->
  nth_error (k_servers k') j = Some v' -> k_node k' = k_node (c_whole s) -> internal act = true ->
  k_back v' = bstep (seen (c_world s) (k_back v)) act -> view s j = Some v0 ->
  exists v1, view (with_whole s k' (c_expiry s)) j = Some v1 /\ t_b v1 = bstep (t_b v0) act /\ t_phase v1 = t_phase v0 /\ t_timers v1 = t_timers v0 /\ t_ack v1 = t_ack v0 /\ t_now v1 = t_now v0.
Proof.
  intros L N NE N' EN IN EB V. unfold view in *. rewrite N, NE in V. injection V as <-. cbn [with_whole c_whole c_expiry c_clock c_stamps] in *. rewrite N', NE.
  eexists. split; [reflexivity|]. cbn [t_b t_phase t_timers t_ack t_now]. unfold c_world. cbn [with_whole c_whole]. rewrite EN, EB. split; [|auto].
  apply (seen_self (c_world s) (k_back v) act IN).
Qed.
Lemma act_carried p b act : (own_group p <> None -> outside p act = true) -> same_group p b (bstep b act).
Proof.
  intros F i g O N. specialize (F ltac:(congruence)). unfold outside in F. rewrite O in F.
  destruct (foreign_group b act i g F N) as (g' & N' & E1 & _ & _ & _ & _ & E6). eauto.
Qed.
Lemma view_moves s a s' j v0 : creach cfg okf true s -> caction_ok okf true s a -> cstep cfg s a = Some s' -> view s j = Some v0 -> a <> CWhole (KCrash j) ->
  exists v1, view s' j = Some v1 /\ goes j a v0 v1.
Proof.
  intros H OK ST V NC. pose proof (creach_CI cfg okf true T _ H) as J. pose proof (creach_CV cfg okf true T _ H) as CVJ.
  pose proof (kreach_KI cfg okf true T _ (I_reach _ _ _ _ J)) as KJ.
  destruct (view_parts _ _ _ V) as (v & e & N & NE & EV).
  assert (W : wsteps (c_world s) (c_world s')).
  { destruct (cstep_whole cfg okf true T s a s' H OK ST) as [E|(x & KO & E)]; unfold c_world; [rewrite E; apply wsteps_refl|].
    exact (proj1 (whole_step cfg okf true T _ _ _ (I_reach _ _ _ _ J) KO E)). }
  assert (LN : length (c_stamps s) = length (history_of (snd (c_world s)))) by exact (I_len _ _ _ _ J).
  destruct a as [x|d|j' a|j' n].
  - assert (OKW : kaction_ok okf true (c_whole s) x) by exact OK.
    cbn [cstep whole_part] in ST. destruct (not_expiry s x) eqn:NEX; [|discriminate]. destruct (kstep cfg (c_whole s) x) as [k'|] eqn:E; [|discriminate]. injection ST as <-.
    assert (SAME : nth_error (k_servers k') j = Some v -> nth_error (restarted x (c_expiry s)) j = Some e -> poll_part j (CWhole x) = None ->
      exists v1, view (with_whole s k' (restarted x (c_expiry s))) j = Some v1 /\ goes j (CWhole x) v0 v1).
    { intros N' NE' PP. unfold goes. rewrite PP. apply (view_same s (with_whole s k' (restarted x (c_expiry s))) j v e); auto. cbn. lia. }
    destruct (c_whole s) as [nd sv log nx] eqn:EW. cbn [k_servers k_node k_log] in *.
    destruct x as [y| |c|c a|c|c i a].
    + apply SAME; auto. cbn [kstep] in E. destruct y; try discriminate E; destruct (nstep cfg nd _); try discriminate E; injection E as <-; exact N.
    + apply SAME; auto; cbn [kstep restarted] in *.
      * destruct (nstep cfg nd NBoot); [|discriminate]. injection E as <-. cbn [k_servers]. rewrite nth_error_app1; [exact N|]. apply nth_error_Some. congruence.
      * rewrite nth_error_app1; [exact NE|]. apply nth_error_Some. congruence.
    + assert (D : c <> j) by congruence. apply SAME; auto; cbn [kstep restarted] in *.
      * destruct (nstep cfg nd (NCrash c)); [|discriminate]. injection E as <-. cbn [k_servers]. now rewrite put_other.
      * now rewrite put_other.
    + cbn [restarted] in *. cbn [kstep] in E. destruct (nth_error sv c) as [vc|] eqn:NVC; [|discriminate]. destruct (internal a && _) eqn:F; [|discriminate]. injection E as <-.
      destruct (Nat.eq_dec c j) as [->|D].
      2:{ apply SAME; auto; [cbn [k_servers]; now rewrite put_other|]. apply Nat.eqb_neq in D. cbn [poll_part]. destruct a; rewrite ?D; reflexivity. }
      rewrite N in NVC. injection NVC as <-. apply andb_true_iff in F. destruct F as [IN FO]. cbn [not_expiry] in NEX. rewrite NE in NEX.
      set (k' := KState nd (put j (KServer (bstep (seen (n_world nd) (k_back v)) a) (k_streams v)) sv) log nx).
      destruct (view_back s k' j v e (KServer (bstep (seen (n_world nd) (k_back v)) a) (k_streams v)) a v0 LN) as (v1 & V1 & B1 & P1 & T1 & A1 & N1); auto.
      { now rewrite EW. } { unfold k'. cbn [k_servers]. eapply put_same; eauto. } { now rewrite EW. } { unfold c_world. rewrite EW. reflexivity. }
      exists v1. split; [exact V1|].
      assert (CA : carried v0 v1).
      { constructor; auto; [| |rewrite N1; lia].
        - rewrite B1. apply act_carried. intros _. rewrite EV. exact NEX.
        - exists []. rewrite app_nil_r, B1. f_equal. f_equal. apply internal_world. exact IN. }
      assert (CL : calm (t_b v0) a).
      { destruct OKW as [_ O2]. specialize (O2 eq_refl v N). rewrite EV. cbn [t_b]. unfold c_world. rewrite EW. cbn [k_node] in *. apply steady_is_calm; auto.
        - apply (rb_breach true). exact (proj1 (K_serv _ _ _ _ KJ _ _ N)).
        - exact (proj1 (proj2 (node_facts _ _ _ T (K_node _ _ _ _ KJ)))). }
      assert (ST : (forall f, a <> AFetch f) -> a <> APublish -> still (t_b v0) (t_b v1)) by (intros X1 X2; rewrite B1; now apply still_step).
      unfold goes, poll_part. rewrite Nat.eqb_refl. split; [exact CA|]. destruct a; try (apply ST; discriminate); split; assumption.
    + cbn [restarted] in *. cbn [kstep] in E. destruct (nth_error sv c) as [vc|] eqn:NVC; [|discriminate]. injection E as <-.
      destruct (Nat.eq_dec c j) as [->|D]; [|apply SAME; auto; cbn [k_servers]; now rewrite put_other].
      rewrite N in NVC. injection NVC as <-. cbv zeta.
      set (v' := KServer (s_b (sopen (seen (n_world nd) (k_back v)))) (k_streams v ++ [(nx, sopen (seen (n_world nd) (k_back v)))])).
      destruct (view_back s (KState nd (put j v' sv) log (S nx)) j v e v' ANewGroup v0 LN) as (v1 & V1 & B1 & P1 & T1 & A1 & N1); auto.
      { now rewrite EW. } { cbn [k_servers]. eapply put_same; eauto. } { now rewrite EW. } { unfold c_world. rewrite EW. reflexivity. }
      exists v1. split; [exact V1|]. unfold goes. cbn [poll_part]. split; [|rewrite B1; apply still_step; discriminate].
      constructor; auto; [| |rewrite N1; lia].
      * rewrite B1. apply act_carried. intros _. unfold outside. destruct (own_group _); reflexivity.
      * exists []. rewrite app_nil_r, B1. reflexivity.
    + assert (NB : forall x, a <> SBack x) by (intros x ->; discriminate E).
      assert (KE : kstep cfg (KState nd sv log nx) (KStream c i a) = match nth_error sv c with Some v => match nth_error (k_streams v) i with Some (conn, st0) =>
       let st := synced (n_world nd) v st0 in let st' := sstep st a in
       Some (KState nd (put c (KServer (s_b st') (put i (conn, st') (k_streams v))) sv) (log ++ told_by conn a st st') nx) | None => None end | None => None end) by (destruct a; try reflexivity; exfalso; eapply NB; reflexivity).
      rewrite KE in E. clear KE. cbn [restarted] in *. destruct (nth_error sv c) as [vc|] eqn:NVC; [|discriminate]. destruct (nth_error (k_streams vc) i) as [[conn st0]|] eqn:NS; [|discriminate].
      cbv zeta in E. injection E as <-. destruct (Nat.eq_dec c j) as [->|D]; [|apply SAME; auto; cbn [k_servers]; now rewrite put_other].
      rewrite N in NVC. injection NVC as <-. set (st2 := synced (n_world nd) v st0) in *. set (k' := KState nd _ _ _).
      destruct (sstep_set st2 a NB) as [_ SB]. unfold view. cbn [with_whole c_whole c_expiry]. unfold k' at 1. cbn [k_servers]. rewrite (put_same _ _ _ _ N), NE. eexists. split; [reflexivity|].
      assert (WE : c_world (with_whole s k' (c_expiry s)) = c_world s) by (unfold c_world; cbn [with_whole c_whole]; unfold k'; rewrite EW; reflexivity).
      rewrite WE. cbn [k_back]. assert (BB : s_b st2 = t_b v0) by (rewrite EV; unfold st2, synced, c_world; rewrite EW; reflexivity).
      assert (SS : forall f, seen (c_world s) (set_group (t_b v0) (s_i st2) f) = set_group (t_b v0) (s_i st2) f) by (intros f; rewrite EV; reflexivity).
      assert (SR : seen (c_world s) (t_b v0) = t_b v0) by (rewrite EV; reflexivity).
      unfold goes. cbn [poll_part].
      destruct SB as [SB|[f SB]]; rewrite SB, BB; rewrite ?SS, ?SR.
      * split; [|apply still_refl]. rewrite EV. constructor; cbn [t_phase t_timers t_ack t_b t_now with_whole c_clock]; auto using same_group_refl; [|lia]. exists []. now rewrite app_nil_r.
      * split; [|repeat split]. rewrite EV. constructor; cbn [t_phase t_timers t_ack t_b t_now with_whole c_clock]; auto; [| |lia].
        -- intros i0 g O G. cbn [set_group b_groups]. exists g. split; [|split; auto; exists []; now rewrite app_nil_r].
           rewrite update_nth_nth. destruct (Nat.eqb_spec i0 (s_i st2)) as [EI|_]; [|exact G]. exfalso.
           refine (proj2 (V_own _ _ CVJ j v e i0 _ NE O) _); [now rewrite EW|]. apply in_map_iff. exists (conn, st0). split; [now rewrite EI|]. eapply nth_error_In; eauto.
        -- exists []. now rewrite app_nil_r.
  - injection ST as <-. unfold goes. cbn [poll_part]. apply (view_same s _ j v e); auto. cbn. lia.
  - destruct (Nat.eq_dec j' j) as [->|D].
    + destruct (CV_own_step cfg okf true T s j a s' J CVJ OK ST) as (_ & t0 & V0 & V1). rewrite V in V0. injection V0 as <-. exists (tstep v0 a). split; [exact V1|]. unfold goes. now rewrite Nat.eqb_refl.
    + assert (O' : match a with TBack _ | TTime _ | TAttempt _ _ => False | _ => True end) by (destruct a; try discriminate; exact Logic.I).
      assert (ST' : match view s j', (match whole_part s (CExpiry j' a) with Some x => kstep cfg (c_whole s) x | None => Some (c_whole s) end) with
        | Some v, Some k => let t' := tstep v a in Some (with_whole s k (put j' (Expiry (t_phase t') (t_timers t') (t_ack t')) (c_expiry s)))
        | _, _ => None end = Some s') by (destruct a; try contradiction; exact ST).
      clear ST. destruct (view s j') as [u|]; [|discriminate].
      unfold goes. rewrite (proj2 (Nat.eqb_neq j' j) D).
      destruct (whole_part s (CExpiry j' a)) as [x|] eqn:WP.
      * destruct (kstep cfg (c_whole s) x) as [k'|] eqn:E; [|discriminate]. cbv zeta in ST'. injection ST' as <-.
        apply (view_same s (with_whole s k' (put j' (Expiry (t_phase (tstep u a)) (t_timers (tstep u a)) (t_ack (tstep u a))) (c_expiry s))) j v e); auto; cbn [with_whole c_whole c_expiry c_clock]; [|now rewrite put_other|lia].
        cbn [whole_part] in WP. destruct (nth_error (c_expiry s) j') as [e'|]; [|discriminate]. destruct (backend_part (x_phase e') a) as [act|]; [|discriminate]. injection WP as <-.
        destruct (c_whole s) as [nd sv log nx]. cbn [kstep k_servers] in *. destruct (nth_error sv j'); [|discriminate]. destruct (_ && _); [|discriminate]. injection E as <-. cbn [k_servers]. now rewrite put_other.
      * cbv zeta in ST'. injection ST' as <-. apply (view_same s (with_whole s (c_whole s) (put j' (Expiry (t_phase (tstep u a)) (t_timers (tstep u a)) (t_ack (tstep u a))) (c_expiry s))) j v e); auto; cbn [with_whole c_whole c_expiry c_clock]; [now rewrite put_other|lia].
  - cbn [cstep] in ST. destruct (view s j') as [u|]; [|discriminate]. destruct (nth_error (t_timers u) n) as [tm|]; [|discriminate]. destruct (tm_due tm <=? c_clock s); [|discriminate].
    unfold goes. cbn [poll_part].
    destruct (whole_part s (CFire j' n)) as [x|] eqn:WP.
    + destruct (kstep cfg (c_whole s) x) as [k'|] eqn:E; [|discriminate]. cbn [option_map] in ST. injection ST as <-.
      apply (view_same s (with_whole s k' (c_expiry s)) j v e); auto; cbn [with_whole c_whole c_expiry c_clock]; [|lia].
      cbn [whole_part] in WP. destruct (nth_error (c_expiry s) j') as [e'|]; [|discriminate]. destruct (nth_error (x_timers e') n); [|discriminate]. injection WP as <-.
      destruct (c_whole s) as [nd sv log nx]. cbn [kstep k_servers] in *. destruct (nstep cfg nd _); [|discriminate]. injection E as <-. exact N.
    + cbn [option_map] in ST. injection ST as <-. apply (view_same s (with_whole s (c_whole s) (c_expiry s)) j v e); auto; cbn [with_whole c_whole c_expiry c_clock]. lia.
Qed.
End Server.

(** ---- the server along a schedule ---- *)
Section Hear.
Variables (cfg : driver_cfg) (okf : fault -> Prop) (sch : nat -> cturn) (j T0 : nat) (v0 : tstate).
Hypothesis T : tolerant okf.
Hypothesis OK : forall t, cturn_ok okf true (cat cfg sch t) (sch t).
Hypothesis NC : forall t, (T0 <= t)%nat -> sch t <> CStep (CWhole (KCrash j)).
Hypothesis V0 : view (cat cfg sch T0) j = Some v0.
Hypothesis POLLS : polls j sch.
Hypothesis HEARS : hears j sch.
Local Notation S_ t := (cat cfg sch (T0 + t)).
Local Notation turn t := (sch (T0 + t)%nat).
Definition at_ (t : nat) : tstate := match view (S_ t) j with Some v => v | None => v0 end.
Local Notation poll t := (b_poll (t_b (at_ t))).
Local Notation batch t := (b_batch (t_b (at_ t))).

Lemma at_view t : view (S_ t) j = Some (at_ t).
Proof.
  unfold at_. assert (X : exists v, view (S_ t) j = Some v).
  { induction t as [|t [v IH]]; [rewrite Nat.add_0_r; eauto|]. rewrite Nat.add_succ_r.
    destruct (cat_step cfg okf true sch OK (T0 + t)) as [->|(a & O & E & W)]; [eauto|].
    destruct (view_moves cfg okf T _ a _ j v (cat_reach cfg okf true sch OK (T0 + t)) O E IH) as (v1 & V1 & _); [|eauto].
    intros ->. destruct W as [W|[y W]]; [|discriminate]. exact (NC (T0 + t) ltac:(lia) W). }
  destruct X as [v ->]. reflexivity.
Qed.
Lemma at_moves t : at_ (S t) = at_ t /\ S_ (S t) = S_ t \/ exists a, cstep cfg (S_ t) a = Some (S_ (S t)) /\ goes j a (at_ t) (at_ (S t)) /\ (turn t = CStep a \/ exists y, a = CWhole (KNode y)).
Proof.
  rewrite Nat.add_succ_r. destruct (cat_step cfg okf true sch OK (T0 + t)) as [E|(a & O & E & W)].
  - left. split; [|exact E]. unfold at_. now rewrite Nat.add_succ_r, E.
  - right. exists a. split; [exact E|]. split; [|exact W].
    destruct (view_moves cfg okf T _ a _ j (at_ t) (cat_reach cfg okf true sch OK (T0 + t)) O E (at_view t)) as (v1 & V1 & G).
    { intros ->. destruct W as [W|[y W]]; [|discriminate]. exact (NC (T0 + t) ltac:(lia) W). }
    pose proof (at_view (S t)) as V2. rewrite Nat.add_succ_r, V1 in V2. injection V2 as <-. exact G.
Qed.
Lemma at_calm t : tcalm (at_ t).
Proof. apply (proj2 (cluster_server cfg okf true T _ _ _ (cat_reach cfg okf true sch OK (T0 + t)) (at_view t)) eq_refl). Qed.
Lemma calm_at t : calm_reach (t_b (at_ t)).
Proof. apply tcalm_PI, at_calm. Qed.
(** the turns of the poller *)
Lemma poller_turn t : still (t_b (at_ t)) (t_b (at_ (S t))) \/
  (exists f, turn t = CStep (CWhole (KBack j (AFetch f))) /\ t_b (at_ (S t)) = fetch f (t_b (at_ t)) /\ kept (snd (b_world (t_b (at_ t)))) (poll t)) \/
  (turn t = CStep (CWhole (KBack j APublish)) /\ t_b (at_ (S t)) = publish_all (t_b (at_ t))).
Proof.
  destruct (at_moves t) as [[-> _]|(a & E & G & W)]; [left; apply still_refl|]. unfold goes in G. destruct a as [x|d|j' x|j' n].
  - destruct G as [_ G]. cbn [poll_part] in G. destruct x as [y| |c|c b|c|c i b]; try (left; exact G).
    destruct b; try (left; exact G); (destruct (Nat.eqb_spec c j) as [->|D]; [|left; exact G]); (destruct W as [W|[y W]]; [|discriminate]); destruct G as [G1 G2].
    + right. left. exists f. auto.
    + right. right. auto.
  - left. apply G.
  - destruct (Nat.eqb_spec j' j) as [->|D]; [|left; apply G]. rewrite G. destruct (poller_step (at_ t) x) as [S1|[(f & -> & _)|[-> _]]]; [left; exact S1|discriminate E|discriminate E].
  - left. apply G.
Qed.
(** ... always happen *)
Lemma back_happens t a : turn t = CStep (CWhole (KBack j a)) -> (forall f, a = AFetch f) \/ a = APublish \/ (exists f, a = AFetch f) -> exists s', cstep cfg (S_ t) (CWhole (KBack j a)) = Some s'.
Proof.
  intros _ C. destruct (view_parts _ _ _ (at_view t)) as (v & e & N & NE & _). cbn [cstep not_expiry whole_part]. rewrite NE.
  assert (O : outside (x_phase e) a = true) by (destruct C as [C|[->|[f ->]]]; [rewrite (C NoFault)| |]; unfold outside; destruct (own_group _); reflexivity). rewrite O.
  assert (X : exists k', kstep cfg (c_whole (S_ t)) (KBack j a) = Some k').
  { destruct (c_whole (S_ t)) as [nd sv log nx]. cbn [k_servers] in N. cbn [kstep]. rewrite N.
    assert (F : internal a && forallb (fun c : nat * sstate => foreign (s_i (snd c)) a) (k_streams v) = true).
    { apply andb_true_iff. split; [destruct C as [C|[->|[f ->]]]; [rewrite (C NoFault)| |]; reflexivity|]. apply forallb_forall. intros c _. destruct C as [C|[->|[f ->]]]; [rewrite (C NoFault)| |]; reflexivity. }
    rewrite F. eauto. }
  destruct X as [k' ->]. cbn. eauto.
Qed.
Lemma fetch_happens t f : turn t = CStep (CWhole (KBack j (AFetch f))) -> t_b (at_ (S t)) = fetch f (t_b (at_ t)).
Proof.
  intros E. destruct (back_happens t _ E ltac:(eauto)) as [s' ST]. pose proof (OK (T0 + t)) as O. rewrite E in O. cbn [cturn_ok] in O.
  destruct (view_moves cfg okf T _ _ _ j (at_ t) (cat_reach cfg okf true sch OK (T0 + t)) O ST (at_view t)) as (v1 & V1 & _ & G); [discriminate|].
  cbn [poll_part] in G. rewrite Nat.eqb_refl in G. destruct G as [G _]. pose proof (at_view (S t)) as V2. rewrite Nat.add_succ_r in V2. cbn [cat] in V2. rewrite E in V2. cbn [take_cturn] in V2. unfold ctry in V2. rewrite ST, V1 in V2. injection V2 as <-. exact G.
Qed.
Lemma publish_happens t : turn t = CStep (CWhole (KBack j APublish)) -> t_b (at_ (S t)) = publish_all (t_b (at_ t)).
Proof.
  intros E. destruct (back_happens t _ E ltac:(eauto)) as [s' ST]. pose proof (OK (T0 + t)) as O. rewrite E in O. cbn [cturn_ok] in O.
  destruct (view_moves cfg okf T _ _ _ j (at_ t) (cat_reach cfg okf true sch OK (T0 + t)) O ST (at_view t)) as (v1 & V1 & _ & G); [discriminate|].
  cbn [poll_part] in G. rewrite Nat.eqb_refl in G. destruct G as [G _]. pose proof (at_view (S t)) as V2. rewrite Nat.add_succ_r in V2. cbn [cat] in V2. rewrite E in V2. cbn [take_cturn] in V2. unfold ctry in V2. rewrite ST, V1 in V2. injection V2 as <-. exact G.
Qed.
(** the loop receives when it gets its turn *)
Lemma recv_happens t js st i : turn t = CStep (CExpiry j (TRecv js)) -> t_phase (at_ t) = TPLoop st i -> at_ (S t) = tstep (at_ t) (TRecv js).
Proof.
  intros E PH. destruct (view_parts _ _ _ (at_view t)) as (v & e & N & NE & EV). assert (PE : x_phase e = TPLoop st i) by (rewrite EV in PH; exact PH).
  assert (ST : exists s', cstep cfg (S_ t) (CExpiry j (TRecv js)) = Some s').
  { cbn [cstep whole_part]. rewrite (at_view t), NE, PE. cbn [backend_part option_map].
    assert (X : exists k', kstep cfg (c_whole (S_ t)) (KBack j (ATake i)) = Some k').
    { pose proof (V_own _ _ (creach_CV cfg okf true T _ (cat_reach cfg okf true sch OK (T0 + t))) j v e i N NE) as VO. rewrite PE in VO. destruct (VO eq_refl) as [_ NI].
      destruct (c_whole (S_ t)) as [nd sv log nx]. cbn [k_servers] in N. cbn [kstep]. rewrite N.
      assert (F : internal (ATake i) && forallb (fun c : nat * sstate => foreign (s_i (snd c)) (ATake i)) (k_streams v) = true).
      { apply andb_true_iff. split; [reflexivity|]. apply forallb_forall. intros c Hc. cbn. apply negb_true_iff, Nat.eqb_neq. intros X. apply NI. apply in_map_iff. exists c. auto. }
      rewrite F. eauto. }
    destruct X as [k' ->]. eauto. }
  destruct ST as [s' ST]. pose proof (OK (T0 + t)) as O. rewrite E in O. cbn [cturn_ok] in O.
  destruct (view_moves cfg okf T _ _ _ j (at_ t) (cat_reach cfg okf true sch OK (T0 + t)) O ST (at_view t)) as (v1 & V1 & G); [discriminate|].
  unfold goes in G. rewrite Nat.eqb_refl in G. pose proof (at_view (S t)) as V2. rewrite Nat.add_succ_r in V2. cbn [cat] in V2. rewrite E in V2. cbn [take_cturn] in V2. unfold ctry in V2. rewrite ST, V1 in V2. injection V2 as <-. exact G.
Qed.

Lemma again_from (P : cturn -> Prop) t : cagain sch P -> exists t', (t <= t')%nat /\ P (turn t').
Proof. intros A. destruct (A (T0 + t)%nat) as (u & L & H). exists (u - T0)%nat. split; [lia|]. now replace (T0 + (u - T0))%nat with u by lia. Qed.
Lemma hist_at t : hist (at_ t) = commits (c_log (S_ t)).
Proof.
  pose proof (creach_CI cfg okf true T _ (cat_reach cfg okf true sch OK (T0 + t))) as J. unfold c_log. rewrite (whole_hist cfg okf true T _ (I_reach _ _ _ _ J)).
  destruct (view_parts _ _ _ (at_view t)) as (v & e & _ & _ & ->). reflexivity.
Qed.
Lemma hist_later t u : (t <= u)%nat -> exists l, hist (at_ u) = hist (at_ t) ++ l.
Proof. intros L. rewrite !hist_at. destruct (log_grows cfg okf true sch T OK (T0 + t) (T0 + u) ltac:(lia)) as [l ->]. rewrite commits_app. eauto. Qed.
Lemma rev_later t u : (t <= u)%nat -> revision (hist (at_ t)) <= revision (hist (at_ u)).
Proof. intros L. destruct (hist_later t u L) as [l ->]. rewrite revision_app. pose proof (revision_nonneg l). lia. Qed.

Lemma alive_step t : b_dead (t_b (at_ t)) = false -> b_dead (t_b (at_ (S t))) = false.
Proof.
  intros D. destruct (poller_turn t) as [(_ & _ & E)|[(f & E & F & _)|(E & F)]]; [congruence| |].
  - destruct POLLS as (_ & _ & P). rewrite F. destruct (fetch_bearable f (t_b (at_ t)) (P _ _ E)) as [-> _]. exact D.
  - rewrite F. unfold publish_all. destruct (b_batch _); exact D.
Qed.
Lemma alive t u : (t <= u)%nat -> b_dead (t_b (at_ t)) = false -> b_dead (t_b (at_ u)) = false.
Proof. intros L D. induction L as [|u L IH]; auto using alive_step. Qed.
Lemma poll_step t : poll t <= poll (S t).
Proof.
  destruct (poller_turn t) as [(E & _ & _)|[(f & _ & F & _)|(_ & F)]]; [lia| |].
  - rewrite F. rewrite (proj1 (proj2 (fetch_same f (t_b (at_ t))))). lia.
  - rewrite F. unfold publish_all. destruct (b_batch _) as [evs|] eqn:B; [|lia]. cbn [b_poll].
    pose proof (step_poll True (t_b (at_ t)) APublish) as X. cbn [bstep] in X. unfold publish_all in X. rewrite B in X. cbn [b_poll] in X. apply X. apply calm_Binv, calm_at.
Qed.
Lemma poll_later t u : (t <= u)%nat -> poll t <= poll u.
Proof. intros L. induction L as [|u L IH]; [lia|]. pose proof (poll_step u). lia. Qed.
Lemma batch_none t : exists t', (t <= t')%nat /\ batch t' = None.
Proof.
  destruct POLLS as (_ & P & _). destruct (again_from _ t P) as (u & LU & E). exists (S u). split; [lia|].
  rewrite (publish_happens u (eq_sym E)). unfold publish_all. destruct (b_batch (t_b (at_ u))) eqn:B; auto.
Qed.
Lemma poll_more t : b_dead (t_b (at_ t)) = false -> poll t < revision (hist (at_ t)) -> exists t', (t <= t')%nat /\ poll t < poll t'.
Proof.
  intros D H. destruct (batch_none t) as (t1 & L1 & B1).
  destruct (Z.eq_dec (poll t1) (poll t)) as [E1|NE]; [|exists t1; split; [lia|]; pose proof (poll_later t t1 L1); lia].
  destruct POLLS as (P1 & P2 & P3).
  assert (INV : forall u, (t1 <= u)%nat -> poll t < poll u \/ poll u = poll t /\ (batch u = None \/ exists evs, batch u = Some evs /\ poll t < last_rev evs (poll t))).
  { intros u LU. induction LU as [|u LU IH]; [right; auto|]. destruct IH as [IH|[EP IH]]; [left; pose proof (poll_step u); lia|].
    destruct (poller_turn u) as [(S1 & S2 & _)|[(f & S1 & S2 & KP)|[S1 S2]]].
    - right. rewrite S1, S2. auto.
    - right. rewrite S2, (proj1 (proj2 (fetch_same f (t_b (at_ u))))). split; [lia|]. destruct (fetch_bearable f (t_b (at_ u)) (P3 _ _ S1)) as [_ [FE|(F1 & F2 & F3)]].
      + rewrite FE. exact IH.
      + right. destruct (fetch_batch_some (t_b (at_ u)) F1) as [evs X]. exists evs. rewrite F3. split; [exact X|].
        rewrite <- EP. apply (fetch_progress (t_b (at_ u)) evs); auto.
        * apply calm_at.
        * rewrite EP. pose proof (rev_later t u ltac:(lia)). lia.
    - destruct IH as [IH|(evs & IH & LT)].
      + right. rewrite S2. unfold publish_all. rewrite IH. auto.
      + left. rewrite S2. unfold publish_all. rewrite IH. cbn [b_poll]. rewrite EP. exact LT. }
  destruct (again_from _ t1 P1) as (u & LU & EU).
  assert (AT : poll t < poll (S u) \/ poll (S u) = poll t /\ exists evs, batch (S u) = Some evs /\ poll t < last_rev evs (poll t)).
  { destruct (INV (S u) ltac:(lia)) as [I1|[I1 [I2|I2]]]; auto. exfalso.
    rewrite (fetch_happens u NoFault (eq_sym EU)) in I2. destruct (fetch_batch_some (t_b (at_ u))) as [evs X]; [apply (alive t u); [lia|exact D]|congruence]. }
  destruct AT as [AT|(AP & evs & AB & AL)]; [exists (S u); split; [lia|exact AT]|].
  destruct (again_from _ (S u) P2) as (w & LW & EW).
  assert (INV2 : forall x, (S u <= x)%nat -> poll t < poll x \/ poll x = poll t /\ exists evs, batch x = Some evs /\ poll t < last_rev evs (poll t)).
  { intros x LX. induction LX as [|x LX IH]; [right; eauto|]. destruct IH as [IH|(EP & evs' & IH & LT)]; [left; pose proof (poll_step x); lia|].
    destruct (poller_turn x) as [(S1 & S2 & _)|[(f & S1 & S2 & _)|[S1 S2]]].
    - right. rewrite S1, S2. eauto.
    - right. rewrite S2, (proj1 (proj2 (fetch_same f (t_b (at_ x))))). split; [lia|]. exists evs'. split; [|exact LT]. unfold fetch. destruct (b_dead (t_b (at_ x))); [exact IH|]. now rewrite IH.
    - left. rewrite S2. unfold publish_all. rewrite IH. cbn [b_poll]. rewrite EP. exact LT. }
  exists (S w). split; [lia|]. destruct (INV2 w LW) as [I1|(I1 & evs' & I2 & I3)]; [pose proof (poll_step w); lia|].
  rewrite (publish_happens w (eq_sym EW)). unfold publish_all. rewrite I2. cbn [b_poll]. rewrite I1. exact I3.
Qed.
Lemma poll_reaches n : forall t r, b_dead (t_b (at_ t)) = false -> r <= revision (hist (at_ t)) -> r - poll t <= Z.of_nat n -> exists t', (t <= t')%nat /\ r <= poll t'.
Proof.
  induction n as [|n IH]; intros t r D H N; [exists t; split; lia|].
  destruct (Z_le_gt_dec r (poll t)) as [LE|GT]; [exists t; split; lia|].
  destruct (poll_more t D ltac:(lia)) as (t1 & L1 & P1).
  destruct (IH t1 r) as (t2 & L2 & P2); [now apply (alive t)| |lia|exists t2; split; lia].
  pose proof (rev_later t t1 L1). lia.
Qed.

(** ---- the goroutine ---- *)
Variables (st : Z) (i : nat).
Definition loop (n : nat) (t : nat) (g : group) : Prop :=
  t_phase (at_ t) = TPLoop st i /\ t_ack (at_ t) = Some n /\ nth_error (b_groups (t_b (at_ t))) i = Some g.
Lemma loop_step n t g : loop n t g ->
  dropped (at_ t) i \/ exists g', loop n (S t) g' /\ (exists l, g_updates g' = g_updates g ++ l) /\
    (g_taken g' = g_taken g \/ g_taken g' = S (g_taken g) /\ (g_taken g < length (g_updates g))%nat).
Proof.
  intros (PH & AK & N). assert (RF : exists l, g_updates g = g_updates g ++ l) by (exists []; now rewrite app_nil_r).
  assert (CA : carried (at_ t) (at_ (S t)) -> exists g', loop n (S t) g' /\ (exists l, g_updates g' = g_updates g ++ l) /\ (g_taken g' = g_taken g \/ g_taken g' = S (g_taken g) /\ (g_taken g < length (g_updates g))%nat)).
  { intros [C1 C2 C3 C4 _ _]. destruct (C4 i g) as (g' & N' & U' & T'); [rewrite PH; reflexivity|exact N|]. exists g'. unfold loop. rewrite C1, C3. auto 10. }
  destruct (at_moves t) as [[E _]|(a & E & G & W)]; [right; exists g; unfold loop; rewrite E; auto 10|].
  unfold goes in G. destruct a as [x|d|j' a|j' m]; try (right; apply CA, G).
  destruct (Nat.eqb j' j); [|right; apply CA, G]. unfold loop. rewrite G.
  destruct a as [a|d|f|f| | |f|f| |js|m f]; try discriminate E; cbn [tstep]; rewrite ?PH; try (right; exists g; now auto 10).
  rewrite N. destruct (nth_error (g_updates g) (g_taken g)) as [u|] eqn:NU.
  - right. exists (take g). cbn [t_phase t_ack t_b bstep]. pose proof (set_group_nth (t_b (at_ t)) i take g N) as N'.
    assert (LT : (g_taken g < length (g_updates g))%nat) by (apply nth_error_Some; congruence). split; [auto|].
    unfold take. replace (g_taken g <? length (g_updates g))%nat with true by (symmetry; now apply Nat.ltb_lt). cbn [g_updates g_taken]. auto.
  - destruct (g_open g) eqn:O; [right; exists g; auto 10|]. left. exists g. auto.
Qed.
Definition eventually (t : nat) (P : nat -> Prop) : Prop := exists t', (t <= t')%nat /\ (P t' \/ dropped (at_ t') i).
Lemma ev_bind t (P Q : nat -> Prop) : eventually t P -> (forall t', (t <= t')%nat -> P t' -> eventually t' Q) -> eventually t Q.
Proof. intros (t1 & L & [H|H]) K; [|exists t1; auto]. destruct (K t1 L H) as (t2 & L2 & H2). exists t2. split; [lia|exact H2]. Qed.
Lemma loop_run n t u g : (t <= u)%nat -> loop n t g ->
  (exists v, (t <= v <= u)%nat /\ dropped (at_ v) i) \/ exists g', loop n u g' /\ (exists l, g_updates g' = g_updates g ++ l) /\ (g_taken g <= g_taken g')%nat.
Proof.
  intros L H. induction L as [|u L IH]; [right; exists g; split; auto; split; auto; exists []; now rewrite app_nil_r|].
  destruct IH as [(v & LV & D)|(g1 & H1 & (l1 & U1) & T1)]; [left; exists v; split; [lia|exact D]|].
  destruct (loop_step n u g1 H1) as [D|(g2 & H2 & (l2 & U2) & T2)]; [left; exists u; split; [lia|exact D]|].
  right. exists g2. split; auto. split; [exists (l1 ++ l2); rewrite U2, U1; now rewrite app_assoc|]. destruct T2 as [->|(-> & _)]; lia.
Qed.
Lemma published n t g r : loop n t g -> b_dead (t_b (at_ t)) = false -> r <= revision (hist (at_ t)) -> g_open g = true ->
  eventually t (fun t' => exists g' m u, loop n t' g' /\ (length (g_updates g) <= m)%nat /\ nth_error (g_updates g') m = Some u /\ r <= u_rev u /\ (g_taken g' <= m)%nat).
Proof.
  intros H D RL O. destruct (poll_reaches (Z.to_nat (r - poll t)) t r D RL ltac:(lia)) as (t1 & L1 & P1).
  destruct POLLS as (F & P & _). destruct (again_from _ t1 F) as (u & LU & EU).
  assert (SOME : forall v, (S u <= v)%nat -> (exists w, (u <= w < v)%nat /\ turn w = CStep (CWhole (KBack j APublish)) /\ batch w <> None) \/ batch v <> None).
  { intros v LV. induction LV as [|v LV IH].
    - right. rewrite (fetch_happens u NoFault (eq_sym EU)). destruct (fetch_batch_some (t_b (at_ u))) as [evs X]; [apply (alive t u); [lia|exact D]|congruence].
    - destruct IH as [(w & LW & EW & B)|B]; [left; exists w; split; [lia|auto]|].
      destruct (poller_turn v) as [(_ & S2 & _)|[(f & S1 & S2 & _)|[S1 S2]]].
      + right. congruence.
      + right. rewrite S2. unfold fetch. destruct (b_dead (t_b (at_ v))); auto. destruct (b_batch (t_b (at_ v))) eqn:E; congruence.
      + left. exists v. split; [lia|auto]. }
  destruct (again_from _ (S u) P) as (w0 & LW0 & EW0).
  assert (W : exists w, (u <= w)%nat /\ turn w = CStep (CWhole (KBack j APublish)) /\ batch w <> None).
  { destruct (SOME w0 LW0) as [(w & LW & EW & B)|B]; [exists w; split; [lia|auto]|exists w0; split; [lia|auto]]. }
  destruct W as (w & LW & EW & B). destruct (batch w) as [evs|] eqn:BE; [|congruence].
  destruct (loop_run n t w g ltac:(lia) H) as [(v & LV & DR)|(g1 & H1 & (l1 & U1) & T1)]; [exists v; split; [lia|auto]|].
  destruct (loop_run n w (S w) g1 ltac:(lia) H1) as [(v & LV & DR)|(g2 & H2 & (l2 & U2) & T2)]; [exists v; split; [lia|auto]|].
  exists (S w). split; [lia|].
  destruct H1 as (PH1 & AK1 & N1). pose proof H2 as (PH2 & AK2 & N2).
  assert (PUB : nth_error (b_groups (publish_all (t_b (at_ w)))) i = Some g2) by (rewrite <- (publish_happens w EW); exact N2).
  unfold publish_all in PUB. rewrite BE in PUB. cbn [b_groups] in PUB. rewrite (map_nth_error _ _ _ N1) in PUB. injection PUB as PUB.
  assert (LE : poll w <= last_rev evs (poll w)).
  { pose proof (step_poll True (t_b (at_ w)) APublish (calm_Binv _ (calm_at w))) as X. cbn [bstep] in X. unfold publish_all in X. rewrite BE in X. exact X. }
  pose proof (poll_later t1 w ltac:(lia)).
  unfold publish in PUB. destruct (g_open g1) eqn:O1.
  - destruct (_ <? _)%nat eqn:FULL.
    + left. exists g2, (length (g_updates g1)), (Update (last_rev evs (poll w)) (group_updates evs (g_watchers g1))). rewrite <- PUB. cbn [g_updates g_taken u_rev].
      split; [rewrite PUB; exact H2|]. split; [rewrite U1, app_length; lia|]. split; [rewrite nth_error_app2, Nat.sub_diag by lia; reflexivity|]. split; [lia|].
      destruct (tcalm_PI _ (at_calm w)) as [_ J]. unfold PI in J. rewrite PH1 in J. destruct J as [_ (g0 & r0 & N0 & _ & _ & _ & B4 & _)]. rewrite N1 in N0. injection N0 as <-. exact B4.
    + right. exists g2. split; [exact N2|]. rewrite <- PUB. reflexivity.
  - right. exists g2. split; [exact N2|]. rewrite <- PUB. exact O1.
Qed.
Lemma received_all d : forall n t g m, loop n t g -> (g_taken g <= m)%nat -> (m < length (g_updates g))%nat -> (S m - g_taken g <= d)%nat ->
  eventually t (fun t' => exists g', loop n t' g' /\ g_taken g' = S m /\ exists l, g_updates g' = g_updates g ++ l).
Proof.
  induction d as [|d IH]; intros n t g m H T1 U D; [lia|].
  destruct (again_from _ t HEARS) as (u & LU & js & EU).
  assert (X : forall v, (t <= v)%nat -> (exists w, (t <= w <= v)%nat /\ dropped (at_ w) i) \/
     (exists w g', (t <= w <= v)%nat /\ loop n w g' /\ g_taken g' = S (g_taken g) /\ exists l, g_updates g' = g_updates g ++ l) \/
     exists g', loop n v g' /\ g_taken g' = g_taken g /\ exists l, g_updates g' = g_updates g ++ l).
  { intros v LV. induction LV as [|v LV IHv]; [right; right; exists g; split; auto; split; auto; exists []; now rewrite app_nil_r|].
    destruct IHv as [(w & LW & DR)|[(w & g' & LW & Y)|(g' & Y1 & Y2 & (l & Y3))]].
    - left. exists w. split; [lia|auto].
    - right. left. exists w, g'. split; [lia|auto].
    - destruct (loop_step n v g' Y1) as [DR|(g2 & H2 & (l2 & U2) & [T2|(T2 & _)])]; [left; exists v; split; [lia|auto]| |].
      + right. right. exists g2. split; auto. split; [congruence|]. exists (l ++ l2). rewrite U2, Y3. now rewrite app_assoc.
      + right. left. exists (S v), g2. split; [lia|]. split; auto. split; [congruence|]. exists (l ++ l2). rewrite U2, Y3. now rewrite app_assoc. }
  assert (ONE : eventually t (fun w => exists g', loop n w g' /\ g_taken g' = S (g_taken g) /\ exists l, g_updates g' = g_updates g ++ l)).
  { destruct (X u LU) as [(w & LW & DR)|[(w & g' & LW & Y)|(g' & Y1 & Y2 & (l & Y3))]].
    - exists w. split; [lia|auto].
    - exists w. split; [lia|]. left. exists g'. exact Y.
    - exists (S u). split; [lia|]. left. destruct Y1 as (PH & AK & N). exists (take g').
      assert (LT : (g_taken g' < length (g_updates g'))%nat) by (rewrite Y2, Y3, app_length; lia).
      destruct (nth_error (g_updates g') (g_taken g')) as [x|] eqn:NU; [|apply nth_error_None in NU; lia].
      unfold loop. rewrite (recv_happens u js st i EU PH). cbn [tstep]. rewrite PH, N, NU. cbn [t_phase t_ack t_b bstep]. split; [split; [auto|split; [exact AK|exact (set_group_nth (t_b (at_ u)) i take g' N)]]|].
      unfold take. replace (g_taken g' <? length (g_updates g'))%nat with true by (symmetry; now apply Nat.ltb_lt). cbn [g_taken g_updates]. split; [congruence|eauto]. }
  destruct (Nat.eq_dec (g_taken g) m) as [EM|NE]; [rewrite <- EM; exact ONE|].
  apply (ev_bind _ _ _ ONE). intros t' L' (g' & H' & T' & (l & U')).
  destruct (IH n t' g' m H') as (t2 & L2 & K); [lia|rewrite U', app_length; lia|lia|]. exists t2. split; auto. destruct K as [(g2 & A & B & (l2 & C))|K]; auto. left. exists g2. split; auto. split; auto. exists (l ++ l2). rewrite C, U'. now rewrite app_assoc.
Qed.
(** the goroutine hears of what is committed *)
Lemma heard t0 r : caring v0 st i -> r <= revision (hist (at_ t0)) ->
  exists t1, (t0 <= t1)%nat /\ ((exists g n u, loop n t1 g /\ (n < g_taken g)%nat /\ nth_error (g_updates g) (g_taken g - 1) = Some u /\ r <= u_rev u) \/ exists t', (t' <= t1)%nat /\ dropped (at_ t') i).
Proof.
  intros (PH & AK & D) RL. assert (A0 : at_ 0 = v0) by (pose proof (at_view 0) as A; rewrite Nat.add_0_r, V0 in A; congruence).
  rewrite <- A0 in PH, AK, D. destruct (t_ack (at_ 0)) as [n|] eqn:EA; [|congruence].
  assert (G : exists g, loop n 0 g).
  { destruct (tcalm_PI _ (at_calm 0)) as [_ J]. unfold PI in J. rewrite PH in J. destruct J as [_ (g & r0 & N & _)]. exists g. repeat split; auto. }
  destruct G as [g H]. destruct (loop_run n 0 t0 g ltac:(lia) H) as [(v & LV & DR)|(g0 & H0 & _)]; [exists t0; split; [lia|]; right; exists v; split; [lia|auto]|].
  destruct (g_open g0) eqn:O; [|exists t0; split; [lia|]; right; exists t0; split; [lia|]; exists g0; split; [apply H0|exact O]].
  pose proof (alive 0 t0 ltac:(lia) D) as D0.
  assert (NL : (n <= length (g_updates g0))%nat).
  { destruct (tcalm_PI _ (at_calm t0)) as [_ J]. destruct H0 as (PH0 & AK0 & N0). unfold PI in J. rewrite PH0 in J. destruct J as [_ (g1 & r0 & N1 & _ & _ & _ & _ & _ & C)]. rewrite N0 in N1. injection N1 as <-.
    destruct (C n AK0) as (g1 & N1 & _ & _ & C3 & _). rewrite N0 in N1. injection N1 as <-. exact C3. }
  assert (EV : eventually t0 (fun t => exists g n u, loop n t g /\ (n < g_taken g)%nat /\ nth_error (g_updates g) (g_taken g - 1) = Some u /\ r <= u_rev u)).
  { apply (ev_bind _ _ _ (published n t0 g0 r H0 D0 RL O)). intros t1 L1 (g1 & m & u & H1 & ML & NU & UR & TK).
    assert (M1 : (m < length (g_updates g1))%nat) by (apply nth_error_Some; congruence).
    apply (ev_bind _ _ _ (received_all (S m - g_taken g1) n t1 g1 m H1 TK M1 ltac:(lia))). intros t2 L2 (g2 & H2 & T2 & (l & U2)).
    exists t2. split; auto. left. exists g2, n, u. split; auto. rewrite T2. split; [lia|]. split; [|exact UR]. replace (S m - 1)%nat with m by lia. rewrite U2, nth_error_app1 by exact M1. exact NU. }
  destruct EV as (t1 & L1 & [E|DR]); exists t1; (split; [exact L1|]); [left; exact E|right; eauto].
Qed.
End Hear.

(** from the write to its end *)
Lemma lease_live_all cfg okf sch j T0 v0 start i t0 tc k x : tolerant okf -> (forall t, cturn_ok okf true (cat cfg sch t) (sch t)) ->
  view (cat cfg sch T0) j = Some v0 -> caring v0 start i -> (forall t, (T0 <= t)%nat -> sch t <> CStep (CWhole (KCrash j))) ->
  polls j sch -> hears j sch ->
  (T0 <= t0)%nat -> now (commits (c_log (cat cfg sch t0))) k = Some x -> 0 < kv_lease x <= 9223372035 -> (kv_mod x <= start \/ in_range [0%N] [255%N] k) ->
  (forall t', (tc <= t')%nat -> ccalm (sch t')) -> undisturbed (k_node (c_whole (cat cfg sch tc))) ->
  time_passes cfg sch -> (forall t m, (T0 <= t)%nat -> ClusterFair.has_timer (cat cfg sch t) j m k (kv_mod x) -> tries cfg sch j m k (kv_mod x)) ->
  (forall pid, cagain sch (fun y => exists f, y = COwn pid f)) -> cbatching j sch ->
  (exists t', forall t'' y, (t' <= t'')%nat -> now (commits (c_log (cat cfg sch t''))) k = Some y -> kv_mod y <> kv_mod x) \/
  (exists t v, (T0 <= t)%nat /\ view (cat cfg sch t) j = Some v /\ dropped v i).
Proof.
  intros T OK V0 CR NC PL HR L0 X LS KR CALM U TP TR OWN BAT.
  pose proof (hist_at cfg okf sch j T0 v0 T OK NC V0 (t0 - T0)) as HA. replace (T0 + (t0 - T0))%nat with t0 in HA by lia.
  pose proof (now_facts _ _ _ X) as XB.
  destruct (heard cfg okf sch j T0 v0 T OK NC V0 PL HR start i (t0 - T0) (kv_mod x) CR) as (t1 & L1 & [(g & n & u & (PH & AK & N) & TK & NU & UR)|(t' & _ & DR)]).
  { rewrite HA. lia. }
  2:{ right. exists (T0 + t')%nat. eexists. split; [lia|]. split; [exact (at_view cfg okf sch j T0 v0 T OK NC V0 t')|exact DR]. }
  left. destruct (log_grows cfg okf true sch T OK t0 (T0 + t1) ltac:(lia)) as [l G].
  destruct (now_dec (commits (c_log (cat cfg sch (T0 + t1)))) k x) as [X1|NX].
  - apply (lease_live cfg okf sch tc (T0 + t1) j _ start i g n u k x T OK CALM U (at_view cfg okf sch j T0 v0 T OK NC V0 t1) PH N AK TK NU X1 LS UR KR); auto.
    + intros t' L'. apply NC. lia.
    + intros m. apply TR. lia.
  - exists (T0 + t1)%nat. intros t'' y L2 Y E. apply NX. destruct (log_grows cfg okf true sch T OK (T0 + t1) t'' L2) as [l2 G2].
    assert (Y0 : now (commits (c_log (cat cfg sch t0))) k = Some y).
    { apply (now_stable _ (commits l ++ commits l2)); [rewrite app_assoc, <- !commits_app, <- G, <- G2; exact Y|lia]. }
    assert (y = x) by congruence. subst y. apply (now_stable _ (commits l2)); [rewrite <- commits_app, <- G2; exact Y|].
    rewrite G, commits_app, revision_app. pose proof (revision_nonneg (commits l)). lia.
Qed.
