(** Every server of a cluster, with its expiry goroutine, is what Ttl.v describes. *)
From Coq Require Import List ZArith Bool Lia.
From Verif Require Import Bytes Spec Sql System Prog Backend Limited Api Pool Ledger Batch BatchKine Node Watch Stream Resume Whole.
From Verif Require Import SpecLemmas SqlLemmas Sim ProgLemmas Safety LedgerLemmas LedgerMore NodeProofs WatchLemmas WatchProofs WatchResults StreamProofs ResumeProofs WholeProofs WholeResults Ttl TtlProofs Cluster ClusterProofs.
From Verif Require Import Watch Stream Whole.
Import ListNotations.
Open Scope Z_scope.

Definition rt (c : bool) (t : tstate) : Prop := if c then tcalm t else treach t.
Lemma rt_step c t a : rt c t -> tpossible t a -> (c = true -> tcalm_step t a) -> rt c (tstep t a).
Proof. destruct c; cbn; intros H P C; [apply tcalm_next; auto|apply treach_step; auto]. Qed.
Lemma rt_start c w n stamps : wreach w -> length stamps = length (history_of (snd w)) -> Forall (fun x => x <= n) stamps -> rt c (TState (bstart w) n stamps TPRev [] None).
Proof. intros H L F. destruct c; cbn; [apply tcalm_start|apply treach_start]; auto; [apply (rb_start true)|apply (rb_start false)]; exact H. Qed.

Lemma stamp_same n st (w : world) : length st = length (history_of (snd w)) -> stamp n st w = st.
Proof. intros L. unfold stamp. rewrite L, Nat.sub_diag. apply app_nil_r. Qed.
Lemma stamp_twice n st (w w' : world) : (length st <= length (history_of (snd w)) <= length (history_of (snd w')))%nat -> stamp n (stamp n st w) w' = stamp n st w'.
Proof.
  intros L. unfold stamp. rewrite <- app_assoc. f_equal. rewrite app_length, repeat_length, <- repeat_app. f_equal. lia.
Qed.
Lemma hist_longer w w' : wsteps w w' -> (length (history_of (snd w)) <= length (history_of (snd w')))%nat.
Proof. intros H. destruct (wsteps_extends _ _ H) as [(l & ->) _]. rewrite app_length. lia. Qed.
Lemma rt_world c w w' b n st p tms k : wsteps w w' -> length st = length (history_of (snd w)) ->
  rt c (TState (seen w b) n st p tms k) -> rt c (TState (seen w' b) n (stamp n st w') p tms k).
Proof.
  intros S. induction S as [w|w w' a S IH AL]; intros L H.
  - rewrite stamp_same; auto.
  - specialize (IH L H).
    replace (TState (seen (wapply w' a) b) n (stamp n st (wapply w' a)) p tms k) with (tstep (TState (seen w' b) n (stamp n st w') p tms k) (TBack (AEnv a))).
    + apply rt_step; auto. intros; exact Logic.I.
    + cbn [tstep t_phase]. replace (outside p (AEnv a)) with true by (unfold outside; destruct (own_group p); reflexivity).
      unfold with_tb. cbn [t_b t_now t_stamps t_phase t_timers t_ack bstep b_world seen]. f_equal. apply stamp_twice. rewrite L.
      split; [apply hist_longer; exact S|]. apply (hist_longer w' (wapply w' a)). apply wsteps_one; [apply wsteps_refl|exact AL].
Qed.
Lemma internal_world b act : internal act = true -> b_world (bstep b act) = b_world b.
Proof. intros H. apply bstep_world_other. intros op ->. discriminate. Qed.
Lemma rt_bstep c b n st p tms k act : rt c (TState b n st p tms k) -> length st = length (history_of (snd (b_world b))) -> internal act = true -> possible b act ->
  (c = true -> calm b act) -> outside p act = true -> rt c (TState (bstep b act) n st p tms k).
Proof.
  intros H L IN P C OU. replace (TState (bstep b act) n st p tms k) with (tstep (TState b n st p tms k) (TBack act)).
  - apply rt_step; auto.
  - cbn [tstep t_phase]. rewrite OU. unfold with_tb. cbn [t_b t_now t_stamps t_phase t_timers t_ack]. f_equal. apply stamp_same. now rewrite internal_world.
Qed.
Lemma outside_foreign p act : (forall i, own_group p = Some i -> foreign i act = true) -> outside p act = true.
Proof. intros H. unfold outside. destruct (own_group p) as [i|]; [|reflexivity]. exact (H i eq_refl). Qed.

(** ---- one server in a step of Whole.v ---- *)
Definition indexes (v : kserver) : list nat := map (fun p : nat * sstate => s_i (snd p)) (k_streams v).
Section Step.
Context (cfg : driver_cfg) (okf : fault -> Prop) (st : bool).
Hypothesis T : tolerant okf.

Lemma put_map {A B} (f : A -> B) : forall l i x y, nth_error l i = Some y -> f x = f y -> map f (put i x l) = map f l.
Proof. exact (map_put f). Qed.
Lemma kstep_server k x k' j v' : kreach cfg okf st k -> kaction_ok okf st k x -> kstep cfg k x = Some k' -> nth_error (k_servers k') j = Some v' ->
  let w := n_world (k_node k) in
  ((x = KBoot /\ j = length (k_servers k) \/ x = KCrash j) /\ v' = KServer (bstart w) []) \/
  (exists v, nth_error (k_servers k) j = Some v /\ x <> KCrash j /\
    ((seen w (k_back v') = seen w (k_back v) /\ indexes v' = indexes v) \/
     (exists act, internal act = true /\ possible (seen w (k_back v)) act /\ (st = true -> calm (seen w (k_back v)) act) /\
        k_back v' = bstep (seen w (k_back v)) act /\
        (x = KBack j act /\ indexes v' = indexes v \/
         act = ANewGroup /\ x = KOpen j /\ indexes v' = indexes v ++ [length (b_groups (k_back v))] \/
         (exists a i, x = KStream j i a) /\ indexes v' = indexes v /\ exists i0, In i0 (indexes v) /\ forall i, i <> i0 -> foreign i act = true)))).
Proof.
  intros H OK ST N w. pose proof (kreach_KI cfg okf st T k H) as J. destruct (node_facts _ _ _ T (K_node _ _ _ _ J)) as (WR & MG & _).
  destruct k as [nd sv log n]. cbn [k_node k_servers] in *. fold w in WR, MG.
  assert (OTHER : nth_error sv j = Some v' -> x <> KCrash j -> exists v, nth_error sv j = Some v /\ x <> KCrash j /\
    ((seen w (k_back v') = seen w (k_back v) /\ indexes v' = indexes v) \/ False)) by (intros N' X; exists v'; auto).
  assert (PUT : forall j0 u, nth_error (put j0 u sv) j = Some v' -> (j0 = j /\ u = v' /\ exists v, nth_error sv j = Some v) \/ (j0 <> j /\ nth_error sv j = Some v')).
  { intros j0 u NP. rewrite put_nth in NP. destruct (Nat.eqb_spec j0 j) as [->|D]; [|auto]. left. destruct (nth_error sv j); [|discriminate]. cbn in NP. injection NP as ->. eauto. }
  destruct x as [y| |c|c a|c|c i a]; cbn [kstep] in ST.
  - right. assert (k_servers k' = sv) as E by (destruct y; try discriminate; destruct (nstep cfg nd _); try discriminate; injection ST as <-; reflexivity).
    rewrite E in N. exists v'. split; auto. split; [discriminate|]. auto.
  - destruct (nstep cfg nd NBoot); [|discriminate]. injection ST as <-. cbn [k_servers] in N. destruct (Nat.lt_ge_cases j (length sv)) as [L|L].
    + right. rewrite nth_error_app1 in N by exact L. exists v'. split; auto. split; [discriminate|]. auto.
    + left. rewrite nth_error_app2 in N by exact L. destruct (j - length sv)%nat as [|m] eqn:E; [|destruct m; discriminate]. injection N as <-.
      split; [left; split; [reflexivity|lia]|]. reflexivity.
  - destruct (nstep cfg nd (NCrash c)); [|discriminate]. injection ST as <-. cbn [k_servers] in N. destruct (PUT _ _ N) as [(-> & <- & _)|(D & N')].
    + left. auto.
    + right. exists v'. split; auto. split; [congruence|]. auto.
  - destruct (nth_error sv c) as [v|] eqn:NV; [|discriminate]. destruct (internal a) eqn:IN; [|discriminate]. destruct (forallb _ _) eqn:FO; [|discriminate].
    cbn [andb] in ST. injection ST as <-. cbn [k_servers] in N. right. destruct (PUT _ _ N) as [(-> & <- & _)|(D & N')].
    + exists v. split; auto. split; [discriminate|]. right. exists a. destruct OK as [O1 O2]. split; auto.
      assert (P : possible (seen w (k_back v)) a) by (destruct a; try exact Logic.I; auto; discriminate). split; auto.
      split; [intros E; apply steady_is_calm; auto; apply (rb_breach st); exact (proj1 (K_serv _ _ _ _ J _ _ NV))|].
      split; [reflexivity|]. left. auto.
    + exists v'. split; auto. split; [discriminate|]. auto.
  - destruct (nth_error sv c) as [v|] eqn:NV; [|discriminate]. injection ST as <-. cbn [k_servers] in N. right. destruct (PUT _ _ N) as [(-> & <- & _)|(D & N')].
    + exists v. split; auto. split; [discriminate|]. right. exists ANewGroup. split; [reflexivity|]. split; [exact Logic.I|]. split; [intros; exact Logic.I|]. split; [reflexivity|].
      right. left. split; auto. split; auto. unfold indexes. cbn [k_streams]. rewrite map_app. reflexivity.
    + exists v'. split; auto. split; [discriminate|]. auto.
  - assert (X : (forall x, a <> SBack x) /\ match nth_error sv c with Some v => match nth_error (k_streams v) i with Some (conn, st0) =>
       let st := synced (n_world nd) v st0 in let st' := sstep st a in
       Some (KState nd (put c (KServer (s_b st') (put i (conn, st') (k_streams v))) sv) (log ++ told_by conn a st st') n) | None => None end | None => None end = Some k').
    { destruct a; try discriminate; (split; [discriminate|exact ST]). }
    destruct X as [NB X]. destruct (nth_error sv c) as [v|] eqn:NV; [|discriminate]. destruct (nth_error (k_streams v) i) as [[conn st0]|] eqn:NS; [|discriminate].
    cbv zeta in X. injection X as <-. cbn [k_servers] in N. right. destruct (PUT _ _ N) as [(-> & <- & _)|(D & N')].
    + fold w. set (s0 := synced w v st0). destruct (sstep_own s0 a NB) as [EI EB].
      assert (IX : indexes (KServer (s_b (sstep s0 a)) (put i (conn, sstep s0 a) (k_streams v))) = indexes v).
      { unfold indexes. cbn [k_streams]. eapply put_map; eauto. }
      exists v. split; auto. split; [discriminate|]. cbn [k_back]. destruct EB as [EB|(act & EB & P & IN & FO & CA)].
      * left. rewrite EB. split; [reflexivity|exact IX].
      * right. exists act. split; auto. split; [exact P|]. split.
        { intros E. apply (CA calm); [exact calm_default|]. apply steady_back_calm; auto.
          - apply (rb_breach st). exact (proj1 (K_serv _ _ _ _ J _ _ NV)).
          - eapply OK; eauto. }
        split; [exact EB|]. right. right. split; [eauto|]. split; auto. exists (s_i st0). split; [apply in_map_iff; exists (conn, st0); split; auto; eapply nth_error_In; eauto|].
        exact FO.
    + exists v'. split; auto. split; [discriminate|]. auto.
Qed.

Lemma put_len {A} (x : A) : forall l n, length (put n x l) = length l.
Proof. induction l as [|y l IH]; intros [|n]; cbn; auto. Qed.
Lemma put_id {A} : forall (l : list A) n x, nth_error l n = Some x -> put n x l = l.
Proof. induction l as [|y l IH]; intros [|n] x H; cbn in *; try discriminate; [now injection H as ->|f_equal; auto]. Qed.
Lemma kstep_world k x k' : kstep cfg k x = Some k' -> (forall y, x <> KNode y) -> n_world (k_node k') = n_world (k_node k).
Proof.
  intros ST NN. destruct (kstep_node _ _ _ _ ST) as [->|[(y & -> & _)|[(-> & E)|(j & -> & E)]]]; auto.
  - destruct (NN y eq_refl).
  - destruct (k_node k). cbn in E. now injection E as <-.
  - destruct (k_node k). cbn in E. now injection E as <-.
Qed.
Lemma groups_grow b act : (length (b_groups b) <= length (b_groups (bstep b act)))%nat.
Proof.
  destruct act; cbn [bstep set_group b_groups]; rewrite ?update_nth_length; auto.
  - unfold fetch. destruct (b_dead b); auto. destruct (b_batch b); auto. destruct (snd _) as [?|[]]; auto.
  - unfold publish_all. destruct (b_batch b); auto. cbn [b_groups]. now rewrite map_length.
  - unfold new_group. cbn [b_groups]. rewrite app_length. lia.
Qed.
Lemma own_loop_foreign p i0 act : (forall i, own_group p = Some i -> i <> i0) -> (forall i, i <> i0 -> foreign i act = true) -> outside p act = true.
Proof. intros H F. apply outside_foreign. intros i E. apply F, H, E. Qed.

Record CV (s : cstate) : Prop := {
  V_len : length (c_expiry s) = length (k_servers (c_whole s));
  V_view : forall j t, view s j = Some t -> rt st t;
  V_own : forall j v e i, nth_error (k_servers (c_whole s)) j = Some v -> nth_error (c_expiry s) j = Some e -> own_group (x_phase e) = Some i ->
    (i < length (b_groups (k_back v)))%nat /\ ~ In i (indexes v);
  V_ix : forall j v i, nth_error (k_servers (c_whole s)) j = Some v -> In i (indexes v) -> (i < length (b_groups (k_back v)))%nat }.

Lemma CV_server s x k' j v' e : CI cfg okf st s -> CV s -> kaction_ok okf st (c_whole s) x -> kstep cfg (c_whole s) x = Some k' ->
  nth_error (k_servers k') j = Some v' -> nth_error (c_expiry s) j = Some e -> (j < length (k_servers (c_whole s)))%nat -> x <> KCrash j ->
  (forall act, x = KBack j act -> outside (x_phase e) act = true) ->
  let w' := n_world (k_node k') in
  rt st (TState (seen w' (k_back v')) (c_clock s) (stamp (c_clock s) (c_stamps s) w') (x_phase e) (x_timers e) (x_ack e)) /\
  (forall i, own_group (x_phase e) = Some i -> (i < length (b_groups (k_back v')))%nat /\ ~ In i (indexes v')).
Proof.
  intros J V OK ST N NE L NC OU w'. pose proof (kstep_server _ _ _ _ _ (I_reach _ _ _ _ J) OK ST N) as K. cbv zeta in K.
  set (w := n_world (k_node (c_whole s))) in *.
  destruct K as [[[[-> ->]|E] _]|(v & NV & _ & K)]; [lia|contradiction|].
  assert (VW : rt st (TState (seen w (k_back v)) (c_clock s) (c_stamps s) (x_phase e) (x_timers e) (x_ack e))).
  { apply (V_view _ V j). unfold view. now rewrite NV, NE. }
  pose proof (I_len _ _ _ _ J) as LN. pose proof (V_own _ V j v e) as VO. specialize (fun i => VO i NV NE).
  destruct K as [[SB IX]|(act & IN & P & CA & EB & K)].
  - split.
    + replace (seen w' (k_back v')) with (seen w' (k_back v)) by (unfold seen in SB |- *; congruence).
      apply (rt_world st w w'); auto. exact (proj1 (whole_step cfg okf st T _ _ _ (I_reach _ _ _ _ J) OK ST)).
    + intros i E. rewrite IX. replace (b_groups (k_back v')) with (b_groups (k_back v)) by (unfold seen in SB; congruence). exact (VO i E).
  - assert (EW : w' = w).
    { apply (kstep_world _ x); auto. intros y ->. destruct K as [[E _]|[(_ & E & _)|[(a & i & E) _]]]; discriminate E. }
    rewrite EW. rewrite stamp_same by exact LN. rewrite EB.
    replace (seen w (bstep (seen w (k_back v)) act)) with (bstep (seen w (k_back v)) act).
    2:{ unfold seen at 2. change (seen w (k_back v)) with (BState w (b_poll (k_back v)) (b_batch (k_back v)) (b_dead (k_back v)) (b_groups (k_back v))).
        pose proof (internal_world (seen w (k_back v)) act IN) as E. change (b_world (seen w (k_back v))) with w in E. unfold seen in E.
        destruct (bstep (BState w _ _ _ _) act) as [w0 p0 b0 d0 g0] eqn:EE. cbn [b_world b_poll b_batch b_dead b_groups] in *. now subst w0. }
    assert (OO : outside (x_phase e) act = true).
    { destruct K as [[E _]|[(-> & _)|(_ & _ & i0 & I0 & F)]].
      - apply OU. exact E.
      - unfold outside. destruct (own_group _); reflexivity.
      - apply (own_loop_foreign _ i0); auto. intros i E ->. exact (proj2 (VO i0 E) I0). }
    split; [apply rt_bstep; auto|].
    intros i E. destruct (VO i E) as [V1 V2]. split; [pose proof (groups_grow (seen w (k_back v)) act); cbn [seen b_groups] in *; lia|].
    destruct K as [[_ ->]|[(_ & _ & ->)|(_ & -> & _)]]; auto. intros I1. apply in_app_iff in I1 as [I1|[I1|[]]]; [auto|lia].
Qed.
Lemma CV_indexes s x k' : CI cfg okf st s -> CV s -> kaction_ok okf st (c_whole s) x -> kstep cfg (c_whole s) x = Some k' ->
  forall j v i, nth_error (k_servers k') j = Some v -> In i (indexes v) -> (i < length (b_groups (k_back v)))%nat.
Proof.
  intros J V OK ST j v' i N I. destruct (kstep_server _ _ _ _ _ (I_reach _ _ _ _ J) OK ST N) as [[_ ->]|(v & NV & _ & K)]; [destruct I|].
  pose proof (V_ix _ V j v i NV) as VI. destruct K as [[SB IX]|(act & IN & P & CA & EB & K)].
  - rewrite IX in I. replace (b_groups (k_back v')) with (b_groups (k_back v)) by (unfold seen in SB; congruence). auto.
  - rewrite EB. pose proof (groups_grow (seen (n_world (k_node (c_whole s))) (k_back v)) act) as G. cbn [seen b_groups] in G.
    destruct K as [[_ E]|[(-> & _ & E)|(_ & E & _)]]; rewrite E in I; try (specialize (VI I); lia).
    apply in_app_iff in I as [I|[<-|[]]]; [specialize (VI I); lia|]. cbn [bstep new_group b_groups seen]. rewrite app_length. cbn. lia.
Qed.
Lemma kstep_length k x k' : kstep cfg k x = Some k' -> length (k_servers k') = (match x with KBoot => 1 | _ => 0 end + length (k_servers k))%nat.
Proof.
  destruct k as [nd sv log n]. destruct x as [y| |j|j a|j|j i a]; cbn [kstep k_servers]; intros H.
  - destruct y; try discriminate; destruct (nstep cfg nd _); try discriminate; injection H as <-; reflexivity.
  - destruct (nstep cfg nd _); try discriminate; injection H as <-. cbn [k_servers]. rewrite app_length. cbn. lia.
  - destruct (nstep cfg nd _); try discriminate; injection H as <-. apply put_len.
  - destruct (nth_error sv j); [|discriminate]. destruct (_ && _); [|discriminate]. injection H as <-. apply put_len.
  - destruct (nth_error sv j); [|discriminate]. injection H as <-. apply put_len.
  - destruct a; try discriminate; (destruct (nth_error sv j) as [v|]; [|discriminate]; destruct (nth_error (k_streams v) i) as [[? ?]|]; [|discriminate]; injection H as <-; apply put_len).
Qed.
Lemma CV_move s x k' : CI cfg okf st s -> CV s -> kaction_ok okf st (c_whole s) x -> kstep cfg (c_whole s) x = Some k' -> 
  (forall j act e, x = KBack j act -> nth_error (c_expiry s) j = Some e -> outside (x_phase e) act = true) ->
  CV (with_whole s k' (restarted x (c_expiry s))).
Proof.
  intros J V OK ST OU. pose proof (V_len _ V) as VL. pose proof (kstep_length _ _ _ ST) as KL.
  assert (A : forall j v' e', nth_error (k_servers k') j = Some v' -> nth_error (restarted x (c_expiry s)) j = Some e' ->
    let w' := n_world (k_node k') in
    rt st (TState (seen w' (k_back v')) (c_clock s) (stamp (c_clock s) (c_stamps s) w') (x_phase e') (x_timers e') (x_ack e')) /\
    (forall i, own_group (x_phase e') = Some i -> (i < length (b_groups (k_back v')))%nat /\ ~ In i (indexes v'))).
  { intros j v' e' N NE w'.
    assert (FR : e' = expiry_init -> v' = KServer (bstart (n_world (k_node (c_whole s)))) [] -> (forall y, x <> KNode y) ->
      rt st (TState (seen w' (k_back v')) (c_clock s) (stamp (c_clock s) (c_stamps s) w') (x_phase e') (x_timers e') (x_ack e')) /\
      (forall i, own_group (x_phase e') = Some i -> (i < length (b_groups (k_back v')))%nat /\ ~ In i (indexes v'))).
    { intros -> -> NN. split; [|discriminate]. unfold w'. rewrite (kstep_world _ _ _ ST NN). rewrite stamp_same by exact (I_len _ _ _ _ J).
      cbn [k_back expiry_init x_phase x_timers x_ack]. change (seen ?w (bstart ?w)) with (bstart w). apply rt_start.
      - exact (proj1 (node_facts _ _ _ T (K_node _ _ _ _ (kreach_KI cfg okf st T _ (I_reach _ _ _ _ J))))).
      - exact (I_len _ _ _ _ J).
      - exact (I_stamps _ _ _ _ J). }
    pose proof (kstep_server _ _ _ _ _ (I_reach _ _ _ _ J) OK ST N) as K. cbv zeta in K.
    destruct K as [[[[-> ->]| ->] EV]|(v & NV & NC & _)].
    - apply FR; auto; try discriminate. cbn [restarted] in NE. rewrite nth_error_app2 in NE by lia. rewrite VL, Nat.sub_diag in NE. now injection NE as <-.
    - apply FR; auto; try discriminate. cbn [restarted] in NE. destruct (nth_put _ _ _ _ _ NE) as [[_ ->]|NE']; auto.
      rewrite put_nth, Nat.eqb_refl, NE' in NE. now injection NE as <-.
    - assert (L : (j < length (k_servers (c_whole s)))%nat) by (apply nth_error_Some; congruence).
      assert (NE' : nth_error (c_expiry s) j = Some e').
      { destruct x; cbn [restarted] in NE; auto.
        - rewrite nth_error_app1 in NE by lia. exact NE.
        - rewrite put_nth in NE. destruct (Nat.eqb_spec j0 j) as [->|]; [destruct NC; reflexivity|exact NE]. }
      eapply CV_server; eauto. }
  constructor; cbn [with_whole c_whole c_expiry].
  - rewrite KL. destruct x; cbn [restarted]; rewrite ?app_length, ?put_len; cbn; lia.
  - intros j t VT. unfold view in VT. cbn [with_whole c_whole c_expiry c_clock c_stamps c_world] in VT.
    destruct (nth_error (k_servers k') j) as [v'|] eqn:N; [|discriminate]. destruct (nth_error _ j) as [e'|] eqn:NE in VT; [|discriminate]. injection VT as <-. 
    exact (proj1 (A j v' e' N NE)).
  - intros j v e i N NE. exact (proj2 (A j v e N NE) i).
  - exact (CV_indexes _ _ _ J V OK ST).
Qed.

Definition own_action (a : taction) : Prop := match a with TBack _ | TTime _ | TAttempt _ _ => False | _ => True end.
Lemma take_nothing b i : match nth_error (b_groups b) i with Some g => nth_error (g_updates g) (g_taken g) = None | None => True end -> bstep b (ATake i) = b.
Proof.
  intros H. cbn [bstep]. unfold set_group. destruct b as [w p bt d gs]. cbn [b_groups b_world b_poll b_batch b_dead] in *. f_equal. revert i H.
  induction gs as [|g gs IH]; intros [|i] H; cbn in *; auto; f_equal; auto.
  unfold take. apply nth_error_None in H. destruct (Nat.ltb_spec (g_taken g) (length (g_updates g))); [lia|reflexivity].
Qed.
Lemma own_back t a : own_action a -> t_b (tstep t a) = match backend_part (t_phase t) a with Some act => bstep (t_b t) act | None => t_b t end.
Proof.
  assert (W : forall stt i act, t_b (t_watch_step t stt i act) = bstep (t_b t) act).
  { intros stt i act. unfold t_watch_step. destruct (watch_returned _ _) as [[[] ?]|]; reflexivity. }
  intros O. destruct a; try contradiction; cbn [tstep]; destruct (t_phase t) eqn:EP; cbn [backend_part]; auto.
  - destruct (rev_result _ _); auto.
  - destruct (snd (sem _ _ _)); auto.
  - pose proof (take_nothing (t_b t) i) as TN. destruct (nth_error (b_groups (t_b t)) i) as [g|]; [|symmetry; apply TN; exact Logic.I].
    destruct (nth_error (g_updates g) (g_taken g)); [reflexivity|]. rewrite TN by reflexivity. destruct (g_open g); reflexivity.
Qed.
Lemma own_phase t a i : own_action a -> own_group (t_phase (tstep t a)) = Some i ->
  own_group (t_phase t) = Some i \/ (a = TGroup /\ backend_part (t_phase t) a = Some ANewGroup /\ i = length (b_groups (t_b t))).
Proof.
  assert (W : forall stt n act, own_group (t_phase (t_watch_step t stt n act)) = Some n).
  { intros stt n act. unfold t_watch_step. destruct (watch_returned _ _) as [[[] ?]|]; reflexivity. }
  intros O. destruct a; try contradiction; cbn [tstep]; destruct (t_phase t) eqn:EP; cbn [backend_part]; rewrite ?EP; auto; rewrite ?W; auto.
  - destruct (rev_result _ _); discriminate.
  - destruct (snd (sem _ _ _)); discriminate.
  - cbn. intros [= <-]. auto.
  - destruct (nth_error (b_groups (t_b t)) i0) as [g|]; [|rewrite EP; auto]. destruct (nth_error (g_updates g) (g_taken g)); [cbn; rewrite ?EP; auto|].
    destruct (g_open g); [rewrite EP; auto|]. discriminate.
Qed.
Lemma part_internal p a act : backend_part p a = Some act -> internal act = true /\ forall b, possible b act.
Proof. destruct a, p; cbn; intros [= <-]; cbn; (split; [reflexivity|]); intros b; auto. discriminate. Qed.
Lemma part_own p a act i : backend_part p a = Some act -> (forall j, own_group p = Some j -> j <> i) -> foreign i act = true.
Proof. destruct a, p; cbn; intros [= <-] H; cbn; auto; apply negb_true_iff, Nat.eqb_neq; apply H; reflexivity. Qed.

Lemma CV_own_step s j a s' : CI cfg okf st s -> CV s -> caction_ok okf st s (CExpiry j a) -> cstep cfg s (CExpiry j a) = Some s' ->
  CV s' /\ exists t, view s j = Some t /\ view s' j = Some (tstep t a).
Proof.
  intros J V OK ST. assert (O : own_action a) by (destruct a; try discriminate; exact Logic.I).
  assert (ST' : match view s j, (match whole_part s (CExpiry j a) with Some x => kstep cfg (c_whole s) x | None => Some (c_whole s) end) with
      | Some t, Some k => let t' := tstep t a in Some (with_whole s k (put j (Expiry (t_phase t') (t_timers t') (t_ack t')) (c_expiry s)))
      | _, _ => None end = Some s') by (destruct a; try contradiction; exact ST).
  clear ST. destruct (view s j) as [t|] eqn:VT; [|discriminate]. destruct (view_TI cfg okf st T _ _ _ J VT) as (TT & e & NE & _ & EP).
  destruct (own_world t a O) as (E1 & E2 & E3). specialize (E3 TT). pose proof (own_back t a O) as EB.
  unfold view in VT. destruct (nth_error (k_servers _) j) as [v|] eqn:NV; [|discriminate]. rewrite NE in VT. injection VT as VT.
  assert (EPX : x_phase e = t_phase t) by auto.
  assert (TP : tpossible t a) by (destruct a; try contradiction; exact Logic.I).
  assert (RT : rt st t). { apply (V_view _ V j). unfold view. now rewrite NV, NE, VT. }
  assert (M : forall i, own_group (t_phase t) = Some i -> (i < length (b_groups (k_back v)))%nat /\ ~ In i (indexes v)).
  { intros i E. eapply V_own; eauto. now rewrite EPX. }
  assert (IX : forall i, In i (indexes v) -> (i < length (b_groups (k_back v)))%nat) by (intros i; eapply V_ix; eauto).
  assert (WP : whole_part s (CExpiry j a) = option_map (KBack j) (backend_part (t_phase t) a)) by (cbn [whole_part]; now rewrite NE, EPX).
  assert (CALM : st = true -> tcalm_step t a).
  { intros S. unfold caction_ok in OK. rewrite WP in OK. destruct a; try contradiction; try exact Logic.I; [exact (OK S)|].
    cbn [tcalm_step]. destruct (t_phase t) as [| | | |stt i| |] eqn:EE; try exact Logic.I. cbn in OK. destruct OK as [_ OK]. specialize (OK S v NV).
    subst t. cbn [t_b]. apply (steady_is_calm (seen (c_world s) (k_back v)) (AQuery i 1 f)); [exact (T_breach _ TT)| |exact OK].
    exact (proj1 (proj2 (node_facts _ _ _ T (K_node _ _ _ _ (kreach_KI cfg okf st T _ (I_reach _ _ _ _ J)))))). }
  assert (RT' : rt st (tstep t a)) by (apply rt_step; auto).
  assert (GEN : forall k' v', k_node k' = k_node (c_whole s) -> k_servers k' = put j v' (k_servers (c_whole s)) -> seen (c_world s) (k_back v') = t_b (tstep t a) -> indexes v' = indexes v ->
    CV (with_whole s k' (put j (Expiry (t_phase (tstep t a)) (t_timers (tstep t a)) (t_ack (tstep t a))) (c_expiry s))) /\
    view (with_whole s k' (put j (Expiry (t_phase (tstep t a)) (t_timers (tstep t a)) (t_ack (tstep t a))) (c_expiry s))) j = Some (tstep t a)).
  { intros k' v' EN ES SB EI. pose proof (stamp_same (c_clock s) (c_stamps s) (c_world s) (I_len _ _ _ _ J)) as SS.
    assert (VJ : view (with_whole s k' (put j (Expiry (t_phase (tstep t a)) (t_timers (tstep t a)) (t_ack (tstep t a))) (c_expiry s))) j = Some (tstep t a)).
    { unfold view, c_world. cbn [with_whole c_whole c_expiry c_clock c_stamps]. rewrite ES, EN, !put_nth, Nat.eqb_refl, NV, NE. cbn [option_map x_phase x_timers x_ack].
      fold (c_world s). rewrite SS, SB. replace (c_clock s) with (t_now (tstep t a)) by (rewrite E2, <- VT; reflexivity).
      replace (c_stamps s) with (t_stamps (tstep t a)) by (rewrite E3, <- VT; reflexivity). now destruct (tstep t a). }
    split; [|exact VJ].
    assert (GG : b_groups (k_back v') = b_groups (t_b (tstep t a))) by (rewrite <- SB; reflexivity).
    assert (GL : (length (b_groups (k_back v)) <= length (b_groups (k_back v')))%nat).
    { rewrite GG, EB. destruct (backend_part _ _) as [act|]; [|rewrite <- VT; reflexivity]. rewrite <- VT. cbn [t_b].
      exact (groups_grow (seen (c_world s) (k_back v)) act). }
    constructor.
    - cbn [with_whole c_whole c_expiry]. rewrite ES, !put_len. exact (V_len _ V).
    - intros i t' VI. destruct (Nat.eq_dec i j) as [->|D]; [rewrite VJ in VI; injection VI as <-; exact RT'|].
      apply (V_view _ V i). unfold view, c_world in VI |- *. cbn [with_whole c_whole c_expiry c_clock c_stamps] in VI.
      rewrite ES, EN, !put_nth in VI. destruct (Nat.eqb_spec j i); [congruence|]. fold (c_world s) in VI |- *. rewrite SS in VI. exact VI.
    - intros i v0 e0 n N0 N1 ON. cbn [with_whole c_whole c_expiry] in N0, N1. rewrite ES in N0. rewrite put_nth in N0. rewrite put_nth in N1. destruct (Nat.eqb_spec j i) as [->|D].
      + rewrite NV in N0. rewrite NE in N1. injection N0 as <-. injection N1 as <-. cbn [x_phase] in ON. rewrite EI.
        destruct (own_phase t a n O ON) as [ON'|(-> & BP & ->)]; [destruct (M n ON'); split; [lia|auto]|].
        replace (b_groups (t_b t)) with (b_groups (k_back v)) by (rewrite <- VT; reflexivity). split; [|intros I1; specialize (IX _ I1); lia].
        rewrite GG, EB, BP. cbn [bstep new_group b_groups]. rewrite app_length. rewrite <- VT. cbn. lia.
      + eapply V_own; eauto.
    - intros i v0 n N0 I0. cbn [with_whole c_whole c_expiry] in N0. rewrite ES, put_nth in N0. destruct (Nat.eqb_spec j i) as [->|D].
      + rewrite NV in N0. injection N0 as <-. rewrite EI in I0. specialize (IX _ I0). lia.
      + eapply V_ix; eauto. }
  destruct (whole_part s (CExpiry j a)) as [x|] eqn:EW.
  - destruct (backend_part (t_phase t) a) as [act|] eqn:BP; [|discriminate]. injection WP as ->.
    destruct (kstep cfg (c_whole s) (KBack j act)) as [k'|] eqn:E; [|discriminate]. cbv zeta in ST'. injection ST' as <-.
    enough (X : exists v', k_node k' = k_node (c_whole s) /\ k_servers k' = put j v' (k_servers (c_whole s)) /\ seen (c_world s) (k_back v') = t_b (tstep t a) /\ indexes v' = indexes v).
    { destruct X as (v' & X1 & X2 & X3 & X4). destruct (GEN k' v' X1 X2 X3 X4) as [G1 G2]. split; [exact G1|]. exists t. split; [auto|exact G2]. }
    unfold c_world in VT |- *. destruct (c_whole s) as [nd sv log n]. cbn [k_node k_servers] in *. cbn [kstep] in E. rewrite NV in E. destruct (_ && _); [|discriminate]. injection E as <-.
    exists (KServer (bstep (seen (n_world nd) (k_back v)) act) (k_streams v)). split; [reflexivity|]. split; [reflexivity|]. split; [|reflexivity].
    cbn [k_back]. rewrite EB, <- VT. cbn [t_b]. destruct (part_internal _ _ _ BP) as [IN _]. pose proof (internal_world (seen (n_world nd) (k_back v)) act IN) as EWW. 
    change (b_world (seen (n_world nd) (k_back v))) with (n_world nd) in EWW. destruct (bstep (seen (n_world nd) (k_back v)) act) as [w0 p0 b0 d0 g0]. cbn [b_world] in EWW. now subst w0.
  - destruct (backend_part (t_phase t) a) as [act|] eqn:BP; [discriminate|]. cbv zeta in ST'. injection ST' as <-.
    destruct (GEN (c_whole s) v eq_refl) as [G1 G2]; [symmetry; apply put_id; exact NV|rewrite EB, <- VT; reflexivity|reflexivity|].
    split; [exact G1|]. exists t. split; [auto|exact G2].
Qed.
Lemma creach_CV s : creach cfg okf st s -> CV s.
Proof.
  induction 1 as [|s a s' H IH OK ST].
  - constructor; cbn; auto.
    + intros j t. unfold view. cbn. destruct j; discriminate.
    + intros [|j] v; discriminate.
    + intros [|j] v; discriminate.
  - pose proof (creach_CI cfg okf st T _ H) as J. destruct a as [x|d|j a|j n].
    + cbn [cstep whole_part caction_ok] in *. destruct (not_expiry s x) eqn:NE; [|discriminate]. destruct (kstep cfg (c_whole s) x) as [k'|] eqn:E; [|discriminate]. injection ST as <-.
      apply CV_move; auto. intros j act e -> N. cbn in NE. now rewrite N in NE.
    + injection ST as <-. destruct IH as [V1 V2 V3 V4]. constructor; auto. intros j t VT. unfold view in VT. cbn [c_whole c_expiry c_clock c_stamps c_world] in VT.
      pose proof (V2 j) as VJ. unfold view in VJ. cbn in VJ. 
      destruct (nth_error (k_servers (c_whole s)) j) as [v|]; [|discriminate]. destruct (nth_error (c_expiry s) j) as [e|]; [|discriminate]. injection VT as <-.
      specialize (VJ _ eq_refl). change (rt st (tstep (TState (seen (c_world s) (k_back v)) (c_clock s) (c_stamps s) (x_phase e) (x_timers e) (x_ack e)) (TTime d))).
      apply rt_step; auto; intros; exact Logic.I.
    + exact (proj1 (CV_own_step _ _ _ _ J IH OK ST)).
    + cbn [cstep] in ST. destruct (view s j) as [t|] eqn:VT; [|discriminate]. destruct (nth_error (t_timers t) n) as [tm|] eqn:N; [|discriminate].
      destruct (Z.leb_spec (tm_due tm) (c_clock s)); [|discriminate]. destruct (view_TI cfg okf st T _ _ _ J VT) as (TT & e & NE & ET & _). cbn [whole_part] in ST.
      rewrite NE, <- ET, N in ST. destruct (kstep cfg (c_whole s) _) as [k'|] eqn:E; [|discriminate]. injection ST as <-.
      change (c_expiry s) with (restarted (KNode (NAsk j (WExpire (tm_key tm) (tm_rev tm)))) (c_expiry s)). apply CV_move; auto; [|discriminate].
      cbn. eapply timer_key; eauto. eapply nth_error_In; eauto.
Qed.

(** ---- the goroutine is never kept from its next step ---- *)
Lemma expiry_possible s j a : creach cfg okf st s -> own_action a -> (j < length (k_servers (c_whole s)))%nat -> exists s', cstep cfg s (CExpiry j a) = Some s'.
Proof.
  intros H O L. pose proof (creach_CI cfg okf st T _ H) as J. pose proof (creach_CV _ H) as V.
  destruct (nth_error (k_servers (c_whole s)) j) as [v|] eqn:NV; [|apply nth_error_None in NV; lia].
  destruct (nth_error (c_expiry s) j) as [e|] eqn:NE; [|apply nth_error_None in NE; pose proof (V_len _ V); lia].
  assert (exists t, view s j = Some t) as [t VT] by (unfold view; rewrite NV, NE; eauto).
  assert (K : exists k', (match whole_part s (CExpiry j a) with Some x => kstep cfg (c_whole s) x | None => Some (c_whole s) end) = Some k').
  { cbn [whole_part]. rewrite NE. destruct (backend_part (x_phase e) a) as [act|] eqn:BP; cbn [option_map]; [|eauto].
    destruct (part_internal _ _ _ BP) as [IN _].
    assert (F : forallb (fun c : nat * sstate => foreign (s_i (snd c)) act) (k_streams v) = true).
    { apply forallb_forall. intros c IC. apply (part_own _ _ _ _ BP). intros i E ->. destruct (V_own _ V _ _ _ _ NV NE E) as [_ X]. apply X.
      apply in_map_iff. exists c. auto. }
    destruct (c_whole s) as [nd sv log n]. cbn [k_servers] in NV. cbn [kstep]. rewrite NV, IN, F. cbn. eauto. }
  destruct K as [k' K]. eexists. destruct a; try contradiction; cbn [cstep]; rewrite VT, K; reflexivity.
Qed.
Lemma nstep_servers nd x nd' : nstep cfg nd x = Some nd' -> length (n_servers nd') = (match x with NBoot => 1 | _ => 0 end + length (n_servers nd))%nat.
Proof.
  destruct nd as [w sv ps log n]. destruct x as [|j q|i f|i|j a|i|i|j]; cbn [nstep n_servers]; intros H.
  - injection H as <-. cbn [n_servers]. rewrite app_length. cbn. lia.
  - destruct (nth_error sv j); [|discriminate]. now injection H as <-.
  - destruct (nth_error ps i) as [[id j [[?|c k]|? ? ?]]|]; try discriminate. destruct (op_of c) as [a|]; [destruct (batched a); [discriminate|]|]; now injection H as <-.
  - destruct (nth_error ps i) as [[id j [[?|c k]|? ? ?]]|]; try discriminate. destruct c; try discriminate. destruct (batched a); [|discriminate].
    destruct (nth_error sv j); [|discriminate]. destruct (kclosed _); injection H as <-; cbn [n_servers]; rewrite ?put_len; reflexivity.
  - destruct (nth_error sv j) as [b|]; destruct a; try discriminate; cbv zeta in H; injection H as <-; cbn [n_servers]; apply put_len.
  - destruct (nth_error ps i) as [[id j [?|a job k]]|]; try discriminate. destruct (nth_error sv j); [|discriminate]. destruct (kreleased _ _); [|discriminate]. now injection H as <-.
  - destruct (nth_error ps i) as [[id j [[?|c k]|? ? ?]]|]; try discriminate. now injection H as <-.
  - injection H as <-. cbn [n_servers]. apply put_len.
Qed.
Lemma kreach_servers k : kreach cfg okf st k -> length (n_servers (k_node k)) = length (k_servers k).
Proof.
  induction 1 as [|k x k' H IH OK ST]; [reflexivity|]. rewrite (kstep_length _ _ _ ST).
  destruct (kstep_node _ _ _ _ ST) as [E|[(y & -> & E)|[(-> & E)|(j & -> & E)]]].
  - assert (x <> KBoot). { intros ->. destruct k as [nd sv log n]. cbn [kstep] in ST. destruct nd. cbn in ST. injection ST as <-. cbn in E. injection E as E. apply (f_equal (@length _)) in E. rewrite app_length in E. cbn in E. lia. }
    rewrite E. destruct x; try contradiction; exact IH.
  - rewrite (nstep_servers _ _ _ E). assert (y <> NBoot) by (intros ->; destruct k; discriminate ST). destruct y; try contradiction; exact IH.
  - rewrite (nstep_servers _ _ _ E). cbn. now rewrite IH.
  - rewrite (nstep_servers _ _ _ E). exact IH.
Qed.
Lemma fire_possible s j t n tm : creach cfg okf st s -> view s j = Some t -> nth_error (t_timers t) n = Some tm -> tm_due tm <= c_clock s ->
  exists s', cstep cfg s (CFire j n) = Some s' /\ c_log s' = c_log s ++ [Asked (n_next (k_node (c_whole s))) (WExpire (tm_key tm) (tm_rev tm))].
Proof.
  intros H VT N D. pose proof (creach_CI cfg okf st T _ H) as J. destruct (view_TI cfg okf st T _ _ _ J VT) as (TT & e & NE & ET & _).
  pose proof (kreach_servers _ (I_reach _ _ _ _ J)) as LE.
  cbn [cstep whole_part]. rewrite VT, N, NE, <- ET, N. destruct (Z.leb_spec (tm_due tm) (c_clock s)); [|lia].
  unfold view in VT. destruct (nth_error (k_servers (c_whole s)) j) as [v|] eqn:NV; [|discriminate].
  assert (L : (j < length (k_servers (c_whole s)))%nat) by (apply nth_error_Some; congruence). rewrite <- LE in L.
  destruct (nth_error (n_servers (k_node (c_whole s))) j) as [b|] eqn:NB; [|apply nth_error_None in NB; lia].
  unfold c_log. destruct (c_whole s) as [nd sv log m]. cbn [k_node k_servers k_log] in *. cbn [kstep]. destruct nd as [w bs ps lg nx]. cbn [n_servers n_log n_next] in *.
  cbn [nstep]. rewrite NB. eexists. split; [reflexivity|]. cbn [with_whole c_whole k_log option_map].
  unfold dids. rewrite flat_map_app. f_equal. cbn [n_log]. rewrite skipn_app, skipn_all, Nat.sub_diag. reflexivity.
Qed.
End Step.
