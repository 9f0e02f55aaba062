(** Proofs for FairWatch.v. *)
From Coq Require Import List ZArith Bool Lia Arith Sorting.Sorted.
From Verif Require Import Bytes Spec Sql System Prog Backend Limited Api Pool Ledger Batch BatchKine Node Watch Stream Resume Whole FairWatch.
From Verif Require Import SpecLemmas SqlLemmas Sim ProgLemmas Safety LedgerLemmas LedgerMore NodeProofs WatchLemmas WatchProofs WatchResults StreamProofs WholeProofs.
From Verif Require Import Watch Stream Whole FairWatch.
Import ListNotations.
Open Scope Z_scope.

(** ---- one stream seen alone ---- *)
Definition hist (st : sstate) : history := history_of (snd (b_world (s_b st))).
Record quiet (st st' : sstate) : Prop := {
  Q_self : st' = with_b st (s_b st');
  Q_group : group_of st' = group_of st;
  Q_poll : b_poll (s_b st') = b_poll (s_b st);
  Q_batch : b_batch (s_b st') = b_batch (s_b st);
  Q_dead : b_dead (s_b st') = b_dead (s_b st);
  Q_hist : exists l, hist st' = hist st ++ l }.
Lemma quiet_refl st : quiet st st.
Proof. constructor; auto; [destruct st; reflexivity|exists []; now rewrite app_nil_r]. Qed.
Definition moved (j i : nat) (x : kaction) (st st' : sstate) : Prop :=
  match x with
  | KStream j' i' a => if Nat.eqb j' j && Nat.eqb i' i then match a with SBack _ => quiet st st' | _ => st' = sstep st a end else quiet st st'
  | KBack j' (AFetch f) => if Nat.eqb j' j then st' = with_b st (fetch f (s_b st)) else quiet st st'
  | KBack j' APublish => if Nat.eqb j' j then st' = with_b st (publish_all (s_b st)) else quiet st st'
  | _ => quiet st st'
  end.

Lemma sstep_set s a : (forall x, a <> SBack x) -> s_i (sstep s a) = s_i s /\
  (s_b (sstep s a) = s_b s \/ exists f, s_b (sstep s a) = set_group (s_b s) (s_i s) f).
Proof.
  intros NB. unfold sstep. destruct a as [a| | | | |wid lo hi start|f|f| |id| | | ].
  - exfalso. eapply NB; eauto.
  - destruct (s_done s); [auto|]. unfold s_recv. destruct (s_hold s); [auto|]. destruct (group_of s) as [g|]; [|auto].
    destruct (nth_error _ _); [|destruct (g_open g); auto]. split; [reflexivity|]. right. eexists. reflexivity.
  - unfold s_send. destruct (s_hold s); [|auto]. destruct (s_creating s); auto.
  - unfold s_tick. destruct (s_creating s); auto.
  - destruct (s_ended s); [auto|]. unfold s_progress_req. destruct (s_creating s); [auto|]. destruct (s_closing s); auto.
  - destruct (s_ended s); [auto|]. unfold s_create. destruct (s_creating s); [auto|]. destruct (s_closing s); [auto|]. destruct (group_of s) as [g|]; [|auto].
    destruct (negb _); [auto|]. match goal with |- s_i (watch_step ?a ?b ?c) = _ /\ _ => destruct (watch_step_b a b c) as [E F]; rewrite E, F end.
    split; [reflexivity|]. right. eexists. reflexivity.
  - destruct (s_creating s) as [id|] eqn:CR; [|auto]. destruct (watch_step_b s id (ACheck (s_i s) id f)) as [E F]. rewrite E, F. split; [reflexivity|]. right. eexists. reflexivity.
  - destruct (s_creating s) as [id|] eqn:CR; [|auto]. destruct (watch_step_b s id (AQuery (s_i s) id f)) as [E F]. rewrite E, F. split; [reflexivity|]. right. eexists. reflexivity.
  - destruct (s_creating s) as [id|] eqn:CR; [|auto]. destruct (watch_step_b s id (AFinish (s_i s) id)) as [E F]. rewrite E, F. split; [reflexivity|]. right. eexists. reflexivity.
  - destruct (s_ended s); [auto|]. unfold s_cancel. destruct (s_creating s); [auto|]. destruct (s_closing s); [auto|]. split; [reflexivity|]. right. eexists. reflexivity.
  - unfold s_forget. destruct (s_closing s); auto.
  - unfold s_eof. destruct (s_creating s); auto. destruct (s_closing s); auto.
  - destruct (s_ended s); [|auto]. split; [reflexivity|]. right. eexists. reflexivity.
Qed.
(** groups of others change *)
Lemma quiet_set st b k f : k <> s_i st -> s_b st = b -> quiet st (with_b st (set_group b k f)).
Proof.
  intros N <-. constructor; try reflexivity; [|exists []; cbn; now rewrite app_nil_r].
  unfold group_of. cbn [with_b s_b s_i set_group b_groups]. rewrite update_nth_nth. destruct (Nat.eqb_spec (s_i st) k); [congruence|reflexivity].
Qed.
Lemma quiet_foreign st a : foreign (s_i st) a = true -> internal a = true -> group_of st <> None -> (forall f, a <> AFetch f) -> a <> APublish ->
  quiet st (with_b st (bstep (s_b st) a)).
Proof.
  intros F IN G NF NP.
  assert (OTH : forall k f, negb (Nat.eqb k (s_i st)) = true -> quiet st (with_b st (set_group (s_b st) k f))).
  { intros k f N. apply quiet_set; [|reflexivity]. apply negb_true_iff, Nat.eqb_neq in N. exact N. }
  destruct a as [op|f| | |k|k lo hi start|k id f|k id f|k id|k id|k]; cbn [bstep foreign internal] in *; try discriminate; auto.
  - destruct (NF f eq_refl).
  - congruence.
  - constructor; try reflexivity; [|exists []; now rewrite app_nil_r]. unfold group_of in *. cbn [with_b s_b s_i new_group b_groups].
    apply nth_error_app1. now apply nth_error_Some.
Qed.

Section Follow.
Variables (cfg : driver_cfg) (okf : fault -> Prop) (c : bool).
Hypothesis TO : tolerant okf.

Lemma stream_inv s j i conn st : KI cfg okf c s -> stream_of s j i = Some (conn, st) ->
  exists v st0, nth_error (k_servers s) j = Some v /\ nth_error (k_streams v) i = Some (conn, st0) /\ st = synced (n_world (k_node s)) v st0 /\
    rs c st /\ said conn (k_log s) = s_out st /\ watches conn (k_log s) = map params (regs_of st) /\ hist st = commits (dids (k_log s)).
Proof.
  intros J E. unfold stream_of in E. destruct (nth_error (k_servers s) j) as [v|] eqn:N; [|discriminate].
  destruct (nth_error (k_streams v) i) as [[c0 st0]|] eqn:NS; [|discriminate]. injection E as -> <-. exists v, st0. split; [reflexivity|]. split; [exact NS|]. split; [reflexivity|].
  destruct (K_serv _ _ _ _ J j v N) as (_ & _ & ST). destruct (ST i _ NS) as (R & SA & WA). split; [exact R|]. split; [exact SA|]. split; [exact WA|].
  unfold hist. cbn. rewrite (K_dids _ _ _ _ J). symmetry. apply (node_facts _ _ _ TO (K_node _ _ _ _ J)).
Qed.

Lemma follow s x j i conn st : KI cfg okf c s -> kaction_ok okf c s x -> x <> KCrash j -> stream_of s j i = Some (conn, st) ->
  exists st', stream_of (ktry cfg s x) j i = Some (conn, st') /\ moved j i x st st'.
Proof.
  intros J OK NC E. destruct (stream_inv s j i conn st J E) as (v & st0 & N & NS & ES & _).
  assert (SAME : kstep cfg s x = None -> quiet st st -> moved j i x st st -> exists st', stream_of (ktry cfg s x) j i = Some (conn, st') /\ moved j i x st st').
  { intros K _ M. unfold ktry. rewrite K. eauto. }
  unfold ktry. destruct s as [nd sv log n]. cbn [k_servers k_node k_log k_next] in *.
  pose proof (K_node _ _ _ _ J) as KN. cbn [k_node] in KN.
  assert (UN : forall b, nth_error sv j = Some b -> stream_of (KState nd sv log n) j i = Some (conn, st)) by (intros; exact E).
  destruct (K_serv _ _ _ _ J j v N) as (_ & ND & _).
  assert (GR : group_of st <> None).
  { destruct (stream_inv _ _ _ _ _ J E) as (_ & _ & _ & _ & _ & SC & _). destruct (sreach_SI _ (rs_sreach c _ SC)) as [g I]. rewrite (I_group _ _ I). discriminate. }
  destruct x as [x| |j'|j' a|j'|j' i' a].
  - destruct (kstep cfg (KState nd sv log n) (KNode x)) as [s'|] eqn:K; [|exists st; split; [exact E|apply quiet_refl]].
    cbn [kstep] in K.
    assert (X : match nstep cfg nd x with Some nd' => Some (KState nd' sv (log ++ map Did (skipn (length (n_log nd)) (n_log nd'))) n) | None => None end = Some s') by (destruct x; try discriminate; exact K).
    destruct (nstep cfg nd x) as [nd'|] eqn:ST; [|discriminate]. injection X as <-. cbn [kaction_ok] in OK.
    destruct (node_world cfg okf nd x nd' TO KN OK ST) as [W _]. eexists. unfold stream_of. cbn [k_servers k_node]. rewrite N, NS. split; [reflexivity|]. cbn [moved].
    rewrite ES. constructor; try reflexivity. unfold hist. cbn. destruct (wsteps_extends _ _ W) as [[l H] _]. exists l. exact H.
  - destruct (kstep cfg (KState nd sv log n) KBoot) as [s'|] eqn:K; [|exists st; split; [exact E|apply quiet_refl]].
    cbn [kstep] in K. destruct (nstep cfg nd NBoot) as [nd'|] eqn:ST; [|discriminate]. injection K as <-.
    assert (EW : n_world nd' = n_world nd) by (destruct nd; cbn in ST; injection ST as <-; auto).
    exists st. unfold stream_of. cbn [k_servers k_node]. rewrite nth_error_app1 by (apply nth_error_Some; congruence). rewrite N, NS, EW, ES. split; [reflexivity|apply quiet_refl].
  - destruct (kstep cfg (KState nd sv log n) (KCrash j')) as [s'|] eqn:K; [|exists st; split; [exact E|apply quiet_refl]].
    cbn [kstep] in K. destruct (nstep cfg nd (NCrash j')) as [nd'|] eqn:ST; [|discriminate]. injection K as <-.
    assert (EW : n_world nd' = n_world nd) by (destruct nd; cbn in ST; injection ST as <-; auto).
    exists st. unfold stream_of. cbn [k_servers k_node]. rewrite put_nth. destruct (Nat.eqb_spec j' j); [congruence|]. rewrite N, NS, EW, ES. split; [reflexivity|apply quiet_refl].
  - cbn [kstep]. destruct (Nat.eqb_spec j' j) as [->|D].
    + rewrite N. destruct (internal a && forallb _ _) eqn:F.
      * apply andb_true_iff in F. destruct F as [F1 F2]. rewrite forallb_forall in F2. specialize (F2 _ (nth_error_In _ _ NS)). cbn [snd] in F2.
        eexists. unfold stream_of. cbn [k_servers k_node]. rewrite put_nth, Nat.eqb_refl, N. cbn [option_map k_streams]. rewrite NS. split; [reflexivity|].
        unfold synced at 1. cbn [k_back]. rewrite seen_self by auto. change (with_b st0 (bstep (seen (n_world nd) (k_back v)) a)) with (with_b (synced (n_world nd) v st0) (bstep (s_b (synced (n_world nd) v st0)) a)).
        rewrite <- ES. assert (FO : foreign (s_i st) a = true) by (rewrite ES; exact F2).
        destruct a; cbn [moved]; try rewrite Nat.eqb_refl; try reflexivity; try (apply quiet_foreign; auto; discriminate).
      * exists st. split; [exact E|]. destruct a; cbn [moved]; try rewrite Nat.eqb_refl; try apply quiet_refl; exfalso; cbn [internal andb] in F.
        -- assert (X : forallb (fun c : nat * sstate => foreign (s_i (snd c)) (AFetch f)) (k_streams v) = true) by (apply forallb_forall; intros; reflexivity). congruence.
        -- assert (X : forallb (fun c : nat * sstate => foreign (s_i (snd c)) APublish) (k_streams v) = true) by (apply forallb_forall; intros; reflexivity). congruence.
    + exists st. split; [|destruct a; cbn [moved]; try apply quiet_refl; (destruct (Nat.eqb_spec j' j); [congruence|apply quiet_refl])].
      destruct (nth_error sv j') as [v'|]; [|exact E]. destruct (_ && _); [|exact E]. unfold stream_of. cbn [k_servers k_node]. rewrite put_nth. destruct (Nat.eqb_spec j' j); [congruence|].
      rewrite N, NS, ES. reflexivity.
  - cbn [kstep moved]. destruct (Nat.eqb_spec j' j) as [->|D].
    + rewrite N. eexists. unfold stream_of. cbn [k_servers k_node]. rewrite put_nth, Nat.eqb_refl, N. cbn [option_map k_streams].
      rewrite nth_error_app1 by (apply nth_error_Some; congruence). rewrite NS. split; [reflexivity|].
      unfold synced. cbn [k_back]. assert (X : quiet st (with_b st (bstep (s_b st) ANewGroup))) by (apply quiet_foreign; auto; discriminate). rewrite ES in X. rewrite ES. exact X.
    + exists st. split; [|apply quiet_refl]. destruct (nth_error sv j') as [v'|]; [|exact E]. unfold stream_of. cbn [k_servers k_node]. rewrite put_nth. destruct (Nat.eqb_spec j' j); [congruence|].
      rewrite N, NS, ES. reflexivity.
  - destruct (match a with SBack _ => true | _ => false end) eqn:SB.
    + destruct a; try discriminate. cbn [kstep]. exists st. split; [exact E|]. cbn [moved]. destruct (_ && _); apply quiet_refl.
    + assert (NB : forall x, a <> SBack x) by (intros x ->; discriminate).
      assert (KE : kstep cfg (KState nd sv log n) (KStream j' i' a) = match nth_error sv j' with Some v => match nth_error (k_streams v) i' with Some (conn, st0) =>
       let st := synced (n_world nd) v st0 in let st' := sstep st a in
       Some (KState nd (put j' (KServer (s_b st') (put i' (conn, st') (k_streams v))) sv) (log ++ told_by conn a st st') n) | None => None end | None => None end) by (destruct a; try reflexivity; discriminate).
      rewrite KE. clear KE. cbn [moved]. destruct (Nat.eqb_spec j' j) as [->|D]; cbn [andb].
      * rewrite N. destruct (Nat.eqb_spec i' i) as [->|DI].
        -- rewrite NS. cbv zeta. rewrite <- ES. exists (sstep st a). unfold stream_of. cbn [k_servers k_node]. rewrite put_nth, Nat.eqb_refl, N. cbn [option_map k_streams].
           rewrite put_nth, Nat.eqb_refl, NS. cbn [option_map]. split; [|destruct a; auto; discriminate].
           f_equal. f_equal. unfold synced. cbn [k_back]. apply synced_self. destruct (sstep_set st a NB) as [_ [X|[f X]]]; rewrite X; rewrite ES; reflexivity.
        -- destruct (nth_error (k_streams v) i') as [[c' st1]|] eqn:NS'; [|exists st; split; [exact E|apply quiet_refl]].
           cbv zeta. set (st2 := synced (n_world nd) v st1). eexists. unfold stream_of. cbn [k_servers k_node]. rewrite put_nth, Nat.eqb_refl, N. cbn [option_map k_streams].
           rewrite put_nth. destruct (Nat.eqb_spec i' i); [congruence|]. rewrite NS. split; [reflexivity|].
           unfold synced. cbn [k_back]. assert (DG : s_i st1 <> s_i st0).
           { intros ES'. apply DI. apply (proj1 (NoDup_nth_error (map (fun p => s_i (snd p)) (k_streams v))) ND).
             - apply nth_error_Some. rewrite nth_error_map, NS'. discriminate.
             - rewrite !nth_error_map, NS, NS'. cbn [option_map snd]. now rewrite ES'. }
           destruct (sstep_set st2 a NB) as [_ [X|[f X]]]; rewrite X; rewrite ES.
           ++ apply quiet_refl.
           ++ apply (quiet_set (synced (n_world nd) v st0) (seen (n_world nd) (k_back v)) (s_i st1) f); [exact DG|reflexivity].
      * exists st. split; [|apply quiet_refl]. destruct (nth_error sv j') as [v'|]; [|exact E]. destruct (nth_error (k_streams v') i') as [[c' st1]|]; [|exact E].
        unfold stream_of. cbn [k_servers k_node]. rewrite put_nth. destruct (Nat.eqb_spec j' j); [congruence|]. rewrite N, NS, ES. reflexivity.
Qed.
End Follow.

(** ---- what a step of the stream does to its group ---- *)
Lemma own_group s a g id : (forall x, a <> SBack x) -> group_of s = Some g ->
  exists g', group_of (sstep s a) = Some g' /\ grow g g' /\ g_updates g' = g_updates g /\ (g_taken g <= g_taken g')%nat /\ (a = SRecv \/ g_taken g' = g_taken g) /\
    (a <> SCancel id -> In id (g_cancelled g') -> In id (g_cancelled g)) /\
    b_poll (s_b (sstep s a)) = b_poll (s_b s) /\ b_batch (s_b (sstep s a)) = b_batch (s_b s) /\ b_dead (s_b (sstep s a)) = b_dead (s_b s) /\ b_world (s_b (sstep s a)) = b_world (s_b s).
Proof.
  intros NB G.
  set (goal := fun s' => exists g', group_of s' = Some g' /\ grow g g' /\ g_updates g' = g_updates g /\ (g_taken g <= g_taken g')%nat /\ (a = SRecv \/ g_taken g' = g_taken g) /\
    (a <> SCancel id -> In id (g_cancelled g') -> In id (g_cancelled g)) /\
    b_poll (s_b s') = b_poll (s_b s) /\ b_batch (s_b s') = b_batch (s_b s) /\ b_dead (s_b s') = b_dead (s_b s) /\ b_world (s_b s') = b_world (s_b s)).
  change (goal (sstep s a)).
  assert (SAME : forall s', s_b s' = s_b s -> s_i s' = s_i s -> goal s').
  { intros s' E1 E2. exists g. unfold group_of. rewrite E1, E2. repeat split; auto using grow_refl. exists []. now rewrite app_nil_r. }
  assert (SET : forall s' f, s_b s' = set_group (s_b s) (s_i s) f -> s_i s' = s_i s -> grow g (f g) -> g_updates (f g) = g_updates g -> (g_taken g <= g_taken (f g))%nat ->
     (a = SRecv \/ g_taken (f g) = g_taken g) -> (a <> SCancel id -> In id (g_cancelled (f g)) -> In id (g_cancelled g)) -> goal s').
  { intros s' f E1 E2 K1 K2 K3 K4 K5. exists (f g). unfold group_of. rewrite E1, E2. split; [|split; [exact K1|]; repeat split; auto].
    apply set_group_nth. exact G. }
  assert (KEEP : forall s' f, s_b s' = set_group (s_b s) (s_i s) f -> s_i s' = s_i s -> (grow g (f g) /\ g_updates (f g) = g_updates g /\ g_taken (f g) = g_taken g /\ g_cancelled (f g) = g_cancelled g) -> goal s').
  { intros s' f E1 E2 (K1 & K2 & K3 & K4). apply (SET s' f); auto; [rewrite K3; auto|]. rewrite K4. auto. }
  unfold sstep. destruct a as [a| | | | |wid lo hi start|f|f| |id'| | | ].
  - exfalso. eapply NB; eauto.
  - destruct (s_done s); [now apply SAME|]. unfold s_recv. destruct (s_hold s); [now apply SAME|]. rewrite G.
    destruct (nth_error _ _); [|destruct (g_open g); now apply SAME].
    apply (SET _ take); auto; try reflexivity; unfold take; destruct (_ <? _)%nat; auto using grow_refl; [|cbn; lia]. constructor; cbn; auto. exists []; now rewrite app_nil_r.
  - unfold s_send. destruct (s_hold s); [|now apply SAME]. destruct (s_creating s); now apply SAME.
  - unfold s_tick. destruct (s_creating s); now apply SAME.
  - destruct (s_ended s); [now apply SAME|]. unfold s_progress_req. destruct (s_creating s); [now apply SAME|]. destruct (s_closing s); now apply SAME.
  - destruct (s_ended s); [now apply SAME|]. unfold s_create. destruct (s_creating s); [now apply SAME|]. destruct (s_closing s); [now apply SAME|]. rewrite G.
    destruct (negb _); [now apply SAME|]. match goal with |- goal (watch_step ?a ?b ?c) => destruct (watch_step_b a b c) as [E F] end.
    apply (KEEP _ (watch_begin lo (range_end lo hi) start)); [exact E|exact F|apply begin_keeps].
  - destruct (s_creating s) as [id0|]; [|now apply SAME]. destruct (watch_step_b s id0 (ACheck (s_i s) id0 f)) as [E F]. apply (KEEP _ (watch_check id0 f (b_world (s_b s)))); [exact E|exact F|]. destruct (check_keeps id0 f (b_world (s_b s)) g) as (X1 & X2 & X3 & X4 & _). auto.
  - destruct (s_creating s) as [id0|]; [|now apply SAME]. destruct (watch_step_b s id0 (AQuery (s_i s) id0 f)) as [E F]. apply (KEEP _ (watch_query id0 f (b_world (s_b s)))); [exact E|exact F|]. destruct (query_keeps id0 f (b_world (s_b s)) g) as (X1 & X2 & X3 & X4 & _). auto.
  - destruct (s_creating s) as [id0|]; [|now apply SAME]. destruct (watch_step_b s id0 (AFinish (s_i s) id0)) as [E F]. apply (KEEP _ (watch_finish id0)); [exact E|exact F|]. destruct (finish_keeps id0 g) as (X1 & X2 & X3 & X4 & _). auto.
  - destruct (s_ended s); [now apply SAME|]. unfold s_cancel. destruct (s_creating s); [now apply SAME|]. destruct (s_closing s); [now apply SAME|].
    apply (SET _ (unwatch id')); try reflexivity; auto.
    + constructor; cbn; auto; [exists []; now rewrite app_nil_r|]. intros x I. apply in_app_iff; auto.
    + intros D I. cbn in I. apply in_app_iff in I. destruct I as [I|[->|[]]]; [exact I|congruence].
  - unfold s_forget. destruct (s_closing s); now apply SAME.
  - unfold s_eof. destruct (s_creating s); [now apply SAME|]. destruct (s_closing s); now apply SAME.
  - destruct (s_ended s); [|now apply SAME]. apply (SET _ stop_group); try reflexivity; auto. constructor; cbn; auto; [exists []; now rewrite app_nil_r|congruence].
Qed.

Lemma watch_step_done s id a : s_done (watch_step s id a) = s_done s.
Proof. unfold watch_step. destruct (group_of _) as [g|]; [|reflexivity]. destruct (find _ _) as [[x []]|]; reflexivity. Qed.
Lemma watch_step_hold s id a : s_hold (watch_step s id a) = s_hold s.
Proof. unfold watch_step. destruct (group_of _) as [g|]; [|reflexivity]. destruct (find _ _) as [[x []]|]; reflexivity. Qed.
(** ServeUpdates only returns when the channel is closed *)
Lemma done_closed s : sreach s -> s_done s = true -> forall g, group_of s = Some g -> g_open g = false.
Proof.
  induction 1 as [b B|s a H IH OK]; [discriminate|]. intros D g' G'.
  destruct (sreach_SI _ H) as [g J]. pose proof (I_group _ _ J) as G.
  destruct (s_done s) eqn:DS.
  - specialize (IH eq_refl g G). destruct (match a with SBack _ => true | _ => false end) eqn:SB.
    + destruct a; try discriminate. cbn [sstep] in G'. destruct (foreign (s_i s) a); [|rewrite G in G'; injection G' as <-; exact IH].
      destruct (step_group (s_b s) a (s_i s) g G) as (g1 & N1 & GR & _). unfold group_of in G'. cbn [with_b s_b s_i] in G'. rewrite N1 in G'. injection G' as <-.
      destruct (g_open g1) eqn:O; auto. apply (gr_open _ _ GR) in O. congruence.
    + destruct (own_group s a g 0 ltac:(intros x ->; discriminate) G) as (g1 & N1 & GR & _). rewrite N1 in G'. injection G' as <-.
      destruct (g_open g1) eqn:O; auto. apply (gr_open _ _ GR) in O. congruence.
  - destruct a as [a| | | | |wid lo hi start|f|f| |id'| | | ]; cbn [sstep] in *.
    + destruct (foreign (s_i s) a); cbn [with_b s_done] in D; congruence.
    + rewrite DS in *. unfold s_recv in *. destruct (s_hold s); [congruence|]. rewrite G in *. destruct (nth_error _ _); [cbn in D; congruence|].
      destruct (g_open g) eqn:O; [congruence|]. unfold group_of in *. cbn [s_b s_i] in G'. congruence.
    + unfold s_send in D. destruct (s_hold s); [|congruence]. destruct (s_creating s); cbn in D; congruence.
    + unfold s_tick in D. destruct (s_creating s); cbn in D; congruence.
    + destruct (s_ended s); [congruence|]. unfold s_progress_req in D. destruct (s_creating s); [congruence|]. destruct (s_closing s); cbn in D; congruence.
    + exfalso. destruct (s_ended s); [congruence|]. unfold s_create in D. destruct (s_creating s); [congruence|]. destruct (s_closing s); [congruence|]. rewrite G in D. destruct (negb _); [cbn in D; congruence|].
      rewrite watch_step_done in D. cbn in D. congruence.
    + exfalso. destruct (s_creating s); [|congruence]. rewrite watch_step_done in D. congruence.
    + exfalso. destruct (s_creating s); [|congruence]. rewrite watch_step_done in D. congruence.
    + exfalso. destruct (s_creating s); [|congruence]. rewrite watch_step_done in D. congruence.
    + destruct (s_ended s); [congruence|]. unfold s_cancel in D. destruct (s_creating s); [congruence|]. destruct (s_closing s); cbn in D; congruence.
    + unfold s_forget in D. destruct (s_closing s); cbn in D; congruence.
    + unfold s_eof in D. destruct (s_creating s); [congruence|]. destruct (s_closing s); cbn in D; congruence.
    + destruct (s_ended s); cbn [with_b s_done] in D; congruence.
Qed.

Lemma fetch_bearable f b : bearable f -> b_dead (fetch f b) = b_dead b /\ (fetch f b = b \/ b_dead b = false /\ b_batch b = None /\ fetch f b = fetch NoFault b).
Proof.
  intros H. split; [apply fetch_survives; destruct f; cbn in *; auto|]. unfold fetch. destruct (b_dead b) eqn:D; [auto|]. destruct (b_batch b) eqn:E; [auto|].
  destruct f as [|e|e|n e|]; cbn [bearable] in H; cbn [sem snd]; auto; try contradiction; left; destruct H as [H1 H2]; destruct e; auto; congruence.
Qed.

Lemma fetch_progress b evs : calm_reach b -> b_dead b = false -> b_batch b = None -> kept (snd (b_world b)) (b_poll b) -> b_poll b < revision (history_of (snd (b_world b))) ->
  b_batch (fetch NoFault b) = Some evs -> b_poll b < last_rev evs (b_poll b).
Proof.
  intros H D E K L B. destruct (round_poll b (calm_breach _ H) D K) as (_ & _ & _ & _ & _ & X). specialize (X E L).
  unfold poll_round in X. cbn [bstep] in X. unfold publish_all in X. rewrite B in X. cbn [b_poll] in X. rewrite (proj1 (proj2 (fetch_same NoFault b))) in X. exact X.
Qed.

Section Run.
Variables (cfg : driver_cfg) (okf : fault -> Prop) (sch : nat -> kaction) (T j i conn : nat) (id : Z) (lo hi : bytes) (start : Z).
Hypothesis TO : tolerant okf.
Hypothesis OK : forall t, kaction_ok okf true (kat cfg sch t) (sch t).
Hypothesis NC : forall t, (T <= t)%nat -> sch t <> KCrash j.
Hypothesis NK : forall t, (T <= t)%nat -> sch t <> KStream j i (SCancel id).
Hypothesis WA : watching (kat cfg sch T) j i conn id lo hi start.
Hypothesis PO : polling j sch.
Hypothesis CO : consuming cfg j i sch.

Lemma kat_KI t : KI cfg okf true (kat cfg sch t).
Proof.
  induction t as [|t IH]; cbn [kat]; [apply KI_init|]. unfold ktry. destruct (kstep cfg (kat cfg sch t) (sch t)) as [s'|] eqn:E; [|exact IH].
  eapply KI_step; eauto.
Qed.
Definition view (t : nat) : sstate := match stream_of (kat cfg sch t) j i with Some (_, st) => st | None => sopen (bstart init_world) end.
Lemma view_some t : (T <= t)%nat -> stream_of (kat cfg sch t) j i = Some (conn, view t).
Proof.
  intros L. induction L as [|t L IH].
  - destruct WA as (_ & _ & st & g & E & _). unfold view. rewrite E. reflexivity.
  - destruct (follow cfg okf true TO _ (sch t) j i conn (view t) (kat_KI t) (OK t) (NC t L) IH) as (st' & E & _). unfold view at 1. cbn [kat]. rewrite E. reflexivity.
Qed.
Lemma view_step t : (T <= t)%nat -> moved j i (sch t) (view t) (view (S t)).
Proof.
  intros L. destruct (follow cfg okf true TO _ (sch t) j i conn (view t) (kat_KI t) (OK t) (NC t L) (view_some t L)) as (st' & E & M). unfold view at 2. cbn [kat]. rewrite E. exact M.
Qed.
Lemma view_inv t : (T <= t)%nat -> scalm (view t) /\ said conn (k_log (kat cfg sch t)) = s_out (view t) /\ watches conn (k_log (kat cfg sch t)) = map params (regs_of (view t)) /\
  hist (view t) = commits (dids (k_log (kat cfg sch t))).
Proof.
  intros L. destruct (stream_inv cfg okf true TO _ j i conn (view t) (kat_KI t) (view_some t L)) as (v & st0 & _ & _ & _ & H). exact H.
Qed.
Definition grp (t : nat) : group := match group_of (view t) with Some g => g | None => Group 0 [] [] [] 0 false [] [] [] end.
Lemma grp_some t : (T <= t)%nat -> SI (view t) (grp t).
Proof.
  intros L. destruct (view_inv t L) as (S & _). destruct (sreach_SI _ (scalm_sreach _ S)) as [g I]. unfold grp. rewrite (I_group _ _ I). exact I.
Qed.
Definition poll (t : nat) : Z := b_poll (s_b (view t)).
Definition batch (t : nat) : option (list event) := b_batch (s_b (view t)).

Record goes (t t' : nat) : Prop := {
  O_grow : grow (grp t) (grp t');
  O_updates : exists l, g_updates (grp t') = g_updates (grp t) ++ l;
  O_taken : (g_taken (grp t) <= g_taken (grp t'))%nat;
  O_live : ~ In id (g_cancelled (grp t)) -> ~ In id (g_cancelled (grp t'));
  O_poll : poll t <= poll t';
  O_hist : exists l, hist (view t') = hist (view t) ++ l;
  O_dead : b_dead (s_b (view t)) = false -> b_dead (s_b (view t')) = false }.
Lemma goes_refl t : goes t t.
Proof. constructor; auto using grow_refl; try (exists []; now rewrite app_nil_r); lia. Qed.
Lemma goes_trans a b c : goes a b -> goes b c -> goes a c.
Proof.
  intros [A1 [a2 A2] A3 A4 A5 [a6 A6] A7] [B1 [b2 B2] B3 B4 B5 [b6 B6] B7]. constructor; auto; try lia.
  - destruct A1 as [C1 [c2 C2] C3 C4], B1 as [D1 [d2 D2] D3 D4]. constructor; auto. exists (c2 ++ d2). rewrite D2, C2. now rewrite app_assoc.
  - exists (a2 ++ b2). rewrite B2, A2. now rewrite app_assoc.
  - exists (a6 ++ b6). rewrite B6, A6. now rewrite app_assoc.
Qed.
Lemma quiet_goes t : (T <= t)%nat -> quiet (view t) (view (S t)) -> goes t (S t).
Proof.
  intros L [Q1 Q2 Q3 Q4 Q5 Q6]. assert (E : grp (S t) = grp t) by (unfold grp; now rewrite Q2).
  constructor; rewrite ?E; unfold poll; auto using grow_refl; try (exists []; now rewrite app_nil_r); try lia. congruence.
Qed.
Lemma step_goes t : (T <= t)%nat -> goes t (S t).
Proof.
  intros L. pose proof (view_step t L) as M. pose proof (grp_some t L) as I. pose proof (I_group _ _ I) as G.
  destruct (view_inv t L) as (SC & _).
  destruct (sch t) as [x| |j'|j' a|j'|j' i' a] eqn:E; cbn [moved] in M; try (now apply quiet_goes).
  - assert (BK : forall act, (forall k, act <> AUnwatch k id) -> foreign (s_i (view t)) act = true -> possible (s_b (view t)) act -> view (S t) = with_b (view t) (bstep (s_b (view t)) act) ->
      b_dead (s_b (view (S t))) = b_dead (s_b (view t)) -> goes t (S t)).
    { intros act NU F P V D. destruct (foreign_group (s_b (view t)) act (s_i (view t)) (grp t) F G) as (g' & N' & E1 & _ & _ & _ & E5 & E6).
      destruct (step_group (s_b (view t)) act (s_i (view t)) (grp t) G) as (g1 & N1 & GR & _). assert (g1 = g') as -> by congruence.
      assert (EG : grp (S t) = g'). { unfold grp. rewrite V. unfold group_of. cbn [with_b s_b s_i]. now rewrite N'. }
      constructor; rewrite ?EG; auto; try lia; try (rewrite E1; lia); try (rewrite E5; auto).
      - unfold poll. rewrite V. cbn [with_b s_b]. eapply step_poll. apply calm_Binv, scalm_calm, SC.
      - unfold hist. rewrite V. cbn [with_b s_b]. destruct (proj1 (step_world _ _ P)) as [[l X] _]. exists l. exact X.
      - congruence. }
    destruct a as [op|f| | |k|k lo' hi' st'|k id' f|k id' f|k id'|k id'|k]; try (now apply quiet_goes).
    + destruct (Nat.eqb_spec j' j) as [->|]; [|now apply quiet_goes]. apply (BK (AFetch f)); auto; try discriminate; try reflexivity; rewrite M. cbn [with_b s_b].
      apply fetch_bearable. destruct PO as (_ & _ & P3). apply (P3 t f). exact E.
    + destruct (Nat.eqb_spec j' j) as [->|]; [|now apply quiet_goes]. apply (BK APublish); auto; try discriminate; try reflexivity; rewrite M. cbn [with_b s_b].
      unfold publish_all. destruct (b_batch _); reflexivity.
  - destruct (_ && _) eqn:HERE; [|now apply quiet_goes]. apply andb_true_iff in HERE. rewrite !Nat.eqb_eq in HERE. destruct HERE as [-> ->].
    destruct (match a with SBack _ => true | _ => false end) eqn:SB; [destruct a; try discriminate; now apply quiet_goes|].
    assert (NB : forall x, a <> SBack x) by (intros x ->; discriminate).
    assert (V : view (S t) = sstep (view t) a) by (destruct a; try discriminate; exact M).
    destruct (own_group (view t) a (grp t) id NB G) as (g' & N' & GR & U & TK & _ & CN & E1 & E2 & E3 & E4).
    assert (EG : grp (S t) = g') by (unfold grp; now rewrite V, N').
    assert (a <> SCancel id) by (intros ->; apply (NK t L); exact E).
    constructor; rewrite ?EG; auto; unfold poll, hist; rewrite ?V, ?E1, ?E3, ?E4, ?U; try (exists []; now rewrite app_nil_r); auto; lia.
Qed.
Lemma goes_all t t' : (T <= t <= t')%nat -> goes t t'.
Proof.
  intros [L L']. induction L' as [|t' L' IH]; [apply goes_refl|]. eapply goes_trans; [exact IH|]. apply step_goes. lia.
Qed.

(** the registration *)
Definition registered (r : reg) : Prop := r_id r = id /\ r_lo r = lo /\ r_hi r = hi /\ r_start r = start /\ In r (g_regs (grp T)).
Lemma has_reg : exists r, registered r.
Proof.
  destruct WA as (W1 & _). apply in_watches in W1. destruct (view_inv T (le_n _)) as (_ & _ & W & _). rewrite W in W1.
  unfold regs_of in W1. rewrite (I_group _ _ (grp_some T (le_n _))) in W1. apply in_map_iff in W1. destruct W1 as (r & E & I). unfold params in E. injection E as E1 E2 E3 E4.
  exists r. repeat split; auto.
Qed.
Lemma acked t : (T <= t)%nat -> In (id, WOk) (g_returns (grp t)) /\ ~ In id (g_cancelled (grp t)) /\ b_dead (s_b (view t)) = false.
Proof.
  intros L. destruct WA as (_ & W2 & st & g & E & G & C & D).
  assert (V : view T = st) by (unfold view; now rewrite E). assert (GG : grp T = g) by (unfold grp; now rewrite V, G).
  pose proof (goes_all T t (conj (le_n _) L)) as O. destruct (view_inv T (le_n _)) as (_ & S & _).
  assert (IM : In (MCreated id) (s_out (view T))).
  { rewrite <- S. unfold said. apply in_flat_map. eexists. split; [exact W2|]. cbn. rewrite Nat.eqb_refl. now left. }
  split; [|split].
  - pose proof (I_created _ _ (grp_some T (le_n _)) _ IM) as R. destruct (gr_returns _ _ (O_grow _ _ O)) as [l ->]. apply in_app_iff. auto.
  - apply (O_live _ _ O). rewrite GG. exact C.
  - apply (O_dead _ _ O). rewrite V. exact D.
Qed.

(** ---- the poller ---- *)
Lemma batch_none t : (T <= t)%nat -> exists t', (t <= t')%nat /\ batch t' = None.
Proof.
  intros L. destruct PO as (_ & P & _). destruct (P t) as (u & LU & E). exists (S u). split; [lia|].
  pose proof (view_step u ltac:(lia)) as M. rewrite E in M. cbn [moved] in M. rewrite Nat.eqb_refl in M. unfold batch. rewrite M. cbn [with_b s_b].
  unfold publish_all. destruct (b_batch (s_b (view u))) eqn:B; [reflexivity|exact B].
Qed.
Lemma batch_step t : (T <= t)%nat ->
  (batch (S t) = batch t /\ poll (S t) = poll t) \/
  (exists f, sch t = KBack j (AFetch f) /\ s_b (view (S t)) = fetch f (s_b (view t)) /\ poll (S t) = poll t) \/
  (sch t = KBack j APublish /\ view (S t) = with_b (view t) (publish_all (s_b (view t)))).
Proof.
  intros L. pose proof (view_step t L) as M. unfold batch, poll.
  assert (QU : quiet (view t) (view (S t)) -> b_batch (s_b (view (S t))) = b_batch (s_b (view t)) /\ b_poll (s_b (view (S t))) = b_poll (s_b (view t))) by (intros [Q1 Q2 Q3 Q4 Q5 Q6]; auto).
  destruct (sch t) as [x| |j'|j' a|j'|j' i' a] eqn:E; cbn [moved] in M; auto.
  - destruct a; auto; (destruct (Nat.eqb_spec j' j) as [->|]; [|auto]).
    + right. left. exists f. split; [reflexivity|]. rewrite M. cbn [with_b s_b]. split; [reflexivity|]. apply fetch_same.
    + right. right. auto.
  - left. destruct (_ && _); [|auto]. destruct (match a with SBack _ => true | _ => false end) eqn:SB; [destruct a; try discriminate; auto|].
    assert (V : view (S t) = sstep (view t) a) by (destruct a; try discriminate; exact M).
    destruct (own_group (view t) a (grp t) id ltac:(intros x ->; discriminate) (I_group _ _ (grp_some t L))) as (g' & _ & _ & _ & _ & _ & _ & E1 & E2 & _ & _). rewrite V. auto.
Qed.
Lemma fetch_kept t f : (T <= t)%nat -> sch t = KBack j (AFetch f) -> kept (snd (b_world (s_b (view t)))) (poll t).
Proof.
  intros L E. pose proof (OK t) as A. rewrite E in A. cbn [kaction_ok] in A. destruct A as [_ A].
  destruct (stream_inv cfg okf true TO _ j i conn (view t) (kat_KI t) (view_some t L)) as (v & st0 & N & _ & V & SC & _).
  specialize (A eq_refl v N). apply (steady_is_calm (s_b (view t)) (AFetch f)).
  - apply calm_breach, scalm_calm, SC.
  - rewrite V. cbn. apply (node_facts _ _ _ TO (K_node _ _ _ _ (kat_KI t))).
  - rewrite V. exact A.
Qed.
(** a fetch started after [t] finds something new *)
Lemma poll_more t : (T <= t)%nat -> poll t < revision (hist (view t)) -> exists t', (t <= t')%nat /\ poll t < poll t'.
Proof.
  intros L H. destruct (batch_none t L) as (t1 & L1 & B1).
  destruct (Z.eq_dec (poll t1) (poll t)) as [E1|NE]; [|exists t1; split; [lia|]; pose proof (O_poll _ _ (goes_all t t1 ltac:(lia))); lia].
  assert (INV : forall u, (t1 <= u)%nat -> poll t < poll u \/ poll u = poll t /\ (batch u = None \/ exists evs, batch u = Some evs /\ poll t < last_rev evs (poll t))).
  { intros u LU. induction LU as [|u LU IH]; [right; auto|]. destruct IH as [IH|[EP IH]]; [left; pose proof (O_poll _ _ (step_goes u ltac:(lia))); lia|].
    destruct (batch_step u ltac:(lia)) as [[S1 S2]|[(f & S1 & S2 & S3)|[S1 S2]]].
    - right. rewrite S1, S2. auto.
    - right. split; [lia|]. destruct PO as (_ & _ & P3). destruct (fetch_bearable f (s_b (view u)) (P3 _ _ S1)) as [_ [FE|(F1 & F2 & F3)]].
      + unfold batch in *. rewrite S2, FE. exact IH.
      + right. destruct (fetch_batch_some (s_b (view u)) F1) as [evs X]. exists evs. unfold batch. rewrite S2, F3. split; [exact X|].
        rewrite <- EP. apply (fetch_progress (s_b (view u)) evs); auto.
        * apply scalm_calm, view_inv. lia.
        * eapply fetch_kept; eauto. lia.
        * change (poll u < revision (hist (view u))). rewrite EP. destruct (O_hist _ _ (goes_all t u ltac:(lia))) as [l ->]. rewrite revision_app. unfold revision in *. lia.
    - destruct IH as [IH|(evs & IH & LT)].
      + right. unfold batch, poll in *. rewrite S2. cbn [with_b s_b]. unfold publish_all. rewrite IH. auto.
      + left. unfold batch, poll in *. rewrite S2. cbn [with_b s_b]. unfold publish_all. rewrite IH. cbn [b_poll]. rewrite EP. exact LT. }
  destruct PO as (P1 & P2 & P3). destruct (P1 t1) as (u & LU & EU).
  assert (AT : poll t < poll (S u) \/ poll (S u) = poll t /\ exists evs, batch (S u) = Some evs /\ poll t < last_rev evs (poll t)).
  { destruct (INV (S u) ltac:(lia)) as [I1|[I1 [I2|I2]]]; auto. exfalso.
    pose proof (view_step u ltac:(lia)) as M. rewrite EU in M. cbn [moved] in M. rewrite Nat.eqb_refl in M. unfold batch in I2. rewrite M in I2. cbn [with_b s_b] in I2.
    destruct (fetch_batch_some (s_b (view u))) as [evs X]; [apply acked; lia|congruence]. }
  destruct AT as [AT|(AP & evs & AB & AL)]; [exists (S u); split; [lia|exact AT]|].
  destruct (P2 (S u)) as (w & LW & EW).
  assert (INV2 : forall x, (S u <= x)%nat -> poll t < poll x \/ poll x = poll t /\ exists evs, batch x = Some evs /\ poll t < last_rev evs (poll t)).
  { intros x LX. induction LX as [|x LX IH]; [eauto|]. destruct IH as [IH|(EP & evs' & IH & LT)]; [left; pose proof (O_poll _ _ (step_goes x ltac:(lia))); lia|].
    destruct (batch_step x ltac:(lia)) as [[S1 S2]|[(f & S1 & S2 & S3)|[S1 S2]]].
    - right. rewrite S1, S2. eauto.
    - right. split; [lia|]. exists evs'. split; [|exact LT]. unfold batch in *. rewrite S2. unfold fetch. destruct (b_dead _); [exact IH|]. now rewrite IH.
    - left. unfold batch, poll in *. rewrite S2. cbn [with_b s_b]. unfold publish_all. rewrite IH. cbn [b_poll]. rewrite EP. exact LT. }
  exists (S w). split; [lia|]. destruct (INV2 w LW) as [I1|(I1 & evs' & I2 & I3)]; [pose proof (O_poll _ _ (step_goes w ltac:(lia))); lia|].
  pose proof (view_step w ltac:(lia)) as M. rewrite EW in M. cbn [moved] in M. rewrite Nat.eqb_refl in M. unfold batch, poll in *. rewrite M. cbn [with_b s_b]. unfold publish_all. rewrite I2. cbn [b_poll]. rewrite I1. exact I3.
Qed.
Lemma poll_reaches n : forall t R, (T <= t)%nat -> R <= revision (hist (view t)) -> R - poll t <= Z.of_nat n -> exists t', (t <= t')%nat /\ R <= poll t'.
Proof.
  induction n as [|n IH]; intros t R L H N; [exists t; split; lia|].
  destruct (Z_le_gt_dec R (poll t)) as [LE|GT]; [exists t; split; lia|].
  destruct (poll_more t L ltac:(lia)) as (t1 & L1 & P1).
  destruct (IH t1 R ltac:(lia)) as (t2 & L2 & P2); [|lia|exists t2; split; lia].
  destruct (O_hist _ _ (goes_all t t1 ltac:(lia))) as [l ->]. rewrite revision_app. unfold revision in *. lia.
Qed.

(** ---- the change is put into the channel ---- *)
Section Change.
Variables (r : reg) (t0 : nat) (R : Z) (e : entry).
Hypothesis REG : registered r.
Hypothesis L0 : (T <= t0)%nat.
Hypothesis R1 : 1 <= R.
Hypothesis RE : nth_error (hist (view t0)) (Z.to_nat (R - 1)) = Some e.
Hypothesis RK : in_range lo hi (e_key e).
Hypothesis RB : begins r < R.
Definition queued (us : list update) (h : history) : Prop := exists ev, In ev (delivered us id) /\ ev_rev ev = R /\ truthful_event h R ev.
Lemma queued_more us l h l' : queued us h -> queued (us ++ l) (h ++ l').
Proof. intros (ev & I & E & TR). exists ev. split; [rewrite delivered_app; apply in_app_iff; auto|]. split; auto. now apply truthful_extend. Qed.
Definition inside (t : nat) : Prop := g_open (grp t) = true -> queued (g_updates (grp t)) (hist (view t)).
Lemma inside_step t : (T <= t)%nat -> inside t -> inside (S t).
Proof.
  intros L H O. pose proof (step_goes t L) as G. destruct (O_updates _ _ G) as [l ->]. destruct (O_hist _ _ G) as [l' ->]. apply queued_more, H. now apply (gr_open _ _ (O_grow _ _ G)).
Qed.
Lemma publish_inside t : (t0 <= t)%nat -> R <= poll t -> sch t = KBack j APublish -> batch t <> None -> inside (S t).
Proof.
  intros L P E B O. pose proof (view_step t ltac:(lia)) as M. rewrite E in M. cbn [moved] in M. rewrite Nat.eqb_refl in M.
  destruct (batch t) as [evs|] eqn:BE; [|congruence]. unfold batch in BE.
  pose proof (grp_some (S t) ltac:(lia)) as I. pose proof (I_group _ _ I) as G. rewrite M in G. unfold group_of in G. cbn [with_b s_b s_i] in G.
  destruct (view_inv t ltac:(lia)) as (SC & _). pose proof (scalm_calm _ SC) as CR. destruct REG as (E1 & E2 & E3 & E4 & IN).
  destruct (acked (S t) ltac:(lia)) as (A1 & A2 & _). rewrite <- E1 in A1, A2.
  assert (IN' : In r (g_regs (grp (S t)))) by (apply (gr_regs _ _ (O_grow _ _ (goes_all T (S t) ltac:(lia)))); exact IN).
  destruct (publish_complete True (s_b (view t)) evs (s_i (view t)) (grp (S t)) r (calm_Binv _ CR) (calm_breach _ CR) BE G O IN' A1 A2) as [RP _].
  apply reports_rep in RP. destruct RP as (_ & EX & TR). rewrite E2, E3 in EX.
  assert (PL : poll t <= b_poll (bstep (s_b (view t)) APublish)).
  { pose proof (O_poll _ _ (step_goes t ltac:(lia))) as X. unfold poll in *. rewrite M in X. exact X. }
  assert (IR : In R (map ev_rev (delivered (g_updates (grp (S t))) (r_id r)))).
  { apply EX. split; [lia|]. split; [exact R1|]. exists e. split; [|exact RK]. destruct (O_hist _ _ (goes_all t0 t ltac:(lia))) as [l HL].
    change (history_of (snd (b_world (s_b (view t))))) with (hist (view t)). rewrite HL, nth_error_app1; [exact RE|]. apply nth_error_Some. congruence. }
  apply in_map_iff in IR. destruct IR as (ev & EV & IE). rewrite Forall_forall in TR. pose proof (TR ev IE) as TE. rewrite EV in TE.
  exists ev. rewrite <- E1. split; [exact IE|]. split; [exact EV|]. destruct (O_hist _ _ (step_goes t ltac:(lia))) as [l ->]. apply truthful_extend. exact TE.
Qed.
Lemma gets_inside : exists t, (t0 <= t)%nat /\ inside t.
Proof.
  assert (RL : R <= revision (hist (view t0))). { unfold revision. assert (X : nth_error (hist (view t0)) (Z.to_nat (R - 1)) <> None) by congruence. apply nth_error_Some in X. lia. }
  destruct (poll_reaches (Z.to_nat (R - poll t0)) t0 R L0 RL ltac:(lia)) as (t1 & L1 & P1).
  destruct PO as (F & P & B). destruct (F t1) as (u & LU & EU). destruct (P (S u)) as (w & LW & EW).
  assert (INV : forall x, (S u <= x)%nat -> batch x <> None \/ inside x).
  { intros x LX. induction LX as [|x LX IH].
    - left. pose proof (view_step u ltac:(lia)) as M. rewrite EU in M. cbn [moved] in M. rewrite Nat.eqb_refl in M. unfold batch. rewrite M. cbn [with_b s_b].
      destruct (fetch_batch_some (s_b (view u))) as [evs X]; [apply acked; lia|congruence].
    - destruct IH as [IH|IH]; [|right; apply inside_step; auto; lia].
      destruct (batch_step x ltac:(lia)) as [[S1 S2]|[(f & S1 & S2 & S3)|[S1 S2]]].
      + left. now rewrite S1.
      + left. unfold batch in *. rewrite S2. unfold fetch. destruct (b_dead _); [exact IH|]. destruct (b_batch (s_b (view x))) eqn:E; [rewrite E; discriminate|congruence].
      + right. apply publish_inside; auto; [lia|]. pose proof (O_poll _ _ (goes_all t1 x ltac:(lia))). lia. }
  exists (S w). split; [lia|]. destruct (INV w LW) as [I|I]; [|apply inside_step; auto; lia].
  apply publish_inside; auto; [lia|]. pose proof (O_poll _ _ (goes_all t1 w ltac:(lia))). lia.
Qed.
End Change.

(** ---- the channel is emptied ---- *)
Lemma hold_step t : (T <= t)%nat ->
  (s_hold (view (S t)) = s_hold (view t) /\ g_taken (grp (S t)) = g_taken (grp t)) \/
  (sch t = KStream j i SRecv /\ view (S t) = sstep (view t) SRecv) \/ (sch t = KStream j i SSend /\ view (S t) = sstep (view t) SSend).
Proof.
  intros L. pose proof (view_step t L) as M. pose proof (I_group _ _ (grp_some t L)) as G.
  assert (QU : quiet (view t) (view (S t)) -> s_hold (view (S t)) = s_hold (view t) /\ g_taken (grp (S t)) = g_taken (grp t)).
  { intros [Q1 Q2 Q3 Q4 Q5 Q6]. split; [now rewrite Q1|]. unfold grp. now rewrite Q2. }
  assert (BK : forall act, foreign (s_i (view t)) act = true -> view (S t) = with_b (view t) (bstep (s_b (view t)) act) -> s_hold (view (S t)) = s_hold (view t) /\ g_taken (grp (S t)) = g_taken (grp t)).
  { intros act F V. destruct (foreign_group (s_b (view t)) act (s_i (view t)) (grp t) F G) as (g' & N' & E1 & _). split; [now rewrite V|].
    unfold grp at 1. rewrite V. unfold group_of. cbn [with_b s_b s_i]. now rewrite N'. }
  destruct (sch t) as [x| |j'|j' a|j'|j' i' a] eqn:E; cbn [moved] in M; auto.
  - left. destruct a; auto; (destruct (Nat.eqb_spec j' j) as [->|]; [|auto]); [apply (BK (AFetch f))|apply (BK APublish)]; auto.
  - destruct (_ && _) eqn:HERE; [|auto]. apply andb_true_iff in HERE. rewrite !Nat.eqb_eq in HERE. destruct HERE as [-> ->].
    destruct (match a with SBack _ => true | _ => false end) eqn:SB; [destruct a; try discriminate; auto|].
    assert (V : view (S t) = sstep (view t) a) by (destruct a; try discriminate; exact M).
    destruct (own_group (view t) a (grp t) id ltac:(intros x ->; discriminate) G) as (g' & N' & _ & _ & _ & TK & _).
    assert (EG : grp (S t) = g') by (unfold grp; now rewrite V, N').
    destruct a as [a| | | | |wid lo' hi' st'|f|f| |id'| | | ]; auto; left; destruct TK as [TK|TK]; try discriminate; rewrite EG; (split; [rewrite V|exact TK]); cbn [sstep].
    + unfold s_tick. destruct (s_creating _); reflexivity.
    + destruct (s_ended _); [auto|]. unfold s_progress_req. destruct (s_creating _); [auto|]. destruct (s_closing _); auto.
    + destruct (s_ended _); [auto|]. unfold s_create. destruct (s_creating _); [auto|]. destruct (s_closing _); [auto|]. rewrite G. destruct (negb _); [auto|]. now rewrite watch_step_hold.
    + destruct (s_creating _); [|auto]. apply watch_step_hold.
    + destruct (s_creating _); [|auto]. apply watch_step_hold.
    + destruct (s_creating _); [|auto]. apply watch_step_hold.
    + destruct (s_ended _); [auto|]. unfold s_cancel. destruct (s_creating _); [auto|]. destruct (s_closing _); auto.
    + unfold s_forget. destruct (s_closing _); auto.
    + unfold s_eof. destruct (s_creating _); [auto|]. destruct (s_closing _); auto.
    + destruct (s_ended _); auto.
Qed.
Lemma hold_none t : (T <= t)%nat -> exists t', (t <= t')%nat /\ s_hold (view t') = None.
Proof.
  intros L. destruct CO as (_ & C). destruct (C t) as (u & LU & EU & (c & st & ES & IDLE)).
  assert (V : view u = st) by (unfold view; now rewrite ES).
  destruct (s_hold (view u)) as [ws|] eqn:H; [|exists u; auto]. exists (S u). split; [lia|].
  pose proof (view_step u ltac:(lia)) as M. rewrite EU in M. cbn [moved] in M. rewrite !Nat.eqb_refl in M. cbn [andb] in M. rewrite M. cbn [sstep]. unfold s_send. rewrite H, V, IDLE. reflexivity.
Qed.
Lemma take_more t : (T <= t)%nat -> (g_taken (grp t) < length (g_updates (grp t)))%nat ->
  exists t', (t <= t')%nat /\ (g_open (grp t') = true -> (g_taken (grp t) < g_taken (grp t'))%nat).
Proof.
  intros L N. destruct (hold_none t L) as (t1 & L1 & H1).
  assert (INV : forall u, (t1 <= u)%nat -> (g_taken (grp t) < g_taken (grp u))%nat \/ g_taken (grp u) = g_taken (grp t) /\ s_hold (view u) = None).
  { intros u LU. induction LU as [|u LU IH].
    - pose proof (O_taken _ _ (goes_all t t1 ltac:(lia))). destruct (Nat.eq_dec (g_taken (grp t1)) (g_taken (grp t))); [right; auto|left; lia].
    - destruct IH as [IH|[I1 I2]]; [left; pose proof (O_taken _ _ (step_goes u ltac:(lia))); lia|].
      destruct (hold_step u ltac:(lia)) as [[S1 S2]|[[S1 S2]|[S1 S2]]].
      + right. split; congruence.
      + cbn [sstep] in S2. destruct (s_done (view u)) eqn:D. { right. unfold grp. rewrite S2. auto. }
        unfold s_recv in S2. rewrite I2 in S2. pose proof (I_group _ _ (grp_some u ltac:(lia))) as G. rewrite G in S2.
        destruct (nth_error (g_updates (grp u)) (g_taken (grp u))) as [up|] eqn:NU.
        * left. unfold grp at 2. rewrite S2. unfold group_of. cbn [s_b s_i bstep]. rewrite (set_group_nth _ _ _ _ G). unfold take.
          assert (X : (g_taken (grp u) <? length (g_updates (grp u)))%nat = true) by (apply Nat.ltb_lt, nth_error_Some; congruence). rewrite X. cbn. lia.
        * right. assert (EV : group_of (view (S u)) = group_of (view u)) by (rewrite S2; destruct (g_open (grp u)); reflexivity).
          split; [unfold grp; rewrite EV; exact I1|]. rewrite S2. destruct (g_open (grp u)); auto.
      + right. cbn [sstep] in S2. unfold s_send in S2. rewrite I2 in S2. unfold grp. rewrite S2. auto. }
  destruct CO as (C & _). destruct (C t1) as (u & LU & EU). exists (S u). split; [lia|]. intros O.
  assert (LE : (g_taken (grp u) <= g_taken (grp (S u)))%nat) by (apply (O_taken _ _ (step_goes u ltac:(lia)))).
  destruct (INV u LU) as [I|[I1 I2]]; [lia|].
  pose proof (view_step u ltac:(lia)) as S2. rewrite EU in S2. cbn [moved] in S2. rewrite !Nat.eqb_refl in S2. cbn [andb sstep] in S2.
  pose proof (I_group _ _ (grp_some u ltac:(lia))) as G.
  destruct (s_done (view u)) eqn:D.
  { exfalso. destruct (view_inv u ltac:(lia)) as (SC & _). pose proof (done_closed _ (scalm_sreach _ SC) D _ G) as X.
    apply (gr_open _ _ (O_grow _ _ (step_goes u ltac:(lia)))) in O. congruence. }
  unfold s_recv in S2. rewrite I2, G in S2.
  destruct (nth_error (g_updates (grp u)) (g_taken (grp u))) as [up|] eqn:NU.
  - unfold grp at 2. rewrite S2. unfold group_of. cbn [s_b s_i bstep]. rewrite (set_group_nth _ _ _ _ G). unfold take.
    assert (X : (g_taken (grp u) <? length (g_updates (grp u)))%nat = true) by (apply Nat.ltb_lt, nth_error_Some; congruence). rewrite X. cbn. lia.
  - exfalso. apply nth_error_None in NU. destruct (O_updates _ _ (goes_all t u ltac:(lia))) as [l EL]. rewrite EL, app_length in NU. lia.
Qed.
Lemma take_all n : forall t N, (T <= t)%nat -> (N <= length (g_updates (grp t)))%nat -> (N - g_taken (grp t) <= n)%nat ->
  exists t', (t <= t')%nat /\ (g_open (grp t') = true -> (N <= g_taken (grp t'))%nat).
Proof.
  induction n as [|n IH]; intros t N L LN LE; [exists t; split; [lia|intros _; lia]|].
  destruct (Nat.le_gt_cases N (g_taken (grp t))) as [X|X]; [exists t; split; [lia|auto]|].
  destruct (take_more t L ltac:(lia)) as (t1 & L1 & K). destruct (g_open (grp t1)) eqn:O; [|exists t1; split; [lia|congruence]]. specialize (K eq_refl).
  destruct (IH t1 N ltac:(lia)) as (t2 & L2 & K2); [|lia|exists t2; split; [lia|exact K2]].
  destruct (O_updates _ _ (goes_all t t1 ltac:(lia))) as [l ->]. rewrite app_length. lia.
Qed.

Lemma comes_out t0 R e : (T <= t0)%nat -> 1 <= R -> nth_error (commits (dids (k_log (kat cfg sch t0)))) (Z.to_nat (R - 1)) = Some e -> in_range lo hi (e_key e) ->
  (0 < start <= R \/ revision (commits (dids (k_log (kat cfg sch T)))) < R) ->
  exists t, (T <= t)%nat /\ ((exists ev, received (k_log (kat cfg sch t)) conn id ev /\ ev_rev ev = R /\ truthful_event (commits (dids (k_log (kat cfg sch t)))) R ev) \/ closed (kat cfg sch t) j i).
Proof.
  intros L0 R1 RE RK RS. destruct has_reg as [r REG].
  assert (RB : begins r < R).
  { destruct REG as (E1 & E2 & E3 & E4 & IN). unfold begins. rewrite E4. destruct (view_inv T (le_n _)) as (SC & _ & _ & HH).
    pose proof (I_group _ _ (grp_some T (le_n _))) as G. pose proof (calm_Binv _ (scalm_calm _ SC)) as B. pose proof (group_inv _ _ _ _ B G) as GI.
    destruct (G_hi _ _ _ _ GI r IN) as [_ C]. pose proof (B_poll _ _ B) as BP. change (history_of (snd (b_world (s_b (view T))))) with (hist (view T)) in BP. rewrite HH in BP.
    destruct (Z.ltb_spec 0 start); destruct RS as [RS|RS]; lia. }
  destruct (view_inv t0 L0) as (_ & _ & _ & H0). rewrite <- H0 in RE.
  destruct (gets_inside r t0 R e REG L0 R1 RE RK RB) as (t1 & L1 & IN1).
  destruct (take_all (length (g_updates (grp t1)) - g_taken (grp t1)) t1 (length (g_updates (grp t1))) ltac:(lia) ltac:(lia) ltac:(lia)) as (t2 & L2 & K2).
  destruct (hold_none t2 ltac:(lia)) as (t3 & L3 & H3). exists t3. split; [lia|].
  destruct (g_open (grp t3)) eqn:O.
  - left. pose proof (goes_all t2 t3 ltac:(lia)) as G23. pose proof (goes_all t1 t3 ltac:(lia)) as G13.
    assert (O1 : g_open (grp t1) = true) by (apply (gr_open _ _ (O_grow _ _ G13)); exact O). assert (O2 : g_open (grp t2) = true) by (apply (gr_open _ _ (O_grow _ _ G23)); exact O).
    specialize (K2 O2). pose proof (O_taken _ _ G23) as TK. destruct (IN1 O1) as (ev & IE & EV & TR). destruct (O_updates _ _ G13) as [l UE]. destruct (O_hist _ _ G13) as [lh HE].
    destruct (view_inv t3 ltac:(lia)) as (SC & SA & _ & HH). exists ev. split; [|split; [exact EV|rewrite <- HH, HE; now apply truthful_extend]].
    unfold received. rewrite SA. pose proof (I_hold _ _ (grp_some t3 ltac:(lia))) as IH. rewrite H3 in IH. destruct IH as [IH _]. rewrite IH.
    replace (firstn (g_taken (grp t3)) (g_updates (grp t3))) with (g_updates (grp t1) ++ firstn (g_taken (grp t3) - length (g_updates (grp t1))) l).
    + rewrite delivered_app. apply in_app_iff. auto.
    + rewrite UE, firstn_app. rewrite (firstn_all2 (g_updates (grp t1))) by lia. reflexivity.
  - right. exists conn, (view t3), (grp t3). split; [apply view_some; lia|]. split; [|exact O]. apply (I_group _ _ (grp_some t3 ltac:(lia))).
Qed.
End Run.
