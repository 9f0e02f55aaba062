(** Reasoning about programs under interference. *)
From Coq Require Import List ZArith Bool Lia.
From Verif Require Import Bytes Spec Sql System Prog Backend SpecLemmas SqlLemmas Sim.
Import ListNotations.
Open Scope Z_scope.

Lemma wsteps_trans a b c : wsteps a b -> wsteps b c -> wsteps a c.
Proof. intros H K. induction K; auto. constructor; auto. Qed.

Lemma wsteps_env env w : env_ok w env -> wsteps w (fold_left wapply env w).
Proof.
  revert w. induction env as [|a env IH]; simpl; intros w H; [constructor|].
  destruct H as [H1 H2]. eapply wsteps_trans; [|apply IH; auto].
  apply (wsteps_one w w a); auto. constructor.
Qed.

Lemma wsteps_reach w w' : wreach w -> wsteps w w' -> wreach w'.
Proof.
  intros H K. induction K; auto. unfold wreach in *. simpl. constructor; auto.
Qed.

(** history grows, floor grows *)
Definition extends (s s' : store) : Prop :=
  (exists l, history_of s' = history_of s ++ l) /\ floor_of s <= floor_of s'.

Lemma extends_refl s : extends s s.
Proof. split; [exists []; now rewrite app_nil_r|lia]. Qed.
Lemma extends_trans a b c : extends a b -> extends b c -> extends a c.
Proof.
  intros [[l H] F] [[l' H'] F']. split; [|lia]. exists (l ++ l'). now rewrite app_assoc, <- H, <- H'.
Qed.
Lemma spec_apply_extends s a : extends s (fst (spec_apply s a)).
Proof.
  assert (C : forall k c, extends s (fst (commit s k c))).
  { intros. unfold commit, extends. simpl. split; [eauto|lia]. }
  destruct a as [k v ttl|k v rev ttl|k rev|start stop|rev]; simpl.
  - unfold spec_create. destruct (now _ k); simpl; auto using extends_refl. apply (C k (Put v ttl)).
  - unfold spec_update. destruct (now _ k) as [x|]; [destruct (kv_mod x =? rev)|]; simpl; auto using extends_refl. apply (C k (Put v ttl)).
  - unfold spec_delete. destruct (now _ k) as [x|]; [destruct (kv_mod x =? rev)|]; simpl; auto using extends_refl. apply (C k Del).
  - unfold extends. simpl. split; [exists []; now rewrite app_nil_r|lia].
  - apply extends_refl.
Qed.
Lemma wsteps_extends w w' : wsteps w w' -> extends (snd w) (snd w').
Proof.
  intros H. induction H; [apply extends_refl|]. eapply extends_trans; eauto.
  simpl. apply spec_apply_extends.
Qed.
Lemma extends_revision s s' : extends s s' -> revision (history_of s) <= revision (history_of s').
Proof. intros [[l ->] _]. rewrite revision_app. pose proof (revision_nonneg l). lia. Qed.
Lemma extends_kv_at s s' n k : extends s s' -> n <= revision (history_of s) ->
  kv_at (history_of s') n k = kv_at (history_of s) n k.
Proof. intros [[l ->] _] H. now apply kv_at_app. Qed.

(** the bookkeeping key, once present, stays *)
Lemma ck_stays s a : allowed s a -> now (history_of s) compact_rev_key <> None ->
  now (history_of (fst (spec_apply s a))) compact_rev_key <> None.
Proof.
  intros A N. 
  assert (C : forall k c, (c = Del -> k <> compact_rev_key) -> now (history_of (fst (commit s k c))) compact_rev_key <> None).
  { intros k c H. unfold commit. simpl. rewrite now_snoc. unfold change_key. simpl.
    destruct (beqb k compact_rev_key) eqn:E; auto. apply beqb_true in E. destruct c; [discriminate|].
    exfalso. apply H; auto. }
  destruct a as [k v ttl|k v rev ttl|k rev|start stop|rev]; simpl in *.
  - unfold spec_create. destruct (now _ k); simpl; auto; apply (C k (Put v ttl)); discriminate.
  - unfold spec_update. destruct (now _ k) as [x|]; [destruct (kv_mod x =? rev)|]; simpl; auto; apply (C k (Put v ttl)); discriminate.
  - unfold spec_delete. destruct (now _ k) as [x|]; [destruct (kv_mod x =? rev)|]; simpl; auto; apply (C k Del); auto.
  - auto.
  - auto.
Qed.
Lemma wsteps_ck w w' : wsteps w w' -> now (history_of (snd w)) compact_rev_key <> None ->
  now (history_of (snd w')) compact_rev_key <> None.
Proof. induction 1; auto. intros. simpl. apply ck_stays; auto. Qed.

(** compaction permissions are stable *)
Lemma compact_allowed_stable w w' start stop : wsteps w w' ->
  allowed (snd w) (ACompact start stop) -> allowed (snd w') (ACompact start stop).
Proof.
  intros H (A & B & C). pose proof (wsteps_extends _ _ H) as E.
  pose proof (extends_revision _ _ E). destruct E as [_ F].
  split; [lia|split; [lia|]]. eapply wsteps_ck; eauto.
Qed.

(** ---- weakest precondition under interference ---- *)
(** A program's own compactions leave a margin of 100 revisions. *)
Definition margin (s : store) (a : aop) : Prop :=
  match a with
  | ACompact _ stop => stop + superseded_count <= revision (history_of s)
  | _ => True
  end.
Definition call_ok (s : store) (c : call) : Prop :=
  match op_of c with Some a => allowed s a /\ margin s a | None => True end.

Fixpoint wp {A} (okf : fault -> Prop) (p : prog A) (Q : world -> A -> Prop) (w : world) : Prop :=
  match p with
  | Ret a => Q w a
  | Call c k => forall w1, wsteps w w1 -> call_ok (snd w1) c /\
      forall f, okf f -> wp okf (k (snd (sem f c w1))) Q (fst (sem f c w1))
  end.

Lemma wp_mono {A} okf (p : prog A) (Q Q' : world -> A -> Prop) w :
  (forall w a, Q w a -> Q' w a) -> wp okf p Q w -> wp okf p Q' w.
Proof.
  intros H. revert w. induction p; simpl; auto. intros w K w1 S. destruct (K w1 S). split; auto.
Qed.

Lemma sem_wsteps f c w : call_ok (snd w) c -> wsteps w (fst (sem f c w)).
Proof.
  intros H. assert (wsteps w (weffect c w)).
  { unfold weffect, call_ok in *. destruct (op_of c); [|constructor]. apply (wsteps_one w w); [constructor|tauto]. }
  destruct f; simpl; auto. constructor.
Qed.

(** postconditions may also use that the world moved by allowed steps *)
Lemma wp_strengthen {A} okf (p : prog A) (Q : world -> A -> Prop) w :
  wp okf p Q w -> wp okf p (fun w' a => wsteps w w' /\ Q w' a) w.
Proof.
  assert (G : forall w0 w, wsteps w0 w -> wp okf p Q w -> wp okf p (fun w' a => wsteps w0 w' /\ Q w' a) w).
  { clear w. induction p as [a|c k IH]; simpl; auto. intros w0 w S K w1 S1. destruct (K w1 S1) as [K1 K2].
    split; auto. intros f Hf. apply IH; auto. eapply wsteps_trans; [|apply sem_wsteps; auto].
    eapply wsteps_trans; eauto. }
  intros; apply G; auto. constructor.
Qed.

Lemma wp_bind {A B} okf (p : prog A) (g : A -> prog B) Q w :
  wp okf p (fun w' a => wp okf (g a) Q w') w -> wp okf (pbind p g) Q w.
Proof.
  revert w. induction p as [a|c k IH]; simpl; auto. intros w K w1 S. destruct (K w1 S). split; auto.
Qed.

Lemma wp_rbind {A B} okf (p : prog (result A)) (g : A -> prog (result B)) Q w :
  wp okf p (fun w' r => match r with Ok a => wp okf (g a) Q w' | Err e => Q w' (Err e) end) w ->
  wp okf (rbind p g) Q w.
Proof.
  intros. unfold rbind. apply wp_bind. eapply wp_mono; [|apply H]. intros w' [a|e]; simpl; auto.
Qed.

Lemma wp_step {A} okf (p : prog A) (Q : world -> A -> Prop) w w' : (forall a, Q w a -> Q w' a) -> wsteps w w' -> wp okf p Q w -> wp okf p Q w'.
Proof.
  destruct p; simpl; auto. intros _ S K w1 S1. apply K. eapply wsteps_trans; eauto.
Qed.

Lemma wp_retry n c (okf : fault -> Prop) (Q : world -> result (ret_of c) -> Prop) w :
  (forall w1, wsteps w w1 -> call_ok (snd w1) c /\
     forall f, okf f -> Q (fst (sem f c w1)) (snd (sem f c w1))) ->
  wp okf (with_retry (S n) c) Q w.
Proof.
  revert w. induction n as [|n IH]; intros w H.
  - simpl. intros w1 S. destruct (H w1 S) as [H1 H2]. split; auto. intros f Hf.
    specialize (H2 f Hf). destruct (snd (sem f c w1)); auto.
  - change (with_retry (S (S n)) c) with (Call c (fun r =>
        match r with Ok _ => Ret r | Err e => if retryable e then with_retry (S n) c else Ret r end)).
    simpl wp. intros w1 S. destruct (H w1 S) as [H1 H2]. split; auto. intros f Hf.
    pose proof (H2 f Hf) as H3. destruct (snd (sem f c w1)) eqn:E; auto.
    destruct (retryable e); auto. apply IH. intros w2 S2. apply H.
    eapply wsteps_trans; [|eauto]. eapply wsteps_trans; eauto. now apply sem_wsteps.
Qed.

Lemma max_retries_S : exists n, max_retries = S n.
Proof. exists 499%nat. reflexivity. Qed.

Lemma wp_query c (okf : fault -> Prop) (Q : world -> result (ret_of c) -> Prop) w :
  (forall w1, wsteps w w1 -> call_ok (snd w1) c /\
     forall f, okf f -> Q (fst (sem f c w1)) (snd (sem f c w1))) ->
  wp okf (with_retry max_retries c) Q w.
Proof. destruct max_retries_S as (n & ->). apply wp_retry. Qed.

#[global] Opaque max_retries.
#[global] Arguments rbind : simpl never.
#[global] Arguments pbind : simpl never.

Definition all_faults (okf : fault -> Prop) (sched : list (list aop * fault)) : Prop :=
  Forall (fun x => okf (snd x)) sched.

Lemma wp_exec {A} okf (p : prog A) Q : forall sched w,
  wp okf p Q w -> fair p sched w -> all_faults okf sched ->
  wsteps w (fst (exec p sched w)) /\
  forall a, snd (exec p sched w) = Some a -> Q (fst (exec p sched w)) a.
Proof.
  induction p as [a|c k IH]; intros sched w W F O.
  - simpl. split; [constructor|]. intros a' [= <-]. exact W.
  - destruct sched as [|[env f] sched]; simpl.
    + split; [constructor|discriminate].
    + simpl in F. destruct F as [F1 F2]. inversion O; subst. simpl in H1.
      set (w1 := fold_left wapply env w) in *.
      assert (S1 : wsteps w w1) by (now apply wsteps_env).
      destruct (W w1 S1) as [C K]. specialize (K f H1).
      destruct (sem f c w1) as [w2 r] eqn:E. simpl in *.
      assert (S2 : wsteps w1 w2).
      { replace w2 with (fst (sem f c w1)) by (now rewrite E). now apply sem_wsteps. }
      destruct (IH r sched w2 K F2 H2) as [A1 A2]. split; auto.
      eapply wsteps_trans; [apply S1|]. eapply wsteps_trans; eauto.
Qed.

(** undisturbed execution is one particular schedule *)
Fixpoint quiet {A} (p : prog A) (w : world) : list (list aop * fault) :=
  match p with
  | Ret _ => []
  | Call c k => ([], NoFault) :: quiet (k (snd (sem NoFault c w))) (fst (sem NoFault c w))
  end.
Lemma quiet_exec {A} (p : prog A) w : exec p (quiet p w) w = (fst (run p w), Some (snd (run p w))).
Proof.
  revert w. induction p as [a|c k IH]; intros w; auto.
  simpl quiet. simpl exec. rewrite IH. reflexivity.
Qed.
Lemma quiet_fair {A} (p : prog A) w : fair p (quiet p w) w.
Proof. revert w. induction p as [a|c k IH]; intros w; simpl; auto. Qed.
Lemma quiet_faults {A} (p : prog A) w : all_faults no_cut (quiet p w).
Proof. revert w. induction p as [a|c k IH]; intros w; simpl; constructor; simpl; auto; apply IH. Qed.

(** running: bind *)
Lemma run_bind {A B} (p : prog A) (g : A -> prog B) w :
  run (pbind p g) w = run (g (snd (run p w))) (fst (run p w)).
Proof.
  revert w. induction p as [a|c k IH]; intros w; auto. simpl. apply IH.
Qed.
Lemma run_rbind {A B} (p : prog (result A)) (g : A -> prog (result B)) w :
  run (rbind p g) w = match snd (run p w) with
                      | Ok a => run (g a) (fst (run p w))
                      | Err e => (fst (run p w), Err e) end.
Proof. unfold rbind. rewrite run_bind. destruct (snd (run p w)); auto. Qed.
Lemma run_retry n c w : run (with_retry (S n) c) w = (weffect c w, Ok (answer None true c (fst w))).
Proof. simpl. destruct n; reflexivity. Qed.
Lemma run_query c w : run (with_retry max_retries c) w = (weffect c w, Ok (answer None true c (fst w))).
Proof. destruct max_retries_S as (n & ->). apply run_retry. Qed.

(** ---- interval query ---- *)
Lemma interval_R d s : R d s ->
  null_int64 (fst (revision_interval_sql d)) = floor_of s /\
  null_int64 (snd (revision_interval_sql d)) = revision (history_of s).
Proof.
  intros HR. pose proof (revision_nonneg (history_of s)) as Hpos. split; simpl.
  - set (C := filter (fun r => beqb (name r) compact_rev_key) (rows d)).
    assert (InC : forall x, In x C -> In x (rows d) /\ name x = compact_rev_key /\ prev_revision x = floor_of s).
    { intros x Hx. apply filter_In in Hx. destruct Hx as [I B]. apply beqb_true in B. repeat split; auto.
      destruct (R_row _ _ HR _ I) as (c & E & _ & _ & P).
      destruct (R_ck _ _ HR _ _ E) as [_ K]; [simpl; auto|]. rewrite B, K in P. now apply P. }
    destruct (max_opt (map prev_revision C)) as [m|] eqn:E; simpl.
    + apply max_opt_spec in E. destruct E as [I _]. apply in_map_iff in I. destruct I as (x & <- & Hx).
      apply InC in Hx. tauto.
    + apply max_opt_none in E. destruct C as [|x C'] eqn:EC; [|discriminate].
      symmetry. apply (R_ckfloor _ _ HR). rewrite (read_now d s) by auto. fold C. rewrite EC. reflexivity.
  - destruct (Z.eq_dec (revision (history_of s)) 0) as [Z0|NZ].
    + destruct (max_opt (map id (rows d))) as [m|] eqn:E; simpl; auto.
      apply max_opt_spec in E. destruct E as [I _]. apply in_map_iff in I. destruct I as (x & <- & Hx).
      pose proof (R_rows_rev _ _ _ HR Hx). lia.
    + destruct (ent_some (history_of s) (revision (history_of s))) as [e E]; [lia|].
      assert (K : retained (history_of s) (floor_of s) (revision (history_of s)) e).
      { right; left. destruct (R_floor _ _ HR) as [? [?|?]]; lia. }
      apply (R_keep _ _ HR _ _ E) in K. destruct K as (x & I & Ex).
      replace (max_opt (map id (rows d))) with (Some (revision (history_of s))); auto.
      symmetry. apply max_opt_spec. split; [rewrite <- Ex; now apply in_map|].
      intros y Hy. apply in_map_iff in Hy. destruct Hy as (z & <- & Hz). pose proof (R_rows_rev _ _ _ HR Hz). lia.
Qed.

Lemma rev_sql_R d s : R d s ->
  rev_sql d = if revision (history_of s) =? 0 then None else Some (revision (history_of s)).
Proof.
  intros HR. pose proof (interval_R _ _ HR) as [_ H]. unfold rev_sql. simpl in H.
  destruct (max_opt (map id (rows d))) as [m|] eqn:E; simpl in H.
  - subst m. apply max_opt_spec in E. destruct E as [I _]. apply in_map_iff in I. destruct I as (x & Ex & Hx).
    pose proof (R_rows_rev _ _ _ HR Hx). destruct (Z.eqb_spec (revision (history_of s)) 0); auto. lia.
  - rewrite <- H. reflexivity.
Qed.

Opaque revision_interval_sql rev_sql.

(** ---- programs that are called everywhere ---- *)
Lemma wp_get_compact_revision okf w (Q : world -> result (Z * Z) -> Prop) :
  wreach w ->
  (forall w1, wsteps w w1 -> Q w1 (Ok (floor_of (snd w1), revision (history_of (snd w1))))) ->
  (forall w1 e, wsteps w w1 -> Q w1 (Err e)) ->
  wp okf d_get_compact_revision Q w.
Proof.
  intros HW HQ HE. unfold d_get_compact_revision. apply wp_rbind. apply wp_query.
  intros w1 S. split; [exact I|]. intros f Hf. pose proof (wsteps_reach _ _ HW S) as R1.
  pose proof (interval_R _ _ (reach_R _ _ R1)) as [I1 I2].
  specialize (HQ _ S). pose proof (fun e => HE _ e S) as HE'.
  destruct (revision_interval_sql (fst w1)) as [lo hi] eqn:E. simpl in I1, I2. subst.
  rewrite <- I1, <- I2 in HQ.
  change (weffect CInterval w1) with w1 in *.
  destruct f as [|e|e|n e|]; simpl; rewrite ?E; simpl; try apply HQ; try apply HE'.
  destruct n; simpl; rewrite ?E; simpl; try apply HQ; try apply HE'.
Qed.

Lemma run_get_compact_revision w : wreach w ->
  run d_get_compact_revision w = (w, Ok (floor_of (snd w), revision (history_of (snd w)))).
Proof.
  intros H. pose proof (interval_R _ _ (reach_R _ _ H)) as [I1 I2].
  unfold d_get_compact_revision. rewrite run_rbind. unfold d_query. rewrite run_query.
  simpl. destruct (revision_interval_sql (fst w)) as [lo hi]. simpl in *. now rewrite I1, I2.
Qed.
