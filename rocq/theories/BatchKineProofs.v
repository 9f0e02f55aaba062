(** Proofs for the batched write path. *)
From Coq Require Import List ZArith Bool Lia Sorting.Sorted.
From Verif Require Import Bytes Spec Sql System Prog SpecLemmas SqlLemmas Sim ProgLemmas Batch BatchProofs BatchKine.
Import ListNotations.
Open Scope Z_scope.

Local Notation replays := (replays world aop (Z * Z) kine_run).
Local Notation breach_ := (batch_reach world aop (Z * Z) kine_run).
Local Notation BI := (BI world aop (Z * Z) kine_run).

Lemma client_allowed a s : client_write a -> allowed s a.
Proof. destruct a; cbn; intuition. Qed.

(** what one step appends to the log *)
Lemma step_log ok d s a : BI ok d s -> exists l, klog (kstep s a) = klog s ++ l /\ replays l (kworld s) (kworld (kstep s a)) /\
  (forall i st r, In (LJob _ _ i st r) l -> exists j, nth_error (kjobs s) i = Some j /\ j_stmt _ _ j = st) /\
  (forall st, In (LOther _ _ st) l -> a = BOther _ st) /\
  (forall i j, nth_error (kjobs s) i = Some j -> exists j', nth_error (kjobs (kstep s a)) i = Some j' /\ j_stmt _ _ j' = j_stmt _ _ j) /\
  (forall i j, nth_error (kjobs (kstep s a)) i = Some j -> nth_error (kjobs s) i = None -> exists st, a = BSubmit _ st /\ j_stmt _ _ j = st).
Proof.
  intros B. destruct s as [js q w rid cl dc db log]. unfold klog, kworld, kjobs, kstep.
  assert (TRIV : exists l, log = log ++ l /\ replays l db db /\
     (forall i st r, In (LJob _ _ i st r) l -> exists j, nth_error js i = Some j /\ j_stmt _ _ j = st) /\
     (forall st, In (LOther _ _ st) l -> a = BOther _ st) /\
     (forall i j, nth_error js i = Some j -> exists j', nth_error js i = Some j' /\ j_stmt _ _ j' = j_stmt _ _ j) /\
     (forall i j, nth_error js i = Some j -> nth_error js i = None -> exists st, a = BSubmit _ st /\ j_stmt _ _ j = st)).
  { exists []. rewrite app_nil_r. split; [reflexivity|]. split; [reflexivity|]. split; [intros ? ? ? []|]. split; [intros ? []|].
    split; [eauto|]. intros i j X Y. congruence. }
  destruct a as [st|id| |f| |st| |]; cbn [Batch.batch_step b_closed b_worker b_queue b_jobs b_runid b_dbclosed b_db b_log].
  - destruct cl; [exact TRIV|]. exists []. cbn [b_log b_db b_jobs]. rewrite app_nil_r.
    split; [reflexivity|]. split; [reflexivity|]. split; [intros ? ? ? []|]. split; [intros ? []|]. split.
    + intros i j N. exists j. rewrite nth_error_app1 by (apply nth_error_Some; congruence). auto.
    + intros i j N M. apply nth_error_None in M. rewrite nth_error_app2 in N by auto. destruct (i - length js)%nat as [|m]; [|destruct m; discriminate].
      injection N as <-. eauto.
  - exists []. cbn [b_log b_db b_jobs]. rewrite app_nil_r.
    split; [reflexivity|]. split; [reflexivity|]. split; [intros ? ? ? []|]. split; [intros ? []|]. split.
    + intros i j N. rewrite cancel_nth, N. eexists. split; [reflexivity|]. destruct (Nat.eqb i id); reflexivity.
    + intros i j N M. rewrite cancel_nth, M in N. discriminate.
  - destruct w; exact TRIV.
  - destruct w as [| |b|b]; try (exact TRIV).
    destruct (exec_queue world aop (Z * Z) kine_run cl js b f db) as [[js' db'] l] eqn:E.
    assert (ND : NoDup b). { pose proof (K_sorted _ _ _ _ _ _ _ B) as K. cbn [b_log b_worker b_queue todo] in K. apply sorted_app_l in K. destruct K as (_ & K & _). apply sorted_app_l in K. destruct K as (K & _ & _). now apply sorted_nodup. }
    pose proof (K_worker _ _ _ _ _ _ _ B) as KW. cbn [b_worker] in KW.
    destruct (exec_queue_ok _ _ _ _ _ _ _ _ _ _ _ _ ND KW E) as [X1 X2 X3 X4 X5].
    exists l. cbn [b_log b_db b_jobs]. split; [reflexivity|]. split; [exact X3|]. split; [exact X5|]. split.
    { intros st J. exfalso. clear -E J.
      assert (LO : forall l0, In (LOther aop (Z * Z) st) (log_of aop (Z * Z) l0) -> False).
      { intros l0 H. unfold log_of in H. apply in_map_iff in H. destruct H as (x & H & _). discriminate. }
      unfold exec_queue in E. destruct b as [|i0 [|i1 b]]; [injection E as <- <- <-; destruct J| |].
      - destruct (exec_all _ _ _ _ js [i0] 0 f db) as [[d1 l1]|e]; [|injection E as <- <- <-; destruct J].
        destruct f as [|e|n e|e [|]]; injection E as <- <- <-; eauto; destruct J.
      - destruct cl; [injection E as <- <- <-; destruct J|].
        destruct f as [|e|n e|e took]; try (injection E as <- <- <-; destruct J; fail);
          (destruct (exec_all _ _ _ _ js _ 0 _ db) as [[d1 l1]|e1]; [|injection E as <- <- <-; destruct J]); try destruct took; injection E as <- <- <-; eauto; destruct J. }
    split.
    + intros i j N. destruct (X2 i j N) as (j' & N' & (T & _) & _). eauto.
    + intros i j N M. apply nth_error_None in M. rewrite <- X1 in M. apply nth_error_None in M. congruence.
  - destruct w; try (exact TRIV). destruct q; exact TRIV.
  - destruct dc; [exact TRIV|]. exists [LOther _ _ st]. cbn [b_log b_db b_jobs].
    split; [reflexivity|]. split; [reflexivity|]. split; [intros ? ? ? [X|[]]; discriminate|]. split; [intros ? [X|[]]; injection X as <-; reflexivity|].
    split; [eauto|]. intros i j X Y. congruence.
  - exact TRIV.
  - destruct cl; [|exact TRIV]. destruct w; exact TRIV.
Qed.

Definition kinv (s : kbatch) : Prop := wreach (kworld s) /\ (forall i j, nth_error (kjobs s) i = Some j -> client_write (j_stmt _ _ j)) /\ exists w, breach_ any_fault w s.

(** the log replayed, every statement allowed in its place *)
Fixpoint wlog (l : list (logged aop (Z * Z))) (w w' : world) : Prop :=
  match l with
  | [] => w = w'
  | LJob _ _ _ st r :: l => allowed (snd w) st /\ r = snd (apply (fst w) st) /\ wlog l (wapply w st) w'
  | LOther _ _ st :: l => allowed (snd w) st /\ wlog l (wapply w st) w'
  end.
Lemma wlog_app l1 : forall l2 w w1 w2, wlog l1 w w1 -> wlog l2 w1 w2 -> wlog (l1 ++ l2) w w2.
Proof. induction l1 as [|[i st r|st] l1 IH]; cbn [app wlog]; intros l2 w w1 w2 H K; [subst; exact K| |]; intuition eauto. Qed.
Lemma wlog_split l1 : forall l2 w w2, wlog (l1 ++ l2) w w2 -> exists w1, wlog l1 w w1 /\ wlog l2 w1 w2.
Proof.
  induction l1 as [|[i st r|st] l1 IH]; cbn [app wlog]; intros l2 w w2 H; [eauto| |].
  - destruct H as (A & B & C). destruct (IH _ _ _ C) as (w1 & D & E). exists w1. auto.
  - destruct H as (A & C). destruct (IH _ _ _ C) as (w1 & D & E). exists w1. auto.
Qed.
Lemma wlog_wsteps l : forall w w', wlog l w w' -> wsteps w w'.
Proof.
  induction l as [|[i st r|st] l IH]; cbn [wlog]; intros w w' H; [subst; constructor| |].
  - destruct H as (A & _ & H). eapply wsteps_trans; [apply (wsteps_one w w); [constructor|exact A]|]. eauto.
  - destruct H as (A & H). eapply wsteps_trans; [apply (wsteps_one w w); [constructor|exact A]|]. eauto.
Qed.
Lemma replays_wlog l : forall w w', replays l w w' ->
  (forall i st r, In (LJob _ _ i st r) l -> client_write st) -> (forall st, ~ In (LOther _ _ st) l) -> wlog l w w'.
Proof.
  induction l as [|[i st r|st] l IH]; cbn [Batch.replays wlog]; intros w w' H A B.
  - exact H.
  - destruct H as [E H]. cbn [kine_run fst snd] in *.
    split; [apply client_allowed; eapply A; left; reflexivity|]. split; [exact E|]. apply IH; auto.
    + intros. eapply A. right. eauto.
    + intros s0 J. apply (B s0). right. exact J.
  - exfalso. apply (B st). left. reflexivity.
Qed.

Lemma kinv_step s a : kinv s -> kpossible s a -> kinv (kstep s a) /\ exists l, klog (kstep s a) = klog s ++ l /\ wlog l (kworld s) (kworld (kstep s a)) /\
  (forall i j, nth_error (kjobs s) i = Some j -> exists j', nth_error (kjobs (kstep s a)) i = Some j' /\ j_stmt _ _ j' = j_stmt _ _ j).
Proof.
  intros (W & J & w & R) P. pose proof (batch_BI _ _ _ _ _ _ _ R) as B.
  destruct (step_log _ _ s a B) as (l & L1 & L2 & L3 & L4 & L5 & L6).
  assert (S : exists l, klog (kstep s a) = klog s ++ l /\ wlog l (kworld s) (kworld (kstep s a))).
  { assert (D : (exists st, a = BOther _ st) \/ forall st, a <> BOther _ st) by (destruct a; try (right; intros ? X; discriminate X); left; eauto).
    destruct D as [[st ->]|D].
    - unfold kstep, kworld, klog. cbn [Batch.batch_step]. destruct (b_dbclosed world aop (Z * Z) s); [exists []; rewrite app_nil_r; split; reflexivity|]. cbn [b_db b_log kine_run fst].
      exists [LOther _ _ st]. split; [reflexivity|]. cbn [wlog]. split; [exact P|reflexivity].
    - exists l. split; [exact L1|]. apply replays_wlog; auto.
      + intros i st r I. destruct (L3 i st r I) as (j & N & <-). eauto.
      + intros st I. apply L4 in I. exact (D st I). }
  destruct S as (l2 & S1 & S2). split.
  - split; [eapply wsteps_reach; [exact W|]; eapply wlog_wsteps; eauto|]. split.
    + intros i j N. destruct (nth_error (kjobs s) i) as [j0|] eqn:E.
      * destruct (L5 i j0 E) as (j' & N' & T). rewrite N in N'. injection N' as <-. rewrite T. eauto.
      * destruct (L6 i j N E) as (st & -> & <-). exact P.
    + exists w. apply batch_next; [exact R|]. destruct a; exact Logic.I.
  - exists l2. auto.
Qed.
Lemma klater_inv s s' : klater s s' -> kinv s -> kinv s' /\ exists l, klog s' = klog s ++ l /\ wlog l (kworld s) (kworld s') /\
  (forall i j, nth_error (kjobs s) i = Some j -> exists j', nth_error (kjobs s') i = Some j' /\ j_stmt _ _ j' = j_stmt _ _ j).
Proof.
  induction 1 as [|s' a H IH P]; intros K; [split; [exact K|]; exists []; rewrite app_nil_r; split; [reflexivity|split; [reflexivity|eauto]]|].
  destruct (IH K) as [K' (l & A & B & C)]. destruct (kinv_step s' a K' P) as [K2 (l' & L1 & L2 & L5)].
  split; [exact K2|].
  exists (l ++ l'). split; [rewrite L1, A, app_assoc; reflexivity|]. split; [eapply wlog_app; eauto|].
  intros i j N. destruct (C i j N) as (j1 & N1 & T1). destruct (L5 i j1 N1) as (j2 & N2 & T2). exists j2. split; [exact N2|congruence].
Qed.
Lemma kreach_inv s : kreach s -> kinv s.
Proof.
  intros (w & W & L). apply (klater_inv _ _ L). split; [exact W|]. split; [intros i j N; destruct i; discriminate|].
  exists w. constructor.
Qed.

(** from submission to release *)
Lemma kine_linear s a s' i r : kreach s -> client_write a -> kclosed s = false -> i = length (kjobs s) ->
  klater (kstep s (BSubmit _ a)) s' -> kreleased s' i = Some (Some (Done _ r)) ->
  exists w1, wsteps (kworld s) w1 /\ wsteps (wapply w1 a) (kworld s') /\ r = snd (apply (fst w1) a).
Proof.
  intros R C CL EI L RE.
  pose proof (kreach_inv s R) as K. destruct (kinv_step s (BSubmit _ a) K C) as [K1 _].
  set (s1 := kstep s (BSubmit _ a)) in *.
  destruct (klater_inv _ _ L K1) as [(W' & _ & w0 & R') (l & LG & RP & JB)].
  destruct (batch_success _ _ _ _ _ _ _ _ _ R' RE) as (j & N & I). change (b_log world aop (Z * Z) s') with (klog s') in I. change (b_jobs world aop (Z * Z) s') with (kjobs s') in N.
  destruct K as (W & _ & w00 & R0). destruct K1 as (W1 & _ & w01 & R1).
  assert (E1 : klog s1 = klog s /\ kworld s1 = kworld s /\ nth_error (kjobs s1) i = Some (Job _ _ a (if running (b_worker _ _ _ s) then b_runid _ _ _ s + 1 else b_runid _ _ _ s) false None)).
  { unfold s1, kstep, klog, kworld, kjobs, kclosed in *. cbn [Batch.batch_step]. rewrite CL. cbn [b_log b_db b_jobs]. split; [reflexivity|]. split; [reflexivity|].
    rewrite EI, nth_error_app2, Nat.sub_diag by lia. reflexivity. }
  destruct E1 as (E1 & E2 & E3).
  destruct (JB _ _ E3) as (j' & N' & T). rewrite N in N'. injection N' as <-. cbn [j_stmt] in T. rewrite T in I.
  rewrite LG, E1 in I. apply in_app_iff in I. destruct I as [I|I].
  { exfalso. destruct (K_stmt _ _ _ _ _ _ _ (batch_BI _ _ _ _ _ _ _ R0) i a r I) as (j0 & N0 & _).
    unfold kjobs in EI. rewrite EI in N0. assert (nth_error (b_jobs world aop (Z * Z) s) (length (b_jobs world aop (Z * Z) s)) <> None) as NN by congruence.
    apply nth_error_Some in NN. lia. }
  apply in_split in I. destruct I as (l1 & l2 & ->). rewrite E2 in *.
  destruct (wlog_split _ _ _ _ RP) as (w1 & RP1 & RP2). cbn [wlog] in RP2. destruct RP2 as (AL & RV & RP2).
  exists w1. split; [eapply wlog_wsteps; eauto|]. split; [eapply wlog_wsteps; eauto|exact RV].
Qed.
Lemma kine_linear_spec s a s' i r : kreach s -> client_write a -> kclosed s = false -> i = length (kjobs s) ->
  klater (kstep s (BSubmit _ a)) s' -> kreleased s' i = Some (Some (Done _ r)) ->
  exists w1, wsteps (kworld s) w1 /\ wsteps (wapply w1 a) (kworld s') /\ wreach w1 /\ r = snd (spec_apply (snd w1) a).
Proof.
  intros R C CL EI L RE. destruct (kine_linear s a s' i r R C CL EI L RE) as (w1 & A & B & E). exists w1.
  assert (W : wreach w1) by (eapply wsteps_reach; [|exact A]; exact (proj1 (kreach_inv s R))).
  split; [exact A|]. split; [exact B|]. split; [exact W|]. rewrite E.
  exact (proj2 (R_step _ _ a (reach_R _ _ W) (client_allowed a _ C))).
Qed.
Lemma klr_reach w s : klater_reported (batch_init w) s -> breach_ reported w s.
Proof. induction 1 as [|s' a H IH P F]; [constructor|]. apply batch_next; auto. Qed.
Lemma kine_failed w s i e : klater_reported (batch_init w) s -> kreleased s i = Some (Some (Failed _ e)) -> ~ In i (executed _ _ (klog s)).
Proof. intros L RE. exact (batch_failure _ _ _ _ _ _ _ _ (klr_reach w s L) RE). Qed.
(** the contents are those the logged statements give, in their order *)
Definition ops_of (l : list (logged aop (Z * Z))) : list aop := map (fun e => match e with LJob _ _ _ st _ => st | LOther _ _ st => st end) l.
Lemma wlog_ops l : forall w w', wlog l w w' -> w' = fold_left wapply (ops_of l) w.
Proof. induction l as [|[i st r|st] l IH]; cbn [wlog ops_of map fold_left]; intros w w' H; [congruence| |]; apply IH; intuition. Qed.
Lemma kine_contents w s : wreach w -> klater (batch_init w) s -> kworld s = fold_left wapply (ops_of (klog s)) w.
Proof.
  intros W L. assert (K : kinv (batch_init w)). { split; [exact W|]. split; [intros i j N; destruct i; discriminate|]. exists w. constructor. }
  destruct (klater_inv _ _ L K) as [_ (l & A & B & _)]. cbn in A. rewrite A. exact (wlog_ops _ _ _ B).
Qed.
