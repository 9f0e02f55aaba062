(** Proofs for Fair.v. *)
From Coq Require Import List ZArith Bool Lia Arith.
From Verif Require Import Bytes Spec Sql System Prog Backend Limited Api Pool Ledger LedgerLemmas Batch BatchKine BatchProofs Node NodeProofs Fair.
Import ListNotations.
Open Scope Z_scope.

(** ---- progress of one request ---- *)
Definition handed (x : activity) (c : call) : (result (ret_of c) -> prog reply) -> Prop :=
  match c return (result (ret_of c) -> prog reply) -> Prop with CExec a => fun k => exists job, x = NWait a job k | _ => fun _ => False end.
Definition smaller (x y : activity) : Prop :=
  match y with
  | NRun (Ret _) => False
  | NRun (Call c k) => (exists r, x = NRun (k r)) \/ handed x c k
  | NWait _ _ k => exists r, x = NRun (k r)
  end.
Lemma smaller_wf : well_founded smaller.
Proof.
  assert (R : forall p, Acc smaller (NRun p)).
  { induction p as [a|c k IH]; constructor; intros y H; cbn [smaller] in H; [destruct H|].
    destruct H as [[r ->]|H]; [apply IH|]. destruct c; cbn [handed] in H; try contradiction. destruct H as [job ->].
    constructor. intros y [r ->]. apply IH. }
  intros [p|a job k]; [apply R|]. constructor. intros y [r ->]. apply R.
Qed.

(** ---- requests have distinct numbers, and run on servers that exist ---- *)
Record known (s : nstate) : Prop := {
  K_nodup : NoDup (map np_id (n_procs s));
  K_old : forall p, In p (n_procs s) -> (np_id p < n_next s)%nat;
  K_server : forall p, In p (n_procs s) -> (np_server p < length (n_servers s))%nat }.
Lemma put_length {A} (x : A) : forall l n, length (put n x l) = length l.
Proof. induction l as [|y l IH]; intros [|n]; cbn; auto. Qed.
Lemma put_map {A B} (f : A -> B) x y : forall l n, nth_error l n = Some y -> f x = f y -> map f (put n x l) = map f l.
Proof. induction l as [|z l IH]; intros [|n] N E; cbn in *; try discriminate; [injection N as ->; now rewrite E|]. f_equal. eauto. Qed.
Lemma known_put s w sv log i x y : known s -> nth_error (n_procs s) i = Some y -> np_id x = np_id y -> np_server x = np_server y ->
  length sv = length (n_servers s) -> known (NState w sv (put i x (n_procs s)) log (n_next s)).
Proof.
  intros [K1 K2 K3] N E1 E2 L. constructor; cbn [n_procs n_next n_servers].
  - now rewrite (put_map np_id x y).
  - intros p I. apply in_put in I. destruct I as [->|I]; [rewrite E1; apply K2; eapply nth_error_In; eauto|auto].
  - rewrite L. intros p I. apply in_put in I. destruct I as [->|I]; [rewrite E2; apply K3; eapply nth_error_In; eauto|auto].
Qed.
Lemma batch_inv cfg w sv ps log n j a s' : nstep cfg (NState w sv ps log n) (NBatch j a) = Some s' ->
  exists b log', nth_error sv j = Some b /\ match a with BSubmit _ _ | BOther _ _ => False | _ => True end /\
    s' = NState (kworld (BatchKine.kstep (with_db w b) a)) (put j (BatchKine.kstep (with_db w b) a) sv) ps (log ++ log') n.
Proof.
  cbn [nstep]. destruct (nth_error sv j) as [b|]; [|destruct a; discriminate]. intros H. exists b.
  destruct a; try discriminate; injection H as <-; eexists; (split; [reflexivity|]); (split; [exact Logic.I|reflexivity]).
Qed.
Lemma known_step cfg s x s' : known s -> nstep cfg s x = Some s' -> known s'.
Proof.
  intros K. assert (K0 := K). destruct K0 as [K1 K2 K3]. destruct s as [w sv ps log n]. cbn [n_procs n_next n_servers] in *.
  destruct x as [|j q|i f|i|j a|i|i|j]; cbn [nstep].
  - intros [= <-]. constructor; cbn; auto. intros p I. rewrite app_length. specialize (K3 p I). lia.
  - destruct (nth_error sv j) as [b|] eqn:N; [|discriminate]. intros [= <-]. constructor; cbn.
    + constructor; auto. intros I. apply in_map_iff in I. destruct I as (p & E & I). specialize (K2 p I). lia.
    + intros p [<-|I]; [cbn; lia|]. specialize (K2 p I). lia.
    + intros p [<-|I]; auto. cbn. apply nth_error_Some. congruence.
  - destruct (nth_error ps i) as [[id j [[o|c k]|]]|] eqn:N; try discriminate.
    destruct (op_of c) as [a|]; [destruct (batched a); [discriminate|]|]; intros [= <-]; eapply (known_put _ _ _ _ _ _ _ K N); reflexivity.
  - destruct (nth_error ps i) as [[id j [[o|[a| | | | | | | |] k]|]]|] eqn:N; try discriminate. destruct (batched a); [|discriminate].
    destruct (nth_error sv j) as [b|] eqn:NS; [|discriminate]. destruct (kclosed b); intros [= <-]; eapply (known_put _ _ _ _ _ _ _ K N); try reflexivity. apply put_length.
  - intros H. destruct (batch_inv cfg _ _ _ _ _ _ _ _ H) as (b & log' & _ & _ & ->).
    constructor; cbn; auto. now rewrite put_length.
  - destruct (nth_error ps i) as [[id j [|a job k]]|] eqn:N; try discriminate. destruct (nth_error sv j) as [b|]; [|discriminate].
    destruct (kreleased b job); [|discriminate]. intros [= <-]. eapply (known_put _ _ _ _ _ _ _ K N); reflexivity.
  - destruct (nth_error ps i) as [[id j [[o|]|]]|] eqn:N; try discriminate. intros [= <-].
    destruct (put_split (NProc id j (NRun (Ret o))) _ _ _ N) as (l1 & l2 & E1 & _ & E2). cbn [skipn] in E2. rewrite E2. rewrite E1 in K1, K2, K3. constructor; cbn.
    + rewrite map_app in *. cbn in K1. now apply NoDup_remove_1 in K1.
    + intros p I. apply K2. apply in_app_iff in I. apply in_app_iff. cbn. tauto.
    + intros p I. apply K3. apply in_app_iff in I. apply in_app_iff. cbn. tauto.
  - intros [= <-]. constructor; cbn.
    + clear - K1. induction ps as [|p ps IH]; cbn in *; auto. inversion K1; subst. destruct (negb (Nat.eqb (np_server p) j)); cbn; auto. constructor; auto.
      intros I. apply in_map_iff in I. destruct I as (p' & E & I). apply filter_In in I. apply H1. rewrite <- E. apply in_map. tauto.
    + intros p I. apply filter_In in I. now apply K2.
    + intros p I. apply filter_In in I. rewrite put_length. now apply K3.
Qed.

(** ---- one step, seen from request [pid] on server [j] ---- *)
(** how far a waiting job of a server is from being released *)
Definition stage (b : kbatch) : nat := match b_worker _ _ _ b with WNone => 0 | WStarted => 2 | WExec _ => 1 | WLock _ => 0 end%nat.
Definition rank (b : kbatch) (job : nat) : nat :=
  match nth_error (kjobs b) job with
  | Some jb => if j_run _ _ jb <? b_runid _ _ _ b then 0%nat else (3 * Z.to_nat (j_run _ _ jb + 1 - b_runid _ _ _ b) + stage b)%nat
  | None => 0%nat
  end.

Local Notation kst := BatchKine.kstep.
Lemma rank_db w b job : rank (with_db w b) job = rank b job.
Proof. reflexivity. Qed.
Lemma rank_pos b job : (0 < rank b job)%nat -> exists jb, nth_error (kjobs b) job = Some jb /\ b_runid _ _ _ b <= j_run _ _ jb /\
  rank b job = (3 * Z.to_nat (j_run _ _ jb + 1 - b_runid _ _ _ b) + stage b)%nat.
Proof.
  unfold rank. destruct (nth_error (kjobs b) job) as [jb|]; [|lia]. destruct (Z.ltb_spec (j_run _ _ jb) (b_runid _ _ _ b)); [lia|]. eauto.
Qed.
Lemma rank_released b job : rank b job = 0%nat -> nth_error (kjobs b) job <> None -> kreleased b job <> None.
Proof.
  unfold rank, kreleased, released. change (b_jobs world aop (Z * Z) b) with (kjobs b). destruct (nth_error (kjobs b) job) as [jb|]; [|congruence].
  destruct (Z.ltb_spec (j_run _ _ jb) (b_runid _ _ _ b)); [discriminate|]. intros H0. exfalso. assert (1 <= Z.to_nat (j_run aop (Z * Z) jb + 1 - b_runid world aop (Z * Z) b))%nat by lia. lia.
Qed.
(** the worker is at work as long as a job is not released *)
Lemma rank_worker b job : kcore b -> (0 < rank b job)%nat -> match b_worker _ _ _ b with WNone => False | WLock _ => b_queue _ _ _ b = [] -> rank b job = 3%nat | _ => True end.
Proof.
  intros [C1 C2 C3 C4] H. destruct (rank_pos _ _ H) as (jb & N & L & E). specialize (C4 _ _ N). unfold job_at in C4.
  destruct b as [js q wk rid cl dc db log]. unfold stage in E. cbn [b_queue b_worker b_runid running] in *.
  destruct C4 as [(A & B & _)|[(b' & -> & _ & B & _)|[(b' & -> & _ & B & _)|(A & _)]]]; auto; try lia.
  destruct wk; cbn [running] in B; auto; [subst q; destruct A|]. intros ->. destruct A.
Qed.
Definition has_job (b : kbatch) (job : nat) : Prop := nth_error (kjobs b) job <> None.
Lemma rank_ext b b' job : runs_of (kjobs b') job = runs_of (kjobs b) job -> b_runid _ _ _ b' = b_runid _ _ _ b -> (stage b' <= stage b)%nat -> (rank b' job <= rank b job)%nat.
Proof.
  unfold rank, runs_of. intros E R S. destruct (nth_error (kjobs b') job) as [jb'|], (nth_error (kjobs b) job) as [jb|]; cbn in E; try discriminate; [|lia]. injection E as ->. rewrite R.
  destruct (_ <? _); lia.
Qed.
Lemma runs_has b b' job : runs_of (kjobs b') job = runs_of (kjobs b) job -> has_job b job -> has_job b' job.
Proof. unfold runs_of, has_job. destruct (nth_error (kjobs b') job), (nth_error (kjobs b) job); cbn; congruence. Qed.
Lemma rank_exec b f job : runs_of (kjobs (kst b (BExecute _ f))) job = runs_of (kjobs b) job /\ b_runid _ _ _ (kst b (BExecute _ f)) = b_runid _ _ _ b /\
  stage (kst b (BExecute _ f)) = match b_worker _ _ _ b with WExec _ => 0%nat | _ => stage b end.
Proof.
  destruct b as [js q wk rid cl dc db log]. unfold kst, stage. cbn [batch_step b_worker].
  destruct wk as [| |ids|ids]; auto. cbn [b_closed b_jobs b_db].
  destruct (exec_queue world aop (Z * Z) kine_run cl js ids f db) as [[js' d'] l] eqn:E. unfold kjobs. cbn [b_jobs b_runid b_worker].
  split; [eapply runs_queue; eauto|auto].
Qed.
Lemma rank_finish b job : kcore b -> has_job b job -> has_job (kst b (BFinish _)) job /\
  (rank (kst b (BFinish _)) job <= rank b job)%nat /\
  ((0 < rank b job)%nat -> (exists l, b_worker _ _ _ b = WLock l) -> (rank (kst b (BFinish _)) job < rank b job)%nat).
Proof.
  intros C H. assert (X := rank_worker b job C). destruct b as [js q wk rid cl dc db log].
  assert (W : (exists l, wk = WLock l) \/ kst (BatchState world aop (Z * Z) js q wk rid cl dc db log) (BFinish _) = BatchState world aop (Z * Z) js q wk rid cl dc db log).
  { destruct wk; eauto. }
  destruct W as [[l ->]|E]; [|rewrite E; cbn [b_worker]; split; [exact H|split; [lia|]]].
  2:{ intros P [l ->]. cbn in E. destruct q; discriminate E. }
  assert (RF : rank (kst (BatchState world aop (Z * Z) js q (WLock l) rid cl dc db log) (BFinish _)) job =
    match nth_error js job with Some jb => if j_run _ _ jb <? rid + 1 then 0%nat else (3 * Z.to_nat (j_run _ _ jb + 1 - (rid + 1)) + (match q with [] => 0 | _ => 1 end))%nat | None => 0%nat end).
  { unfold rank, kst. cbn [batch_step b_worker b_queue]. destruct q; reflexivity. }
  split; [unfold has_job, kst, kjobs in *; cbn [batch_step b_worker b_queue] in *; destruct q; exact H|].
  assert (G : (0 < rank (BatchState world aop (Z * Z) js q (WLock l) rid cl dc db log) job)%nat ->
    (rank (kst (BatchState world aop (Z * Z) js q (WLock l) rid cl dc db log) (BFinish _)) job < rank (BatchState world aop (Z * Z) js q (WLock l) rid cl dc db log) job)%nat).
  { intros P. specialize (X P). cbn [b_worker b_queue] in X. destruct (rank_pos _ _ P) as (jb & N & L & E). unfold stage in E. cbn [b_worker b_runid] in *. unfold kjobs in N. cbn [b_jobs] in N.
    rewrite RF, N, E. destruct (Z.ltb_spec (j_run _ _ jb) (rid + 1)); [lia|]. destruct q; lia. }
  split; [|auto]. destruct (Nat.eq_dec (rank (BatchState world aop (Z * Z) js q (WLock l) rid cl dc db log) job) 0) as [Z0|NZ]; [|assert (0 < rank (BatchState world aop (Z * Z) js q (WLock l) rid cl dc db log) job)%nat by lia; specialize (G H0); lia].
  rewrite RF. unfold has_job, kjobs in H. unfold rank in Z0. unfold kjobs in Z0. cbn [b_jobs b_runid] in *. destruct (nth_error js job) as [jb|]; [|lia].
  destruct (Z.ltb_spec (j_run _ _ jb) rid); [|assert (1 <= Z.to_nat (j_run aop (Z * Z) jb + 1 - rid))%nat by lia; lia].
  destruct (Z.ltb_spec (j_run _ _ jb) (rid + 1)); lia.
Qed.
Lemma runs_cancel id : forall js job, runs_of (cancel_job aop (Z * Z) id js) job = runs_of js job.
Proof. unfold runs_of. intros js job. rewrite cancel_nth. destruct (nth_error js job); auto. cbn. now destruct (Nat.eqb job id). Qed.
Lemma rank_step b a job : kcore b -> has_job b job -> has_job (kst b a) job /\ (rank (kst b a) job <= rank b job)%nat.
Proof.
  intros C H. destruct a as [st|id| |f| |st| |].
  - assert (X := rank_worker b job C). destruct b as [js q wk rid cl dc db log]. unfold kst. cbn [batch_step b_closed]. destruct cl; [split; [exact H|lia]|].
    unfold has_job, rank, kjobs in *. cbn [b_jobs b_runid] in *. assert (LT : (job < length js)%nat) by now apply nth_error_Some. rewrite nth_error_app1 by exact LT.
    split; [exact H|]. destruct (nth_error js job) as [jb|]; [|lia]. destruct (Z.ltb_spec (j_run _ _ jb) rid); [lia|]. cbn [b_worker] in X.
    unfold stage. cbn [b_worker]. destruct wk; cbn; lia.
  - assert (R : runs_of (kjobs (kst b (BCancel _ id))) job = runs_of (kjobs b) job) by apply runs_cancel. split; [eapply runs_has; eauto|apply rank_ext; auto].
  - destruct b as [js q wk rid cl dc db log]. unfold kst. cbn [batch_step b_worker]. destruct wk; (split; [exact H|]); try apply Nat.le_refl. apply rank_ext; auto. unfold stage. cbn. lia.
  - destruct (rank_exec b f job) as (R & I & S). split; [eapply runs_has; eauto|]. apply rank_ext; auto. rewrite S. destruct b as [js q wk rid cl dc db log]. cbn [b_worker]. unfold stage. cbn. destruct wk; lia.
  - destruct (rank_finish b job C H) as (A & B & _). auto.
  - destruct b as [js q wk rid cl dc db log]. unfold kst. cbn [batch_step b_dbclosed]. destruct dc; (split; [exact H|apply Nat.le_refl]).
  - destruct b. split; [exact H|apply Nat.le_refl].
  - destruct b as [js q wk rid cl dc db log]. unfold kst. cbn [batch_step b_closed b_worker]. destruct cl; [destruct wk|]; (split; [exact H|apply Nat.le_refl]).
Qed.

(** ---- one step of the node ---- *)
Lemma in_put_or {A} (x p : A) ps i y : nth_error ps i = Some y -> In p ps -> p = y \/ In p (put i x ps).
Proof.
  intros N I. destruct (put_split x y ps i N) as (l1 & l2 & E1 & E2 & _). rewrite E1 in I. rewrite E2. apply in_app_iff in I. rewrite in_app_iff. cbn in *. destruct I as [I|[I|I]]; auto.
Qed.
Lemma in_put_this {A} (x y : A) ps i : nth_error ps i = Some y -> In x (put i x ps).
Proof. intros N. eapply nth_error_In. eapply put_same; eauto. Qed.
Lemma step_view cfg s x s' pid j act : In (NProc pid j act) (n_procs s) -> x <> NCrash j -> nstep cfg s x = Some s' ->
  (exists o, In (Answered pid o) (n_log s')) \/ exists act', In (NProc pid j act') (n_procs s') /\ (act' = act \/ smaller act' act).
Proof.
  destruct s as [w sv ps log n]. cbn [n_procs]. intros I NC. destruct x as [|j0 q|i f|i|j0 a|i|i|j0]; cbn [nstep].
  - intros [= <-]. right. exists act. cbn; auto.
  - destruct (nth_error sv j0) as [b|] eqn:N; [|discriminate]. intros [= <-]. right. exists act. cbn; auto.
  - destruct (nth_error ps i) as [[id j1 [[o|c k]|]]|] eqn:N; try discriminate. intros H.
    assert (E : exists r lg, s' = NState (fst (sem f c w)) sv (put i (NProc id j1 (NRun (k r))) ps) lg n).
    { destruct (op_of c) as [a|]; [destruct (batched a); [discriminate|]|]; injection H as <-; eauto. }
    destruct E as (r & lg & ->). right. cbn [n_procs]. destruct (in_put_or (NProc id j1 (NRun (k r))) _ _ _ _ N I) as [[= -> -> ->]|J]; [|eauto].
    exists (NRun (k r)). split; [eapply in_put_this; eauto|]. right. cbn. eauto.
  - destruct (nth_error ps i) as [[id j1 [[o|[a| | | | | | | |] k]|]]|] eqn:N; try discriminate. destruct (batched a); [|discriminate].
    destruct (nth_error sv j1) as [b|] eqn:NS; [|discriminate]. destruct (kclosed b); intros [= <-]; right; cbn [n_procs].
    + destruct (in_put_or (NProc id j1 (NRun (k (Err EOther)))) _ _ _ _ N I) as [[= -> -> ->]|J]; [|eauto].
      eexists. split; [eapply in_put_this; eauto|]. right. cbn. eauto.
    + destruct (in_put_or (NProc id j1 (NWait a (length (kjobs b)) k)) _ _ _ _ N I) as [[= -> -> ->]|J]; [|eauto].
      eexists. split; [eapply in_put_this; eauto|]. right. cbn. eauto.
  - intros H. destruct (batch_inv cfg _ _ _ _ _ _ _ _ H) as (b & log' & _ & _ & ->). right. exists act. cbn; auto.
  - destruct (nth_error ps i) as [[id j1 [|a job k]]|] eqn:N; try discriminate. destruct (nth_error sv j1) as [b|]; [|discriminate].
    destruct (kreleased b job) as [o|]; [|discriminate]. intros [= <-]. right. cbn [n_procs].
    destruct (in_put_or (NProc id j1 (NRun (k (to_result o)))) _ _ _ _ N I) as [[= -> -> ->]|J]; [|eauto].
    eexists. split; [eapply in_put_this; eauto|]. right. cbn. eauto.
  - destruct (nth_error ps i) as [[id j1 [[o|]|]]|] eqn:N; try discriminate. intros [= <-].
    destruct (put_split (NProc id j1 (NRun (Ret o))) _ _ _ N) as (l1 & l2 & E1 & _ & E2). cbn [skipn] in E2. cbn [n_procs n_log]. rewrite E2. rewrite E1 in I.
    apply in_app_iff in I. destruct I as [I|[[= -> _ _]|I]].
    + right. exists act. split; [apply in_app_iff; auto|auto].
    + left. exists o. apply in_app_iff. right. left. reflexivity.
    + right. exists act. split; [apply in_app_iff; auto|auto].
  - intros [= <-]. right. exists act. split; [|auto]. cbn. apply filter_In. split; auto. cbn. destruct (Nat.eqb_spec j j0); auto.
Qed.
Lemma step_server cfg s x s' j b : nth_error (n_servers s) j = Some b -> kcore b -> x <> NCrash j -> nstep cfg s x = Some s' ->
  exists b', nth_error (n_servers s') j = Some b' /\ forall job, has_job b job -> has_job b' job /\ (rank b' job <= rank b job)%nat.
Proof.
  destruct s as [w sv ps log n]. cbn [n_servers]. intros N C NC. destruct x as [|j0 q|i f|i|j0 a|i|i|j0]; cbn [nstep].
  - intros [= <-]. exists b. cbn. split; auto. rewrite nth_error_app1; auto. apply nth_error_Some. congruence.
  - destruct (nth_error sv j0); [|discriminate]. intros [= <-]. exists b. auto.
  - destruct (nth_error ps i) as [[id j1 [[o|c k]|]]|]; try discriminate. destruct (op_of c) as [a|]; [destruct (batched a); [discriminate|]|]; intros [= <-]; exists b; auto.
  - destruct (nth_error ps i) as [[id j1 [[o|[a| | | | | | | |] k]|]]|]; try discriminate. destruct (batched a); [|discriminate].
    destruct (nth_error sv j1) as [b1|] eqn:NS; [|discriminate]. destruct (kclosed b1); intros [= <-]; [exists b; auto|]. cbn [n_servers].
    rewrite put_nth. destruct (Nat.eqb_spec j1 j) as [->|E]; [|exists b; auto]. rewrite N in NS. injection NS as <-. rewrite N. eexists. split; [reflexivity|].
    intros job H. exact (rank_step b (BSubmit _ a) job C H).
  - intros H. destruct (batch_inv cfg _ _ _ _ _ _ _ _ H) as (b1 & log' & NS & _ & ->). cbn [n_servers].
    rewrite put_nth. destruct (Nat.eqb_spec j0 j) as [->|E]; [|exists b; auto]. rewrite N in NS. injection NS as <-. rewrite N. eexists. split; [reflexivity|].
    intros job HJ. destruct (rank_step (with_db w b) a job) as [A B]; auto using core_db.
  - destruct (nth_error ps i) as [[id j1 [|a job k]]|]; try discriminate. destruct (nth_error sv j1) as [b1|]; [|discriminate].
    destruct (kreleased b1 job) as [o|]; [|discriminate]. intros [= <-]. exists b; auto.
  - destruct (nth_error ps i) as [[id j1 [[o|]|]]|]; try discriminate. intros [= <-]. exists b; auto.
  - intros [= <-]. cbn [n_servers]. rewrite put_other by congruence. exists b; auto.
Qed.

(** ---- infinite schedules ---- *)
Section Run.
Variable cfg : driver_cfg.
Variable okf : fault -> Prop.
Variable sch : nat -> turn.
Hypothesis T : tolerant okf.
Hypothesis OK : forall t, turn_ok okf (sch t).
Local Notation st := (at_time cfg sch).

Lemma own_ok i f a : okf f -> naction_ok okf (own_step i f a).
Proof. intros F. destruct a as [[o|c k]|]; cbn; auto. destruct (op_of c) as [a|]; [destruct (batched a)|]; cbn; auto. Qed.
(** each turn is a step or nothing *)
Lemma turn_steps t : st (S t) = st t \/ exists x, naction_ok okf x /\ nstep cfg (st t) x = Some (st (S t)) /\
  (sch t = Other x \/ exists pid f i p, sch t = Own pid f /\ position pid (n_procs (st t)) = Some i /\ nth_error (n_procs (st t)) i = Some p /\ x = own_step i f (np_act p)).
Proof.
  specialize (OK t). cbn [at_time]. unfold take_turn, attempt. destruct (sch t) as [pid f|x] eqn:E; cbn in OK.
  - destruct (position pid (n_procs (st t))) as [i|] eqn:P; [|auto]. destruct (nth_error (n_procs (st t)) i) as [p|] eqn:N; [|auto].
    destruct (nstep cfg (st t) (own_step i f (np_act p))) eqn:ST; [|auto]. right. eexists. split; [apply own_ok; exact OK|]. split; [exact ST|]. right. exists pid, f, i, p. auto.
  - destruct (nstep cfg (st t) x) eqn:ST; [|auto]. right. exists x. auto.
Qed.
Lemma st_reach t : nreach cfg okf (st t) /\ known (st t).
Proof.
  induction t as [|t [IH1 IH2]]; [split; [constructor|constructor; cbn; try tauto; constructor]|].
  destruct (turn_steps t) as [E|(x & O & ST & _)]; [rewrite E; auto|]. split; [econstructor; eauto|eapply known_step; eauto].
Qed.
Lemma log_grows t t' x : (t <= t')%nat -> In x (n_log (st t)) -> In x (n_log (st t')).
Proof.
  intros L. induction L as [|t' L IH]; auto. intros I. specialize (IH I). destruct (turn_steps t') as [E|(a & _ & ST & _)]; [rewrite E; exact IH|]. clear - IH ST. revert ST. generalize (st (S t')). intros s' ST.
  destruct (st t') as [w sv ps log n]. cbn [n_log] in IH. destruct a as [|j0 q|i f|i|j0 a|i|i|j0]; cbn [nstep] in ST.
  - now injection ST as <-.
  - destruct (nth_error sv j0); [|discriminate]. injection ST as <-. apply in_app_iff. auto.
  - destruct (nth_error ps i) as [[id j1 [[o|c k]|]]|]; try discriminate. destruct (op_of c) as [a|]; [destruct (batched a); [discriminate|]|]; injection ST as <-; apply in_app_iff; auto.
  - destruct (nth_error ps i) as [[id j1 [[o|[a| | | | | | | |] k]|]]|]; try discriminate. destruct (batched a); [|discriminate].
    destruct (nth_error sv j1) as [b1|]; [|discriminate]. destruct (kclosed b1); now injection ST as <-.
  - destruct (batch_inv cfg _ _ _ _ _ _ _ _ ST) as (b1 & log' & _ & _ & ->). apply in_app_iff. auto.
  - destruct (nth_error ps i) as [[id j1 [|a job k]]|]; try discriminate. destruct (nth_error sv j1) as [b1|]; [|discriminate].
    destruct (kreleased b1 job) as [o|]; [|discriminate]. now injection ST as <-.
  - destruct (nth_error ps i) as [[id j1 [[o|]|]]|]; try discriminate. injection ST as <-. apply in_app_iff. auto.
  - now injection ST as <-.
Qed.

Variable pid j : nat.
Variable t0 : nat.
Hypothesis NC : forall t, (t0 <= t)%nat -> sch t <> Other (NCrash j).
Hypothesis OWN : again sch (fun x => exists f, x = Own pid f).
Hypothesis BAT : batching j sch.
Definition answered_by (t : nat) : Prop := exists o, In (Answered pid o) (n_log (st t)).
Definition here (t : nat) (act : activity) : Prop := In (NProc pid j act) (n_procs (st t)).

Lemma not_crash t x : (t0 <= t)%nat -> nstep cfg (st t) x = Some (st (S t)) ->
  (sch t = Other x \/ exists pid f i p, sch t = Own pid f /\ position pid (n_procs (st t)) = Some i /\ nth_error (n_procs (st t)) i = Some p /\ x = own_step i f (np_act p)) -> x <> NCrash j.
Proof.
  intros L _ [E|(pid' & f & i & p & _ & _ & _ & ->)] X; [subst; exact (NC t L E)|]. destruct (np_act p) as [[o|c k]|]; try discriminate. cbn in X. destruct (op_of c) as [a|]; [destruct (batched a)|]; discriminate.
Qed.
(** what has not changed by [t'] *)
Lemma stays_or t act : (t0 <= t)%nat -> here t act -> forall t', (t <= t')%nat ->
  answered_by t' \/ (exists t1 act', (t <= t1 <= t')%nat /\ here t1 act' /\ smaller act' act) \/ here t' act.
Proof.
  intros L H t' LE. induction LE as [|t' LE IH]; auto. destruct IH as [[o A]|[(t1 & act' & B & C & D)|C]].
  - left. exists o. eapply log_grows; [|exact A]. lia.
  - right. left. exists t1, act'. split; [lia|auto].
  - destruct (turn_steps t') as [E|(x & O & ST & W)]; [right; right; unfold here; now rewrite E|].
    destruct (step_view cfg _ _ _ _ _ _ C (not_crash t' x ltac:(lia) ST W) ST) as [A|(act' & I & [->|SM])]; auto.
    right. left. exists (S t'), act'. split; [lia|auto].
Qed.
Lemma server_at t act : here t act -> exists b, nth_error (n_servers (st t)) j = Some b /\ kcore b.
Proof.
  intros H. destruct (st_reach t) as [R K]. assert (L := K_server _ K _ H). cbn in L. apply nth_error_Some in L. destruct (nth_error (n_servers (st t)) j) as [b|] eqn:N; [|congruence].
  exists b. split; auto. destruct (node_sim cfg okf _ T R) as [NIv _]. exact (I_core _ _ NIv _ _ N).
Qed.
Lemma position_of t act : here t act -> exists i, position pid (n_procs (st t)) = Some i /\ nth_error (n_procs (st t)) i = Some (NProc pid j act).
Proof.
  intros H. destruct (st_reach t) as [_ [K _ _]]. unfold here in H. induction (n_procs (st t)) as [|p ps IH]; [destruct H|]. cbn in *. inversion K as [|? ? NI ND]; subst.
  destruct H as [->|H]; [cbn; rewrite Nat.eqb_refl; exists 0%nat; auto|]. destruct (Nat.eqb_spec (np_id p) pid) as [E|E].
  - exfalso. apply NI. rewrite E. change pid with (np_id (NProc pid j act)). now apply in_map.
  - destruct (IH H ND) as (i & P & N). exists (S i). rewrite P. auto.
Qed.
(** its own turn, when it need not wait *)
Lemma own_turn t f act : here t act -> sch t = Own pid f ->
  match act with NRun _ => True | NWait _ job _ => exists b, nth_error (n_servers (st t)) j = Some b /\ kreleased b job <> None end ->
  answered_by (S t) \/ exists act', here (S t) act' /\ smaller act' act.
Proof.
  intros H E W. destruct (position_of t act H) as (i & P & N). destruct (server_at t act H) as (b & NB & _).
  assert (TT : st (S t) = attempt cfg (st t) (own_step i f act)) by (cbn [at_time]; unfold take_turn; now rewrite E, P, N).
  unfold answered_by, here. rewrite TT. unfold attempt. clear TT. destruct (st t) as [w sv ps log n]. cbn [n_procs n_servers] in *.
  destruct act as [[o|c k]|a job k]; cbn [own_step].
  - cbn [nstep]. rewrite N. left. exists o. cbn. apply in_app_iff. right. now left.
  - right. destruct c as [a| | | | | | | |]; cbn [op_of].
    + destruct (batched a) eqn:BA; cbn [nstep]; rewrite N; [rewrite BA, NB; destruct (kclosed b)|cbn [op_of]; rewrite BA]; cbn [n_procs];
        (eexists; split; [eapply in_put_this; eauto|]); cbn; eauto.
    + cbn [nstep]; rewrite N; cbn [op_of n_procs]; (eexists; split; [eapply in_put_this; eauto|]); cbn; eauto.
    + cbn [nstep]; rewrite N; cbn [op_of n_procs]; (eexists; split; [eapply in_put_this; eauto|]); cbn; eauto.
    + cbn [nstep]; rewrite N; cbn [op_of n_procs]; (eexists; split; [eapply in_put_this; eauto|]); cbn; eauto.
    + cbn [nstep]; rewrite N; cbn [op_of n_procs]; (eexists; split; [eapply in_put_this; eauto|]); cbn; eauto.
    + cbn [nstep]; rewrite N; cbn [op_of n_procs]; (eexists; split; [eapply in_put_this; eauto|]); cbn; eauto.
    + cbn [nstep]; rewrite N; cbn [op_of n_procs]; (eexists; split; [eapply in_put_this; eauto|]); cbn; eauto.
    + cbn [nstep]; rewrite N; cbn [op_of n_procs]; (eexists; split; [eapply in_put_this; eauto|]); cbn; eauto.
    + cbn [nstep]; rewrite N; cbn [op_of n_procs]; (eexists; split; [eapply in_put_this; eauto|]); cbn; eauto.
  - right. destruct W as (b' & NB' & R). cbn [nstep]. rewrite N, NB'. destruct (kreleased b' job) as [o|]; [|congruence]. cbn [n_procs].
    eexists. split; [eapply in_put_this; eauto|]. cbn. eauto.
Qed.

(** a turn of the batching goroutine *)
Lemma batch_turn t a b : (match a with BSubmit _ _ | BOther _ _ => False | _ => True end) -> sch t = Other (NBatch j a) -> nth_error (n_servers (st t)) j = Some b ->
  nth_error (n_servers (st (S t))) j = Some (kst (with_db (n_world (st t)) b) a).
Proof.
  intros A E N. cbn [at_time]. unfold take_turn, attempt. rewrite E. destruct (st t) as [w sv ps log n]. cbn [n_servers n_world] in *.
  destruct (batch_nstep cfg w sv ps log n j b a N A) as [lg ->]. cbn [n_servers]. eapply put_same; eauto.
Qed.
Lemma server_on t t' b job : (t0 <= t)%nat -> (t <= t')%nat -> nth_error (n_servers (st t)) j = Some b -> kcore b -> has_job b job ->
  exists b', nth_error (n_servers (st t')) j = Some b' /\ kcore b' /\ has_job b' job /\ (rank b' job <= rank b job)%nat.
Proof.
  intros L0 L N C HJ. induction L as [|t' L IH].
  - exists b. auto.
  - destruct IH as (b1 & N1 & C1 & H1 & R1). destruct (turn_steps t') as [E|(x & O & ST & W)]; [rewrite E; exists b1; auto|].
    destruct (step_server cfg _ _ _ _ _ N1 C1 (not_crash t' x ltac:(lia) ST W) ST) as (b2 & N2 & F). destruct (F _ H1) as [F1 F2].
    exists b2. split; auto. destruct (st_reach (S t')) as [R _]. destruct (node_sim cfg okf _ T R) as [NIv _]. split; [exact (I_core _ _ NIv _ _ N2)|]. split; auto. lia.
Qed.
(** a waiting job is released *)
Lemma released_later n : forall t b job, (t0 <= t)%nat -> nth_error (n_servers (st t)) j = Some b -> kcore b -> has_job b job -> (rank b job <= n)%nat ->
  exists t', (t <= t')%nat /\ exists b', nth_error (n_servers (st t')) j = Some b' /\ kcore b' /\ has_job b' job /\ rank b' job = 0%nat.
Proof.
  induction n as [n IH] using lt_wf_ind. intros t b job L N C HJ R. destruct (Nat.eq_dec (rank b job) 0) as [Z0|NZ]; [exists t; split; [lia|eauto]|].
  assert (X := rank_worker b job C ltac:(lia)).
  (* when the due step is taken, the rank has become smaller *)
  assert (GO : forall (P : turn -> Prop), again sch P ->
    (forall t' b', P (sch t') -> nth_error (n_servers (st t')) j = Some b' -> kcore b' -> has_job b' job -> rank b' job = rank b job ->
       exists b2, nth_error (n_servers (st (S t'))) j = Some b2 /\ (rank b2 job < rank b job)%nat) ->
    exists t', (t <= t')%nat /\ exists b', nth_error (n_servers (st t')) j = Some b' /\ kcore b' /\ has_job b' job /\ rank b' job = 0%nat).
  { intros P AG D. destruct (AG t) as (t' & LE & PT). destruct (server_on t t' b job L LE N C HJ) as (b' & N' & C' & H' & R').
    destruct (Nat.eq_dec (rank b' job) (rank b job)) as [E|E].
    - destruct (D t' b' PT N' C' H' E) as (b2 & N2 & R2). destruct (server_on t' (S t') b' job ltac:(lia) ltac:(lia) N' C' H') as (b2' & N2' & C2 & H2 & _). rewrite N2 in N2'. injection N2' as <-.
      destruct (IH (rank b2 job) ltac:(lia) (S t') b2 job ltac:(lia) N2 C2 H2 (Nat.le_refl _)) as (t3 & L3 & G). exists t3. split; [lia|exact G].
    - destruct (IH (rank b' job) ltac:(lia) t' b' job ltac:(lia) N' C' H' (Nat.le_refl _)) as (t3 & L3 & G). exists t3. split; [lia|exact G]. }
  assert (SG : forall b', kcore b' -> has_job b' job -> rank b' job = rank b job ->
    (exists l, b_worker _ _ _ b = WLock l) -> (exists l, b_worker _ _ _ b' = WLock l)).
  { intros b' C' H' E [l W]. assert (X' := rank_worker b' job C' ltac:(lia)). destruct (rank_pos b job ltac:(lia)) as (jb & _ & LE & E1). destruct (rank_pos b' job ltac:(lia)) as (jb' & _ & LE' & E1').
    unfold stage in *. rewrite W in E1. destruct (b_worker _ _ _ b'); try contradiction; eauto; lia. }
  assert (SE : forall b', kcore b' -> has_job b' job -> rank b' job = rank b job -> stage b' = stage b).
  { intros b' C' H' E. destruct (rank_pos b job ltac:(lia)) as (jb & _ & LE & E1). destruct (rank_pos b' job ltac:(lia)) as (jb' & _ & LE' & E1').
    assert (stage b < 3)%nat by (unfold stage; destruct (b_worker _ _ _ b); lia). assert (stage b' < 3)%nat by (unfold stage; destruct (b_worker _ _ _ b'); lia). lia. }
  destruct BAT as (BT & BE & BF). destruct (b_worker _ _ _ b) as [| |l|l] eqn:W; [contradiction| | |].
  - apply (GO _ BT). intros t' b' PT N' C' H' E. symmetry in PT. eexists. split; [exact (batch_turn t' (BTake _) _ Logic.I PT N')|].
    specialize (SE b' C' H' E). assert (W' : b_worker _ _ _ b' = WStarted) by (unfold stage in SE; rewrite W in SE; destruct (b_worker _ _ _ b'); congruence || lia).
    rewrite <- E. destruct (rank_pos b' job ltac:(lia)) as (jb & NJ & LE & E1). destruct b' as [js q wk rid cl dc db log]. cbn [b_worker] in W'. subst wk. rewrite take_eq.
    unfold rank, kjobs in *. cbn [b_jobs b_runid] in *. rewrite NJ in *. destruct (Z.ltb_spec (j_run _ _ jb) rid); [lia|]. unfold stage. cbn. lia.
  - apply (GO _ BE). intros t' b' [f PT] N' C' H' E. eexists. split; [exact (batch_turn t' (BExecute _ f) _ Logic.I PT N')|].
    specialize (SE b' C' H' E). assert (W' : exists l, b_worker _ _ _ b' = WExec l) by (unfold stage in SE; rewrite W in SE; destruct (b_worker _ _ _ b'); eauto; congruence || lia).
    set (b1 := with_db (n_world (st t')) b').
    rewrite <- E. destruct W' as [l' W']. destruct (rank_exec b1 f job) as (R1 & R2 & R3). change (b_worker _ _ _ b1) with (b_worker _ _ _ b') in R3. rewrite W' in R3.
    assert (S1 : stage b' = 1%nat) by (unfold stage; now rewrite W').
    destruct (rank_pos b' job ltac:(lia)) as (jb & NJ & LE & E1). unfold runs_of in R1. change (kjobs b1) with (kjobs b') in R1. rewrite NJ in R1.
    unfold rank at 1. destruct (nth_error (kjobs (kst b1 (BExecute aop f))) job) as [jb2|]; [|discriminate]. cbn in R1. injection R1 as R1. rewrite R1, R2, R3. change (b_runid _ _ _ b1) with (b_runid _ _ _ b').
    destruct (Z.ltb_spec (j_run _ _ jb) (b_runid _ _ _ b')); lia.
  - apply (GO _ BF). intros t' b' PT N' C' H' E. symmetry in PT. eexists. split; [exact (batch_turn t' (BFinish _) _ Logic.I PT N')|].
    destruct (rank_finish (with_db (n_world (st t')) b') job (core_db _ _ C') H') as (_ & _ & B). rewrite <- E, <- (rank_db (n_world (st t')) b'). apply B; [rewrite rank_db; lia|].
    apply (SG b' C' H' E). eauto.
Qed.
(** every request that is there will be answered *)
Lemma answered_later act : forall t, (t0 <= t)%nat -> here t act -> exists t', (t <= t')%nat /\ answered_by t'.
Proof.
  induction act as [act IH] using (well_founded_ind smaller_wf). intros t L H.
  (* at its next turn after [u] it makes progress, if it can *)
  assert (NEXT : forall u, (t <= u)%nat -> (forall t1, (u <= t1)%nat -> match act with NRun _ => True | NWait _ job _ => exists b, nth_error (n_servers (st t1)) j = Some b /\ kreleased b job <> None end) ->
    exists t', (t <= t')%nat /\ answered_by t').
  { intros u U W. destruct (OWN u) as (t1 & L1 & f & E1). destruct (stays_or t act L H t1 ltac:(lia)) as [A|[(t2 & act' & B & D & S)|S]].
    - exists t1. split; [lia|exact A].
    - destruct (IH act' S t2 ltac:(lia) D) as (t3 & L3 & A). exists t3. split; [lia|exact A].
    - destruct (own_turn t1 f act S E1 (W t1 L1)) as [A|(act' & D & SM)].
      + exists (Datatypes.S t1). split; [lia|exact A].
      + destruct (IH act' SM (Datatypes.S t1) ltac:(lia) D) as (t3 & L3 & A). exists t3. split; [lia|exact A]. }
  destruct act as [p|a job k]; [apply (NEXT t); auto|].
  destruct (st_reach t) as [R _]. destruct (node_sim cfg okf _ T R) as [NIv _]. destruct (I_wait _ _ NIv _ _ _ _ _ H) as (b & jb & N & NJ & _).
  assert (HJ : has_job b job) by (unfold has_job; congruence).
  destruct (released_later _ t b job L N (I_core _ _ NIv _ _ N) HJ (Nat.le_refl _)) as (u & U & b' & N' & C' & H' & R').
  apply (NEXT u U). intros t1 L1. destruct (server_on u t1 b' job ltac:(lia) L1 N' C' H') as (b2 & N2 & _ & H2 & R2). exists b2. split; auto. apply rank_released; auto. lia.
Qed.
End Run.

Lemma asked_answered cfg okf sch t j q : tolerant okf -> (forall t, turn_ok okf (sch t)) ->
  sch t = Other (NAsk j q) -> (j < length (n_servers (at_time cfg sch t)))%nat ->
  let pid := n_next (at_time cfg sch t) in
  (forall t', (t < t')%nat -> sch t' <> Other (NCrash j)) -> again sch (fun x => exists f, x = Own pid f) -> batching j sch ->
  exists t' o, (t < t')%nat /\ In (Answered pid o) (n_log (at_time cfg sch t')).
Proof.
  intros T OK E L pid NC OWN BAT.
  destruct (answered_later cfg okf sch T OK pid j (S t) NC OWN BAT (NRun (served cfg q)) (S t) (Nat.le_refl _)) as (t' & L' & o & A).
  - unfold here. cbn [at_time]. unfold take_turn, attempt. rewrite E. unfold pid. destruct (at_time cfg sch t) as [w sv ps log n]. cbn [n_servers n_next] in *. cbn [nstep].
    apply nth_error_Some in L. destruct (nth_error sv j); [|congruence]. cbn. now left.
  - exists t', o. split; [lia|exact A].
Qed.
