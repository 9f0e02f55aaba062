(** Batched writes. *)
From Coq Require Import List ZArith Bool Lia Sorting.Sorted.
From Verif Require Import Bytes Spec Sql System Prog SqlLemmas Batch.
Import ListNotations.
Open Scope Z_scope.

Section Batch.
Variables D S R : Type.
Variable run : S -> D -> D * R.
Local Notation job := (job S R).
Local Notation logged := (logged S R).
Local Notation outcome := (outcome R).
Local Notation batch_state := (batch_state D S R).
Local Notation replays := (replays D S R run).
Local Notation executed := (executed S R).
Local Notation log_of := (log_of S R).
Local Notation exec_all := (exec_all D S R run).
Local Notation exec_queue := (exec_queue D S R run).
Local Notation batch_step := (batch_step D S R run).
Local Notation batch_reach := (batch_reach D S R run).
Local Notation batch_init := (@batch_init D S R).
Local Notation set_outcome := (set_outcome S R).
Local Notation set_results := (set_results S R).

Lemma replays_app l1 : forall l2 (d d1 d2 : D), replays l1 d d1 -> replays l2 d1 d2 -> replays (l1 ++ l2) d d2.
Proof. induction l1 as [|[id s r|s] l1 IH]; simpl; intros l2 d d1 d2; [now intros ->|intros [A B] C; split; eauto|eauto]. Qed.
Lemma executed_app l1 l2 : executed (l1 ++ l2) = executed l1 ++ executed l2.
Proof. apply flat_map_app. Qed.
Lemma executed_log l : executed (log_of l) = map (fun x => fst (fst x)) l.
Proof. induction l as [|x l IH]; simpl; congruence. Qed.

Definition with_outcome (j : job) (o : outcome) : job := Job S R (j_stmt S R j) (j_run S R j) (j_cancelled S R j) (Some o).
Lemma set_outcome_nth o ids js : forall n i, nth_error (set_outcome o ids js n) i =
  option_map (fun j => if existsb (Nat.eqb (n + i)) ids then with_outcome j o else j) (nth_error js i).
Proof.
  induction js as [|j js IH]; intros n [|i]; cbn [set_outcome nth_error option_map]; auto; try (now rewrite Nat.add_0_r).
  rewrite IH. now rewrite <- Nat.add_succ_comm.
Qed.
Lemma existsb_in i ids : existsb (Nat.eqb i) ids = true <-> In i ids.
Proof. rewrite existsb_exists. split; [intros (x & I & E); apply Nat.eqb_eq in E; now subst|intros I; exists i; now rewrite Nat.eqb_refl]. Qed.

(** what becomes of a job in execQueue *)
Definition same_job (j j' : job) : Prop := j_stmt S R j' = j_stmt S R j /\ j_run S R j' = j_run S R j /\ j_cancelled S R j' = j_cancelled S R j.
Lemma same_refl j : same_job j j. Proof. repeat split. Qed.
Lemma with_same j o : same_job j (with_outcome j o). Proof. repeat split. Qed.
Lemma same_trans a b c : same_job a b -> same_job b c -> same_job a c.
Proof. intros (A & B & C) (A' & B' & C'). repeat split; congruence. Qed.

Lemma set_results_nth l : forall js i, NoDup (map (fun x => fst (fst x)) l) -> nth_error (set_results l js) i =
  option_map (fun j => match find (fun x => Nat.eqb (fst (fst x)) i) l with Some x => with_outcome j (Done R (snd x)) | None => j end) (nth_error js i).
Proof.
  unfold set_results. induction l as [|x l IH]; intros js i ND; cbn [fold_left find]; [destruct (nth_error js i); reflexivity|].
  cbn [map] in ND. inversion ND as [|? ? NI ND']; subst. rewrite IH by auto. rewrite set_outcome_nth. cbn [existsb]. rewrite orb_false_r, Nat.add_0_l.
  destruct (nth_error js i) as [j|]; auto. cbn [option_map]. rewrite (Nat.eqb_sym (fst (fst x)) i).
  destruct (Nat.eqb_spec i (fst (fst x))) as [->|N]; auto.
  destruct (find _ l) as [y|] eqn:F; auto. apply find_some in F. destruct F as [F1 F2]. apply Nat.eqb_eq in F2. exfalso. apply NI. rewrite <- F2. now apply (in_map (fun x => fst (fst x))).
Qed.

Lemma exec_all_ok js f : forall ids pos d d' l, exec_all js ids pos f d = Ok (d', l) ->
  map (fun x => fst (fst x)) l = ids /\ replays (log_of l) d d' /\
  forall x, In x l -> exists j, nth_error js (fst (fst x)) = Some j /\ j_stmt S R j = snd (fst x) /\ j_cancelled S R j = false.
Proof.
  induction ids as [|id ids IH]; intros pos d d' l; cbn [Batch.exec_all].
  - intros [= <- <-]. cbn. repeat split. intros x [].
  - destruct (nth_error js id) as [j|] eqn:N; [|discriminate]. destruct (j_cancelled S R j) eqn:C; [discriminate|].
    destruct (stmt_fault f pos); [discriminate|]. destruct (exec_all js ids _ f _) as [[d1 l1]|e] eqn:E; [|discriminate].
    intros [= <- <-]. destruct (IH _ _ _ _ E) as (A & B & C'). cbn [map fst snd]. split; [now f_equal|]. split; [split; auto|].
    intros x [<-|I]; [|auto]. exists j. auto.
Qed.

(** one execQueue call *)
Record executes (f : bfault) (js : list job) (ids : list nat) (d : D) (js' : list job) (d' : D) (l : list logged) : Prop := {
  X_len : length js' = length js;
  X_job : forall i j, nth_error js i = Some j -> exists j', nth_error js' i = Some j' /\ same_job j j' /\
     (~ In i ids -> j' = j) /\ (In i ids -> exists o, j_outcome S R j' = Some o /\
        match o with Done _ r => In (LJob S R i (j_stmt S R j) r) l | Failed _ e => reported f -> l = [] end);
  X_replay : replays l d d';
  X_log : executed l = ids \/ l = [];
  X_stmt : forall i s r, In (LJob S R i s r) l -> exists j, nth_error js i = Some j /\ j_stmt S R j = s
}.

Lemma set_outcome_length o ids js : forall n, length (set_outcome o ids js n) = length js.
Proof. induction js as [|j js IH]; intros n; cbn; auto. Qed.
Lemma executes_failed f js ids e d d' l : replays l d d' -> (executed l = ids \/ l = []) ->
  (forall i s r, In (LJob S R i s r) l -> exists j, nth_error js i = Some j /\ j_stmt S R j = s) -> (reported f -> l = []) ->
  executes f js ids d (set_outcome (Failed R e) ids js 0) d' l.
Proof.
  intros A B C F. constructor; auto.
  - apply set_outcome_length.
  - intros i j N. rewrite set_outcome_nth, N. cbn [option_map]. rewrite Nat.add_0_l. destruct (existsb (Nat.eqb i) ids) eqn:E.
    + apply existsb_in in E. eexists. split; [reflexivity|]. split; [apply with_same|]. split; [tauto|]. intros _. eexists. split; [reflexivity|]. exact F.
    + eexists. split; [reflexivity|]. split; [apply same_refl|]. split; [auto|]. intros I. apply existsb_in in I. congruence.
Qed.
Lemma set_results_length l : forall js, length (set_results l js) = length js.
Proof. unfold set_results. induction l as [|x l IH]; intros js; cbn [fold_left]; auto. now rewrite IH, set_outcome_length. Qed.
Lemma log_in l i s r : In (LJob S R i s r) (log_of l) -> In (i, s, r) l.
Proof. unfold Batch.log_of. rewrite in_map_iff. intros ([[i' s'] r'] & E & I). cbn in E. injection E as <- <- <-. exact I. Qed.
Lemma executes_done f js ids pos d d' l : NoDup ids -> exec_all js ids pos f d = Ok (d', l) -> executes f js ids d (set_results l js) d' (log_of l).
Proof.
  intros ND E. destruct (exec_all_ok _ _ _ _ _ _ _ E) as (A & B & C). constructor; auto.
  - apply set_results_length.
  - intros i j N. rewrite set_results_nth by (rewrite A; auto). rewrite N. cbn [option_map]. destruct (find _ l) as [x|] eqn:F.
    + apply find_some in F. destruct F as [F1 F2]. apply Nat.eqb_eq in F2. eexists. split; [reflexivity|]. split; [apply with_same|]. split.
      * intros NI. contradict NI. rewrite <- A, <- F2. now apply (in_map (fun x => fst (fst x))).
      * intros _. eexists. split; [reflexivity|]. destruct x as [[i' s'] r']. cbn in F2. subst i'. destruct (C _ F1) as (j' & N' & E' & _). cbn [fst snd] in *.
        rewrite N in N'. injection N' as <-. rewrite E'. unfold Batch.log_of. apply in_map_iff. exists (i, s', r'). auto.
    + eexists. split; [reflexivity|]. split; [apply same_refl|]. split; auto. intros I. rewrite <- A in I. apply in_map_iff in I. destruct I as (x & E1 & I).
      apply (find_none _ _ F) in I. rewrite <- E1, Nat.eqb_refl in I. discriminate.
  - left. rewrite executed_log. exact A.
  - intros i s r I. apply log_in in I. destruct (C _ I) as (j & N & E' & _). eauto.
Qed.
Lemma executes_took f js ids pos e d d' l : f = BFCommit e true -> exec_all js ids pos f d = Ok (d', l) ->
  executes f js ids d (set_outcome (Failed R e) ids js 0) d' (log_of l).
Proof.
  intros -> E. destruct (exec_all_ok _ _ _ _ _ _ _ E) as (A & B & C). apply executes_failed; auto.
  - left. rewrite executed_log. exact A.
  - intros i s r I. apply log_in in I. destruct (C _ I) as (j & N & E' & _). eauto.
  - intros X. discriminate X.
Qed.
Lemma executes_none f js ids e d : executes f js ids d (set_outcome (Failed R e) ids js 0) d [].
Proof. apply executes_failed; auto; [reflexivity|intros i s r []]. Qed.

Lemma exec_queue_ok closed js ids f d js' d' l : NoDup ids -> ids <> [] -> exec_queue closed js ids f d = (js', d', l) -> executes f js ids d js' d' l.
Proof.
  intros ND NE. unfold Batch.exec_queue. destruct ids as [|i [|i2 rest]]; [congruence| |].
  - destruct (exec_all js [i] 0 f d) as [[d1 l1]|e] eqn:E; [|intros [= <- <- <-]; apply executes_none].
    destruct f as [|e|n e|e []]; intros [= <- <- <-]; try apply executes_none.
    + eapply executes_done; eauto.
    + eapply executes_took; eauto.
  - destruct closed; [intros [= <- <- <-]; apply executes_none|].
    destruct f as [|e|n e|e b]; try (intros [= <- <- <-]; apply executes_none);
      (destruct (exec_all js (i :: i2 :: rest) 0 _ d) as [[d1 l1]|e1] eqn:E; [|intros [= <- <- <-]; apply executes_none]).
    + intros [= <- <- <-]. eapply executes_done; eauto.
    + intros [= <- <- <-]. eapply executes_done; eauto.
    + destruct b; intros [= <- <- <-]; [eapply executes_took; eauto|apply executes_none].
Qed.

(** ---- the invariant ---- *)
Definition batch_of (w : worker) : list nat := match w with WExec b | WLock b => b | _ => [] end.
Definition todo (w : worker) (q : list nat) : list nat := match w with WExec b => b ++ q | _ => q end.
Definition job_at (s : batch_state) (i : nat) (j : job) : Prop :=
  (In i (b_queue D S R s) /\ j_run S R j = (if running (b_worker D S R s) then b_runid D S R s + 1 else b_runid D S R s) /\ j_outcome S R j = None) \/
  (exists b, b_worker D S R s = WExec b /\ In i b /\ j_run S R j = b_runid D S R s /\ j_outcome S R j = None) \/
  (exists b, b_worker D S R s = WLock b /\ In i b /\ j_run S R j = b_runid D S R s /\ j_outcome S R j <> None) \/
  (j_run S R j < b_runid D S R s /\ j_outcome S R j <> None).

Record BI (ok : bfault -> Prop) (d : D) (s : batch_state) : Prop := {
  K_replay : replays (b_log D S R s) d (b_db D S R s);
  K_sorted : StronglySorted lt (executed (b_log D S R s) ++ todo (b_worker D S R s) (b_queue D S R s));
  K_todo : forall i, In i (todo (b_worker D S R s) (b_queue D S R s)) -> (i < length (b_jobs D S R s))%nat;
  K_worker : match b_worker D S R s with WNone => b_queue D S R s = [] | WStarted => b_queue D S R s <> [] | WExec b | WLock b => b <> [] end;
  K_job : forall i j, nth_error (b_jobs D S R s) i = Some j -> job_at s i j;
  K_done : forall i j r, nth_error (b_jobs D S R s) i = Some j -> j_outcome S R j = Some (Done R r) -> In (LJob S R i (j_stmt S R j) r) (b_log D S R s);
  K_fail : (forall f, ok f -> reported f) -> forall i j e, nth_error (b_jobs D S R s) i = Some j -> j_outcome S R j = Some (Failed R e) -> ~ In i (executed (b_log D S R s));
  K_stmt : forall i st r, In (LJob S R i st r) (b_log D S R s) -> exists j, nth_error (b_jobs D S R s) i = Some j /\ j_stmt S R j = st;
  K_closed : b_dbclosed D S R s = true -> b_closed D S R s = true /\ b_worker D S R s = WNone }.

Lemma sorted_nodup l : StronglySorted lt l -> NoDup l.
Proof. induction 1 as [|x l H IH F]; constructor; auto. rewrite Forall_forall in F. intros I. apply F in I. lia. Qed.
Lemma executed_in i l : In i (executed l) <-> exists s r, In (LJob S R i s r) l.
Proof.
  unfold Batch.executed. rewrite in_flat_map. split.
  - intros (x & I & J). destruct x as [i' s r|s]; [|destruct J]. destruct J as [<-|[]]. eauto.
  - intros (s & r & I). exists (LJob S R i s r). simpl. auto.
Qed.
Lemma cancel_nth id : forall js i, nth_error (cancel_job S R id js) i =
  option_map (fun j => if Nat.eqb i id then Job S R (j_stmt S R j) (j_run S R j) true (j_outcome S R j) else j) (nth_error js i).
Proof. induction id as [|id IH]; intros [|j js] [|i]; cbn; auto; try (destruct (nth_error js i); reflexivity). Qed.
Lemma cancel_length id : forall js, length (cancel_job S R id js) = length js.
Proof. induction id as [|id IH]; intros [|j js]; cbn; auto. Qed.
Lemma sorted_app_l (l1 l2 : list nat) : StronglySorted lt (l1 ++ l2) -> StronglySorted lt l1 /\ StronglySorted lt l2 /\ forall a b, In a l1 -> In b l2 -> (a < b)%nat.
Proof. rewrite sorted_app. tauto. Qed.

Lemma BI_step ok d s a : BI ok d s -> fault_ok S ok a -> BI ok d (batch_step s a).
Proof.
  intros [K1 K2 K3 K4 K5 K6 K7 K8 K9] FO. destruct s as [js q w rid cl dc db log]. cbn [b_log b_db b_worker b_queue b_jobs b_dbclosed b_closed] in *.
  destruct a as [st|id| |f| |st| |]; cbn [Batch.batch_step b_closed b_worker b_queue b_jobs b_runid b_dbclosed b_db b_log].
  - (* submit *)
    destruct cl; [constructor; auto|].
    assert (NW : start_worker w <> WNone) by (destruct w; discriminate).
    remember (start_worker w) as w' eqn:EW.
    assert (TD : todo w' (q ++ [length js]) = todo w q ++ [length js]) by (subst w'; destruct w; cbn; auto; now rewrite app_assoc).
    assert (RN : running w' = running w) by (subst w'; destruct w; reflexivity).
    constructor; cbn [b_log b_db b_worker b_queue b_jobs b_dbclosed b_closed]; auto.
    + rewrite TD, app_assoc. apply sorted_app. split; [exact K2|]. split; [repeat constructor|].
      intros x y I [<-|[]]. apply in_app_iff in I. destruct I as [I|I]; [|now apply K3].
      apply executed_in in I. destruct I as (s & r & I). destruct (K8 _ _ _ I) as (j & N & _). apply nth_error_Some. congruence.
    + rewrite TD, app_length. cbn [length]. intros i I. apply in_app_iff in I. destruct I as [I|[<-|[]]]; [specialize (K3 i I); lia|lia].
    + subst w'. destruct w; auto; intros X; destruct q; discriminate X.
    + intros i j N. destruct (Nat.lt_ge_cases i (length js)) as [L|L].
      * rewrite nth_error_app1 in N by auto. specialize (K5 i j N). unfold job_at in *. cbn [b_queue b_worker b_runid] in *. rewrite RN.
        destruct K5 as [(A & B & C)|[(b & A & B & C)|[(b & A & B & C)|A]]].
        -- left. split; [apply in_app_iff; auto|auto].
        -- right. left. exists b. subst w. auto.
        -- right. right. left. exists b. subst w. auto.
        -- auto.
      * rewrite nth_error_app2 in N by auto. destruct (i - length js)%nat as [|m] eqn:EI; [|destruct m; discriminate]. injection N as <-.
        left. cbn [b_queue b_worker b_runid j_run j_outcome]. split; [apply in_app_iff; right; left; lia|]. rewrite RN. auto.
    + intros i j r N E. destruct (Nat.lt_ge_cases i (length js)) as [L|L]; [rewrite nth_error_app1 in N by auto; eauto|].
      rewrite nth_error_app2 in N by auto. destruct (i - length js)%nat as [|m]; [|destruct m; discriminate]. injection N as <-. discriminate.
    + intros OK i j e N E. destruct (Nat.lt_ge_cases i (length js)) as [L|L]; [rewrite nth_error_app1 in N by auto; eauto|].
      rewrite nth_error_app2 in N by auto. destruct (i - length js)%nat as [|m]; [|destruct m; discriminate]. injection N as <-. discriminate.
    + intros i s r I. destruct (K8 _ _ _ I) as (j & N & E). exists j. split; auto. rewrite nth_error_app1; auto. apply nth_error_Some. congruence.
    + intros X. destruct (K9 X). discriminate.
  - (* cancel *)
    constructor; cbn [b_log b_db b_worker b_queue b_jobs b_dbclosed b_closed]; auto.
    + now rewrite cancel_length.
    + intros i j N. rewrite cancel_nth in N. destruct (nth_error js i) as [j0|] eqn:N0; [|discriminate]. injection N as <-.
      specialize (K5 i j0 N0). unfold job_at in *. cbn [b_queue b_worker b_runid] in *. destruct (Nat.eqb i id); exact K5.
    + intros i j r N E. rewrite cancel_nth in N. destruct (nth_error js i) as [j0|] eqn:N0; [|discriminate]. injection N as <-.
      specialize (K6 i j0 r N0). destruct (Nat.eqb i id); cbn in *; auto.
    + intros OK i j e N E. rewrite cancel_nth in N. destruct (nth_error js i) as [j0|] eqn:N0; [|discriminate]. injection N as <-.
      specialize (K7 OK i j0 e N0). destruct (Nat.eqb i id); cbn in *; auto.
    + intros i s r I. destruct (K8 _ _ _ I) as (j & N & E). rewrite cancel_nth, N. eexists. split; [reflexivity|]. destruct (Nat.eqb i id); auto.
  - (* take *)
    destruct w as [| |b|b]; try (constructor; auto; fail).
    constructor; cbn [b_log b_db b_worker b_queue b_jobs b_dbclosed b_closed todo]; auto; rewrite ?app_nil_r; auto.
    + intros i j N. specialize (K5 i j N). unfold job_at in *. cbn [b_queue b_worker b_runid running] in *.
      destruct K5 as [(A & B & C)|[(b & A & B & C)|[(b & A & B & C)|A]]]; try discriminate; auto.
      right. left. exists q. auto.
    + intros X. destruct (K9 X). discriminate.
  - (* execute *)
    destruct w as [| |b|b]; try (constructor; auto; fail).
    cbn [todo] in *. destruct (sorted_app_l _ _ K2) as (S1 & S2 & S3). destruct (sorted_app_l _ _ S2) as (S4 & S5 & S6).
    destruct (exec_queue cl js b f db) as [[js' db'] l] eqn:E.
    destruct (exec_queue_ok _ _ _ _ _ _ _ _ (sorted_nodup _ S4) K4 E) as [X1 X2 X3 X4 X5].
    assert (BK : forall i j', nth_error js' i = Some j' -> exists j, nth_error js i = Some j).
    { intros i j' N. destruct (nth_error js i) as [j|] eqn:N0; [eauto|]. apply nth_error_None in N0. rewrite <- X1 in N0. apply nth_error_None in N0. congruence. }
    constructor; cbn [b_log b_db b_worker b_queue b_jobs b_dbclosed b_closed todo]; auto.
    + eapply replays_app; eauto.
    + rewrite executed_app, <- app_assoc. destruct X4 as [->| ->]; [exact K2|]. cbn [Batch.executed flat_map app].
      apply sorted_app. split; auto. split; auto. intros x y I J. apply S3; auto. apply in_app_iff. auto.
    + rewrite X1. intros i I. apply K3. apply in_app_iff. auto.
    + intros i j' N. destruct (BK i j' N) as [j N0]. destruct (X2 i j N0) as (j1 & N1 & (T1 & T2 & T3) & U & V). rewrite N in N1. injection N1 as <-.
      specialize (K5 i j N0). unfold job_at in *. cbn [b_queue b_worker b_runid running] in *.
      destruct K5 as [(A & B & C)|[(b' & A & B & C)|[(b' & A & B & C)|A]]]; try discriminate.
      * left. rewrite U; [auto|]. intros I. specialize (S6 i i I A). lia.
      * injection A as <-. right. right. left. exists b. rewrite T2. destruct (V B) as (o & O1 & O2). rewrite O1. intuition congruence.
      * right. right. right. rewrite T2. split; [tauto|]. destruct (in_dec Nat.eq_dec i b) as [I|I]; [destruct (V I) as (o & O1 & _); congruence|rewrite U; tauto].
    + intros i j' r N EO. destruct (BK i j' N) as [j N0]. destruct (X2 i j N0) as (j1 & N1 & (T1 & T2 & T3) & U & V). rewrite N in N1. injection N1 as <-.
      apply in_app_iff. destruct (in_dec Nat.eq_dec i b) as [I|I].
      * right. destruct (V I) as (o & O1 & O2). rewrite EO in O1. injection O1 as <-. rewrite T1. exact O2.
      * left. specialize (U I). subst j'. eauto.
    + intros OK i j' e N EO. destruct (BK i j' N) as [j N0]. destruct (X2 i j N0) as (j1 & N1 & (T1 & T2 & T3) & U & V). rewrite N in N1. injection N1 as <-.
      rewrite executed_app, in_app_iff. destruct (in_dec Nat.eq_dec i b) as [I|I].
      * destruct (V I) as (o & O1 & O2). rewrite EO in O1. injection O1 as <-. rewrite (O2 (OK f FO)). cbn. intros [J|[]].
        specialize (S3 i i J ltac:(apply in_app_iff; auto)). lia.
      * specialize (U I). subst j'. intros [J|J]; [exact (K7 OK i j e N0 EO J)|]. destruct X4 as [X4|X4]; rewrite X4 in J; [contradiction|destruct J].
    + intros i s r I. apply in_app_iff in I. assert (exists j, nth_error js i = Some j /\ j_stmt S R j = s) as (j & N & EQ) by (destruct I as [I|I]; eauto).
      destruct (X2 i j N) as (j1 & N1 & (T1 & _) & _). exists j1. split; auto. congruence.
    + intros X. destruct (K9 X). discriminate.
  - (* finish *)
    destruct w as [| |b|b]; try (constructor; auto; fail). cbn [todo] in *.
    assert (J : forall i j w', nth_error js i = Some j -> (q = [] \/ w' = WExec q) -> job_at (BatchState D S R js [] w' (rid + 1) cl dc db log) i j).
    { intros i j w' N Q. specialize (K5 i j N). unfold job_at in *. cbn [b_queue b_worker b_runid running] in *.
      destruct K5 as [(A & B & C)|[(b' & A & B & C)|[(b' & A & B & C)|A]]]; try discriminate.
      - destruct Q as [->| ->]; [destruct A|]. right. left. exists q. auto.
      - right. right. right. split; [lia|tauto].
      - right. right. right. split; [lia|tauto]. }
    destruct q as [|i0 q0].
    + constructor; cbn [b_log b_db b_worker b_queue b_jobs b_dbclosed b_closed todo]; auto. intros X. destruct (K9 X). discriminate.
    + constructor; cbn [b_log b_db b_worker b_queue b_jobs b_dbclosed b_closed todo]; rewrite ?app_nil_r; auto; [discriminate|]. intros X. destruct (K9 X). discriminate.
  - (* other *)
    destruct dc; [constructor; auto|]. constructor; cbn [b_log b_db b_worker b_queue b_jobs b_dbclosed b_closed]; auto; rewrite ?executed_app; cbn [Batch.executed flat_map]; rewrite ?app_nil_r; auto.
    + eapply replays_app; [exact K1|]. reflexivity.
    + intros i j r N E. apply in_app_iff. eauto.
    + intros i s r I. apply in_app_iff in I. destruct I as [I|[I|[]]]; [eauto|discriminate].
  - (* close *)
    constructor; cbn [b_log b_db b_worker b_queue b_jobs b_dbclosed b_closed]; auto. intros X. destruct (K9 X). auto.
  - (* closed *)
    destruct cl; [|constructor; auto]. destruct w; try (constructor; auto; fail).
Qed.
Lemma batch_BI ok d s : batch_reach ok d s -> BI ok d s.
Proof.
  induction 1 as [|s a H IH F]; [|now apply BI_step].
  constructor; cbn; auto; try easy; try constructor; intros; destruct i; discriminate.
Qed.

(** ---- C39 ---- *)
Lemma batch_log ok d s : batch_reach ok d s -> replays (b_log D S R s) d (b_db D S R s) /\ StronglySorted lt (executed (b_log D S R s)).
Proof. intros H. destruct (batch_BI _ _ _ H). split; auto. now apply sorted_app_l in K_sorted0. Qed.
Lemma batch_success ok d s i r : batch_reach ok d s -> released D S R s i = Some (Some (Done R r)) ->
  exists j, nth_error (b_jobs D S R s) i = Some j /\ In (LJob S R i (j_stmt S R j) r) (b_log D S R s).
Proof.
  intros H. unfold released. destruct (nth_error (b_jobs D S R s) i) as [j|] eqn:N; [|discriminate]. destruct (_ <? _); [|discriminate]. intros [= E].
  exists j. split; auto. eapply (K_done _ _ _ (batch_BI _ _ _ H)); eauto.
Qed.
Lemma batch_failure d s i e : batch_reach reported d s -> released D S R s i = Some (Some (Failed R e)) -> ~ In i (executed (b_log D S R s)).
Proof.
  intros H. unfold released. destruct (nth_error (b_jobs D S R s) i) as [j|] eqn:N; [|discriminate]. destruct (_ <? _); [|discriminate]. intros [= E].
  eapply (K_fail _ _ _ (batch_BI _ _ _ H)); eauto.
Qed.
Lemma batch_answer ok d s i : batch_reach ok d s -> released D S R s i <> Some None.
Proof.
  intros H. unfold released. destruct (nth_error (b_jobs D S R s) i) as [j|] eqn:N; [|discriminate]. destruct (Z.ltb_spec (j_run S R j) (b_runid D S R s)); [|discriminate].
  intros [= E]. destruct (K_job _ _ _ (batch_BI _ _ _ H) i j N) as [(A & B & C)|[(b & A & B & C & _)|[(b & A & B & C & F)|[A B]]]]; try congruence; try lia.
  destruct (running _); lia.
Qed.
(** all or nothing *)
Lemma batch_atomic ok d s f : batch_reach ok d s -> executed (b_log D S R (batch_step s (BExecute S f))) = executed (b_log D S R s) \/
  exists b, b_worker D S R s = WExec b /\ executed (b_log D S R (batch_step s (BExecute S f))) = executed (b_log D S R s) ++ b.
Proof.
  intros H. pose proof (batch_BI _ _ _ H) as [K1 K2 K3 K4 K5 K6 K7 K8 K9]. cbn [Batch.batch_step]. destruct (b_worker D S R s) as [| |b|b] eqn:W; auto.
  destruct (exec_queue _ _ b f _) as [[js' db'] l] eqn:E. cbn [b_log]. cbn [todo] in K2. 
  destruct (sorted_app_l _ _ K2) as (S1 & S2 & S3). destruct (sorted_app_l _ _ S2) as (S4 & S5 & S6).
  destruct (exec_queue_ok _ _ _ _ _ _ _ _ (sorted_nodup _ S4) K4 E) as [X1 X2 X3 X4 X5]. rewrite executed_app. destruct X4 as [->| ->]; eauto. left. cbn. apply app_nil_r.
Qed.

(** ---- C40 ---- *)
Lemma exec_all_none js : forall ids pos d, (forall i, In i ids -> exists j, nth_error js i = Some j /\ j_cancelled S R j = false) ->
  exists d' l, exec_all js ids pos BFNone d = Ok (d', l).
Proof.
  induction ids as [|i ids IH]; intros pos d H; cbn [Batch.exec_all]; [eauto|].
  destruct (H i (or_introl eq_refl)) as (j & -> & ->). cbn [stmt_fault].
  destruct (IH (Datatypes.S pos) (fst (run (j_stmt S R j) d)) ltac:(intros; apply H; right; auto)) as (d' & l & ->). eauto.
Qed.
Lemma batch_uncancelled ok d s b i : batch_reach ok d s -> b_worker D S R s = WExec b -> (b_closed D S R s = false \/ b = [i]) -> In i b ->
  (forall k j, In k b -> nth_error (b_jobs D S R s) k = Some j -> j_cancelled S R j = false) ->
  exists j r, nth_error (b_jobs D S R (batch_step s (BExecute S BFNone))) i = Some j /\ j_outcome S R j = Some (Done R r).
Proof.
  intros H W C I U. pose proof (batch_BI _ _ _ H) as [K1 K2 K3 K4 K5 K6 K7 K8 K9]. rewrite W in *. cbn [todo] in *.
  destruct (sorted_app_l _ _ K2) as (S1 & S2 & S3). destruct (sorted_app_l _ _ S2) as (S4 & S5 & S6). pose proof (sorted_nodup _ S4) as ND.
  assert (EX : forall k, In k b -> exists j, nth_error (b_jobs D S R s) k = Some j /\ j_cancelled S R j = false).
  { intros k Ik. destruct (nth_error (b_jobs D S R s) k) as [j|] eqn:N; [eauto|]. apply nth_error_None in N. specialize (K3 k ltac:(apply in_app_iff; auto)). lia. }
  destruct (exec_all_none (b_jobs D S R s) b 0 (b_db D S R s) EX) as (d' & l & E).
  assert (Q : exec_queue (b_closed D S R s) (b_jobs D S R s) b BFNone (b_db D S R s) = (set_results l (b_jobs D S R s), d', log_of l)).
  { unfold Batch.exec_queue. destruct b as [|x [|y z]]; [congruence| |]; rewrite E; auto. destruct C as [-> | C]; [reflexivity|discriminate]. }
  cbn [Batch.batch_step]. rewrite W, Q. cbn [b_jobs]. destruct (EX i I) as (j & N & _).
  destruct (exec_all_ok _ _ _ _ _ _ _ E) as (A & B & _). rewrite set_results_nth by (rewrite A; exact ND). rewrite N. cbn [option_map].
  destruct (find _ l) as [x|] eqn:F; [eexists _, _; split; reflexivity|]. rewrite <- A in I. apply in_map_iff in I. destruct I as (x & E1 & I).
  apply (find_none _ _ F) in I. rewrite <- E1, Nat.eqb_refl in I. discriminate.
Qed.

(** ---- C41 ---- *)
Lemma batch_closed_quiet ok d s acts : batch_reach ok d s -> b_dbclosed D S R s = true -> Forall (fault_ok S ok) acts ->
  b_log D S R (batch_run D S R run acts s) = b_log D S R s /\ b_db D S R (batch_run D S R run acts s) = b_db D S R s.
Proof.
  intros H C F. revert s H C. induction acts as [|a acts IH]; intros s H C; [auto|]. inversion F as [|? ? F1 F2]; subst. cbn [batch_run fold_left].
  pose proof (batch_BI _ _ _ H) as [K1 K2 K3 K4 K5 K6 K7 K8 K9]. destruct (K9 C) as [C1 C2].
  assert (E : b_log D S R (batch_step s a) = b_log D S R s /\ b_db D S R (batch_step s a) = b_db D S R s /\ b_dbclosed D S R (batch_step s a) = true).
  { destruct a; cbn [Batch.batch_step]; rewrite ?C, ?C1, ?C2; cbn; auto. }
  destruct E as (E1 & E2 & E3). destruct (IH F2 (batch_step s a) (batch_next D S R run ok d s a H F1) E3) as [A B]. unfold batch_run in *. rewrite A, B. auto.
Qed.
Lemma batch_rejects s st : b_closed D S R s = true -> batch_step s (BSubmit S st) = s.
Proof. intros C. cbn. now rewrite C. Qed.

(** what the worker does next *)
Definition work (w : worker) (f : bfault) : baction S := match w with WNone | WStarted => BTake S | WExec _ => BExecute S f | WLock _ => BFinish S end.
Fixpoint works (fs : list bfault) (s : batch_state) : batch_state :=
  match fs with [] => s | f :: fs' => works fs' (batch_step s (work (b_worker D S R s) f)) end.
Lemma works_none fs : forall s, b_worker D S R s = WNone -> works fs s = s.
Proof. induction fs as [|f fs IH]; intros s W; auto. cbn [works]. rewrite W. cbn [work Batch.batch_step]. rewrite W. auto. Qed.
Lemma works_reach ok d fs : forall s, batch_reach ok d s -> Forall ok fs -> batch_reach ok d (works fs s).
Proof.
  induction fs as [|f fs IH]; intros s H F; auto. inversion F; subst. cbn [works]. apply IH; auto. apply batch_next; auto. destruct (b_worker D S R s); cbn; auto.
Qed.
Lemma works_app fs gs : forall s, works (fs ++ gs) s = works gs (works fs s).
Proof. induction fs as [|f fs IH]; intros s; auto. cbn. apply IH. Qed.
Definition rank (s : batch_state) : nat :=
  match b_worker D S R s with
  | WNone => 0 | WStarted => 3
  | WExec _ => if b_queue D S R s then 2 else 4
  | WLock _ => if b_queue D S R s then 1 else 3
  end.
Lemma works_rank ok d s f : batch_reach ok d s -> (rank (batch_step s (work (b_worker D S R s) f)) <= rank s - 1)%nat.
Proof.
  intros H. pose proof (batch_BI _ _ _ H) as [K1 K2 K3 K4 K5 K6 K7 K8 K9]. unfold rank. destruct (b_worker D S R s) as [| |b|b] eqn:W; cbn [work Batch.batch_step]; rewrite W; cbn.
  - rewrite W. lia.
  - lia.
  - destruct (exec_queue _ _ b f _) as [[js' db'] l]. cbn. destruct (b_queue D S R s); lia.
  - destruct (b_queue D S R s) eqn:Q; cbn; lia.
Qed.
Lemma works_done ok d fs : forall s, batch_reach ok d s -> Forall ok fs -> (rank s <= length fs)%nat -> b_worker D S R (works fs s) = WNone.
Proof.
  induction fs as [|f fs IH]; intros s H F L; cbn [works].
  - unfold rank in L. destruct (b_worker D S R s); auto; cbn in L; destruct (b_queue D S R s); lia.
  - inversion F; subst. pose proof (works_rank _ _ _ f H). apply IH; auto; [|cbn [length] in L; lia].
    apply batch_next; auto. destruct (b_worker D S R s); cbn; auto.
Qed.
Lemma works_jobs fs : forall s, length (b_jobs D S R (works fs s)) = length (b_jobs D S R s).
Proof.
  induction fs as [|f fs IH]; intros s; auto. cbn [works]. rewrite IH. destruct (b_worker D S R s) as [| |b|b] eqn:W; cbn [work Batch.batch_step]; rewrite W; auto.
  - unfold Batch.exec_queue. destruct b as [|x [|y z]].
    + auto.
    + destruct (exec_all _ _ _ _ _) as [[? ?]|]; [destruct f as [| | |? []]|]; cbn; rewrite ?set_results_length, ?set_outcome_length; auto.
    + destruct (b_closed D S R s); [cbn; apply set_outcome_length|]. destruct f as [| | |? []]; try (cbn; apply set_outcome_length);
        (destruct (exec_all _ _ _ _ _) as [[? ?]|]; cbn; rewrite ?set_results_length, ?set_outcome_length; auto).
  - destruct (b_queue D S R s); auto.
Qed.
Lemma batch_releases ok d s fs i : batch_reach ok d s -> Forall ok fs -> (4 <= length fs)%nat -> (i < length (b_jobs D S R s))%nat ->
  b_worker D S R (works fs s) = WNone /\ exists o, released D S R (works fs s) i = Some (Some o).
Proof.
  intros H F L LI. assert (W : b_worker D S R (works fs s) = WNone) by (eapply works_done; eauto; unfold rank; destruct (b_worker D S R s); try destruct (b_queue D S R s); lia).
  split; auto. pose proof (works_reach _ _ fs s H F) as H'. pose proof (batch_BI _ _ _ H') as [K1 K2 K3 K4 K5 K6 K7 K8 K9]. rewrite W in *.
  rewrite <- (works_jobs fs s) in LI. unfold released. destruct (nth_error (b_jobs D S R (works fs s)) i) as [j|] eqn:N; [|apply nth_error_None in N; lia].
  destruct (K5 i j N) as [(A & _)|[(b & A & _)|[(b & A & _)|[A B]]]]; try congruence.
  - rewrite K4 in A. destruct A.
  - apply Z.ltb_lt in A. rewrite A. destruct (j_outcome S R j); [eauto|congruence].
Qed.
End Batch.
