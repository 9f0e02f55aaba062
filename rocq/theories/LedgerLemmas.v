(** Reasoning about processes that share a log. *)
From Coq Require Import List ZArith Bool Lia.
From Verif Require Import Bytes Spec Sql System Prog Backend Limited Api Pool Ledger Observe SpecLemmas SqlLemmas Sim ProgLemmas ReadProgs Safety ApiLemmas StoreProofs ReadProofs TraceLemmas TxnProofs.
Import ListNotations.
Open Scope Z_scope.

Local Notation ck := compact_rev_key.

Lemma commits_app a b : commits (a ++ b) = commits a ++ commits b.
Proof. unfold commits. apply flat_map_app. Qed.
Lemma commits_own i es : commits (map (Committed i) es) = es.
Proof. unfold commits. induction es as [|e es IH]; simpl; [reflexivity|]. now rewrite IH. Qed.

Definition own (i : nat) (x : note) : Prop := exists e, x = Committed i e.
Definition foreign (i : nat) (D : ledger) : Prop := forall x, In x D -> ~ own i x.
Lemma foreign_app i a b : foreign i a -> foreign i b -> foreign i (a ++ b).
Proof. intros A B x H. apply in_app_iff in H. destruct H; auto. Qed.
Lemma foreign_nil i : foreign i [].
Proof. intros x []. Qed.
Lemma foreign_other i j es : i <> j -> foreign i (map (Committed j) es).
Proof. intros N x H [e ->]. apply in_map_iff in H. destruct H as (e' & E & _). congruence. Qed.

(** ---- a statement and the history ---- *)
Lemma wapply_history w a : wreach w -> allowed (snd w) a ->
  history_of (snd (wapply w a)) = history_of (snd w) ++ (if fst (snd (apply (fst w) a)) =? 0 then [] else entry_of a).
Proof.
  intros HW HA. rewrite (proj2 (R_step _ _ a (reach_R _ _ HW) HA)). cbn [wapply snd].
  destruct a as [k v l|k v e l|k e|a b|r]; simpl.
  - unfold spec_create. destruct (now _ k); simpl; now rewrite ?app_nil_r.
  - unfold spec_update. destruct (now _ k) as [x|]; [destruct (kv_mod x =? e)|]; simpl; now rewrite ?app_nil_r.
  - unfold spec_delete. destruct (now _ k) as [x|]; [destruct (kv_mod x =? e)|]; simpl; now rewrite ?app_nil_r.
  - now rewrite app_nil_r.
  - destruct HA.
Qed.
Lemma sem_history f c w : wreach w -> call_ok (snd w) c ->
  history_of (snd (fst (sem f c w))) = history_of (snd w) ++ commit_of f c w.
Proof.
  intros HW HC. unfold commit_of, call_ok in *.
  assert (K : history_of (snd (weffect c w)) = history_of (snd w) ++
    match op_of c with None => [] | Some a => if fst (snd (apply (fst w) a)) =? 0 then [] else entry_of a end).
  { unfold weffect. destruct (op_of c) as [a|]; [apply wapply_history; tauto|now rewrite app_nil_r]. }
  destruct f as [|e|e|n e|]; cbn [sem fst]; try rewrite app_nil_r; auto.
Qed.

(** ---- weakest precondition with the log ---- *)
Fixpoint lwp {A} (okf : fault -> Prop) (i : nat) (p : prog A) (Q : ledger -> world -> A -> Prop) (L : ledger) (w : world) : Prop :=
  match p with
  | Ret o => Q L w o
  | Call c k => forall w1 D, wsteps w w1 -> wreach w1 -> commits (L ++ D) = history_of (snd w1) -> foreign i D ->
      forall f, okf f ->
      lwp okf i (k (snd (sem f c w1))) Q (L ++ D ++ map (Committed i) (commit_of f c w1)) (fst (sem f c w1))
  end.

Lemma lwp_mono {A} okf i (p : prog A) (Q Q' : ledger -> world -> A -> Prop) : (forall L w a, Q L w a -> Q' L w a) ->
  forall L w, lwp okf i p Q L w -> lwp okf i p Q' L w.
Proof. intros H. induction p as [a|c k IH]; intros L w; [exact (H L w a)|]. intros K w1 D S R C F f O. apply IH. apply K; auto. Qed.
Lemma lwp_faults {A} (okf okf' : fault -> Prop) i (p : prog A) (Q : ledger -> world -> A -> Prop) : (forall f, okf' f -> okf f) ->
  forall L w, lwp okf i p Q L w -> lwp okf' i p Q L w.
Proof. intros H. induction p as [a|c k IH]; intros L w; [exact (fun x => x)|]. intros K w1 D S R C F f O. apply IH. apply K; auto. Qed.
Lemma lwp_true {A} okf i (p : prog A) L w : lwp okf i p (fun _ _ _ => True) L w.
Proof. revert L w. induction p as [a|c k IH]; cbn [lwp]; auto. Qed.
Lemma lwp_bind {A B} okf i (p : prog A) (g : A -> prog B) Q : forall L w,
  lwp okf i p (fun L' w' a => lwp okf i (g a) Q L' w') L w -> lwp okf i (pbind p g) Q L w.
Proof.
  induction p as [a|c k IH]; intros L w; [exact (fun H => H)|]. intros K w1 D S R C F f O. apply IH. apply K; auto.
Qed.
Lemma lwp_rbind {A B} okf i (p : prog (result A)) (g : A -> prog (result B)) Q L w :
  lwp okf i p (fun L' w' r => match r with Ok a => lwp okf i (g a) Q L' w' | Err e => Q L' w' (Err e) end) L w ->
  lwp okf i (rbind p g) Q L w.
Proof. intros H. unfold rbind. apply lwp_bind. eapply lwp_mono; [|exact H]. intros L' w' [a|e]; auto. Qed.
(** whatever holds without the log *)
Lemma wp_lwp {A} okf i (p : prog A) (Q : world -> A -> Prop) : forall L w, wp okf p Q w -> lwp okf i p (fun _ w' a => Q w' a) L w.
Proof. induction p as [a|c k IH]; intros L w H; [exact H|]. intros w1 D S R C F f O. apply IH. apply H; auto. Qed.
(** conjunction *)
Lemma lwp_conj {A} okf i (p : prog A) (P Q : ledger -> world -> A -> Prop) : forall L w,
  lwp okf i p P L w -> lwp okf i p Q L w -> lwp okf i p (fun L' w' a => P L' w' a /\ Q L' w' a) L w.
Proof. induction p as [a|c k IH]; cbn [lwp]; auto. Qed.
(** other processes act *)
Lemma lwp_step {A} okf i (p : prog A) (Q : ledger -> world -> A -> Prop) L w w' D :
  (forall o, Q L w o -> Q (L ++ D) w' o) -> wsteps w w' -> foreign i D ->
  lwp okf i p Q L w -> lwp okf i p Q (L ++ D) w'.
Proof.
  intros ST S F. destruct p as [a|c k]; cbn [lwp]; auto. intros K w1 D1 S1 R1 C1 F1 f O.
  assert (C2 : commits (L ++ D ++ D1) = history_of (snd w1)) by (rewrite app_assoc; exact C1).
  specialize (K w1 (D ++ D1) (wsteps_trans _ _ _ S S1) R1 C2 (foreign_app _ _ _ F F1) f O).
  rewrite <- !app_assoc in *. exact K.
Qed.
(** reads commit nothing *)
Lemma lwp_quiet {A} okf i (p : prog A) (J : ledger -> Prop) : 
  (forall L D, J L -> foreign i D -> J (L ++ D)) ->
  issues (fun _ _ => True) (fun c => op_of c = None) p -> forall L w, J L -> lwp okf i p (fun L' _ _ => J L') L w.
Proof.
  intros ST. induction p as [a|c k IH]; cbn [lwp issues]; auto. intros [N H] L w JL w1 D S R C F f O.
  assert (E : commit_of f c w1 = []) by (unfold commit_of; rewrite N; destruct f; auto).
  rewrite E. cbn [map]. rewrite app_nil_r. apply IH; auto.
Qed.

(** retry loops: [J] survives failed attempts *)
Lemma lwp_retry (okf : fault -> Prop) i c (J : ledger -> Prop) (Q : ledger -> world -> result (ret_of c) -> Prop) n :
  (forall L D, J L -> foreign i D -> J (L ++ D)) ->
  (forall L w f, J L -> wreach w -> commits L = history_of (snd w) -> okf f ->
     match snd (sem f c w) with
     | Ok x => Q (L ++ map (Committed i) (commit_of f c w)) (fst (sem f c w)) (Ok x)
     | Err e => J (L ++ map (Committed i) (commit_of f c w)) /\
                Q (L ++ map (Committed i) (commit_of f c w)) (fst (sem f c w)) (Err e)
     end) ->
  forall L w, J L -> lwp okf i (with_retry (S n) c) Q L w.
Proof.
  intros ST H. induction n as [|n IH]; intros L w JL.
  - cbn [with_retry lwp]. intros w1 D S R C F f O. rewrite app_assoc. specialize (H (L ++ D) w1 f (ST _ _ JL F) R C O).
    destruct (snd (sem f c w1)); cbn [lwp]; tauto.
  - change (with_retry (S (S n)) c) with (Call c (fun r =>
        match r with Ok _ => Ret r | Err e => if retryable e then with_retry (S n) c else Ret r end)).
    cbn [lwp]. intros w1 D S R C F f O. rewrite app_assoc. specialize (H (L ++ D) w1 f (ST _ _ JL F) R C O).
    destruct (snd (sem f c w1)) as [x|e]; cbn [lwp]; auto. destruct H as [H1 H2]. destruct (retryable e); cbn [lwp]; auto.
Qed.

(** ---- the invariant ---- *)
(** what is promised about the answer [o] of request [q] of process [i], asked when
    the log was [L0] and the database [w0], answered at [L] and [w] *)
Definition promise := nat -> work -> ledger -> world -> ledger -> world -> reply -> Prop.

Record linv (cfg : driver_cfg) (okf : fault -> Prop) (Q : promise) (s : lstate) : Prop := {
  V_reach : wreach (l_world s);
  V_margin : margin_inv (snd (l_world s));
  V_hist : commits (l_log s) = history_of (snd (l_world s));
  V_safe : Forall (fun x => wp any_fault (snd x) (fun _ _ => True) (l_world s)) (l_procs s);
  V_ids : NoDup (map fst (l_procs s)) /\ forall x, In x (l_procs s) -> (fst x < l_next s)%nat;
  V_log : forall x, In x (l_log s) -> match x with Asked i _ | Committed i _ | Answered i _ => (i < l_next s)%nat end;
  V_once : forall A i q B, l_log s = A ++ Asked i q :: B -> forall q', ~ In (Asked i q') A;
  V_live : forall i p, In (i, p) (l_procs s) -> exists A q w0 B, l_log s = A ++ Asked i q :: B /\ work_ok q /\
     wreach w0 /\ commits A = history_of (snd w0) /\ wsteps w0 (l_world s) /\
     lwp okf i p (Q i q A w0) (l_log s) (l_world s);
  V_done : forall C i o B, l_log s = C ++ Answered i o :: B -> exists A q w0 D w, C = A ++ Asked i q :: D /\ work_ok q /\
     wreach w0 /\ commits A = history_of (snd w0) /\ wsteps w0 w /\ wreach w /\ commits C = history_of (snd w) /\ margin_inv (snd w) /\
     Q i q A w0 C w o }.

Lemma snoc_split {X} (l : list X) x A y B : l ++ [x] = A ++ y :: B ->
  (B = [] /\ l = A /\ x = y) \/ exists B', B = B' ++ [x] /\ l = A ++ y :: B'.
Proof.
  intros H. destruct (rev B) as [|b R] eqn:E.
  - assert (B = []) by (rewrite <- (rev_involutive B), E; reflexivity). subst B. apply app_inj_tail in H. left. tauto.
  - assert (EB : B = rev R ++ [b]) by (rewrite <- (rev_involutive B), E; reflexivity). subst B.
    change (A ++ y :: rev R ++ [b]) with (A ++ (y :: rev R) ++ [b]) in H. rewrite app_assoc in H. apply app_inj_tail in H.
    right. exists (rev R). destruct H as [-> ->]. split; auto.
Qed.
Lemma app_split {X} (es : list X) : forall l A y B, l ++ es = A ++ y :: B -> ~ In y es ->
  exists B', B = B' ++ es /\ l = A ++ y :: B'.
Proof.
  induction es as [|e es IH] using rev_ind; intros l A y B H N.
  - rewrite app_nil_r in H. subst l. exists B. now rewrite app_nil_r.
  - rewrite app_assoc in H. apply snoc_split in H. destruct H as [(E1 & E2 & E3)|(B' & E1 & E2)].
    + exfalso. apply N. rewrite E3. apply in_app_iff; simpl; auto.
    + destruct (IH _ _ _ _ E2) as (B2 & F1 & F2); [intros Y; apply N, in_app_iff; auto|].
      exists B2. rewrite E1, F1. split; [now rewrite app_assoc|exact F2].
Qed.

Definition stable (Q : promise) : Prop := forall i q A w0 L w o w' D, wsteps w w' -> foreign i D ->
  wreach w -> commits L = history_of (snd w) -> Q i q A w0 L w o -> Q i q A w0 (L ++ D) w' o.
Definition keeps (cfg : driver_cfg) (okf : fault -> Prop) (Q : promise) : Prop := forall i q A w, work_ok q -> wreach w ->
  commits A = history_of (snd w) -> lwp okf i (served cfg q) (Q i q A w) (A ++ [Asked i q]) w.

Lemma served_safe cfg q w : wreach w -> work_ok q -> wp any_fault (served cfg q) (fun _ _ => True) w.
Proof.
  intros HW HQ. pose proof (wp_program cfg q w HW HQ) as H.
  assert (G : forall A (p : prog A) g, wp any_fault (forget p) (fun _ _ => True) w -> wp any_fault (pbind p (fun r => Ret (g r : reply))) (fun _ _ => True) w).
  { clear. intros A p g. revert w. unfold forget. induction p as [a|c k IH]; intros w; [intros; exact I|].
    intros K w1 S. destruct (K w1 S) as [K1 K2]. split; [exact K1|]. intros f Hf. apply IH. apply K2; auto. }
  destruct q; cbn [served program] in *; apply G in H || idtac; eauto.
Qed.

Lemma linv_init cfg okf Q : linv cfg okf Q linit.
Proof.
  constructor; cbn [linit l_world l_procs l_log l_next].
  - apply reach_init.
  - unfold margin_inv. simpl. lia.
  - reflexivity.
  - constructor.
  - split; [constructor|intros x []].
  - intros x [].
  - intros A i q B H. destruct A; discriminate.
  - intros i p [].
  - intros C i o B H. destruct C; discriminate.
Qed.

Lemma linv_step cfg okf Q s s' : stable Q -> keeps cfg okf Q -> linv cfg okf Q s -> lstep cfg okf s s' -> linv cfg okf Q s'.
Proof.
  intros ST KP V S. destruct S as [w ps log n q HQ|w ps1 i c k ps2 log n f O|w ps1 i o ps2 log n|w ps1 x ps2 log n];
    destruct V as [VR VM VH VS [VI1 VI2] VL VO VLV VD]; cbn [l_world l_procs l_log l_next] in *.
  - (* a request arrives *)
    constructor; cbn [l_world l_procs l_log l_next]; auto.
    + rewrite commits_app, VH. cbn. now rewrite app_nil_r.
    + constructor; auto. cbn [snd]. now apply served_safe.
    + split.
      * cbn [map fst]. constructor; auto. intros H. apply in_map_iff in H. destruct H as (x & E & H). apply VI2 in H. lia.
      * intros x [<-|H]; cbn [fst]; [lia|]. apply VI2 in H. lia.
    + intros x H. apply in_app_iff in H. destruct H as [H|[<-|[]]]; [|lia]. apply VL in H. destruct x; lia.
    + intros A i q0 B H q'. apply snoc_split in H. destruct H as [(E1 & E2 & E3)|(B' & E1 & E2)].
      * subst A. injection E3 as E3 E4. subst i. intros H. apply VL in H. lia.
      * eapply VO; eauto.
    + intros i p [H|H].
      * injection H as <- <-. exists log, q, w, []. split; [reflexivity|]. split; [auto|]. split; [auto|]. split; [auto|].
        split; [constructor|]. apply KP; auto.
      * destruct (VLV i p H) as (A & q0 & w0 & B & E & A1 & A2 & A3 & A4 & A5).
        exists A, q0, w0, (B ++ [Asked n q]). split; [rewrite E, <- app_assoc; reflexivity|].
        split; [auto|]. split; [auto|]. split; [auto|]. split; [auto|].
        apply lwp_step with (w := w); auto; [|constructor|intros x [<-|[]] [e X]; discriminate].
        intros o HO. apply ST with (w := w); auto; [constructor|intros x [<-|[]] [e X]; discriminate].
    + intros C i o B H. apply snoc_split in H. destruct H as [(E1 & E2 & E3)|(B' & E1 & E2)]; [discriminate|].
      eapply VD; eauto.
  - (* a call *)
    assert (IN : In (i, Call c k) (ps1 ++ (i, Call c k) :: ps2)) by (apply in_app_iff; simpl; auto).
    apply Forall_app in VS. destruct VS as [VS1 VS2]. inversion VS2 as [|? ? VS3 VS4]; subst. cbn [snd] in VS3.
    destruct (VS3 w (wsteps_refl w)) as [OK K].
    pose proof (sem_wsteps f c w OK) as SW.
    assert (NC : forall j q, ~ In (Asked j q) (map (Committed i) (commit_of f c w))).
    { intros j q0 H. apply in_map_iff in H. destruct H as (e & E & _). discriminate. }
    assert (NA : forall j o, ~ In (Answered j o) (map (Committed i) (commit_of f c w))).
    { intros j q0 H. apply in_map_iff in H. destruct H as (e & E & _). discriminate. }
    constructor; cbn [l_world l_procs l_log l_next].
    + eapply wsteps_reach; eauto.
    + now apply sem_margin.
    + rewrite commits_app, commits_own, VH, sem_history; auto.
    + assert (MV : forall p : prog reply, wp any_fault p (fun _ _ => True) w -> wp any_fault p (fun _ _ => True) (fst (sem f c w))).
      { intros p. apply wp_step; auto. }
      apply Forall_app. split; [eapply Forall_impl; [|apply VS1]; intros a; apply MV|].
      constructor; [cbn [snd]; apply K; exact I|]. eapply Forall_impl; [|apply VS4]. intros a; apply MV.
    + assert (EM : map fst (ps1 ++ (i, k (snd (sem f c w))) :: ps2) = map fst (ps1 ++ (i, Call c k) :: ps2)) by (rewrite !map_app; reflexivity).
      split; [rewrite EM; exact VI1|].
      intros x H. assert (H' : In (fst x) (map fst (ps1 ++ (i, Call c k) :: ps2))) by (rewrite <- EM; now apply in_map).
      apply in_map_iff in H'. destruct H' as (y & E & H'). rewrite <- E. auto.
    + intros x H. apply in_app_iff in H. destruct H as [H|H]; [apply VL; auto|].
      apply in_map_iff in H. destruct H as (e & <- & _). apply (VI2 _ IN).
    + intros A j q0 B H. apply app_split in H; [|apply NC]. destruct H as (B' & E1 & E2). eapply VO; eauto.
    + intros j p H.
      assert (CASES : (j = i /\ p = k (snd (sem f c w))) \/ (j <> i /\ In (j, p) (ps1 ++ (i, Call c k) :: ps2))).
      { rewrite map_app in VI1. cbn [map fst] in VI1. apply NoDup_remove_2 in VI1.
        apply in_app_iff in H. cbn [In] in H. destruct H as [H|[H|H]].
        - right. split; [|apply in_app_iff; auto]. intros ->. apply VI1, in_app_iff. left. now apply (in_map fst) in H.
        - left. injection H; auto.
        - right. split; [|apply in_app_iff; simpl; auto]. intros ->. apply VI1, in_app_iff. right. now apply (in_map fst) in H. }
      destruct CASES as [[-> ->]|[NE H2]].
      * destruct (VLV i _ IN) as (A & q0 & w0 & B & E & A1 & A2 & A3 & A4 & A5).
        exists A, q0, w0, (B ++ map (Committed i) (commit_of f c w)).
        split; [rewrite E, <- app_assoc; reflexivity|]. split; [auto|]. split; [auto|]. split; [auto|].
        split; [eapply wsteps_trans; eauto|].
        cbn [lwp] in A5. specialize (A5 w [] (wsteps_refl w) VR). rewrite app_nil_r in A5.
        specialize (A5 VH (foreign_nil i) f O). exact A5.
      * destruct (VLV j p H2) as (A & q0 & w0 & B & E & A1 & A2 & A3 & A4 & A5).
        exists A, q0, w0, (B ++ map (Committed i) (commit_of f c w)).
        split; [rewrite E, <- app_assoc; reflexivity|]. split; [auto|]. split; [auto|]. split; [auto|].
        split; [eapply wsteps_trans; eauto|].
        apply lwp_step with (w := w); auto; [|now apply foreign_other].
        intros o HO. apply ST with (w := w); auto. now apply foreign_other.
    + intros C j o B H. apply app_split in H; [|apply NA]. destruct H as (B' & E1 & E2). eapply VD; eauto.
  - (* an answer *)
    assert (IN : In (i, Ret o) (ps1 ++ (i, Ret o) :: ps2)) by (apply in_app_iff; simpl; auto).
    assert (SUB : forall x, In x (ps1 ++ ps2) -> In x (ps1 ++ (i, Ret o) :: ps2)).
    { intros x. rewrite !in_app_iff. simpl. tauto. }
    constructor; cbn [l_world l_procs l_log l_next]; auto.
    + rewrite commits_app, VH. cbn. now rewrite app_nil_r.
    + apply Forall_app in VS. destruct VS as [VS1 VS2]. inversion VS2; subst. now apply Forall_app.
    + split; [|intros x H; auto]. rewrite map_app in *. cbn [map fst] in VI1. now apply NoDup_remove_1 in VI1.
    + intros x H. apply in_app_iff in H. destruct H as [H|[<-|[]]]; [apply VL; auto|]. apply (VI2 _ IN).
    + intros A j q0 B H. apply snoc_split in H. destruct H as [(E1 & E2 & E3)|(B' & E1 & E2)]; [discriminate|]. eapply VO; eauto.
    + intros j p H. destruct (VLV j p (SUB _ H)) as (A & q0 & w0 & B & E & A1 & A2 & A3 & A4 & A5).
      exists A, q0, w0, (B ++ [Answered i o]). split; [rewrite E, <- app_assoc; reflexivity|].
      split; [auto|]. split; [auto|]. split; [auto|]. split; [auto|].
      apply lwp_step with (w := w); auto; [|constructor|intros x [<-|[]] [e X]; discriminate].
      intros o' HO. apply ST with (w := w); auto; [constructor|intros x [<-|[]] [e X]; discriminate].
    + intros C j o' B H. apply snoc_split in H. destruct H as [(E1 & E2 & E3)|(B' & E1 & E2)].
      * injection E3 as E3 E4. subst B C j o'.
        destruct (VLV i _ IN) as (A & q0 & w0 & B & E & A1 & A2 & A3 & A4 & A5).
        exists A, q0, w0, B, w. split; [exact E|]. split; [auto|]. split; [auto|]. split; [auto|]. split; [auto|].
        split; [auto|]. split; [auto|]. split; [auto|]. exact A5.
      * eapply VD; eauto.
  - (* a crash *)
    assert (SUB : forall y, In y (ps1 ++ ps2) -> In y (ps1 ++ x :: ps2)).
    { intros y. rewrite !in_app_iff. simpl. tauto. }
    constructor; cbn [l_world l_procs l_log l_next]; auto.
    + apply Forall_app in VS. destruct VS as [VS1 VS2]. inversion VS2; subst. now apply Forall_app.
    + split; [|intros y H; auto]. rewrite map_app in *. cbn [map] in VI1. now apply NoDup_remove_1 in VI1.
Qed.

Lemma lreach_inv cfg okf Q s : stable Q -> keeps cfg okf Q -> lreach cfg okf s -> linv cfg okf Q s.
Proof. intros ST KP H. induction H; [apply linv_init|]. eapply linv_step; eauto. Qed.

(** the promise about an answered request *)
Lemma promise_kept cfg okf Q s before during after i q o : stable Q -> keeps cfg okf Q -> lreach cfg okf s ->
  answered_request (l_log s) before during after i q o ->
  exists w0 w, work_ok q /\ wreach w0 /\ wreach w /\ wsteps w0 w /\
    commits before = history_of (snd w0) /\ commits (before ++ during) = history_of (snd w) /\
    margin_inv (snd w) /\ Q i q before w0 (before ++ Asked i q :: during) w o.
Proof.
  intros ST KP H E. pose proof (lreach_inv cfg okf Q s ST KP H) as V. unfold answered_request in E.
  change (before ++ Asked i q :: during ++ Answered i o :: after) with (before ++ (Asked i q :: during) ++ Answered i o :: after) in E.
  rewrite app_assoc in E. destruct (V_done _ _ _ _ V _ _ _ _ E) as (A & q0 & w0 & D & w & EC & B1 & B2 & B3 & B4 & B5 & B6 & B7 & B8).
  assert (EQ : A = before /\ q0 = q /\ D = during).
  { assert (G : forall (A B D E : ledger), A ++ Asked i q0 :: D = B ++ Asked i q :: E ->
       (forall q', ~ In (Asked i q') A) -> (forall q', ~ In (Asked i q') B) -> A = B /\ q0 = q /\ D = E).
    { clear. intros A. induction A as [|a A IH]; intros [|b B] D E H NA NB; cbn [app] in H.
      - injection H as H1 H2. auto.
      - injection H as H1 H2. exfalso. apply (NB q0). simpl. auto.
      - injection H as H1 H2. exfalso. apply (NA q). simpl. auto.
      - injection H as H1 H2. subst b. destruct (IH B D E H2) as (X & Y & Z).
        + intros q' I'. apply (NA q'). simpl; auto.
        + intros q' I'. apply (NB q'). simpl; auto.
        + subst; auto. }
    apply G with (1 := eq_sym EC).
    - rewrite EC in E. rewrite <- app_assoc in E. eapply (V_once _ _ _ _ V). exact E.
    - rewrite <- app_assoc in E. eapply (V_once _ _ _ _ V). exact E. }
  destruct EQ as (-> & -> & ->). exists w0, w. split; [auto|]. split; [auto|]. split; [auto|]. split; [auto|]. split; [auto|].
  split; [|split; [auto|exact B8]]. rewrite commits_app in *. cbn in B6. exact B6.
Qed.
Lemma ledger_history cfg okf s : lreach cfg okf s -> commits (l_log s) = history_of (snd (l_world s)) /\ wreach (l_world s).
Proof.
  intros H. pose proof (lreach_inv cfg okf (fun _ _ _ _ _ _ _ => True) s) as V.
  assert (G : linv cfg okf (fun _ _ _ _ _ _ _ => True) s).
  { apply V; auto; [intros i q A w0 L w o w' D; auto|]. intros i q A w _ _ _. apply lwp_true. }
  split; [apply (V_hist _ _ _ _ G)|apply (V_reach _ _ _ _ G)].
Qed.
