(** Servers with batched writes refine servers without. *)
From Coq Require Import List ZArith Bool Lia.
From Verif Require Import Bytes Spec Sql System Prog Backend Limited Api Pool Ledger SqlLemmas Batch BatchProofs BatchKine Node.
Import ListNotations.
Open Scope Z_scope.

(** ---- one batching layer, whatever happens to the database ---- *)
Section Core.
Variables D S R : Type.
Variable run : S -> D -> D * R.
Local Notation batch_state := (batch_state D S R).
Local Notation batch_step := (batch_step D S R run).
Definition pending (s : batch_state) : list nat := todo (b_worker D S R s) (b_queue D S R s).
Record core (s : batch_state) : Prop := {
  C_nodup : NoDup (pending s);
  C_none : forall i, In i (pending s) -> exists j, nth_error (b_jobs D S R s) i = Some j /\ j_outcome S R j = None;
  C_worker : match b_worker D S R s with WNone => b_queue D S R s = [] | WStarted => b_queue D S R s <> [] | WExec b | WLock b => b <> [] end;
  C_job : forall i j, nth_error (b_jobs D S R s) i = Some j -> job_at D S R s i j }.
Lemma NoDup_app_both {A} (l1 l2 : list A) : NoDup (l1 ++ l2) -> NoDup l1 /\ NoDup l2 /\ forall x, In x l1 -> ~ In x l2.
Proof.
  induction l1 as [|a l1 IH]; cbn [app]; intros H; [repeat split; auto; constructor|]. inversion H as [|? ? NI ND]; subst.
  destruct (IH ND) as (A1 & A2 & A3). rewrite in_app_iff in NI. split; [constructor; tauto|]. split; [auto|]. intros x [<-|I]; auto.
Qed.
Lemma core_init d : core (@batch_init D S R d).
Proof. constructor; unfold pending; cbn; [constructor|intros i []|reflexivity|]. intros i j N. destruct i; discriminate. Qed.
Lemma core_step s a : core s -> core (batch_step s a).
Proof.
  intros [K1 K2 K3 K5]. destruct s as [js q w rid cl dc db log]. unfold pending in *. cbn [b_log b_db b_worker b_queue b_jobs b_dbclosed b_closed] in *.
  destruct a as [st|id| |f| |st| |]; cbn [Batch.batch_step b_closed b_worker b_queue b_jobs b_runid b_dbclosed b_db b_log].
  - destruct cl; [constructor; auto|].
    remember (start_worker w) as w' eqn:EW.
    assert (TD : todo w' (q ++ [length js]) = todo w q ++ [length js]) by (subst w'; destruct w; cbn; auto; now rewrite app_assoc).
    assert (RN : running w' = running w) by (subst w'; destruct w; reflexivity).
    constructor; unfold pending; cbn [b_log b_db b_worker b_queue b_jobs b_dbclosed b_closed]; auto.
    + rewrite TD. apply NoDup_Add with (a := length js) (l := todo w q); [rewrite <- (app_nil_r (todo w q)) at 1; apply Add_app|].
      split; auto. intros I. destruct (K2 _ I) as (j & N & _). assert (length js < length js)%nat by (apply nth_error_Some; congruence). lia.
    + rewrite TD. intros i I. apply in_app_iff in I. destruct I as [I|[<-|[]]].
      * destruct (K2 i I) as (j & N & E). exists j. split; auto. rewrite nth_error_app1; auto. apply nth_error_Some. congruence.
      * rewrite nth_error_app2, Nat.sub_diag by auto. eexists. split; reflexivity.
    + subst w'. destruct w; auto; intros X; destruct q; discriminate X.
    + intros i j N. destruct (Nat.lt_ge_cases i (length js)) as [L|L].
      * rewrite nth_error_app1 in N by auto. specialize (K5 i j N). unfold job_at in *. cbn [b_queue b_worker b_runid] in *. rewrite RN.
        destruct K5 as [(A & B & C)|[(b & A & B & C)|[(b & A & B & C)|A]]].
        -- left. split; [apply in_app_iff; auto|auto].
        -- right. left. exists b. subst w. auto.
        -- right. right. left. exists b. subst w. auto.
        -- auto.
      * rewrite nth_error_app2 in N by auto. destruct (i - length js)%nat as [|m] eqn:EI; [|destruct m; discriminate]. injection N as <-.
        left. cbn [b_queue b_worker b_runid j_run j_outcome]. split; [apply in_app_iff; right; left; lia|]. rewrite RN. auto.
  - constructor; unfold pending; cbn [b_log b_db b_worker b_queue b_jobs b_dbclosed b_closed]; auto.
    + intros i I. destruct (K2 i I) as (j & N & E). rewrite cancel_nth, N. eexists. split; [reflexivity|]. destruct (Nat.eqb i id); auto.
    + intros i j N. rewrite cancel_nth in N. destruct (nth_error js i) as [j0|] eqn:N0; [|discriminate]. injection N as <-.
      specialize (K5 i j0 N0). unfold job_at in *. cbn [b_queue b_worker b_runid] in *. destruct (Nat.eqb i id); exact K5.
  - destruct w as [| |b|b]; try (constructor; auto; fail).
    constructor; unfold pending; cbn [b_log b_db b_worker b_queue b_jobs b_dbclosed b_closed todo]; rewrite ?app_nil_r; auto.
    intros i j N. specialize (K5 i j N). unfold job_at in *. cbn [b_queue b_worker b_runid running] in *.
    destruct K5 as [(A & B & C)|[(b & A & B & C)|[(b & A & B & C)|A]]]; try discriminate; auto.
    right. left. exists q. auto.
  - destruct w as [| |b|b]; try (constructor; auto; fail).
    cbn [todo] in *. destruct (NoDup_app_both _ _ K1) as (S4 & S5 & S6).
    destruct (exec_queue D S R run cl js b f db) as [[js' db'] l] eqn:E.
    destruct (exec_queue_ok _ _ _ _ _ _ _ _ _ _ _ _ S4 K3 E) as [X1 X2 X3 X4 X5].
    constructor; unfold pending; cbn [b_log b_db b_worker b_queue b_jobs b_dbclosed b_closed todo]; auto.
    + intros i I. destruct (K2 i) as (j & N & EO); [apply in_app_iff; auto|]. destruct (X2 i j N) as (j1 & N1 & _ & U & _). exists j1. split; auto.
      rewrite U; auto. intros J. exact (S6 i J I).
    + intros i j' N. destruct (nth_error js i) as [j|] eqn:N0; [|apply nth_error_None in N0; rewrite <- X1 in N0; apply nth_error_None in N0; congruence].
      destruct (X2 i j N0) as (j1 & N1 & (T1 & T2 & T3) & U & V). rewrite N in N1. injection N1 as <-.
      specialize (K5 i j N0). unfold job_at in *. cbn [b_queue b_worker b_runid running] in *.
      destruct K5 as [(A & B & C)|[(b' & A & B & C)|[(b' & A & B & C)|A]]]; try discriminate.
      * left. rewrite U; [auto|]. intros I. exact (S6 i I A).
      * injection A as <-. right. right. left. exists b. rewrite T2. destruct (V B) as (o & O1 & O2). rewrite O1. intuition congruence.
      * right. right. right. rewrite T2. split; [tauto|]. destruct (in_dec Nat.eq_dec i b) as [I|I]; [destruct (V I) as (o & O1 & _); congruence|rewrite U; tauto].
  - destruct w as [| |b|b]; try (constructor; auto; fail). cbn [todo] in *.
    assert (J : forall i j w', nth_error js i = Some j -> (q = [] \/ w' = WExec q) -> job_at D S R (BatchState D S R js [] w' (rid + 1) cl dc db log) i j).
    { intros i j w' N Q. specialize (K5 i j N). unfold job_at in *. cbn [b_queue b_worker b_runid running] in *.
      destruct K5 as [(A & B & C)|[(b' & A & B & C)|[(b' & A & B & C)|A]]]; try discriminate.
      - destruct Q as [->| ->]; [destruct A|]. right. left. exists q. auto.
      - right. right. right. split; [lia|tauto].
      - right. right. right. split; [lia|tauto]. }
    destruct q as [|i0 q0]; constructor; unfold pending; cbn [b_log b_db b_worker b_queue b_jobs b_dbclosed b_closed todo]; rewrite ?app_nil_r; auto. discriminate.
  - destruct dc; constructor; auto.
  - constructor; auto.
  - destruct cl; [|constructor; auto]. destruct w; constructor; auto.
Qed.
End Core.

(** ---- lists ---- *)
Lemma put_nth {A} (x : A) : forall l n i, nth_error (put n x l) i = if Nat.eqb n i then option_map (fun _ => x) (nth_error l i) else nth_error l i.
Proof. induction l as [|y l IH]; intros [|n] [|i]; cbn; auto. now destruct (Nat.eqb n i). Qed.
Lemma put_same {A} (x : A) l n y : nth_error l n = Some y -> nth_error (put n x l) n = Some x.
Proof. intros H. now rewrite put_nth, Nat.eqb_refl, H. Qed.
Lemma put_other {A} (x : A) l n i : n <> i -> nth_error (put n x l) i = nth_error l i.
Proof. intros H. rewrite put_nth. now apply Nat.eqb_neq in H as ->. Qed.
Lemma put_split {A} (x y : A) l n : nth_error l n = Some y -> exists l1 l2, l = l1 ++ y :: l2 /\ put n x l = l1 ++ x :: l2 /\ firstn n l ++ skipn (S n) l = l1 ++ l2.
Proof.
  revert n. induction l as [|z l IH]; intros [|n] H; cbn in H; try discriminate.
  - injection H as ->. exists [], l. repeat split.
  - destruct (IH n H) as (l1 & l2 & -> & E1 & E2). exists (z :: l1), l2. cbn [app put firstn skipn]. rewrite E1. split; [auto|]. split; [auto|]. cbn [app]. f_equal. exact E2.
Qed.

(** ---- the mapping to Ledger.v ---- *)
Definition outcomes := nat -> nat -> option (outcome (Z * Z)).
Definition oc_of (sv : list kbatch) : outcomes := fun j id =>
  match nth_error sv j with Some b => match nth_error (kjobs b) id with Some jb => j_outcome aop (Z * Z) jb | None => None end | None => None end.
Definition view (oc : outcomes) (p : nproc) : nat * prog reply :=
  (np_id p, match np_act p with
            | NRun q => q
            | NWait a id k => match oc (np_server p) id with None => Call (CExec a) k | Some o => k (to_result (Some o)) end
            end).
Definition set_oc (oc : outcomes) (j id : nat) (o : outcome (Z * Z)) : outcomes :=
  fun j' id' => if Nat.eqb j j' && Nat.eqb id id' then Some o else oc j' id'.
Definition slot (p : nproc) : list (nat * nat) := match np_act p with NWait _ id _ => [(np_server p, id)] | NRun _ => [] end.

Lemma waits_slot j id p : waits j id p = true <-> slot p = [(j, id)].
Proof.
  unfold waits, slot. destruct (np_act p) as [q|a i k]; [split; discriminate|]. rewrite andb_true_iff, !Nat.eqb_eq. split; [intros [-> ->]; auto|]. intros H. injection H as H1 H2. auto.
Qed.
Lemma find_owner ps j id : In (j, id) (flat_map slot ps) -> exists ps1 p ps2, ps = ps1 ++ p :: ps2 /\ slot p = [(j, id)] /\ owner ps j id = np_id p /\ ~ In (j, id) (flat_map slot ps1).
Proof.
  intros H. unfold owner. destruct (find (waits j id) ps) as [p|] eqn:F.
  - revert F. clear H. induction ps as [|q ps IH]; cbn [find]; [discriminate|]. destruct (waits j id q) eqn:W.
    + intros [= ->]. exists [], p, ps. split; auto. split; [now apply waits_slot|]. split; auto.
    + intros F. destruct (IH F) as (ps1 & p' & ps2 & -> & A & B & C). exists (q :: ps1), p', ps2. split; auto. split; auto. split; auto.
      cbn [flat_map]. rewrite in_app_iff. intros [I|I]; [|auto]. assert (slot q = [(j, id)]); [|apply waits_slot in H; congruence].
      unfold slot in *. destruct (np_act q); [destruct I|]. destruct I as [I|[]]. now rewrite I.
  - apply in_flat_map in H. destruct H as (p & I & J). apply (find_none _ _ F) in I. exfalso.
    assert (slot p = [(j, id)]) as E; [|apply waits_slot in E; congruence]. unfold slot in *. destruct (np_act p); [destruct J|]. destruct J as [J|[]]. now rewrite J.
Qed.
Lemma view_ext oc oc' p : (forall j id, In (j, id) (slot p) -> oc j id = oc' j id) -> view oc p = view oc' p.
Proof. unfold view, slot. destruct (np_act p) as [q|a id k]; auto. intros H. rewrite (H (np_server p) id) by (left; reflexivity). reflexivity. Qed.
Lemma views_ext oc oc' ps : (forall j id, In (j, id) (flat_map slot ps) -> oc j id = oc' j id) -> map (view oc) ps = map (view oc') ps.
Proof. intros H. apply map_ext_in. intros p I. apply view_ext. intros j id J. apply H. apply in_flat_map. eauto. Qed.

(** Ledger states after [l0]. *)
Inductive lfrom (cfg : driver_cfg) (okf : fault -> Prop) (l0 : lstate) : lstate -> Prop :=
| lfrom_refl : lfrom cfg okf l0 l0
| lfrom_step s s' : lfrom cfg okf l0 s -> lstep cfg okf s s' -> lfrom cfg okf l0 s'.
Lemma lfrom_lreach cfg okf l0 s : lreach cfg okf l0 -> lfrom cfg okf l0 s -> lreach cfg okf s.
Proof. intros H K. induction K; auto. econstructor; eauto. Qed.

Section From.
Variable l0 : lstate.
(** one statement of a batch is one call of the process waiting for it *)
Lemma one_call cfg (okf : fault -> Prop) (oc : outcomes) ps j id a k pid f w log n o :
  NoDup (flat_map slot ps) -> In (NProc pid j (NWait a id k)) ps -> oc j id = None -> okf f ->
  to_result (Some o) = snd (sem f (CExec a) w) ->
  lfrom cfg okf l0 (LState w (map (view oc) ps) log n) ->
  lfrom cfg okf l0 (LState (fst (sem f (CExec a) w)) (map (view (set_oc oc j id o)) ps) (log ++ map (Committed pid) (commit_of f (CExec a) w)) n).
Proof.
  intros ND I N OK E H. apply in_split in I. destruct I as (ps1 & ps2 & ->). rewrite flat_map_app in ND. cbn [flat_map] in ND. unfold slot at 2 in ND. cbn [np_act np_server app] in ND.
  destruct (NoDup_remove _ _ _ ND) as [_ NI]. rewrite in_app_iff in NI.
  assert (V : forall q, ~ In (j, id) (flat_map slot q) -> map (view (set_oc oc j id o)) q = map (view oc) q).
  { intros q Q. apply views_ext. intros j' id' J. unfold set_oc. destruct (Nat.eqb_spec j j') as [<-|]; [|reflexivity]. destruct (Nat.eqb_spec id id') as [<-|]; [|reflexivity]. contradiction. }
  rewrite map_app in H |- *. cbn [map] in H |- *. rewrite !V by tauto. unfold view at 2 in H. unfold view at 2. cbn [np_id np_act np_server] in *. rewrite N in H.
  unfold set_oc. rewrite !Nat.eqb_refl. cbn [andb]. rewrite E.
  econstructor; [exact H|]. now apply (l_call cfg okf w (map (view oc) ps1) pid (CExec a) k (map (view oc) ps2) log n f).
Qed.

Definition owned (ps : list nproc) (js : list (job aop (Z * Z))) (j id : nat) : Prop :=
  exists jb pid k, nth_error js id = Some jb /\ In (NProc pid j (NWait (j_stmt _ _ jb) id k)) ps.
Lemma in_slots ps pid j a id k : In (NProc pid j (NWait a id k)) ps -> In (j, id) (flat_map slot ps).
Proof. intros I. apply in_flat_map. eexists. split; [exact I|]. left. reflexivity. Qed.
Lemma slot_in p x : In x (slot p) -> slot p = [x].
Proof. unfold slot. destruct (np_act p); [intros []|]. intros [<-|[]]. reflexivity. Qed.
Lemma nodup_slots ps p1 p2 x : NoDup (flat_map slot ps) -> In p1 ps -> In p2 ps -> In x (slot p1) -> In x (slot p2) -> p1 = p2.
Proof.
  induction ps as [|p ps IH]; [intros _ []|]. cbn [flat_map]. intros ND I1 I2 X1 X2.
  destruct (NoDup_app_both _ _ ND) as (_ & ND2 & DJ).
  destruct I1 as [<-|I1], I2 as [<-|I2]; auto.
  - exfalso. apply (DJ x X1). apply in_flat_map. eauto.
  - exfalso. apply (DJ x X2). apply in_flat_map. eauto.
Qed.
Lemma owner_is ps j id a k pid : NoDup (flat_map slot ps) -> In (NProc pid j (NWait a id k)) ps -> owner ps j id = pid.
Proof.
  intros ND I. destruct (find_owner ps j id (in_slots _ _ _ _ _ _ I)) as (ps1 & p & ps2 & E & S & -> & _).
  assert (P : p = NProc pid j (NWait a id k)); [|now subst p].
  apply (nodup_slots ps p _ (j, id) ND); auto; [subst ps; apply in_elt|rewrite S; left; reflexivity|left; reflexivity].
Qed.

(** the outcomes after a batch *)
Definition set_all (j : nat) (l : list (nat * outcome (Z * Z))) (oc : outcomes) : outcomes :=
  fold_left (fun oc x => set_oc oc j (fst x) (snd x)) l oc.
Lemma set_all_other j l : forall oc j' id, (j <> j' \/ ~ In id (map fst l)) -> set_all j l oc j' id = oc j' id.
Proof.
  unfold set_all. induction l as [|[i o] l IH]; intros oc j' id H; cbn [fold_left map fst snd] in *; auto. rewrite IH by (cbn in H; tauto).
  unfold set_oc. destruct (Nat.eqb_spec j j') as [->|]; [|reflexivity]. destruct (Nat.eqb_spec i id) as [->|]; [|reflexivity]. exfalso. destruct H as [H|H]; [auto|]. apply H. left. reflexivity.
Qed.
Lemma set_all_in j l : forall oc id o, NoDup (map fst l) -> In (id, o) l -> set_all j l oc j id = Some o.
Proof.
  unfold set_all. induction l as [|[i o'] l IH]; intros oc id o ND I; cbn [fold_left map fst snd] in *; [destruct I|]. inversion ND as [|? ? NI ND']; subst.
  destruct I as [[= -> ->]|I].
  - pose proof (set_all_other j l (set_oc oc j id o) j id (or_intror NI)) as X. unfold set_all in X. rewrite X. unfold set_oc. now rewrite !Nat.eqb_refl.
  - now apply IH.
Qed.

(** a whole batch: [how]: the fault every statement suffers, [res]: what its caller sees *)
Definition job_notes (ps : list nproc) (j : nat) (l : list (nat * aop * (Z * Z))) : ledger := notes ps j (log_of aop (Z * Z) l).
Lemma batch_calls cfg (okf : fault -> Prop) ps j js (how : fault) (res : Z * Z -> outcome (Z * Z)) n :
  NoDup (flat_map slot ps) -> okf how ->
  (how = NoFault /\ (forall r, res r = Done _ r) \/ exists e, how = FailAfter e /\ forall r, res r = Failed _ e) ->
  forall ids pos f d d' l oc log, NoDup ids -> exec_all world aop (Z * Z) kine_run js ids pos f d = Ok (d', l) ->
  (forall id, In id ids -> owned ps js j id /\ oc j id = None) ->
  lfrom cfg okf l0 (LState d (map (view oc) ps) log n) ->
  lfrom cfg okf l0 (LState d' (map (view (set_all j (map (fun x => (fst (fst x), res (snd x))) l) oc)) ps) (log ++ job_notes ps j l) n).
Proof.
  intros NDS OK HOW. induction ids as [|id ids IH]; intros pos f d d' l oc log ND; cbn [exec_all].
  - intros [= <- <-] _ H. unfold job_notes, notes. cbn. rewrite app_nil_r. exact H.
  - intros E OW H. destruct (OW id (or_introl eq_refl)) as ((jb & pid & k & N & I) & OC). rewrite N in E. destruct (j_cancelled aop (Z * Z) jb); [discriminate|].
    destruct (stmt_fault f pos); [discriminate|]. destruct (exec_all _ _ _ _ js ids _ f _) as [[d1 l1]|] eqn:E1; [|discriminate]. injection E as <- <-.
    inversion ND as [|? ? NI ND']; subst. set (a := j_stmt _ _ jb) in *.
    pose proof (one_call cfg okf oc ps j id a k pid how d log n (res (snd (kine_run a d))) NDS I OC OK) as X.
    assert (S1 : to_result (Some (res (snd (kine_run a d)))) = snd (sem how (CExec a) d) /\ fst (sem how (CExec a) d) = fst (kine_run a d) /\
                 map (Committed pid) (commit_of how (CExec a) d) = job_notes ps j [(id, a, snd (kine_run a d))]).
    { unfold job_notes, notes. cbn [log_of map flat_map fst snd]. rewrite app_nil_r, (owner_is _ _ _ _ _ _ NDS I). unfold commit_of, kine_run. cbn [op_of snd fst].
      destruct HOW as [[-> HR]|(e & -> & HR)]; rewrite HR; cbn [to_result sem fst snd weffect op_of answer]; repeat split; destruct (fst (snd (apply (fst d) a)) =? 0); reflexivity. }
    destruct S1 as (S1 & S2 & S3). specialize (X S1 H). rewrite S2, S3 in X.
    assert (OW' : forall id', In id' ids -> owned ps js j id' /\ set_oc oc j id (res (snd (kine_run a d))) j id' = None).
    { intros id' I'. destruct (OW id' (or_intror I')) as [O1 O2]. split; auto. unfold set_oc. rewrite Nat.eqb_refl. destruct (Nat.eqb_spec id id') as [->|]; [contradiction|]. exact O2. }
    specialize (IH _ _ _ _ _ _ _ ND' E1 OW' X). cbn [map fst snd]. unfold set_all at 1. cbn [fold_left fst snd].
    assert (EQ : log ++ job_notes ps j ((id, a, snd (kine_run a d)) :: l1) = (log ++ job_notes ps j [(id, a, snd (kine_run a d))]) ++ job_notes ps j l1)
      by (unfold job_notes, notes; cbn [log_of map flat_map]; now rewrite app_nil_r, app_assoc).
    change (snd (apply (fst d) a)) with (snd (kine_run a d)). rewrite EQ. exact IH.
Qed.
Lemma batch_fails cfg (okf : fault -> Prop) ps j js e n d log :
  NoDup (flat_map slot ps) -> okf (FailBefore e) ->
  forall ids oc, NoDup ids -> (forall id, In id ids -> owned ps js j id /\ oc j id = None) ->
  lfrom cfg okf l0 (LState d (map (view oc) ps) log n) ->
  lfrom cfg okf l0 (LState d (map (view (set_all j (map (fun id => (id, Failed _ e)) ids) oc)) ps) log n).
Proof.
  intros NDS OK. induction ids as [|id ids IH]; intros oc ND OW H; cbn [map]; [exact H|].
  destruct (OW id (or_introl eq_refl)) as ((jb & pid & k & N & I) & OC). inversion ND as [|? ? NI ND']; subst.
  pose proof (one_call cfg okf oc ps j id _ k pid (FailBefore e) d log n (Failed _ e) NDS I OC OK eq_refl H) as X.
  cbn [sem fst commit_of map] in X. rewrite app_nil_r in X. unfold set_all. cbn [fold_left fst snd]. apply IH; auto.
  intros id' I'. destruct (OW id' (or_intror I')) as [O1 O2]. split; auto. unfold set_oc. rewrite Nat.eqb_refl. destruct (Nat.eqb_spec id id') as [->|]; [contradiction|]. exact O2.
Qed.

Lemma exec_all_err js f : forall ids pos d e, exec_all world aop (Z * Z) kine_run js ids pos f d = Err e ->
  e = EOther \/ e = ECanceled \/ exists n, f = BFStmt n e.
Proof.
  induction ids as [|id ids IH]; intros pos d e; cbn [exec_all]; [discriminate|].
  destruct (nth_error js id) as [jb|]; [|intros [= <-]; auto]. destruct (j_cancelled aop (Z * Z) jb); [intros [= <-]; auto|].
  destruct (stmt_fault f pos) as [e'|] eqn:SF.
  - intros [= <-]. right. right. unfold stmt_fault in SF. destruct f as [| |m e''|]; try discriminate. destruct (Nat.eqb m pos); [|discriminate]. injection SF as ->. eauto.
  - destruct (exec_all _ _ _ _ js ids _ f _) as [[d1 l1]|e1] eqn:E; [discriminate|]. intros [= <-]. eauto.
Qed.
(** the faults that must be allowed in the state of a batching layer: those of closed ones and of cancelled contexts *)
Definition tolerates (okf : fault -> Prop) (b : kbatch) : Prop :=
  okf NoFault /\ (kclosed b = true -> okf (FailBefore ECanceled) /\ okf (FailBefore EOther)) /\
  (forall i jb, nth_error (kjobs b) i = Some jb -> j_outcome aop (Z * Z) jb = None -> j_cancelled aop (Z * Z) jb = true -> okf (FailBefore ECanceled)).
Lemma tolerant_tolerates okf b : tolerant okf -> tolerates okf b.
Proof. intros (A & B & C). split; auto. Qed.
Lemma exec_all_why js f : forall ids pos d e, (forall id, In id ids -> nth_error js id <> None) -> exec_all world aop (Z * Z) kine_run js ids pos f d = Err e ->
  (e = ECanceled /\ exists i jb, In i ids /\ nth_error js i = Some jb /\ j_cancelled aop (Z * Z) jb = true) \/ exists n, f = BFStmt n e.
Proof.
  induction ids as [|id ids IH]; intros pos d e EX; cbn [exec_all]; [discriminate|].
  destruct (nth_error js id) as [jb|] eqn:N; [|exfalso; apply (EX id); [now left|exact N]]. destruct (j_cancelled aop (Z * Z) jb) eqn:JC; [intros [= <-]; left; split; [reflexivity|]; exists id, jb; split; [now left|auto]|].
  destruct (stmt_fault f pos) as [e'|] eqn:SF.
  - intros [= <-]. right. unfold stmt_fault in SF. destruct f as [| |m e''|]; try discriminate. destruct (Nat.eqb m pos); [|discriminate]. injection SF as ->. eauto.
  - destruct (exec_all _ _ _ _ js ids _ f _) as [[d1 l1]|e1] eqn:E; [discriminate|]. intros [= <-]. destruct (IH (S pos) _ _ (fun i I => EX i (or_intror I)) E) as [(-> & i & jb0 & I & H)|H]; [left|now right]. split; [reflexivity|]. exists i, jb0. split; [now right|exact H].
Qed.
Lemma exec_queue_cases (okf : fault -> Prop) closed js ids f d js' d' l :
  (closed = true -> okf (FailBefore ECanceled)) -> (forall e, exec_all world aop (Z * Z) kine_run js ids 0 f d = Err e -> okf (FailBefore e)) -> ids <> [] -> batch_fault okf f ->
  exec_queue world aop (Z * Z) kine_run closed js ids f d = (js', d', l) ->
  (exists L, exec_all world aop (Z * Z) kine_run js ids 0 f d = Ok (d', L) /\ js' = set_results aop (Z * Z) L js /\ l = log_of aop (Z * Z) L) \/
  (exists e, okf (FailBefore e) /\ js' = set_outcome aop (Z * Z) (Failed _ e) ids js 0 /\ d' = d /\ l = []) \/
  (exists e L, okf (FailAfter e) /\ exec_all world aop (Z * Z) kine_run js ids 0 f d = Ok (d', L) /\
     js' = set_outcome aop (Z * Z) (Failed _ e) ids js 0 /\ l = log_of aop (Z * Z) L).
Proof.
  intros TC ER NE BF.
  unfold exec_queue. destruct ids as [|i [|i2 rest]]; [congruence| |].
  - destruct (exec_all _ _ _ _ js [i] 0 f d) as [[d1 L]|e] eqn:E.
    + destruct f as [|e|m e|e []]; intros [= <- <- <-]; cbn in BF.
      * left. eauto.
      * right. left. eauto.
      * right. left. eauto.
      * right. right. eauto 8.
      * right. left. eauto.
    + intros [= <- <- <-]. right. left. exists e. auto.
  - destruct closed; [intros [= <- <- <-]; right; left; exists ECanceled; split; [apply TC; reflexivity|auto]|].
    destruct f as [|e|m e|e b]; try (intros [= <- <- <-]; right; left; exists e; split; [exact BF|]; now auto);
      (destruct (exec_all _ _ _ _ js (i :: i2 :: rest) 0 _ d) as [[d1 L]|e1] eqn:E; [|intros [= <- <- <-]; right; left; exists e1; split; [apply ER; reflexivity|]; now auto]).
    + intros [= <- <- <-]. left. eauto.
    + intros [= <- <- <-]. left. eauto.
    + destruct b; intros [= <- <- <-]; cbn in BF; [right; right; eauto 8|right; left; eauto].
Qed.

(** ---- the invariant ---- *)
Definition kcore (b : kbatch) : Prop := core world aop (Z * Z) b.
Definition kpending (b : kbatch) : list nat := pending world aop (Z * Z) b.
Record NI (sv : list kbatch) (ps : list nproc) : Prop := {
  I_core : forall j b, nth_error sv j = Some b -> kcore b;
  I_slots : NoDup (flat_map slot ps);
  I_wait : forall pid j a id k, In (NProc pid j (NWait a id k)) ps ->
    exists b jb, nth_error sv j = Some b /\ nth_error (kjobs b) id = Some jb /\ j_stmt aop (Z * Z) jb = a;
  I_owned : forall j b id, nth_error sv j = Some b -> In id (kpending b) -> In (j, id) (flat_map slot ps) }.
Definition sim (cfg : driver_cfg) (okf : fault -> Prop) (s : nstate) : Prop :=
  NI (n_servers s) (n_procs s) /\
  lfrom cfg okf l0 (LState (n_world s) (map (view (oc_of (n_servers s))) (n_procs s)) (n_log s) (n_next s)).

Lemma slot_proc ps j id : In (j, id) (flat_map slot ps) -> exists pid a k, In (NProc pid j (NWait a id k)) ps.
Proof.
  intros H. apply in_flat_map in H. destruct H as ([pid j' [q|a i k]] & I & J); [destruct J|]. destruct J as [[= -> ->]|[]]. eauto.
Qed.
Lemma core_db w b : kcore b -> kcore (with_db w b).
Proof. intros [A B C D]. constructor; auto. Qed.
Lemma oc_put j b' sv j' id : oc_of (put j b' sv) j' id =
  if Nat.eqb j j' then match nth_error sv j with Some _ => match nth_error (kjobs b') id with Some jb => j_outcome aop (Z * Z) jb | None => None end | None => None end else oc_of sv j' id.
Proof. unfold oc_of. rewrite put_nth. destruct (Nat.eqb_spec j j') as [<-|]; [|reflexivity]. now destruct (nth_error sv j). Qed.

(** replacing one process *)
Lemma slots_put x y ps i : nth_error ps i = Some y -> slot x = slot y -> flat_map slot (put i x ps) = flat_map slot ps.
Proof. intros N E. destruct (put_split x y ps i N) as (l1 & l2 & -> & -> & _). now rewrite !flat_map_app; cbn [flat_map]; rewrite E. Qed.
Lemma in_put {A} (x : A) ps i z : In z (put i x ps) -> z = x \/ In z ps.
Proof.
  revert i. induction ps as [|y ps IH]; intros [|i]; cbn [put In]; auto; [intros [->|I]; auto|]. intros [->|I]; auto. destruct (IH i I); auto.
Qed.
Lemma NI_run sv ps i x y : NI sv ps -> nth_error ps i = Some y -> slot y = [] -> slot x = [] -> NI sv (put i x ps).
Proof.
  intros [K1 K2 K3 K4] N Y X. assert (E : flat_map slot (put i x ps) = flat_map slot ps) by (eapply slots_put; eauto; congruence).
  constructor; auto.
  - now rewrite E.
  - intros pid j a id k I. apply in_put in I. destruct I as [<-|I]; [discriminate X|eauto].
  - rewrite E. exact K4.
Qed.

(** a step of a batching layer that executes nothing *)
Lemma batch_quiet w b a : (match a with BSubmit _ _ | BOther _ _ | BExecute _ _ => False | _ => True end) ->
  let b' := kstep (with_db w b) a in
  kworld b' = w /\ klog b' = klog b /\ (forall i, In i (kpending b') -> In i (kpending b)) /\
  forall i, match nth_error (kjobs b) i with
            | Some jb => exists jb', nth_error (kjobs b') i = Some jb' /\ j_stmt aop (Z * Z) jb' = j_stmt aop (Z * Z) jb /\ j_outcome aop (Z * Z) jb' = j_outcome aop (Z * Z) jb
            | None => nth_error (kjobs b') i = None
            end.
Proof.
  intros A. destruct b as [js q wk rid cl dc db log]. unfold kstep, with_db, kworld, klog, kpending, kjobs.
  cbn [b_jobs b_queue b_worker b_runid b_closed b_dbclosed b_log].
  assert (SELF : forall i, match nth_error js i with
            | Some jb => exists jb', nth_error js i = Some jb' /\ j_stmt aop (Z * Z) jb' = j_stmt aop (Z * Z) jb /\ j_outcome aop (Z * Z) jb' = j_outcome aop (Z * Z) jb
            | None => nth_error js i = None end) by (intros i; destruct (nth_error js i); eauto).
  destruct a as [st|id| |f| |st| |]; try contradiction; cbn [batch_step b_jobs b_queue b_worker b_runid b_closed b_dbclosed b_log b_db].
  - split; [reflexivity|]. split; [reflexivity|]. split; [auto|]. intros i. rewrite cancel_nth. destruct (nth_error js i) as [jb|]; auto. cbn [option_map]. eexists. split; [reflexivity|]. now destruct (Nat.eqb i id).
  - destruct wk; cbn [b_jobs b_db b_log]; (split; [reflexivity|]); (split; [reflexivity|]); (split; [|exact SELF]); auto. unfold pending. cbn. rewrite app_nil_r. auto.
  - destruct wk; cbn [b_jobs b_db b_log]; try ((split; [reflexivity|]); (split; [reflexivity|]); (split; [|exact SELF]); auto; fail).
    destruct q as [|i0 q0]; cbn [b_jobs b_db b_log]; (split; [reflexivity|]); (split; [reflexivity|]); (split; [|exact SELF]); unfold pending; cbn; rewrite ?app_nil_r; auto.
  - split; [reflexivity|]. split; [reflexivity|]. split; [auto|exact SELF].
  - destruct cl; [destruct wk|]; cbn [b_jobs b_db b_log]; (split; [reflexivity|]); (split; [reflexivity|]); (split; [|exact SELF]); auto.
Qed.
Lemma skipn_self {A} (l : list A) : skipn (length l) l = [].
Proof. induction l; auto. Qed.
Lemma skipn_app_self {A} (l m : list A) : skipn (length l) (l ++ m) = m.
Proof. induction l; auto. Qed.

Lemma sim_quiet cfg okf w sv ps log n j b a : nth_error sv j = Some b -> (match a with BSubmit _ _ | BOther _ _ | BExecute _ _ => False | _ => True end) ->
  sim cfg okf (NState w sv ps log n) ->
  let b' := kstep (with_db w b) a in
  sim cfg okf (NState (kworld b') (put j b' sv) ps (log ++ notes ps j (skipn (length (klog b)) (klog b'))) n).
Proof.
  intros N A [[K1 K2 K3 K4] L] b'. destruct (batch_quiet w b a A) as (Q1 & Q2 & Q3 & Q4). fold b' in Q1, Q2, Q3, Q4.
  rewrite Q1, Q2, skipn_self. unfold notes. cbn [flat_map]. rewrite app_nil_r. cbn [n_servers n_procs n_world n_log n_next] in *.
  split; cbn [n_servers n_procs n_world n_log n_next].
  - constructor; auto.
    + intros j' x E. rewrite put_nth in E. destruct (Nat.eqb_spec j j') as [<-|]; [|eauto]. rewrite N in E. injection E as <-.
      apply core_step. apply core_db. eauto.
    + intros pid j' st id k I. destruct (K3 _ _ _ _ _ I) as (b0 & jb & E1 & E2 & E3). destruct (Nat.eq_dec j j') as [<-|NE].
      * rewrite N in E1. injection E1 as <-. specialize (Q4 id). rewrite E2 in Q4. destruct Q4 as (jb' & E4 & E5 & _). exists b', jb'.
        split; [eapply put_same; eauto|]. split; auto. congruence.
      * exists b0, jb. now rewrite put_other.
    + intros j' x id E I. rewrite put_nth in E. destruct (Nat.eqb_spec j j') as [<-|]; [|eauto]. rewrite N in E. injection E as <-. eauto.
  - rewrite (views_ext _ (oc_of sv)); [exact L|]. intros j' id I. rewrite oc_put. destruct (Nat.eqb_spec j j') as [<-|]; [|reflexivity]. rewrite N. unfold oc_of. rewrite N.
    specialize (Q4 id). destruct (nth_error (kjobs b) id) as [jb|]; [|now rewrite Q4]. destruct Q4 as (jb' & -> & _ & ->). reflexivity.
Qed.

Lemma sim_execute cfg (okf : fault -> Prop) w sv ps log n j b f : tolerates okf b -> nth_error sv j = Some b -> batch_fault okf f ->
  sim cfg okf (NState w sv ps log n) ->
  let b' := kstep (with_db w b) (BExecute _ f) in
  sim cfg okf (NState (kworld b') (put j b' sv) ps (log ++ notes ps j (skipn (length (klog b)) (klog b'))) n).
Proof.
  intros T N BF [[K1 K2 K3 K4] L] b'. cbn [n_servers n_procs n_world n_log n_next] in *.
  pose proof (core_step world aop (Z * Z) kine_run (with_db w b) (BExecute _ f) (core_db w b (K1 _ _ N))) as KC. fold (kstep (with_db w b) (BExecute _ f)) in KC. fold b' in KC.
  pose proof (K1 _ _ N) as [C1 C2 C3 C4].
  destruct b as [js q wk rid cl dc db lg]. unfold kpending, pending in *. cbn [b_jobs b_queue b_worker] in *.
  unfold b', kstep, with_db in *. cbn [batch_step b_jobs b_queue b_worker b_runid b_closed b_dbclosed b_db b_log] in *.
  assert (IDLE : (match wk with WExec _ => False | _ => True end) ->
    sim cfg okf (NState w (put j (BatchState world aop (Z * Z) js q wk rid cl dc w lg) sv) ps (log ++ notes ps j (skipn (length lg) lg)) n)).
  { intros W. rewrite skipn_self. unfold notes. cbn [flat_map]. rewrite app_nil_r. split; cbn [n_servers n_procs n_world n_log n_next].
    - constructor; auto.
      + intros j' x E. rewrite put_nth in E. destruct (Nat.eqb_spec j j') as [<-|]; [|eauto]. rewrite N in E. injection E as <-. destruct wk; try contradiction; exact KC.
      + intros pid j' st id k I. destruct (K3 _ _ _ _ _ I) as (b0 & jb & E1 & E2 & E3). destruct (Nat.eq_dec j j') as [<-|NE].
        * rewrite N in E1. injection E1 as <-. exists (BatchState world aop (Z * Z) js q wk rid cl dc w lg), jb. split; [eapply put_same; eauto|]. auto.
        * exists b0, jb. now rewrite put_other.
      + intros j' x id E I. rewrite put_nth in E. destruct (Nat.eqb_spec j j') as [<-|]; [|eauto]. rewrite N in E. injection E as <-. eapply (K4 j _ id N). exact I.
    - rewrite (views_ext _ (oc_of sv)); [exact L|]. intros j' id I. rewrite oc_put. destruct (Nat.eqb_spec j j') as [<-|]; [|reflexivity]. rewrite N. unfold oc_of. now rewrite N. }
  destruct wk as [| |ids|ids]; try exact (IDLE Logic.I). clear IDLE. cbn [todo] in *.
  destruct (exec_queue world aop (Z * Z) kine_run cl js ids f w) as [[js' w'] l] eqn:E.
  unfold klog, kworld. cbn [b_log b_db]. rewrite skipn_app_self.
  destruct (NoDup_app_both _ _ C1) as (N1 & N2 & N3).
  assert (OW : forall id, In id ids -> owned ps js j id /\ oc_of sv j id = None).
  { intros id I. destruct (C2 id ltac:(apply in_app_iff; auto)) as (jb & E1 & E2). split.
    - destruct (slot_proc ps j id) as (pid & a & k & P); [eapply K4; [exact N|]; apply in_app_iff; auto|].
      destruct (K3 _ _ _ _ _ P) as (b0 & jb0 & F1 & F2 & F3). rewrite N in F1. injection F1 as <-. unfold kjobs in F2. cbn [b_jobs] in F2. rewrite E1 in F2. injection F2 as <-. subst a. exists jb, pid, k. auto.
    - unfold oc_of. rewrite N. unfold kjobs. cbn [b_jobs]. now rewrite E1. }
  destruct (exec_queue_ok _ _ _ _ _ _ _ _ _ _ _ _ N1 C3 E) as [X1 X2 _ _ _].
  split; cbn [n_servers n_procs n_world n_log n_next].
  - constructor; auto.
    + intros j' x E0. rewrite put_nth in E0. destruct (Nat.eqb_spec j j') as [<-|]; [|eauto]. rewrite N in E0. injection E0 as <-. exact KC.
    + intros pid j' st id k I. destruct (K3 _ _ _ _ _ I) as (b0 & jb & E1 & E2 & E3). destruct (Nat.eq_dec j j') as [<-|NE].
      * rewrite N in E1. injection E1 as <-. unfold kjobs in E2. cbn [b_jobs] in E2. destruct (X2 id jb E2) as (jb' & E4 & (E5 & _) & _).
        eexists _, jb'. split; [eapply put_same; eauto|]. split; [exact E4|]. congruence.
      * exists b0, jb. now rewrite put_other.
    + intros j' x id E0 I. rewrite put_nth in E0. destruct (Nat.eqb_spec j j') as [<-|]; [|eauto]. rewrite N in E0. injection E0 as <-.
      eapply (K4 j _ id N). unfold kpending, pending. cbn [b_worker b_queue todo]. apply in_app_iff. right. exact I.
  - assert (FIN : forall outs, NoDup (map fst outs) -> (forall id, In id (map fst outs) <-> In id ids) ->
       (forall id o, In (id, o) outs -> match nth_error js' id with Some jb => j_outcome aop (Z * Z) jb = Some o | None => True end) ->
       map (view (oc_of (@put kbatch j (BatchState world aop (Z * Z) js' q (WLock ids) rid cl dc w' (lg ++ l)) sv))) ps = map (view (set_all j outs (oc_of sv))) ps).
    { intros outs ND HI HO. apply views_ext. intros j' id I. rewrite oc_put. destruct (Nat.eqb_spec j j') as [<-|NE]; [|now rewrite set_all_other by auto].
      rewrite N. unfold kjobs. cbn [b_jobs]. destruct (slot_proc _ _ _ I) as (pid & a & k & P). destruct (K3 _ _ _ _ _ P) as (b0 & jb & F1 & F2 & F3).
      rewrite N in F1. injection F1 as <-. unfold kjobs in F2. cbn [b_jobs] in F2. destruct (X2 id jb F2) as (jb' & E4 & _ & U & V). rewrite E4.
      destruct (in_dec Nat.eq_dec id ids) as [J|J].
      - apply HI in J. apply in_map_iff in J. destruct J as ([id' o] & EQ & J). cbn in EQ. subst id'. rewrite (set_all_in j outs _ id o ND J). specialize (HO id o J). now rewrite E4 in HO.
      - rewrite set_all_other by (right; intros J'; apply HI in J'; auto). rewrite (U J). unfold oc_of. rewrite N. unfold kjobs. cbn [b_jobs]. now rewrite F2. }
    assert (ER : forall e, exec_all world aop (Z * Z) kine_run js ids 0 f w = Err e -> okf (FailBefore e)).
    { intros e EE. destruct (exec_all_why js f ids 0%nat w e) as [(-> & i & jb & I & N0 & JC)|(m & ->)]; auto; [|destruct (C2 i ltac:(apply in_app_iff; auto)) as (jb' & E1 & E2); rewrite N0 in E1; injection E1 as <-; exact (proj2 (proj2 T) i jb N0 E2 JC)].
      intros id I. destruct (C2 id ltac:(apply in_app_iff; auto)) as (jb & E1 & _). congruence. }
    destruct (exec_queue_cases okf _ _ _ _ _ _ _ _ (fun X => proj1 (proj1 (proj2 T) X)) ER C3 BF E) as [(Ls & EA & -> & ->)|[(e & OKE & -> & -> & ->)|(e & Ls & OKE & EA & -> & ->)]].
    + destruct (exec_all_ok _ _ _ _ _ _ _ _ _ _ _ EA) as (M & _ & _).
      assert (M2 : map fst (map (fun x : nat * aop * (Z * Z) => (fst (fst x), Done (Z * Z) (snd x))) Ls) = ids) by (rewrite map_map; exact M).
      rewrite (FIN (map (fun x => (fst (fst x), Done _ (snd x))) Ls)).
      * apply (batch_calls cfg okf ps j js NoFault (fun r => Done _ r) n K2 (proj1 T) (or_introl (conj eq_refl (fun r => eq_refl))) ids 0%nat f w w' Ls (oc_of sv) log N1 EA OW L).
      * now rewrite M2.
      * intros id. now rewrite M2.
      * intros id o I. apply in_map_iff in I. destruct I as (x & [= <- <-] & I). rewrite set_results_nth by (rewrite M; exact N1).
        destruct (nth_error js (fst (fst x))) as [jb|]; [|exact Logic.I]. cbn [option_map].
        destruct (find _ Ls) as [y|] eqn:F.
        -- apply find_some in F. destruct F as [F1 F2]. apply Nat.eqb_eq in F2. assert (y = x); [|subst y; reflexivity].
           clear - M N1 I F1 F2. rewrite <- M in N1. clear M. revert N1 I F1. induction Ls as [|z zs IH]; [intros _ []|]. cbn [map]. intros ND I1 I2. inversion ND as [|? ? NI ND']; subst.
           destruct I1 as [->|I1], I2 as [->|I2]; auto; exfalso; apply NI; [rewrite <- F2|rewrite F2]; now apply (in_map (fun x => fst (fst x))).
        -- apply (find_none _ _ F) in I. now rewrite Nat.eqb_refl in I.
    + unfold notes. cbn [flat_map]. rewrite (app_nil_r log). rewrite (FIN (map (fun id => (id, Failed _ e)) ids)).
      * apply (batch_fails cfg okf ps j js e n w log K2 OKE ids (oc_of sv) N1 OW L).
      * rewrite map_map. cbn [fst]. now rewrite map_id.
      * intros id. rewrite map_map. cbn [fst]. now rewrite map_id.
      * intros id o I. apply in_map_iff in I. destruct I as (x & [= <- <-] & I). rewrite set_outcome_nth. destruct (nth_error js x) as [jb|]; [|exact Logic.I]. cbn [option_map]. rewrite Nat.add_0_l.
        now apply existsb_in in I as ->.
    + destruct (exec_all_ok _ _ _ _ _ _ _ _ _ _ _ EA) as (M & _ & _).
      assert (M2 : map fst (map (fun x : nat * aop * (Z * Z) => (fst (fst x), Failed (Z * Z) e)) Ls) = ids) by (rewrite map_map; exact M).
      rewrite (FIN (map (fun x => (fst (fst x), Failed _ e)) Ls)).
      * apply (batch_calls cfg okf ps j js (FailAfter e) (fun r => Failed _ e) n K2 OKE (or_intror (ex_intro _ e (conj eq_refl (fun r => eq_refl)))) ids 0%nat f w w' Ls (oc_of sv) log N1 EA OW L).
      * now rewrite M2.
      * intros id. now rewrite M2.
      * intros id o I. apply in_map_iff in I. destruct I as (x & [= <- <-] & I). rewrite set_outcome_nth. destruct (nth_error js (fst (fst x))) as [jb|]; [|exact Logic.I]. cbn [option_map]. rewrite Nat.add_0_l.
        assert (J : In (fst (fst x)) ids) by (rewrite <- M; now apply (in_map (fun x => fst (fst x)))). now apply existsb_in in J as ->.
Qed.

Lemma view_run oc pid j q : view oc (NProc pid j (NRun q)) = (pid, q).
Proof. reflexivity. Qed.
Lemma crash_many cfg okf w log n (P : nproc -> nat * prog reply) keep : forall ps pre,
  lfrom cfg okf l0 (LState w (pre ++ map P ps) log n) -> lfrom cfg okf l0 (LState w (pre ++ map P (filter keep ps)) log n).
Proof.
  induction ps as [|p ps IH]; intros pre H; cbn [filter map]; [exact H|]. cbn [map] in H. destruct (keep p).
  - cbn [map]. replace (pre ++ P p :: map P (filter keep ps)) with ((pre ++ [P p]) ++ map P (filter keep ps)) by now rewrite <- app_assoc.
    apply IH. now rewrite <- app_assoc.
  - apply IH. econstructor; [exact H|]. constructor.
Qed.
Lemma in_slots_filter keep ps x : In x (flat_map slot (filter keep ps)) -> In x (flat_map slot ps).
Proof. rewrite !in_flat_map. intros (p & I & J). apply filter_In in I. exists p. tauto. Qed.
Lemma nodup_filter keep ps : NoDup (flat_map slot ps) -> NoDup (flat_map slot (filter keep ps)).
Proof.
  induction ps as [|p ps IH]; cbn [filter flat_map]; auto. intros H. destruct (NoDup_app_both _ _ H) as (A & B & C). destruct (keep p); auto. cbn [flat_map].
  unfold slot at 1 in A. unfold slot at 1. unfold slot at 1 in C. destruct (np_act p) as [q|a id k]; cbn [app] in *; auto. constructor; auto.
  intros I. apply in_slots_filter in I. exact (C (np_server p, id) (or_introl eq_refl) I).
Qed.

Lemma sim_submit cfg (okf : fault -> Prop) w sv ps log n i pid j a k b :
  nth_error ps i = Some (NProc pid j (NRun (Call (CExec a) k))) -> nth_error sv j = Some b -> kclosed b = false ->
  sim cfg okf (NState w sv ps log n) ->
  sim cfg okf (NState w (put j (kstep b (BSubmit _ a)) sv) (put i (NProc pid j (NWait a (length (kjobs b)) k)) ps) log n).
Proof.
  intros P N CL [[K1 K2 K3 K4] L]. cbn [n_servers n_procs n_world n_log n_next] in *.
  pose proof (core_step world aop (Z * Z) kine_run b (BSubmit _ a) (K1 _ _ N)) as KC.
  assert (JS : exists rid, kjobs (kstep b (BSubmit _ a)) = kjobs b ++ [Job aop (Z * Z) a rid false None]).
  { unfold kclosed in CL. unfold kstep, kjobs. cbn [batch_step]. rewrite CL. cbn [b_jobs]. eauto. }
  assert (PD : forall x, In x (kpending (kstep b (BSubmit _ a))) -> In x (kpending b) \/ x = length (kjobs b)).
  { intros x. unfold kclosed in CL. unfold kstep, kpending, pending, kjobs. cbn [batch_step]. rewrite CL. cbn [b_worker b_queue]. destruct (b_worker _ _ _ b); cbn [todo start_worker]; rewrite ?in_app_iff; cbn [In]; intuition auto. }
  destruct JS as [rid JS].
  destruct (put_split (NProc pid j (NWait a (length (kjobs b)) k)) _ ps i P) as (p1 & p2 & -> & -> & _).
  assert (FRESH : ~ In (j, length (kjobs b)) (flat_map slot (p1 ++ NProc pid j (NRun (Call (CExec a) k)) :: p2))).
  { intros I. destruct (slot_proc _ _ _ I) as (pid' & a' & k' & I'). destruct (K3 _ _ _ _ _ I') as (b0 & jb & E1 & E2 & _). rewrite N in E1. injection E1 as <-.
    assert (length (kjobs b) < length (kjobs b))%nat by (apply nth_error_Some; congruence). lia. }
  rewrite flat_map_app in K2, FRESH. cbn [flat_map] in K2, FRESH. unfold slot at 2 in K2. unfold slot at 2 in FRESH. cbn [np_act np_server app] in K2, FRESH.
  assert (SL : flat_map slot (p1 ++ NProc pid j (NWait a (length (kjobs b)) k) :: p2) = flat_map slot p1 ++ (j, length (kjobs b)) :: flat_map slot p2) by (now rewrite flat_map_app).
  assert (SO : flat_map slot (p1 ++ NProc pid j (NRun (Call (CExec a) k)) :: p2) = flat_map slot p1 ++ flat_map slot p2) by (now rewrite flat_map_app).
  split; cbn [n_servers n_procs n_world n_log n_next].
  - constructor.
    + intros j' x E. rewrite put_nth in E. destruct (Nat.eqb_spec j j') as [<-|]; [|eauto]. rewrite N in E. injection E as <-. exact KC.
    + rewrite SL. apply NoDup_Add with (a := (j, length (kjobs b))) (l := flat_map slot p1 ++ flat_map slot p2); [apply Add_app|auto].
    + intros pid' j' a' id k' I. assert (I' : NProc pid' j' (NWait a' id k') = NProc pid j (NWait a (length (kjobs b)) k) \/ In (NProc pid' j' (NWait a' id k')) (p1 ++ NProc pid j (NRun (Call (CExec a) k)) :: p2)).
      { rewrite in_app_iff in *. cbn [In] in *. intuition auto. }
      destruct I' as [EQ|I'].
      * injection EQ as -> -> -> -> _. eexists _, _. split; [eapply put_same; eauto|]. rewrite JS. rewrite nth_error_app2, Nat.sub_diag by auto. split; reflexivity.
      * destruct (K3 _ _ _ _ _ I') as (b0 & jb & E1 & E2 & E3). destruct (Nat.eq_dec j j') as [<-|NE].
        -- rewrite N in E1. injection E1 as <-. exists (kstep b (BSubmit _ a)), jb. split; [eapply put_same; eauto|]. split; auto. rewrite JS, nth_error_app1; auto. apply nth_error_Some. congruence.
        -- exists b0, jb. now rewrite put_other.
    + intros j' x id E I. rewrite SL. rewrite put_nth in E. destruct (Nat.eqb_spec j j') as [<-|].
      * rewrite N in E. injection E as <-. apply PD in I. destruct I as [I| ->]; [|rewrite in_app_iff; right; left; reflexivity].
        specialize (K4 _ _ _ N I). rewrite SO, in_app_iff in K4. rewrite in_app_iff. cbn [In]. tauto.
      * specialize (K4 _ _ _ E I). rewrite SO, in_app_iff in K4. rewrite in_app_iff. cbn [In]. tauto.
  - rewrite map_app in L |- *. cbn [map] in L |- *.
    assert (V : forall q, (forall x, In x q -> In x (p1 ++ NProc pid j (NRun (Call (CExec a) k)) :: p2)) -> map (view (oc_of (put j (kstep b (BSubmit aop a)) sv))) q = map (view (oc_of sv)) q).
    { intros q Q. apply views_ext. intros j' id I. rewrite oc_put. destruct (Nat.eqb_spec j j') as [<-|]; [|reflexivity]. rewrite N. unfold oc_of. rewrite N, JS.
      destruct (slot_proc _ _ _ I) as (pid' & a' & k' & I'). apply Q in I'. destruct (K3 _ _ _ _ _ I') as (b0 & jb & E1 & E2 & _). rewrite N in E1. injection E1 as <-.
      rewrite nth_error_app1; auto. apply nth_error_Some. congruence. }
    rewrite !V by (intros x I; rewrite in_app_iff; cbn [In]; tauto).
    assert (E0 : view (oc_of (put j (kstep b (BSubmit aop a)) sv)) (NProc pid j (NWait a (length (kjobs b)) k)) = (pid, Call (CExec a) k)).
    { unfold view. cbn [np_id np_act np_server]. rewrite oc_put, Nat.eqb_refl, N, JS, nth_error_app2, Nat.sub_diag by auto. reflexivity. }
    rewrite E0. exact L.
Qed.

Lemma sim_step_at cfg (okf : fault -> Prop) s x s' : (forall j b, nth_error (n_servers s) j = Some b -> tolerates okf b) -> naction_ok okf x -> nstep cfg s x = Some s' -> sim cfg okf s -> sim cfg okf s'.
Proof.
  intros T OK ST SM. destruct s as [w sv ps log n]. destruct x as [|j q|i f|i|j a|i|i|j]; cbn [nstep] in ST.
  - (* boot *)
    injection ST as <-. destruct SM as [[K1 K2 K3 K4] L]. cbn [n_servers n_procs n_world n_log n_next] in *.
    assert (OLD : forall j b, nth_error sv j = Some b -> nth_error (sv ++ [batch_init w]) j = Some b) by (intros j b E; rewrite nth_error_app1; auto; apply nth_error_Some; congruence).
    assert (NEW : forall j b, nth_error (sv ++ [batch_init w]) j = Some b -> nth_error sv j = Some b \/ b = batch_init w).
    { intros j b E. destruct (Nat.lt_ge_cases j (length sv)) as [LT|GE]; [rewrite nth_error_app1 in E by auto; auto|]. rewrite nth_error_app2 in E by auto.
      destruct (j - length sv)%nat as [|m]; [injection E as <-; auto|destruct m; discriminate]. }
    split; cbn [n_servers n_procs n_world n_log n_next].
    + constructor; auto.
      * intros j b E. apply NEW in E. destruct E as [E| ->]; [eauto|apply core_init].
      * intros pid j a id k I. destruct (K3 _ _ _ _ _ I) as (b & jb & E1 & E2 & E3). exists b, jb. auto.
      * intros j b id E I. apply NEW in E. destruct E as [E| ->]; [eauto|destruct I].
    + rewrite (views_ext _ (oc_of sv)); [exact L|]. intros j id I. destruct (slot_proc _ _ _ I) as (pid & a & k & I'). destruct (K3 _ _ _ _ _ I') as (b & jb & E1 & _). unfold oc_of. now rewrite (OLD _ _ E1), E1.
  - (* ask *)
    destruct (nth_error sv j) as [b|] eqn:N; [|discriminate]. injection ST as <-. destruct SM as [[K1 K2 K3 K4] L]. split; cbn [n_servers n_procs n_world n_log n_next] in *.
    + constructor; auto. intros pid j' a id k [I|I]; [discriminate|eauto].
    + cbn [map]. rewrite view_run. econstructor; [exact L|]. now constructor.
  - (* query *)
    destruct (nth_error ps i) as [[pid j [[o|c k]|a job k]]|] eqn:P; try discriminate.
    assert (R : Some (NState (fst (sem f c w)) sv (put i (NProc pid j (NRun (k (snd (sem f c w))))) ps) (log ++ map (Committed pid) (commit_of f c w)) n) = Some s') by (destruct (op_of c) as [a|]; [destruct (batched a); [discriminate|]|]; exact ST).
    injection R as <-. destruct SM as [K L]. split; cbn [n_servers n_procs n_world n_log n_next] in *; [eapply NI_run; eauto|].
    destruct (put_split (NProc pid j (NRun (k (snd (sem f c w))))) _ ps i P) as (p1 & p2 & -> & -> & _). rewrite map_app in L |- *. cbn [map] in L |- *. rewrite view_run in L |- *.
    econstructor; [exact L|]. now constructor.
  - (* submit *)
    destruct (nth_error ps i) as [[pid j [[o|[a| | | | | | | |] k]|a job k]]|] eqn:P; try discriminate.
    destruct (batched a) eqn:BA; [|discriminate]. destruct (nth_error sv j) as [b|] eqn:N; [|discriminate]. destruct (kclosed b) eqn:CL; injection ST as <-.
    + destruct SM as [K L]. split; cbn [n_servers n_procs n_world n_log n_next] in *; [eapply NI_run; eauto|].
      match goal with |- context [put i ?x ps] => destruct (put_split x _ ps i P) as (p1 & p2 & -> & -> & _) end. rewrite map_app in L |- *. cbn [map] in L |- *. rewrite view_run in L |- *.
      destruct (proj1 (proj2 (T j b N)) CL) as [_ T3]. rewrite <- (app_nil_r log). econstructor; [exact L|]. exact (l_call cfg okf w (map (view (oc_of sv)) p1) pid (CExec a) k (map (view (oc_of sv)) p2) log n (FailBefore EOther) T3).
    + eapply sim_submit; eauto.
  - (* batch *)
    destruct a as [st|id| |f| |st| |]; try discriminate; (destruct (nth_error sv j) as [b|] eqn:N; [|discriminate]); injection ST as <-.
    + exact (sim_quiet cfg okf w sv ps log n j b (BCancel _ id) N Logic.I SM).
    + exact (sim_quiet cfg okf w sv ps log n j b (BTake _) N Logic.I SM).
    + exact (sim_execute cfg okf w sv ps log n j b f (T j b N) N OK SM).
    + exact (sim_quiet cfg okf w sv ps log n j b (BFinish _) N Logic.I SM).
    + exact (sim_quiet cfg okf w sv ps log n j b (BClose _) N Logic.I SM).
    + exact (sim_quiet cfg okf w sv ps log n j b (BClosed _) N Logic.I SM).
  - (* return *)
    destruct (nth_error ps i) as [[pid j [p|a job k]]|] eqn:P; try discriminate. destruct (nth_error sv j) as [b|] eqn:N; [|discriminate].
    destruct (kreleased b job) as [o|] eqn:RL; [|discriminate]. injection ST as <-. destruct SM as [[K1 K2 K3 K4] L]. cbn [n_servers n_procs n_world n_log n_next] in *.
    unfold kreleased, released in RL. destruct (nth_error (b_jobs world aop (Z * Z) b) job) as [jb|] eqn:NJ; [|discriminate]. destruct (j_run _ _ jb <? b_runid _ _ _ b) eqn:RI; [|discriminate]. injection RL as <-.
    apply Z.ltb_lt in RI. pose proof (C_job _ _ _ _ (K1 _ _ N) _ _ NJ) as JA.
    assert (NN : j_outcome aop (Z * Z) jb <> None).
    { unfold job_at in JA. destruct JA as [(A & B & C)|[(b' & A & B & C & D)|[(b' & A & B & C & D)|(A & B)]]]; auto; exfalso; [destruct (running _); lia|lia]. }
    assert (NP : ~ In job (kpending b)).
    { intros I. destruct (C_none _ _ _ _ (K1 _ _ N) _ I) as (jb' & E1 & E2). congruence. }
    destruct (put_split (NProc pid j (NRun (k (to_result (j_outcome aop (Z * Z) jb))))) _ ps i P) as (p1 & p2 & -> & -> & _).
    assert (SO : flat_map slot (p1 ++ NProc pid j (NWait a job k) :: p2) = flat_map slot p1 ++ (j, job) :: flat_map slot p2) by (now rewrite flat_map_app).
    assert (SN : flat_map slot (p1 ++ NProc pid j (NRun (k (to_result (j_outcome aop (Z * Z) jb)))) :: p2) = flat_map slot p1 ++ flat_map slot p2) by (now rewrite flat_map_app).
    split; cbn [n_servers n_procs n_world n_log n_next].
    + constructor; auto.
      * rewrite SN. rewrite SO in K2. now apply NoDup_remove_1 in K2.
      * intros pid' j' a' id k' I. apply (K3 pid' j' a' id k'). rewrite in_app_iff in *. cbn [In] in *. destruct I as [I|[I|I]]; [auto|discriminate|auto].
      * intros j' b' id E I. specialize (K4 _ _ _ E I). rewrite SN. rewrite SO, in_app_iff in K4. cbn [In] in K4. rewrite in_app_iff. destruct K4 as [H|[H|H]]; auto.
        injection H as <- <-. rewrite N in E. injection E as <-. contradiction.
    + rewrite map_app in L |- *. cbn [map] in L |- *. rewrite view_run. unfold view at 2 in L. cbn [np_id np_act np_server] in L. unfold oc_of at 2 in L. rewrite N in L. unfold kjobs in L. rewrite NJ in L.
      destruct (j_outcome aop (Z * Z) jb); [exact L|congruence].
  - (* answer *)
    destruct (nth_error ps i) as [[pid j [[o|c k]|a job k]]|] eqn:P; try discriminate.
    assert (R : s' = NState w sv (firstn i ps ++ skipn (S i) ps) (log ++ [Answered pid o]) n) by congruence. subst s'.
    destruct (put_split (NProc pid j (NRun (Ret o))) _ ps i P) as (p1 & p2 & E & _ & ED). rewrite ED. destruct SM as [[K1 K2 K3 K4] L]. cbn [n_servers n_procs n_world n_log n_next] in *.
    assert (SO : flat_map slot ps = flat_map slot (p1 ++ p2)) by (rewrite E, !flat_map_app; reflexivity).
    split; cbn [n_servers n_procs n_world n_log n_next].
    + constructor; auto; rewrite <- ?SO; auto. intros pid' j' a' id k' I. apply (K3 pid' j' a' id k'). rewrite E. rewrite in_app_iff in *. cbn [In]. tauto.
    + rewrite E, map_app in L. cbn [map] in L. rewrite view_run in L. rewrite map_app. econstructor; [exact L|]. constructor.
  - (* crash *)
    injection ST as <-. destruct SM as [[K1 K2 K3 K4] L]. cbn [n_servers n_procs n_world n_log n_next] in *.
    assert (OFF : forall pid j' a id k, In (NProc pid j' (NWait a id k)) (filter (fun p => negb (Nat.eqb (np_server p) j)) ps) -> In (NProc pid j' (NWait a id k)) ps /\ j <> j').
    { intros pid j' a id k I. apply filter_In in I. destruct I as [I1 I2]. cbn in I2. apply negb_true_iff, Nat.eqb_neq in I2. auto. }
    split; cbn [n_servers n_procs n_world n_log n_next].
    + constructor.
      * intros j' b E. rewrite put_nth in E. destruct (Nat.eqb j j'); [|eauto]. destruct (nth_error sv j'); [|discriminate]. injection E as <-. apply core_init.
      * now apply nodup_filter.
      * intros pid j' a id k I. apply OFF in I. destruct I as [I NE]. destruct (K3 _ _ _ _ _ I) as (b & jb & E1 & E2 & E3). exists b, jb. now rewrite put_other.
      * intros j' b id E I. rewrite put_nth in E. destruct (Nat.eqb_spec j j') as [<-|NE]; [destruct (nth_error sv j); [|discriminate]; injection E as <-; destruct I|].
        specialize (K4 _ _ _ E I). destruct (slot_proc _ _ _ K4) as (pid & a & k & P). eapply in_slots. apply filter_In. split; [exact P|]. cbn. apply negb_true_iff, Nat.eqb_neq. congruence.
    + rewrite (views_ext _ (oc_of sv)).
      * apply (crash_many cfg okf w log n (view (oc_of sv)) (fun p => negb (Nat.eqb (np_server p) j)) ps []). exact L.
      * intros j' id I. destruct (slot_proc _ _ _ I) as (pid & a & k & P). apply OFF in P. destruct P as [_ NE]. rewrite oc_put. now apply Nat.eqb_neq in NE as ->.
Qed.

Lemma sim_step cfg (okf : fault -> Prop) s x s' : tolerant okf -> naction_ok okf x -> nstep cfg s x = Some s' -> sim cfg okf s -> sim cfg okf s'.
Proof. intros T. apply sim_step_at. intros j b _. now apply tolerant_tolerates. Qed.
End From.

Lemma node_refines cfg (okf : fault -> Prop) s : tolerant okf -> nreach cfg okf s ->
  exists ps, lreach cfg okf (LState (n_world s) ps (n_log s) (n_next s)).
Proof.
  intros T H. assert (S : sim linit cfg okf s).
  { induction H as [|s x s' H IH OK ST]; [|eapply sim_step; eauto].
    split; cbn; [|apply lfrom_refl]. constructor; cbn; [intros j b; destruct j; discriminate|constructor|intros; contradiction|intros j b id; destruct j; discriminate]. }
  destruct S as [_ S]. eexists. eapply lfrom_lreach; [apply lreach_init|exact S].
Qed.

(** ---- nobody waits for more than two batches ---- *)
Definition runs_of (js : list (job aop (Z * Z))) (i : nat) : option Z := option_map (j_run aop (Z * Z)) (nth_error js i).
Lemma runs_outcome o ids js m i : runs_of (set_outcome aop (Z * Z) o ids js m) i = runs_of js i.
Proof. unfold runs_of. rewrite set_outcome_nth. destruct (nth_error js i); auto. cbn. now destruct (existsb _ ids). Qed.
Lemma runs_results l : forall js i, runs_of (set_results aop (Z * Z) l js) i = runs_of js i.
Proof. unfold set_results. induction l as [|x l IH]; intros js i; cbn [fold_left]; auto. now rewrite IH, runs_outcome. Qed.
Lemma runs_queue closed js ids f d js' d' l i : exec_queue world aop (Z * Z) kine_run closed js ids f d = (js', d', l) -> runs_of js' i = runs_of js i.
Proof.
  unfold exec_queue. destruct ids as [|a [|b ids]]; [intros [= <- <- <-]; auto| |].
  - destruct (exec_all _ _ _ _ js [a] 0 f d) as [[d1 L]|e]; [|intros [= <- <- <-]; apply runs_outcome].
    destruct f as [|e|m e|e []]; intros [= <- <- <-]; try apply runs_outcome. apply runs_results.
  - destruct closed; [intros [= <- <- <-]; apply runs_outcome|].
    destruct f as [|e|m e|e t]; try (intros [= <- <- <-]; apply runs_outcome);
      (destruct (exec_all _ _ _ _ js (a :: b :: ids) 0 _ d) as [[d1 L]|e1]; [|intros [= <- <- <-]; apply runs_outcome]);
      try (intros [= <- <- <-]; apply runs_results). destruct t; intros [= <- <- <-]; apply runs_outcome.
Qed.
Lemma take_eq w js q wk rid cl dc db log : kstep (with_db w (BatchState world aop (Z * Z) js q wk rid cl dc db log)) (BTake _) =
  match wk with WStarted => BatchState world aop (Z * Z) js [] (WExec q) rid cl dc w log | _ => BatchState world aop (Z * Z) js q wk rid cl dc w log end.
Proof. destruct wk; reflexivity. Qed.
Lemma exec_eq w f js q wk rid cl dc db log : kstep (with_db w (BatchState world aop (Z * Z) js q wk rid cl dc db log)) (BExecute _ f) =
  match wk with
  | WExec ids => let '(js', d, l) := exec_queue world aop (Z * Z) kine_run cl js ids f w in BatchState world aop (Z * Z) js' q (WLock ids) rid cl dc d (log ++ l)
  | _ => BatchState world aop (Z * Z) js q wk rid cl dc w log
  end.
Proof. destruct wk; reflexivity. Qed.
Lemma fin_eq w js q wk rid cl dc db log : kstep (with_db w (BatchState world aop (Z * Z) js q wk rid cl dc db log)) (BFinish _) =
  match wk with
  | WLock _ => match q with [] => BatchState world aop (Z * Z) js [] WNone (rid + 1) cl dc w log | _ => BatchState world aop (Z * Z) js [] (WExec q) (rid + 1) cl dc w log end
  | _ => BatchState world aop (Z * Z) js q wk rid cl dc w log
  end.
Proof. destruct wk, q; reflexivity. Qed.
Lemma two_batches_release f1 f2 w1 w2 w3 w4 w5 b i jb : kcore b -> nth_error (kjobs b) i = Some jb ->
  kreleased (kstep (with_db w5 (kstep (with_db w4 (kstep (with_db w3 (kstep (with_db w2 (kstep (with_db w1 b) (BTake _))) (BExecute _ f1))) (BFinish _))) (BExecute _ f2))) (BFinish _)) i <> None.
Proof.
  intros [C1 C2 C3 C4] N. specialize (C4 i jb N). destruct b as [js q wk rid cl dc db log]. unfold kjobs in N. cbn [b_jobs] in N.
  unfold pending in *. cbn [b_jobs b_queue b_worker b_runid] in *.
  assert (RJ : runs_of js i = Some (j_run aop (Z * Z) jb)) by (unfold runs_of; now rewrite N).
  assert (B : match wk with WNone => j_run aop (Z * Z) jb < rid | WStarted => j_run aop (Z * Z) jb <= rid
              | WExec _ | WLock _ => j_run aop (Z * Z) jb <= rid + 1 /\ (q = [] -> j_run aop (Z * Z) jb <= rid) end).
  { unfold job_at in C4. cbn [b_queue b_worker b_runid running] in C4.
    destruct C4 as [(A & B & _)|[(b' & -> & _ & B & _)|[(b' & -> & _ & B & _)|(A & _)]]].
    - destruct wk; cbn [running] in B; try lia; [subst q; destruct A|split; [lia|intros ->; destruct A]|split; [lia|intros ->; destruct A]].
    - split; lia.
    - split; lia.
    - destruct wk; try lia; split; lia. }
  assert (REL : forall js' q' w' r cl' dc' d' l', runs_of js' i = runs_of js i -> j_run aop (Z * Z) jb < r ->
    kreleased (BatchState world aop (Z * Z) js' q' w' r cl' dc' d' l') i <> None).
  { intros js' q' w' r cl' dc' d' l' E LT. unfold kreleased, released. cbn [b_jobs b_runid]. rewrite RJ in E. unfold runs_of in E.
    destruct (nth_error js' i) as [j'|]; [|discriminate]. cbn in E. injection E as ->. apply Z.ltb_lt in LT. rewrite LT. discriminate. }
  rewrite take_eq. destruct wk as [| |b|b].
  - rewrite exec_eq, fin_eq, exec_eq, fin_eq. apply REL; auto.
  - rewrite exec_eq. destruct (exec_queue world aop (Z * Z) kine_run cl js q f1 w2) as [[js1 d1] l1] eqn:E1. apply (runs_queue _ _ _ _ _ _ _ _ i) in E1.
    rewrite fin_eq, exec_eq, fin_eq. apply REL; auto. lia.
  - rewrite exec_eq. destruct (exec_queue world aop (Z * Z) kine_run cl js b f1 w2) as [[js1 d1] l1] eqn:E1. apply (runs_queue _ _ _ _ _ _ _ _ i) in E1.
    rewrite fin_eq. destruct B as [B1 B2]. destruct q as [|i0 q0].
    + rewrite exec_eq, fin_eq. apply REL; auto. specialize (B2 eq_refl). lia.
    + rewrite exec_eq. destruct (exec_queue world aop (Z * Z) kine_run cl js1 (i0 :: q0) f2 w4) as [[js2 d2] l2] eqn:E2. apply (runs_queue _ _ _ _ _ _ _ _ i) in E2.
      rewrite fin_eq. apply REL; [congruence|lia].
  - rewrite exec_eq, fin_eq. destruct B as [B1 B2]. destruct q as [|i0 q0].
    + rewrite exec_eq, fin_eq. apply REL; auto. specialize (B2 eq_refl). lia.
    + rewrite exec_eq. destruct (exec_queue world aop (Z * Z) kine_run cl js (i0 :: q0) f2 w4) as [[js2 d2] l2] eqn:E2. apply (runs_queue _ _ _ _ _ _ _ _ i) in E2.
      rewrite fin_eq. apply REL; [congruence|lia].
Qed.

Lemma node_sim cfg (okf : fault -> Prop) s : tolerant okf -> nreach cfg okf s -> sim linit cfg okf s.
Proof.
  intros T H. induction H as [|s x s' H IH OK ST]; [|eapply sim_step; eauto].
  split; cbn; [|apply lfrom_refl]. constructor; cbn; [intros j b; destruct j; discriminate|constructor|intros; contradiction|intros j b id; destruct j; discriminate].
Qed.
Lemma batch_nstep cfg w sv ps log n j b a : nth_error sv j = Some b -> (match a with BSubmit _ _ | BOther _ _ => False | _ => True end) ->
  exists log', nstep cfg (NState w sv ps log n) (NBatch j a) = Some (NState (kworld (kstep (with_db w b) a)) (put j (kstep (with_db w b) a) sv) ps log' n).
Proof. intros N A. destruct a; try contradiction; unfold nstep; rewrite N; eexists; reflexivity. Qed.
Lemma put_put {A} (x y : A) : forall l n, put n x (put n y l) = put n x l.
Proof. induction l as [|z l IH]; intros [|n]; cbn; auto. now rewrite IH. Qed.
Lemma no_waiting cfg (okf : fault -> Prop) s i pid j a job k f1 f2 : tolerant okf -> nreach cfg okf s ->
  nth_error (n_procs s) i = Some (NProc pid j (NWait a job k)) ->
  exists s' r, nrun cfg (map (NBatch j) (two_batches f1 f2)) s = Some s' /\ n_procs s' = n_procs s /\
    nstep cfg s' (NReturn i) = Some (NState (n_world s') (n_servers s') (put i (NProc pid j (NRun (k r))) (n_procs s')) (n_log s') (n_next s')).
Proof.
  intros T H P. destruct (node_sim cfg okf s T H) as [[K1 K2 K3 K4] _]. destruct s as [w sv ps log n]. cbn [n_servers n_procs n_world n_log n_next] in *.
  destruct (K3 _ _ _ _ _ (nth_error_In _ _ P)) as (b & jb & N & NJ & _).
  destruct (batch_nstep cfg w sv ps log n j b (BTake _) N Logic.I) as [g1 S1]. set (b1 := kstep (with_db w b) (BTake _)) in *.
  pose proof (put_same b1 sv j b N) as N1. destruct (batch_nstep cfg (kworld b1) _ ps g1 n j b1 (BExecute _ f1) N1 Logic.I) as [g2 S2]. rewrite put_put in S2. set (b2 := kstep (with_db (kworld b1) b1) (BExecute _ f1)) in *.
  pose proof (put_same b2 sv j b N) as N2. destruct (batch_nstep cfg (kworld b2) _ ps g2 n j b2 (BFinish _) N2 Logic.I) as [g3 S3]. rewrite put_put in S3. set (b3 := kstep (with_db (kworld b2) b2) (BFinish _)) in *.
  pose proof (put_same b3 sv j b N) as N3. destruct (batch_nstep cfg (kworld b3) _ ps g3 n j b3 (BExecute _ f2) N3 Logic.I) as [g4 S4]. rewrite put_put in S4. set (b4 := kstep (with_db (kworld b3) b3) (BExecute _ f2)) in *.
  pose proof (put_same b4 sv j b N) as N4. destruct (batch_nstep cfg (kworld b4) _ ps g4 n j b4 (BFinish _) N4 Logic.I) as [g5 S5]. rewrite put_put in S5. set (b5 := kstep (with_db (kworld b4) b4) (BFinish _)) in *.
  pose proof (put_same b5 sv j b N) as N5. assert (R : kreleased b5 job <> None) by (eapply two_batches_release; eauto).
  destruct (kreleased b5 job) as [o|] eqn:RO; [|congruence].
  exists (NState (kworld b5) (put j b5 sv) ps g5 n), (to_result o). cbn [two_batches map nrun]. rewrite S1, S2, S3, S4, S5. split; [reflexivity|]. split; [reflexivity|].
  cbn [nstep n_servers n_procs n_world n_log n_next]. rewrite P, N5, RO. reflexivity.
Qed.

(** each step of a node is ledger steps *)
Definition nview (s : nstate) : lstate := LState (n_world s) (map (view (oc_of (n_servers s))) (n_procs s)) (n_log s) (n_next s).
Lemma node_view cfg (okf : fault -> Prop) s : tolerant okf -> nreach cfg okf s -> lreach cfg okf (nview s).
Proof. intros T H. destruct (node_sim cfg okf s T H) as [_ L]. eapply lfrom_lreach; [apply lreach_init|exact L]. Qed.
Lemma node_step cfg (okf : fault -> Prop) s x s' : tolerant okf -> nreach cfg okf s -> naction_ok okf x -> nstep cfg s x = Some s' ->
  lfrom cfg okf (nview s) (nview s').
Proof.
  intros T H OK ST. destruct (node_sim cfg okf s T H) as [K _].
  destruct (sim_step (nview s) cfg okf s x s' T OK ST (conj K (lfrom_refl cfg okf (nview s)))) as [_ L]. exact L.
Qed.
