From Coq Require Import List ZArith NArith Bool Lia String.
From Verif Require Import Bytes Server ServerProofs Run.
Import ListNotations.
Open Scope Z_scope.

(** ---- options ---- *)
Definition tls_names : list (bytes * Z) := [(txt "tls10", 769); (txt "tls11", 770); ([], 771); (txt "tls12", 771); (txt "tls13", 772)].
Lemma tls_version_spec s v : tls_version s = Some v <-> In (s, v) tls_names.
Proof.
  unfold tls_version, tls_names. cbn [In].
  destruct (beqb s (txt "tls10")) eqn:A; [apply beqb_true in A; subst; split; [intros H; injection H as <-; auto|intros [H|[H|[H|[H|[H|[]]]]]]; try discriminate; congruence]|].
  destruct (beqb s (txt "tls11")) eqn:B; [apply beqb_true in B; subst; split; [intros H; injection H as <-; auto|intros [H|[H|[H|[H|[H|[]]]]]]; try discriminate; congruence]|].
  destruct (beqb s []) eqn:C; [apply beqb_true in C; subst; split; [intros H; injection H as <-; auto|intros [H|[H|[H|[H|[H|[]]]]]]; try discriminate; congruence]|].
  destruct (beqb s (txt "tls12")) eqn:D; [apply beqb_true in D; subst; split; [intros H; injection H as <-; auto|intros [H|[H|[H|[H|[H|[]]]]]]; try discriminate; congruence]|].
  destruct (beqb s (txt "tls13")) eqn:E; [apply beqb_true in E; subst; split; [intros H; injection H as <-; auto 6|intros [H|[H|[H|[H|[H|[]]]]]]; try discriminate; congruence]|].
  apply beqb_false in A, B, C, D, E.
  split; [discriminate|]. intros [H|[H|[H|[H|[H|[]]]]]]; congruence.
Qed.
Lemma action_spec s : (check_action s = Some LANone <-> s = txt "none") /\ (check_action s = Some LAHandover <-> s = txt "handover") /\
  (check_action s = Some LATerminate <-> s = txt "terminate").
Proof.
  unfold check_action. destruct (beqb s (txt "none")) eqn:A; [apply beqb_true in A; subst; repeat split; try discriminate; auto|].
  destruct (beqb s (txt "handover")) eqn:B; [apply beqb_true in B; subst; repeat split; try discriminate; auto|].
  destruct (beqb s (txt "terminate")) eqn:C; [apply beqb_true in C; subst; repeat split; try discriminate; auto|].
  apply beqb_false in A, B, C. repeat split; try discriminate; congruence.
Qed.
Lemma setup_tls_spec o certs t : setup_tls o certs = Some t <->
  (op_tls o = false /\ t = None) \/
  (op_tls o = true /\ certs = true /\ exists v, In (op_version o, v) tls_names /\ t = Some (TlsSetup v (if 0 <? op_cache o then Some (op_cache o) else None))).
Proof.
  unfold setup_tls. destruct (op_tls o); [destruct certs|].
  - destruct (tls_version (op_version o)) as [v|] eqn:E.
    + split.
      * intros H. injection H as <-. right. split; auto. split; auto. exists v. split; auto. now apply tls_version_spec.
      * intros [[H _]|(_ & _ & v' & I & ->)]; [discriminate|]. apply tls_version_spec in I. congruence.
    + split; [discriminate|]. intros [[H _]|(_ & _ & v' & I & _)]; [discriminate|]. apply tls_version_spec in I. congruence.
  - split; [discriminate|]. intros [[H _]|(_ & H & _)]; discriminate.
  - split; [intros H; injection H as <-; auto|]. intros [[_ ->]|(H & _)]; [auto|discriminate].
Qed.

(** ---- opening the database ---- *)
Lemma open_loop_ok env : forall n i es j, open_loop n i env = (es, DbOk j) ->
  (i <= j < i + n)%nat /\ at_open (env j) = true /\ at_ping (env j) = true /\
  exists es0, es = es0 ++ [HOpened j; HPinged j; HConfigured j] /\
    (forall k, In (HOpened k) es0 -> In (HClosed k) es0) /\ (forall k, ~ In (HConfigured k) es0) /\ (forall x k, In x es0 -> x = HOpened k \/ x = HClosed k \/ x = HPinged k -> (k < j)%nat).
Proof.
  induction n as [|n IH]; intros i es j H; cbn [open_loop] in H; [discriminate|].
  unfold open_and_test in H. destruct (at_open (env i)) eqn:A.
  - destruct (at_ping (env i)) eqn:B.
    + injection H as <- <-. split; [lia|]. split; auto. split; auto. exists []. split; auto. split; [intros k []|]. split; [intros k []|]. intros x k [].
    + destruct (at_done (env i)); [discriminate|]. destruct (open_loop n (S i) env) as [es' r] eqn:E. injection H as <- ->.
      destruct (IH _ _ _ E) as (L & O1 & P1 & es0 & -> & C1 & C2 & C3). split; [lia|]. split; auto. split; auto.
      exists ([HOpened i; HClosed i] ++ es0). split; [reflexivity|]. split; [|split].
      * intros k [K|[K|K]]; [injection K as <-; right; left; auto|discriminate|right; right; auto].
      * intros k [K|[K|K]]; try discriminate. now apply (C2 k).
      * intros x k [K|[K|K]] Q; [subst x; destruct Q as [Q|[Q|Q]]; [injection Q as <-; lia|discriminate|discriminate]|subst x; destruct Q as [Q|[Q|Q]]; [discriminate|injection Q as <-; lia|discriminate]|]. eapply C3; eauto.
  - destruct (at_done (env i)); [discriminate|]. destruct (open_loop n (S i) env) as [es' r] eqn:E. injection H as <- ->.
    destruct (IH _ _ _ E) as (L & O1 & P1 & es0 & -> & C1 & C2 & C3). split; [lia|]. split; auto. split; auto. exists es0. auto.
Qed.
Lemma open_loop_bad env : forall n i es r, open_loop n i env = (es, r) -> (forall j, r <> DbOk j) ->
  (forall k, In (HOpened k) es -> In (HClosed k) es) /\ (forall k, ~ In (HConfigured k) es) /\
  (r = DbFailed -> forall k, (i <= k < i + n)%nat -> at_open (env k) && at_ping (env k) = false) /\
  (r = DbCancelled -> exists k, (i <= k < i + n)%nat /\ at_done (env k) = true /\ forall m x, (k < m)%nat -> In x es -> x <> HOpened m).
Proof.
  induction n as [|n IH]; intros i es r H N; cbn [open_loop] in H.
  { injection H as <- <-. split; [intros k []|]. split; [intros k []|]. split; [lia|discriminate]. }
  unfold open_and_test in H. destruct (at_open (env i)) eqn:A.
  - destruct (at_ping (env i)) eqn:B; [injection H as _ <-; now destruct (N i)|].
    destruct (at_done (env i)) eqn:D.
    + injection H as <- <-. split; [intros k [K|[K|[]]]; [injection K as <-; right; left; auto|discriminate]|].
      split; [intros k [K|[K|[]]]; discriminate|]. split; [discriminate|]. intros _. exists i. split; [lia|]. split; auto.
      intros m x L [<-|[<-|[]]]; [intros Q; injection Q; lia|discriminate].
    + destruct (open_loop n (S i) env) as [es' r'] eqn:E. injection H as <- <-. destruct (IH _ _ _ E N) as (C1 & C2 & C3 & C4).
      split; [intros k [K|[K|K]]; [injection K as <-; right; left; auto|discriminate|right; right; auto]|].
      split; [intros k [K|[K|K]]; try discriminate; now apply (C2 k)|]. split.
      * intros R k L. destruct (Nat.eq_dec k i) as [->|]; [now rewrite A, B|]. apply C3; auto; lia.
      * intros R. destruct (C4 R) as (k & L & D1 & M). exists k. split; [lia|]. split; auto.
        intros m x L' [<-|[<-|I]]; [intros Q; injection Q; lia|discriminate|auto].
  - destruct (at_done (env i)) eqn:D.
    + injection H as <- <-. split; [intros k []|]. split; [intros k []|]. split; [discriminate|]. intros _. exists i. split; [lia|]. split; auto.
    + destruct (open_loop n (S i) env) as [es' r'] eqn:E. injection H as <- <-. destruct (IH _ _ _ E N) as (C1 & C2 & C3 & C4).
      split; auto. split; auto. split.
      * intros R k L. destruct (Nat.eq_dec k i) as [->|]; [now rewrite A|]. apply C3; auto; lia.
      * intros R. destruct (C4 R) as (k & L & D1 & M). exists k. split; [lia|]. auto.
Qed.
Lemma open_loop_tries env : forall n i j, (i <= j < i + n)%nat -> at_open (env j) = true -> at_ping (env j) = true ->
  (forall k, (i <= k < j)%nat -> at_done (env k) = false) -> exists k, (i <= k <= j)%nat /\ snd (open_loop n i env) = DbOk k.
Proof.
  induction n as [|n IH]; intros i j L A B D; [lia|]. cbn [open_loop]. unfold open_and_test.
  destruct (at_open (env i)) eqn:A1; [destruct (at_ping (env i)) eqn:B1|].
  - exists i. split; [lia|reflexivity].
  - assert (i <> j) by (intros ->; congruence). rewrite D by lia. destruct (IH (S i) j ltac:(lia) A B) as (k & K1 & K2); [intros; apply D; lia|].
    destruct (open_loop n (S i) env) as [es' r]. exists k. split; [lia|exact K2].
  - assert (i <> j) by (intros ->; congruence). rewrite D by lia. destruct (IH (S i) j ltac:(lia) A B) as (k & K1 & K2); [intros; apply D; lia|].
    destruct (open_loop n (S i) env) as [es' r]. exists k. split; [lia|exact K2].
Qed.
Lemma opened env es j : robust_open env = (es, DbOk j) -> (j < 300)%nat /\ at_ping (env j) = true /\
  (exists es0, es = es0 ++ [HOpened j; HPinged j; HConfigured j]) /\
  ~ In (HClosed j) es /\ (forall k, In (HOpened k) es -> k = j \/ In (HClosed k) es) /\ (forall k, In (HConfigured k) es -> k = j).
Proof.
  intros H. destruct (open_loop_ok env _ _ _ _ H) as (L & A & B & es0 & -> & C1 & C2 & C3). split; [lia|]. split; auto. split; [eauto|].
  split; [|split].
  - intros I. apply in_app_iff in I. destruct I as [I|[I|[I|[I|[]]]]]; try discriminate. specialize (C3 _ j I ltac:(auto)). lia.
  - intros k I. apply in_app_iff in I. destruct I as [I|[I|[I|[I|[]]]]]; try discriminate; [right; apply in_app_iff; auto|injection I; auto].
  - intros k I. apply in_app_iff in I. destruct I as [I|[I|[I|[I|[]]]]]; try discriminate; [now destruct (C2 k)|injection I; auto].
Qed.
Lemma not_opened env es r : robust_open env = (es, r) -> (forall j, r <> DbOk j) ->
  (forall k, In (HOpened k) es -> In (HClosed k) es) /\ (forall k, ~ In (HConfigured k) es) /\
  (r = DbFailed -> forall k, (k < 300)%nat -> at_open (env k) && at_ping (env k) = false) /\
  (r = DbCancelled -> exists k, at_done (env k) = true /\ forall m, (k < m)%nat -> ~ In (HOpened m) es).
Proof.
  intros H N. destruct (open_loop_bad env _ _ _ _ H N) as (A & B & C & D). split; auto. split; auto. split.
  - intros R k L. apply C; auto. split; [apply Nat.le_0_l|exact L].
  - intros R. destruct (D R) as (k & _ & K & M). exists k. split; auto. intros m L I. exact (M m _ L I eq_refl).
Qed.
Lemma tries env j : (j < 300)%nat -> at_open (env j) = true -> at_ping (env j) = true -> (forall k, (k < j)%nat -> at_done (env k) = false) ->
  exists k, (k <= j)%nat /\ snd (robust_open env) = DbOk k.
Proof.
  intros L A B D. destruct (open_loop_tries env 300 0 j) as (k & K & E); auto; [split; [apply Nat.le_0_l|exact L]|intros; apply D; lia|]. exists k. split; [lia|exact E].
Qed.

(** ---- the process ---- *)
Lemma prun_snoc o acts a s : prun o (acts ++ [a]) s = pstep o (prun o acts s) a.
Proof. unfold prun. now rewrite fold_left_app. Qed.
Definition cause_ok (o : ropts) (acts : list paction) (c : mark) : Prop :=
  c = KSignal /\ In PSignal acts \/
  c = KLowDisk /\ ro_action o = LATerminate /\ exists stat, In (PCheck stat) acts /\ storage_low (ro_min o) stat = true.
Definition trace_ok (o : ropts) (tr : list mark) : Prop :=
  ro_otel o = true /\ (exists k, tr = [KOtelShutdown k]) \/ ro_otel o = false /\ tr = [].
(** the marks of a process that is at [pc] *)
Definition marks_at (o : ropts) (acts : list paction) (pc : mpc) (ms : list mark) : Prop :=
  match pc with
  | MNew | MReady | MOpen | MBackend | MStart | MListen => ms = []
  | MWait => ms = [KListening]
  | MCancel => exists c, cause_ok o acts c /\ ms = [KListening; c]
  | MClose => exists c, cause_ok o acts c /\ ms = [KListening; c; KCancelled]
  | MHandover => exists c, cause_ok o acts c /\ ms = [KListening; c; KCancelled; KBackendClosed]
  | MAppClose => exists c h, cause_ok o acts c /\ ms = [KListening; c; KCancelled; KBackendClosed; KHandover h]
  | MChan | MOtel => exists c h, cause_ok o acts c /\ ms = [KListening; c; KCancelled; KBackendClosed; KHandover h; KAppClosed]
  | MMetrics => exists c h tr, cause_ok o acts c /\ trace_ok o tr /\ ms = [KListening; c; KCancelled; KBackendClosed; KHandover h; KAppClosed] ++ tr
  | MGone => ~ In KMetricsDown ms /\ (In (KExit 0) ms -> exists c h tr, cause_ok o acts c /\ trace_ok o tr /\
               ms = [KListening; c; KCancelled; KBackendClosed; KHandover h; KAppClosed] ++ tr ++ [KExit 0])
  end.
Definition late (pc : mpc) : bool := match pc with MOtel | MMetrics | MGone => true | _ => false end.
Record PrI (o : ropts) (acts : list paction) (s : proc) : Prop := {
  Pr_marks : marks_at o acts (p_pc s) (p_marks s);
  Pr_sig : p_sig s = true -> In PSignal acts;
  Pr_disk : ds_buffer (p_disk s) = true \/ ds_phase (p_disk s) = DSending ->
     ro_action o = LATerminate /\ exists stat, In (PCheck stat) acts /\ storage_low (ro_min o) stat = true;
  Pr_closed : late (p_pc s) = false -> ds_closed (p_disk s) = false /\ ds_panicked (p_disk s) = false }.
Lemma cause_mono o acts a c : cause_ok o acts c -> cause_ok o (acts ++ [a]) c.
Proof. intros [[H I]|(H & A & st & I & L)]; [left|right]; split; auto; [apply in_app_iff; auto|]. split; auto. exists st. split; auto. apply in_app_iff; auto. Qed.
Lemma marks_mono o acts a pc ms : marks_at o acts pc ms -> marks_at o (acts ++ [a]) pc ms.
Proof.
  destruct pc; cbn [marks_at]; auto.
  - intros (c & H & E). exists c. split; auto. now apply cause_mono.
  - intros (c & H & E). exists c. split; auto. now apply cause_mono.
  - intros (c & H & E). exists c. split; auto. now apply cause_mono.
  - intros (c & h & H & E). exists c, h. split; auto. now apply cause_mono.
  - intros (c & h & H & E). exists c, h. split; auto. now apply cause_mono.
  - intros (c & h & H & E). exists c, h. split; auto. now apply cause_mono.
  - intros (c & h & tr & H & T & E). exists c, h, tr. split; auto. now apply cause_mono.
  - intros [A B]. split; auto. intros I. destruct (B I) as (c & h & tr & H & T & E). exists c, h, tr. split; auto. now apply cause_mono.
Qed.
Lemma no_exit0 o acts pc ms l : marks_at o acts pc ms -> pc <> MGone -> ~ In (KExit 0) l -> ~ In KMetricsDown l -> marks_at o acts MGone (ms ++ l).
Proof.
  intros M N L1 L2. assert (A : ~ In (KExit 0) ms /\ ~ In KMetricsDown ms).
  { destruct pc; cbn [marks_at] in M; try congruence; subst; try (split; intros []; fail).
    - split; intros [I|[]]; discriminate.
    - destruct M as (c & [[-> _]|[-> _]] & ->); split; intros I; cbn in I; intuition discriminate.
    - destruct M as (c & [[-> _]|[-> _]] & ->); split; intros I; cbn in I; intuition discriminate.
    - destruct M as (c & [[-> _]|[-> _]] & ->); split; intros I; cbn in I; intuition discriminate.
    - destruct M as (c & h & [[-> _]|[-> _]] & ->); split; intros I; cbn in I; intuition discriminate.
    - destruct M as (c & h & [[-> _]|[-> _]] & ->); split; intros I; cbn in I; intuition discriminate.
    - destruct M as (c & h & [[-> _]|[-> _]] & ->); split; intros I; cbn in I; intuition discriminate.
    - destruct M as (c & h & tr & [[-> _]|[-> _]] & [[_ [k ->]]|[_ ->]] & ->); split; intros I; cbn in I; intuition discriminate. }
  destruct A as [A1 A2]. split; intros I; apply in_app_iff in I; tauto.
Qed.
(** the disk watcher alone *)
Lemma disk_buffer act minimum d a : let d' := dstep act minimum d a in
  ds_buffer d' = true \/ ds_phase d' = DSending ->
  (ds_buffer d = true \/ ds_phase d = DSending) \/ act = LATerminate /\ exists st, a = DCheck st /\ storage_low minimum st = true.
Proof.
  cbv zeta. destruct d as [ph bu cl ca hn sg rc pa]. destruct a; cbn [dstep ds_phase ds_buffer].
  - destruct ph; cbn; intros [H|H]; try discriminate; auto.
  - destruct ph; cbn; auto. destruct (storage_low minimum stat) eqn:L; cbn; [|intros [H|H]; [auto|discriminate]].
    destruct act; cbn; [intros [H|H]; [auto|discriminate]|intros [H|H]; [auto|discriminate]|]. intros _. right. split; auto. eauto.
  - destruct ph; cbn; auto. destruct ca; cbn; auto. intros [H|H]; [auto|discriminate].
  - destruct bu; cbn; auto.
  - auto.
  - destruct ph; cbn; auto.
Qed.
Lemma disk_open act minimum d a : a <> DClose -> ds_closed d = false -> ds_panicked d = false ->
  ds_closed (dstep act minimum d a) = false /\ ds_panicked (dstep act minimum d a) = false.
Proof.
  destruct d as [ph bu cl ca hn sg rc pa]. cbn [ds_closed ds_panicked]. intros N -> ->. destruct a; cbn [dstep ds_phase ds_buffer]; try congruence.
  - destruct ph; cbn; auto.
  - destruct ph; cbn; auto. destruct (storage_low minimum stat); cbn; auto. destruct act; cbn; auto. unfold send_stop; cbn. destruct bu; cbn; auto.
  - destruct ph; cbn; auto. destruct ca; cbn; auto.
  - destruct bu; cbn; auto. destruct ph; cbn; auto.
  - auto.
Qed.
Lemma PrI_leave o acts x s l : PrI o acts s -> p_pc s <> MGone -> ~ In (KExit 0) l -> ~ In KMetricsDown l -> PrI o (acts ++ [x]) (leave l s).
Proof.
  intros [A B C D] N L1 L2. constructor; cbn [leave p_pc p_marks p_sig p_disk late].
  - apply marks_mono. eapply no_exit0; eauto.
  - intros H. apply in_app_iff. auto.
  - intros H. destruct (C H) as (E & st & I & L). split; auto. exists st. split; auto. apply in_app_iff; auto.
  - discriminate.
Qed.
Lemma PrI_disk o acts x s a : PrI o acts s -> p_pc s <> MGone -> (forall st, a = DCheck st -> x = PCheck st) -> (a = DClose -> p_pc s = MChan) ->
  PrI o (acts ++ [x]) (disk o a s) \/ p_pc s = MChan /\ ds_panicked (p_disk (disk o a s)) = false /\
    PrI o (acts ++ [x]) (goto MOtel [] (disk o a s)) /\ p_pc (disk o a s) = MChan /\ a = DClose.
Proof.
  intros H N X Y. unfold disk. set (d := dstep (ro_action o) (ro_min o) (p_disk s) a).
  assert (J : ds_buffer d = true \/ ds_phase d = DSending -> ro_action o = LATerminate /\ exists stat, In (PCheck stat) (acts ++ [x]) /\ storage_low (ro_min o) stat = true).
  { intros Q. destruct (disk_buffer _ _ _ _ Q) as [Q'|(E & st & F & L)].
    - destruct (Pr_disk _ _ _ H Q') as (E & st & I & L). split; auto. exists st. split; auto. apply in_app_iff; auto.
    - split; auto. exists st. split; auto. apply in_app_iff. right. left. now apply X. }
  destruct (ds_panicked d) eqn:P.
  - left. assert (K : PrI o (acts ++ [x]) (leave [KExit 2] s)) by (apply PrI_leave; auto; intros [Q|[]]; discriminate).
    destruct K as [K1 K2 K3 K4]. constructor; cbn [leave p_pc p_marks p_sig p_disk late] in *; auto. discriminate.
  - assert (G : forall pc, marks_at o acts pc (p_marks s) -> (late pc = false -> ds_closed d = false) ->
                 PrI o (acts ++ [x]) (Proc pc (p_sig s) d (p_serving s) (p_marks s))).
    { intros pc M L. constructor; cbn [p_pc p_marks p_sig p_disk]; auto; [now apply marks_mono|]. intros Q. apply in_app_iff. left. now apply (Pr_sig _ _ _ H). }
    assert (D : a = DClose \/ a <> DClose) by (destruct a; auto; right; discriminate). destruct D as [D|D].
    + right. pose proof (Y D) as Y'. cbn [p_disk p_pc]. split; auto. split; auto. split; [|auto]. unfold goto. cbn [p_pc p_sig p_disk p_serving p_marks].
      rewrite app_nil_r. apply G; [|discriminate]. pose proof (Pr_marks _ _ _ H) as M. rewrite Y' in M. exact M.
    + left. apply G; [exact (Pr_marks _ _ _ H)|]. intros L. destruct (Pr_closed _ _ _ H L) as [C1 C2].
      exact (proj1 (disk_open (ro_action o) (ro_min o) _ _ D C1 C2)).
Qed.
Lemma PrI_goto o acts x s pc l : PrI o acts s -> marks_at o (acts ++ [x]) pc (p_marks s ++ l) -> (late pc = false -> late (p_pc s) = false) -> PrI o (acts ++ [x]) (goto pc l s).
Proof.
  intros [A B C D] M L. constructor; cbn [goto p_pc p_marks p_sig p_disk]; auto.
  - intros H. apply in_app_iff. auto.
  - intros H. destruct (C H) as (E & st & I & Q). split; auto. exists st. split; auto. apply in_app_iff; auto.
Qed.
Lemma disk_same o a s : a <> DClose -> ds_closed (p_disk s) = false -> ds_panicked (p_disk s) = false ->
  disk o a s = Proc (p_pc s) (p_sig s) (dstep (ro_action o) (ro_min o) (p_disk s) a) (p_serving s) (p_marks s).
Proof. intros N A B. unfold disk. destruct (disk_open (ro_action o) (ro_min o) _ _ N A B) as [_ ->]. reflexivity. Qed.
Lemma PrI_main o acts s ok : PrI o acts s -> PrI o (acts ++ [PStep ok]) (main_step o s ok).
Proof.
  intros H. unfold main_step. pose proof (Pr_marks _ _ _ H) as M.
  assert (NE : ~ In (KExit 0) [KExit 1] /\ ~ In KMetricsDown [KExit 1]) by (split; intros [Q|[]]; discriminate). destruct NE as [NE1 NE2].
  destruct (p_pc s) eqn:PC; cbn [marks_at] in M.
  - destruct ok; [apply PrI_goto; auto; [cbn; now rewrite M|rewrite PC; auto]|apply PrI_leave; auto; congruence].
  - destruct ok; [apply PrI_goto; auto; [cbn; now rewrite M|rewrite PC; auto]|apply PrI_leave; auto; congruence].
  - destruct ok; [apply PrI_goto; auto; [cbn; now rewrite M|rewrite PC; auto]|apply PrI_leave; auto; congruence].
  - destruct ok; [apply PrI_goto; auto; [cbn; now rewrite M|rewrite PC; auto]|apply PrI_leave; auto; congruence].
  - destruct ok; [apply PrI_goto; auto; [cbn; now rewrite M|rewrite PC; auto]|apply PrI_leave; auto; [congruence|intros [Q|[Q|[]]]; discriminate|intros [Q|[Q|[]]]; discriminate]].
  - destruct ok; [|apply PrI_leave; auto; congruence].
    assert (G : PrI o (acts ++ [PStep true]) (goto MWait [KListening] s)) by (apply PrI_goto; auto; [cbn; now rewrite M|rewrite PC; auto]).
    destruct G as [G1 G2 G3 G4]. constructor; auto.
  - destruct (p_sig s && (ok || negb (ds_buffer (p_disk s)))) eqn:S.
    + apply andb_true_iff in S. destruct S as [S _]. apply PrI_goto; auto; [|rewrite PC; auto]. cbn. exists KSignal. split; [|now rewrite M].
      left. split; auto. apply in_app_iff. left. now apply (Pr_sig _ _ _ H).
    + destruct (ds_buffer (p_disk s)) eqn:B.
      * destruct (Pr_closed _ _ _ H ltac:(now rewrite PC)) as [C1 C2].
        assert (PD : PrI o (acts ++ [PStep ok]) (disk o DReceive s)).
        { destruct (PrI_disk o acts (PStep ok) s DReceive H ltac:(congruence) ltac:(discriminate) ltac:(discriminate)) as [Q|(_ & _ & _ & _ & Q)]; [exact Q|discriminate]. }
        rewrite disk_same in * by (auto; discriminate). destruct PD as [D1 D2 D3 D4]. constructor; cbn [goto p_pc p_marks p_sig p_disk] in *; auto.
        -- cbn [marks_at]. exists KLowDisk. split; [|now rewrite M]. right. split; auto. destruct (Pr_disk _ _ _ H (or_introl B)) as (E & st & I & L). split; auto. exists st. split; auto. apply in_app_iff; auto.
        -- intros _. apply D4. now rewrite PC.
      * destruct H as [A1 A2 A3 A4]. constructor; auto; [apply marks_mono; rewrite PC; exact M|intros Q; apply in_app_iff; auto|].
        intros Q. destruct (A3 Q) as (E & st & I & L). split; auto. exists st. split; auto. apply in_app_iff; auto.
  - destruct (Pr_closed _ _ _ H ltac:(now rewrite PC)) as [C1 C2].
    assert (PD : PrI o (acts ++ [PStep ok]) (disk o DCancel s)).
    { destruct (PrI_disk o acts (PStep ok) s DCancel H ltac:(congruence) ltac:(discriminate) ltac:(discriminate)) as [Q|(_ & _ & _ & _ & Q)]; [exact Q|discriminate]. }
    rewrite disk_same in * by (auto; discriminate). destruct PD as [D1 D2 D3 D4]. constructor; cbn [goto p_pc p_marks p_sig p_disk] in *; auto.
    + cbn [marks_at]. destruct M as (c & C & ->). exists c. split; [now apply cause_mono|reflexivity].
  - destruct ok; [|apply PrI_leave; auto; congruence]. apply PrI_goto; auto; [|rewrite PC; auto]. destruct M as (c & C & ->). exists c. split; [now apply cause_mono|reflexivity].
  - apply PrI_goto; auto; [|rewrite PC; auto]. destruct M as (c & C & ->). exists c, ok. split; [now apply cause_mono|reflexivity].
  - destruct ok; [|apply PrI_leave; auto; congruence]. apply PrI_goto; auto; [|rewrite PC; auto]. destruct M as (c & h & C & ->). exists c, h. split; [now apply cause_mono|reflexivity].
  - destruct (PrI_disk o acts (PStep ok) s DClose H ltac:(congruence) ltac:(discriminate) ltac:(auto)) as [Q|(_ & P & Q & E & _)].
    + unfold disk in *. destruct (ds_panicked (dstep (ro_action o) (ro_min o) (p_disk s) DClose)) eqn:P; [exact Q|].
      exfalso. pose proof (Pr_closed _ _ _ Q) as Z. cbn [p_pc p_disk] in Z. rewrite PC in Z. destruct (Z eq_refl) as [Z1 _].
      clear - Z1 P. destruct (p_disk s) as [ph bu cl ca hn sg rc pa]. cbn [dstep] in Z1. destruct ph; cbn in Z1; discriminate.
    + rewrite E. exact Q.
  - destruct M as (c & h & C & M). destruct (ro_otel o) eqn:O.
    + apply PrI_goto; auto; [|discriminate]. cbn. exists c, h, [KOtelShutdown ok]. split; [now apply cause_mono|]. split; [left; eauto|now rewrite M].
    + apply PrI_goto; auto; [|discriminate]. cbn. exists c, h, []. split; [now apply cause_mono|]. split; [right; auto|now rewrite M].
  - destruct H as [A1 A2 A3 A4]. destruct M as (c & h & tr & C & T & M). constructor; cbn [leave p_pc p_marks p_sig p_disk]; try discriminate.
    + cbn. split; [rewrite M; destruct C as [[-> _]|[-> _]]; destruct T as [[_ [k ->]]|[_ ->]]; cbn; intuition discriminate|].
      intros _. exists c, h, tr. split; [now apply cause_mono|]. split; auto. now rewrite M, <- app_assoc.
    + intros Q. apply in_app_iff. auto.
    + intros Q. destruct (A3 Q) as (E & st & I & L). split; auto. exists st. split; auto. apply in_app_iff; auto.
  - destruct H as [A1 A2 A3 A4]. constructor; auto; [apply marks_mono; auto|intros Q; apply in_app_iff; auto|].
    intros Q. destruct (A3 Q) as (E & st & I & L). split; auto. exists st. split; auto. apply in_app_iff; auto.
Qed.
Lemma PrI_stay o acts x s s' : PrI o acts s -> p_pc s' = p_pc s -> p_marks s' = p_marks s -> p_disk s' = p_disk s -> (p_sig s' = true -> p_sig s = true \/ x = PSignal) -> PrI o (acts ++ [x]) s'.
Proof.
  intros [A B C D] E1 E2 E3 E4. constructor; rewrite ?E1, ?E2, ?E3; auto.
  - now apply marks_mono.
  - intros Q. apply in_app_iff. destruct (E4 Q) as [Q'| ->]; [left; auto|right; left; auto].
  - intros H. destruct (C H) as (E & st & I & Q). split; auto. exists st. split; auto. apply in_app_iff; auto.
Qed.
Lemma disk_runs_on o s : disk_runs o s = true -> p_pc s <> MGone.
Proof. unfold disk_runs. destruct (p_pc s); rewrite ?andb_false_r; congruence. Qed.
Lemma PrI_step o acts s x : PrI o acts s -> PrI o (acts ++ [x]) (pstep o s x).
Proof.
  intros H. destruct x; cbn [pstep].
  - now apply PrI_main.
  - assert (NE : ~ In (KExit 0) [KKilled] /\ ~ In KMetricsDown [KKilled]) by (split; intros [Q|[]]; discriminate). destruct NE as [NE1 NE2].
    destruct (p_pc s) eqn:PC; try (apply PrI_leave; auto; congruence); apply (PrI_stay o acts PSignal s); auto; cbn; auto.
  - destruct (disk_runs o s) eqn:R; [|apply (PrI_stay o acts PWake s); auto].
    destruct (PrI_disk o acts PWake s DWake H (disk_runs_on _ _ R) ltac:(discriminate) ltac:(discriminate)) as [Q|(_ & _ & _ & _ & Q)]; [exact Q|discriminate].
  - destruct (disk_runs o s) eqn:R; [|apply (PrI_stay o acts (PCheck stat) s); auto].
    destruct (PrI_disk o acts (PCheck stat) s (DCheck stat) H (disk_runs_on _ _ R) ltac:(congruence) ltac:(discriminate)) as [Q|(_ & _ & _ & _ & Q)]; [exact Q|discriminate].
  - destruct (disk_runs o s) eqn:R; [|apply (PrI_stay o acts PDone s); auto].
    destruct (PrI_disk o acts PDone s DDone H (disk_runs_on _ _ R) ltac:(discriminate) ltac:(discriminate)) as [Q|(_ & _ & _ & _ & Q)]; [exact Q|discriminate].
  - apply (PrI_stay o acts PGrpcStop s); auto; destruct (ds_cancelled _); auto.
  - assert (NE : ~ In (KExit 0) [KExit 1] /\ ~ In KMetricsDown [KExit 1]) by (split; intros [Q|[]]; discriminate). destruct NE as [NE1 NE2].
    destruct (p_pc s) eqn:PC; try (apply (PrI_stay o acts PMetricsFail s); auto; fail); (destruct (ro_metrics o); [apply PrI_leave; auto; congruence|apply (PrI_stay o acts PMetricsFail s); auto]).
Qed.
Lemma prun_PrI o acts : PrI o acts (prun o acts proc_init).
Proof.
  induction acts as [|x acts IH] using rev_ind.
  - constructor; cbn; auto; try discriminate. intros [Q|Q]; discriminate.
  - rewrite prun_snoc. now apply PrI_step.
Qed.

Lemma exit_order o acts : let s := prun o acts proc_init in In (KExit 0) (p_marks s) ->
  exists cause hok tr, p_marks s = [KListening; cause; KCancelled; KBackendClosed; KHandover hok; KAppClosed] ++ tr ++ [KExit 0] /\
    (ro_otel o = true /\ (exists k, tr = [KOtelShutdown k]) \/ ro_otel o = false /\ tr = []) /\
    (cause = KSignal /\ In PSignal acts \/
     cause = KLowDisk /\ ro_action o = LATerminate /\ exists stat, In (PCheck stat) acts /\ storage_low (ro_min o) stat = true).
Proof.
  cbv zeta. intros I. pose proof (Pr_marks _ _ _ (prun_PrI o acts)) as M. set (s := prun o acts proc_init) in *.
  assert (G : p_pc s = MGone).
  { destruct (p_pc s) eqn:PC; auto; exfalso; cbn [marks_at] in M; try (rewrite M in I; cbn in I; intuition discriminate).
    - destruct M as (c & [[-> _]|[-> _]] & M); rewrite M in I; cbn in I; intuition discriminate.
    - destruct M as (c & [[-> _]|[-> _]] & M); rewrite M in I; cbn in I; intuition discriminate.
    - destruct M as (c & [[-> _]|[-> _]] & M); rewrite M in I; cbn in I; intuition discriminate.
    - destruct M as (c & h & [[-> _]|[-> _]] & M); rewrite M in I; cbn in I; intuition discriminate.
    - destruct M as (c & h & [[-> _]|[-> _]] & M); rewrite M in I; cbn in I; intuition discriminate.
    - destruct M as (c & h & [[-> _]|[-> _]] & M); rewrite M in I; cbn in I; intuition discriminate.
    - destruct M as (c & h & tr & [[-> _]|[-> _]] & [[_ [k ->]]|[_ ->]] & M); rewrite M in I; cbn in I; intuition discriminate. }
  rewrite G in M. destruct M as [_ M]. destruct (M I) as (c & h & tr & C & T & E). exists c, h, tr. auto.
Qed.
Lemma metrics_up o acts : ~ In KMetricsDown (p_marks (prun o acts proc_init)).
Proof.
  pose proof (Pr_marks _ _ _ (prun_PrI o acts)) as M. set (s := prun o acts proc_init) in *.
  assert (A : p_pc s = MGone \/ p_pc s <> MGone) by (destruct (p_pc s); auto; right; discriminate). destruct A as [A|A].
  - rewrite A in M. exact (proj1 M).
  - pose proof (no_exit0 o acts (p_pc s) (p_marks s) [] M A (fun x => x) (fun x => x)) as [Q _]. now rewrite app_nil_r in Q.
Qed.
Lemma gone_stays o acts s : p_pc s = MGone -> p_marks (prun o acts s) = p_marks s /\ p_pc (prun o acts s) = MGone.
Proof.
  unfold prun. revert s. induction acts as [|a acts IH]; intros s G; cbn [fold_left]; [auto|].
  assert (E : p_pc (pstep o s a) = MGone /\ p_marks (pstep o s a) = p_marks s).
  { destruct a; cbn [pstep]; unfold main_step, disk_runs; rewrite ?G, ?andb_false_r; auto. destruct (ds_cancelled _); auto. }
  destruct E as [E1 E2]. destruct (IH _ E1) as [F1 F2]. rewrite F1, E2. auto.
Qed.

(** steps of the main goroutine still to do *)
Definition rank (pc : mpc) : nat :=
  match pc with MWait => 8 | MCancel => 7 | MClose => 6 | MHandover => 5 | MAppClose => 4 | MChan => 3 | MOtel => 2 | MMetrics => 1 | MGone => 0 | _ => 9 end.
(** nothing fails and the metrics endpoint stays up *)
Definition benign (a : paction) : bool := match a with PStep ok => ok | PMetricsFail => false | _ => true end.
Definition is_step (a : paction) : bool := match a with PStep _ => true | _ => false end.
Record calm_stop (s : proc) : Prop := {
  cs_up : (rank (p_pc s) <= 8)%nat;
  cs_sig : p_pc s = MWait -> p_sig s = true;
  cs_buffer : ds_buffer (p_disk s) = false;
  cs_phase : ds_phase (p_disk s) <> DSending;
  cs_panic : ds_panicked (p_disk s) = false;
  cs_open : late (p_pc s) = false -> ds_closed (p_disk s) = false;
  cs_exit : p_pc s = MGone -> In (KExit 0) (p_marks s) }.
Lemma quiet_disk o s a : ro_action o <> LATerminate -> calm_stop s -> a <> DClose -> a <> DReceive ->
  let d := dstep (ro_action o) (ro_min o) (p_disk s) a in
  disk o a s = Proc (p_pc s) (p_sig s) d (p_serving s) (p_marks s) /\
  ds_buffer d = false /\ ds_phase d <> DSending /\ ds_panicked d = false /\ ds_closed d = ds_closed (p_disk s).
Proof.
  cbv zeta. intros T [_ _ B P Q _ _] N1 N2. unfold disk. destruct (p_disk s) as [ph bu cl ca hn sg rc pa]. cbn [ds_buffer ds_phase ds_panicked ds_closed] in *. subst bu pa.
  destruct a; cbn [dstep ds_phase ds_buffer ds_closed]; try congruence.
  - destruct ph; cbn; repeat split; auto; discriminate.
  - destruct ph; cbn; try (repeat split; auto; discriminate). destruct (storage_low (ro_min o) stat); cbn; [|repeat split; auto; discriminate].
    destruct (ro_action o); cbn; try congruence; repeat split; auto; discriminate.
  - destruct ph; cbn; try (repeat split; auto; discriminate). destruct ca; cbn; repeat split; auto; discriminate.
  - cbn. repeat split; auto.
Qed.
Lemma calm_stop_step o s a : ro_action o <> LATerminate -> calm_stop s -> benign a = true ->
  calm_stop (pstep o s a) /\ rank (p_pc (pstep o s a)) = (rank (p_pc s) - (if is_step a then 1 else 0))%nat.
Proof.
  intros T H B. pose proof H as [H1 H2 H3 H4 H5 H6 H7].
  assert (DK : forall x, x <> DClose -> x <> DReceive -> disk_runs o s = true -> calm_stop (disk o x s) /\ rank (p_pc (disk o x s)) = rank (p_pc s)).
  { intros x X1 X2 R. destruct (quiet_disk o s x T H X1 X2) as (E & D1 & D2 & D3 & D4). rewrite E. split; [|reflexivity].
    constructor; cbn [p_pc p_sig p_disk p_marks]; auto. intros L. rewrite D4. auto. }
  destruct a; cbn [pstep is_step]; rewrite ?Nat.sub_0_r.
  - cbn [benign] in B. subst ok. unfold main_step. destruct (p_pc s) eqn:PC; cbn [rank] in H1; try lia.
    + rewrite (H2 eq_refl). cbn [andb orb]. split; [|reflexivity]. constructor; cbn [goto p_pc p_sig p_disk p_marks rank late] in *; auto; try discriminate; try lia.
    + destruct (quiet_disk o s DCancel T H ltac:(discriminate) ltac:(discriminate)) as (E & D1 & D2 & D3 & D4). rewrite E. split; [|reflexivity].
      constructor; cbn [goto p_pc p_sig p_disk p_marks rank late] in *; auto; try discriminate; try lia.
    + split; [|reflexivity]. constructor; cbn [goto p_pc p_sig p_disk p_marks rank late] in *; auto; try discriminate; try lia.
    + split; [|reflexivity]. constructor; cbn [goto p_pc p_sig p_disk p_marks rank late] in *; auto; try discriminate; try lia.
    + split; [|reflexivity]. constructor; cbn [goto p_pc p_sig p_disk p_marks rank late] in *; auto; try discriminate; try lia.
    + unfold disk. specialize (H6 eq_refl). destruct (p_disk s) as [ph bu cl ca hn sg rc pa]. cbn [ds_buffer ds_phase ds_panicked ds_closed] in *. subst bu pa cl.
      assert (E : dstep (ro_action o) (ro_min o) (DState ph false false ca hn sg rc false) DClose = DState ph false true ca hn sg rc false) by (destruct ph; try reflexivity; congruence).
      rewrite E. cbn [ds_panicked p_pc]. rewrite PC. split; [|reflexivity].
      constructor; cbn [goto p_pc p_sig p_disk p_marks rank late ds_buffer ds_phase ds_panicked ds_closed] in *; auto; try discriminate; try lia.
    + destruct (ro_otel o); (split; [|reflexivity]); constructor; cbn [goto p_pc p_sig p_disk p_marks rank late] in *; auto; try discriminate; try lia.
    + split; [|reflexivity]. constructor; cbn [leave p_pc p_sig p_disk p_marks rank late] in *; auto; try discriminate; try lia. intros _. apply in_app_iff. right. left. reflexivity.
    + split; [|rewrite PC; reflexivity]. exact H.
  - destruct (p_pc s) eqn:PC; cbn [rank] in H1; try lia; (split; [|cbn; rewrite ?PC; reflexivity]); try exact H;
      constructor; cbn [p_pc p_sig p_disk p_marks]; rewrite ?PC; cbn [rank late]; auto; try discriminate; try lia.
  - destruct (disk_runs o s) eqn:R; [apply DK; auto; discriminate|auto].
  - destruct (disk_runs o s) eqn:R; [apply DK; auto; discriminate|auto].
  - destruct (disk_runs o s) eqn:R; [apply DK; auto; discriminate|auto].
  - destruct (ds_cancelled (p_disk s)); split; auto. constructor; auto.
  - discriminate.
Qed.
Lemma stop_finishes o acts rest : ro_action o <> LATerminate -> p_pc (prun o acts proc_init) = MWait ->
  p_sig (prun o acts proc_init) = true ->
  forallb benign rest = true -> (8 <= List.length (filter is_step rest))%nat ->
  In (KExit 0) (p_marks (prun o (acts ++ rest) proc_init)).
Proof.
  intros T W S B L. unfold prun. rewrite fold_left_app. fold (prun o acts proc_init). fold (prun o rest (prun o acts proc_init)).
  pose proof (prun_PrI o acts) as P. set (s := prun o acts proc_init) in *.
  assert (Q : calm_stop s).
  { destruct P as [_ _ P3 P4]. rewrite W in P4. destruct (P4 eq_refl) as [P5 P6]. constructor; rewrite ?W; cbn [rank late]; auto; try discriminate.
    - destruct (ds_buffer (p_disk s)); auto. destruct (P3 (or_introl eq_refl)). congruence.
    - intros E. destruct (P3 (or_intror E)). congruence. }
  assert (G : forall rest s, calm_stop s -> forallb benign rest = true -> calm_stop (prun o rest s) /\ rank (p_pc (prun o rest s)) = (rank (p_pc s) - List.length (filter is_step rest))%nat).
  { clear - T. induction rest as [|a rest IH]; intros s Q B; [split; [exact Q|cbn; lia]|].
    cbn [forallb] in B. apply andb_true_iff in B. destruct B as [B1 B2]. destruct (calm_stop_step o s a T Q B1) as [Q' R].
    destruct (IH _ Q' B2) as [Q2 R2]. split; [exact Q2|]. unfold prun in *. cbn [fold_left filter]. rewrite R2, R. destruct (is_step a); cbn [List.length]; lia. }
  destruct (G rest s Q B) as [Q2 R2]. apply (cs_exit _ Q2). rewrite W in R2. cbn [rank] in R2.
  destruct (p_pc (prun o rest s)); cbn [rank] in R2; auto; lia.
Qed.

(** ---- statements of P_Run.v ---- *)
Lemma open_loop_bound env : forall n i k, In (HOpened k) (fst (open_loop n i env)) -> (i <= k < i + n)%nat.
Proof.
  induction n as [|n IH]; intros i k; cbn [open_loop]; [intros []|]. unfold open_and_test.
  specialize (IH (S i) k). destruct (open_loop n (S i) env) as [es r]. cbn [fst] in IH.
  destruct (at_open (env i)); [destruct (at_ping (env i))|]; try destruct (at_done (env i)); cbn; intros H;
    repeat match goal with H : _ \/ _ |- _ => destruct H as [H|H] | H : HOpened _ = HOpened _ |- _ => injection H as <- | H : False |- _ => destruct H end; try discriminate; try lia; specialize (IH H); lia.
Qed.
Lemma open_spec env es r : robust_open env = (es, r) ->
  (forall k, In (HOpened k) es -> (k < 300)%nat) /\
  match r with
  | DbOk j =>
      at_ping (env j) = true /\ (exists es0, es = es0 ++ [HOpened j; HPinged j; HConfigured j]) /\ ~ In (HClosed j) es /\
      (forall k, In (HOpened k) es -> k = j \/ In (HClosed k) es) /\ (forall k, In (HConfigured k) es -> k = j)
  | DbFailed =>
      (forall k, In (HOpened k) es -> In (HClosed k) es) /\ forall k, (k < 300)%nat -> at_open (env k) && at_ping (env k) = false
  | DbCancelled =>
      (forall k, In (HOpened k) es -> In (HClosed k) es) /\
      exists k, at_done (env k) = true /\ forall m, (k < m)%nat -> ~ In (HOpened m) es
  end.
Proof.
  intros H. split.
  { intros k I. assert (B := open_loop_bound env 300 0 k). unfold robust_open in H. rewrite H in B. specialize (B I). destruct B as [_ B]. exact B. }
  destruct r as [j| |].
  - destruct (opened _ _ _ H) as (_ & A). exact A.
  - destruct (not_opened _ _ _ H) as (A & _ & B & _); [discriminate|]. auto.
  - destruct (not_opened _ _ _ H) as (A & _ & _ & B); [discriminate|]. auto.
Qed.
Lemma signal_finishes o acts rest : ro_action o <> LATerminate -> p_pc (prun o acts proc_init) = MWait ->
  forallb benign rest = true -> (8 <= List.length (filter is_step rest))%nat ->
  In (KExit 0) (p_marks (prun o (acts ++ PSignal :: rest) proc_init)).
Proof.
  intros T W B L. replace (acts ++ PSignal :: rest) with ((acts ++ [PSignal]) ++ rest) by now rewrite <- app_assoc.
  apply stop_finishes; auto; rewrite prun_snoc; cbn [pstep]; rewrite W; reflexivity.
Qed.
Lemma prun_app o a b s : prun o (a ++ b) s = prun o b (prun o a s).
Proof. unfold prun. apply fold_left_app. Qed.
Lemma prun_gone o acts rest s ms : p_pc (prun o acts s) = MGone -> p_marks (prun o acts s) = ms -> p_marks (prun o (acts ++ rest) s) = ms.
Proof. intros G <-. rewrite prun_app. apply gone_stays. exact G. Qed.
Lemma close_fails o rest : p_marks (prun o ([PStep true; PStep true; PStep true; PStep true; PStep true; PStep true] ++ [PSignal; PStep true; PStep true; PStep false] ++ rest) proc_init) =
  [KListening; KSignal; KCancelled; KExit 1].
Proof. rewrite app_assoc. apply prun_gone; reflexivity. Qed.
Lemma start_killed o n rest : (n < 6)%nat -> p_marks (prun o (repeat (PStep true) n ++ PSignal :: rest) proc_init) = [KKilled].
Proof.
  intros L. change (PSignal :: rest) with ([PSignal] ++ rest). rewrite app_assoc.
  do 6 (destruct n as [|n]; [apply prun_gone; reflexivity|]). lia.
Qed.
Lemma start_leaks o n rest : (n < 6)%nat -> let ms := p_marks (prun o (repeat (PStep true) n ++ PStep false :: rest) proc_init) in
  In (KExit 1) ms /\ ~ In KAppClosed ms /\ (In KBackendClosed ms <-> n = 4%nat).
Proof.
  intros L. cbv zeta. change (PStep false :: rest) with ([PStep false] ++ rest). rewrite app_assoc.
  assert (E : p_marks (prun o ((repeat (PStep true) n ++ [PStep false]) ++ rest) proc_init) = if Nat.eqb n 4 then [KBackendClosed; KExit 1] else [KExit 1]).
  { do 6 (destruct n as [|n]; [apply prun_gone; reflexivity|]). lia. }
  rewrite E. destruct (Nat.eqb_spec n 4); cbn; intuition discriminate.
Qed.
Lemma serving_closed o : let s := prun o ([PStep true; PStep true; PStep true; PStep true; PStep true; PStep true] ++ [PSignal; PStep true; PStep true; PStep true]) proc_init in
  p_serving s = true /\ In KBackendClosed (p_marks s).
Proof. vm_compute. tauto. Qed.
Lemma metrics_kill o acts rest : ro_metrics o = true -> p_pc (prun o acts proc_init) <> MGone ->
  p_marks (prun o (acts ++ PMetricsFail :: rest) proc_init) = p_marks (prun o acts proc_init) ++ [KExit 1].
Proof.
  intros M N. change (PMetricsFail :: rest) with ([PMetricsFail] ++ rest). rewrite app_assoc.
  assert (E : prun o (acts ++ [PMetricsFail]) proc_init = leave [KExit 1] (prun o acts proc_init)).
  { rewrite prun_snoc. cbn [pstep]. rewrite M. destruct (p_pc (prun o acts proc_init)); auto; congruence. }
  apply prun_gone; rewrite E; reflexivity.
Qed.
Lemma tls_configured o certs t : setup_tls o certs = Some t <->
  (op_tls o = false /\ t = None) \/
  (op_tls o = true /\ certs = true /\ exists name v, In (name, v) [("tls10", 0x0301); ("tls11", 0x0302); ("", 0x0303); ("tls12", 0x0303); ("tls13", 0x0304)]%string /\ op_version o = txt name /\
    t = Some (TlsSetup v (if 0 <? op_cache o then Some (op_cache o) else None))).
Proof.
  rewrite setup_tls_spec. split.
  - intros [A|(A & B & v & I & E)]; [auto|]. right. split; auto. split; auto. destruct I as [I|[I|[I|[I|[I|[]]]]]]; injection I as I <-;
    [exists "tls10"%string|exists "tls11"%string|exists ""%string|exists "tls12"%string|exists "tls13"%string]; eexists; (split; [|split; [symmetry; exact I|exact E]]); cbn; auto 10.
  - intros [A|(A & B & name & v & I & N & E)]; [auto|]. right. split; auto. split; auto. exists v. split; auto. rewrite N.
    destruct I as [I|[I|[I|[I|[I|[]]]]]]; injection I as <- <-; cbn; auto 10.
Qed.
Lemma refused_action o certs e d : check_action (op_action o) = None -> new_server o certs e d = ([], BFailed).
Proof. intros H. unfold new_server. now rewrite H. Qed.
Lemma refused_tls o certs e d : setup_tls o certs = None -> d_init d = None -> d_update d = None -> new_server o certs e d = ([], BFailed).
Proof.
  intros H I U. unfold new_server. destruct (check_action _); [|reflexivity]. rewrite H. unfold boot. rewrite I, U. unfold finish_boot. cbn. now rewrite andb_false_r.
Qed.
Lemma refused_lost o certs e d addr cl : check_action (op_action o) <> None -> setup_tls o certs = None -> addr <> [] ->
  d_init d = Some (addr, cl) -> existing_state d = false -> new_server o certs e d = ([set_init None d], BFailed).
Proof.
  intros A T N I X. unfold new_server. destruct (check_action _); [|congruence]. rewrite T. unfold boot. rewrite I, X.
  destruct addr; [congruence|]. unfold finish_boot. cbn [be_config]. rewrite andb_false_r. reflexivity.
Qed.
Lemma restart_default o certs e d addr cl : check_action (op_action o) <> None -> setup_tls o certs <> None -> be_config e = true -> be_app e = true ->
  d_init d = Some (addr, cl) -> existing_state d = false ->
  exists self, snd (new_server o certs e (set_init None d)) = BStarted self [default_address] /\ ni_addr self = default_address.
Proof.
  intros A T C P I X. unfold new_server. destruct (check_action _); [|congruence]. destruct (setup_tls o certs); [|congruence].
  destruct (no_state d X) as (X1 & X2 & _).
  unfold boot. cbn [d_init set_init d_update]. rewrite X1. unfold finish_boot, app_new. cbn [be_config be_app d_info set_init]. rewrite C, P. cbn [andb negb].
  rewrite X2. cbn. eexists. split; reflexivity.
Qed.

(** ---- requests are accepted only between the end of the start-up and the end of the process ---- *)
Definition starting_pc (pc : mpc) : option nat :=
  match pc with MNew => Some 0%nat | MReady => Some 1%nat | MOpen => Some 2%nat | MBackend => Some 3%nat | MStart => Some 4%nat | MListen => Some 5%nat | _ => None end.
Definition main_steps (acts : list paction) : list bool := flat_map (fun a => match a with PStep ok => [ok] | _ => [] end) acts.
Record served (acts : list paction) (s : proc) : Prop := {
  sv_listening : p_serving s = true -> In KListening (p_marks s);
  sv_gone : p_pc s = MGone -> p_serving s = false;
  sv_starting : forall n, starting_pc (p_pc s) = Some n -> p_serving s = false /\ main_steps acts = repeat true n;
  sv_started : starting_pc (p_pc s) = None -> p_pc s <> MGone -> firstn 6 (main_steps acts) = repeat true 6 }.
Lemma main_steps_app l1 l2 : main_steps (l1 ++ l2) = main_steps l1 ++ main_steps l2.
Proof. apply flat_map_app. Qed.
Lemma firstn_more {A} (l x y : list A) n : firstn n l = x -> List.length x = n -> firstn n (l ++ y) = x.
Proof.
  intros <- L. rewrite firstn_app. replace (n - List.length l)%nat with 0%nat; [rewrite firstn_O, app_nil_r; reflexivity|].
  rewrite firstn_length in L. lia.
Qed.
Lemma served_leave acts ms s : served acts (leave ms s).
Proof. constructor; unfold leave; cbn; try discriminate; congruence. Qed.
Lemma served_disk acts o a s : served acts s -> served acts (disk o a s).
Proof.
  intros H. unfold disk. destruct (ds_panicked _); [apply served_leave|]. destruct H. constructor; auto.
Qed.
Lemma served_snoc acts a s : (match a with PStep _ => starting_pc (p_pc s) = None | _ => True end) -> served acts s -> served (acts ++ [a]) s.
Proof.
  intros N [A B C D]. constructor; auto.
  - intros n Hn. rewrite main_steps_app. destruct a; cbn; rewrite ?app_nil_r; auto. congruence.
  - intros Q G. rewrite main_steps_app. apply firstn_more; auto.
Qed.
Lemma served_goto acts pc ms s t : served acts s -> p_pc s <> MGone -> starting_pc (p_pc s) = None ->
  (p_serving t = true -> p_serving s = true /\ p_marks t = p_marks s) -> pc <> MGone -> starting_pc pc = None -> served acts (goto pc ms t).
Proof.
  intros [A B C D] G N T G2 N2. constructor; unfold goto; cbn; auto; try congruence.
  intros H. apply in_app_iff. destruct (T H) as [T1 T2]. rewrite T2. auto.
Qed.
Lemma disk_keeps o a s : p_serving (disk o a s) = true -> p_serving s = true /\ p_marks (disk o a s) = p_marks s.
Proof. unfold disk. destruct (ds_panicked _); cbn; [discriminate|auto]. Qed.
Lemma served_start acts s ok ms pc n : served acts s -> starting_pc (p_pc s) = Some n -> starting_pc pc = Some (S n) ->
  served (acts ++ [PStep ok]) (if ok then goto pc [] s else leave ms s).
Proof.
  intros [A B C D] N N'. destruct ok; [|apply served_leave]. destruct (C n N) as [D1 D2].
  constructor; unfold goto; cbn; auto; try congruence.
  - intros k Hk. assert (k = S n) by congruence. subst k. split; [exact D1|]. rewrite main_steps_app, D2. cbn [main_steps flat_map app]. symmetry. apply (repeat_cons n true).
Qed.
Lemma served_step acts o s a : served acts s -> served (acts ++ [a]) (pstep o s a).
Proof.
  intros H. destruct a; cbn [pstep].
  - unfold main_step. destruct (p_pc s) eqn:PC;
    try (eapply served_start; [exact H|rewrite PC; reflexivity|reflexivity]);
    try (assert (H' : served (acts ++ [PStep ok]) s) by (apply served_snoc; [rewrite PC; reflexivity|exact H]));
    try (assert (G : forall pc ms t, (p_serving t = true -> p_serving s = true /\ p_marks t = p_marks s) -> pc <> MGone -> starting_pc pc = None -> served (acts ++ [PStep ok]) (goto pc ms t))
           by (intros pc ms t T G1 G2; apply served_goto with (s := s); auto; rewrite PC; [discriminate|reflexivity]));
    try apply served_leave.
    + destruct ok; [|apply served_leave]. destruct H as [A B C D]. destruct (C 5%nat) as [D1 D2]; [rewrite PC; reflexivity|]. constructor; cbn; try discriminate; auto.
      * intros _. apply in_app_iff. cbn. auto.
      * intros _ _. rewrite main_steps_app, D2. reflexivity.
    + destruct (p_sig s && _); [apply G; [auto|discriminate|reflexivity]|]. destruct (ds_buffer _); [|exact H'].
      apply G; [apply disk_keeps|discriminate|reflexivity].
    + apply G; [apply disk_keeps|discriminate|reflexivity].
    + destruct ok; [apply G; [auto|discriminate|reflexivity]|apply served_leave].
    + apply G; [auto|discriminate|reflexivity].
    + destruct ok; [apply G; [auto|discriminate|reflexivity]|apply served_leave].
    + cbv zeta. destruct (p_pc (disk o DClose s)) eqn:Q; try (apply G; [apply disk_keeps|discriminate|reflexivity]). apply served_disk, H'.
    + destruct (ro_otel o); (apply G; [auto|discriminate|reflexivity]).
    + exact H'.
  - assert (H' : served (acts ++ [PSignal]) s) by (apply served_snoc; [exact Logic.I|exact H]). clear H.
    destruct (p_pc s) eqn:PC; try apply served_leave; try exact H';
    destruct H' as [A B C D]; rewrite PC in C, D; constructor; cbn; rewrite ?PC; try discriminate; auto.
  - assert (H' : served (acts ++ [PWake]) s) by (apply served_snoc; [exact Logic.I|exact H]). destruct (disk_runs o s); auto using served_disk.
  - assert (H' : served (acts ++ [PCheck stat]) s) by (apply served_snoc; [exact Logic.I|exact H]). destruct (disk_runs o s); auto using served_disk.
  - assert (H' : served (acts ++ [PDone]) s) by (apply served_snoc; [exact Logic.I|exact H]). destruct (disk_runs o s); auto using served_disk.
  - assert (H' : served (acts ++ [PGrpcStop]) s) by (apply served_snoc; [exact Logic.I|exact H]). destruct (ds_cancelled _); auto.
    destruct H' as [A B C D]. constructor; cbn; auto; try discriminate. intros n Hn. destruct (C n Hn). auto.
  - assert (H' : served (acts ++ [PMetricsFail]) s) by (apply served_snoc; [exact Logic.I|exact H]). destruct (p_pc s); auto; destruct (ro_metrics o); auto using served_leave.
Qed.
Lemma served_run o acts : served acts (prun o acts proc_init).
Proof.
  induction acts as [|a acts IH] using rev_ind.
  - constructor; cbn; try discriminate; try congruence. intros n [= <-]. auto.
  - rewrite prun_snoc. apply served_step, IH.
Qed.
Lemma running_marks o acts : p_pc (prun o acts proc_init) <> MGone -> forall m, m = KKilled \/ (exists n, m = KExit n) -> ~ In m (p_marks (prun o acts proc_init)).
Proof.
  intros G m Hm I. pose proof (Pr_marks _ _ _ (prun_PrI o acts)) as M. set (s := prun o acts proc_init) in *.
  assert (K : m <> KListening /\ m <> KSignal /\ m <> KLowDisk /\ m <> KCancelled /\ m <> KBackendClosed /\ (forall b, m <> KHandover b) /\ m <> KAppClosed /\ (forall b, m <> KOtelShutdown b)).
  { destruct Hm as [->|[n ->]]; repeat split; discriminate. }
  destruct K as (K1 & K2 & K3 & K4 & K5 & K6 & K7 & K8). clear Hm.
  assert (P : forall h, ~ (KHandover h = m)) by (intros h Q; apply (K6 h); congruence).
  assert (P' : forall h, ~ (KOtelShutdown h = m)) by (intros h Q; apply (K8 h); congruence).
  destruct (p_pc s) eqn:PC; cbn [marks_at] in M; try (rewrite M in I; cbn in I; intuition congruence).
  - destruct M as (c & [[-> _]|[-> _]] & M); rewrite M in I; cbn in I; intuition congruence.
  - destruct M as (c & [[-> _]|[-> _]] & M); rewrite M in I; cbn in I; intuition congruence.
  - destruct M as (c & [[-> _]|[-> _]] & M); rewrite M in I; cbn in I; intuition congruence.
  - destruct M as (c & h & [[-> _]|[-> _]] & M); rewrite M in I; cbn in I; specialize (P h); intuition congruence.
  - destruct M as (c & h & [[-> _]|[-> _]] & M); rewrite M in I; cbn in I; specialize (P h); intuition congruence.
  - destruct M as (c & h & [[-> _]|[-> _]] & M); rewrite M in I; cbn in I; specialize (P h); intuition congruence.
  - destruct M as (c & h & tr & [[-> _]|[-> _]] & [[_ [k ->]]|[_ ->]] & M); rewrite M in I; cbn in I; specialize (P h); try specialize (P' k); intuition congruence.
  - congruence.
Qed.
Lemma serving_facts o acts : p_serving (prun o acts proc_init) = true ->
  In KListening (p_marks (prun o acts proc_init)) /\
  (forall m, m = KKilled \/ (exists n, m = KExit n) -> ~ In m (p_marks (prun o acts proc_init))) /\
  firstn 6 (main_steps acts) = [true; true; true; true; true; true].
Proof.
  intros V. destruct (served_run o acts) as [A B C D]. split; [auto|].
  assert (G : p_pc (prun o acts proc_init) <> MGone) by (intros Q; rewrite (B Q) in V; discriminate).
  split; [apply running_marks, G|].
  apply D; [|exact G]. destruct (starting_pc (p_pc (prun o acts proc_init))) as [n|] eqn:N; [|reflexivity]. destruct (C n eq_refl). congruence.
Qed.
