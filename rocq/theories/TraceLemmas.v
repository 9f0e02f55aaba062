(** Reasoning about the calls a program issues. *)
From Coq Require Import List ZArith Bool Lia.
From Verif Require Import Bytes Spec Sql System Prog Backend Observe SpecLemmas SqlLemmas Sim ProgLemmas.
Import ListNotations.
Open Scope Z_scope.

(** every call of [p] satisfies [P], as long as the faults are as [allow] says *)
Fixpoint issues {A} (allow : call -> fault -> Prop) (P : call -> Prop) (p : prog A) : Prop :=
  match p with
  | Ret _ => True
  | Call c k => P c /\ forall f w, allow c f -> issues allow P (k (snd (sem f c w)))
  end.

Lemma issues_bind {A B} allow P (p : prog A) (g : A -> prog B) :
  issues allow P p -> (forall a, issues allow P (g a)) -> issues allow P (pbind p g).
Proof.
  intros H G. induction p as [a|c k IH]; [apply G|].
  destruct H as [H1 H2]. split; [exact H1|]. intros f w Hf. apply IH, H2, Hf.
Qed.
Lemma issues_rbind {A B} allow P (p : prog (result A)) (g : A -> prog (result B)) :
  issues allow P p -> (forall a, issues allow P (g a)) -> issues allow P (rbind p g).
Proof. intros. unfold rbind. apply issues_bind; auto. intros [a|e]; simpl; auto. Qed.
Lemma issues_retry allow (P : call -> Prop) n c : P c -> issues allow P (with_retry n c).
Proof.
  intros H. induction n as [|n IH]; simpl; auto. split; auto. intros f w Hf.
  destruct (snd (sem f c w)); simpl; auto. destruct n; simpl; auto. destruct (retryable e); auto; exact I.
Qed.
Lemma issues_execute allow (P : call -> Prop) a : P (CExec a) -> issues allow P (d_execute a).
Proof. intros H. apply (issues_retry allow P max_retries (CExec a) H). Qed.
Lemma issues_query allow (P : call -> Prop) c : P c -> issues allow P (d_query c).
Proof. intros H. apply (issues_retry allow P max_retries c H). Qed.
Lemma issues_calls {A} allow P (p : prog A) : issues allow P p -> forall sched w,
  faults_ok allow p sched w -> Forall P (calls p sched w).
Proof.
  induction p as [a|c k IH]; simpl; auto. intros [H1 H2] [|[env f] sched] w; simpl; auto.
  intros [F1 F2]. constructor; auto.
Qed.

(** the same, tracking the state *)
Fixpoint emits {A} (okf : fault -> Prop) (P : call -> Prop) (p : prog A) (Q : world -> A -> Prop) (w : world) : Prop :=
  match p with
  | Ret a => Q w a
  | Call c k => P c /\ forall w1, wsteps w w1 -> call_ok (snd w1) c /\
      forall f, okf f -> emits okf P (k (snd (sem f c w1))) Q (fst (sem f c w1))
  end.
Lemma emits_wp {A} okf P (p : prog A) Q w : wp okf p Q w -> issues (fun _ f => okf f) P p -> emits okf P p Q w.
Proof.
  revert w. induction p as [a|c k IH]; simpl; auto. intros w W [H1 H2]. split; auto.
  intros w1 S. destruct (W w1 S). split; auto.
Qed.
Lemma emits_mono {A} okf P (p : prog A) (Q Q' : world -> A -> Prop) w :
  (forall w a, Q w a -> Q' w a) -> emits okf P p Q w -> emits okf P p Q' w.
Proof.
  intros H. revert w. induction p as [a|c k IH]; simpl; auto. intros w [K0 K]. split; auto.
  intros w1 S. destruct (K w1 S). split; auto.
Qed.
Lemma emits_bind {A B} okf P (p : prog A) (g : A -> prog B) Q w :
  emits okf P p (fun w' a => emits okf P (g a) Q w') w -> emits okf P (pbind p g) Q w.
Proof.
  revert w. induction p as [a|c k IH]; [exact (fun w H => H)|]. intros w [K0 K]. split; [exact K0|].
  intros w1 S. destruct (K w1 S) as [K1 K2]. split; [exact K1|]. intros f Hf. apply IH, K2, Hf.
Qed.
Lemma emits_rbind {A B} okf P (p : prog (result A)) (g : A -> prog (result B)) Q w :
  emits okf P p (fun w' r => match r with Ok a => emits okf P (g a) Q w' | Err e => Q w' (Err e) end) w ->
  emits okf P (rbind p g) Q w.
Proof.
  intros. unfold rbind. apply emits_bind. eapply emits_mono; [|apply H]. intros w' [a|e]; simpl; auto.
Qed.
Lemma emits_calls {A} okf P (p : prog A) Q : forall sched w,
  emits okf P p Q w -> fair p sched w -> all_faults okf sched -> Forall P (calls p sched w).
Proof.
  induction p as [a|c k IH]; intros sched w W F O; simpl; auto.
  destruct sched as [|[env f] sched]; auto. destruct W as [W0 W]. cbn [fair] in F. destruct F as [F1 F2].
  inversion O as [|? ? O1 O2]; subst. constructor; auto. eapply IH; eauto. apply W; auto. now apply wsteps_env.
Qed.
