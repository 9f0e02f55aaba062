(** C69: the driver's writes through the batching layer.
    [kstep s a]: one step of batching layer and database (BSubmit: a request hands in
    a write statement; BOther: another connection or server executes a statement);
    [klater s s']: [s'] is later than [s], any schedule, any faults, cancellations and
    closing; [kworld s]: the database and the specification's history; [kreleased s i
    = Some o]: caller [i] returns, with answer [o] = (rows affected, new revision). *)
From Coq Require Import List ZArith Bool Lia.
From Verif Require Import Bytes Spec Sql System Prog Demo Batch BatchProofs BatchKine BatchKineProofs.
Import ListNotations.
Open Scope Z_scope.

(** A write that is answered with success took effect at one moment [w1] between its
    submission and its answer, and the answer is the specification's at that moment. *)
Theorem C69_success : forall s a s' i r, kreach s -> client_write a -> kclosed s = false -> i = length (kjobs s) ->
  klater (kstep s (BSubmit _ a)) s' -> kreleased s' i = Some (Some (Done _ r)) ->
  exists w1, wsteps (kworld s) w1 /\ wsteps (wapply w1 a) (kworld s') /\ wreach w1 /\ r = snd (spec_apply (snd w1) a).
Proof. exact kine_linear_spec. Qed.
Print Assumptions C69_success.
(** The contents are those of the logged statements, in order; a write answered with
    failure is not among them, if no commit is reported failed although it happened. *)
Theorem C69_contents : forall w s, wreach w -> klater (batch_init w) s -> kworld s = fold_left wapply (ops_of (klog s)) w.
Proof. exact kine_contents. Qed.
Print Assumptions C69_contents.
Theorem C164_kine : forall w s i e, klater_reported (batch_init w) s -> kreleased s i = Some (Some (Failed _ e)) ->
  ~ In i (executed _ _ (klog s)).
Proof. exact kine_failed. Qed.
Print Assumptions C164_kine.

(** executable form of [kpossible] *)
Definition client_writeb (a : aop) : bool :=
  match a with ACreate k _ _ | AUpdate k _ _ _ | ADelete k _ => negb (beqb k compact_rev_key) | _ => false end.
Definition kpossibleb (s : kbatch) (a : baction aop) : bool :=
  match a with BSubmit _ a => client_writeb a | BOther _ a => allowedb (snd (kworld s)) a | _ => true end.
Lemma kpossibleb_ok s a : kpossibleb s a = true -> kpossible s a.
Proof.
  destruct a as [a| | | | |a| |]; cbn; auto using allowedb_ok.
  destruct a; cbn; try discriminate; rewrite negb_true_iff; intros H ->; rewrite beqb_refl in H; discriminate.
Qed.
Definition reportedb (a : baction aop) : bool := match a with BExecute _ (BFCommit _ took) => negb took | _ => true end.
Fixpoint kplay (l : list (baction aop)) (s : kbatch) : option kbatch :=
  match l with [] => Some s | a :: l => if kpossibleb s a then kplay l (kstep s a) else None end.
Lemma kplay_later l : forall s0 s s', klater s0 s -> kplay l s = Some s' -> klater s0 s'.
Proof.
  induction l as [|a l IH]; cbn [kplay]; intros s0 s s' L H; [injection H as <-; exact L|].
  destruct (kpossibleb s a) eqn:E; [|discriminate]. eapply IH; [|exact H]. apply klater_step; auto using kpossibleb_ok.
Qed.
Lemma kplay_reported l : forall s0 s s', klater_reported s0 s -> forallb reportedb l = true -> kplay l s = Some s' -> klater_reported s0 s'.
Proof.
  induction l as [|a l IH]; cbn [kplay forallb]; intros s0 s s' L F H; [injection H as <-; exact L|].
  apply andb_true_iff in F. destruct F as [F1 F2].
  destruct (kpossibleb s a) eqn:E; [|discriminate]. eapply IH; [|exact F2|exact H]. apply klr_step; auto using kpossibleb_ok.
  destruct a as [a| | |[| | |e took]| |a| |]; cbn in *; auto. destruct took; [discriminate|reflexivity].
Qed.

Definition k_after : list (baction aop) :=
  [BFinish _; BOther _ (ACreate kb v1 0); BExecute _ BFNone; BFinish _; BSubmit _ (ACreate [120%N] v1 0); BTake _; BExecute _ (BFStmt 0 EBusy); BFinish _].
Definition kget (o : option kbatch) : kbatch := match o with Some s => s | None => batch_init init_world end.
(** the racing update, submitted in the same batch, loses: (0, 0); the winner got revision 4 *)
Example C69_nonvacuous : exists s s', kreach s /\ kclosed s = false /\ length (kjobs s) = 2%nat /\
  klater (kstep s (BSubmit _ (AUpdate ka v1 1 0))) s' /\
  kreleased s' 1 = Some (Some (Done _ (1, 4))) /\ kreleased s' 2 = Some (Some (Done _ (0, 0))) /\
  klater_reported (batch_init init_world) s' /\ kreleased s' 3 = Some (Some (Failed _ EBusy)).
Proof.
  set (pre := [BSubmit _ (ACreate ka v1 0); BTake _; BSubmit _ (AUpdate ka v2 1 0); BExecute _ BFNone; BOther _ (ACreate kc v1 0)] : list (baction aop)).
  exists (kget (kplay pre (batch_init init_world))), (kget (kplay (pre ++ BSubmit _ (AUpdate ka v1 1 0) :: k_after) (batch_init init_world))).
  split. { exists init_world. split; [exact reach_init|]. eapply (kplay_later pre); [constructor|]. vm_compute. reflexivity. }
  split; [vm_compute; reflexivity|]. split; [vm_compute; reflexivity|].
  split. { eapply (kplay_later k_after); [constructor|]. vm_compute. reflexivity. }
  split; [vm_compute; reflexivity|]. split; [vm_compute; reflexivity|].
  split. { eapply (kplay_reported (pre ++ BSubmit _ (AUpdate ka v1 1 0) :: k_after)); [constructor| |]; vm_compute; reflexivity. }
  vm_compute. reflexivity.
Qed.

(** Otherwise a write answered with failure may have been executed. *)
Theorem C79_kine_refuted : exists s i e, klater (batch_init init_world) s /\ kreleased s i = Some (Some (Failed _ e)) /\
  In i (executed _ _ (klog s)).
Proof.
  set (pre := [BSubmit _ (ACreate ka v1 0); BSubmit _ (ACreate kb v1 0); BTake _; BExecute _ (BFCommit EBusy true); BFinish _] : list (baction aop)).
  exists (kget (kplay pre (batch_init init_world))), 1%nat, EBusy.
  split. { eapply (kplay_later pre); [constructor|]. vm_compute. reflexivity. }
  split; [vm_compute; reflexivity|]. vm_compute. auto.
Qed.
Print Assumptions C79_kine_refuted.
