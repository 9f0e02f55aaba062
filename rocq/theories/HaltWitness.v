(** Concrete runs of Halt.v. *)
From Coq Require Import List ZArith Bool Lia Arith.
From Verif Require Import Bytes Spec Sql System Prog Backend Watch Ttl Poller Halt HaltProofs Demo.
From Verif Require Import Watch Ttl Poller Halt.
Import ListNotations.
Open Scope Z_scope.

(** Everything is under way when Stop is called: a run of compaction has begun, the expiry
    goroutine has read the lease of b and is inside Watch, a timer is due and its deletion has
    been sent, the poll loop has fetched a batch. *)
Definition busy_prefix : list haction :=
  [HT (TRev NoFault); HT (TList NoFault); HT TGroup; HT TWatch; HT (TCheck NoFault);
   HTickC; HCall NoFault; HNotify 8; HT (TTime 31000000000); HSend 0; HStop].
Definition closing (k : nat) : haction :=
  match (k mod 16)%nat with
  | 0%nat => HLoop BDone (FailBefore ECanceled) | 1%nat => HCall (FailBefore ECanceled) | 2%nat => HEndRun | 3%nat => HDoneC
  | 4%nat => HT (TRev (FailBefore ECanceled)) | 5%nat => HT (TList (FailBefore ECanceled)) | 6%nat => HT TGroup | 7%nat => HT TWatch
  | 8%nat => HT (TCheck (FailBefore ECanceled)) | 9%nat => HT (TQuery (FailBefore ECanceled)) | 10%nat => HT TFinish | 11%nat => HT (TRecv [])
  | 12%nat => HAfter | 13%nat => HReturn | _ => HTickP
  end.
Definition demo_start : hstate := hstart demo 0 (repeat 0 8).
Definition halting (t : nat) : haction :=
  if (t <? 11)%nat then nth t busy_prefix HTickP else closing (t - 11).
Lemma halting_at k r : (r < 16)%nat -> halting (11 + (16 * k + r)) = closing r.
Proof.
  intros L. unfold halting. destruct (Nat.ltb_spec (11 + (16 * k + r)) 11); [lia|]. replace (11 + (16 * k + r) - 11)%nat with (r + k * 16)%nat by lia.
  unfold closing. rewrite Nat.mod_add by lia. reflexivity.
Qed.
Lemma halting_often (P : haction -> Prop) r : (r < 16)%nat -> P (closing r) -> often (fun t => P (halting t)).
Proof. intros L H t. exists (11 + (16 * t + r))%nat. split; [lia|]. rewrite halting_at; auto. Qed.
Lemma closing_cases (P : haction -> Prop) : (forall r, (r < 16)%nat -> P (closing r)) -> forall k, P (closing k).
Proof.
  intros H k. assert (E : closing k = closing (k mod 16)) by (unfold closing; rewrite Nat.mod_mod by lia; reflexivity). rewrite E. apply H. apply Nat.mod_upper_bound. lia.
Qed.
Lemma closing_no_tick k : closing k <> HTickC.
Proof. apply (closing_cases (fun a => a <> HTickC)). intros r L. do 16 (destruct r as [|r]; [discriminate|]). lia. Qed.
Lemma halting_idle k : h_run (hat cfg0 demo_start halting (27 + k)) = None.
Proof.
  induction k as [|k IH]; [vm_compute; reflexivity|]. rewrite Nat.add_succ_r. cbn [hat].
  assert (N : halting (27 + k) <> HTickC). { unfold halting. destruct (Nat.ltb_spec (27 + k) 11); [lia|]. apply closing_no_tick. }
  destruct (halting (27 + k)) eqn:E; try contradiction; try (match goal with |- context [hstep cfg0 ?s ?a] => rewrite (proj1 (run_other cfg0 s a Logic.I)) end; exact IH).
  - cbn [hstep]. now rewrite IH.
  - cbn [hstep]. now rewrite IH.
  - cbn [hstep]. rewrite IH. destruct (h_done _); [reflexivity|exact IH].
Qed.
Lemma halting_fair : fair_halt cfg0 demo_start halting.
Proof.
  unfold fair_halt.
  split; [apply (halting_often (fun a => exists f, a = HLoop BDone f) 0); [lia|eexists; reflexivity]|].
  split; [apply (halting_often (fun a => exists f, a = HCall f) 1); [lia|eexists; reflexivity]|].
  split; [apply (halting_often (fun a => a = HEndRun) 2); [lia|reflexivity]|].
  split; [apply (halting_often (fun a => a = HDoneC) 3); [lia|reflexivity]|].
  split.
  { intros t. exists (11 + (16 * (t + 2) + 4))%nat. split; [lia|]. intros u Lu _ _ _. exists (11 + (16 * (t + 2) + 3))%nat. split; [lia|]. split; [|apply halting_at; lia].
    replace (11 + (16 * (t + 2) + 3))%nat with (27 + (16 * t + 19))%nat by lia. apply halting_idle. }
  split; [apply (halting_often (fun a => exists f, a = HT (TRev f)) 4); [lia|eexists; reflexivity]|].
  split; [apply (halting_often (fun a => exists f, a = HT (TList f)) 5); [lia|eexists; reflexivity]|].
  split; [apply (halting_often (fun a => a = HT TGroup) 6); [lia|reflexivity]|].
  split; [apply (halting_often (fun a => a = HT TWatch) 7); [lia|reflexivity]|].
  split; [apply (halting_often (fun a => exists f, a = HT (TCheck f)) 8); [lia|eexists; reflexivity]|].
  split; [apply (halting_often (fun a => exists f, a = HT (TQuery f)) 9); [lia|eexists; reflexivity]|].
  split; [apply (halting_often (fun a => a = HT TFinish) 10); [lia|reflexivity]|].
  split; [apply (halting_often (fun a => exists js, a = HT (TRecv js)) 11); [lia|eexists; reflexivity]|].
  split; [apply (halting_often (fun a => a = HAfter) 12); [lia|reflexivity]|].
  apply (halting_often (fun a => a = HReturn) 13); [lia|reflexivity].
Qed.
Lemma closing_fails k : forall f, outcome (closing k) = Some f -> f = FailBefore ECanceled.
Proof.
  apply (closing_cases (fun a => forall f, outcome a = Some f -> f = FailBefore ECanceled)). intros r L f.
  do 16 (destruct r as [|r]; [cbn; congruence|]). lia.
Qed.
Lemma halting_stops : (10 < 11)%nat /\ halting 10 = HStop /\ forall t f, (11 <= t)%nat -> outcome (halting t) = Some f -> f = FailBefore ECanceled.
Proof.
  split; [lia|]. split; [reflexivity|]. intros t f L. unfold halting. destruct (Nat.ltb_spec t 11); [lia|]. apply closing_fails.
Qed.
