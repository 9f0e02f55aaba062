(** C138: every request is answered.
    [at_time cfg sch t]: the state after the first [t] turns of the infinite schedule
    [sch], any interleaving of any number of requests on any number of servers, writes
    batched, faults satisfying [okf], cancellations, crashes (Fair.v, Node.v).
    [again sch P]: turns satisfying [P] come again and again. *)
From Coq Require Import List ZArith Bool Lia Arith.
From Verif Require Import Bytes Spec Sql System Prog Backend Limited Api Pool Ledger Batch BatchKine Node Fair FairProofs Demo.
Import ListNotations.
Open Scope nat_scope.

(** C138.  If the goroutine of a request and the batching goroutine of its server get
    their turns, the request is answered, whatever everybody else does and whatever
    faults its statements suffer, unless its server crashes. *)
Theorem C138_answered : forall cfg okf sch t j q, tolerant okf -> (forall t, turn_ok okf (sch t)) ->
  sch t = Other (NAsk j q) -> (j < length (n_servers (at_time cfg sch t)))%nat ->
  let pid := n_next (at_time cfg sch t) in
  (forall t', (t < t')%nat -> sch t' <> Other (NCrash j)) -> again sch (fun x => exists f, x = Own pid f) -> batching j sch ->
  exists t' o, (t < t')%nat /\ In (Answered pid o) (n_log (at_time cfg sch t')).
Proof. exact asked_answered. Qed.
Print Assumptions C138_answered.

(** A server gets a create request, which is worked on in turn with the batching
    goroutine; every third batch fails, and the database is otherwise busy. *)
Definition busy_turns (t : nat) : turn :=
  match t with
  | 0 => Other NBoot
  | 1 => Other (NAsk 0 (WTxn (request (CreateKey ka v1 0))))
  | S (S t) => match t mod 4 with
               | 0 => Own 0 (FailBefore EBusy)
               | 1 => Other (NBatch 0 (BTake _))
               | 2 => Other (NBatch 0 (BExecute _ (if t mod 3 =? 2 then BFBegin EBusy else BFNone)))
               | _ => Other (NBatch 0 (BFinish _))
               end
  end.
Lemma busy_again r t : (r < 4)%nat -> exists t', (t <= t')%nat /\ busy_turns t' = busy_turns (S (S (4 * t + r))) /\ (4 * t + r) mod 4 = r.
Proof.
  intros L. exists (S (S (4 * t + r))). split; [lia|]. split; [reflexivity|]. rewrite Nat.add_comm, Nat.mul_comm, Nat.mod_add by lia. now apply Nat.mod_small.
Qed.
Example C138_nonvacuous : tolerant Prog.any_fault /\ (forall t, turn_ok Prog.any_fault (busy_turns t)) /\
  busy_turns 1 = Other (NAsk 0 (WTxn (request (CreateKey ka v1 0)))) /\ (0 < length (n_servers (at_time cfg0 busy_turns 1)))%nat /\ n_next (at_time cfg0 busy_turns 1) = 0%nat /\
  (forall t, busy_turns t <> Other (NCrash 0)) /\ again busy_turns (fun x => exists f, x = Own 0 f) /\ batching 0 busy_turns /\
  n_log (at_time cfg0 busy_turns 20) = [Asked 0 (WTxn (request (CreateKey ka v1 0))); Committed 0 (Entry ka (Put v1 0)); Answered 0 (ReTxn (Ok (success (CreateKey ka v1 0) 1)))].
Proof.
  assert (C : forall t, exists f, busy_turns (S (S t)) = match t mod 4 with 0 => Own 0 (FailBefore EBusy) | 1 => Other (NBatch 0 (BTake _)) | 2 => Other (NBatch 0 (BExecute _ f)) | _ => Other (NBatch 0 (BFinish _)) end) by (intros t; eexists; reflexivity).
  split; [unfold tolerant, Prog.any_fault; auto|]. split.
  { intros [|[|t]]; cbn -[Nat.modulo]; auto. { unfold work_ok; cbn. discriminate. }
    destruct (t mod 4) as [|[|[|m]]]; cbn -[Nat.modulo]; unfold Prog.any_fault; auto. destruct (t mod 3 =? 2); cbn; auto. }
  split; [reflexivity|]. split; [cbn; lia|]. split; [reflexivity|]. split.
  { intros [|[|t]]; try discriminate. destruct (C t) as [f ->]. destruct (t mod 4) as [|[|[|m]]]; discriminate. }
  split.
  { intros t. destruct (busy_again 0 t) as (t' & L & E & M); [lia|]. exists t'. split; auto. rewrite E. destruct (C (4 * t + 0)%nat) as [f ->]. rewrite M. eauto. }
  split; [split; [|split]|].
  - intros t. destruct (busy_again 1 t) as (t' & L & E & M); [lia|]. exists t'. split; auto. rewrite E. destruct (C (4 * t + 1)%nat) as [f ->]. now rewrite M.
  - intros t. destruct (busy_again 2 t) as (t' & L & E & M); [lia|]. exists t'. split; auto. rewrite E. destruct (C (4 * t + 2)%nat) as [f ->]. rewrite M. eauto.
  - intros t. destruct (busy_again 3 t) as (t' & L & E & M); [lia|]. exists t'. split; auto. rewrite E. destruct (C (4 * t + 3)%nat) as [f ->]. now rewrite M.
  - vm_compute. reflexivity.
Qed.
