(** C208: availability in calm periods.
    [at_time cfg sch t]: the state after the first [t] turns of the infinite schedule [sch], any
    interleaving of any number of requests on any number of servers, writes batched, faults
    satisfying [okf], cancellations, crashes (Fair.v, Node.v).
    [calm], [undisturbed], [in_order]: Calm.v. *)
From Coq Require Import List ZArith Bool Lia Arith.
From Verif Require Import Bytes Spec Sql System Prog Backend Limited Api Pool Ledger Batch BatchKine Node Fair Calm CalmProofs Demo.
Import ListNotations.
Open Scope nat_scope.

(** C208.  Whatever happened before: once the database answers - no database call fails from turn [t0] on, nobody
    cancels a waiting write, no server is being closed - every request that arrives is answered, and not with a
    failure: a conditional write is told whether its condition held, a read gets its data unless the
    revision it needs has been compacted away, a lease deletion, a start and a compaction are carried out.  Other
    requests, however many and however they interleave, compactions, and crashes of other
    servers do not matter. *)
Theorem C208_available : forall cfg okf sch t0 t j q, tolerant okf -> (forall t, turn_ok okf (sch t)) ->
  (forall t, (t0 <= t)%nat -> calm (sch t)) -> undisturbed (at_time cfg sch t0) -> (t0 <= t)%nat ->
  sch t = Other (NAsk j q) -> (j < length (n_servers (at_time cfg sch t)))%nat ->
  let pid := n_next (at_time cfg sch t) in
  (forall t', (t < t')%nat -> sch t' <> Other (NCrash j)) -> again sch (fun x => exists f, x = Own pid f) -> batching j sch ->
  exists t' o, (t < t')%nat /\ In (Answered pid o) (n_log (at_time cfg sch t')) /\ in_order (commits (n_log (at_time cfg sch t))) q o.
Proof. exact calm_answered. Qed.
Print Assumptions C208_available.

(** A create request fails because its batch cannot begin; then, from turn 8 on, the database answers;
    a compaction is refused by the empty database, and the create request is tried again. *)
Definition then_calm (t : nat) : turn :=
  match t with
  | 0 => Other NBoot
  | 1 => Other (NAsk 0 (WTxn (request (CreateKey ka v1 0))))
  | 2 => Own 0 NoFault
  | 3 => Other (NBatch 0 (BTake _))
  | 4 => Other (NBatch 0 (BExecute _ (BFBegin EOther)))
  | 5 => Other (NBatch 0 (BFinish _))
  | 6 | 7 => Own 0 NoFault
  | 8 => Other (NAsk 0 WCompact)
  | 9 | 10 => Own 1 NoFault
  | 11 => Other (NAsk 0 (WTxn (request (CreateKey ka v1 0))))
  | S (S (S (S (S (S (S (S (S (S (S (S t)))))))))))
      => match t mod 4 with
         | 0 => Own 2 NoFault
         | 1 => Other (NBatch 0 (BTake _))
         | 2 => Other (NBatch 0 (BExecute _ BFNone))
         | _ => Other (NBatch 0 (BFinish _))
         end
  end.
Lemma then_at t r : (r < 4)%nat -> exists t', (t <= t')%nat /\
  then_calm t' = match r with 0 => Own 2 NoFault | 1 => Other (NBatch 0 (BTake _)) | 2 => Other (NBatch 0 (BExecute _ BFNone)) | _ => Other (NBatch 0 (BFinish _)) end.
Proof.
  intros L. exists (12 + (4 * t + r))%nat. split; [lia|]. cbn [then_calm Nat.add].
  replace ((4 * t + r) mod 4) with r; [reflexivity|]. rewrite Nat.add_comm, Nat.mul_comm, Nat.mod_add by lia. symmetry. now apply Nat.mod_small.
Qed.
Lemma then_cases (P : turn -> Prop) : P (Own 2 NoFault) -> P (Other (NBatch 0 (BTake _))) -> P (Other (NBatch 0 (BExecute _ BFNone))) -> P (Other (NBatch 0 (BFinish _))) ->
  forall t, (12 <= t)%nat -> P (then_calm t).
Proof.
  intros H0 H1 H2 H3 t L. replace t with (12 + (t - 12))%nat by lia. generalize (t - 12)%nat. clear t L. intros t. cbn [then_calm Nat.add]. destruct (t mod 4) as [|[|[|m]]]; auto.
Qed.
Example C208_nonvacuous : tolerant Prog.any_fault /\ (forall t, turn_ok Prog.any_fault (then_calm t)) /\
  (forall t, (8 <= t)%nat -> calm (then_calm t)) /\ undisturbed (at_time cfg0 then_calm 8) /\
  n_log (at_time cfg0 then_calm 8) = [Asked 0 (WTxn (request (CreateKey ka v1 0))); Answered 0 (ReTxn (Err EOther))] /\
  then_calm 11 = Other (NAsk 0 (WTxn (request (CreateKey ka v1 0)))) /\ length (n_servers (at_time cfg0 then_calm 11)) = 1 /\
  n_next (at_time cfg0 then_calm 11) = 2 /\
  (forall t', (11 < t')%nat -> then_calm t' <> Other (NCrash 0)) /\ again then_calm (fun x => exists f, x = Own 2 f) /\ batching 0 then_calm /\
  skipn 2 (n_log (at_time cfg0 then_calm 30)) = [Asked 1 WCompact; Answered 1 (ReDone (Err ENull)); Asked 2 (WTxn (request (CreateKey ka v1 0)));
    Committed 2 (Entry ka (Put v1 0)); Answered 2 (ReTxn (Ok (success (CreateKey ka v1 0) 1)))].
Proof.
  split; [unfold tolerant, Prog.any_fault; auto|]. split.
  { intros t. destruct (le_lt_dec 12 t) as [L|L]; [apply then_cases; cbn; unfold Prog.any_fault; auto|].
    do 12 (destruct t as [|t]; [cbn; unfold Prog.any_fault, work_ok; cbn; auto; discriminate|]). lia. }
  split.
  { intros t L. destruct (le_lt_dec 12 t) as [L'|L']; [apply then_cases; cbn; auto|]. do 8 (destruct t as [|t]; [lia|]). do 4 (destruct t as [|t]; [cbn; auto|]). lia. }
  split.
  { intros [|[|j]] b N; vm_compute in N; try discriminate. injection N as <-. split; [reflexivity|]. intros [|[|i]] jb N; cbn in N; try discriminate. injection N as <-. cbn. discriminate. }
  split; [vm_compute; reflexivity|]. split; [reflexivity|]. split; [vm_compute; reflexivity|]. split; [vm_compute; reflexivity|]. split.
  { intros t L. apply then_cases with (t := t); try discriminate. lia. }
  split. { intros t. destruct (then_at t 0) as (t' & A & B); [lia|]. exists t'. eauto. }
  split; [split; [|split]|].
  - intros t. destruct (then_at t 1) as (t' & A & B); [lia|]. exists t'. auto.
  - intros t. destruct (then_at t 2) as (t' & A & B); [lia|]. exists t'. eauto.
  - intros t. destruct (then_at t 3) as (t' & A & B); [lia|]. exists t'. auto.
  - vm_compute. reflexivity.
Qed.
