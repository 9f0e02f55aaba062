(** C190: a database that is busy now and then is not noticed by clients.
    [exec p sched w]: the request [p] on database [w]; [sched] says for each attempt at a
    statement what other processes do before it and how it fails (Prog.v).
    [without_busy [] sched]: the same without the attempts refused as busy. *)
From Coq Require Import List ZArith Bool Lia.
From Verif Require Import Bytes Spec Sql System Prog Backend Limited Api Busy BusyProofs Observe Demo.
Import ListNotations.
Open Scope Z_scope.

(** C190.  If no statement is refused 500 times in a row, a request has the same answer and the
    same effect as if the database had never been busy, whatever other processes do in between
    and whatever else goes wrong. *)
Theorem C190_txn : forall cfg t sched w w' a, patient sched ->
  exec (s_txn cfg t) sched w = (w', Some a) -> exec (s_txn cfg t) (without_busy [] sched) w = (w', Some a).
Proof. exact (fun cfg t => absorbs_exec _ (absorbs_txn cfg t)). Qed.
Print Assumptions C190_txn.
Theorem C190_range : forall cfg r sched w w' a, patient sched ->
  exec (s_range cfg r) sched w = (w', Some a) -> exec (s_range cfg r) (without_busy [] sched) w = (w', Some a).
Proof. exact (fun cfg r => absorbs_exec _ (absorbs_range cfg r)). Qed.
Print Assumptions C190_range.
(** A conditional update that loses: each of its three statements is refused 499 times; another
    process writes in between. *)
Definition refused (n : nat) : list (list aop * fault) := repeat ([], FailBefore EBusy) n.
Definition tough : list (list aop * fault) :=
  refused 200 ++ [([ACreate [122%N] v1 0], FailBefore EBusy)] ++ refused 298 ++ [([], NoFault)] ++ refused 499 ++ [([], NoFault)] ++ refused 499 ++ [([], NoFault)].
Fixpoint longest (best cur : nat) (l : list (list aop * fault)) : nat :=
  match l with [] => Nat.max best cur | x :: l => if busy x then longest best (S cur) l else longest (Nat.max best cur) 0 l end.
Lemma longest_ge l : forall b c, (Nat.max b c <= longest b c l)%nat.
Proof. induction l as [|x l IH]; intros b c; cbn [longest]; [lia|]. destruct (busy x); [specialize (IH b (S c))|specialize (IH (Nat.max b c) 0%nat)]; lia. Qed.
Lemma longest_run l : forall b c mid post, l = mid ++ post -> forallb busy mid = true -> (c + length mid <= longest b c l)%nat.
Proof.
  intros b c mid. revert l b c. induction mid as [|x mid IH]; intros l b c post -> F; [pose proof (longest_ge ([] ++ post) b c); cbn [length]; lia|].
  cbn [forallb] in F. apply andb_true_iff in F. destruct F as [F1 F2]. cbn [app longest length]. rewrite F1. specialize (IH (mid ++ post) b (S c) post eq_refl F2). lia.
Qed.
Lemma longest_any pre : forall l b c mid post, l = pre ++ mid ++ post -> forallb busy mid = true -> (length mid <= longest b c l)%nat.
Proof.
  induction pre as [|x pre IH]; intros l b c mid post -> F; [pose proof (longest_run (mid ++ post) b c mid post eq_refl F); cbn [app]; lia|].
  cbn [app longest]. destruct (busy x); apply (IH (pre ++ mid ++ post)) with (post := post); auto.
Qed.
Lemma patientb l : (longest 0 0 l < 500)%nat -> forallb (fun x => match snd x with FailAfter EBusy => false | _ => true end) l = true -> patient l.
Proof.
  intros L F. split.
  - intros pre mid post E B. pose proof (longest_any pre l 0 0 mid post E B). lia.
  - intros env I. rewrite forallb_forall in F. specialize (F _ I). discriminate.
Qed.
Example C190_nonvacuous : patient tough /\ length tough = 1500%nat /\ without_busy [] tough = [([ACreate [122%N] v1 0], NoFault); ([], NoFault); ([], NoFault)] /\
  exec (s_txn cfg0 (update_txn ka v3 1 9)) tough demo = exec (s_txn cfg0 (update_txn ka v3 1 9)) (without_busy [] tough) demo /\
  match snd (exec (s_txn cfg0 (update_txn ka v3 1 9)) tough demo) with Some (Ok x) => tr_succeeded x = false /\ tr_responses x <> [] | _ => False end.
Proof.
  split; [apply patientb; [apply Nat.ltb_lt; vm_compute; reflexivity|vm_compute; reflexivity]|].
  split; [vm_compute; reflexivity|]. split; [vm_compute; reflexivity|]. split; [vm_compute; reflexivity|]. vm_compute. split; [reflexivity|discriminate].
Qed.
(** The bound is exact: refused 500 times, the request fails. *)
Example C190_bound : snd (exec (s_txn cfg0 (update_txn ka v3 1 9)) (refused 500 ++ repeat ([], NoFault) 3) demo) = Some (Err EBusy).
Proof. vm_compute. reflexivity. Qed.
