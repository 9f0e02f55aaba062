(** C72, C73: how much a request does, and what becomes of errors.
    [calls p sched w]: the statements [p] issues under schedule [sched] from [w];
    [exec p sched w]: final state and answer ([None]: still running when the
    schedule ends).  Schedules are arbitrary: any interference, any faults. *)
From Coq Require Import List ZArith Bool Lia.
From Verif Require Import Bytes Spec Sql System Prog Backend Limited Api Observe Demo WorkProofs.
Import ListNotations.
Open Scope Z_scope.

(** C72.  No schedule makes a request issue more than 2000 (range) or 1500
    (transaction) statements, and after that many it has answered. *)
Theorem C72_range : forall cfg r sched w,
  (length (calls (s_range cfg r) sched w) <= 2000)%nat /\
  ((2000 <= length sched)%nat -> exists a, snd (exec (s_range cfg r) sched w) = Some a).
Proof. exact range_bounded. Qed.
Print Assumptions C72_range.
Theorem C72_txn : forall cfg t sched w,
  (length (calls (s_txn cfg t) sched w) <= 1500)%nat /\
  ((1500 <= length sched)%nat -> exists a, snd (exec (s_txn cfg t) sched w) = Some a).
Proof. exact txn_bounded. Qed.
Print Assumptions C72_txn.
(** Without busy errors: four and three. *)
Theorem C72_quick : forall cfg r t sched w, Forall (fun x => not_busy (snd x)) sched ->
  (length (calls (s_range cfg r) sched w) <= 4)%nat /\ (length (calls (s_txn cfg t) sched w) <= 3)%nat.
Proof. exact (fun cfg r t sched w H => conj (range_quick cfg r sched w H) (txn_quick cfg t sched w H)). Qed.
Print Assumptions C72_quick.

(** the bounds are reached *)
Definition ok_call : list aop * fault := ([], NoFault).
Definition busy_call : list aop * fault := ([], FailBefore EBusy).
Definition stubborn : list (list aop * fault) := repeat busy_call 499 ++ [ok_call].
Example C72_nonvacuous :
  length (calls (s_range cfg0 (range ka [110%N] 1 0)) (stubborn ++ stubborn ++ stubborn ++ stubborn) demo) = 2000%nat /\
  length (calls (s_txn cfg0 (update_txn ka v3 1 9)) (stubborn ++ stubborn ++ stubborn) demo) = 1500%nat /\
  length (calls (s_range cfg0 (range ka [110%N] 1 0)) (repeat ok_call 9) demo) = 4%nat /\
  length (calls (s_txn cfg0 (update_txn ka v3 1 9)) (repeat ok_call 9) demo) = 3%nat /\
  (* a database that stays busy: the error is reported after 500 attempts *)
  snd (exec (s_range cfg0 (range ka [110%N] 1 0)) (repeat busy_call 500) demo) = Some (Err EBusy).
Proof. vm_compute. auto. Qed.

(** C73.  When the schedule [pre] leaves a request waiting for its next statement
    and that statement fails with an error that is not retried, the request ends
    with this very error, without a further statement; if the statement had no
    effect the request changed nothing more. *)
Theorem C73_range : forall cfg r pre w w1 env f e post, e <> EBusy ->
  f = FailBefore e \/ f = FailAfter e ->
  exec (s_range cfg r) pre w = (w1, None) ->
  snd (exec (s_range cfg r) (pre ++ (env, f) :: post) w) = Some (Err e) /\
  (f = FailBefore e -> fst (exec (s_range cfg r) (pre ++ (env, f) :: post) w) = fold_left wapply env w1) /\
  calls (s_range cfg r) (pre ++ (env, f) :: post) w = calls (s_range cfg r) (pre ++ [(env, f)]) w.
Proof. exact (fun cfg r => surfaces_exec _ (surfaces_range cfg r)). Qed.
Print Assumptions C73_range.
Theorem C73_txn : forall cfg t pre w w1 env f e post, e <> EBusy ->
  f = FailBefore e \/ f = FailAfter e ->
  exec (s_txn cfg t) pre w = (w1, None) ->
  snd (exec (s_txn cfg t) (pre ++ (env, f) :: post) w) = Some (Err e) /\
  (f = FailBefore e -> fst (exec (s_txn cfg t) (pre ++ (env, f) :: post) w) = fold_left wapply env w1) /\
  calls (s_txn cfg t) (pre ++ (env, f) :: post) w = calls (s_txn cfg t) (pre ++ [(env, f)]) w.
Proof. exact (fun cfg t => surfaces_exec _ (surfaces_txn cfg t)). Qed.
Print Assumptions C73_txn.
Example C73_nonvacuous :
  snd (exec (s_txn cfg0 (update_txn ka v3 1 9)) [busy_call; ok_call; ok_call] demo) = None /\
  length (calls (s_txn cfg0 (update_txn ka v3 1 9)) [busy_call; ok_call; ok_call] demo) = 3%nat /\
  snd (exec (s_txn cfg0 (update_txn ka v3 1 9)) [busy_call; ok_call; ok_call; ([], FailBefore ECanceled); ok_call] demo) = Some (Err ECanceled).
Proof. vm_compute. auto. Qed.
