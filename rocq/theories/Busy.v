(** Specification vocabulary for C190: the same history without the attempts that the database
    refused as busy (pkg/backend/sqlite/driver.go:405-478 retries them). *)
From Coq Require Import List ZArith Bool.
From Verif Require Import Bytes Spec Sql System Prog Backend.
Import ListNotations.
Open Scope Z_scope.

(** An attempt that the database refuses as busy, without effect (driver.go:424-436). *)
Definition busy (x : list aop * fault) : bool :=
  match snd x with FailBefore EBusy => true | _ => false end.
(** The schedule without them; what others did before such an attempt they do before the next one. *)
Fixpoint without_busy (env : list aop) (sched : list (list aop * fault)) : list (list aop * fault) :=
  match sched with
  | [] => []
  | (env', f) :: rest =>
      if busy (env', f) then without_busy (env ++ env') rest
      else (env ++ env', f) :: without_busy [] rest
  end.
(** No statement is refused 500 times in a row (driver.go:279), and "busy" means without effect. *)
Definition patient (sched : list (list aop * fault)) : Prop :=
  (forall pre mid post, sched = pre ++ mid ++ post -> forallb busy mid = true -> (length mid < 500)%nat) /\
  (forall env, ~ In (env, FailAfter EBusy) sched).
