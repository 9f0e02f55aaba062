(** Infinite executions of a server with its expiry goroutine (Ttl.v), for the liveness of
    expiry.  Specification vocabulary; the steps are those of Ttl.v.  What is assumed
    about the Go scheduler, timers and the database is written out in [expiring]. *)
From Coq Require Import List ZArith Bool.
From Verif Require Import Bytes Spec Sql System Prog Backend Watch Stream Ttl FairWatch.
From Verif Require Import Watch Stream.
Import ListNotations.
Open Scope Z_scope.

(** The state after the first [t] steps of an infinite schedule. *)
Fixpoint tat (s0 : tstate) (sch : nat -> taction) (t : nat) : tstate :=
  match t with O => s0 | S t => tstep (tat s0 sch t) (sch t) end.
(** Every step is possible and satisfies the provisos of C24 (Ttl.v). *)
Definition tcalm_schedule (s0 : tstate) (sch : nat -> taction) : Prop :=
  tcalm s0 /\ forall t, tpossible (tat s0 sch t) (sch t) /\ tcalm_step (tat s0 sch t) (sch t).
(** The goroutines get their turns, forever: the poller (watcher.go:185-214) whose queries again
    and again succeed and which survives the others; the loop over the updates
    (ttl.go:85-96); time passes; the retries of every timer that is due (ttl.go:13-44) again
    and again reach a database that works. *)
Definition expiring (s0 : tstate) (sch : nat -> taction) : Prop :=
  (forall t, exists t', (t <= t')%nat /\ sch t' = TBack (AFetch NoFault)) /\
  (forall t, exists t', (t <= t')%nat /\ sch t' = TBack APublish) /\
  (forall t f, sch t = TBack (AFetch f) -> bearable f) /\
  (forall t, exists t' js, (t <= t')%nat /\ sch t' = TRecv js) /\
  (forall d, exists t, d <= t_now (tat s0 sch t)) /\
  (forall t j, exists t', (t <= t')%nat /\ sch t' = TAttempt j NoFault).
(** At [s] the goroutine is past its start-up: its watch in group [i] was acknowledged, the
    revision it started from is [st]; the poller is running. *)
Definition caring (s : tstate) (st : Z) (i : nat) : Prop :=
  t_phase s = TPLoop st i /\ t_ack s <> None /\ b_dead (t_b s) = false.
(** The channel of group [i] was closed: the goroutine was too slow (watcher.go:222-228). *)
Definition dropped (s : tstate) (i : nat) : Prop := exists g, nth_error (b_groups (t_b s)) i = Some g /\ g_open g = false.
(** The goroutine's own start-up steps (ttl.go:47-83) get their turns again and again, and no
    statement of the goroutine fails. *)
Definition starting (sch : nat -> taction) : Prop :=
  (forall t a, In a [TRev NoFault; TList NoFault; TGroup; TWatch; TCheck NoFault; TQuery NoFault; TFinish] -> exists t', (t <= t')%nat /\ sch t' = a) /\
  (forall t f, sch t = TRev f \/ sch t = TList f \/ sch t = TCheck f \/ sch t = TQuery f -> f = NoFault).
