(** C194, C195, C196: Stop (backend.go:115-127) and the goroutines of the server.
    [hat cfg (hstart w now stamps) sch t]: the server after [t] steps of the infinite schedule
    [sch], started on the database [w]; [hrun]: after finitely many.  [HStop]: Stop is called
    (the context is cancelled); [h_returned]: it has returned. *)
From Coq Require Import List ZArith Bool Lia Arith.
From Verif Require Import Bytes Spec Sql System Prog Backend Watch Ttl Poller Halt HaltProofs HaltWitness Demo.
From Verif Require Import Watch Ttl Poller Halt.
Import ListNotations.
Open Scope Z_scope.

(** C194.  Stop returns: whatever the poll loop, compaction and the expiry goroutine are doing
    when it is called, whatever requests, writes of other servers and timers go on, if every
    goroutine goes on being scheduled (fair_halt) and, from some time after the cancellation on,
    the statements they issue fail because the context is cancelled. *)
Theorem C194_returns : forall cfg w now stamps sch T, fair_halt cfg (hstart w now stamps) sch ->
  (exists t, (t < T)%nat /\ sch t = HStop) ->
  (forall t f, (T <= t)%nat -> outcome (sch t) = Some f -> f = FailBefore ECanceled) ->
  exists t, h_returned (hat cfg (hstart w now stamps) sch t) = true.
Proof. exact halts. Qed.
Print Assumptions C194_returns.
(** Stop is called while compaction has begun a run, the expiry goroutine is inside Watch and
    the deletion of a timer is on its way. *)
Example C194_nonvacuous : fair_halt cfg0 demo_start halting /\ halting 10 = HStop /\
  (forall t f, (11 <= t)%nat -> outcome (halting t) = Some f -> f = FailBefore ECanceled) /\
  (let s := hat cfg0 demo_start halting 10 in
   t_phase (h_t s) = TPWatching 8 0 /\ h_flight s = [0%nat] /\ h_over s = false /\ b_dead (t_b (h_t s)) = false /\
   match h_run s with Some (Call _ _) => True | _ => False end).
Proof.
  split; [exact halting_fair|]. split; [reflexivity|]. split; [exact (proj2 (proj2 halting_stops))|]. vm_compute. auto.
Qed.

(** C195.  After Stop has returned, polling, compaction and the expiry goroutine do nothing any
    more: the database, the positions and watches of the server, its timers and its runs of
    compaction stay as they are ... *)
Theorem C195_gone : forall cfg w now stamps xs a, h_returned (hrun cfg (hstart w now stamps) xs) = true -> of_goroutines a ->
  let s := hrun cfg (hstart w now stamps) xs in let s' := hrun cfg (hstart w now stamps) (xs ++ [a]) in
  t_b (h_t s') = t_b (h_t s) /\ t_timers (h_t s') = t_timers (h_t s) /\ h_run s' = h_run s /\ h_flight s' = h_flight s.
Proof. exact gone. Qed.
Print Assumptions C195_gone.
(** ... and the database changes only through requests and other servers, and through deletions
    that timers had sent before. *)
Theorem C195_step : forall cfg w now stamps xs a, h_returned (hrun cfg (hstart w now stamps) xs) = true ->
  ~ by_others a -> (forall j f, a <> HLand j f) ->
  b_world (t_b (h_t (hrun cfg (hstart w now stamps) (xs ++ [a])))) = b_world (t_b (h_t (hrun cfg (hstart w now stamps) xs))).
Proof. exact unchanged. Qed.
Print Assumptions C195_step.
(** Each of these deletions changes it at most once, and no further one is sent: without requests
    and other servers the database changes at most as many times as deletions were on their way
    ([ch] are the places in [ys] at which it changes) ... *)
Theorem C195_few : forall cfg w now stamps xs ys ch, h_returned (hrun cfg (hstart w now stamps) xs) = true ->
  Forall (fun a => ~ by_others a) ys -> NoDup ch ->
  (forall i, In i ch -> (i < length ys)%nat /\
     b_world (t_b (h_t (hrun cfg (hstart w now stamps) (xs ++ firstn i ys)))) <> b_world (t_b (h_t (hrun cfg (hstart w now stamps) (xs ++ firstn (S i) ys))))) ->
  (length ch <= length (h_flight (hrun cfg (hstart w now stamps) xs)))%nat.
Proof. exact few_changes. Qed.
Print Assumptions C195_few.
(** ... and if there was none, it never changes again. *)
Theorem C195_silent : forall cfg w now stamps xs ys, h_returned (hrun cfg (hstart w now stamps) xs) = true ->
  h_flight (hrun cfg (hstart w now stamps) xs) = [] -> Forall (fun a => ~ by_others a) ys ->
  b_world (t_b (h_t (hrun cfg (hstart w now stamps) (xs ++ ys)))) = b_world (t_b (h_t (hrun cfg (hstart w now stamps) xs))).
Proof. exact unchanged_all. Qed.
Print Assumptions C195_silent.
(** The run of C194, with and without the deletion under way; afterwards all goroutines, the
    ticker and the timer are given the chance to do something. *)
Definition halted : list haction := map halting (List.seq 0 60).
Definition halted_calm : list haction := filter (fun a => match a with HSend _ => false | _ => true end) halted.
Definition chances : list haction :=
  [HTickC; HCall NoFault; HNotify 9; HLoop BNotify NoFault; HLoop BTick NoFault; HT (TRecv []); HSend 0; HT (TRev NoFault)].
Example C195_nonvacuous :
  h_returned (hrun cfg0 demo_start halted) = true /\ h_flight (hrun cfg0 demo_start halted) = [0%nat] /\
  h_returned (hrun cfg0 demo_start halted_calm) = true /\ h_flight (hrun cfg0 demo_start halted_calm) = [] /\
  Forall (fun a => ~ by_others a) chances.
Proof. repeat split; try (vm_compute; reflexivity). repeat constructor; intros H; exact H. Qed.

(** C196.  It is not the case that the server leaves the database alone once Stop has returned:
    Stop does not wait for the goroutines of the timers, whose deletion may be on its way. *)
Definition silent_after_stop : Prop := forall cfg w now stamps xs ys, wreach w ->
  h_returned (hrun cfg (hstart w now stamps) xs) = true -> Forall (fun a => ~ by_others a) ys ->
  b_world (t_b (h_t (hrun cfg (hstart w now stamps) (xs ++ ys)))) = b_world (t_b (h_t (hrun cfg (hstart w now stamps) xs))).
Theorem C196_refuted : ~ silent_after_stop.
Proof.
  intros H. specialize (H cfg0 demo 0 (repeat 0 8) halted [HLand 0 (FailAfter ECanceled)] demo_reach ltac:(vm_compute; reflexivity)
    ltac:(repeat constructor; intros X; exact X)).
  apply (f_equal (fun w : world => match now (history_of (snd w)) kb with Some _ => true | None => false end)) in H. vm_compute in H. discriminate H.
Qed.
Print Assumptions C196_refuted.
(** There, the key of the lease is deleted after Stop has returned. *)
Example C196_witness : h_returned (hrun cfg0 demo_start halted) = true /\
  map (fun w : world => match now (history_of (snd w)) kb with Some _ => true | None => false end)
    [b_world (t_b (h_t (hrun cfg0 demo_start halted))); b_world (t_b (h_t (hrun cfg0 demo_start (halted ++ [HLand 0 (FailAfter ECanceled)]))))] = [true; false].
Proof. split; vm_compute; reflexivity. Qed.
