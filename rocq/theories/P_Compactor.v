(** C179, C180: a running server keeps compacting.
    [cat cfg w0 sch t]: the state after the first [t] steps of the infinite schedule [sch] of
    the compaction goroutine, the clients and the other servers (Compactor.v).  [cpossible]:
    the others issue statements that servers issue.  [cturns]: the goroutine gets its turns.
    [begins .. t1]: a run starts at step [t1].  [undisturbed .. t1]: none of its statements
    fails, and on dqlite the node is the leader. *)
From Coq Require Import List ZArith Bool Lia Arith.
From Verif Require Import Bytes Spec Sql System Prog Backend Limited Api Pool Observe Demo SpecLemmas Sim ProgLemmas ReadProofs CompactWitness CompactRunProofs Compactor CompactorProofs P_Size.
Import ListNotations.
Open Scope Z_scope.

(** C179.  As long as the server is not stopped and its ticker ticks, runs begin again and
    again, and each of them ends, whatever fails; *)
Theorem C179_runs : forall cfg w0 sch, cturns sch -> (forall t, sch t <> CStop) -> (forall t, exists t', (t <= t')%nat /\ sch t' = CTick) ->
  forall t, exists t1 t2 r, (t <= t1 < t2)%nat /\ begins cfg w0 sch t1 /\ reports cfg w0 sch t1 t2 r.
Proof. exact runs_again. Qed.
Print Assumptions C179_runs.
(** a run that meets no failing statement reports success, whatever the others do meanwhile; *)
Theorem C179_succeeds : forall cfg w0 sch t1 t2 r, cpossible cfg w0 sch -> begins cfg w0 sch t1 -> undisturbed cfg w0 sch t1 ->
  0 < current cfg (c_world (cat cfg w0 sch t1)) -> reports cfg w0 sch t1 t2 r -> r = Ok tt.
Proof. exact (fun cfg w0 sch t1 t2 r POS => clean_reports cfg w0 sch POS t1 t2 r). Qed.
Print Assumptions C179_succeeds.
(** and if there are such runs again and again, every revision that is more than 100 behind
    the current one is sooner or later refused, and stays refused. *)
Theorem C179_refused : forall cfg w0 sch, cpossible cfg w0 sch -> cturns sch ->
  (forall t, exists t1, (t <= t1)%nat /\ begins cfg w0 sch t1 /\ undisturbed cfg w0 sch t1) ->
  forall t n, 0 < n -> n < current cfg (c_world (cat cfg w0 sch t)) - 100 ->
  exists T, (t <= T)%nat /\ forall t' r, (T <= t')%nat -> supported_range r -> r_revision r = n -> bounded (c_world (cat cfg w0 sch t')) r ->
    ask cfg (c_world (cat cfg w0 sch t')) r = Err ECompacted.
Proof. exact eventually_refused. Qed.
Print Assumptions C179_refused.

(** C180.  And the table does not grow with the history: again and again there is a moment -
    the end of a run that began at [t1] - at which it has at most 200 rows more than there
    are live keys, and two for each change made during that run. *)
Theorem C180_small : forall cfg w0 sch, cpossible cfg w0 sch -> cturns sch ->
  (forall t, exists t1, (t <= t1)%nat /\ begins cfg w0 sch t1 /\ undisturbed cfg w0 sch t1) ->
  forall t, 0 < current cfg (c_world (cat cfg w0 sch t)) ->
  exists t1 t2, (t <= t1 < t2)%nat /\ forall live, (forall k, value_of cfg (c_world (cat cfg w0 sch t2)) k <> None -> In k live) ->
    Z.of_nat (length (rows (fst (c_world (cat cfg w0 sch t2))))) <=
    Z.of_nat (length live) + 200 + 2 * (current cfg (c_world (cat cfg w0 sch t2)) - current cfg (c_world (cat cfg w0 sch t1))).
Proof. exact again_small. Qed.
Print Assumptions C180_small.

(** 105 revisions; ticks, calls, returns and writes of others in turn, forever *)
Definition grinding (t : nat) : caction :=
  match Nat.modulo t 4 with O => CTick | 1%nat => CCall NoFault | 2%nat => CEnv (ACreate kb v1 0) | _ => CReturn end.
Lemma grinding_round m t : (m < 4)%nat -> exists t', (t <= t')%nat /\ Nat.modulo t' 4 = m.
Proof. intros L. exists (m + t * 4)%nat. split; [lia|]. rewrite Nat.mod_add by lia. now apply Nat.mod_small. Qed.
Lemma grinding_possible : cpossible cfg0 (many_world 102) grinding.
Proof.
  split; [apply many_reach; vm_compute; reflexivity|]. intros t a. unfold grinding.
  destruct (Nat.modulo t 4) as [|[|[|m]]]; intros [= <-]. intros X. apply beqb_true in X. vm_compute in X. discriminate.
Qed.
Lemma grinding_turns : cturns grinding.
Proof.
  split; intros t.
  - destruct (grinding_round 1 t ltac:(lia)) as (t' & L & E). exists t', NoFault. split; auto. unfold grinding. now rewrite E.
  - destruct (grinding_round 3 t ltac:(lia)) as (t' & L & E). exists t'. split; auto. unfold grinding. now rewrite E.
Qed.
Lemma grinding_on : (forall t, grinding t <> CStop) /\ (forall t, exists t', (t <= t')%nat /\ grinding t' = CTick) /\ forall t f, grinding t = CCall f -> f = NoFault.
Proof.
  split; [|split].
  - intros t. unfold grinding. destruct (Nat.modulo t 4) as [|[|[|m]]]; discriminate.
  - intros t. destruct (grinding_round 0 t ltac:(lia)) as (t' & L & E). exists t'. split; auto. unfold grinding. now rewrite E.
  - intros t f. unfold grinding. destruct (Nat.modulo t 4) as [|[|[|m]]]; intros [= <-]. reflexivity.
Qed.
Example C179_nonvacuous : cpossible cfg0 (many_world 102) grinding /\ cturns grinding /\ (forall t, grinding t <> CStop) /\
  (forall t, exists t', (t <= t')%nat /\ grinding t' = CTick) /\
  (forall t, exists t1, (t <= t1)%nat /\ begins cfg0 (many_world 102) grinding t1 /\ undisturbed cfg0 (many_world 102) grinding t1) /\
  current cfg0 (c_world (cat cfg0 (many_world 102) grinding 0)) = 105.
Proof.
  destruct grinding_on as (A & B & C). split; [exact grinding_possible|]. split; [exact grinding_turns|]. split; [exact A|]. split; [exact B|]. split.
  - intros t. destruct (begins_again cfg0 (many_world 102) grinding grinding_turns A B t) as (t1 & L & X). exists t1. split; auto. split; auto. intros u f _. apply C.
  - vm_compute. reflexivity.
Qed.
