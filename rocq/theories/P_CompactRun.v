(** C146: a compaction run that reports success has done its work, whatever other
    processes write and compact meanwhile and whichever statements fail and are retried.
    On dqlite: while the node is the leader (on a follower a run is a no-op, C55). *)
From Coq Require Import List ZArith Bool Lia.
From Verif Require Import Bytes Spec Sql System Prog Backend Limited Api Pool Observe Demo SpecLemmas Sim ProgLemmas ReadProofs CompactWitness CompactRunProofs P_Size.
Import ListNotations.
Open Scope Z_scope.

(** Everything more than 100 revisions older than the start of the run is compacted, *)
Theorem C146_refused : forall cfg w sched w' r, wreach w -> fair (b_do_compact cfg) sched w ->
  (cfg_dqlite cfg = true -> Forall (fun x => snd x <> NotLeader) sched) ->
  exec (b_do_compact cfg) sched w = (w', Some (Ok tt)) ->
  supported_range r -> bounded w' r -> r_revision r <> 0 -> r_revision r < current cfg w - 100 ->
  ask cfg w' r = Err ECompacted.
Proof. exact run_compacted_refuses. Qed.
Print Assumptions C146_refused.
(** and the table has at most 200 rows more than there are live keys, and two for each
    change made during the run. *)
Theorem C146_size : forall cfg w sched w' live, wreach w -> fair (b_do_compact cfg) sched w ->
  (cfg_dqlite cfg = true -> Forall (fun x => snd x <> NotLeader) sched) ->
  exec (b_do_compact cfg) sched w = (w', Some (Ok tt)) ->
  (forall k, value_of cfg w' k <> None -> In k live) ->
  Z.of_nat (length (rows (fst w'))) <= Z.of_nat (length live) + 200 + 2 * (current cfg w' - current cfg w).
Proof. exact run_compacted_size. Qed.
Print Assumptions C146_size.

(** 105 revisions; another server compacts to 3 and a client writes during the run, whose
    statements fail three times, once after taking effect *)
Definition busy_run : list (list aop * fault) :=
  [([], FailBefore EBusy); ([ACreate kb v1 0], NoFault); ([], NoFault); ([], NoFault); ([ACompact 0 3], FailBefore EBusy); ([AUpdate kb v2 106 0], NoFault);
   ([], FailAfter EBusy); ([], NoFault)].
Example C146_nonvacuous : wreach (many_world 102) /\ fair (b_do_compact cfg0) busy_run (many_world 102) /\
  exists w', exec (b_do_compact cfg0) busy_run (many_world 102) = (w', Some (Ok tt)) /\
  current cfg0 (many_world 102) = 105 /\ ask cfg0 w' (range ka [100%N] 0 4) = Err ECompacted /\
  length (rows (fst w')) = 103%nat /\ current cfg0 w' = 107.
Proof.
  split; [apply many_reach; vm_compute; reflexivity|].
  split; [vm_compute; repeat split; discriminate|].
  eexists. split; [vm_compute; reflexivity|]. vm_compute. auto.
Qed.
