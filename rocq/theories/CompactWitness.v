(** Concrete executions about compaction. *)
From Coq Require Import List ZArith Bool Lia Sorting.Sorted.
From Verif Require Import Bytes Spec Sql System Prog Backend Limited Api Pool Observe Demo SpecLemmas SqlLemmas Sim ProgLemmas ReadWitness.
Import ListNotations.
Open Scope Z_scope.

(** [n + 3] revisions, nearly all of one key *)
Definition many_ops (n : nat) : list aop :=
  [ACreate ka v1 0; ACreate compact_rev_key [] 0; AUpdate ka v2 1 0] ++
  map (fun r => AUpdate ka v3 (Z.of_nat r) 0) (List.seq 3 n).
Definition many_world (n : nat) : world := fold_left wapply (many_ops n) init_world.
Lemma many_reach n : env_okb init_world (many_ops n) = true -> wreach (many_world n).
Proof. intros E. apply (wsteps_reach init_world); [apply reach_init|]. now apply wsteps_env, env_okb_ok. Qed.
(** 1105 revisions *)
Definition long_world : world := many_world 1102.
Lemma long_reach : wreach long_world.
Proof. apply many_reach. vm_compute. reflexivity. Qed.
(** 2105 revisions *)
Definition longer_world : world := many_world 2102.
Lemma longer_reach : wreach longer_world.
Proof. apply many_reach. vm_compute. reflexivity. Qed.
(** nobody interferes *)
Lemma fair_quiet : forall {A} (p : prog A) sched w, Forall (fun x => fst x = []) sched -> fair p sched w.
Proof.
  intros A p. induction p as [a|c k IH]; simpl; auto. intros [|[env f] sched] w H; auto.
  inversion H as [|? ? H1 H2]; subst. cbn in H1. subst env. split; [exact I|]. cbn [fold_left]. auto.
Qed.

(** the node becomes leader between two batches *)
Definition takeover : list (list aop * fault) :=
  [([], NoFault); ([], NoFault); ([], NoFault); ([], NotLeader); ([], NoFault); ([], NoFault); ([], NoFault)].
Lemma big_batch : exists w sched,
  wreach w /\ fair (b_do_compact (DriverCfg true true)) sched w /\
  In (CExec (ACompact 0 2000)) (calls (b_do_compact (DriverCfg true true)) sched w).
Proof.
  exists longer_world, takeover. split; [apply longer_reach|].
  assert (E : calls (b_do_compact (DriverCfg true true)) takeover longer_world =
    [CRev; CAfterPrefix compact_rev_key (compact_rev_key ++ [0%N]) 0 2105; CInterval; CLeader; CLeader; CInterval;
     CExec (ACompact 0 2000)]) by (vm_compute; reflexivity).
  split; [|rewrite E; simpl; tauto].
  apply fair_quiet. unfold takeover. repeat constructor.
Qed.
