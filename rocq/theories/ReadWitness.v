(** Concrete executions refuting C18, C19 and C35 in general. *)
From Coq Require Import List ZArith Bool Lia Sorting.Sorted.
From Verif Require Import Bytes Spec Sql System Prog Backend Limited Api Pool Observe Demo SpecLemmas SqlLemmas Sim ProgLemmas.
Import ListNotations.
Open Scope Z_scope.

Local Opaque max_retries.

Lemma header_refuted : exists w sched w' resp,
  wreach w /\ fair (s_range cfg0 (range ka [100%N] 1 0)) sched w /\
  Forall (fun x => snd x = NoFault) sched /\
  exec (s_range cfg0 (range ka [100%N] 1 0)) sched w = (w', Some (Ok resp)) /\
  floor_of (snd w') <= rr_header resp /\
  ~ (exists L, is_snapshot (history_of (snd w')) (rr_header resp) ka [100%N] L /\ rr_kvs resp = page 1 L).
Proof.
  exists demo, [([], NoFault); ([], NoFault); ([AUpdate ka v3 4 0], NoFault); ([], NoFault)].
  exists (wapply demo (AUpdate ka v3 4 0)), (RangeResp 9 [KV ka v2 0 1 4] true 4).
  split; [apply demo_reach|]. split; [vm_compute; intuition discriminate|].
  split; [repeat constructor|]. split; [vm_compute; reflexivity|]. split; [vm_compute; discriminate|].
  intros (L & [S M] & E). cbn [rr_kvs rr_header] in *.
  assert (I : In (KV ka v2 0 1 4) L).
  { unfold page in E. cbn in E. destruct L; [discriminate|]. injection E as <-. simpl; auto. }
  apply M in I. destruct I as [_ I]. vm_compute in I. discriminate.
Qed.

Definition race_ops : list aop :=
  [ACreate ka v1 0; ACreate compact_rev_key [] 0; AUpdate ka v2 1 0] ++
  map (fun r => AUpdate ka v3 (Z.of_nat r) 0) (List.seq 3 102).
Definition race_world : world := fold_left wapply race_ops init_world.

Lemma race_refuted : exists w sched w' resp,
  wreach w /\ revision (history_of (snd w)) = 105 /\
  fair (s_range cfg0 (range ka [100%N] 0 3)) sched w /\
  Forall (fun x => snd x = NoFault /\ (fst x = [] \/ fst x = [ACompact 0 5])) sched /\
  exec (s_range cfg0 (range ka [100%N] 0 3)) sched w = (w', Some (Ok resp)) /\
  ~ is_snapshot (history_of (snd w')) 3 ka [100%N] (rr_kvs resp).
Proof.
  exists race_world, [([], NoFault); ([ACompact 0 5], NoFault)].
  exists (wapply race_world (ACompact 0 5)), (RangeResp 105 [KV compact_rev_key [] 0 2 2] false 1).
  split.
  { apply (wsteps_reach init_world); [apply reach_init|]. apply wsteps_env, env_okb_ok. vm_compute. reflexivity. }
  split; [vm_compute; reflexivity|]. split; [vm_compute; intuition discriminate|].
  split; [constructor; [simpl; auto|constructor; [simpl; auto|constructor]]|]. split; [vm_compute; reflexivity|].
  intros [_ M]. specialize (M (KV ka v2 0 1 3)). destruct M as [_ M].
  destruct M as [M|[]]; [|discriminate]. split; [split; vm_compute; congruence|]. vm_compute. reflexivity.
Qed.

Lemma list_cut_refuted : exists w sched w' resp,
  wreach w /\ fair (s_range cfg0 (range ka [100%N] 0 0)) sched w /\
  sched = [([], NoFault); ([], CutRows 1 EOther)] /\
  exec (s_range cfg0 (range ka [100%N] 0 0)) sched w = (w', Some (Ok resp)) /\
  ~ is_snapshot (history_of (snd w')) (rr_header resp) ka [100%N] (rr_kvs resp).
Proof.
  exists demo, [([], NoFault); ([], CutRows 1 EOther)], demo, (RangeResp 8 [KV ka v2 0 1 4] false 1).
  split; [apply demo_reach|]. split; [vm_compute; tauto|]. split; [reflexivity|]. split; [vm_compute; reflexivity|].
  intros [_ M]. specialize (M (KV kb v3 30 7 7)). destruct M as [_ M].
  destruct M as [M|[]]; [|discriminate]. split; [split; vm_compute; congruence|]. vm_compute. reflexivity.
Qed.
