(** What requests do to the watches of a stream, for C137. *)
From Coq Require Import List ZArith Bool Lia.
From Verif Require Import Bytes Spec Sql System Prog Backend Watch Stream Wire Whole.
From Verif Require Import WatchLemmas WatchProofs StreamProofs WholeProofs.
From Verif Require Import Watch Stream Wire.
Import ListNotations.
Open Scope Z_scope.

Lemma request_served s g q : group_of s = Some g -> s_creating s = None -> s_closing s = None -> s_ended s = false -> q_id q = 0 ->
  exists g' r, group_of (sstep s (serve (QCreate q))) = Some g' /\ g_regs g' = g_regs g ++ [r] /\ r_id r = Z.of_nat (length (g_regs g)) + 1 /\
    (forall k, in_range (r_lo r) (r_hi r) k <-> match q_end q with [] => k = q_key q | e => in_range (q_key q) e k end) /\
    r_start r = q_start q.
Proof.
  intros G A B C I. cbn [serve sstep]. rewrite C. unfold s_create. rewrite A, B, G, I. cbn [Z.eqb negb].
  match goal with |- exists g' r, group_of (watch_step ?a ?b ?c) = _ /\ _ => destruct (watch_step_b a b c) as [F1 F2] end.
  unfold group_of at 1. rewrite F1, F2. cbn [s_b s_i bstep set_group b_groups]. rewrite update_nth_nth, Nat.eqb_refl.
  unfold group_of in G. rewrite G. cbn [option_map].
  exists (watch_begin (q_key q) (range_end (q_key q) (q_end q)) (q_start q) g), (Reg (Z.of_nat (length (g_regs g)) + 1) (q_key q) (range_end (q_key q) (q_end q)) (q_start q) (g_rev g)).
  split; [reflexivity|]. split; [unfold watch_begin; destruct (0 <? q_start q); reflexivity|]. split; [reflexivity|]. split; [|reflexivity].
  intros k. cbn [r_lo r_hi]. destruct (q_end q); cbn [range_end]; [apply bsucc_spec|tauto].
Qed.
Lemma group_stays s a g : (forall x, a <> SBack x) -> group_of s = Some g -> exists g', group_of (sstep s a) = Some g'.
Proof.
  intros NB G. destruct (sstep_own s a NB) as [EI [EB|(act & EB & _)]]; unfold group_of in *; rewrite EI, EB; [eauto|].
  destruct (bstep_regs _ act _ _ G) as (g' & l & N & _). eauto.
Qed.
Lemma only_requests s g a : group_of s = Some g -> (forall x, a <> SBack x) -> (forall wid lo hi st, a <> SCreate wid lo hi st) ->
  exists g', group_of (sstep s a) = Some g' /\ g_regs g' = g_regs g.
Proof.
  intros G NB NC. destruct (group_stays s a g NB G) as (g' & G'). exists g'. split; [exact G'|].
  assert (G0 : group_of s <> None) by congruence. pose proof (sstep_regs s a NB G0) as R.
  assert (E : regs_of (sstep s a) = regs_of s). { destruct a; auto. exfalso. eapply NC; eauto. }
  unfold regs_of in E. now rewrite G, G' in E.
Qed.
