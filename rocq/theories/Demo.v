(** A concrete, non-trivial state used to show that the hypotheses of the
    theorems can be met. *)
From Coq Require Import List ZArith Bool Lia.
From Verif Require Import Bytes Spec Sql System Prog Backend Limited Api Pool Observe SpecLemmas SqlLemmas Sim ProgLemmas.
Import ListNotations.
Open Scope Z_scope.

Definition allowedb (s : store) (a : aop) : bool :=
  match a with
  | ACreate k v ttl => negb (beqb k compact_rev_key) || (beqb v [] && (ttl =? 0))
  | AUpdate k _ _ _ => negb (beqb k compact_rev_key)
  | ADelete k _ => negb (beqb k compact_rev_key)
  | ACompact start stop =>
      (start <=? floor_of s) && (stop <? revision (history_of s)) &&
      match now (history_of s) compact_rev_key with Some _ => true | None => false end
  | ADeleteRev _ => false
  end.
Lemma allowedb_ok s a : allowedb s a = true -> allowed s a.
Proof.
  destruct a; simpl; try discriminate.
  - rewrite orb_true_iff, andb_true_iff, negb_true_iff. intros [H|[H1 H2]] E.
    + subst. rewrite beqb_refl in H. discriminate.
    + apply beqb_true in H1. apply Z.eqb_eq in H2. auto.
  - rewrite negb_true_iff. intros H ->. rewrite beqb_refl in H. discriminate.
  - rewrite negb_true_iff. intros H ->. rewrite beqb_refl in H. discriminate.
  - rewrite !andb_true_iff, Z.leb_le, Z.ltb_lt. intros [[A B] C]. repeat split; auto.
    destruct (now (history_of s) compact_rev_key); discriminate.
Qed.
Fixpoint env_okb (w : world) (env : list aop) : bool :=
  match env with
  | [] => true
  | a :: rest => allowedb (snd w) a && env_okb (wapply w a) rest
  end.
Lemma env_okb_ok env : forall w, env_okb w env = true -> env_ok w env.
Proof.
  induction env as [|a env IH]; simpl; auto. intros w. rewrite andb_true_iff. intros [A B].
  split; auto using allowedb_ok.
Qed.

(** keys "a", "b", "c" *)
Definition ka : bytes := [97%N].
Definition kb : bytes := [98%N].
Definition kc : bytes := [99%N].
Definition v1 : bytes := [49%N].
Definition v2 : bytes := [50%N].
Definition v3 : bytes := [51%N].

(** a created (1), bookkeeping key created (2), b created with a lease (3),
    a updated (4), b deleted (5), c created (6), compaction to 5, b created
    again (7), c updated (8). *)
Definition demo_ops : list aop :=
  [ACreate ka v1 0; ACreate compact_rev_key [] 0; ACreate kb v2 60; AUpdate ka v2 1 0;
   ADelete kb 3; ACreate kc v3 0; ACompact 0 5; ACreate kb v3 30; AUpdate kc v1 6 0].
Definition demo : world := fold_left wapply demo_ops init_world.
Lemma demo_ok : env_ok init_world demo_ops.
Proof. apply env_okb_ok. vm_compute. reflexivity. Qed.
Lemma demo_reach : wreach demo.
Proof. apply (wsteps_reach init_world); [apply reach_init|]. apply wsteps_env, demo_ok. Qed.
Definition cfg0 : driver_cfg := DriverCfg true false.
