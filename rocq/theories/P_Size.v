(** C74: the table does not grow with the number of changes. *)
From Coq Require Import List ZArith Bool Lia.
From Verif Require Import Bytes Spec Sql System Prog Backend Limited Api Pool Observe Demo CompactWitness SizeProofs.
Import ListNotations.
Open Scope Z_scope.

(** After every compaction run the table has at most 200 rows more than there are
    live keys, however many changes were made ([live]: any list containing all keys
    a get finds). *)
Theorem C74_compacted : forall cfg w live, wreach w -> revision (history_of (snd w)) <> 0 ->
  let w' := after_compaction cfg w in
  (forall k, value_of cfg w' k <> None -> In k live) ->
  Z.of_nat (length (rows (fst w'))) <= Z.of_nat (length live) + 200.
Proof. exact rows_after_compaction. Qed.
Print Assumptions C74_compacted.
(** At any other moment: two more per revision since the floor. *)
Theorem C74_always : forall w live, wreach w ->
  (forall k, now (history_of (snd w)) k <> None -> In k live) ->
  Z.of_nat (length (rows (fst w))) <= Z.of_nat (length live) + 2 * (revision (history_of (snd w)) - floor_of (snd w)).
Proof. exact rows_bound. Qed.
Print Assumptions C74_always.
(** 1105 changes of one key *)
Lemma only_these ks h : forallb (fun e => existsb (beqb (e_key e)) ks) h = true -> forall k, now h k <> None -> In k ks.
Proof.
  intros F k. unfold now.
  assert (H : forall l r old, forallb (fun e => existsb (beqb (e_key e)) ks) l = true -> (old <> None -> In k ks) -> replay k l r old <> None -> In k ks).
  { induction l as [|e l IH]; intros r old FL O N; [exact (O N)|]. cbn [forallb] in FL. apply andb_true_iff in FL. destruct FL as [F1 F2].
    cbn [replay] in N. apply (IH _ _ F2) in N; [exact N|]. unfold change_key. destruct (beqb (e_key e) k) eqn:B; [|exact O].
    apply beqb_true in B. subst k. intros _. apply existsb_exists in F1. destruct F1 as (x & I1 & I2). apply beqb_true in I2. now subst x. }
  apply H; [exact F|congruence].
Qed.
Lemma long_facts : (let w := after_compaction cfg0 long_world in
  forallb (fun e => existsb (beqb (e_key e)) [ka; compact_rev_key]) (history_of (snd w)) && Nat.eqb (length (rows (fst w))) 102) = true.
Proof. vm_compute. reflexivity. Qed.
Example C74_nonvacuous : wreach long_world /\ length (rows (fst long_world)) = 1105%nat /\
  length (rows (fst (after_compaction cfg0 long_world))) = 102%nat /\
  (forall k, now (history_of (snd (after_compaction cfg0 long_world))) k <> None -> In k [ka; compact_rev_key]).
Proof.
  pose proof long_facts as F. cbv zeta in F. apply andb_true_iff in F. destruct F as [F1 F2]. apply Nat.eqb_eq in F2.
  split; [apply long_reach|]. split; [vm_compute; reflexivity|]. split; [exact F2|].
  exact (only_these [ka; compact_rev_key] _ F1).
Qed.
