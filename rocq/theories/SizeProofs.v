(** How many rows the table holds. *)
From Coq Require Import List ZArith Bool Lia Sorting.Sorted.
From Verif Require Import Bytes Spec Sql System Prog Backend Limited Api Pool Observe SpecLemmas SqlLemmas Sim ProgLemmas ReadProgs Safety ApiLemmas StoreProofs ReadProofs CompactProofs.
Import ListNotations.
Open Scope Z_scope.
Local Notation ck := compact_rev_key.

(** every row at or below the floor is the version of its key at the floor *)
Lemma low_row w x : wreach w -> In x (rows (fst w)) -> id x <= floor_of (snd w) ->
  exists v, kv_at (history_of (snd w)) (floor_of (snd w)) (name x) = Some v /\ kv_mod v = id x.
Proof.
  intros HW I L. destruct (proj1 (reclaimed w HW) x I L) as [N|E]; [|rewrite E; eexists; split; reflexivity].
  pose proof (reach_R _ _ HW) as HR. set (h := history_of (snd w)) in *. set (f := floor_of (snd w)) in *.
  assert (LAST : forall n r e, ent h r = Some e -> e_key e = ck -> r <= n ->
     exists r2 e2, r <= r2 <= n /\ ent h r2 = Some e2 /\ e_key e2 = ck /\ exists v, kv_at h n ck = Some v /\ kv_mod v = r2).
  { intros n r e E K Rn. destruct (last_change h n ck) as [X|(r2 & e2 & A & B & C & D)]; [exfalso; eapply X; eauto|].
    exists r2, e2. assert (r <= r2) by (destruct (Z_le_dec r r2); auto; exfalso; apply (D r e); auto; lia).
    repeat split; auto. rewrite (kv_at_last h n ck r2 e2 A B D).
    destruct (R_ck _ _ HR _ _ B C) as [C1 C2]. fold h in C2. rewrite (kv_at_step _ _ _ _ B). destruct e2 as [k2 c2]. simpl in C, C1. subst k2 c2.
    rewrite change_key_same. eexists; split; reflexivity. }
  destruct (R_row _ _ HR _ I) as (c & E & _). fold h in E. rewrite N in *.
  destruct (LAST f (id x) _ E eq_refl L) as (r2 & e2 & A & B & C & v & V & M).
  exists v. split; [exact V|]. destruct (Z.eq_dec r2 (id x)) as [->|NE]; [exact M|]. exfalso.
  destruct (LAST (r2 - 1) (id x) _ E eq_refl) as (r3 & e3 & _ & _ & _ & v' & V' & _); [lia|].
  destruct (R_ck _ _ HR _ _ B C) as [_ Z]. fold h in Z. congruence.
Qed.

Lemma nodup_interval : forall (l : list Z) a b, NoDup l -> (forall x, In x l -> a < x <= b) -> a <= b -> Z.of_nat (length l) <= b - a.
Proof.
  intros l a b ND B L.
  assert (incl l (map (fun i => a + Z.of_nat i) (List.seq 1 (Z.to_nat (b - a))))).
  { intros x I. pose proof (B x I). apply in_map_iff. exists (Z.to_nat (x - a)). split; [lia|]. apply in_seq. lia. }
  apply NoDup_incl_length in H; auto. rewrite map_length, seq_length in H. lia.
Qed.

Lemma unchanged_after h f k : 0 <= f <= revision h ->
  ~ In k (map e_key (skipn (Z.to_nat f) h)) -> now h k = kv_at h f k.
Proof.
  intros F N. rewrite <- kv_at_now. symmetry. symmetry. apply kv_at_unchanged; [lia|].
  intros r e Hr E K. apply N. apply in_map_iff. exists e. split; auto.
  pose proof (ent_bounds h r e E) as EB. unfold ent in E. destruct (Z.leb_spec 1 r); [|lia].
  assert (X : nth_error (firstn (Z.to_nat f) h ++ skipn (Z.to_nat f) h) (Z.to_nat (r - 1)) = Some e) by (rewrite firstn_skipn; exact E).
  rewrite nth_error_app2 in X. { apply nth_error_In in X. exact X. }
  rewrite firstn_length. lia.
Qed.

Lemma rows_bound w live : wreach w ->
  (forall k, now (history_of (snd w)) k <> None -> In k live) ->
  Z.of_nat (length (rows (fst w))) <= Z.of_nat (length live) + 2 * (revision (history_of (snd w)) - floor_of (snd w)).
Proof.
  intros HW LV. pose proof (reach_R _ _ HW) as HR.
  destruct (floor_bounds _ HW) as [F0 F1].
  set (h := history_of (snd w)) in *. set (f := floor_of (snd w)) in *.
  set (low := filter (fun x => id x <=? f) (rows (fst w))). set (high := filter (fun x => negb (id x <=? f)) (rows (fst w))).
  assert (LEN : (length (rows (fst w)) = length low + length high)%nat).
  { unfold low, high. clear. induction (rows (fst w)) as [|x l IH]; auto. simpl. destruct (id x <=? f); simpl; lia. }
  assert (U : NoDup (map id (rows (fst w)))) by apply (R_unique _ _ HR).
  assert (H1 : Z.of_nat (length high) <= revision h - f).
  { rewrite <- (map_length id). apply nodup_interval; [| |lia].
    - apply (unique_filter _ _ U).
    - intros z I. apply in_map_iff in I. destruct I as (x & <- & I). apply filter_In in I. destruct I as [I X].
      apply negb_true_iff, Z.leb_gt in X. pose proof (R_rows_rev _ _ _ HR I). fold h in H. lia. }
  assert (H2 : (length low <= length live + Z.to_nat (revision h - f))%nat).
  { assert (incl (map name low) (live ++ map e_key (skipn (Z.to_nat f) h))).
    { intros k I. apply in_map_iff in I. destruct I as (x & <- & I). apply filter_In in I. destruct I as [I X]. apply Z.leb_le in X.
      destruct (low_row w x HW I X) as (v & V & _). fold h f in V. apply in_or_app.
      destruct (in_dec bytes_eq_dec (name x) (map e_key (skipn (Z.to_nat f) h))); auto. left. apply LV.
      fold h. rewrite (unchanged_after h f (name x)); [congruence|lia|assumption]. }
    assert (ND : NoDup (map name low)).
    { assert (P : forall l, incl l low -> NoDup l -> NoDup (map name l)).
      { induction l as [|x l IH]; intros IN N; [constructor|]. inversion N as [|? ? N1 N2]; subst. simpl. constructor.
        - intros J. apply in_map_iff in J. destruct J as (y & E & J). apply N1.
          assert (IX : In x low) by (apply IN; left; auto). assert (IY : In y low) by (apply IN; right; auto).
          unfold low in IX, IY. apply filter_In in IX, IY. destruct IX as [IX LX], IY as [IY LY]. apply Z.leb_le in LX, LY.
          destruct (low_row w x HW IX LX) as (v & V & M). destruct (low_row w y HW IY LY) as (v' & V' & M').
          rewrite E in V'. rewrite V in V'. injection V' as <-.
          rewrite (unique_inj _ x y U IX IY); [exact J|congruence].
        - apply IH; auto. intros z Z. apply IN. right; auto. }
      apply P; [intros z Z; exact Z|]. apply NoDup_filter. apply nodup_unique, U. }
    apply NoDup_incl_length in H; auto. rewrite map_length, app_length, map_length, skipn_length in H.
    unfold revision. rewrite <- (Nat2Z.id (length h)) in H. rewrite Z2Nat.inj_sub by lia. lia. }
  lia.
Qed.
Lemma rows_after_compaction cfg w live : wreach w -> revision (history_of (snd w)) <> 0 ->
  let w' := after_compaction cfg w in
  (forall k, value_of cfg w' k <> None -> In k live) ->
  Z.of_nat (length (rows (fst w'))) <= Z.of_nat (length live) + 200.
Proof.
  intros HW N w' LV. destruct (compaction_run cfg w HW N) as (_ & HW' & F & _). fold w' in HW', F.
  assert (B := rows_bound w' live HW'). cbv zeta in *.
  assert (Z.of_nat (length (rows (fst w'))) <= Z.of_nat (length live) + 2 * (revision (history_of (snd w')) - floor_of (snd w'))).
  { apply B. intros k K. apply LV. rewrite value_of_now; auto. }
  lia.
Qed.
