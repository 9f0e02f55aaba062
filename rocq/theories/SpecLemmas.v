(** Lemmas about the specification. *)
From Coq Require Import List ZArith Bool Lia Sorting.Sorted.
From Verif Require Import Bytes Spec.
Import ListNotations.
Open Scope Z_scope.

(** The change of revision [r]. *)
Definition ent (h : history) (r : Z) : option entry :=
  if 1 <=? r then nth_error h (Z.to_nat (r - 1)) else None.

Lemma replay_app k h1 h2 r old :
  replay k (h1 ++ h2) r old = replay k h2 (r + Z.of_nat (length h1)) (replay k h1 r old).
Proof.
  revert r old; induction h1; intros; cbn [replay app length].
  - f_equal; lia.
  - rewrite IHh1. f_equal; lia.
Qed.

Lemma now_snoc h e k : now (h ++ [e]) k = change_key k (revision h + 1) e (now h k).
Proof. unfold now, revision. rewrite replay_app. simpl. reflexivity. Qed.

Lemma revision_snoc h e : revision (h ++ [e]) = revision h + 1.
Proof. unfold revision. rewrite app_length. simpl. lia. Qed.
Lemma revision_app h l : revision (h ++ l) = revision h + revision l.
Proof. unfold revision. rewrite app_length. lia. Qed.
Lemma revision_nonneg h : 0 <= revision h.
Proof. unfold revision; lia. Qed.
Lemma revision_nil : revision [] = 0. Proof. reflexivity. Qed.

Lemma kv_at_full h n k : revision h <= n -> kv_at h n k = now h k.
Proof. unfold revision, kv_at. intros. rewrite firstn_all2; auto. lia. Qed.

Lemma kv_at_now h k : kv_at h (revision h) k = now h k.
Proof. apply kv_at_full; lia. Qed.

Lemma kv_at_app h l n k : n <= revision h -> kv_at (h ++ l) n k = kv_at h n k.
Proof.
  unfold kv_at, revision. intros. rewrite firstn_app.
  replace (Z.to_nat n - length h)%nat with O by lia. simpl. now rewrite app_nil_r.
Qed.

Lemma kv_at_zero h n k : n <= 0 -> kv_at h n k = None.
Proof. unfold kv_at. intros. replace (Z.to_nat n) with O by lia. reflexivity. Qed.

Lemma ent_bounds h r e : ent h r = Some e -> 1 <= r <= revision h.
Proof.
  unfold ent, revision. destruct (1 <=? r) eqn:E; try discriminate. intros H.
  apply Z.leb_le in E.
  assert (Z.to_nat (r - 1) < length h)%nat by (apply nth_error_Some; congruence). lia.
Qed.

Lemma ent_some h r : 1 <= r <= revision h -> exists e, ent h r = Some e.
Proof.
  unfold ent, revision. intros. replace (1 <=? r) with true by (symmetry; apply Z.leb_le; lia).
  destruct (nth_error h (Z.to_nat (r - 1))) eqn:E; eauto.
  apply nth_error_None in E. lia.
Qed.

Lemma ent_app h l r : r <= revision h -> ent (h ++ l) r = ent h r.
Proof.
  unfold ent, revision. intros. destruct (1 <=? r) eqn:E; auto. apply Z.leb_le in E.
  apply nth_error_app1. lia.
Qed.

Lemma ent_snoc_new h e : ent (h ++ [e]) (revision h + 1) = Some e.
Proof.
  unfold ent, revision. replace (1 <=? Z.of_nat (length h) + 1) with true by (symmetry; apply Z.leb_le; lia).
  replace (Z.to_nat (Z.of_nat (length h) + 1 - 1)) with (length h) by lia.
  rewrite nth_error_app2 by lia. now rewrite Nat.sub_diag.
Qed.

Lemma ent_snoc_inv h e r e' : ent (h ++ [e]) r = Some e' ->
  (r <= revision h /\ ent h r = Some e') \/ (r = revision h + 1 /\ e' = e).
Proof.
  intros H. pose proof (ent_bounds _ _ _ H) as B. rewrite revision_snoc in B.
  destruct (Z.eq_dec r (revision h + 1)) as [->|N].
  - right. rewrite ent_snoc_new in H. split; congruence.
  - left. rewrite ent_app in H by lia. split; auto. lia.
Qed.

(** one-step unfolding of [kv_at] *)
Lemma kv_at_step h r e k : ent h r = Some e ->
  kv_at h r k = change_key k r e (kv_at h (r - 1) k).
Proof.
  intros H. pose proof (ent_bounds _ _ _ H) as B. unfold ent in H.
  replace (1 <=? r) with true in H by (symmetry; apply Z.leb_le; lia).
  unfold kv_at. destruct (nth_error_split _ _ H) as (h1 & h2 & -> & L).
  replace (Z.to_nat r) with (S (Z.to_nat (r - 1))) by lia. rewrite <- L.
  replace (firstn (S (length h1)) (h1 ++ e :: h2)) with (h1 ++ [e]).
  2:{ rewrite firstn_app, firstn_all2 by lia.
      replace (S (length h1) - length h1)%nat with 1%nat by lia. reflexivity. }
  rewrite now_snoc. rewrite firstn_app, firstn_all, Nat.sub_diag. simpl. rewrite app_nil_r.
  f_equal. unfold revision. lia.
Qed.

Lemma change_key_other k r e o : e_key e <> k -> change_key k r e o = o.
Proof. unfold change_key. intros. apply beqb_false in H. now rewrite H. Qed.
Lemma change_key_same k r c o : change_key k r (Entry k c) o =
  match c with
  | Put v l => Some (KV k v l (match o with Some x => kv_create x | None => r end) r)
  | Del => None
  end.
Proof. unfold change_key. simpl. now rewrite beqb_refl. Qed.

(** induction on a revision interval *)
Lemma kv_at_unchanged h a b k : 0 <= a <= b ->
  (forall r e, a < r <= b -> ent h r = Some e -> e_key e <> k) ->
  kv_at h b k = kv_at h a k.
Proof.
  intros [Ha Hab] H. 
  assert (G : forall n, (n <= Z.to_nat (b - a))%nat -> kv_at h (a + Z.of_nat n) k = kv_at h a k).
  { induction n; intros.
    - f_equal; lia.
    - destruct (Z_le_dec (a + Z.of_nat (S n)) (revision h)).
      + destruct (ent_some h (a + Z.of_nat (S n))) as [e E]; [lia|].
        rewrite (kv_at_step _ _ _ _ E). rewrite change_key_other.
        * rewrite <- IHn by lia. f_equal. lia.
        * eapply H; [|eauto]. lia.
      + rewrite <- IHn by lia. rewrite !kv_at_full by lia. auto. }
  specialize (G (Z.to_nat (b - a)) ltac:(lia)). rewrite <- G. f_equal. lia.
Qed.

(** last change of [k] at or below [n] *)
Lemma last_change h n k :
  (forall r e, r <= n -> ent h r = Some e -> e_key e <> k) \/
  (exists r e, r <= n /\ ent h r = Some e /\ e_key e = k /\
     forall r' e', r < r' <= n -> ent h r' = Some e' -> e_key e' <> k).
Proof.
  destruct (Z_le_dec n 0) as [L|L].
  { left. intros r e Hr He. apply ent_bounds in He. lia. }
  assert (G : forall m : nat,
    (forall r e, r <= Z.of_nat m -> ent h r = Some e -> e_key e <> k) \/
    (exists r e, r <= Z.of_nat m /\ ent h r = Some e /\ e_key e = k /\
     forall r' e', r < r' <= Z.of_nat m -> ent h r' = Some e' -> e_key e' <> k)).
  { induction m.
    - left. intros r e Hr He. apply ent_bounds in He. lia.
    - destruct (ent h (Z.of_nat (S m))) as [e|] eqn:E.
      + destruct (bytes_eq_dec (e_key e) k).
        * right. exists (Z.of_nat (S m)), e. repeat split; auto; try lia.
          
        * destruct IHm as [IH|(r & e' & H1 & H2 & H3 & H4)].
          -- left. intros r e' Hr He'. destruct (Z.eq_dec r (Z.of_nat (S m))).
             ++ subst. congruence.
             ++ apply (IH r); auto. lia.
          -- right. exists r, e'. repeat split; auto; try lia.
             intros r' e2 Hr He2. destruct (Z.eq_dec r' (Z.of_nat (S m))).
             ++ subst. congruence.
             ++ apply (H4 r'); auto. lia.
      + destruct IHm as [IH|(r & e' & H1 & H2 & H3 & H4)].
        -- left. intros r e' Hr He'. destruct (Z.eq_dec r (Z.of_nat (S m))).
             ++ subst. congruence.
             ++ apply (IH r); auto. lia.
          -- right. exists r, e'. repeat split; auto; try lia.
             intros r' e2 Hr He2. destruct (Z.eq_dec r' (Z.of_nat (S m))).
             ++ subst. congruence.
             ++ apply (H4 r'); auto. lia. }
  specialize (G (Z.to_nat n)). rewrite Z2Nat.id in G by lia. exact G.
Qed.

Lemma kv_at_last h n k r e : r <= n -> ent h r = Some e ->
  (forall r' e', r < r' <= n -> ent h r' = Some e' -> e_key e' <> k) ->
  kv_at h n k = kv_at h r k.
Proof.
  intros. pose proof (ent_bounds _ _ _ H0). apply kv_at_unchanged; auto; lia.
Qed.

Lemma kv_at_never h n k :
  (forall r e, r <= n -> ent h r = Some e -> e_key e <> k) -> kv_at h n k = None.
Proof.
  intros. destruct (Z_le_dec n 0). { now apply kv_at_zero. }
  rewrite (kv_at_unchanged h 0 n k).
  - now apply kv_at_zero.
  - lia.
  - intros; eapply H; eauto; lia.
Qed.

(** everything about a live version *)
Lemma kv_at_facts h n k x : kv_at h n k = Some x ->
  kv_key x = k /\ 1 <= kv_create x <= kv_mod x /\ kv_mod x <= n /\ kv_mod x <= revision h /\
  ent h (kv_mod x) = Some (Entry k (Put (kv_value x) (kv_lease x))) /\
  (forall r e, kv_mod x < r <= n -> ent h r = Some e -> e_key e <> k) /\
  kv_at h (kv_mod x) k = Some x.
Proof.
  revert x. destruct (Z_le_dec n 0). { intros. rewrite kv_at_zero in H by lia. discriminate. }
  assert (G : forall m : nat, forall x, kv_at h (Z.of_nat m) k = Some x ->
    kv_key x = k /\ 1 <= kv_create x <= kv_mod x /\ kv_mod x <= Z.of_nat m /\ kv_mod x <= revision h /\
    ent h (kv_mod x) = Some (Entry k (Put (kv_value x) (kv_lease x))) /\
    (forall r e, kv_mod x < r <= Z.of_nat m -> ent h r = Some e -> e_key e <> k) /\
    kv_at h (kv_mod x) k = Some x).
  { induction m; intros x H.
    - rewrite kv_at_zero in H by lia. discriminate.
    - destruct (ent h (Z.of_nat (S m))) as [e|] eqn:E.
      + pose proof (ent_bounds _ _ _ E) as B. pose proof H as H0.
        rewrite (kv_at_step _ _ _ _ E) in H.
        replace (Z.of_nat (S m) - 1) with (Z.of_nat m) in H by lia.
        destruct (bytes_eq_dec (e_key e) k) as [Ek|Nk].
        * destruct e as [k' c]. simpl in Ek. subst k'. rewrite change_key_same in H.
          destruct c as [v l|]; try discriminate. inversion H; subst x; clear H.
          cbn [kv_key kv_value kv_lease kv_create kv_mod].
          split; auto. split; [|split; [lia|split; [lia|split; [auto|split; [intros; lia|auto]]]]].
          destruct (kv_at h (Z.of_nat m) k) eqn:F; [|lia].
          specialize (IHm _ eq_refl). lia.
        * rewrite change_key_other in H by auto. apply IHm in H.
          destruct H as (A1 & A2 & A3 & A4 & A5 & A6 & A7).
          repeat split; auto; try lia. intros r e' Hr He'.
          destruct (Z.eq_dec r (Z.of_nat (S m))); [subst; congruence|]. eapply A6; eauto. lia.
      + assert (F : kv_at h (Z.of_nat m) k = Some x).
        { rewrite <- H. symmetry. apply kv_at_unchanged; [lia|]. intros r e Hr He.
          replace r with (Z.of_nat (S m)) in He by lia. congruence. }
        apply IHm in F. destruct F as (A1 & A2 & A3 & A4 & A5 & A6 & A7).
          repeat split; auto; try lia. intros r e' Hr He'.
          destruct (Z.eq_dec r (Z.of_nat (S m))); [subst; congruence|]. eapply A6; eauto. lia. }
  specialize (G (Z.to_nat n)). rewrite Z2Nat.id in G by lia. exact G.
Qed.

Lemma now_facts h k x : now h k = Some x ->
  kv_key x = k /\ 1 <= kv_create x <= kv_mod x /\ kv_mod x <= revision h /\
  ent h (kv_mod x) = Some (Entry k (Put (kv_value x) (kv_lease x))) /\
  (forall r e, kv_mod x < r -> ent h r = Some e -> e_key e <> k) /\
  kv_at h (kv_mod x) k = Some x.
Proof.
  rewrite <- kv_at_now. intros H. apply kv_at_facts in H.
  destruct H as (A1 & A2 & A3 & A4 & A5 & A6 & A7). repeat split; auto; try lia.
  intros. pose proof (ent_bounds _ _ _ H0). eapply A6; eauto. lia.
Qed.

(** snapshots are unique *)
Lemma snapshot_unique h n lo hi L1 L2 :
  is_snapshot h n lo hi L1 -> is_snapshot h n lo hi L2 -> L1 = L2.
Proof.
  intros [S1 M1] [S2 M2].
  assert (E : forall x, In x L1 <-> In x L2).
  { intros. rewrite M1, M2. tauto. }
  clear M1 M2. revert L2 S2 E. induction S1 as [|a L1 S1 IH F1]; intros L2 S2 E.
  - destruct L2 as [|b L2]; auto. exfalso. apply (E b). simpl; auto.
  - destruct S2 as [|b L2 S2 F2]. { exfalso. apply (E a). simpl; auto. }
    rewrite Forall_forall in F1, F2.
    assert (a = b).
    { destruct (proj1 (E a)) as [|Ha]; [simpl; auto|auto|].
      destruct (proj2 (E b)) as [|Hb]; [simpl; auto|auto|].
      exfalso. specialize (F1 _ Hb). specialize (F2 _ Ha). unfold key_lt in *.
      eapply blt_asym; eauto. }
    subst b. f_equal. apply IH; auto. intros x. split; intros Hx.
    + destruct (proj1 (E x)) as [->|]; auto; [simpl; auto|].
      exfalso. specialize (F1 _ Hx). now apply blt_irrefl in F1.
    + destruct (proj2 (E x)) as [->|]; auto; [simpl; auto|].
      exfalso. specialize (F2 _ Hx). now apply blt_irrefl in F2.
Qed.
