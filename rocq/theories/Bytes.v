(** Byte strings and their order.
    Models Go [bytes.Compare] (used in pkg/backend/internal/backend/utils.go:80-87)
    and SQLite's BINARY collation (memcmp) used for every comparison on [name]
    in pkg/backend/sqlite/driver.go:86-272.  A byte is an [N]; nothing in the
    code depends on the upper bound 255 except where a comment says so. *)
From Coq Require Import List NArith ZArith Bool Lia.
Import ListNotations.

(** Go []byte / string and SQLite TEXT/BLOB contents; values above 255 are never excluded by the theorems. *)
Definition bytes := list N.

(** bytes.Compare / memcmp-then-length. *)
Fixpoint bcmp (a b : bytes) : comparison :=
  match a, b with
  | [], [] => Eq
  | [], _ :: _ => Lt
  | _ :: _, [] => Gt
  | x :: a', y :: b' =>
      match N.compare x y with
      | Eq => bcmp a' b'
      | c => c
      end
  end.

(** Equality test of names: SQL `=` on kine.name (driver.go:92-272) and bytes.Equal. *)
Definition beqb (a b : bytes) : bool := match bcmp a b with Eq => true | _ => false end.
(** SQL `<` on kine.name (driver.go:92-209). *)
Definition bltb (a b : bytes) : bool := match bcmp a b with Lt => true | _ => false end.
(** SQL `<=` / `>=` on kine.name (driver.go:92-209). *)
Definition bleb (a b : bytes) : bool := match bcmp a b with Gt => false | _ => true end.

Lemma bcmp_refl a : bcmp a a = Eq.
Proof. induction a; simpl; auto. rewrite N.compare_refl; auto. Qed.

Lemma bcmp_eq a b : bcmp a b = Eq -> a = b.
Proof.
  revert b; induction a as [|x a IH]; destruct b as [|y b]; simpl; try congruence; auto.
  destruct (N.compare_spec x y); try congruence. intros. f_equal; auto.
Qed.

Lemma bcmp_opp a b : bcmp b a = CompOpp (bcmp a b).
Proof.
  revert b; induction a as [|x a IH]; destruct b as [|y b]; simpl; auto.
  rewrite (N.compare_antisym x y). destruct (N.compare x y); simpl; auto.
Qed.

Lemma bcmp_lt_trans a b c : bcmp a b = Lt -> bcmp b c = Lt -> bcmp a c = Lt.
Proof.
  revert b c; induction a as [|x a IH]; intros [|y b] [|z c]; simpl; intros H K; try congruence.
  destruct (N.compare_spec x y) as [E|E|E]; try congruence;
  destruct (N.compare_spec y z) as [E'|E'|E']; try congruence;
  destruct (N.compare_spec x z) as [E2|E2|E2]; try congruence; try lia.
  eauto.
Qed.

Lemma beqb_true a b : beqb a b = true <-> a = b.
Proof.
  unfold beqb; split.
  - destruct (bcmp a b) eqn:E; try discriminate; intros _; now apply bcmp_eq.
  - intros ->; now rewrite bcmp_refl.
Qed.
Lemma beqb_false a b : beqb a b = false <-> a <> b.
Proof.
  split; intros.
  - intros E. apply beqb_true in E. congruence.
  - destruct (beqb a b) eqn:E; auto. apply beqb_true in E; congruence.
Qed.
Lemma beqb_refl a : beqb a a = true.
Proof. now apply beqb_true. Qed.

(** Order of keys as a proposition, for specifications (bytes.Compare, utils.go:80-87). *)
Definition blt (a b : bytes) : Prop := bcmp a b = Lt.
(** As [blt], not greater. *)
Definition ble (a b : bytes) : Prop := bcmp a b <> Gt.

Lemma bltb_true a b : bltb a b = true <-> blt a b.
Proof. unfold bltb, blt; destruct (bcmp a b); split; congruence. Qed.
Lemma bleb_true a b : bleb a b = true <-> ble a b.
Proof. unfold bleb, ble; destruct (bcmp a b); split; congruence. Qed.

Lemma blt_irrefl a : ~ blt a a.
Proof. unfold blt; rewrite bcmp_refl; congruence. Qed.
Lemma blt_trans a b c : blt a b -> blt b c -> blt a c.
Proof. apply bcmp_lt_trans. Qed.
Lemma blt_asym a b : blt a b -> ~ blt b a.
Proof. intros H K. apply (blt_irrefl a). eauto using blt_trans. Qed.
Lemma ble_lt_eq a b : ble a b <-> blt a b \/ a = b.
Proof.
  unfold ble, blt. split.
  - destruct (bcmp a b) eqn:E; auto; try congruence. right; now apply bcmp_eq.
  - intros [H| ->]; [rewrite H|rewrite bcmp_refl]; congruence.
Qed.
Lemma blt_total a b : blt a b \/ a = b \/ blt b a.
Proof.
  unfold blt. rewrite (bcmp_opp a b). destruct (bcmp a b) eqn:E; simpl; auto.
  right; left; now apply bcmp_eq.
Qed.
Lemma not_ble a b : ~ ble a b <-> blt b a.
Proof.
  unfold ble, blt. rewrite (bcmp_opp a b). destruct (bcmp a b); simpl; split; intros; try congruence;
  exfalso; apply H; congruence.
Qed.
Lemma not_blt a b : ~ blt a b <-> ble b a.
Proof.
  unfold ble, blt. rewrite (bcmp_opp a b). destruct (bcmp a b); simpl; split; congruence.
Qed.
Lemma ble_trans a b c : ble a b -> ble b c -> ble a c.
Proof.
  rewrite !ble_lt_eq. intros [H| ->] [K| ->]; auto. left; eauto using blt_trans.
Qed.
Lemma ble_lt_trans a b c : ble a b -> blt b c -> blt a c.
Proof. rewrite ble_lt_eq. intros [H| ->] K; auto. eauto using blt_trans. Qed.
Lemma blt_le_trans a b c : blt a b -> ble b c -> blt a c.
Proof. rewrite ble_lt_eq. intros K [H| <-]; auto. eauto using blt_trans. Qed.
Lemma ble_refl a : ble a a.
Proof. apply ble_lt_eq; auto. Qed.

(** the smallest byte string greater than [k] : [append(key, 0)] *)
Definition bsucc (k : bytes) : bytes := k ++ [0%N].

Lemma bsucc_spec k x : (ble k x /\ blt x (bsucc k)) <-> x = k.
Proof.
  split.
  - unfold ble, blt, bsucc. revert x; induction k as [|a k IH]; destruct x as [|b x]; simpl.
    + auto.
    + intros [_ H]. destruct (N.compare_spec b 0) as [E|E|E]; try discriminate.
      * destruct x; discriminate.
      * lia.
    + intros [H _]; congruence.
    + intros [H1 H2]. rewrite (N.compare_antisym a b) in H2.
      destruct (N.compare_spec a b) as [E|E|E]; simpl in *; try congruence.
      subst. f_equal. apply IH. auto.
  - intros ->. split; [apply ble_refl|]. unfold blt, bsucc.
    induction k; simpl; auto. rewrite N.compare_refl; auto.
Qed.

Lemma blt_bsucc k : blt k (bsucc k).
Proof. now apply (bsucc_spec k k). Qed.

Lemma blt_ble_bsucc k x : blt k x <-> ble (bsucc k) x.
Proof.
  split; intros H.
  - apply not_blt. intros K. assert (x = k) as ->.
    { apply bsucc_spec. split; auto. apply ble_lt_eq; auto. }
    now apply blt_irrefl in H.
  - eapply blt_le_trans; [apply blt_bsucc|auto].
Qed.

Lemma blt_ble a b : blt a b -> ble a b.
Proof. intros; apply ble_lt_eq; auto. Qed.

Lemma bytes_eq_dec (a b : bytes) : {a = b} + {a <> b}.
Proof. destruct (beqb a b) eqn:E; [left; now apply beqb_true | right; now apply beqb_false]. Qed.
