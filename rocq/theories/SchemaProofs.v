From Coq Require Import List ZArith Bool Lia.
From Verif Require Import Bytes Spec Sql System Prog Schema.
Import ListNotations.
Open Scope Z_scope.

Definition int16 (z : Z) : Prop := - 2 ^ 15 <= z < 2 ^ 15.
Lemma to_int16_id z : int16 z -> to_int16 z = z.
Proof. unfold int16, to_int16. intros H. rewrite Z.mod_small; lia. Qed.
Lemma encode_nonneg M m : 0 <= m < 2 ^ 15 -> new_schema_version M m = M * 2 ^ 16 + m.
Proof.
  intros H. unfold new_schema_version. rewrite <- Z.shiftl_mul_pow2 by lia. 
  assert (L : Z.land (Z.shiftl M 16) m = 0); [|rewrite Z.add_nocarry_lxor by auto; symmetry; now apply Z.lxor_lor]. apply Z.bits_inj'. intros n N. rewrite Z.land_spec, Z.bits_0.
  destruct (Z_lt_ge_dec n 16) as [L|L].
  - now rewrite Z.shiftl_spec_low by lia.
  - rewrite (Z.bits_above_log2 m n); [apply andb_false_r|lia|]. destruct (Z.eq_dec m 0) as [->|]; [cbn; lia|].
    assert (Z.log2 m < 16); [|lia]. apply Z.log2_lt_pow2; lia.
Qed.
Lemma encode_neg M m : - 2 ^ 15 <= m < 0 -> new_schema_version M m = m.
Proof.
  intros H. unfold new_schema_version. apply Z.bits_inj'. intros n N. rewrite Z.lor_spec.
  destruct (Z_lt_ge_dec n 16) as [L|L].
  - now rewrite Z.shiftl_spec_low by lia.
  - rewrite (Z.bits_above_log2_neg m n); [apply orb_true_r|lia|]. destruct (Z.eq_dec m (-1)) as [->|]; [cbn; lia|].
    assert (Z.log2 (Z.pred (- m)) < 16); [|lia]. apply Z.log2_lt_pow2; lia.
Qed.
Lemma decode_major M m : 0 <= m < 2 ^ 15 -> int16 M -> sv_major (new_schema_version M m) = M.
Proof.
  intros H HM. rewrite encode_nonneg by auto. unfold sv_major. rewrite Z.shiftr_div_pow2 by lia.
  rewrite Z.div_add_l by lia. rewrite (Z.div_small m) by lia. rewrite Z.add_0_r. now apply to_int16_id.
Qed.
Lemma decode_minor M m : 0 <= m < 2 ^ 15 -> sv_minor (new_schema_version M m) = m.
Proof.
  intros H. rewrite encode_nonneg by auto. unfold sv_minor, to_int16.
  replace (M * 2 ^ 16 + m + 2 ^ 15) with (m + 2 ^ 15 + M * 2 ^ 16) by lia. rewrite Z.mod_add by lia. rewrite Z.mod_small; lia.
Qed.
Lemma roundtrip M m : int16 M -> 0 <= m < 2 ^ 15 ->
  sv_major (new_schema_version M m) = M /\ sv_minor (new_schema_version M m) = m.
Proof. intros. split; [now apply decode_major|now apply decode_minor]. Qed.
Lemma order M1 m1 M2 m2 : 0 <= m1 < 2 ^ 15 -> 0 <= m2 < 2 ^ 15 ->
  (new_schema_version M1 m1 < new_schema_version M2 m2 <-> M1 < M2 \/ M1 = M2 /\ m1 < m2).
Proof. intros H1 H2. rewrite !encode_nonneg by auto. change (2 ^ 16) with (65536). change (2 ^ 15) with 32768 in *. lia. Qed.
Lemma compat M m Mt mt : int16 M -> int16 Mt -> 0 <= m < 2 ^ 15 -> 0 <= mt < 2 ^ 15 ->
  (compatible_with (new_schema_version M m) (new_schema_version Mt mt) = true <-> (M = 0 /\ m = 0) \/ M = Mt).
Proof.
  intros. unfold compatible_with. rewrite !decode_major, decode_minor by auto.
  destruct (Z.eqb_spec M 0), (Z.eqb_spec m 0); cbn; rewrite ?Z.eqb_eq; lia.
Qed.
Lemma in_int32 M m : int16 M -> 0 <= m < 2 ^ 15 -> - 2 ^ 31 <= new_schema_version M m < 2 ^ 31.
Proof. unfold int16. intros. rewrite encode_nonneg by auto. lia. Qed.
Lemma schema_encoding M1 m1 M2 m2 : int16 M1 -> 0 <= m1 < 2 ^ 15 -> int16 M2 -> 0 <= m2 < 2 ^ 15 ->
  (sv_major (new_schema_version M1 m1) = M1 /\ sv_minor (new_schema_version M1 m1) = m1) /\
  (new_schema_version M1 m1 < new_schema_version M2 m2 <-> M1 < M2 \/ M1 = M2 /\ m1 < m2) /\
  (compatible_with (new_schema_version M1 m1) (new_schema_version M2 m2) = true <-> (M1 = 0 /\ m1 = 0) \/ M1 = M2).
Proof. intros. split; [now apply roundtrip|]. split; [now apply order|now apply compat]. Qed.
Lemma schema_negative M m : - 2 ^ 15 <= m < 0 -> new_schema_version M m = m /\ sv_major (new_schema_version M m) = -1.
Proof.
  intros H. rewrite encode_neg by auto. split; auto. unfold sv_major. rewrite Z.shiftr_div_pow2 by lia.
  replace (m / 2 ^ 16) with (-1); [reflexivity|]. apply Z.div_unique with (r := m + 2 ^ 16); lia.
Qed.

(** ** setup *)
Definition int32 (z : Z) : Prop := - 2 ^ 31 <= z < 2 ^ 31.
Lemma version_1_0 : database_schema_version = 65536. Proof. reflexivity. Qed.
Lemma check_none v : int32 v -> setup_check v = None <-> v = 0.
Proof.
  intros H. unfold int32 in H. split; [|intros ->; reflexivity]. unfold setup_check, compatible_with. rewrite version_1_0.
  change (sv_major 65536) with 1. destruct (Z.eqb_spec (sv_major v) 0) as [M|M]; destruct (Z.eqb_spec (sv_minor v) 0) as [m|m]; cbn [andb negb].
  - destruct (65536 <=? v); [discriminate|]. intros _. unfold sv_major, sv_minor, to_int16 in *. rewrite Z.shiftr_div_pow2 in M by lia.
    change (2 ^ 16) with 65536 in *. change (2 ^ 15) with 32768 in *. change (2 ^ 31) with 2147483648 in *.
    pose proof (Z.div_mod v 65536 ltac:(lia)). pose proof (Z.mod_pos_bound v 65536 ltac:(lia)).
    assert (Q : -32768 <= v / 65536 < 32768) by (split; [apply Z.div_le_lower_bound|apply Z.div_lt_upper_bound]; lia).
    rewrite Z.mod_small in M by lia. 
    assert (v mod 65536 = v) by lia. rewrite <- H2 in m. destruct (Z_lt_ge_dec v 32768).
    + rewrite H2 in m. rewrite Z.mod_small in m; lia.
    + rewrite H2 in m. replace (v + 32768) with (v - 32768 + 1 * 65536) in m by lia. rewrite Z.mod_add in m by lia. rewrite Z.mod_small in m; lia.
  - rewrite M. cbn. discriminate.
  - destruct (Z.eqb_spec (sv_major v) 1) as [M1|M1]; cbn [negb]; [|discriminate]. destruct (Z.leb_spec 65536 v); [discriminate|]. intros _.
    unfold sv_major, to_int16 in *. rewrite Z.shiftr_div_pow2 in M1 by lia. change (2 ^ 16) with 65536 in *. change (2 ^ 15) with 32768 in *. change (2 ^ 31) with 2147483648 in *.
    assert (Q : -32768 <= v / 65536 < 32768) by (split; [apply Z.div_le_lower_bound|apply Z.div_lt_upper_bound]; lia).
    rewrite Z.mod_small in M1 by lia. pose proof (Z.div_mod v 65536 ltac:(lia)). pose proof (Z.mod_pos_bound v 65536 ltac:(lia)). lia.
  - destruct (Z.eqb_spec (sv_major v) 1) as [M1|M1]; cbn [negb]; [|discriminate]. destruct (Z.leb_spec 65536 v); [discriminate|]. intros _.
    unfold sv_major, to_int16 in *. rewrite Z.shiftr_div_pow2 in M1 by lia. change (2 ^ 16) with 65536 in *. change (2 ^ 15) with 32768 in *. change (2 ^ 31) with 2147483648 in *.
    assert (Q : -32768 <= v / 65536 < 32768) by (split; [apply Z.div_le_lower_bound|apply Z.div_lt_upper_bound]; lia).
    rewrite Z.mod_small in M1 by lia. pose proof (Z.div_mod v 65536 ltac:(lia)). pose proof (Z.mod_pos_bound v 65536 ltac:(lia)). lia.
Qed.

Definition shape (s : schema) : Z * bool * (bool * bool * bool) :=
  (sc_version s, match sc_table s with Some _ => true | None => false end, (sc_name s, sc_prev s, sc_del s)).
Definition final_shape : Z * bool * (bool * bool * bool) := (65536, true, (false, false, true)).
Definition writes (acts : list caction) : list aop := flat_map (fun a => match a with CWrite x => [x] | _ => [] end) acts.

Lemma setup_tx_cases f s : int32 (sc_version s) ->
  (fst (setup_tx f s) = s /\ (sc_version s = 0 -> exists u, snd (setup_tx f s) = inr u)) \/
  (sc_version s = 0 /\ shape (fst (setup_tx f s)) = final_shape /\
   match sc_table s with Some d => sc_table (fst (setup_tx f s)) = Some d | None => sc_table (fst (setup_tx f s)) = Some empty_db end).
Proof.
  intros H. unfold setup_tx. destruct (negb (compatible_with (sc_version s) database_schema_version)) eqn:K.
  - left. destruct f; cbn; eauto.
  - destruct (database_schema_version <=? sc_version s) eqn:L.
    + left. assert (sc_version s <> 0) by (rewrite version_1_0 in L; apply Z.leb_le in L; lia). destruct f; cbn; (split; [reflexivity|]); intros; (contradiction || eauto).
    + destruct (Z.eqb_spec (sc_version s) (new_schema_version 0 0)) as [E|E].
      * change (new_schema_version 0 0) with 0 in E. unfold apply_v0_1. destruct (sc_table s) as [d|] eqn:T.
        { destruct (distinct_pairs (rows d)); destruct f; cbn; eauto; right; rewrite E; repeat split; auto. }
        { destruct f; cbn; eauto; right; rewrite E; repeat split; auto. }
      * left. destruct f; cbn; (split; [reflexivity|]); intros; (contradiction || eauto).
Qed.
Lemma nth_set_other {A} i (x : A) l j : nth_error (set_nth i x l) j = Some x \/ nth_error (set_nth i x l) j = nth_error l j.
Proof. revert i j; induction l as [|y l IH]; intros [|i] [|j]; cbn; auto. Qed.
Lemma nth_set_same {A} i (x y : A) l : nth_error l i = Some y -> nth_error (set_nth i x l) i = Some x.
Proof. revert i; induction l as [|z l IH]; intros [|i] H; cbn in *; try discriminate; auto. Qed.
Lemma table_step c a : int32 (sc_version (c_schema c)) ->
  match sc_table (c_schema c) with
  | Some d => sc_table (c_schema (cstep c a)) = Some (fold_left (fun d x => fst (apply d x)) (writes [a]) d)
  | None => sc_table (c_schema (cstep c a)) = None \/ sc_table (c_schema (cstep c a)) = Some empty_db
  end.
Proof.
  intros H. destruct a as [i|i f|i|x]; cbn [cstep writes flat_map app fold_left].
  - destruct (nth_error (c_servers c) i) as [[| |v]|]; try (destruct (sc_table (c_schema c)); auto; fail).
    destruct (setup_check _); cbn [c_schema]; destruct (sc_table (c_schema c)); auto.
  - destruct (nth_error (c_servers c) i) as [[| |v]|]; try (destruct (sc_table (c_schema c)); auto; fail).
    pose proof (setup_tx_cases f (c_schema c) H) as K. destruct (setup_tx f (c_schema c)) as [s [v|u]]; cbn [fst] in K; cbn [c_schema];
      destruct K as [[-> _]|(_ & _ & K)]; destruct (sc_table (c_schema c)); auto.
  - cbn [c_schema]. destruct (sc_table (c_schema c)); auto.
  - destruct (sc_table (c_schema c)) as [d|] eqn:T; cbn [c_schema sc_table]; auto.
Qed.
Definition CI (s0 : schema) (c : cluster) : Prop :=
  int32 (sc_version (c_schema c)) /\
  (shape (c_schema c) = shape s0 \/ (sc_version s0 = 0 /\ shape (c_schema c) = final_shape)) /\
  (sc_version s0 = 0 -> c_ever c = true -> shape (c_schema c) = final_shape).
Lemma final_version s : shape s = final_shape -> sc_version s = 65536.
Proof. unfold shape, final_shape. congruence. Qed.
Lemma CI_step s0 c a : CI s0 c -> CI s0 (cstep c a).
Proof.
  intros (H & S & F). destruct a as [i|i f|i|x]; cbn [cstep].
  - destruct (nth_error (c_servers c) i) as [[| |v]|]; try (exact (conj H (conj S F))).
    destruct (setup_check (sc_version (c_schema c))) as [v|] eqn:K; split; cbn [c_schema c_ever]; auto; split; auto.
    intros V _. destruct S as [S|[_ S]]; auto. exfalso. assert (sc_version (c_schema c) = 0) as Z0 by (rewrite <- V; unfold shape in S; congruence).
    rewrite Z0 in K. discriminate.
  - destruct (nth_error (c_servers c) i) as [[| |v]|]; try (exact (conj H (conj S F))).
    destruct (setup_tx_cases f (c_schema c) H) as [[E R]|(Z0 & E & _)].
    + destruct (setup_tx f (c_schema c)) as [s r]. cbn [fst snd] in E, R. subst s. destruct r as [v|u]; split; cbn [c_schema c_ever]; auto; split; auto.
      intros V _. destruct S as [S|[_ S]]; auto. exfalso. destruct R as [u R]; [|discriminate]. rewrite <- V. unfold shape in S. congruence.
    + assert (V : sc_version s0 = 0). { destruct S as [S|[V _]]; auto. rewrite <- Z0. unfold shape in S. congruence. }
      destruct (setup_tx f (c_schema c)) as [s r]. cbn [fst] in E.
      assert (I32 : int32 (sc_version s)) by (rewrite (final_version _ E); unfold int32; lia).
      destruct r as [v|u]; split; cbn [c_schema c_ever]; auto.
  - split; cbn [c_schema c_ever]; auto.
  - destruct (sc_table (c_schema c)) as [d|] eqn:T; [|exact (conj H (conj S F))].
    assert (SH : shape (Schema (sc_version (c_schema c)) (Some (fst (apply d x))) (sc_name (c_schema c)) (sc_prev (c_schema c)) (sc_del (c_schema c))) = shape (c_schema c))
      by (unfold shape; cbn [sc_version sc_table sc_name sc_prev sc_del]; now rewrite T).
    split; cbn [c_schema c_ever]; rewrite ?SH; auto.
Qed.
Lemma CI_run s0 acts : forall c, CI s0 c -> CI s0 (crun acts c).
Proof. induction acts as [|a acts IH]; intros c H; [auto|]. cbn [crun fold_left]. apply IH. now apply CI_step. Qed.
Definition fresh (s : schema) (n : nat) : cluster := Cluster s (repeat SIdle n) false.
Lemma CI_fresh s n : int32 (sc_version s) -> CI s (fresh s n).
Proof. intros H. split; [auto|]. split; [now left|discriminate]. Qed.

Lemma setup_same s n acts : int32 (sc_version s) ->
  let c := crun acts (fresh s n) in
  (shape (c_schema c) = shape s \/ (sc_version s = 0 /\ shape (c_schema c) = final_shape)) /\
  (sc_version s = 0 -> c_ever c = true -> shape (c_schema c) = final_shape).
Proof. intros H c. destruct (CI_run s acts _ (CI_fresh s n H)) as (_ & A & B). auto. Qed.
Lemma setup_rows s n acts d : int32 (sc_version s) -> sc_table s = Some d ->
  sc_table (c_schema (crun acts (fresh s n))) = Some (fold_left (fun d x => fst (apply d x)) (writes acts) d).
Proof.
  intros H T. pose proof (CI_fresh s n H) as C. assert (T' : sc_table (c_schema (fresh s n)) = Some d) by exact T. clear T.
  remember (fresh s n) as c. clear Heqc. revert c d C T'. induction acts as [|a acts IH]; intros c d C T; [exact T|].
  cbn [crun fold_left]. pose proof (table_step c a (proj1 C)) as K. rewrite T in K.
  specialize (IH (cstep c a) _ (CI_step _ _ _ C) K). unfold crun in IH. rewrite IH. f_equal.
  change (writes (a :: acts)) with ((match a with CWrite x => [x] | _ => [] end) ++ writes acts). rewrite fold_left_app. f_equal.
  unfold writes. cbn [flat_map]. now rewrite app_nil_r.
Qed.
Lemma setup_norows s n acts : int32 (sc_version s) -> sc_table s = None -> writes acts = [] ->
  table_rows (c_schema (crun acts (fresh s n))) = [].
Proof.
  intros H T W. pose proof (CI_fresh s n H) as C.
  assert (T' : sc_table (c_schema (fresh s n)) = None \/ sc_table (c_schema (fresh s n)) = Some empty_db) by (left; exact T). clear T.
  remember (fresh s n) as c. clear Heqc. revert c C T'. induction acts as [|a acts IH]; intros c C T.
  - cbn. unfold table_rows. destruct T as [-> | ->]; reflexivity.
  - cbn [crun fold_left]. change (writes (a :: acts)) with ((match a with CWrite x => [x] | _ => [] end) ++ writes acts) in W.
    apply app_eq_nil in W. destruct W as [W1 W2]. apply IH; auto; [now apply CI_step|].
    pose proof (table_step c a (proj1 C)) as K. destruct T as [T|T]; rewrite T in K; [exact K|].
    right. rewrite K. f_equal. unfold writes. cbn [flat_map]. rewrite W1. reflexivity.
Qed.
(** progress: alone and without faults a server gets through *)
Lemma setup_works s n acts i : int32 (sc_version s) ->
  let c := crun acts (fresh s n) in
  nth_error (c_servers c) i = Some SIdle ->
  distinct_pairs (table_rows (c_schema c)) = true ->
  exists v, nth_error (c_servers (crun [CStart i; CTx i SFNone] c)) i = Some (SReady v).
Proof.
  intros H c I D. destruct (CI_run s acts _ (CI_fresh s n H)) as (H32 & _). fold c in H32. cbn [crun fold_left].
  cbn [cstep]. rewrite I. destruct (setup_check (sc_version (c_schema c))) as [v|] eqn:K.
  - exists v. cbn [c_servers c_schema]. erewrite nth_set_same by exact I. cbn [c_servers]. eapply nth_set_same. exact I.
  - apply (check_none _ H32) in K. cbn [c_servers c_schema]. erewrite nth_set_same by exact I. unfold setup_tx. rewrite K. cbn [negb].
    change (compatible_with 0 database_schema_version) with true. change (database_schema_version <=? 0) with false. change (0 =? new_schema_version 0 0) with true. cbn [negb].
    unfold apply_v0_1. unfold table_rows in D. destruct (sc_table (c_schema c)) as [d|]; rewrite ?D; cbn [c_servers]; exists 0; eapply nth_set_same; eapply nth_set_same; exact I.
Qed.
Lemma setup_newer c i : nth_error (c_servers c) i = Some SIdle -> 2 <= sv_major (sc_version (c_schema c)) ->
  nth_error (c_servers (cstep c (CStart i))) i = Some (SReady (sc_version (c_schema c))).
Proof.
  intros I M. cbn [cstep]. rewrite I. unfold setup_check, compatible_with.
  change (sv_major database_schema_version) with 1.
  replace (sv_major (sc_version (c_schema c)) =? 0) with false by (symmetry; apply Z.eqb_neq; lia).
  replace (sv_major (sc_version (c_schema c)) =? 1) with false by (symmetry; apply Z.eqb_neq; lia). cbn.
  eapply nth_set_same. exact I.
Qed.

(** The unique index fits the rows iff no two have the same previous revision and name. *)
Lemma distinct_pairs_iff l : distinct_pairs l = true <-> NoDup (map (fun r => (prev_revision r, name r)) l).
Proof.
  induction l as [|r l IH]; cbn [distinct_pairs map]; [split; [constructor|reflexivity]|].
  rewrite andb_true_iff, negb_true_iff, IH. split.
  - intros [H1 H2]. constructor; [|exact H2]. intros H. apply in_map_iff in H. destruct H as (x & E & Hx). injection E as E1 E2.
    assert (X : existsb (fun x => (prev_revision x =? prev_revision r) && beqb (name x) (name r)) l = true).
    { apply existsb_exists. exists x. split; [exact Hx|]. rewrite E1, E2, Z.eqb_refl, beqb_refl. reflexivity. }
    congruence.
  - intros H. inversion H as [|x y H1 H2]; subst. split; [|exact H2].
    destruct (existsb (fun x => (prev_revision x =? prev_revision r) && beqb (name x) (name r)) l) eqn:X; [|reflexivity].
    apply existsb_exists in X. destruct X as (x & Hx & E). apply andb_true_iff in E. destruct E as [E1 E2].
    apply Z.eqb_eq in E1. apply beqb_true in E2. destruct H1. apply in_map_iff. exists x. split; [congruence|exact Hx].
Qed.
Lemma setup_works_nodup s n acts i : int32 (sc_version s) ->
  let c := crun acts (fresh s n) in
  nth_error (c_servers c) i = Some SIdle ->
  NoDup (map (fun r => (prev_revision r, name r)) (table_rows (c_schema c))) ->
  exists v, nth_error (c_servers (crun [CStart i; CTx i SFNone] c)) i = Some (SReady v).
Proof. intros H c I D. apply setup_works; [exact H|exact I|]. apply distinct_pairs_iff. exact D. Qed.
Lemma setup_refuses c i f : nth_error (c_servers c) i = Some SIdle -> sc_version (c_schema c) = 0 ->
  ~ NoDup (map (fun r => (prev_revision r, name r)) (table_rows (c_schema c))) ->
  let c' := crun [CStart i; CTx i f] c in
  nth_error (c_servers c') i = Some SIdle /\ c_schema c' = c_schema c.
Proof.
  intros I V D. assert (D' : distinct_pairs (table_rows (c_schema c)) = false).
  { destruct (distinct_pairs (table_rows (c_schema c))) eqn:X; [|reflexivity]. destruct D. apply distinct_pairs_iff. exact X. }
  assert (K : setup_check (sc_version (c_schema c)) = None) by (rewrite V; reflexivity).
  cbv zeta. cbn [crun fold_left cstep]. rewrite I, K. cbn [c_servers c_schema]. erewrite nth_set_same by exact I. unfold setup_tx. rewrite V.
  change (compatible_with 0 database_schema_version) with true. change (database_schema_version <=? 0) with false. change (0 =? new_schema_version 0 0) with true. cbn [negb].
  unfold apply_v0_1. unfold table_rows in D'. destruct (sc_table (c_schema c)) as [d|] eqn:T; [|discriminate D']. rewrite D'.
  destruct f; cbn [c_servers c_schema]; (split; [eapply nth_set_same; eapply nth_set_same; exact I|reflexivity]).
Qed.
