(** The simulation relation between the table and the specification. *)
From Coq Require Import List ZArith Bool Lia Sorting.Sorted.
From Verif Require Import Bytes Spec Sql System SpecLemmas SqlLemmas.
Import ListNotations.
Open Scope Z_scope.

Local Notation ck := compact_rev_key.

Definition is_del (c : change) : bool := match c with Del => true | Put _ _ => false end.

Definition row_ok (h : history) (f : Z) (x : row) : Prop :=
  exists c, ent h (id x) = Some (Entry (name x) c) /\
  deleted x = is_del c /\
  (match c with
   | Put v l => value x = v /\ lease x = l
   | Del => value x = [] /\ exists o, kv_at h (id x - 1) (name x) = Some o /\ lease x = kv_lease o
   end) /\
  (match kv_at h (id x - 1) (name x) with
   | None => created x = true /\ create_revision x = 0 /\ old_value x = [] /\
             (name x = ck -> prev_revision x = f) /\
             (name x <> ck -> 0 <= prev_revision x < id x /\
                (prev_revision x = 0 \/ ent h (prev_revision x) = Some (Entry (name x) Del)))
   | Some o => created x = false /\ create_revision x = kv_create o /\
               prev_revision x = kv_mod o /\ old_value x = kv_value o
   end).

Definition retained (h : history) (f r : Z) (e : entry) : Prop :=
  e_key e = ck \/ f < r \/
  (is_del (e_change e) = false /\
   forall r' e', r < r' <= f -> ent h r' = Some e' -> e_key e' <> e_key e).

Record R (d : db) (s : store) : Prop := {
  R_seq : seq d = revision (history_of s);
  R_sorted : StronglySorted id_lt (rows d);
  R_floor : 0 <= floor_of s /\ (floor_of s < revision (history_of s) \/ floor_of s = 0);
  R_del : forall r k, ent (history_of s) r = Some (Entry k Del) -> kv_at (history_of s) (r - 1) k <> None;
  R_row : forall x, In x (rows d) -> row_ok (history_of s) (floor_of s) x;
  R_keep : forall r e, ent (history_of s) r = Some e ->
     ((exists x, In x (rows d) /\ id x = r) <-> retained (history_of s) (floor_of s) r e);
  R_ck : forall r e, ent (history_of s) r = Some e -> e_key e = ck ->
     e_change e = Put [] 0 /\ kv_at (history_of s) (r - 1) ck = None;
  R_ckfloor : now (history_of s) ck = None -> floor_of s = 0
}.

Definition kv_of (x : row) : kv := KV (name x) (value x) (lease x) (create_rev_of x) (id x).

Lemma R_unique d s : R d s -> unique_ids (rows d).
Proof. intros H. apply sorted_unique, (R_sorted _ _ H). Qed.

Lemma row_kv h f x : row_ok h f x -> 
  kv_at h (id x) (name x) = if deleted x then None else Some (kv_of x).
Proof.
  intros (c & E & D & V & P). rewrite (kv_at_step _ _ _ _ E), change_key_same, D.
  destruct c as [v l|]; auto. simpl. unfold kv_of, create_rev_of. destruct V as [-> ->].
  destruct (kv_at h (id x - 1) (name x)) as [o|].
  - destruct P as (-> & -> & _). reflexivity.
  - destruct P as (-> & _). reflexivity.
Qed.

(** The latest row of a key at or below [n] tells the version at [n]. *)
Lemma read_row d s n k : R d s -> floor_of s <= n ->
  kv_at (history_of s) n k =
  match max_row (filter (fun r => beqb (name r) k && (id r <=? n)) (rows d)) with
  | Some x => if deleted x then None else Some (kv_of x)
  | None => None
  end.
Proof.
  intros HR Hn. set (h := history_of s) in *. set (f := floor_of s) in *.
  set (C := filter _ _).
  assert (InC : forall y, In y C <-> In y (rows d) /\ name y = k /\ id y <= n).
  { intros y. unfold C. rewrite filter_In, andb_true_iff, beqb_true, Z.leb_le. tauto. }
  destruct (last_change h n k) as [No|(r & e & Hr & He & Hk & Last)].
  - rewrite kv_at_never by auto.
    replace (max_row C) with (@None row); auto. symmetry. apply max_row_none.
    destruct C as [|y C'] eqn:EC; auto. exfalso.
    destruct (proj1 (InC y)) as (I1 & I2 & I3); [simpl; auto|].
    destruct (R_row _ _ HR _ I1) as (c & E & _). apply (No _ _ I3 E). simpl. congruence.
  - assert (K : kv_at h n k = kv_at h r k) by (eapply kv_at_last; eauto).
    destruct (max_row C) as [x|] eqn:M.
    + apply max_row_spec in M. destruct M as [I U]. apply InC in I. destruct I as (I1 & I2 & I3).
      pose proof (R_row _ _ HR _ I1) as RO. 
      assert (id x = r) as <-.
      { destruct RO as (c & E & _).
        destruct (Z.lt_trichotomy (id x) r) as [L|[L|L]]; auto; exfalso.
        - assert (Rx : retained h f (id x) (Entry (name x) c)) by (apply (R_keep _ _ HR); eauto).
          assert (Rr : retained h f r e).
          { destruct Rx as [A|[A|[A B]]]; simpl in *.
            - left. congruence.
            - right; left. lia.
            - destruct (Z_lt_dec f r); [right; left; lia|]. exfalso. apply (B r e); auto; [lia|congruence]. }
          apply (R_keep _ _ HR _ _ He) in Rr. destruct Rr as (y & Iy & Ey).
          assert (In y C).
          { apply InC. repeat split; auto; [|lia].
            destruct (R_row _ _ HR _ Iy) as (c' & E' & _). rewrite Ey in E'.
            fold h in E'. rewrite He in E'. inversion E'. subst e. auto. }
          specialize (U _ H). lia.
        - apply (Last _ _ (conj L I3) E). auto. }
      rewrite K. rewrite <- I2. apply (row_kv _ _ _ RO).
    + apply max_row_none in M.
      assert (~ retained h f r e).
      { intros Rr. apply (R_keep _ _ HR _ _ He) in Rr. destruct Rr as (y & Iy & Ey).
        assert (In y C).
          { apply InC. repeat split; auto; [|lia].
            destruct (R_row _ _ HR _ Iy) as (c' & E' & _). rewrite Ey in E'.
            fold h in E'. rewrite He in E'. inversion E'. subst e. auto. }
        rewrite M in H. destruct H. }
      rewrite K, (kv_at_step _ _ _ _ He). destruct e as [k' c]. simpl in Hk. subst k'.
      rewrite change_key_same. destruct c as [v l|]; auto. exfalso. apply H.
      destruct (Z_lt_dec f r); [right; left; lia|]. right; right. split; auto.
      intros r' e' Hr' He'. simpl. apply (Last r'); auto. lia.
Qed.

(** current version *)
Lemma R_rows_rev d s x : R d s -> In x (rows d) -> 1 <= id x <= revision (history_of s).
Proof. intros HR I. destruct (R_row _ _ HR _ I) as (c & E & _). eapply ent_bounds; eauto. Qed.

Lemma read_now d s k : R d s ->
  now (history_of s) k =
  match max_row (filter (fun r => beqb (name r) k) (rows d)) with
  | Some x => if deleted x then None else Some (kv_of x)
  | None => None
  end.
Proof.
  intros HR. rewrite <- kv_at_now. rewrite (read_row d s); auto.
  - replace (filter (fun r => beqb (name r) k && (id r <=? revision (history_of s))) (rows d))
      with (filter (fun r => beqb (name r) k) (rows d)); auto.
    apply filter_ext_in. intros y Hy. pose proof (R_rows_rev _ _ _ HR Hy).
    replace (id y <=? revision (history_of s)) with true by (symmetry; apply Z.leb_le; lia).
    now rewrite andb_true_r.
  - destruct (R_floor _ _ HR) as [? [?|?]]; pose proof (revision_nonneg (history_of s)); lia.
Qed.

Lemma live_at_spec d s k rev : R d s ->
  live_at k rev d =
  match max_row (filter (fun r => beqb (name r) k) (rows d)) with
  | Some x => if negb (deleted x) && (id x =? rev) then [x] else []
  | None => []
  end.
Proof.
  intros HR. unfold live_at. rewrite max_row_opt.
  destruct (max_row _) as [x|] eqn:M; simpl; auto.
  apply max_row_spec in M. destruct M as [I _]. apply filter_In in I. destruct I as [I _].
  destruct (negb (deleted x) && (id x =? rev)) eqn:E.
  - apply andb_true_iff in E. destruct E as [E1 E2]. apply Z.eqb_eq in E2.
    apply filter_id_single; auto. { eapply R_unique; eauto. }
    intros y Hy. rewrite !andb_true_iff, !Z.eqb_eq. split.
    + intros [[A _] _]. eapply unique_inj; eauto. eapply R_unique; eauto.
    + intros ->. auto.
  - apply filter_none. intros y Hy. destruct (id y =? id x) eqn:F; auto. simpl.
    apply Z.eqb_eq in F. assert (y = x) by (eapply unique_inj; eauto; eapply R_unique; eauto).
    now subst.
Qed.

Lemma live_at_now d s k rev : R d s ->
  match now (history_of s) k with
  | Some o => if kv_mod o =? rev
              then exists x, live_at k rev d = [x] /\ In x (rows d) /\ kv_of x = o
              else live_at k rev d = []
  | None => live_at k rev d = []
  end.
Proof.
  intros HR. rewrite (live_at_spec _ _ _ _ HR), (read_now _ _ _ HR).
  destruct (max_row _) as [x|] eqn:M; auto.
  destruct (deleted x) eqn:D; simpl; auto.
  destruct (id x =? rev) eqn:E; auto. exists x. repeat split; auto.
  apply max_row_spec in M. destruct M as [I _]. apply filter_In in I. tauto.
Qed.

(** ---- preservation: a committed write ---- *)
Lemma row_ok_app h f x e : row_ok h f x -> row_ok (h ++ [e]) f x.
Proof.
  intros (c & E & D & V & P). pose proof (ent_bounds _ _ _ E) as B. exists c.
  rewrite ent_app, kv_at_app by lia.
  split; [auto|split; [auto|split; [auto|]]].
  destruct (kv_at h (id x - 1) (name x)); [exact P|].
  destruct P as (P1 & P2 & P3 & P4 & P5). repeat split; auto; try (apply P5; auto).
  intros. destruct (P5 H) as [Q1 [Q2|Q2]]; auto. right. rewrite ent_app by lia. auto.
Qed.

Lemma R_commit d s k c x :
  R d s ->
  id x = revision (history_of s) + 1 ->
  name x = k ->
  row_ok (history_of s ++ [Entry k c]) (floor_of s) x ->
  (c = Del -> now (history_of s) k <> None) ->
  (k = ck -> c = Put [] 0 /\ now (history_of s) ck = None) ->
  R (insert d x) (Store (history_of s ++ [Entry k c]) (floor_of s)).
Proof.
  intros HR Hid Hk Hx Hdel Hck. set (h := history_of s) in *. set (f := floor_of s) in *.
  pose proof (revision_nonneg h) as Hpos.
  destruct (R_floor _ _ HR) as [F0 F1]. fold h f in F0, F1.
  assert (Ff : f <= revision h) by lia.
  constructor; cbn [history_of floor_of insert rows seq].
  - rewrite revision_snoc. exact Hid.
  - apply sorted_app. split; [apply (R_sorted _ _ HR)|]. split; [repeat constructor|].
    intros a b Ha [<-|[]]. unfold id_lt. pose proof (R_rows_rev _ _ _ HR Ha). fold h in H. lia.
  - rewrite revision_snoc. split; auto. left. lia.
  - intros r k' E. apply ent_snoc_inv in E. destruct E as [[L E]|[-> E]].
    + rewrite kv_at_app by lia. apply (R_del _ _ HR _ _ E).
    + inversion E; subst. rewrite kv_at_app, kv_at_full by lia. auto.
  - intros y Hy. apply in_app_iff in Hy. destruct Hy as [Hy|[<-|[]]]; auto.
    apply row_ok_app. now apply (R_row _ _ HR).
  - intros r e E. apply ent_snoc_inv in E. destruct E as [[L E]|[-> E]].
    + pose proof (R_keep _ _ HR _ _ E) as K. fold h f in K.
      assert (RR : retained (h ++ [Entry k c]) f r e <-> retained h f r e).
      { unfold retained. split; (intros [A|[A|[A B]]]; [auto|auto|right; right; split; auto]).
        - intros r' e' Hr He. apply (B r'); auto. rewrite ent_app by lia. auto.
        - intros r' e' Hr He. apply (B r'); auto. rewrite ent_app in He by lia. auto. }
      rewrite RR, <- K. split.
      * intros (y & Iy & Ey). apply in_app_iff in Iy. destruct Iy as [Iy|[<-|[]]]; eauto. exfalso; lia.
      * intros (y & Iy & Ey). exists y. split; auto. apply in_app_iff; auto.
    + split.
      * intros _. right; left. lia.
      * intros _. exists x. split; [apply in_app_iff; simpl; auto|lia].
  - intros r e E Ek. apply ent_snoc_inv in E. destruct E as [[L E]|[-> ->]].
    + rewrite kv_at_app by lia. apply (R_ck _ _ HR _ _ E Ek).
    + simpl in *. rewrite kv_at_app by lia. replace (revision h + 1 - 1) with (revision h) by lia.
      rewrite kv_at_now. auto.
  - rewrite now_snoc. intros N. apply (R_ckfloor _ _ HR). fold h.
    unfold change_key in N. simpl in N. destruct (beqb k ck) eqn:E; auto.
    apply beqb_true in E. destruct (Hck E) as [_ A]. auto.
Qed.

Lemma now_commit_prior h e k : kv_at (h ++ [e]) (revision h) k = now h k.
Proof. rewrite kv_at_app by lia. apply kv_at_now. Qed.

Lemma R_create d s k v ttl : R d s -> (k = ck -> v = [] /\ ttl = 0) ->
  R (fst (create_sql k v ttl d)) (fst (spec_create s k v ttl)) /\
  snd (create_sql k v ttl d) = spec_result (snd (spec_create s k v ttl)).
Proof.
  intros HR Hck. unfold create_sql, spec_create, next_id. rewrite (read_now _ _ k HR).
  assert (Base : forall p, 0 <= p < revision (history_of s) + 1 ->
     (p = 0 \/ ent (history_of s) p = Some (Entry k Del)) ->
     (k = ck -> p = floor_of s) ->
     now (history_of s) k = None ->
     R (insert d (Row (seq d + 1) k true false 0 p ttl v [])) (fst (commit s k (Put v ttl)))).
  { intros p Hp Hpp Hpf N. unfold commit. simpl. apply R_commit; auto.
    - simpl. rewrite (R_seq _ _ HR). auto.
    - exists (Put v ttl). simpl. rewrite (R_seq _ _ HR), ent_snoc_new.
      replace (revision (history_of s) + 1 - 1) with (revision (history_of s)) by lia.
      rewrite now_commit_prior, N. split; [auto|split;[auto|split;[auto|]]]. 
      repeat split; auto; try lia. destruct Hpp as [->|E]; auto. right.
      rewrite ent_app; auto. apply ent_bounds in E. lia.
    - discriminate.
    - intros ->. destruct (Hck eq_refl) as [-> ->]. auto. }
  pose proof (revision_nonneg (history_of s)) as Hpos.
  destruct (max_row _) as [x|] eqn:M.
  - destruct (deleted x) eqn:D; simpl; auto.
    pose proof (read_now _ _ k HR) as RN. rewrite M, D in RN.
    apply max_row_spec in M. destruct M as [I _]. apply filter_In in I. destruct I as [I Ek].
    apply beqb_true in Ek. pose proof (R_rows_rev _ _ _ HR I).
    split; [|now rewrite (R_seq _ _ HR)]. apply Base; auto; [lia| |].
    + right. destruct (R_row _ _ HR _ I) as (c & E & Dc & _). rewrite Ek in E.
      rewrite D in Dc. destruct c; [discriminate|auto].
    + intros ->. exfalso. destruct (R_row _ _ HR _ I) as (c & E & Dc & _).
      destruct (R_ck _ _ HR _ _ E) as [A _]; [auto|]. simpl in A. subst c. simpl in Dc. congruence.
  - split; [|simpl; now rewrite (R_seq _ _ HR)]. simpl.
    pose proof (read_now _ _ k HR) as RN. rewrite M in RN.
    apply Base; auto; [lia|]. intros ->. symmetry. apply (R_ckfloor _ _ HR). auto.
Qed.

Lemma prior_row d s x c :
  R d s -> In x (rows d) -> now (history_of s) (name x) = Some (kv_of x) ->
  kv_at (history_of s ++ [Entry (name x) c]) (revision (history_of s) + 1 - 1) (name x) = Some (kv_of x).
Proof.
  intros. replace (revision (history_of s) + 1 - 1) with (revision (history_of s)) by lia.
  rewrite now_commit_prior. auto.
Qed.

Lemma R_update d s k v rev ttl : R d s -> k <> ck ->
  R (fst (update_sql k v rev ttl d)) (fst (spec_update s k v rev ttl)) /\
  snd (update_sql k v rev ttl d) = spec_result (snd (spec_update s k v rev ttl)).
Proof.
  intros HR Hck. unfold update_sql, spec_update, next_id. pose proof (live_at_now _ _ k rev HR) as L.
  destruct (now (history_of s) k) as [o|] eqn:N.
  2:{ rewrite L. simpl. auto. }
  destruct (kv_mod o =? rev) eqn:E.
  2:{ rewrite L. simpl. auto. }
  destruct L as (x & -> & I & <-).
  assert (name x = k) as Ek.
  { apply now_facts in N. destruct N as [N _]. exact N. }
  split; [|simpl; now rewrite (R_seq _ _ HR)]. simpl.
  apply R_commit; auto; simpl; try discriminate; try congruence.
  - now rewrite (R_seq _ _ HR).
  - exists (Put v ttl). simpl. rewrite (R_seq _ _ HR), ent_snoc_new. rewrite <- Ek in *.
    rewrite (prior_row d s) by auto.
    split; [auto|split;[auto|split;[auto|]]]. repeat split; auto.
Qed.

Lemma R_delete d s k rev : R d s -> k <> ck ->
  R (fst (delete_sql k rev d)) (fst (spec_delete s k rev)) /\
  snd (delete_sql k rev d) = spec_result (snd (spec_delete s k rev)).
Proof.
  intros HR Hck. unfold delete_sql, spec_delete, next_id. pose proof (live_at_now _ _ k rev HR) as L.
  destruct (now (history_of s) k) as [o|] eqn:N.
  2:{ rewrite L. simpl. auto. }
  destruct (kv_mod o =? rev) eqn:E.
  2:{ rewrite L. simpl. auto. }
  destruct L as (x & -> & I & <-).
  assert (name x = k) as Ek.
  { apply now_facts in N. destruct N as [N _]. exact N. }
  split; [|simpl; now rewrite (R_seq _ _ HR)]. simpl.
  apply R_commit; auto; simpl; try congruence.
  - now rewrite (R_seq _ _ HR).
  - exists Del. simpl. rewrite (R_seq _ _ HR), ent_snoc_new. rewrite <- Ek in *.
    rewrite (prior_row d s) by auto.
    split; [auto|split;[auto|split]]. { split; auto. exists (kv_of x). auto. }
    repeat split; auto.
Qed.

(** ---- preservation: compaction ---- *)
Definition victim (start stop : Z) (r : row) : bool :=
  negb (beqb (name r) ck) && negb (created r) && negb (prev_revision r =? 0)
    && (start <? id r) && (id r <=? stop).

Definition survives (start stop : Z) (d : db) (x : row) : Prop :=
  (forall y, In y (rows d) -> victim start stop y = true -> prev_revision y <> id x) /\
  ~ (deleted x = true /\ start < id x <= stop).

Definition touch (stop : Z) (r : row) : row :=
  if beqb (name r) ck then set_prev r (Z.max (prev_revision r) stop) else r.

Lemma compact_rows start stop d :
  rows (try_compact_tx start stop d) =
  map (touch stop)
   (filter (fun r => negb (deleted r && (start <? id r) && (id r <=? stop)))
     (filter (fun r => negb (existsb (Z.eqb (id r)) (map prev_revision (filter (victim start stop) (rows d)))))
        (rows d))).
Proof. reflexivity. Qed.

Lemma compact_in start stop d x' :
  In x' (rows (try_compact_tx start stop d)) <->
  exists x, In x (rows d) /\ survives start stop d x /\ x' = touch stop x.
Proof.
  rewrite compact_rows, in_map_iff. unfold survives. split.
  - intros (x & <- & H). apply filter_In in H. destruct H as [H A]. apply filter_In in H. destruct H as [I B].
    exists x. split; auto. split; auto. split.
    + intros y Hy V E. apply negb_true_iff in B. 
      assert (C : existsb (Z.eqb (id x)) (map prev_revision (filter (victim start stop) (rows d))) = true).
      { apply existsb_exists. exists (prev_revision y). split; [|apply Z.eqb_eq; auto].
        apply in_map. apply filter_In. auto. }
      congruence.
    + intros [D [L1 L2]]. apply negb_true_iff in A. apply Z.ltb_lt in L1. apply Z.leb_le in L2.
      rewrite D, L1, L2 in A. discriminate.
  - intros (x & I & [B A] & ->). exists x. split; auto. apply filter_In. split.
    + apply filter_In. split; auto. apply negb_true_iff. apply not_true_is_false. intros C.
      apply existsb_exists in C. destruct C as (p & Hp & E). apply Z.eqb_eq in E. subst p.
      apply in_map_iff in Hp. destruct Hp as (y & E & Hy). apply filter_In in Hy. destruct Hy as [Hy V].
      eapply B; eauto.
    + apply negb_true_iff. apply not_true_is_false. intros C. apply andb_true_iff in C. destruct C as [C L2].
      apply andb_true_iff in C. destruct C as [C L1]. apply Z.ltb_lt in L1. apply Z.leb_le in L2. auto.
Qed.

Lemma touch_id stop x : id (touch stop x) = id x.
Proof. unfold touch. destruct (beqb (name x) ck); auto. Qed.
Lemma touch_name stop x : name (touch stop x) = name x.
Proof. unfold touch. destruct (beqb (name x) ck); auto. Qed.

Lemma next_change h n k r e : ent h r = Some e -> r < n -> forall r2 e2, r < r2 <= n -> ent h r2 = Some e2 -> e_key e2 = k ->
  exists r' e', r < r' <= r2 /\ ent h r' = Some e' /\ e_key e' = k /\
    forall q eq, r < q < r' -> ent h q = Some eq -> e_key eq <> k.
Proof.
  intros _ _. 
  assert (G : forall m : nat, forall r2 e2, r2 = r + Z.of_nat m -> r < r2 -> ent h r2 = Some e2 -> e_key e2 = k ->
    exists r' e', r < r' <= r2 /\ ent h r' = Some e' /\ e_key e' = k /\
    forall q eq, r < q < r' -> ent h q = Some eq -> e_key eq <> k).
  { intros m. induction m as [m IH] using lt_wf_ind. intros r2 e2 E L H K.
    destruct (last_change h (r2 - 1) k) as [No|(q & eq & Hq & He & Hk & Last)].
    - exists r2, e2. repeat split; auto; try lia. intros. eapply No; eauto. lia.
    - destruct (Z_lt_dec r q).
      + destruct (IH (Z.to_nat (q - r))) with (r2 := q) (e2 := eq) as (r' & e' & A1 & A2 & A3 & A4); auto; try lia.
        exists r', e'. repeat split; auto; lia.
      + exists r2, e2. repeat split; auto; try lia. intros q' eq' Hq' He'. eapply Last; eauto. lia. }
  intros r2 e2 L H K. apply (G (Z.to_nat (r2 - r)) r2 e2); auto; lia.
Qed.

Lemma R_compact d s start stop : R d s -> allowed s (ACompact start stop) ->
  R (try_compact_tx start stop d) (spec_compact s stop).
Proof.
  intros HR [Hst [Hsp Hex]]. unfold spec_compact. set (h := history_of s) in *. set (f := floor_of s) in *.
  set (f' := Z.max f stop). destruct (R_floor _ _ HR) as [F0 F1]. fold h f in F0, F1.
  pose proof (revision_nonneg h) as Hpos.
  (* a row's victim is superseded at or below the new floor *)
  assert (V1 : forall y, In y (rows d) -> victim start stop y = true ->
     exists v l c, ent h (prev_revision y) = Some (Entry (name y) (Put v l)) /\
       ent h (id y) = Some (Entry (name y) c) /\ prev_revision y < id y <= stop /\ name y <> ck).
  { intros y Hy V. unfold victim in V. rewrite !andb_true_iff, !negb_true_iff in V.
    destruct V as ((((V1 & V2) & V3) & V4) & V5).
    apply beqb_false in V1. apply Z.ltb_lt in V4. apply Z.leb_le in V5.
    destruct (R_row _ _ HR _ Hy) as (c & E & D & _ & P). fold h in E, P.
    destruct (kv_at h (id y - 1) (name y)) as [o|] eqn:K.
    - destruct P as (_ & _ & P & _). apply kv_at_facts in K.
      destruct K as (K1 & K2 & K3 & K4 & K5 & K6 & K7). rewrite P.
      exists (kv_value o), (kv_lease o), c. repeat split; auto; lia.
    - destruct P as (P & _). congruence. }
  assert (KEEP : forall r e, ent h r = Some e ->
    ((exists x, In x (rows d) /\ survives start stop d x /\ id x = r) <-> retained h f' r e)).
  { intros r e E. split.
    - intros (x & I & [S1 S2] & <-). destruct (R_row _ _ HR _ I) as (c & Ex & D & _ & _). fold h in Ex.
      rewrite E in Ex. inversion Ex; subst e. clear Ex.
      assert (Rx : retained h f (id x) (Entry (name x) c)) by (apply (R_keep _ _ HR); eauto).
      destruct (bytes_eq_dec (name x) ck) as [|Nck]; [left; auto|].
      destruct (Z_lt_dec f' (id x)); [right; left; auto|]. right; right.
      simpl. destruct Rx as [A|[A|[A B]]]; [simpl in A; congruence| |].
      + (* above the old floor *)
        assert (Hstop : id x <= stop) by lia.
        assert (Dx : is_del c = false).
        { rewrite <- D. destruct (deleted x); auto. exfalso. apply S2. split; auto. lia. }
        split; auto. intros r' e' Hr He Hk.
        destruct (next_change h f' (name x) (id x) _ E ltac:(lia) r' e' Hr He Hk)
          as (q & eq & Q1 & Q2 & Q3 & Q4).
        destruct eq as [kq cq]. simpl in Q3. subst kq.
        assert (Ry : retained h f q (Entry (name x) cq)) by (right; left; lia).
        apply (R_keep _ _ HR _ _ Q2) in Ry. destruct Ry as (y & Iy & <-).
        destruct (R_row _ _ HR _ Iy) as (c2 & E2 & _ & _ & P). fold h in E2, P. rewrite Q2 in E2.
        inversion E2. subst c2. rewrite <- H0 in P.
        assert (KK : kv_at h (id y - 1) (name x) = kv_at h (id x) (name x)).
        { apply kv_at_unchanged; [pose proof (ent_bounds _ _ _ E); lia|]. intros; eapply Q4; eauto; lia. }
        rewrite KK, (kv_at_step _ _ _ _ E), change_key_same in P. destruct c as [v l|]; [|discriminate].
        destruct P as (P1 & _ & P2 & _). simpl in P2.
        apply (S1 y Iy); auto. unfold victim. rewrite !andb_true_iff, !negb_true_iff.
        pose proof (ent_bounds _ _ _ E). rewrite P2.
        repeat split; auto.
        * apply beqb_false. congruence.
        * apply Z.eqb_neq. lia.
        * apply Z.ltb_lt. lia.
        * apply Z.leb_le. lia.
      + simpl in A. split; auto. intros r' e' Hr He Hk.
        destruct (Z_le_dec r' f). { eapply B; eauto. lia. }
        destruct (next_change h f' (name x) (id x) _ E ltac:(lia) r' e' Hr He Hk)
          as (q & eq & Q1 & Q2 & Q3 & Q4).
        destruct (Z_le_dec q f). { eapply (B q); eauto. lia. }
        destruct eq as [kq cq]. simpl in Q3. subst kq.
        assert (Ry : retained h f q (Entry (name x) cq)) by (right; left; lia).
        apply (R_keep _ _ HR _ _ Q2) in Ry. destruct Ry as (y & Iy & <-).
        destruct (R_row _ _ HR _ Iy) as (c2 & E2 & _ & _ & P). fold h in E2, P. rewrite Q2 in E2.
        inversion E2. subst c2. rewrite <- H0 in P.
        assert (KK : kv_at h (id y - 1) (name x) = kv_at h (id x) (name x)).
        { apply kv_at_unchanged; [pose proof (ent_bounds _ _ _ E); lia|]. intros; eapply Q4; eauto; lia. }
        rewrite KK, (kv_at_step _ _ _ _ E), change_key_same in P. destruct c as [v l|]; [|discriminate].
        destruct P as (P1 & _ & P2 & _). simpl in P2.
        apply (S1 y Iy); auto. unfold victim. rewrite !andb_true_iff, !negb_true_iff.
        pose proof (ent_bounds _ _ _ E). rewrite P2.
        repeat split; auto.
        * apply beqb_false. congruence.
        * apply Z.eqb_neq. lia.
        * apply Z.ltb_lt. lia.
        * apply Z.leb_le. lia.
    - intros Rr. assert (Rf : retained h f r e).
      { destruct Rr as [A|[A|[A B]]]; [left; auto|right; left; lia|].
        right; right. split; auto. intros; eapply B; eauto. lia. }
      apply (R_keep _ _ HR _ _ E) in Rf. destruct Rf as (x & I & <-). exists x. split; auto. split; auto.
      destruct (R_row _ _ HR _ I) as (c & Ex & D & _ & _). fold h in Ex.
      rewrite E in Ex. inversion Ex; subst e. clear Ex. split.
      + intros y Hy V Ep. destruct (V1 _ Hy V) as (v & l & c2 & A1 & A2 & A3 & A4).
        rewrite Ep, E in A1. inversion A1. subst c.
        destruct Rr as [B|[B|[B C]]]; simpl in *.
        * congruence.
        * lia.
        * apply (C (id y) _ ltac:(lia) A2). simpl. congruence.
      + intros [Dx L]. destruct Rr as [B|[B|[B C]]]; simpl in *.
        * destruct (R_ck _ _ HR _ _ E) as [X _]; [exact B|]. simpl in X. subst c. simpl in D. congruence.
        * lia.
        * congruence. }
  constructor; cbn [history_of floor_of].
  - apply (R_seq _ _ HR).
  - rewrite compact_rows. apply sorted_map with (f := touch stop) (R := id_lt).
    eapply sorted_impl; [|apply sorted_filter, sorted_filter, (R_sorted _ _ HR)].
    unfold id_lt. intros a b. rewrite !touch_id. auto.
  - unfold f' in *. split; lia.
  - apply (R_del _ _ HR).
  - intros x' Hx'. apply compact_in in Hx'. destruct Hx' as (x & I & S & ->).
    destruct (R_row _ _ HR _ I) as (c & E & D & V & P). fold h f in E, D, V, P.
    unfold touch. destruct (beqb (name x) ck) eqn:B.
    + apply beqb_true in B. exists c. cbn [set_prev id name created deleted create_revision prev_revision lease value old_value].
      split; auto. split; auto. split; auto.
      destruct (R_ck _ _ HR _ _ E) as [A1 A2]; auto. fold h in A2. rewrite B in *. rewrite A2 in *.
      destruct P as (P1 & P2 & P3 & P4 & P5). split; [auto|split; [auto|split; [auto|split]]].
      * intros _. rewrite P4 by auto. reflexivity.
      * congruence.
    + apply beqb_false in B. exists c. split; auto. split; auto. split; auto.
      destruct (kv_at h (id x - 1) (name x)); auto.
      destruct P as (P1 & P2 & P3 & P4 & P5). repeat split; auto; try apply P5; auto; congruence.
  - intros r e E. rewrite <- (KEEP r e E). split.
    + intros (x' & Hx' & <-). apply compact_in in Hx'. destruct Hx' as (x & I & S & ->).
      exists x. rewrite touch_id. auto.
    + intros (x & I & S & <-). exists (touch stop x). split; [|apply touch_id].
      apply compact_in. eauto.
  - apply (R_ck _ _ HR).
  - fold h. intros N. congruence.
Qed.

Lemma R_init : R empty_db empty_store.
Proof.
  assert (N : forall r, ent [] r = None).
  { intros. destruct (ent [] r) eqn:E; auto. apply ent_bounds in E. rewrite revision_nil in E. lia. }
  constructor; cbn [empty_db empty_store history_of floor_of rows seq].
  - reflexivity.
  - constructor.
  - lia.
  - intros r k. rewrite N. discriminate.
  - intros x [].
  - intros r e. rewrite N. discriminate.
  - intros r e. rewrite N. discriminate.
  - auto.
Qed.

Lemma R_step d s a : R d s -> allowed s a ->
  R (fst (apply d a)) (fst (spec_apply s a)) /\ snd (apply d a) = snd (spec_apply s a).
Proof.
  intros HR HA. destruct a as [k v ttl|k v rev ttl|k rev|start stop|rev]; simpl in HA; try tauto.
  - pose proof (R_create _ _ k v ttl HR HA) as [A B]. simpl.
    destruct (spec_create s k v ttl) as [s' r]. simpl in *. auto.
  - pose proof (R_update _ _ k v rev ttl HR HA) as [A B]. simpl.
    destruct (spec_update s k v rev ttl) as [s' r]. simpl in *. auto.
  - pose proof (R_delete _ _ k rev HR HA) as [A B]. simpl.
    destruct (spec_delete s k rev) as [s' r]. simpl in *. auto.
  - simpl. split; auto. apply R_compact; auto.
Qed.

Lemma reach_R d s : reach d s -> R d s.
Proof. induction 1; [apply R_init|]. now apply R_step. Qed.
