(** Driver.Compact called with any revision (driver.go:585-614). *)
From Coq Require Import List ZArith Bool Lia.
From Verif Require Import Bytes Spec Sql System Prog Backend Limited Api Observe SpecLemmas SqlLemmas Sim ProgLemmas ApiLemmas StoreProofs Demo.
Import ListNotations.
Open Scope Z_scope.

Local Notation ck := compact_rev_key.

Lemma filter_map_same {A} (p : A -> bool) (g : A -> A) l : (forall x, p (g x) = p x) -> filter p (map g l) = map g (filter p l).
Proof. intros H. induction l as [|x l IH]; simpl; auto. rewrite H. destruct (p x); simpl; now rewrite IH. Qed.
Lemma filter_keep {A} (p q : A -> bool) l : (forall x, In x l -> p x = true -> q x = true) -> filter p (filter q l) = filter p l.
Proof.
  induction l as [|x l IH]; simpl; auto. intros H. destruct (q x) eqn:E; simpl.
  - destruct (p x); rewrite IH; auto.
  - destruct (p x) eqn:P; [rewrite (H x (or_introl eq_refl) P) in E; discriminate|]. apply IH. auto.
Qed.
Lemma max_opt_map_max r l m : max_opt l = Some m -> max_opt (map (fun x => Z.max x r) l) = Some (Z.max m r).
Proof.
  rewrite !max_opt_spec. intros [I U]. split; [apply in_map_iff; eauto|].
  intros y Y. apply in_map_iff in Y. destruct Y as (x & <- & X). specialize (U x X). lia.
Qed.

(** The row named compact_rev_key (driver.go:211-218). *)
Definition is_ck (r : row) : bool := beqb (name r) ck.

Lemma compact_interval w start stop : wreach w -> now (history_of (snd w)) ck <> None ->
  fst (revision_interval_sql (try_compact_tx start stop (fst w))) = Some (Z.max (floor_of (snd w)) stop).
Proof.
  intros HW CK. pose proof (reach_R _ _ HW) as HR. destruct w as [d s]. cbn [fst snd] in *.
  Transparent revision_interval_sql.
  pose proof (proj1 (interval_R _ _ HR)) as IV. cbn [revision_interval_sql fst] in *.
  assert (ROW : forall x, In x (rows d) -> name x = ck -> deleted x = false /\ prev_revision x = floor_of s).
  { intros x I N. destruct (R_row _ _ HR _ I) as (c & E & D & V & P). destruct (R_ck _ _ HR _ _ E) as [C K]; [exact N|].
    cbn [e_change] in C. subst c. rewrite N, K in P. split; [exact D|]. destruct P as (_ & P). now apply P. }
  assert (SOME : exists m, max_opt (map prev_revision (filter (fun r => beqb (name r) ck) (rows d))) = Some m).
  { destruct (max_opt (map prev_revision (filter (fun r => beqb (name r) ck) (rows d)))) as [m|] eqn:E; [eauto|]. exfalso. apply max_opt_none in E.
    apply CK. rewrite (read_now d s) by auto. destruct (filter _ (rows d)) eqn:F; [reflexivity|discriminate]. }
  destruct SOME as [m M]. rewrite M in IV. cbn in IV. subst m.
  unfold try_compact_tx, update_compact_sql. cbn [rows].
  set (upd := fun r => if beqb (name r) ck then set_prev r (Z.max (prev_revision r) stop) else r).
  rewrite filter_map_same by (intros x; unfold upd; destruct (beqb (name x) ck) eqn:E; cbn; rewrite E; reflexivity).
  cbn [compact_tombstones_sql rows compact_superseded_sql].
  rewrite filter_keep.
  2:{ intros x I N. apply filter_In in I. destruct I as [I _]. apply beqb_true in N. destruct (ROW x I N) as [-> _]. reflexivity. }
  rewrite filter_keep.
  2:{ intros x I N. apply beqb_true in N. apply negb_true_iff. apply not_true_is_false. intros EX.
      apply existsb_exists in EX. destruct EX as (p & P & E). apply Z.eqb_eq in E. subst p.
      apply in_map_iff in P. destruct P as (y & E & Y). apply filter_In in Y. destruct Y as [Y F].
      rewrite !andb_true_iff, !negb_true_iff in F. destruct F as ((((F1 & F2) & F3) & _) & _).
      destruct (R_row _ _ HR _ Y) as (c & EY & DY & VY & PY).
      destruct (kv_at (history_of s) (id y - 1) (name y)) as [o|] eqn:KO.
      - destruct PY as (_ & _ & PM & _). apply kv_at_facts in KO. destruct KO as (_ & _ & _ & _ & EO & _).
        destruct (R_row _ _ HR _ I) as (c' & EX & _). rewrite <- E, PM, EO in EX. injection EX as EX _.
        rewrite EX, N, beqb_refl in F1. discriminate.
      - destruct PY as (C & _). congruence. }
  rewrite <- (max_opt_map_max stop _ _ M). rewrite !map_map. f_equal. apply map_ext_in. intros x I.
  apply filter_In in I. destruct I as [_ I]. unfold upd. rewrite I. reflexivity.
Qed.
Opaque revision_interval_sql.

(** What GetCompactRevision answers (driver.go:675-706). *)
Definition interval_of (w : world) : result (Z * Z) := snd (run d_get_compact_revision w).

Lemma compact_clamped w rev : wreach w -> now (history_of (snd w)) ck <> None ->
  let w' := fst (run (d_compact_sqlite rev) w) in
  snd (run (d_compact_sqlite rev) w) = Ok tt /\
  exists floor current floor' current', interval_of w = Ok (floor, current) /\ interval_of w' = Ok (floor', current') /\
    floor' = Z.max floor (Z.min rev current).
Proof.
  intros HW CK. cbv zeta. unfold d_compact_sqlite. rewrite !run_rbind, (run_get_compact_revision w HW). cbn [fst snd].
  pose proof (proj1 (R_floor _ _ (reach_R _ _ HW))) as F0.
  pose proof (proj2 (R_floor _ _ (reach_R _ _ HW))) as F1. pose proof (revision_nonneg (history_of (snd w))) as RN.
  destruct (Z.leb_spec rev (floor_of (snd w))) as [L|L].
  - cbn [run fst snd]. split; auto.
    assert (E : interval_of w = Ok (floor_of (snd w), revision (history_of (snd w)))) by (unfold interval_of; now rewrite run_get_compact_revision).
    rewrite E. do 4 eexists. split; [reflexivity|]. split; [reflexivity|]. lia.
  - cbv zeta. rewrite !run_rbind, !run_query. cbn [run fst snd]. split; [reflexivity|].
    assert (E : interval_of w = Ok (floor_of (snd w), revision (history_of (snd w)))) by (unfold interval_of; now rewrite run_get_compact_revision).
    set (stop := if revision (history_of (snd w)) <? rev then revision (history_of (snd w)) else rev).
    assert (ST : stop = Z.min rev (revision (history_of (snd w)))) by (unfold stop; destruct (Z.ltb_spec (revision (history_of (snd w))) rev); lia).
    clearbody stop.
    pose proof (compact_interval w (floor_of (snd w)) stop HW CK) as IV.
    assert (E' : exists c, interval_of (weffect (CExec (ACompact (floor_of (snd w)) stop)) w) = Ok (Z.max (floor_of (snd w)) stop, c)).
    { unfold interval_of, d_get_compact_revision. rewrite run_rbind. unfold d_query. rewrite run_query.
      cbn [weffect op_of wapply apply fst snd answer cut_rows].
      destruct (revision_interval_sql (try_compact_tx (floor_of (snd w)) stop (fst w))) as [lo hi]. cbn [fst] in IV. subst lo.
      eexists. reflexivity. }
    destruct E' as [c E']. rewrite E, E'. do 4 eexists. split; [reflexivity|]. split; [reflexivity|]. now rewrite ST.
Qed.

(** compacting up to a deletion at the current revision *)
Definition gone : world :=
  wapply (wapply (wapply init_world (ACreate ck [] 0)) (ACreate ka v1 0)) (ADelete ka 2).
Lemma gone_reach : wreach gone.
Proof. unfold gone. repeat (apply wapply_reach; [|cbn; auto; try discriminate]). apply reach_init. Qed.
Lemma gone_back : interval_of gone = Ok (0, 3) /\ interval_of (fst (run (d_compact_sqlite 3) gone)) = Ok (3, 1).
Proof. split; vm_compute; reflexivity. Qed.
