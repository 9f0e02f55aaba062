(** Lemmas about event reports. *)
From Coq Require Import List ZArith Bool Lia Sorting.Sorted.
From Verif Require Import Bytes Spec Sql System Prog Backend Watch SpecLemmas SqlLemmas Sim ReadLemmas ProgLemmas.
Import ListNotations.
Open Scope Z_scope.

Definition changed (h : history) (sel : bytes -> Prop) (r : Z) : Prop :=
  exists e, ent h r = Some e /\ sel (e_key e).
Lemma changed_iff h (sel : bytes -> Prop) r :
  (1 <= r /\ exists e, nth_error h (Z.to_nat (r - 1)) = Some e /\ sel (e_key e)) <-> changed h sel r.
Proof.
  unfold changed, ent. split.
  - intros (A & e & B & C). exists e. replace (1 <=? r) with true by (symmetry; apply Z.leb_le; lia). auto.
  - intros (e & A & B). destruct (1 <=? r) eqn:L; [|discriminate]. apply Z.leb_le in L. eauto.
Qed.
(** As [reports], but completeness only if [c]. *)
Definition rep (c : Prop) (h : history) (sel : bytes -> Prop) (a b : Z) (evs : list event) : Prop :=
  StronglySorted Z.lt (map ev_rev evs) /\
  (forall r, In r (map ev_rev evs) -> a < r <= b /\ changed h sel r) /\
  (c -> forall r, a < r <= b -> changed h sel r -> In r (map ev_rev evs)) /\
  Forall (fun ev => truthful_event h (ev_rev ev) ev) evs.
Lemma reports_rep h sel a b evs : reports h sel a b evs <-> rep True h sel a b evs.
Proof.
  unfold reports, rep. split.
  - intros (A & B & C). split; auto. split; [|split; auto].
    + intros r I. rewrite <- changed_iff. now apply B.
    + intros _ r L K. rewrite <- changed_iff in K. apply B. auto.
  - intros (A & B & C & D). split; auto. split; auto. intros r. split.
    + intros I. apply B in I. rewrite <- changed_iff in I. auto.
    + intros (L & K). apply C; auto. apply changed_iff; auto.
Qed.

Lemma rep_nil c h (sel : bytes -> Prop) a b : (forall r, a < r <= b -> ~ changed h sel r) -> rep c h sel a b [].
Proof.
  intros H. split; [constructor|]. split; [intros r []|]. split; [|constructor]. intros _ r A B. contradiction (H r A B).
Qed.
Lemma rep_empty c h sel a b : b <= a -> rep c h sel a b [].
Proof. intros. apply rep_nil. lia. Qed.
Lemma rep_empty_inv c h sel a b evs : b <= a -> rep c h sel a b evs -> evs = [].
Proof.
  intros L H. destruct H as (_ & H & _). destruct evs as [|ev evs]; auto.
  destruct (H (ev_rev ev)); [simpl; auto|]. lia.
Qed.
Lemma rep_app c h sel a b d l1 l2 : a <= b <= d -> rep c h sel a b l1 -> rep c h sel b d l2 -> rep c h sel a d (l1 ++ l2).
Proof.
  intros L (A1 & A2 & A2' & A3) (B1 & B2 & B2' & B3). unfold rep. rewrite map_app. split; [|split; [|split]].
  - apply sorted_app. repeat split; auto. intros x y Hx Hy. apply A2 in Hx. apply B2 in Hy. lia.
  - intros r I. apply in_app_iff in I. destruct I as [I|I]; [apply A2 in I|apply B2 in I]; intuition lia.
  - intros C r M N. apply in_app_iff. destruct (Z_le_dec r b); [left; apply A2'|right; apply B2']; auto; lia.
  - apply Forall_app; auto.
Qed.
Lemma truthful_extend h l r ev : truthful_event h r ev -> truthful_event (h ++ l) r ev.
Proof.
  intros (e & A & B & C & D & E & F).
  assert (G : ent h r = Some e). { unfold ent. replace (1 <=? r) with true by (symmetry; apply Z.leb_le; lia). auto. }
  pose proof (ent_bounds _ _ _ G) as Hb. exists e. split; auto. split.
  { rewrite nth_error_app1; auto. apply nth_error_Some. congruence. }
  repeat split; auto.
  - destruct (e_change e); auto. rewrite kv_at_app by lia. auto.
  - rewrite kv_at_app by lia. auto.
Qed.
Lemma truthful_key h r ev : truthful_event h r ev -> ent h r = Some (Entry (kv_key (ev_kv ev)) (match ent h r with Some e => e_change e | None => Del end)).
Proof.
  intros (e & A & B & C & _). assert (G : ent h r = Some e).
  { unfold ent. replace (1 <=? r) with true by (symmetry; apply Z.leb_le; lia). auto. }
  rewrite G, C. destruct e; reflexivity.
Qed.
Lemma rep_extend c h l sel a b evs : b <= revision h -> rep c h sel a b evs -> rep c (h ++ l) sel a b evs.
Proof.
  intros L (A & B & B' & C). split; auto. split; [|split].
  - intros r I. destruct (B r I) as [M (e & N & O)]. split; auto. exists e; split; auto. rewrite ent_app; auto. lia.
  - intros HC r M (e & N & O). apply B'; auto. exists e. split; auto. rewrite ent_app in N; auto. lia.
  - eapply Forall_impl; [|apply C]. intros ev. apply truthful_extend.
Qed.
Lemma rep_filter c h (sel sel' : bytes -> Prop) (f : bytes -> bool) a b evs :
  (forall k, sel' k <-> sel k /\ f k = true) ->
  rep c h sel a b evs -> rep c h sel' a b (filter (fun ev => f (kv_key (ev_kv ev))) evs).
Proof.
  intros Hf (A & B & B' & C). rewrite Forall_forall in C. split; [|split; [|split]].
  - rewrite <- sorted_map in *. now apply sorted_filter.
  - intros r. rewrite in_map_iff. intros (ev & <- & I). apply filter_In in I. destruct I as [I F].
    pose proof (C _ I) as T. apply truthful_key in T.
    destruct (B (ev_rev ev)) as (M & e & N & O). { now apply in_map. }
    split; auto. exists e. split; auto. rewrite T in N. injection N as <-. apply Hf. split; auto.
  - intros HC r M (e & N & O). apply Hf in O. destruct O as [O F].
    assert (I : In r (map ev_rev evs)). { apply B'; auto. exists e; auto. }
    apply in_map_iff in I. destruct I as (ev & <- & I). apply in_map_iff. exists ev. split; auto.
    apply filter_In. split; auto. pose proof (truthful_key _ _ _ (C _ I)) as T. rewrite T in N. injection N as <-. exact F.
  - apply Forall_forall. intros ev I. apply filter_In in I. apply C. tauto.
Qed.
Lemma rep_firstn_weak h sel a b evs n : rep False h sel a b evs -> rep False h sel a b (firstn n evs).
Proof.
  intros (A & B & _ & C). pose proof (firstn_skipn n evs) as FS. rewrite <- FS in A, B, C.
  rewrite map_app in A. apply sorted_app in A. apply Forall_app in C. unfold rep. split; [tauto|]. split; [|split; [intros []|tauto]].
  intros r I. apply B. rewrite map_app. apply in_app_iff. auto.
Qed.
Lemma rep_firstn c h sel a b evs n : a <= b -> rep c h sel a b evs -> exists d, a <= d <= b /\ rep c h sel a d (firstn n evs) /\
  (firstn n evs = [] /\ d = a \/ exists l ev, firstn n evs = l ++ [ev] /\ d = ev_rev ev) .
Proof.
  intros L (A & B & B' & C).
  destruct (firstn n evs) as [|e0 l0] eqn:E.
  - exists a. split; [lia|]. split; [|left; auto]. apply rep_empty. lia.
  - destruct (exists_last (l := e0 :: l0)) as (l & ev & El); [discriminate|]. rewrite El in *.
    exists (ev_rev ev).
    pose proof (firstn_skipn n evs) as FS. rewrite E in FS.
    assert (I : In (ev_rev ev) (map ev_rev evs)).
    { apply in_map. rewrite <- FS. apply in_app_iff. left. apply in_app_iff. simpl; auto. }
    pose proof (B _ I) as [Lb _].
    split; [lia|]. split; [|right; eauto].
    rewrite <- FS, map_app in A. apply sorted_app in A. destruct A as (A1 & A2 & A3).
    split; auto. split; [|split].
    + intros r Ir. assert (Ir' : In r (map ev_rev evs)). { rewrite <- FS, map_app. apply in_app_iff; auto. }
      apply B in Ir'. split; [|tauto]. split; [lia|].
      rewrite map_app in A1, Ir. simpl in A1, Ir. apply sorted_app in A1. destruct A1 as (_ & _ & A1).
      apply in_app_iff in Ir. destruct Ir as [Ir|[<-|[]]]; [|lia]. specialize (A1 r (ev_rev ev) Ir (or_introl eq_refl)). lia.
    + intros HC r M N. assert (Ir' : In r (map ev_rev evs)). { apply B'; auto; lia. }
      rewrite <- FS, map_app in Ir'. apply in_app_iff in Ir'. destruct Ir' as [Ir'|Ir']; auto.
      exfalso. specialize (A3 (ev_rev ev) r). assert (ev_rev ev < r); [|lia]. apply A3; auto.
      rewrite map_app. apply in_app_iff. simpl; auto.
    + rewrite <- FS in C. apply Forall_app in C. tauto.
Qed.

(** rows are truthful *)
Lemma row_truthful d s x : R d s -> In x (rows d) -> truthful_event (history_of s) (id x) (scan_event x).
Proof.
  intros HR I. pose proof (R_row _ _ HR x I) as (c & E & D & V & P).
  pose proof (row_kv _ _ _ (R_row _ _ HR x I)) as K.
  pose proof (ent_bounds _ _ _ E) as Hb.
  exists (Entry (name x) c). split; [lia|]. split.
  { unfold ent in E. destruct (1 <=? id x); [auto|discriminate]. }
  cbn [e_key e_change]. unfold scan_event.
  destruct (kv_at (history_of s) (id x - 1) (name x)) as [o|] eqn:O.
  - destruct P as (P1 & P2 & P3 & P4). rewrite P1. cbn [ev_kv ev_delete ev_prev kv_key kv_mod kv_value kv_create].
    split; auto. split; auto. split.
    + destruct c; [|exact D]. split; [exact D|]. simpl in D. rewrite K, D. unfold kv_of, create_rev_of. rewrite P1. reflexivity.
    + pose proof (kv_at_facts _ _ _ _ O) as (K1 & _). rewrite P2, P3, P4. auto.
  - destruct P as (P1 & P2 & P3 & P4). rewrite P1. cbn [ev_kv ev_delete ev_prev kv_key kv_mod kv_value kv_create].
    split; auto. split; auto. split; auto.
    destruct c.
    + split; auto. simpl in D. rewrite K, D. unfold kv_of, create_rev_of. rewrite P1. reflexivity.
    + destruct V as (_ & o & V & _). discriminate.
Qed.
Lemma scan_rev x : ev_rev (scan_event x) = id x.
Proof. unfold scan_event, ev_rev. destruct (created x); reflexivity. Qed.
Lemma scan_key x : kv_key (ev_kv (scan_event x)) = name x.
Proof. unfold scan_event. destruct (created x); reflexivity. Qed.

Lemma rows_report (c : Prop) d s (sel : bytes -> Prop) (f : row -> bool) a b : R d s -> (c -> kept s a) -> b <= revision (history_of s) ->
  (forall x, In x (rows d) -> (f x = true <-> a < id x <= b /\ sel (name x))) ->
  rep c (history_of s) sel a b (map scan_event (order_by by_id (filter f (rows d)))).
Proof.
  intros HR HF HB Hf.
  assert (S : StronglySorted id_lt (filter f (rows d))) by (apply sorted_filter, (R_sorted _ _ HR)).
  rewrite order_by_id.
  2:{ eapply sorted_impl; [|apply S]. intros x y. unfold id_lt, by_id. intros. apply Z.leb_le. lia. }
  unfold rep. rewrite map_map. rewrite (map_ext _ id) by (intros; apply scan_rev). split; [|split; [|split]].
  - apply (sorted_map Z.lt id). exact S.
  - intros r I. apply in_map_iff in I. destruct I as (x & <- & I). apply filter_In in I. destruct I as [I F].
    apply Hf in F; auto. destruct F as [F1 F2]. split; auto.
    destruct (R_row _ _ HR x I) as (c' & E & _). exists (Entry (name x) c'). auto.
  - intros HC r L (e & E & SE). specialize (HF HC). destruct (proj2 (R_keep _ _ HR r e E)) as (x & I & <-).
    { destruct HF as [HF|[HF ND]]; [right; left; lia|].
      destruct (Z.eq_dec r (a + 1)) as [->|]; [|right; left; lia].
      right; right. split; [|intros; lia].
      pose proof (ent_bounds _ _ _ E). unfold ent in E. destruct (1 <=? a + 1); [|discriminate]. replace (a + 1 - 1) with a in E by lia.
      destruct e as [k [v l|]]; auto. contradiction (ND k). }
    apply in_map_iff. exists x. split; auto. apply filter_In. split; auto. apply Hf; auto. split; auto.
    destruct (R_row _ _ HR x I) as (c' & E' & _). rewrite E in E'. injection E' as ->. auto.
  - apply Forall_forall. intros ev I. apply in_map_iff in I. destruct I as (x & <- & I). apply filter_In in I.
    rewrite scan_rev. now apply row_truthful with (d := d).
Qed.

Lemma after_reports (c : Prop) d s a : R d s -> (c -> kept s a) ->
  rep c (history_of s) (fun _ => True) a (Z.max a (revision (history_of s))) (map scan_event (after_sql a d)).
Proof.
  intros HR HF. unfold after_sql.
  destruct (Z_le_dec (revision (history_of s)) a).
  - rewrite Z.max_l by lia. replace (filter _ (rows d)) with (@nil row).
    + apply rep_empty. lia.
    + symmetry. apply filter_none. intros y I. pose proof (R_rows_rev _ _ _ HR I). apply Z.ltb_ge. lia.
  - rewrite Z.max_r by lia. apply (rows_report c d s); auto; try lia.
    intros x I. pose proof (R_rows_rev _ _ _ HR I). rewrite Z.ltb_lt. intuition lia.
Qed.
Lemma in_range_b_iff lo hi k : in_range_b lo hi k = true <-> in_range lo hi k.
Proof. unfold in_range_b, in_range. rewrite andb_true_iff, bleb_true, bltb_true. tauto. Qed.
Lemma after_prefix_reports (c : Prop) d s lo hi a b : R d s -> (c -> kept s a) -> b <= revision (history_of s) ->
  rep c (history_of s) (in_range lo hi) a b (map scan_event (after_prefix_sql lo hi a b d)).
Proof.
  intros HR HF HB. unfold after_prefix_sql. apply (rows_report c d s); auto.
  intros x I. rewrite !andb_true_iff, in_range_b_iff, Z.ltb_lt, Z.leb_le. tauto.
Qed.
