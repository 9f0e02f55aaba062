(** Proofs about Metered.v. *)
From Coq Require Import List ZArith Bool Lia.
From Verif Require Import Metered.
Import ListNotations.
Open Scope list_scope.
Open Scope nat_scope.

(** * Words of the statements *)
(** The connections that clients made, oldest first: those asked for while the socket was open. *)
Fixpoint made (s : listener) (l : list laction) : list nat :=
  match l with
  | [] => []
  | a :: l' => (match a, l_net s, l_panic s with LConnect c, NetOpen, false => [c] | _, _, _ => [] end) ++ made (lstep s a) l'
  end.
(** Every element of the first list is in the second, in the same order, each used once. *)
Inductive subseq {A : Type} : list A -> list A -> Prop :=
| sub_nil : forall l, subseq [] l
| sub_take : forall x l1 l2, subseq l1 l2 -> subseq (x :: l1) (x :: l2)
| sub_skip : forall x l1 l2, subseq l1 l2 -> subseq l1 (x :: l2).
(** A connection that the goroutine has in its hands. *)
Definition hand (s : listener) : list nat :=
  match l_go s with GBack (Some c) => [c] | GSend c => [c] | _ => [] end.
Definition closes (a : laction) : bool := match a with LClose _ => true | _ => false end.
Definition cancels (a : laction) : bool := match a with LCancel => true | _ => false end.
Definition listens (a : laction) : bool := match a with LListen _ => true | _ => false end.

(** What has been written since the counter was last set to 0. *)
Fixpoint written_since (sum : Z) (l : list mop) : Z :=
  match l with
  | [] => sum
  | MWrite n :: l' => written_since (sum + n) l'
  | MStoreW :: l' => written_since 0 l'
  | _ :: l' => written_since sum l'
  end.
Fixpoint read_since (sum : Z) (l : list mop) : Z :=
  match l with
  | [] => sum
  | MRead n :: l' => read_since (sum + n) l'
  | MStoreR :: l' => read_since 0 l'
  | _ :: l' => read_since sum l'
  end.
(** All that has been written; all that the samples say has been written. *)
Definition all_written (l : list mop) : Z := fold_right (fun a t => match a with MWrite n => n + t | _ => t end)%Z 0%Z l.
Definition sampled_written (s : meter) : Z := fold_right (fun p t => if fst p : bool then snd p + t else t)%Z 0%Z (m_loads s).

(** * Lemmas *)
Lemma lrun_app : forall l1 l2, lrun (l1 ++ l2) = fold_left lstep l2 (lrun l1).
Proof. intros. apply fold_left_app. Qed.

Lemma made_app : forall l1 s l2, made s (l1 ++ l2) = made s l1 ++ made (fold_left lstep l1 s) l2.
Proof. induction l1 as [|a l1 IH]; intros; simpl; [reflexivity|]. rewrite IH, app_assoc. reflexivity. Qed.

Lemma subseq_refl : forall A (l : list A), subseq l l.
Proof. induction l; constructor; assumption. Qed.
Lemma subseq_app_r : forall A (l1 l2 l3 : list A), subseq l1 l2 -> subseq l1 (l2 ++ l3).
Proof. intros A l1 l2 l3 H. induction H; simpl; constructor; assumption. Qed.
Lemma subseq_app : forall A (a b c d : list A), subseq a b -> subseq c d -> subseq (a ++ c) (b ++ d).
Proof.
  intros A a b c d H Hcd. induction H; simpl; try (constructor; assumption).
  induction l; simpl; [assumption|constructor; assumption].
Qed.
Lemma subseq_trans : forall A (b c : list A), subseq b c -> forall a, subseq a b -> subseq a c.
Proof.
  intros A b c H. induction H; intros a Ha.
  - inversion Ha; constructor.
  - inversion Ha; subst; [constructor|constructor; auto|constructor; auto].
  - constructor; auto.
Qed.
Lemma subseq_drop_last : forall A (a b c : list A), subseq (a ++ b) c -> subseq a c.
Proof.
  intros A a b c H. apply subseq_trans with (b := a ++ b); [assumption|]. apply subseq_app_r. apply subseq_refl.
Qed.
Lemma subseq_drop_middle : forall A (a b c d : list A), subseq (a ++ b ++ c) d -> subseq (a ++ c) d.
Proof.
  intros A a b c d H. apply subseq_trans with (b := a ++ b ++ c); [assumption|].
  apply subseq_app; [apply subseq_refl|]. clear H. induction b; simpl; [apply subseq_refl|constructor; assumption].
Qed.

(** What the steps keep about order. *)
Lemma step_order : forall s a, 
  subseq (l_out (lstep s a) ++ hand (lstep s a) ++ l_waiting (lstep s a))
         ((l_out s ++ hand s ++ l_waiting s) ++ (match a, l_net s, l_panic s with LConnect c, NetOpen, false => [c] | _, _, _ => [] end)).
Proof.
  intros s a. unfold lstep.
  destruct s as [net go ctx cc w out lost errs closing panic]; unfold hand; cbn [l_net l_go l_ctx l_chan_closed l_waiting l_out l_lost l_errs l_closing l_panic].
  destruct panic; [destruct a; try (rewrite app_nil_r; apply subseq_refl); destruct net; rewrite app_nil_r; apply subseq_refl|].
  destruct a; try rewrite app_nil_r.
  - destruct net, ok; cbn; try apply subseq_refl.
    apply subseq_app; [apply subseq_refl|constructor].
  - destruct net; cbn; try (rewrite app_nil_r; apply subseq_refl).
    repeat rewrite <- app_assoc. apply subseq_refl.
  - destruct go; cbn; try apply subseq_refl.
    destruct net, fails, w; cbn; apply subseq_refl.
  - destruct go; cbn; try apply subseq_refl. destruct ctx, r; cbn; try apply subseq_refl.
    apply subseq_app; [apply subseq_refl|]. constructor. apply subseq_refl.
  - destruct go; cbn; try apply subseq_refl. rewrite <- app_assoc. apply subseq_refl.
  - apply subseq_refl.
  - destruct net; cbn; apply subseq_refl.
  - destruct closing, go; cbn; apply subseq_refl.
Qed.

Lemma run_order : forall l s x, subseq (l_out s ++ hand s ++ l_waiting s) x ->
  subseq (l_out (fold_left lstep l s) ++ hand (fold_left lstep l s) ++ l_waiting (fold_left lstep l s)) (x ++ made s l).
Proof.
  induction l as [|a l IH]; intros s x H; simpl.
  - rewrite app_nil_r. assumption.
  - rewrite (app_assoc x). apply IH.
    apply subseq_trans with (b := (l_out s ++ hand s ++ l_waiting s) ++ (match a, l_net s, l_panic s with LConnect c, NetOpen, false => [c] | _, _, _ => [] end)).
    + apply subseq_app; [assumption|apply subseq_refl].
    + apply step_order.
Qed.

Theorem in_order_proof : forall l, subseq (l_out (lrun l)) (made new_listener l).
Proof.
  intros l. pose proof (run_order l new_listener [] (sub_nil [])) as H.
  apply subseq_drop_last in H. exact H.
Qed.

(** Without Close and cancellation nothing is lost. *)
Definition plain (a : laction) : bool := negb (closes a || cancels a).
Definition simple (s : listener) : Prop :=
  l_panic s = false /\ l_ctx s = false /\ l_chan_closed s = false /\ l_closing s = 0 /\ l_lost s = [] /\
  (l_net s = NetNone -> l_go s = GNone /\ l_waiting s = []) /\ l_net s <> NetClosed.

Lemma step_simple : forall s a, plain a = true -> simple s ->
  simple (lstep s a) /\
  l_out (lstep s a) ++ hand (lstep s a) ++ l_waiting (lstep s a) =
  (l_out s ++ hand s ++ l_waiting s) ++ (match a, l_net s, l_panic s with LConnect c, NetOpen, false => [c] | _, _, _ => [] end).
Proof.
  intros s a Hp (Hpan & Hctx & Hcc & Hcl & Hlost & Hnone & Hnc).
  destruct s as [net go ctx cc w out lost errs closing panic]; cbn in *; subst.
  unfold simple, hand, lstep; cbn [l_net l_go l_ctx l_chan_closed l_waiting l_out l_lost l_errs l_closing l_panic].
  destruct a; try discriminate Hp; cbn.
  - destruct net; cbn; [|rewrite app_nil_r; repeat split; auto; try discriminate|congruence].
    destruct (Hnone eq_refl) as [-> ->].
    destruct ok; cbn; rewrite ?app_nil_r; repeat split; auto; discriminate.
  - destruct net; cbn; [|repeat rewrite <- app_assoc; repeat split; auto; discriminate|congruence].
    destruct (Hnone eq_refl) as [-> ->]. cbn. rewrite ?app_nil_r. repeat split; auto.
  - destruct net; [destruct (Hnone eq_refl) as [-> ->]; cbn; rewrite ?app_nil_r; repeat split; auto|idtac|congruence].
    destruct go; cbn; try (rewrite ?app_nil_r; repeat split; auto; discriminate).
    destruct fails, w; cbn; rewrite ?app_nil_r; repeat split; auto; discriminate.
  - destruct net; [destruct (Hnone eq_refl) as [-> ->]; cbn; rewrite ?app_nil_r; repeat split; auto|idtac|congruence].
    destruct go; cbn; try (rewrite ?app_nil_r; repeat split; auto; discriminate).
    destruct r; cbn; rewrite ?app_nil_r; repeat split; auto; discriminate.
  - destruct net; [destruct (Hnone eq_refl) as [-> ->]; cbn; rewrite ?app_nil_r; repeat split; auto|idtac|congruence].
    destruct go; cbn; rewrite ?app_nil_r; try (repeat split; auto; discriminate).
    rewrite <- app_assoc. repeat split; auto; discriminate.
  - destruct net; cbn; rewrite ?app_nil_r; (split; [|reflexivity]); repeat split; auto; try (apply Hnone; assumption); discriminate.
Qed.

Lemma run_simple : forall l s, forallb plain l = true -> simple s ->
  simple (fold_left lstep l s) /\
  l_out (fold_left lstep l s) ++ hand (fold_left lstep l s) ++ l_waiting (fold_left lstep l s) =
  (l_out s ++ hand s ++ l_waiting s) ++ made s l.
Proof.
  induction l as [|a l IH]; intros s Hl Hs; simpl.
  - rewrite app_nil_r. auto.
  - simpl in Hl. apply andb_true_iff in Hl. destruct Hl as [Ha Hl].
    destruct (step_simple s a Ha Hs) as [Hs' E]. destruct (IH _ Hl Hs') as [Hs'' E'].
    split; [assumption|]. rewrite E', E, <- app_assoc. reflexivity.
Qed.

Lemma new_simple : simple new_listener.
Proof. repeat split; auto; discriminate. Qed.

Theorem all_kept_proof : forall l, forallb plain l = true ->
  l_lost (lrun l) = [] /\ l_panic (lrun l) = false /\
  exists h, length h <= 1 /\ l_out (lrun l) ++ h ++ l_waiting (lrun l) = made new_listener l.
Proof.
  intros l H. destruct (run_simple l _ H new_simple) as [(Hp & _ & _ & _ & Hl & _) E].
  repeat split; [exact Hl|exact Hp|]. exists (hand (lrun l)). split.
  - unfold hand. destruct (l_go (lrun l)) as [| |[|]| |]; simpl; lia.
  - exact E.
Qed.

(** A goroutine that is still at work hands over whatever waits when the application receives. *)
Definition rounds (n : nat) : list laction := concat (repeat [LLook; LReceive; LAccept false] n).
Lemma one_round : forall s, simple s -> l_net s = NetOpen -> (l_go s = GAccept \/ exists c, l_go s = GBack (Some c)) ->
  let s' := fold_left lstep [LLook; LReceive; LAccept false] s in
  simple s' /\ l_net s' = NetOpen /\
  ((l_go s' = GAccept /\ l_waiting s' = []) \/ exists c, l_go s' = GBack (Some c)) /\
  l_out s' = l_out s ++ hand s /\ hand s' = firstn 1 (l_waiting s) /\ l_waiting s' = skipn 1 (l_waiting s).
Proof.
  intros s (Hpan & Hctx & Hcc & Hcl & Hlost & Hnone & Hnc) Hn Hg.
  destruct s as [net go ctx cc w out lost errs closing panic]; cbn in *; subst.
  destruct Hg as [->|[c ->]]; destruct w; cbn; unfold simple, hand; cbn; rewrite ?app_nil_r; repeat split; auto; try discriminate; right; eexists; reflexivity.
Qed.

Lemma rounds_hand_over : forall w s, simple s -> l_net s = NetOpen ->
  ((l_go s = GAccept /\ l_waiting s = []) \/ exists c, l_go s = GBack (Some c)) -> l_waiting s = w ->
  l_out (fold_left lstep (rounds (S (length w))) s) = l_out s ++ hand s ++ w.
Proof.
  induction w as [|c w IH]; intros s Hs Hn Hg Hw.
  - destruct (one_round s Hs Hn) as (_ & _ & _ & Ho & _); [destruct Hg as [[G _]|G]; auto|].
    unfold rounds; cbn [repeat concat length app]. rewrite Ho, app_nil_r. reflexivity.
  - destruct (one_round s Hs Hn) as (Hs' & Hn' & Hg' & Ho & Hh & Hw'); [destruct Hg as [[G _]|G]; auto|].
    change (rounds (S (length (c :: w)))) with ([LLook; LReceive; LAccept false] ++ rounds (S (length w))).
    rewrite fold_left_app. rewrite IH; auto.
    + rewrite Ho, Hh, Hw, <- app_assoc. reflexivity.
    + rewrite Hw', Hw. reflexivity.
Qed.

Lemma rounds_enough : forall k s2, simple s2 -> l_net s2 = NetOpen -> ((l_go s2 = GAccept /\ l_waiting s2 = []) \/ exists c, l_go s2 = GBack (Some c)) -> length (l_waiting s2) <= k ->
  l_out (fold_left lstep (rounds (S k)) s2) = l_out s2 ++ hand s2 ++ l_waiting s2.
Proof.
  induction k as [|k IH]; intros s' Hs' Hn' Hg' Hk.
  - rewrite <- (rounds_hand_over (l_waiting s') s' Hs' Hn' Hg' eq_refl). destruct (l_waiting s'); [reflexivity|simpl in Hk; lia].
  - change (rounds (S (S k))) with ([LLook; LReceive; LAccept false] ++ rounds (S k)). rewrite fold_left_app.
    destruct (one_round s' Hs' Hn') as (Hs2 & Hn2 & Hg2 & Ho & Hh & Hw); [destruct Hg' as [[G _]|G]; auto|].
    rewrite IH; auto; [|rewrite Hw; destruct (l_waiting s'); simpl in *; lia].
    rewrite Ho, Hh, Hw, <- app_assoc. f_equal. f_equal. apply firstn_skipn.
Qed.

(** From any plain run in which Accept never failed, some rounds deliver everything. *)
Definition accept_fails (a : laction) : bool := match a with LAccept true => true | _ => false end.
Definition alive_go (s : listener) : Prop := l_net s = NetOpen -> l_go s <> GNone /\ l_go s <> GDone /\ l_go s <> GBack None.
Lemma step_alive : forall s a, plain a = true -> accept_fails a = false -> simple s -> alive_go s -> alive_go (lstep s a).
Proof.
  intros s a Hp Hf (Hpan & Hctx & Hcc & Hcl & Hlost & Hnone & Hnc) Ha.
  destruct s as [net go ctx cc w out lost errs closing panic]; cbn in *; subst. unfold alive_go in *; cbn in *.
  unfold lstep; cbn.
  destruct a as [[|]| | [|] | | | | |]; try discriminate Hp; try discriminate Hf;
    destruct net; try congruence; try (destruct (Hnone eq_refl) as [-> ->]); cbn; auto;
    try (intros _; repeat split; discriminate).
  - destruct (Ha eq_refl) as (H1 & H2 & H3). destruct go as [| |[|]| |]; cbn; try congruence; auto; destruct w; cbn; intros; repeat split; discriminate.
  - destruct (Ha eq_refl) as (H1 & H2 & H3). destruct go as [| |[|]| |]; cbn; try congruence; auto; intros; repeat split; discriminate.
  - destruct (Ha eq_refl) as (H1 & H2 & H3). destruct go as [| |[|]| |]; cbn; try congruence; auto; intros; repeat split; discriminate.
Qed.
Lemma run_alive : forall l s, forallb plain l = true -> existsb accept_fails l = false -> simple s -> alive_go s ->
  alive_go (fold_left lstep l s).
Proof.
  induction l as [|a l IH]; intros s Hl Hf Hs Ha; simpl in *; [assumption|].
  apply andb_true_iff in Hl. apply orb_false_iff in Hf. destruct Hl, Hf.
  apply IH; auto; [apply step_simple; auto|apply step_alive; auto].
Qed.

Lemma made_nothing : forall l s, (forall a, In a l -> match a with LConnect _ => False | _ => True end) -> made s l = [].
Proof.
  induction l as [|a l IH]; intros s H; simpl; [reflexivity|].
  rewrite IH by (intros; apply H; right; assumption). specialize (H a (or_introl eq_refl)).
  destruct a; try reflexivity. contradiction.
Qed.

Theorem delivered_proof : forall l, forallb plain l = true -> existsb accept_fails l = false ->
  exists n, l_out (lrun (l ++ rounds n)) = made new_listener l.
Proof.
  intros l Hl Hf. destruct (run_simple l _ Hl new_simple) as [Hs E].
  change (l_out (lrun l) ++ hand (lrun l) ++ l_waiting (lrun l) = made new_listener l) in E.
  assert (Ha : alive_go (lrun l)) by (apply run_alive; auto using new_simple; unfold alive_go; cbn; discriminate).
  assert (Hc : l_net (lrun l) = NetNone \/ l_net (lrun l) = NetOpen)
    by (destruct Hs as (_ & _ & _ & _ & _ & _ & Hc); fold (lrun l) in *; destruct (l_net (lrun l)); auto; congruence).
  destruct Hc as [Hc|Hc].
  - exists 0. unfold rounds. cbn [repeat concat]. rewrite app_nil_r. rewrite <- E. destruct Hs as (_ & _ & _ & _ & _ & Hn & _).
    destruct (Hn Hc) as [Hg Hw]. fold (lrun l) in *. unfold hand. rewrite Hg, Hw, app_nil_r. reflexivity.
  - destruct (Ha Hc) as (H1 & H2 & H3). 
    exists (S (S (length (l_waiting (lrun l))))). rewrite lrun_app.
    fold (lrun l) in Hs. rewrite <- E. clear E Ha. revert Hs Hc H1 H2 H3. generalize (lrun l). clear l Hl Hf. intros s Hs Hc H1 H2 H3.
    change (rounds (S (S (length (l_waiting s))))) with ([LLook; LReceive; LAccept false] ++ rounds (S (length (l_waiting s)))).
    rewrite fold_left_app.
    assert (Hround : exists s', simple s' /\ l_net s' = NetOpen /\ ((l_go s' = GAccept /\ l_waiting s' = []) \/ exists c, l_go s' = GBack (Some c)) /\
       l_out s' ++ hand s' ++ l_waiting s' = l_out s ++ hand s ++ l_waiting s /\ s' = fold_left lstep [LLook; LReceive; LAccept false] s).
    { eexists. split; [|split; [|split; [|split; [|reflexivity]]]];
      destruct Hs as (Hpan & Hctx & Hcc & Hcl & Hlost & Hnone & Hnc);
      destruct s as [net go ctx cc w out lost errs closing panic]; cbn in *; subst;
      destruct go as [| |[|]| |]; try congruence; destruct w; cbn; unfold simple, hand; cbn; rewrite <- ?app_assoc, ?app_nil_r; repeat split; auto; try discriminate;
      right; eexists; reflexivity. }
    destruct Hround as (s' & Hs' & Hn' & Hg' & E' & Es'). rewrite <- Es'. rewrite <- E'.
    apply rounds_enough; auto.
    destruct Hs as (Hpan & Hctx & Hcc & Hcl & Hlost & Hnone & Hnc). subst s'. clear -Hpan Hctx Hcc Hc H1 H2 H3.
    destruct s as [net go ctx cc w out lost errs closing panic]; cbn in *; subst;
    destruct go as [| |[|]| |]; try congruence; destruct w; cbn; lia.
Qed.

(** * The byte counters *)
Lemma written_since_ok : forall l s, m_written (fold_left mstep l s) = written_since (m_written s) l.
Proof. induction l as [|a l IH]; intros s; simpl; [reflexivity|]. rewrite IH. destruct a; reflexivity. Qed.
Lemma read_since_ok : forall l s, m_read (fold_left mstep l s) = read_since (m_read s) l.
Proof. induction l as [|a l IH]; intros s; simpl; [reflexivity|]. rewrite IH. destruct a; reflexivity. Qed.

Theorem loads_proof : forall before,
  m_loads (mrun (before ++ [MLoadW])) = m_loads (mrun before) ++ [(true, written_since 0 before)] /\
  m_loads (mrun (before ++ [MLoadR])) = m_loads (mrun before) ++ [(false, read_since 0 before)].
Proof.
  intros before. unfold mrun. rewrite !fold_left_app. simpl. rewrite written_since_ok, read_since_ok. auto.
Qed.

Lemma sampled_app : forall l1 l2, fold_right (fun p t => if fst p : bool then snd p + t else t)%Z 0%Z (l1 ++ l2) =
  (fold_right (fun p t => if fst p : bool then snd p + t else t) 0 l1 + fold_right (fun p t => if fst p : bool then snd p + t else t) 0 l2)%Z.
Proof.
  induction l1 as [|[b n] l1 IH]; intros l2; simpl; [reflexivity|]. rewrite IH. destruct b; lia.
Qed.
Lemma all_written_app : forall l1 l2, all_written (l1 ++ l2) = (all_written l1 + all_written l2)%Z.
Proof. unfold all_written. induction l1 as [|a l1 IH]; intros; simpl; [reflexivity|]. rewrite IH. destruct a; lia. Qed.

(** Periods: some traffic, then a sample (Metrics) directly followed by ResetMetrics. *)
Inductive traffic := TWrite (n : Z) | TRead (n : Z).
Definition traffic_op (t : traffic) : mop := match t with TWrite n => MWrite n | TRead n => MRead n end.
Definition period (ts : list traffic) : list mop := map traffic_op ts ++ [MLoadW; MLoadR; MStoreW; MStoreR].
Lemma traffic_run : forall ts s, let s' := fold_left mstep (map traffic_op ts) s in
  m_written s' = (m_written s + all_written (map traffic_op ts))%Z /\ m_loads s' = m_loads s.
Proof.
  induction ts as [|t ts IH]; intros s; cbn [map fold_left]; [split; [unfold all_written; simpl; lia|reflexivity]|].
  destruct (IH (mstep s (traffic_op t))) as [H1 H2]. cbv zeta in *. rewrite H1, H2. destruct t; split; try reflexivity; unfold all_written; cbn [fold_right traffic_op m_written mstep]; lia.
Qed.
Lemma sampled_periods : forall ps s, m_written s = 0%Z ->
  sampled_written (fold_left mstep (concat (map period ps)) s) = (sampled_written s + all_written (concat (map period ps)))%Z.
Proof.
  induction ps as [|ts ps IH]; intros s H; cbn [map concat]; [unfold all_written; simpl; lia|].
  rewrite fold_left_app, all_written_app. 
  assert (E : all_written (period ts) = all_written (map traffic_op ts)) by (unfold period; rewrite all_written_app; replace (all_written [MLoadW; MLoadR; MStoreW; MStoreR]) with 0%Z by reflexivity; lia).
  rewrite E. unfold period at 2. rewrite fold_left_app. destruct (traffic_run ts s) as [H1 H2]. cbv zeta in *.
  rewrite IH by reflexivity. cbn [fold_left mstep]. unfold sampled_written at 1. cbn [m_loads]. cbn [m_written]. rewrite H1, H2, H.
  rewrite !sampled_app. unfold sampled_written. simpl. lia.
Qed.
Theorem quiet_samples_proof : forall ps, sampled_written (mrun (concat (map period ps))) = all_written (concat (map period ps)).
Proof. intros. unfold mrun. rewrite sampled_periods by reflexivity. reflexivity. Qed.

(** * Close *)
(** Every Close in the run is called when no other is in progress, and Listen is not called after a Close. *)
Definition one_at_a_time (l : list laction) : Prop :=
  forall p q f, l = p ++ LClose f :: q -> l_closing (lrun p) = 0 /\ existsb listens q = false.

Record safe (s : listener) : Prop := {
  sf_panic : l_panic s = false;
  sf_one : l_closing s <= 1;
  sf_closing : l_closing s = 1 -> l_net s = NetClosed;
  sf_closed : l_net s = NetClosed -> l_closing s = 1;
  sf_chan : l_chan_closed s = true -> l_net s = NetNone;
  sf_go : l_net s = NetNone -> l_go s = GNone \/ l_go s = GDone;
  sf_none : l_net s <> NetNone -> l_go s <> GNone
}.
Lemma step_safe : forall s a, safe s -> (closes a = true -> l_closing s = 0) ->
  (listens a = true -> l_chan_closed s = false) -> safe (lstep s a).
Proof.
  intros s a [Hp Ho Hcl Hnc Hch Hg Hgn] Hc Hl.
  destruct s as [net go ctx cc w out lost errs closing panic]; cbn in *; subst. unfold lstep; cbn.
  destruct a; cbn in *.
  - specialize (Hl eq_refl). subst. destruct net, ok; cbn; constructor; cbn; auto; try discriminate; try lia.
    intros E. specialize (Hcl E). discriminate.
  - destruct net; constructor; cbn; auto; try discriminate.
  - destruct go; try (constructor; cbn; auto; fail).
    destruct net; [destruct (Hg eq_refl); discriminate| |]; destruct fails, w; constructor; cbn; auto; try discriminate.
  - destruct go; try (constructor; cbn; auto; fail).
    destruct net; [destruct (Hg eq_refl); discriminate| |]; destruct cc; try (specialize (Hch eq_refl); discriminate);
    destruct ctx, r; constructor; cbn; auto; try discriminate.
  - destruct go; try (constructor; cbn; auto; fail).
    destruct net; [destruct (Hg eq_refl); discriminate| |]; constructor; cbn; auto; try discriminate.
  - constructor; cbn; auto.
  - specialize (Hc eq_refl). subst. destruct net; constructor; cbn; auto; try discriminate; try lia.
    + intros E. specialize (Hch E). discriminate.
    + intros _. apply Hgn. discriminate.
  - destruct closing as [|n]; [constructor; cbn; auto|].
    assert (n = 0) by lia. subst. specialize (Hcl eq_refl). subst. destruct go; try (constructor; cbn; auto; fail).
    destruct cc; [specialize (Hch eq_refl); discriminate|]. constructor; cbn; auto; try discriminate; congruence.
Qed.

(** The channel is closed only by a Close. *)
Lemma chan_by_close : forall l s, existsb closes l = false -> l_closing s = 0 -> 
  l_chan_closed (fold_left lstep l s) = l_chan_closed s /\ l_closing (fold_left lstep l s) = 0.
Proof.
  induction l as [|a l IH]; intros s H Hc; simpl in *; [auto|].
  apply orb_false_iff in H. destruct H as [Ha H].
  assert (Hs : l_chan_closed (lstep s a) = l_chan_closed s /\ l_closing (lstep s a) = 0).
  { destruct s as [net go ctx cc w out lost errs closing panic]; cbn in *; subst. unfold lstep; cbn.
    destruct panic; cbn; auto. destruct a; try discriminate Ha.
    - destruct net, ok; auto.
    - destruct net; auto.
    - destruct go, net, fails, w; auto.
    - destruct go, ctx; auto; destruct r; auto.
    - destruct go; auto.
    - auto.
    - auto. }
  destruct Hs as [E1 E2]. rewrite <- E1. apply IH; auto.
Qed.

Lemma first_close : forall l, existsb closes l = true -> exists p f q, l = p ++ LClose f :: q /\ existsb closes p = false.
Proof.
  induction l as [|a l IH]; simpl; intros H; [discriminate|].
  destruct (closes a) eqn:E.
  - destruct a; try discriminate E. exists [], fails, l. auto.
  - destruct (IH H) as (p & f & q & -> & Hp). exists (a :: p), f, q. split; [reflexivity|]. simpl. rewrite E. assumption.
Qed.

Lemma safe_run : forall l, one_at_a_time l -> safe (lrun l).
Proof.
  induction l as [|a l IH] using rev_ind; intros H.
  - constructor; cbn; auto; try discriminate; congruence.
  - rewrite lrun_app. simpl.
    assert (Hl : one_at_a_time l).
    { intros p q f ->. destruct (H p (q ++ [a]) f) as [H1 H2]; [rewrite <- app_assoc; reflexivity|].
      rewrite existsb_app in H2. apply orb_false_iff in H2. tauto. }
    apply step_safe; auto.
    + intros Ha. destruct a; try discriminate Ha. apply (H l [] fails). reflexivity.
    + intros Ha. destruct (existsb closes l) eqn:E.
      * destruct (first_close l E) as (p & f & q & -> & _).
        destruct (H p (q ++ [a]) f) as [_ H2]; [rewrite <- app_assoc; reflexivity|].
        rewrite existsb_app in H2. simpl in H2. rewrite Ha, orb_true_r in H2. discriminate.
      * unfold lrun. destruct (chan_by_close l new_listener E eq_refl) as [-> _]. reflexivity.
Qed.

Theorem no_crash_proof : forall l, one_at_a_time l -> l_panic (lrun l) = false.
Proof. intros l H. apply safe_run. assumption. Qed.

(** How far the goroutine is from its end once the socket is closed. *)
Definition far (s : listener) : nat :=
  match l_go s with GBack (Some _) => 4 | GSend _ => 3 | GAccept => 2 | GBack None => 1 | _ => 0 end.
Definition closing_one (s : listener) : Prop :=
  l_panic s = false /\ l_closing s = 1 /\ l_net s = NetClosed /\ l_chan_closed s = false /\ l_go s <> GNone.
Definition returned_one (s : listener) : Prop :=
  l_panic s = false /\ l_closing s = 0 /\ l_net s = NetNone /\ l_chan_closed s = true /\ l_go s = GDone.

Lemma closing_step : forall s a, closing_one s -> closes a = false ->
  (closing_one (lstep s a) /\ far (lstep s a) <= far s) \/ returned_one (lstep s a).
Proof.
  intros s a (Hp & Hc & Hn & Hch & Hg) Ha. 
  destruct s as [net go ctx cc w out lost errs closing panic]; cbn in *; subst. unfold lstep, closing_one, returned_one, far; cbn.
  destruct a; try discriminate Ha; cbn; try (left; repeat split; auto; fail).
  - destruct go; try (left; repeat split; auto; fail). left. destruct fails; cbn; repeat split; auto; discriminate.
  - destruct go; try (left; repeat split; auto; fail). left. destruct ctx, r; cbn; repeat split; auto; try discriminate; lia.
  - destruct go; try (left; repeat split; auto; fail). left. repeat split; auto; discriminate.
  - destruct go; try (left; repeat split; auto; fail). right. repeat split; auto.
Qed.
Lemma returned_step : forall s a, returned_one s -> listens a = false -> returned_one (lstep s a).
Proof.
  intros s a (Hp & Hc & Hn & Hch & Hg) Ha.
  destruct s as [net go ctx cc w out lost errs closing panic]; cbn in *; subst. unfold lstep, returned_one; cbn.
  destruct a; try discriminate Ha; cbn; repeat split; auto.
Qed.
Lemma returned_run : forall l s, existsb listens l = false -> returned_one s -> returned_one (fold_left lstep l s).
Proof.
  induction l as [|a l IH]; intros s Hl H; simpl in *; auto. apply orb_false_iff in Hl. destruct Hl. apply IH; auto. apply returned_step; auto.
Qed.
Lemma closing_run : forall l s, existsb closes l = false -> existsb listens l = false -> (closing_one s \/ returned_one s) ->
  (closing_one (fold_left lstep l s) /\ far (fold_left lstep l s) <= far s) \/ returned_one (fold_left lstep l s).
Proof.
  induction l as [|a l IH]; intros s Hc Hl [H|H]; auto.
  - simpl in *. apply orb_false_iff in Hc, Hl. destruct Hc as [Hc1 Hc2], Hl as [Hl1 Hl2].
    destruct (closing_step s a H Hc1) as [[H3 H4]|H3].
    + destruct (IH (lstep s a) Hc2 Hl2 (or_introl H3)) as [[H5 H6]|H5]; auto. left. split; [assumption|lia].
    + right. apply returned_run; auto.
  - right. apply returned_run; auto.
Qed.

(** The steps that the goroutine and the application do in turn contain these five in this order. *)
Definition progress (l : list laction) : Prop := exists f l0 l1 l2 l3 l4 l5,
  l = l0 ++ LLook :: l1 ++ LReceive :: l2 ++ LAccept f :: l3 ++ LLook :: l4 ++ LWaited :: l5.

Lemma far_drops : forall s a k, closing_one s -> far s <= S k ->
  (match k, a with 3, LLook => True | 2, LReceive => True | 1, LAccept _ => True | 0, LLook => True | _, _ => False end) ->
  (closing_one (lstep s a) /\ far (lstep s a) <= k) \/ returned_one (lstep s a).
Proof.
  intros s a k (Hp & Hc & Hn & Hch & Hg) Hf Ha.
  destruct s as [net go ctx cc w out lost errs closing panic]; cbn in *; subst. unfold lstep, closing_one, returned_one, far in *; cbn in *.
  destruct k as [|[|[|[|k]]]]; destruct a; try contradiction; cbn;
    destruct go as [| |[|]| |]; cbn in *; try lia; try congruence;
    try destruct ctx; try destruct fails; cbn; left; repeat split; auto; try discriminate; lia.
Qed.

Lemma closes_progress : forall l s, closing_one s -> existsb closes l = false -> existsb listens l = false -> progress l ->
  returned_one (fold_left lstep l s).
Proof.
  intros l s Hs Hc Hl (f & l0 & l1 & l2 & l3 & l4 & l5 & ->).
  assert (Hgen : forall s, (closing_one s \/ returned_one s) -> forall lx k a rest,
    existsb closes (lx ++ a :: rest) = false -> existsb listens (lx ++ a :: rest) = false ->
    (returned_one s \/ far s <= S k) ->
    (match k, a with 3, LLook => True | 2, LReceive => True | 1, LAccept _ => True | 0, LLook => True | _, _ => False end) ->
    existsb closes rest = false /\ existsb listens rest = false /\
    let s' := fold_left lstep (lx ++ [a]) s in (closing_one s' \/ returned_one s') /\ (returned_one s' \/ far s' <= k)).
  { clear. intros s Hs lx k a rest Hc Hl Hf Hk.
    rewrite existsb_app in Hc, Hl. simpl in Hc, Hl. apply orb_false_iff in Hc, Hl. destruct Hc as [Hc1 Hc2], Hl as [Hl1 Hl2].
    apply orb_false_iff in Hc2, Hl2. destruct Hc2 as [Hc2 Hc3], Hl2 as [Hl2 Hl3]. split; [assumption|]. split; [assumption|].
    rewrite fold_left_app. simpl.
    destruct (closing_run lx s Hc1 Hl1 Hs) as [[H1 H2]|H1].
    - destruct Hf as [Hf|Hf].
      + exfalso. destruct Hf as (P1 & P2 & P3 & P4 & P5). destruct H1 as (_ & Q & _).
        destruct (returned_run lx s Hl1) as (_ & E & _); [repeat split; assumption|]. congruence.
      + destruct (far_drops (fold_left lstep lx s) a k H1 ltac:(lia) Hk) as [[H3 H4]|H3]; auto.
    - pose proof (returned_step _ a H1 Hl2). auto. }
  assert (H0 : far s <= 4) by (unfold far; destruct (l_go s) as [| |[|]| |]; lia).
  destruct (Hgen s (or_introl Hs) l0 3 LLook _ Hc Hl (or_intror H0) Logic.I) as (Hc1 & Hl1 & Hs1 & Hf1).
  destruct (Hgen _ Hs1 l1 2 LReceive _ Hc1 Hl1 Hf1 Logic.I) as (Hc2 & Hl2 & Hs2 & Hf2).
  destruct (Hgen _ Hs2 l2 1 (LAccept f) _ Hc2 Hl2 Hf2 Logic.I) as (Hc3 & Hl3 & Hs3 & Hf3).
  destruct (Hgen _ Hs3 l3 0 LLook _ Hc3 Hl3 Hf3 Logic.I) as (Hc4 & Hl4 & Hs4 & Hf4).
  cbv zeta in *.
  replace (l0 ++ LLook :: l1 ++ LReceive :: l2 ++ LAccept f :: l3 ++ LLook :: l4 ++ LWaited :: l5)
    with ((l0 ++ [LLook]) ++ (l1 ++ [LReceive]) ++ (l2 ++ [LAccept f]) ++ (l3 ++ [LLook]) ++ l4 ++ [LWaited] ++ l5)
    by (repeat (rewrite <- app_assoc; simpl); reflexivity).
  rewrite (fold_left_app _ (l0 ++ [LLook])), (fold_left_app _ (l1 ++ [LReceive])), (fold_left_app _ (l2 ++ [LAccept f])), (fold_left_app _ (l3 ++ [LLook])).
  revert Hs4 Hf4. generalize (fold_left lstep (l3 ++ [LLook]) (fold_left lstep (l2 ++ [LAccept f]) (fold_left lstep (l1 ++ [LReceive]) (fold_left lstep (l0 ++ [LLook]) s)))).
  intros t Ht Hft. clear -Ht Hft Hc4 Hl4.
  rewrite existsb_app in Hc4, Hl4. simpl in Hc4, Hl4. apply orb_false_iff in Hc4, Hl4. destruct Hc4 as [Hc4 Hc5], Hl4 as [Hl4 Hl5].
  rewrite fold_left_app, fold_left_app. apply returned_run; [assumption|].
  destruct (closing_run l4 t Hc4 Hl4 Ht) as [[H1 H2]|H1]; [|simpl; apply returned_step; auto].
  destruct Hft as [Hft|Hft].
  - exfalso. destruct (returned_run l4 t Hl4 Hft) as (_ & E & _). destruct H1 as (_ & E' & _). congruence.
  - assert (Hz : far (fold_left lstep l4 t) = 0) by lia. revert H1 Hz. generalize (fold_left lstep l4 t). clear. intros s (Hp & Hc & Hn & Hch & Hg) Hz.
    destruct s as [net go ctx cc w out lost errs closing panic]; cbn in *; subst. unfold far in Hz. cbn in Hz.
    destruct go as [| |[|]| |]; try discriminate Hz; try congruence. cbn. repeat split; auto.
Qed.

Theorem close_returns_proof : forall before after f,
  one_at_a_time (before ++ LClose f :: after) -> l_net (lrun before) = NetOpen ->
  progress after -> 
  (existsb closes after = false) ->
  let s := lrun (before ++ LClose f :: after) in l_closing s = 0 /\ l_net s = NetNone /\ l_chan_closed s = true /\ l_panic s = false.
Proof.
  intros before after f H Hn Hp Hc. 
  assert (Hl : existsb listens after = false) by (destruct (H before after f eq_refl); assumption).
  assert (Hb : safe (lrun (before ++ [LClose f]))).
  { apply safe_run. intros p q g E. destruct (H p (q ++ after) g) as [H1 H2].
    - change (LClose f :: after) with ([LClose f] ++ after). rewrite app_assoc, E, <- app_assoc. reflexivity.
    - rewrite existsb_app in H2. apply orb_false_iff in H2. tauto. }
  change (LClose f :: after) with ([LClose f] ++ after). rewrite app_assoc, lrun_app.
  assert (E : l_net (lrun (before ++ [LClose f])) = NetClosed).
  { rewrite lrun_app. simpl.
    assert (Hpan : l_panic (lrun before) = false).
    { apply no_crash_proof. intros p q g ->. destruct (H p (q ++ LClose f :: after) g) as [H1 H2]; [rewrite <- app_assoc; reflexivity|].
      rewrite existsb_app in H2. apply orb_false_iff in H2. tauto. }
    unfold lstep. rewrite Hpan, Hn. reflexivity. }
  destruct Hb as [S1 S2 S3 S4 S5 S6 S7].
  assert (Hone : closing_one (lrun (before ++ [LClose f]))).
  { repeat split; auto.
    - destruct (l_chan_closed (lrun (before ++ [LClose f]))); auto. specialize (S5 eq_refl). congruence.
    - apply S7. congruence. }
  destruct (closes_progress after _ Hone Hc Hl Hp) as (P1 & P2 & P3 & P4 & P5). auto.
Qed.

(** * Errors *)
(** Accept does not fail by itself before the context is cancelled, and Close is called only after the context has been
    cancelled; closing the socket reports no error. *)
Fixpoint orderly (cancelled : bool) (l : list laction) : bool :=
  match l with
  | [] => true
  | a :: l' => (match a with LAccept fails => cancelled || negb fails | LClose fails => cancelled && negb fails | _ => true end) && orderly (cancelled || cancels a) l'
  end.
Definition no_error (s : listener) : Prop :=
  l_errs s = [] /\ (l_ctx s = false -> l_closing s = 0 /\ l_net s <> NetClosed /\ l_go s <> GBack None /\ (l_net s = NetNone -> l_go s = GNone) ).
Lemma step_no_error : forall s a, no_error s -> orderly (l_ctx s) [a] = true -> no_error (lstep s a) /\ (l_panic s = false -> l_ctx (lstep s a) = l_ctx s || cancels a).
Proof.
  intros s a [He Hc] Ha.
  destruct s as [net go ctx cc w out lost errs closing panic]; cbn in *; subst. unfold lstep, no_error; cbn.
  destruct panic; [split; [split; auto|discriminate]|].
  destruct ctx; cbn in *.
  - clear Hc. destruct a; cbn in *; rewrite ?orb_true_r.
    + destruct net, ok; cbn; repeat split; auto; try discriminate.
    + destruct net; cbn; repeat split; auto; try discriminate.
    + destruct go; cbn; repeat split; auto; try discriminate; destruct net, fails, w; cbn; repeat split; auto; try discriminate.
    + destruct go; cbn; repeat split; auto; try discriminate.
    + destruct go; cbn; repeat split; auto; try discriminate.
    + repeat split; auto; discriminate.
    + destruct fails; [discriminate|]. destruct net; cbn; repeat split; auto; try discriminate.
    + destruct closing, go; cbn; repeat split; auto; try discriminate.
  - destruct (Hc eq_refl) as (H1 & H2 & H3 & H4). subst closing. destruct a; cbn in *.
    + destruct net, ok; cbn; repeat split; auto; try discriminate; congruence.
    + destruct net; cbn; repeat split; auto; try discriminate.
    + destruct fails; [discriminate|]. destruct go; cbn; try (repeat split; auto; fail).
      destruct net; [discriminate (H4 eq_refl)| |congruence]. destruct w; cbn; repeat split; auto; try discriminate.
    + destruct go as [| |[|]| |]; cbn; try congruence; repeat split; auto; try discriminate. intros E. discriminate (H4 E).
    + destruct go; cbn; repeat split; auto; try discriminate. intros E. discriminate (H4 E).
    + repeat split; auto; discriminate.
    + discriminate.
    + repeat split; auto.
Qed.
Lemma run_no_error : forall l s, no_error s -> orderly (l_ctx s) l = true -> no_error (fold_left lstep l s).
Proof.
  induction l as [|a l IH]; intros s Hs Hl; cbn [fold_left]; auto. simpl in Hl. apply andb_true_iff in Hl. destruct Hl as [Ha Hl].
  destruct (step_no_error s a Hs) as [H1 H2]; [simpl; rewrite Ha; reflexivity|].
  destruct (l_panic s) eqn:Hp.
  - assert (E : forall l s, l_panic s = true -> fold_left lstep l s = s).
    { clear. induction l as [|a l IH]; intros s H; simpl; auto. unfold lstep at 2. rewrite H. apply IH. assumption. }
    unfold lstep at 2. rewrite Hp, E; auto.
  - apply IH; auto. rewrite H2 by reflexivity. assumption.
Qed.
Theorem no_error_proof : forall l, orderly false l = true -> l_errs (lrun l) = [].
Proof.
  intros l H. apply (run_no_error l new_listener); auto. split; [reflexivity|]. intros _. cbn. repeat split; discriminate.
Qed.

(** failures are kept *)
Lemma errs_grow_step s a : exists t, l_errs (lstep s a) = l_errs s ++ t.
Proof.
  unfold lstep. destruct (l_panic s); [exists []; now rewrite app_nil_r|].
  destruct a as [ok|c|fails| | | |fails|].
  - destruct (l_net s), ok; cbn; exists []; now rewrite app_nil_r.
  - destruct (l_net s); cbn; exists []; now rewrite app_nil_r.
  - destruct (l_go s), (l_net s), fails, (l_waiting s); cbn; exists []; now rewrite app_nil_r.
  - destruct (l_go s) as [| |[r|]| |]; try (exists []; now rewrite app_nil_r); destruct (l_ctx s); cbn; try (exists []; now rewrite app_nil_r); eauto.
  - destruct (l_go s); cbn; exists []; now rewrite app_nil_r.
  - cbn. exists []; now rewrite app_nil_r.
  - destruct (l_net s), fails; cbn; try (exists []; now rewrite app_nil_r); eauto.
  - destruct (l_closing s), (l_go s); cbn; exists []; now rewrite app_nil_r.
Qed.
Lemma errs_grow l : forall s e, In e (l_errs s) -> In e (l_errs (fold_left lstep l s)).
Proof.
  induction l as [|a l IH]; intros s e H; cbn [fold_left]; auto. apply IH. destruct (errs_grow_step s a) as [t ->]. apply in_app_iff. auto.
Qed.
Definition failing (s : listener) : Prop := l_go s = GBack None /\ l_ctx s = false /\ l_panic s = false /\ l_net s <> NetNone.
Definition looks (a : laction) : bool := match a with LLook => true | _ => false end.
Lemma failing_step s a : failing s -> cancels a = false -> looks a = false -> failing (lstep s a).
Proof.
  intros (G & C & P & N) HC HL. destruct s as [net go ctx cc w out lost errs closing panic]. cbn in G, C, P, N. subst go ctx panic. unfold failing, lstep. cbn [l_panic l_go l_net l_ctx].
  destruct a as [ok|c|fails| | | |fails|]; try discriminate; cbn.
  - destruct net; [congruence| |]; auto.
  - destruct net; [congruence| |]; cbn; auto.
  - auto.
  - auto.
  - destruct net; [congruence| |]; cbn; repeat split; auto; discriminate.
  - destruct closing; auto.
Qed.
Lemma failing_run l : forall s, failing s -> forallb (fun a => negb (cancels a || looks a)) l = true -> failing (fold_left lstep l s).
Proof.
  induction l as [|a l IH]; intros s F H; cbn [fold_left]; auto. cbn [forallb] in H. apply andb_true_iff in H. destruct H as [Ha Hl].
  apply negb_true_iff, orb_false_iff in Ha. destruct Ha as [A B]. apply IH; auto using failing_step.
Qed.
Theorem accept_reported_proof : forall p m q, l_go (lrun p) = GAccept -> l_net (lrun p) = NetOpen -> l_ctx (lrun p) = false -> l_panic (lrun p) = false ->
  forallb (fun a => match a with LLook | LCancel => false | _ => true end) m = true ->
  In AcceptFailed (l_errs (lrun (p ++ LAccept true :: m ++ LLook :: q))).
Proof.
  intros p m q G N C P M. rewrite lrun_app. cbn [fold_left]. rewrite fold_left_app. cbn [fold_left]. apply errs_grow.
  assert (F : failing (lstep (lrun p) (LAccept true))).
  { unfold lstep. rewrite P, G, N. unfold failing. cbn. repeat split; auto. discriminate. }
  assert (M' : forallb (fun a => negb (cancels a || looks a)) m = true).
  { revert M. clear. induction m as [|a m IH]; auto. cbn [forallb]. rewrite !andb_true_iff. intros [A B]. split; auto. destruct a; auto. }
  destruct (failing_run m _ F M') as (G1 & C1 & P1 & _). unfold lstep at 1. rewrite P1, G1, C1. cbn. apply in_app_iff. right. now left.
Qed.
Theorem close_reported_proof : forall p q, l_net (lrun p) <> NetNone -> l_panic (lrun p) = false ->
  In CloseFailed (l_errs (lrun (p ++ LClose true :: q))).
Proof.
  intros p q N P. rewrite lrun_app. cbn [fold_left]. apply errs_grow. unfold lstep. rewrite P. destruct (l_net (lrun p)); [congruence| |]; cbn; apply in_app_iff; right; now left.
Qed.
