(** Proofs for C143-C145. *)
From Coq Require Import List ZArith Bool Lia Sorting.Sorted.
From Verif Require Import Bytes Spec Sql System Prog Backend Limited Api Pool Observe Etcd KvWire SpecLemmas SqlLemmas Sim ReadLemmas ProgLemmas ReadProgs TraceLemmas Safety ApiLemmas StoreProofs ReadProofs TxnProofs.
Import ListNotations.
Open Scope Z_scope.
Local Notation ck := compact_rev_key.

Lemma messages_map l : messages l = map scan_kv l.
Proof.
  unfold messages. assert (G : forall l, to_kvs_loop (map (fun x => Some (scan_kv x)) l) = map scan_kv l).
  { clear. induction l as [|x l IH]; cbn; [reflexivity|]. now rewrite IH. }
  destruct l as [|x l]; [reflexivity|]. cbn [map to_kvs]. exact (G (x :: l)).
Qed.
Lemma messages_carry l : Forall2 carries l (messages l).
Proof. rewrite messages_map. induction l as [|x l IH]; cbn; constructor; auto. unfold carries. cbn. auto. Qed.
Lemma scan_inj x y : scan_kv x = scan_kv y -> x = y.
Proof. destruct x, y. unfold scan_kv. cbn. intros [= -> -> -> -> ->]. reflexivity. Qed.
Lemma messages_inj l1 l2 : messages l1 = messages l2 -> l1 = l2.
Proof.
  rewrite !messages_map. revert l2. induction l1 as [|x l1 IH]; intros [|y l2]; cbn; try discriminate; auto.
  intros H. injection H as H1 H2 H3 H4 H5 H6. f_equal; [apply scan_inj; unfold scan_kv; congruence|auto].
Qed.

Lemma wire_list cfg w lo hi rev : wreach w -> hi <> [] ->
  match ask_wire cfg w (range lo hi 0 rev) with
  | Ok m => wr_header m = revision (history_of (snd w)) /\
            exists L, is_snapshot (history_of (snd w)) (read_at rev (wr_header m)) lo hi L /\ Forall2 carries L (wr_kvs m)
  | Err e => e = ECompacted /\ rev <> 0 /\ rev < floor_of (snd w)
  end.
Proof.
  intros HW NE. pose proof (list_now cfg w lo hi rev HW NE) as H. unfold ask_wire, on_wire.
  destruct (ask cfg w (range lo hi 0 rev)) as [r|e]; [|exact H]. destruct H as [H1 H2]. cbn [wire_range wr_header wr_kvs].
  split; auto. exists (rr_kvs r). split; [exact H2|apply messages_carry].
Qed.
Lemma wire_get cfg w k rev : wreach w -> (rev = 0 \/ floor_of (snd w) <= rev) ->
  exists m, ask_wire cfg w (range k [] 0 rev) = Ok m /\ wr_header m = revision (history_of (snd w)) /\
  match kv_at (history_of (snd w)) (read_at rev (revision (history_of (snd w)))) k with
  | Some x => exists y, wr_kvs m = [y] /\ carries x y
  | None => wr_kvs m = []
  end.
Proof.
  intros HW F. unfold ask_wire. rewrite ask_get by auto.
  replace (negb (rev =? 0) && (rev <? floor_of (snd w))) with false.
  2: { symmetry. destruct (Z.eqb_spec rev 0); cbn; auto. apply Z.ltb_ge. lia. }
  eexists. split; [reflexivity|]. cbn [wire_range wr_header wr_kvs rr_header rr_kvs]. split; [reflexivity|]. rewrite messages_map.
  destruct (kv_at _ _ k) as [x|]; [|reflexivity]. exists (scan_kv x). split; [reflexivity|]. unfold carries. cbn. auto.
Qed.
Lemma wire_request cfg w r : match ask cfg w r, ask_wire cfg w r with
  | Ok a, Ok m => wr_header m = rr_header a /\ wr_more m = rr_more a /\ wr_count m = rr_count a /\ Forall2 carries (rr_kvs a) (wr_kvs m)
  | Err e, Err e' => e = e'
  | _, _ => False
  end.
Proof. unfold ask_wire, on_wire. destruct (ask cfg w r) as [a|e]; auto. cbn [wire_range wr_header wr_kvs wr_more wr_count]. auto using messages_carry. Qed.

(** a conditional write that is not performed *)
Lemma wire_failed cfg w k v expect lease x : wreach w -> k <> ck -> value_of cfg w k = Some x -> kv_mod x <> expect ->
  forall t, In t [update_txn k v expect lease; delete_txn k expect] ->
  after_txn cfg w t = w /\
  exists m r y, transact_wire cfg w t = Ok m /\ wt_succeeded m = false /\ wt_header m = 0 /\
    wt_responses m = [WRangeOp r] /\ wr_kvs r = [y] /\ carries x y.
Proof.
  intros HW HK V NE t [<-|[<-|[]]].
  - pose proof (update_lemma cfg w k v expect lease HW HK) as H. cbv zeta in H. rewrite V in H.
    destruct (Z.eqb_spec (kv_mod x) expect); [contradiction|]. destruct H as [[h E] W]. split; auto.
    unfold transact_wire. rewrite E. cbn [on_wire wire_txn tr_header tr_succeeded tr_responses map wire_op].
    eexists _, _, _. split; [reflexivity|]. cbn. split; [reflexivity|]. split; [reflexivity|]. split; [reflexivity|]. split; [reflexivity|].
    unfold carries. cbn. auto.
  - pose proof (delete_lemma cfg w k expect HW HK) as H. cbv zeta in H. rewrite V in H.
    destruct (Z.eqb_spec (kv_mod x) expect); [contradiction|]. destruct H as [[h E] W]. split; auto.
    unfold transact_wire. rewrite E. cbn [on_wire wire_txn tr_header tr_succeeded tr_responses map wire_op].
    eexists _, _, _. split; [reflexivity|]. cbn. split; [reflexivity|]. split; [reflexivity|]. split; [reflexivity|]. split; [reflexivity|].
    unfold carries. cbn. auto.
Qed.

(** headers *)
Lemma succeeded_header cfg w k v expect lease : wreach w -> k <> ck ->
  forall t m, In t [create_txn k v lease; update_txn k v expect lease; delete_txn k expect] ->
  transact_wire cfg w t = Ok m -> wt_succeeded m = true ->
  wt_header m = revision (history_of (snd (after_txn cfg w t))) /\ wt_header m = revision (history_of (snd w)) + 1.
Proof.
  intros HW HK t m I E S. unfold transact_wire in E.
  assert (HR : wreach (after_txn cfg w t)).
  { destruct I as [<-|[<-|[<-|[]]]]; [apply create_reach|apply update_reach|apply delete_reach]; auto. }
  assert (G : exists r, transact cfg w t = Ok r /\ tr_header r = current cfg (after_txn cfg w t) /\ tr_header r = current cfg w + 1).
  { destruct (transact cfg w t) as [r|e] eqn:T; [|discriminate]. injection E as <-. cbn [wire_txn wt_succeeded] in S. exists r. split; [reflexivity|].
    destruct I as [<-|[<-|[<-|[]]]].
    - pose proof (create_lemma cfg w k v lease HW HK) as H. cbv zeta in H. rewrite T in H. destruct (value_of cfg w k).
      + destruct H as [H _]. injection H as ->. discriminate.
      + destruct H as (H & C & _). injection H as ->. cbn. rewrite C. auto.
    - pose proof (update_lemma cfg w k v expect lease HW HK) as H. cbv zeta in H. rewrite T in H. destruct (value_of cfg w k) as [x|].
      + destruct (kv_mod x =? expect); [destruct H as (H & C & _); injection H as ->; cbn; rewrite C; auto|].
        destruct H as [[h H] _]. injection H as ->. discriminate.
      + destruct (expect =? 0); [destruct H as (H & C & _); injection H as ->; cbn; rewrite C; auto|].
        destruct H as [[h H] _]. injection H as ->. discriminate.
    - pose proof (delete_lemma cfg w k expect HW HK) as H. cbv zeta in H. rewrite T in H. destruct (value_of cfg w k) as [x|].
      + destruct (kv_mod x =? expect); [destruct H as (H & C & _); injection H as ->; cbn; rewrite C; auto|].
        destruct H as [[h H] _]. injection H as ->. discriminate.
      + destruct H as [[h H] _]. injection H as ->. discriminate. }
  destruct G as (r & T & A & B). rewrite T in E. injection E as <-. cbn [wire_txn wt_header].
  rewrite current_rev in A, B by auto. auto.
Qed.
Lemma failed_header cfg w k v expect lease : wreach w -> k <> ck ->
  forall t m, In t [create_txn k v lease; update_txn k v expect lease; delete_txn k expect] ->
  transact_wire cfg w t = Ok m -> wt_succeeded m = false -> wt_header m = 0.
Proof.
  intros HW HK t m I E S. unfold transact_wire in E. destruct (transact cfg w t) as [r|e] eqn:T; [|discriminate].
  injection E as <-. cbn [wire_txn wt_succeeded wt_header] in *. destruct I as [<-|[<-|[<-|[]]]].
  - pose proof (create_lemma cfg w k v lease HW HK) as H. cbv zeta in H. rewrite T in H. destruct (value_of cfg w k).
    + destruct H as [H _]. injection H as ->. reflexivity.
    + destruct H as (H & C & _). injection H as ->. discriminate.
  - pose proof (update_lemma cfg w k v expect lease HW HK) as H. cbv zeta in H. rewrite T in H. destruct (value_of cfg w k) as [x|].
    + destruct (kv_mod x =? expect); [destruct H as (H & C & _); injection H as ->; discriminate|].
      destruct H as [[h H] _]. injection H as ->. reflexivity.
    + destruct (expect =? 0); [destruct H as (H & C & _); injection H as ->; discriminate|].
      destruct H as [[h H] _]. injection H as ->. reflexivity.
  - pose proof (delete_lemma cfg w k expect HW HK) as H. cbv zeta in H. rewrite T in H. destruct (value_of cfg w k) as [x|].
    + destruct (kv_mod x =? expect); [destruct H as (H & C & _); injection H as ->; discriminate|].
      destruct H as [[h H] _]. injection H as ->. reflexivity.
    + destruct H as [[h H] _]. injection H as ->. reflexivity.
Qed.

(** versions *)
Lemma version_from_snoc k h e : forall n, version_from k (h ++ [e]) n =
  if beqb (e_key e) k then match e_change e with Put _ _ => version_from k h n + 1 | Del => 0 end else version_from k h n.
Proof. induction h as [|x h IH]; intros n; cbn [app version_from]; [reflexivity|apply IH]. Qed.
Lemma version_live h k x : now h k = Some x -> 1 <= version h k.
Proof.
  assert (G : 0 <= version h k /\ (now h k <> None -> 1 <= version h k)).
  { unfold version. induction h as [|e h IH] using rev_ind; [split; [cbn; lia|]; intros H; contradiction H; reflexivity|].
    rewrite version_from_snoc, now_snoc. unfold change_key. destruct (beqb (e_key e) k); [|exact IH].
    destruct (e_change e); [split; [lia|]; intros _; lia|]. split; [lia|]. intros H. now contradiction H. }
  intros N. apply G. congruence.
Qed.
Lemma version_zero l m : In m (messages l) -> m_version m = 0.
Proof. rewrite messages_map. intros H. apply in_map_iff in H. destruct H as (x & <- & _). reflexivity. Qed.
Lemma get_counts_zero cfg w k x rev : wreach w -> value_of cfg w k = Some x ->
  forall m, ask_wire cfg w (range k [] 0 rev) = Ok m -> wr_count m = 0.
Proof.
  intros HW V m E. unfold ask_wire in E. rewrite ask_get in E by auto. destruct (negb _ && _) in E; [discriminate|]. injection E as <-. reflexivity.
Qed.
Lemma delete_counts_zero cfg w k x : wreach w -> k <> ck -> value_of cfg w k = Some x ->
  exists m h, transact_wire cfg w (delete_txn k (kv_mod x)) = Ok m /\ wt_succeeded m = true /\ wt_responses m = [WDelete h 0].
Proof.
  intros HW HK V. pose proof (delete_lemma cfg w k (kv_mod x) HW HK) as H. cbv zeta in H. rewrite V, Z.eqb_refl in H. destruct H as (H & _).
  unfold transact_wire. rewrite H. exists (WTxn (current cfg w + 1) true [WDelete (current cfg w + 1) 0]), (current cfg w + 1). repeat split; reflexivity.
Qed.
Lemma wire_versions cfg w k x : wreach w -> value_of cfg w k = Some x ->
  1 <= version (history_of (snd w)) k /\
  exists m y, ask_wire cfg w (range k [] 0 0) = Ok m /\ wr_kvs m = [y] /\ carries x y /\ m_version y = 0.
Proof.
  intros HW V. rewrite value_of_now in V by auto. split; [now apply (version_live _ _ x)|].
  destruct (wire_get cfg w k 0 HW (or_introl eq_refl)) as (m & A & B & C). unfold read_at in C. cbn [Z.eqb orb] in C. rewrite kv_at_now, V in C.
  destruct C as (y & C & D). exists m, y. repeat split; auto; try apply D.
  unfold ask_wire, on_wire in A. destruct (ask _ _ _) as [a|]; [|discriminate]. injection A as <-. cbn [wire_range wr_kvs] in C.
  apply (version_zero (rr_kvs a)). rewrite C. now left.
Qed.
