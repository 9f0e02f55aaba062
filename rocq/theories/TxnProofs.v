(** Proofs for C17, C20, C21, C42. *)
From Coq Require Import List ZArith Bool Lia.
From Verif Require Import Bytes Spec Sql System Prog Backend Limited Etcd Api Pool Observe SpecLemmas SqlLemmas Sim ReadLemmas ProgLemmas ReadProgs TraceLemmas Safety ApiLemmas StoreProofs ReadProofs.
Import ListNotations.
Open Scope Z_scope.

Local Notation ck := compact_rev_key.

(** ---- own writes ---- *)
Fixpoint owp {A} (okf : fault -> Prop) (J : list Z -> Prop) (p : prog A) (Q : world -> A -> list Z -> Prop)
    (w : world) (acc : list Z) : Prop :=
  J acc /\
  match p with
  | Ret a => Q w a acc
  | Call c k => forall w1, wsteps w w1 -> call_ok (snd w1) c /\
      forall f, okf f -> owp okf J (k (snd (sem f c w1))) Q (fst (sem f c w1)) (acc ++ committed w1 (fst (sem f c w1)))
  end.

Lemma owp_mono {A} okf (J : list Z -> Prop) (p : prog A) (Q Q' : world -> A -> list Z -> Prop) w acc :
  (forall w a acc, J acc -> Q w a acc -> Q' w a acc) -> owp okf J p Q w acc -> owp okf J p Q' w acc.
Proof.
  intros H. revert w acc. induction p as [a|c k IH]; simpl; intros w acc [H0 H1]; split; auto.
  intros w1 S. destruct (H1 w1 S). split; auto.
Qed.
Lemma owp_bind {A B} okf (J : list Z -> Prop) (p : prog A) (g : A -> prog B) Q w acc :
  owp okf J p (fun w' a acc' => owp okf J (g a) Q w' acc') w acc -> owp okf J (pbind p g) Q w acc.
Proof.
  revert w acc. induction p as [a|c k IH]; intros w acc [H0 H1]; [exact H1|].
  split; [exact H0|]. intros w1 S. destruct (H1 w1 S) as [K1 K2]. split; [exact K1|].
  intros f Hf. apply IH, K2, Hf.
Qed.
Lemma owp_rbind {A B} okf (J : list Z -> Prop) (p : prog (result A)) (g : A -> prog (result B)) Q w acc :
  owp okf J p (fun w' r acc' => match r with Ok a => owp okf J (g a) Q w' acc' | Err e => Q w' (Err e) acc' end) w acc ->
  owp okf J (rbind p g) Q w acc.
Proof.
  intros. unfold rbind. apply owp_bind. eapply owp_mono; [|apply H]. intros w' [a|e] acc' HI; simpl; auto.
Qed.
Lemma owp_reads {A} okf (J : list Z -> Prop) (p : prog A) (Q : world -> A -> list Z -> Prop) w acc : J acc ->
  wp okf p (fun w' a => Q w' a acc) w -> issues (fun _ f => okf f) (fun c => op_of c = None) p ->
  owp okf J p Q w acc.
Proof.
  intros HJ. revert w. induction p as [a|c k IH]; simpl; auto. intros w W [H1 H2]. split; auto.
  intros w1 S. destruct (W w1 S) as [K1 K2]. split; auto. intros f Hf.
  assert (E : fst (sem f c w1) = w1).
  { destruct f; cbn [sem fst]; auto; unfold weffect; now rewrite H1. }
  assert (C : committed w1 (fst (sem f c w1)) = []).
  { rewrite E. unfold committed. now rewrite Z.ltb_irrefl. }
  rewrite C, app_nil_r. apply IH; auto.
Qed.
Lemma owp_sound {A} okf (J : list Z -> Prop) (p : prog A) Q : forall sched w acc,
  owp okf J p Q w acc -> fair p sched w -> all_faults okf sched ->
  J (acc ++ own_writes p sched w) /\
  forall a, snd (exec p sched w) = Some a -> Q (fst (exec p sched w)) a (acc ++ own_writes p sched w).
Proof.
  induction p as [a|c k IH]; intros sched w acc [W0 W] F O.
  - simpl. rewrite app_nil_r. split; auto. intros a' [= <-]. exact W.
  - destruct sched as [|[env f] sched]; simpl.
    + rewrite app_nil_r. split; [auto|discriminate].
    + simpl in F. destruct F as [F1 F2]. inversion O as [|? ? O1 O2]; subst. simpl in O1.
      set (w1 := fold_left wapply env w) in *.
      assert (S1 : wsteps w w1) by (now apply wsteps_env).
      destruct (W w1 S1) as [C K]. specialize (K f O1).
      destruct (sem f c w1) as [w2 r] eqn:E. cbn [fst snd] in *.
      destruct (IH r sched w2 _ K F2 O2) as [A1 A2]. rewrite <- app_assoc in A1, A2. split; auto.
Qed.

(** a write that can be performed only once *)
Definition once (a : aop) (spent : world -> Prop) : Prop :=
  (forall s, allowed s a /\ margin s a) /\ is_write a /\
  (forall w w', wsteps w w' -> spent w -> spent w') /\
  (forall w, wreach w -> spent w -> snd (spec_apply (snd w) a) = (0, 0)) /\
  (forall w, wreach w -> snd (spec_apply (snd w) a) <> (0, 0) -> spent (wapply w a)).

Lemma committed_write w a : wreach w -> allowed (snd w) a -> is_write a ->
  (snd (spec_apply (snd w) a) = (0, 0) /\ wapply w a = w /\ committed w (wapply w a) = []) \/
  (snd (spec_apply (snd w) a) = (1, revision (history_of (snd w)) + 1) /\
   committed w (wapply w a) = [revision (history_of (snd w)) + 1]).
Proof.
  intros HW HA WA. destruct (spec_write_result (snd w) a) as [[A B]|[A B]].
  - left. split; auto. pose proof (write_noop w a HW HA WA A) as E. rewrite E. split; auto.
    unfold committed. now rewrite Z.ltb_irrefl.
  - right. split; auto. unfold committed. cbn [wapply snd]. rewrite B.
    destruct (Z.ltb_spec (revision (history_of (snd w))) (revision (history_of (snd w)) + 1)); [reflexivity|lia].
Qed.


Lemma owp_once a spent : once a spent -> forall n w acc, wreach w ->
  (acc = [] \/ (exists r, acc = [r]) /\ spent w) ->
  owp any_fault at_most_one (with_retry (S n) (CExec a))
    (fun w' r acc' => wreach w' /\
       match r with
       | Ok x => (x = (0, 0) /\ at_most_one acc') \/ (exists r, x = (1, r) /\ acc' = [r])
       | Err _ => True
       end) w acc.
Proof.
  intros (O1 & O2 & O3 & O4 & O5).
  assert (I1 : forall w acc, (acc = [] \/ (exists r : Z, acc = [r]) /\ spent w) -> at_most_one acc).
  { intros w acc [->|[[r ->] _]]; unfold at_most_one; simpl; lia. }
  (* one attempt *)
  assert (STEP : forall w acc f w1, wreach w -> (acc = [] \/ (exists r, acc = [r]) /\ spent w) -> wsteps w w1 ->
    let w2 := fst (sem f (CExec a) w1) in let acc2 := acc ++ committed w1 w2 in
    wreach w2 /\ (acc2 = [] \/ (exists r, acc2 = [r]) /\ spent w2) /\
    match snd (sem f (CExec a) w1) with
    | Ok x => (x = (0, 0) /\ at_most_one acc2) \/ (exists r, x = (1, r) /\ acc2 = [r])
    | Err _ => True
    end).
  { intros w acc f w1 HW HA S. cbv zeta.
    pose proof (wsteps_reach _ _ HW S) as HW1. destruct (O1 (snd w1)) as [AL _].
    assert (HA1 : acc = [] \/ (exists r, acc = [r]) /\ spent w1).
    { destruct HA as [HA|[HA HS]]; auto. right. split; auto. eapply O3; eauto. }
    pose proof (wapply_reach w1 a HW1 AL) as HW2.
    pose proof (proj2 (R_step _ _ a (reach_R _ _ HW1) AL)) as RES.
    assert (EFF : let acc2 := acc ++ committed w1 (wapply w1 a) in
      (acc2 = [] \/ (exists r, acc2 = [r]) /\ spent (wapply w1 a)) /\
      ((snd (apply (fst w1) a) = (0, 0) /\ at_most_one acc2) \/ (exists r, snd (apply (fst w1) a) = (1, r) /\ acc2 = [r]))).
    { cbv zeta. rewrite RES. destruct (committed_write w1 a HW1 AL O2) as [(C1 & C2 & C3)|(C1 & C2)].
      - rewrite C3, C2, app_nil_r. split; auto. left. split; auto. eapply I1; eauto.
      - destruct HA1 as [->|[_ HS]].
        + rewrite C2. simpl. split.
          * right. split; eauto. apply O5; auto. rewrite C1. discriminate.
          * right. eauto.
        + exfalso. rewrite (O4 w1 HW1 HS) in C1. discriminate. }
    destruct EFF as [E1 E2].
    destruct f; cbn [sem fst snd]; unfold weffect; cbn [op_of answer]; auto.
    - split; auto. split; [|exact I].
      replace (committed w1 w1) with (@nil Z) by (unfold committed; now rewrite Z.ltb_irrefl).
      now rewrite app_nil_r. }
  induction n as [|n IH]; intros w acc HW HA.
  - split; [eapply I1; eauto|]. intros w1 S. split; [exact (O1 (snd w1))|]. intros f _.
    destruct (STEP w acc f w1 HW HA S) as (A & B & C).
    destruct (snd (sem f (CExec a) w1)) as [x|e]; (split; [eapply I1; eauto|]); auto.
  - change (with_retry (S (S n)) (CExec a)) with (Call (CExec a) (fun r =>
        match r with Ok _ => Ret r | Err e => if retryable e then with_retry (S n) (CExec a) else Ret r end)).
    split; [eapply I1; eauto|]. intros w1 S. split; [exact (O1 (snd w1))|]. intros f _.
    destruct (STEP w acc f w1 HW HA S) as (A & B & C).
    destruct (snd (sem f (CExec a) w1)) as [x|e].
    + split; [eapply I1; eauto|]. auto.
    + destruct (retryable e).
      * apply IH; auto.
      * split; [eapply I1; eauto|]. auto.
Qed.

(** a change of [k] above [e] happened *)
Definition passed (k : bytes) (e : Z) (w : world) : Prop :=
  exists r x, ent (history_of (snd w)) r = Some x /\ e_key x = k /\ e < r.
Lemma passed_stable k e w w' : wsteps w w' -> passed k e w -> passed k e w'.
Proof.
  intros S (r & x & E & K & L). exists r, x. repeat split; auto.
  destruct (wsteps_extends _ _ S) as [[l ->] _]. pose proof (ent_bounds _ _ _ E). rewrite ent_app; auto. lia.
Qed.
Lemma passed_mod k e w x : passed k e w -> now (history_of (snd w)) k = Some x -> e < kv_mod x.
Proof.
  intros (r & y & E & K & L) N. apply now_facts in N. destruct N as (_ & _ & _ & _ & N & _).
  destruct (Z_lt_dec e (kv_mod x)); auto. exfalso. apply (N r y); auto. lia.
Qed.
Lemma commit_passed w k c e s' : e <= revision (history_of (snd w)) -> 
  history_of s' = history_of (snd w) ++ [Entry k c] -> passed k e (fst w, s').
Proof.
  intros L H. exists (revision (history_of (snd w)) + 1), (Entry k c). cbn [snd]. rewrite H, ent_snoc_new.
  repeat split; auto. lia.
Qed.

Lemma once_update k v e l : k <> ck -> once (AUpdate k v e l) (passed k e).
Proof.
  intros HK. split; [simpl; auto|]. split; [simpl; auto|]. split; [apply passed_stable|]. split.
  - intros w HW P. cbn [spec_apply]. unfold spec_update. destruct (now (history_of (snd w)) k) as [x|] eqn:N; [|reflexivity].
    pose proof (passed_mod _ _ _ _ P N). destruct (Z.eqb_spec (kv_mod x) e); [lia|reflexivity].
  - intros w HW. unfold wapply. cbn [spec_apply]. unfold spec_update.
    destruct (now (history_of (snd w)) k) as [x|] eqn:N; [|simpl; congruence].
    destruct (Z.eqb_spec (kv_mod x) e) as [<-|]; [|simpl; congruence]. intros _.
    exists (revision (history_of (snd w)) + 1), (Entry k (Put v l)). cbn. rewrite ent_snoc_new.
    repeat split; auto. apply now_facts in N. lia.
Qed.
Lemma once_delete k e : k <> ck -> once (ADelete k e) (passed k e).
Proof.
  intros HK. split; [simpl; auto|]. split; [simpl; auto|]. split; [apply passed_stable|]. split.
  - intros w HW P. cbn [spec_apply]. unfold spec_delete. destruct (now (history_of (snd w)) k) as [x|] eqn:N; [|reflexivity].
    pose proof (passed_mod _ _ _ _ P N). destruct (Z.eqb_spec (kv_mod x) e); [lia|reflexivity].
  - intros w HW. unfold wapply. cbn [spec_apply]. unfold spec_delete.
    destruct (now (history_of (snd w)) k) as [x|] eqn:N; [|simpl; congruence].
    destruct (Z.eqb_spec (kv_mod x) e) as [<-|]; [|simpl; congruence]. intros _.
    exists (revision (history_of (snd w)) + 1), (Entry k Del). cbn. rewrite ent_snoc_new.
    repeat split; auto. apply now_facts in N. lia.
Qed.

Lemma issues_failure (P : call -> Prop) allow cfg k rev :
  P CInterval -> (forall a b c d e, P (CList a b c d e)) -> issues allow P (l_failure cfg k rev).
Proof.
  intros A B. unfold l_failure. apply issues_rbind.
  - unfold b_list. apply issues_rbind.
    { unfold d_get_compact_revision. apply issues_rbind; [apply issues_query; auto|intros; exact I]. }
    intros [lo hi]. destruct (read_revision rev lo hi); [|exact I]. apply issues_rbind; [|intros; exact I].
    apply issues_query. auto.
  - intros [a b]. exact I.
Qed.

(** one conditional write followed by the read of the failure branch *)
Lemma owp_txn a spent cfg k (mk : Z -> resp_op) w : once a spent -> wreach w ->
  owp any_fault at_most_one
    (rbind (rbind (d_execute a) (fun x => Ret (Ok (exec_outcome x))))
       (fun '(rev, ok) => if (ok : bool) then Ret (Ok (TxnResp rev true [mk rev])) else l_failure cfg k rev))
    (fun _ r acc => reported (Some r) acc) w [].
Proof.
  intros O HW. apply owp_rbind, owp_rbind. unfold d_execute. destruct max_retries_S as (n & ->).
  eapply owp_mono; [|apply (owp_once a spent O n w [] HW); auto].
  intros w' [x|e] acc HI [HW' H]; [|exact HI].
  split; [exact HI|]. unfold exec_outcome.
  assert (F : owp any_fault at_most_one (l_failure cfg k 0) (fun _ r acc => reported (Some r) acc) w' acc).
  { apply owp_reads; auto; [|apply issues_failure; reflexivity || (intros; reflexivity)].
    unfold l_failure. apply wp_rbind. eapply wp_mono; [|apply wp_b_list_any].
    intros w2 [[c kvs]|e] _; cbn; auto. }
  destruct H as [[-> HA]|(r & -> & HA)]; cbn [fst snd Z.eqb]; auto.
  cbn [owp]. split; [exact HI|]. simpl. exact HA.
Qed.

Lemma update_once cfg k v e l w sched : wreach w -> k <> ck -> e <> 0 ->
  fair (s_txn cfg (update_txn k v e l)) sched w ->
  reported (snd (exec (s_txn cfg (update_txn k v e l)) sched w)) (own_writes (s_txn cfg (update_txn k v e l)) sched w).
Proof.
  intros HW HK HE HF. rewrite txn_update in *. unfold l_update in *.
  destruct (Z.eqb_spec e 0); [contradiction|]. unfold b_update, d_update in *.
  pose proof (owp_txn _ _ cfg k RespPut w (once_update k v e l HK) HW) as H.
  destruct (owp_sound _ _ _ _ sched w [] H HF) as [A B].
  { apply Forall_forall. intros; exact I. }
  simpl app in *. destruct (snd (exec _ sched w)) as [r|] eqn:E; [|exact A]. apply B. reflexivity.
Qed.
Lemma delete_once cfg k e w sched : wreach w -> k <> ck ->
  fair (s_txn cfg (delete_txn k e)) sched w ->
  reported (snd (exec (s_txn cfg (delete_txn k e)) sched w)) (own_writes (s_txn cfg (delete_txn k e)) sched w).
Proof.
  intros HW HK HF. rewrite txn_delete in *. unfold l_delete, b_delete, d_delete in *.
  pose proof (owp_txn _ _ cfg k RespDelete w (once_delete k e HK) HW) as H.
  destruct (owp_sound _ _ _ _ sched w [] H HF) as [A B].
  { apply Forall_forall. intros; exact I. }
  simpl app in *. destruct (snd (exec _ sched w)) as [r|] eqn:E; [|exact A]. apply B. reflexivity.
Qed.

(** ---- C21 ---- *)
Lemma txn_unsupported cfg t sched w : ~ accepted ck t -> exec (s_txn cfg t) sched w = (w, Some (Err EUnsupported)).
Proof.
  intros H. assert (E : s_txn cfg t = Ret (Err EUnsupported)); [|rewrite E; reflexivity].
  unfold s_txn, l_txn.
  destruct t as [cs ss fs].
  destruct (is_create (TxnReq cs ss fs)) as [p|] eqn:E1.
  { unfold is_create in E1. cbn in E1. destruct cs as [|c [|]]; try discriminate. destruct fs; try discriminate.
    destruct ss as [|[| | |] [|]]; try discriminate.
    destruct (is_mod_equal c && (get_mod_revision c =? 0)) eqn:E2; try discriminate. injection E1 as ->.
    apply andb_true_iff in E2. destruct E2 as [E2 E3]. apply Z.eqb_eq in E3.
    unfold l_create. destruct (p_ignore_lease p || p_ignore_value p || p_prev_kv p) eqn:E4; auto.
    apply orb_false_iff in E4. destruct E4 as [E4 E5]. apply orb_false_iff in E4. destruct E4 as [E4 E6].
    exfalso. apply H. unfold is_mod_equal in E2.
    apply (accept_create ck _ c p); auto; try (destruct (c_target c), (c_result c); auto; discriminate).
    repeat split; auto. }
  destruct (is_delete (TxnReq cs ss fs)) as [[rev k]|] eqn:E2.
  { unfold is_delete in E2. cbn in E2. destruct cs as [|c [|]]; try discriminate. destruct fs as [|[] [|]]; try discriminate.
    destruct ss as [|[| |d|] [|]]; try discriminate. destruct (is_mod_equal c) eqn:E3; try discriminate.
    exfalso. apply H. unfold is_mod_equal in E3.
    eapply (accept_delete ck _ c d r); auto; destruct (c_target c), (c_result c); auto; discriminate. }
  destruct (is_update (TxnReq cs ss fs)) as [[[[rev k] v] l]|] eqn:E3.
  { unfold is_update in E3. cbn in E3. destruct cs as [|c [|]]; try discriminate. destruct ss as [|[|p| |] [|]]; try discriminate.
    destruct fs as [|[] [|]]; try discriminate. destruct (is_mod_equal c) eqn:E4; try discriminate.
    exfalso. apply H. unfold is_mod_equal in E4.
    eapply (accept_update ck _ c p r); auto; destruct (c_target c), (c_result c); auto; discriminate. }
  destruct (is_compact (TxnReq cs ss fs)) eqn:E4; auto.
  unfold is_compact in E4. cbn in E4. destruct cs as [|c [|]]; try discriminate. destruct ss as [|[|p| |] [|]]; try discriminate.
  destruct fs as [|[] [|]]; try discriminate. apply andb_true_iff in E4. destruct E4 as [E4 E5]. apply beqb_true in E5.
  exfalso. apply H. unfold is_version_equal in E4.
  eapply (accept_compact ck _ c p r); auto; destruct (c_target c), (c_result c); auto; discriminate.
Qed.

Lemma range_unsupported cfg r sched w : ~ supported_range r -> exec (s_range cfg r) sched w = (w, Some (Err EUnsupported)).
Proof.
  intros H. assert (E : s_range cfg r = Ret (Err EUnsupported)); [|rewrite E; reflexivity].
  unfold s_range. destruct (r_keys_only r) eqn:A1; auto.
  destruct (Z.eqb_spec (r_max_create r) 0); simpl; auto.
  destruct (Z.eqb_spec (r_sort_order r) 0); simpl; auto.
  destruct (Z.eqb_spec (r_sort_target r) 0); simpl; auto.
  destruct (r_serializable r) eqn:A2; auto.
  destruct (Z.eqb_spec (r_min_mod r) 0); simpl; auto.
  destruct (Z.eqb_spec (r_min_create r) 0); simpl; auto.
  destruct (Z.eqb_spec (r_max_mod r) 0); simpl; auto.
  exfalso. apply H. repeat split; auto.
Qed.

Lemma range_supported cfg r w : wreach w -> supported_range r -> bounded w r -> ask cfg w r <> Err EUnsupported.
Proof.
  intros HW HS HB. pose proof (ask_bounded cfg w r HW HS HB) as H. unfold range_answer in H. cbv zeta in H.
  destruct (negb _ && _); [rewrite H; discriminate|]. destruct H as (L & _ & H).
  destruct (r_range_end r); [|destruct (r_count_only r)]; rewrite H; discriminate.
Qed.

(** ---- C20 ---- *)
Lemma mod_compare s c : c_target c = TMod -> c_result c = CEqual ->
  etcd_compare s c = (match now (history_of s) (c_key c) with Some x => kv_mod x | None => 0 end =? expected c).
Proof. intros T E. unfold etcd_compare. rewrite T, E. reflexivity. Qed.

Lemma coherent_program cfg t : coherent t ->
  (exists c p, t = TxnReq [c] [OpPut p] [] /\ plain_put p /\ expected c = 0 /\ p_key p = c_key c /\ c_target c = TMod /\ c_result c = CEqual /\
      s_txn cfg t = s_txn cfg (create_txn (c_key c) (p_value p) (p_lease p))) \/
  (exists c p r, t = TxnReq [c] [OpPut p] [OpRange r] /\ plain_put p /\ p_key p = c_key c /\ c_target c = TMod /\ c_result c = CEqual /\
      s_txn cfg t = s_txn cfg (update_txn (c_key c) (p_value p) (expected c) (p_lease p))) \/
  (exists c d r, t = TxnReq [c] [OpDelete d] [OpRange r] /\ expected c <> 0 /\ d_key d = c_key c /\ c_target c = TMod /\ c_result c = CEqual /\
      s_txn cfg t = s_txn cfg (delete_txn (c_key c) (expected c))).
Proof.
  intros [c p T A B X R K (P1 & P2 & P3)|c p r T A B R K (P1 & P2 & P3)|c d r T A B X R D K].
  - left. exists c, p. split; [auto|]. split; [split; auto|]. repeat (split; [auto|]). subst t. rewrite txn_create.
    unfold s_txn, l_txn, is_create. cbn [t_compare t_failure t_success].
    unfold is_mod_equal. rewrite A, B. fold (expected c) in X.
    replace (get_mod_revision c) with (expected c) by reflexivity. rewrite X. cbn [Z.eqb andb].
    unfold l_create. cbn [p_ignore_lease p_ignore_value p_prev_kv p_key p_value p_lease orb].
    rewrite P1, P2, P3, K. reflexivity.
  - right; left. exists c, p, r. split; [auto|]. split; [split; auto|]. repeat (split; [auto|]). subst t. rewrite txn_update.
    unfold s_txn, l_txn, is_create, is_delete, is_update. cbn [t_compare t_failure t_success].
    unfold is_mod_equal. rewrite A, B. reflexivity.
  - right; right. exists c, d, r. repeat (split; [auto|]). subst t. rewrite txn_delete.
    unfold s_txn, l_txn, is_create, is_delete. cbn [t_compare t_failure t_success].
    unfold is_mod_equal. rewrite A, B, K. reflexivity.
Qed.

Lemma etcd_lemma cfg w t : wreach w -> coherent t -> txn_key t <> Some ck ->
  exists resp, transact cfg w t = Ok resp /\
    tr_succeeded resp = fst (etcd_txn (snd w) t) /\
    snd (after_txn cfg w t) = snd (etcd_txn (snd w) t).
Proof.
  intros HW HC HK. unfold transact, after_txn.
  destruct (coherent_program cfg t HC) as [(c & p & T & (PP1 & PP2 & PP3) & X & K & A & B & E)|[(c & p & r & T & (PP1 & PP2 & PP3) & K & A & B & E)|(c & d & r & T & X & K & A & B & E)]].
  - rewrite E. assert (NK : c_key c <> ck).
    { intros N. apply HK. subst t. unfold txn_key, is_create. cbn [t_compare t_failure t_success].
      unfold is_mod_equal. rewrite A, B. change (get_mod_revision c) with (expected c). rewrite X. cbn. congruence. }
    destruct (run_create cfg (c_key c) (p_value p) (p_lease p) w HW) as (_ & H1 & H2); [intros; contradiction|].
    eexists. split; [exact H2|]. rewrite H1. subst t. unfold etcd_txn. cbn [t_compare forallb t_success t_failure].
    rewrite (mod_compare _ _ A B), X, andb_true_r. unfold create_answer, spec_create.
    destruct (now (history_of (snd w)) (c_key c)) as [x|] eqn:N.
    + pose proof (now_facts _ _ _ N) as NF. destruct (Z.eqb_spec (kv_mod x) 0); [lia|]. split; reflexivity.
    + cbn. rewrite K, N, PP2, PP3. split; reflexivity.
  - rewrite E. assert (NK : c_key c <> ck).
    { intros N. apply HK. subst t. unfold txn_key, is_create, is_delete, is_update. cbn [t_compare t_failure t_success].
      unfold is_mod_equal. rewrite A, B. cbn. congruence. }
    destruct (run_update cfg (c_key c) (p_value p) (expected c) (p_lease p) w HW NK) as (_ & H1 & H2).
    eexists. split; [exact H2|]. rewrite H1. subst t. unfold etcd_txn. cbn [t_compare forallb t_success t_failure].
    rewrite (mod_compare _ _ A B), andb_true_r. unfold update_answer, spec_create, spec_update.
    destruct (now (history_of (snd w)) (c_key c)) as [x|] eqn:N.
    + pose proof (now_facts _ _ _ N) as NF. destruct (Z.eqb_spec (expected c) 0) as [E0|].
      * rewrite E0. destruct (Z.eqb_spec (kv_mod x) 0); [lia|]. split; reflexivity.
      * destruct (kv_mod x =? expected c); cbn; [rewrite K, N, PP2, PP3|]; split; reflexivity.
    + rewrite Z.eqb_sym. destruct (0 =? expected c); cbn; [rewrite K, N, PP2, PP3|]; split; reflexivity.
  - rewrite E. assert (NK : c_key c <> ck).
    { intros N. apply HK. subst t. unfold txn_key, is_create, is_delete. cbn [t_compare t_failure t_success].
      unfold is_mod_equal. rewrite A, B. congruence. }
    destruct (run_delete cfg (c_key c) (expected c) w HW NK) as (_ & H1 & H2).
    eexists. split; [exact H2|]. rewrite H1. subst t. unfold etcd_txn. cbn [t_compare forallb t_success t_failure].
    rewrite (mod_compare _ _ A B), andb_true_r. unfold delete_answer, spec_delete.
    destruct (now (history_of (snd w)) (c_key c)) as [x|] eqn:N.
    + destruct (kv_mod x =? expected c); cbn; [rewrite K, N|]; split; reflexivity.
    + destruct (Z.eqb_spec 0 (expected c)); [congruence|]. split; reflexivity.
Qed.

(** ---- C17 ---- *)
(** errors before the effect only: an attempt that fails has committed nothing *)
Lemma owp_honest a (HA : forall s, allowed s a /\ margin s a) (WA : is_write a) : forall n w, wreach w ->
  owp honest (fun _ => True) (with_retry (S n) (CExec a))
    (fun w' r acc' => wreach w' /\
       match r with
       | Ok x => (x = (0, 0) /\ acc' = []) \/ (exists r, x = (1, r) /\ acc' = [r])
       | Err _ => acc' = []
       end) w [].
Proof.
  assert (STEP : forall w f w1, wreach w -> honest f -> wsteps w w1 ->
    let w2 := fst (sem f (CExec a) w1) in let acc2 := [] ++ committed w1 w2 in
    wreach w2 /\
    match snd (sem f (CExec a) w1) with
    | Ok x => (x = (0, 0) /\ acc2 = []) \/ (exists r, x = (1, r) /\ acc2 = [r])
    | Err _ => acc2 = []
    end).
  { intros w f w1 HW HF S. cbv zeta. simpl app.
    pose proof (wsteps_reach _ _ HW S) as HW1. destruct (HA (snd w1)) as [AL _].
    pose proof (wapply_reach w1 a HW1 AL) as HW2.
    pose proof (proj2 (R_step _ _ a (reach_R _ _ HW1) AL)) as RES.
    assert (EFF : (snd (apply (fst w1) a) = (0, 0) /\ committed w1 (wapply w1 a) = []) \/
       (exists r, snd (apply (fst w1) a) = (1, r) /\ committed w1 (wapply w1 a) = [r])).
    { rewrite RES. destruct (committed_write w1 a HW1 AL WA) as [(C1 & C2 & C3)|(C1 & C2)]; [left; auto|right; eauto]. }
    destruct f; cbn [sem fst snd]; unfold weffect; cbn [op_of answer]; auto; try contradiction.
    split; auto. unfold committed. now rewrite Z.ltb_irrefl. }
  induction n as [|n IH]; intros w HW.
  - split; [exact I|]. intros w1 S. split; [exact (HA (snd w1))|]. intros f Hf.
    destruct (STEP w f w1 HW Hf S) as (A & B).
    destruct (snd (sem f (CExec a) w1)) as [x|e]; (split; [exact I|]); auto.
  - change (with_retry (S (S n)) (CExec a)) with (Call (CExec a) (fun r =>
        match r with Ok _ => Ret r | Err e => if retryable e then with_retry (S n) (CExec a) else Ret r end)).
    split; [exact I|]. intros w1 S. split; [exact (HA (snd w1))|]. intros f Hf.
    destruct (STEP w f w1 HW Hf S) as (A & B).
    destruct (snd (sem f (CExec a) w1)) as [x|e].
    + split; [exact I|]. auto.
    + rewrite B. destruct (retryable e).
      * apply IH; auto.
      * split; [exact I|]. auto.
Qed.

Definition honestly (resp : result txn_resp) (own : list Z) : Prop :=
  match resp with
  | Ok t => if tr_succeeded t then own = [tr_header t] else own = []
  | Err _ => True
  end.
Lemma owp_honest_txn a cfg k (mk : Z -> resp_op) w : (forall s, allowed s a /\ margin s a) -> is_write a -> wreach w ->
  owp honest (fun _ => True)
    (rbind (rbind (d_execute a) (fun x => Ret (Ok (exec_outcome x))))
       (fun '(rev, ok) => if (ok : bool) then Ret (Ok (TxnResp rev true [mk rev])) else l_failure cfg k rev))
    (fun _ r acc => honestly r acc) w [].
Proof.
  intros HA WA HW. apply owp_rbind, owp_rbind. unfold d_execute. destruct max_retries_S as (n & ->).
  eapply owp_mono; [|apply (owp_honest a HA WA n w HW)].
  intros w' [x|e] acc HI [HW' H]; [|exact I].
  split; [exact I|]. unfold exec_outcome.
  assert (F : acc = [] -> owp honest (fun _ => True) (l_failure cfg k 0) (fun _ r acc => honestly r acc) w' acc).
  { intros ->. apply owp_reads; auto; [|apply issues_failure; reflexivity || (intros; reflexivity)].
    unfold l_failure. apply wp_rbind. eapply wp_mono; [|apply (wp_faults any_fault honest); [intros; exact I|apply wp_b_list_any]].
    intros w2 [[c kvs]|e] _; cbn; auto. }
  destruct H as [[-> HA']|(r & -> & HA')]; cbn [fst snd Z.eqb]; auto.
  cbn [owp]. split; [exact I|]. simpl. exact HA'.
Qed.
Lemma owp_honest_create p w : p_key p <> ck -> wreach w ->
  owp honest (fun _ => True) (l_create p) (fun _ r acc => honestly r acc) w [].
Proof.
  intros HK HW. unfold l_create. destruct (p_ignore_lease p || p_ignore_value p || p_prev_kv p).
  { split; exact I. }
  unfold b_create, d_create. apply owp_rbind, owp_rbind. unfold d_execute. destruct max_retries_S as (n & ->).
  eapply owp_mono; [|apply (owp_honest (ACreate (p_key p) (p_value p) (p_lease p)))]; auto.
  - intros w' [x|e] acc HI [HW' H]; [|exact I].
    split; [exact I|]. unfold exec_outcome.
    destruct H as [[-> HA']|(r & -> & HA')]; cbn [fst snd Z.eqb]; (split; [exact I|]); exact HA'.
  - intros s. split; [|exact I]. simpl. intros K; contradiction (HK K).
  - simpl; auto.
Qed.

Lemma honest_lemma cfg t w sched w' resp : wreach w -> txn_key t <> Some ck ->
  fair (s_txn cfg t) sched w -> Forall (fun x => honest (snd x)) sched ->
  exec (s_txn cfg t) sched w = (w', Some (Ok resp)) ->
  own_writes (s_txn cfg t) sched w = if tr_succeeded resp then [tr_header resp] else [].
Proof.
  intros HW HK HF HA E.
  assert (G : owp honest (fun _ => True) (s_txn cfg t) (fun _ r acc => honestly r acc) w []).
  { clear HF E. unfold s_txn, l_txn. unfold txn_key in HK. destruct (is_create t) as [p|].
    { apply owp_honest_create; congruence. }
    destruct (is_delete t) as [[rev k]|].
    { unfold l_delete, b_delete, d_delete. apply (owp_honest_txn (ADelete k rev)); auto; [|simpl; auto].
      intros s. split; [|exact I]. simpl. congruence. }
    destruct (is_update t) as [[[[rev k] v] l]|].
    { unfold l_update. destruct (rev =? 0).
      - unfold b_create, d_create. apply (owp_honest_txn (ACreate k v l)); auto; [|simpl; auto].
        intros s. split; [|exact I]. simpl. congruence.
      - unfold b_update, d_update. apply (owp_honest_txn (AUpdate k v rev l)); auto; [|simpl; auto].
        intros s. split; [|exact I]. simpl. congruence. }
    destruct (is_compact t); split; simpl; auto. }
  destruct (owp_sound _ _ _ _ sched w [] G HF HA) as [_ B]. specialize (B (Ok resp)).
  rewrite E in B. specialize (B eq_refl). simpl app in B. simpl in B. destruct (tr_succeeded resp); exact B.
Qed.

Definition failure_post (k : bytes) (w w' : world) (r : result txn_resp) : Prop :=
  match r with
  | Ok resp => tr_succeeded resp = false ->
      exists n kvs, tr_responses resp = [RespRange (RangeResp n kvs false 0)] /\
        revision (history_of (snd w)) <= n <= revision (history_of (snd w')) /\
        (floor_of (snd w') <= n -> kvs = match kv_at (history_of (snd w')) n k with Some x => [x] | None => [] end)
  | Err _ => True
  end.
Lemma wp_failure cfg k w0 w : wreach w -> wsteps w0 w -> wp clean (l_failure cfg k 0) (failure_post k w0) w.
Proof.
  intros HW S0. unfold l_failure. apply wp_rbind. eapply wp_mono; [|apply wp_b_list; auto].
  intros w' [[cur kvs]|e] H; [|exact I]. cbn [wp]. unfold failure_post. intros _. exists cur, kvs.
  split; [reflexivity|]. unfold list_post in H. destruct H as [H1 H2].
  pose proof (extends_revision _ _ (wsteps_extends _ _ S0)). split; [lia|].
  intros F. change (effective 0 cur) with cur in H2. destruct (H2 F) as (L & A & ->). simpl range_end in A.
  rewrite (succ_snapshot _ _ _ _ A). destruct (kv_at _ cur k); reflexivity.
Qed.
Lemma wp_conditional a cfg k (mk : Z -> resp_op) w : (forall s, allowed s a /\ margin s a) -> wreach w ->
  wp clean
    (rbind (rbind (d_execute a) (fun x => Ret (Ok (exec_outcome x))))
       (fun '(rev, ok) => if (ok : bool) then Ret (Ok (TxnResp rev true [mk rev])) else l_failure cfg k rev))
    (failure_post k w) w.
Proof.
  intros HA HW. apply wp_rbind, wp_rbind. eapply wp_mono; [|apply wp_strengthen, (wp_faults any_fault clean); [intros; exact I|apply wp_write; exact HA]].
  intros w' [x|e] [S H]; [|exact I]. cbn [wp]. unfold exec_outcome.
  destruct (fst x =? 0).
  - apply wp_failure; auto. eapply wsteps_reach; eauto.
  - cbn [wp]. unfold failure_post. discriminate.
Qed.
Lemma conflict_lemma cfg t k w sched w' resp : wreach w -> k <> ck ->
  (exists v e l, t = update_txn k v e l) \/ (exists e, t = delete_txn k e) ->
  fair (s_txn cfg t) sched w -> Forall (fun x => clean (snd x)) sched ->
  exec (s_txn cfg t) sched w = (w', Some (Ok resp)) -> tr_succeeded resp = false ->
  exists n kvs, tr_responses resp = [RespRange (RangeResp n kvs false 0)] /\
    revision (history_of (snd w)) <= n <= revision (history_of (snd w')) /\
    (floor_of (snd w') <= n -> kvs = match kv_at (history_of (snd w')) n k with Some x => [x] | None => [] end).
Proof.
  intros HW HK HT HF HA E F.
  assert (G : wp clean (s_txn cfg t) (failure_post k w) w).
  { destruct HT as [(v & e & l & ->)|(e & ->)].
    - rewrite txn_update. unfold l_update. destruct (e =? 0); unfold b_create, d_create, b_update, d_update;
      apply wp_conditional; auto; intros s; split; try exact I; simpl; congruence.
    - rewrite txn_delete. unfold l_delete, b_delete, d_delete.
      apply wp_conditional; auto; intros s; split; try exact I; simpl; congruence. }
  pose proof (wp_exec _ _ _ sched w G HF HA) as H. rewrite E in H. destruct H as (_ & H). exact (H (Ok resp) eq_refl F).
Qed.

Lemma accepted_answered cfg t w : wreach w -> txn_key t <> Some ck -> accepted ck t -> exists resp, transact cfg w t = Ok resp.
Proof.
  intros HW HK HA. unfold transact.
  destruct HA as [c p T A B X (P1 & P2 & P3)|c p r T A B|c d r T A B|c p r T A B K]; subst t.
  - unfold s_txn, l_txn, txn_key, is_create in *. cbn [t_compare t_failure t_success] in *.
    unfold is_mod_equal in *. rewrite A, B in *. change (get_mod_revision c) with (expected c) in *. rewrite X in *. cbn [Z.eqb andb] in *.
    replace (l_create p) with (s_txn cfg (create_txn (p_key p) (p_value p) (p_lease p))).
    + destruct (run_create cfg (p_key p) (p_value p) (p_lease p) w HW) as (_ & _ & H); [intros; congruence|]. eauto.
    + rewrite txn_create. unfold l_create. cbn [p_ignore_lease p_ignore_value p_prev_kv p_key p_value p_lease orb]. rewrite P1, P2, P3. reflexivity.
  - unfold s_txn, l_txn, txn_key, is_create, is_delete, is_update in *. cbn [t_compare t_failure t_success] in *.
    unfold is_mod_equal in *. rewrite A, B in *.
    destruct (run_update cfg (c_key c) (p_value p) (get_mod_revision c) (p_lease p) w HW) as (_ & _ & H); [congruence|]. eauto.
  - unfold s_txn, l_txn, txn_key, is_create, is_delete in *. cbn [t_compare t_failure t_success] in *.
    unfold is_mod_equal in *. rewrite A, B in *.
    destruct (run_delete cfg (d_key d) (get_mod_revision c) w HW) as (_ & _ & H); [congruence|]. eauto.
  - unfold s_txn, l_txn, is_create, is_delete, is_update, is_compact. cbn [t_compare t_failure t_success].
    unfold is_mod_equal, is_version_equal. rewrite A, B, K, beqb_refl. eexists. reflexivity.
Qed.
Lemma no_calls_txn cfg t sched w : ~ accepted ck t -> calls (s_txn cfg t) sched w = [].
Proof. intros H. pose proof (txn_unsupported cfg t [] w H). destruct (s_txn cfg t); auto. simpl in *. discriminate. Qed.
Lemma no_calls_range cfg r sched w : ~ supported_range r -> calls (s_range cfg r) sched w = [].
Proof. intros H. pose proof (range_unsupported cfg r [] w H). destruct (s_range cfg r); auto. simpl in *. discriminate. Qed.
