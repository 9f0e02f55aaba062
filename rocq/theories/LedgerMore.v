(** Every committed change was asked for; unique winners; reads. *)
From Coq Require Import List ZArith Bool Lia.
From Verif Require Import Bytes Spec Sql System Prog Backend Limited Api Pool Ledger Observe SpecLemmas SqlLemmas Sim ProgLemmas ReadProgs Safety ApiLemmas StoreProofs ReadProofs TraceLemmas CompactProofs RepairProofs TxnProofs LedgerLemmas LedgerProofs.
Import ListNotations.
Open Scope Z_scope.

Local Notation ck := compact_rev_key.

(** ---- every change was asked for ---- *)
Definition asks (q : work) (c : call) : Prop :=
  match q, c with
  | WTxn t, CExec a => txn_call t (CExec a) /\ forall x, t = request x -> a = statement x
  | WExpire k rev, CExec a => a = ADelete k rev
  | WRange _, CExec _ => False
  | WCompact, CExec (ACreate k v l) => k = ck /\ v = [] /\ l = 0
  | WStart, CExec (ACreate k v l) => (k = ck /\ v = [] /\ l = 0) \/ (k = health_key /\ v = health_value /\ l = 0)
  | WCompact, CExec a | WStart, CExec a => entry_of a = []
  | _, _ => True
  end.
Definition all_calls (c : call) (f : fault) : Prop := True.

Lemma issues_conj {A} allow (P Q : call -> Prop) (p : prog A) : issues allow P p -> issues allow Q p -> issues allow (fun c => P c /\ Q c) p.
Proof. induction p as [a|c k IH]; cbn [issues]; auto. intros [A1 A2] [B1 B2]. split; auto. Qed.

Lemma issues_all {A X} (H : X -> Prop) allow (P : X -> call -> Prop) (p : prog A) :
  (forall x, H x -> issues allow (P x) p) -> issues allow (fun c => forall x, H x -> P x c) p.
Proof.
  induction p as [a|c k IH]; cbn [issues]; auto. intros K. split; [intros x Hx; apply (K x Hx)|].
  intros f w F. apply IH. intros x Hx. now apply (K x Hx).
Qed.

Lemma issues_conditional cfg c : issues all_calls (fun x => forall a, x = CExec a -> a = statement c) (served cfg (WTxn (request c))).
Proof.
  destruct (served_conditional cfg c) as (g & -> & G1 & G2 & G3).
  apply issues_bind; [|intros; exact I]. apply issues_rbind.
  - apply issues_rbind; [|intros; exact I]. apply issues_execute. congruence.
  - intros [r [|]]; [rewrite G1; exact I|]. eapply issues_weaken; [|apply G2]. intros x E a ->. discriminate.
Qed.

Lemma issues_d_compact (P : call -> Prop) allow cfg r : P CInterval -> P CLeader -> (forall a b, P (CExec (ACompact a b))) -> issues allow P (d_compact cfg r).
Proof.
  intros A B C.
  assert (S : issues allow P (d_compact_sqlite r)).
  { unfold d_compact_sqlite. apply issues_rbind; [apply issues_gcr; auto|]. intros [lo hi].
    destruct (_ <=? _); [exact I|]. cbv zeta. apply issues_rbind; [|intros; exact I]. apply issues_retry. auto. }
  unfold d_compact. destruct (cfg_dqlite cfg); auto. split; auto. intros f w _.
  destruct (snd (sem f CLeader w)) as [[|]|]; auto; exact I.
Qed.
Lemma issues_do_compact (P : call -> Prop) allow cfg : issues allow P b_compact_start -> P CInterval -> P CLeader -> (forall a b, P (CExec (ACompact a b))) ->
  issues allow P (b_do_compact cfg).
Proof.
  intros S A B C. unfold b_do_compact. apply issues_rbind; auto. intros _.
  apply issues_rbind; [apply issues_gcr; auto|]. intros [a b]. generalize (compact_fuel a (b - superseded_count)). intros n.
  revert a. induction n as [|n IH]; intros a; [exact I|]. cbn [compact_loop]. destruct (_ <? _); [|exact I].
  cbv zeta. apply issues_rbind; [apply issues_d_compact; auto|]. intros _. apply IH.
Qed.
Lemma issues_start_body (P : call -> Prop) allow :
  P CRev -> (forall a b c d, P (CAfterPrefix a b c d)) -> P (CExec (ACreate ck [] 0)) ->
  (forall r, P (CExec (ADeleteRev r))) -> issues allow P b_compact_start.
Proof.
  intros A B C D. unfold b_compact_start. apply issues_rbind; [apply issues_current; auto|]. intros cur.
  apply issues_rbind; [unfold d_after_prefix; apply issues_query; auto|]. intros rs.
  destruct (scan_all scan_event rs) as [|e [|e' l]].
  - apply issues_rbind; [|intros; exact I]. unfold b_create, d_create.
    apply issues_rbind; [apply issues_execute; auto|]. intros; exact I.
  - exact I.
  - now apply issues_delete_others.
Qed.

Lemma served_asks cfg q : issues all_calls (asks q) (served cfg q).
Proof.
  destruct q as [t|r| | |k rev].
  - assert (A : issues all_calls (txn_call t) (served cfg (WTxn t))).
    { cbn [served]. apply issues_bind; [apply issues_txn|intros; exact I]. }
    assert (B : issues all_calls (fun x => forall c, t = request c -> forall a, x = CExec a -> a = statement c) (served cfg (WTxn t))).
    { apply issues_all. intros c ->. apply issues_conditional. }
    eapply issues_weaken; [|exact (issues_conj _ _ _ _ A B)]. intros [a| | | | | | | |] [H1 H2]; cbn [asks]; auto.
  - cbn [served]. apply issues_bind; [|intros; exact I]. apply issues_range; intros; exact I.
  - cbn [served]. apply issues_bind; [|intros; exact I].
    apply issues_do_compact; try exact I; try (intros; reflexivity).
    apply issues_start_body; try exact I; try (intros; exact I); try (intros; reflexivity). cbn. auto.
  - cbn [served]. apply issues_bind; [|intros; exact I]. unfold b_start, b_create, d_create.
    apply issues_rbind; [apply issues_rbind; [apply issues_execute; cbn; auto|intros; exact I]|]. intros _.
    apply issues_rbind; [apply issues_start_body; try exact I; try (intros; exact I); try (intros; reflexivity); cbn; auto|].
    intros _. apply issues_rbind; [apply issues_gcr; exact I|]. intros [a b]. exact I.
  - cbn [served]. apply issues_bind; [|intros; exact I]. unfold b_delete, d_delete.
    apply issues_rbind; [apply issues_execute; cbn; auto|intros; exact I].
Qed.

Lemma commit_create f k v l w : wreach w -> allowed (snd w) (ACreate k v l) -> forall e, In e (commit_of f (CExec (ACreate k v l)) w) ->
  e = Entry k (Put v l) /\ now (history_of (snd w)) k = None.
Proof.
  intros HW HA e H. pose proof (proj2 (R_step _ _ _ (reach_R _ _ HW) HA)) as E. 
  assert (G : In e (if fst (snd (apply (fst w) (ACreate k v l))) =? 0 then [] else [Entry k (Put v l)]))
    by (destruct f; cbn in H; auto; destruct H).
  rewrite E in G. cbn [spec_apply] in G. unfold spec_create in G. destruct (now _ k); cbn in G; [destruct G|].
  destruct G as [<-|[]]. auto.
Qed.
Lemma commit_statement f c w : wreach w -> the_key c <> ck -> forall e, In e (commit_of f (CExec (statement c)) w) ->
  e = effect c /\ condition c (history_of (snd w)).
Proof.
  intros HW HK e H. pose proof (proj2 (R_step _ _ (statement c) (reach_R _ _ HW) (proj1 (statement_allowed c (snd w) HK)))) as E.
  assert (G : In e (if fst (snd (apply (fst w) (statement c))) =? 0 then [] else [effect c])).
  { rewrite <- statement_entry. destruct f; cbn in H; auto; destruct H. }
  rewrite E in G. destruct (statement_spec c (snd w)) as [[A B]|[A B]]; rewrite B in G; cbn in G; [|destruct G].
  destruct G as [<-|[]]. auto.
Qed.
Lemma commit_warranted q f c w : work_ok q -> wreach w -> call_ok (snd w) c -> asks q c -> forall e, In e (commit_of f c w) ->
  warranted q e (history_of (snd w)).
Proof.
  intros HQ HW HC HA e H. destruct c as [a| | | | | | | |]; try (destruct f; destruct H; fail).
  assert (EE : In e (entry_of a)).
  { unfold commit_of in H. cbn [op_of] in H. destruct f; try (destruct H; fail); destruct (_ =? 0) in H; auto; destruct H. }
  destruct q as [t|r| | |k rev]; cbn [asks warranted] in *.
  - destruct HA as [A B]. split; [|intros x E; assert (EA := B x E); subst a t; apply (commit_statement f x w); auto; now apply work_key].
    destruct a; cbn in EE, A; try (destruct EE as [<-|[]]; exact A); destruct EE.
  - destruct HA.
  - destruct a as [k v l|k v x l|k x|y z|y]; cbn [entry_of] in *; try (rewrite HA in EE; destruct EE); try discriminate; try (destruct EE; fail).
    destruct HA as (-> & -> & ->). destruct HC as [HC _]. eapply commit_create; eauto.
  - destruct a as [k v l|k v x l|k x|y z|y]; cbn [entry_of] in *; try (rewrite HA in EE; destruct EE); try discriminate; try (destruct EE; fail).
    destruct HC as [HC _]. destruct (commit_create f k v l w HW HC e H) as [-> N]. cbn [e_key].
    split; [|exact N]. destruct HA as [(-> & -> & ->)|(-> & -> & ->)]; auto.
  - subst a. apply (commit_statement f (DeleteKey k rev) w); auto.
Qed.

(** the invariant *)
Record cinv (cfg : driver_cfg) (s : lstate) : Prop := {
  X_base : linv cfg any_fault (fun _ _ _ _ _ _ _ => True) s;
  X_live : forall i p, In (i, p) (l_procs s) -> exists q, In (Asked i q) (l_log s) /\ work_ok q /\
     (forall o, ~ In (Answered i o) (l_log s)) /\ issues all_calls (asks q) p;
  X_done : forall A i e B, l_log s = A ++ Committed i e :: B -> exists q, In (Asked i q) A /\
     (forall o, ~ In (Answered i o) A) /\ warranted q e (commits A) }.

Lemma trivial_keeps cfg okf : keeps cfg okf (fun _ _ _ _ _ _ _ => True).
Proof. intros i q A w _ _ _. apply lwp_true. Qed.
Lemma trivial_stable : stable (fun _ _ _ _ _ _ _ => True).
Proof. intros i q A w0 L w o w' D; auto. Qed.

Lemma short_commit f c w : commit_of f c w = [] \/ exists e, commit_of f c w = [e].
Proof.
  assert (G : forall a, entry_of a = [] \/ exists e, entry_of a = [e]) by (intros []; simpl; eauto).
  unfold commit_of. destruct f; auto; destruct (op_of c) as [a|]; auto; destruct (_ =? 0); auto.
Qed.

Lemma cinv_step cfg s s' : cinv cfg s -> lstep cfg any_fault s s' -> cinv cfg s'.
Proof.
  intros [B L D] S. pose proof (linv_step _ _ _ _ _ trivial_stable (trivial_keeps cfg any_fault) B S) as B'.
  split; [exact B'| |]; destruct S as [w ps log n q HQ|w ps1 i c k ps2 log n f O|w ps1 i o ps2 log n|w ps1 x ps2 log n];
    destruct B as [VR VM VH VS [VI1 VI2] VL VO VLV VD]; cbn [l_world l_procs l_log l_next] in *.
  - intros i p [H|H].
    + injection H as <- <-. exists q. split; [apply in_app_iff; simpl; auto|]. split; auto. split; [|apply served_asks].
      intros o H. apply in_app_iff in H. destruct H as [H|[H|[]]]; [apply VL in H; lia|discriminate].
    + destruct (L i p H) as (q0 & A1 & A2 & A3 & A4). exists q0. split; [apply in_app_iff; auto|]. split; auto. split; auto.
      intros o Y. apply in_app_iff in Y. destruct Y as [Y|[Y|[]]]; [apply (A3 o Y)|discriminate].
  - intros j p H.
    assert (CASES : (j = i /\ p = k (snd (sem f c w))) \/ In (j, p) (ps1 ++ (i, Call c k) :: ps2)).
    { apply in_app_iff in H. cbn [In] in H. rewrite in_app_iff. cbn [In]. destruct H as [H|[H|H]]; auto.
      left. injection H; auto. }
    assert (NI : forall o, ~ In (Answered j o) (map (Committed i) (commit_of f c w))).
    { intros o Y. apply in_map_iff in Y. destruct Y as (e & E & _). discriminate. }
    destruct CASES as [[-> ->]|H2].
    + destruct (L i (Call c k)) as (q0 & A1 & A2 & A3 & A4); [apply in_app_iff; simpl; auto|].
      exists q0. split; [apply in_app_iff; auto|]. split; auto. split.
      * intros o Y. apply in_app_iff in Y. destruct Y as [Y|Y]; [apply (A3 o Y)|apply (NI o Y)].
      * destruct A4 as [_ A4]. apply A4. exact I.
    + destruct (L j p H2) as (q0 & A1 & A2 & A3 & A4). exists q0. split; [apply in_app_iff; auto|]. split; auto. split; auto.
      intros o Y. apply in_app_iff in Y. destruct Y as [Y|Y]; [apply (A3 o Y)|apply (NI o Y)].
  - intros j p H. assert (NE : j <> i).
    { intros ->. rewrite map_app in VI1. cbn [map fst] in VI1. apply NoDup_remove_2 in VI1. apply VI1.
      rewrite <- map_app. now apply (in_map fst) in H. }
    destruct (L j p) as (q0 & A1 & A2 & A3 & A4); [rewrite in_app_iff in *; simpl; tauto|].
    exists q0. split; [apply in_app_iff; auto|]. split; auto. split; auto.
    intros o' Y. apply in_app_iff in Y. destruct Y as [Y|[Y|[]]]; [apply (A3 o' Y)|]. injection Y. congruence.
  - intros j p H. apply L. rewrite in_app_iff in *; simpl; tauto.
  - intros A i e C E. apply snoc_split in E. destruct E as [(E1 & E2 & E3)|(B2 & E1 & E2)]; [discriminate|]. eapply D; eauto.
  - intros A j e C E. destruct (short_commit f c w) as [N|[e0 N]]; rewrite N in E; cbn [map] in E.
    + rewrite app_nil_r in E. eapply D; eauto.
    + apply snoc_split in E. destruct E as [(E1 & E2 & E3)|(B2 & E1 & E2)]; [|eapply D; eauto].
      injection E3 as <- <-. subst A C.
      destruct (L i (Call c k)) as (q0 & A1 & A2 & A3 & A4); [apply in_app_iff; simpl; auto|].
      exists q0. split; auto. split; auto. rewrite VH. destruct A4 as [A4 _].
      apply (commit_warranted q0 f c w); auto; [|rewrite N; simpl; auto].
      apply Forall_app in VS. destruct VS as [_ VS]. inversion VS as [|? ? V3 _]; subst. apply (V3 w (wsteps_refl w)).
  - intros A j e C E. apply snoc_split in E. destruct E as [(E1 & E2 & E3)|(B2 & E1 & E2)]; [discriminate|]. eapply D; eauto.
  - auto.
Qed.
Lemma lreach_any cfg okf s : lreach cfg okf s -> lreach cfg any_fault s.
Proof.
  induction 1 as [|s s' _ IH H]; [constructor|]. econstructor; [exact IH|].
  destruct H; constructor; auto; exact I.
Qed.
Lemma lreach_cinv cfg okf s : lreach cfg okf s -> cinv cfg s.
Proof.
  intros H. apply lreach_any in H. induction H as [|s s' _ IH H]; [|eapply cinv_step; eauto].
  split; [apply linv_init| |]; cbn; [intros i p []|]. intros A i e B E. destruct A; discriminate.
Qed.
Lemma every_commit cfg okf s A i e B : lreach cfg okf s -> l_log s = A ++ Committed i e :: B ->
  exists q, In (Asked i q) A /\ (forall o, ~ In (Answered i o) A) /\ warranted q e (commits A).
Proof. intros H E. exact (X_done _ _ (lreach_cinv _ _ _ H) _ _ _ _ E). Qed.

(** ---- winners ---- *)
Lemma asked_once cfg okf s i q q' : lreach cfg okf s -> In (Asked i q) (l_log s) -> In (Asked i q') (l_log s) -> q = q'.
Proof.
  intros H A B. pose proof (V_once _ _ _ _ (X_base _ _ (lreach_cinv _ _ _ H))) as O.
  apply in_split in A. destruct A as (a & b & E). rewrite E in B. apply in_app_iff in B. destruct B as [B|[B|B]].
  - exfalso. eapply O; eauto.
  - injection B; auto.
  - exfalso. apply in_split in B. destruct B as (c & d & ->).
    change (a ++ Asked i q :: c ++ Asked i q' :: d) with (a ++ (Asked i q :: c) ++ Asked i q' :: d) in E. rewrite app_assoc in E.
    eapply O; [exact E|]. apply in_app_iff. right. simpl. auto.
Qed.
Lemma commit_of_request cfg okf s A i e B c : lreach cfg okf s -> l_log s = A ++ Committed i e :: B ->
  In (Asked i (WTxn (request c))) (l_log s) -> e = effect c /\ condition c (commits A).
Proof.
  intros H E HA. destruct (every_commit _ _ _ _ _ _ _ H E) as (q & Q1 & _ & Q2).
  assert (In (Asked i q) (l_log s)) by (rewrite E; apply in_app_iff; auto).
  rewrite (asked_once _ _ _ _ _ _ H H0 HA) in Q2. destruct Q2 as [_ Q2]. auto.
Qed.

Lemma effect_key c : e_key (effect c) = the_key c.
Proof. destruct c; reflexivity. Qed.
Lemma now_after h1 k ch h2 x : now (h1 ++ Entry k ch :: h2) k = Some x -> revision h1 < kv_mod x.
Proof.
  intros N. apply now_facts in N. destruct N as (_ & _ & _ & _ & N & _).
  destruct (Z_lt_dec (revision h1) (kv_mod x)); auto. exfalso.
  apply (N (revision h1 + 1) (Entry k ch)); [lia| |reflexivity].
  change (h1 ++ Entry k ch :: h2) with (h1 ++ [Entry k ch] ++ h2). rewrite app_assoc, ent_app, ent_snoc_new; auto.
  rewrite revision_snoc. lia.
Qed.
Lemma expects_now c k r h : expects c k r -> condition c h -> exists x, now h k = Some x /\ kv_mod x = r.
Proof.
  destruct c as [|k' v e l|k' e]; simpl; [tauto| |].
  - intros (-> & -> & N) C. destruct (now h k) as [x|]; [eauto|congruence].
  - intros (-> & ->) C. destruct (now h k) as [x|]; [eauto|destruct C].
Qed.
Lemma expects_key c k r : expects c k r -> the_key c = k.
Proof. destruct c; simpl; tauto. Qed.

Lemma later_winner cfg okf s A i ei M j ej B ci cj k r : lreach cfg okf s ->
  l_log s = A ++ Committed i ei :: M ++ Committed j ej :: B ->
  In (Asked i (WTxn (request ci))) (l_log s) -> In (Asked j (WTxn (request cj))) (l_log s) ->
  expects ci k r -> expects cj k r -> False.
Proof.
  intros H E QI QJ EI EJ.
  destruct (commit_of_request _ _ _ _ _ _ _ ci H E QI) as [-> CI].
  assert (E2 : l_log s = (A ++ Committed i (effect ci) :: M) ++ Committed j ej :: B) by (rewrite <- app_assoc; exact E).
  destruct (commit_of_request _ _ _ _ _ _ _ cj H E2 QJ) as [-> CJ].
  destruct (expects_now _ _ _ _ EI CI) as (x & N1 & M1). destruct (expects_now _ _ _ _ EJ CJ) as (y & N2 & M2).
  rewrite commits_app in N2. change (commits (Committed i (effect ci) :: M)) with (effect ci :: commits M) in N2.
  assert (K : effect ci = Entry k (e_change (effect ci))).
  { rewrite <- (expects_key _ _ _ EI), <- effect_key. now destruct (effect ci). }
  rewrite K in N2. apply now_after in N2. apply now_facts in N1. lia.
Qed.
Lemma two_places {X} (A : list X) a B A' b B' : A ++ a :: B = A' ++ b :: B' ->
  (A = A' /\ a = b /\ B = B') \/ (exists M, A' = A ++ a :: M /\ B = M ++ b :: B') \/ (exists M, A = A' ++ b :: M /\ B' = M ++ a :: B).
Proof.
  revert A'. induction A as [|x A IH]; intros [|y A'] H; cbn [app] in H.
  - injection H as -> ->. auto.
  - injection H as -> ->. right. left. exists A'. auto.
  - injection H as -> <-. right. right. exists A. auto.
  - injection H as -> H. destruct (IH A' H) as [(-> & -> & ->)|[(M & -> & ->)|(M & -> & ->)]]; auto.
    + right. left. exists M. auto.
    + right. right. exists M. auto.
Qed.
Lemma one_winner cfg okf s A i ei B A' j ej B' ci cj k r : lreach cfg okf s ->
  l_log s = A ++ Committed i ei :: B -> l_log s = A' ++ Committed j ej :: B' ->
  In (Asked i (WTxn (request ci))) (l_log s) -> In (Asked j (WTxn (request cj))) (l_log s) ->
  expects ci k r -> expects cj k r -> A = A' /\ i = j.
Proof.
  intros H E1 E2 QI QJ EI EJ. rewrite E1 in E2. destruct (two_places _ _ _ _ _ _ E2) as [(-> & X & _)|[(M & -> & ->)|(M & -> & ->)]].
  - injection X as -> _. auto.
  - exfalso. exact (later_winner _ _ _ _ _ _ _ _ _ _ _ _ _ _ H E1 QI QJ EI EJ).
  - exfalso. rewrite <- app_assoc in E1. cbn [app] in E1. exact (later_winner _ _ _ _ _ _ _ _ _ _ _ _ _ _ H E1 QJ QI EJ EI).
Qed.
Lemma one_success cfg okf s b1 d1 a1 i ci ri b2 d2 a2 j cj rj k r : lreach cfg okf s ->
  answered_request (l_log s) b1 d1 a1 i (WTxn (request ci)) (ReTxn (Ok ri)) -> tr_succeeded ri = true ->
  answered_request (l_log s) b2 d2 a2 j (WTxn (request cj)) (ReTxn (Ok rj)) -> tr_succeeded rj = true ->
  expects ci k r -> expects cj k r -> i = j.
Proof.
  intros H A1 T1 A2 T2 E1 E2.
  destruct (conditional_success _ _ _ _ _ _ _ _ _ H A1 T1) as (X1 & Y1 & -> & _).
  destruct (conditional_success _ _ _ _ _ _ _ _ _ H A2 T2) as (X2 & Y2 & -> & _).
  unfold answered_request in A1, A2.
  assert (I1 : In (Asked i (WTxn (request ci))) (l_log s)) by (rewrite A1; apply in_app_iff; simpl; auto).
  assert (I2 : In (Asked j (WTxn (request cj))) (l_log s)) by (rewrite A2; apply in_app_iff; simpl; auto).
  assert (G1 : l_log s = (b1 ++ Asked i (WTxn (request ci)) :: X1) ++ Committed i (effect ci) :: Y1 ++ Answered i (ReTxn (Ok ri)) :: a1)
    by (rewrite A1, <- !app_assoc; cbn [app]; rewrite <- ?app_assoc; reflexivity).
  assert (G2 : l_log s = (b2 ++ Asked j (WTxn (request cj)) :: X2) ++ Committed j (effect cj) :: Y2 ++ Answered j (ReTxn (Ok rj)) :: a2)
    by (rewrite A2, <- !app_assoc; cbn [app]; rewrite <- ?app_assoc; reflexivity).
  apply (one_winner _ _ _ _ _ _ _ _ _ _ _ _ _ _ _ H G1 G2 I1 I2 E1 E2).
Qed.

Lemma creates_none c k h : creates c k -> condition c h -> now h k = None /\ exists v l, effect c = Entry k (Put v l).
Proof.
  destruct c as [k' v l|k' v e l|k' e]; simpl; [intros -> N; eauto| |tauto].
  intros (-> & ->) C. split; [|eauto]. destruct (now h k) as [x|] eqn:N; auto. apply now_facts in N. lia.
Qed.
Lemma deleted_between h k v l m : now (h ++ Entry k (Put v l) :: m) k = None -> In (Entry k Del) m.
Proof.
  induction m as [|e m IH] using rev_ind.
  - rewrite now_snoc, change_key_same. discriminate.
  - change (h ++ Entry k (Put v l) :: m ++ [e]) with (h ++ (Entry k (Put v l) :: m) ++ [e]). rewrite app_assoc, now_snoc.
    destruct e as [k' c]. destruct (beqb k' k) eqn:EK.
    + apply beqb_true in EK. subst k'. rewrite change_key_same. destruct c; [discriminate|]. intros _. apply in_app_iff. simpl. auto.
    + rewrite change_key_other; [|cbn [e_key]; intros ->; rewrite beqb_refl in EK; discriminate].
      intros H. apply in_app_iff. auto.
Qed.
Lemma commits_in e M : In e (commits M) -> exists x, In (Committed x e) M.
Proof.
  unfold commits. rewrite in_flat_map. intros ([| j e' |] & A & B); cbn in B; try (destruct B; fail).
  destruct B as [->|[]]. eauto.
Qed.
Lemma recreated cfg okf s A i ei M j ej B ci cj k : lreach cfg okf s ->
  l_log s = A ++ Committed i ei :: M ++ Committed j ej :: B ->
  In (Asked i (WTxn (request ci))) (l_log s) -> In (Asked j (WTxn (request cj))) (l_log s) ->
  creates ci k -> creates cj k -> exists x, In (Committed x (Entry k Del)) M.
Proof.
  intros H E QI QJ EI EJ.
  destruct (commit_of_request _ _ _ _ _ _ _ ci H E QI) as [-> CI].
  assert (E2 : l_log s = (A ++ Committed i (effect ci) :: M) ++ Committed j ej :: B) by (rewrite <- app_assoc; exact E).
  destruct (commit_of_request _ _ _ _ _ _ _ cj H E2 QJ) as [-> CJ].
  destruct (creates_none _ _ _ EI CI) as (N1 & v & l & K). destruct (creates_none _ _ _ EJ CJ) as (N2 & _).
  rewrite commits_app in N2. change (commits (Committed i (effect ci) :: M)) with (effect ci :: commits M) in N2.
  rewrite K in N2. apply commits_in. now apply deleted_between in N2.
Qed.
