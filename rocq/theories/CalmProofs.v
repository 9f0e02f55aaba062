(** In calm periods requests do not fail. *)
From Coq Require Import List ZArith Bool Lia.
From Verif Require Import Bytes Spec Sql System Prog Backend Limited Api Pool Ledger SpecLemmas SqlLemmas Sim ProgLemmas ReadProgs Safety LedgerLemmas Batch BatchProofs BatchKine Node NodeProofs Fair FairProofs Calm.
Import ListNotations.
Open Scope Z_scope.

(** ---- programs whose calls all succeed ---- *)
Fixpoint cwp {A} (p : prog A) (Q : world -> A -> Prop) (w : world) : Prop :=
  match p with
  | Ret a => Q w a
  | Call c k => forall w1, wsteps w w1 -> wreach w1 -> cwp (k (Ok (answer None true c (fst w1)))) Q (weffect c w1)
  end.
Lemma cwp_mono {A} (p : prog A) (Q Q' : world -> A -> Prop) : (forall w a, Q w a -> Q' w a) -> forall w, cwp p Q w -> cwp p Q' w.
Proof. intros H. induction p as [a|c k IH]; cbn [cwp]; auto. Qed.
Lemma cwp_bind {A B} (p : prog A) (g : A -> prog B) Q : forall w, cwp p (fun w' a => cwp (g a) Q w') w -> cwp (pbind p g) Q w.
Proof. induction p as [a|c k IH]; intros w; [exact (fun H => H)|]. intros K w1 S R. apply IH. apply K; auto. Qed.
Lemma cwp_rbind {A B} (p : prog (result A)) (g : A -> prog (result B)) Q w :
  cwp p (fun w' r => match r with Ok a => cwp (g a) Q w' | Err e => Q w' (Err e) end) w -> cwp (rbind p g) Q w.
Proof. intros H. unfold rbind. apply cwp_bind. eapply cwp_mono; [|exact H]. intros w' [a|e]; auto. Qed.
Lemma cwp_step {A} (p : prog A) (Q : world -> A -> Prop) w w' : (forall o, Q w o -> Q w' o) -> wsteps w w' -> cwp p Q w -> cwp p Q w'.
Proof. intros ST S. destruct p as [a|c k]; cbn [cwp]; auto. intros K w1 S1. apply K. eapply wsteps_trans; eauto. Qed.
Lemma cwp_retry c (Q : world -> result (ret_of c) -> Prop) w :
  (forall w1, wsteps w w1 -> wreach w1 -> Q (weffect c w1) (Ok (answer None true c (fst w1)))) -> cwp (with_retry max_retries c) Q w.
Proof. intros H. destruct max_retries_S as (n & ->). cbn [with_retry cwp]. intros w1 S R. apply H; auto. Qed.

Definition started (w : world) : Prop := history_of (snd w) <> [].
Lemma extends_started s s' : extends s s' -> history_of s <> [] -> history_of s' <> [].
Proof. intros [[l ->] _] N E. apply app_eq_nil in E. tauto. Qed.
Lemma started_steps w w' : wsteps w w' -> started w -> started w'.
Proof. intros S. apply extends_started. now apply wsteps_extends. Qed.
Lemma started_effect c w : started w -> started (weffect c w).
Proof. unfold weffect. destruct (op_of c); auto. cbn. apply extends_started, spec_apply_extends. Qed.
Lemma started_create w k v l : started (wapply w (ACreate k v l)).
Proof.
  unfold started. cbn. unfold spec_create. destruct (now (history_of (snd w)) k) as [x|] eqn:N; cbn; intros E.
  - rewrite E in N. discriminate.
  - apply app_eq_nil in E. destruct E. discriminate.
Qed.
Definition fine {A} (P : Prop) (w : world) (r : result A) : Prop := (P -> started w) /\ exists a, r = Ok a.
Lemma c_execute a (P : Prop) w : (P -> started w \/ exists k v l, a = ACreate k v l) -> cwp (d_execute a) (fine P) w.
Proof.
  intros H. apply cwp_retry. intros w1 S _. split; [|eauto]. intros p. destruct (H p) as [G|(k & v & l & ->)].
  - apply started_effect. eapply started_steps; eauto.
  - apply started_create.
Qed.
Lemma c_query c (P : Prop) w : (P -> started w) -> cwp (d_query c) (fine P) w.
Proof. intros H. apply cwp_retry. intros w1 S _. split; [|eauto]. intros p. apply started_effect. eapply started_steps; eauto. Qed.
Lemma c_write a (P : Prop) w (g : Z * Z -> Z * bool) : (P -> started w \/ exists k v l, a = ACreate k v l) -> cwp (rbind (d_execute a) (fun x => Ret (Ok (g x)))) (fine P) w.
Proof. intros H. apply cwp_rbind. eapply cwp_mono; [|apply c_execute, H]. intros w' r [S (x & ->)]. cbn. split; [exact S|eauto]. Qed.
Lemma c_interval (P : Prop) w : (P -> started w) -> cwp d_get_compact_revision (fine P) w.
Proof.
  intros H. unfold d_get_compact_revision. apply cwp_rbind. apply cwp_retry. intros w1 S _. split; [intros p; eapply started_steps; eauto|].
  cbn. destruct (revision_interval_sql (fst w1)). eauto.
Qed.
Lemma c_current (P : Prop) w : started w -> cwp d_current_revision (fine True) w.
Proof.
  intros H. unfold d_current_revision. apply cwp_rbind. apply cwp_retry. intros w1 S R. pose proof (started_steps _ _ S H) as H1. split; [intros _; exact H1|].
  cbn. rewrite (rev_sql_R _ _ (reach_R _ _ R)). destruct (Z.eqb_spec (revision (history_of (snd w1))) 0) as [E|]; [|eauto].
  exfalso. unfold started in H1. unfold revision in E. destruct (history_of (snd w1)); [congruence|]. cbn in E. lia.
Qed.
Lemma c_compact_start w : started w -> cwp b_compact_start (fine True) w.
Proof.
  intros H. unfold b_compact_start. apply cwp_rbind. eapply cwp_mono; [|apply (c_current True), H]. intros w1 r [S1 (cur & ->)]. specialize (S1 Logic.I).
  apply cwp_rbind. eapply cwp_mono; [|exact (c_query (CAfterPrefix compact_rev_key (range_end compact_rev_key (compact_rev_key ++ [0%N])) 0 cur) True w1 (fun _ => S1))]. intros w2 r [S2 (rs & ->)]. specialize (S2 Logic.I). cbn beta iota.
  destruct (scan_all scan_event rs) as [|e1 [|e2 es]].
  - apply cwp_rbind. unfold b_create, d_create. eapply cwp_mono; [|apply (c_write _ True); auto]. intros w3 r [S3 (x & ->)]. split; [exact S3|eauto].
  - split; [auto|eauto].
  - generalize (snd (pick_keeper (e1 :: e2 :: es))). generalize (e1 :: e2 :: es). clear - S2. intros l keep. revert w2 S2.
    induction l as [|e l IH]; intros w2 S2; cbn [delete_others]; [split; [auto|eauto]|]. destruct (kv_mod (ev_kv e) =? keep); [auto|].
    apply cwp_rbind. unfold d_delete_revision. apply cwp_rbind. eapply cwp_mono; [|apply (c_execute _ True); auto]. intros w3 r [S3 (x & ->)]. cbn. auto.
Qed.
Lemma c_compact cfg rev w : started w -> cwp (d_compact cfg rev) (fine True) w.
Proof.
  assert (C : forall w, started w -> cwp (d_compact_sqlite rev) (fine True) w).
  { clear w. intros w H. unfold d_compact_sqlite. apply cwp_rbind. eapply cwp_mono; [|apply (c_interval True); auto]. intros w1 r [S1 ([lo hi] & ->)]. specialize (S1 Logic.I). cbn beta iota.
    destruct (rev <=? lo); [split; [auto|eauto]|]. apply cwp_rbind. apply cwp_retry. intros w2 S2 _. split; [|eauto]. intros _. apply started_effect. eapply started_steps; eauto. }
  intros H. unfold d_compact. destruct (cfg_dqlite cfg); auto. cbn [cwp]. intros w1 S1 _. cbn. apply C. eapply started_steps; eauto.
Qed.
Lemma c_do_compact cfg w : started w -> cwp (b_do_compact cfg) (fine True) w.
Proof.
  intros H. unfold b_do_compact. apply cwp_rbind. eapply cwp_mono; [|apply c_compact_start, H]. intros w1 r [S1 (u & ->)]. specialize (S1 Logic.I).
  apply cwp_rbind. eapply cwp_mono; [|apply (c_interval True); auto]. intros w2 r [S2 ([lo hi] & ->)]. specialize (S2 Logic.I). cbn beta iota zeta.
  generalize (compact_fuel lo (hi - superseded_count)). intros n. revert lo w2 S2. induction n as [|n IH]; intros lo w2 S2; cbn [compact_loop]; [split; [auto|eauto]|].
  destruct (lo <? hi - superseded_count); [|split; [auto|eauto]]. cbv zeta. apply cwp_rbind. eapply cwp_mono; [|apply c_compact, S2]. intros w3 r [S3 (u' & ->)]. auto.
Qed.
Lemma c_start w : cwp b_start (fine True) w.
Proof.
  unfold b_start. apply cwp_rbind. unfold b_create, d_create. eapply cwp_mono; [|apply (c_write _ True); eauto]. intros w1 r [S1 (x & ->)]. specialize (S1 Logic.I).
  apply cwp_rbind. eapply cwp_mono; [|apply c_compact_start, S1]. intros w2 r [S2 (u & ->)]. specialize (S2 Logic.I).
  apply cwp_rbind. eapply cwp_mono; [|apply (c_interval True); auto]. intros w3 r [S3 ([lo hi] & ->)]. split; [exact S3|eauto].
Qed.
Definition read_ok {A} (rev : Z) (r : result A) : Prop := (exists a, r = Ok a) \/ r = Err ECompacted /\ rev <> 0.
Lemma read_revision_ok rev lo hi : read_ok rev (read_revision rev lo hi).
Proof.
  unfold read_revision, read_ok. destruct (Z.eqb_spec rev 0); cbn; [eauto|]. destruct (hi <? rev); [eauto|]. destruct (rev <? lo); eauto.
Qed.
Lemma c_list cfg key re limit rev w : cwp (b_list cfg key re limit rev) (fun _ r => read_ok rev r) w.
Proof.
  unfold b_list. apply cwp_rbind. eapply cwp_mono; [|apply (c_interval False); tauto]. intros w1 r [_ ([lo hi] & ->)]. cbn beta iota.
  destruct (read_revision_ok rev lo hi) as [(a & ->)|(-> & N)]; [|right; auto]. apply cwp_rbind. eapply cwp_mono; [|exact (c_query (CList (cfg_v1 cfg) key (range_end key re) limit a) False w1 (fun f => match f with end))].
  intros w2 r [_ (rs & ->)]. left. eauto.
Qed.
Lemma c_count cfg key re rev w : cwp (b_count cfg key re rev) (fun _ r => read_ok rev r) w.
Proof.
  unfold b_count. apply cwp_rbind. eapply cwp_mono; [|apply (c_interval False); tauto]. intros w1 r [_ ([lo hi] & ->)]. cbn beta iota.
  destruct (read_revision_ok rev lo hi) as [(a & ->)|(-> & N)]; [|right; auto]. apply cwp_rbind. unfold d_count. apply cwp_rbind. apply cwp_retry.
  intros w2 _ _. cbn. left. eauto.
Qed.
Lemma c_failure cfg key w : cwp (l_failure cfg key 0) (fun _ r => exists x, r = Ok x) w.
Proof. unfold l_failure. apply cwp_rbind. eapply cwp_mono; [|apply c_list]. intros w1 r [([a kvs] & ->)|(-> & N)]; [cbn; eauto|congruence]. Qed.
Lemma c_outcome a w (g : Z -> bool -> prog (result txn_resp)) : (forall z w', cwp (g z true) (fun _ r => exists x, r = Ok x) w') -> (forall w', cwp (g 0 false) (fun _ r => exists x, r = Ok x) w') ->
  cwp (rbind (rbind (d_execute a) (fun x => Ret (Ok (exec_outcome x)))) (fun '(z, b) => g z b)) (fun _ r => exists x, r = Ok x) w.
Proof.
  intros H1 H2. apply cwp_rbind, cwp_rbind. eapply cwp_mono; [|apply (c_execute a False); tauto]. intros w1 r [_ (x & ->)]. cbn. unfold exec_outcome. destruct (fst x =? 0); auto.
Qed.
Lemma c_txn cfg c w : cwp (s_txn cfg (request c)) (fun _ r => exists x, r = Ok x) w.
Proof.
  assert (CR : forall k v l w, cwp (l_create (PutReq k v l false false false)) (fun _ r => exists x, r = Ok x) w).
  { intros k v l w'. unfold l_create. cbn [p_ignore_lease p_ignore_value p_prev_kv orb]. unfold b_create, d_create. cbn [p_key p_value p_lease].
    apply (c_outcome _ _ (fun rev ok => Ret (Ok (if ok then TxnResp rev true [RespPut rev] else TxnResp rev false [])))); cbn; eauto. }
  assert (UP : forall k v e l w, cwp (l_update cfg e k v l) (fun _ r => exists x, r = Ok x) w).
  { intros k v e l w'. unfold l_update. destruct (e =? 0); unfold b_create, d_create, b_update, d_update;
      apply (c_outcome _ _ (fun rev (ok : bool) => if ok then Ret (Ok (TxnResp rev true [RespPut rev])) else l_failure cfg k rev)); cbn; eauto using c_failure. }
  assert (DE : forall k e w, cwp (l_delete cfg k e) (fun _ r => exists x, r = Ok x) w).
  { intros k e w'. unfold l_delete, b_delete, d_delete.
    apply (c_outcome _ _ (fun rev (ok : bool) => if ok then Ret (Ok (TxnResp rev true [RespDelete rev])) else l_failure cfg k rev)); cbn; eauto using c_failure. }
  destruct c as [k v l|k v e l|k e]; cbn [request]; unfold s_txn, l_txn; [exact (CR k v l w)|exact (UP k v e l w)|exact (DE k e w)].
Qed.
Lemma c_range cfg r w : supported_range r -> cwp (s_range cfg r) (fun _ x => (exists y, x = Ok y) \/ x = Err ECompacted /\ (r_revision r <> 0 \/ r_range_end r <> [] /\ 0 < r_limit r /\ r_count_only r = false)) w.
Proof.
  intros (H1 & H2 & H3 & H4 & H5 & H6 & H7 & H8). unfold s_range. rewrite H1, H2, H3, H4, H5, H6, H7, H8. cbn [negb Z.eqb]. unfold l_range, l_get, l_list.
  destruct (r_range_end r) as [|b re] eqn:RE.
  - apply cwp_rbind. eapply cwp_mono; [|apply c_list]. intros w1 x [([a kvs] & ->)|(-> & N)]; cbn; eauto.
  - destruct (r_count_only r) eqn:CO.
    + apply cwp_rbind. eapply cwp_mono; [|apply c_count]. intros w1 x [([a n] & ->)|(-> & N)]; cbn; eauto.
    + cbv zeta. apply cwp_rbind. eapply cwp_mono; [|apply c_list]. intros w1 x [([a kvs] & ->)|(-> & N)]; [|right; auto]. cbn beta iota.
      destruct ((0 <? (if 0 <? r_limit r then wrap64 (r_limit r + 1) else r_limit r)) && (r_limit r <? Z.of_nat (length kvs))) eqn:E; [|left; eexists; reflexivity].
      apply cwp_rbind. eapply cwp_mono; [|apply c_count]. intros w2 x [([a2 n] & ->)|(-> & N)]; [left; eexists; reflexivity|]. right. split; [reflexivity|].
      apply andb_true_iff in E. destruct E as [E _]. right. split; [discriminate|]. split; [|reflexivity]. destruct (Z.ltb_spec 0 (r_limit r)); auto. now apply Z.ltb_lt.
Qed.
Lemma cwp_true {A} (p : prog A) : forall w, cwp p (fun _ _ => True) w.
Proof. induction p as [a|c k IH]; cbn [cwp]; auto. Qed.
Lemma cwp_impl {A} (P : Prop) (p : prog A) (Q : world -> A -> Prop) : forall w, (P -> cwp p Q w) -> cwp p (fun w' a => P -> Q w' a) w.
Proof. induction p as [a|c k IH]; cbn [cwp]; auto. Qed.
Lemma c_served cfg q w : cwp (served cfg q) (fun _ o => in_order (history_of (snd w)) q o) w.
Proof.
  destruct q as [t|r| | |k rev]; cbn [served in_order].
  - apply cwp_impl. intros (c & ->). apply cwp_bind. eapply cwp_mono; [|apply c_txn]. intros w1 x (y & ->). cbn. eauto.
  - apply cwp_impl. intros SR. apply cwp_bind. eapply cwp_mono; [|apply c_range, SR]. intros w1 x [(y & ->)|(-> & H)]; cbn; [eauto|auto].
  - apply cwp_impl. intros NE. apply cwp_bind. eapply cwp_mono; [|apply c_do_compact, NE]. intros w1 x [_ (y & ->)]. destruct y. reflexivity.
  - apply cwp_bind. eapply cwp_mono; [|apply c_start]. intros w1 x [_ (y & ->)]. reflexivity.
  - apply cwp_bind. unfold b_delete, d_delete. eapply cwp_mono; [|apply (c_write _ False); tauto]. intros w1 x [_ (y & ->)]. reflexivity.
Qed.

(** ---- the ledger in a calm period ---- *)
Lemma lstep_faults cfg (okf okf' : fault -> Prop) s s' : (forall f, okf f -> okf' f) -> lstep cfg okf s s' -> lstep cfg okf' s s'.
Proof. intros M S. destruct S; constructor; auto. Qed.
Lemma lreach_faults cfg (okf okf' : fault -> Prop) s : (forall f, okf f -> okf' f) -> lreach cfg okf s -> lreach cfg okf' s.
Proof. intros M H. induction H; [constructor|]. econstructor; eauto using lstep_faults. Qed.
Definition nothing : promise := fun _ _ _ _ _ _ _ => True.
Lemma nothing_stable : stable nothing.
Proof. intros i q A w0 L w o w' D. exact (fun _ _ _ _ _ => Logic.I). Qed.
Lemma nothing_keeps cfg okf : keeps cfg okf nothing.
Proof. intros i q A w _ _ _. unfold nothing. apply lwp_true. Qed.
Definition asked_at (log : ledger) (i : nat) (h : history) (q : Pool.work) : Prop := exists A B, log = A ++ Asked i q :: B /\ h = commits A.
Lemma asked_more log l i h q : asked_at log i h q -> asked_at (log ++ l) i h q.
Proof. intros (A & B & -> & ->). exists A, (B ++ l). split; [now rewrite <- app_assoc|reflexivity]. Qed.
Record calmly (n0 : nat) (s : lstate) : Prop := {
  M_live : forall i p, In (i, p) (l_procs s) -> (n0 <= i)%nat -> exists h q, asked_at (l_log s) i h q /\ cwp p (fun _ o => in_order h q o) (l_world s);
  M_done : forall i o, In (Answered i o) (l_log s) -> (n0 <= i)%nat -> exists h q, asked_at (l_log s) i h q /\ in_order h q o }.
Lemma calmly_step cfg n0 s s' : lreach cfg Prog.any_fault s -> calmly n0 s -> lstep cfg (eq NoFault) s s' -> calmly n0 s'.
Proof.
  intros H [ML MD] ST. pose proof (lreach_inv cfg _ nothing s nothing_stable (nothing_keeps _ _) H) as [VR VM VH VS VI VL _ _ _].
  assert (DONE : forall l, (forall i o, In (Answered i o) l -> (n0 <= i)%nat -> exists h q, asked_at (l_log s) i h q /\ in_order h q o) ->
     forall i o, In (Answered i o) (l_log s ++ l) -> (n0 <= i)%nat -> exists h q, asked_at (l_log s ++ l) i h q /\ in_order h q o).
  { intros l HL i o I L. apply in_app_iff in I. destruct I as [I|I]; [destruct (MD i o I L) as (h & q & A & P)|destruct (HL i o I L) as (h & q & A & P)]; exists h, q; eauto using asked_more. }
  destruct ST as [w ps log n q HQ|w ps1 i c k ps2 log n f O|w ps1 i o ps2 log n|w ps1 x ps2 log n]; cbn [l_world l_procs l_log l_next] in *.
  - constructor; cbn [l_world l_procs l_log].
    + intros i p [[= <- <-]|I] L.
      * exists (commits log), q. split; [exists log, []; auto|]. rewrite VH. apply c_served.
      * destruct (ML i p I L) as (h & q' & A & P). exists h, q'. eauto using asked_more.
    + apply DONE. intros i o [I|[]]; discriminate.
  - subst f. apply Forall_app in VS. destruct VS as [_ VS2]. inversion VS2 as [|? ? VS3 _]; subst. cbn [snd] in VS3.
    destruct (VS3 w (wsteps_refl w)) as [OK _]. pose proof (sem_wsteps NoFault c w OK) as SW. constructor; cbn [l_world l_procs l_log].
    + intros i' p I L. apply in_app_iff in I. cbn [In] in I.
      assert (CASES : (i', p) = (i, k (snd (sem NoFault c w))) \/ In (i', p) (ps1 ++ (i, Call c k) :: ps2)) by (rewrite in_app_iff; cbn; destruct I as [I|[I|I]]; auto).
      destruct CASES as [[= -> ->]|I'].
      * destruct (ML i (Call c k)) as (h & q & A & P); [apply in_app_iff; cbn; auto|auto|]. exists h, q. split; [now apply asked_more|]. exact (P w (wsteps_refl w) VR).
      * destruct (ML i' p I' L) as (h & q & A & P). exists h, q. split; [now apply asked_more|]. eapply cwp_step; [|exact SW|exact P]. auto.
    + apply DONE. intros i' o I. apply in_map_iff in I. destruct I as (e & E & _). discriminate.
  - constructor; cbn [l_world l_procs l_log].
    + intros i' p I L. destruct (ML i' p) as (h & q & A & P); [rewrite in_app_iff in *; cbn; tauto|auto|]. exists h, q. eauto using asked_more.
    + apply DONE. intros i' o' [[= <- <-]|[]] L. destruct (ML i (Ret o)) as (h & q & A & P); [apply in_app_iff; cbn; auto|auto|]. exists h, q. auto.
  - constructor; cbn [l_world l_procs l_log]; auto. intros i' p I L. apply (ML i' p); auto. rewrite in_app_iff in *. cbn. tauto.
Qed.
Lemma calmly_from cfg l0 s : lreach cfg Prog.any_fault l0 -> lfrom cfg (eq NoFault) l0 s -> lreach cfg Prog.any_fault s /\ calmly (l_next l0) s.
Proof.
  intros H F. induction F as [|s s' F [IH1 IH2] ST].
  - split; [exact H|]. pose proof (lreach_inv cfg _ nothing l0 nothing_stable (nothing_keeps _ _) H) as [VR VM VH VS [_ VI] VL _ _ _]. constructor.
    + intros i p I L. apply VI in I. cbn in I. lia.
    + intros i o I L. apply VL in I. lia.
  - split; [econstructor; [exact IH1|]; eapply lstep_faults; [|exact ST]; intros; exact Logic.I|]. eapply calmly_step; eauto.
Qed.

(** ---- servers ---- *)
Lemma undisturbed_tolerates s : undisturbed s -> forall j b, nth_error (n_servers s) j = Some b -> tolerates (eq NoFault) b.
Proof.
  intros U j b N. destruct (U j b N) as [C J]. split; [reflexivity|]. split; [congruence|]. intros i jb NJ NO JC. rewrite (J i jb NJ NO) in JC. discriminate.
Qed.
Definition calm_step (x : naction) : Prop := calm (Other x).
Definition quiet_batch (b : kbatch) : Prop := kclosed b = false /\ forall i jb, nth_error (kjobs b) i = Some jb -> j_outcome _ _ jb = None -> j_cancelled _ _ jb = false.
Lemma quiet_init w : quiet_batch (batch_init w).
Proof. split; [reflexivity|]. intros [|i] jb E; discriminate. Qed.
Lemma quiet_step b a : core world aop (Z * Z) b -> (match a with BCancel _ _ | BClose _ => False | _ => True end) -> quiet_batch b -> quiet_batch (kstep b a).
Proof.
  intros C A [Q1 Q2]. pose proof C as [K1 K2 K3 K5]. destruct b as [js q w rid cl dc db log]. unfold quiet_batch, kclosed, kjobs, kstep, pending in *. cbn [b_log b_db b_worker b_queue b_jobs b_dbclosed b_closed] in *.
  destruct a as [st|id| |f| |st| |]; try contradiction; cbn [Batch.batch_step b_closed b_worker b_queue b_jobs b_runid b_dbclosed b_db b_log].
  - rewrite Q1. cbn [b_closed b_jobs]. split; [reflexivity|]. intros i jb N O. destruct (Nat.lt_ge_cases i (length js)) as [L|L].
    + rewrite nth_error_app1 in N by auto. eauto.
    + rewrite nth_error_app2 in N by auto. destruct (i - length js)%nat as [|m]; [injection N as <-; reflexivity|destruct m; discriminate].
  - destruct w; auto.
  - destruct w as [| |b|b]; auto. destruct (exec_queue world aop (Z * Z) kine_run cl js b f db) as [[js' db'] l] eqn:E.
    cbn [todo] in *. destruct (NoDup_app_both _ _ K1) as (S4 & S5 & S6).
    destruct (exec_queue_ok _ _ _ _ _ _ _ _ _ _ _ _ S4 K3 E) as [X1 X2 X3 X4 X5]. cbn [b_closed b_jobs]. split; [exact Q1|]. intros i jb' N O.
    destruct (nth_error js i) as [jb|] eqn:N0; [|apply nth_error_None in N0; rewrite <- X1 in N0; apply nth_error_None in N0; congruence].
    destruct (X2 i jb N0) as (j1 & N1 & (T1 & T2 & T3) & U & V). rewrite N in N1. injection N1 as <-.
    destruct (in_dec Nat.eq_dec i b) as [I|I]; [destruct (V I) as (o & O1 & _); congruence|]. specialize (U I). rewrite U in O. specialize (Q2 i jb N0 O). congruence.
  - destruct w as [| |b|b]; auto. destruct q; auto.
  - destruct dc; auto.
  - destruct cl; [discriminate|]. auto.
Qed.
Lemma quiet_db w b : quiet_batch b -> quiet_batch (with_db w b).
Proof. exact (fun x => x). Qed.
Lemma undisturbed_step cfg s x s' : (forall j b, nth_error (n_servers s) j = Some b -> core world aop (Z * Z) b) -> calm_step x -> nstep cfg s x = Some s' -> undisturbed s -> undisturbed s'.
Proof.
  intros K C ST U. change (forall j b, nth_error (n_servers s) j = Some b -> quiet_batch b) in U. change (forall j b, nth_error (n_servers s') j = Some b -> quiet_batch b).
  destruct s as [w sv ps log n]. cbn [n_servers] in *. 
  assert (PUT : forall j b0 b1, nth_error sv j = Some b0 -> quiet_batch b1 -> forall j' b, nth_error (put j b1 sv) j' = Some b -> quiet_batch b).
  { intros j b0 b1 N Q j' b E. rewrite put_nth in E. destruct (Nat.eqb j j'); [destruct (nth_error sv j'); [|discriminate]; injection E as <-; exact Q|eauto]. }
  destruct x as [|j0 q|i f|i|j0 a|i|i|j0]; cbn [nstep] in ST.
  - injection ST as <-. cbn [n_servers]. intros j b E. destruct (Nat.lt_ge_cases j (length sv)) as [L|L]; [rewrite nth_error_app1 in E by auto; eauto|].
    rewrite nth_error_app2 in E by auto. destruct (j - length sv)%nat as [|m]; [injection E as <-; apply quiet_init|destruct m; discriminate].
  - destruct (nth_error sv j0); [|discriminate]. injection ST as <-. exact U.
  - destruct (nth_error ps i) as [[id j1 [[o|c k]|]]|]; try discriminate. destruct (op_of c) as [a|]; [destruct (batched a); [discriminate|]|]; injection ST as <-; exact U.
  - destruct (nth_error ps i) as [[id j1 [[o|[a| | | | | | | |] k]|]]|]; try discriminate. destruct (batched a); [|discriminate].
    destruct (nth_error sv j1) as [b1|] eqn:NS; [|discriminate]. destruct (kclosed b1); injection ST as <-; [exact U|]. cbn [n_servers]. apply (PUT j1 b1 (kstep b1 (BSubmit _ a)) NS). apply quiet_step; eauto.
  - destruct (batch_inv cfg _ _ _ _ _ _ _ _ ST) as (b1 & log' & NS & _ & ->). cbn [n_servers]. apply (PUT j0 b1 (kstep (with_db w b1) a) NS). apply quiet_step; [apply core_db; exact (K j0 b1 NS)| |apply quiet_db; eauto].
    unfold calm_step, calm in C. destruct a; auto.
  - destruct (nth_error ps i) as [[id j1 [|a job k]]|]; try discriminate. destruct (nth_error sv j1) as [b1|]; [|discriminate].
    destruct (kreleased b1 job) as [o|]; [|discriminate]. injection ST as <-. exact U.
  - destruct (nth_error ps i) as [[id j1 [[o|]|]]|]; try discriminate. injection ST as <-. exact U.
  - injection ST as <-. cbn [n_servers]. intros j b E. rewrite put_nth in E. destruct (Nat.eqb j0 j); [destruct (nth_error sv j); [|discriminate]; injection E as <-; apply quiet_init|eauto].
Qed.

Lemma calm_ok x : (match x with NAsk _ q => work_ok q | _ => True end) -> calm_step x -> naction_ok (eq NoFault) x.
Proof. destruct x as [|j q|i f|i|j a|i|i|j]; cbn; auto. destruct a; cbn; auto. intros _ ->. exact Logic.I. Qed.
Lemma calm_own i f a : f = NoFault -> calm_step (own_step i f a).
Proof. intros ->. destruct a as [[o|c k]|]; cbn; auto. unfold calm_step. destruct (op_of c) as [a|]; [destruct (batched a)|]; cbn; auto. Qed.

Section Calm.
Variables (cfg : driver_cfg) (okf : fault -> Prop) (sch : nat -> turn) (t0 : nat).
Hypothesis T : tolerant okf.
Hypothesis OK : forall t, turn_ok okf (sch t).
Hypothesis CALM : forall t, (t0 <= t)%nat -> calm (sch t).
Hypothesis U0 : undisturbed (at_time cfg sch t0).
Lemma calm_view t : (t0 <= t)%nat -> undisturbed (at_time cfg sch t) /\ lfrom cfg (eq NoFault) (nview (at_time cfg sch t0)) (nview (at_time cfg sch t)).
Proof.
  intros L. induction L as [|t L [IH1 IH2]]; [split; [exact U0|constructor]|].
  destruct (turn_steps cfg okf sch OK t) as [->|(x & O & ST & X)]; [auto|].
  assert (CX : calm_step x).
  { destruct X as [E|(pid & f & i & p & E & _ & _ & ->)]; pose proof (CALM t L) as C; rewrite E in C; [exact C|]. now apply calm_own. }
  destruct (st_reach cfg okf sch OK t) as [R _]. destruct (node_sim cfg okf _ T R) as [K _].
  split; [eapply undisturbed_step; eauto; intros j b N; exact (I_core _ _ K j b N)|].
  assert (OX : naction_ok (eq NoFault) x) by (apply calm_ok; auto; destruct x; auto).
  destruct (sim_step_at (nview (at_time cfg sch t0)) cfg (eq NoFault) _ x _ (undisturbed_tolerates _ IH1) OX ST (conj K IH2)) as [_ Q]. exact Q.
Qed.
Lemma calm_in_order t pid o : (t0 <= t)%nat -> In (Answered pid o) (n_log (at_time cfg sch t)) -> (n_next (at_time cfg sch t0) <= pid)%nat ->
  exists h q, asked_at (n_log (at_time cfg sch t)) pid h q /\ in_order h q o.
Proof.
  intros L I N. destruct (calm_view t L) as [_ F]. destruct (st_reach cfg okf sch OK t0) as [R _].
  destruct (calmly_from cfg _ _ (lreach_faults cfg okf _ _ (fun _ _ => Logic.I) (node_view cfg okf _ T R)) F) as [_ [_ D]]. exact (D pid o I N).
Qed.
End Calm.
Lemma lfrom_log cfg okf l0 s : lfrom cfg okf l0 s -> exists l, l_log s = l_log l0 ++ l.
Proof.
  intros F. induction F as [|s s' F (l & IH) ST]; [exists []; now rewrite app_nil_r|]. 
  assert (X : exists m, l_log s' = l_log s ++ m) by (destruct ST; cbn; eauto; exists []; now rewrite app_nil_r).
  destruct X as [m ->]. exists (l ++ m). now rewrite IH, app_assoc.
Qed.
Lemma asked_unique i (A B D E : ledger) q q' : A ++ Asked i q :: D = B ++ Asked i q' :: E ->
  (forall x, ~ In (Asked i x) A) -> (forall x, ~ In (Asked i x) B) -> A = B /\ q = q'.
Proof.
  revert B. induction A as [|a A IH]; intros [|b B] H NA NB; cbn [app] in H.
  - injection H as H1 H2. auto.
  - injection H as H1 H2. exfalso. apply (NB q). left. auto.
  - injection H as H1 H2. exfalso. apply (NA q'). left. auto.
  - injection H as H1 H2. subst b. destruct (IH B H2) as (X & Y); [intros x I; apply (NA x); right; auto|intros x I; apply (NB x); right; auto|]. subst; auto.
Qed.
Lemma calm_answered cfg okf sch t0 t j q : tolerant okf -> (forall t, turn_ok okf (sch t)) ->
  (forall t, (t0 <= t)%nat -> calm (sch t)) -> undisturbed (at_time cfg sch t0) -> (t0 <= t)%nat ->
  sch t = Other (NAsk j q) -> (j < length (n_servers (at_time cfg sch t)))%nat ->
  let pid := n_next (at_time cfg sch t) in
  (forall t', (t < t')%nat -> sch t' <> Other (NCrash j)) -> again sch (fun x => exists f, x = Own pid f) -> batching j sch ->
  exists t' o, (t < t')%nat /\ In (Answered pid o) (n_log (at_time cfg sch t')) /\ in_order (commits (n_log (at_time cfg sch t))) q o.
Proof.
  intros T OK CALM U0 L0 E L pid NC OWN BAT. destruct (asked_answered cfg okf sch t j q T OK E L NC OWN BAT) as (t' & o & L' & A). fold pid in A.
  exists t', o. split; [exact L'|]. split; [exact A|].
  destruct (calm_view cfg okf sch t0 T OK CALM U0 t L0) as [U _].
  destruct (calm_in_order cfg okf sch t T OK (fun u X => CALM u (Nat.le_trans _ _ _ L0 X)) U t' pid o (Nat.lt_le_incl _ _ L') A (Nat.le_refl _)) as (h & q' & (B & C & EL & ->) & IO).
  destruct (calm_view cfg okf sch t0 T OK CALM U0 (S t) ltac:(lia)) as [U1 _].
  destruct (calm_view cfg okf sch (S t) T OK (fun u X => CALM u ltac:(lia)) U1 t' L') as [_ F]. destruct (lfrom_log _ _ _ _ F) as (l & LG). cbn [nview l_log] in LG.
  assert (E1 : n_log (at_time cfg sch (S t)) = n_log (at_time cfg sch t) ++ [Asked pid q]).
  { cbn [at_time]. unfold take_turn, attempt. rewrite E. unfold pid. destruct (at_time cfg sch t) as [w sv ps log n]. cbn [n_servers n_next] in *. cbn [nstep].
    apply nth_error_Some in L. destruct (nth_error sv j); [|congruence]. reflexivity. }
  rewrite E1, <- app_assoc in LG. cbn [app] in LG.
  destruct (st_reach cfg okf sch OK t') as [R _]. pose proof (node_view cfg okf _ T R) as LR.
  pose proof (V_once _ _ _ _ (lreach_inv cfg _ nothing _ nothing_stable (nothing_keeps _ _) LR)) as ON. cbn [nview l_log] in ON.
  pose proof (ON _ _ _ _ EL) as O1. pose proof (ON _ _ _ _ LG) as O2.
  destruct (asked_unique pid _ _ _ _ _ _ (eq_trans (eq_sym EL) LG) O1 O2) as [-> ->]. exact IO.
Qed.
