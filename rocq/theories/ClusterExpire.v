(** Expiry in a cluster: what an attempt has done when it returns. *)
From Coq Require Import List ZArith Bool Lia.
From Verif Require Import Bytes Spec Sql System Prog Backend Limited Api Pool Ledger Batch BatchKine Node Watch Stream Resume Whole.
From Verif Require Import SpecLemmas SqlLemmas Sim ProgLemmas Safety LedgerLemmas LedgerMore NodeProofs WatchLemmas WatchProofs WatchResults StreamProofs ResumeProofs WholeProofs WholeResults Ttl TtlProofs TtlLive Lease LeaseProofs Cluster ClusterProofs ClusterView ExpireProofs.
From Verif Require Import Watch Stream Whole.
Import ListNotations.
Open Scope Z_scope.

Section Expire.
Context (cfg : driver_cfg) (okf : fault -> Prop) (st : bool).
Hypothesis T : tolerant okf.

Lemma cstep_whole s a s' : creach cfg okf st s -> caction_ok okf st s a -> cstep cfg s a = Some s' ->
  c_whole s' = c_whole s \/ exists x, kaction_ok okf st (c_whole s) x /\ kstep cfg (c_whole s) x = Some (c_whole s').
Proof.
  intros H OK ST. pose proof (creach_CI cfg okf st T _ H) as J. destruct a as [x|d|j a|j n].
  - cbn [cstep whole_part caction_ok] in *. destruct (not_expiry s x) eqn:NE; [|discriminate]. destruct (kstep cfg (c_whole s) x) as [k'|] eqn:E; [|discriminate]. injection ST as <-. right. exists x. auto.
  - injection ST as <-. left. reflexivity.
  - assert (O : match a with TBack _ | TTime _ | TAttempt _ _ => False | _ => True end) by (destruct a; try discriminate; exact Logic.I).
    assert (ST' : match view s j, (match whole_part s (CExpiry j a) with Some x => kstep cfg (c_whole s) x | None => Some (c_whole s) end) with
      | Some t, Some k => let t' := tstep t a in Some (with_whole s k (put j (Expiry (t_phase t') (t_timers t') (t_ack t')) (c_expiry s)))
      | _, _ => None end = Some s') by (destruct a; try contradiction; exact ST).
    clear ST. destruct (view s j) as [t|] eqn:V; [|discriminate]. destruct (view_TI cfg okf st T _ _ _ J V) as (_ & e & NE & _ & _).
    destruct (whole_part s (CExpiry j a)) as [x|] eqn:WP; [|cbv zeta in ST'; injection ST' as <-; left; reflexivity].
    destruct (kstep cfg (c_whole s) x) as [k'|] eqn:E; [|discriminate]. cbv zeta in ST'. injection ST' as <-. right. exists x. split; [|exact E].
    destruct a; try (unfold caction_ok in OK; rewrite WP in OK; exact OK). cbn [whole_part] in WP. rewrite NE in WP. cbn in WP. destruct (x_phase e); discriminate.
  - cbn [cstep] in ST. destruct (view s j) as [t|] eqn:V; [|discriminate]. destruct (view_TI cfg okf st T _ _ _ J V) as (TT & e & NE & ET & _).
    destruct (nth_error (t_timers t) n) as [tm|] eqn:N; [|discriminate]. destruct (Z.leb_spec (tm_due tm) (c_clock s)) as [D|]; [|discriminate].
    cbn [whole_part] in ST. rewrite NE, <- ET, N in ST. destruct (kstep cfg (c_whole s) _) as [k'|] eqn:E; [|discriminate]. injection ST as <-.
    right. eexists. split; [|exact E]. cbn. eapply timer_key; eauto. eapply nth_error_In; eauto.
Qed.
Lemma cstep_log s a s' : creach cfg okf st s -> caction_ok okf st s a -> cstep cfg s a = Some s' ->
  exists l, c_log s' = c_log s ++ l /\ forall i q, In (Asked i q) l -> l = [Asked i q].
Proof.
  intros H OK ST. pose proof (creach_CI cfg okf st T _ H) as J. destruct (cstep_whole s a s' H OK ST) as [E|(x & KO & E)]; unfold c_log.
  { rewrite E. exists []. rewrite app_nil_r. split; [reflexivity|intros ? ? []]. }
  destruct (whole_step cfg okf st T _ _ _ (I_reach _ _ _ _ J) KO E) as [_ (l & L & Q)]. exists l. split; [exact L|]. intros i q I. destruct (Q i q I) as (j & ->).
  pose proof (kreach_step cfg okf st _ _ _ (I_reach _ _ _ _ J) KO E) as H'.
  rewrite (K_dids _ _ _ _ (kreach_KI cfg okf st T _ H')), (K_dids _ _ _ _ (kreach_KI cfg okf st T _ (I_reach _ _ _ _ J))) in L.
  destruct (kstep_node _ _ _ _ E) as [X|[(y & Y & X)|[(Y & X)|(j' & Y & X)]]]; try discriminate Y.
  - rewrite X in L. rewrite <- (app_nil_r (n_log _)) in L at 1. apply app_inv_head in L. subst l. destruct I.
  - injection Y as <-. destruct (k_node (c_whole s)) as [w sv ps log n]. cbn [nstep n_log] in *. destruct (nth_error sv j); [|discriminate]. injection X as X. rewrite <- X in L. cbn [n_log] in L.
    apply app_inv_head in L. subst l. destruct I as [I|[]]. now rewrite I.
Qed.
Lemma asked_rev s : creach cfg okf st s -> forall A i k rev B, c_log s = A ++ Asked i (WExpire k rev) :: B -> rev <= revision (commits A).
Proof.
  induction 1 as [|s a s' H IH OK ST]; intros A i k rev B E; [destruct A; discriminate|].
  destruct (cstep_log s a s' H OK ST) as (l & L & Q). pose proof (creach_step _ _ _ _ _ _ H OK ST) as H'. pose proof E as E0. rewrite L in E.
  destruct (split_at _ _ _ _ _ E) as [(B' & EO)|(e1 & e2 & EN & EA)]; [eapply IH; eauto|].
  assert (X : l = [Asked i (WExpire k rev)]) by (apply Q; rewrite EN; apply in_app_iff; right; now left). 
  assert (E1 : e1 = []). { rewrite X in EN. destruct e1 as [|? [|? ?]]; [reflexivity|discriminate|discriminate]. }
  subst e1. rewrite app_nil_r in EA. subst A.
  pose proof (creach_CI cfg okf st T _ H') as J'. destruct (I_asked _ _ _ _ J' i k rev) as (tm & ((c & EN' & _) & _) & _ & <- & _); [rewrite E0; apply in_app_iff; right; now left|].
  apply ent_bounds in EN'. unfold chist, c_world in EN'. rewrite <- (whole_hist cfg okf st T _ (I_reach _ _ _ _ J')) in EN'. change (dids (k_log (c_whole s'))) with (c_log s') in EN'.
  rewrite L, X, commits_app in EN'. cbn in EN'. rewrite app_nil_r in EN'. lia.
Qed.
(** an attempt that returned without an error: the version is not current, then or ever *)
Lemma cluster_expired s before during after i k rev u : creach cfg okf st s ->
  answered_request (c_log s) before during after i (WExpire k rev) (ReDone (Ok u)) ->
  gone (commits (before ++ during)) k rev /\ gone (commits (c_log s)) k rev.
Proof.
  intros H AN. pose proof (creach_CI cfg okf st T _ H) as J. destruct (whole_ledger cfg okf st (c_whole s) T (I_reach _ _ _ _ J)) as (l & HL & EL).
  pose proof (asked_rev s H before i k rev _ AN) as RV. pose proof AN as AN'. unfold c_log in AN'. rewrite <- EL in AN'.
  destruct (lexpired cfg okf l before during after i k rev u HL AN' RV) as [G B]. split; [exact G|]. unfold answered_request in AN.
  rewrite AN. assert (X : commits (before ++ Asked i (WExpire k rev) :: during ++ Answered i (ReDone (Ok u)) :: after) = commits (before ++ during) ++ commits after).
  { rewrite !commits_app. cbn. fold (commits (during ++ Answered i (ReDone (Ok u)) :: after)). rewrite commits_app. cbn. now rewrite app_assoc. }
  rewrite X. apply gone_later; auto.
Qed.
End Expire.
