(** What an attempt to delete an expired key (ttl.go:22-34) has done when it returns. *)
From Coq Require Import List ZArith Bool Lia.
From Verif Require Import Bytes Spec Sql System Prog Backend Limited Api Pool Ledger Observe SpecLemmas SqlLemmas Sim ProgLemmas ReadProgs Safety ApiLemmas StoreProofs ReadProofs TraceLemmas TxnProofs LedgerLemmas LedgerProofs Batch BatchKine Node NodeProofs TtlLive.
Import ListNotations.
Open Scope Z_scope.

Definition gone (h : history) (k : bytes) (rev : Z) : Prop := forall x, now h k = Some x -> kv_mod x <> rev.
Lemma gone_later h l k rev : rev <= revision h -> gone h k rev -> gone (h ++ l) k rev.
Proof. intros L G x E M. apply (G x); auto. apply now_stable with (l := l); auto. lia. Qed.
Lemma gone_wsteps w w' k rev : wsteps w w' -> rev <= revision (history_of (snd w)) -> gone (history_of (snd w)) k rev -> gone (history_of (snd w')) k rev.
Proof. intros S L G. destruct (wsteps_extends _ _ S) as [[l ->] _]. now apply gone_later. Qed.
Lemma wsteps_rev w w' : wsteps w w' -> revision (history_of (snd w)) <= revision (history_of (snd w')).
Proof. intros S. destruct (wsteps_extends _ _ S) as [[l ->] _]. rewrite revision_app. pose proof (revision_nonneg l). lia. Qed.
Lemma wapply_gone w k rev : gone (history_of (snd (wapply w (ADelete k rev)))) k rev.
Proof.
  unfold gone. cbn [wapply snd]. unfold spec_apply, spec_delete. destruct (now (history_of (snd w)) k) as [x|] eqn:N; [destruct (Z.eqb_spec (kv_mod x) rev) as [E|E]|]; cbn; intros y Y.
  - change (now (history_of (snd w) ++ [Entry k Del]) k = Some y) in Y. rewrite now_snoc in Y. unfold change_key in Y. cbn in Y. rewrite beqb_refl in Y. discriminate.
  - rewrite N in Y. injection Y as <-. exact E.
  - rewrite N in Y. discriminate.
Qed.
Lemma wp_expire cfg k rev w : k <> compact_rev_key ->
  wp Prog.any_fault (served cfg (WExpire k rev)) (fun w' o => match o with ReDone (Ok _) => gone (history_of (snd w')) k rev | _ => True end) w.
Proof.
  intros HK. cbn [served]. unfold b_delete, d_delete, d_execute. apply wp_bind, wp_rbind. eapply wp_mono; [|apply (wp_write (ADelete k rev))].
  - intros w1 [x|e] H; cbn; auto. destruct H as (w2 & S & -> & _). apply wapply_gone.
  - intros s. split; simpl; auto.
Qed.
Definition expire_promise : promise := fun i q A w0 L w o => forall k rev, q = WExpire k rev -> rev <= revision (history_of (snd w0)) ->
  rev <= revision (history_of (snd w)) /\ match o with ReDone (Ok _) => gone (history_of (snd w)) k rev | _ => True end.
Lemma expire_stable : stable expire_promise.
Proof.
  intros i q A w0 L w o w' D S _ _ _ H k rev E LE. destruct (H k rev E LE) as [B G]. pose proof (wsteps_rev _ _ S). split; [lia|].
  destruct o as [| |[u|e]]; auto. eapply gone_wsteps; eauto.
Qed.
Lemma expire_keeps cfg okf : keeps cfg okf expire_promise.
Proof.
  intros i q A w HQ HW E. unfold expire_promise. destruct q as [t|r| | |k rev]; try (eapply lwp_mono; [|apply lwp_true]; intros; discriminate).
  apply (lwp_faults Prog.any_fault okf); [intros; exact I|].
  eapply lwp_mono; [|apply wp_lwp, wp_strengthen, (wp_expire cfg k rev w HQ)]. intros L w' o [S H] k' rev' [= <- <-] LE.
  pose proof (wsteps_rev _ _ S). split; [lia|exact H].
Qed.
Lemma lexpired cfg okf s before during after i k rev u : lreach cfg okf s ->
  answered_request (l_log s) before during after i (WExpire k rev) (ReDone (Ok u)) -> rev <= revision (commits before) ->
  gone (commits (before ++ during)) k rev /\ rev <= revision (commits (before ++ during)).
Proof.
  intros R AN LE. destruct (promise_kept cfg okf expire_promise s before during after i _ _ expire_stable (expire_keeps cfg okf) R AN) as (w0 & w & _ & _ & _ & _ & E0 & E1 & _ & P).
  rewrite E0 in LE. destruct (P k rev eq_refl LE) as [B G]. rewrite E1. auto.
Qed.
