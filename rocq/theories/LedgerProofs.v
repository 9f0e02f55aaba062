(** Linearizability of requests. *)
From Coq Require Import List ZArith Bool Lia.
From Verif Require Import Bytes Spec Sql System Prog Backend Limited Api Pool Ledger Observe SpecLemmas SqlLemmas Sim ProgLemmas ReadProgs Safety ApiLemmas StoreProofs ReadProofs TraceLemmas TxnProofs LedgerLemmas.
Import ListNotations.
Open Scope Z_scope.

Local Notation ck := compact_rev_key.

(** ---- conditional writes ---- *)
Definition statement (c : conditional) : aop :=
  match c with
  | CreateKey k v l => ACreate k v l
  | UpdateKey k v e l => if e =? 0 then ACreate k v l else AUpdate k v e l
  | DeleteKey k e => ADelete k e
  end.
Lemma statement_write c : is_write (statement c).
Proof. destruct c as [| k v e l |]; simpl; auto. destruct (e =? 0); simpl; auto. Qed.
Lemma statement_entry c : entry_of (statement c) = [effect c].
Proof. destruct c as [| k v e l |]; simpl; auto. destruct (e =? 0); simpl; auto. Qed.
Lemma statement_allowed c s : the_key c <> ck -> allowed s (statement c) /\ margin s (statement c).
Proof. destruct c as [k v l|k v e l|k e]; simpl; intros H; [split; auto; congruence| |split; auto; congruence]. destruct (e =? 0); simpl; split; auto; congruence. Qed.
Lemma statement_spec c s :
  (condition c (history_of s) /\ snd (spec_apply s (statement c)) = (1, revision (history_of s) + 1)) \/
  (~ condition c (history_of s) /\ snd (spec_apply s (statement c)) = (0, 0)).
Proof.
  destruct c as [k v l|k v e l|k e]; simpl.
  - unfold spec_create. destruct (now (history_of s) k); [right; split; [discriminate|reflexivity]|left; split; reflexivity].
  - destruct (Z.eqb_spec e 0) as [->|NE]; simpl.
    + unfold spec_create. destruct (now (history_of s) k) as [x|] eqn:N; [right|left; split; reflexivity].
      split; [|reflexivity]. apply now_facts in N. lia.
    + unfold spec_update. destruct (now (history_of s) k) as [x|] eqn:N; [|right; split; [exact NE|reflexivity]].
      destruct (Z.eqb_spec (kv_mod x) e); [left|right]; split; auto.
  - unfold spec_delete. destruct (now (history_of s) k) as [x|] eqn:N; [|right; split; [tauto|reflexivity]].
    destruct (Z.eqb_spec (kv_mod x) e); [left|right]; split; auto.
Qed.

(** one attempt *)
Lemma attempt c f w : wreach w -> the_key c <> ck ->
  match snd (sem f (CExec (statement c)) w) with
  | Ok x => (condition c (history_of (snd w)) /\ x = (1, revision (history_of (snd w)) + 1) /\ commit_of f (CExec (statement c)) w = [effect c]) \/
            (~ condition c (history_of (snd w)) /\ x = (0, 0) /\ commit_of f (CExec (statement c)) w = [])
  | Err _ => honest f -> commit_of f (CExec (statement c)) w = []
  end.
Proof.
  intros HW HK. pose proof (proj2 (R_step _ _ (statement c) (reach_R _ _ HW) (proj1 (statement_allowed c (snd w) HK)))) as E.
  pose proof (statement_spec c (snd w)) as SP. rewrite <- E in SP. pose proof (statement_entry c) as EN.
  unfold commit_of. cbn [op_of].
  assert (G : (condition c (history_of (snd w)) /\ snd (apply (fst w) (statement c)) = (1, revision (history_of (snd w)) + 1) /\
     (if fst (snd (apply (fst w) (statement c))) =? 0 then [] else entry_of (statement c)) = [effect c]) \/
     (~ condition c (history_of (snd w)) /\ snd (apply (fst w) (statement c)) = (0, 0) /\
     (if fst (snd (apply (fst w) (statement c))) =? 0 then [] else entry_of (statement c)) = [])).
  { destruct SP as [[A B]|[A B]]; rewrite B; cbn [fst Z.eqb]; [left|right]; auto. }
  destruct f as [|e|e|n e|]; cbn [sem snd answer]; auto. intros [].
Qed.

(** the program of a conditional write *)
Lemma served_conditional cfg c : exists g, served cfg (WTxn (request c)) =
  pbind (rbind (rbind (d_execute (statement c)) (fun x => Ret (Ok (exec_outcome x)))) g) (fun r => Ret (ReTxn r)) /\
  (forall r, g (r, true) = Ret (Ok (success c r))) /\
  (forall r, issues (fun _ _ => True) (fun x => op_of x = None) (g (r, false))) /\
  (forall r w, wp any_fault (g (r, false)) (fun _ x => match x with Ok resp => tr_succeeded resp = false | Err _ => True end) w).
Proof.
  assert (FI : forall k r, issues (fun _ _ => True) (fun x => op_of x = None) (l_failure cfg k r)).
  { intros k r. apply issues_failure; [reflexivity|intros; reflexivity]. }
  assert (FW : forall k r w, wp any_fault (l_failure cfg k r) (fun _ x => match x with Ok resp => tr_succeeded resp = false | Err _ => True end) w).
  { intros k r w. unfold l_failure. apply wp_rbind. eapply wp_mono; [|apply wp_b_list_any]. intros w2 [[a b]|e] _; cbn; auto. }
  destruct c as [k v l|k v e l|k e]; cbn [request served statement].
  - exists (fun '(rev, ok) => Ret (Ok (if (ok : bool) then TxnResp rev true [RespPut rev] else TxnResp rev false []))).
    rewrite txn_create. split; [reflexivity|]. split; [reflexivity|]. split; [intros; exact I|]. intros; reflexivity.
  - exists (fun '(rev, ok) => if (ok : bool) then Ret (Ok (TxnResp rev true [RespPut rev])) else l_failure cfg k rev).
    rewrite txn_update. unfold l_update. split; [destruct (e =? 0); reflexivity|]. split; [reflexivity|]. split; auto.
  - exists (fun '(rev, ok) => if (ok : bool) then Ret (Ok (TxnResp rev true [RespDelete rev])) else l_failure cfg k rev).
    rewrite txn_delete. split; [reflexivity|]. split; [reflexivity|]. split; auto.
Qed.

(** what a conditional write promises: [J] is what is known of the log before the
    statement that decides *)
Lemma lwp_conditional (okf : fault -> Prop) i cfg c (J : ledger -> Prop) (P : ledger -> reply -> Prop) :
  the_key c <> ck ->
  (forall L D, J L -> foreign i D -> J (L ++ D)) ->
  (forall L f, J L -> okf f -> ~ honest f -> J (L ++ [Committed i (effect c)])) ->
  (forall L, J L -> condition c (commits L) -> P (L ++ [Committed i (effect c)]) (ReTxn (Ok (success c (revision (commits L) + 1))))) ->
  (forall L D resp, J L -> ~ condition c (commits L) -> foreign i D -> tr_succeeded resp = false -> P (L ++ D) (ReTxn (Ok resp))) ->
  (forall L D e, J L -> foreign i D -> P (L ++ D) (ReTxn (Err e))) ->
  forall L w, wreach w -> J L -> lwp okf i (served cfg (WTxn (request c))) (fun L' _ o => P L' o) L w.
Proof.
  intros HK J1 J2 P1 P2 P3 L w HW JL. destruct (served_conditional cfg c) as (g & -> & G1 & G2 & G3).
  apply lwp_bind. apply lwp_rbind, lwp_rbind. unfold d_execute. destruct max_retries_S as (n & ->).
  set (N := fun L' : ledger => exists L0 D, L' = L0 ++ D /\ J L0 /\ ~ condition c (commits L0) /\ foreign i D).
  apply lwp_mono with (Q := fun L' w' r => match r with
     | Ok x => (exists L0, L' = L0 ++ [Committed i (effect c)] /\ J L0 /\ condition c (commits L0) /\ x = (1, revision (commits L0) + 1)) \/
               (x = (0, 0) /\ N L')
     | Err e => J L' end).
  - intros L' w' [x|e] H; [|cbn [lwp]; rewrite <- (app_nil_r L'); apply P3; auto; apply foreign_nil]. cbn [lwp].
    destruct H as [(L0 & -> & JL0 & C0 & ->)|[-> HN]]; unfold exec_outcome; cbn [fst snd Z.eqb].
    + rewrite G1. cbn [lwp]. apply P1; auto.
    + pose proof (lwp_quiet okf i (g (0, false)) N) as Q1.
      assert (Q2 : lwp okf i (g (0, false)) (fun L'' _ _ => N L'') L' w').
      { apply Q1; auto. intros L1 D (L0 & D0 & -> & A1 & A2 & A3) F. exists L0, (D0 ++ D). rewrite app_assoc. repeat split; auto. now apply foreign_app. }
      pose proof (lwp_faults any_fault okf i _ _ (fun f _ => I) _ _ (wp_lwp any_fault i (g (0, false)) _ L' w' (G3 0 w'))) as Q3.
      eapply lwp_mono; [|exact (lwp_conj _ _ _ _ _ _ _ Q2 Q3)]. clear Q1 Q2 Q3.
      intros L1 w1 [resp|e] [(L0 & D0 & -> & A1 & A2 & A3) T]; cbn [lwp]; [|apply P3; auto]. apply P2; auto.
  - apply (lwp_retry okf i (CExec (statement c)) J); auto. intros L1 w1 f JL1 HW1 EQ O.
    pose proof (attempt c f w1 HW1 HK) as AT. rewrite <- EQ in AT.
    destruct (snd (sem f (CExec (statement c)) w1)) as [x|e].
    + destruct AT as [(A & B & D)|(A & B & D)]; rewrite D; cbn [map].
      * left. exists L1. auto.
      * right. split; auto. exists L1, []. rewrite app_nil_r. repeat split; auto. apply foreign_nil.
    + assert (JJ : J (L1 ++ map (Committed i) (commit_of f (CExec (statement c)) w1))); [|split; auto]. destruct f as [|e'|e'|m e'|]; cbn [honest] in AT; try (rewrite AT by exact I; cbn [map]; rewrite app_nil_r; auto).
      unfold commit_of. cbn [op_of]. rewrite statement_entry. destruct (_ =? 0); cbn [map]; [now rewrite app_nil_r|].
      apply (J2 L1 (FailAfter e')); auto.
Qed.

Lemma request_key c : txn_key (request c) = Some (the_key c).
Proof. destruct c; reflexivity. Qed.


(** the hypothesis of an implication may be used from the start *)
Lemma lwp_all {A X} (H : X -> Prop) okf i (p : prog A) (Q : X -> ledger -> world -> A -> Prop) : forall L w,
  (forall x, H x -> lwp okf i p (Q x) L w) -> lwp okf i p (fun L' w' a => forall x, H x -> Q x L' w' a) L w.
Proof. induction p as [a|c k IH]; cbn [lwp]; auto. Qed.

Lemma commits_asked A i q D : commits (A ++ Asked i q :: D) = commits (A ++ D).
Proof. rewrite !commits_app. reflexivity. Qed.
Lemma request_inj c c' : request c = request c' -> c = c'.
Proof. destruct c, c'; cbn; intros H; injection H; intros; subst; auto; try discriminate. Qed.
Lemma work_key c : work_ok (WTxn (request c)) -> the_key c <> ck.
Proof. cbn. rewrite request_key. congruence. Qed.

(** a success: the change was committed on behalf of the request while its condition held *)
Definition success_promise : promise := fun i q A w0 L w o => forall c, q = WTxn (request c) ->
  match o with
  | ReTxn (Ok resp) => tr_succeeded resp = true ->
      exists D1 D2, L = A ++ Asked i q :: D1 ++ Committed i (effect c) :: D2 /\
        condition c (commits (A ++ D1)) /\ resp = success c (revision (commits (A ++ D1)) + 1)
  | _ => True
  end.
Lemma success_stable : stable success_promise.
Proof.
  intros i q A w0 L w o w' D _ _ _ _ H c E1. specialize (H c E1). destruct o as [[resp|e]| |]; auto.
  intros E3. destruct (H E3) as (D1 & D2 & -> & B & C).
  exists D1, (D2 ++ D). split; auto. rewrite <- !app_assoc. cbn [app]. rewrite <- !app_assoc. reflexivity.
Qed.
Lemma success_keeps cfg okf : keeps cfg okf success_promise.
Proof.
  intros i q A w HQ HW E. unfold success_promise. apply lwp_all. intros c ->.
  apply (lwp_conditional okf i cfg c (fun L => exists D1, L = A ++ Asked i (WTxn (request c)) :: D1)); auto using work_key.
  - intros L D [D1 ->] _. exists (D1 ++ D). now rewrite <- app_assoc.
  - intros L f [D1 ->] _ _. eexists. rewrite <- app_assoc. reflexivity.
  - intros L [D1 ->] C _. rewrite commits_asked in *. exists D1, []. split; [now rewrite <- app_assoc|]. auto.
  - intros L D resp _ _ _ F. congruence.
  - exists []. reflexivity.
Qed.

(** statements that report an error had no effect *)
Lemma committed_by_app i a b : committed_by i (a ++ b) = committed_by i a ++ committed_by i b.
Proof. unfold committed_by. apply flat_map_app. Qed.
Lemma committed_foreign i D : foreign i D -> committed_by i D = [].
Proof.
  induction D as [|x D IH]; auto. intros F. assert (F' : foreign i D) by (intros y Y; apply F; simpl; auto).
  cbn [committed_by flat_map]. unfold committed_by in IH. rewrite (IH F'), app_nil_r. destruct x as [| j e |]; auto.
  destruct (Nat.eqb_spec j i) as [->|]; auto. exfalso. apply (F (Committed i e)); simpl; auto. now exists e.
Qed.
Lemma committed_nil i D : committed_by i D = [] -> foreign i D.
Proof.
  intros H x Y [e ->]. apply in_split in Y. destruct Y as (a & b & ->). rewrite committed_by_app in H. apply app_eq_nil in H.
  destruct H as [_ H]. cbn [committed_by flat_map] in H. rewrite Nat.eqb_refl in H. discriminate.
Qed.

Definition honest_promise : promise := fun i q A w0 L w o => forall c, q = WTxn (request c) -> 
  exists D, L = A ++ Asked i q :: D /\
  match o with
  | ReTxn (Ok resp) =>
      if tr_succeeded resp then committed_by i D = [effect c]
      else committed_by i D = [] /\ exists D1 D2, D = D1 ++ D2 /\ ~ condition c (commits (A ++ D1))
  | _ => committed_by i D = []
  end.
Lemma honest_stable : stable honest_promise.
Proof.
  intros i q A w0 L w o w' D _ F _ _ H c E1. destruct (H c E1) as (D1 & -> & B).
  exists (D1 ++ D). split; [now rewrite <- app_assoc|]. rewrite committed_by_app, (committed_foreign _ _ F), app_nil_r.
  destruct o as [[resp|e]| |]; auto. destruct (tr_succeeded resp); auto. destruct B as (B & X & Y & -> & C).
  split; auto. exists X, (Y ++ D). rewrite <- app_assoc. auto.
Qed.
Lemma honest_keeps cfg : keeps cfg honest honest_promise.
Proof.
  intros i q A w HQ HW E. unfold honest_promise. apply lwp_all. intros c ->.
  set (q := WTxn (request c)).
  apply lwp_mono with (Q := fun L' _ o => exists D, L' = A ++ Asked i q :: D /\
    match o with
    | ReTxn (Ok resp) =>
        if tr_succeeded resp then committed_by i D = [effect c]
        else committed_by i D = [] /\ exists D1 D2, D = D1 ++ D2 /\ ~ condition c (commits (A ++ D1))
    | _ => committed_by i D = []
    end); [auto|].
  apply (lwp_conditional honest i cfg c (fun L => exists D1, L = A ++ Asked i q :: D1 /\ committed_by i D1 = [])
     (fun L' o => exists D, L' = A ++ Asked i q :: D /\
    match o with
    | ReTxn (Ok resp) =>
        if tr_succeeded resp then committed_by i D = [effect c]
        else committed_by i D = [] /\ exists D1 D2, D = D1 ++ D2 /\ ~ condition c (commits (A ++ D1))
    | _ => committed_by i D = []
    end)); auto using work_key.
  - intros L D (D1 & -> & B) F. exists (D1 ++ D). split; [now rewrite <- app_assoc|].
    now rewrite committed_by_app, B, (committed_foreign _ _ F).
  - intros L f _ O N. contradiction.
  - intros L (D1 & -> & B) C. exists (D1 ++ [Committed i (effect c)]). split; [now rewrite <- app_assoc|].
    cbn [success tr_succeeded]. rewrite committed_by_app, B. cbn [committed_by flat_map app]. now rewrite Nat.eqb_refl.
  - intros L D resp (D1 & -> & B) C F T. exists (D1 ++ D). split; [now rewrite <- app_assoc|]. rewrite T.
    rewrite committed_by_app, B, (committed_foreign _ _ F). split; auto. exists D1, D. rewrite commits_asked in C. auto.
  - intros L D e (D1 & -> & B) F. exists (D1 ++ D). split; [now rewrite <- app_assoc|].
    now rewrite committed_by_app, B, (committed_foreign _ _ F).
  - exists []. auto.
Qed.

(** ---- results ---- *)
Lemma conditional_success cfg okf s before during after i c resp : lreach cfg okf s ->
  answered_request (l_log s) before during after i (WTxn (request c)) (ReTxn (Ok resp)) -> tr_succeeded resp = true ->
  exists D1 D2, during = D1 ++ Committed i (effect c) :: D2 /\ condition c (commits (before ++ D1)) /\
    resp = success c (revision (commits (before ++ D1)) + 1).
Proof.
  intros H E T. destruct (promise_kept cfg okf success_promise s before during after i _ _ success_stable (success_keeps cfg okf) H E)
    as (w0 & w & _ & _ & _ & _ & _ & _ & _ & P).
  destruct (P c eq_refl T) as (D1 & D2 & EQ & C & R). exists D1, D2. split; auto.
  apply app_inv_head in EQ. injection EQ. auto.
Qed.
Lemma conditional_honest cfg s before during after i c resp : lreach cfg honest s ->
  answered_request (l_log s) before during after i (WTxn (request c)) (ReTxn resp) ->
  match resp with
  | Ok r => if tr_succeeded r then committed_by i during = [effect c]
            else committed_by i during = [] /\ exists D1 D2, during = D1 ++ D2 /\ ~ condition c (commits (before ++ D1))
  | Err _ => committed_by i during = []
  end.
Proof.
  intros H E. destruct (promise_kept cfg honest honest_promise s before during after i _ _ honest_stable (honest_keeps cfg) H E)
    as (w0 & w & _ & _ & _ & _ & _ & _ & _ & P).
  destruct (P c eq_refl) as (D & EQ & R). apply app_inv_head in EQ. injection EQ. intros <-. exact R.
Qed.

(** a failure: the condition did not hold at some moment, whatever the faults *)
Definition failure_promise : promise := fun i q A w0 L w o => forall c, q = WTxn (request c) ->
  match o with
  | ReTxn (Ok resp) => tr_succeeded resp = false ->
      exists D1 D2, L = A ++ Asked i q :: D1 ++ D2 /\ ~ condition c (commits (A ++ D1))
  | _ => True
  end.
Lemma failure_stable : stable failure_promise.
Proof.
  intros i q A w0 L w o w' D _ _ _ _ H c E1. specialize (H c E1). destruct o as [[resp|e]| |]; auto.
  intros E3. destruct (H E3) as (D1 & D2 & -> & B).
  exists D1, (D2 ++ D). split; auto. rewrite <- !app_assoc. cbn [app]. rewrite <- !app_assoc. reflexivity.
Qed.
Lemma failure_keeps cfg okf : keeps cfg okf failure_promise.
Proof.
  intros i q A w HQ HW E. unfold failure_promise. apply lwp_all. intros c ->.
  apply (lwp_conditional okf i cfg c (fun L => exists D1, L = A ++ Asked i (WTxn (request c)) :: D1)
    (fun L' o => match o with
       | ReTxn (Ok resp) => tr_succeeded resp = false ->
          exists D1 D2, L' = A ++ Asked i (WTxn (request c)) :: D1 ++ D2 /\ ~ condition c (commits (A ++ D1))
       | _ => True end)); auto using work_key.
  - intros L D [D1 ->] _. exists (D1 ++ D). now rewrite <- app_assoc.
  - intros L f [D1 ->] _ _. eexists. rewrite <- app_assoc. reflexivity.
  - intros L _ _ F. discriminate.
  - intros L D resp [D1 ->] C _ _ _. rewrite commits_asked in C. exists D1, D. split; [now rewrite <- app_assoc|exact C].
  - exists []. reflexivity.
Qed.
Lemma conditional_failure cfg okf s before during after i c resp : lreach cfg okf s ->
  answered_request (l_log s) before during after i (WTxn (request c)) (ReTxn (Ok resp)) -> tr_succeeded resp = false ->
  exists D1 D2, during = D1 ++ D2 /\ ~ condition c (commits (before ++ D1)).
Proof.
  intros H E T. destruct (promise_kept cfg okf failure_promise s before during after i _ _ failure_stable (failure_keeps cfg okf) H E)
    as (w0 & w & _ & _ & _ & _ & _ & _ & _ & P).
  destruct (P c eq_refl T) as (D1 & D2 & EQ & C). exists D1, D2. split; auto.
  apply app_inv_head in EQ. injection EQ. auto.
Qed.
