(** C114, C115: whole servers with batched writes.
    [nreach cfg okf s]: [s] is a reachable state of any number of servers sharing one
    database, each with its own batching layer, any interleaving, faults satisfying [okf],
    cancelled requests, closing and crashing servers; [n_log s]: what was asked,
    committed and answered, in order.  [lreach]: the same, every statement executed on
    its own (Ledger.v). *)
From Coq Require Import List ZArith Bool Lia.
From Verif Require Import Bytes Spec Sql System Prog Backend Limited Api Pool Ledger LedgerLemmas LedgerProofs LedgerMore LedgerReads Demo Batch BatchKine Node NodeProofs.
Import ListNotations.
Open Scope Z_scope.

(** C114.  Batching is invisible: whatever was asked, committed and answered, in whatever
    order, could have been with every write executed on its own. *)
Theorem C114_refines : forall cfg okf s, tolerant okf -> nreach cfg okf s ->
  exists l, lreach cfg okf l /\ l_log l = n_log s /\ l_world l = n_world s.
Proof. intros cfg okf s T H. destruct (node_refines cfg okf s T H) as [ps L]. eexists. split; [exact L|]. split; reflexivity. Qed.
Print Assumptions C114_refines.
(** Hence the guarantees of C62, C65, C66 with batching: *)
Theorem C114_success : forall cfg okf s before during after i c resp, tolerant okf -> nreach cfg okf s ->
  answered_request (n_log s) before during after i (WTxn (request c)) (ReTxn (Ok resp)) -> tr_succeeded resp = true ->
  exists D1 D2, during = D1 ++ Committed i (effect c) :: D2 /\
    condition c (commits (before ++ D1)) /\
    resp = success c (revision (commits (before ++ D1)) + 1).
Proof. intros cfg okf s before during after i c resp T H. destruct (node_refines cfg okf s T H) as [ps L]. exact (conditional_success cfg okf _ before during after i c resp L). Qed.
Print Assumptions C114_success.
Theorem C114_failure : forall cfg okf s before during after i c resp, tolerant okf -> nreach cfg okf s ->
  answered_request (n_log s) before during after i (WTxn (request c)) (ReTxn (Ok resp)) -> tr_succeeded resp = false ->
  exists D1 D2, during = D1 ++ D2 /\ ~ condition c (commits (before ++ D1)).
Proof. intros cfg okf s before during after i c resp T H. destruct (node_refines cfg okf s T H) as [ps L]. exact (conditional_failure cfg okf _ before during after i c resp L). Qed.
Print Assumptions C114_failure.
Theorem C114_own_writes : forall cfg okf s b1 d1 a1 i c rev b2 d2 a2 j r2 x2, tolerant okf -> nreach cfg okf s ->
  answered_request (n_log s) b1 d1 a1 i (WTxn (request c)) (ReTxn (Ok (success c rev))) ->
  answered_request (n_log s) b2 d2 a2 j (WRange r2) (ReRange (Ok x2)) ->
  precedes (n_log s) i (ReTxn (Ok (success c rev))) j (WRange r2) ->
  rev <= rr_header x2 /\ nth_error (commits b2) (Z.to_nat (rev - 1)) = Some (effect c).
Proof. intros cfg okf s b1 d1 a1 i c rev b2 d2 a2 j r2 x2 T H. destruct (node_refines cfg okf s T H) as [ps L]. exact (read_own_writes cfg okf _ b1 d1 a1 i c rev b2 d2 a2 j r2 x2 L). Qed.
Print Assumptions C114_own_writes.
Theorem C114_every_commit : forall cfg okf s A i e B, tolerant okf -> nreach cfg okf s -> n_log s = A ++ Committed i e :: B ->
  exists q, In (Asked i q) A /\ (forall o, ~ In (Answered i o) A) /\ warranted q e (commits A).
Proof. intros cfg okf s A i e B T H. destruct (node_refines cfg okf s T H) as [ps L]. exact (every_commit cfg okf _ A i e B L). Qed.
Print Assumptions C114_every_commit.
Theorem C114_store : forall cfg okf s, tolerant okf -> nreach cfg okf s ->
  commits (n_log s) = history_of (snd (n_world s)) /\ wreach (n_world s).
Proof. intros cfg okf s T H. destruct (node_refines cfg okf s T H) as [ps L]. exact (ledger_history cfg okf _ L). Qed.
Print Assumptions C114_store.

(** C115.  Nobody waits for more than two batches: whatever faults these suffer, every write
    of the server that was waiting can return. *)
Theorem C115_returns : forall cfg okf s i pid j a job k f1 f2, tolerant okf -> nreach cfg okf s ->
  nth_error (n_procs s) i = Some (NProc pid j (NWait a job k)) ->
  exists s' r, nrun cfg (map (NBatch j) (two_batches f1 f2)) s = Some s' /\ n_procs s' = n_procs s /\
    nstep cfg s' (NReturn i) = Some (NState (n_world s') (n_servers s') (put i (NProc pid j (NRun (k r))) (n_procs s')) (n_log s') (n_next s')).
Proof. exact no_waiting. Qed.
Print Assumptions C115_returns.

(** Two servers.  Requests 0 and 1 on the first create [ka] and [kb] in one batch while
    request 2 on the second creates [ka], too; 3 and 4, in the next batch of the
    first, update [ka] and delete [kb], and the report of their COMMIT is lost; 5 is
    batched alone on the second server, which crashes before answering. *)
Definition creq (c : conditional) : work := WTxn (request c).
Definition two_servers : list naction :=
  [NBoot; NBoot; NAsk 0 (creq (CreateKey ka v1 0)); NAsk 0 (creq (CreateKey kb v1 0)); NAsk 1 (creq (CreateKey ka v2 0));
   NSubmit 2; NSubmit 1; NBatch 0 (BTake _); NBatch 0 (BExecute _ BFNone); NSubmit 0; NBatch 1 (BTake _); NBatch 1 (BExecute _ BFNone); NBatch 1 (BFinish _); NReturn 0;
   NAsk 0 (creq (UpdateKey ka v3 1 0)); NAsk 0 (creq (DeleteKey kb 2)); NSubmit 1; NSubmit 0; NBatch 0 (BFinish _); NReturn 4; NAnswer 4;
   NBatch 0 (BExecute _ (BFCommit EOther true)); NBatch 0 (BFinish _); NReturn 0; NReturn 1; NAnswer 0; NAnswer 0;
   NAsk 1 (creq (CreateKey kc v1 0)); NSubmit 0; NBatch 1 (BTake _); NBatch 1 (BExecute _ BFNone); NCrash 1; NReturn 0; NAnswer 0].
Definition nfinal : nstate := match nrun cfg0 two_servers ninit with Some s => s | None => ninit end.
Lemma nrun_reach cfg okf xs : forall s s', nreach cfg okf s -> Forall (naction_ok okf) xs -> nrun cfg xs s = Some s' -> nreach cfg okf s'.
Proof.
  induction xs as [|x xs IH]; cbn [nrun]; intros s s' H F E; [injection E as <-; exact H|]. inversion F; subst.
  destruct (nstep cfg s x) as [s1|] eqn:ST; [|discriminate]. eapply IH; [|eassumption|exact E]. econstructor; eauto.
Qed.
Example C114_nonvacuous : tolerant clean /\ nreach cfg0 clean nfinal /\
  commits (n_log nfinal) = [Entry ka (Put v1 0); Entry kb (Put v1 0); Entry ka (Put v3 0); Entry kb Del; Entry kc (Put v1 0)] /\
  flat_map (fun x => match x with Answered i (ReTxn (Ok r)) => [(i, Some (tr_succeeded r, tr_header r))] | Answered i _ => [(i, None)] | _ => [] end) (n_log nfinal)
    = [(0%nat, Some (true, 1)); (4%nat, None); (3%nat, None); (1%nat, Some (true, 2))].
Proof.
  split; [unfold tolerant, clean; cbn; auto|]. split.
  { apply (nrun_reach cfg0 clean two_servers ninit nfinal (nreach_init _ _)); [|vm_compute; reflexivity].
    unfold two_servers. repeat constructor; cbn; try discriminate; try exact Logic.I; auto. }
  split; vm_compute; reflexivity.
Qed.
Example C115_nonvacuous : exists s pid a job k, nrun cfg0 (firstn 18 two_servers) ninit = Some s /\
  nth_error (n_procs s) 4 = Some (NProc pid 0 (NWait a job k)) /\ nstep cfg0 s (NReturn 4) = None /\ nreach cfg0 clean s.
Proof.
  eexists _, _, _, _, _. split; [vm_compute; reflexivity|]. split; [vm_compute; reflexivity|]. split; [vm_compute; reflexivity|].
  apply (nrun_reach cfg0 clean (firstn 18 two_servers) ninit _ (nreach_init _ _)); [|vm_compute; reflexivity].
  unfold two_servers. cbn [firstn]. repeat constructor; cbn; try discriminate; try exact Logic.I; auto.
Qed.
