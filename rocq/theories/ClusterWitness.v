(** A concrete execution of a cluster with expiry. *)
From Coq Require Import List ZArith Bool Lia.
From Verif Require Import Bytes Spec Sql System Prog Backend Limited Api Pool Ledger Batch BatchKine Node Watch Stream Resume Whole Ttl.
From Verif Require Import Demo WholeProofs Cluster P_Whole.
From Verif Require Import Watch Stream Whole.
Import ListNotations.
Open Scope Z_scope.

Definition cokb (s : cstate) (a : caction) : bool :=
  match a with
  | CFire _ _ => true
  | CExpiry _ (TList f) => no_cutb f
  | CExpiry _ TWatch => true
  | _ => match whole_part s a with Some x => okb (c_whole s) x | None => true end
  end.
Lemma cokb_ok s a : cokb s a = true -> caction_ok clean true s a.
Proof.
  unfold cokb, caction_ok. destruct a as [x|d|j a|j n].
  - intros H. now apply okb_ok.
  - intros _. exact Logic.I.
  - assert (X : forall a, match whole_part s (CExpiry j a) with Some x => okb (c_whole s) x | None => true end = true ->
       match whole_part s (CExpiry j a) with Some x => kaction_ok clean true (c_whole s) x | None => True end).
    { intros a0. destruct (whole_part s _); auto using okb_ok. }
    destruct a; try (apply X).
    + intros H _. destruct f; try discriminate; exact Logic.I.
    + intros _. cbn [whole_part]. destruct (nth_error (c_expiry s) j) as [e|]; auto. destruct (x_phase e); cbn; auto. split; [discriminate|]. intros _ v _. exact Logic.I.
  - intros _. exact Logic.I.
Qed.
Fixpoint ccrun (cfg : driver_cfg) (xs : list caction) (s : cstate) : option cstate :=
  match xs with [] => Some s | x :: xs => if cokb s x then match cstep cfg s x with Some s' => ccrun cfg xs s' | None => None end else None end.
Lemma ccrun_reach cfg xs : forall s s', creach cfg clean true s -> ccrun cfg xs s = Some s' -> creach cfg clean true s'.
Proof.
  induction xs as [|x xs IH]; cbn [ccrun]; intros s s' H E; [injection E as <-; exact H|]. destruct (cokb s x) eqn:O; [|discriminate].
  destruct (cstep cfg s x) as [s1|] eqn:ST; [|discriminate]. eapply IH; [|exact E]. econstructor; eauto using cokb_ok.
Qed.
(** Two servers.  A client creates [ka] with a lease of 10 s at server 0 at time 5 s; the expiry
    goroutine of server 1 starts and finds it; [kb] is created with a lease of 20 s at server 0 and
    [ka] is overwritten without lease; server 1 polls and hears of both; 60 s later the first
    timer of [ka] and that of [kb] fire at server 1, and their requests are processed; at last a client deletes [ka]. *)
Definition expire_at (j n : nat) : list caction :=
  CFire j n :: map CWhole [KNode (NSubmit 0); KNode (NBatch j (BTake _)); KNode (NBatch j (BExecute _ BFNone)); KNode (NBatch j (BFinish _)); KNode (NReturn 0); KNode (NAnswer 0)].
Definition before_expiry : list caction :=
  [CWhole KBoot; CWhole KBoot; CTime (5 * second)] ++ map CWhole (exec_write 0 (CreateKey ka v1 10)) ++
  map (CExpiry 1) [TRev NoFault; TList NoFault; TGroup; TWatch; TCheck NoFault; TQuery NoFault; TFinish] ++
  map CWhole (exec_write 0 (CreateKey kb v2 20)) ++ map CWhole (exec_write 0 (UpdateKey ka v3 1 0)) ++ map CWhole (poll_at 1) ++ [CExpiry 1 (TRecv [])].
Definition cbefore : cstate := match ccrun cfg0 before_expiry cinit with Some s => s | None => cinit end.
Definition cfinal : cstate := match ccrun cfg0 (CTime (60 * second) :: expire_at 1 0 ++ expire_at 1 2 ++ map CWhole (exec_write 0 (DeleteKey ka 3))) cbefore with Some s => s | None => cinit end.
Lemma cbefore_run : ccrun cfg0 before_expiry cinit = Some cbefore.
Proof. vm_compute. reflexivity. Qed.
Lemma cfinal_run : ccrun cfg0 (CTime (60 * second) :: expire_at 1 0 ++ expire_at 1 2 ++ map CWhole (exec_write 0 (DeleteKey ka 3))) cbefore = Some cfinal.
Proof. vm_compute. reflexivity. Qed.
Lemma cbefore_reach : creach cfg0 clean true cbefore.
Proof. apply (ccrun_reach cfg0 before_expiry cinit); [constructor|exact cbefore_run]. Qed.
Lemma cfinal_reach : creach cfg0 clean true cfinal.
Proof. eapply ccrun_reach; [exact cbefore_reach|exact cfinal_run]. Qed.
Lemma cfinal_log : c_log cfinal = firstn 12 (c_log cfinal) ++ Committed 4 (Entry kb Del) :: Answered 4 (ReDone (Ok tt)) ::
  Asked 5 (WTxn (request (DeleteKey ka 3))) :: Committed 5 (Entry ka Del) :: [Answered 5 (ReTxn (Ok (success (DeleteKey ka 3) 5)))] /\
  skipn 9 (firstn 12 (c_log cfinal)) = [Asked 3 (WExpire ka 1); Answered 3 (ReDone (Ok tt)); Asked 4 (WExpire kb 2)] /\
  now (commits (firstn 12 (c_log cfinal))) kb = Some (KV kb v2 20 2 2) /\ c_stamps cfinal = [5 * second; 5 * second; 5 * second; 65 * second; 65 * second].
Proof. split; [vm_compute; reflexivity|]. split; [vm_compute; reflexivity|]. split; vm_compute; reflexivity. Qed.
