(** Concrete concurrent runs. *)
From Coq Require Import List ZArith Bool Lia.
From Verif Require Import Bytes Spec Sql System Prog Backend Limited Api Pool Ledger Observe Demo.
Import ListNotations.
Open Scope Z_scope.

Inductive action := LAsk (q : work) | LCall (i : nat) (f : fault) | LReply (i : nat) | LCrash (i : nat).
Fixpoint locate (i : nat) (ps : list (nat * prog reply)) : option (list (nat * prog reply) * prog reply * list (nat * prog reply)) :=
  match ps with
  | [] => None
  | (j, p) :: ps' => if Nat.eqb i j then Some ([], p, ps') else
      match locate i ps' with Some (a, x, b) => Some ((j, p) :: a, x, b) | None => None end
  end.
Definition act (cfg : driver_cfg) (s : lstate) (a : action) : lstate :=
  let '(LState w ps log n) := s in
  match a with
  | LAsk q => LState w ((n, served cfg q) :: ps) (log ++ [Asked n q]) (S n)
  | LCall i f =>
      match locate i ps with
      | Some (p1, Call c k, p2) =>
          LState (fst (sem f c w)) (p1 ++ (i, k (snd (sem f c w))) :: p2) (log ++ map (Committed i) (commit_of f c w)) n
      | _ => s
      end
  | LReply i =>
      match locate i ps with
      | Some (p1, Ret o, p2) => LState w (p1 ++ p2) (log ++ [Answered i o]) n
      | _ => s
      end
  | LCrash i => match locate i ps with Some (p1, _, p2) => LState w (p1 ++ p2) log n | None => s end
  end.
Definition acts (cfg : driver_cfg) (l : list action) : lstate := fold_left (act cfg) l linit.

Lemma locate_spec i ps a x b : locate i ps = Some (a, x, b) -> ps = a ++ (i, x) :: b.
Proof.
  revert a x b. induction ps as [|[j p] ps IH]; intros a x b H; [discriminate|]. cbn [locate] in H.
  destruct (Nat.eqb_spec i j) as [->|]; [injection H as <- <- <-; reflexivity|].
  destruct (locate i ps) as [[[a' x'] b']|]; [|discriminate]. injection H as <- <- <-. cbn [app]. f_equal. auto.
Qed.
Definition act_ok (okf : fault -> Prop) (a : action) : Prop :=
  match a with LAsk q => work_ok q | LCall _ f => okf f | _ => True end.
Lemma act_reach cfg okf s a : lreach cfg okf s -> act_ok okf a -> lreach cfg okf (act cfg s a).
Proof.
  intros H O. destruct s as [w ps log n]. destruct a as [q|i f|i|i]; cbn [act act_ok] in *.
  - econstructor; [exact H|]. now constructor.
  - destruct (locate i ps) as [[[p1 [o|c k]] p2]|] eqn:E; auto. apply locate_spec in E. subst ps.
    econstructor; [exact H|]. now constructor.
  - destruct (locate i ps) as [[[p1 [o|c k]] p2]|] eqn:E; auto. apply locate_spec in E. subst ps.
    econstructor; [exact H|]. constructor.
  - destruct (locate i ps) as [[[p1 x] p2]|] eqn:E; auto. apply locate_spec in E. subst ps.
    econstructor; [exact H|]. constructor.
Qed.
Lemma acts_reach cfg okf l : Forall (act_ok okf) l -> lreach cfg okf (acts cfg l).
Proof.
  unfold acts. generalize (lreach_init cfg okf). generalize linit. induction l as [|a l IH]; intros s H F; [exact H|].
  inversion F; subst. cbn [fold_left]. apply IH; auto. now apply act_reach.
Qed.

Definition calls_of (i n : nat) : list action := repeat (LCall i NoFault) n.
Definition all_keys : range_req := range [97%N] [122%N] 0 0.
(** 0 creates [ka]; then 1 updates it, 2 deletes it, both insisting on revision 1, and
    3 lists, at the same time; 4 lists afterwards *)
Definition race : list action :=
  LAsk (WTxn (request (CreateKey ka v1 0))) :: calls_of 0 1 ++ LReply 0 ::
  LAsk (WTxn (request (UpdateKey ka v2 1 0))) :: LAsk (WTxn (request (DeleteKey ka 1))) :: LAsk (WRange all_keys) ::
  LCall 3 NoFault :: LCall 1 (FailBefore EBusy) :: LCall 2 NoFault :: LCall 1 NoFault :: LCall 3 NoFault :: LReply 3 ::
  LReply 2 :: LCall 1 NoFault :: LCall 1 NoFault :: LReply 1 ::
  LAsk (WRange all_keys) :: calls_of 4 2 ++ [LReply 4].
Definition race_log : ledger :=
  [Asked 0 (WTxn (request (CreateKey ka v1 0))); Committed 0 (Entry ka (Put v1 0));
   Answered 0 (ReTxn (Ok (success (CreateKey ka v1 0) 1)));
   Asked 1 (WTxn (request (UpdateKey ka v2 1 0))); Asked 2 (WTxn (request (DeleteKey ka 1))); Asked 3 (WRange all_keys);
   Committed 2 (Entry ka Del);
   Answered 3 (ReRange (Ok (RangeResp 1 [KV ka v1 0 1 1] false 1)));
   Answered 2 (ReTxn (Ok (success (DeleteKey ka 1) 2)));
   Answered 1 (ReTxn (Ok (TxnResp 0 false [RespRange (RangeResp 2 [] false 0)])));
   Asked 4 (WRange all_keys); Answered 4 (ReRange (Ok (RangeResp 2 [] false 0)))].
Lemma race_run : l_log (acts cfg0 race) = race_log.
Proof. vm_compute. reflexivity. Qed.
Lemma race_reach : lreach cfg0 clean (acts cfg0 race) /\ lreach cfg0 honest (acts cfg0 race).
Proof.
  split; apply acts_reach; repeat constructor; cbn; discriminate.
Qed.

(** 0's statement takes effect but reports "busy"; the retry finds the key *)
Definition ambiguous_race : list action :=
  LAsk (WTxn (request (CreateKey ka v1 0))) :: LCall 0 (FailAfter EBusy) :: LCall 0 NoFault :: [LReply 0].
Lemma ambiguous_run : l_log (acts cfg0 ambiguous_race) =
  [Asked 0 (WTxn (request (CreateKey ka v1 0))); Committed 0 (Entry ka (Put v1 0));
   Answered 0 (ReTxn (Ok (TxnResp 0 false [])))].
Proof. vm_compute. reflexivity. Qed.
Lemma ambiguous_reach : lreach cfg0 clean (acts cfg0 ambiguous_race).
Proof. apply acts_reach; repeat constructor; cbn; discriminate. Qed.

(** 1 creates [ka]; the read 2 determines the current revision; 3 deletes [ka]; 110 more
    keys are created; a compaction runs; only then does the read fetch the rows *)
Definition fill (n : nat) : list action :=
  concat (map (fun i => [LAsk (WTxn (request (CreateKey [98%N; N.of_nat i] v1 0))); LCall (4 + i) NoFault; LReply (4 + i)]) (List.seq 0 n)).
Definition slow_read : list action :=
  LAsk WStart :: calls_of 0 6 ++ LReply 0 :: LAsk (WTxn (request (CreateKey ka v1 0))) :: LCall 1 NoFault :: LReply 1 ::
  LAsk (WRange (range ka [] 0 0)) :: LCall 2 NoFault :: LAsk (WTxn (request (DeleteKey ka 3))) :: LCall 3 NoFault :: LReply 3 ::
  fill 110 ++ LAsk WCompact :: calls_of 114 8 ++ LReply 114 :: LCall 2 NoFault :: [LReply 2].

Definition slow_log : ledger := l_log (acts cfg0 slow_read).
Lemma slow_split : answered_request (l_log (acts cfg0 slow_read)) (firstn 7 slow_log) (firstn 335 (skipn 8 slow_log)) []
  2 (WRange (range ka [] 0 0)) (ReRange (Ok (RangeResp 3 [] false 0))).
Proof. vm_compute. reflexivity. Qed.
Lemma slow_reach : lreach cfg0 clean (acts cfg0 slow_read).
Proof.
  apply acts_reach. assert (F : Forall (act_ok clean) (fill 110)).
  { unfold fill. generalize (List.seq 0 110). intros l. induction l as [|i l IH]; [constructor|].
    cbn [map concat]. repeat (apply Forall_cons; [cbn; try exact I; try discriminate; split; exact I|]). exact IH. }
  unfold slow_read, calls_of. generalize dependent (fill 110). intros fl F. cbn [repeat app].
  repeat (apply Forall_cons; [cbn; try exact I; try discriminate; split; exact I|]).
  apply Forall_app. split; [exact F|].
  repeat (apply Forall_cons; [cbn; try exact I; try discriminate; split; exact I|]). constructor.
Qed.

Lemma slow_present : kv_at (commits (firstn 7 slow_log ++ firstn 335 (skipn 8 slow_log))) 3 ka = Some (KV ka v1 0 3 3).
Proof. vm_compute. reflexivity. Qed.
