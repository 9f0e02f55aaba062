(** C119, C120: what answers show is what was committed; no lost updates. *)
From Coq Require Import List ZArith Bool Lia.
From Verif Require Import Bytes Spec Sql System Prog Backend Limited Api Pool Ledger Shown Observe Demo SpecLemmas LedgerLemmas LedgerProofs LedgerMore LedgerReads LedgerWitness LedgerValues Node NodeProofs.
Import ListNotations.
Open Scope Z_scope.

(** C119.  Every version of a key that any answer shows - to a Range or in the failure
    branch of a conditional write - is the version the committed changes gave that key
    at exactly the modification revision it carries, with that value, lease and
    creation revision; it is of a key that was asked about, not later than the
    revision asked for, not later than the revision the answer claims to be of.
    Any interleaving, any faults (broken result sets included), crashes and
    compactions.  (Only the fixed refusal of a compaction transaction, compact.go:22-39,
    shows an invented key value.) *)
Theorem C119_shown : forall cfg okf s before during after i q o x, lreach cfg okf s ->
  answered_request (l_log s) before during after i q o -> (forall t, q = WTxn t -> is_compact t = false) ->
  shows o x -> kv_at (commits (before ++ during)) (kv_mod x) (kv_key x) = Some x /\ asked_about q x.
Proof.
  intros cfg okf s before during after i q o x H E C T. apply shows_told in T. destruct T as (rev & T).
  destruct (told_genuine _ _ _ _ _ _ _ _ _ _ _ H E C T) as (G & A & _). exact (conj G A).
Qed.
Print Assumptions C119_shown.
Theorem C119_header : forall cfg okf s before during after i q o x rev, lreach cfg okf s ->
  answered_request (l_log s) before during after i q o -> (forall t, q = WTxn t -> is_compact t = false) ->
  told o x rev -> kv_mod x <= rev <= revision (commits (before ++ during)).
Proof. exact (fun cfg okf s before during after i q o x rev H E C T => proj2 (proj2 (told_genuine cfg okf s before during after i q o x rev H E C T))). Qed.
Print Assumptions C119_header.
(** The same with batched writes (C114). *)
Theorem C119_batched : forall cfg okf s before during after i q o x, tolerant okf -> nreach cfg okf s ->
  answered_request (n_log s) before during after i q o -> (forall t, q = WTxn t -> is_compact t = false) ->
  shows o x -> kv_at (commits (before ++ during)) (kv_mod x) (kv_key x) = Some x /\ asked_about q x.
Proof.
  intros cfg okf s before during after i q o x T H. destruct (node_refines cfg okf s T H) as [ps L].
  exact (C119_shown cfg okf _ before during after i q o x L).
Qed.
Print Assumptions C119_batched.

(** C120.  No lost update: when an update or delete that insists on the version some
    caller was shown is committed, that shown version, in every field, is still the
    newest of its key right before, so the caller's write overwrites nothing it did not
    know of.  Any interleaving, faults and crashes, whether or not the writer is ever
    answered. *)
Theorem C120_commit : forall cfg okf s before during after i q o x A j e B c, lreach cfg okf s ->
  answered_request (l_log s) before during after i q o -> (forall t, q = WTxn t -> is_compact t = false) -> shows o x ->
  In (Asked j (WTxn (request c))) (l_log s) -> expects c (kv_key x) (kv_mod x) ->
  l_log s = A ++ Committed j e :: B -> e = effect c /\ now (commits A) (kv_key x) = Some x.
Proof. exact no_lost_commit. Qed.
Print Assumptions C120_commit.
Theorem C120_success : forall cfg okf s before during after i q o x b d a j c resp, lreach cfg okf s ->
  answered_request (l_log s) before during after i q o -> (forall t, q = WTxn t -> is_compact t = false) -> shows o x ->
  expects c (kv_key x) (kv_mod x) ->
  answered_request (l_log s) b d a j (WTxn (request c)) (ReTxn (Ok resp)) -> tr_succeeded resp = true ->
  exists D1 D2, d = D1 ++ Committed j (effect c) :: D2 /\ now (commits (b ++ D1)) (kv_key x) = Some x.
Proof. exact no_lost_success. Qed.
Print Assumptions C120_success.
Theorem C120_batched : forall cfg okf s before during after i q o x A j e B c, tolerant okf -> nreach cfg okf s ->
  answered_request (n_log s) before during after i q o -> (forall t, q = WTxn t -> is_compact t = false) -> shows o x ->
  In (Asked j (WTxn (request c))) (n_log s) -> expects c (kv_key x) (kv_mod x) ->
  n_log s = A ++ Committed j e :: B -> e = effect c /\ now (commits A) (kv_key x) = Some x.
Proof.
  intros cfg okf s before during after i q o x A j e B c T H. destruct (node_refines cfg okf s T H) as [ps L].
  exact (no_lost_commit cfg okf _ before during after i q o x A j e B c L).
Qed.
Print Assumptions C120_batched.

(** 0 creates [ka]; 1 reads it, its result set breaking after that row; 2 updates it on
    the strength of what 1 was shown; 3 tries so, too, and is shown the version of 2; 4
    deletes that version, and is never answered. *)
Definition rmw : list action :=
  LAsk (WTxn (request (CreateKey ka v1 0))) :: LCall 0 NoFault :: LReply 0 ::
  LAsk (WRange all_keys) :: LCall 1 NoFault :: LCall 1 (CutRows 1 EOther) :: LReply 1 ::
  LAsk (WTxn (request (UpdateKey ka v2 1 0))) :: LAsk (WTxn (request (UpdateKey ka v3 1 0))) ::
  LCall 2 NoFault :: LCall 3 NoFault :: LCall 3 NoFault :: LCall 3 NoFault :: LReply 3 :: LReply 2 ::
  LAsk (WTxn (request (DeleteKey ka 2))) :: LCall 4 NoFault :: [LCrash 4].
Definition rmw_log : ledger :=
  [Asked 0 (WTxn (request (CreateKey ka v1 0))); Committed 0 (Entry ka (Put v1 0));
   Answered 0 (ReTxn (Ok (success (CreateKey ka v1 0) 1)));
   Asked 1 (WRange all_keys); Answered 1 (ReRange (Ok (RangeResp 1 [KV ka v1 0 1 1] false 1)));
   Asked 2 (WTxn (request (UpdateKey ka v2 1 0))); Asked 3 (WTxn (request (UpdateKey ka v3 1 0)));
   Committed 2 (Entry ka (Put v2 0));
   Answered 3 (ReTxn (Ok (TxnResp 0 false [RespRange (RangeResp 2 [KV ka v2 0 1 2] false 0)])));
   Answered 2 (ReTxn (Ok (success (UpdateKey ka v2 1 0) 2)));
   Asked 4 (WTxn (request (DeleteKey ka 2))); Committed 4 (Entry ka Del)].
Lemma rmw_run : l_log (acts cfg0 rmw) = rmw_log.
Proof. vm_compute. reflexivity. Qed.
Lemma rmw_reach : lreach cfg0 any_fault (acts cfg0 rmw).
Proof. apply acts_reach. repeat constructor; cbn; discriminate. Qed.
Example C119_nonvacuous : lreach cfg0 any_fault (acts cfg0 rmw) /\ exists b d a b' d' a' o,
  answered_request (l_log (acts cfg0 rmw)) b d a 1 (WRange all_keys) (ReRange (Ok (RangeResp 1 [KV ka v1 0 1 1] false 1))) /\
  shows (ReRange (Ok (RangeResp 1 [KV ka v1 0 1 1] false 1))) (KV ka v1 0 1 1) /\
  answered_request (l_log (acts cfg0 rmw)) b' d' a' 3 (WTxn (request (UpdateKey ka v3 1 0))) o /\
  is_compact (request (UpdateKey ka v3 1 0)) = false /\ shows o (KV ka v2 0 1 2) /\ told o (KV ka v2 0 1 2) 2.
Proof.
  split; [exact rmw_reach|]. rewrite rmw_run.
  exists (firstn 3 rmw_log), [], (skipn 5 rmw_log), (firstn 6 rmw_log), (firstn 1 (skipn 7 rmw_log)), (skipn 9 rmw_log), (ReTxn (Ok (TxnResp 0 false [RespRange (RangeResp 2 [KV ka v2 0 1 2] false 0)]))).
  split; [reflexivity|]. split; [left; reflexivity|]. split; [reflexivity|]. split; [reflexivity|].
  split; [|cbn]; exists (RangeResp 2 [KV ka v2 0 1 2] false 0); cbn; auto.
Qed.
Example C120_nonvacuous : lreach cfg0 any_fault (acts cfg0 rmw) /\ exists A B A' B' b d a,
  l_log (acts cfg0 rmw) = A ++ Committed 2 (Entry ka (Put v2 0)) :: B /\ expects (UpdateKey ka v2 1 0) ka 1 /\
  l_log (acts cfg0 rmw) = A' ++ Committed 4 (Entry ka Del) :: B' /\ expects (DeleteKey ka 2) ka 2 /\
  In (Asked 4 (WTxn (request (DeleteKey ka 2)))) (l_log (acts cfg0 rmw)) /\
  answered_request (l_log (acts cfg0 rmw)) b d a 2 (WTxn (request (UpdateKey ka v2 1 0))) (ReTxn (Ok (success (UpdateKey ka v2 1 0) 2))) /\
  now (commits A) ka = Some (KV ka v1 0 1 1) /\ now (commits A') ka = Some (KV ka v2 0 1 2).
Proof.
  split; [exact rmw_reach|]. rewrite rmw_run.
  exists (firstn 7 rmw_log), (skipn 8 rmw_log), (firstn 11 rmw_log), [], (firstn 5 rmw_log), (firstn 3 (skipn 6 rmw_log)), (skipn 10 rmw_log).
  split; [reflexivity|]. split; [cbn; auto with zarith|]. split; [reflexivity|]. split; [cbn; auto with zarith|]. split; [cbn; tauto|].
  split; [reflexivity|]. split; reflexivity.
Qed.
