(** C62-C66: concurrent requests. *)
From Coq Require Import List ZArith Bool Lia.
From Verif Require Import Bytes Spec Sql System Prog Backend Limited Api Pool Ledger Observe Demo SpecLemmas LedgerLemmas LedgerProofs LedgerMore LedgerReads LedgerWitness.
Import ListNotations.
Open Scope Z_scope.

(** C62: conditional writes take effect at one moment between request and answer:
    a success found its condition true, was committed right there and reports the
    revision it got; a failure found its condition false.  Any interleaving with any
    other work, any faults and crashes. *)
Theorem C62_success : forall cfg okf s before during after i c resp, lreach cfg okf s ->
  answered_request (l_log s) before during after i (WTxn (request c)) (ReTxn (Ok resp)) -> tr_succeeded resp = true ->
  exists D1 D2, during = D1 ++ Committed i (effect c) :: D2 /\
    condition c (commits (before ++ D1)) /\
    resp = success c (revision (commits (before ++ D1)) + 1).
Proof. exact conditional_success. Qed.
Print Assumptions C62_success.
Theorem C62_failure : forall cfg okf s before during after i c resp, lreach cfg okf s ->
  answered_request (l_log s) before during after i (WTxn (request c)) (ReTxn (Ok resp)) -> tr_succeeded resp = false ->
  exists D1 D2, during = D1 ++ D2 /\ ~ condition c (commits (before ++ D1)).
Proof. exact conditional_failure. Qed.
Print Assumptions C62_failure.
(** C164 (part of C79).  Nothing else is committed on its behalf if statements that report an error had no
    effect: one change for a success, none otherwise. *)
Theorem C164_concurrent : forall cfg s before during after i c resp, lreach cfg honest s ->
  answered_request (l_log s) before during after i (WTxn (request c)) (ReTxn resp) ->
  match resp with
  | Ok r => if tr_succeeded r then committed_by i during = [effect c]
            else committed_by i during = [] /\ exists D1 D2, during = D1 ++ D2 /\ ~ condition c (commits (before ++ D1))
  | Err _ => committed_by i during = []
  end.
Proof. exact conditional_honest. Qed.
Print Assumptions C164_concurrent.
(** Without that proviso a request answered with "failed" may have been committed. *)
Theorem C79_concurrent_refuted : exists s before during after i c resp, lreach cfg0 clean s /\
  answered_request (l_log s) before during after i (WTxn (request c)) (ReTxn (Ok resp)) /\
  tr_succeeded resp = false /\ committed_by i during = [effect c].
Proof.
  exists (acts cfg0 ambiguous_race), [], [Committed 0%nat (Entry ka (Put v1 0))], [], 0%nat, (CreateKey ka v1 0), (TxnResp 0 false []).
  split; [exact ambiguous_reach|]. split; [unfold answered_request; rewrite ambiguous_run; reflexivity|]. split; reflexivity.
Qed.
Print Assumptions C79_concurrent_refuted.
Example C62_nonvacuous : exists before during after before' during' after',
  lreach cfg0 clean (acts cfg0 race) /\ lreach cfg0 honest (acts cfg0 race) /\
  answered_request (l_log (acts cfg0 race)) before during after 2 (WTxn (request (DeleteKey ka 1))) (ReTxn (Ok (success (DeleteKey ka 1) 2))) /\
  length during = 3%nat /\
  answered_request (l_log (acts cfg0 race)) before' during' after' 1 (WTxn (request (UpdateKey ka v2 1 0)))
    (ReTxn (Ok (TxnResp 0 false [RespRange (RangeResp 2 [] false 0)]))) /\
  length during' = 5%nat.
Proof.
  rewrite race_run. unfold race_log.
  exists (firstn 4 race_log), (firstn 3 (skipn 5 race_log)), (skipn 9 race_log), (firstn 3 race_log), (firstn 5 (skipn 4 race_log)), (skipn 10 race_log).
  destruct race_reach as [A B]. split; [exact A|]. split; [exact B|]. split; [reflexivity|]. split; [reflexivity|]. split; reflexivity.
Qed.

(** C132: a range or get at the current revision returns the content at one moment
    between request and answer, if at most 100 changes are committed meanwhile. *)
Theorem C132_read : forall cfg s before during after i r a, lreach cfg clean s ->
  plain_range r -> r_revision r = 0 ->
  answered_request (l_log s) before during after i (WRange r) (ReRange (Ok a)) ->
  revision (commits during) <= 100 ->
  exists D1 D2 L, during = D1 ++ D2 /\
    content (commits (before ++ D1)) (revision (commits (before ++ D1))) (r_key r) (r_range_end r) L /\
    (rr_more a = false -> rr_header a = revision (commits (before ++ D1))) /\
    revision (commits (before ++ D1)) <= rr_header a <= revision (commits (before ++ during)) /\
    match r_range_end r with
    | [] => rr_kvs a = L /\ rr_more a = false
    | _ => if r_count_only r then rr_kvs a = [] /\ rr_more a = false /\ rr_count a = Z.of_nat (length L)
           else rr_kvs a = page (r_limit r) L /\ rr_count a = Z.of_nat (length L) /\
                rr_more a = ((0 <? r_limit r) && (r_limit r <? Z.of_nat (length L)))
    end.
Proof. exact read_linear. Qed.
Print Assumptions C132_read.
(** C63: with more changes and a compaction meanwhile, the answer may contradict its own
    header revision (cf. C19). *)
Theorem C63_read_refuted : exists s before during after i r a, lreach cfg0 clean s /\
  plain_range r /\ r_revision r = 0 /\
  answered_request (l_log s) before during after i (WRange r) (ReRange (Ok a)) /\
  forall D1 D2, during = D1 ++ D2 -> rr_header a = revision (commits (before ++ D1)) ->
    ~ content (commits (before ++ D1)) (rr_header a) (r_key r) (r_range_end r) (rr_kvs a).
Proof.
  exists (acts cfg0 slow_read), (firstn 7 slow_log), (firstn 335 (skipn 8 slow_log)), [], 2%nat, (range ka [] 0 0), (RangeResp 3 [] false 0).
  split; [exact slow_reach|]. split; [unfold plain_range, supported_range, int64, int64_max; cbn; intuition (lia || discriminate)|].
  split; [reflexivity|]. split; [exact slow_split|].
  cbn [rr_header rr_kvs r_key r_range_end range].
  apply (no_moment (firstn 7 slow_log) (firstn 335 (skipn 8 slow_log)) 3 ka (KV ka v1 0 3 3)). exact slow_present.
Qed.
Print Assumptions C63_read_refuted.
Example C132_nonvacuous : exists before during after,
  answered_request (l_log (acts cfg0 race)) before during after 3 (WRange all_keys) (ReRange (Ok (RangeResp 1 [KV ka v1 0 1 1] false 1))) /\
  revision (commits during) = 1 /\ plain_range all_keys /\ r_revision all_keys = 0 /\ lreach cfg0 clean (acts cfg0 race).
Proof.
  rewrite race_run. exists (firstn 5 race_log), (firstn 1 (skipn 6 race_log)), (skipn 8 race_log).
  split; [reflexivity|]. split; [reflexivity|]. split; [|split; [reflexivity|apply race_reach]].
  unfold plain_range, supported_range, int64, int64_max. cbn. intuition (lia || discriminate).
Qed.

(** C64: of all requests that insist on the same version of a key at most one is
    ever committed, hence at most one is told it succeeded; between two creations
    of a key it was deleted. *)
Theorem C64_one_commit : forall cfg okf s A i ei B A' j ej B' ci cj k r, lreach cfg okf s ->
  l_log s = A ++ Committed i ei :: B -> l_log s = A' ++ Committed j ej :: B' ->
  In (Asked i (WTxn (request ci))) (l_log s) -> In (Asked j (WTxn (request cj))) (l_log s) ->
  expects ci k r -> expects cj k r -> A = A' /\ i = j.
Proof. exact one_winner. Qed.
Print Assumptions C64_one_commit.
Theorem C64_one_success : forall cfg okf s b1 d1 a1 i ci ri b2 d2 a2 j cj rj k r, lreach cfg okf s ->
  answered_request (l_log s) b1 d1 a1 i (WTxn (request ci)) (ReTxn (Ok ri)) -> tr_succeeded ri = true ->
  answered_request (l_log s) b2 d2 a2 j (WTxn (request cj)) (ReTxn (Ok rj)) -> tr_succeeded rj = true ->
  expects ci k r -> expects cj k r -> i = j.
Proof. exact one_success. Qed.
Print Assumptions C64_one_success.
Theorem C64_recreated : forall cfg okf s A i ei M j ej B ci cj k, lreach cfg okf s ->
  l_log s = A ++ Committed i ei :: M ++ Committed j ej :: B ->
  In (Asked i (WTxn (request ci))) (l_log s) -> In (Asked j (WTxn (request cj))) (l_log s) ->
  creates ci k -> creates cj k -> exists x, In (Committed x (Entry k Del)) M.
Proof. exact recreated. Qed.
Print Assumptions C64_recreated.
Definition recreate : list action :=
  LAsk (WTxn (request (CreateKey ka v1 0))) :: LCall 0 NoFault :: LReply 0 ::
  LAsk (WExpire ka 1) :: LCall 1 NoFault :: LAsk (WTxn (request (UpdateKey ka v2 0 0))) :: [LCall 2 NoFault].
Example C64_nonvacuous : expects (UpdateKey ka v2 1 0) ka 1 /\ expects (DeleteKey ka 1) ka 1 /\
  (exists A B, l_log (acts cfg0 race) = A ++ Committed 2 (Entry ka Del) :: B) /\
  lreach cfg0 clean (acts cfg0 race) /\ lreach cfg0 any_fault (acts cfg0 recreate) /\
  l_log (acts cfg0 recreate) =
    [Asked 0 (WTxn (request (CreateKey ka v1 0)))] ++ Committed 0 (Entry ka (Put v1 0)) ::
    [Answered 0 (ReTxn (Ok (success (CreateKey ka v1 0) 1))); Asked 1 (WExpire ka 1); Committed 1 (Entry ka Del);
     Asked 2 (WTxn (request (UpdateKey ka v2 0 0)))] ++ Committed 2 (Entry ka (Put v2 0)) :: [] /\
  creates (CreateKey ka v1 0) ka /\ creates (UpdateKey ka v2 0 0) ka.
Proof.
  split; [cbn; auto with zarith|]. split; [cbn; auto|]. split.
  { rewrite race_run. exists (firstn 6 race_log), (skipn 7 race_log). reflexivity. }
  split; [apply race_reach|]. split; [apply acts_reach; repeat constructor; cbn; discriminate|].
  split; [vm_compute; reflexivity|]. split; [reflexivity|]. cbn; auto.
Qed.

(** C65: what a client was told stays true for whoever asks afterwards: later reads
    have no smaller header revision, and see every write that was acknowledged.
    Any faults and crashes. *)
Theorem C65_monotonic : forall cfg okf s b1 d1 a1 i r1 x1 b2 d2 a2 j r2 x2, lreach cfg okf s ->
  answered_request (l_log s) b1 d1 a1 i (WRange r1) (ReRange (Ok x1)) ->
  answered_request (l_log s) b2 d2 a2 j (WRange r2) (ReRange (Ok x2)) ->
  precedes (l_log s) i (ReRange (Ok x1)) j (WRange r2) -> rr_header x1 <= rr_header x2.
Proof. exact monotonic_reads. Qed.
Print Assumptions C65_monotonic.
Theorem C65_own_writes : forall cfg okf s b1 d1 a1 i c rev b2 d2 a2 j r2 x2, lreach cfg okf s ->
  answered_request (l_log s) b1 d1 a1 i (WTxn (request c)) (ReTxn (Ok (success c rev))) ->
  answered_request (l_log s) b2 d2 a2 j (WRange r2) (ReRange (Ok x2)) ->
  precedes (l_log s) i (ReTxn (Ok (success c rev))) j (WRange r2) ->
  rev <= rr_header x2 /\ nth_error (commits b2) (Z.to_nat (rev - 1)) = Some (effect c).
Proof. exact read_own_writes. Qed.
Print Assumptions C65_own_writes.
Example C65_nonvacuous : exists b1 d1 a1 b2 d2 a2 b3 d3 a3,
  let log := l_log (acts cfg0 race) in
  answered_request log b1 d1 a1 0 (WTxn (request (CreateKey ka v1 0))) (ReTxn (Ok (success (CreateKey ka v1 0) 1))) /\
  answered_request log b2 d2 a2 3 (WRange all_keys) (ReRange (Ok (RangeResp 1 [KV ka v1 0 1 1] false 1))) /\
  answered_request log b3 d3 a3 4 (WRange all_keys) (ReRange (Ok (RangeResp 2 [] false 0))) /\
  precedes log 0 (ReTxn (Ok (success (CreateKey ka v1 0) 1))) 3 (WRange all_keys) /\
  precedes log 3 (ReRange (Ok (RangeResp 1 [KV ka v1 0 1 1] false 1))) 4 (WRange all_keys).
Proof.
  rewrite race_run. exists (firstn 0 race_log), (firstn 1 (skipn 1 race_log)), (skipn 3 race_log),
    (firstn 5 race_log), (firstn 1 (skipn 6 race_log)), (skipn 8 race_log),
    (firstn 10 race_log), (firstn 0 (skipn 11 race_log)), (skipn 12 race_log).
  split; [reflexivity|]. split; [reflexivity|]. split; [reflexivity|]. split.
  - exists (firstn 2 race_log), (firstn 2 (skipn 3 race_log)), (skipn 6 race_log). reflexivity.
  - exists (firstn 7 race_log), (firstn 2 (skipn 8 race_log)), (skipn 11 race_log). reflexivity.
Qed.

(** C66: nothing is committed that nobody asked for: every committed change is the one
    its request asks for, comes after the request and before its answer, and its
    condition held right before.  Any faults and crashes. *)
Theorem C66_every_commit : forall cfg okf s A i e B, lreach cfg okf s -> l_log s = A ++ Committed i e :: B ->
  exists q, In (Asked i q) A /\ (forall o, ~ In (Answered i o) A) /\ warranted q e (commits A).
Proof. exact every_commit. Qed.
Print Assumptions C66_every_commit.
(** The state of the store is the committed changes, in order. *)
Theorem C66_store : forall cfg okf s, lreach cfg okf s ->
  commits (l_log s) = history_of (snd (l_world s)) /\ wreach (l_world s).
Proof. exact ledger_history. Qed.
Print Assumptions C66_store.
Example C66_nonvacuous : lreach cfg0 clean (acts cfg0 ambiguous_race) /\
  l_log (acts cfg0 ambiguous_race) = [Asked 0 (WTxn (request (CreateKey ka v1 0)))] ++ Committed 0 (Entry ka (Put v1 0)) ::
    [Answered 0 (ReTxn (Ok (TxnResp 0 false [])))].
Proof. split; [exact ambiguous_reach|]. rewrite ambiguous_run. reflexivity. Qed.
