(** C17, C20, C21, C42: transactions. *)
From Coq Require Import List ZArith Bool Lia.
From Verif Require Import Bytes Spec Sql System Prog Backend Limited Etcd Api Pool Observe Demo TxnProofs TxnWitness.
Import ListNotations.
Open Scope Z_scope.

(** C17: the answer of a failed update or delete carries the version of the key
    at a revision that was current at some moment during the request, whatever
    other processes do meanwhile and whichever statements fail and are retried. *)
Theorem C17_conflict : forall cfg t k w sched w' resp, wreach w -> k <> compact_rev_key ->
  (exists v e l, t = update_txn k v e l) \/ (exists e, t = delete_txn k e) ->
  fair (s_txn cfg t) sched w -> Forall (fun x => clean (snd x)) sched ->
  exec (s_txn cfg t) sched w = (w', Some (Ok resp)) -> tr_succeeded resp = false ->
  exists n kvs, tr_responses resp = [RespRange (RangeResp n kvs false 0)] /\
    revision (history_of (snd w)) <= n <= revision (history_of (snd w')) /\
    (floor_of (snd w') <= n -> kvs = match kv_at (history_of (snd w')) n k with Some x => [x] | None => [] end).
Proof. exact conflict_lemma. Qed.
Print Assumptions C17_conflict.

(** C164 (part of C79).  A failed one changes nothing, provided statements that report an error had no effect. *)
Theorem C164_txn : forall cfg t w sched w' resp, wreach w -> txn_key t <> Some compact_rev_key ->
  fair (s_txn cfg t) sched w -> Forall (fun x => honest (snd x)) sched ->
  exec (s_txn cfg t) sched w = (w', Some (Ok resp)) ->
  own_writes (s_txn cfg t) sched w = if tr_succeeded resp then [tr_header resp] else [].
Proof. exact honest_lemma. Qed.
Print Assumptions C164_txn.
(** for batches and concurrent requests see C39, C69 and C62 *)
Example C79_nonvacuous :
  let t := update_txn kc v2 7 0 in
  let sched := [([], FailBefore EBusy); ([ADelete kc 8], NoFault); ([ACreate kc v3 5], NoFault); ([ADelete ka 4], NoFault)] in
  wreach demo /\ txn_key t <> Some compact_rev_key /\ fair (s_txn cfg0 t) sched demo /\ Forall (fun x => honest (snd x)) sched /\
  exists w' resp, exec (s_txn cfg0 t) sched demo = (w', Some (Ok resp)) /\ tr_succeeded resp = false.
Proof.
  cbv zeta. split; [exact demo_reach|]. split; [vm_compute; discriminate|]. split; [vm_compute; intuition discriminate|]. split; [repeat constructor|].
  eexists _, _. split; [vm_compute; reflexivity|reflexivity].
Qed.

(** Without that proviso it is false: an update that took effect is answered with
    "failed" (and the new value) when its first attempt reported a retried error. *)
Theorem C79_txn_refuted : exists sched w' resp,
  wreach demo /\ fair (s_txn cfg0 (update_txn ka v3 4 0)) sched demo /\
  Forall (fun x => clean (snd x)) sched /\
  exec (s_txn cfg0 (update_txn ka v3 4 0)) sched demo = (w', Some (Ok resp)) /\
  tr_succeeded resp = false /\
  own_writes (s_txn cfg0 (update_txn ka v3 4 0)) sched demo = [9] /\
  now (history_of (snd w')) ka = Some (KV ka v3 0 1 9).
Proof.
  destruct ambiguous_update as (A & B & C & D). exists ambiguous. eexists. eexists.
  split; [apply demo_reach|]. split; [exact A|]. split; [exact B|]. split; [exact C|].
  split; [reflexivity|]. split; [exact D|]. vm_compute. reflexivity.
Qed.
Print Assumptions C79_txn_refuted.

Example C17_nonvacuous :
  let t := update_txn kc v2 7 0 in
  let sched := [([], FailBefore EBusy); ([ADelete kc 8], NoFault); ([ACreate kc v3 5], NoFault); ([ADelete ka 4], NoFault)] in
  fair (s_txn cfg0 t) sched demo /\ Forall (fun x => clean (snd x)) sched /\ Forall (fun x => honest (snd x)) sched /\
  snd (exec (s_txn cfg0 t) sched demo) =
    Some (Ok (TxnResp 0 false [RespRange (RangeResp 10 [KV kc v3 5 10 10] false 0)])).
Proof.
  cbv zeta. split; [vm_compute; intuition discriminate|]. split; [repeat constructor|]. split; [repeat constructor|].
  vm_compute. reflexivity.
Qed.

(** C128: a transaction whose single compare and operation are about the same key
    gets etcd's success flag and has etcd's effect. *)
Theorem C128_etcd : forall cfg w t, wreach w -> coherent t -> txn_key t <> Some compact_rev_key ->
  exists resp, transact cfg w t = Ok resp /\
    tr_succeeded resp = fst (etcd_txn (snd w) t) /\
    snd (after_txn cfg w t) = snd (etcd_txn (snd w) t).
Proof. exact etcd_lemma. Qed.
Print Assumptions C128_etcd.

(** C20: the recognisers accept more than that, and then the answers differ: the key
    compared is ignored (create, delete), the key written is ignored (update), an
    absent key does not have revision 0 (delete), put flags are ignored (update),
    the comparison of the compaction record always fails. *)
Theorem C20_etcd_refuted :
  (accepted compact_rev_key txn_other_key /\ transact cfg0 demo txn_other_key = Ok (TxnResp 9 true [RespPut 9]) /\
     fst (etcd_txn (snd demo) txn_other_key) = false) /\
  (accepted compact_rev_key txn_other_put /\ transact cfg0 demo txn_other_put = Ok (TxnResp 9 true [RespPut 9]) /\
     now (history_of (snd (after_txn cfg0 demo txn_other_put))) ka = Some (KV ka v1 0 1 9) /\
     now (history_of (snd (etcd_txn (snd demo) txn_other_put))) ka = Some (KV ka v2 0 1 4)) /\
  (accepted compact_rev_key txn_delete_absent /\
     transact cfg0 demo txn_delete_absent = Ok (TxnResp 0 false [RespRange (RangeResp 8 [] false 0)]) /\
     fst (etcd_txn (snd demo) txn_delete_absent) = true) /\
  (accepted compact_rev_key txn_put_ignore /\
     now (history_of (snd (after_txn cfg0 demo txn_put_ignore))) ka = Some (KV ka [] 0 1 9) /\
     now (history_of (snd (etcd_txn (snd demo) txn_put_ignore))) ka = Some (KV ka v2 0 1 9)) /\
  (accepted compact_rev_key txn_compact_record /\
     option_map tr_succeeded (match transact cfg0 demo txn_compact_record with Ok r => Some r | Err _ => None end) = Some false /\
     fst (etcd_txn (snd demo) txn_compact_record) = true).
Proof. exact deviations. Qed.
Print Assumptions C20_etcd_refuted.

Example C128_nonvacuous : coherent (update_txn ka v3 4 60) /\ txn_key (update_txn ka v3 4 60) <> Some compact_rev_key /\
  transact cfg0 demo (update_txn ka v3 4 60) = Ok (TxnResp 9 true [RespPut 9]) /\
  fst (etcd_txn (snd demo) (update_txn ka v3 4 60)) = true /\
  coherent (delete_txn kb 3) /\ fst (etcd_txn (snd demo) (delete_txn kb 3)) = false.
Proof.
  split; [eapply coherent_update; [reflexivity| | | | |]; try reflexivity; repeat split|].
  split; [discriminate|]. split; [vm_compute; reflexivity|]. split; [vm_compute; reflexivity|].
  split; [eapply coherent_delete; [reflexivity| | | | | |]; try reflexivity; discriminate|]. vm_compute; reflexivity.
Qed.

(** C21: unsupported requests are answered with an error at once: no call to the
    database, whatever the schedule. *)
Theorem C21_txn : forall cfg t sched w, ~ accepted compact_rev_key t ->
  exec (s_txn cfg t) sched w = (w, Some (Err EUnsupported)) /\ calls (s_txn cfg t) sched w = [].
Proof. split; [now apply txn_unsupported|now apply no_calls_txn]. Qed.
Print Assumptions C21_txn.
Theorem C21_range : forall cfg r sched w, ~ supported_range r ->
  exec (s_range cfg r) sched w = (w, Some (Err EUnsupported)) /\ calls (s_range cfg r) sched w = [].
Proof. split; [now apply range_unsupported|now apply no_calls_range]. Qed.
Print Assumptions C21_range.
Theorem C21_bare : forall p d sched w,
  exec (s_put p) sched w = (w, Some (Err EUnsupported)) /\ calls (s_put p) sched w = [] /\
  exec (s_delete_range d) sched w = (w, Some (Err EUnsupported)) /\ calls (s_delete_range d) sched w = [] /\
  exec s_lease_other sched w = (w, Some (Err EUnsupported)).
Proof. repeat split. Qed.
Print Assumptions C21_bare.
(** Supported requests are not rejected. *)
Theorem C21_supported : forall cfg w,
  wreach w ->
  (forall t, txn_key t <> Some compact_rev_key -> accepted compact_rev_key t -> exists resp, transact cfg w t = Ok resp) /\
  (forall r, supported_range r -> bounded w r -> ask cfg w r <> Err EUnsupported).
Proof. intros cfg w HW. split; intros; [now apply accepted_answered|now apply range_supported]. Qed.
Print Assumptions C21_supported.

Example C21_nonvacuous :
  ~ accepted compact_rev_key (TxnReq [] [OpPut (PutReq ka v1 0 false false false)] []) /\
  ~ supported_range (RangeReq ka kb 0 0 0 0 false true false 0 0 0 0).
Proof. split; [intros []; discriminate|]. intros (A & _). discriminate. Qed.

(** C42: an update or delete is applied at most once over all its attempts; a
    reported success was applied exactly once, with the revision reported. *)
Theorem C42_update : forall cfg k v e l w sched, wreach w -> k <> compact_rev_key -> e <> 0 ->
  fair (s_txn cfg (update_txn k v e l)) sched w ->
  reported (snd (exec (s_txn cfg (update_txn k v e l)) sched w)) (own_writes (s_txn cfg (update_txn k v e l)) sched w).
Proof. exact update_once. Qed.
Print Assumptions C42_update.
Theorem C42_delete : forall cfg k e w sched, wreach w -> k <> compact_rev_key ->
  fair (s_txn cfg (delete_txn k e)) sched w ->
  reported (snd (exec (s_txn cfg (delete_txn k e)) sched w)) (own_writes (s_txn cfg (delete_txn k e)) sched w).
Proof. exact delete_once. Qed.
Print Assumptions C42_delete.
(** Not so for create (outside the property, recorded as a limit): applied twice
    when another client deletes the key between an ambiguous failure and the retry. *)
Theorem C42_create_twice : exists sched,
  fair (s_txn cfg0 (create_txn [100%N] v3 0)) sched demo /\
  Forall (fun x => clean (snd x)) sched /\
  snd (exec (s_txn cfg0 (create_txn [100%N] v3 0)) sched demo) = Some (Ok (TxnResp 11 true [RespPut 11])) /\
  own_writes (s_txn cfg0 (create_txn [100%N] v3 0)) sched demo = [9; 11].
Proof. exists twice. exact create_twice. Qed.
Print Assumptions C42_create_twice.

Example C42_nonvacuous :
  fair (s_txn cfg0 (update_txn ka v3 4 0)) ambiguous demo /\
  own_writes (s_txn cfg0 (update_txn ka v3 4 0)) ambiguous demo = [9] /\
  let sched := [([], FailBefore EBusy); ([ADelete kc 8], NoFault)] in
  fair (s_txn cfg0 (delete_txn ka 4)) sched demo /\
  own_writes (s_txn cfg0 (delete_txn ka 4)) sched demo = [10] /\
  snd (exec (s_txn cfg0 (delete_txn ka 4)) sched demo) = Some (Ok (TxnResp 10 true [RespDelete 10])).
Proof.
  split; [vm_compute; intuition discriminate|]. split; [vm_compute; reflexivity|]. cbv zeta.
  split; [vm_compute; intuition discriminate|]. split; vm_compute; reflexivity.
Qed.
