(** Concrete executions for C17, C20 and C42. *)
From Coq Require Import List ZArith Bool Lia.
From Verif Require Import Bytes Spec Sql System Prog Backend Limited Etcd Api Pool Observe Demo SpecLemmas SqlLemmas Sim ProgLemmas.
Import ListNotations.
Open Scope Z_scope.

Local Opaque max_retries.
Local Notation ck := compact_rev_key.

(** C17: an update whose first attempt took effect but reported an error that is
    retried: the retry finds a newer revision, so the answer says "failed". *)
Definition ambiguous : list (list aop * fault) :=
  [([], FailAfter EBusy); ([], NoFault); ([], NoFault); ([], NoFault)].
Lemma ambiguous_update : 
  fair (s_txn cfg0 (update_txn ka v3 4 0)) ambiguous demo /\
  Forall (fun x => clean (snd x)) ambiguous /\
  exec (s_txn cfg0 (update_txn ka v3 4 0)) ambiguous demo =
    (wapply demo (AUpdate ka v3 4 0),
     Some (Ok (TxnResp 0 false [RespRange (RangeResp 9 [KV ka v3 0 1 9] false 0)]))) /\
  own_writes (s_txn cfg0 (update_txn ka v3 4 0)) ambiguous demo = [9].
Proof.
  split; [vm_compute; tauto|]. split; [repeat constructor|]. split; vm_compute; reflexivity.
Qed.

(** C42: a create is applied twice: the first attempt took effect but reported a
    retried error, another client deleted the key, the retry created it again. *)
Definition twice : list (list aop * fault) :=
  [([], FailAfter EBusy); ([ADelete [100%N] 9], NoFault)].
Lemma create_twice :
  fair (s_txn cfg0 (create_txn [100%N] v3 0)) twice demo /\
  Forall (fun x => clean (snd x)) twice /\
  snd (exec (s_txn cfg0 (create_txn [100%N] v3 0)) twice demo) = Some (Ok (TxnResp 11 true [RespPut 11])) /\
  own_writes (s_txn cfg0 (create_txn [100%N] v3 0)) twice demo = [9; 11].
Proof.
  split; [vm_compute; intuition discriminate|]. split; [repeat constructor|]. split; vm_compute; reflexivity.
Qed.

(** C20: accepted transactions that deviate from etcd. *)
(* compare on an existing key a, put of the absent key d: etcd says no, the server creates d *)
Definition txn_other_key : txn_req :=
  TxnReq [Compare TMod CEqual (UMod 0) ka []] [OpPut (PutReq [100%N] v1 0 false false false)] [].
(* compare a's revision, put b: etcd writes b, the server writes a *)
Definition txn_other_put : txn_req :=
  TxnReq [Compare TMod CEqual (UMod 4) ka []] [OpPut (PutReq kb v1 0 false false false)] [OpRange (range ka [] 0 0)].
(* delete of an absent key expecting revision 0: etcd succeeds, the server does not *)
Definition txn_delete_absent : txn_req := delete_txn [100%N] 0.
(* put that asks to keep the value: etcd keeps it, the server stores an empty one *)
Definition txn_put_ignore : txn_req :=
  TxnReq [Compare TMod CEqual (UMod 4) ka []] [OpPut (PutReq ka [] 0 false true false)] [OpRange (range ka [] 0 0)].
(* the API server's compaction record: the comparison always fails *)
Definition txn_compact_record : txn_req :=
  TxnReq [Compare TVersion CEqual (UVersion 1) ck []] [OpPut (PutReq ck v1 0 false false false)] [OpRange (range ck [] 0 0)].
Lemma deviations :
  (accepted ck txn_other_key /\ transact cfg0 demo txn_other_key = Ok (TxnResp 9 true [RespPut 9]) /\
     fst (etcd_txn (snd demo) txn_other_key) = false) /\
  (accepted ck txn_other_put /\ transact cfg0 demo txn_other_put = Ok (TxnResp 9 true [RespPut 9]) /\
     now (history_of (snd (after_txn cfg0 demo txn_other_put))) ka = Some (KV ka v1 0 1 9) /\
     now (history_of (snd (etcd_txn (snd demo) txn_other_put))) ka = Some (KV ka v2 0 1 4)) /\
  (accepted ck txn_delete_absent /\
     transact cfg0 demo txn_delete_absent = Ok (TxnResp 0 false [RespRange (RangeResp 8 [] false 0)]) /\
     fst (etcd_txn (snd demo) txn_delete_absent) = true) /\
  (accepted ck txn_put_ignore /\
     now (history_of (snd (after_txn cfg0 demo txn_put_ignore))) ka = Some (KV ka [] 0 1 9) /\
     now (history_of (snd (etcd_txn (snd demo) txn_put_ignore))) ka = Some (KV ka v2 0 1 9)) /\
  (accepted ck txn_compact_record /\
     option_map tr_succeeded (match transact cfg0 demo txn_compact_record with Ok r => Some r | Err _ => None end) = Some false /\
     fst (etcd_txn (snd demo) txn_compact_record) = true).
Proof.
  split; [|split; [|split; [|split]]].
  - split; [eapply accept_create; [reflexivity| | | |]; try reflexivity; repeat split|]. vm_compute. auto.
  - split; [eapply accept_update; [reflexivity| |]; reflexivity|]. vm_compute. auto.
  - split; [eapply accept_delete; [reflexivity| |]; reflexivity|]. vm_compute. auto.
  - split; [eapply accept_update; [reflexivity| |]; reflexivity|]. vm_compute. auto.
  - split; [eapply accept_compact; [reflexivity| | |]; reflexivity|]. vm_compute. auto.
Qed.
