(** C207: what an attempt to delete an expired key has achieved when it returns without an error.
    [creach cfg okf st s]: any execution of the whole cluster - servers, clients, batching layer,
    compaction, polling, crashes, expiry goroutines and their timers - under faults [okf] (Cluster.v).
    [answered_request log before during after i q o]: [log] is [before], then request [i] with
    content [q] is asked, then [during], then it is answered with [o], then [after] (Ledger.v). *)
From Coq Require Import List ZArith Bool Lia.
From Verif Require Import Bytes Spec Sql System Prog Backend Limited Api Pool Ledger Batch BatchKine Node Watch Stream Resume Whole Ttl.
From Verif Require Import Demo ExpireProofs NodeProofs Cluster ClusterExpire ClusterWitness P_Whole.
From Verif Require Import Watch Stream Whole.
Import ListNotations.
Open Scope Z_scope.

(** C207.  When the deletion asked for by a lease timer returns without an error - on any server, however
    often its transaction was retried - the expired version is not the current one of its key, at that
    moment and at any later one: an attempt that succeeded need not be
    repeated (ttl.go:22-34 repeats only those that failed). *)
Theorem C207_expired : forall cfg okf st s before during after i k rev u, tolerant okf -> creach cfg okf st s ->
  answered_request (c_log s) before during after i (WExpire k rev) (ReDone (Ok u)) ->
  (forall x, now (commits (before ++ during)) k = Some x -> kv_mod x <> rev) /\
  (forall x, now (commits (c_log s)) k = Some x -> kv_mod x <> rev).
Proof. intros cfg okf st s before during after i k rev u T. exact (cluster_expired cfg okf st T s before during after i k rev u). Qed.
Print Assumptions C207_expired.
(** The timer of [kb] fires while [kb] is current; that of [ka] fires for revision 1 although
    [ka] is meanwhile at revision 3, and its deletion, too, returns without an error. *)
Example C207_nonvacuous : tolerant clean /\ creach cfg0 clean true cfinal /\
  answered_request (c_log cfinal) (firstn 11 (c_log cfinal)) [Committed 4 (Entry kb Del)] (skipn 14 (c_log cfinal)) 4 (WExpire kb 2) (ReDone (Ok tt)) /\
  now (commits (firstn 11 (c_log cfinal))) kb = Some (KV kb v2 20 2 2) /\
  answered_request (c_log cfinal) (firstn 9 (c_log cfinal)) [] (skipn 11 (c_log cfinal)) 3 (WExpire ka 1) (ReDone (Ok tt)) /\
  now (commits (firstn 9 (c_log cfinal))) ka = Some (KV ka v3 0 1 3).
Proof.
  split; [exact clean_tolerant|]. split; [exact cfinal_reach|]. split; [vm_compute; reflexivity|].
  split; [vm_compute; reflexivity|]. split; vm_compute; reflexivity.
Qed.
