(** C191, C192: the gRPC methods besides Range, Txn and Watch.
    [status sched]: a Status request; entry [i] of [sched] is the database file at the time of
    the [i]-th attempt at the size query, and how that attempt ends.
    [exec (serve cfg x) sched w]: the request [x] on the database [w] (Prog.v); [only_others n
    sched w]: [w] after what other processes did before the first [n] statements. *)
From Coq Require Import List ZArith Bool Lia String.
From Verif Require Import Bytes Spec Sql System Prog Backend Limited Lease Server Api SqlLang SqlText Rpc RpcProofs SqlTextProofs Demo.
From Verif Require Import Rpc.
Import ListNotations.
Open Scope Z_scope.
Open Scope list_scope.

(** C191.  A Status answer tells the version 3.5.13 and the bytes in use in the database file at
    a moment during the request. *)
Theorem C191_answer : forall sched a, status sched = Some (Ok a) ->
  sr_version a = txt "3.5.13" /\
  exists i p f, (i < 500)%nat /\ nth_error sched i = Some (p, f) /\ sr_db_size a = (pg_count p - pg_free p) * pg_size p /\
    forall j, (j < i)%nat -> exists q, In (nth_error sched j) [Some (q, FailBefore EBusy); Some (q, FailAfter EBusy)].
Proof. exact status_ok. Qed.
Print Assumptions C191_answer.
(** This is not negative, at most the size of the file, and no int64 overflow. *)
Theorem C191_bounds : forall p, legal_file p ->
  0 <= (pg_count p - pg_free p) * pg_size p <= pg_count p * pg_size p /\ pg_count p * pg_size p < 2 ^ 63.
Proof. exact status_bounds. Qed.
Print Assumptions C191_bounds.
(** It is answered if the database is busy fewer than 500 times in a row. *)
Theorem C191_answered : forall pre p post, (List.length pre < 500)%nat ->
  Forall (fun x => exists q, In x [(q, FailBefore EBusy); (q, FailAfter EBusy)]) pre ->
  status (pre ++ (p, NoFault) :: post) = Some (Ok (StatusResp (txt "3.5.13") ((pg_count p - pg_free p) * pg_size p))).
Proof. exact status_live. Qed.
Print Assumptions C191_answered.
(** Busy 499 times while the file grows. *)
Example C191_nonvacuous : exists sched a, legal_file (Pages 40 3 4096) /\
  sched = repeat (Pages 20 0 4096, FailBefore EBusy) 499 ++ [(Pages 40 3 4096, NoFault)] /\
  status sched = Some (Ok a) /\ sr_db_size a = 151552 /\
  status (repeat (Pages 20 0 4096, FailBefore EBusy) 500 ++ [(Pages 40 3 4096, NoFault)]) = Some (Err EBusy).
Proof.
  eexists. eexists. split; [vm_compute; repeat split; congruence|]. split; [reflexivity|]. split; [vm_compute; reflexivity|]. split; [vm_compute; reflexivity|vm_compute; reflexivity].
Qed.

(** C192.  Whatever the request, unless it is a transaction, the only changes of the database are
    those other processes made meanwhile. *)
Theorem C192_reads : forall cfg x, (forall t, x <> RTxn t) -> forall sched w,
  exists n, (n <= List.length sched)%nat /\ fst (exec (serve cfg x) sched w) = only_others n sched w.
Proof. exact serve_reads. Qed.
Print Assumptions C192_reads.
(** Every method but Range, Txn, Compact, LeaseGrant and Status refuses, without a statement. *)
Theorem C192_refused : forall cfg x, match x with RRange _ | RTxn _ | RCompact _ | RLeaseGrant _ => False | _ => True end ->
  forall sched w, exec (serve cfg x) sched w = (w, Some (Err EUnsupported)).
Proof. exact serve_refused. Qed.
Print Assumptions C192_refused.
(** Three requests on the demo database while another process writes: a list, a lease, an alarm. *)
Example C192_nonvacuous : let env : list (list aop * fault) := [([ACreate [122%N] v1 0], NoFault); ([], NoFault); ([], NoFault)] in
  (forall t, RRange (range ka kc 0 0) <> RTxn t) /\
  revision (history_of (snd (fst (exec (serve cfg0 (RRange (range ka kc 0 0))) env demo)))) = revision (history_of (snd demo)) + 1 /\
  match snd (exec (serve cfg0 (RRange (range ka kc 0 0))) env demo) with Some (Ok (ReRange r)) => rr_kvs r <> [] | _ => False end /\
  exec (serve cfg0 (RLeaseGrant (LeaseReq 60 7))) env demo = (demo, Some (Ok (ReLease 60 60))) /\
  exec (serve cfg0 RAlarm) env demo = (demo, Some (Err EUnsupported)).
Proof.
  cbv zeta. split; [discriminate|]. split; [vm_compute; reflexivity|]. split; [vm_compute; discriminate|]. split; reflexivity.
Qed.

(** C193 refuted.  A Compact request is answered as in etcd but does nothing: revisions below the
    one asked for are still served, and a revision that does not exist yet is accepted. *)
Theorem C193_refuted :
  (exists w rev r, wreach w /\ 1 < rev <= revision (history_of (snd w)) /\
    (forall cfg sched, exec (serve cfg (RCompact rev)) sched w = (w, Some (Ok (ReCompact rev)))) /\
    snd (run (serve cfg0 (RRange (range ka [] 0 (rev - 1)))) (fst (run (serve cfg0 (RCompact rev)) w))) = Ok (ReRange r) /\ rr_kvs r <> []) /\
  (exists w rev, wreach w /\ revision (history_of (snd w)) < rev /\
    forall cfg sched, exec (serve cfg (RCompact rev)) sched w = (w, Some (Ok (ReCompact rev)))).
Proof.
  split.
  - exists demo, (revision (history_of (snd demo))). eexists. split; [exact demo_reach|]. split; [vm_compute; split; congruence|]. split; [reflexivity|].
    split; [vm_compute; reflexivity|vm_compute; discriminate].
  - exists demo, 1000. split; [exact demo_reach|]. split; [vm_compute; reflexivity|reflexivity].
Qed.
Print Assumptions C193_refuted.
