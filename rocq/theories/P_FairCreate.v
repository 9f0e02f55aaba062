(** C140: every create request of a watch stream is answered.
    [kat cfg sch t]: the state after the first [t] steps of the infinite schedule [sch] of the
    whole system (Whole.v, FairWatch.v).  [requests conn log], [answers conn log]: the create
    requests received on a connection and the answers to create requests sent on it, in order
    (FairWatch.v).  [kaction_ok okf c ..]: faults of requests satisfy [okf]; those of watch
    registrations and of the poller are arbitrary. *)
From Coq Require Import List ZArith Bool Lia Arith.
From Verif Require Import Bytes Spec Sql System Prog Backend Limited Api Pool Ledger Batch BatchKine Node Watch Stream Resume Whole FairWatch.
From Verif Require Import NodeProofs WatchLemmas WatchProofs StreamProofs WholeProofs FairWatchProofs FairCreateProofs Demo ApiLemmas P_Whole.
From Verif Require Import Watch Stream Whole FairWatch.
Import ListNotations.
Open Scope Z_scope.

(** C140.  The [n]-th create request of a connection has been received.  The server does not
    crash, and the goroutine that serves requests gets its turns; its queries succeed or
    fail.  Then sooner or later the [n]-th answer is sent: the watch is confirmed with
    the number it was given, or refused as compacted, or as unhealthy. *)
Theorem C140_answered : forall cfg okf c sch T j i conn st n id lo hi start, tolerant okf -> (forall t, kaction_ok okf c (kat cfg sch t) (sch t)) ->
  (forall t, (T <= t)%nat -> sch t <> KCrash j) -> stream_of (kat cfg sch T) j i = Some (conn, st) -> creating j i sch ->
  nth_error (requests conn (k_log (kat cfg sch T))) n = Some (id, lo, hi, start) ->
  exists t m, (T <= t)%nat /\ nth_error (answers conn (k_log (kat cfg sch t))) n = Some m /\
    (m = MCreated id \/ (exists rev, m = MCompacted rev) \/ exists rev, m = MUnhealthy rev).
Proof. exact answered. Qed.
Print Assumptions C140_answered.

(** In every state: no more answers than requests, at most one request waits for its
    answer, and a confirmation has the number given to the request it answers. *)
Theorem C140_matched : forall cfg okf c s j i conn st, tolerant okf -> kreach cfg okf c s -> stream_of s j i = Some (conn, st) ->
  (length (answers conn (k_log s)) <= length (requests conn (k_log s)) <= S (length (answers conn (k_log s))))%nat /\
  forall n id lo hi start id', nth_error (requests conn (k_log s)) n = Some (id, lo, hi, start) -> nth_error (answers conn (k_log s)) n = Some (MCreated id') -> id' = id.
Proof. exact matched. Qed.
Print Assumptions C140_matched.

(** A stream with three create requests: one is confirmed at once, one fails because of its
    query, one is being served. *)
Definition demand : list kaction :=
  [KBoot] ++ exec_write 0 (CreateKey ka v1 0) ++
  [KOpen 0; KStream 0 0 (SCreate 0 ka kd 0); KStream 0 0 (SCreate 0 kb [] 1); KStream 0 0 (SCheck NoFault); KStream 0 0 (SQuery (FailBefore EOther)); KStream 0 0 (SCreate 0 ka [] 1)].
Definition serve (t : nat) : kaction :=
  match Nat.modulo t 3 with O => KStream 0 0 SFinish | 1%nat => KStream 0 0 (SQuery NoFault) | _ => KStream 0 0 (SCheck NoFault) end.
Definition endless (t : nat) : kaction := if (t <? length demand)%nat then nth t demand KBoot else serve (t - length demand).
Lemma endless_serve t : (length demand <= t)%nat -> endless t = serve (t - length demand).
Proof. intros L. unfold endless. destruct (Nat.ltb_spec t (length demand)); [lia|reflexivity]. Qed.
Lemma serve_comes m t : (m < 3)%nat -> exists t', (t <= t')%nat /\ endless t' = serve m.
Proof.
  intros L. exists (length demand + (t * 3 + m))%nat. split; [lia|]. rewrite endless_serve by lia.
  replace (length demand + (t * 3 + m) - length demand)%nat with (m + t * 3)%nat by lia. unfold serve. rewrite Nat.mod_add by lia. reflexivity.
Qed.
Lemma serve_stream t : exists a, serve t = KStream 0 0 a.
Proof. unfold serve. destruct (Nat.modulo t 3) as [|[|m]]; eexists; reflexivity. Qed.
Example C140_nonvacuous :
  let T := length demand in
  tolerant clean /\ (forall t, kaction_ok clean false (kat cfg0 endless t) (endless t)) /\ (forall t, (T <= t)%nat -> endless t <> KCrash 0) /\
  (exists st, stream_of (kat cfg0 endless T) 0 0 = Some (0%nat, st)) /\ creating 0 0 endless /\
  requests 0 (k_log (kat cfg0 endless T)) = [(1, ka, kd, 0); (2, kb, kb ++ [0%N], 1); (3, ka, ka ++ [0%N], 1)] /\
  answers 0 (k_log (kat cfg0 endless T)) = [MCreated 1; MUnhealthy 0] /\
  answers 0 (k_log (kat cfg0 endless (T + 7))) = [MCreated 1; MUnhealthy 0; MCreated 3].
Proof.
  cbv zeta. split; [exact clean_tolerant|]. split.
  { intros t. destruct (Nat.ltb_spec t (length demand)) as [L|L].
    - assert (F : forallb (fun t => okb (kat cfg0 endless t) (endless t)) (List.seq 0 (length demand)) = true) by (vm_compute; reflexivity).
      rewrite forallb_forall in F. specialize (F t ltac:(apply in_seq; lia)). apply okb_ok in F. destruct (endless t); cbn [kaction_ok] in *; auto; [destruct F; split; auto; discriminate|discriminate].
    - rewrite endless_serve by exact L. destruct (serve_stream (t - length demand)) as [a ->]. cbn. discriminate. }
  split. { intros t L. rewrite endless_serve by exact L. destruct (serve_stream (t - length demand)) as [a ->]. discriminate. }
  split. { eexists. vm_compute. reflexivity. }
  split. { split; [|split]; intros t.
    - destruct (serve_comes 2 t ltac:(lia)) as (t' & L & E). exists t', NoFault. split; [exact L|exact E].
    - destruct (serve_comes 1 t ltac:(lia)) as (t' & L & E). exists t', NoFault. split; [exact L|exact E].
    - destruct (serve_comes 0 t ltac:(lia)) as (t' & L & E). exists t'. split; [exact L|exact E]. }
  split; [vm_compute; reflexivity|]. split; vm_compute; reflexivity.
Qed.
