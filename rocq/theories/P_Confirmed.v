(** C227: on a healthy database a watch from a recent revision is confirmed, and a list-and-watch client catches up.
    [cat cfg sch t]: the state of the cluster after the first [t] turns of the infinite schedule [sch] (Cluster.v,
    ClusterFair.v); [wanted], [answers], [closed]: FairWatch.v; [polls], [consumes], [creates]: ClusterFair.v;
    [SCheck f], [SQuery f]: the two reads of the database that answering a create request takes, with the fault they meet
    (Stream.v, Watch.v); [mirror], [newer], [copy_at]: the copy that a client keeps (Reflector.v). *)
From Coq Require Import List ZArith Bool Lia Arith.
From Verif Require Import Bytes Spec Sql System Prog Backend Limited Api Pool Ledger Batch BatchKine Node Watch Stream Resume Whole FairWatch Ttl Cluster Reflector.
From Verif Require Import Demo SpecLemmas ApiLemmas NodeProofs WatchLemmas WatchProofs WatchResults StreamProofs WholeProofs FairWatchProofs FairCreateProofs ClusterFair ClusterWatchProofs WatchStartProofs ConvergeProofs P_Whole P_FairWatch P_WatchStart P_Converge ConfirmedProofs.
From Verif Require Import Watch Stream Whole FairWatch ClusterFair Reflector.
Import ListNotations.
Open Scope Z_scope.

(** C227.  A client has asked for a watch, from now on or from a revision of which no answer comes more than 100 changes
    late, and the reads of its stream do not fail.  The server does not crash, its goroutines get their turns, its poller
    survives, the client does not cancel - whatever faults everything else meets.  Then it is told that the watch is created,
    and every change of the range from the start on is delivered - unless the server closes the stream. *)
Theorem C227_confirmed : forall cfg okf sch T j i conn n id lo hi start, tolerant okf -> (forall t, cturn_ok okf true (cat cfg sch t) (sch t)) ->
  wanted (c_whole (cat cfg sch T)) j i conn n id lo hi start -> nth_error (answers conn (k_log (c_whole (cat cfg sch T)))) n = None ->
  (forall t, (T <= t)%nat -> sch t <> CStep (CWhole (KCrash j))) -> (forall t, (T <= t)%nat -> sch t <> CStep (CWhole (KStream j i (SCancel id)))) ->
  (forall t f, (T <= t)%nat -> sch t = CStep (CWhole (KStream j i (SCheck f))) \/ sch t = CStep (CWhole (KStream j i (SQuery f))) -> f = NoFault) ->
  (start <= 0 \/ forall t, (T <= t)%nat -> nth_error (answers conn (k_log (c_whole (cat cfg sch t)))) n = None -> revision (commits (c_log (cat cfg sch (S t)))) <= start + 100) ->
  polls j sch -> consumes cfg j i sch -> creates j i sch ->
  exists t, (T <= t)%nat /\ nth_error (answers conn (k_log (c_whole (cat cfg sch t)))) n = Some (MCreated id) /\
  forall t0 R e, (t <= t0)%nat -> 1 <= R -> nth_error (commits (c_log (cat cfg sch t0))) (Z.to_nat (R - 1)) = Some e -> in_range lo hi (e_key e) ->
    (0 < start <= R \/ revision (commits (c_log (cat cfg sch t))) < R) ->
    exists t', (t <= t')%nat /\
      ((exists ev, received (k_log (c_whole (cat cfg sch t'))) conn id ev /\ ev_rev ev = R /\ truthful_event (commits (c_log (cat cfg sch t'))) R ev) \/ closed (c_whole (cat cfg sch t')) j i).
Proof.
  intros cfg okf sch T j i conn n id lo hi start TO OK WA UN NC NK WE RE PO CO CR.
  destruct (cluster_starts cfg okf sch T j i conn n id lo hi start TO OK WA NC NK PO CO CR) as (t & m & L & A & D).
  pose proof (answer_is_created cfg okf true sch T j i conn n id lo hi start TO OK WA UN NC WE RE t m L A) as ->.
  exists t. split; [exact L|]. split; [exact A|]. destruct D as [[rev D]|[[rev D]|[_ D]]]; try discriminate D. exact D.
Qed.
Print Assumptions C227_confirmed.

(** A client that has listed the range, on any server and while at most 100 changes were made, and asks for a watch from the
    revision after that of the list, of which no answer comes more than 100 changes late: it is told that the watch is
    created, and from then on it catches up with every revision that is ever reached; and if the range is not changed any
    more, its copy is the content of the range at last and remains so - unless the server closes the stream. *)
Theorem C227_catches : forall cfg sch T j i conn n id lo hi before during after li resp, (forall t, cturn_ok clean true (cat cfg sch t) (sch t)) ->
  (forall t, (T <= t)%nat -> sch t <> CStep (CWhole (KCrash j))) -> (forall t, (T <= t)%nat -> sch t <> CStep (CWhole (KStream j i (SCancel id)))) ->
  (forall t f, (T <= t)%nat -> sch t = CStep (CWhole (KStream j i (SCheck f))) \/ sch t = CStep (CWhole (KStream j i (SQuery f))) -> f = NoFault) ->
  hi <> [] -> answered_request (c_log (cat cfg sch T)) before during after li (WRange (range lo hi 0 0)) (ReRange (Ok resp)) -> revision (commits during) <= 100 ->
  wanted (c_whole (cat cfg sch T)) j i conn n id lo hi (rr_header resp + 1) -> nth_error (answers conn (k_log (c_whole (cat cfg sch T)))) n = None ->
  (forall t, (T <= t)%nat -> nth_error (answers conn (k_log (c_whole (cat cfg sch t)))) n = None -> revision (commits (c_log (cat cfg sch (S t)))) <= rr_header resp + 101) ->
  polls j sch -> consumes cfg j i sch -> creates j i sch ->
  let h := fun t => commits (c_log (cat cfg sch t)) in
  let copy := fun t => mirror (rr_kvs resp) (newer (rr_header resp) (sent (said conn (k_log (c_whole (cat cfg sch t)))) id)) in
  exists t, (T <= t)%nat /\ nth_error (answers conn (k_log (c_whole (cat cfg sch t)))) n = Some (MCreated id) /\
   (forall t0 N, (t <= t0)%nat -> N <= revision (h t0) ->
     exists t1, (t <= t1)%nat /\ (closed (c_whole (cat cfg sch t1)) j i \/
       forall t2, (t1 <= t2)%nat -> exists b, N <= b <= revision (h t2) /\ copy_at (h t2) b lo hi (copy t2))) /\
   (forall t0, (t <= t0)%nat -> (forall t2 r x, (t0 <= t2)%nat -> revision (h t0) < r -> nth_error (h t2) (Z.to_nat (r - 1)) = Some x -> ~ in_range lo hi (e_key x)) ->
     exists t1, (t <= t1)%nat /\ (closed (c_whole (cat cfg sch t1)) j i \/
       forall t2, (t1 <= t2)%nat -> copy_at (h t2) (revision (h t2)) lo hi (copy t2))).
Proof. exact confirmed_catches. Qed.
Print Assumptions C227_catches.

(** The case of P_Converge.v: the client lists [ka, kd) at server 0 and asks server 1. *)
Definition unanswered8 (t : nat) : bool := match nth_error (answers 0 (k_log (at8 t))) 0 with None => true | Some _ => false end.
Example C227_nonvacuous : exists before during after,
  (forall t, cturn_ok clean true (cat cfg0 csched8 t) (csched8 t)) /\
  (forall t, csched8 t <> CStep (CWhole (KCrash 1))) /\ (forall t, csched8 t <> CStep (CWhole (KStream 1 0 (SCancel 1)))) /\
  (forall t f, csched8 t = CStep (CWhole (KStream 1 0 (SCheck f))) \/ csched8 t = CStep (CWhole (KStream 1 0 (SQuery f))) -> f = NoFault) /\
  kd <> [] /\ answered_request (c_log (cat cfg0 csched8 asked8)) before during after 1 (WRange (range ka kd 0 0)) (ReRange (Ok listing)) /\ revision (commits during) <= 100 /\
  wanted (c_whole (cat cfg0 csched8 asked8)) 1 0 0 0 1 ka kd (rr_header listing + 1) /\
  nth_error (answers 0 (k_log (c_whole (cat cfg0 csched8 asked8)))) 0 = None /\
  (forall t, (asked8 <= t)%nat -> nth_error (answers 0 (k_log (c_whole (cat cfg0 csched8 t)))) 0 = None -> revision (commits (c_log (cat cfg0 csched8 (S t)))) <= rr_header listing + 101) /\
  polls 1 csched8 /\ consumes cfg0 1 0 csched8 /\ creates 1 0 csched8 /\
  nth_error (answers 0 (k_log (c_whole (cat cfg0 csched8 (length opening8))))) 0 = Some (MCreated 1).
Proof.
  destruct C216_nonvacuous as (before & during & after & P1 & P2 & P3 & P4 & P5 & P6 & P7 & P8 & P9 & P10 & P11 & _).
  exists before, during, after. split; [exact P1|]. split; [exact P2|]. split; [exact P3|]. split.
  { assert (NF : forall t, match sched8 t with KStream 1 0 (SCheck f) => f = NoFault | KStream 1 0 (SQuery f) => f = NoFault | _ => True end).
    { apply (cases8 (fun x => match x with KStream 1 0 (SCheck f) => f = NoFault | KStream 1 0 (SQuery f) => f = NoFault | _ => True end)).
      - assert (F : forallb (fun x => match x with KStream 1 0 (SCheck NoFault) => true | KStream 1 0 (SQuery NoFault) => true | KStream 1 0 (SCheck _) => false | KStream 1 0 (SQuery _) => false | _ => true end) opening8 = true) by (vm_compute; reflexivity).
        intros t L. rewrite forallb_forall in F. specialize (F _ (nth_In _ KBoot L)). destruct (nth t opening8 KBoot) as [x| |j|j a|j|[|[|j]] [|i] a]; try exact Logic.I; destruct a as [| | | | | |f|f| | | | |]; try exact Logic.I; destruct f; try reflexivity; discriminate F.
      - intros m. destruct m as [|[|[|[|[|[|m]]]]]]; cbn; auto. }
    intros t f [E|E]; injection E as E; specialize (NF t); rewrite E in NF; exact NF. }
  split; [exact P4|]. split; [exact P5|]. split; [exact P6|]. split; [exact P7|]. split; [rewrite whole8; vm_compute; reflexivity|]. split.
  { intros t L U. unfold c_log. rewrite !whole8 in *.
    assert (F : forallb (fun t => (revision (commits (dids (k_log (at8 (S t))))) <=? 102)) (List.seq 0 (length opening8)) = true) by (vm_compute; reflexivity).
    destruct (Nat.lt_ge_cases t (length opening8)) as [LT|GE].
    - rewrite forallb_forall in F. specialize (F t ltac:(apply in_seq; lia)). apply Z.leb_le in F. exact F.
    - exfalso. destruct (kat_log cfg0 sched8 (length opening8) t GE) as [l El]. unfold at8 in U. rewrite El, answers_app in U.
      assert (N : nth_error (answers 0 (k_log (kat cfg0 sched8 (length opening8)))) 0 = Some (MCreated 1)) by (vm_compute; reflexivity).
      rewrite (nth_app_some _ _ _ _ N) in U. discriminate U. }
  split; [exact P8|]. split; [exact P9|]. split; [exact P10|]. exact P11.
Qed.
