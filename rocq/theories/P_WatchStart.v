(** C215: a watch that is asked for starts, and works from then on.
    [kat cfg sch t], [cat cfg sch t]: the state of the system (Whole.v, FairWatch.v) and of the whole cluster with its
    expiry goroutines (Cluster.v, ClusterFair.v) after the first [t] turns of the infinite schedule [sch];
    [wanted], [answers], [creating], [polling], [consuming], [closed]: FairWatch.v; [creates], [polls], [consumes]:
    ClusterFair.v; [received]: Whole.v. *)
From Coq Require Import List ZArith Bool Lia Arith.
From Verif Require Import Bytes Spec Sql System Prog Backend Limited Api Pool Ledger Batch BatchKine Node Watch Stream Resume Whole FairWatch Ttl Cluster.
From Verif Require Import Demo SpecLemmas ApiLemmas NodeProofs WatchLemmas WatchProofs WatchResults StreamProofs WholeProofs FairWatchProofs FairCreateProofs ClusterFair WatchStartProofs P_Whole P_FairWatch.
From Verif Require Import Watch Stream Whole FairWatch ClusterFair.
Import ListNotations.
Open Scope Z_scope.

(** C215.  A client has asked for a watch, as its [n]-th create request on a connection: of the range [lo, hi), from revision
    [start] (0: from now on).  The server does not crash, its goroutines get their turns, its poller
    survives, the client does not cancel.  Then the [n]-th answer comes; it refuses the watch as compacted or as
    unhealthy, or it confirms it under the number it was given; and then every change [e] of the range that is ever
    committed, as revision [R], not before [start], or after the answer, is sent to the client sooner or later
    - or the server closes the stream. *)
Theorem C215_starts : forall cfg okf sch T j i conn n id lo hi start, tolerant okf -> (forall t, kaction_ok okf true (kat cfg sch t) (sch t)) ->
  (forall t, (T <= t)%nat -> sch t <> KCrash j) -> (forall t, (T <= t)%nat -> sch t <> KStream j i (SCancel id)) ->
  (forall t f, sch t = KBack j (AFetch f) -> bearable f) ->
  wanted (kat cfg sch T) j i conn n id lo hi start ->
  polling j sch -> consuming cfg j i sch -> creating j i sch ->
  exists t m, (T <= t)%nat /\ nth_error (answers conn (k_log (kat cfg sch t))) n = Some m /\
  ((exists rev, m = MCompacted rev) \/ (exists rev, m = MUnhealthy rev) \/
   m = MCreated id /\ forall t0 R e, (t <= t0)%nat -> 1 <= R -> nth_error (commits (dids (k_log (kat cfg sch t0)))) (Z.to_nat (R - 1)) = Some e -> in_range lo hi (e_key e) ->
     (0 < start <= R \/ revision (commits (dids (k_log (kat cfg sch t)))) < R) ->
     exists t', (t <= t')%nat /\
       ((exists ev, received (k_log (kat cfg sch t')) conn id ev /\ ev_rev ev = R /\ truthful_event (commits (dids (k_log (kat cfg sch t')))) R ev) \/ closed (kat cfg sch t') j i)).
Proof. exact starts. Qed.
Print Assumptions C215_starts.

(** The same with any moment [t] at which the answer is there: what is committed afterwards is delivered. *)
Theorem C215_from_the_answer : forall cfg okf sch T j i conn n id lo hi start, tolerant okf -> (forall t, kaction_ok okf true (kat cfg sch t) (sch t)) ->
  (forall t, (T <= t)%nat -> sch t <> KCrash j) -> (forall t, (T <= t)%nat -> sch t <> KStream j i (SCancel id)) ->
  (forall t f, sch t = KBack j (AFetch f) -> bearable f) ->
  wanted (kat cfg sch T) j i conn n id lo hi start ->
  polling j sch -> consuming cfg j i sch ->
  forall t t0 R e, (T <= t)%nat -> nth_error (answers conn (k_log (kat cfg sch t))) n = Some (MCreated id) ->
  (t <= t0)%nat -> 1 <= R -> nth_error (commits (dids (k_log (kat cfg sch t0)))) (Z.to_nat (R - 1)) = Some e -> in_range lo hi (e_key e) ->
  (0 < start <= R \/ revision (commits (dids (k_log (kat cfg sch t)))) < R) ->
  exists t', (t <= t')%nat /\
    ((exists ev, received (k_log (kat cfg sch t')) conn id ev /\ ev_rev ev = R /\ truthful_event (commits (dids (k_log (kat cfg sch t')))) R ev) \/ closed (kat cfg sch t') j i).
Proof. exact confirmed_delivers. Qed.
Print Assumptions C215_from_the_answer.

(** In the whole cluster, with the expiry goroutines of the servers. *)
Theorem C215_cluster : forall cfg okf sch T0 j i conn n id lo hi start, tolerant okf -> (forall t, cturn_ok okf true (cat cfg sch t) (sch t)) ->
  wanted (c_whole (cat cfg sch T0)) j i conn n id lo hi start ->
  (forall t, (T0 <= t)%nat -> sch t <> CStep (CWhole (KCrash j))) -> (forall t, (T0 <= t)%nat -> sch t <> CStep (CWhole (KStream j i (SCancel id)))) ->
  polls j sch -> consumes cfg j i sch -> creates j i sch ->
  exists t m, (T0 <= t)%nat /\ nth_error (answers conn (k_log (c_whole (cat cfg sch t)))) n = Some m /\
  ((exists rev, m = MCompacted rev) \/ (exists rev, m = MUnhealthy rev) \/
   m = MCreated id /\ forall t0 R e, (t <= t0)%nat -> 1 <= R -> nth_error (commits (c_log (cat cfg sch t0))) (Z.to_nat (R - 1)) = Some e -> in_range lo hi (e_key e) ->
     (0 < start <= R \/ revision (commits (c_log (cat cfg sch t))) < R) ->
     exists t', (t <= t')%nat /\
       ((exists ev, received (k_log (c_whole (cat cfg sch t'))) conn id ev /\ ev_rev ev = R /\ truthful_event (commits (c_log (cat cfg sch t'))) R ev) \/ closed (c_whole (cat cfg sch t')) j i)).
Proof. exact cluster_starts. Qed.
Print Assumptions C215_cluster.

(** The schedule of P_FairWatch.v, where server 1 serves requests too.  At time [asked] the request for watch 1 from
    revision 2 has been received and not answered. *)
Definition asked : nat := (length ([KBoot; KBoot] ++ exec_write 0 (CreateKey ka v1 0)) + 2)%nat.
Definition part7 (r : nat) : kaction :=
  match r with O => KBack 1 (AFetch NoFault) | 1%nat => KBack 1 APublish | 2%nat => KStream 1 0 SRecv | 3%nat => KStream 1 0 SSend
  | 4%nat => KStream 1 0 (SCheck NoFault) | 5%nat => KStream 1 0 (SQuery NoFault) | _ => KStream 1 0 SFinish end.
Definition sched7 (t : nat) : kaction := if (t <? length opening)%nat then nth t opening KBoot else part7 (Nat.modulo (t - length opening) 7).
Definition at7 (t : nat) : kstate := kat cfg0 sched7 t.
Lemma later7 t : (length opening <= t)%nat -> sched7 t = part7 (Nat.modulo (t - length opening) 7).
Proof. intros L. unfold sched7. destruct (Nat.ltb_spec t (length opening)); [lia|reflexivity]. Qed.
Lemma comes7 m t : (m < 7)%nat -> exists t', (t <= t')%nat /\ (length opening <= t')%nat /\ sched7 t' = part7 m.
Proof.
  intros L. exists (length opening + (t * 7 + m))%nat. split; [lia|]. split; [lia|]. rewrite later7 by lia. f_equal.
  replace (length opening + (t * 7 + m) - length opening)%nat with (m + t * 7)%nat by lia. rewrite Nat.mod_add by lia. now apply Nat.mod_small.
Qed.
Lemma idle_step s a : (match a with SCheck _ | SQuery _ | SFinish => True | _ => False end) -> s_creating s = None -> sstep s a = s.
Proof. intros H C. destruct a; try contradiction; cbn [sstep]; now rewrite C. Qed.
Lemma ok7 s m : good_state s -> kaction_ok clean true s (part7 m).
Proof.
  intros G. destruct m as [|[|[|[|m]]]].
  1-4: match goal with |- kaction_ok _ _ _ (part7 ?m) => exact (good_ok s m G) end.
  assert (E : exists a, part7 (S (S (S (S m)))) = KStream 1 0 a /\ match a with SCheck _ | SQuery _ | SFinish => True | _ => False end) by (destruct m as [|[|m]]; eexists; split; try reflexivity; exact Logic.I).
  destruct G as (J & RV & v & c & st & N & NS & CR). destruct E as (a & -> & HA). cbn [kaction_ok]. intros _ v' c' st' N' NS'.
  assert (v' = v) as -> by congruence. assert (st' = st) as -> by congruence. destruct a; try contradiction; cbn; rewrite ?CR; exact Logic.I.
Qed.
Lemma next7 s m : good_state s -> good_state (ktry cfg0 s (part7 m)).
Proof.
  intros G. pose proof (ok7 s m G) as O. destruct m as [|[|[|[|m]]]].
  1-4: match goal with |- good_state (ktry _ _ (part7 ?m)) => exact (good_next s m G) end.
  assert (E : exists a, part7 (S (S (S (S m)))) = KStream 1 0 a /\ match a with SCheck _ | SQuery _ | SFinish => True | _ => False end) by (destruct m as [|[|m]]; eexists; split; try reflexivity; exact Logic.I).
  destruct G as (J & RV & v & c & st & N & NS & CR). destruct E as (a & E & HA). rewrite E in O |- *.
  assert (KE : exists s', kstep cfg0 s (KStream 1 0 a) = Some s' /\ n_world (k_node s') = n_world (k_node s) /\
    exists v c st, nth_error (k_servers s') 1 = Some v /\ nth_error (k_streams v) 0 = Some (c, st) /\ s_creating st = None).
  { destruct s as [nd sv log n]. cbn [k_servers k_node] in *.
    assert (X : kstep cfg0 (KState nd sv log n) (KStream 1 0 a) = match nth_error sv 1 with Some v => match nth_error (k_streams v) 0 with Some (conn, st0) => let st := synced (n_world nd) v st0 in let st' := sstep st a in
        Some (KState nd (put 1 (KServer (s_b st') (put 0 (conn, st') (k_streams v))) sv) (log ++ told_by conn a st st') n) | None => None end | None => None end) by (destruct a; try contradiction; reflexivity).
    rewrite X, N, NS. cbv zeta. eexists. split; [reflexivity|]. split; [reflexivity|]. cbn [k_servers]. rewrite put_nth, Nat.eqb_refl, N. cbn [option_map]. do 3 eexists. split; [reflexivity|]. cbn [k_streams].
    rewrite put_nth, Nat.eqb_refl, NS. cbn [option_map]. split; [reflexivity|]. rewrite (idle_step _ a HA); exact CR. }
  destruct KE as (s' & KE & EW & X). unfold ktry. rewrite KE. split; [|split; [rewrite EW; exact RV|exact X]]. eapply KI_step; eauto. exact clean_tolerant.
Qed.
Lemma opening7 t : (t < length opening)%nat -> kaction_ok clean true (at7 t) (sched7 t).
Proof.
  assert (F : forallb (fun t => okb (at7 t) (sched7 t)) (List.seq 0 (length opening)) = true) by (vm_compute; reflexivity).
  intros L. apply okb_ok. rewrite forallb_forall in F. apply F. apply in_seq. lia.
Qed.
Lemma good7 t : (length opening <= t)%nat -> good_state (at7 t).
Proof.
  intros L. induction L as [|t L IH].
  - split; [|split; [vm_compute; reflexivity|]; eexists _, _, _; split; [vm_compute; reflexivity|]; split; reflexivity].
    assert (X : forall t, (t <= length opening)%nat -> KI cfg0 clean true (at7 t)); [|apply X; lia].
    induction t as [|t IH]; intros Lt; [exact (KI_init cfg0 clean true)|]. unfold at7. cbn [kat]. fold (at7 t). unfold ktry. specialize (IH ltac:(lia)).
    destruct (kstep cfg0 (at7 t) (sched7 t)) as [s'|] eqn:E; [|exact IH]. eapply KI_step; eauto; [exact clean_tolerant|]. apply opening7. lia.
  - unfold at7. cbn [kat]. fold (at7 t). rewrite later7 by exact L. now apply next7.
Qed.
Lemma all7 t : kaction_ok clean true (at7 t) (sched7 t).
Proof. destruct (Nat.ltb_spec t (length opening)) as [L|L]; [now apply opening7|]. rewrite later7 by exact L. apply ok7. now apply good7. Qed.
Lemma cases7 (P : kaction -> Prop) : (forall t, (t < length opening)%nat -> P (nth t opening KBoot)) -> (forall m, P (part7 m)) -> forall t, P (sched7 t).
Proof. intros H1 H2 t. unfold sched7. destruct (Nat.ltb_spec t (length opening)); auto. Qed.

Example C215_nonvacuous :
  tolerant clean /\ (forall t, kaction_ok clean true (kat cfg0 sched7 t) (sched7 t)) /\
  (forall t, sched7 t <> KCrash 1) /\ (forall t, sched7 t <> KStream 1 0 (SCancel 1)) /\ (forall t f, sched7 t = KBack 1 (AFetch f) -> bearable f) /\
  wanted (kat cfg0 sched7 asked) 1 0 0 0 1 ka kd 2 /\ answers 0 (k_log (kat cfg0 sched7 asked)) = [] /\
  polling 1 sched7 /\ consuming cfg0 1 0 sched7 /\ creating 1 0 sched7 /\
  nth_error (answers 0 (k_log (kat cfg0 sched7 (length opening)))) 0 = Some (MCreated 1) /\
  said 0 (k_log (kat cfg0 sched7 (length opening + 4))) = [MCreated 1; MEvents 3 1 [ev1; ev2; ev3]].
Proof.
  assert (NF : forall t, match sched7 t with KCrash _ => False | KStream 1 0 (SCancel _) => False | KBack _ (AFetch f) => f = NoFault | _ => True end).
  { apply (cases7 (fun x => match x with KCrash _ => False | KStream 1 0 (SCancel _) => False | KBack _ (AFetch f) => f = NoFault | _ => True end)).
    - assert (F : forallb (fun x => match x with KCrash _ => false | KStream 1 0 (SCancel _) => false | KBack _ (AFetch f) => false | _ => true end) opening = true) by (vm_compute; reflexivity).
      intros t L. rewrite forallb_forall in F. specialize (F _ (nth_In _ KBoot L)). destruct (nth t opening KBoot) as [x| |j|j []|j|[|[|j]] [|i] []]; try exact Logic.I; discriminate F.
    - intros m. destruct m as [|[|[|[|[|[|m]]]]]]; cbn; auto. }
  split; [exact clean_tolerant|]. split; [exact all7|].
  split; [intros t E; specialize (NF t); rewrite E in NF; exact NF|]. split; [intros t E; specialize (NF t); rewrite E in NF; exact NF|].
  assert (BE : forall t f, sched7 t = KBack 1 (AFetch f) -> bearable f) by (intros t f E; specialize (NF t); rewrite E in NF; subst f; exact Logic.I).
  split; [exact BE|]. split.
  { split; [vm_compute; reflexivity|]. eexists _, _. split; [vm_compute; reflexivity|]. split; [vm_compute; reflexivity|]. split; [vm_compute; tauto|vm_compute; reflexivity]. }
  split; [vm_compute; reflexivity|]. split.
  { split; [|split; [|exact BE]]; intros t; [destruct (comes7 0 t ltac:(lia)) as (t' & L & _ & E)|destruct (comes7 1 t ltac:(lia)) as (t' & L & _ & E)]; exists t'; auto. }
  split. { split; intros t; [destruct (comes7 2 t ltac:(lia)) as (t' & L & _ & E); exists t'; auto|].
    destruct (comes7 3 t ltac:(lia)) as (t' & L & L' & E). exists t'. split; [exact L|]. split; [exact E|].
    destruct (good7 t' L') as (_ & _ & v & c & st & N & NS & CR). unfold idle, stream_of. change (kat cfg0 sched7 t') with (at7 t'). rewrite N, NS. eexists _, _. split; [reflexivity|]. exact CR. }
  split. { split; [|split]; intros t; [destruct (comes7 4 t ltac:(lia)) as (t' & L & _ & E)|destruct (comes7 5 t ltac:(lia)) as (t' & L & _ & E)|destruct (comes7 6 t ltac:(lia)) as (t' & L & _ & E)];
    [exists t', NoFault; auto|exists t', NoFault; auto|exists t'; auto]. }
  split; vm_compute; reflexivity.
Qed.
(** The same schedule in the cluster (whose expiry goroutines get no turns). *)
Definition csched7 (t : nat) : cturn := CStep (CWhole (sched7 t)).
Lemma plain7 s t : not_expiry s (sched7 t) = true.
Proof.
  apply (cases7 (fun x => not_expiry s x = true)).
  - assert (F : forallb (fun x => match x with KNode (NAsk _ (WExpire _ _)) => false | KBack _ _ => false | _ => true end) opening = true) by (vm_compute; reflexivity).
    intros k L. rewrite forallb_forall in F. specialize (F _ (nth_In _ KBoot L)). destruct (nth k opening KBoot) as [x| |j|j a|j|j i a]; try reflexivity; [|discriminate F].
    destruct x; try reflexivity. match goal with |- context[NAsk _ ?q] => destruct q end; try reflexivity; discriminate F.
  - intros m. destruct m as [|[|[|[|[|[|m]]]]]]; cbn [part7 not_expiry]; try reflexivity; destruct (nth_error _ 1) as [e|]; try reflexivity; [apply ClusterWatchProofs.outside_fetch|apply ClusterWatchProofs.outside_publish].
Qed.
Lemma whole7 t : c_whole (cat cfg0 csched7 t) = at7 t.
Proof.
  unfold at7. rewrite (ClusterWatchProofs.whole_at cfg0 csched7). assert (E : forall u, ClusterWatchProofs.ksch cfg0 csched7 u = sched7 u) by (intros u; unfold ClusterWatchProofs.ksch, csched7; cbn [ClusterWatchProofs.rest_of]; now rewrite plain7).
  induction t as [|t IH]; [reflexivity|]. cbn [kat]. now rewrite IH, E.
Qed.
Example C215_nonvacuous_cluster :
  (forall t, cturn_ok clean true (cat cfg0 csched7 t) (csched7 t)) /\
  wanted (c_whole (cat cfg0 csched7 asked)) 1 0 0 0 1 ka kd 2 /\
  (forall t, csched7 t <> CStep (CWhole (KCrash 1))) /\ (forall t, csched7 t <> CStep (CWhole (KStream 1 0 (SCancel 1)))) /\
  polls 1 csched7 /\ consumes cfg0 1 0 csched7 /\ creates 1 0 csched7.
Proof.
  destruct C215_nonvacuous as (_ & _ & C3 & C4 & C5 & C6 & _ & (P1 & P2 & P3) & (K1 & K2) & (R1 & R2 & R3) & _).
  split. { intros t. unfold csched7 at 2. cbn [cturn_ok caction_ok whole_part]. rewrite whole7. apply all7. }
  split; [rewrite whole7; exact C6|]. split; [intros t E; injection E as E; exact (C3 t E)|]. split; [intros t E; injection E as E; exact (C4 t E)|].
  split. { split; [|split].
    - intros t. destruct (P1 t) as (t' & L & E). exists t'. split; [exact L|]. unfold csched7. now rewrite E.
    - intros t. destruct (P2 t) as (t' & L & E). exists t'. split; [exact L|]. unfold csched7. now rewrite E.
    - intros t f E. injection E as E. exact (P3 t f E). }
  split. { split.
    - intros t. destruct (K1 t) as (t' & L & E). exists t'. split; [exact L|]. unfold csched7. now rewrite E.
    - intros t. destruct (K2 t) as (t' & L & E & ID). exists t'. split; [exact L|]. split; [unfold csched7; now rewrite E|]. rewrite whole7. exact ID. }
  split; [|split]; intros t.
  - destruct (R1 t) as (t' & f & L & E). exists t'. split; [exact L|]. exists f. unfold csched7. now rewrite E.
  - destruct (R2 t) as (t' & f & L & E). exists t'. split; [exact L|]. exists f. unfold csched7. now rewrite E.
  - destruct (R3 t) as (t' & L & E). exists t'. split; [exact L|]. unfold csched7. now rewrite E.
Qed.
