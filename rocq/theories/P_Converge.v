(** C216: list-and-watch clients catch up, in the whole cluster.
    [cat cfg sch t]: the state of the cluster after the first [t] turns of the infinite schedule [sch] (Cluster.v,
    ClusterFair.v); [wanted], [answers], [closed]: FairWatch.v; [polls], [consumes], [creates]: ClusterFair.v;
    [mirror], [newer], [copy_at]: the copy that such a client keeps (Reflector.v); [received], [said]: Whole.v. *)
From Coq Require Import List ZArith Bool Lia Arith.
From Verif Require Import Bytes Spec Sql System Prog Backend Limited Api Pool Ledger Batch BatchKine Node Watch Stream Resume Whole FairWatch Ttl Cluster Reflector.
From Verif Require Import Demo SpecLemmas ApiLemmas NodeProofs WatchLemmas WatchProofs WatchResults StreamProofs WholeProofs FairWatchProofs FairCreateProofs ClusterFair ClusterWatchProofs WatchStartProofs ConvergeProofs P_Whole P_FairWatch P_WatchStart.
From Verif Require Import Watch Stream Whole FairWatch ClusterFair Reflector.
Import ListNotations.
Open Scope Z_scope.

(** C216.  A client has listed a range, on any server and while at most 100 changes were made, and asked, on any
    server, for a watch from the revision after that of the list; it applies the events newer than the list.
    The server of the watch does not crash, its goroutines get their turns, its poller survives, the client does not cancel.
    Then the request is answered; it is refused (compacted, unhealthy), or from then on the client catches up
    with every revision [N] that is ever reached: sooner or later its copy is the content of the range at a
    revision not before [N], and remains so - unless the server closes the stream.  And if the range is not
    changed any more, the copy is its content at last and remains so. *)
Theorem C216_converges : forall cfg sch T j i conn n id lo hi before during after li resp, (forall t, cturn_ok clean true (cat cfg sch t) (sch t)) ->
  (forall t, (T <= t)%nat -> sch t <> CStep (CWhole (KCrash j))) -> (forall t, (T <= t)%nat -> sch t <> CStep (CWhole (KStream j i (SCancel id)))) ->
  hi <> [] -> answered_request (c_log (cat cfg sch T)) before during after li (WRange (range lo hi 0 0)) (ReRange (Ok resp)) -> revision (commits during) <= 100 ->
  wanted (c_whole (cat cfg sch T)) j i conn n id lo hi (rr_header resp + 1) ->
  polls j sch -> consumes cfg j i sch -> creates j i sch ->
  let h := fun t => commits (c_log (cat cfg sch t)) in
  let copy := fun t => mirror (rr_kvs resp) (newer (rr_header resp) (sent (said conn (k_log (c_whole (cat cfg sch t)))) id)) in
  exists t m, (T <= t)%nat /\ nth_error (answers conn (k_log (c_whole (cat cfg sch t)))) n = Some m /\
  ((exists rev, m = MCompacted rev) \/ (exists rev, m = MUnhealthy rev) \/
   m = MCreated id /\
   (forall t0 N, (t <= t0)%nat -> N <= revision (h t0) ->
     exists t1, (t <= t1)%nat /\ (closed (c_whole (cat cfg sch t1)) j i \/
       forall t2, (t1 <= t2)%nat -> exists b, N <= b <= revision (h t2) /\ copy_at (h t2) b lo hi (copy t2))) /\
   (forall t0, (t <= t0)%nat -> (forall t2 r x, (t0 <= t2)%nat -> revision (h t0) < r -> nth_error (h t2) (Z.to_nat (r - 1)) = Some x -> ~ in_range lo hi (e_key x)) ->
     exists t1, (t <= t1)%nat /\ (closed (c_whole (cat cfg sch t1)) j i \/
       forall t2, (t1 <= t2)%nat -> copy_at (h t2) (revision (h t2)) lo hi (copy t2)))).
Proof. exact cluster_converges. Qed.
Print Assumptions C216_converges.

(** At every moment, whether events have just arrived or not, and whoever gets turns: its copy is the content of the range at one
    revision, not before that of the list or of any event received. *)
Theorem C216_always : forall cfg sch T j i conn n id lo hi before during after li resp, (forall t, cturn_ok clean true (cat cfg sch t) (sch t)) ->
  (forall t, (T <= t)%nat -> sch t <> CStep (CWhole (KCrash j))) -> (forall t, (T <= t)%nat -> sch t <> CStep (CWhole (KStream j i (SCancel id)))) ->
  (forall t f, sch t = CStep (CWhole (KBack j (AFetch f))) -> bearable f) ->
  hi <> [] -> answered_request (c_log (cat cfg sch T)) before during after li (WRange (range lo hi 0 0)) (ReRange (Ok resp)) -> revision (commits during) <= 100 ->
  wanted (c_whole (cat cfg sch T)) j i conn n id lo hi (rr_header resp + 1) ->
  forall t, (T <= t)%nat -> exists b, rr_header resp <= b <= revision (commits (c_log (cat cfg sch t))) /\
    (forall ev, received (k_log (c_whole (cat cfg sch t))) conn id ev -> ev_rev ev <= b) /\
    copy_at (commits (c_log (cat cfg sch t))) b lo hi (mirror (rr_kvs resp) (newer (rr_header resp) (sent (said conn (k_log (c_whole (cat cfg sch t)))) id))).
Proof. exact cluster_client_right. Qed.
Print Assumptions C216_always.

(** Two servers.  A client lists [ka, kd) at server 0 and asks server 1 for a watch; then [kb] is created
    and [ka] updated at server 0; then the goroutines of server 1 run forever. *)
Definition opening8 : list kaction :=
  [KBoot; KBoot] ++ exec_write 0 (CreateKey ka v1 0) ++ exec_range 0 2 (range ka kd 0 0) ++
  [KOpen 1; KStream 1 0 (SCreate 0 ka kd 2); KStream 1 0 (SCheck NoFault); KStream 1 0 (SQuery NoFault); KStream 1 0 SFinish] ++
  exec_write 0 (CreateKey kb v2 0) ++ exec_write 0 (UpdateKey ka v3 1 0).
Definition asked8 : nat := (length ([KBoot; KBoot] ++ exec_write 0 (CreateKey ka v1 0) ++ exec_range 0 2 (range ka kd 0 0)) + 2)%nat.
Definition sched8 (t : nat) : kaction := if (t <? length opening8)%nat then nth t opening8 KBoot else part7 (Nat.modulo (t - length opening8) 7).
Definition at8 (t : nat) : kstate := kat cfg0 sched8 t.
Lemma later8 t : (length opening8 <= t)%nat -> sched8 t = part7 (Nat.modulo (t - length opening8) 7).
Proof. intros L. unfold sched8. destruct (Nat.ltb_spec t (length opening8)); [lia|reflexivity]. Qed.
Lemma comes8 m t : (m < 7)%nat -> exists t', (t <= t')%nat /\ (length opening8 <= t')%nat /\ sched8 t' = part7 m.
Proof.
  intros L. exists (length opening8 + (t * 7 + m))%nat. split; [lia|]. split; [lia|]. rewrite later8 by lia. f_equal.
  replace (length opening8 + (t * 7 + m) - length opening8)%nat with (m + t * 7)%nat by lia. rewrite Nat.mod_add by lia. now apply Nat.mod_small.
Qed.
Lemma opening8_ok t : (t < length opening8)%nat -> kaction_ok clean true (at8 t) (sched8 t).
Proof.
  assert (F : forallb (fun t => okb (at8 t) (sched8 t)) (List.seq 0 (length opening8)) = true) by (vm_compute; reflexivity).
  intros L. apply okb_ok. rewrite forallb_forall in F. apply F. apply in_seq. lia.
Qed.
Lemma good8 t : (length opening8 <= t)%nat -> good_state (at8 t).
Proof.
  intros L. induction L as [|t L IH].
  - split; [|split; [vm_compute; reflexivity|]; eexists _, _, _; split; [vm_compute; reflexivity|]; split; reflexivity].
    assert (X : forall t, (t <= length opening8)%nat -> KI cfg0 clean true (at8 t)); [|apply X; lia].
    induction t as [|t IH]; intros Lt; [exact (KI_init cfg0 clean true)|]. unfold at8. cbn [kat]. fold (at8 t). unfold ktry. specialize (IH ltac:(lia)).
    destruct (kstep cfg0 (at8 t) (sched8 t)) as [s'|] eqn:E; [|exact IH]. eapply KI_step; eauto; [exact clean_tolerant|]. apply opening8_ok. lia.
  - unfold at8. cbn [kat]. fold (at8 t). rewrite later8 by exact L. now apply next7.
Qed.
Lemma all8 t : kaction_ok clean true (at8 t) (sched8 t).
Proof. destruct (Nat.ltb_spec t (length opening8)) as [L|L]; [now apply opening8_ok|]. rewrite later8 by exact L. apply ok7. now apply good8. Qed.
Lemma cases8 (P : kaction -> Prop) : (forall t, (t < length opening8)%nat -> P (nth t opening8 KBoot)) -> (forall m, P (part7 m)) -> forall t, P (sched8 t).
Proof. intros H1 H2 t. unfold sched8. destruct (Nat.ltb_spec t (length opening8)); auto. Qed.
Definition csched8 (t : nat) : cturn := CStep (CWhole (sched8 t)).
Lemma plain8 s t : not_expiry s (sched8 t) = true.
Proof.
  apply (cases8 (fun x => not_expiry s x = true)).
  - assert (F : forallb (fun x => match x with KNode (NAsk _ (WExpire _ _)) => false | KBack _ _ => false | _ => true end) opening8 = true) by (vm_compute; reflexivity).
    intros k L. rewrite forallb_forall in F. specialize (F _ (nth_In _ KBoot L)). destruct (nth k opening8 KBoot) as [x| |j|j a|j|j i a]; try reflexivity; [|discriminate F].
    destruct x; try reflexivity. match goal with |- context[NAsk _ ?q] => destruct q end; try reflexivity; discriminate F.
  - intros m. destruct m as [|[|[|[|[|[|m]]]]]]; cbn [part7 not_expiry]; try reflexivity; destruct (nth_error _ 1) as [e|]; try reflexivity; [apply outside_fetch|apply outside_publish].
Qed.
Lemma whole8 t : c_whole (cat cfg0 csched8 t) = at8 t.
Proof.
  unfold at8. rewrite (whole_at cfg0 csched8). assert (E : forall u, ksch cfg0 csched8 u = sched8 u) by (intros u; unfold ksch, csched8; cbn [rest_of]; now rewrite plain8).
  induction t as [|t IH]; [reflexivity|]. cbn [kat]. now rewrite IH, E.
Qed.
Definition listing : range_resp := RangeResp 1 [KV ka v1 0 1 1] false 1.
Example C216_nonvacuous : exists before during after,
  (forall t, cturn_ok clean true (cat cfg0 csched8 t) (csched8 t)) /\
  (forall t, csched8 t <> CStep (CWhole (KCrash 1))) /\ (forall t, csched8 t <> CStep (CWhole (KStream 1 0 (SCancel 1)))) /\
  kd <> [] /\ answered_request (c_log (cat cfg0 csched8 asked8)) before during after 1 (WRange (range ka kd 0 0)) (ReRange (Ok listing)) /\ revision (commits during) <= 100 /\
  wanted (c_whole (cat cfg0 csched8 asked8)) 1 0 0 0 1 ka kd (rr_header listing + 1) /\
  polls 1 csched8 /\ consumes cfg0 1 0 csched8 /\ creates 1 0 csched8 /\
  nth_error (answers 0 (k_log (c_whole (cat cfg0 csched8 (length opening8))))) 0 = Some (MCreated 1) /\
  newer 1 (sent (said 0 (k_log (c_whole (cat cfg0 csched8 (length opening8 + 4))))) 1) = [ev2; ev3].
Proof.
  exists (firstn 3 (dids (k_log (at8 asked8)))), [], [].
  assert (NF : forall t, match sched8 t with KCrash _ => False | KStream 1 0 (SCancel _) => False | KBack _ (AFetch f) => f = NoFault | _ => True end).
  { apply (cases8 (fun x => match x with KCrash _ => False | KStream 1 0 (SCancel _) => False | KBack _ (AFetch f) => f = NoFault | _ => True end)).
    - assert (F : forallb (fun x => match x with KCrash _ => false | KStream 1 0 (SCancel _) => false | KBack _ (AFetch f) => false | _ => true end) opening8 = true) by (vm_compute; reflexivity).
      intros t L. rewrite forallb_forall in F. specialize (F _ (nth_In _ KBoot L)). destruct (nth t opening8 KBoot) as [x| |j|j []|j|[|[|j]] [|i] []]; try exact Logic.I; discriminate F.
    - intros m. destruct m as [|[|[|[|[|[|m]]]]]]; cbn; auto. }
  split. { intros t. unfold csched8 at 2. cbn [cturn_ok caction_ok whole_part]. rewrite whole8. apply all8. }
  split. { intros t E. injection E as E. specialize (NF t). rewrite E in NF. exact NF. }
  split. { intros t E. injection E as E. specialize (NF t). rewrite E in NF. exact NF. }
  split; [discriminate|]. split. { unfold c_log. rewrite whole8. vm_compute. reflexivity. }
  split; [vm_compute; congruence|]. split.
  { rewrite whole8. split; [vm_compute; reflexivity|]. eexists _, _. split; [vm_compute; reflexivity|]. split; [vm_compute; reflexivity|]. split; [vm_compute; tauto|vm_compute; reflexivity]. }
  split. { split; [|split].
    - intros t. destruct (comes8 0 t ltac:(lia)) as (t' & L & _ & E). exists t'. split; [exact L|]. unfold csched8. now rewrite E.
    - intros t. destruct (comes8 1 t ltac:(lia)) as (t' & L & _ & E). exists t'. split; [exact L|]. unfold csched8. now rewrite E.
    - intros t f E. injection E as E. specialize (NF t). rewrite E in NF. subst f. exact Logic.I. }
  split. { split; intros t; [destruct (comes8 2 t ltac:(lia)) as (t' & L & _ & E); exists t'; split; [exact L|]; unfold csched8; now rewrite E|].
    destruct (comes8 3 t ltac:(lia)) as (t' & L & L' & E). exists t'. split; [exact L|]. split; [unfold csched8; now rewrite E|].
    rewrite whole8. destruct (good8 t' L') as (_ & _ & v & c & st & N & NS & CR). unfold idle, stream_of. rewrite N, NS. eexists _, _. split; [reflexivity|]. exact CR. }
  split. { split; [|split]; intros t.
    - destruct (comes8 4 t ltac:(lia)) as (t' & L & _ & E). exists t'. split; [exact L|]. exists NoFault. unfold csched8. now rewrite E.
    - destruct (comes8 5 t ltac:(lia)) as (t' & L & _ & E). exists t'. split; [exact L|]. exists NoFault. unfold csched8. now rewrite E.
    - destruct (comes8 6 t ltac:(lia)) as (t' & L & _ & E). exists t'. split; [exact L|]. unfold csched8. now rewrite E. }
  split; [rewrite whole8; vm_compute; reflexivity|]. rewrite whole8. vm_compute. reflexivity.
Qed.
