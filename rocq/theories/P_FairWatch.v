(** C139: every change is eventually delivered.
    [kat cfg sch t]: the state after the first [t] steps of the infinite schedule [sch] of
    the whole system (Whole.v, FairWatch.v): any number of servers, requests, streams.
    [kaction_ok okf true ..]: faults of requests satisfy [okf]; a poller that polls is not
    more than 100 revisions behind, registrations neither (Whole.v, Resume.v). *)
From Coq Require Import List ZArith Bool Lia Arith.
From Verif Require Import Bytes Spec Sql System Prog Backend Limited Api Pool Ledger Batch BatchKine Node Watch Stream Resume Whole FairWatch.
From Verif Require Import NodeProofs WatchLemmas WatchProofs WatchResults StreamProofs WholeProofs FairWatchProofs Demo ApiLemmas P_Whole.
From Verif Require Import Watch Stream Whole FairWatch.
Import ListNotations.
Open Scope Z_scope.

(** C139.  A watch is acknowledged at time [T].  Its server does not crash, its poller gets
    its turns and survives, the goroutine that sends gets its turns; the watch is not
    cancelled.  Then every change [e] of its range that is ever committed, as revision [R],
    not before the requested revision, or after time [T], is sent to the client sooner or
    later - or the server closes the stream. *)
Theorem C139_delivered : forall cfg okf sch T j i conn id lo hi start t0 R e, tolerant okf -> (forall t, kaction_ok okf true (kat cfg sch t) (sch t)) ->
  watching (kat cfg sch T) j i conn id lo hi start ->
  (forall t, (T <= t)%nat -> sch t <> KCrash j) -> (forall t, (T <= t)%nat -> sch t <> KStream j i (SCancel id)) ->
  polling j sch -> consuming cfg j i sch ->
  (T <= t0)%nat -> 1 <= R -> nth_error (commits (dids (k_log (kat cfg sch t0)))) (Z.to_nat (R - 1)) = Some e -> in_range lo hi (e_key e) ->
  (0 < start <= R \/ revision (commits (dids (k_log (kat cfg sch T)))) < R) ->
  exists t, (T <= t)%nat /\
    ((exists ev, received (k_log (kat cfg sch t)) conn id ev /\ ev_rev ev = R /\ truthful_event (commits (dids (k_log (kat cfg sch t)))) R ev) \/ closed (kat cfg sch t) j i).
Proof. exact (fun cfg okf sch T j i conn id lo hi start t0 R e TO OK WA NC NK PO CO => comes_out cfg okf sch T j i conn id lo hi start TO OK NC NK WA PO CO t0 R e). Qed.
Print Assumptions C139_delivered.

(** Two servers; a watch at server 1 from revision 2, two writes at server 0; then the
    poller of server 1 and the sending goroutine run forever. *)
Definition opening : list kaction :=
  [KBoot; KBoot] ++ exec_write 0 (CreateKey ka v1 0) ++
  [KOpen 1; KStream 1 0 (SCreate 0 ka kd 2); KStream 1 0 (SCheck NoFault); KStream 1 0 (SQuery NoFault); KStream 1 0 SFinish] ++
  exec_write 0 (CreateKey kb v2 0) ++ exec_write 0 (UpdateKey ka v3 1 0).
Definition rounds (t : nat) : kaction :=
  match Nat.modulo t 4 with O => KBack 1 (AFetch NoFault) | 1%nat => KBack 1 APublish | 2%nat => KStream 1 0 SRecv | _ => KStream 1 0 SSend end.
Definition forever (t : nat) : kaction := if (t <? length opening)%nat then nth t opening KBoot else rounds (t - length opening).
Definition at0 (t : nat) : kstate := kat cfg0 forever t.

Lemma opening_ok : forallb (fun t => okb (at0 t) (forever t)) (List.seq 0 (length opening)) = true.
Proof. vm_compute. reflexivity. Qed.
Lemma forever_rounds t : (length opening <= t)%nat -> forever t = rounds (t - length opening).
Proof. intros L. unfold forever. destruct (Nat.ltb_spec t (length opening)); [lia|reflexivity]. Qed.
(** what stays true in the rounds *)
Definition good_state (s : kstate) : Prop :=
  KI cfg0 clean true s /\ revision (history_of (snd (n_world (k_node s)))) = 3 /\
  exists v c st, nth_error (k_servers s) 1 = Some v /\ nth_error (k_streams v) 0 = Some (c, st) /\ s_creating st = None.
Lemma good_ok s k : good_state s -> kaction_ok clean true s (rounds k).
Proof.
  intros (J & RV & v & c & st & N & NS & _). unfold rounds. destruct (Nat.modulo k 4) as [|[|[|m]]]; cbn [kaction_ok]; try (split; [exact Logic.I|intros _ v' _; exact Logic.I]); try (intros _ v' c' st' _ _; exact Logic.I).
  split; [exact Logic.I|]. intros _ v' N'. cbn [steady seen b_world b_poll]. rewrite RV. destruct (K_serv _ _ _ _ J 1%nat v' N') as (B & _).
  pose proof (B_poll _ _ (calm_Binv _ B)) as BP. cbn [seen b_poll] in BP. lia.
Qed.
Lemma creating_recv st : s_creating (sstep st SRecv) = s_creating st.
Proof. cbn [sstep]. destruct (s_done st); [reflexivity|]. unfold s_recv. destruct (s_hold st); [reflexivity|]. destruct (group_of st) as [g|]; [|reflexivity]. destruct (nth_error _ _); [reflexivity|]. destruct (g_open g); reflexivity. Qed.
Lemma creating_send st : s_creating (sstep st SSend) = s_creating st.
Proof. cbn [sstep]. unfold s_send. destruct (s_hold st); [|reflexivity]. destruct (s_creating st) eqn:E; cbn; congruence. Qed.
Lemma good_next s k : good_state s -> good_state (ktry cfg0 s (rounds k)).
Proof.
  intros G. pose proof (good_ok s k G) as OK. destruct G as (J & RV & v & c & st & N & NS & CR).
  assert (KE : exists s', kstep cfg0 s (rounds k) = Some s' /\ n_world (k_node s') = n_world (k_node s) /\
    exists v c st, nth_error (k_servers s') 1 = Some v /\ nth_error (k_streams v) 0 = Some (c, st) /\ s_creating st = None).
  { destruct s as [nd sv log n]. cbn [k_servers k_node] in *. unfold rounds. destruct (Nat.modulo k 4) as [|[|[|m]]]; cbn [kstep]; rewrite N.
    - assert (F : forallb (fun c : nat * sstate => foreign (s_i (snd c)) (AFetch NoFault)) (k_streams v) = true) by (apply forallb_forall; reflexivity).
      rewrite F. cbn [internal andb]. eexists. split; [reflexivity|]. split; [reflexivity|]. cbn [k_servers]. rewrite put_nth, Nat.eqb_refl, N. cbn [option_map]. do 3 eexists. split; [reflexivity|]. cbn [k_streams]. eauto.
    - assert (F : forallb (fun c : nat * sstate => foreign (s_i (snd c)) APublish) (k_streams v) = true) by (apply forallb_forall; reflexivity).
      rewrite F. cbn [internal andb]. eexists. split; [reflexivity|]. split; [reflexivity|]. cbn [k_servers]. rewrite put_nth, Nat.eqb_refl, N. cbn [option_map]. do 3 eexists. split; [reflexivity|]. cbn [k_streams]. eauto.
    - rewrite NS. cbv zeta. eexists. split; [reflexivity|]. split; [reflexivity|]. cbn [k_servers]. rewrite put_nth, Nat.eqb_refl, N. cbn [option_map]. do 3 eexists. split; [reflexivity|]. cbn [k_streams].
      rewrite put_nth, Nat.eqb_refl, NS. cbn [option_map]. split; [reflexivity|]. rewrite creating_recv. exact CR.
    - rewrite NS. cbv zeta. eexists. split; [reflexivity|]. split; [reflexivity|]. cbn [k_servers]. rewrite put_nth, Nat.eqb_refl, N. cbn [option_map]. do 3 eexists. split; [reflexivity|]. cbn [k_streams].
      rewrite put_nth, Nat.eqb_refl, NS. cbn [option_map]. split; [reflexivity|]. rewrite creating_send. exact CR. }
  destruct KE as (s' & KE & EW & X). unfold ktry. rewrite KE. split; [|split; [rewrite EW; exact RV|exact X]]. eapply KI_step; eauto. exact clean_tolerant.
Qed.
Lemma opening_all t : (t < length opening)%nat -> kaction_ok clean true (at0 t) (forever t).
Proof.
  intros L. apply okb_ok. pose proof opening_ok as F. rewrite forallb_forall in F. apply F. apply in_seq. lia.
Qed.
Lemma opening_KI t : (t <= length opening)%nat -> KI cfg0 clean true (at0 t).
Proof.
  induction t as [|t IH]; intros L; [exact (KI_init cfg0 clean true)|]. unfold at0. cbn [kat]. fold (at0 t). unfold ktry. specialize (IH ltac:(lia)).
  destruct (kstep cfg0 (at0 t) (forever t)) as [s'|] eqn:E; [|exact IH]. eapply KI_step; eauto; [exact clean_tolerant|]. apply opening_all. lia.
Qed.
Lemma rounds_good t : (length opening <= t)%nat -> good_state (at0 t).
Proof.
  intros L. induction L as [|t L IH].
  - split; [apply opening_KI; lia|]. split; [vm_compute; reflexivity|]. eexists _, _, _. split; [vm_compute; reflexivity|]. split; reflexivity.
  - unfold at0. cbn [kat]. fold (at0 t). rewrite forever_rounds by exact L. now apply good_next.
Qed.
Lemma forever_ok t : kaction_ok clean true (at0 t) (forever t).
Proof.
  destruct (Nat.ltb_spec t (length opening)) as [L|L]; [now apply opening_all|]. rewrite forever_rounds by exact L. apply good_ok. now apply rounds_good.
Qed.
Lemma round_comes m t : (m < 4)%nat -> exists t', (t <= t')%nat /\ (length opening <= t')%nat /\ forever t' = rounds m.
Proof.
  intros L. exists (length opening + (t * 4 + m))%nat. split; [lia|]. split; [lia|]. rewrite forever_rounds by lia.
  replace (length opening + (t * 4 + m) - length opening)%nat with (m + t * 4)%nat by lia. unfold rounds. rewrite Nat.mod_add by lia. reflexivity.
Qed.
Lemma forever_cases t : (t < length opening)%nat \/ exists m, (m < 4)%nat /\ forever t = rounds m.
Proof.
  destruct (Nat.ltb_spec t (length opening)) as [L|L]; [now left|]. right. rewrite forever_rounds by exact L. exists (Nat.modulo (t - length opening) 4).
  split; [apply Nat.mod_upper_bound; lia|]. unfold rounds. rewrite Nat.mod_mod by lia. reflexivity.
Qed.
Example C139_nonvacuous :
  let T := length opening in
  tolerant clean /\ (forall t, kaction_ok clean true (kat cfg0 forever t) (forever t)) /\
  watching (kat cfg0 forever T) 1 0 0 1 ka kd 2 /\ (forall t, (T <= t)%nat -> forever t <> KCrash 1) /\ (forall t, (T <= t)%nat -> forever t <> KStream 1 0 (SCancel 1)) /\
  polling 1 forever /\ consuming cfg0 1 0 forever /\
  nth_error (commits (dids (k_log (kat cfg0 forever T)))) 2 = Some (Entry ka (Put v3 0)) /\ in_range ka kd ka /\
  said 0 (k_log (kat cfg0 forever T)) = [MCreated 1] /\ said 0 (k_log (kat cfg0 forever (T + 4))) = [MCreated 1; MEvents 3 1 [ev1; ev2; ev3]].
Proof.
  cbv zeta. split; [exact clean_tolerant|]. split; [exact forever_ok|]. split.
  { split; [vm_compute; tauto|]. split; [vm_compute; tauto|]. eexists _, _. split; [vm_compute; reflexivity|]. split; [vm_compute; reflexivity|]. split; [vm_compute; tauto|vm_compute; reflexivity]. }
  assert (R : forall t, (length opening <= t)%nat -> exists m, (m < 4)%nat /\ forever t = rounds m) by (intros t L; destruct (forever_cases t); [lia|auto]).
  split. { intros t L. destruct (R t L) as (m & M & ->). unfold rounds. destruct (Nat.modulo m 4) as [|[|[|k]]]; discriminate. }
  split. { intros t L. destruct (R t L) as (m & M & ->). unfold rounds. destruct (Nat.modulo m 4) as [|[|[|k]]]; discriminate. }
  split. { split; [|split].
    - intros t. destruct (round_comes 0 t ltac:(lia)) as (t' & L & _ & E). exists t'. split; [exact L|exact E].
    - intros t. destruct (round_comes 1 t ltac:(lia)) as (t' & L & _ & E). exists t'. split; [exact L|exact E].
    - intros t f E. destruct (forever_cases t) as [L|(m & M & E2)].
      + assert (X : forallb (fun t => match forever t with KBack _ (AFetch _) => false | _ => true end) (List.seq 0 (length opening)) = true) by (vm_compute; reflexivity).
        rewrite forallb_forall in X. specialize (X t ltac:(apply in_seq; lia)). rewrite E in X. discriminate.
      + rewrite E in E2. unfold rounds in E2. destruct (Nat.modulo m 4) as [|[|[|k]]]; try discriminate. injection E2 as ->. exact Logic.I. }
  split. { split.
    - intros t. destruct (round_comes 2 t ltac:(lia)) as (t' & L & _ & E). exists t'. split; [exact L|exact E].
    - intros t. destruct (round_comes 3 t ltac:(lia)) as (t' & L & L' & E). exists t'. split; [exact L|]. split; [exact E|].
      destruct (rounds_good t' L') as (_ & _ & v & c & st & N & NS & CR). unfold idle, stream_of. change (kat cfg0 forever t') with (at0 t'). rewrite N, NS. eexists _, _. split; [reflexivity|]. exact CR. }
  split; [vm_compute; reflexivity|]. split; [apply in_range_b_iff; reflexivity|]. split; [vm_compute; reflexivity|vm_compute; reflexivity].
Qed.
