(** C228: list-and-watch clients agree at last, with each other and with every reader.
    [cat cfg sch t]: the state of the cluster after the first [t] turns of the infinite schedule [sch] (Cluster.v,
    ClusterFair.v); [has_asked], [is_served], [held], [at_rest]: Holder.v; [closed]: FairWatch.v. *)
From Coq Require Import List ZArith Bool Lia Arith.
From Verif Require Import Bytes Spec Sql System Prog Backend Limited Api Pool Ledger Batch BatchKine Node Watch Stream Resume Whole FairWatch Ttl Cluster Reflector Holder.
From Verif Require Import Demo SpecLemmas ApiLemmas NodeProofs WatchLemmas WatchProofs WatchResults StreamProofs WholeProofs FairWatchProofs FairCreateProofs ClusterFair ClusterWatchProofs WatchStartProofs ConvergeProofs P_Whole P_FairWatch P_WatchStart P_Converge ConfirmedProofs AgreeProofs.
From Verif Require Import Watch Stream Whole FairWatch ClusterFair Reflector.
Import ListNotations.
Open Scope Z_scope.

(** C228.  Two clients have listed ranges and asked for watches, on any servers and at any times, and are served.  If the
    ranges are not changed any more from some time on, their copies agree at last, and remain in agreement, on every key of
    both ranges: whether it exists, its value and its revisions - unless a server closes one of the two streams. *)
Theorem C228_agree : forall cfg sch T j i conn n id lo hi resp T' j' i' conn' n' id' lo' hi' resp' t0, (forall t, cturn_ok clean true (cat cfg sch t) (sch t)) ->
  has_asked cfg sch T j i conn n id lo hi resp -> is_served cfg sch T j i conn n id resp -> at_rest cfg sch t0 lo hi ->
  has_asked cfg sch T' j' i' conn' n' id' lo' hi' resp' -> is_served cfg sch T' j' i' conn' n' id' resp' -> at_rest cfg sch t0 lo' hi' ->
  (exists t1, closed (c_whole (cat cfg sch t1)) j i \/ closed (c_whole (cat cfg sch t1)) j' i') \/
  exists t1, (t0 <= t1)%nat /\ forall t2 k, (t1 <= t2)%nat -> in_range lo hi k -> in_range lo' hi' k -> held cfg sch conn id resp t2 k = held cfg sch conn' id' resp' t2 k.
Proof. intros cfg sch T j i conn n id lo hi resp T' j' i' conn' n' id' lo' hi' resp' t0 OK. exact (clients_agree cfg sch OK T j i conn n id lo hi resp T' j' i' conn' n' id' lo' hi' resp' t0). Qed.
Print Assumptions C228_agree.

(** And so does every later list, of any range and on any server, while at most 100 changes were made: it shows of each key of
    both ranges what the client holds. *)
Theorem C228_reads : forall cfg sch T j i conn n id lo hi resp t0, (forall t, cturn_ok clean true (cat cfg sch t) (sch t)) ->
  has_asked cfg sch T j i conn n id lo hi resp -> is_served cfg sch T j i conn n id resp -> at_rest cfg sch t0 lo hi ->
  (exists t1, closed (c_whole (cat cfg sch t1)) j i) \/
  exists t1, (t0 <= t1)%nat /\ forall t2 early during after li lo' hi' resp', (t1 <= t2)%nat -> hi' <> [] ->
    answered_request (c_log (cat cfg sch t2)) (c_log (cat cfg sch t1) ++ early) during after li (WRange (range lo' hi' 0 0)) (ReRange (Ok resp')) -> revision (commits during) <= 100 ->
    forall k, in_range lo hi k -> in_range lo' hi' k -> held cfg sch conn id resp t2 k = copy_of (rr_kvs resp') k.
Proof. intros cfg sch T j i conn n id lo hi resp t0 OK. exact (reader_agrees cfg sch OK T j i conn n id lo hi resp t0). Qed.
Print Assumptions C228_reads.

(** Two clients on one connection of server 1: the first lists [ka, kd) at server 0 and watches it; then [kb] is created;
    the second lists [kb, kd) at server 0 and watches it; then [kb] is updated; then the goroutines run
    forever. *)
Definition opening9 : list kaction :=
  [KBoot; KBoot] ++ exec_write 0 (CreateKey ka v1 0) ++ exec_range 0 2 (range ka kd 0 0) ++
  [KOpen 1; KStream 1 0 (SCreate 0 ka kd 2); KStream 1 0 (SCheck NoFault); KStream 1 0 (SQuery NoFault); KStream 1 0 SFinish] ++
  exec_write 0 (CreateKey kb v2 0) ++ exec_range 0 2 (range kb kd 0 0) ++
  [KStream 1 0 (SCreate 0 kb kd 3); KStream 1 0 (SCheck NoFault); KStream 1 0 (SQuery NoFault); KStream 1 0 SFinish] ++
  exec_write 0 (UpdateKey kb v3 2 0).
Definition asked9 : nat := (length ([KBoot; KBoot] ++ exec_write 0 (CreateKey ka v1 0) ++ exec_range 0 2 (range ka kd 0 0)) + 2)%nat.
Definition asked9' : nat := (asked9 + 3 + length (exec_write 0 (CreateKey kb v2 0) ++ exec_range 0 2 (range kb kd 0 0)) + 1)%nat.
Definition sched9 (t : nat) : kaction := if (t <? length opening9)%nat then nth t opening9 KBoot else part7 (Nat.modulo (t - length opening9) 7).
Definition at9 (t : nat) : kstate := kat cfg0 sched9 t.
Lemma later9 t : (length opening9 <= t)%nat -> sched9 t = part7 (Nat.modulo (t - length opening9) 7).
Proof. intros L. unfold sched9. destruct (Nat.ltb_spec t (length opening9)); [lia|reflexivity]. Qed.
Lemma comes9 m t : (m < 7)%nat -> exists t', (t <= t')%nat /\ (length opening9 <= t')%nat /\ sched9 t' = part7 m.
Proof.
  intros L. exists (length opening9 + (t * 7 + m))%nat. split; [lia|]. split; [lia|]. rewrite later9 by lia. f_equal.
  replace (length opening9 + (t * 7 + m) - length opening9)%nat with (m + t * 7)%nat by lia. rewrite Nat.mod_add by lia. now apply Nat.mod_small.
Qed.
Lemma opening9_ok t : (t < length opening9)%nat -> kaction_ok clean true (at9 t) (sched9 t).
Proof.
  assert (F : forallb (fun t => okb (at9 t) (sched9 t)) (List.seq 0 (length opening9)) = true) by (vm_compute; reflexivity).
  intros L. apply okb_ok. rewrite forallb_forall in F. apply F. apply in_seq. lia.
Qed.
Lemma good9 t : (length opening9 <= t)%nat -> good_state (at9 t).
Proof.
  intros L. induction L as [|t L IH].
  - split; [|split; [vm_compute; reflexivity|]; eexists _, _, _; split; [vm_compute; reflexivity|]; split; reflexivity].
    assert (X : forall t, (t <= length opening9)%nat -> KI cfg0 clean true (at9 t)); [|apply X; lia].
    induction t as [|t IH]; intros Lt; [exact (KI_init cfg0 clean true)|]. unfold at9. cbn [kat]. fold (at9 t). unfold ktry. specialize (IH ltac:(lia)).
    destruct (kstep cfg0 (at9 t) (sched9 t)) as [s'|] eqn:E; [|exact IH]. eapply KI_step; eauto; [exact clean_tolerant|]. apply opening9_ok. lia.
  - unfold at9. cbn [kat]. fold (at9 t). rewrite later9 by exact L. now apply next7.
Qed.
Lemma all9 t : kaction_ok clean true (at9 t) (sched9 t).
Proof. destruct (Nat.ltb_spec t (length opening9)) as [L|L]; [now apply opening9_ok|]. rewrite later9 by exact L. apply ok7. now apply good9. Qed.
Lemma cases9 (P : kaction -> Prop) : (forall t, (t < length opening9)%nat -> P (nth t opening9 KBoot)) -> (forall m, P (part7 m)) -> forall t, P (sched9 t).
Proof. intros H1 H2 t. unfold sched9. destruct (Nat.ltb_spec t (length opening9)); auto. Qed.
Definition csched9 (t : nat) : cturn := CStep (CWhole (sched9 t)).
Lemma plain9 s t : not_expiry s (sched9 t) = true.
Proof.
  apply (cases9 (fun x => not_expiry s x = true)).
  - assert (F : forallb (fun x => match x with KNode (NAsk _ (WExpire _ _)) => false | KBack _ _ => false | _ => true end) opening9 = true) by (vm_compute; reflexivity).
    intros k L. rewrite forallb_forall in F. specialize (F _ (nth_In _ KBoot L)). destruct (nth k opening9 KBoot) as [x| |j|j a|j|j i a]; try reflexivity; [|discriminate F].
    destruct x; try reflexivity. match goal with |- context[NAsk _ ?q] => destruct q end; try reflexivity; discriminate F.
  - intros m. destruct m as [|[|[|[|[|[|m]]]]]]; cbn [part7 not_expiry]; try reflexivity; destruct (nth_error _ 1) as [e|]; try reflexivity; [apply outside_fetch|apply outside_publish].
Qed.
Lemma whole9 t : c_whole (cat cfg0 csched9 t) = at9 t.
Proof.
  unfold at9. rewrite (whole_at cfg0 csched9). assert (E : forall u, ksch cfg0 csched9 u = sched9 u) by (intros u; unfold ksch, csched9; cbn [rest_of]; now rewrite plain9).
  induction t as [|t IH]; [reflexivity|]. cbn [kat]. now rewrite IH, E.
Qed.
(** nothing is written any more *)
Lemma told_silent (l1 l2 : list knote) : dids l2 = [] -> dids (l1 ++ l2) = dids l1.
Proof. intros E. now rewrite dids_app, E, app_nil_r. Qed.
Lemma quiet9 s m : dids (k_log (ktry cfg0 s (part7 m))) = dids (k_log s).
Proof.
  destruct s as [nd sv log n]. assert (ST : forall a, match a with SCreate _ _ _ _ | SBack _ => False | _ => True end -> dids (k_log (ktry cfg0 (KState nd sv log n) (KStream 1 0 a))) = dids log).
  { intros a HA. unfold ktry.
    assert (X : kstep cfg0 (KState nd sv log n) (KStream 1 0 a) = match nth_error sv 1 with Some v => match nth_error (k_streams v) 0 with Some (conn, st0) => let st := synced (n_world nd) v st0 in let st' := sstep st a in
        Some (KState nd (put 1 (KServer (s_b st') (put 0 (conn, st') (k_streams v))) sv) (log ++ told_by conn a st st') n) | None => None end | None => None end) by (destruct a; try contradiction; reflexivity).
    rewrite X. destruct (nth_error sv 1) as [v|]; [|reflexivity]. destruct (nth_error (k_streams v) 0) as [[c st]|]; [|reflexivity]. cbv zeta. cbn [k_log]. apply told_silent.
    assert (Y : forall l, dids (map (Said c) l) = []) by (induction l; [reflexivity|cbn; assumption]). destruct a; try contradiction; apply Y. }
  assert (BK : forall a, dids (k_log (ktry cfg0 (KState nd sv log n) (KBack 1 a))) = dids log).
  { intros a. unfold ktry. cbn [kstep]. destruct (nth_error sv 1); [|reflexivity]. destruct (_ && _); reflexivity. }
  destruct m as [|[|[|[|[|[|m]]]]]]; cbn [part7]; solve [apply BK|apply ST; exact Logic.I].
Qed.
Lemma still9 t : (length opening9 <= t)%nat -> dids (k_log (at9 t)) = dids (k_log (at9 (length opening9))).
Proof. intros L. induction L as [|t L IH]; [reflexivity|]. rewrite <- IH. unfold at9 at 1. cbn [kat]. fold (at9 t). rewrite later9 by exact L. apply quiet9. Qed.
Lemma no_more (h0 : history) r x : revision h0 < r -> nth_error h0 (Z.to_nat (r - 1)) = Some x -> False.
Proof. intros R N. assert (Y : nth_error h0 (Z.to_nat (r - 1)) <> None) by congruence. apply nth_error_Some in Y. unfold revision in R. lia. Qed.
Lemma log9 t : c_log (cat cfg0 csched9 t) = dids (k_log (at9 t)).
Proof. unfold c_log. now rewrite whole9. Qed.
Lemma rest9 lo hi : at_rest cfg0 csched9 (length opening9) lo hi.
Proof.
  intros t r x L R N. rewrite log9 in R, N. rewrite (still9 t L) in N. destruct (no_more _ _ _ R N).
Qed.
Definition listing9 : range_resp := RangeResp 2 [KV kb v2 0 2 2] false 1.
Lemma never9 : forall t, match sched9 t with KCrash _ => False | KStream 1 0 (SCancel _) => False | KBack _ (AFetch f) => f = NoFault | KStream 1 0 (SCheck f) => f = NoFault | KStream 1 0 (SQuery f) => f = NoFault | _ => True end.
Proof.
  apply (cases9 (fun x => match x with KCrash _ => False | KStream 1 0 (SCancel _) => False | KBack _ (AFetch f) => f = NoFault | KStream 1 0 (SCheck f) => f = NoFault | KStream 1 0 (SQuery f) => f = NoFault | _ => True end)).
    - assert (F : forallb (fun x => match x with KCrash _ => false | KStream 1 0 (SCancel _) => false | KBack _ (AFetch f) => false | KStream 1 0 (SCheck NoFault) => true | KStream 1 0 (SQuery NoFault) => true | KStream 1 0 (SCheck _) => false | KStream 1 0 (SQuery _) => false | _ => true end) opening9 = true) by (vm_compute; reflexivity).
      intros t L. rewrite forallb_forall in F. specialize (F _ (nth_In _ KBoot L)). destruct (nth t opening9 KBoot) as [x| |j|j []|j|[|[|j]] [|i] a]; try exact Logic.I; try discriminate F; destruct a as [| | | | | |f|f| | | | |]; try exact Logic.I; try discriminate F; destruct f; try reflexivity; discriminate F.
    - intros m. destruct m as [|[|[|[|[|[|m]]]]]]; cbn; auto.
Qed.
Lemma stays9 a b n m : (a <= b)%nat -> nth_error (answers 0 (k_log (at9 a))) n = Some m -> nth_error (answers 0 (k_log (at9 b))) n = Some m.
Proof.
  intros L A. unfold at9 in *. destruct (kat_log cfg0 sched9 a b L) as [l ->]. rewrite answers_app. now apply nth_app_some.
Qed.
Lemma late9 id n t : (id = 1 \/ id = 2) -> (exists m, nth_error (answers 0 (k_log (at9 (length opening9)))) n = Some m) ->
  nth_error (answers 0 (k_log (at9 t))) n = None -> revision (commits (dids (k_log (at9 (S t))))) <= id + 101.
Proof.
  intros ID (m0 & ANS) U.
  assert (F : forallb (fun t => (revision (commits (dids (k_log (at9 (S t))))) <=? 102)) (List.seq 0 (length opening9)) = true) by (vm_compute; reflexivity).
  destruct (Nat.lt_ge_cases t (length opening9)) as [LT'|GE].
  - rewrite forallb_forall in F. assert (IN : In t (List.seq 0 (length opening9))) by (apply in_seq; split; [apply Nat.le_0_l|exact LT']). specialize (F t IN). apply Z.leb_le in F.
    eapply Z.le_trans; [exact F|]. destruct ID as [->| ->]; vm_compute; discriminate.
  - exfalso. pose proof (stays9 _ _ n m0 GE ANS) as X. congruence.
Qed.
Lemma fine9 id n resp T : (id = 1 \/ id = 2) -> (T <= length opening9)%nat -> rr_header resp = id ->
  (exists m, nth_error (answers 0 (k_log (at9 (length opening9)))) n = Some m) -> is_served cfg0 csched9 T 1 0 0 n id resp.
Proof.
  intros ID LT HR (m0 & ANS).
  pose proof never9 as NF.
  split. { intros t _ E. injection E as E. specialize (NF t). rewrite E in NF. exact NF. }
  split. { intros t _ E. injection E as E. specialize (NF t). rewrite E in NF. exact NF. }
  split. { intros t f _ [E|E]; injection E as E; specialize (NF t); rewrite E in NF; exact NF. }
  split.
  { intros t L U. rewrite log9, HR. rewrite whole9 in U. exact (late9 id n t ID (ex_intro _ m0 ANS) U). }
  split. { split; [|split].
    - intros t. destruct (comes9 0 t ltac:(lia)) as (t' & L & _ & E). exists t'. split; [exact L|]. unfold csched9. now rewrite E.
    - intros t. destruct (comes9 1 t ltac:(lia)) as (t' & L & _ & E). exists t'. split; [exact L|]. unfold csched9. now rewrite E.
    - intros t f E. injection E as E. specialize (NF t). rewrite E in NF. subst f. exact Logic.I. }
  split. { split; intros t; [destruct (comes9 2 t ltac:(lia)) as (t' & L & _ & E); exists t'; split; [exact L|]; unfold csched9; now rewrite E|].
    destruct (comes9 3 t ltac:(lia)) as (t' & L & L' & E). exists t'. split; [exact L|]. split; [unfold csched9; now rewrite E|].
    rewrite whole9. destruct (good9 t' L') as (_ & _ & v & c & st & N & NS & CR). unfold idle, stream_of. rewrite N, NS. eexists _, _. split; [reflexivity|]. exact CR. }
  split; [|split]; intros t.
  - destruct (comes9 4 t ltac:(lia)) as (t' & L & _ & E). exists t'. split; [exact L|]. exists NoFault. unfold csched9. now rewrite E.
  - destruct (comes9 5 t ltac:(lia)) as (t' & L & _ & E). exists t'. split; [exact L|]. exists NoFault. unfold csched9. now rewrite E.
  - destruct (comes9 6 t ltac:(lia)) as (t' & L & _ & E). exists t'. split; [exact L|]. unfold csched9. now rewrite E.
Qed.
Fixpoint before_ask (li : nat) (l : ledger) : ledger := match l with [] => [] | Asked k _ as x :: r => if Nat.eqb k li then [] else x :: before_ask li r | x :: r => x :: before_ask li r end.
Example C228_nonvacuous :
  (forall t, cturn_ok clean true (cat cfg0 csched9 t) (csched9 t)) /\
  has_asked cfg0 csched9 asked9 1 0 0 0 1 ka kd listing /\ is_served cfg0 csched9 asked9 1 0 0 0 1 listing /\ at_rest cfg0 csched9 (length opening9) ka kd /\
  has_asked cfg0 csched9 asked9' 1 0 0 1 2 kb kd listing9 /\ is_served cfg0 csched9 asked9' 1 0 0 1 2 listing9 /\ at_rest cfg0 csched9 (length opening9) kb kd /\
  in_range ka kd kb /\ in_range kb kd kb /\
  held cfg0 csched9 0 1 listing (length opening9 + 4) kb = Some (KV kb v3 0 2 3) /\ held cfg0 csched9 0 2 listing9 (length opening9 + 4) kb = Some (KV kb v3 0 2 3) /\
  held cfg0 csched9 0 1 listing (length opening9) kb = None.
Proof.
  split. { intros t. unfold csched9 at 2. cbn [cturn_ok caction_ok whole_part]. rewrite whole9. apply all9. }
  split. { split; [discriminate|]. split.
    - exists (before_ask 1 (dids (k_log (at9 asked9)))), [], [], 1%nat. split; [unfold c_log; rewrite whole9; vm_compute; reflexivity|vm_compute; congruence].
    - rewrite whole9. split; [split; [vm_compute; reflexivity|]; eexists _, _; split; [vm_compute; reflexivity|]; split; [vm_compute; reflexivity|]; split; [vm_compute; tauto|vm_compute; reflexivity]|vm_compute; reflexivity]. }
  split. { apply fine9; [auto|vm_compute; lia|reflexivity|]. eexists. vm_compute. reflexivity. }
  split; [apply rest9|]. split.
  { split; [discriminate|]. split.
    - exists (before_ask 3 (dids (k_log (at9 asked9')))), [], [], 3%nat. split; [unfold c_log; rewrite whole9; vm_compute; reflexivity|vm_compute; congruence].
    - rewrite whole9. split; [split; [vm_compute; reflexivity|]; eexists _, _; split; [vm_compute; reflexivity|]; split; [vm_compute; reflexivity|]; split; [vm_compute; tauto|vm_compute; reflexivity]|vm_compute; reflexivity]. }
  split. { apply fine9; [auto|vm_compute; lia|reflexivity|]. eexists. vm_compute. reflexivity. }
  split; [apply rest9|]. split; [apply in_range_b_iff; vm_compute; reflexivity|]. split; [apply in_range_b_iff; vm_compute; reflexivity|].
  unfold held. rewrite !whole9. split; [vm_compute; reflexivity|]. split; vm_compute; reflexivity.
Qed.
