(** C175: every lease eventually runs out.
    [tat s0 sch t]: the state after the first [t] steps of the infinite schedule [sch] of a
    server with its expiry goroutine (Ttl.v, FairTtl.v), its clients and the other servers.
    [tcalm_schedule]: the provisos of C24 hold at every step.  [expiring]: the goroutines get
    their turns, time passes, the database again and again works.  [caring s st i]: the expiry
    goroutine of [s] finished its start-up.  [dropped s i]: its watch was closed. *)
From Coq Require Import List ZArith Bool Lia Arith Cantor.
From Verif Require Import Bytes Spec Sql System Prog Backend Watch Stream SpecLemmas Sim ReadLemmas ProgLemmas WatchLemmas WatchProofs StreamProofs RepairProofs Observe Demo WatchWitness Ttl TtlProofs TtlLive TtlWitness FairWatch FairTtl FairTtlProofs.
From Verif Require Import Watch Stream Ttl FairTtl.
Import ListNotations.
Open Scope Z_scope.
Local Notation hist s := (history_of (snd (b_world (t_b s)))).

(** C175.  A key whose current version has a lease (of at most 292 years), inside the range
    that expiry watches or older than its start, does not stay: sooner or later that version
    is gone - overwritten, deleted by a client or expired - unless the server closed the
    expiry goroutine's own watch. *)
Theorem C175_expires : forall s0 sch st i T t0 k x, tcalm_schedule s0 sch -> expiring s0 sch -> (T <= t0)%nat -> caring (tat s0 sch T) st i ->
  now (hist (tat s0 sch t0)) k = Some x -> 0 < kv_lease x <= 9223372035 -> in_range [0%N] [255%N] k \/ kv_mod x <= st ->
  exists t, (T <= t)%nat /\ ((t0 <= t)%nat /\ now (hist (tat s0 sch t)) k <> Some x \/ dropped (tat s0 sch t) i).
Proof. exact (fun s0 sch st i T t0 k x CALM EXP => expires s0 sch CALM EXP st i T t0 k x). Qed.
Print Assumptions C175_expires.

(** Rounds of polling, receiving, a second passing, and attempts of all timers in turn. *)
Definition ticking (t : nat) : taction :=
  match Nat.modulo t 5 with
  | O => TBack (AFetch NoFault) | 1%nat => TBack APublish | 2%nat => TRecv [] | 3%nat => TTime second
  | _ => TAttempt (snd (Cantor.of_nat (Nat.div t 5))) NoFault
  end.
Definition behind (s : tstate) : Prop := tcalm s /\ floor_of (snd (b_world (t_b s))) <= b_poll (t_b s).
Lemma ticking_ok s t : behind s -> tpossible s (ticking t) /\ tcalm_step s (ticking t).
Proof. intros [C F]. unfold ticking. destruct (Nat.modulo t 5) as [|[|[|[|m]]]]; cbn; auto. split; auto. now left. Qed.
Lemma ticking_behind s t : behind s -> behind (tstep s (ticking t)).
Proof.
  intros B. destruct (ticking_ok s t B) as [P C]. destruct B as [B F]. split; [now apply tcalm_next|].
  pose proof (calm_Binv _ (proj1 (tcalm_PI _ B))) as BI.
  unfold ticking in *. destruct (Nat.modulo t 5) as [|[|[|[|m]]]]; cbn [tstep].
  - destruct (outside _ _); [|exact F]. cbn [with_tb t_b bstep]. rewrite (proj1 (fetch_same NoFault (t_b s))), (proj1 (proj2 (fetch_same NoFault (t_b s)))). exact F.
  - destruct (outside _ _); [|exact F]. cbn [with_tb t_b]. pose proof (step_poll True (t_b s) APublish BI) as X. cbn [bstep] in *. unfold publish_all in *. destruct (b_batch (t_b s)); [|exact F]. cbn [b_world b_poll] in *. lia.
  - destruct (t_phase s); try exact F. destruct (nth_error (b_groups _) _) as [g|]; [|exact F]. destruct (nth_error _ _); [exact F|]. destruct (g_open g); exact F.
  - exact F.
  - destruct (nth_error _ _) as [tm|] eqn:N; [|exact F]. destruct (_ <=? _); [|exact F]. cbn [with_tb t_b b_poll b_world].
    change (fst (sem NoFault (CExec (ADelete (tm_key tm) (tm_rev tm))) (b_world (t_b s)))) with (b_world (bstep (t_b s) (AEnv (ADelete (tm_key tm) (tm_rev tm))))).
    cbn [bstep b_world]. unfold wapply. cbn [snd]. rewrite spec_floor by exact Logic.I. exact F.
Qed.
Lemma ticking_all t : behind (tat ttl1 ticking t).
Proof.
  induction t as [|t IH]; cbn [tat]; [split; [exact ttl1_calm|apply Z.leb_le; vm_compute; reflexivity]|now apply ticking_behind].
Qed.
Lemma ticking_round m t : (m < 5)%nat -> exists t', (t <= t')%nat /\ Nat.modulo t' 5 = m.
Proof. intros L. exists (m + t * 5)%nat. split; [lia|]. rewrite Nat.mod_add by lia. now apply Nat.mod_small. Qed.
Lemma ticking_time n : Z.of_nat n <= t_now (tat ttl1 ticking (n * 5)).
Proof.
  induction n as [|n IH]; [apply Z.leb_le; vm_compute; reflexivity|].
  replace (S n * 5)%nat with (S (S (S (S (S (n * 5)))))) by lia. cbn [tat].
  assert (E : ticking (S (S (S (n * 5)))) = TTime second).
  { unfold ticking. replace (S (S (S (n * 5)))) with (3 + n * 5)%nat by lia. rewrite Nat.mod_add by lia. reflexivity. }
  rewrite E. set (s := tat ttl1 ticking (n * 5)) in *.
  pose proof (time_step s (ticking (n * 5))). set (s1 := tstep s (ticking (n * 5))) in *.
  pose proof (time_step s1 (ticking (S (n * 5)))). set (s2 := tstep s1 (ticking (S (n * 5)))) in *.
  pose proof (time_step s2 (ticking (S (S (n * 5))))). set (s3 := tstep s2 (ticking (S (S (n * 5))))) in *.
  pose proof (time_step (tstep s3 (TTime second)) (ticking (S (S (S (S (n * 5))))))).
  assert (t_now (tstep s3 (TTime second)) = t_now s3 + 1000000000) by reflexivity. lia.
Qed.
Example C175_nonvacuous : tcalm_schedule ttl1 ticking /\ expiring ttl1 ticking /\ caring (tat ttl1 ticking 0) 8 0 /\
  now (hist (tat ttl1 ticking 0)) kd = Some (KV kd v1 10 9 9) /\ in_range [0%N] [255%N] kd.
Proof.
  destruct ttl1_facts as (_ & A & B & _ & D & _). split; [|split; [|split; [|split]]].
  - split; [exact ttl1_calm|]. intros t. apply ticking_ok, ticking_all.
  - split; [|split; [|split; [|split; [|split]]]].
    + intros t. destruct (ticking_round 0 t ltac:(lia)) as (t' & L & E). exists t'. split; auto. unfold ticking. now rewrite E.
    + intros t. destruct (ticking_round 1 t ltac:(lia)) as (t' & L & E). exists t'. split; auto. unfold ticking. now rewrite E.
    + intros t f. unfold ticking. destruct (Nat.modulo t 5) as [|[|[|[|m]]]]; intros [= <-]. exact Logic.I.
    + intros t. destruct (ticking_round 2 t ltac:(lia)) as (t' & L & E). exists t', []. split; auto. unfold ticking. now rewrite E.
    + intros d. exists (Z.to_nat d * 5)%nat. pose proof (ticking_time (Z.to_nat d)). lia.
    + intros t j. exists (4 + Cantor.to_nat (t, j) * 5)%nat. pose proof (Cantor.to_nat_non_decreasing t j). split; [lia|].
      unfold ticking. rewrite Nat.mod_add by lia. cbn [Nat.modulo Nat.divmod fst snd Nat.sub]. rewrite Nat.div_add by lia. cbn [Nat.div Nat.divmod fst snd Nat.add Nat.sub]. now rewrite Cantor.cancel_of_to.
  - split; [exact B|]. split; [cbn [tat]; rewrite A; discriminate|]. vm_compute. reflexivity.
  - exact D.
  - apply in_range_b_iff. reflexivity.
Qed.

(** C176.  A server whose expiry goroutine has not finished its start-up, on a store that is
    not empty (backend.go:136-179 writes the first revision before): if the statements of the
    start-up do not fail ([starting]), it is finished sooner or later, and from then on C175
    applies - unless a compaction passed the revision from which it wanted to watch. *)
Theorem C176_starts : forall s0 sch T, tcalm_schedule s0 sch -> starting sch -> expiring s0 sch ->
  b_dead (t_b (tat s0 sch T)) = false -> 1 <= revision (hist (tat s0 sch T)) ->
  (forall st i, t_phase (tat s0 sch T) <> TPLoop st i) -> t_phase (tat s0 sch T) <> TPEnd ->
  exists t st i, (T <= t)%nat /\
    (caring (tat s0 sch t) st i \/ t_phase (tat s0 sch t) = TPLoop st i /\ st < floor_of (snd (b_world (t_b (tat s0 sch t))))).
Proof. exact comes_up. Qed.
Print Assumptions C176_starts.

(** The start-up of P_Ttl.v, after that all actions in turn. *)
Definition turning (t : nat) : taction :=
  match Nat.modulo t 12 with
  | O => TBack (AFetch NoFault) | 1%nat => TBack APublish | 2%nat => TRecv [] | 3%nat => TTime second
  | 4%nat => TRev NoFault | 5%nat => TList NoFault | 6%nat => TGroup | 7%nat => TWatch | 8%nat => TCheck NoFault | 9%nat => TQuery NoFault | 10%nat => TFinish
  | _ => TAttempt (snd (Cantor.of_nat (Nat.div t 12))) NoFault
  end.
Definition from_start (t : nat) : taction := if (t <? 7)%nat then nth t ttl_up TGroup else turning (t - 7).
Definition begun (s : tstate) : Prop := behind s /\ ((exists st i, t_phase s = TPLoop st i) \/ t_phase s = TPEnd).
Lemma turning_cases t : (exists u, turning t = ticking u) \/ In (turning t) ttl_up.
Proof.
  unfold turning. destruct (Nat.modulo t 12) as [|[|[|[|[|[|[|[|[|[|[|m]]]]]]]]]]]; try (right; cbn; tauto); left.
  - exists 0%nat. reflexivity.
  - exists 1%nat. reflexivity.
  - exists 2%nat. reflexivity.
  - exists 3%nat. reflexivity.
  - exists (4 + Nat.div t 12 * 5)%nat. unfold ticking. rewrite Nat.mod_add by lia. cbn [Nat.modulo Nat.divmod fst snd Nat.sub]. rewrite Nat.div_add by lia. reflexivity.
Qed.
Lemma ups_same s a : ((exists st i, t_phase s = TPLoop st i) \/ t_phase s = TPEnd) -> In a ttl_up -> tstep s a = s.
Proof. intros P I. cbn in I. destruct I as [<-|[<-|[<-|[<-|[<-|[<-|[<-|[]]]]]]]]; cbn [tstep]; destruct P as [(st & i & ->)| ->]; reflexivity. Qed.
Lemma tick_phase s u : ((exists st i, t_phase s = TPLoop st i) \/ t_phase s = TPEnd) -> (exists st i, t_phase (tstep s (ticking u)) = TPLoop st i) \/ t_phase (tstep s (ticking u)) = TPEnd.
Proof.
  intros P. unfold ticking. destruct (Nat.modulo u 5) as [|[|[|[|m]]]].
  - rewrite phase_same by eauto. exact P.
  - rewrite phase_same by eauto. exact P.
  - cbn [tstep]. destruct P as [(st & i & E)|E]; rewrite E; [|now right]. destruct (nth_error (b_groups _) _) as [g|]; [|left; eauto]. destruct (nth_error _ _); [left; cbn; eauto|]. destruct (g_open g); [left; eauto|now right].
  - rewrite phase_same by eauto. exact P.
  - rewrite phase_same by eauto. exact P.
Qed.
Lemma turning_ok s t : begun s -> tpossible s (turning t) /\ tcalm_step s (turning t) /\ begun (tstep s (turning t)).
Proof.
  intros [B P]. destruct (turning_cases t) as [[u E]|U].
  - rewrite E. destruct (ticking_ok s u B) as [A1 A2]. split; auto. split; auto. split; [now apply ticking_behind|now apply tick_phase].
  - rewrite (ups_same s _ P U). split; [|split; [|split; assumption]]; cbn in U; destruct U as [<-|[<-|[<-|[<-|[<-|[<-|[<-|[]]]]]]]]; cbn; auto.
    destruct P as [(st & i & ->)| ->]; exact Logic.I.
Qed.
Lemma first_ok : forallb (fun t => tpossibleb (tat ttl0 from_start t) (from_start t) && tcalmb (tat ttl0 from_start t) (from_start t)) (List.seq 0 7) = true.
Proof. vm_compute. reflexivity. Qed.
Lemma first_steps t : (t < 7)%nat -> tpossible (tat ttl0 from_start t) (from_start t) /\ tcalm_step (tat ttl0 from_start t) (from_start t).
Proof.
  intros L. pose proof first_ok as F. rewrite forallb_forall in F. specialize (F t ltac:(apply in_seq; lia)). apply andb_true_iff in F. destruct F as [F1 F2].
  split; [|now apply tcalmb_ok]. destruct (from_start t); simpl in *; auto using possibleb_ok.
Qed.
Lemma first_calm t : (t <= 7)%nat -> tcalm (tat ttl0 from_start t).
Proof. induction t as [|t IH]; intros L; cbn [tat]; [exact ttl0_calm|]. apply tcalm_next; [apply IH; lia|apply first_steps; lia|apply first_steps; lia]. Qed.
Lemma from_start_turning t : (7 <= t)%nat -> from_start t = turning (t - 7).
Proof. intros L. unfold from_start. destruct (Nat.ltb_spec t 7); [lia|reflexivity]. Qed.
Lemma all_begun t : (7 <= t)%nat -> begun (tat ttl0 from_start t).
Proof.
  intros L. induction L as [|t L IH].
  - split; [split; [now apply first_calm|apply Z.leb_le; vm_compute; reflexivity]|]. left. exists 8, 0%nat. vm_compute. reflexivity.
  - cbn [tat]. rewrite from_start_turning by exact L. now apply turning_ok.
Qed.
Lemma turning_round m t : (m < 11)%nat -> exists t', (t <= t')%nat /\ from_start t' = turning m.
Proof.
  intros L. exists (7 + (m + t * 12))%nat. split; [lia|]. rewrite from_start_turning by lia. replace (7 + (m + t * 12) - 7)%nat with (m + t * 12)%nat by lia.
  unfold turning. rewrite Nat.mod_add by lia. rewrite (Nat.mod_small m 12) by lia.
  destruct m as [|[|[|[|[|[|[|[|[|[|[|m]]]]]]]]]]]; try reflexivity. lia.
Qed.
Lemma start_time n : exists t, Z.of_nat n <= t_now (tat ttl0 from_start t).
Proof.
  induction n as [|n [t IH]]; [exists 0%nat; apply Z.leb_le; vm_compute; reflexivity|].
  destruct (turning_round 3 t ltac:(lia)) as (u & L & E). exists (S u). cbn [tat]. rewrite E. cbn [turning Nat.modulo Nat.divmod fst snd Nat.sub tstep t_now].
  pose proof (time_later ttl0 from_start t u L). assert (Z.max 0 second = 1000000000) as -> by reflexivity. lia.
Qed.
Example C176_nonvacuous : tcalm_schedule ttl0 from_start /\ starting from_start /\ expiring ttl0 from_start /\ b_dead (t_b (tat ttl0 from_start 0)) = false /\
  revision (hist (tat ttl0 from_start 0)) = 8 /\ t_phase (tat ttl0 from_start 0) = TPRev /\ t_phase (tat ttl0 from_start 7) = TPLoop 8 0 /\ t_ack (tat ttl0 from_start 7) = Some 0%nat.
Proof.
  assert (CS : forall t, (exists m, (m < 7)%nat /\ from_start t = nth m ttl_up TGroup) \/ exists u, from_start t = turning u).
  { intros t. unfold from_start. destruct (Nat.ltb_spec t 7); [left; eauto|right; eauto]. }
  split; [|split; [|split; [|split; [vm_compute; reflexivity|split; [vm_compute; reflexivity|split; [vm_compute; reflexivity|split; vm_compute; reflexivity]]]]]].
  - split; [exact ttl0_calm|]. intros t. destruct (Nat.ltb_spec t 7) as [L|L]; [now apply first_steps|]. rewrite from_start_turning by exact L.
    destruct (turning_ok (tat ttl0 from_start t) (t - 7) (all_begun t L)) as (A & B & _). auto.
  - split.
    + intros t a I. assert (X : exists m, (m < 11)%nat /\ turning m = a).
      { cbn in I. destruct I as [<-|[<-|[<-|[<-|[<-|[<-|[<-|[]]]]]]]]; [exists 4%nat|exists 5%nat|exists 6%nat|exists 7%nat|exists 8%nat|exists 9%nat|exists 10%nat]; (split; [lia|reflexivity]). }
      destruct X as (m & L & <-). now apply turning_round.
    + intros t f E. destruct (CS t) as [(m & L & X)|(u & X)]; rewrite X in E.
      * destruct m as [|[|[|[|[|[|[|m]]]]]]]; cbn in E; try lia; destruct E as [E|[E|[E|E]]]; congruence.
      * unfold turning in E. destruct (Nat.modulo u 12) as [|[|[|[|[|[|[|[|[|[|[|m]]]]]]]]]]]; destruct E as [E|[E|[E|E]]]; congruence.
  - split; [|split; [|split; [|split; [|split]]]].
    + intros t. exact (turning_round 0 t ltac:(lia)).
    + intros t. exact (turning_round 1 t ltac:(lia)).
    + intros t f E. destruct (CS t) as [(m & L & X)|(u & X)]; rewrite X in E.
      * destruct m as [|[|[|[|[|[|[|m]]]]]]]; cbn in E; try lia; discriminate.
      * unfold turning in E. destruct (Nat.modulo u 12) as [|[|[|[|[|[|[|[|[|[|[|m]]]]]]]]]]]; try discriminate. injection E as <-. exact Logic.I.
    + intros t. destruct (turning_round 2 t ltac:(lia)) as (u & L & E). exists u, []. auto.
    + intros d. destruct (start_time (Z.to_nat d)) as [t H]. exists t. lia.
    + intros t j. exists (7 + (11 + Cantor.to_nat (t, j) * 12))%nat. pose proof (Cantor.to_nat_non_decreasing t j). split; [lia|].
      rewrite from_start_turning by lia. replace (7 + (11 + Cantor.to_nat (t, j) * 12) - 7)%nat with (11 + Cantor.to_nat (t, j) * 12)%nat by lia.
      unfold turning. rewrite Nat.mod_add by lia. cbn [Nat.modulo Nat.divmod fst snd Nat.sub]. rewrite Nat.div_add by lia. cbn [Nat.div Nat.divmod fst snd Nat.add Nat.sub]. now rewrite Cantor.cancel_of_to.
Qed.
