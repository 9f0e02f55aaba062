(** C184-C188: what makes the poller of a server look for changes (watcher.go:178-214).
    [lat w sch t]: the state after the first [t] steps of the infinite schedule [sch] of a server
    started on the database [w] (Poller.v): requests, other servers, watches, the ticker, and
    the poll loop step by step.  [b_poll]: the revision up to which it has published.
    [handed_over b]: every acknowledged, uncancelled watch of an open stream has been given
    exactly the changes of its range up to that revision (Spec.reports).
    [lcalm]: compaction does not overtake the poller or a registration (as in C129). *)
From Coq Require Import List ZArith Bool Lia Arith.
From Verif Require Import Bytes Spec Sql System Prog Backend Watch Poller FairWatch PollerProofs PollerWitness Demo WatchProofs.
From Verif Require Import Watch Poller.
Import ListNotations.
Open Scope Z_scope.

(** C184.  A write of this server commits revision [R] at time [t0]; at [t1] its notification
    finds room in the channel.  Queries do not fail from then on, and the loop looks into the
    channel again and again.  Then [R] is published to all watches - whether or not the ticker
    ever fires. *)
Theorem C184_prompt : forall w sch t0 t1 n R, wreach w -> (forall t, lpossible (lat w sch t) (sch t)) -> (forall t, lcalm (lat w sch t) (sch t)) -> (forall t, sch t <> LCancel) ->
  revision (history_of (snd (b_world (l_b (lat w sch t0))))) < R <= revision (history_of (snd (b_world (l_b (lat w sch (S t0)))))) ->
  (t0 < t1)%nat -> sch t1 = LSend n -> nth_error (l_unsent (lat w sch t1)) n = Some R -> (length (l_notify (lat w sch t1)) < 100)%nat ->
  b_dead (l_b (lat w sch t1)) = false -> (forall t c f, (t1 <= t)%nat -> sch t = LLoop c f -> f = NoFault) ->
  (forall t, exists t' f, (t <= t')%nat /\ sch t' = LLoop BNotify f) ->
  exists t, (t0 < t)%nat /\ R <= b_poll (l_b (lat w sch t)) /\ handed_over (l_b (lat w sch t)).
Proof. exact prompt. Qed.
Print Assumptions C184_prompt.
(** and a notification is due for every write that changes something, with its revision *)
Theorem C184_due : forall s op, breach (l_b s) -> allowed (snd (b_world (l_b s))) op ->
  match op with ACreate _ _ _ | AUpdate _ _ _ _ | ADelete _ _ => True | _ => False end ->
  let s' := lstep s (LWrite op) in let before := history_of (snd (b_world (l_b s))) in let after := history_of (snd (b_world (l_b s'))) in
  (after = before /\ l_unsent s' = l_unsent s) \/ (revision after = revision before + 1 /\ l_unsent s' = l_unsent s ++ [revision after]).
Proof. exact write_due. Qed.
Print Assumptions C184_due.
(** A watch, one write, its notification; nothing else ever happens, the ticker never fires. *)
Example C184_nonvacuous : let sch := then_ told looks in
  wreach init_world /\ (forall t, lpossible (lat init_world sch t) (sch t)) /\ (forall t, lcalm (lat init_world sch t) (sch t)) /\ (forall t, sch t <> LCancel) /\
  revision (history_of (snd (b_world (l_b (lat init_world sch 5))))) < 1 <= revision (history_of (snd (b_world (l_b (lat init_world sch 6))))) /\
  sch 6%nat = LSend 0 /\ nth_error (l_unsent (lat init_world sch 6)) 0 = Some 1 /\ l_notify (lat init_world sch 6) = [] /\
  b_dead (l_b (lat init_world sch 6)) = false /\ (forall t c f, (6 <= t)%nat -> sch t = LLoop c f -> f = NoFault) /\
  (forall t, exists t' f, (t <= t')%nat /\ sch t' = LLoop BNotify f) /\ (forall t, sch t <> LTick) /\
  b_poll (l_b (lat init_world sch 10)) = 1 /\
  map (fun g => map ev_rev (delivered (g_updates g) 1)) (b_groups (l_b (lat init_world sch 10))) = [[1]].
Proof.
  cbv zeta. split; [constructor|]. destruct (looks_ok init_world told) as (_ & A & B & C); [vm_compute; reflexivity|vm_compute; reflexivity|].
  split; [exact A|]. split; [exact B|]. split; [exact C|]. split; [vm_compute; split; congruence|]. split; [reflexivity|]. split; [vm_compute; reflexivity|]. split; [vm_compute; reflexivity|]. split; [vm_compute; reflexivity|].
  split. { intros t c f L E. eapply (looks_faults told 6 c f); [reflexivity|exact L|exact E]. }
  split; [apply looks_again|]. split; [|split; vm_compute; reflexivity].
  intros t. unfold then_. destruct (Nat.ltb_spec t (length told)) as [L|L]; [|discriminate].
  assert (X : forallb (fun x => match x with LTick => false | _ => true end) told = true) by reflexivity. rewrite forallb_forall in X.
  specialize (X (nth t told LTick) (nth_In _ _ L)). intros E. rewrite E in X. discriminate.
Qed.

(** C185.  But a notification can be lost: (1) the channel holds 100 notifications of changes
    published long ago, and the one of the next write is dropped; (2) the query it causes fails.
    If the ticker does not fire, the change is never published, although the loop looks into the
    channel forever, and all later queries would succeed. *)
Theorem C185_refuted :
  (exists w sch t0 t1 n R, wreach w /\ (forall t, lpossible (lat w sch t) (sch t)) /\ (forall t, lcalm (lat w sch t) (sch t)) /\ (forall t, sch t <> LCancel) /\
    revision (history_of (snd (b_world (l_b (lat w sch t0))))) < R <= revision (history_of (snd (b_world (l_b (lat w sch (S t0)))))) /\
    (t0 < t1)%nat /\ sch t1 = LSend n /\ nth_error (l_unsent (lat w sch t1)) n = Some R /\
    b_poll (l_b (lat w sch t0)) = R - 1 /\ Forall (fun r => r < R) (l_notify (lat w sch t1)) /\
    b_dead (l_b (lat w sch t1)) = false /\ (forall t c f, sch t = LLoop c f -> f = NoFault) /\
    (forall t, exists t' f, (t <= t')%nat /\ sch t' = LLoop BNotify f) /\
    forall t, b_poll (l_b (lat w sch t)) < R) /\
  (exists w sch t0 t1 n R, wreach w /\ (forall t, lpossible (lat w sch t) (sch t)) /\ (forall t, lcalm (lat w sch t) (sch t)) /\ (forall t, sch t <> LCancel) /\
    revision (history_of (snd (b_world (l_b (lat w sch t0))))) < R <= revision (history_of (snd (b_world (l_b (lat w sch (S t0)))))) /\
    (t0 < t1)%nat /\ sch t1 = LSend n /\ nth_error (l_unsent (lat w sch t1)) n = Some R /\ l_notify (lat w sch t1) = [] /\
    (forall t, b_dead (l_b (lat w sch t)) = false) /\ (exists t2, forall t c f, (t2 <= t)%nat -> sch t = LLoop c f -> f = NoFault) /\
    (forall t, exists t' f, (t <= t')%nat /\ sch t' = LLoop BNotify f) /\
    forall t, b_poll (l_b (lat w sch t)) < R).
Proof.
  split.
  - exists init_world, (then_ dropped looks), 206%nat, 207%nat, 0%nat, 101. split; [constructor|].
    destruct (looks_ok init_world dropped) as (F & A & B & C); [vm_compute; reflexivity|vm_compute; reflexivity|].
    split; [exact A|]. split; [exact B|]. split; [exact C|].
    pose proof (fun t => lat_prefix init_world dropped looks t) as LP. assert (LD : length dropped = 308%nat) by reflexivity. rewrite LD in LP.
    rewrite !LP by lia. split; [vm_compute; split; congruence|]. split; [lia|]. split; [reflexivity|]. split; [vm_compute; reflexivity|]. split; [vm_compute; reflexivity|].
    split. { apply Forall_forall. intros r I. apply Z.ltb_lt. revert r I. apply forallb_forall. vm_compute. reflexivity. }
    split; [vm_compute; reflexivity|]. split. { intros t c f E. eapply (looks_faults dropped 0 c f); [reflexivity| |exact E]. lia. }
    split; [apply looks_again|]. intros t.
    assert (M : forall t, b_poll (l_b (lat init_world (then_ dropped looks) (308 + t))) = 100) by (intros u; rewrite <- LD, F; vm_compute; reflexivity).
    pose proof (poll_mono init_world (then_ dropped looks) ltac:(constructor) A B C t (308 + t) ltac:(lia)) as P. rewrite M in P. lia.
  - exists init_world, (then_ failed looks), 0%nat, 1%nat, 0%nat, 1. split; [constructor|].
    destruct (looks_ok init_world failed) as (F & A & B & C); [vm_compute; reflexivity|vm_compute; reflexivity|].
    split; [exact A|]. split; [exact B|]. split; [exact C|].
    split; [vm_compute; split; congruence|]. split; [lia|]. split; [reflexivity|]. split; [vm_compute; reflexivity|]. split; [vm_compute; reflexivity|].
    assert (LE : forall t, exists u, (u <= 4)%nat /\ lat init_world (then_ failed looks) t = lrun (firstn u failed) (lstart init_world)).
    { intros t. destruct (Nat.lt_ge_cases t 4) as [L|L]; [exists t; split; [lia|apply lat_prefix; cbn; lia]|]. exists 4%nat. split; [lia|].
      replace t with (length failed + (t - 4))%nat by (cbn [failed length]; lia). apply F. }
    split. { intros t. destruct (LE t) as (u & L & ->). destruct u as [|[|[|[|[|u]]]]]; [..|lia]; vm_compute; reflexivity. }
    split. { exists 4%nat. intros t c f L E. eapply (looks_faults failed 4 c f); [reflexivity|exact L|exact E]. }
    split; [apply looks_again|]. intros t. destruct (LE t) as (u & L & ->). destruct u as [|[|[|[|[|u]]]]]; [..|lia]; vm_compute; reflexivity.
Qed.
Print Assumptions C185_refuted.

(** C186.  The ticker repairs that.  It fires again and again, and the loop takes that branch of
    its select again and again; queries may fail, but not by a deadline or cancellation, and if
    the poller queries again and again then again and again with success.  Then every change, of
    this server or another one, is published to all watches. *)
Theorem C186_ticks : forall w sch t0 R, wreach w -> (forall t, lpossible (lat w sch t) (sch t)) -> (forall t, lcalm (lat w sch t) (sch t)) -> (forall t, sch t <> LCancel) ->
  (forall t c f, sch t = LLoop c f -> bearable f) ->
  (forall t, exists t', (t <= t')%nat /\ sch t' = LTick) ->
  (forall t, exists t' f, (t <= t')%nat /\ sch t' = LLoop BTick f) ->
  ((forall t, exists t' c f, (t <= t')%nat /\ sch t' = LLoop c f /\ at_query (lat w sch t') = true) ->
    forall t, exists t' c, (t <= t')%nat /\ sch t' = LLoop c NoFault /\ at_query (lat w sch t') = true) ->
  revision (history_of (snd (b_world (l_b (lat w sch t0))))) < R <= revision (history_of (snd (b_world (l_b (lat w sch (S t0)))))) ->
  exists t, (t0 < t)%nat /\ R <= b_poll (l_b (lat w sch t)) /\ handed_over (l_b (lat w sch t)).
Proof. exact ticking. Qed.
Print Assumptions C186_ticks.
(** the run (2) of C185, and from then on the ticker fires *)
Definition cycle (k : nat) : laction := match Nat.modulo k 4 with O => LTick | _ => LLoop BTick NoFault end.
Definition repaired : list laction := failed ++ [LTick; LLoop BTick NoFault; LLoop BTick NoFault; LLoop BTick NoFault].
Definition lagging : nat -> laction := then_ repaired cycle.
Lemma cycle_state k : lat init_world lagging (length repaired + 4 * k) = lrun repaired (lstart init_world).
Proof.
  induction k as [|k IH]; [rewrite Nat.mul_0_r, Nat.add_0_r; apply lat_end|].
  replace (length repaired + 4 * S k)%nat with (S (S (S (S (length repaired + 4 * k))))) by lia. cbn [lat]. rewrite IH.
  assert (E : forall i, (i < 4)%nat -> lagging (i + (length repaired + 4 * k)) = cycle i).
  { intros i L. unfold lagging. replace (i + (length repaired + 4 * k))%nat with (length repaired + (i + k * 4))%nat by lia. rewrite then_after. unfold cycle. rewrite Nat.mod_add by lia. rewrite Nat.mod_small by lia. reflexivity. }
  pose proof (E 0 ltac:(lia))%nat as E0. pose proof (E 1 ltac:(lia))%nat as E1. pose proof (E 2 ltac:(lia))%nat as E2. pose proof (E 3 ltac:(lia))%nat as E3. cbn [Nat.add] in E0, E1, E2, E3.
  change (length repaired) with 8%nat in *. cbn [Nat.add] in *. rewrite E0, E1, E2, E3. vm_compute. reflexivity.
Qed.
Lemma cycle_at k : exists m, (m < 4)%nat /\ lat init_world lagging (length repaired + k) = lrun (firstn m [LTick; LLoop BTick NoFault; LLoop BTick NoFault; LLoop BTick NoFault]) (lrun repaired (lstart init_world)) /\ cycle k = nth m [LTick; LLoop BTick NoFault; LLoop BTick NoFault; LLoop BTick NoFault] LTick.
Proof.
  pose proof (Nat.div_mod k 4 ltac:(lia)) as D. pose proof (Nat.mod_upper_bound k 4 ltac:(lia)) as L. set (m := Nat.modulo k 4) in *. set (q := Nat.div k 4) in *. exists m. split; [exact L|]. split.
  - rewrite D. clearbody m q. assert (E : forall i, (i < 4)%nat -> lagging (i + (length repaired + 4 * q)) = cycle i).
    { intros i Li. unfold lagging. replace (i + (length repaired + 4 * q))%nat with (length repaired + (i + q * 4))%nat by lia. rewrite then_after. unfold cycle. rewrite Nat.mod_add by lia. rewrite Nat.mod_small by lia. reflexivity. }
    assert (S_ : forall i, (i < 4)%nat -> lat init_world lagging (S i + (length repaired + 4 * q)) = lstep (lat init_world lagging (i + (length repaired + 4 * q))) (cycle i)) by (intros i Li; change (S i + (length repaired + 4 * q))%nat with (S (i + (length repaired + 4 * q))); cbn [lat]; now rewrite E).
    pose proof (cycle_state q) as C. replace (length repaired + (4 * q + m))%nat with (m + (length repaired + 4 * q))%nat by lia.
    destruct m as [|[|[|[|m]]]]; [| | | |exfalso; lia].
    + exact C.
    + rewrite (S_ 0%nat) by lia. change (0 + (length repaired + 4 * q))%nat with (length repaired + 4 * q)%nat. rewrite C. vm_compute. reflexivity.
    + rewrite (S_ 1%nat) by lia. rewrite (S_ 0%nat) by lia. change (0 + (length repaired + 4 * q))%nat with (length repaired + 4 * q)%nat. rewrite C. vm_compute. reflexivity.
    + rewrite (S_ 2%nat) by lia. rewrite (S_ 1%nat) by lia. rewrite (S_ 0%nat) by lia. change (0 + (length repaired + 4 * q))%nat with (length repaired + 4 * q)%nat. rewrite C. vm_compute. reflexivity.
  - unfold cycle. fold m. destruct m as [|[|[|[|m]]]]; try reflexivity. exfalso; lia.
Qed.
Example C186_nonvacuous : let sch := lagging in
  wreach init_world /\ (forall t, lpossible (lat init_world sch t) (sch t)) /\ (forall t, lcalm (lat init_world sch t) (sch t)) /\ (forall t, sch t <> LCancel) /\
  (forall t c f, sch t = LLoop c f -> bearable f) /\
  (forall t, exists t', (t <= t')%nat /\ sch t' = LTick) /\
  (forall t, exists t' f, (t <= t')%nat /\ sch t' = LLoop BTick f) /\
  (forall t, exists t' c, (t <= t')%nat /\ sch t' = LLoop c NoFault /\ at_query (lat init_world sch t') = true) /\
  revision (history_of (snd (b_world (l_b (lat init_world sch 0))))) < 1 <= revision (history_of (snd (b_world (l_b (lat init_world sch 1))))) /\
  b_poll (l_b (lat init_world sch 4)) = 0 /\ b_poll (l_b (lat init_world sch 8)) = 1.
Proof.
  cbv zeta. split; [constructor|].
  assert (OKB : forall t, lokb (lat init_world lagging t) (lagging t) = true).
  { apply then_ok; [vm_compute; reflexivity|]. intros k. destruct (cycle_at k) as (m & L & E1 & E2). unfold lagging in E1. rewrite E1, E2. destruct m as [|[|[|[|m]]]]; [..|lia]; vm_compute; reflexivity. }
  split; [intros t; apply (lokb_ok _ _ (OKB t))|]. split; [intros t; apply (lokb_ok _ _ (OKB t))|]. split; [intros t; apply (lokb_ok _ _ (OKB t))|].
  assert (AF : forall i t, (i < 4)%nat -> lagging (length repaired + (i + t * 4)) = cycle i).
  { intros i t L. unfold lagging. rewrite then_after. unfold cycle. rewrite Nat.mod_add by lia. now rewrite Nat.mod_small by lia. }
  split. { intros t c f E. unfold lagging, then_ in E. destruct (Nat.ltb_spec t (length repaired)) as [L|L].
    - cbn [length repaired failed app] in L. destruct t as [|[|[|[|[|[|[|[|t]]]]]]]]; cbn in E; try discriminate; try (injection E as <- <-; cbn; (exact Logic.I || split; congruence)). exfalso; lia.
    - unfold cycle in E. destruct (Nat.modulo _ 4); [discriminate|]. injection E as <- <-. exact Logic.I. }
  split. { intros t. exists (length repaired + (0 + t * 4))%nat. split; [lia|]. now rewrite AF by lia. }
  split. { intros t. exists (length repaired + (1 + t * 4))%nat, NoFault. split; [lia|]. now rewrite AF by lia. }
  split. { intros t. exists (length repaired + (2 + t * 4))%nat, BTick. split; [lia|]. rewrite AF by lia. split; [reflexivity|].
    replace (length repaired + (2 + t * 4))%nat with (S (S (length repaired + 4 * t))) by lia. cbn [lat]. rewrite cycle_state.
    replace (length repaired + 4 * t)%nat with (length repaired + (0 + t * 4))%nat by lia. rewrite AF by lia. replace (S (length repaired + (0 + t * 4)))%nat with (length repaired + (1 + t * 4))%nat by lia. rewrite AF by lia. vm_compute. reflexivity. }
  split; [vm_compute; split; congruence|]. split; vm_compute; reflexivity.
Qed.

(** C187.  The poller does not burden the database: as long as its queries succeed, their number is
    at most the number of ticks and of writes notified so far, plus one for every 100 revisions
    published. *)
Theorem C187_queries : forall w xs, wreach w -> lruns (lstart w) xs -> unfailing xs ->
  100 * Z.of_nat (queries (lstart w) xs) <= 100 * Z.of_nat (wakings xs) + (b_poll (l_b (lrun xs (lstart w))) - floor_of (snd w)).
Proof. exact few_queries. Qed.
Print Assumptions C187_queries.
Lemma runb_lruns xs : forall s, runb s xs = true -> lruns s xs.
Proof. induction xs as [|x xs IH]; intros s H; [exact Logic.I|]. cbn [runb] in H. apply andb_true_iff in H. destruct H as [A B]. split; [apply (lokb_ok _ _ A)|now apply IH]. Qed.
Example C187_nonvacuous : wreach init_world /\ lruns (lstart init_world) crowded /\ unfailing crowded /\
  queries (lstart init_world) crowded = 2%nat /\ wakings crowded = 101%nat /\ b_poll (l_b (lrun crowded (lstart init_world))) = 100 /\
  lruns (lstart init_world) hurried /\ unfailing (hurried ++ repeat (looks 0) 3) /\ wakings (hurried ++ repeat (looks 0) 3) = 1%nat /\ queries (lstart init_world) (hurried ++ repeat (looks 0) 3) = 2%nat.
Proof.
  assert (U : forall xs, forallb (fun x => match x with LLoop _ NoFault => true | LLoop _ _ => false | _ => true end) xs = true -> unfailing xs).
  { intros xs H c f I. rewrite forallb_forall in H. specialize (H _ I). destruct f; (reflexivity || discriminate H). }
  split; [constructor|]. split; [apply runb_lruns; vm_compute; reflexivity|]. split; [apply U; reflexivity|]. split; [vm_compute; reflexivity|]. split; [reflexivity|]. split; [vm_compute; reflexivity|].
  split; [apply runb_lruns; vm_compute; reflexivity|]. split; [apply U; reflexivity|]. split; [reflexivity|]. vm_compute. reflexivity.
Qed.

Lemma lrun_app xs ys s : lrun (xs ++ ys) s = lrun ys (lrun xs s).
Proof. apply fold_left_app. Qed.
Lemma spinning x e : lpossible e x -> lstep e x = e -> at_query e = true -> (exists c f, x = LLoop c f) ->
  forall n, queries e (repeat x n) = n /\ lrun (repeat x n) e = e /\ lruns e (repeat x n).
Proof.
  intros P FX AQ (c & f & ->). induction n as [|n (IH1 & IH2 & IH3)]; [repeat split|]. cbn [repeat queries lruns]. rewrite AQ, FX.
  split; [rewrite IH1; reflexivity|]. split; [unfold lrun in *; cbn [fold_left]; rewrite FX; exact IH2|]. split; [exact P|exact IH3].
Qed.
(** C188.  Not so when queries fail: after a batch of 100 events the loop does not wait, and a
    failing query leaves it so; it asks again at once, as often as one likes, though only one
    tick and no notification has arrived. *)
Theorem C188_refuted : exists w xs, wreach w /\ lruns (lstart w) xs /\ wakings xs = 1%nat /\
  forall n, lruns (lstart w) (xs ++ repeat (LLoop BTick (FailBefore EOther)) n) /\ wakings (xs ++ repeat (LLoop BTick (FailBefore EOther)) n) = 1%nat /\
    queries (lstart w) (xs ++ repeat (LLoop BTick (FailBefore EOther)) n) = S n /\
    b_poll (l_b (lrun (xs ++ repeat (LLoop BTick (FailBefore EOther)) n) (lstart w))) = 100 /\ b_dead (l_b (lrun (xs ++ repeat (LLoop BTick (FailBefore EOther)) n) (lstart w))) = false.
Proof.
  assert (QA : forall xs ys s, queries s (xs ++ ys) = (queries s xs + queries (lrun xs s) ys)%nat).
  { induction xs as [|x xs IH]; intros ys s; [reflexivity|]. cbn [app queries]. rewrite IH. change (lrun (x :: xs) s) with (lrun xs (lstep s x)). lia. }
  assert (LA : forall xs ys s, lruns s xs -> lruns (lrun xs s) ys -> lruns s (xs ++ ys)).
  { induction xs as [|x xs IH]; intros ys s A B; [exact B|]. destruct A as [A1 A2]. split; [exact A1|]. apply IH; auto. }
  assert (FX : lstep (lrun hurried (lstart init_world)) (LLoop BTick (FailBefore EOther)) = lrun hurried (lstart init_world) /\ at_query (lrun hurried (lstart init_world)) = true /\
    b_poll (l_b (lrun hurried (lstart init_world))) = 100 /\ b_dead (l_b (lrun hurried (lstart init_world))) = false /\ queries (lstart init_world) hurried = 1%nat) by (split; [vm_compute; reflexivity|split; [vm_compute; reflexivity|split; [vm_compute; reflexivity|split; vm_compute; reflexivity]]]).
  destruct FX as (FX & AQ & BP & BD & Q1). pose proof (spinning (LLoop BTick (FailBefore EOther)) _ Logic.I FX AQ (ex_intro _ BTick (ex_intro _ (FailBefore EOther) eq_refl))) as RQ.
  exists init_world, hurried. split; [exact reach_init|]. assert (H1 : lruns (lstart init_world) hurried) by (apply runb_lruns; vm_compute; reflexivity). split; [exact H1|]. split; [reflexivity|].
  remember (lrun hurried (lstart init_world)) as e eqn:He.
  intros n. destruct (RQ n) as (R1 & R2 & R3). assert (R2' : lrun (hurried ++ repeat (LLoop BTick (FailBefore EOther)) n) (lstart init_world) = e) by (rewrite lrun_app, <- He; exact R2).
  split; [apply LA; [exact H1|rewrite <- He; exact R3]|]. split.
  { unfold wakings. rewrite filter_app, app_length. replace (filter _ (repeat _ n)) with (@nil laction); [reflexivity|]. clear. induction n as [|n IH]; [reflexivity|exact IH]. }
  split. { rewrite QA, Q1, <- He, R1. reflexivity. }
  rewrite R2'. split; assumption.
Qed.
Print Assumptions C188_refuted.
