(** C181, C182, C183: the durations a server is configured with. *)
From Coq Require Import List ZArith Bool Lia String.
From Verif Require Import Bytes Spec Sql System Prog Backend Watch Observe Demo Sim WatchLemmas WatchProofs WatchWitness Server Run RunProofs P_Run Intervals.
From Verif Require Import Watch.
Import ListNotations.
Open Scope Z_scope.

(** The values in effect are those of the flags and of tuning.yaml, or the documented
    defaults: compaction every five minutes, polling every second. *)
Theorem C181_configured : forall timeout notify t, let c := configured timeout notify t in
  du_timeout c = timeout /\ du_notify c = notify /\
  du_compact c = match t with Some (Tuning (Some z) _) => z | _ => 5 * 60 * 10 ^ 9 end /\
  du_poll c = match t with Some (Tuning _ (Some z)) => z | _ => 10 ^ 9 end.
Proof. intros timeout notify [[[a|] [b|]]|]; repeat split. Qed.
Print Assumptions C181_configured.

(** C181.  If they are positive, the goroutines that use them do not end the process: every
    execution is one of Run.v, where C88, C89, C90 and C166 say when the process ends. *)
Definition of_proc (a : iaction) : list paction := match a with IProc a => [a] | _ => [] end.
Lemma positive_run o c : 0 < du_compact c -> 0 < du_poll c -> 0 < du_notify c ->
  forall acts s, irun o c acts s = prun o (flat_map of_proc acts) s.
Proof.
  intros A B C. induction acts as [|a acts IH]; intros s; [reflexivity|].
  change (irun o c (a :: acts) s) with (irun o c acts (istep o c s a)). rewrite IH.
  assert (T : forall d, 0 < d -> ticker_panics d = false) by (intros d P; apply Z.leb_gt; lia).
  destruct a; cbn [istep flat_map of_proc]; rewrite ?(T _ A), ?(T _ B), ?(T _ C), ?andb_false_r; reflexivity.
Qed.
Theorem C181_up : forall o c acts, 0 < du_compact c -> 0 < du_poll c -> 0 < du_notify c ->
  irun o c acts proc_init = prun o (flat_map of_proc acts) proc_init.
Proof. intros o c acts A B C. exact (positive_run o c A B C acts proc_init). Qed.
Print Assumptions C181_up.
Example C181_nonvacuous : let c := configured (20 * 10 ^ 9) (5 * 10 ^ 9) (Some (Tuning (Some 1) None)) in
  0 < du_compact c /\ 0 < du_poll c /\ 0 < du_notify c /\ du_compact c = 1 /\
  p_marks (irun opts_n c (map IProc startup ++ [ICompactor; IPoller; IStream]) proc_init) = [KListening].
Proof. repeat split. Qed.

(** C182.  A server that accepts its configuration serves until it is told to stop.  It does
    not: no value is refused, and with a compaction or poll interval in tuning.yaml that is
    not positive, the process ends with status 2 as soon as the goroutine runs, without a
    signal and with nothing closed - at every start; *)
Lemma gone_stays o c acts : forall s, p_pc s = MGone -> p_serving s = false -> p_marks (irun o c acts s) = p_marks s.
Proof.
  induction acts as [|a acts IH]; intros s G V; [reflexivity|].
  change (irun o c (a :: acts) s) with (irun o c acts (istep o c s a)).
  assert (K : p_pc (istep o c s a) = MGone /\ p_serving (istep o c s a) = false /\ p_marks (istep o c s a) = p_marks s).
  { destruct a as [b| | |]; cbn [istep]; unfold backend_runs; rewrite ?G, ?V; cbn [andb]; auto.
    destruct b; cbn [pstep]; unfold main_step, disk_runs; rewrite ?G, ?andb_false_r; auto.
    destruct (ds_cancelled (p_disk s)); cbn; auto. }
  destruct K as (K1 & K2 & K3). rewrite IH; auto.
Qed.
Lemma crash o c s a rest : (match a with ICompactor => backend_runs s && (du_compact c <=? 0) | IPoller => backend_runs s && (du_poll c <=? 0) | IStream => p_serving s && (du_notify c <=? 0) | IProc _ => false end) = true ->
  p_marks (irun o c (a :: rest) s) = p_marks s ++ [KExit 2].
Proof.
  intros H. change (irun o c (a :: rest) s) with (irun o c rest (istep o c s a)).
  assert (E : istep o c s a = leave [KExit 2] s).
  { destruct a; try discriminate; cbn [istep]; unfold ticker_panics; rewrite H; reflexivity. }
  rewrite E. now rewrite gone_stays.
Qed.
Theorem C182_start_refuted : forall o timeout notify t rest, (exists z, z <= 0 /\ (tn_compact t = Some z \/ tn_poll t = Some z)) ->
  exists a, p_marks (irun o (configured timeout notify (Some t)) (map IProc startup ++ a :: rest) proc_init) = [KListening; KExit 2].
Proof.
  intros o timeout notify t rest (z & L & H). unfold irun. 
  assert (S : fold_left (istep o (configured timeout notify (Some t))) (map IProc startup) proc_init = prun o startup proc_init) by reflexivity.
  apply Z.leb_le in L. destruct H as [H|H]; [exists ICompactor|exists IPoller]; rewrite fold_left_app, S; fold (irun o (configured timeout notify (Some t)));
    (change [KListening; KExit 2] with (p_marks (prun o startup proc_init) ++ [KExit 2]); apply (crash o); cbn [configured du_compact du_poll]; rewrite H; exact L).
Qed.
Print Assumptions C182_start_refuted.
(** and with --watch-progress-notify-interval=0 the first watch of any client ends it. *)
Theorem C182_watch_refuted : forall o timeout notify t acts rest, notify <= 0 -> p_serving (irun o (configured timeout notify t) acts proc_init) = true ->
  p_marks (irun o (configured timeout notify t) (acts ++ IStream :: rest) proc_init) = p_marks (irun o (configured timeout notify t) acts proc_init) ++ [KExit 2].
Proof.
  intros o timeout notify t acts rest L V. unfold irun. rewrite fold_left_app. apply (crash o). fold (irun o (configured timeout notify t) acts proc_init). rewrite V. apply Z.leb_le in L. destruct t; exact L.
Qed.
Print Assumptions C182_watch_refuted.
Example C182_nonvacuous : (exists z, z <= 0 /\ (tn_compact (Tuning (Some 0) None) = Some z \/ tn_poll (Tuning (Some 0) None) = Some z)) /\
  p_serving (irun opts_n (configured (20 * 10 ^ 9) 0 None) (map IProc startup) proc_init) = true.
Proof. split; [exists 0; split; [lia|auto]|reflexivity]. Qed.

(** C183.  --watch-query-timeout is at least five seconds, as its description says.  It is not
    checked; with a value that is not positive the watches of that server are silent:
    whatever is written, polled and published, no group gets anything from the poller. *)
Lemma expired_fetch timeout s f : timeout <= 0 -> b_batch s = None ->
  b_batch (timed_step timeout s (AFetch f)) = None /\ b_groups (timed_step timeout s (AFetch f)) = b_groups s /\ b_poll (timed_step timeout s (AFetch f)) = b_poll s.
Proof.
  intros L B. apply Z.leb_le in L. cbn [timed_step bstep]. unfold query_fault. rewrite L. unfold fetch. destruct (b_dead s); [auto|]. rewrite B. cbn [sem snd]. cbn. auto.
Qed.
Theorem C183_refuted : forall timeout acts s, timeout <= 0 -> b_batch s = None ->
  (forall a, In a acts -> (exists op, a = AEnv op) \/ (exists f, a = AFetch f) \/ a = APublish) ->
  b_groups (timed_run timeout acts s) = b_groups s.
Proof.
  intros timeout acts s L. revert s. induction acts as [|a acts IH]; intros s B A; [reflexivity|].
  change (timed_run timeout (a :: acts) s) with (timed_run timeout acts (timed_step timeout s a)).
  destruct (A a (or_introl eq_refl)) as [(op & ->)|[(f & ->)| ->]].
  - rewrite IH; [reflexivity|exact B|intros b Hb; apply A; now right].
  - destruct (expired_fetch timeout s f L B) as (B' & G & _). rewrite IH; [exact G|exact B'|intros b Hb; apply A; now right].
  - assert (E : timed_step timeout s APublish = s) by (cbn [timed_step bstep]; unfold publish_all; now rewrite B).
    rewrite E. apply IH; [exact B|intros b Hb; apply A; now right].
Qed.
Print Assumptions C183_refuted.
(** The same actions deliver an event when the timeout is positive. *)
Example C183_nonvacuous : let s := timed_run 20 [ANewGroup; AWatch 0 ka kd 0; ACheck 0 1 NoFault; AQuery 0 1 NoFault; AFinish 0 1] (bstart init_world) in
  let acts := [AEnv (ACreate kb v1 0); AFetch NoFault; APublish] in
  b_batch s = None /\ List.length (b_groups s) = 1%nat /\
  map (fun g => List.length (g_updates g)) (b_groups (timed_run 20 acts s)) = [1%nat] /\
  map (fun g => List.length (g_updates g)) (b_groups (timed_run 0 acts s)) = [0%nat].
Proof. vm_compute. repeat split. Qed.
