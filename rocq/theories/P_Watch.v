(** C24-C28, C32, C34, C82: what watchers of a server receive.
    [breach s]: [s] is reachable by any interleaving of writers (on any server),
    compactions, the poller with any query faults, watch registrations step by
    step, cancellations and consumption.
    [delivered us id]: the events put into the updates [us] for watch [id].
    [begins r]: requested start - 1, or the group position at registration if that
    is lower or no start was requested. *)
From Coq Require Import List ZArith Bool Lia Sorting.Sorted.
From Verif Require Import Bytes Spec Sql System Prog Backend Watch SpecLemmas SqlLemmas Sim ReadLemmas ProgLemmas ReadProgs WatchLemmas WatchProofs WatchResults WatchWitness Observe Demo.
Import ListNotations.
Open Scope Z_scope.

(** C82.  Always: in strictly increasing revision order (hence never twice), only
    changes of keys in the range, nothing at or before [begins]. *)
Theorem C82_order : forall s i g r k, breach s -> nth_error (b_groups s) i = Some g -> In r (g_regs g) ->
  let evs := delivered (firstn k (g_updates g)) (r_id r) in
  StronglySorted Z.lt (map ev_rev evs) /\
  forall ev, In ev evs -> begins r < ev_rev ev <= b_poll s /\ in_range (r_lo r) (r_hi r) (kv_key (ev_kv ev)) /\
    truthful_event (history_of (snd (b_world s))) (ev_rev ev) ev.
Proof. exact delivered_order. Qed.
Print Assumptions C82_order.
(** the run of C129 below *)
Example C82_nonvacuous : breach healthy /\ exists g r, nth_error (b_groups healthy) 0 = Some g /\ In r (g_regs g) /\
  map ev_rev (delivered (firstn 5 (g_updates g)) (r_id r)) <> [].
Proof.
  split; [exact (calm_breach _ healthy_calm)|]. destruct healthy_facts as (_ & _ & _ & g & evs & N & _ & _ & RG & _).
  exists g. assert (G : g = nth 0 (b_groups healthy) g) by (symmetry; apply nth_error_nth; exact N).
  exists (nth 0 (g_regs g) (Reg 0 [] [] 0 0)). split; [exact N|]. split; [apply nth_In; apply (f_equal (@length _)) in RG; rewrite map_length in RG; rewrite RG; cbn; lia|].
  rewrite G. vm_compute. discriminate.
Qed.

(** C129.  No gap, if compaction overtakes neither the poller nor the registration, and
    the registration's query is not cut short: at every moment a consumer has seen
    all changes of its range between [begins r] and some revision. *)
Theorem C129_no_gap : forall s i g r k, calm_reach s -> nth_error (b_groups s) i = Some g -> In r (g_regs g) ->
  exists b, b <= b_poll s /\
    reports (history_of (snd (b_world s))) (in_range (r_lo r) (r_hi r)) (begins r) b (delivered (firstn k (g_updates g)) (r_id r)).
Proof. exact delivered_prefix. Qed.
Print Assumptions C129_no_gap.

(** And everything arrives: once the poller ran often enough, an acknowledged
    watch that was not cancelled and whose group was not dropped for slowness has
    all changes up to the current revision. *)
Theorem C129_eventually : forall n s, calm_reach s -> b_dead s = false -> kept (snd (b_world s)) (b_poll s) ->
  revision (history_of (snd (b_world s))) - b_poll s + 1 <= Z.of_nat n ->
  let s' := poll_rounds n s in
  b_world s' = b_world s /\
  forall i g r, nth_error (b_groups s') i = Some g -> g_open g = true -> In r (g_regs g) ->
    In (r_id r, WOk) (g_returns g) -> ~ In (r_id r) (g_cancelled g) ->
    reports (history_of (snd (b_world s))) (in_range (r_lo r) (r_hi r)) (begins r) (revision (history_of (snd (b_world s))))
      (delivered (g_updates g) (r_id r)).
Proof. exact eventually_delivered. Qed.
Print Assumptions C129_eventually.

(** C24.  Without the first proviso events are lost silently: a watch from revision 1
    never gets the changes of revisions 2 and 3, because more than 100 revisions
    were written and compacted between two polls. *)
Theorem C24_refuted : exists s, breach s /\ b_poll s = revision (history_of (snd (b_world s))) /\
  map (fun r => nth_error (history_of (snd (b_world s))) r) [1%nat; 2%nat; 3%nat] =
    [Some (Entry ka (Put v1 0)); Some (Entry ka (Put v2 0)); Some (Entry ka (Put v3 0))] /\
  exists g r, nth_error (b_groups s) 0 = Some g /\ g_open g = true /\ In r (g_regs g) /\
  r_start r = 1 /\ r_lo r = ka /\ r_hi r = kb /\ In (r_id r, WOk) (g_returns g) /\ g_cancelled g = [] /\
  map ev_rev (delivered (g_updates g) (r_id r)) = [4].
Proof. exists overtaken. exact overtaken_lost. Qed.
Print Assumptions C24_refuted.

Example C129_nonvacuous : calm_reach healthy /\ breach healthy /\ kept (snd (b_world healthy)) (b_poll healthy) /\
  b_poll healthy = 10 /\ revision (history_of (snd (b_world healthy))) = 11 /\ b_dead healthy = false /\
  exists g evs, nth_error (b_groups healthy) 0 = Some g /\ b_batch healthy = Some evs /\ g_open g = true /\
    map (fun r => (r_id r, r_start r, begins r)) (g_regs g) = [(1, 6, 5); (2, 0, 8); (3, 11, 10)] /\
    g_returns g = [(2, WOk); (1, WOk)] /\ g_cancelled g = [3] /\
    revs (g_updates g) 1 = [6; 7; 8; 10] /\
    exists g', nth_error (b_groups (bstep healthy APublish)) 0 = Some g' /\ g_open g' = true /\
    revs (g_updates g') 1 = [6; 7; 8; 10; 11] /\ revs (g_updates g') 2 = [11] /\ revs (g_updates g') 3 = [].
Proof.
  split; [exact healthy_calm|]. split; [exact (calm_breach _ healthy_calm)|].
  split; [apply keptb_ok; vm_compute; reflexivity|]. exact healthy_facts.
Qed.

(** C148 (part of C25).  If the requested start is at most one above the group's position, or no
    start is requested, nothing older is delivered. *)
Theorem C148_not_older : forall s i g r ev, breach s -> nth_error (b_groups s) i = Some g -> In r (g_regs g) ->
  In ev (delivered (g_updates g) (r_id r)) ->
  (0 < r_start r <= r_captured r + 1 -> r_start r <= ev_rev ev) /\
  (r_start r <= 0 -> r_captured r < ev_rev ev).
Proof.
  intros s i g r ev H N I J. pose proof (delivered_order s i g r (length (g_updates g)) H N I) as [_ K]. rewrite firstn_all in K.
  destruct (K ev J) as [L _]. unfold begins in L. destruct (Z.ltb_spec 0 (r_start r)); split; intros; lia.
Qed.
Print Assumptions C148_not_older.
(** Otherwise it is: the store is at revision 3, a client that has read revision 3
    watches from 4, the poller has not yet seen revisions 1-3, and the watch gets
    them.  Likewise a watch without start revision gets changes made before it. *)
Theorem C25_refuted : exists s, breach s /\ exists g r, nth_error (b_groups s) 0 = Some g /\ In r (g_regs g) /\
  r_start r = 4 /\ In (r_id r, WOk) (g_returns g) /\ map ev_rev (delivered (g_updates g) (r_id r)) = [1; 2; 3].
Proof. exists (lagging 4). destruct lagging_old as [A B]. split; [exact (calm_breach _ A)|exact B]. Qed.
Print Assumptions C25_refuted.
Theorem C25_now_refuted : exists before acts s, breach before /\ revision (history_of (snd (b_world before))) = 3 /\
  (forall g, In g (b_groups before) -> g_regs g = []) /\
  s = fold_left bstep acts before /\ breach s /\
  exists g r, nth_error (b_groups s) 0 = Some g /\ In r (g_regs g) /\
  r_start r = 0 /\ In (r_id r, WOk) (g_returns g) /\ map ev_rev (delivered (g_updates g) (r_id r)) = [1; 2; 3].
Proof.
  exists lag0_before, (skipn 4 (lag_acts 0)), (lagging 0). destruct lagging_zero as (A & B & C & D).
  split. { apply brun_breach with true; [apply breach_start, init_reach|]. vm_compute. reflexivity. }
  split; [exact B|]. split. { vm_compute. intros g [<-|[]]. reflexivity. }
  split; [exact C|]. split; [exact (calm_breach _ A)|exact D].
Qed.
Print Assumptions C25_now_refuted.
Example C25_nonvacuous : exists s g r ev, breach s /\ nth_error (b_groups s) 0 = Some g /\ In r (g_regs g) /\
  In ev (delivered (g_updates g) (r_id r)) /\ 0 < r_start r <= r_captured r + 1 /\ ev_rev ev = 7.
Proof.
  exists healthy. destruct healthy_facts as (_ & _ & _ & g & evs & N & _ & _ & RG & _ & _ & RV & _).
  exists g. assert (G : g = nth 0 (b_groups healthy) g) by (symmetry; apply nth_error_nth; exact N).
  exists (Reg 1 ka kd 6 5). 
  assert (J : In 7 (map ev_rev (delivered (g_updates g) 1))) by (unfold revs in RV; rewrite RV; simpl; auto).
  apply in_map_iff in J. destruct J as (ev & J1 & J2). exists ev.
  split; [exact (calm_breach _ healthy_calm)|]. split; [exact N|]. split; [|split; [exact J2|]].
  - rewrite G. vm_compute. auto.
  - split; [vm_compute; split; congruence|exact J1].
Qed.

(** C26, C111.  When the floor is above the start at the moment of the check, the watch
    is refused with the floor (or fails); otherwise it is not refused as compacted. *)
Theorem C111_refused : forall s i g r f, breach s -> nth_error (b_groups s) i = Some g -> In (r, PCheck) (g_pending g) ->
  exists g', nth_error (b_groups (bstep s (ACheck i (r_id r) f))) i = Some g' /\
  (r_start r < floor_of (snd (b_world s)) ->
     (exists e, In (r_id r, WFailed e) (g_returns g')) \/
     In (r_id r, WCompacted (floor_of (snd (b_world s))) (revision (history_of (snd (b_world s))))) (g_returns g')) /\
  (f = NoFault -> r_start r < floor_of (snd (b_world s)) ->
     In (r_id r, WCompacted (floor_of (snd (b_world s))) (revision (history_of (snd (b_world s))))) (g_returns g')) /\
  (floor_of (snd (b_world s)) <= r_start r -> forall a b, ~ In (r_id r, WCompacted a b) (g_returns g')).
Proof. exact check_refuses. Qed.
Print Assumptions C111_refused.
(** An accepted watch can still miss events: the change at the floor is a deletion
    and the watch starts there ... *)
Theorem C26_at_floor_refuted : exists s, breach s /\ floor_of (snd (b_world s)) = 3 /\
  nth_error (history_of (snd (b_world s))) 2 = Some (Entry ka Del) /\
  b_poll s = revision (history_of (snd (b_world s))) /\
  exists g r, nth_error (b_groups s) 0 = Some g /\ g_open g = true /\ In r (g_regs g) /\
  r_start r = 3 /\ r_lo r = ka /\ r_hi r = kb /\ In (r_id r, WOk) (g_returns g) /\ g_cancelled g = [] /\
  map ev_rev (delivered (g_updates g) (r_id r)) = [].
Proof. exists tomb_watch. exact tomb_lost. Qed.
Print Assumptions C26_at_floor_refuted.
(** ... or compaction runs between the check and the query. *)
Theorem C26_race_refuted : exists s, breach s /\ b_poll s = revision (history_of (snd (b_world s))) /\
  nth_error (history_of (snd (b_world s))) 2 = Some (Entry ka (Put v2 0)) /\
  exists g r, nth_error (b_groups s) 0 = Some g /\ g_open g = true /\ In r (g_regs g) /\
  r_start r = 3 /\ r_lo r = ka /\ r_hi r = kb /\ In (r_id r, WOk) (g_returns g) /\ g_cancelled g = [] /\
  map ev_rev (delivered (g_updates g) (r_id r)) = [4].
Proof. exists race_watch. exact race_lost. Qed.
Print Assumptions C26_race_refuted.
Example C111_nonvacuous : exists s g r, breach s /\ nth_error (b_groups s) 0 = Some g /\ In (r, PCheck) (g_pending g) /\
  r_start r < floor_of (snd (b_world s)).
Proof.
  exists (brun [ANewGroup; AWatch 0 ka kb 2] (bstart demo)), (Group 5 [Watcher (Reg 1 ka kb 2 5) false []] [(Reg 1 ka kb 2 5, PCheck)] [] 0 true [Reg 1 ka kb 2 5] [] []), (Reg 1 ka kb 2 5).
  split; [apply brun_breach with false; [apply breach_start, demo_reach|]; vm_compute; reflexivity|].
  split; [vm_compute; reflexivity|]. split; [simpl; auto|vm_compute; reflexivity].
Qed.

(** C27: every event handed to any watcher tells the truth about its revision
    (see [truthful_event]): key, kind, for puts value, lease, create and mod
    revision; previous value, create and mod revision. *)
Theorem C27_contents : forall s i g u id ev, breach s -> nth_error (b_groups s) i = Some g -> In u (g_updates g) ->
  In (id, ev) (flat_map (fun x => map (fun e => (fst x, e)) (snd x)) (u_watchers u)) ->
  truthful_event (history_of (snd (b_world s))) (ev_rev ev) ev.
Proof.
  intros s i g u id ev H N U J. pose proof (group_inv _ _ _ _ (breach_Binv _ H) N) as G.
  apply in_flat_map in J. destruct J as (x & J1 & J2). apply in_map_iff in J2. destruct J2 as (ev' & E & J2). injection E as E1 E2. subst ev'.
  destruct (G_uids _ _ _ _ G u x U J1) as (r & R1 & R2).
  pose proof (delivered_order s i g r (length (g_updates g)) H N R1) as [_ K]. rewrite firstn_all in K.
  apply K. unfold delivered. apply in_flat_map. exists u. split; auto. apply in_flat_map. exists x. split; auto.
  rewrite R2, Z.eqb_refl. exact J2.
Qed.
Print Assumptions C27_contents.
Example C27_nonvacuous : exists s g u id ev, breach s /\ nth_error (b_groups s) 0 = Some g /\ In u (g_updates g) /\
  In (id, ev) (flat_map (fun x => map (fun e => (fst x, e)) (snd x)) (u_watchers u)) /\
  ev = Event false (KV kc v1 0 6 8) (Some (KV kc v3 0 6 6)).
Proof.
  exists healthy. destruct healthy_facts as (_ & _ & _ & g & evs & N & _). exists g.
  assert (G : g = nth 0 (b_groups healthy) g) by (symmetry; apply nth_error_nth; exact N).
  exists (nth 1 (g_updates g) (Update 0 [])), 1, (Event false (KV kc v1 0 6 8) (Some (KV kc v3 0 6 6))).
  split; [exact (calm_breach _ healthy_calm)|]. split; [exact N|]. rewrite G. vm_compute. auto 10.
Qed.

(** C149 (part of C28): an update with revision R completes the deliveries up to R for every
    acknowledged watch of the group (same proviso as C24). *)
Theorem C149_complete : forall s evs i g r, calm_reach s -> b_batch s = Some evs ->
  nth_error (b_groups (bstep s APublish)) i = Some g -> g_open g = true -> In r (g_regs g) ->
  In (r_id r, WOk) (g_returns g) -> ~ In (r_id r) (g_cancelled g) ->
  exists us u, g_updates g = us ++ [u] /\
  reports (history_of (snd (b_world s))) (in_range (r_lo r) (r_hi r)) (begins r) (u_rev u) (delivered (g_updates g) (r_id r)).
Proof.
  intros s evs i g r H B N OP I RT NC.
  destruct (publish_complete True s evs i g r (calm_Binv _ H) (calm_breach _ H) B N OP I RT NC) as [RP (us & ws & E)].
  exists us, (Update (b_poll (bstep s APublish)) ws). split; [exact E|]. apply reports_rep. exact RP.
Qed.
Print Assumptions C149_complete.
(** With the poller overtaken by compaction the update of revision 104 is not complete. *)
Theorem C28_refuted : exists s, breach s /\
  nth_error (history_of (snd (b_world s))) 2 = Some (Entry ka (Put v2 0)) /\
  exists g r us u, nth_error (b_groups s) 0 = Some g /\ In r (g_regs g) /\
  r_start r = 1 /\ r_lo r = ka /\ r_hi r = kb /\ In (r_id r, WOk) (g_returns g) /\ g_updates g = us ++ [u] /\ u_rev u = 104 /\
  map ev_rev (delivered (g_updates g) (r_id r)) = [4].
Proof.
  exists overtaken. destruct overtaken_lost as (A & _ & _ & _). split; [exact A|]. split; [vmc|].
  exists (nth 0 (b_groups overtaken) (Group 0 [] [] [] 0 true [] [] [])), (Reg 1 ka kb 1 0).
  set (g := nth 0 (b_groups overtaken) (Group 0 [] [] [] 0 true [] [] [])).
  exists (removelast (g_updates g)), (last (g_updates g) (Update 0 [])). vmcs.
Qed.
Print Assumptions C28_refuted.
Example C28_nonvacuous : exists evs g r, calm_reach healthy /\ b_batch healthy = Some evs /\
  nth_error (b_groups (bstep healthy APublish)) 0 = Some g /\ g_open g = true /\ In r (g_regs g) /\
  In (r_id r, WOk) (g_returns g) /\ ~ In (r_id r) (g_cancelled g).
Proof.
  destruct healthy_facts as (_ & _ & _ & _ & evs & _ & BB & _). exists evs.
  exists (nth 0 (b_groups (bstep healthy APublish)) (Group 0 [] [] [] 0 true [] [] [])), (Reg 1 ka kd 6 5).
  split; [exact healthy_calm|]. split; [exact BB|]. split; [vmc|]. split; [vmc|]. split; [vmc|].
  split; [vm_compute; auto|]. vm_compute. intros [X|[]]; discriminate.
Qed.

(** C171 (part of C32): a watch whose initial query fails leaves no watcher ... *)
Theorem C171_query_fails : forall s i g r f e, breach s -> nth_error (b_groups s) i = Some g -> In (r, PQuery) (g_pending g) ->
  (f = FailBefore e \/ f = FailAfter e) ->
  exists g', nth_error (b_groups (bstep s (AQuery i (r_id r) f))) i = Some g' /\ In (r_id r, WFailed e) (g_returns g') /\
    forall w, In w (g_watchers g') -> r_id (w_reg w) <> r_id r.
Proof. exact query_error_removes. Qed.
Print Assumptions C171_query_fails.
(** ... but one refused as compacted does, and it goes on storing events. *)
Theorem C32_refuted : exists s, breach s /\
  exists g w, nth_error (b_groups s) 0 = Some g /\ g_returns g = [(1, WCompacted 3 103)] /\
   g_watchers g = [w] /\ r_id (w_reg w) = 1 /\ w_init w = false /\ map ev_rev (w_events w) = [104].
Proof. exists refused_run. exact refused_stays. Qed.
Print Assumptions C32_refuted.
Example C32_nonvacuous : exists s g r, breach s /\ nth_error (b_groups s) 0 = Some g /\ In (r, PQuery) (g_pending g).
Proof.
  exists (brun [ANewGroup; AWatch 0 ka kb 6; ACheck 0 1 NoFault] (bstart demo)).
  exists (Group 5 [Watcher (Reg 1 ka kb 6 5) false []] [(Reg 1 ka kb 6 5, PQuery)] [] 0 true [Reg 1 ka kb 6 5] [] []), (Reg 1 ka kb 6 5).
  split; [apply brun_breach with false; [apply breach_start, demo_reach|]; vm_compute; reflexivity|].
  split; [vm_compute; reflexivity|simpl; auto].
Qed.

(** C153 (part of C34): errors other than a time-out or cancellation do not stop the poller, and
    once the database answers it catches up. *)
Theorem C153_survives : forall fs s n, breach s -> b_dead s = false -> Forall survivable fs ->
  let s1 := fold_left bstep (map AFetch fs) s in
  b_dead s1 = false /\
  (kept (snd (b_world s1)) (b_poll s1) -> revision (history_of (snd (b_world s1))) - b_poll s1 + 1 <= Z.of_nat n ->
   b_poll (poll_rounds n s1) = revision (history_of (snd (b_world s1)))).
Proof.
  intros fs s n H D F s1.
  assert (K : breach s1 /\ b_dead s1 = false).
  { unfold s1. clear s1. revert s H D F. induction fs as [|f fs IH]; intros s H D F; [auto|]. cbn [map fold_left].
    inversion F; subst. apply IH; auto; [apply breach_step; simpl; auto|]. cbn [bstep]. rewrite fetch_survives; auto. }
  destruct K as [K1 K2]. split; [exact K2|]. intros A B. apply (rounds_poll n s1 K1 K2 A B).
Qed.
Print Assumptions C153_survives.
(** A time-out of one polling query ends polling for good: whatever happens later,
    no watcher of the server gets anything any more. *)
Theorem C34_refuted : forall s, breach s -> b_dead s = false -> b_batch s = None ->
  let s1 := bstep s (AFetch (FailBefore EDeadline)) in
  breach s1 /\ forall acts, let s2 := fold_left bstep acts s1 in
  b_poll s2 = b_poll s /\
  forall i g g', nth_error (b_groups s) i = Some g -> nth_error (b_groups s2) i = Some g' -> g_updates g' = g_updates g.
Proof.
  intros s H D B s1. split; [apply breach_step; simpl; auto|]. intros acts s2.
  assert (E : s1 = BState (b_world s) (b_poll s) None true (b_groups s)).
  { unfold s1. cbn [bstep]. unfold fetch. rewrite D, B. reflexivity. }
  assert (D1 : b_dead s1 = true) by (rewrite E; auto). assert (B1 : b_batch s1 = None) by (rewrite E; auto).
  destruct (dead_forever acts s1 D1 B1) as (_ & _ & P & U). fold s2 in P, U. rewrite E in P, U. split; [exact P|]. exact U.
Qed.
Print Assumptions C34_refuted.
Example C34_nonvacuous : exists s, breach s /\ b_dead s = false /\ b_batch s = None /\ b_groups s <> [] /\
  kept (snd (b_world s)) (b_poll s) /\ b_poll s < revision (history_of (snd (b_world s))) /\
  Forall survivable [FailBefore EBusy; FailAfter EOther; CutRows 1 EOther].
Proof.
  exists (brun [ANewGroup; AWatch 0 ka kb 6] (bstart demo)).
  split; [apply brun_breach with false; [apply breach_start, demo_reach|]; vm_compute; reflexivity|].
  split; [reflexivity|]. split; [reflexivity|]. split; [vm_compute; discriminate|].
  split; [apply keptb_ok; vm_compute; reflexivity|]. split; [vm_compute; reflexivity|].
  repeat constructor; discriminate.
Qed.
