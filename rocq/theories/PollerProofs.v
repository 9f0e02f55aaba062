(** The poll loop: it refines Watch.v; liveness by notifications and by ticks; how often it queries. *)
From Coq Require Import List ZArith Bool Lia Arith Sorting.Sorted.
From Verif Require Import Bytes Spec Sql System Prog Backend Watch Poller FairWatch SpecLemmas SqlLemmas Sim ReadLemmas ProgLemmas WatchLemmas WatchProofs WatchResults FairWatchProofs.
From Verif Require Import Watch Poller.
Import ListNotations.
Open Scope Z_scope.

Definition hrev (s : lstate) : Z := revision (history_of (snd (b_world (l_b s)))).

(** ---- every step is at most one step of Watch.v ---- *)
Lemma lstep_bstep s x : l_b (lstep s x) = l_b s \/ exists a, l_b (lstep s x) = bstep (l_b s) a /\
  (lpossible s x -> possible (l_b s) a) /\ (lcalm s x -> (forall c f, x = LLoop c f -> at_query s = true \/ b_batch (l_b s) <> None) -> calm (l_b s) a) /\ (b_batch (l_b s) = None -> forall f, a = AFetch f -> at_query s = false -> f = FailBefore ECanceled).
Proof.
  destruct x as [a|op|n| | |c f]; cbn [lstep].
  - destruct (own a) eqn:O; [left; reflexivity|]. right. exists a. cbn [l_b]. split; [reflexivity|]. split; [auto|]. split; [auto|]. intros _ f ->. discriminate.
  - right. exists (AEnv op). cbn [local_write l_b]. split; [reflexivity|]. split; [auto|]. split; [intros; exact Logic.I|]. intros _ f. discriminate.
  - left. unfold send. destruct (nth_error _ _); reflexivity.
  - left. reflexivity.
  - left. reflexivity.
  - unfold loop. destruct (b_dead (l_b s)) eqn:D; [left; reflexivity|]. destruct (b_batch (l_b s)) as [evs|] eqn:B.
    + right. exists APublish. cbn [l_b]. split; [reflexivity|]. split; [intros; exact Logic.I|]. split; [intros; exact Logic.I|]. discriminate.
    + destruct (at_query s) eqn:Q.
      * right. exists (AFetch f). cbn [l_b]. split; [reflexivity|]. split; [intros; exact Logic.I|]. split; [cbn; auto|]. discriminate.
      * destruct c; cbn [select].
        -- destruct (l_done s); [|left; reflexivity]. right. exists (AFetch (FailBefore ECanceled)). cbn [l_b]. split; [reflexivity|]. split; [intros; exact Logic.I|].
           split. { intros _ H. destruct (H _ _ eq_refl); congruence. } intros _ g [= <-]. reflexivity.
        -- left. destruct (l_notify s); reflexivity.
        -- left. destruct (l_tick s); reflexivity.
Qed.
Lemma lstep_breach s x : breach (l_b s) -> lpossible s x -> breach (l_b (lstep s x)).
Proof. intros H P. destruct (lstep_bstep s x) as [->|(a & -> & PA & _)]; [exact H|]. apply breach_step; auto. Qed.

(** ---- what a step does not touch ---- *)
Lemma bstep_own b a : own a = false -> b_poll (bstep b a) = b_poll b /\ b_batch (bstep b a) = b_batch b /\ b_dead (bstep b a) = b_dead b.
Proof. destruct a; cbn [own bstep]; try discriminate; intros _; cbn; auto. Qed.
Lemma lstep_quiet s x : (forall c f, x <> LLoop c f) -> x <> LCancel ->
  b_poll (l_b (lstep s x)) = b_poll (l_b s) /\ b_batch (l_b (lstep s x)) = b_batch (l_b s) /\ b_dead (l_b (lstep s x)) = b_dead (l_b s) /\
  l_more (lstep s x) = l_more s /\ l_go (lstep s x) = l_go s /\ l_done (lstep s x) = l_done s /\
  (exists q, l_notify (lstep s x) = l_notify s ++ q) /\ (l_tick s = true -> l_tick (lstep s x) = true).
Proof.
  intros NL NC. destruct x as [a|op|n| | |c f]; cbn [lstep]; try congruence.
  - destruct (own a) eqn:O; cbn [l_b l_more l_go l_done l_notify l_tick]; [repeat split; auto; exists []; now rewrite app_nil_r|].
    destruct (bstep_own (l_b s) a O) as (-> & -> & ->). repeat split; auto. exists []; now rewrite app_nil_r.
  - cbn [local_write l_b l_more l_go l_done l_notify l_tick bstep b_poll b_batch b_dead]. repeat split; auto. exists []; now rewrite app_nil_r.
  - unfold send. destruct (nth_error _ _) as [r|]; cbn [l_b l_more l_go l_done l_notify l_tick]; repeat split; auto; [|exists []; now rewrite app_nil_r].
    destruct (_ <? _)%nat; [exists [r]|exists []; rewrite app_nil_r]; reflexivity.
  - cbn [l_b l_more l_go l_done l_notify l_tick]. repeat split; auto. exists []; now rewrite app_nil_r.
Qed.
Lemma bstep_rev b a : breach b -> possible b a -> revision (history_of (snd (b_world b))) <= revision (history_of (snd (b_world (bstep b a)))).
Proof.
  intros H P. assert (E : b_world (bstep b a) = b_world b \/ exists op, a = AEnv op).
  { destruct a; cbn [bstep set_group new_group b_world]; auto; [eauto| |].
    - left. apply fetch_same.
    - left. unfold publish_all. destruct (b_batch b); reflexivity. }
  destruct E as [->|(op & ->)]; [lia|]. cbn [bstep b_world] in *. cbn [possible] in P. apply extends_revision, wsteps_extends, wsteps_one; [constructor|exact P].
Qed.
Lemma lstep_rev s x : breach (l_b s) -> lpossible s x -> hrev s <= hrev (lstep s x).
Proof. intros H P. unfold hrev. destruct (lstep_bstep s x) as [->|(a & -> & PA & _)]; [lia|]. apply bstep_rev; auto. Qed.

(** a batch of less than 500 events is all there is *)
Lemma short_batch b evs : calm_reach b -> b_dead b = false -> b_batch b = None -> kept (snd (b_world b)) (b_poll b) ->
  b_batch (fetch NoFault b) = Some evs -> (length evs < 500)%nat -> last_rev evs (b_poll b) = revision (history_of (snd (b_world b))).
Proof.
  intros H D E K B L. assert (B' : map scan_event (firstn 500 (after_sql (b_poll b) (fst (b_world b)))) = evs) by (rewrite (fetch_ok b D E) in B; cbn [b_batch] in B; congruence). clear B. rename B' into B.
  pose proof (calm_Binv _ H) as BI. pose proof (B_poll _ _ BI) as PL. set (p := b_poll b) in *.
  assert (AL : evs = map scan_event (after_sql p (fst (b_world b)))).
  { rewrite <- B. f_equal. apply firstn_all2. rewrite <- B, map_length, firstn_length in L. lia. }
  destruct (fetch_batch True (b_world b) p 500 (B_reach _ _ BI) (fun _ => K) ltac:(lia)) as [LR RP].
  rewrite firstn_map, B in LR, RP.
  pose proof (after_reports True (fst (b_world b)) (snd (b_world b)) p (reach_R _ _ (B_reach _ _ BI)) (fun _ => K)) as (_ & _ & C & _).
  rewrite <- AL, Z.max_r in C by lia. set (n := revision (history_of (snd (b_world b)))) in *.
  destruct (Z.eq_dec (last_rev evs p) n) as [X|X]; [exact X|]. exfalso.
  assert (I : In n (map ev_rev evs)).
  { apply C; [exact Logic.I|lia|]. unfold changed. destruct (ent (history_of (snd (b_world b))) n) eqn:EN; [eauto|].
    exfalso. unfold ent in EN. destruct (Z.leb_spec 1 n); [|lia]. apply nth_error_None in EN. unfold n, revision in *. lia. }
  destruct RP as (_ & BD & _). apply BD in I. lia.
Qed.

(** ---- infinite executions ---- *)
Section Run.
Variables (w : world) (sch : nat -> laction).
Hypothesis W : wreach w.
Hypothesis OK : forall t, lpossible (lat w sch t) (sch t).
Hypothesis CA : forall t, lcalm (lat w sch t) (sch t).
Hypothesis NC : forall t, sch t <> LCancel.

Local Notation at_ t := (lat w sch t).
Local Notation poll t := (b_poll (l_b (at_ t))).
Local Notation batch t := (b_batch (l_b (at_ t))).
Local Notation dead t := (b_dead (l_b (at_ t))).

Lemma not_done t : l_done (at_ t) = false.
Proof.
  induction t as [|t IH]; [reflexivity|]. cbn [lat]. specialize (NC t). destruct (sch t) as [a|op|n| | |c f] eqn:E; cbn [lstep]; try congruence.
  - destruct (own a); exact IH.
  - exact IH.
  - unfold send. destruct (nth_error _ _); exact IH.
  - exact IH.
  - unfold loop. destruct (b_dead _); [exact IH|]. destruct (b_batch _); [exact IH|]. destruct (at_query _); [exact IH|].
    destruct c; cbn [select]; [now rewrite IH| |].
    + destruct (l_notify _); exact IH.
    + destruct (l_tick _); exact IH.
Qed.
Lemma at_calm t : calm_reach (l_b (at_ t)).
Proof.
  induction t as [|t IH]; [now apply calm_start|]. cbn [lat].
  pose proof (OK t) as P. pose proof (CA t) as C. destruct (sch t) as [a|op|n| | |c f]; cbn [lstep].
  - destruct (own a) eqn:O; [exact IH|]. cbn [l_b]. apply calm_step; [exact IH|exact P|exact C].
  - cbn [local_write l_b]. apply calm_step; [exact IH|exact P|exact Logic.I].
  - unfold send. destruct (nth_error _ _); exact IH.
  - exact IH.
  - exact IH.
  - unfold loop. destruct (b_dead _); [exact IH|]. destruct (b_batch _) eqn:B; [apply calm_step; [exact IH|exact Logic.I|exact Logic.I]|].
    destruct (at_query _) eqn:Q; [apply calm_step; [exact IH|exact Logic.I|cbn [calm]; apply C; exact Q]|].
    destruct c; cbn [select].
    + rewrite not_done. exact IH.
    + destruct (l_notify _); exact IH.
    + destruct (l_tick _); exact IH.
Qed.
Lemma at_breach t : breach (l_b (at_ t)). Proof. apply calm_breach, at_calm. Qed.
Lemma rev_mono t t' : (t <= t')%nat -> hrev (at_ t) <= hrev (at_ t').
Proof. intros L. induction L as [|t' L IH]; [lia|]. pose proof (lstep_rev (at_ t') (sch t') (at_breach t') (OK t')). cbn [lat]. lia. Qed.
Lemma poll_rev t : poll t <= hrev (at_ t).
Proof. pose proof (B_poll _ _ (calm_Binv _ (at_calm t))). unfold hrev. lia. Qed.
Lemma poll_step t : poll t <= poll (S t) /\ (poll t < poll (S t) -> handed_over (l_b (at_ (S t)))).
Proof.
  assert (X : poll (S t) = poll t \/ exists evs, batch t = Some evs /\ l_b (at_ (S t)) = bstep (l_b (at_ t)) APublish).
  { cbn [lat]. destruct (sch t) as [a|op|n| | |c f] eqn:E; try (left; apply lstep_quiet; congruence).
    cbn [lstep]. unfold loop. destruct (b_dead _); [left; reflexivity|]. destruct (b_batch _) as [evs|] eqn:B; [right; exists evs; split; reflexivity|]. left.
    destruct (at_query _); [apply fetch_same|]. destruct c; cbn [select].
    + rewrite not_done. assumption || reflexivity.
    + destruct (l_notify _); reflexivity.
    + destruct (l_tick _); reflexivity. }
  destruct X as [->|(evs & B & E)]; [split; lia|]. rewrite E. pose proof (at_calm t) as C. pose proof (calm_Binv _ C) as BI.
  destruct (B_batch _ _ BI evs B) as [L _]. split; [cbn [bstep]; unfold publish_all; rewrite B; cbn [b_poll]; lia|].
  intros _ i g r N OP I RT NCC. destruct (publish_complete True _ evs i g r BI (calm_breach _ C) B N OP I RT NCC) as [RP _].
  apply reports_rep. replace (b_world (bstep (l_b (at_ t)) APublish)) with (b_world (l_b (at_ t))); [exact RP|]. cbn [bstep]. unfold publish_all. now rewrite B.
Qed.
Lemma poll_mono t t' : (t <= t')%nat -> poll t <= poll t'.
Proof. intros L. induction L as [|t' L IH]; [lia|]. destruct (poll_step t'). lia. Qed.
(** the step in which the poller passes [R] hands everything over *)
Lemma passes t t' R : (t <= t')%nat -> poll t < R -> R <= poll t' -> exists u, (t < u <= t')%nat /\ R <= poll u /\ handed_over (l_b (at_ u)).
Proof.
  intros L. induction L as [|t' L IH]; intros A B; [lia|]. destruct (Z.le_gt_cases R (poll t')) as [X|X].
  - destruct (IH A X) as (u & U & P). exists u. split; [lia|exact P].
  - exists (S t'). split; [lia|]. split; [exact B|]. apply poll_step. lia.
Qed.

(** from [Q], which only the loop ends, to [G] *)
Lemma leads (Q G : nat -> Prop) (c : branch) (T : nat) :
  (forall t, exists t' f, (t <= t')%nat /\ sch t' = LLoop c f) ->
  (forall t, (T <= t)%nat -> Q t -> Q (S t) \/ G (S t)) ->
  (forall t f, (T <= t)%nat -> Q t -> sch t = LLoop c f -> G (S t)) ->
  forall t, (T <= t)%nat -> Q t -> exists t', (t < t')%nat /\ G t'.
Proof.
  intros F ST LO t L H. destruct (F t) as (t' & f & L' & E). remember (t' - t)%nat as n eqn:N. revert t L H L' N.
  induction n as [|n IH]; intros t L H L' N.
  - assert (t' = t) by lia. subst t'. exists (S t). split; [lia|]. eapply LO; eauto.
  - destruct (ST t L H) as [X|X]; [|exists (S t); auto]. destruct (IH (S t)) as (u & U & GU); auto; try lia. exists u. split; [lia|exact GU].
Qed.

(** --- promptness --- *)
Section Prompt.
Variables (T : nat) (R : Z).
Hypothesis NF : forall t c f, (T <= t)%nat -> sch t = LLoop c f -> f = NoFault.
Hypothesis FA : forall t, exists t' f, (t <= t')%nat /\ sch t' = LLoop BNotify f.
Hypothesis ALIVE : dead T = false.
Hypothesis HR : R <= hrev (at_ T).

Lemma alive t : (T <= t)%nat -> dead t = false.
Proof.
  intros L. induction L as [|t L IH]; [exact ALIVE|]. cbn [lat]. destruct (sch t) as [a|op|n| | |c f] eqn:E; try (rewrite <- IH; apply lstep_quiet; congruence).
  - rewrite (NF t c f L E). cbn [lstep]. unfold loop. rewrite IH. destruct (b_batch _) as [evs|] eqn:B; [cbn [l_b bstep]; unfold publish_all; rewrite B; exact IH|].
    destruct (at_query _); [cbn [l_b bstep]; rewrite (fetch_ok _ IH B); reflexivity|]. destruct c; cbn [select].
    + rewrite not_done. assumption || reflexivity.
    + destruct (l_notify _); exact IH.
    + destruct (l_tick _); exact IH.
Qed.
(** the poller is on its way to [R] *)
Definition coming (t : nat) : Prop :=
  In R (l_notify (at_ t)) \/ (batch t = None /\ (l_go (at_ t) = true \/ l_more (at_ t) = false)) \/
  exists evs, batch t = Some evs /\ poll t < last_rev evs (poll t) /\ (R <= last_rev evs (poll t) \/ (100 <= length evs)%nat).
Definition ahead (p : Z) (t : nat) : Prop := p < poll t /\ (R <= poll t \/ coming t).

Lemma quiet_coming t : (forall c f, sch t <> LLoop c f) -> poll (S t) = poll t /\ batch (S t) = batch t /\ l_go (at_ (S t)) = l_go (at_ t) /\ l_more (at_ (S t)) = l_more (at_ t) /\
  exists q, l_notify (at_ (S t)) = l_notify (at_ t) ++ q.
Proof. intros H. destruct (lstep_quiet (at_ t) (sch t) H (NC t)) as (A & B & _ & C & D & _ & E & _). cbn [lat]. auto. Qed.
Lemma is_loop t : (forall c f, sch t <> LLoop c f) \/ exists c, (T <= t)%nat -> sch t = LLoop c NoFault.
Proof.
  destruct (sch t) as [a|op|n| | |c f] eqn:E; try (left; congruence). right. exists c. intros L. now rewrite (NF t c f L E).
Qed.
(** publishing *)
Definition Q1 (p : Z) (t : nat) : Prop := poll t = p /\ exists evs, batch t = Some evs /\ p < last_rev evs p /\ (R <= last_rev evs p \/ (100 <= length evs)%nat).
Lemma publish_loop t c evs : (T <= t)%nat -> batch t = Some evs -> sch t = LLoop c NoFault ->
  poll (S t) = last_rev evs (poll t) /\ batch (S t) = None /\ l_more (at_ (S t)) = Nat.ltb (length evs) 100 /\ l_go (at_ (S t)) = false /\ l_notify (at_ (S t)) = l_notify (at_ t).
Proof.
  intros L B E. cbn [lat]. rewrite E. cbn [lstep]. unfold loop. rewrite (alive t L), B. cbn [l_b l_more l_go l_notify bstep]. unfold publish_all. rewrite B. cbn [b_poll b_batch]. auto.
Qed.
Lemma from1 p t : (T <= t)%nat -> Q1 p t -> exists t', (t < t')%nat /\ ahead p t'.
Proof.
  assert (K : forall t c, (T <= t)%nat -> Q1 p t -> sch t = LLoop c NoFault -> ahead p (S t)).
  { intros u c L (P & evs & B & A & D) E. subst p. destruct (publish_loop u c evs L B E) as (E1 & E2 & E3 & E4 & E5). unfold ahead. rewrite E1. split; [exact A|].
    destruct D as [D|D]; [left; exact D|]. right. right. left. split; [exact E2|]. right. rewrite E3. apply Nat.ltb_ge. exact D. }
  apply (leads (Q1 p) (ahead p) BNotify T FA).
  - intros u L Q. destruct (is_loop u) as [N|(c & E)]; [|right; eauto]. left. destruct (quiet_coming u N) as (E1 & E2 & _). unfold Q1. rewrite E1, E2. exact Q.
  - intros u f L Q E. rewrite (NF u _ _ L E) in E. eauto.
Qed.
(** the query *)
Definition Q2 (p : Z) (t : nat) : Prop := poll t = p /\ p < R /\ batch t = None /\ (l_go (at_ t) = true \/ l_more (at_ t) = false).
Lemma query_loop t c : (T <= t)%nat -> batch t = None -> (l_go (at_ t) = true \/ l_more (at_ t) = false) -> sch t = LLoop c NoFault -> poll t < R -> Q1 (poll t) (S t).
Proof.
  intros L B GM E LR. assert (Q : at_query (at_ t) = true).
  { unfold at_query. rewrite (alive t L), B. cbn. destruct GM as [->| ->]; [reflexivity|]. apply orb_true_r. }
  pose proof (CA t) as K. rewrite E in K. cbn [lcalm] in K. specialize (K Q). pose proof (rev_mono T t L) as RM. unfold hrev in RM, HR. unfold Q1. cbn [lat]. rewrite E. cbn [lstep]. unfold loop. rewrite (alive t L), B, Q.
  cbn [l_b bstep]. destruct (fetch_same NoFault (l_b (at_ t))) as (_ & -> & _). split; [reflexivity|].
  destruct (fetch_batch_some (l_b (at_ t)) (alive t L)) as [evs F]. exists evs. split; [exact F|].
  pose proof (fetch_progress (l_b (at_ t)) evs (at_calm t) (alive t L) B K ltac:(lia) F) as A. split; [exact A|].
  destruct (Nat.le_gt_cases 100 (length evs)) as [X|X]; [right; exact X|]. left.
  rewrite (short_batch _ evs (at_calm t) (alive t L) B K F ltac:(lia)). lia.
Qed.
Lemma from2 p t : (T <= t)%nat -> Q2 p t -> exists t', (t < t')%nat /\ ahead p t'.
Proof.
  intros L Q. assert (X : exists t', (t < t')%nat /\ Q1 p t').
  { revert t L Q. apply (leads (Q2 p) (Q1 p) BNotify T FA).
    - intros u L Q. destruct (is_loop u) as [N|(c & E)].
      + left. destruct (quiet_coming u N) as (E1 & E2 & E3 & E4 & _). unfold Q2. rewrite E1, E2, E3, E4. exact Q.
      + right. destruct Q as (<- & A & B & C). eapply query_loop; eauto.
    - intros u f L (<- & A & B & C) E. rewrite (NF u _ _ L E) in E. eapply query_loop; eauto. }
  destruct X as (u & U & QU). destruct (from1 p u ltac:(lia) QU) as (v & V & A). exists v. split; [lia|exact A].
Qed.
(** waiting, with [R] in the channel *)
Definition Q3 (p : Z) (n : nat) (t : nat) : Prop := poll t = p /\ p < R /\ batch t = None /\ l_go (at_ t) = false /\ l_more (at_ t) = true /\
  exists l1 l2, l_notify (at_ t) = l1 ++ R :: l2 /\ length l1 = n.
Lemma wait_loop p n t c : (T <= t)%nat -> Q3 p n t -> sch t = LLoop c NoFault ->
  (c <> BNotify /\ Q3 p n (S t)) \/ Q2 p (S t) \/ exists m, (m < n)%nat /\ Q3 p m (S t).
Proof.
  intros L (P & LR & B & G & M & l1 & l2 & N & LE) E.
  assert (Q : at_query (at_ t) = false) by (unfold at_query; rewrite B, G, M; cbn; apply andb_false_r).
  assert (S_ : at_ (S t) = select c (at_ t)) by (cbn [lat]; rewrite E; cbn [lstep]; unfold loop; now rewrite (alive t L), B, Q).
  destruct c; cbn [select] in S_.
  - rewrite not_done in S_. left. split; [discriminate|]. unfold Q3. rewrite S_. eauto 10.
  - destruct l1 as [|r l1]; rewrite N in S_; cbn [app] in S_.
    + right. left. unfold Q2. rewrite S_. cbn [l_b l_go l_more]. rewrite P. split; [reflexivity|]. split; [exact LR|]. split; [exact B|]. left. apply negb_true_iff, Z.leb_gt. lia.
    + destruct (Z.leb_spec r (b_poll (l_b (at_ t)))) as [X|X].
      * right. right. exists (length l1). split; [cbn in LE; lia|]. unfold Q3. rewrite S_. cbn [l_b l_go l_more l_notify negb]. repeat (split; [assumption || reflexivity|]). exists l1, l2. auto.
      * right. left. unfold Q2. rewrite S_. cbn [l_b l_go l_more negb]. auto.
  - destruct (l_tick (at_ t)) eqn:TK.
    + right. left. unfold Q2. rewrite S_. cbn [l_b l_go l_more]. auto.
    + left. split; [discriminate|]. unfold Q3. rewrite S_. eauto 10.
Qed.
Lemma from3 n : forall p t, (T <= t)%nat -> Q3 p n t -> exists t', (t < t')%nat /\ ahead p t'.
Proof.
  induction n as [n IH] using lt_wf_ind. intros p t L Q.
  assert (X : exists t', (t < t')%nat /\ (Q2 p t' \/ exists m, (m < n)%nat /\ Q3 p m t')).
  { revert t L Q. apply (leads (Q3 p n) (fun t => Q2 p t \/ exists m, (m < n)%nat /\ Q3 p m t) BNotify T FA).
    - intros u L Q. destruct (is_loop u) as [N|(c & E)].
      + left. destruct (quiet_coming u N) as (E1 & E2 & E3 & E4 & q & E5). unfold Q3. rewrite E1, E2, E3, E4, E5.
        destruct Q as (A1 & A2 & A3 & A4 & A5 & l1 & l2 & -> & A6). repeat (split; [assumption|]). exists l1, (l2 ++ q). split; [now rewrite <- app_assoc|exact A6].
      + destruct (wait_loop p n u c L Q (E L)) as [(_ & X)|X]; auto.
    - intros u f L Q E. rewrite (NF u _ _ L E) in E. destruct (wait_loop p n u BNotify L Q E) as [(X & _)|X]; [congruence|exact X]. }
  destruct X as (u & U & [Q2u|(m & M & Q3u)]).
  - destruct (from2 p u ltac:(lia) Q2u) as (v & V & A). exists v. split; [lia|exact A].
  - destruct (IH m M p u ltac:(lia) Q3u) as (v & V & A). exists v. split; [lia|exact A].
Qed.
(** publishing a batch while [R] is in the channel *)
Lemma coming_ahead t : (T <= t)%nat -> poll t < R -> coming t -> exists t', (t < t')%nat /\ ahead (poll t) t'.
Proof.
  intros L LR [I|[(B & G)|(evs & B & A & D)]].
  - destruct (batch t) as [evs|] eqn:B.
    + set (p := poll t). assert (X : exists t', (t < t')%nat /\ ((p < poll t' \/ p = poll t' /\ batch t' = None) /\ In R (l_notify (at_ t')))).
      { assert (Q : poll t = p /\ batch t = Some evs /\ In R (l_notify (at_ t))) by auto. clearbody p. clear LR I B. revert t L Q.
        assert (K : forall t c, (T <= t)%nat -> poll t = p /\ batch t = Some evs /\ In R (l_notify (at_ t)) -> sch t = LLoop c NoFault -> (p < poll (S t) \/ p = poll (S t) /\ batch (S t) = None) /\ In R (l_notify (at_ (S t)))).
        { intros u c L (<- & B & I) E. destruct (publish_loop u c evs L B E) as (E1 & E2 & _ & _ & E5). rewrite E5. split; [|exact I].
          pose proof (proj1 (poll_step u)). destruct (Z.eq_dec (poll u) (poll (S u))); [right; auto|left; lia]. }
        apply (leads (fun t => poll t = p /\ batch t = Some evs /\ In R (l_notify (at_ t))) (fun t => (p < poll t \/ p = poll t /\ batch t = None) /\ In R (l_notify (at_ t))) BNotify T FA).
        - intros u L Q. destruct (is_loop u) as [N|(c & E)]; [|right; eauto]. left. destruct (quiet_coming u N) as (E1 & E2 & _ & _ & q & E5). rewrite E1, E2, E5.
          destruct Q as (A1 & A2 & A3). split; [auto|]. split; [auto|]. apply in_or_app. auto.
        - intros u f L Q E. rewrite (NF u _ _ L E) in E. eauto. }
      destruct X as (u & U & [X|(X & BN)] & IN).
      * exists u. split; [exact U|]. split; [exact X|]. right. left. exact IN.
      * assert (LRu : poll u < R) by (rewrite <- X; exact LR).
        destruct (l_go (at_ u)) eqn:G; [|destruct (l_more (at_ u)) eqn:M].
        -- destruct (from2 p u ltac:(lia)) as (v & V & AV); [unfold Q2; auto|]. exists v. split; [lia|exact AV].
        -- apply in_split in IN. destruct IN as (l1 & l2 & N). destruct (from3 (length l1) p u ltac:(lia)) as (v & V & AV); [unfold Q3; rewrite X; eauto 10|]. exists v. split; [lia|exact AV].
        -- destruct (from2 p u ltac:(lia)) as (v & V & AV); [unfold Q2; auto|]. exists v. split; [lia|exact AV].
    + destruct (l_go (at_ t)) eqn:G; [|destruct (l_more (at_ t)) eqn:M].
      * apply from2; [exact L|unfold Q2; auto].
      * apply in_split in I. destruct I as (l1 & l2 & N). apply (from3 (length l1)); [exact L|unfold Q3; eauto 10].
      * apply from2; [exact L|unfold Q2; auto].
  - apply from2; [exact L|unfold Q2; auto].
  - apply from1; [exact L|]. split; [reflexivity|]. eauto.
Qed.
Lemma arrives n : forall t, (T <= t)%nat -> R - poll t <= Z.of_nat n -> R <= poll t \/ coming t -> exists t', (t <= t')%nat /\ R <= poll t'.
Proof.
  induction n as [|n IH]; intros t L N [H|H]; try (exists t; split; [lia|lia]).
  destruct (Z.le_gt_cases R (poll t)) as [X|X]; [exists t; auto|]. destruct (coming_ahead t L X H) as (u & U & A & D).
  destruct (IH u ltac:(lia) ltac:(lia) D) as (v & V & E). exists v. split; [lia|exact E].
Qed.
End Prompt.

(** --- ticks --- *)
Lemma leads_any (Ev : laction -> Prop) (Q G : nat -> Prop) (T : nat) :
  (forall t, exists t', (t <= t')%nat /\ Ev (sch t')) ->
  (forall t, (T <= t)%nat -> Q t -> Q (S t) \/ G (S t)) ->
  (forall t, (T <= t)%nat -> Q t -> Ev (sch t) -> G (S t)) ->
  forall t, (T <= t)%nat -> Q t -> exists t', (t < t')%nat /\ G t'.
Proof.
  intros F ST LO t L H. destruct (F t) as (t' & L' & E). remember (t' - t)%nat as n eqn:N. revert t L H L' N.
  induction n as [|n IH]; intros t L H L' N.
  - assert (t' = t) by lia. subst t'. exists (S t). split; [lia|]. eapply LO; eauto.
  - destruct (ST t L H) as [X|X]; [|exists (S t); auto]. destruct (IH (S t)) as (u & U & GU); auto; try lia. exists u. split; [lia|exact GU].
Qed.
Definition attempt (t : nat) : Prop := exists c f, sch t = LLoop c f /\ at_query (at_ t) = true.
Section Ticks.
Hypothesis BE : forall t c f, sch t = LLoop c f -> bearable f.
Hypothesis TK : forall t, exists t', (t <= t')%nat /\ sch t' = LTick.
Hypothesis FA : forall t, exists t' f, (t <= t')%nat /\ sch t' = LLoop BTick f.
Hypothesis HE : (forall t, exists t', (t <= t')%nat /\ attempt t') ->
  forall t, exists t' c, (t <= t')%nat /\ sch t' = LLoop c NoFault /\ at_query (at_ t') = true.

Lemma looping t : exists t', (t <= t')%nat /\ (fun x => exists f, x = LLoop BTick f) (sch t').
Proof. destruct (FA t) as (t' & f & L & E). exists t'. eauto. Qed.
Lemma alive2 t : dead t = false.
Proof.
  induction t as [|t IH]; [reflexivity|]. cbn [lat]. destruct (sch t) as [a|op|n| | |c f] eqn:E; try (rewrite <- IH; apply lstep_quiet; congruence).
  cbn [lstep]. unfold loop. rewrite IH. destruct (b_batch _) as [evs|] eqn:B; [cbn [l_b bstep]; unfold publish_all; rewrite B; exact IH|].
  destruct (at_query _); [cbn [l_b bstep]; rewrite <- IH; apply fetch_bearable; eauto|]. destruct c; cbn [select].
  - rewrite not_done. exact IH.
  - destruct (l_notify _); exact IH.
  - destruct (l_tick _); exact IH.
Qed.
Lemma quiet2 t : (forall c f, sch t <> LLoop c f) -> poll (S t) = poll t /\ batch (S t) = batch t /\ at_query (at_ (S t)) = at_query (at_ t) /\ (l_tick (at_ t) = true -> l_tick (at_ (S t)) = true).
Proof.
  intros H. destruct (lstep_quiet (at_ t) (sch t) H (NC t)) as (A & B & C & D & E & _ & _ & F). cbn [lat]. unfold at_query. rewrite B, C, D, E. auto.
Qed.
Lemma is_loop2 t : (forall c f, sch t <> LLoop c f) \/ exists c f, sch t = LLoop c f.
Proof. destruct (sch t) as [a|op|n| | |c f]; try (left; congruence). right. eauto. Qed.
(** a batch is published *)
Lemma batch_goes t evs : batch t = Some evs -> exists t', (t < t')%nat /\ batch t' = None /\ poll t' = last_rev evs (poll t).
Proof.
  intros B. set (p := poll t).
  assert (K : forall t c f, poll t = p /\ batch t = Some evs -> sch t = LLoop c f -> batch (S t) = None /\ poll (S t) = last_rev evs p).
  { intros u c f (<- & Bu) E. cbn [lat]. rewrite E. cbn [lstep]. unfold loop. rewrite alive2, Bu. cbn [l_b bstep]. unfold publish_all. rewrite Bu. auto. }
  refine (leads_any _ (fun t => poll t = p /\ batch t = Some evs) (fun t => batch t = None /\ poll t = last_rev evs p) 0%nat looping _ _ t _ _); try lia; auto.
  - intros u _ Q. destruct (is_loop2 u) as [N|(c & f & E)]; [|right; eauto]. left. destruct (quiet2 u N) as (-> & -> & _). exact Q.
  - intros u _ Q (f & E). eauto.
Qed.
Lemma query_comes t : at_query (at_ t) = true -> exists t', (t <= t')%nat /\ attempt t'.
Proof.
  intros Q. destruct (FA t) as (t' & f & L & E). remember (t' - t)%nat as n eqn:N. revert t Q L N.
  induction n as [|n IH]; intros t Q L N.
  - assert (t' = t) by lia. subst t'. exists t. split; [lia|]. exists BTick, f. auto.
  - destruct (is_loop2 t) as [NL|(c & g & E2)]; [|exists t; split; [lia|]; exists c, g; auto].
    destruct (quiet2 t NL) as (_ & _ & QS & _). destruct (IH (S t)) as (v & V & A); try lia; [congruence|]. exists v. split; [lia|exact A].
Qed.
Lemma wakes t : batch t = None -> l_tick (at_ t) = true -> exists t', (t <= t')%nat /\ at_query (at_ t') = true.
Proof.
  intros B TT. destruct (at_query (at_ t)) eqn:Q; [exists t; auto|].
  assert (X : exists t', (t < t')%nat /\ at_query (at_ t') = true).
  { assert (K : forall u c f, batch u = None /\ l_tick (at_ u) = true /\ at_query (at_ u) = false -> sch u = LLoop c f ->
      (c <> BTick /\ batch (S u) = None /\ l_tick (at_ (S u)) = true /\ at_query (at_ (S u)) = false) \/ at_query (at_ (S u)) = true).
    { intros u c f (Bu & Tu & Qu) E. assert (S_ : at_ (S u) = select c (at_ u)) by (cbn [lat]; rewrite E; cbn [lstep]; unfold loop; now rewrite alive2, Bu, Qu).
      rewrite S_. destruct c; cbn [select].
      - rewrite not_done. left. split; [discriminate|auto].
      - destruct (l_notify (at_ u)) as [|r q]; [left; split; [discriminate|auto]|].
        unfold at_query in *. cbn [l_b l_go l_more l_tick]. rewrite alive2, Bu in *. cbn [negb andb] in *. apply orb_false_iff in Qu. destruct Qu as [_ Qu]. rewrite Qu.
        destruct (r <=? _); [left|right; reflexivity]. cbn. split; [discriminate|auto].
      - rewrite Tu. right. unfold at_query. cbn [l_b l_go l_more]. rewrite alive2, Bu. reflexivity. }
    refine (leads_any _ (fun t => batch t = None /\ l_tick (at_ t) = true /\ at_query (at_ t) = false) (fun t => at_query (at_ t) = true) 0%nat looping _ _ t _ _); try lia; auto.
    - intros u _ H. destruct (is_loop2 u) as [N|(c & f & E)].
      + left. destruct (quiet2 u N) as (_ & -> & -> & T2). destruct H as (H1 & H2 & H3). auto.
      + destruct (K u c f H E) as [(_ & Y)|Y]; auto.
    - intros u _ H (f & E). destruct (K u BTick f H E) as [(Y & _)|Y]; [congruence|exact Y]. }
  destruct X as (t' & L & X). exists t'. split; [lia|exact X].
Qed.
Lemma attempts t : exists t', (t <= t')%nat /\ attempt t'.
Proof.
  (* first a time without a batch *)
  assert (NB : exists u, (t <= u)%nat /\ batch u = None).
  { destruct (batch t) as [evs|] eqn:B; [|eauto]. destruct (batch_goes t evs B) as (u & U & BU & _). exists u. split; [lia|exact BU]. }
  destruct NB as (u & U & BU).
  (* then the next tick, or a query before it *)
  assert (X : exists v, (u <= v)%nat /\ (at_query (at_ v) = true \/ batch v = None /\ l_tick (at_ v) = true)).
  { destruct (TK u) as (v & V & E). assert (Y : forall n x, (u <= x)%nat -> batch x = None -> (x <= v)%nat -> (v - x = n)%nat -> exists y, (u <= y)%nat /\ (at_query (at_ y) = true \/ batch y = None /\ l_tick (at_ y) = true)).
    { induction n as [|n IH]; intros x L B LV N.
      - assert (x = v) by lia. subst x. exists (S v). split; [lia|]. right. cbn [lat]. rewrite E. auto.
      - destruct (at_query (at_ x)) eqn:Q; [eauto|]. apply (IH (S x)); try lia.
        destruct (is_loop2 x) as [NL|(c & f & E2)]; [destruct (quiet2 x NL) as (_ & -> & _); exact B|].
        cbn [lat]. rewrite E2. cbn [lstep]. unfold loop. rewrite alive2, B, Q. destruct c; cbn [select]; [now rewrite not_done|destruct (l_notify _); exact B|destruct (l_tick _); exact B]. }
    apply (Y (v - u)%nat u); auto. }
  destruct X as (v & V & [Q|(B & TT)]).
  - destruct (query_comes v Q) as (x & L & A). exists x. split; [lia|exact A].
  - destruct (wakes v B TT) as (x & L & Q). destruct (query_comes x Q) as (y & L2 & A). exists y. split; [lia|exact A].
Qed.
Lemma poll_grows t : poll t < hrev (at_ t) -> exists t', (t < t')%nat /\ poll t < poll t'.
Proof.
  intros L. destruct (HE attempts t) as (v & c & V & E & Q). pose proof (poll_mono t v V) as PM. pose proof (rev_mono t v V) as RM.
  destruct (Z.le_gt_cases (hrev (at_ t)) (poll v)) as [X|X]; [exists (S v); split; [lia|]; pose proof (poll_mono v (S v) ltac:(lia)); lia|].
  assert (B : batch v = None) by (unfold at_query in Q; destruct (batch v); [rewrite andb_false_r in Q; discriminate|reflexivity]).
  pose proof (CA v) as K. rewrite E in K. specialize (K Q). destruct (fetch_batch_some (l_b (at_ v)) (alive2 v)) as [evs F].
  pose proof (fetch_progress (l_b (at_ v)) evs (at_calm v) (alive2 v) B K ltac:(unfold hrev in *; lia) F) as A.
  assert (B' : batch (S v) = Some evs /\ poll (S v) = poll v).
  { cbn [lat]. rewrite E. cbn [lstep]. unfold loop. rewrite (alive2 v), B, Q. cbn [l_b bstep]. split; [exact F|]. apply fetch_same. }
  destruct B' as [B' P']. destruct (batch_goes (S v) evs B') as (x & LX & _ & PX). exists x. split; [lia|]. rewrite PX, P'. lia.
Qed.
Lemma catches_up R n : forall t, R <= hrev (at_ t) -> R - poll t <= Z.of_nat n -> exists t', (t <= t')%nat /\ R <= poll t'.
Proof.
  induction n as [|n IH]; intros t L N; [exists t; split; lia|]. destruct (Z.le_gt_cases R (poll t)) as [X|X]; [eauto|].
  destruct (poll_grows t ltac:(lia)) as (u & U & G). pose proof (rev_mono t u ltac:(lia)). destruct (IH u ltac:(lia) ltac:(lia)) as (v & V & E). exists v. split; [lia|exact E].
Qed.
End Ticks.
End Run.

(** ---- the two results ---- *)
Lemma write_due s op : breach (l_b s) -> allowed (snd (b_world (l_b s))) op ->
  match op with ACreate _ _ _ | AUpdate _ _ _ _ | ADelete _ _ => True | _ => False end ->
  let s' := lstep s (LWrite op) in
  (history_of (snd (b_world (l_b s'))) = history_of (snd (b_world (l_b s))) /\ l_unsent s' = l_unsent s) \/
  (hrev s' = hrev s + 1 /\ l_unsent s' = l_unsent s ++ [hrev s']).
Proof.
  intros H AL OP. set (w := b_world (l_b s)) in *. pose proof (reach_R _ _ (B_reach _ _ (breach_Binv _ H))) as RR. fold w in RR.
  assert (E : snd (apply (fst w) op) = snd (spec_apply (snd w) op)) by (apply R_step; auto).
  unfold hrev. cbn [lstep local_write l_b bstep b_world l_unsent]. unfold wrote. fold w. rewrite E. cbn [wapply snd].
  destruct op; try contradiction; cbn [spec_apply] in *; unfold spec_create, spec_update, spec_delete in *; clear E.
  - destruct (now _ _); cbn; [left; auto|]. right. unfold revision. rewrite app_length. cbn [length]. split; [lia|]. do 2 f_equal. lia.
  - destruct (now _ _) as [x|]; [destruct (kv_mod x =? rev)|]; cbn; [|left; auto|left; auto]. right. unfold revision. rewrite app_length. cbn [length]. split; [lia|]. do 2 f_equal. lia.
  - destruct (now _ _) as [x|]; [destruct (kv_mod x =? rev)|]; cbn; [|left; auto|left; auto]. right. unfold revision. rewrite app_length. cbn [length]. split; [lia|]. do 2 f_equal. lia.
Qed.
Lemma prompt w sch t0 t1 n R : wreach w -> (forall t, lpossible (lat w sch t) (sch t)) -> (forall t, lcalm (lat w sch t) (sch t)) -> (forall t, sch t <> LCancel) ->
  revision (history_of (snd (b_world (l_b (lat w sch t0))))) < R <= revision (history_of (snd (b_world (l_b (lat w sch (S t0)))))) ->
  (t0 < t1)%nat -> sch t1 = LSend n -> nth_error (l_unsent (lat w sch t1)) n = Some R -> (length (l_notify (lat w sch t1)) < 100)%nat ->
  b_dead (l_b (lat w sch t1)) = false -> (forall t c f, (t1 <= t)%nat -> sch t = LLoop c f -> f = NoFault) ->
  (forall t, exists t' f, (t <= t')%nat /\ sch t' = LLoop BNotify f) ->
  exists t, (t0 < t)%nat /\ R <= b_poll (l_b (lat w sch t)) /\ handed_over (l_b (lat w sch t)).
Proof.
  intros W OK CA NC HR LT SE NE NF AL NQ FA. set (T := S t1).
  assert (HT : R <= hrev (lat w sch T)). { pose proof (rev_mono w sch W OK CA NC (S t0) T ltac:(lia)). unfold hrev in *. lia. }
  assert (DT : b_dead (l_b (lat w sch T)) = false). { unfold T. cbn [lat]. rewrite <- AL. apply lstep_quiet; [congruence|apply NC]. }
  assert (IN : In R (l_notify (lat w sch T))).
  { unfold T. cbn [lat]. rewrite SE. cbn [lstep]. unfold send. rewrite NE. cbn [l_notify]. unfold notify_size. destruct (Nat.ltb_spec (length (l_notify (lat w sch t1))) 100); [|lia]. apply in_or_app. right. left. reflexivity. }
  destruct (arrives w sch W OK CA NC T R (fun t c f L => NQ t c f ltac:(lia)) FA DT HT (Z.to_nat (R - b_poll (l_b (lat w sch T)))) T ltac:(lia) ltac:(lia)) as (u & U & PU).
  { right. left. exact IN. }
  pose proof (poll_rev w sch W OK CA NC t0). destruct (passes w sch W OK CA NC t0 u R) as (v & V & PV & HV); try lia; [unfold hrev in *; lia|]. exists v. split; [lia|auto].
Qed.
Lemma ticking w sch t0 R : wreach w -> (forall t, lpossible (lat w sch t) (sch t)) -> (forall t, lcalm (lat w sch t) (sch t)) -> (forall t, sch t <> LCancel) ->
  (forall t c f, sch t = LLoop c f -> bearable f) ->
  (forall t, exists t', (t <= t')%nat /\ sch t' = LTick) ->
  (forall t, exists t' f, (t <= t')%nat /\ sch t' = LLoop BTick f) ->
  ((forall t, exists t' c f, (t <= t')%nat /\ sch t' = LLoop c f /\ at_query (lat w sch t') = true) ->
    forall t, exists t' c, (t <= t')%nat /\ sch t' = LLoop c NoFault /\ at_query (lat w sch t') = true) ->
  revision (history_of (snd (b_world (l_b (lat w sch t0))))) < R <= revision (history_of (snd (b_world (l_b (lat w sch (S t0)))))) ->
  exists t, (t0 < t)%nat /\ R <= b_poll (l_b (lat w sch t)) /\ handed_over (l_b (lat w sch t)).
Proof.
  intros W OK CA NC BE TK FA HE HR.
  assert (HE' : (forall t, exists t', (t <= t')%nat /\ attempt w sch t') -> forall t, exists t' c, (t <= t')%nat /\ sch t' = LLoop c NoFault /\ at_query (lat w sch t') = true).
  { intros A. apply HE. intros t. destruct (A t) as (t' & L & c & f & E). eauto. }
  destruct (catches_up w sch W OK CA NC BE TK FA HE' R (Z.to_nat (R - b_poll (l_b (lat w sch (S t0))))) (S t0)) as (u & U & PU); [unfold hrev; lia|lia|].
  pose proof (poll_rev w sch W OK CA NC t0). destruct (passes w sch W OK CA NC t0 u R) as (v & V & PV & HV); try lia; [unfold hrev in *; lia|]. exists v. split; [lia|auto].
Qed.

(** ---- how often it queries ---- *)
Lemma sorted_room l : forall a b, StronglySorted Z.lt l -> (forall r, In r l -> a < r <= b) -> a <= b -> Z.of_nat (length l) <= b - a.
Proof.
  induction l as [|x l IH]; intros a b SS H L; [cbn; lia|]. inversion SS as [|y l' SS' FA]; subst. rewrite Forall_forall in FA.
  pose proof (H x (or_introl eq_refl)). specialize (IH x b SS'). cbn [length]. rewrite Nat2Z.inj_succ.
  assert (Z.of_nat (length l) <= b - x). { apply IH; [|lia]. intros r I. specialize (FA r I). specialize (H r (or_intror I)). lia. } lia.
Qed.
Definition b2z (b : bool) : Z := if b then 1 else 0.
Definition credit (s : lstate) : Z :=
  100 * (Z.of_nat (length (l_notify s)) + b2z (l_tick s) + b2z (l_go s)) +
  (if l_more s then 0 else match b_batch (l_b s) with None => 100 | Some _ => 0 end).
Definition tidy (s : lstate) : Prop := (l_go s = true -> l_more s = true /\ b_batch (l_b s) = None).
Definition waking (x : laction) : Z := match x with LTick | LSend _ => 1 | _ => 0 end.
Lemma credit_step s x : breach (l_b s) -> tidy s -> (forall c f, x = LLoop c f -> f = NoFault) ->
  tidy (lstep s x) /\
  100 * Z.of_nat (match x with LLoop _ _ => if at_query s then 1 else 0 | _ => 0 end) + credit (lstep s x) <= credit s + 100 * waking x + (b_poll (l_b (lstep s x)) - b_poll (l_b s)).
Proof.
  intros H TI NF. pose proof (breach_Binv _ H) as BI. destruct x as [a|op|n| | |c f]; cbn [lstep waking].
  - destruct (own a) eqn:O; [split; [exact TI|lia]|]. destruct (bstep_own (l_b s) a O) as (E1 & E2 & _). unfold tidy, credit. cbn [l_b l_more l_go l_notify l_tick]. rewrite E1, E2. split; [exact TI|lia].
  - unfold tidy, credit. cbn [local_write l_b l_more l_go l_notify l_tick bstep b_batch b_poll]. split; [exact TI|lia].
  - unfold send. destruct (nth_error _ _); [|split; [exact TI|lia]]. unfold tidy, credit. cbn [l_b l_more l_go l_notify l_tick]. split; [exact TI|].
    destruct (_ <? _)%nat; [rewrite app_length; cbn [length]|]; lia.
  - unfold tidy, credit. cbn [l_b l_more l_go l_notify l_tick]. split; [exact TI|]. unfold b2z. destruct (l_tick s), (l_go s); lia.
  - unfold tidy, credit. cbn [l_b l_more l_go l_notify l_tick]. split; [exact TI|]. lia.
  - unfold loop. destruct (b_dead (l_b s)) eqn:D.
    { split; [exact TI|]. unfold at_query. rewrite D. cbn. lia. }
    destruct (b_batch (l_b s)) as [evs|] eqn:B.
    + assert (Q : at_query s = false) by (unfold at_query; rewrite B; apply andb_false_r). rewrite Q.
      destruct (B_batch _ _ BI evs B) as [L (SS & BD & _)].
      assert (LE : Z.of_nat (length evs) <= last_rev evs (b_poll (l_b s)) - b_poll (l_b s)).
      { rewrite <- (map_length ev_rev). apply sorted_room; [exact SS| |lia]. intros r I. now apply BD. }
      assert (G : l_go s = false) by (destruct (l_go s) eqn:G; [|reflexivity]; destruct (TI G); congruence).
      unfold tidy, credit. cbn [l_b l_more l_go l_notify l_tick bstep]. unfold publish_all. rewrite B. cbn [b_batch b_poll]. split; [discriminate|].
      rewrite G. destruct (Nat.ltb_spec (length evs) 100), (l_more s); lia.
    + destruct (at_query s) eqn:Q.
      * rewrite (NF c f eq_refl). unfold tidy, credit. cbn [l_b l_more l_go l_notify l_tick bstep]. split; [discriminate|].
        destruct (fetch_same NoFault (l_b s)) as (_ & -> & _). destruct (fetch_batch_some (l_b s) D) as [evs ->]. rewrite B.
        unfold at_query in Q. rewrite D, B in Q. cbn [negb andb] in Q. unfold b2z. unfold tidy in TI. destruct (l_go s); [destruct (TI eq_refl) as [-> _]; lia|]. cbn [orb] in Q. destruct (l_more s); [discriminate|lia].
      * unfold at_query in Q. rewrite D, B in Q. cbn [negb andb] in Q. apply orb_false_iff in Q. destruct Q as [G M]. apply negb_false_iff in M.
        destruct c; cbn [select].
        -- destruct (l_done s); [|split; [exact TI|lia]]. unfold tidy, credit. cbn [l_b l_more l_go l_notify l_tick bstep]. split; [discriminate|].
           destruct (fetch_same (FailBefore ECanceled) (l_b s)) as (_ & -> & _). rewrite M, G. lia.
        -- destruct (l_notify s) as [|r q] eqn:N; [split; [exact TI|lia]|]. unfold tidy, credit. cbn [l_b l_more l_go l_notify l_tick]. split; [auto|]. rewrite N, M, G. cbn [length]. unfold b2z. destruct (negb _); lia.
        -- destruct (l_tick s) eqn:TK; [|split; [exact TI|lia]]. unfold tidy, credit. cbn [l_b l_more l_go l_notify l_tick]. split; [auto|]. rewrite M, G, TK. cbn [b2z]. lia.
Qed.
Lemma wakings_cons x xs : Z.of_nat (wakings (x :: xs)) = waking x + Z.of_nat (wakings xs).
Proof. unfold wakings. cbn [filter]. destruct x; cbn [length waking]; lia. Qed.
Lemma credit_run xs : forall s, breach (l_b s) -> tidy s -> lruns s xs -> unfailing xs ->
  100 * Z.of_nat (queries s xs) + credit (lrun xs s) <= credit s + 100 * Z.of_nat (wakings xs) + (b_poll (l_b (lrun xs s)) - b_poll (l_b s)).
Proof.
  induction xs as [|x xs IH]; intros s H TI OK NF; [cbn; lia|]. destruct OK as [OK1 OK2].
  destruct (credit_step s x H TI) as [T2 C]. { intros c f ->. apply (NF c f). left. reflexivity. }
  specialize (IH (lstep s x) (lstep_breach _ _ H OK1) T2 OK2 (fun c f I => NF c f (or_intror I))).
  change (lrun (x :: xs) s) with (lrun xs (lstep s x)). rewrite wakings_cons. cbn [queries]. rewrite Nat2Z.inj_add. lia.
Qed.
Lemma credit_nonneg s : 0 <= credit s.
Proof. unfold credit, b2z. destruct (l_tick s), (l_go s), (l_more s), (b_batch (l_b s)); lia. Qed.
Lemma few_queries w xs : wreach w -> lruns (lstart w) xs -> unfailing xs ->
  100 * Z.of_nat (queries (lstart w) xs) <= 100 * Z.of_nat (wakings xs) + (b_poll (l_b (lrun xs (lstart w))) - floor_of (snd w)).
Proof.
  intros W OK NF. pose proof (credit_run xs (lstart w) (breach_start _ W) ltac:(discriminate) OK NF) as C. pose proof (credit_nonneg (lrun xs (lstart w))).
  change (credit (lstart w)) with 0 in C. cbn [lstart l_b bstart b_poll] in C. lia.
Qed.
