(** Proofs about watching with a margin and about resuming. *)
From Coq Require Import List ZArith Bool Lia Sorting.Sorted.
From Verif Require Import Bytes Spec Sql System Prog Backend Limited Api Watch Stream SpecLemmas SqlLemmas Sim ReadLemmas ProgLemmas ReadProgs ReadProofs WatchLemmas WatchProofs WatchResults StreamProofs Observe Reflector ReflectorProofs Resume.
Import ListNotations.
Open Scope Z_scope.

Lemma env_floor s a : possible s (AEnv a) -> steady s (AEnv a) ->
  floor_of (snd (b_world s)) <= Z.max 0 (revision (history_of (snd (b_world s))) - 100) ->
  floor_of (snd (wapply (b_world s) a)) <= Z.max 0 (revision (history_of (snd (wapply (b_world s) a))) - 100).
Proof.
  intros P S F. destruct a as [k v ttl|k v rev ttl|k rev|start stop|rev]; cbn [steady] in S; unfold wapply; cbn [snd spec_apply fst].
  - unfold spec_create. destruct (now _ k); cbn [fst history_of floor_of]; auto. cbn. rewrite revision_app. cbn. lia.
  - unfold spec_update. destruct (now _ k) as [x|]; [destruct (kv_mod x =? rev)|]; cbn [fst history_of floor_of]; auto. cbn. rewrite revision_app. cbn. lia.
  - unfold spec_delete. destruct (now _ k) as [x|]; [destruct (kv_mod x =? rev)|]; cbn [fst history_of floor_of]; auto. cbn. rewrite revision_app. cbn. lia.
  - unfold spec_compact. cbn [history_of floor_of]. lia.
  - exact F.
Qed.
Lemma bstep_world_other s a : (forall op, a <> AEnv op) -> b_world (bstep s a) = b_world s.
Proof.
  destruct a; cbn [bstep]; intros N; try reflexivity.
  - exfalso. eapply N; eauto.
  - unfold fetch. destruct (b_dead s); auto. destruct (b_batch s); auto. destruct (snd _) as [x|[]]; auto.
  - unfold publish_all. destruct (b_batch s); auto.
Qed.
Lemma steady_calm s : steady_reach s -> calm_reach s /\ floor_of (snd (b_world s)) <= Z.max 0 (revision (history_of (snd (b_world s))) - 100).
Proof.
  intros H. induction H as [w W F|s a H [IH F] P S]; [split; [constructor; auto|exact F]|].
  pose proof (breach_Binv _ (calm_breach _ IH)) as BI. split.
  - constructor; auto. destruct a; cbn [calm]; auto.
    + left. cbn [steady] in S. pose proof (B_poll _ _ BI). lia.
    + cbn [steady] in S. destruct S as [S1 S2]. split; [exact S1|]. intros g r p N PE. left.
      specialize (S2 g r p N PE). pose proof (group_inv _ _ _ _ BI N) as G. apply pending_of_in in PE. destruct PE as [PE _].
      destruct (G_p _ _ _ _ G _ PE) as [_ POS]. cbn [fst] in POS. lia.
  - destruct a; try (rewrite bstep_world_other by discriminate; exact F). cbn [bstep b_world]. apply env_floor; auto.
Qed.

Lemma last_seen_app old e evs : last_seen old (evs ++ [e]) = ev_rev e.
Proof. unfold last_seen. rewrite map_app. cbn [map]. now rewrite last_last. Qed.
Lemma sorted_snoc (l : list Z) x : StronglySorted Z.lt (l ++ [x]) -> Forall (fun y => y < x) l.
Proof.
  induction l as [|y l IH]; intros H; [constructor|]. cbn [app] in H. apply StronglySorted_inv in H. destruct H as [H1 H2].
  constructor; [|auto]. rewrite Forall_forall in H2. apply H2. apply in_app_iff. right. left. reflexivity.
Qed.
(** what was reported up to [b] is complete up to the last event *)
Lemma reports_last h sel a b evs : a <= b -> reports h sel a b evs -> a <= last_seen a evs <= b /\ reports h sel a (last_seen a evs) evs.
Proof.
  intros AB RP. destruct evs as [|e evs _] using rev_ind.
  { cbn. split; [lia|]. apply reports_rep, rep_empty. lia. }
  rewrite last_seen_app. apply reports_rep in RP. destruct RP as (SO & SUB & COMP & TR).
  assert (B : a < ev_rev e <= b) by (apply SUB; rewrite map_app; apply in_app_iff; right; left; reflexivity).
  split; [lia|]. apply reports_rep. split; [exact SO|]. split; [|split; [|exact TR]].
  - intros r J. destruct (SUB r J) as [S1 S2]. split; [|exact S2]. split; [lia|].
    rewrite map_app in J, SO. apply in_app_iff in J. destruct J as [J|[<-|[]]]; [|lia].
    cbn [map] in SO. apply sorted_snoc in SO. rewrite Forall_forall in SO. apply SO in J. lia.
  - intros T r RR CH. apply (COMP T); [lia|exact CH].
Qed.
Lemma reports_app h sel a b c l1 l2 : a <= b <= c -> reports h sel a b l1 -> reports h sel b c l2 -> reports h sel a c (l1 ++ l2).
Proof. intros L A B. apply reports_rep in A, B. apply reports_rep. eapply rep_app; eauto. Qed.
Lemma reports_extend h l sel a b evs : b <= revision h -> reports h sel a b evs -> reports (h ++ l) sel a b evs.
Proof. intros L A. apply reports_rep in A. apply reports_rep. apply rep_extend; auto. Qed.

(** [evs1] seen before, [evs2] sent by the watch that resumes *)
Lemma resume_core h l sel a b1 evs1 n r b2 evs2 :
  a <= b1 -> b1 <= revision h -> reports h sel a b1 evs1 -> n = last_seen a evs1 -> 0 <= a ->
  r_start r = n + 1 -> b2 <= revision (h ++ l) -> reports (h ++ l) sel (begins r) b2 evs2 ->
  (exists b, a <= b <= revision (h ++ l) /\ reports (h ++ l) sel a b (evs1 ++ newer n evs2)) /\
  (n <= r_captured r -> exists b, a <= b <= revision (h ++ l) /\ reports (h ++ l) sel a b (evs1 ++ evs2)).
Proof.
  intros AB BR R1 -> N0 ST B2 R2. destruct (reports_last _ _ _ _ _ AB R1) as [LB R1'].
  set (n := last_seen a evs1) in *.
  assert (NR : n <= revision (h ++ l)) by (rewrite revision_app; pose proof (revision_nonneg l); lia).
  assert (BG : begins r = Z.min n (r_captured r)).
  { unfold begins. rewrite ST. replace (0 <? n + 1) with true by (symmetry; apply Z.ltb_lt; lia). f_equal. lia. }
  assert (NW : reports (h ++ l) sel n (Z.max n b2) (newer n evs2)) by (apply reports_newer with (a := begins r); [lia|exact R2]).
  split.
  - exists (Z.max n b2). split; [lia|]. apply reports_app with (b := n); [lia| |exact NW]. apply reports_extend; [lia|exact R1'].
  - intros C. assert (begins r = n) as BN by lia. rewrite BN in R2. exists (Z.max n b2). split; [lia|].
    apply reports_app with (b := n); [lia|apply reports_extend; [lia|exact R1']|].
    destruct (Z_le_dec n b2) as [L|L]; [rewrite Z.max_r by lia; exact R2|].
    rewrite Z.max_l by lia. apply reports_rep in R2. apply rep_empty_inv in R2; [|lia]. subst evs2. apply reports_rep, rep_empty. lia.
Qed.
Lemma begins_nonneg r : 0 <= r_captured r -> 0 <= begins r <= r_captured r.
Proof. intros H. unfold begins. destruct (Z.ltb_spec 0 (r_start r)); lia. Qed.
Lemma session s g r : scalm s -> group_of s = Some g -> In r (g_regs g) ->
  0 <= begins r /\ exists b, begins r <= b <= revision (history_of (snd (b_world (s_b s)))) /\
  reports (history_of (snd (b_world (s_b s)))) (in_range (r_lo r) (r_hi r)) (begins r) b (sent (s_out s) (r_id r)).
Proof.
  intros S G R. destruct (captured_nonneg s g r S G R) as [C P]. pose proof (begins_nonneg r ltac:(lia)) as BN. split; [lia|].
  destruct (stream_prefix s g r S G R) as (b & B & RP). exists (Z.max b (begins r)). split; [lia|].
  destruct (Z_le_dec (begins r) b) as [L|L]; [rewrite Z.max_l by lia; exact RP|].
  rewrite Z.max_r by lia. apply reports_rep in RP. apply rep_empty_inv in RP; [|lia]. rewrite RP. apply reports_rep, rep_empty. lia.
Qed.
Lemma watched_reports lo hi a w evs : watched lo hi a w evs ->
  0 <= a /\ exists b, a <= b <= revision (history_of (snd w)) /\ reports (history_of (snd w)) (in_range lo hi) a b evs.
Proof.
  induction 1 as [s g r S G R L H B|w evs s g r W IH ST S G R L H B|w evs s g r W IH ST S G R L H B C].
  - destruct (session s g r S G R) as (A & b & X & Y). rewrite B, L, H in *. split; [exact A|]. exists b. split; auto.
  - destruct IH as (A & b1 & X1 & R1). split; [exact A|]. destruct (session s g r S G R) as (_ & b2 & X2 & R2). rewrite L, H in R2.
    destruct (wsteps_extends _ _ ST) as [[l E] _]. rewrite E in *.
    destruct (resume_core _ l _ _ _ _ _ r b2 _ (proj1 X1) (proj2 X1) R1 eq_refl A B (proj2 X2) R2) as [K _]. exact K.
  - destruct IH as (A & b1 & X1 & R1). split; [exact A|]. destruct (session s g r S G R) as (_ & b2 & X2 & R2). rewrite L, H in R2.
    destruct (wsteps_extends _ _ ST) as [[l E] _]. rewrite E in *.
    destruct (resume_core _ l _ _ _ _ _ r b2 _ (proj1 X1) (proj2 X1) R1 eq_refl A B (proj2 X2) R2) as [_ K]. exact (K C).
Qed.
Lemma steady_kept s : steady_reach s -> revision (history_of (snd (b_world s))) - b_poll s <= 100 -> kept (snd (b_world s)) (b_poll s).
Proof.
  intros H L. destruct (steady_calm s H) as [C F]. left. pose proof (B_poll _ _ (calm_Binv _ C)). lia.
Qed.
