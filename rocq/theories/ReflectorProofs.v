(** Proofs about list-and-watch clients. *)
From Coq Require Import List ZArith Bool Lia Sorting.Sorted.
From Verif Require Import Bytes Spec Sql System Prog Backend Limited Api Watch Stream SpecLemmas SqlLemmas Sim ReadLemmas ProgLemmas ReadProgs ReadProofs WatchLemmas WatchProofs WatchResults StreamProofs Observe Reflector.
Import ListNotations.
Open Scope Z_scope.

Lemma mirror_last l evs k :
  (exists e1 e e2, evs = e1 ++ e :: e2 /\ kv_key (ev_kv e) = k /\ (forall x, In x e2 -> kv_key (ev_kv x) <> k) /\
     mirror l evs k = if ev_delete e then None else Some (ev_kv e)) \/
  ((forall x, In x evs -> kv_key (ev_kv x) <> k) /\ mirror l evs k = copy_of l k).
Proof.
  unfold mirror. induction evs as [|e evs IH] using rev_ind; [right; split; [intros x []|reflexivity]|].
  rewrite fold_left_app. cbn [fold_left]. unfold apply_event at 1 3.
  destruct (beqb (kv_key (ev_kv e)) k) eqn:E.
  - apply beqb_true in E. left. exists evs, e, []. split; [reflexivity|]. split; [exact E|]. split; [intros x []|reflexivity].
  - apply beqb_false in E. destruct IH as [(e1 & e0 & e2 & A & B & C & D)|[A B]].
    + left. exists e1, e0, (e2 ++ [e]). split; [rewrite A, <- app_assoc; reflexivity|]. split; [exact B|]. split; [|exact D].
      intros x J. apply in_app_iff in J. destruct J as [J|[<-|[]]]; auto.
    + right. split; [|exact B]. intros x J. apply in_app_iff in J. destruct J as [J|[<-|[]]]; auto.
Qed.

Lemma copy_of_snapshot h n lo hi L k : is_snapshot h n lo hi L ->
  (in_range lo hi k -> copy_of L k = kv_at h n k) /\ (~ in_range lo hi k -> copy_of L k = None).
Proof.
  intros [_ S]. unfold copy_of. destruct (find _ L) as [x|] eqn:F.
  - apply find_some in F. destruct F as [F G]. apply beqb_true in G. apply S in F. destruct F as [F1 F2]. rewrite G in *.
    split; [intros _; now rewrite F2|tauto].
  - split; [|reflexivity]. intros R. destruct (kv_at h n k) as [x|] eqn:K; [|reflexivity].
    assert (kv_key x = k) by (apply kv_at_facts in K; tauto).
    assert (In x L) as J by (apply S; subst k; auto).
    pose proof (find_none _ _ F x J) as Z. cbn in Z. apply beqb_false in Z. contradiction.
Qed.

Lemma truthful_ent h ev : truthful_event h (ev_rev ev) ev ->
  exists e, ent h (ev_rev ev) = Some e /\ e_key e = kv_key (ev_kv ev) /\
    kv_at h (ev_rev ev) (kv_key (ev_kv ev)) = (if ev_delete ev then None else Some (ev_kv ev)).
Proof.
  intros (e & A & B & C & _ & D & _). exists e.
  assert (E : ent h (ev_rev ev) = Some e) by (unfold ent; replace (1 <=? ev_rev ev) with true by (symmetry; apply Z.leb_le; lia); exact B).
  split; [exact E|]. split; [auto|]. rewrite C. rewrite (kv_at_step _ _ _ _ E).
  destruct (e_change e) eqn:G.
  - destruct D as [D1 D2]. rewrite D1. rewrite <- (kv_at_step _ _ _ _ E). exact D2.
  - rewrite D. unfold change_key. rewrite beqb_refl, G. reflexivity.
Qed.

Lemma mirror_correct h lo hi a n b L evs : 0 <= a <= n -> n <= b -> is_snapshot h n lo hi L ->
  reports h (in_range lo hi) a b evs -> copy_at h b lo hi (mirror L evs).
Proof.
  intros AN NB S RP k. apply reports_rep in RP. destruct RP as (SO & SUB & COMP & TR). specialize (COMP Logic.I).
  rewrite Forall_forall in TR.
  assert (IR : forall x, In x evs -> in_range lo hi (kv_key (ev_kv x)) /\ a < ev_rev x <= b).
  { intros x J. destruct (SUB (ev_rev x) (in_map _ _ _ J)) as (B1 & e & B2 & B3).
    destruct (truthful_ent h x (TR x J)) as (e' & E1 & E2 & _). rewrite E1 in B2. injection B2 as ->. rewrite E2 in B3. auto. }
  destruct (copy_of_snapshot h n lo hi L k S) as [C1 C2].
  destruct (mirror_last L evs k) as [(e1 & e & e2 & A & B & C & D)|[A B]].
  - assert (J : In e evs) by (rewrite A; apply in_app_iff; right; left; reflexivity).
    destruct (IR e J) as [IR1 IR2]. rewrite B in IR1. split; [|tauto]. intros _. rewrite D.
    destruct (truthful_ent h e (TR e J)) as (en & E1 & E2 & E3). rewrite B in E3. rewrite <- E3.
    symmetry. apply kv_at_unchanged; [lia|]. intros r x RR X XK.
    assert (In r (map ev_rev evs)) as JJ by (apply COMP; [lia|]; exists x; split; [exact X|rewrite XK; exact IR1]).
    rewrite A, map_app in JJ, SO. cbn [map] in JJ, SO. apply in_app_iff in JJ.
    assert (SS : forall y, In y (map ev_rev e1) -> y < ev_rev e).
    { clear -SO. induction (map ev_rev e1) as [|z l IH]; [intros y []|]. cbn [app] in SO. apply StronglySorted_inv in SO. destruct SO as [S1 S2].
      intros y [<-|J]; [|auto]. rewrite Forall_forall in S2. apply S2. apply in_app_iff. right. left. reflexivity. }
    destruct JJ as [JJ|[JJ|JJ]]; [apply SS in JJ; lia|lia|].
    apply in_map_iff in JJ. destruct JJ as (y & Y1 & Y2). apply (C y Y2).
    assert (In y evs) as Y3 by (rewrite A; apply in_app_iff; right; right; exact Y2).
    destruct (truthful_ent h y (TR y Y3)) as (ey & Z1 & Z2 & _). rewrite Y1, X in Z1. injection Z1 as ->. congruence.
  - rewrite B. split; [|exact C2]. intros R. rewrite (C1 R).
    assert (NO : forall r x, a < r <= b -> ent h r = Some x -> e_key x <> k).
    { intros r x RR X XK. assert (In r (map ev_rev evs)) as JJ by (apply COMP; [lia|]; exists x; split; [exact X|rewrite XK; exact R]).
      apply in_map_iff in JJ. destruct JJ as (y & Y1 & Y2). apply (A y Y2).
      destruct (truthful_ent h y (TR y Y2)) as (ey & Z1 & Z2 & _). rewrite Y1, X in Z1. injection Z1 as ->. congruence. }
    rewrite (kv_at_unchanged h a b k), (kv_at_unchanged h a n k); [reflexivity|lia| |lia|]; intros r x RR; [apply NO; lia|apply NO; lia].
Qed.

Lemma reports_newer h sel a b n evs : a <= n -> reports h sel a b evs -> reports h sel n (Z.max n b) (newer n evs).
Proof.
  intros AN RP. apply reports_rep in RP. apply reports_rep. destruct RP as (SO & SUB & COMP & TR).
  assert (M : map ev_rev (newer n evs) = filter (fun r => n <? r) (map ev_rev evs)).
  { unfold newer. clear. induction evs as [|e l IH]; [reflexivity|]. cbn [filter map]. destruct (n <? ev_rev e); cbn [map]; congruence. }
  split; [|split; [|split]].
  - rewrite M. clear -SO. induction SO as [|x l S1 IH F]; [constructor|]. cbn [filter]. destruct (n <? x); [|exact IH].
    constructor; [exact IH|]. rewrite Forall_forall in *. intros y J. apply filter_In in J. apply F. tauto.
  - intros r J. rewrite M in J. apply filter_In in J. destruct J as [J K]. apply Z.ltb_lt in K. destruct (SUB r J). split; [lia|assumption].
  - intros _ r RR CH. rewrite M. apply filter_In. split; [|apply Z.ltb_lt; lia]. apply COMP; [exact Logic.I| |exact CH]. lia.
  - rewrite Forall_forall in *. intros x J. apply filter_In in J. apply TR. tauto.
Qed.

(** a list, and a later state of the stream *)
Lemma list_later cfg lo hi w sched w' resp ws : wreach w -> hi <> [] ->
  fair (s_range cfg (range lo hi 0 0)) sched w -> Forall (fun x => clean (snd x)) sched ->
  exec (s_range cfg (range lo hi 0 0)) sched w = (w', Some (Ok resp)) ->
  floor_of (snd w') <= rr_header resp -> wsteps w' ws ->
  0 <= rr_header resp <= revision (history_of (snd ws)) /\
  is_snapshot (history_of (snd ws)) (rr_header resp) lo hi (rr_kvs resp).
Proof.
  intros W HI FA CL EX FL ST.
  destruct (list_concurrent cfg lo hi 0 w sched w' resp W HI FA CL EX) as [B _].
  pose proof (header_partial cfg lo hi w sched w' resp W HI FA CL EX FL) as S.
  pose proof (revision_nonneg (history_of (snd w))).
  pose proof (wsteps_extends _ _ ST) as (X1 & X2).
  split. { destruct X1 as [l X1]. rewrite X1, revision_app. pose proof (revision_nonneg l). lia. }
  eapply later_snapshot; eauto. lia.
Qed.

(** the start of a reflector's watch *)
Lemma begins_start r n : 0 <= n -> r_start r = n + 1 -> 0 <= r_captured r -> 0 <= begins r <= n /\ (n <= r_captured r -> begins r = n).
Proof. intros H E C. unfold begins. rewrite E. replace (0 <? n + 1) with true by (symmetry; apply Z.ltb_lt; lia). lia. Qed.
Lemma captured_nonneg s g r : scalm s -> group_of s = Some g -> In r (g_regs g) -> 0 <= r_captured r <= b_poll (s_b s) /\ 0 <= b_poll (s_b s) <= revision (history_of (snd (b_world (s_b s)))).
Proof.
  intros H G J. pose proof (calm_Binv _ (scalm_calm _ H)) as B. split; [|apply (B_poll _ _ B)].
  pose proof (B_groups _ _ B) as F. rewrite Forall_forall in F. apply (G_hi _ _ _ _ (F g (nth_error_In _ _ G)) r J).
Qed.

(** the client that skips what it knows *)
Lemma reflector_newer cfg lo hi w sched w' resp s g r : wreach w -> hi <> [] ->
  fair (s_range cfg (range lo hi 0 0)) sched w -> Forall (fun x => clean (snd x)) sched ->
  exec (s_range cfg (range lo hi 0 0)) sched w = (w', Some (Ok resp)) ->
  floor_of (snd w') <= rr_header resp ->
  scalm s -> wsteps w' (b_world (s_b s)) -> group_of s = Some g -> In r (g_regs g) ->
  r_lo r = lo -> r_hi r = hi -> r_start r = rr_header resp + 1 ->
  exists b, rr_header resp <= b <= revision (history_of (snd (b_world (s_b s)))) /\
    (forall ev, In ev (sent (s_out s) (r_id r)) -> ev_rev ev <= b) /\
    copy_at (history_of (snd (b_world (s_b s)))) b lo hi (mirror (rr_kvs resp) (newer (rr_header resp) (sent (s_out s) (r_id r)))).
Proof.
  intros W HI FA CL EX FL SC ST G J LO HI' RS.
  destruct (list_later _ _ _ _ _ _ _ _ W HI FA CL EX FL ST) as [NB SN].
  destruct (captured_nonneg s g r SC G J) as [CP BP].
  destruct (begins_start r (rr_header resp) (proj1 NB) RS (proj1 CP)) as [BE _].
  destruct (stream_prefix s g r SC G J) as (b & BL & RP). rewrite LO, HI' in RP.
  exists (Z.max (rr_header resp) b). split; [lia|]. split.
  - intros ev I. destruct RP as (_ & SUB & _). apply (in_map ev_rev) in I. apply SUB in I. lia.
  - eapply mirror_correct; [| |exact SN|]; [|apply Z.le_max_l|eapply reports_newer; [|exact RP]; lia]. lia.
Qed.

(** the client that takes everything *)
Lemma reflector_all cfg lo hi w sched w' resp s g r : wreach w -> hi <> [] ->
  fair (s_range cfg (range lo hi 0 0)) sched w -> Forall (fun x => clean (snd x)) sched ->
  exec (s_range cfg (range lo hi 0 0)) sched w = (w', Some (Ok resp)) ->
  floor_of (snd w') <= rr_header resp ->
  scalm s -> wsteps w' (b_world (s_b s)) -> group_of s = Some g -> In r (g_regs g) ->
  r_lo r = lo -> r_hi r = hi -> r_start r = rr_header resp + 1 ->
  rr_header resp <= r_captured r \/ (exists ev, In ev (sent (s_out s) (r_id r)) /\ rr_header resp <= ev_rev ev) ->
  exists b, rr_header resp <= b <= revision (history_of (snd (b_world (s_b s)))) /\
    (forall ev, In ev (sent (s_out s) (r_id r)) -> ev_rev ev <= b) /\
    copy_at (history_of (snd (b_world (s_b s)))) b lo hi (mirror (rr_kvs resp) (sent (s_out s) (r_id r))).
Proof.
  intros W HI FA CL EX FL SC ST G J LO HI' RS OR.
  destruct (list_later _ _ _ _ _ _ _ _ W HI FA CL EX FL ST) as [NB SN].
  destruct (captured_nonneg s g r SC G J) as [CP BP].
  destruct (begins_start r (rr_header resp) (proj1 NB) RS (proj1 CP)) as [BE BE2].
  destruct (stream_prefix s g r SC G J) as (b & BL & RP). rewrite LO, HI' in RP.
  assert (UP : forall ev, In ev (sent (s_out s) (r_id r)) -> ev_rev ev <= b).
  { intros ev I. destruct RP as (_ & SUB & _). apply (in_map ev_rev) in I. apply SUB in I. lia. }
  exists (Z.max (rr_header resp) b). split; [lia|]. split; [intros ev I; apply UP in I; lia|].
  destruct (Z.le_gt_cases (rr_header resp) b) as [LE|GT].
  - rewrite Z.max_r by lia. eapply mirror_correct; [| |exact SN|exact RP]; lia.
  - destruct OR as [OR|(ev & I & K)]; [|apply UP in I; lia]. rewrite (BE2 OR) in RP.
    eapply mirror_correct; [| |exact SN|]; [|apply Z.le_max_l|]; [|rewrite Z.max_l by lia]; [split; [|reflexivity]; lia|].
    apply reports_rep in RP. apply reports_rep. eapply rep_empty_inv in RP; [|lia]. rewrite RP. apply rep_empty. lia.
Qed.

(** and it catches up *)
Lemma reflector_caught_up cfg lo hi w sched w' resp n s : wreach w -> hi <> [] ->
  fair (s_range cfg (range lo hi 0 0)) sched w -> Forall (fun x => clean (snd x)) sched ->
  exec (s_range cfg (range lo hi 0 0)) sched w = (w', Some (Ok resp)) ->
  floor_of (snd w') <= rr_header resp ->
  calm_reach s -> wsteps w' (b_world s) -> b_dead s = false -> kept (snd (b_world s)) (b_poll s) ->
  revision (history_of (snd (b_world s))) - b_poll s + 1 <= Z.of_nat n ->
  forall i g r, nth_error (b_groups (poll_rounds n s)) i = Some g -> g_open g = true -> In r (g_regs g) ->
    In (r_id r, WOk) (g_returns g) -> ~ In (r_id r) (g_cancelled g) ->
    r_lo r = lo -> r_hi r = hi -> r_start r = rr_header resp + 1 ->
    copy_at (history_of (snd (b_world s))) (revision (history_of (snd (b_world s)))) lo hi (mirror (rr_kvs resp) (delivered (g_updates g) (r_id r))).
Proof.
  intros W HI FA CL EX FL SC ST DE KE N i g r G O J RT CN LO HI' RS.
  destruct (list_later _ _ _ _ _ _ _ _ W HI FA CL EX FL ST) as [NB SN].
  destruct (eventually_delivered n s SC DE KE N) as [EW EV].
  pose proof (EV i g r G O J RT CN) as RP. rewrite LO, HI' in RP.
  assert (CP : 0 <= r_captured r).
  { pose proof (calm_Binv _ (calm_rounds n s SC DE KE)) as B. pose proof (B_groups _ _ B) as F. rewrite Forall_forall in F.
    apply (G_hi _ _ _ _ (F g (nth_error_In _ _ G)) r J). }
  destruct (begins_start r (rr_header resp) (proj1 NB) RS CP) as [BE BE2].
  eapply mirror_correct; [| |exact SN|exact RP]; lia.
Qed.
