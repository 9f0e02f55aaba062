From Coq Require Import List ZArith NArith Bool Lia String.
From Verif Require Import Bytes Server.
Import ListNotations.
Open Scope Z_scope.

(** ** tuning *)
Definition uint64 (z : Z) : Prop := 0 <= z < 2 ^ 64.
Lemma u64_id z : uint64 z -> u64 z = z.
Proof. apply Z.mod_small. Qed.
Lemma u64_range z : uint64 (u64 z).
Proof. apply Z.mod_pos_bound. lia. Qed.
Lemma u64_le z : 0 <= z -> u64 z <= z.
Proof. intros. unfold u64. apply Z.mod_le; lia. Qed.
Lemma tune_region section th tr :
  match section with None => True | Some (a, b) => uint64 a /\ uint64 b end ->
  snapshot_params section = (th, tr) ->
  uint64 th /\ uint64 tr /\ 512 <= tr /\ th <= tr /\
  (match section with None => True | Some (a, b) => 512 <= b /\ (a = 0 -> 3 * b < 2 ^ 64) end -> 384 <= th).
Proof.
  destruct section as [[a b]|]; cbn [snapshot_params]; [|intros _ [= <- <-]; unfold uint64, default_threshold, default_trailing; repeat split; intros; lia].
  unfold tune, uint64, min_trailing, min_threshold. intros [Ha Hb] [= <- <-].
  pose proof (u64_range (b * 3)) as R. pose proof (u64_le (b * 3) ltac:(lia)) as L. unfold uint64 in R.
  assert (Q : 0 <= u64 (b * 3) / 4 <= b) by (split; [apply Z.div_pos; lia|apply Z.div_le_upper_bound; lia]).
  assert (W : 3 * b < 2 ^ 64 -> 512 <= b -> 384 <= u64 (b * 3) / 4).
  { intros. rewrite u64_id by (unfold uint64; lia). apply Z.div_le_lower_bound; lia. }
  destruct (Z.ltb_spec b 512); destruct (Z.eqb_spec a 0); destruct (Z.ltb_spec b a); destruct (Z.ltb_spec a 384); try lia.
Qed.

(** ** disk *)
Lemma storage_decides minimum bavail bsize : 0 <= bavail -> uint64 bsize -> bavail * bsize < 2 ^ 64 ->
  storage_low minimum (Some (bavail, bsize)) = (bavail * bsize <? minimum).
Proof. intros A B C. cbn [storage_low]. rewrite (u64_id bsize) by auto. rewrite u64_id; auto. unfold uint64 in *. nia. Qed.
Lemma storage_wraps minimum : 0 < minimum -> storage_low minimum (Some (2 ^ 52, 4096)) = true.
Proof. intros. cbn [storage_low]. replace (u64 (2 ^ 52 * u64 4096)) with 0 by reflexivity. now apply Z.ltb_lt. Qed.

Lemma send_handovers s : ds_handovers (send_stop s) = ds_handovers s.
Proof. unfold send_stop. destruct (ds_closed s), (ds_buffer s); reflexivity. Qed.
(** nothing happens while the space is not low *)
Lemma disk_quiet act minimum acts :
  (forall st, In (DCheck st) acts -> storage_low minimum st = false) -> forall s, ds_phase s <> DSending ->
  ds_phase (drun act minimum acts s) <> DSending /\
  ds_handovers (drun act minimum acts s) = ds_handovers s /\ ds_signals (drun act minimum acts s) = ds_signals s.
Proof.
  induction acts as [|a acts IH]; intros H s P; [auto|]. cbn [drun fold_left].
  assert (K : ds_phase (dstep act minimum s a) <> DSending /\ ds_handovers (dstep act minimum s a) = ds_handovers s /\ ds_signals (dstep act minimum s a) = ds_signals s).
  { destruct a as [|st| | | |]; cbn [dstep].
    - destruct (ds_phase s) eqn:E; cbn; (split; [congruence|auto]).
    - destruct (ds_phase s) eqn:E; try (split; [congruence|auto]). rewrite (H st) by now left. cbn. split; [discriminate|auto].
    - destruct (ds_phase s) eqn:E; try (split; [congruence|auto]). destruct (ds_cancelled s); cbn; (split; [congruence|auto]).
    - destruct (ds_buffer s); [|auto]. destruct (ds_phase s) eqn:E; cbn; try contradiction; (split; [congruence|auto]).
    - cbn. auto.
    - destruct (ds_phase s) eqn:E; cbn; try contradiction; (split; [congruence|auto]). }
  destruct K as (K1 & K2 & K3). destruct (IH (fun st I => H st (or_intror I)) _ K1) as (L1 & L2 & L3). unfold drun in *. rewrite L2, L3. auto.
Qed.
(** only the configured kind of action is ever taken *)
Lemma disk_kind act minimum acts : forall s,
  (act <> LAHandover -> ds_handovers (drun act minimum acts s) = ds_handovers s) /\
  (act <> LATerminate -> ds_phase s <> DSending -> ds_phase (drun act minimum acts s) <> DSending /\ ds_signals (drun act minimum acts s) = ds_signals s).
Proof.
  induction acts as [|a acts IH]; intros s; [auto|]. cbn [drun fold_left]. destruct (IH (dstep act minimum s a)) as [I1 I2]. unfold drun in *. split.
  - intros N. rewrite I1 by auto. destruct a as [|st| | | |]; cbn [dstep].
    + now destruct (ds_phase s).
    + destruct (ds_phase s); auto. destruct (storage_low minimum st); auto. destruct act; auto; [contradiction|apply send_handovers].
    + destruct (ds_phase s); auto. now destruct (ds_cancelled s).
    + destruct (ds_buffer s); auto. destruct (ds_phase s); auto. now rewrite send_handovers.
    + reflexivity.
    + destruct (ds_phase s); auto; now rewrite send_handovers.
  - intros N P. assert (K : ds_phase (dstep act minimum s a) <> DSending /\ ds_signals (dstep act minimum s a) = ds_signals s).
    { destruct a as [|st| | | |]; cbn [dstep].
      - destruct (ds_phase s) eqn:E; cbn; (split; [congruence|auto]).
      - destruct (ds_phase s) eqn:E; try (split; [congruence|auto]). destruct (storage_low minimum st); [destruct act; [| |contradiction]|]; cbn; (split; [congruence|auto]).
      - destruct (ds_phase s) eqn:E; try (split; [congruence|auto]). destruct (ds_cancelled s); cbn; (split; [congruence|auto]).
      - destruct (ds_buffer s); [|auto]. destruct (ds_phase s) eqn:E; cbn; try contradiction; (split; [congruence|auto]).
      - cbn. auto.
      - destruct (ds_phase s) eqn:E; cbn; try contradiction; (split; [congruence|auto]). }
    destruct K as [K1 K2]. destruct (I2 N K1) as [L1 L2]. rewrite L2. auto.
Qed.
(** a check that finds the space low takes the configured action *)
Lemma disk_acts act minimum s st : ds_phase s = DChecking -> ds_closed s = false -> storage_low minimum st = true ->
  let s' := dstep act minimum s (DCheck st) in
  match act with
  | LANone => s' = set_phase DIdle s
  | LAHandover => ds_handovers s' = S (ds_handovers s)
  | LATerminate => ds_buffer s' = true /\ ds_received (dstep act minimum s' DReceive) = S (ds_received s)
  end.
Proof.
  intros P C L. cbn [dstep]. rewrite P, L. destruct act; auto. unfold send_stop. rewrite C. destruct (ds_buffer s) eqn:B; cbn; auto.
Qed.
Lemma disk_safe act minimum acts :
  (forall pre post, acts = pre ++ DClose :: post ->
     ds_phase (drun act minimum pre dstate_init) = DReturned /\ ~ In DClose pre) ->
  ds_panicked (drun act minimum acts dstate_init) = false.
Proof.
  intros H. enough (G : ds_panicked (drun act minimum acts dstate_init) = false /\
    (ds_closed (drun act minimum acts dstate_init) = true -> ds_phase (drun act minimum acts dstate_init) = DReturned /\ In DClose acts)) by apply G.
  induction acts as [|a acts IH] using rev_ind; [split; [reflexivity|discriminate]|].
  assert (H' : forall pre post, acts = pre ++ DClose :: post -> ds_phase (drun act minimum pre dstate_init) = DReturned /\ ~ In DClose pre).
  { intros pre post ->. apply (H pre (post ++ [a])). now rewrite <- app_assoc. }
  destruct (IH H') as [P C]. unfold drun in *. rewrite fold_left_app. cbn [fold_left].
  remember (fold_left (dstep act minimum) acts dstate_init) as s.
  assert (C' : ds_closed s = true -> ds_phase s = DReturned /\ In DClose (acts ++ [a])) by (intros K; destruct (C K); split; [assumption|apply in_app_iff; now left]).
  assert (Heqc : ds_closed s = true -> In DClose acts) by (intros K; now destruct (C K)). clear C IH H'.
  assert (N : ds_phase s <> DReturned -> ds_closed s = false) by (intros K; destruct (ds_closed s); [destruct (C' eq_refl); contradiction|reflexivity]).
  assert (U : ds_panicked s = false /\ (ds_closed s = true -> ds_phase s = DReturned /\ In DClose (acts ++ [a]))) by (split; assumption).
  destruct a as [|st| | | |]; cbn [dstep].
  - destruct (ds_phase s) eqn:E; try (rewrite ?E; exact U). cbn. rewrite N by congruence. split; [exact P|discriminate].
  - destruct (ds_phase s) eqn:E; try (rewrite ?E; exact U). assert (CL : ds_closed s = false) by (apply N; congruence).
    destruct (storage_low minimum st); [destruct act|].
    + cbn. rewrite CL. split; [exact P|discriminate].
    + cbn. rewrite CL. split; [exact P|discriminate].
    + unfold send_stop. rewrite CL. destruct (ds_buffer s); cbn; (split; [exact P|discriminate]).
    + cbn. rewrite CL. split; [exact P|discriminate].
  - destruct (ds_phase s) eqn:E; try (rewrite ?E; exact U). destruct (ds_cancelled s); [|rewrite ?E; exact U]. cbn. rewrite N by congruence. split; [exact P|discriminate].
  - destruct (ds_buffer s) eqn:B; [|exact U]. destruct (ds_phase s) eqn:E; try (cbn; rewrite ?E; exact U).
    unfold send_stop. cbn. rewrite N by congruence. cbn. split; [exact P|discriminate].
  - cbn. exact U.
  - destruct (H acts [] eq_refl) as [R M]. rewrite <- Heqs in R. rewrite R. cbn. rewrite P.
    destruct (ds_closed s) eqn:CL; [|split; [reflexivity|intros _; split; [reflexivity|apply in_app_iff; right; now left]]].
    exfalso. apply M. apply Heqc. reflexivity.
Qed.

(** ** boot *)
Definition joined (addr : bytes) (cl : list bytes) : list bytes := match cl with [] => [addr] | _ => cl end.
Definition WI (d0 : dir) (addr : bytes) (cl : list bytes) (d : dir) : Prop :=
  d = d0 \/ (d_init d = None /\ d_update d = None /\ d_cluster d = Some (Some (joined addr cl)) /\ exists id, d_info d = Some (Some (NInfo id addr 0))).
Lemma no_state d : existing_state d = false -> d_update d = None /\ d_info d = None /\ d_cluster d = None /\ d_raft d = None.
Proof. unfold existing_state, file_names. destruct (d_init d), (d_update d), (d_info d), (d_cluster d), (d_raft d); cbn; try discriminate; auto. Qed.
Lemma boot_later e d : d_init d = None -> d_update d = None -> boot e d = finish_boot e None d.
Proof. intros A B. unfold boot. now rewrite A, B. Qed.
Lemma WI_step d0 addr cl d e d2 : addr <> [] -> d_init d0 = Some (addr, cl) -> existing_state d0 = false ->
  WI d0 addr cl d -> In d2 (d :: fst (boot e d)) -> d_init d2 <> None \/ d_info d2 <> None -> WI d0 addr cl d2.
Proof.
  intros A I E W [<-|J] P; auto. destruct W as [->|(W1 & W2 & W3 & id & W4)].
  - unfold boot in J. rewrite I, E in J. destruct addr as [|c addr]; [contradiction|]. destruct (no_state _ E) as (N1 & N2 & N3 & N4).
    cbn [then_ fst app] in J. destruct J as [<-|J].
    + exfalso. cbn in P. rewrite N2 in P. destruct P; contradiction.
    + right. unfold finish_boot, app_new in J. destruct (be_config e); [|destruct J]. destruct (be_app e); [|destruct J]. cbn [negb] in J.
      change (d_info (set_init None d0)) with (d_info d0) in J. rewrite N2 in J. destruct J as [<-|[]]. cbn. repeat split; eauto.
  - rewrite boot_later in J by auto. unfold finish_boot, app_new in J. destruct (be_config e); [|destruct J]. destruct (be_app e); [|destruct J]. cbn [negb] in J.
    rewrite W4 in J. destruct J.
Qed.
Lemma WI_result d0 addr cl d e self mem : addr <> [] -> d_init d0 = Some (addr, cl) -> existing_state d0 = false ->
  WI d0 addr cl d -> snd (boot e d) = BStarted self mem -> ni_addr self = addr /\ mem = joined addr cl.
Proof.
  intros A I E W. destruct W as [->|(W1 & W2 & W3 & id & W4)].
  - unfold boot. rewrite I, E. destruct addr as [|c addr]; [contradiction|]. destruct (no_state _ E) as (N1 & N2 & N3 & N4).
    cbn [then_ snd]. unfold finish_boot, app_new. destruct (be_config e); [|discriminate]. destruct (be_app e); [|discriminate]. cbn [negb].
    change (d_info (set_init None d0)) with (d_info d0). rewrite N2. cbn. intros [= <- <-]. auto.
  - rewrite boot_later by auto. unfold finish_boot, app_new. destruct (be_config e); [|discriminate]. destruct (be_app e); [|discriminate]. cbn [negb].
    rewrite W4, W3. cbn. intros [= <- <-]. auto.
Qed.
Lemma WI_works d0 addr cl d e : addr <> [] -> d_init d0 = Some (addr, cl) -> existing_state d0 = false ->
  WI d0 addr cl d -> be_config e = true -> be_app e = true -> exists self mem, snd (boot e d) = BStarted self mem.
Proof.
  intros A I E W C N. destruct W as [->|(W1 & W2 & W3 & id & W4)].
  - unfold boot. rewrite I, E. destruct addr as [|c addr]; [contradiction|]. destruct (no_state _ E) as (N1 & N2 & N3 & N4).
    cbn [then_ snd]. unfold finish_boot, app_new. rewrite C, N. cbn [negb].
    change (d_info (set_init None d0)) with (d_info d0). rewrite N2. cbn. eauto.
  - rewrite boot_later by auto. unfold finish_boot, app_new. rewrite C, N, W4. cbn. eauto.
Qed.
Definition keeps_config (d : dir) : Prop := d_init d <> None \/ d_info d <> None.
Lemma boots_WI d0 addr cl d : addr <> [] -> d_init d0 = Some (addr, cl) -> existing_state d0 = false ->
  boots keeps_config d0 d -> WI d0 addr cl d.
Proof. intros A I E B. induction B; [now left|]. eapply WI_step; eauto. Qed.
Lemma init_survives d0 addr cl d : addr <> [] -> d_init d0 = Some (addr, cl) -> existing_state d0 = false ->
  boots keeps_config d0 d ->
  (forall e self mem, snd (boot e d) = BStarted self mem -> ni_addr self = addr /\ mem = joined addr cl) /\
  (forall e, be_config e = true -> be_app e = true -> exists self mem, snd (boot e d) = BStarted self mem).
Proof.
  intros A I E B. pose proof (boots_WI _ _ _ _ A I E B) as W. split; intros.
  - eapply WI_result; eauto.
  - eapply WI_works; eauto.
Qed.
Lemma init_guard e d : d_init d <> None -> existing_state d = true -> boot e d = ([], BFailed).
Proof. intros I E. unfold boot. destruct (d_init d) as [[addr cl]|]; [|contradiction]. now rewrite E. Qed.
Lemma init_lost d0 addr cl : addr <> [] -> d_init d0 = Some (addr, cl) -> existing_state d0 = false ->
  exists d, boots (fun _ => True) d0 d /\
    (exists e self mem, snd (boot e d) = BStarted self mem) /\
    (forall e self mem, snd (boot e d) = BStarted self mem -> ni_addr self = default_address /\ mem = [default_address]).
Proof.
  intros A I E. destruct (no_state _ E) as (N1 & N2 & N3 & N4). exists (set_init None d0). split.
  - apply boots_more with (d1 := d0) (e := BEnv true true true 1); auto; [constructor|]. right. unfold boot. rewrite I, E. destruct addr; [contradiction|]. now left.
  - assert (B : forall e, boot e (set_init None d0) = finish_boot e None (set_init None d0)) by (intros; now apply boot_later).
    unfold finish_boot, app_new in B. change (d_info (set_init None d0)) with (d_info d0) in B. rewrite N2 in B. split.
    + exists (BEnv true true true 1). rewrite B. cbn. eauto.
    + intros e self mem. rewrite B. destruct (be_config e), (be_app e); cbn; try discriminate. intros [= <- <-]. auto.
Qed.
(** a start that merely fails loses it too *)
Lemma init_lost_failing d0 addr cl e : addr <> [] -> d_init d0 = Some (addr, cl) -> existing_state d0 = false -> be_config e = false ->
  snd (boot e d0) = BFailed /\ boot_end e d0 = set_init None d0.
Proof. intros A I E C. unfold boot_end, boot. rewrite I, E. destruct addr; [contradiction|]. unfold finish_boot. rewrite C. auto. Qed.

Definition moved (a : bytes) (i : ninfo) : ninfo := NInfo (ni_id i) a (ni_role i).
Definition updated (a : bytes) (i : ninfo) (d : dir) : dir := Dir None None (Some (Some (moved a i))) (Some (Some [a])) (Some [moved a i]) (d_extra d).
Definition UI (d0 : dir) (a : bytes) (i : ninfo) (d : dir) : Prop :=
  (d_init d = None /\ d_update d = Some a /\ d_extra d = d_extra d0 /\ exists j, d_info d = Some (Some j) /\ moved a j = moved a i) \/ d = updated a i d0.
Lemma UI_step d0 a i d e d2 : a <> [] -> UI d0 a i d -> In d2 (d :: fst (boot e d)) -> d_info d2 <> Some None -> UI d0 a i d2.
Proof.
  intros A U [<-|J] P; auto. destruct U as [(U1 & U2 & U3 & j & U4 & U5)| ->].
  - unfold boot in J. rewrite U1, U2, U4 in J. destruct a as [|c a]; [contradiction|]. destruct (be_reconf e); [|destruct J]. cbn [negb then_ fst decode_info] in J.
    fold (moved (c :: a) j) in J. rewrite U5 in J. apply in_app_iff in J. destruct J as [J|J].
    + destruct J as [<-|[<-|[<-|[<-|[<-|[<-|[]]]]]]]; cbn in P |- *.
      * left. cbn. repeat split; auto. eauto.
      * contradiction.
      * left. cbn. repeat split; auto. eauto.
      * left. cbn. repeat split; auto. eauto.
      * left. cbn. repeat split; auto. eauto.
      * right. unfold updated, set_update, set_cluster, set_info, set_raft. cbn [d_init d_update d_info d_cluster d_raft d_extra]. now rewrite U1, U3.
    + exfalso. unfold finish_boot, app_new in J. destruct (be_config e); [|destruct J]. destruct (be_app e); [|destruct J]. destruct J.
  - exfalso. unfold boot, updated in J. cbn in J. unfold finish_boot, app_new in J. destruct (be_config e); [|destruct J]. destruct (be_app e); [|destruct J]. destruct J.
Qed.
Definition intact_info (d : dir) : Prop := d_info d <> Some None.
Lemma boots_UI d0 a i d : a <> [] -> d_init d0 = None -> d_update d0 = Some a -> d_info d0 = Some (Some i) ->
  boots intact_info d0 d -> UI d0 a i d.
Proof. intros A I U N B. induction B; [left; repeat split; auto; eauto|]. eapply UI_step; eauto. Qed.
Lemma update_idempotent d0 a i d : a <> [] -> d_init d0 = None -> d_update d0 = Some a -> d_info d0 = Some (Some i) ->
  boots intact_info d0 d ->
  (forall e self mem, snd (boot e d) = BStarted self mem -> self = moved a i /\ mem = [a] /\ boot_end e d = updated a i d0) /\
  (forall e, be_reconf e = true -> be_config e = true -> be_app e = true -> exists self mem, snd (boot e d) = BStarted self mem).
Proof.
  intros A I U N B. pose proof (boots_UI _ _ _ _ A I U N B) as [(U1 & U2 & U3 & j & U4 & U5)| ->].
  - unfold boot_end, boot. rewrite U1, U2, U4. destruct a as [|c a]; [contradiction|]. split.
    + intros e self mem. destruct (be_reconf e); [|discriminate]. cbn [negb then_ snd decode_info]. unfold finish_boot, app_new.
      destruct (be_config e); [|discriminate]. destruct (be_app e); [|discriminate]. cbn. fold (moved (c :: a) j). rewrite U5. intros [= <- <-].
      unfold updated, set_update, set_cluster, set_info, set_raft. cbn [d_init d_update d_info d_cluster d_raft d_extra]. now rewrite U1, U3.
    + intros e -> C D. unfold finish_boot, app_new. rewrite C, D. cbn. eauto.
  - unfold boot_end, boot, updated. cbn. unfold finish_boot, app_new. cbn. split.
    + intros e self mem. destruct (be_config e); [|discriminate]. destruct (be_app e); [|discriminate]. cbn. intros [= <- <-]. auto.
    + intros e _ -> ->. cbn. eauto.
Qed.
Lemma update_uninterrupted d0 a i e : a <> [] -> d_init d0 = None -> d_update d0 = Some a -> d_info d0 = Some (Some i) ->
  be_reconf e = true -> be_config e = true -> be_app e = true ->
  boot_end e d0 = updated a i d0 /\ snd (boot e d0) = BStarted (moved a i) [a].
Proof.
  intros A I U N R C D. destruct (update_idempotent d0 a i d0 A I U N (boots_none _ _)) as [H W].
  destruct (W e R C D) as (self & mem & S). destruct (H _ _ _ S) as (-> & -> & E). auto.
Qed.
Lemma update_torn d0 a i : a <> [] -> d_init d0 = None -> d_update d0 = Some a -> d_info d0 = Some (Some i) ->
  exists d, boots (fun _ => True) d0 d /\ (exists e self mem, snd (boot e d) = BStarted self mem) /\
    forall e self mem, snd (boot e d) = BStarted self mem -> self = NInfo 0 a 0.
Proof.
  intros A I U N. exists (set_info (Some None) (set_raft (Some [moved a i]) d0)). split.
  - apply boots_more with (d1 := d0) (e := BEnv true true true 1); auto; [constructor|]. right. unfold boot. rewrite I, U, N. destruct a; [contradiction|]. cbn. auto.
  - unfold boot. cbn [d_init d_update d_info set_info set_raft]. rewrite I, U. destruct a as [|c a]; [contradiction|]. split.
    + exists (BEnv true true true 1). cbn. eauto.
    + intros e self mem. destruct (be_reconf e); [|discriminate]. cbn [negb then_ snd]. unfold finish_boot, app_new.
      destruct (be_config e); [|discriminate]. destruct (be_app e); [|discriminate]. cbn. now intros [= <- <-].
Qed.
(** every low check acts *)
Lemma disk_every_handover minimum sts : forall s, ds_phase s = DIdle ->
  let s' := drun LAHandover minimum (flat_map (fun st => [DWake; DCheck st]) sts) s in
  ds_phase s' = DIdle /\ ds_handovers s' = (ds_handovers s + List.length (filter (storage_low minimum) sts))%nat.
Proof.
  induction sts as [|st sts IH]; intros s P; cbv zeta in *; [cbn; split; [exact P|lia]|].
  cbn [flat_map]. unfold drun in *. rewrite fold_left_app. cbn [fold_left]. cbn [filter].
  set (s1 := dstep LAHandover minimum (dstep LAHandover minimum s DWake) (DCheck st)).
  assert (E : ds_phase s1 = DIdle /\ ds_handovers s1 = (ds_handovers s + if storage_low minimum st then 1 else 0)%nat).
  { unfold s1. cbn [dstep]. rewrite P. cbn [dstep set_phase ds_phase]. destruct (storage_low minimum st); cbn [ds_phase ds_handovers set_phase]; split; auto; lia. }
  destruct E as [E1 E2]. destruct (IH s1 E1) as [A B]. split; [exact A|]. rewrite B, E2. destruct (storage_low minimum st); cbn [List.length]; lia.
Qed.
Lemma disk_every_terminate minimum sts : forall s, ds_phase s = DIdle -> ds_buffer s = false -> ds_closed s = false ->
  let s' := drun LATerminate minimum (flat_map (fun st => [DWake; DCheck st; DReceive]) sts) s in
  ds_received s' = (ds_received s + List.length (filter (storage_low minimum) sts))%nat.
Proof.
  induction sts as [|st sts IH]; intros s P BF CL; cbv zeta in *; [cbn; lia|].
  cbn [flat_map]. unfold drun in *. rewrite fold_left_app. cbn [fold_left]. cbn [filter].
  set (s1 := dstep LATerminate minimum (dstep LATerminate minimum (dstep LATerminate minimum s DWake) (DCheck st)) DReceive).
  assert (E : ds_phase s1 = DIdle /\ ds_buffer s1 = false /\ ds_closed s1 = false /\ ds_received s1 = (ds_received s + if storage_low minimum st then 1 else 0)%nat).
  { unfold s1. cbn [dstep]. rewrite P. destruct s as [ph bf cl ca ha si re pa]. cbn [ds_phase ds_buffer ds_closed] in *. subst.
    cbn [dstep set_phase ds_phase]. destruct (storage_low minimum st); cbn; split; auto; split; auto; split; auto; lia. }
  destruct E as (E1 & E2 & E3 & E4). rewrite (IH s1 E1 E2 E3), E4. destruct (storage_low minimum st); cbn [List.length]; lia.
Qed.
Lemma disk_every minimum sts :
  ds_handovers (drun LAHandover minimum (flat_map (fun st => [DWake; DCheck st]) sts) dstate_init) = List.length (filter (storage_low minimum) sts) /\
  ds_received (drun LATerminate minimum (flat_map (fun st => [DWake; DCheck st; DReceive]) sts) dstate_init) = List.length (filter (storage_low minimum) sts).
Proof.
  split.
  - exact (proj2 (disk_every_handover minimum sts dstate_init eq_refl)).
  - exact (disk_every_terminate minimum sts dstate_init eq_refl eq_refl eq_refl).
Qed.

Lemma existing_state_iff d : existing_state d = true <->
  d_update d <> None \/ d_info d <> None \/ d_cluster d <> None \/ d_raft d <> None \/
  exists n, In n (d_extra d) /\ ~ In n expected_files.
Proof.
  assert (X : existsb (fun n => negb (existsb (beqb n) expected_files)) (d_extra d) = true <-> exists n, In n (d_extra d) /\ ~ In n expected_files).
  { rewrite existsb_exists. split; intros (n & I & H); exists n; (split; [exact I|]).
    - intros J. apply negb_true_iff in H. assert (K : existsb (beqb n) expected_files = true) by (apply existsb_exists; exists n; split; [exact J|apply beqb_refl]). congruence.
    - apply negb_true_iff. destruct (existsb (beqb n) expected_files) eqn:E; [|reflexivity]. exfalso. apply H.
      apply existsb_exists in E. destruct E as (m & J & E). apply beqb_true in E. now subst. }
  unfold existing_state, file_names. rewrite !existsb_app, !orb_true_iff, X.
  destruct (d_init d), (d_update d), (d_info d), (d_cluster d), (d_raft d); cbn; intuition congruence.
Qed.
