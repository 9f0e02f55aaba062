(** C189: the buffer of a watch stream (watcher.go:40-72, 216-230, 273).
    [g_updates]: everything ever put into the channel of the stream, [g_taken]: how many of them
    its consumer has received. *)
From Coq Require Import List ZArith Bool Lia Arith.
From Verif Require Import Bytes Spec Sql System Prog Backend Watch WatchProofs WatchResults WatchWitness Demo.
Import ListNotations.
Open Scope Z_scope.

Lemma group_step s a i g : nth_error (b_groups s) i = Some g -> exists g', nth_error (b_groups (bstep s a)) i = Some g' /\
  (g' = g \/ a = AStopGroup i /\ g' = stop_group g \/ (exists evs, a = APublish /\ b_batch s = Some evs /\ g' = publish (last_rev evs (b_poll s)) evs g) \/
   (a = ATake i /\ g' = take g) \/ (g_updates g' = g_updates g /\ g_taken g' = g_taken g /\ g_open g' = g_open g)).
Proof.
  intros N. assert (SG : forall j f, nth_error (b_groups (set_group s j f)) i = Some (if Nat.eqb i j then f g else g)).
  { intros j f. cbn [set_group b_groups]. rewrite update_nth_nth, N. destruct (Nat.eqb i j); reflexivity. }
  destruct a as [op|f| | |j|j lo hi st|j id f|j id f|j id|j id|j]; cbn [bstep].
  - exists g. auto.
  - destruct (fetch_same f s) as (_ & _ & ->). exists g. auto.
  - unfold publish_all. destruct (b_batch s) as [evs|] eqn:B; [|exists g; auto]. cbn [b_groups]. rewrite nth_error_map, N. eexists. split; [reflexivity|]. right. right. left. exists evs. auto.
  - cbn [new_group b_groups]. rewrite nth_error_app1 by (apply nth_error_Some; congruence). exists g. auto.
  - rewrite SG. eexists. split; [reflexivity|]. destruct (Nat.eqb_spec i j) as [<-|]; [|auto]. auto 6.
  - rewrite SG. eexists. split; [reflexivity|]. destruct (Nat.eqb_spec i j) as [<-|]; [|auto]. auto 6. do 4 right. unfold watch_begin. destruct (0 <? st); cbn; auto.
  - rewrite SG. eexists. split; [reflexivity|]. destruct (Nat.eqb_spec i j) as [<-|]; [|auto]. auto 6. do 4 right. unfold watch_check. destruct (pending_of id g) as [[r []]|]; auto. destruct (interval_result _ _) as [[x y]|]; [destruct (_ <? _)|]; cbn; auto.
  - rewrite SG. eexists. split; [reflexivity|]. destruct (Nat.eqb_spec i j) as [<-|]; [|auto]. auto 6. do 4 right. unfold watch_query. destruct (pending_of id g) as [[r []]|]; auto. destruct (snd (sem _ _ _)); cbn; auto.
  - rewrite SG. eexists. split; [reflexivity|]. destruct (Nat.eqb_spec i j) as [<-|]; [|auto]. auto 6. do 4 right. unfold watch_finish. destruct (pending_of id g) as [[r []]|]; cbn; auto.
  - rewrite SG. eexists. split; [reflexivity|]. destruct (Nat.eqb_spec i j) as [<-|]; [|auto]. auto 6. do 4 right. cbn. auto.
  - rewrite SG. eexists. split; [reflexivity|]. destruct (Nat.eqb_spec i j) as [<-|]; [|auto]. auto 6.
Qed.
Lemma only_slow s a i g g' : nth_error (b_groups s) i = Some g -> nth_error (b_groups (bstep s a)) i = Some g' -> g_open g = true -> g_open g' = false ->
  a = AStopGroup i \/ (a = APublish /\ (g_taken g + 100 <= length (g_updates g))%nat).
Proof.
  intros N N' OP CL. destruct (group_step s a i g N) as (x & X & H). rewrite N' in X. injection X as <-.
  destruct H as [->|[(A & _)|[(evs & A & _ & ->)|[(_ & ->)|(_ & _ & E)]]]]; try congruence; auto.
  - right. split; [exact A|]. unfold publish in CL. rewrite OP in CL. unfold channel_size in CL. destruct (Nat.ltb_spec (length (g_updates g) - g_taken g) 100); [discriminate|]. lia.
  - unfold take in CL. destruct (_ <? _)%nat; cbn in CL; congruence.
Qed.
Lemma room s i g evs : nth_error (b_groups s) i = Some g -> g_open g = true -> b_batch s = Some evs -> (length (g_updates g) < g_taken g + 100)%nat ->
  exists g' u, nth_error (b_groups (bstep s APublish)) i = Some g' /\ g_open g' = true /\ g_updates g' = g_updates g ++ [u].
Proof.
  intros N OP B L. cbn [bstep]. unfold publish_all. rewrite B. cbn [b_groups]. rewrite nth_error_map, N. cbn [option_map]. unfold publish. rewrite OP. unfold channel_size.
  destruct (Nat.ltb_spec (length (g_updates g) - g_taken g) 100); [|lia]. eexists _, _. split; [reflexivity|]. split; reflexivity.
Qed.
Lemma bounded s : breach s -> forall i g, nth_error (b_groups s) i = Some g -> (g_taken g <= length (g_updates g) <= g_taken g + 100)%nat.
Proof.
  intros H. induction H as [w W|s a H IH P]; intros i g N; [destruct i; discriminate|].
  destruct (nth_error (b_groups s) i) as [g0|] eqn:N0.
  - specialize (IH i g0 N0). destruct (group_step s a i g0 N0) as (x & X & C). rewrite N in X. injection X as <-.
    destruct C as [->|[(_ & ->)|[(evs & _ & _ & ->)|[(_ & ->)|(-> & -> & _)]]]]; try exact IH.
    + unfold publish. destruct (g_open g0); [|exact IH]. unfold channel_size. destruct (Nat.ltb_spec (length (g_updates g0) - g_taken g0) 100); cbn [g_updates g_taken]; [rewrite app_length; cbn [length]|]; lia.
    + unfold take. destruct (Nat.ltb_spec (g_taken g0) (length (g_updates g0))); cbn [g_updates g_taken]; lia.
  - assert (L : (length (b_groups s) <= i)%nat) by (now apply nth_error_None).
    destruct a as [op|f| | |j|j lo hi st|j id f|j id f|j id|j id|j]; cbn [bstep] in N; try (cbn [set_group b_groups] in N; rewrite update_nth_nth, N0 in N; destruct (Nat.eqb i j); discriminate).
    + cbn [b_groups] in N. congruence.
    + destruct (fetch_same f s) as (_ & _ & E). rewrite E in N. congruence.
    + unfold publish_all in N. destruct (b_batch s); [cbn [b_groups] in N; rewrite nth_error_map, N0 in N; discriminate|congruence].
    + cbn [new_group b_groups] in N. rewrite nth_error_app2 in N by exact L. destruct (i - length (b_groups s))%nat as [|k]; [injection N as <-; cbn; lia|]. destruct k; discriminate.
Qed.

(** C189.  A stream is closed by the server only if its client left, or if 100 updates wait for
    its consumer when another one comes. *)
Theorem C189_only_slow : forall s a i g g', nth_error (b_groups s) i = Some g -> nth_error (b_groups (bstep s a)) i = Some g' -> g_open g = true -> g_open g' = false ->
  a = AStopGroup i \/ (a = APublish /\ (g_taken g + 100 <= length (g_updates g))%nat).
Proof. exact only_slow. Qed.
Print Assumptions C189_only_slow.
(** With fewer waiting it gets the update and stays open. *)
Theorem C189_room : forall s i g evs, nth_error (b_groups s) i = Some g -> g_open g = true -> b_batch s = Some evs -> (length (g_updates g) < g_taken g + 100)%nat ->
  exists g' u, nth_error (b_groups (bstep s APublish)) i = Some g' /\ g_open g' = true /\ g_updates g' = g_updates g ++ [u].
Proof. exact room. Qed.
Print Assumptions C189_room.
(** Never more than 100 wait. *)
Theorem C189_bounded : forall s, breach s -> forall i g, nth_error (b_groups s) i = Some g -> (g_taken g <= length (g_updates g) <= g_taken g + 100)%nat.
Proof. exact bounded. Qed.
Print Assumptions C189_bounded.
(** A stream whose consumer takes nothing: open after 100 polls, closed by the 101st. *)
Fixpoint polls (n : nat) : list action := match n with O => [] | S n => AFetch NoFault :: APublish :: polls n end.
Example C189_nonvacuous : let s := brun (ANewGroup :: polls 100 ++ [AFetch NoFault]) (bstart init_world) in
  breach s /\ b_batch s = Some [] /\
  map (fun g => (length (g_updates g), g_taken g, g_open g)) (b_groups s) = [(100%nat, 0%nat, true)] /\
  map (fun g => (length (g_updates g), g_taken g, g_open g)) (b_groups (bstep s APublish)) = [(100%nat, 0%nat, false)] /\
  map (fun g => (length (g_updates g), g_taken g, g_open g)) (b_groups (bstep (bstep s (ATake 0)) APublish)) = [(101%nat, 1%nat, true)].
Proof.
  cbv zeta. split; [apply (brun_breach _ _ false); [apply breach_start; constructor|vm_compute; reflexivity]|].
  split; [vm_compute; reflexivity|]. split; [vm_compute; reflexivity|]. split; vm_compute; reflexivity.
Qed.
