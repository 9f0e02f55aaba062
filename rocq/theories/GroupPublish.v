(** Publishing an update to all watcher groups ends, whatever the streams do, and what it does
    to each of them (watcher.go:216-230). *)
From Coq Require Import List ZArith Bool Arith Lia.
From Verif Require Import Watch WatchLemmas WatchProofs GroupLife GroupLifeProofs.
Import ListNotations.

(** Specification vocabulary (not code): the next step of publishEvents itself (watcher.go:222-230). *)
Definition publisher (h : holder) : lact :=
  match h with
  | Nobody | Publishing [] _ => LEnd
  | Publishing (_ :: _) true => LStop
  | Publishing (_ :: _) false => LSend
  end.
(** Specification vocabulary (not code): a turn: [None] - of publishEvents; [Some a] - of somebody else. *)
Definition turn_of (s : lives) (x : option lact) : lives := lstep s (match x with None => publisher (mutex s) | Some a => a end).
(** Specification vocabulary (not code): the turns publishEvents gets. *)
Definition own_turns (xs : list (option lact)) : nat := length (filter (fun x => match x with None => true | _ => false end) xs).
(** Specification vocabulary (not code): what happens to a group in the map: it gets the update if there is room; if not, it is taken out and
    closed, unless it was cancelled, when the function of watcher.go:276-281 does that. *)
Definition after_update (g : life) : life :=
  if l_in g
  then if (l_buf g <? channel_size)%nat then Life (l_after g) true (l_closed g) (S (l_buf g))
       else match l_after g with Armed => Life Stopped false true (l_buf g) | _ => g end
  else g.

(** Own turns left at most. *)
Definition left_over (h : holder) : nat := match h with Nobody => 0 | Publishing todo full => 2 * length todo + 1 - (if full then 1 else 0) end.
Lemma publisher_moves s : linv s -> mutex s <> Nobody -> (left_over (mutex (lstep s (publisher (mutex s)))) < left_over (mutex s))%nat.
Proof.
  intros (F & T & P) N. destruct s as [l h p]. cbn [mutex] in *. unfold todo_ok in T. cbn [mutex ls] in T. destruct h as [|todo full]; [congruence|].
  destruct T as (ND & IT & E). destruct todo as [|i todo].
  - rewrite (E eq_refl). cbn. lia.
  - destruct (IT i (or_introl eq_refl)) as (g & NG & G). destruct full; cbn [publisher lstep mutex ls]; rewrite NG.
    + destruct (l_after g); cbn; lia.
    + pose proof (sound_nth _ _ _ F NG) as S. assert (C : l_closed g = false) by (unfold sound in S; destruct (l_after g); destruct S; congruence). rewrite C.
      destruct (l_buf g <? channel_size)%nat; cbn; lia.
Qed.
Lemma others_wait s a : mutex s <> Nobody -> mutex (lstep s a) = mutex s \/ a = publisher (mutex s).
Proof.
  intros N. destruct s as [l h p]. cbn [mutex] in *. destruct h as [|todo full]; [congruence|]. destruct a; cbn [lstep mutex ls]; auto.
  - destruct (nth_error l i) as [g|]; auto. destruct (l_after g); auto.
  - destruct todo as [|i todo]; auto. destruct full; auto.
  - destruct todo as [|i todo]; auto. destruct full; auto.
  - destruct todo as [|i todo]; auto.
Qed.
Lemma turn_left s x : linv s -> mutex s <> Nobody -> (left_over (mutex (turn_of s x)) <= left_over (mutex s) - match x with None => 1 | Some _ => 0 end)%nat.
Proof.
  intros H N. destruct x as [a|]; cbn [turn_of].
  - unfold turn_of. destruct (others_wait s a N) as [->| ->]; [lia|]. pose proof (publisher_moves s H N). lia.
  - unfold turn_of. pose proof (publisher_moves s H N). lia.
Qed.
Lemma runs_out xs : forall s, linv s -> mutex s <> Nobody -> (left_over (mutex s) <= own_turns xs)%nat ->
  exists ys zs, xs = ys ++ zs /\ mutex (fold_left turn_of ys s) = Nobody.
Proof.
  induction xs as [|x xs IH]; intros s H N L.
  - exfalso. destruct H as (_ & T & _). unfold todo_ok in T. destruct (mutex s) as [|todo full]; [congruence|]. destruct T as (_ & _ & E). unfold own_turns in L. cbn in L.
    destruct todo; [rewrite (E eq_refl) in L; cbn in L; lia|]. destruct full; cbn in L; lia.
  - pose proof (turn_left s x H N) as TL. assert (H' : linv (turn_of s x)) by (apply linv_step; exact H).
    destruct (mutex (turn_of s x)) as [|todo full] eqn:M.
    + exists [x], xs. split; [reflexivity|exact M].
    + destruct (IH (turn_of s x) H') as (ys & zs & -> & E); [congruence| |].
      * rewrite M. unfold own_turns in *. cbn [filter length] in L. destruct x; cbn [length] in L; lia.
      * exists (x :: ys), zs. split; [reflexivity|exact E].
Qed.
Lemma publishing_bound acts todo full : mutex (lrun acts) = Publishing todo full -> (length todo <= length (ls (lrun acts)))%nat.
Proof.
  intros M. destruct (linv_run acts) as (_ & T & _). unfold todo_ok in T. rewrite M in T. destruct T as (ND & IT & _).
  rewrite <- (seq_length (length (ls (lrun acts))) 0). apply NoDup_incl_length; [exact ND|]. intros i I. destruct (IT i I) as (g & NG & _).
  apply in_seq. assert (i < length (ls (lrun acts)))%nat by (apply nth_error_Some; congruence). lia.
Qed.
Lemma publishing_ends acts xs : mutex (lrun acts) <> Nobody -> (2 * length (ls (lrun acts)) + 1 <= own_turns xs)%nat ->
  exists ys zs, xs = ys ++ zs /\ mutex (fold_left turn_of ys (lrun acts)) = Nobody.
Proof.
  intros N L. apply runs_out; [apply linv_run|exact N|]. destruct (mutex (lrun acts)) as [|todo full] eqn:M; [congruence|].
  pose proof (publishing_bound acts todo full M). cbn. lia.
Qed.

(** ---- the effect ---- *)
Lemma upd_ext {A} (f : A -> A) : forall i l x, nth_error l i = Some x -> f x = x -> update_nth i f l = l.
Proof. induction i as [|i IH]; intros [|y l] x N E; cbn in *; try discriminate; [injection N as ->; now rewrite E|f_equal; eauto]. Qed.
Lemma publish_rest todo : forall s, linv s -> mutex s = Publishing todo false -> 
  exists n, let s' := fold_left turn_of (repeat None n) s in mutex s' = Nobody /\
    forall i, nth_error (ls s') i = option_map (if existsb (Nat.eqb i) todo then after_update else (fun g => g)) (nth_error (ls s) i).
Proof.
  induction todo as [|i todo IH]; intros s H M.
  - exists 1%nat. cbn [repeat fold_left]. unfold turn_of. rewrite M. destruct s as [l h p]. cbn [mutex] in M. subst h. cbn. split; [reflexivity|]. intros i. destruct (nth_error l i); reflexivity.
  - pose proof H as HH. destruct H as (F & T & P). unfold todo_ok in T. rewrite M in T. destruct T as (ND & IT & _). inversion ND as [|? ? NI ND']; subst.
    destruct (IT i (or_introl eq_refl)) as (g & NG & G). pose proof (sound_nth _ _ _ F NG) as S.
    assert (C : l_closed g = false) by (unfold sound in S; destruct (l_after g); destruct S; congruence).
    assert (ST : exists n s1, fold_left turn_of (repeat None n) s = s1 /\ linv s1 /\ mutex s1 = Publishing todo false /\ forall j, nth_error (ls s1) j = option_map (if Nat.eqb j i then after_update else (fun g => g)) (nth_error (ls s) j)).
    { destruct s as [l h p]. cbn [mutex ls] in *. subst h. destruct (l_buf g <? channel_size)%nat eqn:B.
      - exists 1%nat. eexists. split; [reflexivity|]. split; [apply linv_step; exact HH|]. cbn [repeat fold_left]. unfold turn_of. cbn [mutex publisher lstep ls]. rewrite NG, C, B.
        cbn [mutex ls]. split; [reflexivity|]. intros j. rewrite upd_nth. destruct (Nat.eqb_spec j i) as [->|]; [|reflexivity]. rewrite NG. cbn [option_map]. unfold after_update. now rewrite G, B, ?C.
      - assert (E1 : turn_of (Lives l (Publishing (i :: todo) false) p) None = Lives l (Publishing (i :: todo) true) p) by (unfold turn_of; cbn [mutex publisher lstep ls]; now rewrite NG, C, B).
        exists 2%nat, (turn_of (Lives l (Publishing (i :: todo) true) p) None). split; [cbn [repeat fold_left]; now rewrite E1|].
        split; [apply linv_step; rewrite <- E1; apply linv_step; exact HH|]. unfold turn_of. cbn [mutex publisher lstep ls]. rewrite NG.
        destruct (l_after g) eqn:A; cbn [mutex ls]; (split; [reflexivity|]); intros j; try rewrite upd_nth; destruct (Nat.eqb_spec j i) as [->|]; auto; rewrite ?NG; cbn [option_map]; unfold after_update; rewrite ?G, ?B, ?A; try reflexivity;
          destruct (nth_error l j); reflexivity. }
    destruct ST as (n & s1 & E1 & H1 & M1 & U1). destruct (IH s1 H1 M1) as (n2 & M2 & U2). exists (n + n2)%nat. cbv zeta. rewrite repeat_app, fold_left_app, E1. split; [exact M2|].
    intros j. rewrite U2, U1. cbn [existsb]. destruct (Nat.eqb_spec j i) as [->|D].
    + cbn [orb]. assert (X : existsb (Nat.eqb i) todo = false). { apply Bool.not_true_is_false. intros X. apply existsb_exists in X. destruct X as (y & Y & E). apply Nat.eqb_eq in E. subst y. contradiction. }
      rewrite X. destruct (nth_error (ls s) i); reflexivity.
    + cbn [orb]. destruct (existsb (Nat.eqb j) todo); destruct (nth_error (ls s) j); reflexivity.
Qed.
Lemma nth_ext {A} : forall l l' : list A, (forall i, nth_error l i = nth_error l' i) -> l = l'.
Proof.
  induction l as [|x l IH]; intros [|y l'] H; auto; [discriminate (H 0%nat)|discriminate (H 0%nat)|]. f_equal; [specialize (H 0%nat); cbn in H; congruence|].
  apply IH. intros i. exact (H (S i)).
Qed.
Lemma publish_effect acts : mutex (lrun acts) = Nobody ->
  exists n, let s' := fold_left turn_of (Some LBegin :: repeat None n) (lrun acts) in
    mutex s' = Nobody /\ ls s' = map after_update (ls (lrun acts)).
Proof.
  intros M. set (s := lrun acts) in *. assert (H : linv s) by apply linv_run.
  assert (H1 : linv (turn_of s (Some LBegin))) by (apply linv_step; exact H).
  assert (M1 : mutex (turn_of s (Some LBegin)) = Publishing (in_map 0 (ls s)) false) by (unfold turn_of; cbn [lstep]; rewrite M; reflexivity).
  assert (L1 : ls (turn_of s (Some LBegin)) = ls s) by (unfold turn_of; cbn [lstep]; rewrite M; reflexivity).
  destruct (publish_rest _ _ H1 M1) as (n & M2 & U). exists n. cbv zeta. cbn [fold_left]. split; [exact M2|].
  apply nth_ext. intros i. rewrite U, L1, nth_error_map. destruct (nth_error (ls s) i) as [g|] eqn:N; [|reflexivity]. cbn [option_map].
  destruct (existsb (Nat.eqb i) (in_map 0 (ls s))) eqn:E; [reflexivity|]. f_equal. unfold after_update. destruct (l_in g) eqn:G; [|reflexivity]. exfalso.
  assert (X : In i (in_map 0 (ls s))) by (apply in_map_spec; exists g; rewrite Nat.sub_0_r; auto with arith).
  assert (Y : existsb (Nat.eqb i) (in_map 0 (ls s)) = true) by (apply existsb_exists; exists i; split; [exact X|apply Nat.eqb_refl]). congruence.
Qed.
