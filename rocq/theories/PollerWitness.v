(** Concrete runs of the poll loop. *)
From Coq Require Import List ZArith Bool Lia Arith.
From Verif Require Import Bytes Spec Sql System Prog Backend Watch Poller FairWatch Demo WatchWitness.
From Verif Require Import Watch Poller.
Import ListNotations.
Open Scope Z_scope.

Definition lokb (s : lstate) (x : laction) : bool :=
  match x with
  | LBack a => possibleb (l_b s) a && calmb (l_b s) a
  | LWrite op => allowedb (snd (b_world (l_b s))) op
  | LLoop _ _ => negb (at_query s) || keptb (snd (b_world (l_b s))) (b_poll (l_b s))
  | LCancel => false
  | _ => true
  end.
Lemma lokb_ok s x : lokb s x = true -> lpossible s x /\ lcalm s x /\ x <> LCancel.
Proof.
  destruct x as [a|op|n| | |c f]; cbn [lokb lpossible lcalm]; intros H; try discriminate; try (repeat split; congruence).
  - apply andb_true_iff in H. destruct H. split; [now apply possibleb_ok|]. split; [now apply calmb_ok|congruence].
  - split; [now apply allowedb_ok|]. split; [exact Logic.I|congruence].
  - split; [exact Logic.I|]. split; [|congruence]. intros Q. rewrite Q in H. apply keptb_ok. exact H.
Qed.
Fixpoint runb (s : lstate) (xs : list laction) : bool :=
  match xs with [] => true | x :: rest => lokb s x && runb (lstep s x) rest end.
Definition then_ (xs : list laction) (f : nat -> laction) (t : nat) : laction :=
  if (t <? length xs)%nat then nth t xs LTick else f (t - length xs)%nat.
Lemma lat_prefix w xs f t : (t <= length xs)%nat -> lat w (then_ xs f) t = lrun (firstn t xs) (lstart w).
Proof.
  induction t as [|t IH]; intros L; [reflexivity|]. cbn [lat]. rewrite IH by lia. unfold then_ at 1. destruct (Nat.ltb_spec t (length xs)) as [K|K]; [|lia].
  unfold lrun. rewrite <- (firstn_skipn t xs) at 3. destruct (skipn t xs) as [|y ys] eqn:E.
  { apply (f_equal (@length _)) in E. rewrite skipn_length in E. cbn in E. lia. }
  rewrite firstn_app, firstn_firstn, Nat.min_r, firstn_length_le by lia. replace (S t - t)%nat with 1%nat by lia. cbn [firstn]. rewrite fold_left_app. cbn [fold_left].
  f_equal. rewrite <- (firstn_skipn t xs), E at 1. rewrite app_nth2; rewrite firstn_length_le; try lia. now rewrite Nat.sub_diag.
Qed.
Lemma lat_end w xs f : lat w (then_ xs f) (length xs) = lrun xs (lstart w).
Proof. rewrite lat_prefix by lia. now rewrite firstn_all. Qed.
Lemma runb_at xs : forall s t, runb s xs = true -> (t < length xs)%nat -> lokb (lrun (firstn t xs) s) (nth t xs LTick) = true.
Proof.
  induction xs as [|x xs IH]; intros s t H L; cbn in L; [lia|]. cbn [runb] in H. apply andb_true_iff in H. destruct H as [A B].
  destruct t as [|t]; [exact A|]. cbn [firstn nth]. change (lrun (x :: firstn t xs) s) with (lrun (firstn t xs) (lstep s x)). apply IH; [exact B|lia].
Qed.
(** after the prefix only steps that are fine *)
Lemma then_ok w xs f : runb (lstart w) xs = true -> (forall k, lokb (lat w (then_ xs f) (length xs + k)) (f k) = true) ->
  forall t, lokb (lat w (then_ xs f) t) (then_ xs f t) = true.
Proof.
  intros A B t. destruct (Nat.lt_ge_cases t (length xs)) as [L|L].
  - rewrite lat_prefix by lia. unfold then_. destruct (Nat.ltb_spec t (length xs)); [|lia]. now apply runb_at.
  - replace t with (length xs + (t - length xs))%nat at 1 by lia. unfold then_ at 2. destruct (Nat.ltb_spec t (length xs)); [lia|]. apply B.
Qed.
Lemma then_after xs f k : then_ xs f (length xs + k) = f k.
Proof. unfold then_. destruct (Nat.ltb_spec (length xs + k) (length xs)); [lia|]. f_equal. lia. Qed.

(** the loop only looks into the channel, forever *)
Definition looks (k : nat) : laction := LLoop BNotify NoFault.
Lemma looks_fix w xs : lstep (lrun xs (lstart w)) (LLoop BNotify NoFault) = lrun xs (lstart w) ->
  forall k, lat w (then_ xs looks) (length xs + k) = lrun xs (lstart w).
Proof.
  intros F k. induction k as [|k IH]; [rewrite Nat.add_0_r; apply lat_end|]. rewrite Nat.add_succ_r. cbn [lat]. rewrite IH, then_after. exact F.
Qed.
Lemma looks_again xs t : exists t' f, (t <= t')%nat /\ then_ xs looks t' = LLoop BNotify f.
Proof. exists (length xs + t)%nat, NoFault. split; [lia|]. apply then_after. Qed.
Definition quiet_end (s : lstate) : bool := negb (at_query s) && match b_batch (l_b s) with None => true | _ => false end && match l_notify s with [] => true | _ => false end.
Lemma quiet_end_fix s : quiet_end s = true -> lstep s (LLoop BNotify NoFault) = s.
Proof.
  unfold quiet_end. rewrite !andb_true_iff, negb_true_iff. intros [[Q B] N]. cbn [lstep]. unfold loop. destruct (b_dead (l_b s)); [reflexivity|]. destruct (b_batch (l_b s)); [discriminate|].
  rewrite Q. cbn [select]. destruct (l_notify s); [reflexivity|discriminate].
Qed.
Lemma looks_ok w xs : runb (lstart w) xs = true -> quiet_end (lrun xs (lstart w)) = true ->
  (forall k, lat w (then_ xs looks) (length xs + k) = lrun xs (lstart w)) /\
  (forall t, lpossible (lat w (then_ xs looks) t) (then_ xs looks t)) /\ (forall t, lcalm (lat w (then_ xs looks) t) (then_ xs looks t)) /\ (forall t, then_ xs looks t <> LCancel).
Proof.
  intros A Q. pose proof (looks_fix w xs (quiet_end_fix _ Q)) as F. split; [exact F|].
  assert (B : forall t, lokb (lat w (then_ xs looks) t) (then_ xs looks t) = true).
  { apply then_ok; [exact A|]. intros k. rewrite F. unfold quiet_end in Q. rewrite !andb_true_iff in Q. cbn [looks lokb]. destruct Q as [[-> _] _]. reflexivity. }
  split; [|split]; intros t; destruct (lokb_ok _ _ (B t)) as (X & Y & Z); assumption.
Qed.
Lemma looks_faults xs t c f : forallb (fun x => match x with LLoop _ NoFault => true | LLoop _ _ => false | _ => true end) (skipn t xs) = true -> forall t', (t <= t')%nat -> then_ xs looks t' = LLoop c f -> f = NoFault.
Proof.
  intros H t' L E. unfold then_ in E. destruct (Nat.ltb_spec t' (length xs)) as [K|K]; [|unfold looks in E; congruence].
  assert (I : In (LLoop c f) (skipn t xs)).
  { rewrite <- E. replace (nth t' xs LTick) with (nth (t' - t) (skipn t xs) LTick); [apply nth_In; rewrite skipn_length; lia|].
    rewrite <- (firstn_skipn t xs) at 2. rewrite app_nth2; rewrite firstn_length_le by lia; [reflexivity|lia]. }
  rewrite forallb_forall in H. specialize (H _ I). destruct f; (reflexivity || discriminate H).
Qed.

(** C184: a watch, a write with its notification, and the loop looks. *)
Definition told : list laction :=
  [LBack ANewGroup; LBack (AWatch 0 ka kd 1); LBack (ACheck 0 1 NoFault); LBack (AQuery 0 1 NoFault); LBack (AFinish 0 1);
   LWrite (ACreate ka v1 0); LSend 0; looks 0; looks 0; looks 0].
Definition told_end : lstate := Eval vm_compute in lrun told (lstart init_world).

(** 100 writes, all noticed because of a tick; the notification of one more finds the channel full. *)
Fixpoint writes (n : nat) (rev : Z) : list laction :=
  match n with O => [] | S n => LWrite (AUpdate ka v1 rev 0) :: LSend 0 :: writes n (rev + 1) end.
Definition crowded : list laction :=
  [LWrite (ACreate ka v1 0); LSend 0] ++ writes 99 1 ++ [LTick; LLoop BTick NoFault] ++ repeat (looks 0) 4.
Definition dropped : list laction := crowded ++ [LWrite (ACreate kb v2 0); LSend 0] ++ repeat (looks 0) 100.
(** A write; the query it causes fails. *)
Definition failed : list laction := [LWrite (ACreate ka v1 0); LSend 0; looks 0; LLoop BNotify (FailBefore EOther)].
(** 100 writes elsewhere; after them the poller does not wait for more. *)
Fixpoint others (n : nat) (rev : Z) : list laction :=
  match n with O => [] | S n => LBack (AEnv (AUpdate ka v1 rev 0)) :: others n (rev + 1) end.
Definition hurried : list laction := [LBack (AEnv (ACreate ka v1 0))] ++ others 99 1 ++ [LTick; LLoop BTick NoFault; looks 0; looks 0].
