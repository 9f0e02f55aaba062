(** Concrete runs of the expiry goroutine. *)
From Coq Require Import List ZArith Bool Lia Sorting.Sorted.
From Verif Require Import Bytes Spec Sql System Prog Backend Watch SpecLemmas SqlLemmas Sim ReadLemmas ProgLemmas ReadProgs WatchLemmas WatchProofs WatchResults WatchWitness Observe Demo Ttl TtlProofs TtlLive.
Import ListNotations.
Open Scope Z_scope.
Local Notation hist s := (history_of (snd (b_world (t_b s)))).

Definition trun (acts : list taction) (s : tstate) : tstate := fold_left tstep acts s.
Definition tpossibleb (s : tstate) (a : taction) : bool := match a with TBack a => possibleb (t_b s) a | _ => true end.
Definition tcalmb (s : tstate) (a : taction) : bool :=
  match a with
  | TBack a => calmb (t_b s) a
  | TList f => match f with CutRows _ _ => false | _ => true end
  | TQuery f => match t_phase s with TPWatching _ i => calmb (t_b s) (AQuery i 1 f) | _ => true end
  | _ => true
  end.
Fixpoint trun_ok (calm_too : bool) (s : tstate) (acts : list taction) : bool :=
  match acts with
  | [] => true
  | a :: rest => tpossibleb s a && (negb calm_too || tcalmb s a) && trun_ok calm_too (tstep s a) rest
  end.
Lemma trun_reach acts : forall s c, treach s -> trun_ok c s acts = true -> treach (trun acts s).
Proof.
  induction acts as [|a acts IH]; simpl; auto. intros s c H. rewrite !andb_true_iff. intros [[A _] B].
  apply (IH _ c); auto. apply treach_step; auto. destruct a; simpl in *; auto using possibleb_ok.
Qed.
Lemma tcalmb_ok s a : tcalmb s a = true -> tcalm_step s a.
Proof.
  destruct a; simpl; auto using calmb_ok.
  - destruct f; simpl; auto; discriminate.
  - destruct (t_phase s); auto. intros H. now apply (calmb_ok _ (AQuery i 1 f)).
Qed.
Lemma trun_calm acts : forall s, tcalm s -> trun_ok true s acts = true -> tcalm (trun acts s).
Proof.
  induction acts as [|a acts IH]; simpl; auto. intros s H. rewrite !andb_true_iff. intros [[A A'] B].
  apply IH; auto. apply tcalm_next; auto; [destruct a; simpl in *; auto using possibleb_ok|now apply tcalmb_ok].
Qed.

(** started at time 0 on the demo store: key b has lease 30 (revision 7) *)
Definition ttl0 : tstate := TState (bstart demo) 0 (repeat 0 8) TPRev [] None.
Lemma ttl0_calm : tcalm ttl0.
Proof. apply tcalm_start; [apply calm_start, demo_reach|vm_compute; reflexivity|repeat constructor; lia]. Qed.
Lemma ttl0_reach : treach ttl0.
Proof. apply tcalm_treach, ttl0_calm. Qed.
Definition ttl_up : list taction := [TRev NoFault; TList NoFault; TGroup; TWatch; TCheck NoFault; TQuery NoFault; TFinish].
Definition ttl_poll : list taction := [TBack (AFetch NoFault); TBack APublish; TRecv []].
(** key "\255" *)
Definition kff : bytes := [255%N].
Definition ttl1 : tstate := trun (ttl_up ++ [TBack (AEnv (ACreate kd v1 10)); TTime second; TBack (AEnv (ACreate kff v1 10))] ++ ttl_poll) ttl0.
Lemma ttl1_calm : tcalm ttl1.
Proof. apply trun_calm; [apply ttl0_calm|]. vm_compute. reflexivity. Qed.
Lemma ttl1_facts : map (fun t => (tm_key t, tm_rev t, tm_lease t, tm_due t)) (t_timers ttl1) = [(kb, 7, 30, 30 * second); (kb, 7, 30, 31 * second); (kd, 9, 10, 11 * second)] /\
  t_ack ttl1 = Some 0%nat /\ t_phase ttl1 = TPLoop 8 0 /\
  now (hist ttl1) kb = Some (KV kb v3 30 7 7) /\ now (hist ttl1) kd = Some (KV kd v1 10 9 9) /\ now (hist ttl1) kff = Some (KV kff v1 10 10 10) /\
  exists g u, nth_error (b_groups (t_b ttl1)) 0 = Some g /\ g_taken g = 1%nat /\ nth_error (g_updates g) 0 = Some u /\ u_rev u = 10.
Proof.
  split; [vm_compute; reflexivity|]. split; [vm_compute; reflexivity|]. split; [vm_compute; reflexivity|]. split; [vm_compute; reflexivity|].
  split; [vm_compute; reflexivity|]. split; [vm_compute; reflexivity|].
  eexists _, _. split; [vm_compute; reflexivity|]. split; [vm_compute; reflexivity|]. split; vm_compute; reflexivity.
Qed.

(** half a minute later *)
Definition ttl2 : tstate := trun [TTime (60 * second)] ttl1.
Lemma ttl2_reach : treach ttl2.
Proof. apply (trun_reach _ _ true); [apply tcalm_treach, ttl1_calm|]. vm_compute. reflexivity. Qed.
(** meanwhile d was updated *)
Definition ttl3 : tstate := trun [TBack (AEnv (AUpdate kd v2 9 10))] ttl2.
Lemma ttl3_reach : treach ttl3.
Proof. apply (trun_reach _ _ true); [apply ttl2_reach|]. vm_compute. reflexivity. Qed.

(** the Watch call's second query fails once, everything else works *)
Definition ttl_bad : tstate := trun ([TRev NoFault; TList NoFault; TGroup; TWatch; TCheck NoFault; TQuery (FailBefore EBusy)] ++
  [TBack (AEnv (ACreate kd v1 10))] ++ ttl_poll) ttl0.
Lemma ttl_bad_calm : tcalm ttl_bad.
Proof. apply trun_calm; [apply ttl0_calm|]. vm_compute. reflexivity. Qed.

(** a lease of 292 years *)
Definition long : Z := 9223372037.
Definition ttl_long : tstate := trun [TBack (AEnv (ACreate kd v1 long)); TRev NoFault; TList NoFault] ttl0.
Lemma ttl_long_reach : treach ttl_long.
Proof. apply (trun_reach _ _ false); [apply ttl0_reach|]. vm_compute. reflexivity. Qed.
(** a negative lease *)
Definition ttl_neg : tstate := trun [TBack (AEnv (ACreate kd v1 (-5))); TRev NoFault; TList NoFault] ttl0.
Lemma ttl_neg_reach : treach ttl_neg.
Proof. apply (trun_reach _ _ false); [apply ttl0_reach|]. vm_compute. reflexivity. Qed.
Lemma ttl1_keys : map tm_key (t_timers ttl1) = [kb; kb; kd].
Proof. vm_compute. reflexivity. Qed.
Lemma ttl_bad_keys : map tm_key (t_timers ttl_bad) = [kb].
Proof. vm_compute. reflexivity. Qed.
