(** Concrete runs of watch streams. *)
From Coq Require Import List ZArith Bool Lia Sorting.Sorted.
From Verif Require Import Bytes Spec Sql System Prog Backend Watch Stream SpecLemmas SqlLemmas Sim ReadLemmas ProgLemmas ReadProgs WatchLemmas WatchProofs WatchResults WatchWitness StreamProofs StreamCancel Observe Demo.
Import ListNotations.
Open Scope Z_scope.

Definition back_okb (s : sstate) (a : saction) (ok : bstate -> action -> bool) : bool :=
  match a with
  | SBack a => ok (s_b s) a
  | SQuery f => match s_creating s with Some id => ok (s_b s) (AQuery (s_i s) id f) | None => true end
  | _ => true
  end.
Lemma back_okb_ok s a okb (ok : bstate -> action -> Prop) : (forall b x, okb b x = true -> ok b x) -> back_okb s a okb = true -> back_ok s a ok.
Proof. intros H. destruct a; simpl; auto. destruct (s_creating s); auto. Qed.
Fixpoint srun_ok (calm_too : bool) (s : sstate) (acts : list saction) : bool :=
  match acts with
  | [] => true
  | a :: rest => back_okb s a possibleb && (negb calm_too || back_okb s a calmb) && srun_ok calm_too (sstep s a) rest
  end.
Lemma srun_later acts : forall s s0, slater s0 s -> srun_ok false s acts = true -> slater s0 (srun acts s).
Proof.
  induction acts as [|a acts IH]; simpl; auto. intros s s0 L. rewrite !andb_true_iff. intros [[A _] B].
  apply IH; auto. apply slater_step; auto. eapply back_okb_ok; [apply possibleb_ok|exact A].
Qed.
Lemma srun_calm_later acts : forall s s0, calm_later s0 s -> srun_ok true s acts = true -> calm_later s0 (srun acts s).
Proof.
  induction acts as [|a acts IH]; simpl; auto. intros s s0 L. rewrite !andb_true_iff. intros [[A A'] B].
  apply IH; auto. apply calm_later_step; auto; [exact (back_okb_ok s a _ _ possibleb_ok A)|exact (back_okb_ok s a _ _ calmb_ok A')].
Qed.
Definition start : sstate := sopen (bstart demo).
Lemma start_calm : scalm start.
Proof. apply scalm_open, calm_start, demo_reach. Qed.
Lemma run_calm acts : srun_ok true start acts = true -> scalm (srun acts start).
Proof. intros H. eapply calm_later_scalm; [apply srun_calm_later; [apply calm_later_refl|exact H]|apply start_calm]. Qed.
Lemma run_reach acts : srun_ok false start acts = true -> sreach (srun acts start).
Proof. intros H. eapply slater_sreach; [apply srun_later; [apply slater_refl|exact H]|apply scalm_sreach, start_calm]. Qed.

Definition creating (lo hi : bytes) (rev : Z) : list saction := [SCreate 0 lo hi rev; SCheck NoFault; SQuery NoFault; SFinish].
Definition polled : list saction := [SBack (AFetch NoFault); SBack APublish].

(** a watch, some rounds, a write *)
Definition created_acts : list saction := creating ka kd 6.
Definition created_run : sstate := srun created_acts start.
Definition more_acts : list saction := polled ++ [SRecv; SSend; SBack (AEnv (ACreate kd v1 0)); SBack (AEnv (AUpdate ka v3 4 0))] ++ polled ++ [SRecv; SSend; SProgressReq].
Definition served : sstate := srun more_acts created_run.
Lemma created_calm : scalm created_run.
Proof. apply run_calm. vm_compute. reflexivity. Qed.
Lemma served_later : calm_later created_run served.
Proof. apply srun_calm_later; [apply calm_later_refl|]. vm_compute. reflexivity. Qed.
Lemma served_facts :
  s_hold served = None /\ s_out (sstep served SProgressReq) = s_out served ++ [MProgress 10 (-1)] /\
  map ev_rev (sent (s_out served) 1) = [6; 7; 8; 10] /\ s_rev served = 10 /\ s_creating served = None /\ s_closing served = None /\ s_ended served = false /\
  revision (history_of (snd (b_world (s_b served)))) = 10.
Proof. vmcs. Qed.
Lemma served_group : exists g r g', group_of created_run = Some g /\ In r (g_regs g) /\ r_id r = 1 /\ begins r = 5 /\ In (MCreated 1) (s_out created_run) /\
  group_of served = Some g' /\ g_cancelled g' = [] /\ length (g_updates g) = 0%nat /\ g_taken g' = 2%nat.
Proof. do 3 eexists. split; [vm_compute; reflexivity|]. vmcs. Qed.

(** progress between receiving an update and sending it *)
Definition early : sstate := srun (created_acts ++ polled ++ [SRecv]) start.
Lemma early_reach : sreach early.
Proof. apply run_reach. vm_compute. reflexivity. Qed.
Lemma early_facts : In (MCreated 1) (s_out early) /\ sent (s_out early) 1 = [] /\ s_out (sstep early STick) = s_out early ++ [MProgress 8 1] /\
  map ev_rev (sent (s_out (sstep (sstep early STick) SSend)) 1) = [6; 7; 8].
Proof. vmcs. Qed.
(** progress before the backlog of a new watch was sent *)
Definition backlog : sstate := srun (creating kd [101%N] 0 ++ polled ++ [SRecv; SSend] ++ creating ka kd 6) start.
Lemma backlog_reach : sreach backlog.
Proof. apply run_reach. vm_compute. reflexivity. Qed.
Lemma backlog_facts : In (MCreated 2) (s_out backlog) /\ sent (s_out backlog) 2 = [] /\ s_hold backlog = None /\
  s_out (sstep backlog SProgressReq) = s_out backlog ++ [MProgress 8 (-1)] /\
  map ev_rev (sent (s_out (srun (polled ++ [SRecv; SSend]) (sstep backlog SProgressReq))) 2) = [6; 7; 8].
Proof. split; [vm_compute; tauto|]. vmcs. Qed.

(** a slow consumer *)
Definition slow_acts : list saction := created_acts ++ concat (repeat polled 101) ++ concat (repeat [SRecv; SSend] 101).
Definition slow : sstate := srun slow_acts start.
Lemma slow_calm : scalm slow.
Proof. apply run_calm. vm_compute. reflexivity. Qed.
Definition slow_more : list saction := [SBack (AEnv (AUpdate ka v3 4 0))] ++ concat (repeat polled 3) ++ [SRecv; SSend] ++ creating ka kd 0.
Lemma slow_later : slater slow (srun slow_more slow).
Proof. apply srun_later; [apply slater_refl|]. vm_compute. reflexivity. Qed.
Lemma slow_facts : s_done slow = true /\ s_hold slow = None /\ s_ended slow = false /\ In (MCreated 1) (s_out slow) /\
  map ev_rev (sent (s_out slow) 1) = [6; 7; 8] /\
  s_ended (srun slow_more slow) = false /\ In (MCreated 2) (s_out (srun slow_more slow)) /\
  b_poll (s_b (srun slow_more slow)) = 9 /\ nth_error (history_of (snd (b_world (s_b (srun slow_more slow))))) 8 = Some (Entry ka (Put v3 0)) /\
  map ev_rev (sent (s_out (srun slow_more slow)) 1) = [6; 7; 8].
Proof. split; [vmc|]. split; [vmc|]. split; [vmc|]. split; [vm_compute; auto|]. split; [vmc|]. split; [vmc|]. split; [vm_compute; tauto|]. vmcs. Qed.

(** an explicit watch id *)
Definition explicit : sstate := sstep served (SCreate 5 ka kb 0).
