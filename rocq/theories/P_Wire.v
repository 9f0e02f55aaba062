(** C83, C93 - C99, C113, C137, C214: the watch protocol as the client sees it.
    [sreach s]: [s] is a reachable state of a server with this stream; [s_out s]: the
    messages sent so far, [responses s]: the same as protobuf messages (Wire.v);
    [serve q]: what the server does with request [q]; [slater s s']: [s'] comes later. *)
From Coq Require Import List ZArith Bool Lia.
From Verif Require Import Bytes Spec Sql System Prog Backend Watch Stream Wire GroupLife SpecLemmas SqlLemmas Sim ReadLemmas ProgLemmas ReadProgs WatchLemmas WatchProofs WatchResults WatchWitness StreamProofs StreamCancel StreamMore StreamWitness GroupLifeProofs Observe Demo WireProofs.
Import ListNotations.
Open Scope Z_scope.

(** the stream is between two requests *)
Definition idle (s : sstate) : Prop := s_creating s = None /\ s_closing s = None /\ s_ended s = false.

(** C83.  A create request with an explicit id, in use or not, is never answered; from
    the moment the group's context is seen to be cancelled ([SStop]) no event published
    later reaches any watch of the stream: what is sent is part of what had been
    published ([delivered]) before. *)
Theorem C83_refuted : (forall s g wid lo hi st, sreach s -> group_of s = Some g -> wid <> 0 -> s_creating s = None -> s_closing s = None -> s_ended s = false ->
    let s1 := sstep s (SCreate wid lo hi st) in
    (forall s', slater s1 s' -> exists o, s_out s' = s_out s ++ o /\ forall m, In m o -> exists id, about m id) /\
    (forall s' id, slater (sstep s1 SStop) s' -> exists rest, delivered (g_updates g) id = sent (s_out s') id ++ rest)) /\
  exists s, sreach s /\ In (MCreated 1) (s_out s) /\ idle s /\
    (let writes := SBack (AEnv (AUpdate ka v1 10 0)) :: polled ++ [SRecv; SSend] in
     map ev_rev (sent (s_out (srun writes s)) 1) = [6; 7; 8; 10; 11] /\
     map ev_rev (sent (s_out (srun writes (sstep (sstep s (SCreate 5 kb kc 0)) SStop))) 1) = [6; 7; 8; 10]).
Proof.
  split; [exact explicit_id|].
  exists served. split; [apply scalm_sreach; eapply calm_later_scalm; [exact served_later|exact created_calm]|].
  split; [vm_compute; auto|]. split; [split; [|split]; vm_compute; reflexivity|]. split; vm_compute; reflexivity.
Qed.
Print Assumptions C83_refuted.

(** C93.  Whatever is sent for a watch, its creation was confirmed before. *)
Theorem C93_confirmed_first : forall s o1 m o2 id, sreach s -> s_out s = o1 ++ m :: o2 -> about m id -> id <> invalid_id -> In (MCreated id) o1.
Proof. exact acknowledged_first. Qed.
Print Assumptions C93_confirmed_first.
Example C93_nonvacuous : sreach served /\ exists o1 m o2, s_out served = o1 ++ m :: o2 /\ about m 1 /\ o1 = [MCreated 1].
Proof.
  split; [apply scalm_sreach; eapply calm_later_scalm; [exact served_later|exact created_calm]|].
  eexists [_], _, _. split; [vm_compute; reflexivity|]. split; [reflexivity|vm_compute; reflexivity].
Qed.

(** C168 (part of C94).  A create request begins a wait or is answered at once; the wait ends with one
    answer marked as created, or, if a query failed, as cancelled; undisturbed it ends. *)
Theorem C168_answered : forall s, sreach s ->
  (forall lo hi st, idle s -> exists id,
     (s_creating (sstep s (SCreate 0 lo hi st)) = Some id /\ s_out (sstep s (SCreate 0 lo hi st)) = s_out s) \/
     (s_creating (sstep s (SCreate 0 lo hi st)) = None /\ s_out (sstep s (SCreate 0 lo hi st)) = s_out s ++ [MCreated id])) /\
  (forall id a, s_creating s = Some id -> s_creating (sstep s a) <> Some id ->
     exists m, s_out (sstep s a) = s_out s ++ [m] /\
       (w_created (wire m) = true /\ (w_canceled (wire m) = false -> w_id (wire m) = id) \/ w_canceled (wire m) = true /\ exists f, (a = SCheck f \/ a = SQuery f) /\ f <> NoFault)) /\
  (forall id, s_creating s = Some id -> s_creating (srun [SCheck NoFault; SQuery NoFault; SFinish] s) = None).
Proof.
  intros s H. split; [|split].
  - intros lo hi st (A & B & C). now apply create_begins.
  - intros id a CR N. destruct (create_answered s id a H CR N) as (m & E & D). exists m. split; [exact E|].
    destruct D as [->|[[rev ->]|(f & rev & A & B & ->)]]; [left; split; reflexivity|left; split; [reflexivity|discriminate]|right; split; [reflexivity|]; eauto].
  - intros id CR. exact (create_ends s id H CR).
Qed.
Print Assumptions C168_answered.
Definition waiting : sstate := srun [SCreate 0 ka kd 6; SCheck NoFault] start.
Lemma waiting_reach : sreach waiting.
Proof. apply run_reach. vm_compute. reflexivity. Qed.
Example C94_nonvacuous : sreach served /\ idle served /\ sreach waiting /\ s_creating waiting = Some 1 /\
  s_out (srun [SQuery NoFault; SFinish] waiting) = s_out waiting ++ [MCreated 1] /\
  s_out (srun (creating ka kd 4) start) = s_out start ++ [MCompacted 8].
Proof.
  split; [apply scalm_sreach; eapply calm_later_scalm; [exact served_later|exact created_calm]|].
  split; [split; [|split]; vm_compute; reflexivity|]. split; [exact waiting_reach|]. split; [vm_compute; reflexivity|]. split; vm_compute; reflexivity.
Qed.
(** If a query fails, the answer has neither the created mark nor an id: the client
    cannot take it for the answer to its request. *)
Theorem C94_refuted : exists s a m, sreach s /\ s_creating s = Some 1 /\ s_out (sstep s a) = s_out s ++ [m] /\ s_creating (sstep s a) = None /\
  w_created (wire m) = false /\ w_canceled (wire m) = true /\ w_id (wire m) = 0.
Proof.
  exists waiting, (SQuery (FailBefore EDeadline)), (MUnhealthy 0). split; [exact waiting_reach|].
  split; [vm_compute; reflexivity|]. split; [vm_compute; reflexivity|]. split; [vm_compute; reflexivity|]. split; [|split]; reflexivity.
Qed.
Print Assumptions C94_refuted.

(** C95.  A cancel request is never confirmed: no response says that a watch the client
    knows of is cancelled. *)
Theorem C95_refuted : (forall s r, sreach s -> In r (responses s) -> w_canceled r = true -> ~ In (MCreated (w_id r)) (s_out s)) /\
  exists s, sreach s /\ In (MCreated 1) (s_out s) /\ idle s /\ s_out (srun [serve (QCancel 1); SForget] s) = s_out s.
Proof.
  split.
  - intros s r H I C M. unfold responses in I. apply in_map_iff in I. destruct I as (m & <- & _). apply wire_canceled in C.
    destruct (created_unique s H) as [_ P]. apply P in M. lia.
  - exists served. split; [apply scalm_sreach; eapply calm_later_scalm; [exact served_later|exact created_calm]|].
    split; [vm_compute; auto|]. split; [split; [|split]; vm_compute; reflexivity|]. vm_compute. reflexivity.
Qed.
Print Assumptions C95_refuted.

(** C96.  No response carries a compaction revision, not even the refusal of a watch
    below the floor. *)
Theorem C96_refuted : (forall s r, In r (responses s) -> w_compact r = 0) /\
  exists s m, sreach s /\ s_out s = [m] /\ w_canceled (wire m) = true /\ w_created (wire m) = true /\ w_id (wire m) = invalid_id /\ floor_of (snd (b_world (s_b s))) = 5.
Proof.
  split.
  - intros s r I. unfold responses in I. apply in_map_iff in I. destruct I as (m & <- & _). apply wire_compact.
  - exists (srun (creating ka kd 4) start), (MCompacted 8). split; [apply run_reach; vm_compute; reflexivity|].
    split; [vm_compute; reflexivity|]. split; [reflexivity|]. split; [reflexivity|]. split; [reflexivity|]. vm_compute. reflexivity.
Qed.
Print Assumptions C96_refuted.

(** C97.  What the options of a create request say about the responses of its watch
    other than confirmation and cancellation. *)
Definition honours (q : create_req) (r : response) : Prop :=
  (q_progress_notify q = false -> w_events r <> []) /\
  forall ev, In ev (w_events r) ->
    (q_noput q = true -> ev_delete ev = true) /\
    (q_nodelete q = true -> ev_delete ev = false) /\
    (q_prev_kv q = false -> ev_prev ev = None).
(** a tick, then puts and a delete in the watched range *)
Definition optioned (q : create_req) : sstate :=
  srun ([serve (QCreate q); SCheck NoFault; SQuery NoFault; SFinish; STick; SBack (AEnv (ADelete kb 7))] ++ polled ++ [SRecv; SSend]) start.
(** The options are ignored: two requests that differ only in them are served alike, and
    each of the four options is violated in some run. *)
Theorem C97_refuted : (forall q q', q_id q = q_id q' -> q_key q = q_key q' -> q_end q = q_end q' -> q_start q = q_start q' -> serve (QCreate q) = serve (QCreate q')) /\
  (forall q, q = CreateReq 0 ka kd 6 false false false true false \/ (* no progress notifications *)
             q = CreateReq 0 ka kd 6 true true false true false \/   (* no puts *)
             q = CreateReq 0 ka kd 6 true false true true false \/   (* no deletes *)
             q = CreateReq 0 ka kd 6 true false false false false -> (* no previous values *)
     sreach (optioned q) /\ In (MCreated 1) (s_out (optioned q)) /\
     exists r, In r (responses (optioned q)) /\ w_id r = 1 /\ w_created r = false /\ w_canceled r = false /\ ~ honours q r).
Proof.
  split; [intros q q' A B C D; unfold serve; now rewrite A, B, C, D|].
  intros q [->|[->|[->| ->]]]; (split; [apply run_reach; vm_compute; reflexivity|]); (split; [vm_compute; auto|]).
  - eexists. split; [vm_compute; right; left; reflexivity|]. split; [reflexivity|]. split; [reflexivity|]. split; [reflexivity|]. intros [A _]. exact (A eq_refl eq_refl).
  - eexists. split; [vm_compute; right; right; left; reflexivity|]. split; [reflexivity|]. split; [reflexivity|]. split; [reflexivity|].
    intros [_ A]. cbn [w_events] in A. destruct (A _ (or_introl eq_refl)) as (X & _). discriminate (X eq_refl).
  - eexists. split; [vm_compute; right; right; left; reflexivity|]. split; [reflexivity|]. split; [reflexivity|]. split; [reflexivity|].
    intros [_ A]. cbn [w_events] in A. destruct (A _ (or_intror (or_intror (or_intror (or_introl eq_refl))))) as (_ & X & _). discriminate (X eq_refl).
  - eexists. split; [vm_compute; right; right; left; reflexivity|]. split; [reflexivity|]. split; [reflexivity|]. split; [reflexivity|].
    intros [_ A]. cbn [w_events] in A. destruct (A _ (or_intror (or_intror (or_introl eq_refl)))) as (_ & _ & X). discriminate (X eq_refl).
Qed.
Print Assumptions C97_refuted.

(** C98.  The update channel of a stream is never closed twice nor used after it was
    closed, in any interleaving of publishing, overflow, cancellation and new streams;
    a cancelled stream is removed; a closed one gets nothing more. *)
Theorem C98_no_panic : forall acts, panicked (lrun acts) = false.
Proof. exact never_panics. Qed.
Print Assumptions C98_no_panic.
Theorem C98_removed : forall acts i g, nth_error (ls (lrun acts)) i = Some g -> mutex (lrun acts) = Nobody ->
  exists g', nth_error (ls (lstep (lstep (lrun acts) (LCancel i)) (LAfter i))) i = Some g' /\ l_in g' = false /\ l_closed g' = true.
Proof. exact cancelled_removed. Qed.
Print Assumptions C98_removed.
Theorem C98_closed : forall acts more i g, nth_error (ls (lrun acts)) i = Some g -> l_closed g = true ->
  exists g', nth_error (ls (fold_left lstep more (lrun acts))) i = Some g' /\ l_closed g' = true /\ l_in g' = false /\ (l_buf g' <= l_buf g)%nat.
Proof. exact closed_stays. Qed.
Print Assumptions C98_closed.
(** one stream overflows, another is cancelled while its send is failing *)
Definition two_full : list lact := [LNew; LNew] ++ concat (repeat [LBegin; LSend; LSend; LEnd] 100) ++ [LBegin; LSend; LStop; LSend; LCancel 1; LStop; LEnd].
Example C98_nonvacuous : ls (lrun two_full) = [Life Stopped false true 100; Life Started true false 100] /\ mutex (lrun two_full) = Nobody /\
  ls (lstep (lrun two_full) (LAfter 1)) = [Life Stopped false true 100; Life Finished false true 100].
Proof. split; [|split]; vm_compute; reflexivity. Qed.

(** C113.  When the client is gone the handler can return from whatever state it is in;
    until it has, one of its own steps brings it nearer, and once the channel is closed
    no step sets it back. *)
Theorem C113_returns : forall acts, let h := hrun acts hstart in h_gone h = true ->
  (exists own, returned (hrun own h) = true) /\
  (returned h = false -> exists a, In a [HRecvFails; HTicksEnd; HAfter; HTake; HUpdatesEnd] /\ (left_to_do (hstep h a) < left_to_do h)%nat) /\
  (h_closed h = true -> forall a, h_closed (hstep h a) = true /\ (left_to_do (hstep h a) <= left_to_do h)%nat).
Proof.
  intros acts h G. assert (K : hok h) by (apply hok_run; discriminate). split; [|split].
  - eexists. exact (handler_returns h G K).
  - intros R. exact (handler_progress h G K R).
  - intros C a. exact (handler_no_return h a C).
Qed.
Print Assumptions C113_returns.
Example C113_nonvacuous : let h := hrun [HPublish; HPublish; HGone; HPublish] hstart in h_gone h = true /\ returned h = false /\ left_to_do h = 7%nat.
Proof. split; [|split]; reflexivity. Qed.
(** C99.  But as long as the client is there it never returns, even if the request loop has
    given up or the stream was dropped for slowness: the client gets no error. *)
Theorem C99_refuted : (forall acts, ~ In HGone acts -> returned (hrun acts hstart) = false) /\
  (exists acts, ~ In HGone acts /\ h_requests (hrun acts hstart) = false /\ h_updates (hrun acts hstart) = false).
Proof.
  split; [intros acts N; now apply stays|]. exists [HRefuse; HAfter; HUpdatesEnd]. split; [simpl; intuition discriminate|]. split; reflexivity.
Qed.
Print Assumptions C99_refuted.

(** C214.  A stream whose channel is full when the next updates are published is dropped: whatever anybody does later, nothing
    is put into its channel any more; the goroutine that sends can take what is in it, in as many steps as there
    are updates, and then ends. *)
Theorem C214_dropped : forall acts, let h := hrun acts hstart in h_cancelled h = false -> (channel_size <= h_buf h)%nat ->
  let d := hstep h HOverflow in
  h_buf d = h_buf h /\ (forall more, (h_buf (hrun more d) <= h_buf h)%nat /\ hrun [HPublish] (hrun more d) = hrun more d) /\
  (forall more, h_updates (hrun more d) = true -> h_updates (hrun (repeat HTake (h_buf (hrun more d)) ++ [HUpdatesEnd]) (hrun more d)) = false).
Proof.
  intros acts h C L d. assert (E : d = Handler (h_gone h) (h_cancelled h) true (h_buf h) (h_requests h) (h_updates h) (h_ticks h)) by (apply overflow_closes; auto).
  assert (CL : h_closed d = true) by now rewrite E. assert (B : h_buf d = h_buf h) by now rewrite E. split; [exact B|]. split.
  - intros more. destruct (closed_run more d CL) as [C2 L2]. split; [lia|]. unfold hrun at 1. cbn [fold_left hstep]. now rewrite C2.
  - intros more. apply closed_drains. apply (closed_run more d CL).
Qed.
Print Assumptions C214_dropped.
Example C214_nonvacuous : let h := hrun (repeat HPublish channel_size) hstart in h_cancelled h = false /\ h_buf h = channel_size /\ channel_size = 100%nat /\
  h_updates h = true /\ h_updates (hrun (repeat HTake 100 ++ [HUpdatesEnd]) h) = true /\ h_updates (hrun (HOverflow :: HTake :: HPublish :: repeat HTake 99 ++ [HUpdatesEnd]) h) = false.
Proof. repeat split. Qed.

(** C137.  A create request adds one watch: for the key or range and the start revision
    asked for, with the next number. *)
Theorem C137_asked : forall s g q, sreach s -> group_of s = Some g -> idle s -> q_id q = 0 ->
  exists g' r, group_of (sstep s (serve (QCreate q))) = Some g' /\ g_regs g' = g_regs g ++ [r] /\ r_id r = Z.of_nat (length (g_regs g)) + 1 /\
    (forall k, in_range (r_lo r) (r_hi r) k <-> match q_end q with [] => k = q_key q | e => in_range (q_key q) e k end) /\
    r_start r = q_start q.
Proof. intros s g q _ G (A & B & C) I. exact (request_served s g q G A B C I). Qed.
Print Assumptions C137_asked.
(** No other request and no other step of the stream adds or changes a watch. *)
Theorem C137_only : forall s g a, sreach s -> group_of s = Some g -> (forall x, a <> SBack x) -> (forall wid lo hi st, a <> SCreate wid lo hi st) ->
  exists g', group_of (sstep s a) = Some g' /\ g_regs g' = g_regs g.
Proof. intros s g a _ G NB NC. exact (only_requests s g a G NB NC). Qed.
Print Assumptions C137_only.
Example C137_nonvacuous : sreach served /\ idle served /\ exists g, group_of served = Some g /\ length (g_regs g) = 1%nat /\
  group_of (sstep served (serve (QCreate (CreateReq 0 kb [] 9 false false false false false)))) <> None.
Proof.
  split; [apply scalm_sreach; eapply calm_later_scalm; [exact served_later|exact created_calm]|].
  split; [split; [|split]; vm_compute; reflexivity|]. eexists. split; [vm_compute; reflexivity|]. split; [reflexivity|]. vm_compute. discriminate.
Qed.
