(** The instrumented listener of pkg/instrument/dqlite.go (Metered.v). *)
From Coq Require Import List ZArith Bool Lia.
From Verif Require Import Metered MeteredProofs.
Import ListNotations.
Open Scope list_scope.
Open Scope nat_scope.

(** * C217: accepted connections *)
(** What the application receives is, in every run, among the connections that clients made, in their order, each at most
    once. *)
Theorem C217_in_order : forall l, subseq (l_out (lrun l)) (made new_listener l).
Proof. exact in_order_proof. Qed.
Print Assumptions C217_in_order.
(** As long as nobody calls Close or cancels the context, nothing is dropped: what was received, at most one connection
    in the goroutine's hands, and what still waits in the kernel are all that were made. *)
Theorem C217_all_kept : forall l,
  forallb (fun a => negb (closes a || cancels a)) l = true ->
  l_lost (lrun l) = [] /\ l_panic (lrun l) = false /\
  exists h, length h <= 1 /\ l_out (lrun l) ++ h ++ l_waiting (lrun l) = made new_listener l.
Proof. exact all_kept_proof. Qed.
Print Assumptions C217_all_kept.
(** If Accept has not failed either, then enough turns of the goroutine and of a receiving application deliver all. *)
Theorem C217_delivered : forall l,
  forallb (fun a => negb (closes a || cancels a)) l = true ->
  existsb (fun a => match a with LAccept true => true | _ => false end) l = false ->
  exists n, l_out (lrun (l ++ concat (repeat [LLook; LReceive; LAccept false] n))) = made new_listener l.
Proof. exact delivered_proof. Qed.
Print Assumptions C217_delivered.
Definition three : list laction :=
  [LListen true; LConnect 7; LConnect 8; LAccept false; LLook; LConnect 9; LReceive; LAccept false].
Example three_meets :
  forallb (fun a => negb (closes a || cancels a)) three = true /\
  existsb (fun a => match a with LAccept true => true | _ => false end) three = false /\
  made new_listener three = [7; 8; 9] /\ l_out (lrun three) = [7] /\ l_waiting (lrun three) = [9] /\
  l_out (lrun (three ++ concat (repeat [LLook; LReceive; LAccept false] 3))) = [7; 8; 9].
Proof. vm_compute. repeat split. Qed.
(** With a cancelled context a connection is dropped, not reordered. *)
Example dropped : l_out (lrun (three ++ [LCancel; LLook; LReceive])) = [7] /\ l_lost (lrun (three ++ [LCancel; LLook; LReceive])) = [8].
Proof. vm_compute. split; reflexivity. Qed.

(** * C218: the counters *)
(** Metrics reports, in each of its two loads, exactly the bytes transferred since that counter was last set to 0. *)
Theorem C218_loads : forall before,
  m_loads (mrun (before ++ [MLoadW])) = m_loads (mrun before) ++ [(true, written_since 0 before)] /\
  m_loads (mrun (before ++ [MLoadR])) = m_loads (mrun before) ++ [(false, read_since 0 before)].
Proof. exact loads_proof. Qed.
Print Assumptions C218_loads.
Example loads_example :
  m_loads (mrun [MWrite 5; MRead 3; MLoadW; MStoreW; MWrite 2; MLoadW; MLoadR]) = [(true, 5); (true, 2); (false, 3)]%Z.
Proof. reflexivity. Qed.

(** * C219: samples taken by Metrics and ResetMetrics *)
(** The samples add up to what was written, if nothing is transferred between the load and the store. *)
Theorem C219_quiet : forall ps : list (list traffic),
  sampled_written (mrun (concat (map period ps))) = all_written (concat (map period ps)).
Proof. exact quiet_samples_proof. Qed.
Print Assumptions C219_quiet.
Example quiet_example : all_written (concat (map period [[TWrite 5; TRead 1]; []; [TWrite 2; TWrite 4]])) = 11%Z.
Proof. reflexivity. Qed.
(** In general they do not: a write between Metrics and ResetMetrics is in no sample. *)
Theorem C219_refuted : ~ forall ts between after,
  sampled_written (mrun (map traffic_op ts ++ [MLoadW; MLoadR] ++ map traffic_op between ++ [MStoreW; MStoreR] ++ map traffic_op after ++ [MLoadW; MLoadR])) =
  all_written (map traffic_op ts ++ map traffic_op between ++ map traffic_op after).
Proof. intros H. specialize (H [TWrite 5] [TWrite 2] [TWrite 4])%Z. discriminate H. Qed.
Print Assumptions C219_refuted.

(** * C220: no crash *)
(** Listening again after Close crashes the process at the first connection. *)
Theorem C220_refuted : ~ forall l, l_panic (lrun l) = false.
Proof.
  intros H. specialize (H [LListen true; LClose false; LAccept false; LLook; LWaited; LListen true; LConnect 1; LAccept false; LLook]).
  discriminate H.
Qed.
Print Assumptions C220_refuted.
(** So do two calls of Close at the same time. *)
Example two_closes : l_panic (lrun [LListen true; LClose false; LClose false; LAccept false; LLook; LWaited; LWaited]) = true.
Proof. reflexivity. Qed.
(** There is no crash if Close is never called while another call of it is in progress, and Listen never after a
    Close. *)
Theorem C220_no_crash : forall l,
  (forall p q f, l = p ++ LClose f :: q ->
     l_closing (lrun p) = 0 /\ existsb (fun a => match a with LListen _ => true | _ => false end) q = false) ->
  l_panic (lrun l) = false.
Proof. exact no_crash_proof. Qed.
Print Assumptions C220_no_crash.
Definition tidy : list laction :=
  three ++ [LLook; LClose true; LReceive; LAccept false; LLook; LWaited; LClose false; LConnect 3].
Lemma tidy_meets : one_at_a_time tidy.
Proof.
  intros p q f E. unfold tidy, three in E. cbn [app] in E.
  do 9 (destruct p as [|? p]; [discriminate E|injection E as <- E]).
  destruct p as [|? p]; [injection E as <- <-; split; reflexivity|injection E as <- E].
  do 4 (destruct p as [|? p]; [discriminate E|injection E as <- E]).
  destruct p as [|? p]; [injection E as <- <-; split; reflexivity|injection E as <- E].
  do 1 (destruct p as [|? p]; [discriminate E|injection E as <- E]).
  destruct p; discriminate E.
Qed.
Example tidy_result : l_panic (lrun tidy) = false /\ l_out (lrun tidy) = [7; 8] /\ l_errs (lrun tidy) = [CloseFailed; AcceptFailed].
Proof. vm_compute. repeat split. Qed.

(** * C221: Close returns *)
(** Whatever happened before, a Close of an open listener returns once the goroutine gets its turns and the application
    receives what is in the goroutine's hands; any other events may come in between. *)
Theorem C221_close_returns : forall before after f,
  (forall p q g, before ++ LClose f :: after = p ++ LClose g :: q ->
     l_closing (lrun p) = 0 /\ existsb (fun a => match a with LListen _ => true | _ => false end) q = false) ->
  l_net (lrun before) = NetOpen ->
  (exists b l0 l1 l2 l3 l4 l5,
     after = l0 ++ LLook :: l1 ++ LReceive :: l2 ++ LAccept b :: l3 ++ LLook :: l4 ++ LWaited :: l5) ->
  existsb (fun a => match a with LClose _ => true | _ => false end) after = false ->
  let s := lrun (before ++ LClose f :: after) in
  l_closing s = 0 /\ l_net s = NetNone /\ l_chan_closed s = true /\ l_panic s = false.
Proof. exact close_returns_proof. Qed.
Print Assumptions C221_close_returns.
Definition tail : list laction := [LConnect 4; LLook; LCancel; LReceive; LAccept false; LLook; LConnect 5; LWaited].
Lemma tail_meets : one_at_a_time (three ++ LClose false :: tail).
Proof.
  intros p q f E. unfold tail, three in E. cbn [app] in E.
  do 8 (destruct p as [|? p]; [discriminate E|injection E as <- E]).
  destruct p as [|? p]; [injection E as <- <-; split; reflexivity|injection E as <- E].
  do 8 (destruct p as [|? p]; [discriminate E|injection E as <- E]).
  destruct p; discriminate E.
Qed.
Example tail_result : l_net (lrun three) = NetOpen /\
  existsb (fun a => match a with LClose _ => true | _ => false end) tail = false /\
  (exists b l0 l1 l2 l3 l4 l5, tail = l0 ++ LLook :: l1 ++ LReceive :: l2 ++ LAccept b :: l3 ++ LLook :: l4 ++ LWaited :: l5) /\
  l_closing (lrun (three ++ LClose false :: tail)) = 0.
Proof.
  repeat split. exists false, [LConnect 4], [LCancel], [], [], [LConnect 5], []. reflexivity.
Qed.
(** The application has to receive: with a connection in the goroutine's hands that nobody takes, Close does not return,
    not even after the context has been cancelled. *)
Theorem C221_needs_receiver : forall after,
  existsb (fun a => match a with LReceive => true | _ => false end) after = false ->
  l_closing (lrun (three ++ [LLook; LClose false] ++ after)) <> 0.
Proof.
  intros after H. unfold three. cbn [app].
  change (LListen true :: LConnect 7 :: LConnect 8 :: LAccept false :: LLook :: LConnect 9 :: LReceive :: LAccept false :: LLook :: LClose false :: after)
    with ([LListen true; LConnect 7; LConnect 8; LAccept false; LLook; LConnect 9; LReceive; LAccept false; LLook; LClose false] ++ after).
  rewrite lrun_app.
  assert (G : forall l s, existsb (fun a => match a with LReceive => true | _ => false end) l = false ->
     l_panic s = false -> l_go s = GSend 8 -> l_net s = NetClosed -> l_closing s <> 0 -> l_closing (fold_left lstep l s) <> 0).
  { clear. induction l as [|a l IH]; intros s Hl Hp Hg Hn Hc; [exact Hc|]. simpl in Hl. apply orb_false_iff in Hl. destruct Hl as [Ha Hl].
    cbn [fold_left].
    destruct s as [net go ctx cc w out lost errs closing panic]; cbn in *; subst.
    apply IH; auto; unfold lstep; cbn; destruct a; try discriminate Ha; cbn; auto; destruct closing; cbn; auto. }
  apply G; auto; vm_compute; congruence.
Qed.
Print Assumptions C221_needs_receiver.

(** * C222: errors *)
(** An ordinary Close leaves an error behind: Accept fails because the socket has been closed. *)
Theorem C222_refuted : ~ forall l,
  forallb (fun a => match a with LAccept fails => negb fails | LClose fails => negb fails | _ => true end) l = true ->
  l_errs (lrun l) = [].
Proof.
  intros H. specialize (H [LListen true; LClose false; LAccept false; LLook; LWaited] eq_refl). discriminate H.
Qed.
Print Assumptions C222_refuted.
(** There is none if the context is cancelled before Close is called, and neither Accept (before that) nor the closing of
    the socket fails by itself. *)
Theorem C222_cancelled : forall l, orderly false l = true -> l_errs (lrun l) = [].
Proof. exact no_error_proof. Qed.
Print Assumptions C222_cancelled.
Example orderly_example :
  orderly false (three ++ [LLook; LReceive; LCancel; LClose false; LAccept true; LLook; LWaited]) = true /\
  l_chan_closed (lrun (three ++ [LLook; LReceive; LCancel; LClose false; LAccept true; LLook; LWaited])) = true.
Proof. vm_compute. split; reflexivity. Qed.
(** A failure that is one is kept: that of Accept if the context is not cancelled before the goroutine looks at it,
    whatever else happens before and after; *)
Theorem C222_reported : forall p m q, l_go (lrun p) = GAccept -> l_net (lrun p) = NetOpen -> l_ctx (lrun p) = false -> l_panic (lrun p) = false ->
  forallb (fun a => match a with LLook | LCancel => false | _ => true end) m = true ->
  In AcceptFailed (l_errs (lrun (p ++ LAccept true :: m ++ LLook :: q))).
Proof. exact accept_reported_proof. Qed.
Print Assumptions C222_reported.
(** and that of closing the socket. *)
Theorem C222_close_reported : forall p q, l_net (lrun p) <> NetNone -> l_panic (lrun p) = false ->
  In CloseFailed (l_errs (lrun (p ++ LClose true :: q))).
Proof. exact close_reported_proof. Qed.
Print Assumptions C222_close_reported.
Example reported_example :
  l_go (lrun (three ++ [LLook; LReceive])) = GAccept /\ l_net (lrun (three ++ [LLook; LReceive])) = NetOpen /\
  l_ctx (lrun (three ++ [LLook; LReceive])) = false /\ l_panic (lrun (three ++ [LLook; LReceive])) = false /\
  l_errs (lrun (three ++ [LLook; LReceive; LAccept true; LConnect 5; LClose true; LLook; LWaited; LCancel])) = [CloseFailed; AcceptFailed].
Proof. repeat split. Qed.
