(** Life of the watcher groups of a server and of the handler of one watch stream:
    who closes the update channel, and when the handler returns.
    pkg/backend/internal/backend/watcher.go:216-230, 257-288 and pkg/limited/watch.go:17-38.
    Refines what Watch.v does in one step (publishing, closing a group); the contents of
    updates are left out. *)
From Coq Require Import List ZArith Bool Arith.
From Verif Require Import Watch.
Import ListNotations.

(** The function registered with context.AfterFunc (watcher.go:276-281): armed; kept from
    running by stop(); started in its own goroutine, waiting for the backend's mutex; done. *)
Inductive after := Armed | Stopped | Started | Finished.

(** watcher.go:15-23, 269-286.  [l_in]: in the map s.WatcherGroups. *)
Record life := Life { l_after : after; l_in : bool; l_closed : bool; l_buf : nat }.

(** Who holds the backend's mutex: nobody, or publishEvents with the groups still to do
    and whether the send to the first of them has just failed (watcher.go:216-230). *)
Inductive holder := Nobody | Publishing (todo : list nat) (full : bool).

(** All groups ever made, the mutex, and whether the process has panicked (send on or
    close of a closed channel). *)
Record lives := Lives { ls : list life; mutex : holder; panicked : bool }.

(** One step. *)
Inductive lact :=
| LNew                 (* watcher.go:257-288 *)
| LCancel (i : nat)    (* the context of the group is cancelled *)
| LAfter (i : nat)     (* watcher.go:277-281 *)
| LBegin               (* watcher.go:217-222: the iteration visits the groups in the map *)
| LSend                (* watcher.go:223, 65-71 *)
| LStop                (* watcher.go:224-227 *)
| LEnd                 (* watcher.go:230 *)
| LTake (i : nat).     (* the consumer receives *)

(** The indices of the groups in the map. *)
Fixpoint in_map (i : nat) (l : list life) : list nat :=
  match l with
  | [] => []
  | g :: l' => if l_in g then i :: in_map (S i) l' else in_map (S i) l'
  end.
(** Closing a channel panics if it is closed (watcher.go:226, 280). *)
Definition close_group (a : after) (g : life) : life := Life a false true (l_buf g).
(** One step of the backend (watcher.go:216-230, 257-288); impossible steps change nothing. *)
Definition lstep (s : lives) (a : lact) : lives :=
  match a with
  | LNew => match mutex s with
            | Nobody => Lives (ls s ++ [Life Armed true false 0]) Nobody (panicked s)
            | _ => s
            end
  | LCancel i => match nth_error (ls s) i with
                 | Some g => match l_after g with
                             | Armed => Lives (update_nth i (fun g => Life Started (l_in g) (l_closed g) (l_buf g)) (ls s)) (mutex s) (panicked s)
                             | _ => s
                             end
                 | None => s
                 end
  | LAfter i => match mutex s, nth_error (ls s) i with
                | Nobody, Some g => match l_after g with
                                    | Started => Lives (update_nth i (close_group Finished) (ls s)) Nobody (panicked s || l_closed g)
                                    | _ => s
                                    end
                | _, _ => s
                end
  | LBegin => match mutex s with Nobody => Lives (ls s) (Publishing (in_map 0 (ls s)) false) (panicked s) | _ => s end
  | LSend => match mutex s with
             | Publishing (i :: todo) false =>
                 match nth_error (ls s) i with
                 | Some g => if l_closed g then Lives (ls s) (mutex s) true
                             else if (l_buf g <? channel_size)%nat
                             then Lives (update_nth i (fun g => Life (l_after g) (l_in g) (l_closed g) (S (l_buf g))) (ls s)) (Publishing todo false) (panicked s)
                             else Lives (ls s) (Publishing (i :: todo) true) (panicked s)
                 | None => s
                 end
             | _ => s
             end
  | LStop => match mutex s with
             | Publishing (i :: todo) true =>
                 match nth_error (ls s) i with
                 | Some g => match l_after g with
                             | Armed => Lives (update_nth i (close_group Stopped) (ls s)) (Publishing todo false) (panicked s || l_closed g)
                             | _ => Lives (ls s) (Publishing todo false) (panicked s)
                             end
                 | None => s
                 end
             | _ => s
             end
  | LEnd => match mutex s with Publishing [] false => Lives (ls s) Nobody (panicked s) | _ => s end
  | LTake i => Lives (update_nth i (fun g => Life (l_after g) (l_in g) (l_closed g) (pred (l_buf g))) (ls s)) (mutex s) (panicked s)
  end.
(** A run from the start of the server (backend.go:266-276). *)
Definition lrun (acts : list lact) : lives := fold_left lstep acts (Lives [] Nobody false).

(** ---- the handler of one stream: pkg/limited/watch.go:17-38 ----
    Three goroutines of an errgroup; the first error cancels the group's context; Wait
    returns when all three have.  [h_gone]: the client's stream is over (its context is
    done, Recv and Send fail).  [h_closed], [h_buf]: the update channel. *)
Record handler := Handler {
  h_gone : bool;
  h_cancelled : bool;
  h_closed : bool;
  h_buf : nat;
  h_requests : bool;
  h_updates : bool;
  h_ticks : bool }.
(** watch.go:17-36; everything runs. *)
Definition hstart : handler := Handler false false false 0 true true true.
(** One step. *)
Inductive hact :=
| HGone             (* the client goes *)
| HPublish          (* an update is put into the channel *)
| HOverflow         (* the group is dropped because the channel is full: watcher.go:223-227 *)
| HAfter            (* the group's context is cancelled: watcher.go:277-281 *)
| HRefuse           (* ServeRequests returns an error: watch.go:59-61, or Recv at the end of the client's requests *)
| HRecvFails        (* watch.go:53-56 *)
| HTake             (* watch.go:87 *)
| HSendFails        (* watch.go:89-91 *)
| HUpdatesEnd       (* watch.go:93 *)
| HTicksEnd.        (* watch.go:125-126 *)
(** Effect of a step (watch.go:17-129); impossible steps change nothing. *)
Definition hstep (h : handler) (a : hact) : handler :=
  match a with
  | HGone => Handler true true (h_closed h) (h_buf h) (h_requests h) (h_updates h) (h_ticks h)
  | HPublish => if h_closed h || negb (h_buf h <? channel_size)%nat then h
                else Handler (h_gone h) (h_cancelled h) false (S (h_buf h)) (h_requests h) (h_updates h) (h_ticks h)
  | HOverflow => if h_cancelled h || (h_buf h <? channel_size)%nat then h
                 else Handler (h_gone h) (h_cancelled h) true (h_buf h) (h_requests h) (h_updates h) (h_ticks h)
  | HAfter => if h_cancelled h then Handler (h_gone h) true true (h_buf h) (h_requests h) (h_updates h) (h_ticks h) else h
  | HRefuse => if h_requests h then Handler (h_gone h) true (h_closed h) (h_buf h) false (h_updates h) (h_ticks h) else h
  | HRecvFails => if h_requests h && h_gone h then Handler (h_gone h) true (h_closed h) (h_buf h) false (h_updates h) (h_ticks h) else h
  | HTake => if h_updates h then Handler (h_gone h) (h_cancelled h) (h_closed h) (pred (h_buf h)) (h_requests h) (h_updates h) (h_ticks h) else h
  | HSendFails => if h_updates h && h_gone h then Handler (h_gone h) true (h_closed h) (h_buf h) (h_requests h) false (h_ticks h) else h
  | HUpdatesEnd => if h_updates h && h_closed h && (h_buf h =? 0)%nat then Handler (h_gone h) (h_cancelled h) true 0 (h_requests h) false (h_ticks h) else h
  | HTicksEnd => if h_ticks h && h_gone h then Handler (h_gone h) (h_cancelled h) (h_closed h) (h_buf h) (h_requests h) (h_updates h) false else h
  end.
(** A run of the handler (watch.go:17-38). *)
Definition hrun (acts : list hact) (h : handler) : handler := fold_left hstep acts h.
(** eg.Wait returns (watch.go:37). *)
Definition returned (h : handler) : bool := negb (h_requests h) && negb (h_updates h) && negb (h_ticks h).
