(** pkg/limited/watch.go: one gRPC watch stream on top of a watcher group.
    Three goroutines share the stream: ServeRequests, ServeUpdates, ServeProgress.
    Simplifications:
    - Send never fails and never blocks (a failing Send means that the client is
      gone); the end of the client's connection is not a step: nothing can be sent
      after it;
    - Create holds the stream mutex during the whole WatcherGroup.Watch call
      (watch.go:153-156): [s_creating] is that period, sends have to wait;
    - range over the progress map is in insertion order;
    - the watch response of an update is a list of messages sent in one step,
      since the mutex is held (watch.go:97-98). *)
From Coq Require Import List ZArith Bool.
From Verif Require Import Bytes Spec Sql System Prog Backend Watch.
Import ListNotations.
Open Scope Z_scope.

(** Responses.  [InvalidWatchID] is -1. *)
Inductive msg :=
| MEvents (rev id : Z) (evs : list event)    (* watch.go:102-106 *)
| MProgress (rev id : Z)                     (* watch.go:137-140, 197-200 *)
| MCreated (id : Z)                          (* watch.go:178-182 *)
| MCompacted (rev : Z)                       (* watch.go:158-164: created and cancelled *)
| MUnhealthy (rev : Z).                      (* watch.go:169-173 *)

(** watch.go:40-48.  [s_hold]: an update was received and ws.revision assigned
    (watch.go:88), but sendUpdates has not got the mutex yet.  [s_closing]: between
    Unwatch and the removal from the progress map (watch.go:185-191).
    [s_done]: ServeUpdates has returned.  [s_ended]: ServeRequests has returned with an
    error.  The context of the watcher group is then cancelled (errgroup, watch.go:18),
    but Watch does not return: eg.Wait (watch.go:37) waits for ServeProgress, which
    waits for the context of the client's stream (watch.go:125), not for that of the
    errgroup. *)
Record sstate := SState {
  s_b : bstate;
  s_i : nat;
  s_rev : Z;
  s_hold : option (list (Z * list event));
  s_progress : list (Z * bool);
  s_out : list msg;
  s_creating : option Z;
  s_closing : option Z;
  s_done : bool;
  s_ended : bool }.

(** watch.go:17-31; the group is new. *)
Definition sopen (b : bstate) : sstate :=
  SState (bstep b ANewGroup) (length (b_groups b)) 0 None [] [] None None false false.

(** One step of a watch stream (pkg/limited/watch.go:17-201). *)
Inductive saction :=
| SBack (a : action)                          (* anything else the server does *)
| SRecv                                       (* watch.go:87-88 *)
| SSend                                       (* watch.go:96-113 *)
| STick                                       (* watch.go:121-124, 131-150 *)
| SProgressReq                                (* watch.go:193-201 *)
| SCreate (wid : Z) (lo hi : bytes) (start : Z)  (* watch.go:58-70, 152-156 *)
| SCheck (f : fault)                          (* the steps of WatcherGroup.Watch *)
| SQuery (f : fault)
| SFinish
| SCancel (id : Z)                            (* watch.go:186 *)
| SForget                                     (* watch.go:188-190 *)
| SEof                                        (* Recv fails, e.g. the client has closed its side: watch.go:53-56 *)
| SStop.                                      (* the AfterFunc of the group's context: watcher.go:276-281 *)

(** sendProgressReport[id] = b *)
Fixpoint set_progress (id : Z) (b : bool) (l : list (Z * bool)) : list (Z * bool) :=
  match l with
  | [] => [(id, b)]
  | x :: l' => if fst x =? id then (id, b) :: l' else x :: set_progress id b l'
  end.
(** delete(sendProgressReport, id), watch.go:190. *)
Definition del_progress (id : Z) (l : list (Z * bool)) : list (Z * bool) :=
  filter (fun x => negb (fst x =? id)) l.

(** The backend part of the state changes. *)
Definition with_b (s : sstate) (b : bstate) : sstate :=
  SState b (s_i s) (s_rev s) (s_hold s) (s_progress s) (s_out s) (s_creating s) (s_closing s) (s_done s) (s_ended s).
(** The watcher group of this stream (watch.go:17-31). *)
Definition group_of (s : sstate) : option group := nth_error (b_groups (s_b s)) (s_i s).

(** Actions of the server that are not this stream's own. *)
Definition foreign (i : nat) (a : action) : bool :=
  match a with
  | AWatch j _ _ _ | ACheck j _ _ | AQuery j _ _ | AFinish j _ | AUnwatch j _ | ATake j | AStopGroup j => negb (Nat.eqb j i)
  | _ => true
  end.

(** watch.go:86-94: the loop ends when the channel is closed and drained. *)
Definition s_recv (s : sstate) : sstate :=
  match s_hold s, group_of s with
  | None, Some g =>
      match nth_error (g_updates g) (g_taken g) with
      | Some u => SState (bstep (s_b s) (ATake (s_i s))) (s_i s) (u_rev u) (Some (u_watchers u)) (s_progress s) (s_out s)
                    (s_creating s) (s_closing s) (s_done s) (s_ended s)
      | None => if g_open g then s
                else SState (s_b s) (s_i s) (s_rev s) None (s_progress s) (s_out s) (s_creating s) (s_closing s) true (s_ended s)
      end
  | _, _ => s
  end.

(** watch.go:96-113 *)
Definition s_send (s : sstate) : sstate :=
  match s_hold s, s_creating s with
  | Some ws, None =>
      SState (s_b s) (s_i s) (s_rev s) None
        (fold_left (fun l x => set_progress (fst x) false l) ws (s_progress s))
        (s_out s ++ map (fun x => MEvents (s_rev s) (fst x) (snd x)) ws)
        (s_creating s) (s_closing s) (s_done s) (s_ended s)
  | _, _ => s
  end.

(** watch.go:131-150: the else branch assigns the loop variable, not the map. *)
Definition s_tick (s : sstate) : sstate :=
  match s_creating s with
  | None => SState (s_b s) (s_i s) (s_rev s) (s_hold s) (s_progress s)
      (s_out s ++ map (fun x => MProgress (s_rev s) (fst x)) (filter (fun x : Z * bool => snd x) (s_progress s)))
      (s_creating s) (s_closing s) (s_done s) (s_ended s)
  | Some _ => s
  end.

(** watch.go:193-201 *)
Definition s_progress_req (s : sstate) : sstate :=
  match s_creating s, s_closing s with
  | None, None => SState (s_b s) (s_i s) (s_rev s) (s_hold s) (s_progress s) (s_out s ++ [MProgress (s_rev s) (-1)])
      (s_creating s) (s_closing s) (s_done s) (s_ended s)
  | _, _ => s
  end.

(** What Create does when Watch has returned (watch.go:156-183). *)
Definition answer_create (s : sstate) (id : Z) (r : watch_result) : sstate :=
  match r with
  | WOk => SState (s_b s) (s_i s) (s_rev s) (s_hold s) (set_progress id true (s_progress s)) (s_out s ++ [MCreated id])
             None (s_closing s) (s_done s) (s_ended s)
  | WCompacted _ cur => SState (s_b s) (s_i s) (s_rev s) (s_hold s) (s_progress s) (s_out s ++ [MCompacted cur])
             None (s_closing s) (s_done s) (s_ended s)
  | WFailed _ => SState (s_b s) (s_i s) (s_rev s) (s_hold s) (s_progress s) (s_out s ++ [MUnhealthy (s_rev s)])
             None (s_closing s) (s_done s) (s_ended s)
  end.
(** Continue a Watch call by one step of the group. *)
Definition watch_step (s : sstate) (id : Z) (a : action) : sstate :=
  let s1 := with_b s (bstep (s_b s) a) in
  match group_of s1 with
  | Some g => match find (fun x => fst x =? id) (g_returns g) with
              | Some (_, r) => answer_create s1 id r
              | None => s1
              end
  | None => s1
  end.

(** watch.go:58-70: at an explicit watch id ServeRequests returns an error; an empty
    range end means the single key. *)
Definition s_create (wid : Z) (lo hi : bytes) (start : Z) (s : sstate) : sstate :=
  match s_creating s, s_closing s, group_of s with
  | None, None, Some g =>
      if negb (wid =? 0)
      then SState (s_b s) (s_i s) (s_rev s) (s_hold s) (s_progress s) (s_out s) (s_creating s) (s_closing s) (s_done s) true
      else
        let id := Z.of_nat (length (g_regs g)) + 1 in
        let s1 := SState (s_b s) (s_i s) (s_rev s) (s_hold s) (s_progress s) (s_out s) (Some id) (s_closing s) (s_done s) (s_ended s) in
        watch_step s1 id (AWatch (s_i s) lo (range_end lo hi) start)
  | _, _, _ => s
  end.

(** watch.go:185-191 *)
Definition s_cancel (id : Z) (s : sstate) : sstate :=
  match s_creating s, s_closing s with
  | None, None => SState (bstep (s_b s) (AUnwatch (s_i s) id)) (s_i s) (s_rev s) (s_hold s) (s_progress s) (s_out s)
                    (s_creating s) (Some id) (s_done s) (s_ended s)
  | _, _ => s
  end.
(** Close, watch.go:185-191: the entry is removed. *)
Definition s_forget (s : sstate) : sstate :=
  match s_closing s with
  | Some id => SState (s_b s) (s_i s) (s_rev s) (s_hold s) (del_progress id (s_progress s)) (s_out s)
                 (s_creating s) None (s_done s) (s_ended s)
  | None => s
  end.

(** watch.go:53-56: ServeRequests returns. *)
Definition s_eof (s : sstate) : sstate :=
  match s_creating s, s_closing s with
  | None, None => SState (s_b s) (s_i s) (s_rev s) (s_hold s) (s_progress s) (s_out s) None None (s_done s) true
  | _, _ => s
  end.

(** Effect of one stream action (watch.go:50-201). *)
Definition sstep (s : sstate) (a : saction) : sstate :=
  match a with
  | SBack a => if foreign (s_i s) a then with_b s (bstep (s_b s) a) else s
  | SRecv => if s_done s then s else s_recv s
  | SSend => s_send s
  | STick => s_tick s
  | SProgressReq => if s_ended s then s else s_progress_req s
  | SCreate wid lo hi start => if s_ended s then s else s_create wid lo hi start s
  | SCheck f => match s_creating s with Some id => watch_step s id (ACheck (s_i s) id f) | None => s end
  | SQuery f => match s_creating s with Some id => watch_step s id (AQuery (s_i s) id f) | None => s end
  | SFinish => match s_creating s with Some id => watch_step s id (AFinish (s_i s) id) | None => s end
  | SCancel id => if s_ended s then s else s_cancel id s
  | SForget => s_forget s
  | SEof => s_eof s
  | SStop => if s_ended s then with_b s (bstep (s_b s) (AStopGroup (s_i s))) else s
  end.

(** The backend action a stream action performs, for the provisos of Watch.v. *)
Definition back_ok (s : sstate) (a : saction) (ok : bstate -> action -> Prop) : Prop :=
  match a with
  | SBack a => ok (s_b s) a
  | SQuery f => match s_creating s with Some id => ok (s_b s) (AQuery (s_i s) id f) | None => True end
  | _ => True
  end.
(** Reachable states of a server with this stream. *)
Inductive sreach : sstate -> Prop :=
| sreach_open b : breach b -> sreach (sopen b)
| sreach_step s a : sreach s -> back_ok s a possible -> sreach (sstep s a).
(** [slater s s'] : [s'] is a later state of the stream. *)
Inductive slater : sstate -> sstate -> Prop :=
| slater_refl s : slater s s
| slater_step s s' a : slater s s' -> back_ok s' a possible -> slater s (sstep s' a).
(** The same under the proviso of C24. *)
Inductive scalm : sstate -> Prop :=
| scalm_open b : calm_reach b -> scalm (sopen b)
| scalm_step s a : scalm s -> back_ok s a possible -> back_ok s a calm -> scalm (sstep s a).
(** Specification vocabulary (not code): later state, under the proviso of C24. *)
Inductive calm_later : sstate -> sstate -> Prop :=
| calm_later_refl s : calm_later s s
| calm_later_step s s' a : calm_later s s' -> back_ok s' a possible -> back_ok s' a calm -> calm_later s (sstep s' a).

(** Events sent for a watch, and created watch ids, in order. *)
Definition sent (out : list msg) (id : Z) : list event :=
  flat_map (fun m => match m with MEvents _ j evs => if j =? id then evs else [] | _ => [] end) out.
(** Specification vocabulary (not code): ids announced by Created responses (watch.go:152-183). *)
Definition created_ids (out : list msg) : list Z :=
  flat_map (fun m => match m with MCreated id => [id] | _ => [] end) out.
