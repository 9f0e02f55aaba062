(** pkg/backend/internal/backend/watcher.go:178-214: the loop of the poller, with what it
    waits for: the ticker, the channel Notify and the context.  Watch.v lets the poller fetch at
    any moment; here it is the code that decides.
    Simplifications:
    - a step of the loop is one of: an attempt at the select (watcher.go:190-199), the query
      (watcher.go:201), publishing (watcher.go:210-211), as in Watch.v;
    - a local write is one step (its statement), its notification another one, any time later:
      backend.go:335-366;
    - when the context is cancelled the query may end with any outcome, chosen by the schedule. *)
From Coq Require Import List ZArith Bool.
From Verif Require Import Bytes Spec Sql System Prog Backend Watch.
Import ListNotations.
Open Scope Z_scope.

(** make(chan int64, 100): sqlite/backend.go:25, dqlite/backend.go:25 *)
Definition notify_size : nat := 100.

(** The backend, and the loop: [l_more] is waitForMore, [l_go] says that the select is over and
    the query is next; the channel Notify, oldest first; the buffer (of one) of the ticker's
    channel; whether the context is cancelled; the revisions of local writes whose
    notification is still to come (watcher.go:178-199, backend.go:335-366). *)
Record lstate := LState {
  l_b : bstate;
  l_more : bool;
  l_go : bool;
  l_notify : list Z;
  l_tick : bool;
  l_done : bool;
  l_unsent : list Z }.

(** watcher.go:186-189: nothing yet, waitForMore is true. *)
Definition lstart (w : world) : lstate := LState (bstart w) true false [] false false [].

(** The branches of the select, watcher.go:191-198. *)
Inductive branch := BDone | BNotify | BTick.

(** What can happen. *)
Inductive laction :=
| LBack (a : action)                 (* everything of Watch.v but the poller's own steps *)
| LWrite (op : aop)                  (* the statement of a Create, Update or Delete of this server *)
| LSend (n : nat)                    (* notifyWatcherPoll for one of the writes made *)
| LTick                              (* the ticker fires *)
| LCancel                            (* the context is cancelled *)
| LLoop (c : branch) (f : fault).    (* the loop takes a step *)

(** The revision of a write, if it changed something (driver.go:509-580). *)
Definition wrote (d : db) (op : aop) : option Z :=
  let '(n, id) := snd (apply d op) in if n =? 0 then None else Some id.

(** backend.go:335-366: the statement, then, if it changed something, a notification is due. *)
Definition local_write (op : aop) (s : lstate) : lstate :=
  LState (bstep (l_b s) (AEnv op)) (l_more s) (l_go s) (l_notify s) (l_tick s) (l_done s)
    (match op with
     | ACreate _ _ _ | AUpdate _ _ _ _ | ADelete _ _ =>
         match wrote (fst (b_world (l_b s))) op with Some r => l_unsent s ++ [r] | None => l_unsent s end
     | _ => l_unsent s
     end).

(** Remove one element of a list (the goroutine of that write is done). *)
Fixpoint without {A} (n : nat) (l : list A) : list A :=
  match l, n with
  | [], _ => []
  | _ :: l', O => l'
  | x :: l', S n' => x :: without n' l'
  end.

(** watcher.go:178-183: if the channel is full the notification is dropped. *)
Definition send (n : nat) (s : lstate) : lstate :=
  match nth_error (l_unsent s) n with
  | None => s
  | Some r =>
      LState (l_b s) (l_more s) (l_go s)
        (if (length (l_notify s) <? notify_size)%nat then l_notify s ++ [r] else l_notify s)
        (l_tick s) (l_done s) (without n (l_unsent s))
  end.

(** Is the query next?  watcher.go:190: the select is skipped when waitForMore is false. *)
Definition at_query (s : lstate) : bool :=
  negb (b_dead (l_b s)) && match b_batch (l_b s) with Some _ => false | None => l_go s || negb (l_more s) end.

(** watcher.go:191-198: one attempt at the select; a branch that is not ready changes nothing.
    A notification of a revision not above the poller's is consumed and forgotten. *)
Definition select (c : branch) (s : lstate) : lstate :=
  match c with
  | BDone =>
      if l_done s
      then LState (bstep (l_b s) (AFetch (FailBefore ECanceled))) (l_more s) false (l_notify s) (l_tick s) true (l_unsent s)
      else s
  | BNotify =>
      match l_notify s with
      | [] => s
      | r :: q => LState (l_b s) (l_more s) (negb (r <=? b_poll (l_b s))) q (l_tick s) (l_done s) (l_unsent s)
      end
  | BTick =>
      if l_tick s then LState (l_b s) (l_more s) true (l_notify s) false (l_done s) (l_unsent s) else s
  end.

(** watcher.go:188-213: the next step of the loop.  After a failed query it goes on with
    waitForMore as it was (watcher.go:207). *)
Definition loop (c : branch) (f : fault) (s : lstate) : lstate :=
  if b_dead (l_b s) then s
  else match b_batch (l_b s) with
  | Some evs =>
      LState (bstep (l_b s) APublish) (Nat.ltb (length evs) 100) false (l_notify s) (l_tick s) (l_done s) (l_unsent s)
  | None =>
      if at_query s
      then LState (bstep (l_b s) (AFetch f)) (l_more s) false (l_notify s) (l_tick s) (l_done s) (l_unsent s)
      else select c s
  end.

(** Is this one of the poller's own steps (which are taken by [loop] only, watcher.go:185-214)? *)
Definition own (a : action) : bool := match a with AFetch _ | APublish => true | _ => false end.

(** One step of anything (watcher.go:178-214, backend.go:335-366). *)
Definition lstep (s : lstate) (x : laction) : lstate :=
  match x with
  | LBack a => if own a then s else LState (bstep (l_b s) a) (l_more s) (l_go s) (l_notify s) (l_tick s) (l_done s) (l_unsent s)
  | LWrite op => local_write op s
  | LSend n => send n s
  | LTick => LState (l_b s) (l_more s) (l_go s) (l_notify s) true (l_done s) (l_unsent s)
  | LCancel => LState (l_b s) (l_more s) (l_go s) (l_notify s) (l_tick s) true (l_unsent s)
  | LLoop c f => loop c f s
  end.

(** ---- specification vocabulary ---- *)
(** What can happen (Watch.v, possible): statements are those a server issues. *)
Definition lpossible (s : lstate) (x : laction) : Prop :=
  match x with
  | LBack a => possible (l_b s) a
  | LWrite op => allowed (snd (b_world (l_b s))) op
  | _ => True
  end.
(** Compaction stays behind the poller and behind registrations (Watch.v, calm). *)
Definition lcalm (s : lstate) (x : laction) : Prop :=
  match x with
  | LBack a => calm (l_b s) a
  | LLoop _ _ => at_query s = true -> kept (snd (b_world (l_b s))) (b_poll (l_b s))
  | _ => True
  end.
(** The state after the first [t] steps of an infinite schedule. *)
Fixpoint lat (w : world) (sch : nat -> laction) (t : nat) : lstate :=
  match t with O => lstart w | S t => lstep (lat w sch t) (sch t) end.
(** ... after a finite one. *)
Definition lrun (xs : list laction) (s : lstate) : lstate := fold_left lstep xs s.
(** How often the poller sent its query to the database. *)
Fixpoint queries (s : lstate) (xs : list laction) : nat :=
  match xs with
  | [] => O
  | x :: rest => (match x with LLoop _ _ => if at_query s then 1 else 0 | _ => 0 end + queries (lstep s x) rest)%nat
  end.
(** Everything up to the poller's revision has been handed to every acknowledged watch of
    every open group. *)
Definition handed_over (b : bstate) : Prop :=
  forall i g r, nth_error (b_groups b) i = Some g -> g_open g = true -> In r (g_regs g) ->
    In (r_id r, WOk) (g_returns g) -> ~ In (r_id r) (g_cancelled g) ->
    reports (history_of (snd (b_world b))) (in_range (r_lo r) (r_hi r)) (begins r) (b_poll b) (delivered (g_updates g) (r_id r)).
(** The steps of a finite schedule are possible (specification vocabulary). *)
Fixpoint lruns (s : lstate) (xs : list laction) : Prop :=
  match xs with [] => True | x :: rest => lpossible s x /\ lruns (lstep s x) rest end.
(** How often the ticker fired or a write sent its notification. *)
Definition wakings (xs : list laction) : nat :=
  length (filter (fun x => match x with LTick | LSend _ => true | _ => false end) xs).
(** No query of the poller failed. *)
Definition unfailing (xs : list laction) : Prop := forall c f, In (LLoop c f) xs -> f = NoFault.
