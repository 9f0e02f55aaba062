(** pkg/backend/internal/backend/watcher.go: the poller, watcher groups and
    watchers, as a transition system.
    Simplifications:
    - publishEvents (watcher.go:216-230) is one step although it locks the groups
      one after the other: a group's state is only touched under its own mutex,
      and new groups need the mutex held by publishEvents, so the steps of
      different groups commute;
    - a query is one step: the outcome of the last attempt of the driver's retry
      loop (driver.go:424-436), see Prog.v for the faults;
    - the map of watchers is a list, iteration order is list order;
    - a group whose context is cancelled is closed at once (watcher.go:276-281);
      stop() returning false (watcher.go:224) only happens in that window;
    - watch ids of a group are assigned 1,2,3,... as ServeRequests does
      (pkg/limited/watch.go:51,72) and as ttl does (ttl.go:82);
    - the wait for ticker or notification (watcher.go:190-199) and [waitForMore]
      only determine when the next AFetch happens: any moment is possible here. *)
From Coq Require Import List ZArith Bool.
From Verif Require Import Bytes Spec Sql System Prog Backend.
Import ListNotations.
Open Scope Z_scope.

(** Arguments of a Watch call, plus the group revision it captured
    (watcher.go:88,108). *)
Record reg := Reg { r_id : Z; r_lo : bytes; r_hi : bytes; r_start : Z; r_captured : Z }.

(** watcher.go:25-30 *)
Record watcher := Watcher { w_reg : reg; w_init : bool; w_events : list event }.

(** Where a Watch call is (watcher.go:106-140): before GetCompactRevision, before
    AfterPrefix, before the final critical section. *)
Inductive phase := PCheck | PQuery | PFinish (evs : list event).

(** What Watch returned. *)
Inductive watch_result := WOk | WCompacted (floor cur : Z) | WFailed (e : err).

(** watcher.go:32-35 *)
Record update := Update { u_rev : Z; u_watchers : list (Z * list event) }.

(** watcher.go:15-23.  [g_updates] is everything ever put into the channel, of
    which the consumer took the first [g_taken]; [g_regs], [g_returns] and
    [g_cancelled] record the Watch calls begun and finished and the Unwatch calls. *)
Record group := Group {
  g_rev : Z;
  g_watchers : list watcher;
  g_pending : list (reg * phase);
  g_updates : list update;
  g_taken : nat;
  g_open : bool;
  g_regs : list reg;
  g_returns : list (Z * watch_result);
  g_cancelled : list Z }.

(** watcher.go:273 *)
Definition channel_size : nat := 100.

(** utils.go:80-87 *)
Definition append_events (evs acc : list event) (lo hi : bytes) : list event :=
  acc ++ filter (fun ev => in_range_b lo hi (kv_key (ev_kv ev))) evs.

(** watcher.go:74-86 *)
Definition watcher_update (evs : list event) (w : watcher) : watcher * list event :=
  let r := w_reg w in
  if w_init w
  then (Watcher r true [], append_events evs (w_events w) (r_lo r) (r_hi r))
  else (Watcher r false (append_events evs (w_events w) (r_lo r) (r_hi r)), []).

(** the updates collected in publish, watcher.go:52-60 *)
Definition group_updates (evs : list event) (ws : list watcher) : list (Z * list event) :=
  filter (fun x => match snd x with [] => false | _ => true end)
    (map (fun w => (r_id (w_reg w), snd (watcher_update evs w))) ws).

(** watcher.go:40-72; if the channel is full the group is closed and dropped
    (watcher.go:222-228). *)
Definition publish (rev : Z) (evs : list event) (g : group) : group :=
  if g_open g then
    let ws := map (fun w => fst (watcher_update evs w)) (g_watchers g) in
    if (length (g_updates g) - g_taken g <? channel_size)%nat
    then Group rev ws (g_pending g) (g_updates g ++ [Update rev (group_updates evs (g_watchers g))])
               (g_taken g) true (g_regs g) (g_returns g) (g_cancelled g)
    else Group rev ws (g_pending g) (g_updates g) (g_taken g) false (g_regs g) (g_returns g) (g_cancelled g)
  else g.

(** The backend (backend.go:68-83): database, poll position, fetched batch
    between getLatestEvents and publishEvents, and whether poll() has returned. *)
Record bstate := BState {
  b_world : world;
  b_poll : Z;
  b_batch : option (list event);
  b_dead : bool;
  b_groups : list group }.

(** startWatch, backend.go:266-276: polling starts at the compaction floor. *)
Definition bstart (w : world) : bstate := BState w (floor_of (snd w)) None false [].

(** One atomic step of the server's goroutines or of the database (watcher.go:40-255). *)
Inductive action :=
| AEnv (a : aop)                              (* any statement of any server *)
| AFetch (f : fault)                          (* getLatestEvents *)
| APublish                                    (* publishEvents *)
| ANewGroup                                   (* WatcherGroup() *)
| AStopGroup (i : nat)                        (* context of the group cancelled *)
| AWatch (i : nat) (lo hi : bytes) (start : Z)  (* Watch up to the first unlock *)
| ACheck (i : nat) (id : Z) (f : fault)       (* GetCompactRevision and the check *)
| AQuery (i : nat) (id : Z) (f : fault)       (* AfterPrefix *)
| AFinish (i : nat) (id : Z)                  (* final critical section *)
| AUnwatch (i : nat) (id : Z)
| ATake (i : nat).                            (* the consumer receives an update *)

(** Assignment to one element of a slice. *)
Fixpoint update_nth {A} (i : nat) (f : A -> A) (l : list A) : list A :=
  match l, i with
  | [], _ => []
  | x :: l', O => f x :: l'
  | x :: l', S i' => x :: update_nth i' f l'
  end.
(** Change one watcher group (watcher.go:20-38). *)
Definition set_group (s : bstate) (i : nat) (f : group -> group) : bstate :=
  BState (b_world s) (b_poll s) (b_batch s) (b_dead s) (update_nth i f (b_groups s)).

(** watcher.go:185-214, 232-255: the poll loop ends on a deadline or cancellation
    error, goes on after other errors. *)
Definition fetch (f : fault) (s : bstate) : bstate :=
  if b_dead s then s
  else match b_batch s with
  | Some _ => s
  | None =>
      match snd (sem f (CAfter (b_poll s) poll_batch_size) (b_world s)) with
      | Ok rs => BState (b_world s) (b_poll s) (Some (scan_all scan_event rs)) false (b_groups s)
      | Err EDeadline | Err ECanceled => BState (b_world s) (b_poll s) None true (b_groups s)
      | Err _ => s
      end
  end.

(** last element's revision, or the old position (watcher.go:219-221) *)
Definition last_rev (evs : list event) (old : Z) : Z :=
  match rev evs with [] => old | ev :: _ => kv_mod (ev_kv ev) end.

(** watcher.go:216-230 *)
Definition publish_all (s : bstate) : bstate :=
  match b_batch s with
  | None => s
  | Some evs =>
      let p := last_rev evs (b_poll s) in
      BState (b_world s) p None (b_dead s) (map (publish p evs) (b_groups s))
  end.

(** watcher.go:257-288 *)
Definition new_group (s : bstate) : bstate :=
  BState (b_world s) (b_poll s) (b_batch s) (b_dead s)
    (b_groups s ++ [Group (b_poll s) [] [] [] 0 true [] [] []]).

(** watcher.go:276-281 *)
Definition stop_group (g : group) : group :=
  Group (g_rev g) (g_watchers g) (g_pending g) (g_updates g) (g_taken g) false (g_regs g) (g_returns g) (g_cancelled g).

(** watcher.go:103-113, and 136-138 when no start revision is given *)
Definition watch_begin (lo hi : bytes) (start : Z) (g : group) : group :=
  let r := Reg (Z.of_nat (length (g_regs g)) + 1) lo hi start (g_rev g) in
  if 0 <? start
  then Group (g_rev g) (g_watchers g ++ [Watcher r false []]) (g_pending g ++ [(r, PCheck)])
             (g_updates g) (g_taken g) (g_open g) (g_regs g ++ [r]) (g_returns g) (g_cancelled g)
  else Group (g_rev g) (g_watchers g ++ [Watcher r true []]) (g_pending g)
             (g_updates g) (g_taken g) (g_open g) (g_regs g ++ [r]) (g_returns g ++ [(r_id r, WOk)]) (g_cancelled g).

(** The registration in progress with this id (watcher.go:88-141 between its two critical sections). *)
Definition pending_of (id : Z) (g : group) : option (reg * phase) :=
  find (fun x => r_id (fst x) =? id) (g_pending g).
(** It is over (watcher.go:136-141). *)
Definition drop_pending (id : Z) (l : list (reg * phase)) : list (reg * phase) :=
  filter (fun x => negb (r_id (fst x) =? id)) l.
(** delete(w.watchers, id), watcher.go:167-172. *)
Definition drop_watcher (id : Z) (l : list watcher) : list watcher :=
  filter (fun w => negb (r_id (w_reg w) =? id)) l.
(** A registration moves on (watcher.go:88-141). *)
Definition set_phase (id : Z) (p : phase) (l : list (reg * phase)) : list (reg * phase) :=
  map (fun x => if r_id (fst x) =? id then (fst x, p) else x) l.

(** outcome of GetCompactRevision (driver.go:675-706) *)
Definition interval_result (f : fault) (w : world) : result (Z * Z) :=
  match snd (sem f CInterval w) with
  | Ok rs => match one_row rs with
             | Ok (low, high) => Ok (null_int64 low, null_int64 high)
             | Err e => Err e
             end
  | Err e => Err e
  end.

(** watcher.go:114-120: on error or refusal Watch returns; the watcher stays in
    the map. *)
Definition watch_check (id : Z) (f : fault) (w : world) (g : group) : group :=
  match pending_of id g with
  | Some (r, PCheck) =>
      match interval_result f w with
      | Err e =>
          Group (g_rev g) (g_watchers g) (drop_pending id (g_pending g)) (g_updates g) (g_taken g) (g_open g)
                (g_regs g) (g_returns g ++ [(id, WFailed e)]) (g_cancelled g)
      | Ok (compact, current) =>
          if r_start r <? compact
          then Group (g_rev g) (g_watchers g) (drop_pending id (g_pending g)) (g_updates g) (g_taken g) (g_open g)
                     (g_regs g) (g_returns g ++ [(id, WCompacted compact current)]) (g_cancelled g)
          else Group (g_rev g) (g_watchers g) (set_phase id PQuery (g_pending g)) (g_updates g) (g_taken g) (g_open g)
                     (g_regs g) (g_returns g) (g_cancelled g)
      end
  | _ => g
  end.

(** watcher.go:122-131, 143-165: on error the watcher is removed. *)
Definition watch_query (id : Z) (f : fault) (w : world) (g : group) : group :=
  match pending_of id g with
  | Some (r, PQuery) =>
      match snd (sem f (CAfterPrefix (r_lo r) (range_end (r_lo r) (r_hi r)) (r_start r - 1) (r_captured r)) w) with
      | Err e =>
          Group (g_rev g) (drop_watcher id (g_watchers g)) (drop_pending id (g_pending g)) (g_updates g)
                (g_taken g) (g_open g) (g_regs g) (g_returns g ++ [(id, WFailed e)]) (g_cancelled g)
      | Ok rs =>
          Group (g_rev g) (g_watchers g) (set_phase id (PFinish (scan_all scan_event rs)) (g_pending g))
                (g_updates g) (g_taken g) (g_open g) (g_regs g) (g_returns g) (g_cancelled g)
      end
  | _ => g
  end.

(** watcher.go:133-140 *)
Definition watch_finish (id : Z) (g : group) : group :=
  match pending_of id g with
  | Some (r, PFinish evs) =>
      Group (g_rev g)
        (map (fun w => if r_id (w_reg w) =? id then Watcher (w_reg w) true (evs ++ w_events w) else w) (g_watchers g))
        (drop_pending id (g_pending g)) (g_updates g) (g_taken g) (g_open g) (g_regs g)
        (g_returns g ++ [(id, WOk)]) (g_cancelled g)
  | _ => g
  end.

(** watcher.go:167-172 *)
Definition unwatch (id : Z) (g : group) : group :=
  Group (g_rev g) (drop_watcher id (g_watchers g)) (g_pending g) (g_updates g) (g_taken g) (g_open g)
        (g_regs g) (g_returns g) (g_cancelled g ++ [id]).

(** the consumer's receive on Updates() (watcher.go:174) *)
Definition take (g : group) : group :=
  if (g_taken g <? length (g_updates g))%nat
  then Group (g_rev g) (g_watchers g) (g_pending g) (g_updates g) (S (g_taken g)) (g_open g) (g_regs g) (g_returns g) (g_cancelled g)
  else g.

(** Effect of one action; actions that are not possible change nothing (watcher.go:40-255). *)
Definition bstep (s : bstate) (a : action) : bstate :=
  match a with
  | AEnv a => BState (wapply (b_world s) a) (b_poll s) (b_batch s) (b_dead s) (b_groups s)
  | AFetch f => fetch f s
  | APublish => publish_all s
  | ANewGroup => new_group s
  | AStopGroup i => set_group s i stop_group
  | AWatch i lo hi start => set_group s i (watch_begin lo hi start)
  | ACheck i id f => set_group s i (watch_check id f (b_world s))
  | AQuery i id f => set_group s i (watch_query id f (b_world s))
  | AFinish i id => set_group s i (watch_finish id)
  | AUnwatch i id => set_group s i (unwatch id)
  | ATake i => set_group s i take
  end.

(** Events put into updates for watch [id], in order. *)
Definition delivered (us : list update) (id : Z) : list event :=
  flat_map (fun u => flat_map (fun x => if fst x =? id then snd x else []) (u_watchers u)) us.

(** What can happen: other servers issue allowed statements, and watches have a
    range end (ServeRequests, pkg/limited/watch.go:62-65, and ttl.go:82 always
    pass one). *)
Definition possible (s : bstate) (a : action) : Prop :=
  match a with
  | AEnv op => allowed (snd (b_world s)) op
  | AWatch _ _ hi _ => hi <> []
  | _ => True
  end.
(** States the server can be in, starting on any reachable database. *)
Inductive breach : bstate -> Prop :=
| breach_start w : wreach w -> breach (bstart w)
| breach_step s a : breach s -> possible s a -> breach (bstep s a).

(** All changes after revision [a] are still stored: [a] is not below the floor, or
    it is just below it and the change at the floor is not a deletion. *)
Definition kept (s : store) (a : Z) : Prop :=
  floor_of s <= a \/
  floor_of s = a + 1 /\ forall k, nth_error (history_of s) (Z.to_nat a) <> Some (Entry k Del).

(** Executions in which compaction stays behind the poller and behind the start
    of registrations in progress, and initial queries are not cut short. *)
Definition calm (s : bstate) (a : action) : Prop :=
  match a with
  | AFetch _ => kept (snd (b_world s)) (b_poll s)
  | AQuery i id f => no_cut f /\
      forall g r p, nth_error (b_groups s) i = Some g -> pending_of id g = Some (r, p) ->
        kept (snd (b_world s)) (r_start r - 1)
  | _ => True
  end.
(** Specification vocabulary (not code): executions that satisfy the proviso. *)
Inductive calm_reach : bstate -> Prop :=
| calm_start w : wreach w -> calm_reach (bstart w)
| calm_step s a : calm_reach s -> possible s a -> calm s a -> calm_reach (bstep s a).

(** Delivery for a registration begins after this revision: just before the
    requested one, but never after the group's position at the time. *)
Definition begins (r : reg) : Z :=
  if 0 <? r_start r then Z.min (r_start r - 1) (r_captured r) else r_captured r.

(** One round of the poll loop on a healthy database. *)
Definition poll_round (s : bstate) : bstate := bstep (bstep s (AFetch NoFault)) APublish.
(** n rounds of the loop of watcher.go:185-214. *)
Fixpoint poll_rounds (n : nat) (s : bstate) : bstate :=
  match n with O => s | S n' => poll_rounds n' (poll_round s) end.
