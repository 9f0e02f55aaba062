(** pkg/backend/internal/backend/ttl.go: the expiry goroutine of a server, next to
    everything else the server and others do (Watch.v), with a clock.
    Simplifications:
    - time is in nanoseconds since any origin, an unbounded integer; int64
      arithmetic on durations is modelled with wrap-around;
    - a timer's goroutine may run its delete any number of times once due
      (backoff.Retry, ttl.go:32-40, retries until the delete reports no error; more
      attempts than the code makes are harmless for the properties stated);
    - an attempt of Delete is one statement (driver.go:557-580); the retries inside
      the driver are further attempts;
    - [t_stamps] is ghost: the time at which each revision was written;
      [t_ack] is ghost: how many updates had been published when Watch returned. *)
From Coq Require Import List ZArith Bool.
From Verif Require Import Bytes Spec Sql System Prog Backend Watch.
Import ListNotations.
Open Scope Z_scope.

(** Go int64 arithmetic *)
Definition wrap64 (z : Z) : Z := (z + 2 ^ 63) mod 2 ^ 64 - 2 ^ 63.
(** time.Second in nanoseconds. *)
Definition second : Z := 1000000000.
(** time.Millisecond in nanoseconds. *)
Definition millisecond : Z := 1000000.
(** time.Duration(lease)*time.Second (ttl.go:70) *)
Definition lease_duration (lease : Z) : Z := wrap64 (lease * second).
(** time.Duration(lease)*time.Second + jitterDelay (ttl.go:91-92) *)
Definition jittered (lease jitter : Z) : Z := wrap64 (lease_duration lease + jitter mod 1000 * millisecond).
(** time.After(d) fires at once if d <= 0 (Go runtime, time.when) *)
Definition due_at (now d : Z) : Z := now + Z.max 0 d.

(** run(ctx, key, revision, timeout), ttl.go:13-44 *)
Record timer := Timer { tm_key : bytes; tm_rev : Z; tm_lease : Z; tm_start : Z; tm_due : Z }.

(** Where the goroutine of ttl.go:47-98 is. *)
Inductive tphase :=
| TPRev                                (* before CurrentRevision *)
| TPList (start : Z)                   (* before ListTTL *)
| TPGroup (start : Z)                  (* before WatcherGroup *)
| TPBegin (start : Z) (i : nat)        (* before Watch *)
| TPWatching (start : Z) (i : nat)     (* in Watch *)
| TPLoop (start : Z) (i : nat)         (* ranging over Updates() *)
| TPEnd.                               (* returned *)

(** State of the expiry goroutine (ttl.go:12-99) on top of the backend. *)
Record tstate := TState {
  t_b : bstate; t_now : Z; t_stamps : list Z; t_phase : tphase; t_timers : list timer; t_ack : option nat }.

(** the key range watched, ttl.go:82 *)
Definition ttl_lo : bytes := [0%N].
(** []byte{255} of ttl.go:82. *)
Definition ttl_hi : bytes := [255%N].

(** One step of the goroutine, of the clock, or of the backend (ttl.go:47-98). *)
Inductive taction :=
| TBack (a : action)            (* anything else *)
| TTime (d : Z)                 (* time passes *)
| TRev (f : fault)              (* ttl.go:50-54 *)
| TList (f : fault)             (* ttl.go:56-71 *)
| TGroup                        (* ttl.go:73-77 *)
| TWatch                        (* ttl.go:80 *)
| TCheck (f : fault)
| TQuery (f : fault)
| TFinish
| TRecv (jitter : list Z)       (* ttl.go:85-96 *)
| TAttempt (j : nat) (f : fault).  (* ttl.go:18-30 for timer j *)

(** The watcher group the goroutine created (ttl.go:71-83). *)
Definition own_group (p : tphase) : option nat :=
  match p with TPBegin _ i | TPWatching _ i | TPLoop _ i => Some i | _ => None end.
(** actions that are not the goroutine's own *)
Definition outside (p : tphase) (a : action) : bool :=
  match own_group p with
  | None => true
  | Some i => match a with
      | AWatch j _ _ _ | ACheck j _ _ | AQuery j _ _ | AFinish j _ | AUnwatch j _ | ATake j | AStopGroup j => negb (Nat.eqb j i)
      | _ => true
      end
  end.

(** time stamps of newly written revisions *)
Definition stamp (now : Z) (stamps : list Z) (w : world) : list Z :=
  stamps ++ repeat now (length (history_of (snd w)) - length stamps).
(** The backend part changes. *)
Definition with_tb (s : tstate) (b : bstate) : tstate :=
  TState b (t_now s) (stamp (t_now s) (t_stamps s) (b_world b)) (t_phase s) (t_timers s) (t_ack s).
(** The goroutine moves on. *)
Definition with_phase (s : tstate) (p : tphase) : tstate :=
  TState (t_b s) (t_now s) (t_stamps s) p (t_timers s) (t_ack s).

(** driver.go:742-771 as one step *)
Definition rev_result (f : fault) (w : world) : result Z :=
  match snd (sem f CRev w) with
  | Ok rs => match one_row rs with Ok (Some z) => Ok z | Ok None => Err ENull | Err e => Err e end
  | Err e => Err e
  end.

(** ttl.go:62-71: rows.Err() is not looked at *)
Definition list_timers (now : Z) (rs : rowset (Z * bytes * Z)) : list timer :=
  map (fun x => Timer (snd (fst x)) (fst (fst x)) (snd x) now (due_at now (lease_duration (snd x)))) (rs_rows rs).

(** ttl.go:86-93 *)
Fixpoint event_timers (now : Z) (jitter : list Z) (evs : list event) : list timer :=
  match evs with
  | [] => []
  | ev :: rest =>
      let k := ev_kv ev in
      let '(x, jitter') := match jitter with [] => (0, []) | x :: l => (x, l) end in
      if 0 <? kv_lease k
      then Timer (kv_key k) (kv_mod k) (kv_lease k) now (due_at now (jittered (kv_lease k) x)) :: event_timers now jitter' rest
      else event_timers now jitter' rest
  end.

(** what Watch returned for watch 1, if it has *)
Definition watch_returned (i : nat) (b : bstate) : option (watch_result * nat) :=
  match nth_error (b_groups b) i with
  | Some g => match find (fun x => fst x =? 1) (g_returns g) with
              | Some (_, r) => Some (r, length (g_updates g))
              | None => None
              end
  | None => None
  end.
(** one step of the Watch call; an error is only logged (ttl.go:81-83) *)
Definition t_watch_step (s : tstate) (start : Z) (i : nat) (a : action) : tstate :=
  let s1 := with_tb s (bstep (t_b s) a) in
  match watch_returned i (t_b s1) with
  | Some (WOk, n) => TState (t_b s1) (t_now s1) (t_stamps s1) (TPLoop start i) (t_timers s1) (Some n)
  | Some (_, _) => TState (t_b s1) (t_now s1) (t_stamps s1) (TPLoop start i) (t_timers s1) None
  | None => with_phase s1 (TPWatching start i)
  end.

(** Effect of one action (ttl.go:12-99). *)
Definition tstep (s : tstate) (a : taction) : tstate :=
  match a with
  | TBack a => if outside (t_phase s) a then with_tb s (bstep (t_b s) a) else s
  | TTime d => TState (t_b s) (t_now s + Z.max 0 d) (t_stamps s) (t_phase s) (t_timers s) (t_ack s)
  | TRev f =>
      match t_phase s with
      | TPRev => match rev_result f (b_world (t_b s)) with
                 | Ok z => with_phase s (TPList z)
                 | Err _ => with_phase s TPEnd
                 end
      | _ => s
      end
  | TList f =>
      match t_phase s with
      | TPList start => match snd (sem f (CTtl start) (b_world (t_b s))) with
                 | Ok rs => TState (t_b s) (t_now s) (t_stamps s) (TPGroup start) (t_timers s ++ list_timers (t_now s) rs) (t_ack s)
                 | Err _ => with_phase s TPEnd
                 end
      | _ => s
      end
  | TGroup =>
      match t_phase s with
      | TPGroup start => with_phase (with_tb s (bstep (t_b s) ANewGroup)) (TPBegin start (length (b_groups (t_b s))))
      | _ => s
      end
  | TWatch => match t_phase s with TPBegin start i => t_watch_step s start i (AWatch i ttl_lo ttl_hi start) | _ => s end
  | TCheck f => match t_phase s with TPWatching start i => t_watch_step s start i (ACheck i 1 f) | _ => s end
  | TQuery f => match t_phase s with TPWatching start i => t_watch_step s start i (AQuery i 1 f) | _ => s end
  | TFinish => match t_phase s with TPWatching start i => t_watch_step s start i (AFinish i 1) | _ => s end
  | TRecv jitter =>
      match t_phase s with
      | TPLoop start i =>
          match nth_error (b_groups (t_b s)) i with
          | Some g => match nth_error (g_updates g) (g_taken g) with
                      | Some u => TState (bstep (t_b s) (ATake i)) (t_now s) (t_stamps s) (t_phase s)
                                    (t_timers s ++ event_timers (t_now s) jitter (flat_map snd (u_watchers u))) (t_ack s)
                      | None => if g_open g then s else with_phase s TPEnd
                      end
          | None => s
          end
      | _ => s
      end
  | TAttempt j f =>
      match nth_error (t_timers s) j with
      | Some tm => if tm_due tm <=? t_now s
                   then with_tb s (BState (fst (sem f (CExec (ADelete (tm_key tm) (tm_rev tm))) (b_world (t_b s))))
                                          (b_poll (t_b s)) (b_batch (t_b s)) (b_dead (t_b s)) (b_groups (t_b s)))
                   else s
      | None => s
      end
  end.

(** Reachable states: the goroutine starts on any reachable server, at any time,
    the existing revisions having been written at any earlier times. *)
Definition tpossible (s : tstate) (a : taction) : Prop := match a with TBack a => possible (t_b s) a | _ => True end.
(** Reachable states. *)
Inductive treach : tstate -> Prop :=
| treach_start b now stamps : breach b -> length stamps = length (history_of (snd (b_world b))) -> Forall (fun x => x <= now) stamps ->
    treach (TState b now stamps TPRev [] None)
| treach_step s a : treach s -> tpossible s a -> treach (tstep s a).

(** The same under the proviso of C24 and without cut result sets. *)
Definition tcalm_step (s : tstate) (a : taction) : Prop :=
  match a with
  | TBack a => calm (t_b s) a
  | TList f => no_cut f
  | TQuery f => match t_phase s with TPWatching _ i => calm (t_b s) (AQuery i 1 f) | _ => True end
  | _ => True
  end.
(** Specification vocabulary (not code): executions under the proviso. *)
Inductive tcalm : tstate -> Prop :=
| tcalm_start b now stamps : calm_reach b -> length stamps = length (history_of (snd (b_world b))) -> Forall (fun x => x <= now) stamps ->
    tcalm (TState b now stamps TPRev [] None)
| tcalm_next s a : tcalm s -> tpossible s a -> tcalm_step s a -> tcalm (tstep s a).
