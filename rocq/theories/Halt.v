(** Stop (backend.go:115-127) and the goroutines of a backend: the poll loop (Poller.v), the
    compaction goroutine (Compactor.v), the expiry goroutine and the goroutines of its timers
    (Ttl.v), on one database with everything else (Watch.v).
    Simplifications:
    - a database call of the poll loop, of compaction and of the expiry goroutine is one step,
      with its outcome; the deletion by a timer is two: it is sent (only while the context is
      not cancelled: database/sql looks at the context first), and it ends, later;
    - any revision may be put into the channel Notify at any time (Poller.v says by whom);
    - the mutex, which Stop does not hold while it waits, is in Server.v (C158). *)
From Coq Require Import List ZArith Bool.
From Verif Require Import Bytes Spec Sql System Prog Backend Watch Ttl Poller.
Import ListNotations.
Open Scope Z_scope.

(** The server and the call of Stop. *)
Record hstate := HState {
  h_t : tstate;                             (* database, watches, poll position, expiry goroutine, timers: Ttl.v *)
  h_more : bool; h_go : bool;               (* poll loop: watcher.go:187-199 *)
  h_notify : list Z; h_tick : bool;         (* its channels *)
  h_run : option (prog (result unit));      (* compaction: the run under way (backend.go:291) *)
  h_over : bool;                            (* the compaction goroutine has returned (backend.go:289) *)
  h_flight : list nat;                      (* timers whose deletion is on its way (ttl.go:20) *)
  h_done : bool;                            (* the context is cancelled (backend.go:121) *)
  h_returned : bool }.                      (* Stop has returned (backend.go:125-126) *)

(** Everything that can happen. *)
Inductive haction :=
| HT (a : taction)                 (* requests, other servers, the clock, the expiry goroutine (not its timers) *)
| HNotify (r : Z)                  (* a notification of a write *)
| HTickP                           (* the ticker of the poll loop *)
| HLoop (c : branch) (f : fault)   (* the poll loop takes a step *)
| HTickC                           (* compaction: select takes the ticker's branch (backend.go:290) *)
| HCall (f : fault)                (* compaction: the next statement *)
| HEndRun                          (* compaction: back to select *)
| HDoneC                           (* compaction: select takes ctx.Done() (backend.go:288-289) *)
| HSend (j : nat)                  (* timer j sends its deletion (ttl.go:17-20) *)
| HLand (j : nat) (f : fault)      (* it ends *)
| HAfter                           (* context.AfterFunc of the expiry goroutine's group (watcher.go:276-281) *)
| HStop                            (* backend.go:121: the context is cancelled *)
| HReturn.                         (* backend.go:125: wg.Wait() may return *)

(** Steps of Ttl.v that are taken by other actions here: the poll loop and the timers. *)
Definition elsewhere (a : taction) : bool :=
  match a with
  | TBack (AFetch _) | TBack APublish | TAttempt _ _ => true
  | _ => false
  end.
(** The part of Ttl.v changes (ttl.go:12-99). *)
Definition with_t (s : hstate) (t : tstate) : hstate :=
  HState t (h_more s) (h_go s) (h_notify s) (h_tick s) (h_run s) (h_over s) (h_flight s) (h_done s) (h_returned s).
(** The database changes (backend.go:291). *)
Definition with_world (s : hstate) (w : world) : hstate :=
  let b := t_b (h_t s) in
  with_t s (with_tb (h_t s) (BState w (b_poll b) (b_batch b) (b_dead b) (b_groups b))).
(** Compaction moves on (backend.go:286-295). *)
Definition with_run (s : hstate) (r : option (prog (result unit))) (over : bool) : hstate :=
  HState (h_t s) (h_more s) (h_go s) (h_notify s) (h_tick s) r over (h_flight s) (h_done s) (h_returned s).
(** The poll loop as in Poller.v. *)
Definition as_loop (s : hstate) : lstate :=
  LState (t_b (h_t s)) (h_more s) (h_go s) (h_notify s) (h_tick s) (h_done s) [].
(** All goroutines that are counted in s.wg have called wg.Done(): the poll loop
    (backend.go:298-301), compaction (282-296), expiry (104-108, ttl.go:46-98). *)
Definition counted_gone (s : hstate) : bool :=
  b_dead (t_b (h_t s)) && h_over s && match t_phase (h_t s) with TPEnd => true | _ => false end.

(** One step (backend.go:104-127, 282-301; watcher.go:185-214; ttl.go:12-99). *)
Definition hstep (cfg : driver_cfg) (s : hstate) (a : haction) : hstate :=
  match a with
  | HT a => if elsewhere a then s else with_t s (tstep (h_t s) a)
  | HNotify r =>
      if (length (h_notify s) <? notify_size)%nat
      then HState (h_t s) (h_more s) (h_go s) (h_notify s ++ [r]) (h_tick s) (h_run s) (h_over s) (h_flight s) (h_done s) (h_returned s)
      else s
  | HTickP => HState (h_t s) (h_more s) (h_go s) (h_notify s) true (h_run s) (h_over s) (h_flight s) (h_done s) (h_returned s)
  | HLoop c f =>
      let l := loop c f (as_loop s) in
      HState (with_tb (h_t s) (l_b l)) (l_more l) (l_go l) (l_notify l) (l_tick l) (h_run s) (h_over s) (h_flight s) (h_done s) (h_returned s)
  | HTickC =>
      match h_run s with
      | None => if h_over s then s else with_run s (Some (b_do_compact cfg)) false
      | Some _ => s
      end
  | HCall f =>
      match h_run s with
      | Some (Call c k) =>
          let r := sem f c (b_world (t_b (h_t s))) in
          with_run (with_world s (fst r)) (Some (k (snd r))) (h_over s)
      | _ => s
      end
  | HEndRun => match h_run s with Some (Ret _) => with_run s None (h_over s) | _ => s end
  | HDoneC => match h_run s with None => if h_done s then with_run s None true else s | Some _ => s end
  | HSend j =>
      match nth_error (t_timers (h_t s)) j with
      | Some tm =>
          if (tm_due tm <=? t_now (h_t s)) && negb (h_done s)
          then HState (h_t s) (h_more s) (h_go s) (h_notify s) (h_tick s) (h_run s) (h_over s) (h_flight s ++ [j]) (h_done s) (h_returned s)
          else s
      | None => s
      end
  | HLand j f =>
      if existsb (Nat.eqb j) (h_flight s)
      then HState (tstep (h_t s) (TAttempt j f)) (h_more s) (h_go s) (h_notify s) (h_tick s) (h_run s) (h_over s)
                  (remove Nat.eq_dec j (h_flight s)) (h_done s) (h_returned s)
      else s
  | HAfter =>
      if h_done s
      then match own_group (t_phase (h_t s)) with
           | Some i => with_t s (with_tb (h_t s) (bstep (t_b (h_t s)) (AStopGroup i)))
           | None => s
           end
      else s
  | HStop => HState (h_t s) (h_more s) (h_go s) (h_notify s) (h_tick s) (h_run s) (h_over s) (h_flight s) true (h_returned s)
  | HReturn => if h_done s && counted_gone s
      then HState (h_t s) (h_more s) (h_go s) (h_notify s) (h_tick s) (h_run s) (h_over s) (h_flight s) true true
      else s
  end.

(** The state after Start on the database [w] (backend.go:85-113, startWatch 266-304): the
    goroutines are at their beginnings; [stamps] are the times of the existing revisions. *)
Definition hstart (w : world) (now : Z) (stamps : list Z) : hstate :=
  HState (TState (bstart w) now stamps TPRev [] None) true false [] false None false [] false false.

(** ---- specification vocabulary ---- *)
(** The state after the first [t] steps of an infinite schedule. *)
Fixpoint hat (cfg : driver_cfg) (s0 : hstate) (sch : nat -> haction) (t : nat) : hstate :=
  match t with O => s0 | S t => hstep cfg (hat cfg s0 sch t) (sch t) end.
(** ... after a finite one. *)
Definition hrun (cfg : driver_cfg) (s0 : hstate) (xs : list haction) : hstate := fold_left (hstep cfg) xs s0.
(** The outcome of a statement of one of the counted goroutines. *)
Definition outcome (a : haction) : option fault :=
  match a with
  | HLoop _ f | HCall f | HT (TRev f) | HT (TList f) | HT (TCheck f) | HT (TQuery f) => Some f
  | _ => None
  end.
(** [P] again and again. *)
Definition often (P : nat -> Prop) : Prop := forall t, exists t', (t <= t')%nat /\ P t'.
(** The goroutines get their turns, and AfterFunc and wg.Wait theirs: in select, the branch of
    the context is looked at again and again; for compaction, whose select may prefer the
    ticker, it is not passed over for ever: after [t] there is a [t'] such that, if the select
    is still executed after [t'], the branch has been taken since [t]. *)
Definition fair_halt (cfg : driver_cfg) (s0 : hstate) (sch : nat -> haction) : Prop :=
  often (fun t => exists f, sch t = HLoop BDone f) /\
  often (fun t => exists f, sch t = HCall f) /\ often (fun t => sch t = HEndRun) /\ often (fun t => sch t = HDoneC) /\
  (forall t, exists t', (t <= t')%nat /\ forall u, (t' <= u)%nat -> h_run (hat cfg s0 sch u) = None -> h_over (hat cfg s0 sch u) = false -> sch u = HTickC \/ sch u = HDoneC ->
     exists v, (t <= v <= u)%nat /\ h_run (hat cfg s0 sch v) = None /\ sch v = HDoneC) /\
  often (fun t => exists f, sch t = HT (TRev f)) /\ often (fun t => exists f, sch t = HT (TList f)) /\
  often (fun t => sch t = HT TGroup) /\ often (fun t => sch t = HT TWatch) /\
  often (fun t => exists f, sch t = HT (TCheck f)) /\ often (fun t => exists f, sch t = HT (TQuery f)) /\
  often (fun t => sch t = HT TFinish) /\ often (fun t => exists js, sch t = HT (TRecv js)) /\
  often (fun t => sch t = HAfter) /\ often (fun t => sch t = HReturn).
(** A statement of a client of any server, or of another server. *)
Definition by_others (a : haction) : Prop := match a with HT (TBack (AEnv _)) => True | _ => False end.
(** A step of the poll loop, of compaction or of the expiry goroutine. *)
Definition of_goroutines (a : haction) : Prop :=
  match a with
  | HLoop _ _ | HTickC | HCall _ | HEndRun | HDoneC
  | HT (TRev _) | HT (TList _) | HT TGroup | HT TWatch | HT (TCheck _) | HT (TQuery _) | HT TFinish | HT (TRecv _) => True
  | _ => False
  end.
