(** The whole system with its expiry goroutines: the servers of Whole.v, on each of them the
    goroutine of ttl.go (Ttl.v) with the timers it has started, and a clock.  Here a deletion for
    an expired lease is what it is in the code: a request of the backend of that server
    (b.Delete, ttl.go:92-95; ttl.go:18-30), served by the same driver and the same batching
    layer as those of clients, and nothing else asks for one.
    Simplifications: those of Whole.v and Ttl.v; [c_stamps] is ghost: the time at which each
    revision was committed. *)
From Coq Require Import List ZArith Bool.
From Verif Require Import Bytes Spec Sql System Prog Backend Limited Api Pool Ledger Batch BatchKine Node Watch Stream Resume Whole Ttl.
Import ListNotations.
Open Scope Z_scope.

(** The expiry goroutine of a server: where it is, the timers it started (ttl.go:12-99);
    ghost: see [t_ack]. *)
Record expiry := Expiry { x_phase : tphase; x_timers : list timer; x_ack : option nat }.
(** A server starts its goroutine in Start (backend.go:85-113). *)
Definition expiry_init : expiry := Expiry TPRev [] None.
(** Servers and database (Whole.v), the clock, the ghost stamps, the goroutines. *)
Record cstate := CState { c_whole : kstate; c_clock : Z; c_stamps : list Z; c_expiry : list expiry }.
(** No server, empty database, at time 0. *)
Definition cinit : cstate := CState kinit 0 [] [].
(** The database. *)
Definition c_world (s : cstate) : world := n_world (k_node (c_whole s)).

(** One server as Ttl.v sees it. *)
Definition view (s : cstate) (j : nat) : option tstate :=
  match nth_error (k_servers (c_whole s)) j, nth_error (c_expiry s) j with
  | Some v, Some x => Some (TState (seen (c_world s) (k_back v)) (c_clock s) (c_stamps s) (x_phase x) (x_timers x) (x_ack x))
  | _, _ => None
  end.
(** What a step of the goroutine does with the watcher groups of its server (ttl.go:73-85). *)
Definition backend_part (p : tphase) (a : taction) : option action :=
  match a, p with
  | TGroup, TPGroup _ => Some ANewGroup
  | TWatch, TPBegin start i => Some (AWatch i ttl_lo ttl_hi start)
  | TCheck f, TPWatching _ i => Some (ACheck i 1 f)
  | TQuery f, TPWatching _ i => Some (AQuery i 1 f)
  | TFinish, TPWatching _ i => Some (AFinish i 1)
  | TRecv _, TPLoop _ i => Some (ATake i)
  | _, _ => None
  end.

(** One step of the cluster. *)
Inductive caction :=
| CWhole (x : kaction)             (* clients, compaction, batching, polling, streams, crashes *)
| CTime (d : Z)                    (* time passes *)
| CExpiry (j : nat) (a : taction)  (* a step of the goroutine of server [j] (not of a timer) *)
| CFire (j n : nat).               (* ttl.go:18-30: timer [n] of server [j] is due and asks for its deletion *)
(** Only timers ask for deletions on behalf of leases (ttl.go:24); the group of the goroutine is its own. *)
Definition not_expiry (s : cstate) (x : kaction) : bool :=
  match x with
  | KNode (NAsk _ (WExpire _ _)) => false
  | KBack j a => match nth_error (c_expiry s) j with Some e => outside (x_phase e) a | None => true end
  | _ => true
  end.
(** The step of Whole.v that it is, if any. *)
Definition whole_part (s : cstate) (a : caction) : option kaction :=
  match a with
  | CWhole x => Some x
  | CTime _ => None
  | CExpiry j a => match nth_error (c_expiry s) j with Some e => option_map (KBack j) (backend_part (x_phase e) a) | None => None end
  | CFire j n =>
      match nth_error (c_expiry s) j with
      | Some e => match nth_error (x_timers e) n with Some tm => Some (KNode (NAsk j (WExpire (tm_key tm) (tm_rev tm)))) | None => None end
      | None => None
      end
  end.
(** New servers and those that start again have a new goroutine (backend.go:85-113). *)
Definition restarted (x : kaction) (es : list expiry) : list expiry :=
  match x with KBoot => es ++ [expiry_init] | KCrash j => put j expiry_init es | _ => es end.
(** The rest of the system moves on. *)
Definition with_whole (s : cstate) (k : kstate) (es : list expiry) : cstate :=
  CState k (c_clock s) (stamp (c_clock s) (c_stamps s) (n_world (k_node k))) es.

(** The step, if it is possible (ttl.go:12-99 on each server). *)
Definition cstep (cfg : driver_cfg) (s : cstate) (a : caction) : option cstate :=
  let moved := match whole_part s a with Some x => kstep cfg (c_whole s) x | None => Some (c_whole s) end in
  match a with
  | CWhole x => if not_expiry s x then option_map (fun k => with_whole s k (restarted x (c_expiry s))) moved else None
  | CTime d => Some (CState (c_whole s) (c_clock s + Z.max 0 d) (c_stamps s) (c_expiry s))
  | CExpiry j (TBack _ | TTime _ | TAttempt _ _) => None
  | CExpiry j a =>
      match view s j, moved with
      | Some t, Some k => let t' := tstep t a in Some (with_whole s k (put j (Expiry (t_phase t') (t_timers t') (t_ack t')) (c_expiry s)))
      | _, _ => None
      end
  | CFire j n =>
      match view s j with
      | Some t => match nth_error (t_timers t) n with
                  | Some tm => if tm_due tm <=? c_clock s then option_map (fun k => with_whole s k (c_expiry s)) moved else None
                  | None => None
                  end
      | None => None
      end
  end.

(** Faults and provisos as in Whole.v; what timers ask for is not restricted.  [st] = true: besides,
    the start-up scan is read to its end (ttl.go:56-71, Ttl.v). *)
Definition caction_ok (okf : fault -> Prop) (st : bool) (s : cstate) (a : caction) : Prop :=
  match a with
  | CFire _ _ => True
  | CExpiry _ (TList f) => st = true -> no_cut f
  | _ => match whole_part s a with Some x => kaction_ok okf st (c_whole s) x | None => True end
  end.
(** Any execution. *)
Inductive creach (cfg : driver_cfg) (okf : fault -> Prop) (st : bool) : cstate -> Prop :=
| creach_init : creach cfg okf st cinit
| creach_step s a s' : creach cfg okf st s -> caction_ok okf st s a -> cstep cfg s a = Some s' -> creach cfg okf st s'.

(** A run: the steps one after the other, if all are possible. *)
Fixpoint crun (cfg : driver_cfg) (xs : list caction) (s : cstate) : option cstate :=
  match xs with [] => Some s | x :: xs => match cstep cfg s x with Some s' => crun cfg xs s' | None => None end end.
(** Specification vocabulary (not code): everything asked, committed and answered so far. *)
Definition c_log (s : cstate) : ledger := dids (k_log (c_whole s)).
(** Specification vocabulary (not code): the time at which revision [r] was committed. *)
Definition committed_at (s : cstate) (r : Z) : option Z := if 1 <=? r then nth_error (c_stamps s) (Z.to_nat (r - 1)) else None.
