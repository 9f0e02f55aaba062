(** pkg/instrument/dqlite.go: a listener that hands the connections it accepts to a channel, and connections that count
    bytes. *)
From Coq Require Import List ZArith Bool.
Import ListNotations.
Open Scope Z_scope.

(** The field netListener (dqlite.go:16): nil; listening; closed by Close, but not yet nil (dqlite.go:93-98). *)
Inductive net_state := NetNone | NetOpen | NetClosed.
(** The goroutine of Listen (dqlite.go:47-60): none yet; in Accept (50); back from it, with a connection or an error
    (51-55); sending the connection on the unbuffered channel AcceptedConns (57); returned (48).
    Simplification: connections are numbers. *)
Inductive goroutine := GNone | GAccept | GBack (r : option nat) | GSend (c : nat) | GDone.
(** Errors kept in the field err (dqlite.go:54, 94); simplification: only where they come from. *)
Inductive lerror := AcceptFailed | CloseFailed.
(** A Listener (dqlite.go:13-20), its context, and its surroundings.  [l_waiting]: connections that clients have
    made and Accept has not returned yet; [l_out]: what the application received from AcceptedConns, oldest
    first; [l_lost]: connections returned by Accept that nobody got (dqlite.go:50-53); [l_closing]: calls of Close that
    are in wg.Wait (dqlite.go:97); [l_panic]: a send on a closed channel or a second close of it has
    crashed the process.  Simplification: the goroutines of earlier calls of Listen have returned when there is a new one
    (Close waits for them); the wait group is the state of the goroutine. *)
Record listener := Listener {
  l_net : net_state; l_go : goroutine; l_ctx : bool; l_chan_closed : bool;
  l_waiting : list nat; l_out : list nat; l_lost : list nat; l_errs : list lerror; l_closing : nat; l_panic : bool }.
(** NewListener (dqlite.go:27-33), with a context that is not cancelled. *)
Definition new_listener : listener := Listener NetNone GNone false false [] [] [] [] 0 false.
(** What happens: a call of Listen whose system call succeeds or not; a client connects; a step of the goroutine (Accept
    may fail by itself); the application receives; the context is cancelled; Close is called, and closing the
    socket reports an error or not; a waiting Close goes on. *)
Inductive laction := LListen (ok : bool) | LConnect (c : nat) | LAccept (fails : bool) | LLook | LReceive | LCancel | LClose (fails : bool) | LWaited.
(** One step; steps that are not possible (blocked) change nothing.  Listen: dqlite.go:35-46; the goroutine: 47-60;
    Close: 88-100.  After a panic nothing happens any more. *)
Definition lstep (s : listener) (a : laction) : listener :=
  if l_panic s then s else
  match a with
  | LListen ok =>
      match l_net s with
      | NetNone => if ok then Listener NetOpen GAccept (l_ctx s) (l_chan_closed s) [] (l_out s) (l_lost s) (l_errs s) (l_closing s) false else s
      | _ => s
      end
  | LConnect c =>
      match l_net s with
      | NetOpen => Listener NetOpen (l_go s) (l_ctx s) (l_chan_closed s) (l_waiting s ++ [c]) (l_out s) (l_lost s) (l_errs s) (l_closing s) false
      | _ => s
      end
  | LAccept fails =>
      match l_go s with
      | GAccept =>
          match l_net s, fails, l_waiting s with
          | NetOpen, false, [] => s
          | NetOpen, false, c :: rest => Listener NetOpen (GBack (Some c)) (l_ctx s) (l_chan_closed s) rest (l_out s) (l_lost s) (l_errs s) (l_closing s) false
          | n, _, w => Listener n (GBack None) (l_ctx s) (l_chan_closed s) w (l_out s) (l_lost s) (l_errs s) (l_closing s) false
          end
      | _ => s
      end
  | LLook =>
      match l_go s with
      | GBack r =>
          if l_ctx s then Listener (l_net s) GDone true (l_chan_closed s) (l_waiting s) (l_out s) (match r with Some c => l_lost s ++ [c] | None => l_lost s end) (l_errs s) (l_closing s) false
          else match r with
               | None => Listener (l_net s) GDone false (l_chan_closed s) (l_waiting s) (l_out s) (l_lost s) (l_errs s ++ [AcceptFailed]) (l_closing s) false
               | Some c => Listener (l_net s) (GSend c) false (l_chan_closed s) (l_waiting s) (l_out s) (l_lost s) (l_errs s) (l_closing s) (l_chan_closed s)
               end
      | _ => s
      end
  | LReceive =>
      match l_go s with
      | GSend c => Listener (l_net s) GAccept (l_ctx s) (l_chan_closed s) (l_waiting s) (l_out s ++ [c]) (l_lost s) (l_errs s) (l_closing s) false
      | _ => s
      end
  | LCancel => Listener (l_net s) (l_go s) true (l_chan_closed s) (l_waiting s) (l_out s) (l_lost s) (l_errs s) (l_closing s) false
  | LClose fails =>
      match l_net s with
      | NetNone => s
      | _ => Listener NetClosed (l_go s) (l_ctx s) (l_chan_closed s) (l_waiting s) (l_out s) (l_lost s)
               (if fails then l_errs s ++ [CloseFailed] else l_errs s) (S (l_closing s)) false
      end
  | LWaited =>
      match l_closing s, l_go s with
      | S n, GDone => Listener NetNone GDone (l_ctx s) true (l_waiting s) (l_out s) (l_lost s) (l_errs s) n (l_chan_closed s)
      | _, _ => s
      end
  end.
(** A whole run. *)
Definition lrun (l : list laction) : listener := fold_left lstep l new_listener.

(** The byte counters (dqlite.go:17, 71-86, 108-124): a write or a read of [n] bytes, whether it fails or not, adds [n];
    Metrics loads both, ResetMetrics stores 0 in both; all four are separate atomic operations. *)
Inductive mop := MWrite (n : Z) | MRead (n : Z) | MLoadW | MLoadR | MStoreW | MStoreR.
(** Written, read, and the values loaded so far, oldest first (dqlite.go:76-86). *)
Record meter := Meter { m_written : Z; m_read : Z; m_loads : list (bool * Z) }.
(** One atomic operation (dqlite.go:76-86, 114-124).  Simplification: int64 does not overflow. *)
Definition mstep (s : meter) (a : mop) : meter :=
  match a with
  | MWrite n => Meter (m_written s + n) (m_read s) (m_loads s)
  | MRead n => Meter (m_written s) (m_read s + n) (m_loads s)
  | MLoadW => Meter (m_written s) (m_read s) (m_loads s ++ [(true, m_written s)])
  | MLoadR => Meter (m_written s) (m_read s) (m_loads s ++ [(false, m_read s)])
  | MStoreW => Meter 0 (m_read s) (m_loads s)
  | MStoreR => Meter (m_written s) 0 (m_loads s)
  end.
(** A run of the counters of a new listener (dqlite.go:27-33). *)
Definition mrun (l : list mop) : meter := fold_left mstep l (Meter 0 0 []).
