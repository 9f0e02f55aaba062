(** pkg/database/prepared.go: the cache of prepared statements.
    Simplifications:
    - a statement is a number, fresh for every successful PrepareContext on the
      underlying database; the text of a query is a byte string;
    - the read-locked lookup (prepared.go:78-83) is one step, the write-locked part
      of prepare (prepared.go:85-106) another, Close (prepared.go:124-142) a third;
    - executing a statement after prepare returned it is database/sql's business;
      [p_handed] records what prepare returned;
    - errors of stmt.Close and of closing the underlying database only change the
      error Close returns: not modelled. *)
From Coq Require Import List ZArith Bool.
From Verif Require Import Bytes Prog.
Import ListNotations.

(** preparedDb (prepared.go:22-26) and the statements open on the underlying database. *)
Record pstate := PState {
  p_open : bool;                       (* underlying <> nil *)
  p_cache : list (bytes * nat);        (* nil map after Close: empty *)
  p_next : nat;
  p_prepared : list (bytes * nat);     (* ghost: every statement ever prepared *)
  p_closed : list nat;                 (* ghost: stmt.Close calls *)
  p_waiting : list bytes;              (* calls between the two critical sections *)
  p_handed : list (bytes * nat);       (* ghost: what prepare returned *)
  p_refused : nat;                     (* ghost: calls answered errDBClosed *)
  p_panicked : bool }.                 (* a method of the nil underlying was called *)

(** prepared.go:31-37 *)
Definition p_init : pstate := PState true [] 0 [] [] [] [] 0 false.

(** One step of a caller (prepared.go:39-172). *)
Inductive paction :=
| PLookup (q : bytes)              (* prepared.go:78-83 *)
| PPrepare (i : nat) (fails : bool)  (* prepared.go:85-106 for the i-th waiting call *)
| PClose                           (* prepared.go:124-142 *)
| PBeginTx                         (* prepared.go:112-122 *)
| PConn                            (* prepared.go:108-110 *)
| PDirect.                         (* PrepareContext, prepared.go:67-69 *)

(** The map cache (prepared.go:25). *)
Definition lookup (q : bytes) (c : list (bytes * nat)) : option nat :=
  option_map snd (find (fun x => beqb (fst x) q) c).
(** A caller is done. *)
Fixpoint remove_nth {A} (i : nat) (l : list A) : list A :=
  match l, i with [], _ => [] | _ :: r, O => r | x :: r, S j => x :: remove_nth j r end.

(** Effect of one action (prepared.go:39-172). *)
Definition pstep (s : pstate) (a : paction) : pstate :=
  match a with
  | PLookup q =>
      match lookup q (p_cache s) with
      | Some n => PState (p_open s) (p_cache s) (p_next s) (p_prepared s) (p_closed s) (p_waiting s) (p_handed s ++ [(q, n)]) (p_refused s) (p_panicked s)
      | None => PState (p_open s) (p_cache s) (p_next s) (p_prepared s) (p_closed s) (p_waiting s ++ [q]) (p_handed s) (p_refused s) (p_panicked s)
      end
  | PPrepare i fails =>
      match nth_error (p_waiting s) i with
      | None => s
      | Some q =>
          let wait := remove_nth i (p_waiting s) in
          if negb (p_open s)
          then PState (p_open s) (p_cache s) (p_next s) (p_prepared s) (p_closed s) wait (p_handed s) (S (p_refused s)) (p_panicked s)
          else match lookup q (p_cache s) with
          | Some n => PState (p_open s) (p_cache s) (p_next s) (p_prepared s) (p_closed s) wait (p_handed s ++ [(q, n)]) (p_refused s) (p_panicked s)
          | None =>
              if fails
              then PState (p_open s) (p_cache s) (p_next s) (p_prepared s) (p_closed s) wait (p_handed s) (p_refused s) (p_panicked s)
              else PState (p_open s) (p_cache s ++ [(q, p_next s)]) (S (p_next s)) (p_prepared s ++ [(q, p_next s)]) (p_closed s) wait
                          (p_handed s ++ [(q, p_next s)]) (p_refused s) (p_panicked s)
          end
      end
  | PClose =>
      PState false [] (p_next s) (p_prepared s) (p_closed s ++ map snd (p_cache s)) (p_waiting s) (p_handed s) (p_refused s)
             (p_panicked s || negb (p_open s))
  | PBeginTx | PConn | PDirect =>
      PState (p_open s) (p_cache s) (p_next s) (p_prepared s) (p_closed s) (p_waiting s) (p_handed s) (p_refused s)
             (p_panicked s || negb (p_open s))
  end.
(** Reachable states. *)
Inductive preach : pstate -> Prop :=
| preach_init : preach p_init
| preach_step s a : preach s -> preach (pstep s a).
