(** Connections and the statement cache: database/sql's pool with MaxOpenConns
    (pkg/server/server.go:69-81,490, flag datastore-max-open-connections of cmd/root.go),
    pkg/database/prepared.go and its users.
    Simplifications:
    - a statement text is a number; the result of a database call is one bit;
    - the read-locked lookup (prepared.go:78-80) is one step: nothing is waited for
      inside it; waiting writers do not block it here (in Go they do, but a waiting
      writer only waits for the current holder);
    - the pool is fair or not: any waiter may get a free connection;
    - cancellation is left out: the writer lock cannot be interrupted, and the contexts
      of the two transactions below live until the server stops. *)
From Coq Require Import List ZArith Bool.
Import ListNotations.
Open Scope Z_scope.

(** Who uses connections:
    - [Single]: QueryContext (driver.go:405-440), and a batch of one write
      (batched.go:119-124): prepare, then take a connection, run, give it back;
    - [Worker]: a batch of several writes (batched.go:126-155), there is one worker;
    - [Compactor]: tryCompact (driver.go:616-673), there is one compaction loop
      (backend.go:281-296).
    The latter two take a connection first (BeginTx) and prepare while holding it
    (prepared.go:140-152). *)
Inductive role := Single | Worker | Compactor.
(** Uses a transaction (batched.go:126-155, driver.go:616-673). *)
Definition is_tx (r : role) : bool := match r with Single => false | _ => true end.

(** Where a user is.  [q]: the statement being worked on. *)
Inductive pc :=
| Begin              (* BeginTx, wants a connection *)
| Lookup (q : nat)   (* prepared.go:78 *)
| WantLock (q : nat) (* prepared.go:85 *)
| Check (q : nat)    (* prepared.go:88-98, writer lock held *)
| WantConn (q : nat) (* prepared.go:100, writer lock held, wants a connection *)
| Prepare (q : nat)  (* the same, with a connection *)
| WantRun (q : nat)  (* stmt.ExecContext or QueryContext; transactions have their connection *)
| Run (q : nat)      (* running outside of a transaction, with a connection *)
| Finish             (* Commit or Rollback *)
| Done.
(** A goroutine using connections. *)
Record user := User { u_role : role; u_pc : pc; u_todo : list nat }.
(** [p_max <= 0]: no limit (database/sql SetMaxOpenConns) *)
Record pool := PoolState { p_max : Z; p_cache : list nat; p_lock : option nat; p_users : list user }.

(** connections a user holds *)
Definition holds (u : user) : Z :=
  (if is_tx (u_role u) then match u_pc u with Begin | Done => 0 | _ => 1 end else 0) +
  match u_pc u with
  | Prepare _ => 1
  | Run _ => if is_tx (u_role u) then 0 else 1
  | _ => 0
  end.
(** Connections taken (database/sql). *)
Definition in_use (s : pool) : Z := fold_right (fun u n => holds u + n) 0 (p_users s).
(** A connection can be taken: no limit, or the limit is not reached. *)
Definition free_conn (s : pool) : bool := (p_max s <=? 0) || (in_use s <? p_max s).
(** The statement is prepared (prepared.go:71-106). *)
Definition cached (s : pool) (q : nat) : bool := existsb (Nat.eqb q) (p_cache s).

(** One user moves on. *)
Fixpoint update_user (i : nat) (u : user) (l : list user) : list user :=
  match l, i with
  | [], _ => []
  | _ :: l, O => u :: l
  | x :: l, S i => x :: update_user i u l
  end.
(** One user moves on. *)
Definition set_user (s : pool) (i : nat) (u : user) : pool := PoolState (p_max s) (p_cache s) (p_lock s) (update_user i u (p_users s)).
(** The mutex of prepared.go:24 changes hands. *)
Definition set_lock (s : pool) (l : option nat) : pool := PoolState (p_max s) (p_cache s) l (p_users s).
(** The statement is stored (prepared.go:71-106). *)
Definition add_cache (s : pool) (q : nat) : pool := PoolState (p_max s) (q :: p_cache s) (p_lock s) (p_users s).

(** after a statement, or at the start *)
Definition next (u : user) : user :=
  match u_todo u with
  | q :: rest => User (u_role u) (Lookup q) rest
  | [] => User (u_role u) (if is_tx (u_role u) then Finish else Done) []
  end.
(** a call failed: a transaction is rolled back, anything else gives up *)
Definition give_up (u : user) : user := User (u_role u) (if is_tx (u_role u) then Finish else Done) [].
(** The user moves on. *)
Definition at_pc (u : user) (p : pc) : user := User (u_role u) p (u_todo u).

(** One step of user [i]; [ok]: the database call, if any, succeeds.  [None]: it has
    to wait, or is done. *)
Definition pool_step (s : pool) (i : nat) (ok : bool) : option pool :=
  match nth_error (p_users s) i with
  | None => None
  | Some u =>
    match u_pc u with
    | Begin => if free_conn s then Some (set_user s i (if ok then next u else User (u_role u) Done [])) else None
    | Lookup q => match p_lock s with
        | None => Some (set_user s i (at_pc u (if cached s q then WantRun q else WantLock q)))
        | Some _ => None
        end
    | WantLock q => match p_lock s with
        | None => Some (set_user (set_lock s (Some i)) i (at_pc u (Check q)))
        | Some _ => None
        end
    | Check q => if cached s q then Some (set_user (set_lock s None) i (at_pc u (WantRun q))) else Some (set_user s i (at_pc u (WantConn q)))
    | WantConn q => if free_conn s then Some (set_user s i (at_pc u (Prepare q))) else None
    | Prepare q => if ok then Some (set_user (add_cache (set_lock s None) q) i (at_pc u (WantRun q)))
                   else Some (set_user (set_lock s None) i (give_up u))
    | WantRun q => if is_tx (u_role u) then Some (set_user s i (if ok then next u else give_up u))
                   else if free_conn s then Some (set_user s i (at_pc u (Run q))) else None
    | Run q => Some (set_user s i (User (u_role u) Done []))
    | Finish => Some (set_user s i (User (u_role u) Done []))
    | Done => None
    end
  end.

(** A new user arrives: one statement, or a transaction of several.  The worker and
    the compactor start a transaction only after the previous one. *)
Definition busy (s : pool) (r : role) : Prop := exists u, In u (p_users s) /\ u_role u = r /\ u_pc u <> Done.
(** A new user. *)
Definition arrive (s : pool) (r : role) (qs : list nat) : pool :=
  PoolState (p_max s) (p_cache s) (p_lock s) (p_users s ++ [if is_tx r then User r Begin qs else next (User r Done qs)]).
(** At most one worker and one compactor at a time (batched.go:92-115, backend.go:280-296). *)
Definition may_arrive (s : pool) (r : role) (qs : list nat) : Prop :=
  match r with Single => exists q, qs = [q] | _ => ~ busy s r end.

(** Reachable from a fresh server with the given limit. *)
Inductive pool_reach (max : Z) : pool -> Prop :=
| pool_init : pool_reach max (PoolState max [] None [])
| pool_arrive s r qs : pool_reach max s -> may_arrive s r qs -> pool_reach max (arrive s r qs)
| pool_next s i ok s' : pool_reach max s -> pool_step s i ok = Some s' -> pool_reach max s'.

(** [pool_runs n s s']: [n] steps of users, nobody arriving. *)
Inductive pool_runs : nat -> pool -> pool -> Prop :=
| runs_zero s : pool_runs 0 s s
| runs_more n s i ok s' s'' : pool_step s i ok = Some s' -> pool_runs n s' s'' -> pool_runs (S n) s s''.
(** Specification vocabulary (not code): everyone has finished. *)
Definition all_done (s : pool) : Prop := forall u, In u (p_users s) -> u_pc u = Done.
(** [pool_later s s']: anything, arrivals included. *)
Inductive pool_later (s : pool) : pool -> Prop :=
| later_now : pool_later s s
| later_arrive s' r qs : pool_later s s' -> may_arrive s' r qs -> pool_later s (arrive s' r qs)
| later_step s' i ok s'' : pool_later s s' -> pool_step s' i ok = Some s'' -> pool_later s s''.

(** The limits of a database/sql DB: SetMaxIdleConns, SetMaxOpenConns and
    maxIdleConnsLocked of the Go standard library. *)
Record sqldb := SqlDb { max_idle_count : Z; max_open : Z }.
(** sql.Open: no limits set. *)
Definition fresh_db : sqldb := SqlDb 0 0.
(** maxIdleConnsLocked of database/sql. *)
Definition effective_idle (d : sqldb) : Z :=
  if max_idle_count d =? 0 then 2 else if max_idle_count d <? 0 then 0 else max_idle_count d.
(** SetMaxIdleConns of database/sql. *)
Definition set_max_idle (n : Z) (d : sqldb) : sqldb :=
  let d1 := SqlDb (if 0 <? n then n else -1) (max_open d) in
  if (0 <? max_open d) && (max_open d <? effective_idle d1) then SqlDb (max_open d) (max_open d) else d1.
(** SetMaxOpenConns of database/sql. *)
Definition set_max_open (n : Z) (d : sqldb) : sqldb :=
  let d1 := SqlDb (max_idle_count d) (if n <? 0 then 0 else n) in
  if (0 <? max_open d1) && (max_open d1 <? effective_idle d1) then set_max_idle n d1 else d1.
(** server.go:69-91 (ConnectionPoolConfig.apply): the computed maxIdle is only logged. *)
Definition apply_pool (idle open : Z) : sqldb := set_max_open open (set_max_idle idle fresh_db).
(** What the flags promise (cmd/root.go:230-231): idle: 0 the system default (2),
    negative none; open: 0 or less no limit.  No more idle connections than open ones. *)
Definition promised_idle (idle open : Z) : Z :=
  let n := if idle =? 0 then 2 else if idle <? 0 then 0 else idle in
  if 0 <? open then Z.min n open else n.
(** Specification vocabulary (not code): the limit promised by cmd/root.go:230-231. *)
Definition promised_open (open : Z) : Z := if open <=? 0 then 0 else open.
