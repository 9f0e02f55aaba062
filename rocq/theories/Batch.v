(** pkg/database/batched.go: writes of concurrent callers collected into batches.
    The model is generic in the database: [D] its contents, [S] statements, [R] results
    (rows affected and last insert id), [run] the effect of one statement.
    Simplifications:
    - critical sections under b.mu are single steps; condition variable: a caller may
      return whenever its loop condition (batched.go:75-77) is false.  The broadcast of
      batched.go:112 follows every change that makes a condition false, the change
      of b.status (batched.go:100) included: the mutex is held from one to the other;
    - one execQueue call is one step: the transaction of batched.go:129-155 is isolated
      by SQLite, so it happens at COMMIT, and its outcome is chosen by the fault;
      contexts are looked at in that step (cancellations of different callers
      are independent, so they can be moved before or after it);
    - other users of the database (BeginTx, batched.go:48-50) act between steps;
    - the ids of jobs are ghost: the position in submission order;
    - [b_log] is ghost: everything executed and committed, in order. *)
From Coq Require Import List ZArith Bool Lia.
From Verif Require Import Bytes Spec Sql System Prog.
Import ListNotations.
Open Scope Z_scope.

Section Batch.
Variables D S R : Type.
Variable run : S -> D -> D * R.

(** What a caller gets back. *)
Inductive outcome := Done (r : R) | Failed (e : err).

(** batchJob, batched.go:181-190 *)
Record job := Job { j_stmt : S; j_run : Z; j_cancelled : bool; j_outcome : option outcome }.

(** batchStatus (batched.go:14-20), with what the goroutine of batched.go:96-115 is
    doing: about to lock, executing a queue (unlocked), about to lock again. *)
Inductive worker := WNone | WStarted | WExec (batch : list nat) | WLock (batch : list nat).

(** Ghost: statements in the order of their effects, with their results. *)
Inductive logged := LJob (id : nat) (s : S) (r : R) | LOther (s : S).

(** batchedDb (pkg/database/batched.go:22-34) and the callers' jobs. *)
Record batch_state := BatchState {
  b_jobs : list job;
  b_queue : list nat;
  b_worker : worker;
  b_runid : Z;
  b_closed : bool;
  b_dbclosed : bool;
  b_db : D;
  b_log : list logged }.

(** NewBatched, batched.go:36-46 *)
Definition batch_init (d : D) : batch_state := BatchState [] [] WNone 0 false false d [].

(** How a call to the database can go wrong.  [took]: it had its effect all the
    same (a COMMIT or a single statement whose report got lost). *)
Inductive bfault :=
| BFNone
| BFBegin (e : err)
| BFStmt (n : nat) (e : err)
| BFCommit (e : err) (took : bool).

(** One step of a caller, of the goroutine or of the database (batched.go:36-225). *)
Inductive baction :=
| BSubmit (s : S)           (* ExecContext up to Wait, batched.go:52-75 *)
| BCancel (id : nat)        (* the context of a caller is cancelled *)
| BTake                     (* batched.go:97-106: first iteration *)
| BExecute (f : bfault)     (* execQueue, batched.go:109 *)
| BFinish                   (* batched.go:110-115, next iteration or end *)
| BOther (s : S)            (* another user's statement *)
| BClose                    (* batched.go:163-172 *)
| BClosed.                  (* batched.go:174-178 *)

(** Jobs of a queue get their result (batched.go:156-160). *)
Fixpoint set_outcome (o : outcome) (ids : list nat) (js : list job) (n : nat) : list job :=
  match js with
  | [] => []
  | j :: rest =>
      (if existsb (Nat.eqb n) ids then Job (j_stmt j) (j_run j) (j_cancelled j) (Some o) else j)
      :: set_outcome o ids rest (Datatypes.S n)
  end.

(** The caller's context is done (batched.go:76-90). *)
Fixpoint cancel_job (id : nat) (js : list job) : list job :=
  match js, id with
  | [], _ => []
  | j :: rest, O => Job (j_stmt j) (j_run j) true (j_outcome j) :: rest
  | j :: rest, Datatypes.S i => j :: cancel_job i rest
  end.
(** does the statement at position [pos] of a batch fail *)
Definition stmt_fault (f : bfault) (pos : nat) : option err :=
  match f with BFStmt n e => if Nat.eqb n pos then Some e else None | _ => None end.
(** batched.go:136-152: run the statements one after the other; [Err]: stop with
    that error.  batchJob.exec, batched.go:194-225. *)
Fixpoint exec_all (js : list job) (ids : list nat) (pos : nat) (f : bfault) (d : D) : result (D * list (nat * S * R)) :=
  match ids with
  | [] => Ok (d, [])
  | id :: rest =>
      match nth_error js id with
      | None => Err EOther   (* not reachable: queued jobs exist *)
      | Some j =>
          if j_cancelled j then Err ECanceled
          else match stmt_fault f pos with
          | Some e => Err e
          | None =>
              match exec_all js rest (Datatypes.S pos) f (fst (run (j_stmt j) d)) with
              | Ok (d', l) => Ok (d', (id, j_stmt j, snd (run (j_stmt j) d)) :: l)
              | Err e => Err e
              end
          end
      end
  end.
(** Results of a committed queue (batched.go:136-160). *)
Definition set_results (l : list (nat * S * R)) (js : list job) : list job :=
  fold_left (fun js x => set_outcome (Done (snd x)) [fst (fst x)] js 0) l js.
(** Ghost: log entries of a committed queue. *)
Definition log_of (l : list (nat * S * R)) : list logged := map (fun x => LJob (fst (fst x)) (snd (fst x)) (snd x)) l.

(** execQueue, batched.go:118-161 *)
Definition exec_queue (closed : bool) (js : list job) (ids : list nat) (f : bfault) (d : D) : list job * D * list logged :=
  match ids with
  | [] => (js, d, [])
  | [id] =>
      match exec_all js ids 0 f d with
      | Err e => (set_outcome (Failed e) ids js 0%nat, d, [])
      | Ok (d', l) =>
          match f with
          | BFNone => (set_results l js, d', log_of l)
          | BFCommit e true => (set_outcome (Failed e) ids js 0%nat, d', log_of l)
          | BFBegin e | BFStmt _ e | BFCommit e false => (set_outcome (Failed e) ids js 0%nat, d, [])
          end
      end
  | _ =>
      if closed then (set_outcome (Failed ECanceled) ids js 0, d, [])
      else match f with
      | BFBegin e => (set_outcome (Failed e) ids js 0%nat, d, [])
      | _ =>
          match exec_all js ids 0 f d with
          | Err e => (set_outcome (Failed e) ids js 0%nat, d, [])
          | Ok (d', l) =>
              match f with
              | BFCommit e true => (set_outcome (Failed e) ids js 0%nat, d', log_of l)
              | BFCommit e false => (set_outcome (Failed e) ids js 0%nat, d, [])
              | _ => (set_results l js, d', log_of l)
              end
          end
      end
  end.

(** status != batchNotStarted (batched.go:14-20, 92-115). *)
Definition running (w : worker) : bool := match w with WExec _ | WLock _ => true | _ => false end.

(** batched.go:92-95: start the goroutine unless there is one *)
Definition start_worker (w : worker) : worker :=
  match w with WNone => WStarted | WStarted => WStarted | WExec b => WExec b | WLock b => WLock b end.

(** Effect of one action (batched.go:36-225). *)
Definition batch_step (s : batch_state) (a : baction) : batch_state :=
  match a with
  | BSubmit st =>
      if b_closed s then s
      else
        let rid := if running (b_worker s) then b_runid s + 1 else b_runid s in
        BatchState (b_jobs s ++ [Job st rid false None]) (b_queue s ++ [length (b_jobs s)])
          (start_worker (b_worker s))
          (b_runid s) (b_closed s) (b_dbclosed s) (b_db s) (b_log s)
  | BCancel id =>
      BatchState (cancel_job id (b_jobs s))
        (b_queue s) (b_worker s) (b_runid s) (b_closed s) (b_dbclosed s) (b_db s) (b_log s)
  | BTake =>
      match b_worker s with
      | WStarted => BatchState (b_jobs s) [] (WExec (b_queue s)) (b_runid s) (b_closed s) (b_dbclosed s) (b_db s) (b_log s)
      | _ => s
      end
  | BExecute f =>
      match b_worker s with
      | WExec ids =>
          let '(js, d, l) := exec_queue (b_closed s) (b_jobs s) ids f (b_db s) in
          BatchState js (b_queue s) (WLock ids) (b_runid s) (b_closed s) (b_dbclosed s) d (b_log s ++ l)
      | _ => s
      end
  | BFinish =>
      match b_worker s with
      | WLock _ =>
          match b_queue s with
          | [] => BatchState (b_jobs s) [] WNone (b_runid s + 1) (b_closed s) (b_dbclosed s) (b_db s) (b_log s)
          | q => BatchState (b_jobs s) [] (WExec q) (b_runid s + 1) (b_closed s) (b_dbclosed s) (b_db s) (b_log s)
          end
      | _ => s
      end
  | BOther st =>
      if b_dbclosed s then s
      else BatchState (b_jobs s) (b_queue s) (b_worker s) (b_runid s) (b_closed s) (b_dbclosed s) (fst (run st (b_db s))) (b_log s ++ [LOther st])
  | BClose => BatchState (b_jobs s) (b_queue s) (b_worker s) (b_runid s) true (b_dbclosed s) (b_db s) (b_log s)
  | BClosed =>
      if b_closed s then
        match b_worker s with
        | WNone => BatchState (b_jobs s) (b_queue s) (b_worker s) (b_runid s) (b_closed s) true (b_db s) (b_log s)
        | _ => s
        end
      else s
  end.

(** batched.go:75-84: caller [id] can return, with this outcome *)
Definition released (s : batch_state) (id : nat) : option (option outcome) :=
  match nth_error (b_jobs s) id with
  | Some j => if j_run j <? b_runid s then Some (j_outcome j) else None
  | None => None
  end.

(** Reachable states, if only faults satisfying [ok] occur. *)
Definition fault_ok (ok : bfault -> Prop) (a : baction) : Prop := match a with BExecute f => ok f | _ => True end.
(** Reachable states under allowed faults. *)
Inductive batch_reach (ok : bfault -> Prop) (d : D) : batch_state -> Prop :=
| batch_start : batch_reach ok d (batch_init d)
| batch_next s a : batch_reach ok d s -> fault_ok ok a -> batch_reach ok d (batch_step s a).
(** No restriction. *)
Definition any_fault (f : bfault) : Prop := True.
(** no report gets lost *)
Definition reported (f : bfault) : Prop := match f with BFCommit _ took => took = false | _ => True end.
(** A sequence of actions. *)
Definition batch_run (acts : list baction) (s : batch_state) : batch_state := fold_left batch_step acts s.

(** Specification: the log, replayed from the initial contents, gives the current
    ones, and each job got the result of its own statement at its place. *)
Fixpoint replays (log : list logged) (d d' : D) : Prop :=
  match log with
  | [] => d = d'
  | LJob _ s r :: rest => r = snd (run s d) /\ replays rest (fst (run s d)) d'
  | LOther s :: rest => replays rest (fst (run s d)) d'
  end.
(** Specification vocabulary (not code): ids of the jobs in the log. *)
Definition executed (log : list logged) : list nat :=
  flat_map (fun x => match x with LJob id _ _ => [id] | LOther _ => [] end) log.
End Batch.
Arguments batch_init {D S R} d.
