(** Whole servers: requests, compactions, starts and expiries as in Ledger.v, on any
    number of servers that share one database, where each server sends the writes of
    its driver through its own batching layer (Batch.v).  The stack of
    pkg/server/server.go:434 (NewBatched), driver.go:442-478 and batched.go.
    Simplifications, besides those of Batch.v and Prog.v:
    - queries, and transactions begun with BeginTx (compaction), go straight to the database
      (batched.go:48-50; QueryContext is inherited), one step each;
    - closing a server fails later writes; queries of a closed server may still be
      answered here (in the code they fail, which is one of the possible faults). *)
From Coq Require Import List ZArith Bool.
From Verif Require Import Bytes Spec Sql System Prog Backend Limited Api Pool Ledger Batch BatchKine.
Import ListNotations.
Open Scope Z_scope.

(** A statement executed with ExecContext (driver.go:442-478: create, update, delete,
    delete of one revision); compaction uses BeginTx (driver.go:616-673). *)
Definition batched (a : aop) : bool := match a with ACompact _ _ => false | _ => true end.

(** What a request's goroutine is doing: its next step, or waiting in
    batchedDb.ExecContext (batched.go:76-78) for job [job], to go on with [k]. *)
Inductive activity :=
| NRun (p : prog reply)
| NWait (a : aop) (job : nat) (k : result (Z * Z) -> prog reply).
(** A request in progress: its number, the server it runs on, what it is doing. *)
Record nproc := NProc { np_id : nat; np_server : nat; np_act : activity }.

(** Database, the batching layer of each server (batched.go:21-34; its field for the
    database is not used here), requests in progress, ghost log as in Ledger.v. *)
Record nstate := NState {
  n_world : world;
  n_servers : list kbatch;
  n_procs : list nproc;
  n_log : ledger;
  n_next : nat }.
(** No server, empty database. *)
Definition ninit : nstate := NState init_world [] [] [] 0.

(** A batching layer looking at database [w]. *)
Definition with_db (w : world) (b : kbatch) : kbatch :=
  BatchState world aop (Z * Z) (b_jobs _ _ _ b) (b_queue _ _ _ b) (b_worker _ _ _ b) (b_runid _ _ _ b)
    (b_closed _ _ _ b) (b_dbclosed _ _ _ b) w (b_log _ _ _ b).
(** Replace an element of a list. *)
Fixpoint put {A} (n : nat) (x : A) (l : list A) : list A :=
  match l, n with
  | [], _ => []
  | _ :: l, O => x :: l
  | y :: l, S n => y :: put n x l
  end.
(** Is [p] waiting for job [id] of server [j] (batched.go:76-78)? *)
Definition waits (j id : nat) (p : nproc) : bool :=
  match np_act p with NWait _ i _ => Nat.eqb i id && Nat.eqb (np_server p) j | NRun _ => false end.
(** Ghost: on whose behalf a job is executed. *)
Definition owner (ps : list nproc) (j id : nat) : nat := match find (waits j id) ps with Some p => np_id p | None => 0%nat end.
(** Ghost: the changes committed by one execQueue, in order. *)
Definition notes (ps : list nproc) (j : nat) (l : list (logged aop (Z * Z))) : ledger :=
  flat_map (fun x => match x with
                     | LJob _ _ id a r => if fst r =? 0 then [] else map (Committed (owner ps j id)) (entry_of a)
                     | LOther _ _ _ => [] end) l.
(** What ExecContext returns (batched.go:80-84); a job nobody executed would look like a
    statement that affected no row. *)
Definition to_result (o : option (outcome (Z * Z))) : result (Z * Z) :=
  match o with Some (Done _ r) => Ok r | Some (Failed _ e) => Err e | None => Ok (0, 0) end.

(** One step of the system; processes are named by their position. *)
Inductive naction :=
| NBoot                                  (* a server joins (server.go:419-467) *)
| NAsk (j : nat) (q : work)              (* a request arrives at server [j] *)
| NCall (i : nat) (f : fault)            (* a query or a compaction transaction *)
| NSubmit (i : nat)                      (* ExecContext, batched.go:52-75 *)
| NBatch (j : nat) (a : baction aop)     (* batching goroutine, cancellation, closing *)
| NReturn (i : nat)                      (* ExecContext returns, batched.go:76-84 *)
| NAnswer (i : nat)                      (* the request is answered *)
| NCrash (j : nat).                      (* server [j] dies with everything on it; it may come back *)

(** The step, if it is possible. *)
Definition nstep (cfg : driver_cfg) (s : nstate) (x : naction) : option nstate :=
  let '(NState w sv ps log n) := s in
  match x with
  | NBoot => Some (NState w (sv ++ [batch_init w]) ps log n)
  | NAsk j q =>
      match nth_error sv j with
      | Some _ => Some (NState w sv (NProc n j (NRun (served cfg q)) :: ps) (log ++ [Asked n q]) (S n))
      | None => None
      end
  | NCall i f =>
      match nth_error ps i with
      | Some (NProc id j (NRun (Call c k))) =>
          match op_of c with
          | Some a => if batched a then None else
              Some (NState (fst (sem f c w)) sv (put i (NProc id j (NRun (k (snd (sem f c w))))) ps)
                           (log ++ map (Committed id) (commit_of f c w)) n)
          | None =>
              Some (NState (fst (sem f c w)) sv (put i (NProc id j (NRun (k (snd (sem f c w))))) ps)
                           (log ++ map (Committed id) (commit_of f c w)) n)
          end
      | _ => None
      end
  | NSubmit i =>
      match nth_error ps i with
      | Some (NProc id j (NRun (Call (CExec a) k))) =>
          if batched a then
            match nth_error sv j with
            | Some b =>
                if kclosed b then Some (NState w sv (put i (NProc id j (NRun (k (Err EOther)))) ps) log n)
                else Some (NState w (put j (kstep b (BSubmit _ a)) sv) (put i (NProc id j (NWait a (length (kjobs b)) k)) ps) log n)
            | None => None
            end
          else None
      | _ => None
      end
  | NBatch j a =>
      match a, nth_error sv j with
      | BSubmit _ _, _ | BOther _ _, _ | _, None => None
      | _, Some b =>
          let b' := kstep (with_db w b) a in
          Some (NState (kworld b') (put j b' sv) ps (log ++ notes ps j (skipn (length (klog b)) (klog b'))) n)
      end
  | NReturn i =>
      match nth_error ps i with
      | Some (NProc id j (NWait a job k)) =>
          match nth_error sv j with
          | Some b => match kreleased b job with
                      | Some o => Some (NState w sv (put i (NProc id j (NRun (k (to_result o)))) ps) log n)
                      | None => None
                      end
          | None => None
          end
      | _ => None
      end
  | NAnswer i =>
      match nth_error ps i with
      | Some (NProc id j (NRun (Ret o))) => Some (NState w sv (firstn i ps ++ skipn (S i) ps) (log ++ [Answered id o]) n)
      | _ => None
      end
  | NCrash j => Some (NState w (put j (batch_init w) sv) (filter (fun p => negb (Nat.eqb (np_server p) j)) ps) log n)
  end.

(** The faults of a batch, as faults of its statements: everybody in it gets the error,
    and all took effect or none did (batched.go:129-160). *)
Definition batch_fault (okf : fault -> Prop) (f : bfault) : Prop :=
  match f with
  | BFNone => True
  | BFBegin e | BFStmt _ e | BFCommit e false => okf (FailBefore e)
  | BFCommit e true => okf (FailAfter e)
  end.
(** Clients leave the bookkeeping key alone (C22); faults satisfy [okf]. *)
Definition naction_ok (okf : fault -> Prop) (x : naction) : Prop :=
  match x with
  | NAsk _ q => work_ok q
  | NCall _ f => okf f
  | NBatch _ (BExecute _ f) => batch_fault okf f
  | _ => True
  end.
(** Any interleaving. *)
Inductive nreach (cfg : driver_cfg) (okf : fault -> Prop) : nstate -> Prop :=
| nreach_init : nreach cfg okf ninit
| nreach_step s x s' : nreach cfg okf s -> naction_ok okf x -> nstep cfg s x = Some s' -> nreach cfg okf s'.

(** Classes of faults for which the system can run at all: calls may succeed, and
    cancelled contexts and closed databases are reported. *)
Definition tolerant (okf : fault -> Prop) : Prop := okf NoFault /\ okf (FailBefore ECanceled) /\ okf (FailBefore EOther).
(** A run: the steps one after the other, if all are possible. *)
Fixpoint nrun (cfg : driver_cfg) (xs : list naction) (s : nstate) : option nstate :=
  match xs with [] => Some s | x :: xs => match nstep cfg s x with Some s' => nrun cfg xs s' | None => None end end.
(** Two turns of a server's batching goroutine (batched.go:96-115) under any faults; steps that
    are not due change nothing. *)
Definition two_batches (f1 f2 : bfault) : list (baction aop) := [BTake _; BExecute _ f1; BFinish _; BExecute _ f2; BFinish _].
