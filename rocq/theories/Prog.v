(** Go functions as programs that issue database calls one at a time, and their
    execution under faults, interference from other processes, and crashes. *)
From Coq Require Import List ZArith Bool.
From Verif Require Import Bytes Spec Sql System.
Import ListNotations.
Open Scope Z_scope.

(** Errors a caller can tell apart.
    [EBusy] stands for every error for which the driver's Retry predicate is true
    (driver.go:303-310, pkg/backend/dqlite/driver.go:67-95). *)
Inductive err :=
| EBusy | EOther | ECanceled | EDeadline | ECompacted | EUnsupported | ENull | ENoRows.

(** Go's (value, error) pair; the value is not looked at when the error is not nil. *)
Inductive result (A : Type) := Ok (a : A) | Err (e : err).
Arguments Ok {A} a.
Arguments Err {A} e.

(** A result set as database/sql presents it: rows, then possibly an iteration
    error available from rows.Err(). *)
Record rowset (A : Type) := RowSet { rs_rows : list A; rs_err : option err }.
Arguments RowSet {A} _ _.
Arguments rs_rows {A} _.
Arguments rs_err {A} _.

(** Database calls: one statement or one transaction each.
    [v1] selects the current-schema variant of a query (driver.go:484-487,726-729). *)
Inductive call :=
| CExec (a : aop)
| CRev
| CInterval
| CList (v1 : bool) (lo hi : bytes) (limit rev : Z)
| CCount (v1 : bool) (lo hi : bytes) (rev : Z)
| CAfter (rev limit : Z)
| CAfterPrefix (lo hi : bytes) (start stop : Z)
| CTtl (rev : Z)
| CLeader.     (* dqlite: is the local node the leader (pkg/backend/dqlite/driver.go:97-) *)

(** What each database call returns: rows of the query (driver.go:88-209), or rows affected and last insert id (driver.go:211-272). *)
Definition ret_of (c : call) : Type :=
  match c with
  | CExec _ => (Z * Z)%type
  | CRev => rowset (option Z)
  | CInterval => rowset (option Z * option Z)
  | CList _ _ _ _ _ => rowset lrow
  | CCount _ _ _ _ => rowset Z
  | CAfter _ _ => rowset row
  | CAfterPrefix _ _ _ _ => rowset row
  | CTtl _ => rowset (Z * bytes * Z)
  | CLeader => bool
  end.

(** LIMIT ? is appended only when limit > 0 (driver.go:731-735, 780-787). *)
Definition opt_limit {A} (limit : Z) (l : list A) : list A :=
  if 0 <? limit then ztake limit l else l.

(** Reading a result set that breaks after [cut] rows. *)
Definition cut_rows {A} (cut : option (nat * err)) (l : list A) : rowset A :=
  match cut with
  | None => RowSet l None
  | Some (n, e) => RowSet (firstn n l) (Some e)
  end.

(** Result of a query on [d]. *)
Definition answer (cut : option (nat * err)) (leader : bool) (c : call) (d : db) : ret_of c :=
  match c with
  | CExec a => snd (apply d a)
  | CRev => cut_rows cut [rev_sql d]
  | CInterval => cut_rows cut [revision_interval_sql d]
  | CList v1 lo hi limit rev =>
      cut_rows cut (opt_limit limit (if v1 then list_sql_v1 lo hi rev d else list_sql lo hi rev d))
  | CCount v1 lo hi rev =>
      cut_rows cut [if v1 then count_sql_v1 lo hi rev d else count_sql lo hi rev d]
  | CAfter rev limit => cut_rows cut (opt_limit limit (after_sql rev d))
  | CAfterPrefix lo hi start stop => cut_rows cut (after_prefix_sql lo hi start stop d)
  | CTtl rev => cut_rows cut (ttl_sql rev d)
  | CLeader => leader
  end.

(** What can happen to one call. *)
Inductive fault :=
| NoFault
| FailBefore (e : err)          (* error, nothing happened *)
| FailAfter (e : err)           (* error reported although the statement took effect *)
| CutRows (n : nat) (e : err)   (* result set breaks after n rows *)
| NotLeader.                    (* the leader query answers false *)

(** Classes of faults.  Errors coming from the database are never [ECompacted]:
    that error is made by backend.go:246-250 only.  [clean]: errors of all kinds,
    before or after the effect, but no result set that breaks midway (see C35). *)
Definition any_fault (f : fault) : Prop := True.
(** Proviso: no result set that breaks off without rows.Err() being looked at (utils.go:11-24). *)
Definition no_cut (f : fault) : Prop := match f with CutRows _ _ => False | _ => True end.
(** Proviso: the database does not return the compacted error, which only backend.go:246-250 makes. *)
Definition db_fault (f : fault) : Prop :=
  match f with
  | FailBefore ECompacted | FailAfter ECompacted | CutRows _ ECompacted => False
  | _ => True
  end.
(** Both provisos; used in theorem statements. *)
Definition clean (f : fault) : Prop := no_cut f /\ db_fault f.

(** The operation a call performs on the table, if any. *)
Definition op_of (c : call) : option aop :=
  match c with CExec a => Some a | _ => None end.
(** What a call does to table and specification if it takes effect. *)
Definition weffect (c : call) (w : world) : world :=
  match op_of c with Some a => wapply w a | None => w end.

(** One database call under a fault: new state and what the caller sees (driver.go:405-478). *)
Definition sem (f : fault) (c : call) (w : world) : world * result (ret_of c) :=
  match f with
  | NoFault => (weffect c w, Ok (answer None true c (fst w)))
  | FailBefore e => (w, Err e)
  | FailAfter e => (weffect c w, Err e)
  | CutRows n e => (weffect c w, Ok (answer (Some (n, e)) true c (fst w)))
  | NotLeader => (weffect c w, Ok (answer None false c (fst w)))
  end.

(** Programs. *)
Inductive prog (A : Type) : Type :=
| Ret (a : A)
| Call (c : call) (k : result (ret_of c) -> prog A).
Arguments Ret {A} a.
Arguments Call {A} c k.

(** Sequencing of Go statements in one goroutine. *)
Fixpoint pbind {A B} (p : prog A) (f : A -> prog B) : prog B :=
  match p with
  | Ret a => f a
  | Call c k => Call c (fun r => pbind (k r) f)
  end.

(** [if err != nil { return err }] *)
Definition rbind {A B} (p : prog (result A)) (f : A -> prog (result B)) : prog (result B) :=
  pbind p (fun r => match r with Ok a => f a | Err e => Ret (Err e) end).

Notation "'let*' x ':=' p 'in' q" := (rbind p (fun x => q))
  (at level 200, x pattern, p at level 100, q at level 200).

(** Execution of one program: [sched] gives for each call the operations other
    processes perform before it and the fault of the call.  When the schedule is
    exhausted the process has crashed ([None]). *)
Fixpoint exec {A} (p : prog A) (sched : list (list aop * fault)) (w : world) : world * option A :=
  match p with
  | Ret a => (w, Some a)
  | Call c k =>
      match sched with
      | [] => (w, None)
      | (env, f) :: sched' =>
          let '(w', r) := sem f c (fold_left wapply env w) in
          exec (k r) sched' w'
      end
  end.

(** Undisturbed execution. *)
Fixpoint run {A} (p : prog A) (w : world) : world * A :=
  match p with
  | Ret a => (w, a)
  | Call c k => let '(w', r) := sem NoFault c w in run (k r) w'
  end.

(** Interference by other processes restricted to operations the server issues. *)
Fixpoint env_ok (w : world) (env : list aop) : Prop :=
  match env with
  | [] => True
  | a :: env' => allowed (snd w) a /\ env_ok (wapply w a) env'
  end.

(** Schedules whose interference is allowed at every moment. *)
Fixpoint fair {A} (p : prog A) (sched : list (list aop * fault)) (w : world) : Prop :=
  match p with
  | Ret _ => True
  | Call c k =>
      match sched with
      | [] => True
      | (env, f) :: sched' =>
          env_ok w env /\
          fair (k (snd (sem f c (fold_left wapply env w)))) sched'
               (fst (sem f c (fold_left wapply env w)))
      end
  end.
