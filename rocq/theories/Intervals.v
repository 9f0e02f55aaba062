(** Durations from the command line and from tuning.yaml, and what becomes of them:
    cmd/root.go:234-238, server.go:133-141, 340-345, 436-457, backend.go:284,
    watcher.go:186, 234, pkg/limited/watch.go:116.
    Durations are nanoseconds (int64).  The process is that of Run.v; only the goroutines'
    first steps, which create tickers, are added. *)
From Coq Require Import List ZArith Bool String.
From Verif Require Import Bytes Spec Sql System Prog Backend Watch Server Run.
Import ListNotations.
Open Scope Z_scope.

(** The interval settings of tuning.yaml (types.go:35-40); [None]: not in the file. *)
Record tuning := Tuning { tn_compact : option Z; tn_poll : option Z }.
(** ServerConfig, server.go:50-58. *)
Record durations := Durations { du_compact : Z; du_poll : Z; du_timeout : Z; du_notify : Z }.
(** server.go:133-141 and 340-345; [timeout], [notify]: the flags of cmd/root.go:237-238; [t]:
    tuning.yaml if there is one.  No value is refused, here or elsewhere. *)
Definition configured (timeout notify : Z) (t : option tuning) : durations :=
  let or_ (o : option Z) (d : Z) := match o with Some z => z | None => d end in
  match t with
  | None => Durations 300000000000 1000000000 timeout notify
  | Some t => Durations (or_ (tn_compact t) 300000000000) (or_ (tn_poll t) 1000000000) timeout notify
  end.
(** time.NewTicker panics unless its argument is positive (Go runtime). *)
Definition ticker_panics (d : Z) : bool := d <=? 0.

(** The process with the goroutines that create tickers. *)
Inductive iaction :=
| IProc (a : paction)     (* Run.v *)
| ICompactor              (* the compaction goroutine runs for the first time: backend.go:284 *)
| IPoller                 (* the poll goroutine runs for the first time: watcher.go:186 *)
| IStream.                (* a client opens a watch stream: limited/watch.go:34, 116 *)
(** The goroutines of startWatch exist once Start was called successfully (server.go:448). *)
Definition backend_runs (s : proc) : bool :=
  match p_pc s with MNew | MReady | MOpen | MBackend | MStart | MGone => false | _ => true end.
(** Effect of one action; a panic of any goroutine ends the process with status 2. *)
Definition istep (o : ropts) (c : durations) (s : proc) (a : iaction) : proc :=
  let panics (here : bool) (d : Z) := if here && ticker_panics d then leave [KExit 2] s else s in
  match a with
  | IProc a => pstep o s a
  | ICompactor => panics (backend_runs s) (du_compact c)
  | IPoller => panics (backend_runs s) (du_poll c)
  | IStream => panics (p_serving s) (du_notify c)
  end.
(** A sequence of actions. *)
Definition irun (o : ropts) (c : durations) (acts : list iaction) (s : proc) : proc := fold_left (istep o c) acts s.

(** watcher.go:234: the query of the poll loop runs under context.WithTimeout; with a timeout
    that is not positive the context is done before the query (database/sql then returns
    the context's error without querying). *)
Definition query_fault (timeout : Z) (f : fault) : fault := if timeout <=? 0 then FailBefore EDeadline else f.
(** The backend of Watch.v with the configured timeout. *)
Definition timed_step (timeout : Z) (s : bstate) (a : action) : bstate :=
  match a with AFetch f => bstep s (AFetch (query_fault timeout f)) | _ => bstep s a end.
(** A sequence of actions. *)
Definition timed_run (timeout : Z) (acts : list action) (s : bstate) : bstate := fold_left (timed_step timeout) acts s.
