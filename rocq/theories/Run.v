(** The process as a whole: cmd/root.go, and server.go around what Server.v models. *)
From Coq Require Import List ZArith NArith Bool String.
From Verif Require Import Bytes Server.
Import ListNotations.
Open Scope Z_scope.

(** ** Options that New checks: server.go:144-148, 240-286 *)

(** Command-line options of cmd/root.go:206-238 that server.New (server.go:111-377) interprets. *)
Record options := Options { op_action : bytes; op_tls : bool; op_version : bytes; op_cache : Z }.
(** server.go:144-148 *)
Definition check_action (s : bytes) : option low_action :=
  if beqb s (txt "none") then Some LANone
  else if beqb s (txt "handover") then Some LAHandover
  else if beqb s (txt "terminate") then Some LATerminate
  else None.
(** server.go:264-276: the minimum version, as the number crypto/tls uses *)
Definition tls_version (s : bytes) : option Z :=
  if beqb s (txt "tls10") then Some 769
  else if beqb s (txt "tls11") then Some 770
  else if beqb s [] then Some 771
  else if beqb s (txt "tls12") then Some 771
  else if beqb s (txt "tls13") then Some 772
  else None.
(** What TLS is set up with: minimum version of the listener, size of the dialer's session cache. *)
Record tls_setup := TlsSetup { ts_min : Z; ts_cache : option Z }.
(** server.go:240-286.  [certs]: the key pair and the pool can be loaded.
    [Some None]: no TLS; [None]: New returns an error. *)
Definition setup_tls (o : options) (certs : bool) : option (option tls_setup) :=
  if op_tls o then
    if certs then
      match tls_version (op_version o) with
      | Some v => Some (Some (TlsSetup v (if 0 <? op_cache o then Some (op_cache o) else None)))
      | None => None
      end
    else None
  else Some None.
(** New, server.go:111-377: the action is looked at first, TLS only after the directory
    was changed.  [certs] as above; the rest as in Server.boot. *)
Definition new_server (o : options) (certs : bool) (e : benv) (d : dir) : boot_result :=
  match check_action (op_action o) with
  | None => ([], BFailed)
  | Some _ =>
      let tls := match setup_tls o certs with Some _ => true | None => false end in
      boot (BEnv (be_reconf e) (be_config e && tls) (be_app e) (be_id e)) d
  end.

(** ** Opening the database: server.go:469-508 *)

(** How one attempt goes: app.Open works, the ping is answered, and (after a failed
    attempt) the context is done when the second of waiting is over. *)
Record attempt := Attempt { at_open : bool; at_ping : bool; at_done : bool }.
(** What happens to handles; the i-th attempt's handle is called i. *)
Inductive deffect := HOpened (i : nat) | HPinged (i : nat) | HClosed (i : nat) | HConfigured (i : nat).
(** Result of robustOpenDb: a handle, the last error, or the context's. *)
Inductive dresult := DbOk (i : nat) | DbFailed | DbCancelled.
(** openAndTestDb, server.go:494-508 *)
Definition open_and_test (i : nat) (a : attempt) : list deffect * bool :=
  if at_open a then
    if at_ping a then ([HOpened i; HPinged i], true) else ([HOpened i; HClosed i], false)
  else ([], false).
(** The loop of robustOpenDb, server.go:474-487; [n]: attempts left, [i]: done. *)
Fixpoint open_loop (n i : nat) (env : nat -> attempt) : list deffect * dresult :=
  match n with
  | O => ([], DbFailed)
  | S n' =>
      let '(es, ok) := open_and_test i (env i) in
      if ok then (es ++ [HConfigured i], DbOk i)
      else if at_done (env i) then (es, DbCancelled)
      else let '(es', r) := open_loop n' (S i) env in (es ++ es', r)
  end.
(** robustOpenDb, server.go:469-492: 300 attempts; the pool configuration is applied to
    the handle returned (server.go:69-91, see ConnPool.apply_pool). *)
Definition robust_open (env : nat -> attempt) : list deffect * dresult := open_loop 300 0 env.

(** ** The main goroutine: cmd/root.go:152-196, Server.Start (server.go:419-467) and
    Server.Shutdown (server.go:510-526), next to the disk watcher (Server.v), the gRPC
    server, the metrics endpoint and signals.
    Simplifications: profiling is left out; a call either returns with or without an
    error; when both a signal and a request of the disk watcher are there, [PStep true]
    takes the signal; a signal before signal.Notify kills the process. *)

(** Where the main goroutine is: before this call. *)
Inductive mpc :=
| MNew | MReady | MOpen | MBackend | MStart | MListen       (* root.go:152-168, server.go:420-462 *)
| MWait                                                      (* root.go:177-180 *)
| MCancel | MClose | MHandover | MAppClose | MChan           (* root.go:181-187, server.go:511-524 *)
| MOtel | MMetrics                                           (* root.go:188-196 *)
| MGone.
(** What can be observed, in order. *)
Inductive mark :=
| KListening | KSignal | KLowDisk | KCancelled | KBackendClosed | KHandover (ok : bool) | KAppClosed
| KOtelShutdown (ok : bool) | KMetricsDown | KExit (code : Z) | KKilled.
(** Options of the run: tracing, metrics, action on low space, minimum, whether the
    disk watcher's interval is positive (server.go:382-385). *)
Record ropts := ROpts { ro_otel : bool; ro_metrics : bool; ro_action : low_action; ro_min : Z; ro_watch : bool }.
(** State of the process.  [p_serving]: the endpoint accepts requests. *)
Record proc := Proc { p_pc : mpc; p_sig : bool; p_disk : dstate; p_serving : bool; p_marks : list mark }.
(** One step of one of the goroutines, or a signal. *)
Inductive paction :=
| PStep (ok : bool)        (* the main goroutine's next call returns *)
| PSignal                  (* SIGPWR, SIGINT, SIGQUIT or SIGTERM *)
| PWake | PCheck (stat : option (Z * Z)) | PDone     (* the disk watcher *)
| PGrpcStop                (* context.AfterFunc(ctx, grpcServer.Stop), endpoint.go:70 *)
| PMetricsFail.            (* ListenAndServe returns an error, root.go:135-137 *)
(** Before server.New. *)
Definition proc_init : proc := Proc MNew false dstate_init false [].
(** The main goroutine goes on. *)
Definition goto (pc : mpc) (ms : list mark) (s : proc) : proc := Proc pc (p_sig s) (p_disk s) (p_serving s) (p_marks s ++ ms).
(** The process ends (logrus.Fatal: status 1; panic: 2; return from Run: 0). *)
Definition leave (ms : list mark) (s : proc) : proc := Proc MGone (p_sig s) (p_disk s) false (p_marks s ++ ms).
(** The disk watcher's state changes; if it panics, so does the process. *)
Definition disk (o : ropts) (a : daction) (s : proc) : proc :=
  let d := dstep (ro_action o) (ro_min o) (p_disk s) a in
  if ds_panicked d then leave [KExit 2] (Proc (p_pc s) (p_sig s) d (p_serving s) (p_marks s))
  else Proc (p_pc s) (p_sig s) d (p_serving s) (p_marks s).
(** The disk watcher is running: started by server.go:464, returned at once if disabled
    (server.go:382-385). *)
Definition disk_runs (o : ropts) (s : proc) : bool :=
  ro_watch o && match p_pc s with MNew | MReady | MOpen | MBackend | MStart | MListen | MGone => false | _ => true end.
(** The main goroutine's next call. *)
Definition main_step (o : ropts) (s : proc) (ok : bool) : proc :=
  match p_pc s with
  | MNew => if ok then goto MReady [] s else leave [KExit 1] s
  | MReady => if ok then goto MOpen [] s else leave [KExit 1] s
  | MOpen => if ok then goto MBackend [] s else leave [KExit 1] s
  | MBackend => if ok then goto MStart [] s else leave [KExit 1] s
  | MStart => if ok then goto MListen [] s else leave [KBackendClosed; KExit 1] s
  | MListen => if ok then Proc MWait (p_sig s) (p_disk s) true (p_marks s ++ [KListening]) else leave [KExit 1] s
  | MWait =>
      if p_sig s && (ok || negb (ds_buffer (p_disk s))) then goto MCancel [KSignal] s
      else if ds_buffer (p_disk s) then goto MCancel [KLowDisk] (disk o DReceive s)
      else s
  | MCancel => goto MClose [KCancelled] (disk o DCancel s)
  | MClose => if ok then goto MHandover [KBackendClosed] s else leave [KExit 1] s
  | MHandover => goto MAppClose [KHandover ok] s
  | MAppClose => if ok then goto MChan [KAppClosed] s else leave [KExit 1] s
  | MChan => let s' := disk o DClose s in match p_pc s' with MGone => s' | _ => goto MOtel [] s' end
  | MOtel => if ro_otel o then goto MMetrics [KOtelShutdown ok] s else goto MMetrics [] s
  | MMetrics => leave [KExit 0] s   (* root.go:122: the variable shut down here is never assigned *)
  | MGone => s
  end.
(** Effect of one action. *)
Definition pstep (o : ropts) (s : proc) (a : paction) : proc :=
  match a with
  | PStep ok => main_step o s ok
  | PSignal =>
      match p_pc s with
      | MGone => s
      | MNew | MReady | MOpen | MBackend | MStart | MListen => leave [KKilled] s
      | _ => Proc (p_pc s) true (p_disk s) (p_serving s) (p_marks s)
      end
  | PWake => if disk_runs o s then disk o DWake s else s
  | PCheck stat => if disk_runs o s then disk o (DCheck stat) s else s
  | PDone => if disk_runs o s then disk o DDone s else s
  | PGrpcStop => if ds_cancelled (p_disk s) then Proc (p_pc s) (p_sig s) (p_disk s) false (p_marks s) else s
  | PMetricsFail => match p_pc s with MGone => s | _ => if ro_metrics o then leave [KExit 1] s else s end
  end.
(** A sequence of actions. *)
Definition prun (o : ropts) (acts : list paction) (s : proc) : proc := fold_left (pstep o) acts s.
