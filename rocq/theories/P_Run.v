(** C87-C92: options, opening the database, and the life of the process.
    [prun o acts proc_init]: the process after the calls of the main goroutine
    ([PStep ok]), signals, steps of the disk watcher and failures in [acts], in any
    order.  [p_marks]: what was observed, in order. *)
From Coq Require Import List ZArith Bool String Lia.
From Verif Require Import Bytes Server Run RunProofs.
Import ListNotations.
Open Scope Z_scope.

(** C87.  Opening the database.  [env i]: how the i-th attempt would go. *)
Theorem C87 : forall env es r, robust_open env = (es, r) ->
  (forall k, In (HOpened k) es -> (k < 300)%nat) /\
  match r with
  | DbOk j =>
      (* the handle returned was opened, answered a ping, was configured, and is open; the others are closed *)
      at_ping (env j) = true /\ (exists es0, es = es0 ++ [HOpened j; HPinged j; HConfigured j]) /\ ~ In (HClosed j) es /\
      (forall k, In (HOpened k) es -> k = j \/ In (HClosed k) es) /\ (forall k, In (HConfigured k) es -> k = j)
  | DbFailed =>
      (forall k, In (HOpened k) es -> In (HClosed k) es) /\ forall k, (k < 300)%nat -> at_open (env k) && at_ping (env k) = false
  | DbCancelled =>
      (forall k, In (HOpened k) es -> In (HClosed k) es) /\
      exists k, at_done (env k) = true /\ forall m, (k < m)%nat -> ~ In (HOpened m) es
  end.
Proof. exact open_spec. Qed.
Print Assumptions C87.
(** If one of the 300 attempts works and the context is not done before, it succeeds. *)
Theorem C87_succeeds : forall env j, (j < 300)%nat -> at_open (env j) = true -> at_ping (env j) = true ->
  (forall k, (k < j)%nat -> at_done (env k) = false) -> exists k, (k <= j)%nat /\ snd (robust_open env) = DbOk k.
Proof. exact tries. Qed.
Print Assumptions C87_succeeds.
Definition slow_start (i : nat) : attempt := match i with O => Attempt false false false | 1%nat => Attempt true false false | _ => Attempt true true false end.
Definition never_up (i : nat) : attempt := Attempt true false (Nat.eqb i 7).
Example C87_nonvacuous : robust_open slow_start = ([HOpened 1; HClosed 1; HOpened 2; HPinged 2; HConfigured 2], DbOk 2) /\
  snd (robust_open never_up) = DbCancelled /\ snd (robust_open (fun _ => Attempt true false false)) = DbFailed /\
  exists k, (k <= 5)%nat /\ snd (robust_open slow_start) = DbOk k.
Proof. split; [reflexivity|]. split; [vm_compute; reflexivity|]. split; [vm_compute; reflexivity|]. exists 2%nat. split; [lia|vm_compute; reflexivity]. Qed.

(** C88.  If the process exits with status 0, then the endpoint was listening; then a
    signal came, or the disk was low and the option says terminate; then, in this
    order and nothing else: the context was cancelled, the backend was closed, the
    leadership was handed over (or that failed), the dqlite node was closed, and the
    tracing was shut down if it is enabled. *)
Theorem C88 : forall o acts, let ms := p_marks (prun o acts proc_init) in In (KExit 0) ms ->
  exists cause hok tr, ms = [KListening; cause; KCancelled; KBackendClosed; KHandover hok; KAppClosed] ++ tr ++ [KExit 0] /\
    (ro_otel o = true /\ (exists k, tr = [KOtelShutdown k]) \/ ro_otel o = false /\ tr = []) /\
    (cause = KSignal /\ In PSignal acts \/
     cause = KLowDisk /\ ro_action o = LATerminate /\ exists stat, In (PCheck stat) acts /\ storage_low (ro_min o) stat = true).
Proof. exact exit_order. Qed.
Print Assumptions C88.
Definition opts_t : ropts := ROpts true true LATerminate 100 true.
Definition opts_n : ropts := ROpts false true LANone 100 true.
Definition startup : list paction := [PStep true; PStep true; PStep true; PStep true; PStep true; PStep true].
Definition steps (n : nat) : list paction := repeat (PStep true) n.
Example C88_nonvacuous :
  p_marks (prun opts_t (startup ++ [PWake; PCheck (Some (4, 10))] ++ steps 8) proc_init) =
    [KListening; KLowDisk; KCancelled; KBackendClosed; KHandover true; KAppClosed; KOtelShutdown true; KExit 0] /\
  p_marks (prun opts_n (startup ++ [PSignal; PStep true; PStep true; PGrpcStop; PStep true; PStep false] ++ steps 4) proc_init) =
    [KListening; KSignal; KCancelled; KBackendClosed; KHandover false; KAppClosed; KExit 0].
Proof. split; vm_compute; reflexivity. Qed.

(** C223.  While the endpoint accepts requests, the six calls of the start-up have all succeeded (in particular the backend
    was opened and started), the endpoint has been listening, and the process has neither exited nor been killed. *)
Theorem C223_serving : forall o acts, p_serving (prun o acts proc_init) = true ->
  In KListening (p_marks (prun o acts proc_init)) /\
  (forall m, m = KKilled \/ (exists n, m = KExit n) -> ~ In m (p_marks (prun o acts proc_init))) /\
  firstn 6 (flat_map (fun a => match a with PStep ok => [ok] | _ => [] end) acts) = [true; true; true; true; true; true].
Proof. exact serving_facts. Qed.
Print Assumptions C223_serving.
Example C223_nonvacuous : p_serving (prun opts_t ([PWake; PGrpcStop] ++ startup ++ [PSignal; PStep true]) proc_init) = true /\
  p_serving (prun opts_t (steps 5) proc_init) = false /\
  p_serving (prun opts_t (startup ++ [PMetricsFail]) proc_init) = false.
Proof. repeat split; vm_compute; reflexivity. Qed.

(** C166 (part of C89).  Asked to stop, the process stops in that orderly way: if it is
    serving and gets a signal, the low-disk action is not terminate, and from then on
    no call returns an error except the handover and the metrics endpoint does not
    fail, then eight steps of the main goroutine later it has exited with status 0,
    whatever else happens in between. *)
Theorem C166_stops : forall o acts rest, ro_action o <> LATerminate -> p_pc (prun o acts proc_init) = MWait ->
  forallb benign rest = true -> (8 <= List.length (filter is_step rest))%nat ->
  In (KExit 0) (p_marks (prun o (acts ++ PSignal :: rest) proc_init)).
Proof. exact signal_finishes. Qed.
Print Assumptions C166_stops.
Example C89_nonvacuous : ro_action opts_n <> LATerminate /\ p_pc (prun opts_n startup proc_init) = MWait /\
  forallb benign ([PWake; PStep true; PCheck None; PSignal] ++ steps 2 ++ [PGrpcStop] ++ steps 5) = true /\
  List.length (filter is_step ([PWake; PStep true; PCheck None; PSignal] ++ steps 2 ++ [PGrpcStop] ++ steps 5)) = 8%nat.
Proof. split; [discriminate|]. repeat split; reflexivity. Qed.
(** Missing: when closing the backend fails, the process exits with status 1 and the
    leadership is never handed over nor the dqlite node closed. *)
Theorem C89_close_refuted : forall o rest, let ms := p_marks (prun o (startup ++ [PSignal; PStep true; PStep true; PStep false] ++ rest) proc_init) in
  ms = [KListening; KSignal; KCancelled; KExit 1].
Proof. exact close_fails. Qed.
Print Assumptions C89_close_refuted.
(** A signal during the start-up (which may take 300 seconds for the database alone)
    kills the process, though the dqlite node may be running and open. *)
Theorem C89_start_refuted : forall o n rest, (n < 6)%nat -> p_marks (prun o (steps n ++ PSignal :: rest) proc_init) = [KKilled].
Proof. exact start_killed. Qed.
Print Assumptions C89_start_refuted.
(** A call of Start that fails after the node is up leaves it open: the process exits. *)
Theorem C89_leak_refuted : forall o n rest, (n < 6)%nat -> let ms := p_marks (prun o (steps n ++ PStep false :: rest) proc_init) in
  In (KExit 1) ms /\ ~ In KAppClosed ms /\ (In KBackendClosed ms <-> n = 4%nat).
Proof. exact start_leaks. Qed.
Print Assumptions C89_leak_refuted.
(** The endpoint may still accept requests after the backend was closed. *)
Theorem C89_serving_refuted : forall o, let s := prun o (startup ++ [PSignal; PStep true; PStep true; PStep true]) proc_init in
  p_serving s = true /\ In KBackendClosed (p_marks s).
Proof. exact serving_closed. Qed.
Print Assumptions C89_serving_refuted.
(** With the action terminate the disk watcher may panic at the end instead. *)
Theorem C89_panic_refuted : exists o acts, p_pc (prun o startup proc_init) = MWait /\ forallb benign acts = true /\
  p_marks (prun o (startup ++ PSignal :: acts) proc_init) = [KListening; KSignal; KCancelled; KBackendClosed; KHandover true; KAppClosed; KExit 2].
Proof. exists opts_t, (PWake :: steps 6 ++ [PCheck None] ++ steps 2). vm_compute. auto. Qed.
Print Assumptions C89_panic_refuted.

(** C90.  The metrics endpoint is shut down with the process, and its failure does not
    affect the service.  Neither: it is never shut down, *)
Theorem C90_down_refuted : forall o acts, ~ In KMetricsDown (p_marks (prun o acts proc_init)).
Proof. exact metrics_up. Qed.
Print Assumptions C90_down_refuted.
(** and if it fails, the process exits at once, at any moment, with nothing closed. *)
Theorem C90_kill_refuted : forall o acts rest, ro_metrics o = true -> p_pc (prun o acts proc_init) <> MGone ->
  p_marks (prun o (acts ++ PMetricsFail :: rest) proc_init) = p_marks (prun o acts proc_init) ++ [KExit 1].
Proof. exact metrics_kill. Qed.
Print Assumptions C90_kill_refuted.
Example C90_nonvacuous : p_pc (prun opts_n startup proc_init) <> MGone /\ p_marks (prun opts_n startup proc_init) = [KListening] /\
  ro_metrics opts_n = true.
Proof. split; [discriminate|]. split; reflexivity. Qed.

(** C91.  TLS and the low-disk action are those configured, or the start is refused.
    [tls_numbers]: the names accepted, with the version each stands for in crypto/tls. *)
Definition tls_numbers : list (string * Z) := [("tls10", 0x0301); ("tls11", 0x0302); ("", 0x0303); ("tls12", 0x0303); ("tls13", 0x0304)]%string.
Theorem C91 : forall o certs t, setup_tls o certs = Some t <->
  (op_tls o = false /\ t = None) \/
  (op_tls o = true /\ certs = true /\ exists name v, In (name, v) tls_numbers /\ op_version o = txt name /\
    t = Some (TlsSetup v (if 0 <? op_cache o then Some (op_cache o) else None))).
Proof. exact tls_configured. Qed.
Print Assumptions C91.
Theorem C91_action : forall s, (check_action s = Some LANone <-> s = txt "none") /\ (check_action s = Some LAHandover <-> s = txt "handover") /\
  (check_action s = Some LATerminate <-> s = txt "terminate").
Proof. exact action_spec. Qed.
Print Assumptions C91_action.
Example C91_nonvacuous : setup_tls (Options (txt "none") true (txt "tls13") 64) true = Some (Some (TlsSetup 0x0304 (Some 64))) /\
  setup_tls (Options (txt "none") true (txt "") 0) true = Some (Some (TlsSetup 0x0303 None)) /\
  setup_tls (Options (txt "none") true (txt "TLS13") 0) true = None /\ check_action (txt "handover") = Some LAHandover /\ check_action (txt "Handover") = None.
Proof. repeat split; reflexivity. Qed.

(** C167 (part of C92).  A start that is refused because of an option leaves the storage directory as
    it was ([fst (new_server o certs e d)]: the states the directory goes through).
    Proved for an unsupported action, and for TLS options when there is no init.yaml
    and no update.yaml. *)
Theorem C167_refused : forall o certs e d,
  check_action (op_action o) = None \/ (setup_tls o certs = None /\ d_init d = None /\ d_update d = None) ->
  new_server o certs e d = ([], BFailed).
Proof. intros o certs e d [H|(H & I & U)]; [now apply refused_action|now apply refused_tls]. Qed.
Print Assumptions C167_refused.
(** Missing: with init.yaml and, say, a TLS version that is not supported, New deletes
    init.yaml and then returns the error; with the option corrected, the next start
    makes a node of its own on the default address instead of joining. *)
Theorem C92_refuted : forall o certs e d addr cl, check_action (op_action o) <> None -> setup_tls o certs = None -> addr <> [] ->
  d_init d = Some (addr, cl) -> existing_state d = false ->
  new_server o certs e d = ([set_init None d], BFailed) /\
  forall o' certs' e', check_action (op_action o') <> None -> setup_tls o' certs' <> None -> be_config e' = true -> be_app e' = true ->
    exists self, snd (new_server o' certs' e' (set_init None d)) = BStarted self [txt "127.0.0.1:9001"] /\ ni_addr self = txt "127.0.0.1:9001".
Proof.
  intros o certs e d addr cl A T N I X. split; [exact (refused_lost o certs e d addr cl A T N I X)|].
  intros o' certs' e' A' T' C P. exact (restart_default o' certs' e' d addr cl A' T' C P I X).
Qed.
Print Assumptions C92_refuted.
Definition joining_dir : dir := Dir (Some (txt "10.0.0.2:9000", [txt "10.0.0.1:9000"])) None None None None [txt "cluster.crt"].
Example C92_nonvacuous : check_action (txt "reboot") = None /\ setup_tls (Options (txt "none") true (txt "tls14") 0) true = None /\
  existing_state joining_dir = false /\ d_init joining_dir = Some (txt "10.0.0.2:9000", [txt "10.0.0.1:9000"]) /\
  setup_tls (Options (txt "none") true (txt "tls13") 0) true <> None.
Proof. repeat split; try reflexivity. discriminate. Qed.
