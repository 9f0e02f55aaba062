(** pkg/server/server.go: configuration at start-up, the disk watcher, and the life
    cycle of pkg/backend/internal/backend/backend.go. *)
From Coq Require Import List ZArith NArith Bool String Ascii.
From Verif Require Import Bytes.
Import ListNotations.
Open Scope Z_scope.

(** string constants of the code *)
Definition txt (s : string) : bytes := map N_of_ascii (list_ascii_of_string s).

(** ** Snapshot parameters: server.go:103-108, 289-328 *)
Definition default_threshold : Z := 512.
(** server.go:103-108. *)
Definition min_threshold : Z := 384.
(** server.go:103-108. *)
Definition default_trailing : Z := 4096.
(** server.go:103-108. *)
Definition min_trailing : Z := 512.
(** Go uint64 conversion. *)
Definition u64 (z : Z) : Z := z mod 2 ^ 64.
(** server.go:302-318 for the snapshot section of tuning.yaml, uint64 fields; the
    result is (threshold, trailing).  The strategy (server.go:320-328) does not touch them. *)
Definition tune (threshold trailing : Z) : Z * Z :=
  let tr := if trailing <? min_trailing then min_trailing else trailing in
  let th := if threshold =? 0 then u64 (trailing * 3) / 4
            else if threshold <? min_threshold then min_threshold
            else threshold in
  let th := if trailing <? threshold then trailing else th in
  (th, tr).
(** server.go:289-300: no file, or no snapshot section: the defaults *)
Definition snapshot_params (section : option (Z * Z)) : Z * Z :=
  match section with None => (default_threshold, default_trailing) | Some (th, tr) => tune th tr end.

(** ** init.yaml and update.yaml: server.go:149-223
    Simplifications:
    - the storage directory is the files the code looks at, with their decoded contents;
    - os.WriteFile truncates and then writes (util.go:31): between the two the file is
      empty, and an empty file decodes to the zero value without error (yaml.Unmarshal);
    - other failing file operations leave the directory as a crash at that point does;
    - app.New (go-dqlite, not in the repository): on a directory without info.yaml it
      stores id, address and the known members in one step, else it uses what is stored
      and refuses a different address;
    - ReconfigureMembershipExt (go-dqlite) replaces the stored raft membership at once. *)
Record ninfo := NInfo { ni_id : Z; ni_addr : bytes; ni_role : Z }.
(** The storage directory, server.go:95-101, 150-224. *)
Record dir := Dir {
  d_init : option (bytes * list bytes);     (* init.yaml: address, cluster *)
  d_update : option bytes;                  (* update.yaml: address *)
  d_info : option (option ninfo);           (* info.yaml; [Some None]: empty file *)
  d_cluster : option (option (list bytes)); (* cluster.yaml: addresses *)
  d_raft : option (list ninfo);             (* raft data files: membership *)
  d_extra : list bytes }.                   (* names of the other files *)
Definition is_some {A} (o : option A) : bool := match o with Some _ => true | None => false end.
(** server.go:95-101 *)
Definition expected_files : list bytes := map txt ["cluster.crt"%string; "cluster.key"%string; "init.yaml"%string; "failure-domain"%string; "tuning.yaml"%string].
(** os.ReadDir (server.go:157): the names of the files in the directory.  The raft data are
    several files (metadata1, open-1, snapshot-..) of go-dqlite; one name stands for them. *)
Definition file_names (d : dir) : list bytes :=
  let file (there : bool) (n : string) := if there then [txt n] else [] in
  file (is_some (d_init d)) "init.yaml"%string ++ file (is_some (d_update d)) "update.yaml"%string ++
  file (is_some (d_info d)) "info.yaml"%string ++ file (is_some (d_cluster d)) "cluster.yaml"%string ++
  file (is_some (d_raft d)) "metadata1"%string ++ d_extra d.
(** server.go:161-165; true: some file is not expected *)
Definition existing_state (d : dir) : bool :=
  existsb (fun n => negb (existsb (beqb n) expected_files)) (file_names d).
(** yaml decoding of info.yaml: zero value if nothing was written. *)
Definition decode_info (o : option ninfo) : ninfo := match o with Some i => i | None => NInfo 0 [] 0 end.
(** yaml decoding of cluster.yaml: empty if nothing was written. *)
Definition decode_cluster (o : option (option (list bytes))) : list bytes := match o with Some (Some l) => l | _ => [] end.
(** init.yaml changes (server.go:178). *)
Definition set_init v (d : dir) : dir := Dir v (d_update d) (d_info d) (d_cluster d) (d_raft d) (d_extra d).
(** update.yaml changes (server.go:221). *)
Definition set_update v (d : dir) : dir := Dir (d_init d) v (d_info d) (d_cluster d) (d_raft d) (d_extra d).
(** info.yaml changes (server.go:167-177, 214-219). *)
Definition set_info v (d : dir) : dir := Dir (d_init d) (d_update d) v (d_cluster d) (d_raft d) (d_extra d).
(** cluster.yaml changes (server.go:167-177, 205-213). *)
Definition set_cluster v (d : dir) : dir := Dir (d_init d) (d_update d) (d_info d) v (d_raft d) (d_extra d).
(** Files written by dqlite itself. *)
Definition set_raft v (d : dir) : dir := Dir (d_init d) (d_update d) (d_info d) (d_cluster d) v (d_extra d).

(** what else a start depends on: does reconfiguring work, is the rest of the
    configuration readable (failure-domain, TLS, tuning: server.go:225-346), does
    app.New work, and the id it would generate *)
Record benv := BEnv { be_reconf : bool; be_config : bool; be_app : bool; be_id : Z }.
(** Outcome of New: an error, or a running node with its identity and members (server.go:357-377). *)
Inductive boutcome := BFailed | BStarted (self : ninfo) (members : list bytes).
(** go-dqlite app.New default address *)
Definition default_address : bytes := txt "127.0.0.1:9001".
(** A start is the list of directory states it goes through after the initial one, and
    its outcome. *)
Definition boot_result := (list dir * boutcome)%type.
(** Sequencing. *)
Definition then_ (steps : list dir) (r : boot_result) : boot_result := (steps ++ fst r, snd r).
(** server.go:357 *)
Definition app_new (e : benv) (opt : option (bytes * list bytes)) (d : dir) : boot_result :=
  if negb (be_app e) then ([], BFailed)
  else match d_info d with
  | None =>
      let addr := match opt with Some (a, _) => a | None => default_address end in
      let cl := match opt with Some (_, c) => c | None => [] end in
      let self := NInfo (be_id e) addr 0 in
      let members := match cl with [] => [addr] | _ => cl end in
      ([Dir (d_init d) (d_update d) (Some (Some self)) (Some (Some members)) (match cl with [] => Some [self] | _ => d_raft d end) (d_extra d)],
       BStarted self members)
  | Some oi =>
      let i := decode_info oi in
      match opt with
      | Some (a, _) => if beqb a (ni_addr i) then ([], BStarted i (decode_cluster (d_cluster d))) else ([], BFailed)
      | None => ([], BStarted i (decode_cluster (d_cluster d)))
      end
  end.
(** server.go:225-360 *)
Definition finish_boot (e : benv) (opt : option (bytes * list bytes)) (d : dir) : boot_result :=
  if negb (be_config e) then ([], BFailed) else app_new e opt d.
(** server.go:149-360 *)
Definition boot (e : benv) (d : dir) : boot_result :=
  match d_init d with
  | Some (addr, cl) =>
      if existing_state d then ([], BFailed)
      else match addr with
      | [] => ([], BFailed)
      | _ => let d1 := set_init None d in then_ [d1] (finish_boot e (Some (addr, cl)) d1)
      end
  | None =>
      match d_update d with
      | Some a =>
          match a, d_info d with
          | [], _ | _, None => ([], BFailed)
          | _, Some oi =>
              let i0 := decode_info oi in
              let i := NInfo (ni_id i0) a (ni_role i0) in
              if negb (be_reconf e) then ([], BFailed)
              else
                let d1 := set_raft (Some [i]) d in
                let d2 := set_info (Some None) d1 in
                let d3 := set_info (Some (Some i)) d2 in
                let d4 := set_cluster (Some None) d3 in
                let d5 := set_cluster (Some (Some [a])) d4 in
                let d6 := set_update None d5 in
                then_ [d1; d2; d3; d4; d5; d6] (finish_boot e None d6)
          end
      | None => finish_boot e None d
      end
  end.
(** any number of starts, each crashing, failing or stopping at a state satisfying [P] *)
Inductive boots (P : dir -> Prop) (d : dir) : dir -> Prop :=
| boots_none : boots P d d
| boots_more d1 e d2 : boots P d d1 -> In d2 (d1 :: fst (boot e d1)) -> P d2 -> boots P d d2.
(** the directory a start leaves when it is not interrupted *)
Definition boot_end (e : benv) (d : dir) : dir := List.last (fst (boot e d)) d.

(** ** The disk watcher: server.go:379-411, util.go:46-55
    [None]: statfs fails.  bavail is uint64, bsize int64. *)
Definition storage_low (minimum : Z) (stat : option (Z * Z)) : bool :=
  match stat with None => true | Some (bavail, bsize) => u64 (bavail * u64 bsize) <? minimum end.
(** lowAvailableStorageAction (server.go:144-148). *)
Inductive low_action := LANone | LAHandover | LATerminate.
(** Where the goroutine is (server.go:386-410). *)
Inductive wphase := DIdle | DChecking | DSending | DReturned.
(** The disk watcher and what it has done (server.go:379-411). *)
Record dstate := DState {
  ds_phase : wphase;
  ds_buffer : bool;        (* mustStopCh, capacity 1 *)
  ds_closed : bool;
  ds_cancelled : bool;     (* ctx *)
  ds_handovers : nat;      (* ghost: Handover calls *)
  ds_signals : nat;        (* ghost: sends completed *)
  ds_received : nat;       (* ghost: receives by the main goroutine *)
  ds_panicked : bool }.
(** Before the first tick. *)
Definition dstate_init : dstate := DState DIdle false false false 0 0 0 false.
(** One step of the ticker, of statfs, of the receiver (server.go:386-410). *)
Inductive daction :=
| DWake                              (* the timer fires: server.go:391 *)
| DCheck (stat : option (Z * Z))     (* server.go:392-407 *)
| DDone                              (* server.go:389-390 *)
| DReceive                           (* cmd/root.go:177 *)
| DCancel                            (* cmd/root.go:179 *)
| DClose.                            (* server.go:524, at the end of Shutdown *)
(** server.go:406: a send on mustStopCh *)
Definition send_stop (s : dstate) : dstate :=
  if ds_closed s then DState DReturned (ds_buffer s) true (ds_cancelled s) (ds_handovers s) (ds_signals s) (ds_received s) true
  else if ds_buffer s then DState DSending true false (ds_cancelled s) (ds_handovers s) (ds_signals s) (ds_received s) (ds_panicked s)
  else DState DIdle true false (ds_cancelled s) (ds_handovers s) (S (ds_signals s)) (ds_received s) (ds_panicked s).
(** The goroutine moves on. *)
Definition set_phase p (s : dstate) : dstate :=
  DState p (ds_buffer s) (ds_closed s) (ds_cancelled s) (ds_handovers s) (ds_signals s) (ds_received s) (ds_panicked s).
(** Effect of one action (server.go:386-410). *)
Definition dstep (act : low_action) (minimum : Z) (s : dstate) (a : daction) : dstate :=
  match a with
  | DWake => match ds_phase s with DIdle => set_phase DChecking s | _ => s end
  | DCheck stat =>
      match ds_phase s with
      | DChecking =>
          if storage_low minimum stat then
            match act with
            | LANone => set_phase DIdle s
            | LAHandover => DState DIdle (ds_buffer s) (ds_closed s) (ds_cancelled s) (S (ds_handovers s)) (ds_signals s) (ds_received s) (ds_panicked s)
            | LATerminate => send_stop s
            end
          else set_phase DIdle s
      | _ => s
      end
  | DDone => match ds_phase s with DIdle => if ds_cancelled s then set_phase DReturned s else s | _ => s end
  | DReceive =>
      if ds_buffer s then
        let s1 := DState (ds_phase s) false (ds_closed s) (ds_cancelled s) (ds_handovers s) (ds_signals s) (S (ds_received s)) (ds_panicked s) in
        match ds_phase s with DSending => send_stop s1 | _ => s1 end   (* a blocked sender goes on *)
      else s
  | DCancel => DState (ds_phase s) (ds_buffer s) (ds_closed s) true (ds_handovers s) (ds_signals s) (ds_received s) (ds_panicked s)
  | DClose =>
      let s1 := DState (ds_phase s) (ds_buffer s) true (ds_cancelled s) (ds_handovers s) (ds_signals s) (ds_received s) (ds_panicked s || ds_closed s) in
      match ds_phase s with DSending => send_stop s1 | _ => s1 end
  end.
(** A sequence of actions. *)
Definition drun act minimum acts (s : dstate) : dstate := fold_left (dstep act minimum) acts s.

(** ** Start, Stop, Close: backend.go:85-134
    One caller making calls in sequence, the three goroutines of each start (compactor,
    poller: backend.go:282-301; ttl: backend.go:104-107), and the mutex.
    Simplifications: a worker is running, waiting for the mutex (publishEvents,
    watcher.go:216-218, and WatcherGroup, watcher.go:268), holding it, or gone; it may
    leave as soon as its context is cancelled and it holds nothing.  The goroutines of the
    expiry timers (ttl.go:70, 92), which Stop does not wait for, are not among them: Halt.v. *)
Inductive lop := LStart (ok : bool) | LStop | LClose.
(** Who holds the mutex of backend.go:70. *)
Inductive lowner := OCaller | OWorker (i : nat) | OLeaked.
(** A goroutine started by Start (backend.go:104-111, 282-301). *)
Inductive lworker := KRun | KWant | KHold | KGone.
(** Where the caller is (backend.go:85-134). *)
Inductive lpc := PcIdle | PcStart (ok : bool) | PcStop | PcWait.
(** Mutex, started flag, goroutines, caller. *)
Record lstate := LState {
  l_lock : option lowner;
  l_started : bool;
  l_workers : list (lworker * bool);   (* state, is its context cancelled *)
  l_pc : lpc;
  l_todo : list lop }.
(** A goroutine moves on. *)
Definition set_worker (i : nat) (w : lworker * bool) (l : list (lworker * bool)) : list (lworker * bool) :=
  firstn i l ++ w :: skipn (S i) l.
(** One step (backend.go:85-134, 282-301). *)
Inductive lstep : lstate -> lstate -> Prop :=
(* backend.go:86 *)
| ls_start_lock st ws ok todo :
    lstep (LState None st ws PcIdle (LStart ok :: todo)) (LState (Some OCaller) st ws (PcStart ok) (LStart ok :: todo))
(* backend.go:89-91, deferred unlock *)
| ls_start_again ws ok o todo :
    lstep (LState (Some OCaller) true ws (PcStart ok) (o :: todo)) (LState None true ws PcIdle todo)
(* backend.go:93-102: an error *)
| ls_start_fail ws o todo :
    lstep (LState (Some OCaller) false ws (PcStart false) (o :: todo)) (LState None false ws PcIdle todo)
(* backend.go:93-112 *)
| ls_start_ok ws o todo :
    lstep (LState (Some OCaller) false ws (PcStart true) (o :: todo))
          (LState None true (ws ++ [(KRun, false); (KRun, false); (KRun, false)]) PcIdle todo)
(* backend.go:116 *)
| ls_stop_lock st ws o todo : (o = LStop \/ o = LClose) ->
    lstep (LState None st ws PcIdle (o :: todo)) (LState (Some OCaller) st ws PcStop (o :: todo))
(* backend.go:118-120: returns with the mutex held *)
| ls_stop_idle ws o todo :
    lstep (LState (Some OCaller) false ws PcStop (o :: todo)) (LState (Some OLeaked) false ws PcIdle todo)
(* backend.go:121-123 *)
| ls_stop_cancel ws o todo :
    lstep (LState (Some OCaller) true ws PcStop (o :: todo)) (LState None false (map (fun w => (fst w, true)) ws) PcWait (o :: todo))
(* backend.go:125-126 *)
| ls_stop_wait lk st ws o todo : Forall (fun w => fst w = KGone) ws ->
    lstep (LState lk st ws PcWait (o :: todo)) (LState lk st [] PcIdle todo)
(* workers *)
| ls_worker_want lk st ws pc todo i c : nth_error ws i = Some (KRun, c) ->
    lstep (LState lk st ws pc todo) (LState lk st (set_worker i (KWant, c) ws) pc todo)
| ls_worker_lock st ws pc todo i c : nth_error ws i = Some (KWant, c) ->
    lstep (LState None st ws pc todo) (LState (Some (OWorker i)) st (set_worker i (KHold, c) ws) pc todo)
| ls_worker_unlock st ws pc todo i c : nth_error ws i = Some (KHold, c) ->
    lstep (LState (Some (OWorker i)) st ws pc todo) (LState None st (set_worker i (KRun, c) ws) pc todo)
| ls_worker_exit lk st ws pc todo i : nth_error ws i = Some (KRun, true) ->
    lstep (LState lk st ws pc todo) (LState lk st (set_worker i (KGone, true) ws) pc todo).
(** Any number of steps. *)
Inductive lsteps : lstate -> lstate -> Prop :=
| lsteps_refl s : lsteps s s
| lsteps_more s s1 s2 : lstep s s1 -> lsteps s1 s2 -> lsteps s s2.
(** Before the first call. *)
Definition linit (todo : list lop) : lstate := LState None false [] PcIdle todo.
