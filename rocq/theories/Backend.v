(** pkg/backend/sqlite/driver.go, pkg/backend/dqlite/driver.go and
    pkg/backend/internal/backend/{backend,utils}.go as programs.
    Omitted everywhere: OpenTelemetry spans and counters, logging, context
    plumbing (a cancelled or expired context shows up as a fault of the call),
    and notifyWatcherPoll (modelled in Watch.v). *)
From Coq Require Import List ZArith Bool.
From Verif Require Import Bytes Spec Sql System Prog.
Import ListNotations.
Open Scope Z_scope.

(** driver.go:279 *)
Definition max_retries : nat := 500.
(** backend.go:22-24 *)
Definition superseded_count : Z := 100.
(** compactBatchSize, backend.go:20-25. *)
Definition compact_batch_size : Z := 1000.
(** pollBatchSize, backend.go:20-25. *)
Definition poll_batch_size : Z := 500.

(** Config.Retry, driver.go:303-310 and pkg/backend/dqlite/driver.go:67-95: true for the busy class of errors only. *)
Definition retryable (e : err) : bool := match e with EBusy => true | _ => false end.

(** Configuration of a driver: does it use the current-schema queries
    (driver.go:484,726), and is it the dqlite one (leader check). *)
Record driver_cfg := DriverCfg { cfg_v1 : bool; cfg_dqlite : bool }.

(** The retry loop shared by query (driver.go:424-436), execute (driver.go:461-473)
    and Compact (driver.go:607-612): at most [n] attempts. *)
Fixpoint with_retry (n : nat) (c : call) : prog (result (ret_of c)) :=
  match n with
  | O => Ret (Err EOther)
  | S n' =>
      Call c (fun r =>
        match r with
        | Ok _ => Ret r
        | Err e => match n' with
                   | O => Ret r
                   | S _ => if retryable e then with_retry n' c else Ret r
                   end
        end)
  end.

(** driver.go:405-440 and 442-478 *)
Definition d_query (c : call) : prog (result (ret_of c)) := with_retry max_retries c.
(** execute, driver.go:442-478. *)
Definition d_execute (a : aop) : prog (result (Z * Z)) := with_retry max_retries (CExec a).

(** rows.Next() / rows.Err() / rows.Scan for single-row aggregates
    (driver.go:494-506, 690-705, 757-770). *)
Definition one_row {A} (rs : rowset A) : result A :=
  match rs_rows rs with
  | x :: _ => Ok x
  | [] => match rs_err rs with Some e => Err e | None => Err ENoRows end
  end.

(** [if len(rangeEnd) == 0 { rangeEnd = append(key, 0) }] (driver.go:481-483, 723-725, 774-776) *)
Definition range_end (key re : bytes) : bytes :=
  match re with [] => key ++ [0%N] | _ => re end.

(** driver.go:480-507 *)
Definition d_count (cfg : driver_cfg) (key re : bytes) (rev : Z) : prog (result Z) :=
  let* rs := d_query (CCount (cfg_v1 cfg) key (range_end key re) rev) in
  Ret (one_row rs).

(** Result handling shared by Create (driver.go:522-533), Update (:544-554), Delete (:569-579). *)
Definition exec_outcome (x : Z * Z) : Z * bool :=
  if fst x =? 0 then (0, false) else (snd x, true).

(** driver.go:509-534 *)
Definition d_create (k v : bytes) (ttl : Z) : prog (result (Z * bool)) :=
  let* x := d_execute (ACreate k v ttl) in Ret (Ok (exec_outcome x)).
(** driver.go:536-555 *)
Definition d_update (k v : bytes) (rev ttl : Z) : prog (result (Z * bool)) :=
  let* x := d_execute (AUpdate k v rev ttl) in Ret (Ok (exec_outcome x)).
(** driver.go:557-580 *)
Definition d_delete (k : bytes) (rev : Z) : prog (result (Z * bool)) :=
  let* x := d_execute (ADelete k rev) in Ret (Ok (exec_outcome x)).

(** sql.NullInt64.Int64: 0 for NULL (driver.go:575-579). *)
Definition null_int64 (x : option Z) : Z := match x with Some z => z | None => 0 end.

(** driver.go:675-706 *)
Definition d_get_compact_revision : prog (result (Z * Z)) :=
  let* rs := d_query CInterval in
  Ret (match one_row rs with
       | Ok (low, high) => Ok (null_int64 low, null_int64 high)
       | Err e => Err e
       end).

(** driver.go:585-614 *)
Definition d_compact_sqlite (revision : Z) : prog (result unit) :=
  let* (start, current) := d_get_compact_revision in
  if revision <=? start then Ret (Ok tt)
  else
    let revision := if current <? revision then current else revision in
    let* _ := with_retry max_retries (CExec (ACompact start revision)) in
    Ret (Ok tt).

(** pkg/backend/dqlite/driver.go:55-65: skipped on a node known not to be the leader. *)
Definition d_compact (cfg : driver_cfg) (revision : Z) : prog (result unit) :=
  if cfg_dqlite cfg then
    Call CLeader (fun r =>
      match r with
      | Ok false => Ret (Ok tt)
      | _ => d_compact_sqlite revision
      end)
  else d_compact_sqlite revision.

(** driver.go:708-720 *)
Definition d_delete_revision (rev : Z) : prog (result unit) :=
  let* _ := d_execute (ADeleteRev rev) in Ret (Ok tt).

(** driver.go:722-736 *)
Definition d_list (cfg : driver_cfg) (key re : bytes) (limit rev : Z) : prog (result (rowset lrow)) :=
  d_query (CList (cfg_v1 cfg) key (range_end key re) limit rev).

(** driver.go:738-740 *)
Definition d_list_ttl (rev : Z) : prog (result (rowset (Z * bytes * Z))) := d_query (CTtl rev).

(** driver.go:742-771: scanning NULL into an int64 is an error. *)
Definition d_current_revision : prog (result Z) :=
  let* rs := d_query CRev in
  Ret (match one_row rs with
       | Ok (Some z) => Ok z
       | Ok None => Err ENull
       | Err e => Err e
       end).

(** driver.go:773-778 *)
Definition d_after_prefix (key re : bytes) (start stop : Z) : prog (result (rowset row)) :=
  d_query (CAfterPrefix key (range_end key re) start stop).
(** driver.go:780-787 *)
Definition d_after (rev limit : Z) : prog (result (rowset row)) := d_query (CAfter rev limit).

(** ---- utils.go ---- *)

(** utils.go:11-24: rows.Err() is not looked at. *)
Definition scan_all {A B} (scan_one : A -> B) (rs : rowset A) : list B := map scan_one (rs_rows rs).

(** utils.go:26-39 *)
Definition scan_key_value (r : lrow) : kv :=
  KV (l_name r) (l_value r) (l_lease r) (l_create r) (l_id r).

(** utils.go:41-78 *)
Definition scan_event (r : row) : event :=
  let kv0 := KV (name r) (value r) (lease r) (create_revision r) (id r) in
  if created r then
    Event (deleted r) (KV (name r) (value r) (lease r) (id r) (id r)) None
  else
    Event (deleted r) kv0
      (Some (KV (name r) (old_value r) (lease r) (create_revision r) (prev_revision r))).

(** ---- backend.go ---- *)

(** backend.go:335-366 *)
Definition b_create := d_create.
(** Update, backend.go:356-366. *)
Definition b_update := d_update.
(** Delete, backend.go:345-354. *)
Definition b_delete := d_delete.

(** revision normalisation of List/Count (backend.go:246-250, 322-326) *)
Definition read_revision (revision compact current : Z) : result Z :=
  if (revision =? 0) || (current <? revision) then Ok current
  else if revision <? compact then Err ECompacted
  else Ok revision.

(** backend.go:228-264 *)
Definition b_list (cfg : driver_cfg) (key re : bytes) (limit revision : Z) : prog (result (Z * list kv)) :=
  let* (compact, current) := d_get_compact_revision in
  match read_revision revision compact current with
  | Err e => Ret (Err e)
  | Ok revision =>
      let* rs := d_list cfg key re limit revision in
      Ret (Ok (current, scan_all scan_key_value rs))
  end.

(** backend.go:306-333 *)
Definition b_count (cfg : driver_cfg) (key re : bytes) (revision : Z) : prog (result (Z * Z)) :=
  let* (compact, current) := d_get_compact_revision in
  match read_revision revision compact current with
  | Err e => Ret (Err e)
  | Ok revision =>
      let* n := d_count cfg key re revision in
      Ret (Ok (current, n))
  end.

(** backend.go:159-167: the bookkeeping row to keep: (maxRev, maxID) *)
Definition pick_keeper (events : list event) : Z * Z :=
  fold_left (fun '(maxRev, maxID) ev =>
      match ev_prev ev with
      | Some p => if maxRev <? kv_mod p then (kv_mod p, kv_mod (ev_kv ev)) else (maxRev, maxID)
      | None => (maxRev, maxID)
      end) events (0, 0).

(** backend.go:169-176 *)
Fixpoint delete_others (keep : Z) (events : list event) : prog (result unit) :=
  match events with
  | [] => Ret (Ok tt)
  | ev :: rest =>
      if kv_mod (ev_kv ev) =? keep then delete_others keep rest
      else let* _ := d_delete_revision (kv_mod (ev_kv ev)) in delete_others keep rest
  end.

(** backend.go:136-179 *)
Definition b_compact_start : prog (result unit) :=
  let* current := d_current_revision in
  let* rs := d_after_prefix compact_rev_key (compact_rev_key ++ [0%N]) 0 current in
  match scan_all scan_event rs with
  | [] => let* _ := b_create compact_rev_key [] 0 in Ret (Ok tt)
  | [_] => Ret (Ok tt)
  | events => delete_others (snd (pick_keeper events)) events
  end.

(** backend.go:210-220: the batch loop; [fuel] bounds the number of iterations
    (see [compact_fuel]). *)
Fixpoint compact_loop (cfg : driver_cfg) (fuel : nat) (start target : Z) : prog (result unit) :=
  match fuel with
  | O => Ret (Ok tt)
  | S fuel' =>
      if start <? target then
        let batch := if target <? start + compact_batch_size then target else start + compact_batch_size in
        let* _ := d_compact cfg batch in
        compact_loop cfg fuel' batch target
      else Ret (Ok tt)
  end.
(** Number of iterations of the loop of backend.go:210: each advances by the
    batch size until the target. *)
Definition compact_fuel (start target : Z) : nat :=
  Z.to_nat ((target - start + compact_batch_size - 1) / compact_batch_size).

(** backend.go:183-222 *)
Definition b_do_compact (cfg : driver_cfg) : prog (result unit) :=
  let* _ := b_compact_start in
  let* (start, target0) := d_get_compact_revision in
  let target := target0 - superseded_count in
  compact_loop cfg (compact_fuel start target) start target.

(** "/registry/health" and {"health":"true"} (backend.go:93) *)
Definition health_key : bytes :=
  [47;114;101;103;105;115;116;114;121;47;104;101;97;108;116;104]%N.
(** The value of backend.go:93. *)
Definition health_value : bytes :=
  [123;34;104;101;97;108;116;104;34;58;34;116;114;117;101;34;125]%N.

(** Database part of Start (backend.go:85-113) and startWatch (backend.go:266-304):
    returns the initial poll revision.  The goroutines it starts are modelled
    by Watch.v, Ttl.v and the compaction programs. *)
Definition b_start : prog (result Z) :=
  let* _ := b_create health_key health_value 0 in
  let* _ := b_compact_start in
  let* (compact, _) := d_get_compact_revision in
  Ret (Ok compact).
