(** The driver's database calls, each made by sending the statement text of SqlText.v with its
    arguments to the SQL machine of SqlLang.v and scanning the rows that come back. *)
From Coq Require Import List ZArith Bool String.
From Verif Require Import Bytes Spec Sql System Prog SqlLang SqlText SqlRep Backend Limited Api.
Import ListNotations.
Open Scope Z_scope.

(** The table after setup (driver.go:347-403, schema.go:57-69). *)
Definition empty_tdb : tdb := TDb [] 0.

(** One statement or transaction that changes the table, with the arguments in the order of
    driver.go:523 (Create), 545 (Update), 568 (Delete), 718 (DeleteRevision) and 647-669
    (tryCompact, three statements in one transaction, results ignored).  [pv] says how the
    database library binds a []byte for a BLOB column.  Simplification: keys are bound as blobs,
    the library's NULL for a nil key is not modelled. *)
Definition text_apply (pv : bytes -> val) (t : tdb) (a : aop) : option (tdb * (Z * Z)) :=
  match a with
  | ACreate k v ttl => run_exec createSQL [VBlob k; VInt ttl; pv v; VBlob k] t
  | AUpdate k v rev ttl => run_exec updateSQL [VBlob k; VInt ttl; pv v; VBlob k; VInt rev] t
  | ADelete k rev => run_exec deleteSQL [VBlob k; VInt rev] t
  | ADeleteRev rev => run_exec deleteRevSQL [VInt rev] t
  | ACompact start stop =>
      match run_exec compactSupersededSQL [VInt start; VInt stop] t with
      | None => None
      | Some (t1, _) =>
          match run_exec compactTombstonesSQL [VInt start; VInt stop] t1 with
          | None => None
          | Some (t2, _) =>
              match run_exec updateCompactSQL [VInt stop] t2 with
              | None => None
              | Some (t3, _) => Some (t3, (0, 0))
              end
          end
      end
  end.

(** Reading a result set row by row (driver.go:405-440, utils.go:11-24). *)
Definition text_rows {A} (scan : list val -> option A) (cut : option (nat * err)) (q : option rel) :
  option (rowset A) :=
  match q with
  | Some out => match omap scan (body out) with Some l => Some (cut_rows cut l) | None => None end
  | None => None
  end.

(** One cell (driver.go:494-505, 762-766). *)
Definition scan_one {A} (f : val -> option A) (l : list val) : option A :=
  match l with [a] => f a | _ => None end.
(** Two nullable integers (driver.go:693-705). *)
Definition scan_pair (l : list val) : option (option Z * option Z) :=
  match l with
  | [a; b] => match scan_null_int a, scan_null_int b with Some x, Some y => Some (x, y) | _, _ => None end
  | _ => None
  end.

(** What a database call returns, computed from the statement text: driver.go:480-507 (Count),
    675-706 (GetCompactRevision), 722-736 (List), 738-740 (ListTTL), 742-771 (CurrentRevision),
    773-778 (AfterPrefix), 780-787 (After); the leader query is not SQL
    (pkg/backend/dqlite/driver.go:97-). *)
Definition text_answer (pv : bytes -> val) (cut : option (nat * err)) (leader : bool) (c : call) (t : tdb) :
  option (ret_of c) :=
  match c with
  | CExec a => match text_apply pv t a with Some (_, r) => Some r | None => None end
  | CRev => text_rows (scan_one scan_null_int) cut (run_query [] revSQL [] t)
  | CInterval => text_rows scan_pair cut (run_query [] revisionIntervalSQL [] t)
  | CList v1 lo hi limit rev =>
      let sql := if v1 then listSqlV1_0 else listSQL in
      text_rows scan_lrow cut
        (if 0 <? limit then run_query [] (with_limit sql) [VBlob lo; VBlob hi; VInt rev; VInt limit] t
         else run_query [] sql [VBlob lo; VBlob hi; VInt rev] t)
  | CCount v1 lo hi rev =>
      text_rows (scan_one scan_int) cut
        (run_query [] (if v1 then countRevisionSQLV1_0 else countRevisionSQL) [VBlob lo; VBlob hi; VInt rev] t)
  | CAfter rev limit =>
      text_rows scan_row cut
        (if 0 <? limit then run_query [] (with_limit afterSQL) [VInt rev; VInt limit] t
         else run_query [] afterSQL [VInt rev] t)
  | CAfterPrefix lo hi start stop =>
      text_rows scan_row cut (run_query [] afterSQLPrefix [VBlob lo; VBlob hi; VInt start; VInt stop] t)
  | CTtl rev => text_rows scan_ttl cut (run_query [] ttlSQL [VInt rev] t)
  | CLeader => Some leader
  end.

(** What a call does to the table if it takes effect (driver.go:405-478). *)
Definition text_effect (pv : bytes -> val) (c : call) (t : tdb) : option tdb :=
  match c with
  | CExec a => match text_apply pv t a with Some (t', _) => Some t' | None => None end
  | _ => Some t
  end.

(** [Some] of a pair of results (driver.go:405-478). *)
Definition both {A B} (a : option A) (b : option B) : option (A * B) :=
  match a, b with Some x, Some y => Some (x, y) | _, _ => None end.

(** One database call under a fault, on the SQL table (driver.go:405-478). *)
Definition text_sem (pv : bytes -> val) (f : fault) (c : call) (t : tdb) : option (tdb * result (ret_of c)) :=
  let ok cut leader := option_map Ok (text_answer pv cut leader c t) in
  match f with
  | NoFault => both (text_effect pv c t) (ok None true)
  | FailBefore e => Some (t, Err e)
  | FailAfter e => both (text_effect pv c t) (Some (Err e))
  | CutRows n e => both (text_effect pv c t) (ok (Some (n, e)) true)
  | NotLeader => both (text_effect pv c t) (ok None false)
  end.

(** Statements of other processes on the same table (driver.go:211-272, 616-673). *)
Fixpoint text_env (pv : bytes -> val) (env : list aop) (t : tdb) : option tdb :=
  match env with
  | [] => Some t
  | a :: env' => match text_apply pv t a with Some (t', _) => text_env pv env' t' | None => None end
  end.

(** A Go function run against the SQL table under a schedule of interference, faults and
    crash (as [exec] of Prog.v; driver.go:405-478).  [None] outside: SQL was refused. *)
Fixpoint text_exec {A} (pv : bytes -> val) (p : prog A) (sched : list (list aop * fault)) (t : tdb) :
  option (tdb * option A) :=
  match p with
  | Ret a => Some (t, Some a)
  | Call c k =>
      match sched with
      | [] => Some (t, None)
      | (env, f) :: sched' =>
          match text_env pv env t with
          | Some t1 => match text_sem pv f c t1 with
                       | Some (t2, r) => text_exec pv (k r) sched' t2
                       | None => None
                       end
          | None => None
          end
      end
  end.

(** Undisturbed run against the SQL table (as [run] of Prog.v; driver.go:405-478). *)
Fixpoint text_run {A} (pv : bytes -> val) (p : prog A) (t : tdb) : option (tdb * A) :=
  match p with
  | Ret a => Some (t, a)
  | Call c k => match text_sem pv NoFault c t with
                | Some (t', r) => text_run pv (k r) t'
                | None => None
                end
  end.

(** One API request (limited.go:16-61) or background compaction (backend.go:183-222) answered
    from the SQL table. *)
Definition text_one (pv : bytes -> val) (cfg : driver_cfg) (a : api) (t : tdb) : option (tdb * api_resp) :=
  let tx q := option_map (fun x => (fst x, RTxn (snd x))) (text_run pv (s_txn cfg q) t) in
  match a with
  | ApiCreate k v l => tx (create_txn k v l)
  | ApiUpdate k v e l => tx (update_txn k v e l)
  | ApiDelete k e => tx (delete_txn k e)
  | ApiRange q => option_map (fun x => (fst x, RRange (snd x))) (text_run pv (s_range cfg q) t)
  | ApiCompaction => option_map (fun x => (fst x, RCompaction (snd x))) (text_run pv (b_do_compact cfg) t)
  end.
(** A sequence of requests (server.go:36-135). *)
Fixpoint text_api (pv : bytes -> val) (cfg : driver_cfg) (reqs : list api) (t : tdb) : option (tdb * list api_resp) :=
  match reqs with
  | [] => Some (t, [])
  | a :: rest =>
      match text_one pv cfg a t with
      | Some (t', r) => match text_api pv cfg rest t' with Some (t'', rs) => Some (t'', r :: rs) | None => None end
      | None => None
      end
  end.

(** Tables reached from the fresh one by executing the texts of the changes the server issues
    (driver.go:211-272, 616-673), beside the history they are meant to record. *)
Inductive text_reach (pv : bytes -> val) : tdb -> store -> Prop :=
| text_reach_init : text_reach pv empty_tdb empty_store
| text_reach_step : forall t s a t' r, text_reach pv t s -> allowed s a -> text_apply pv t a = Some (t', r) ->
    text_reach pv t' (fst (spec_apply s a)).
