(** Every unary method of the four gRPC services that pkg/endpoint/endpoint.go:77-84 registers,
    and Status with the size query under it: pkg/limited/{server,lease,maintenance,dbsize}.go,
    backend.go:368-378, driver.go:789-807.
    Simplifications:
    - the database file is its page counts; every attempt at the size query meets them as they
      are at that time (other statements of any process change them in between);
    - of the methods that only refuse, the request is left out (it is not looked at), and the
      text of the error is [EUnsupported];
    - streaming methods other than Watch (LeaseKeepAlive, Snapshot) refuse at once, like unary ones;
      Watch is in Stream.v. *)
From Coq Require Import List ZArith Bool String.
From Verif Require Import Bytes Spec Sql System Prog Backend Limited Lease Server.
Import ListNotations.
Open Scope Z_scope.
Open Scope list_scope.

(** What SQLite's pragma_page_count(), pragma_freelist_count() and pragma_page_size() report
    (driver.go:274-276). *)
Record pages := Pages { pg_count : Z; pg_free : Z; pg_size : Z }.
(** The rows of getSizeSQL, driver.go:274-276 (its text is run in C118_size). *)
Definition size_rows (p : pages) : list Z := [(pg_count p - pg_free p) * pg_size p].

(** One attempt at the query: rows or an error (driver.go:424-436). *)
Definition size_try (x : pages * fault) : result (rowset Z) :=
  let '(p, f) := x in
  match f with
  | NoFault | NotLeader => Ok (RowSet (size_rows p) None)
  | FailBefore e | FailAfter e => Err e
  | CutRows n e => Ok (RowSet (firstn n (size_rows p)) (Some e))
  end.
(** query, driver.go:405-440, with [n] attempts left; None: the process ended before an answer. *)
Fixpoint size_query (n : nat) (sched : list (pages * fault)) : option (result (rowset Z)) :=
  match sched with
  | [] => None
  | x :: rest =>
      match size_try x with
      | Ok rs => Some (Ok rs)
      | Err e => match n with
                 | S (S n') => if retryable e then size_query (S n') rest else Some (Err e)
                 | _ => Some (Err e)
                 end
      end
  end.
(** GetSize, driver.go:789-807, through DbSize (backend.go:368-378) and dbSize (dbsize.go:5-7). *)
Definition get_size (sched : list (pages * fault)) : option (result Z) :=
  match size_query max_retries sched with
  | None => None
  | Some (Err e) => Some (Err e)
  | Some (Ok rs) =>
      match rs_rows rs with
      | z :: _ => Some (Ok z)
      | [] => match rs_err rs with Some e => Some (Err e) | None => Some (Err ENoRows) end
      end
  end.

(** etcdserverpb.StatusResponse: the fields Status fills, maintenance.go:25-29. *)
Record status_resp := StatusResp { sr_version : bytes; sr_db_size : Z }.
(** Status, maintenance.go:20-30. *)
Definition status (sched : list (pages * fault)) : option (result status_resp) :=
  match get_size sched with
  | None => None
  | Some (Err e) => Some (Err e)
  | Some (Ok z) => Some (Ok (StatusResp (txt "3.5.13") z))
  end.

(** The unary methods: KV (server.go:36-143), Lease (lease.go:10-32), Maintenance
    (maintenance.go:16-54); Status is apart because it looks at the file. *)
Inductive rpc :=
| RRange (r : range_req)
| RPut (p : put_req)
| RDeleteRange (d : del_req)
| RTxn (t : txn_req)
| RCompact (rev : Z)
| RLeaseGrant (r : lease_req)
| RLeaseRevoke | RLeaseKeepAlive | RLeaseTimeToLive | RLeaseLeases
| RAlarm | RDefragment | RHash | RHashKV | RSnapshot | RMoveLeader | RDowngrade.
(** Their answers (etcdserverpb messages). *)
Inductive reply :=
| ReRange (r : range_resp)
| ReTxn (t : txn_resp)
| ReCompact (rev : Z)
| ReLease (id ttl : Z)
| ReNothing.

(** An answer as one of [reply] (the Go functions return different types, server.go:36-143). *)
Definition as_reply {A} (f : A -> reply) (p : prog (result A)) : prog (result reply) :=
  pbind p (fun r => Ret (match r with Ok a => Ok (f a) | Err e => Err e end)).
(** The method called on KVServerBridge: server.go:36-143, lease.go:10-32, maintenance.go:16-54. *)
Definition serve (cfg : driver_cfg) (x : rpc) : prog (result reply) :=
  match x with
  | RRange r => as_reply ReRange (s_range cfg r)
  | RPut p => as_reply (fun _ => ReNothing) (s_put p)
  | RDeleteRange d => as_reply (fun _ => ReNothing) (s_delete_range d)
  | RTxn t => as_reply ReTxn (s_txn cfg t)
  | RCompact rev => as_reply ReCompact (s_compact rev)
  | RLeaseGrant r => as_reply (fun '(id, ttl) => ReLease id ttl) (lease_grant r)
  | RLeaseRevoke | RLeaseKeepAlive | RLeaseTimeToLive | RLeaseLeases
  | RAlarm | RDefragment | RHash | RHashKV | RSnapshot | RMoveLeader | RDowngrade =>
      as_reply (fun _ => ReNothing) s_lease_other
  end.

(** ---- specification vocabulary ---- *)
(** A database file of SQLite: the page size is between 512 and 65536, there are at most
    2^32 - 2 pages, and free pages are pages of the file. *)
Definition legal_file (p : pages) : Prop :=
  512 <= pg_size p <= 65536 /\ 0 <= pg_free p <= pg_count p /\ pg_count p <= 4294967294.
(** What other processes did during a schedule that was used up to the answer is all that
    happened to the database: the state after the first [n] entries' interference alone. *)
Definition only_others (n : nat) (sched : list (list aop * fault)) (w : world) : world :=
  fold_left wapply (List.concat (map fst (firstn n sched))) w.
