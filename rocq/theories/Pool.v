(** Many processes on one database: requests, compactors, expiry deletions and
    server starts, interleaved at the granularity of single database calls, with
    faults on any call and crashes of any process at any moment. *)
From Coq Require Import List ZArith Bool.
From Verif Require Import Bytes Spec Sql System Prog Backend Limited.
Import ListNotations.
Open Scope Z_scope.

(** The key a transaction writes, if it is one of the accepted shapes
    (limited.go:31-61). *)
Definition txn_key (t : txn_req) : option bytes :=
  match is_create t with
  | Some p => Some (p_key p)
  | None => match is_delete t with
            | Some (_, k) => Some k
            | None => match is_update t with Some (_, k, _, _) => Some k | None => None end
            end
  end.

(** Work the server does against the database:
    gRPC Txn and Range (server.go:36-135), the compaction ticker
    (backend.go:105-111, DoCompact 183-222), Start (backend.go:85-113), the
    expiry deletions (ttl.go:55-58, 92-95). *)
Inductive work :=
| WTxn (t : txn_req)
| WRange (r : range_req)
| WCompact
| WStart
| WExpire (k : bytes) (rev : Z).

(** The caller drops the result; only effects matter here. *)
Definition forget {A} (p : prog A) : prog unit := pbind p (fun _ => Ret tt).
(** The program of each kind of work (server.go:36-135, backend.go:85-113, 183-222, ttl.go:55-58, 92-95). *)
Definition program (cfg : driver_cfg) (q : work) : prog unit :=
  match q with
  | WTxn t => forget (s_txn cfg t)
  | WRange r => forget (s_range cfg r)
  | WCompact => forget (b_do_compact cfg)
  | WStart => forget b_start
  | WExpire k rev => forget (b_delete k rev)
  end.

(** The bookkeeping key is left alone by clients (see C22) and carries no lease. *)
Definition work_ok (q : work) : Prop :=
  match q with
  | WTxn t => txn_key t <> Some compact_rev_key
  | WExpire k _ => k <> compact_rev_key
  | _ => True
  end.

(** The database and the goroutines in flight. *)
Definition pool := (world * list (prog unit))%type.

(** One goroutine makes one database call, under any fault, or a new one starts, or one dies (crash). *)
Inductive pool_step (cfg : driver_cfg) : pool -> pool -> Prop :=
| pool_spawn w ts q : work_ok q -> pool_step cfg (w, ts) (w, program cfg q :: ts)
| pool_call w ts1 c k ts2 f :
    pool_step cfg (w, ts1 ++ Call c k :: ts2)
                  (fst (sem f c w), ts1 ++ k (snd (sem f c w)) :: ts2)
| pool_crash w ts1 p ts2 : pool_step cfg (w, ts1 ++ p :: ts2) (w, ts1 ++ ts2).

(** Any interleaving from the empty database. *)
Inductive pool_reach (cfg : driver_cfg) : pool -> Prop :=
| pool_init : pool_reach cfg (init_world, [])
| pool_next s s' : pool_reach cfg s -> pool_step cfg s s' -> pool_reach cfg s'.
