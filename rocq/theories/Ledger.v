(** The processes of Pool.v with a log of what clients can observe and of what is
    committed: who asked what, which change was committed on whose behalf, who got
    which answer.  Interleaving is at the granularity of single database calls,
    any call may suffer a fault allowed by [okf], any process may die.
    Not code: this is the frame in which requests run concurrently (grpc-go runs
    each request in its own goroutine; any number of servers share the database). *)
From Coq Require Import List ZArith Bool.
From Verif Require Import Bytes Spec Sql System Prog Backend Limited Api Pool.
Import ListNotations.
Open Scope Z_scope.

(** What a caller gets; the server's own goroutines: an error or none. *)
Inductive reply := ReTxn (r : result txn_resp) | ReRange (r : result range_resp) | ReDone (r : result unit).
(** Only whether there is an error matters to a goroutine of the server (backend.go:85-113,
    281-295; ttl.go:22-34; the deletion's result is only logged). *)
Definition err_only {A} (r : result A) : result unit := match r with Ok _ => Ok tt | Err e => Err e end.
(** The programs of Pool.v, keeping their result (server.go:36-135; backend.go:85-113,
    183-222; ttl.go:55-58, 92-95). *)
Definition served (cfg : driver_cfg) (q : work) : prog reply :=
  match q with
  | WTxn t => pbind (s_txn cfg t) (fun r => Ret (ReTxn r))
  | WRange r => pbind (s_range cfg r) (fun x => Ret (ReRange x))
  | WCompact => pbind (b_do_compact cfg) (fun r => Ret (ReDone (err_only r)))
  | WStart => pbind b_start (fun r => Ret (ReDone (err_only r)))
  | WExpire k rev => pbind (b_delete k rev) (fun r => Ret (ReDone (err_only r)))
  end.

(** Ghost: a commit or an answer. *)
Inductive note :=
| Asked (id : nat) (q : work)
| Committed (id : nat) (e : entry)
| Answered (id : nat) (o : reply).
(** Ghost: requests, commits and answers in real-time order, oldest first. *)
Definition ledger := list note.

(** The changes committed so far, in order. *)
Definition commits (l : ledger) : history :=
  flat_map (fun x => match x with Committed _ e => [e] | _ => [] end) l.

(** Those committed on behalf of one request. *)
Definition committed_by (id : nat) (l : ledger) : history :=
  flat_map (fun x => match x with Committed j e => if Nat.eqb j id then [e] else [] | _ => [] end) l.

(** The change a statement makes when it affects a row (driver.go:238-272, 220-236). *)
Definition entry_of (a : aop) : list entry :=
  match a with
  | ACreate k v l => [Entry k (Put v l)]
  | AUpdate k v _ l => [Entry k (Put v l)]
  | ADelete k _ => [Entry k Del]
  | ACompact _ _ | ADeleteRev _ => []
  end.
(** What one call commits: nothing if it fails before taking effect or affects no row. *)
Definition commit_of (f : fault) (c : call) (w : world) : list entry :=
  match f, op_of c with
  | FailBefore _, _ | _, None => []
  | _, Some a => if fst (snd (apply (fst w) a)) =? 0 then [] else entry_of a
  end.

(** Database, ledger, goroutines in flight, next request number. *)
Record lstate := LState {
  l_world : world;
  l_procs : list (nat * prog reply);
  l_log : ledger;
  l_next : nat }.
(** The fresh server. *)
Definition linit : lstate := LState init_world [] [] 0.

(** One goroutine makes one database call or answers; one arrives; one dies (crash). *)
Inductive lstep (cfg : driver_cfg) (okf : fault -> Prop) : lstate -> lstate -> Prop :=
| l_ask w ps log n q : work_ok q ->
    lstep cfg okf (LState w ps log n) (LState w ((n, served cfg q) :: ps) (log ++ [Asked n q]) (S n))
| l_call w ps1 i c k ps2 log n f : okf f ->
    lstep cfg okf (LState w (ps1 ++ (i, Call c k) :: ps2) log n)
      (LState (fst (sem f c w)) (ps1 ++ (i, k (snd (sem f c w))) :: ps2)
              (log ++ map (Committed i) (commit_of f c w)) n)
| l_reply w ps1 i o ps2 log n :
    lstep cfg okf (LState w (ps1 ++ (i, Ret o) :: ps2) log n)
      (LState w (ps1 ++ ps2) (log ++ [Answered i o]) n)
| l_crash w ps1 x ps2 log n :
    lstep cfg okf (LState w (ps1 ++ x :: ps2) log n) (LState w (ps1 ++ ps2) log n).
(** Any interleaving. *)
Inductive lreach (cfg : driver_cfg) (okf : fault -> Prop) : lstate -> Prop :=
| lreach_init : lreach cfg okf linit
| lreach_step s s' : lreach cfg okf s -> lstep cfg okf s s' -> lreach cfg okf s'.

(** Request [q] of process [id] was made and answered with [o]: [before] is the log
    up to the request, [during] what happened meanwhile. *)
Definition answered_request (log before during after : ledger) (id : nat) (q : work) (o : reply) : Prop :=
  log = before ++ Asked id q :: during ++ Answered id o :: after.

(** ** What conditional writes must do *)
Inductive conditional := CreateKey (k v : bytes) (lease : Z) | UpdateKey (k v : bytes) (expect lease : Z) | DeleteKey (k : bytes) (expect : Z).
(** Specification vocabulary (not code): the key of a conditional write. *)
Definition the_key (c : conditional) : bytes :=
  match c with CreateKey k _ _ | UpdateKey k _ _ _ | DeleteKey k _ => k end.
(** The condition, in terms of the history so far. *)
Definition condition (c : conditional) (h : history) : Prop :=
  match c with
  | CreateKey k _ _ => now h k = None
  | UpdateKey k _ expect _ =>
      match now h k with Some x => kv_mod x = expect | None => expect = 0 end
  | DeleteKey k expect => match now h k with Some x => kv_mod x = expect | None => False end
  end.
(** Specification vocabulary (not code): the change it makes. *)
Definition effect (c : conditional) : entry :=
  match c with
  | CreateKey k v l | UpdateKey k v _ l => Entry k (Put v l)
  | DeleteKey k _ => Entry k Del
  end.
(** The transactions the API server sends for them, and the answer of a success at
    revision [r]. *)
Definition request (c : conditional) : txn_req :=
  match c with
  | CreateKey k v l => create_txn k v l
  | UpdateKey k v e l => update_txn k v e l
  | DeleteKey k e => delete_txn k e
  end.
(** Specification vocabulary (not code): the answer of a success (create.go:24-72, update.go:28-84, delete.go:24-76). *)
Definition success (c : conditional) (r : Z) : txn_resp :=
  TxnResp r true [match c with DeleteKey _ _ => RespDelete r | _ => RespPut r end].

(** Why a committed change is there: request [q] asked for exactly this change and its
    condition held right before.  Ranges ask for none; servers create two keys of
    their own when they are absent (backend.go:93, 147-153). *)
Definition warranted (q : work) (e : entry) (h : history) : Prop :=
  match q with
  | WTxn t => txn_key t = Some (e_key e) /\ forall c, t = request c -> e = effect c /\ condition c h
  | WExpire k rev => e = Entry k Del /\ condition (DeleteKey k rev) h
  | WRange _ => False
  | WCompact => e = Entry compact_rev_key (Put [] 0) /\ now h compact_rev_key = None
  | WStart => (e = Entry compact_rev_key (Put [] 0) \/ e = Entry health_key (Put health_value 0)) /\ now h (e_key e) = None
  end.

(** The version an update or delete insists on ([UpdateKey] with 0 is a creation). *)
Definition expects (c : conditional) (k : bytes) (rev : Z) : Prop :=
  match c with
  | UpdateKey k' _ e _ => k' = k /\ e = rev /\ rev <> 0
  | DeleteKey k' e => k' = k /\ e = rev
  | CreateKey _ _ _ => False
  end.
(** Specification vocabulary (not code): writes that need the key absent. *)
Definition creates (c : conditional) (k : bytes) : Prop :=
  match c with CreateKey k' _ _ => k' = k | UpdateKey k' _ e _ => k' = k /\ e = 0 | DeleteKey _ _ => False end.

(** Real-time order: [i] was answered before [j] was asked. *)
Definition precedes (log : ledger) (i : nat) (oi : reply) (j : nat) (qj : work) : Prop :=
  exists A B C, log = A ++ Answered i oi :: B ++ Asked j qj :: C.

(** Range requests in the supported subset with a 64-bit limit other than the largest. *)
Definition plain_range (r : range_req) : Prop := supported_range r /\ int64 (r_limit r) /\ r_limit r <> int64_max.
