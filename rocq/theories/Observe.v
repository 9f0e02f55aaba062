(** What a client can see: shorthands for API calls, used in the statements of
    the properties. *)
From Coq Require Import List ZArith Bool.
From Verif Require Import Bytes Spec Sql System Prog Backend Limited Api.
Import ListNotations.
Open Scope Z_scope.

(** Response of a range request / transaction executed now. *)
Definition ask (cfg : driver_cfg) (w : world) (r : range_req) : result range_resp :=
  snd (run (s_range cfg r) w).
(** Response of a transaction executed now (server.go:129-135). *)
Definition transact (cfg : driver_cfg) (w : world) (t : txn_req) : result txn_resp :=
  snd (run (s_txn cfg t) w).
(** State after it. *)
Definition after_txn (cfg : driver_cfg) (w : world) (t : txn_req) : world :=
  fst (run (s_txn cfg t) w).
(** State after a fault-free compaction run (backend.go:183-222). *)
Definition after_compaction (cfg : driver_cfg) (w : world) : world :=
  fst (run (b_do_compact cfg) w).

(** The version of [k] a get returns now, and the revision its header shows. *)
Definition value_of (cfg : driver_cfg) (w : world) (k : bytes) : option kv :=
  match ask cfg w (range k [] 0 0) with
  | Ok r => hd_error (rr_kvs r)
  | Err _ => None
  end.
(** The revision in the header of a get executed now (get.go:11-34, limited.go:25-29). *)
Definition current (cfg : driver_cfg) (w : world) : Z :=
  match ask cfg w (range [] [] 0 0) with
  | Ok r => rr_header r
  | Err _ => 0
  end.
(** A read at [rev] is answered with the compacted error. *)
Definition refused (cfg : driver_cfg) (w : world) (rev : Z) : Prop :=
  forall lo hi limit, ask cfg w (range lo hi limit rev) = Err ECompacted.
(** A read at [rev] succeeds (backend.go:228-264). *)
Definition answered (cfg : driver_cfg) (w : world) (rev : Z) : Prop :=
  forall lo hi limit, exists resp, ask cfg w (range lo hi limit rev) = Ok resp.

(** Results of a sequence of atomic operations. *)
Fixpoint results (ops : list aop) (d : db) : list (Z * Z) :=
  match ops with
  | [] => []
  | a :: rest => snd (apply d a) :: results rest (fst (apply d a))
  end.
(** rows affected <> 0 (driver.go:520-534, 545-555, 570-580). *)
Definition performed (x : Z * Z) : bool := negb (fst x =? 0).

(** 1, 2, ..., n *)
Definition upto (n : Z) : list Z := map Z.of_nat (List.seq 1 (Z.to_nat n)).

(** Reading a range page by page at revision [rev]: each page is one range
    request, answered while other processes work (any schedule), and between
    pages anything may happen; the next page starts at the successor of the last
    key received.  [pages cfg hi limit rev lo w w' L]: starting in [w], the
    client received [L] in total, the last answer arriving in [w']. *)
Inductive pages (cfg : driver_cfg) (okf : fault -> Prop) (hi : bytes) (limit rev : Z) :
    bytes -> world -> world -> list kv -> Prop :=
| pages_last lo w w1 sched w' resp :
    wsteps w w1 ->
    fair (s_range cfg (range lo hi limit rev)) sched w1 -> Forall (fun x => okf (snd x)) sched ->
    exec (s_range cfg (range lo hi limit rev)) sched w1 = (w', Some (Ok resp)) ->
    rr_more resp = false ->
    pages cfg okf hi limit rev lo w w' (rr_kvs resp)
| pages_more lo w w1 sched w2 w' resp l x rest :
    wsteps w w1 ->
    fair (s_range cfg (range lo hi limit rev)) sched w1 -> Forall (fun x => okf (snd x)) sched ->
    exec (s_range cfg (range lo hi limit rev)) sched w1 = (w2, Some (Ok resp)) ->
    rr_more resp = true ->
    rr_kvs resp = l ++ [x] ->
    pages cfg okf hi limit rev (kv_key x ++ [0%N]) w2 w' rest ->
    pages cfg okf hi limit rev lo w w' (rr_kvs resp ++ rest).

(** The database calls a program issues under a schedule. *)
Fixpoint calls {A} (p : prog A) (sched : list (list aop * fault)) (w : world) : list call :=
  match p with
  | Ret _ => []
  | Call c k =>
      match sched with
      | [] => []
      | (env, f) :: sched' =>
          c :: calls (k (snd (sem f c (fold_left wapply env w)))) sched'
                     (fst (sem f c (fold_left wapply env w)))
      end
  end.

(** Schedules whose faults satisfy [P], which may depend on the call hit. *)
Fixpoint faults_ok {A} (P : call -> fault -> Prop) (p : prog A) (sched : list (list aop * fault)) (w : world) : Prop :=
  match p with
  | Ret _ => True
  | Call c k =>
      match sched with
      | [] => True
      | (env, f) :: sched' =>
          P c f /\ faults_ok P (k (snd (sem f c (fold_left wapply env w)))) sched'
                      (fst (sem f c (fold_left wapply env w)))
      end
  end.

(** Limits and revisions fit in 64 bits. *)
Definition bounded (w : world) (r : range_req) : Prop :=
  int64 (r_limit r) /\ revision (history_of (snd w)) <= int64_max.

(** A compaction transaction, and one that covers at most 1000 revisions. *)
Definition is_compaction (c : call) : Prop := match c with CExec (ACompact _ _) => True | _ => False end.
(** A compaction transaction over at most compactBatchSize revisions (backend.go:209-219). *)
Definition small_batch (c : call) : Prop :=
  match c with CExec (ACompact start stop) => stop - start <= 1000 | _ => True end.

(** The revisions a program's own statements committed, reported or not. *)
Definition committed (w w' : world) : list Z :=
  if revision (history_of (snd w)) <? revision (history_of (snd w'))
  then [revision (history_of (snd w'))] else [].
(** Ghost: ids a goroutine's own statements inserted (driver.go:442-478). *)
Fixpoint own_writes {A} (p : prog A) (sched : list (list aop * fault)) (w : world) : list Z :=
  match p with
  | Ret _ => []
  | Call c k =>
      match sched with
      | [] => []
      | (env, f) :: sched' =>
          let w1 := fold_left wapply env w in
          let w2 := fst (sem f c w1) in
          committed w1 w2 ++ own_writes (k (snd (sem f c w1))) sched' w2
      end
  end.
(** The error of a call means that nothing happened. *)
Definition honest (f : fault) : Prop := match f with FailAfter _ => False | _ => True end.

(** Own commits of a conditional write: at most one; exactly the reported one if
    success was reported. *)
Definition at_most_one (l : list Z) : Prop := (length l <= 1)%nat.
(** Specification vocabulary (not code): relation between own commits and the answer. *)
Definition reported (resp : option (result txn_resp)) (own : list Z) : Prop :=
  match resp with
  | Some (Ok t) => if tr_succeeded t then own = [tr_header t] else at_most_one own
  | _ => at_most_one own
  end.
