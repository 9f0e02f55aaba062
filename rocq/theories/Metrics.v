(** The Prometheus metrics of the driver: pkg/backend/sqlite/metrics.go and the places that
    record (driver.go:416-422, 438, 454-460, 476, 680-687).
    Simplifications: a counter vector is the list of its increments (name, "success"?); GetSize
    (name get_size_sql), whose query is in Rpc.v, is left out; float64 is exact on the whole
    numbers of seconds that are observed. *)
From Coq Require Import List ZArith Bool String.
From Verif Require Import Bytes Spec Sql System Prog Backend.
Import ListNotations.
Open Scope Z_scope.
Open Scope list_scope.

(** k8s_dqlite_generic_op_result, k8s_dqlite_generic_tx_result, k8s_dqlite_generic_op_latency
    (metrics.go:10-22): increments and observations in seconds. *)
Record metrics := Metrics {
  m_op : list (string * bool);
  m_tx : list (string * bool);
  m_latency : list (string * bool * Z) }.
(** recordTxResult, metrics.go:36-38. *)
Definition record_tx (name : string) (ok : bool) (m : metrics) : metrics :=
  Metrics (m_op m) (m_tx m ++ [(name, ok)]) (m_latency m).
(** recordOpResult, metrics.go:40-44: time.Since(startTime) / time.Second is a division of
    int64 nanoseconds. *)
Definition record_op (name : string) (ok : bool) (ns : Z) (m : metrics) : metrics :=
  Metrics (m_op m ++ [(name, ok)]) (m_tx m) (m_latency m ++ [(name, ok, Z.quot ns 1000000000)]).

(** The methods of the driver that are one statement (driver.go:480-787). *)
Inductive dcall :=
| DCount (v1 : bool) (lo hi : bytes) (rev : Z)
| DCreate (k v : bytes) (ttl : Z)
| DUpdate (k v : bytes) (rev ttl : Z)
| DDelete (k : bytes) (rev : Z)
| DGetCompactRevision
| DDeleteRevision (rev : Z)
| DList (v1 : bool) (lo hi : bytes) (limit rev : Z)
| DListTTL (rev : Z)
| DCurrentRevision
| DAfterPrefix (lo hi : bytes) (start stop : Z)
| DAfter (rev limit : Z).
(** The tx_name of each: driver.go:489, 523, 544, 568, 688, 718, 733, 735, 739, 753, 777, 784, 786. *)
Definition tx_name (d : dcall) : string :=
  match d with
  | DCount _ _ _ _ => "count_revision"
  | DCreate _ _ _ => "create_sql"
  | DUpdate _ _ _ _ => "update_sql"
  | DDelete _ _ => "delete_sql"
  | DGetCompactRevision => "revision_interval_sql"
  | DDeleteRevision _ => "delete_rev_sql"
  | DList _ _ _ limit _ => if (0 <? limit)%Z then "list_revision_start_sql_limit" else "list_revision_start_sql"
  | DListTTL _ => "ttl_sql"
  | DCurrentRevision => "rev_sql"
  | DAfterPrefix _ _ _ _ => "after_sql_prefix"
  | DAfter _ limit => if (0 <? limit)%Z then "after_sql_limit" else "after_sql"
  end%string.
(** The statement of each (same lines). *)
Definition statement (d : dcall) : call :=
  match d with
  | DCount v1 lo hi rev => CCount v1 lo hi rev
  | DCreate k v ttl => CExec (ACreate k v ttl)
  | DUpdate k v rev ttl => CExec (AUpdate k v rev ttl)
  | DDelete k rev => CExec (ADelete k rev)
  | DGetCompactRevision => CInterval
  | DDeleteRevision rev => CExec (ADeleteRev rev)
  | DList v1 lo hi limit rev => CList v1 lo hi limit rev
  | DListTTL rev => CTtl rev
  | DCurrentRevision => CRev
  | DAfterPrefix lo hi start stop => CAfterPrefix lo hi start stop
  | DAfter rev limit => CAfter rev limit
  end.
(** errorToResultLabel, metrics.go:29-34. *)
Definition succeeded {A} (r : result A) : bool := match r with Ok _ => true | Err _ => false end.

(** One call: query or execute (driver.go:405-478), and what GetCompactRevision records besides
    (its deferred function, driver.go:680-687; its variable err is that of the query: the errors
    of rows.Err and Scan are in variables of their own, driver.go:695-703).  [ns]: how long it
    took. *)
Definition metered (d : dcall) (sched : list (list aop * fault)) (ns : Z) (w : world) (m : metrics) :
    world * metrics * option (result (ret_of (statement d))) :=
  let '(w', r) := exec (with_retry max_retries (statement d)) sched w in
  match r with
  | None => (w', m, None)
  | Some r =>
      let m1 := record_op (tx_name d) (succeeded r) ns (record_tx (tx_name d) (succeeded r) m) in
      let m2 := match d with
                | DGetCompactRevision => record_tx "revision_interval_sql" (succeeded r) (record_op "revision_interval_sql" (succeeded r) ns m1)
                | _ => m1
                end in
      (w', m2, Some r)
  end.

(** Specification vocabulary (not code): a call that did not return an error. *)
Definition worked {A} (r : result A) : bool := match r with Ok _ => true | Err _ => false end.
(** Calls one after the other (in the order in which they end); also the list of the calls that
    have ended, with their outcome and their duration. *)
Fixpoint workload (xs : list (dcall * list (list aop * fault) * Z)) (w : world) (m : metrics) : world * metrics * list (dcall * bool * Z) :=
  match xs with
  | [] => (w, m, [])
  | (d, sched, ns) :: rest =>
      let '(w1, m1, r) := metered d sched ns w m in
      let '(w2, m2, done) := workload rest w1 m1 in
      (w2, m2, match r with Some r => (d, worked r, ns) :: done | None => done end)
  end.

(** ---- specification vocabulary ---- *)
(** The operations that share a counter: the same method, for List and After with limit or without. *)
Definition same_operation (d d' : dcall) : Prop :=
  match d, d' with
  | DCount _ _ _ _, DCount _ _ _ _ | DCreate _ _ _, DCreate _ _ _ | DUpdate _ _ _ _, DUpdate _ _ _ _ | DDelete _ _, DDelete _ _
  | DGetCompactRevision, DGetCompactRevision | DDeleteRevision _, DDeleteRevision _ | DListTTL _, DListTTL _
  | DCurrentRevision, DCurrentRevision | DAfterPrefix _ _ _ _, DAfterPrefix _ _ _ _ => True
  | DList _ _ _ l _, DList _ _ _ l' _ | DAfter _ l, DAfter _ l' => 0 < l <-> 0 < l'
  | _, _ => False
  end.
(** The value of a counter with the labels [name] and [ok]. *)
Definition counter (l : list (string * bool)) (name : string) (ok : bool) : nat :=
  List.length (filter (fun x : string * bool => String.eqb (fst x) name && Bool.eqb (snd x) ok) l).
(** How many of the calls had this name and outcome. *)
Definition ended (l : list (dcall * bool * Z)) (name : string) (ok : bool) : nat :=
  List.length (filter (fun x : dcall * bool * Z => String.eqb (tx_name (fst (fst x))) name && Bool.eqb (snd (fst x)) ok) l).
(** The cumulative bucket with the upper bound [ns] nanoseconds of the latency histogram. *)
Definition bucket (l : list (string * bool * Z)) (name : string) (ok : bool) (ns : Z) : nat :=
  List.length (filter (fun x : string * bool * Z => String.eqb (fst (fst x)) name && Bool.eqb (snd (fst x)) ok && (snd x * 1000000000 <=? ns)) l).
(** How many of the calls took at most [ns] nanoseconds. *)
Definition within (l : list (dcall * bool * Z)) (name : string) (ok : bool) (ns : Z) : nat :=
  List.length (filter (fun x : dcall * bool * Z => String.eqb (tx_name (fst (fst x))) name && Bool.eqb (snd (fst x)) ok && (snd x <=? ns)) l).
(** How many statements a program executes. *)
Fixpoint statements {A} (p : prog A) (sched : list (list aop * fault)) (w : world) : nat :=
  match p with
  | Ret _ => 0
  | Call c k =>
      match sched with
      | [] => 0
      | (env, f) :: sched' => let '(w', r) := sem f c (fold_left wapply env w) in S (statements (k r) sched' w')
      end
  end.
(** Metrics of a process that has just started. *)
Definition no_metrics : metrics := Metrics [] [] [].
