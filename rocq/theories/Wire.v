(** What a client of the etcd watch API sends and receives: the protobuf messages of
    a watch stream as built and read by pkg/limited/watch.go.  Fields never assigned
    have their zero value. *)
From Coq Require Import List ZArith Bool.
From Verif Require Import Bytes Spec Sql System Prog Backend Watch Stream.
Import ListNotations.
Open Scope Z_scope.

(** etcdserverpb.WatchResponse (watch.go:102-106, 137-140, 158-164, 169-173, 178-182,
    197-200).  Simplifications: the header is its revision, the cancel reason is left out,
    Fragment is never set. *)
Record response := Response {
  w_header : Z;
  w_id : Z;
  w_created : bool;
  w_canceled : bool;
  w_compact : Z;
  w_events : list event }.

(** clientv3.InvalidWatchID (watch.go:160, 199). *)
Definition invalid_id : Z := -1.

(** The message each Send of the stream puts on the wire. *)
Definition wire (m : msg) : response :=
  match m with
  | MEvents rev id evs => Response rev id false false 0 evs      (* watch.go:102-106 *)
  | MProgress rev id => Response rev id false false 0 []         (* watch.go:137-140, 197-200 *)
  | MCreated id => Response 0 id true false 0 []                 (* watch.go:178-182 *)
  | MCompacted rev => Response rev invalid_id true true 0 []     (* watch.go:158-164 *)
  | MUnhealthy rev => Response rev 0 false true 0 []             (* watch.go:169-173 *)
  end.

(** Everything sent on a stream (watch.go:17-201). *)
Definition responses (s : sstate) : list response := map wire (s_out s).

(** etcdserverpb.WatchCreateRequest: all its fields.  ServeRequests reads the first
    four (watch.go:59-67). *)
Record create_req := CreateReq {
  q_id : Z;
  q_key : bytes;
  q_end : bytes;
  q_start : Z;
  q_progress_notify : bool;
  q_noput : bool;
  q_nodelete : bool;
  q_prev_kv : bool;
  q_fragment : bool }.

(** etcdserverpb.WatchRequest: the three cases of its union. *)
Inductive request :=
| QCreate (r : create_req)
| QCancel (id : Z)
| QProgress.

(** One round of the loop of ServeRequests up to its first wait (watch.go:58-82). *)
Definition serve (q : request) : saction :=
  match q with
  | QCreate r => SCreate (q_id r) (q_key r) (q_end r) (q_start r)
  | QCancel id => SCancel id
  | QProgress => SProgressReq
  end.
