(** Leases end to end: pkg/limited/lease.go and ttl.go. *)
From Coq Require Import List ZArith Bool.
From Verif Require Import Bytes Spec Sql System Prog Backend Limited Watch Ttl.
Import ListNotations.
Open Scope Z_scope.

(** etcdserverpb.LeaseGrantRequest *)
Record lease_req := LeaseReq { lg_ttl : Z; lg_id : Z }.
(** LeaseGrant, lease.go:10-16: answers (ID, TTL); the requested id is not looked at. *)
Definition lease_grant (r : lease_req) : prog (result (Z * Z)) := s_lease_grant (lg_ttl r).
(** Later states of a server with its expiry goroutine (ttl.go:12-99): anything may
    happen in between. *)
Inductive tlater : tstate -> tstate -> Prop :=
| tlater_refl s : tlater s s
| tlater_step s s' a : tlater s s' -> tpossible s' a -> tlater s (tstep s' a).
