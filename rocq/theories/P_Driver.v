(** C67, C133: the driver's compaction called with any revision. *)
From Coq Require Import List ZArith Bool Lia.
From Verif Require Import Bytes Spec Sql System Prog Backend Limited Api Observe Demo DriverCompact.
Import ListNotations.
Open Scope Z_scope.

(** The floor becomes exactly the requested revision, clamped to the current one, and
    never goes down.  Whatever is asked, it succeeds. *)
Theorem C133_clamped : forall w rev, wreach w -> now (history_of (snd w)) compact_rev_key <> None ->
  let w' := fst (run (d_compact_sqlite rev) w) in
  snd (run (d_compact_sqlite rev) w) = Ok tt /\
  exists floor current floor' current', interval_of w = Ok (floor, current) /\ interval_of w' = Ok (floor', current') /\
    floor' = Z.max floor (Z.min rev current).
Proof. exact compact_clamped. Qed.
Print Assumptions C133_clamped.
(** The current revision is computed from the rows: when it belongs to a deletion,
    compacting up to it makes the current revision go back (the compaction the
    server itself runs stays 100 revisions behind, see C14). *)
Theorem C67_current_refuted : exists w rev, wreach w /\ now (history_of (snd w)) compact_rev_key <> None /\
  interval_of w = Ok (0, 3) /\ interval_of (fst (run (d_compact_sqlite rev) w)) = Ok (3, 1).
Proof.
  exists gone, 3. split; [exact gone_reach|]. split; [vm_compute; discriminate|]. exact gone_back.
Qed.
Print Assumptions C67_current_refuted.
Example C133_nonvacuous : wreach demo /\ now (history_of (snd demo)) compact_rev_key <> None /\
  interval_of demo = Ok (5, 8) /\ interval_of (fst (run (d_compact_sqlite 1000) demo)) = Ok (8, 8) /\
  interval_of (fst (run (d_compact_sqlite 3) demo)) = Ok (5, 8).
Proof. split; [apply demo_reach|]. vm_compute. split; [discriminate|]. auto. Qed.
