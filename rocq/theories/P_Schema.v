(** C44, C45, C131: schema versions and migration.
    [int16 z]: z is a signed 16-bit number.  [fresh s n]: n servers about to start on a
    database with schema [s]; [crun acts c]: any interleaving of set-ups (with faults
    before or after the transaction takes effect), server crashes and writes; [c_ever]:
    some set-up has reported success.  [shape]: user_version, whether the table exists,
    and which of the three indexes exist. *)
From Coq Require Import List ZArith Bool Lia.
From Verif Require Import Bytes Spec Sql System Prog Demo Schema SchemaProofs.
Import ListNotations.
Open Scope Z_scope.

(** C131: C44 for non-negative minors. *)
Theorem C131_encoding : forall M1 m1 M2 m2, int16 M1 -> 0 <= m1 < 2 ^ 15 -> int16 M2 -> 0 <= m2 < 2 ^ 15 ->
  (sv_major (new_schema_version M1 m1) = M1 /\ sv_minor (new_schema_version M1 m1) = m1) /\
  (new_schema_version M1 m1 < new_schema_version M2 m2 <-> M1 < M2 \/ M1 = M2 /\ m1 < m2) /\
  (compatible_with (new_schema_version M1 m1) (new_schema_version M2 m2) = true <-> (M1 = 0 /\ m1 = 0) \/ M1 = M2).
Proof. exact schema_encoding. Qed.
Print Assumptions C131_encoding.
Example C131_nonvacuous : int16 (-3) /\ 0 <= 32767 < 2 ^ 15 /\ new_schema_version (-3) 32767 = -163841 /\ sv_major (-163841) = -3.
Proof. unfold int16. repeat split; try lia; reflexivity. Qed.
(** A negative minor, which the signature allows, destroys the major: it decodes as -1. *)
Theorem C44_refuted : forall M m, - 2 ^ 15 <= m < 0 ->
  new_schema_version M m = m /\ sv_major (new_schema_version M m) = -1.
Proof. exact schema_negative. Qed.
Print Assumptions C44_refuted.

(** C45.  The schema is always the original one or the final one, and the final one
    once any set-up has succeeded on an unversioned database. *)
Theorem C45_schema : forall s n acts, int32 (sc_version s) ->
  (shape (c_schema (crun acts (fresh s n))) = shape s \/
   (sc_version s = 0 /\ shape (c_schema (crun acts (fresh s n))) = (65536, true, (false, false, true)))) /\
  (sc_version s = 0 -> c_ever (crun acts (fresh s n)) = true ->
   shape (c_schema (crun acts (fresh s n))) = (65536, true, (false, false, true))).
Proof. exact setup_same. Qed.
Print Assumptions C45_schema.
(** The rows are exactly what the writes made of them: set-up changes none. *)
Theorem C45_rows : forall s n acts d, int32 (sc_version s) -> sc_table s = Some d ->
  sc_table (c_schema (crun acts (fresh s n))) = Some (fold_left (fun d x => fst (apply d x)) (writes acts) d).
Proof. exact setup_rows. Qed.
Print Assumptions C45_rows.
Theorem C45_new : forall s n acts, int32 (sc_version s) -> sc_table s = None -> writes acts = [] ->
  table_rows (c_schema (crun acts (fresh s n))) = [].
Proof. exact setup_norows. Qed.
Print Assumptions C45_new.
(** C165 (part of C80).  A server that is not disturbed gets through, whatever happened before, if the
    legacy unique index fits the rows: no two have the same previous revision and the same name. *)
Theorem C165_works : forall s n acts i, int32 (sc_version s) ->
  nth_error (c_servers (crun acts (fresh s n))) i = Some SIdle ->
  NoDup (map (fun r => (prev_revision r, name r)) (table_rows (c_schema (crun acts (fresh s n))))) ->
  exists v, nth_error (c_servers (crun [CStart i; CTx i SFNone] (crun acts (fresh s n)))) i = Some (SReady v).
Proof. exact setup_works_nodup. Qed.
Print Assumptions C165_works.
(** If it does not fit, set-up of an unversioned database fails, under any fault, and changes nothing. *)
Theorem C165_refuses : forall c i f, nth_error (c_servers c) i = Some SIdle -> sc_version (c_schema c) = 0 ->
  ~ NoDup (map (fun r => (prev_revision r, name r)) (table_rows (c_schema c))) ->
  nth_error (c_servers (crun [CStart i; CTx i f] c)) i = Some SIdle /\ c_schema (crun [CStart i; CTx i f] c) = c_schema c.
Proof. exact setup_refuses. Qed.
Print Assumptions C165_refuses.

(** an unversioned kine table with a key created, updated and compacted; two servers
    race, one dies in the transaction, the other loses the answer of its commit, a third
    set-up finds the work done, and a client writes *)
Definition kine_table : db := fst (apply (fst (apply empty_db (ACreate ka v1 0))) (AUpdate ka v2 1 0)).
Definition old_schema : schema := Schema 0 (Some kine_table) true true false.
Definition race : list caction :=
  [CStart 0; CStart 1; CTx 0 SFBefore; CTx 1 SFAfter; CCrash 1; CWrite (ACreate kb v1 0); CStart 0; CStart 1; CStart 2].
Example C45_nonvacuous :
  int32 (sc_version old_schema) /\ c_ever (crun race (fresh old_schema 3)) = true /\
  shape (c_schema (crun race (fresh old_schema 3))) <> shape old_schema /\
  c_servers (crun race (fresh old_schema 3)) = [SReady 65536; SReady 65536; SReady 65536] /\
  length (table_rows (c_schema (crun race (fresh old_schema 3)))) = 3%nat /\
  distinct_pairs (table_rows old_schema) = true.
Proof. split; [unfold int32; cbn; lia|]. split; [vm_compute; reflexivity|]. split; [vm_compute; discriminate|]. split; [vm_compute; reflexivity|]. split; vm_compute; reflexivity. Qed.
(** rows of a kine table whose third repeats the pair of the first, with another between *)
Definition double_table : db := Db (rows kine_table ++ rows kine_table) (Sql.seq kine_table).
Example C165_nonvacuous :
  NoDup (map (fun r => (prev_revision r, name r)) (table_rows old_schema)) /\
  ~ NoDup (map (fun r => (prev_revision r, name r)) (table_rows (Schema 0 (Some double_table) false false false))) /\
  sc_version (Schema 0 (Some double_table) false false false) = 0 /\ (2 <= length (rows kine_table))%nat.
Proof.
  split; [apply distinct_pairs_iff; vm_compute; reflexivity|].
  split; [intros H; apply distinct_pairs_iff in H; vm_compute in H; discriminate H|]. split; [reflexivity|vm_compute; lia].
Qed.
(** An unknown newer major version is not refused: set-up succeeds on it. *)
Theorem C80_newer_refuted : forall c i, nth_error (c_servers c) i = Some SIdle -> 2 <= sv_major (sc_version (c_schema c)) ->
  nth_error (c_servers (cstep c (CStart i))) i = Some (SReady (sc_version (c_schema c))).
Proof. exact setup_newer. Qed.
Print Assumptions C80_newer_refuted.
Example C80_newer_nonvacuous :
  nth_error (c_servers (fresh (Schema (new_schema_version 2 7) (Some kine_table) false false true) 1)) 0 = Some SIdle /\
  2 <= sv_major (new_schema_version 2 7).
Proof. split; [reflexivity|]. vm_compute. discriminate. Qed.
