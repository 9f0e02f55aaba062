(** A client that keeps a copy of a key range: list once, then watch from the
    revision after the one in the header of the list (Kubernetes' reflector; not
    part of the repository).  The copy is a map from keys to versions. *)
From Coq Require Import List ZArith Bool.
From Verif Require Import Bytes Spec.
Import ListNotations.
Open Scope Z_scope.

(** Specification vocabulary (not code): the client's copy. *)
Definition copy := bytes -> option kv.
(** what the list returned *)
Definition copy_of (l : list kv) : copy := fun k => find (fun x => beqb (kv_key x) k) l.
(** an event replaces or removes the version of its key *)
Definition apply_event (c : copy) (ev : event) : copy := fun k =>
  if beqb (kv_key (ev_kv ev)) k then (if ev_delete ev then None else Some (ev_kv ev)) else c k.
(** Specification vocabulary (not code): the copy after a listing and events. *)
Definition mirror (l : list kv) (evs : list event) : copy := fold_left apply_event evs (copy_of l).
(** a client that does not look at events it already knows from the list *)
Definition newer (n : Z) (evs : list event) : list event := filter (fun ev => n <? ev_rev ev) evs.
(** the copy is the content of the range [lo, hi) at revision [n] *)
Definition copy_at (h : history) (n : Z) (lo hi : bytes) (c : copy) : Prop :=
  forall k, (in_range lo hi k -> c k = kv_at h n k) /\ (~ in_range lo hi k -> c k = None).
