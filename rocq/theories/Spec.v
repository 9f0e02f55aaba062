(** Specification: what a user of the store relies on.
    Nothing here refers to SQL tables, rows or statements. *)
From Coq Require Import List ZArith Bool Lia Sorting.Sorted.
From Verif Require Import Bytes.
Import ListNotations.
Open Scope Z_scope.

(** A version of a key, as returned by the API (mvccpb.KeyValue, Version excepted). *)
Record kv := KV {
  kv_key : bytes;
  kv_value : bytes;
  kv_lease : Z;
  kv_create : Z;    (* create_revision *)
  kv_mod : Z        (* mod_revision *)
}.

(** A change of one key. *)
Inductive change := Put (v : bytes) (lease : Z) | Del.

(** The history: the i-th element (from 1) is the change of revision i. *)
Record entry := Entry { e_key : bytes; e_change : change }.
(** Specification vocabulary (not code): every change ever made, oldest first; etcd's revision history. *)
Definition history := list entry.

(** Effect on key [k] of one change at revision [r]. *)
Definition change_key (k : bytes) (r : Z) (e : entry) (old : option kv) : option kv :=
  if beqb (e_key e) k then
    match e_change e with
    | Put v lease =>
        Some (KV k v lease (match old with Some o => kv_create o | None => r end) r)
    | Del => None
    end
  else old.

(** Version of [k] after a whole history ([r] = revisions so far). *)
Fixpoint replay (k : bytes) (h : history) (r : Z) (old : option kv) : option kv :=
  match h with
  | [] => old
  | e :: h' => replay k h' (r + 1) (change_key k (r + 1) e old)
  end.
(** Specification vocabulary (not code): the version of a key after all changes so far. *)
Definition now (h : history) (k : bytes) : option kv := replay k h 0 None.

(** Version of [k] at revision [n]: after the first [n] changes. *)
Definition kv_at (h : history) (n : Z) (k : bytes) : option kv :=
  now (firstn (Z.to_nat n) h) k.

(** Current revision. *)
Definition revision (h : history) : Z := Z.of_nat (length h).

(** The store: history and compaction floor. *)
Record store := Store { history_of : history; floor_of : Z }.
(** Specification vocabulary (not code): the store of a fresh database. *)
Definition empty_store : store := Store [] 0.

(** Conditional writes.  [None] = not performed, [Some r] = performed at revision r. *)
Definition commit (s : store) (k : bytes) (c : change) : store * option Z :=
  (Store (history_of s ++ [Entry k c]) (floor_of s), Some (revision (history_of s) + 1)).

(** Specification vocabulary (not code): create if absent; what driver.go:238-254 is to achieve. *)
Definition spec_create (s : store) (k v : bytes) (lease : Z) : store * option Z :=
  match now (history_of s) k with
  | None => commit s k (Put v lease)
  | Some _ => (s, None)
  end.
(** Specification vocabulary (not code): replace if the key was last changed at [expect]; cf. driver.go:256-272. *)
Definition spec_update (s : store) (k v : bytes) (expect lease : Z) : store * option Z :=
  match now (history_of s) k with
  | Some x => if kv_mod x =? expect then commit s k (Put v lease) else (s, None)
  | None => (s, None)
  end.
(** Specification vocabulary (not code): remove if the key was last changed at [expect]; cf. driver.go:220-236. *)
Definition spec_delete (s : store) (k : bytes) (expect : Z) : store * option Z :=
  match now (history_of s) k with
  | Some x => if kv_mod x =? expect then commit s k Del else (s, None)
  | None => (s, None)
  end.
(** Compaction only raises the floor; the history is untouched. *)
Definition spec_compact (s : store) (target : Z) : store :=
  Store (history_of s) (Z.max (floor_of s) target).

(** [L] is the content of [lo,hi) at revision [n]: sorted by key, exactly the live keys. *)
Definition in_range (lo hi k : bytes) : Prop := ble lo k /\ blt k hi.
(** Specification vocabulary (not code): order of a listing (driver.go:92-109, ORDER BY name). *)
Definition key_lt (a b : kv) : Prop := blt (kv_key a) (kv_key b).
(** Specification vocabulary (not code): the contents of a key range at a revision; cf. Range, pkg/limited/server.go:36-91. *)
Definition is_snapshot (h : history) (n : Z) (lo hi : bytes) (L : list kv) : Prop :=
  StronglySorted key_lt L /\
  forall x, In x L <-> in_range lo hi (kv_key x) /\ kv_at h n (kv_key x) = Some x.

(** Watch events. *)
Record event := Event { ev_delete : bool; ev_kv : kv; ev_prev : option kv }.

(** [ev] is a truthful report of the change of revision [r] of history [h].
    The lease of a delete event and of the previous value are not constrained
    here (see C27 for what is sent). *)
Definition truthful_event (h : history) (r : Z) (ev : event) : Prop :=
  exists e, 1 <= r /\ nth_error h (Z.to_nat (r - 1)) = Some e /\
  kv_key (ev_kv ev) = e_key e /\
  kv_mod (ev_kv ev) = r /\
  (match e_change e with
   | Put v lease => ev_delete ev = false /\ kv_at h r (e_key e) = Some (ev_kv ev)
   | Del => ev_delete ev = true
   end) /\
  (match kv_at h (r - 1) (e_key e), ev_prev ev with
   | None, None => True
   | Some o, Some p => kv_key p = kv_key o /\ kv_value p = kv_value o /\
                       kv_create p = kv_create o /\ kv_mod p = kv_mod o
   | _, _ => False
   end).

(** [evs] reports exactly the changes with revision in (a, b] of the keys
    satisfying [sel], once each, in revision order, with true contents. *)
Definition ev_rev (ev : event) : Z := kv_mod (ev_kv ev).
(** Specification vocabulary (not code): what a watch of the keys [sel] must deliver; cf. watcher.go:88-141. *)
Definition reports (h : history) (sel : bytes -> Prop) (a b : Z) (evs : list event) : Prop :=
  StronglySorted Z.lt (map ev_rev evs) /\
  (forall r, In r (map ev_rev evs) <->
     a < r <= b /\ 1 <= r /\ exists e, nth_error h (Z.to_nat (r - 1)) = Some e /\ sel (e_key e)) /\
  Forall (fun ev => truthful_event h (ev_rev ev) ev) evs.
