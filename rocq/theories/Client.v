(** pkg/client/client.go and pkg/migrator: the Go client used by the backup and
    restore commands, as programs over the API of Limited.v. *)
From Coq Require Import List ZArith NArith Bool.
From Verif Require Import Bytes Spec Sql System Prog Backend Limited Api.
Import ListNotations.
Open Scope Z_scope.

(** client.go:21-24 and the errors of client.go:118-150; [XServer] is any error of
    the request itself. *)
Inductive cerr := XServer (e : err) | XNotFound | XExists | XMismatch.
(** The client's (value, error) (client.go:58-146). *)
Inductive cres (A : Type) := COk (a : A) | CFail (e : cerr).
Arguments COk {A} a.
Arguments CFail {A} e.

(** clientv3.WithPrefix: the end of the range of keys with prefix [p] is [p] with
    its last byte below 0xff incremented and what follows cut off (etcd
    client/v3/op.go getPrefix); a prefix of 0xff bytes only gives "\x00". *)
Fixpoint prefix_end (p : bytes) : bytes :=
  match p with
  | [] => [0%N]
  | b :: p' =>
      if forallb (N.eqb 255) p' then if N.ltb b 255 then [(b + 1)%N] else [0%N]
      else b :: prefix_end p'
  end.

(** The empty prefix is sent as the key "\x00" (client/v3/op.go WithPrefix). *)
Definition prefix_start (p : bytes) : bytes := match p with [] => [0%N] | _ => p end.

(** client.go:76-91 *)
Definition c_get (cfg : driver_cfg) (k : bytes) : prog (cres kv) :=
  pbind (s_range cfg (range k [] 0 0)) (fun r =>
    match r with
    | Err e => Ret (CFail (XServer e))
    | Ok resp => match rr_kvs resp with [x] => Ret (COk x) | _ => Ret (CFail XNotFound) end
    end).
(** client.go:58-74 *)
Definition c_list (cfg : driver_cfg) (k : bytes) (rev : Z) : prog (cres (list kv)) :=
  pbind (s_range cfg (range (prefix_start k) (prefix_end k) 0 rev)) (fun r =>
    match r with Err e => Ret (CFail (XServer e)) | Ok resp => Ret (COk (rr_kvs resp)) end).
(** the shape of client.go:104-150: send the transaction, [e] if it did not succeed *)
Definition c_txn (cfg : driver_cfg) (t : txn_req) (e : cerr) : prog (cres unit) :=
  pbind (s_txn cfg t) (fun r =>
    match r with
    | Err x => Ret (CFail (XServer x))
    | Ok resp => if tr_succeeded resp then Ret (COk tt) else Ret (CFail e)
    end).
(** client.go:104-116 *)
Definition c_create (cfg : driver_cfg) (k v : bytes) := c_txn cfg (create_txn k v 0) XExists.
(** client.go:118-131 *)
Definition c_update (cfg : driver_cfg) (k v : bytes) (rev : Z) := c_txn cfg (update_txn k v rev 0) XMismatch.
(** client.go:133-146 *)
Definition c_delete (cfg : driver_cfg) (k : bytes) (rev : Z) := c_txn cfg (delete_txn k rev) XMismatch.
(** client.go:93-102 *)
Definition c_put (cfg : driver_cfg) (k v : bytes) : prog (cres unit) :=
  pbind (c_get cfg k) (fun r =>
    match r with
    | CFail e => Ret (CFail e)
    | COk x => if kv_mod x =? 0 then c_create cfg k v else c_update cfg k v (kv_mod x)
    end).

(** ** migrator/util.go:12-31: create, and up to five puts if the key exists.  The
    pauses between them are not modelled. *)
Fixpoint put_attempts (n : nat) (cfg : driver_cfg) (k v : bytes) (last : cerr) : prog (cres unit) :=
  match n with
  | 0%nat => Ret (CFail last)
  | S n' => pbind (c_put cfg k v) (fun r =>
      match r with COk tt => Ret (COk tt) | CFail e => put_attempts n' cfg k v e end)
  end.
(** putKey, migrator/util.go:12-31. *)
Definition put_key (cfg : driver_cfg) (k v : bytes) : prog (cres unit) :=
  pbind (c_create cfg k v) (fun r =>
    match r with
    | COk tt => Ret (COk tt)
    | CFail XExists => put_attempts 5 cfg k v XExists
    | CFail e => Ret (CFail e)
    end).

(** ** The backup directory: "<index>.key" and "<index>.data" (migrator.go:17-23).
    The newest content of a file comes first in the list. *)
Inductive file := KeyFile (i : nat) | DataFile (i : nat).
(** Same file name. *)
Definition file_eqb (a b : file) : bool :=
  match a, b with
  | KeyFile i, KeyFile j => Nat.eqb i j
  | DataFile i, DataFile j => Nat.eqb i j
  | _, _ => false
  end.
(** The backup directory. *)
Definition dir := list (file * bytes).
(** os.ReadFile (migrator.go:64, 74). *)
Fixpoint read_file (d : dir) (f : file) : option bytes :=
  match d with
  | [] => None
  | (g, c) :: d' => if file_eqb g f then Some c else read_file d' f
  end.
(** os.WriteFile (migrator.go:106, 109). *)
Definition write_file (d : dir) (x : file * bytes) : dir := x :: d.

(** migrator.go:104-113: the files written for a listing, in order *)
Fixpoint backup_writes (i : nat) (kvs : list kv) : list (file * bytes) :=
  match kvs with
  | [] => []
  | x :: rest => (KeyFile i, kv_key x) :: (DataFile i, kv_value x) :: backup_writes (S i) rest
  end.
(** migrator.go:89-115.  [crash]: the number of files written before the process
    stops; the listing is the one the client received.  Errors of the file system
    are crashes at that point. *)
Definition slash : bytes := [47%N].
(** The loop of migrator.go:104-113, cut after [crash] files. *)
Definition backup_files (crash : nat) (kvs : list kv) (d : dir) : dir :=
  fold_left write_file (firstn crash (backup_writes 0 kvs)) d.
(** The listing of migrator.go:89-98. *)
Definition backup_list (cfg : driver_cfg) : prog (cres (list kv)) := c_list cfg slash 0.

(** migrator.go:62-86, the file reads: entries up to the first missing key file;
    [false] if a data file is missing.  The directory does not change meanwhile. *)
Fixpoint read_entries (fuel : nat) (i : nat) (d : dir) : list (bytes * bytes) * bool :=
  match fuel with
  | 0%nat => ([], true)
  | S n => match read_file d (KeyFile i) with
           | None => ([], true)
           | Some k => match read_file d (DataFile i) with
                       | None => ([], false)
                       | Some v => let '(l, ok) := read_entries n (S i) d in ((k, v) :: l, ok)
                       end
           end
  end.
(** migrator.go:79-81: an error of putKey is logged and forgotten *)
Fixpoint put_entries (cfg : driver_cfg) (l : list (bytes * bytes)) : prog unit :=
  match l with
  | [] => Ret tt
  | (k, v) :: rest => pbind (put_key cfg k v) (fun _ => put_entries cfg rest)
  end.
(** migrator.go:53-87; the answer is whether nil is returned.  There is a key file
    for at most [length d] indices. *)
Definition restore (cfg : driver_cfg) (d : dir) : prog bool :=
  let '(l, ok) := read_entries (S (length d)) 0 d in
  pbind (put_entries cfg l) (fun _ => Ret ok).

(** ---- specification vocabulary ---- *)
Definition under_slash (k : bytes) : Prop := exists r, k = 47%N :: r.
