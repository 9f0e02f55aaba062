(** pkg/migrator: moving the contents between an etcd server and k8s-dqlite.  The etcd
    server is outside /repo: it is represented by the history of its changes (Spec.v)
    and answers a read with its current contents. *)
From Coq Require Import List ZArith NArith Bool.
From Verif Require Import Bytes Spec Sql System Prog Backend Limited Api Client.
Import ListNotations.
Open Scope Z_scope.

(** Sorting by key, descending, one version of each key (the order asked for at
    migrator.go:31; the server sorts). *)
Fixpoint insert_desc (x : kv) (l : list kv) : list kv :=
  match l with
  | [] => [x]
  | y :: r => match bcmp (kv_key x) (kv_key y) with
              | Gt => x :: l
              | Eq => l
              | Lt => y :: insert_desc x r
              end
  end.
(** migrator.go:31: what etcd answers to Get("", WithPrefix, SortByKey, SortDescend):
    every live key.  The read does not fail and is not paged (the code does neither
    retry nor page). *)
Definition etcd_all (h : history) : list kv :=
  fold_right insert_desc [] (flat_map (fun e => match now h (e_key e) with Some x => [x] | None => [] end) h).
(** migrator.go:26-51, without interruption; the loop is that of BackupDqlite
    ([backup_files], cut after all files). *)
Definition backup_etcd (h : history) (d : dir) : dir :=
  let L := etcd_all h in backup_files (2 * length L) L d.
(** migrator.go:144: Put on etcd, without a lease; [true]: it fails, storing nothing. *)
Definition etcd_put (h : history) (k v : bytes) (fails : bool) : history :=
  if fails then h else h ++ [Entry k (Put v 0)].
(** migrator.go:124-148: the loop; a failing Put is logged and forgotten.  [fails]:
    which of the puts fail (none beyond the list). *)
Fixpoint etcd_put_entries (h : history) (fails : list bool) (l : list (bytes * bytes)) : history :=
  match l with
  | [] => h
  | (k, v) :: rest => etcd_put_entries (etcd_put h k v (hd false fails)) (tl fails) rest
  end.
(** migrator.go:117-149; the answer is whether nil is returned. *)
Definition restore_etcd (fails : list bool) (d : dir) (h : history) : history * bool :=
  let '(l, ok) := read_entries (S (length d)) 0 d in (etcd_put_entries h fails l, ok).
