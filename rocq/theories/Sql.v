(** The table [kine] and every SQL statement the driver issues on it.
    Table definition: pkg/backend/sqlite/schema.go:57-69.
    Simplifications, valid for the whole file:
    - SQL NULL and the empty blob in [value]/[old_value] are identified (both are
      the empty byte string in the protobuf API);
    - [created]/[deleted]/[create_revision]/[prev_revision]/[lease] are never NULL
      (every INSERT in the code sets them);
    - integers are unbounded;
    - CAST(? AS TEXT) is the identity on byte strings. *)
From Coq Require Import List ZArith Bool.
From Verif Require Import Bytes.
Import ListNotations.
Open Scope Z_scope.

(** schema.go:57-69 *)
Record row := Row {
  id : Z;
  name : bytes;
  created : bool;
  deleted : bool;
  create_revision : Z;
  prev_revision : Z;
  lease : Z;
  value : bytes;
  old_value : bytes
}.

(** The database: the rows in insertion order, and sqlite_sequence for the
    AUTOINCREMENT primary key (schema.go:60). *)
Record db := Db { rows : list row; seq : Z }.

(** The table right after applySchemaV0_1 (schema.go:51-93). *)
Definition empty_db : db := Db [] 0.

(** Name of the bookkeeping row: "compact_rev_key" (driver.go:153,218). *)
Definition compact_rev_key : bytes :=
  [99;111;109;112;97;99;116;95;114;101;118;95;107;101;121]%N.

(** ---- SQL building blocks ---- *)

(** SELECT MAX(f) : NULL on the empty set. *)
Definition max_opt (l : list Z) : option Z :=
  match l with [] => None | x :: l' => Some (fold_left Z.max l' x) end.

(** SELECT MAX(id), <bare columns> ... : SQLite takes the bare columns from the
    row holding the maximum. *)
Fixpoint max_row (l : list row) : option row :=
  match l with
  | [] => None
  | r :: l' =>
      match max_row l' with
      | None => Some r
      | Some r' => if id r <? id r' then Some r' else Some r
      end
  end.

(** SELECT MAX(id), <bare columns> ... GROUP BY name : the rows that are the
    maximum of their group (ids are unique: primary key). *)
Definition group_max (l : list row) : list row :=
  filter (fun r => forallb (fun r' => negb (beqb (name r') (name r)) || (id r' <=? id r)) l) l.

(** ORDER BY : insertion sort (stable). *)
Fixpoint insert_sorted {A} (le : A -> A -> bool) (x : A) (l : list A) : list A :=
  match l with
  | [] => [x]
  | y :: l' => if le x y then x :: l else y :: insert_sorted le x l'
  end.
(** ORDER BY of the queries in driver.go:92-209; [le] compares the listed columns. *)
Definition order_by {A} (le : A -> A -> bool) (l : list A) : list A :=
  fold_right (insert_sorted le) [] l.

(** LIMIT n (only used with n > 0). *)
Fixpoint ztake {A} (n : Z) (l : list A) : list A :=
  match l with
  | [] => []
  | x :: l' => if n <=? 0 then [] else x :: ztake (n - 1) l'
  end.

(** `name >= ? AND name < ?` (driver.go:101-103, 131-132, 162-163). *)
Definition in_range_b (lo hi k : bytes) : bool := bleb lo k && bltb k hi.

(** CASE WHEN created THEN id ELSE create_revision END *)
Definition create_rev_of (r : row) : Z := if created r then id r else create_revision r.

(** AUTOINCREMENT: larger than every id ever used. *)
Definition next_id (d : db) : Z := seq d + 1.
(** Effect of INSERT INTO kine in driver.go:220-272: one new row, sqlite_sequence moved to its id. *)
Definition insert (d : db) (r : row) : db := Db (rows d ++ [r]) (id r).

(** ---- queries ---- *)

(** revSQL, driver.go:88-90 *)
Definition rev_sql (d : db) : option Z := max_opt (map id (rows d)).

(** Columns returned by listSQL: id, name, create_revision, lease, value. *)
Record lrow := LRow { l_id : Z; l_name : bytes; l_create : Z; l_lease : Z; l_value : bytes }.
(** The SELECT list of listSQL, driver.go:93-97. *)
Definition project (r : row) : lrow :=
  LRow (id r) (name r) (create_rev_of r) (lease r) (value r).

(** The inner SELECT of listSQL, driver.go:99-105: rows of the range, not newer than [rev]. *)
Definition candidates (lo hi : bytes) (rev : Z) (d : db) : list row :=
  filter (fun r => in_range_b lo hi (name r) && (id r <=? rev)) (rows d).

(** ORDER BY name, id (driver.go:109). *)
Definition by_name_id (a b : row) : bool :=
  match bcmp (name a) (name b) with
  | Lt => true | Gt => false | Eq => id a <=? id b
  end.
(** ORDER BY name (driver.go:92-109). *)
Definition by_name (a b : row) : bool := bleb (name a) (name b).
(** ORDER BY id (driver.go:184-209). *)
Definition by_id (a b : row) : bool := id a <=? id b.

(** listSQL, driver.go:92-109: JOIN of kine with the per-name maxima. *)
Definition list_sql (lo hi : bytes) (rev : Z) (d : db) : list lrow :=
  let maxkv := map id (group_max (candidates lo hi rev d)) in
  map project
    (order_by by_name_id
      (filter (fun kv => existsb (Z.eqb (id kv)) maxkv && negb (deleted kv)) (rows d))).

(** listSqlV1_0, driver.go:128-147: ordered CTE, CROSS JOIN keeps the outer order. *)
Definition list_sql_v1 (lo hi : bytes) (rev : Z) (d : db) : list lrow :=
  let maxkv := map id (order_by by_name
                 (filter (fun r => negb (deleted r)) (group_max (candidates lo hi rev d)))) in
  flat_map (fun m => map project (filter (fun kv => id kv =? m) (rows d))) maxkv.

(** countRevisionSQL, driver.go:159-171 *)
Definition count_sql (lo hi : bytes) (rev : Z) (d : db) : Z :=
  let maxkv := map id (group_max (candidates lo hi rev d)) in
  Z.of_nat (length
    (filter (fun kv => existsb (Z.eqb (id kv)) maxkv && negb (deleted kv)) (rows d))).

(** countRevisionSQLV1_0, driver.go:173-182 *)
Definition count_sql_v1 (lo hi : bytes) (rev : Z) (d : db) : Z :=
  Z.of_nat (length (filter (fun r => negb (deleted r)) (group_max (candidates lo hi rev d)))).

(** revisionIntervalSQL, driver.go:149-157 *)
Definition revision_interval_sql (d : db) : option Z * option Z :=
  (max_opt (map prev_revision (filter (fun r => beqb (name r) compact_rev_key) (rows d))),
   max_opt (map id (rows d))).

(** afterSQLPrefix, driver.go:184-189 *)
Definition after_prefix_sql (lo hi : bytes) (start stop : Z) (d : db) : list row :=
  order_by by_id
    (filter (fun r => in_range_b lo hi (name r) && (start <? id r) && (id r <=? stop)) (rows d)).

(** afterSQL, driver.go:191-195 *)
Definition after_sql (start : Z) (d : db) : list row :=
  order_by by_id (filter (fun r => start <? id r) (rows d)).

(** ttlSQL, driver.go:197-209 *)
Definition ttl_sql (rev : Z) (d : db) : list (Z * bytes * Z) :=
  let maxkv := map id (group_max (filter (fun r => id r <=? rev) (rows d))) in
  map (fun r => (id r, name r, lease r))
    (filter (fun kv => existsb (Z.eqb (id kv)) maxkv && negb (deleted kv) && negb (lease kv =? 0))
       (rows d)).

(** ---- statements; result = (rows affected, last insert id) ---- *)

(** createSQL, driver.go:238-254 *)
Definition create_sql (k v : bytes) (ttl : Z) (d : db) : db * (Z * Z) :=
  match max_row (filter (fun r => beqb (name r) k) (rows d)) with
  | None =>
      let r := Row (next_id d) k true false 0 0 ttl v [] in (insert d r, (1, id r))
  | Some m =>
      if deleted m then
        let r := Row (next_id d) k true false 0 (id m) ttl v [] in (insert d r, (1, id r))
      else (d, (0, 0))
  end.

(** FROM kine WHERE id = (SELECT MAX(id) ... name = k) AND deleted = 0 AND id = rev,
    shared by updateSQL (driver.go:270-272) and deleteSQL (driver.go:234-236). *)
Definition live_at (k : bytes) (rev : Z) (d : db) : list row :=
  match max_opt (map id (filter (fun r => beqb (name r) k) (rows d))) with
  | None => []
  | Some m => filter (fun r => (id r =? m) && negb (deleted r) && (id r =? rev)) (rows d)
  end.

(** updateSQL, driver.go:256-272 (at most one source row: id is the primary key). *)
Definition update_sql (k v : bytes) (rev ttl : Z) (d : db) : db * (Z * Z) :=
  match live_at k rev d with
  | [] => (d, (0, 0))
  | o :: _ =>
      let r := Row (next_id d) k false false (create_rev_of o) (id o) ttl v (value o) in
      (insert d r, (1, id r))
  end.

(** deleteSQL, driver.go:220-236 *)
Definition delete_sql (k : bytes) (rev : Z) (d : db) : db * (Z * Z) :=
  match live_at k rev d with
  | [] => (d, (0, 0))
  | o :: _ =>
      let r := Row (next_id d) (name o) false true (create_rev_of o) (id o) (lease o) [] (value o) in
      (insert d r, (1, id r))
  end.

(** deleteRevSQL, driver.go:211-213 *)
Definition delete_rev_sql (rev : Z) (d : db) : db * (Z * Z) :=
  let keep := filter (fun r => negb (id r =? rev)) (rows d) in
  (Db keep (seq d), (Z.of_nat (length (rows d)) - Z.of_nat (length keep), 0)).

(** First statement of tryCompact, driver.go:647-659 *)
Definition compact_superseded_sql (start stop : Z) (d : db) : db :=
  let victims := map prev_revision
    (filter (fun r => negb (beqb (name r) compact_rev_key) && negb (created r)
                      && negb (prev_revision r =? 0) && (start <? id r) && (id r <=? stop))
       (rows d)) in
  Db (filter (fun r => negb (existsb (Z.eqb (id r)) victims)) (rows d)) (seq d).

(** Second statement of tryCompact, driver.go:661-667 *)
Definition compact_tombstones_sql (start stop : Z) (d : db) : db :=
  Db (filter (fun r => negb (deleted r && (start <? id r) && (id r <=? stop))) (rows d)) (seq d).

(** updateCompactSQL, driver.go:215-218 *)
Definition set_prev (r : row) (p : Z) : row :=
  Row (id r) (name r) (created r) (deleted r) (create_revision r) p (lease r) (value r) (old_value r).
(** updateCompactSQL, driver.go:215-218: max() keeps the stored revision from going back; the row is the one named compact_rev_key. *)
Definition update_compact_sql (rev : Z) (d : db) : db :=
  Db (map (fun r => if beqb (name r) compact_rev_key
                    then set_prev r (Z.max (prev_revision r) rev) else r) (rows d)) (seq d).

(** The transaction of tryCompact, driver.go:616-673: three statements, then COMMIT. *)
Definition try_compact_tx (start stop : Z) (d : db) : db :=
  update_compact_sql stop (compact_tombstones_sql start stop (compact_superseded_sql start stop d)).
