(** How the rows of the SQL table (SqlLang.v) stand for the rows the rest of the model works
    with (Sql.v), and how the driver reads the rows of a result.  Independent of the
    statements and of their evaluation. *)
From Coq Require Import List ZArith Bool String.
From Verif Require Import Bytes Sql SqlLang.
Import ListNotations.
Open Scope Z_scope.

(** A blob cell: an empty blob may be stored as NULL (schema.go:67-68 allow it; driver.go:229,
    246 write it). *)
Definition enc_blob (nul : bool) (b : bytes) : val :=
  match b with [] => if nul then VNull else VBlob [] | _ => VBlob b end.

(** A stored row: what it means, and whether its empty blobs are NULL (schema.go:58-69). *)
Notation nrow := (row * (bool * bool))%type.
(** The nine cells of a row in declaration order (schema.go:60-68). *)
Definition enc_row (x : nrow) : list val :=
  let '(r, (nv, no)) := x in
  [VInt (id r); VText (name r); vbool (created r); vbool (deleted r); VInt (create_revision r);
   VInt (prev_revision r); VInt (lease r); enc_blob nv (value r); enc_blob no (old_value r)].

(** The SQL table [t] holds exactly the rows of [d], in order, with the same counter
    (schema.go:58-69). *)
Definition stored (t : tdb) (d : db) : Prop :=
  exists T : list nrow, t_rows t = map enc_row T /\ rows d = map fst T /\ t_seq t = Sql.seq d.

(** A []byte argument for a BLOB column; a nil slice may arrive as NULL (driver.go:523, 545). *)
Definition blob_arg (v : val) (b : bytes) : Prop := v = VBlob b \/ (v = VNull /\ b = []).

(** Scanning a cell into a []byte (utils.go:26-78): NULL gives the empty slice. *)
Definition scan_bytes (v : val) : option bytes :=
  match v with VNull => Some [] | VBlob b => Some b | VText b => Some b | VInt _ => None end.
(** Scanning a cell into an int64: NULL is an error (utils.go:26-78). *)
Definition scan_int (v : val) : option Z := match v with VInt z => Some z | _ => None end.
(** Scanning a cell into a bool: 0 and 1 only (utils.go:41-78, database/sql). *)
Definition scan_bool (v : val) : option bool :=
  match v with VInt 0 => Some false | VInt 1 => Some true | _ => None end.

(** rows.Scan of scanKeyValue, utils.go:26-39: five columns. *)
Definition scan_lrow (l : list val) : option lrow :=
  match l with
  | [a; b; c; d; e] =>
      match scan_int a, scan_bytes b, scan_int c, scan_int d, scan_bytes e with
      | Some i, Some n, Some cr, Some le, Some v => Some (LRow i n cr le v)
      | _, _, _, _, _ => None
      end
  | _ => None
  end.

(** rows.Scan of scanEvent, utils.go:41-78: all nine columns. *)
Definition scan_row (l : list val) : option row :=
  match l with
  | [a; b; c; d; e; f; g; h; i] =>
      match scan_int a, scan_bytes b, scan_bool c, scan_bool d, scan_int e, scan_int f, scan_int g,
            scan_bytes h, scan_bytes i with
      | Some a', Some b', Some c', Some d', Some e', Some f', Some g', Some h', Some i' =>
          Some (Row a' b' c' d' e' f' g' h' i')
      | _, _, _, _, _, _, _, _, _ => None
      end
  | _ => None
  end.

(** rows.Scan in ttl.go:70-99: id, name, lease. *)
Definition scan_ttl (l : list val) : option (Z * bytes * Z) :=
  match l with
  | [a; b; c] => match scan_int a, scan_bytes b, scan_int c with
                 | Some i, Some n, Some le => Some (i, n, le) | _, _, _ => None end
  | _ => None
  end.

(** rows.Scan of an aggregate into sql.NullInt64 (driver.go:699): NULL is allowed. *)
Definition scan_null_int (v : val) : option (option Z) :=
  match v with VNull => Some None | VInt z => Some (Some z) | _ => None end.
