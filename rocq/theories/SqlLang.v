(** The language the driver speaks to its database: the part of SQL that occurs in the
    statement texts of pkg/backend/sqlite/driver.go:88-276 and 647-667.  A lexer, a parser
    and an evaluator, all executable; the statement texts themselves are in SqlText.v.
    What is modelled is SQLite's documented behaviour: three-valued logic, storage-class
    comparison, aggregates with bare columns taken from the row of the maximum, joins in
    nested-loop order, INSERT ... SELECT reading the table before it writes, AUTOINCREMENT.
    Simplifications: integers are unbounded; affinities are not modelled (no statement
    compares values of different storage classes); DISTINCT, outer joins, NOT, LIKE, OFFSET,
    DESC and everything else the statements do not use is rejected by the parser. *)
From Coq Require Import List ZArith NArith Bool String Ascii.
From Verif Require Import Bytes.
Import ListNotations.
Open Scope Z_scope.
Open Scope string_scope.

(** ---- text to tokens ---- *)

(** Tokens of the statement texts (driver.go:88-276); a placeholder carries its position, as
    database/sql binds the arguments in order. *)
Inductive tok :=
| TWord (s : string)
| TNum (z : Z)
| TStr (s : string)
| TPar (n : nat)
| TSym (s : string).

(** ASCII code between two bounds: classes of characters in the texts driver.go:88-276. *)
Definition between (a lo hi : nat) : bool := (Nat.leb lo a && Nat.leb a hi)%bool.
(** Characters of identifiers and keywords (driver.go:88-276). *)
Definition is_word (c : ascii) : bool :=
  let n := nat_of_ascii c in
  (between n 65 90 || between n 97 122 || Nat.eqb n 95 || between n 48 57)%bool.
(** Decimal digits (driver.go:88-276). *)
Definition is_digit (c : ascii) : bool := between (nat_of_ascii c) 48 57.
(** White space of the raw string literals (driver.go:88-276). *)
Definition is_space (c : ascii) : bool :=
  let n := nat_of_ascii c in (Nat.eqb n 32 || between n 9 13)%bool.
(** SQL words are case-insensitive (driver.go writes MAX and max, AS and as: 89, 99, 217). *)
Definition lower (c : ascii) : ascii :=
  let n := nat_of_ascii c in if between n 65 90 then ascii_of_nat (n + 32) else c.

(** Longest prefix of characters of a class (driver.go:88-276). *)
Fixpoint span (f : ascii -> bool) (s : string) : string * string :=
  match s with
  | EmptyString => (EmptyString, EmptyString)
  | String c s' =>
      if f c then let '(a, b) := span f s' in (String c a, b) else (EmptyString, s)
  end.
(** Lower-case form of a word (driver.go:88-276). *)
Fixpoint lowers (s : string) : string :=
  match s with EmptyString => EmptyString | String c s' => String (lower c) (lowers s') end.
(** Value of a decimal numeral (driver.go:88-276). *)
Fixpoint numeral (acc : Z) (s : string) : Z :=
  match s with
  | EmptyString => acc
  | String c s' => numeral (acc * 10 + Z.of_nat (nat_of_ascii c - 48)) s'
  end.

(** The lexer for the statement texts (driver.go:88-276, 647-667); [n] bounds the number of
    tokens, [k] counts the placeholders. *)
Fixpoint lex (n : nat) (k : nat) (s : string) : option (list tok) :=
  match n with
  | O => None
  | S n' =>
      match s with
      | EmptyString => Some []
      | String c s' =>
          if is_space c then lex n' k s'
          else if is_digit c then
            let '(w, r) := span is_digit s in
            match lex n' k r with Some l => Some (TNum (numeral 0 w) :: l) | None => None end
          else if is_word c then
            let '(w, r) := span is_word s in
            match lex n' k r with Some l => Some (TWord (lowers w) :: l) | None => None end
          else if Ascii.eqb c "?" then
            match lex n' (S k) s' with Some l => Some (TPar k :: l) | None => None end
          else if Ascii.eqb c "'" then
            let '(w, r) := span (fun x => negb (Ascii.eqb x "'")) s' in
            match r with
            | String _ r' => match lex n' k r' with Some l => Some (TStr w :: l) | None => None end
            | EmptyString => None
            end
          else
            match s' with
            | String "=" s'' =>
                if (Ascii.eqb c "<" || Ascii.eqb c ">" || Ascii.eqb c "!")%bool
                then match lex n' k s'' with Some l => Some (TSym (String c "=") :: l) | None => None end
                else match lex n' k s' with Some l => Some (TSym (String c "") :: l) | None => None end
            | _ => match lex n' k s' with Some l => Some (TSym (String c "") :: l) | None => None end
            end
      end
  end.

(** ---- syntax ---- *)

(** Binary operators occurring in driver.go:88-276. *)
Inductive binop := OEq | ONe | OLt | OLe | OGt | OGe | OAnd | OOr | OAdd | OSub | OMul.

(** Expressions, queries and table sources of driver.go:88-276. *)
Inductive expr :=
| ECol (q : option string) (c : string)
| EInt (z : Z)
| EStr (s : string)
| ENull
| EPar (n : nat)
| EBin (o : binop) (a b : expr)
| EIsNull (a : expr)
| ECase (c a b : expr)
| ECastText (a : expr)
| ECoalesce (a b : expr)
| EMax2 (a b : expr)
| EMax (a : expr)
| ECount
| EScalar (q : select)
| EIn (a : expr) (q : select)
with select :=
| Select (items : list (expr * option string)) (from : option source) (wh : option expr)
         (group : list expr) (having : option expr) (order : list expr) (limit : option expr)
with source :=
| FTable (t : string) (alias : option string)
| FSub (q : select) (alias : option string)
| FJoin (a b : source) (on : option expr).

(** Statements: queries with an optional leading WITH, and the three kinds of change
    (driver.go:88-276, 647-667). *)
Inductive stmt :=
| SQuery (cte : option (string * select)) (q : select)
| SInsert (t : string) (cols : list string) (q : select)
| SDelete (t : string) (wh : option expr)
| SUpdate (t : string) (col : string) (e : expr) (wh : option expr).

(** Words that cannot be an alias without AS in the texts driver.go:88-276. *)
Definition reserved : list string :=
  ["from"; "where"; "group"; "having"; "order"; "limit"; "join"; "cross"; "on"; "and"; "or";
   "is"; "in"; "as"; "asc"; "then"; "else"; "end"; "when"; "select"; "set"; "by"; "union";
   "desc"; "not"; "left"; "inner"; "natural"; "offset"].
(** Membership in [reserved] (driver.go:88-276). *)
Definition is_reserved (s : string) : bool := existsb (String.eqb s) reserved.

(** Operators by SQLite's precedence levels: OR, AND, equality, order, sum, product. *)
Definition op_at (lvl : nat) (t : tok) : option binop :=
  match lvl, t with
  | 0%nat, TWord "or" => Some OOr
  | 1%nat, TWord "and" => Some OAnd
  | 2%nat, TSym "=" => Some OEq
  | 2%nat, TSym "!=" => Some ONe
  | 3%nat, TSym "<" => Some OLt
  | 3%nat, TSym "<=" => Some OLe
  | 3%nat, TSym ">" => Some OGt
  | 3%nat, TSym ">=" => Some OGe
  | 4%nat, TSym "+" => Some OAdd
  | 4%nat, TSym "-" => Some OSub
  | 5%nat, TSym "*" => Some OMul
  | _, _ => None
  end.

(** [AS name] or a bare alias (driver.go:93-142). *)
Definition p_alias (ts : list tok) : option string * list tok :=
  match ts with
  | TWord "as" :: TWord a :: ts' => (Some a, ts')
  | TWord a :: ts' => if is_reserved a then (None, ts) else (Some a, ts')
  | _ => (None, ts)
  end.

(** The recursive-descent parser for the texts of driver.go:88-276; [n] bounds its depth. *)
Fixpoint p_expr (n : nat) (lvl : nat) (ts : list tok) {struct n} : option (expr * list tok) :=
  match n with
  | O => None
  | S n' =>
      match lvl with
      | 6%nat => p_prim n' ts
      | _ => match p_expr n' (S lvl) ts with
             | Some (e, ts') => p_tail n' lvl e ts'
             | None => None
             end
      end
  end
with p_tail (n : nat) (lvl : nat) (e : expr) (ts : list tok) {struct n} : option (expr * list tok) :=
  match n with
  | O => None
  | S n' =>
      match lvl, ts with
      | 2%nat, TWord "is" :: TWord "null" :: ts' => p_tail n' lvl (EIsNull e) ts'
      | 2%nat, TWord "in" :: TSym "(" :: ts' =>
          match p_select n' ts' with
          | Some (q, TSym ")" :: ts'') => p_tail n' lvl (EIn e q) ts''
          | _ => None
          end
      | _, t :: ts' =>
          match op_at lvl t with
          | Some o => match p_expr n' (S lvl) ts' with
                      | Some (e', ts'') => p_tail n' lvl (EBin o e e') ts''
                      | None => None
                      end
          | None => Some (e, ts)
          end
      | _, [] => Some (e, ts)
      end
  end
with p_prim (n : nat) (ts : list tok) {struct n} : option (expr * list tok) :=
  match n with
  | O => None
  | S n' =>
      match ts with
      | TNum z :: ts' => Some (EInt z, ts')
      | TStr s :: ts' => Some (EStr s, ts')
      | TPar k :: ts' => Some (EPar k, ts')
      | TWord "null" :: ts' => Some (ENull, ts')
      | TWord "case" :: TWord "when" :: ts' =>
          match p_expr n' 0 ts' with
          | Some (c, TWord "then" :: ts1) =>
              match p_expr n' 0 ts1 with
              | Some (a, TWord "else" :: ts2) =>
                  match p_expr n' 0 ts2 with
                  | Some (b, TWord "end" :: ts3) => Some (ECase c a b, ts3)
                  | _ => None
                  end
              | _ => None
              end
          | _ => None
          end
      | TWord "cast" :: TSym "(" :: ts' =>
          match p_expr n' 0 ts' with
          | Some (e, TWord "as" :: TWord "text" :: TSym ")" :: ts1) => Some (ECastText e, ts1)
          | _ => None
          end
      | TWord "coalesce" :: TSym "(" :: ts' =>
          match p_expr n' 0 ts' with
          | Some (a, TSym "," :: ts1) =>
              match p_expr n' 0 ts1 with
              | Some (b, TSym ")" :: ts2) => Some (ECoalesce a b, ts2)
              | _ => None
              end
          | _ => None
          end
      | TWord "max" :: TSym "(" :: ts' =>
          match p_expr n' 0 ts' with
          | Some (a, TSym ")" :: ts1) => Some (EMax a, ts1)
          | Some (a, TSym "," :: ts1) =>
              match p_expr n' 0 ts1 with
              | Some (b, TSym ")" :: ts2) => Some (EMax2 a b, ts2)
              | _ => None
              end
          | _ => None
          end
      | TWord "count" :: TSym "(" :: TSym "*" :: TSym ")" :: ts' => Some (ECount, ts')
      | TSym "(" :: TWord "select" :: _ =>
          match ts with
          | _ :: ts' =>
              match p_select n' ts' with
              | Some (q, TSym ")" :: ts1) => Some (EScalar q, ts1)
              | _ => None
              end
          | [] => None
          end
      | TSym "(" :: ts' =>
          match p_expr n' 0 ts' with
          | Some (e, TSym ")" :: ts1) => Some (e, ts1)
          | _ => None
          end
      | TWord q :: TSym "." :: TWord c :: ts' => Some (ECol (Some q) c, ts')
      | TWord c :: ts' => if is_reserved c then None else Some (ECol None c, ts')
      | _ => None
      end
  end
with p_exprs (n : nat) (ts : list tok) {struct n} : option (list expr * list tok) :=
  match n with
  | O => None
  | S n' =>
      match p_expr n' 0 ts with
      | Some (e, ts1) =>
          let ts2 := match ts1 with TWord "asc" :: t => t | _ => ts1 end in
          match ts2 with
          | TSym "," :: ts3 =>
              match p_exprs n' ts3 with Some (l, ts4) => Some (e :: l, ts4) | None => None end
          | _ => Some ([e], ts2)
          end
      | None => None
      end
  end
with p_items (n : nat) (ts : list tok) {struct n} : option (list (expr * option string) * list tok) :=
  match n with
  | O => None
  | S n' =>
      match p_expr n' 0 ts with
      | Some (e, ts1) =>
          let '(a, ts2) := p_alias ts1 in
          match ts2 with
          | TSym "," :: ts3 =>
              match p_items n' ts3 with Some (l, ts4) => Some ((e, a) :: l, ts4) | None => None end
          | _ => Some ([(e, a)], ts2)
          end
      | None => None
      end
  end
with p_source1 (n : nat) (ts : list tok) {struct n} : option (source * list tok) :=
  match n with
  | O => None
  | S n' =>
      match ts with
      | TSym "(" :: ts' =>
          match p_select n' ts' with
          | Some (q, TSym ")" :: ts1) => let '(a, ts2) := p_alias ts1 in Some (FSub q a, ts2)
          | _ => None
          end
      | TWord t :: TSym "(" :: TSym ")" :: ts' =>
          let '(a, ts2) := p_alias ts' in Some (FTable t a, ts2)
      | TWord t :: ts' =>
          if is_reserved t then None else let '(a, ts2) := p_alias ts' in Some (FTable t a, ts2)
      | _ => None
      end
  end
with p_joins (n : nat) (s : source) (ts : list tok) {struct n} : option (source * list tok) :=
  match n with
  | O => None
  | S n' =>
      let rest := match ts with
                  | TSym "," :: ts' => Some ts'
                  | TWord "join" :: ts' => Some ts'
                  | TWord "cross" :: TWord "join" :: ts' => Some ts'
                  | _ => None
                  end in
      match rest with
      | None => Some (s, ts)
      | Some ts' =>
          match p_source1 n' ts' with
          | Some (s', TWord "on" :: ts1) =>
              match p_expr n' 0 ts1 with
              | Some (e, ts2) => p_joins n' (FJoin s s' (Some e)) ts2
              | None => None
              end
          | Some (s', ts1) => p_joins n' (FJoin s s' None) ts1
          | None => None
          end
      end
  end
with p_select (n : nat) (ts : list tok) {struct n} : option (select * list tok) :=
  match n with
  | O => None
  | S n' =>
      match ts with
      | TWord "select" :: ts0 =>
          match p_items n' ts0 with
          | None => None
          | Some (its, ts1) =>
              match (match ts1 with
                     | TWord "from" :: t =>
                         match p_source1 n' t with
                         | Some (s, t') => match p_joins n' s t' with
                                           | Some (s', t'') => Some (Some s', t'') | None => None end
                         | None => None
                         end
                     | _ => Some (None, ts1)
                     end) with
              | None => None
              | Some (src, ts2) =>
                  match (match ts2 with
                         | TWord "where" :: t =>
                             match p_expr n' 0 t with Some (e, t') => Some (Some e, t') | None => None end
                         | _ => Some (None, ts2)
                         end) with
                  | None => None
                  | Some (wh, ts3) =>
                      match (match ts3 with
                             | TWord "group" :: TWord "by" :: t => p_exprs n' t
                             | _ => Some ([], ts3)
                             end) with
                      | None => None
                      | Some (grp, ts4) =>
                          match (match ts4 with
                                 | TWord "having" :: t =>
                                     match p_expr n' 0 t with Some (e, t') => Some (Some e, t') | None => None end
                                 | _ => Some (None, ts4)
                                 end) with
                          | None => None
                          | Some (hav, ts5) =>
                              match (match ts5 with
                                     | TWord "order" :: TWord "by" :: t => p_exprs n' t
                                     | _ => Some ([], ts5)
                                     end) with
                              | None => None
                              | Some (ord, ts6) =>
                                  match ts6 with
                                  | TWord "limit" :: t =>
                                      match p_expr n' 0 t with
                                      | Some (e, t') => Some (Select its src wh grp hav ord (Some e), t')
                                      | None => None
                                      end
                                  | _ => Some (Select its src wh grp hav ord None, ts6)
                                  end
                              end
                          end
                      end
                  end
              end
          end
      | _ => None
      end
  end.

(** A comma-separated list of column names, up to the closing parenthesis (driver.go:221). *)
Fixpoint p_names (n : nat) (ts : list tok) : option (list string * list tok) :=
  match n with
  | O => None
  | S n' =>
      match ts with
      | TWord c :: TSym ")" :: ts' => Some ([c], ts')
      | TWord c :: TSym "," :: ts' =>
          match p_names n' ts' with Some (l, t) => Some (c :: l, t) | None => None end
      | _ => None
      end
  end.

(** Optional WHERE up to the end of the statement (driver.go:211-218). *)
Definition p_where (n : nat) (ts : list tok) : option (option expr) :=
  match ts with
  | [] => Some None
  | TWord "where" :: ts' =>
      match p_expr n 0 ts' with Some (e, []) => Some (Some e) | _ => None end
  | _ => None
  end.

(** A whole statement: every token must be consumed (driver.go:88-276, 647-667). *)
Definition p_stmt (n : nat) (ts : list tok) : option stmt :=
  match ts with
  | TWord "with" :: TWord c :: TWord "as" :: TSym "(" :: ts1 =>
      match p_select n ts1 with
      | Some (q, TSym ")" :: ts2) =>
          match p_select n ts2 with Some (m, []) => Some (SQuery (Some (c, q)) m) | _ => None end
      | _ => None
      end
  | TWord "select" :: _ =>
      match p_select n ts with Some (m, []) => Some (SQuery None m) | _ => None end
  | TWord "insert" :: TWord "into" :: TWord t :: TSym "(" :: ts1 =>
      match p_names n ts1 with
      | Some (cs, ts2) =>
          match p_select n ts2 with Some (q, []) => Some (SInsert t cs q) | _ => None end
      | None => None
      end
  | TWord "delete" :: TWord "from" :: TWord t :: ts1 =>
      match p_where n ts1 with Some w => Some (SDelete t w) | None => None end
  | TWord "update" :: TWord t :: TWord "set" :: TWord c :: TSym "=" :: ts1 =>
      match p_expr n 0 ts1 with
      | Some (e, ts2) => match p_where n ts2 with Some w => Some (SUpdate t c e w) | None => None end
      | None => None
      end
  | _ => None
  end.

(** Text to statement, as SQLite's sqlite3_prepare does for the texts handed to
    QueryContext/ExecContext (driver.go:428, 466, 647-669).  The bounds exceed every text. *)
Definition parse (s : string) : option stmt :=
  match lex 2000 0 s with Some ts => p_stmt 100 ts | None => None end.

(** ---- values ---- *)

(** SQLite storage classes used by table kine (schema.go:58-69). *)
Inductive val := VNull | VInt (z : Z) | VText (b : bytes) | VBlob (b : bytes).

(** Bytes of a string literal (driver.go:153, 218, 652). *)
Fixpoint str_bytes (s : string) : bytes :=
  match s with EmptyString => [] | String c s' => N_of_ascii c :: str_bytes s' end.

(** Order between values: NULL < numbers < text < blobs; text and blobs by memcmp
    (schema.go:61 declares no collation). *)
Definition vcmp (a b : val) : comparison :=
  match a, b with
  | VNull, VNull => Eq
  | VNull, _ => Lt
  | _, VNull => Gt
  | VInt x, VInt y => Z.compare x y
  | VInt _, _ => Lt
  | _, VInt _ => Gt
  | VText x, VText y => bcmp x y
  | VText _, VBlob _ => Lt
  | VBlob _, VText _ => Gt
  | VBlob x, VBlob y => bcmp x y
  end.

(** Lexicographic order of sort keys and group keys (ORDER BY / GROUP BY, driver.go:104-109, 136-138). *)
Fixpoint vscmp (a b : list val) : comparison :=
  match a, b with
  | [], [] => Eq
  | [], _ => Lt
  | _, [] => Gt
  | x :: a', y :: b' => match vcmp x y with Eq => vscmp a' b' | c => c end
  end.

(** SQL truth values as integers (WHERE/CASE/AND/OR in driver.go:88-276). *)
Definition vbool (b : bool) : val := VInt (if b then 1 else 0).
(** A value read as a condition: [None] is SQL's unknown. *)
Definition truth (v : val) : option bool :=
  match v with
  | VNull => None
  | VInt z => Some (negb (Z.eqb z 0))
  | VText _ | VBlob _ => Some false
  end.
(** Back from three-valued truth to a value (AND/OR, driver.go:103, 254). *)
Definition of_truth (t : option bool) : val :=
  match t with Some b => vbool b | None => VNull end.
(** Whether WHERE/HAVING/ON keeps the row: unknown counts as no (driver.go:88-276). *)
Definition holds (v : val) : bool := match truth v with Some true => true | _ => false end.

(** Three-valued AND / OR (driver.go:103, 254). *)
Definition and3 (a b : option bool) : option bool :=
  match a, b with
  | Some false, _ | _, Some false => Some false
  | Some true, Some true => Some true
  | _, _ => None
  end.
(** Three-valued OR (driver.go:254). *)
Definition or3 (a b : option bool) : option bool :=
  match a, b with
  | Some true, _ | _, Some true => Some true
  | Some false, Some false => Some false
  | _, _ => None
  end.

(** Binary operators on values; a comparison with NULL is NULL (driver.go:88-276).
    Arithmetic is used on integers only (driver.go:275). *)
Definition bin (o : binop) (a b : val) : val :=
  match o with
  | OAnd => of_truth (and3 (truth a) (truth b))
  | OOr => of_truth (or3 (truth a) (truth b))
  | OAdd | OSub | OMul =>
      match a, b with
      | VInt x, VInt y =>
          VInt (match o with OAdd => x + y | OSub => x - y | _ => x * y end)
      | _, _ => VNull
      end
  | _ =>
      match a, b with
      | VNull, _ | _, VNull => VNull
      | _, _ =>
          vbool (match o, vcmp a b with
                 | OEq, Eq => true | ONe, Lt => true | ONe, Gt => true
                 | OLt, Lt => true | OLe, Lt => true | OLe, Eq => true
                 | OGt, Gt => true | OGe, Gt => true | OGe, Eq => true
                 | _, _ => false end)
      end
  end.

(** CAST(v AS TEXT): the bytes of a blob become text (driver.go:84-86: "a no-op for sqlite").
    Integers are never cast in the statements; they are left alone here. *)
Definition cast_text (v : val) : val :=
  match v with VBlob b => VText b | _ => v end.

(** ---- evaluation ---- *)

(** A table or the result of a query: column names and rows (schema.go:58-69). *)
Record rel := Rel { cols : list string; body : list (list val) }.

(** What a FROM clause ranges over: aliased column lists, and for each combination one row
    per alias (driver.go:98-107). *)
Definition shape := list (string * list string).
(** One combination of rows of a FROM clause (driver.go:98-107). *)
Definition combo := list (list val).
(** Scopes of name resolution, innermost first (subqueries of driver.go:234-236 see the outer query). *)
Definition scopes := list (shape * combo).

(** All columns called [c] (of alias [q], if given) in one FROM clause (driver.go:93-97). *)
Definition col_vals (q : option string) (c : string) (s : shape) (r : combo) : list val :=
  flat_map (fun '((a, cs), vs) =>
      if match q with Some q' => String.eqb q' a | None => true end
      then map snd (filter (fun '(c', _) => String.eqb c c') (combine cs vs))
      else [])
    (combine s r).

(** Name resolution: innermost scope that knows the name; ambiguous or unknown names are
    errors (driver.go:93-97: unqualified name, lease and value). *)
Fixpoint resolve (q : option string) (c : string) (e : scopes) : option val :=
  match e with
  | [] => None
  | (s, r) :: e' =>
      match col_vals q c s r with
      | [v] => Some v
      | [] => resolve q c e'
      | _ => None
      end
  end.

(** [map] / [filter] with errors: one failing evaluation fails the statement (driver.go:428-434). *)
Fixpoint omap {A B} (f : A -> option B) (l : list A) : option (list B) :=
  match l with
  | [] => Some []
  | x :: l' => match f x, omap f l' with Some y, Some ys => Some (y :: ys) | _, _ => None end
  end.
(** Keep the elements whose condition holds (WHERE, HAVING, ON: driver.go:88-276). *)
Definition ofilter {A} (f : A -> option val) (l : list A) : option (list A) :=
  match omap (fun x => match f x with Some v => Some (x, v) | None => None end) l with
  | Some ps => Some (map fst (filter (fun p => holds (snd p)) ps))
  | None => None
  end.

(** ORDER BY: stable insertion sort on precomputed keys (driver.go:109, 138, 189). *)
Fixpoint sort_insert {A} (x : list val * A) (l : list (list val * A)) : list (list val * A) :=
  match l with
  | [] => [x]
  | y :: l' => match vscmp (fst x) (fst y) with Gt => y :: sort_insert x l' | _ => x :: l end
  end.
(** ORDER BY, whole list (driver.go:109, 138, 189). *)
Definition sort_keys {A} (l : list (list val * A)) : list (list val * A) :=
  fold_right sort_insert [] l.

(** GROUP BY: groups in order of first appearance, rows in table order (driver.go:104, 136). *)
Fixpoint add_group {A} (k : list val) (x : A) (gs : list (list val * list A)) : list (list val * list A) :=
  match gs with
  | [] => [(k, [x])]
  | (k', xs) :: gs' =>
      match vscmp k k' with Eq => (k', xs ++ [x])%list :: gs' | _ => (k', xs) :: add_group k x gs' end
  end.
(** GROUP BY, whole list (driver.go:104, 136). *)
Definition group_keys {A} (l : list (list val * A)) : list (list A) :=
  map snd (fold_left (fun gs '(k, x) => add_group k x gs) l []).

(** MAX(e) over a group: NULLs are ignored, NULL if nothing is left (driver.go:89, 99, 149-157). *)
Definition agg_max (l : list val) : val :=
  fold_left (fun m v => match vcmp m v with Lt => v | _ => m end) l VNull.

(** LIMIT n; a negative n means no limit (driver.go:731, 783). *)
Definition limit_rows {A} (v : val) (l : list A) : option (list A) :=
  match v with
  | VInt z => Some (if Z.ltb z 0 then l else firstn (Z.to_nat z) l)
  | _ => None
  end.

(** Does the expression aggregate?  Subqueries do not count (driver.go:89, 99, 149-157). *)
Fixpoint has_agg (e : expr) : bool :=
  match e with
  | EMax _ | ECount => true
  | EBin _ a b | ECoalesce a b | EMax2 a b => has_agg a || has_agg b
  | EIsNull a | ECastText a | EIn a _ => has_agg a
  | ECase c a b => has_agg c || has_agg a || has_agg b
  | _ => false
  end%bool.

(** The argument of the MAX that decides where bare columns come from (driver.go:129-138, 249-253). *)
Fixpoint max_arg (e : expr) : option expr :=
  match e with
  | EMax a => Some a
  | EBin _ a b | ECoalesce a b | EMax2 a b =>
      match max_arg a with Some x => Some x | None => max_arg b end
  | EIsNull a | ECastText a | EIn a _ => max_arg a
  | ECase c a b =>
      match max_arg c with Some x => Some x
      | None => match max_arg a with Some x => Some x | None => max_arg b end end
  | _ => None
  end.
(** First MAX of a SELECT list (driver.go:129-138, 249-253). *)
Fixpoint first_max (l : list (expr * option string)) : option expr :=
  match l with
  | [] => None
  | (e, _) :: l' => match max_arg e with Some x => Some x | None => first_max l' end
  end.

(** Column names of a result (driver.go:99, 129, 249-253): the alias, or the column itself. *)
Definition item_name (i : expr * option string) : string :=
  match i with (_, Some a) => a | (ECol _ c, None) => c | _ => "" end.

(** ORDER BY may name a result column (driver.go:189, 195); otherwise it is an expression. *)
Definition order_target (its : list (expr * option string)) (e : expr) : expr :=
  match e with
  | ECol None c =>
      match find (fun i => match snd i with Some a => String.eqb a c | None => false end) its with
      | Some (e', _) => e'
      | None => e
      end
  | _ => e
  end.

(** Row giving the bare columns of an aggregate (driver.go:129-138, 249-253): the first one
    reaching the maximum; all NULL for an empty group. *)
Definition pick_rep (sh : shape) (keys : list (val * combo)) : combo :=
  match keys with
  | [] => map (fun '(_, cs) => map (fun _ => VNull) cs) sh
  | k :: ks => snd (fold_left (fun m x => match vcmp (fst m) (fst x) with Lt => x | _ => m end) ks k)
  end.

(** The databases' named relations visible to a statement (kine, a WITH table, the pragma
    functions of driver.go:275-276). *)
Definition catalog := list (string * rel).
(** Look up a relation by name (driver.go:88-276). *)
Fixpoint find_rel (t : string) (c : catalog) : option rel :=
  match c with
  | [] => None
  | (t', r) :: c' => if String.eqb t t' then Some r else find_rel t c'
  end.

(** Sequencing with errors: a failing part fails the statement (driver.go:428-434). *)
Definition obind {A B} (x : option A) (f : A -> option B) : option B :=
  match x with Some a => f a | None => None end.

(** How an expression is evaluated on one combination of rows, or on a group represented by it
    (the clauses of driver.go:93-109 all evaluate their expressions this way). *)
Definition evaluator := option (list combo) -> combo -> expr -> option val.

(** WHERE (driver.go:100-108). *)
Definition do_where (E : evaluator) (wh : option expr) (rs : list combo) : option (list combo) :=
  match wh with None => Some rs | Some w => ofilter (fun r => E None r w) rs end.

(** Is it an aggregate query? (driver.go:89, 99, 129, 149-157, 160) *)
Definition is_agg (its : list (expr * option string)) (gby : list expr) : bool :=
  (existsb (fun i => has_agg (fst i)) its || match gby with [] => false | _ => true end)%bool.

(** The groups of an aggregate query: one, or one per key (driver.go:104, 136). *)
Definition do_partition (E : evaluator) (gby : list expr) (rs : list combo) : option (list (list combo)) :=
  match gby with
  | [] => Some [rs]
  | _ => obind (omap (fun r => obind (omap (E None r) gby) (fun k => Some (k, r))) rs)
           (fun krs => Some (group_keys krs))
  end.

(** A group with the row its bare columns come from (driver.go:129-138, 249-253). *)
Definition do_rep (E : evaluator) (its : list (expr * option string)) (sh : shape) (g : list combo)
    : option (option (list combo) * combo) :=
  obind (match first_max its with
         | Some a => omap (fun r => obind (E None r a) (fun v => Some (v, r))) g
         | None => Some (map (fun r => (VNull, r)) g)
         end)
    (fun ks => Some (Some g, pick_rep sh ks)).

(** What the SELECT list is evaluated on: single rows, or groups (driver.go:93-109, 129-138). *)
Definition do_group (E : evaluator) (its : list (expr * option string)) (gby : list expr) (sh : shape)
    (rs : list combo) : option (list (option (list combo) * combo)) :=
  if is_agg its gby
  then obind (do_partition E gby rs) (fun gs => omap (do_rep E its sh) gs)
  else Some (map (fun r => (None, r)) rs).

(** HAVING (driver.go:137, 180). *)
Definition do_having (E : evaluator) (hav : option expr) (us : list (option (list combo) * combo)) :=
  match hav with
  | None => Some us
  | Some h => ofilter (fun u => E (fst u) (snd u) h) us
  end.

(** ORDER BY (driver.go:109, 138, 189). *)
Definition do_order (E : evaluator) (its : list (expr * option string)) (ord : list expr)
    (us : list (option (list combo) * combo)) :=
  match ord with
  | [] => Some us
  | _ => obind (omap (fun u => obind (omap (fun o => E (fst u) (snd u) (order_target its o)) ord)
                                 (fun k => Some (k, u))) us)
           (fun kus => Some (map snd (sort_keys kus)))
  end.

(** The SELECT list (driver.go:93-97). *)
Definition do_items (E : evaluator) (its : list (expr * option string))
    (us : list (option (list combo) * combo)) : option (list (list val)) :=
  omap (fun u => omap (fun i => E (fst u) (snd u) (fst i)) its) us.

(** LIMIT (driver.go:731, 783). *)
Definition do_limit (v : option (option val)) (out : list (list val)) : option (list (list val)) :=
  match v with
  | None => Some out
  | Some None => None
  | Some (Some x) => limit_rows x out
  end.

(** Evaluation of an expression ([grp]: the rows of the current group, if aggregating), of a
    query, and of a FROM clause; [n] bounds the nesting (driver.go:88-276). *)
Fixpoint ev (n : nat) (cat : catalog) (ps : list val) (grp : option (list combo)) (sc : scopes)
    (e : expr) {struct n} : option val :=
  match n with
  | O => None
  | S n' =>
      match e with
      | ECol q c => resolve q c sc
      | EInt z => Some (VInt z)
      | EStr s => Some (VText (str_bytes s))
      | ENull => Some VNull
      | EPar k => nth_error ps k
      | EBin o a b =>
          obind (ev n' cat ps grp sc a) (fun x =>
          obind (ev n' cat ps grp sc b) (fun y => Some (bin o x y)))
      | EIsNull a =>
          obind (ev n' cat ps grp sc a) (fun x => Some (vbool (match x with VNull => true | _ => false end)))
      | ECase c a b =>
          obind (ev n' cat ps grp sc c) (fun x =>
          obind (ev n' cat ps grp sc a) (fun y =>
          obind (ev n' cat ps grp sc b) (fun z => Some (if holds x then y else z))))
      | ECastText a => obind (ev n' cat ps grp sc a) (fun x => Some (cast_text x))
      | ECoalesce a b =>
          obind (ev n' cat ps grp sc a) (fun x =>
          obind (ev n' cat ps grp sc b) (fun y => Some (match x with VNull => y | _ => x end)))
      | EMax2 a b =>
          obind (ev n' cat ps grp sc a) (fun x =>
          obind (ev n' cat ps grp sc b) (fun y =>
            Some (match x, y with
                  | VNull, _ | _, VNull => VNull
                  | _, _ => match vcmp x y with Lt => y | _ => x end
                  end)))
      | EMax a =>
          match grp, sc with
          | Some rs, (sh, _) :: sc' =>
              obind (omap (fun r => ev n' cat ps None ((sh, r) :: sc') a) rs)
                (fun vs => Some (agg_max vs))
          | _, _ => None
          end
      | ECount => obind grp (fun rs => Some (VInt (Z.of_nat (List.length rs))))
      | EScalar q =>
          obind (ev_select n' cat ps sc q) (fun r =>
            match r with
            | Rel [_] ([v] :: _) => Some v
            | Rel [_] [] => Some VNull
            | _ => None
            end)
      | EIn a q =>
          obind (ev n' cat ps grp sc a) (fun x =>
          obind (ev_select n' cat ps sc q) (fun r =>
            match r with
            | Rel [_] rs =>
                Some (of_truth (fold_right (fun y t => or3 (truth (bin OEq x (hd VNull y))) t)
                                           (Some false) rs))
            | _ => None
            end))
      end
  end
with ev_select (n : nat) (cat : catalog) (ps : list val) (sc : scopes) (q : select) {struct n} : option rel :=
  match n with
  | O => None
  | S n' =>
      match q with
      | Select its src wh gby hav ord lim =>
          obind (match src with
                 | None => Some ([], [[]])
                 | Some s => ev_source n' cat ps sc s
                 end) (fun from =>
          let sh := fst from in
          let E : evaluator := fun g r e => ev n' cat ps g ((sh, r) :: sc) e in
          obind (do_where E wh (snd from)) (fun rs =>
          obind (do_group E its gby sh rs) (fun us =>
          obind (do_having E hav us) (fun us1 =>
          obind (do_order E its ord us1) (fun us2 =>
          obind (do_items E its us2) (fun out =>
          obind (do_limit (match lim with None => None | Some l => Some (ev n' cat ps None [] l) end) out)
            (fun o => Some (Rel (map item_name its) o))))))))
      end
  end
with ev_source (n : nat) (cat : catalog) (ps : list val) (sc : scopes) (s : source) {struct n}
    : option (shape * list combo) :=
  match n with
  | O => None
  | S n' =>
      match s with
      | FTable t al =>
          obind (find_rel t cat) (fun r =>
            Some ([(match al with Some a => a | None => t end, cols r)], map (fun x => [x]) (body r)))
      | FSub q al =>
          obind (ev_select n' cat ps sc q) (fun r =>
            Some ([(match al with Some a => a | None => "" end, cols r)], map (fun x => [x]) (body r)))
      | FJoin a b on =>
          obind (ev_source n' cat ps sc a) (fun x =>
          obind (ev_source n' cat ps sc b) (fun y =>
            let sh := (fst x ++ fst y)%list in
            let pairs := flat_map (fun u => map (fun v => (u ++ v)%list) (snd y)) (snd x) in
            obind (do_where (fun g r e => ev n' cat ps g ((sh, r) :: sc) e) on pairs)
              (fun rs => Some (sh, rs))))
      end
  end.

(** ---- statements on the table ---- *)

(** Table kine, with its sqlite_sequence counter (schema.go:58-69). *)
Record tdb := TDb { t_rows : list (list val); t_seq : Z }.

(** Columns of kine in declaration order (schema.go:60-68). *)
Definition kine_cols : list string :=
  ["id"; "name"; "created"; "deleted"; "create_revision"; "prev_revision"; "lease"; "value"; "old_value"].
(** NOT NULL columns (schema.go:61, 64). *)
Definition kine_not_null : list string := ["name"; "create_revision"].

(** The catalog a statement sees (schema.go:58-69). *)
Definition kine_catalog (d : tdb) : catalog := [("kine", Rel kine_cols (t_rows d))].

(** Nesting bound of the evaluator: exceeds the depth of every statement of driver.go:88-276. *)
Definition depth : nat := 12.

(** db.QueryContext on a text (driver.go:428).  Other relations (the pragma functions of
    driver.go:275-276) may be added to the catalog. *)
Definition run_query (extra : catalog) (txt : string) (ps : list val) (d : tdb) : option rel :=
  match parse txt with
  | Some (SQuery None q) => ev_select depth (kine_catalog d ++ extra)%list ps [] q
  | Some (SQuery (Some (c, q1)) q) =>
      match ev_select depth (kine_catalog d ++ extra)%list ps [] q1 with
      | Some r => ev_select depth ((c, r) :: kine_catalog d ++ extra)%list ps [] q
      | None => None
      end
  | _ => None
  end.

(** Value of column [c] in an inserted row (driver.go:221): listed columns from the SELECT,
    the key from AUTOINCREMENT, everything else NULL. *)
Definition ins_col (cs : list string) (vs : list val) (next : Z) (c : string) : val :=
  match find (fun '(c', _) => String.eqb c c') (combine cs vs) with
  | Some (_, v) => v
  | None => if String.eqb c "id" then VInt next else VNull
  end.

(** Insert the rows of a query one by one (driver.go:220-272); a NULL in a NOT NULL column
    fails the statement.  The unique index of schema version 0.1 (schema.go:88) is not
    modelled; version 1.0 drops it (schema.go:104). *)
Fixpoint ins_rows (cs : list string) (new : list (list val)) (d : tdb) (cnt last : Z) : option (tdb * (Z * Z)) :=
  match new with
  | [] => Some (d, (cnt, last))
  | vs :: new' =>
      let next := t_seq d + 1 in
      let r := map (ins_col cs vs next) kine_cols in
      if existsb (fun c => match ins_col cs vs next c with VNull => true | _ => false end) kine_not_null
      then None
      else ins_rows cs new' (TDb (t_rows d ++ [r])%list next) (cnt + 1) next
  end.

(** db.ExecContext on a text (driver.go:466, 647-669): new table, rows affected, last insert id
    (0 if nothing was inserted; the driver does not look at it then, driver.go:528-533). *)
Definition run_exec (txt : string) (ps : list val) (d : tdb) : option (tdb * (Z * Z)) :=
  match parse txt with
  | Some (SInsert "kine" cs q) =>
      match ev_select depth (kine_catalog d) ps [] q with
      | Some r => ins_rows cs (body r) d 0 0
      | None => None
      end
  | Some (SDelete "kine" wh) =>
      match (match wh with
             | None => Some (map (fun _ => vbool true) (t_rows d))
             | Some w => omap (fun r => ev depth (kine_catalog d) ps None [([("kine", kine_cols)], [r])] w) (t_rows d)
             end) with
      | Some vs =>
          let kept := map fst (filter (fun p => negb (holds (snd p))) (combine (t_rows d) vs)) in
          Some (TDb kept (t_seq d),
                (Z.of_nat (List.length (t_rows d)) - Z.of_nat (List.length kept), 0))
      | None => None
      end
  | Some (SUpdate "kine" c e wh) =>
      match omap (fun r =>
          let sc := [([("kine", kine_cols)], [r])] in
          match (match wh with None => Some (vbool true)
                 | Some w => ev depth (kine_catalog d) ps None sc w end),
                ev depth (kine_catalog d) ps None sc e with
          | Some w, Some v =>
              Some (if holds w
                    then (map (fun '(c', x) => if String.eqb c c' then v else x) (combine kine_cols r), 1)
                    else (r, 0))
          | _, _ => None
          end) (t_rows d) with
      | Some rs => Some (TDb (map fst rs) (t_seq d), (fold_right Z.add 0 (map snd rs), 0))
      | None => None
      end
  | _ => None
  end.
