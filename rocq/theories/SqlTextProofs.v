(** Each statement text of the driver, parsed and evaluated by SqlLang.v, computes what the
    corresponding function of Sql.v says. *)
From Coq Require Import List ZArith Bool String Lia Sorting.Permutation Sorting.Sorted.
From Verif Require Import Bytes Sql SqlLemmas ReadLemmas SqlLang SqlText SqlRep.
Import ListNotations.
Open Scope Z_scope.
Open Scope list_scope.

(** ---- generic facts about the evaluator's list operations ---- *)

Lemma omap_rep {A B C} (w : B -> A) (f : A -> option C) (g : B -> C) (T : list B) :
  (forall t, In t T -> f (w t) = Some (g t)) -> omap f (map w T) = Some (map g T).
Proof.
  induction T as [|x T IH]; simpl; intros H; auto.
  rewrite H, IH by auto. reflexivity.
Qed.

Lemma omap_plain {A C} (f : A -> option C) (g : A -> C) (T : list A) :
  (forall t, In t T -> f t = Some (g t)) -> omap f T = Some (map g T).
Proof. intros H. rewrite <- (map_id T) at 1. now apply omap_rep. Qed.

Lemma filter_map_comm {A B} (f : B -> A) (p : A -> bool) (l : list B) :
  filter p (map f l) = map f (filter (fun x => p (f x)) l).
Proof. induction l; simpl; auto. destruct (p (f a)); simpl; congruence. Qed.

Lemma ofilter_rep {A B} (w : B -> A) (f : A -> option val) (g : B -> bool) (T : list B) :
  (forall t, In t T -> exists v, f (w t) = Some v /\ holds v = g t) ->
  ofilter f (map w T) = Some (map w (filter g T)).
Proof.
  intros H. unfold ofilter.
  assert (E : exists vs : list (A * val), omap (fun x => match f x with Some v => Some (x, v) | None => None end) (map w T) = Some vs
     /\ map fst (filter (fun p => holds (snd p)) vs) = map w (filter g T)).
  { induction T as [|x T IH].
    - exists []. split; reflexivity.
    - destruct (H x (or_introl eq_refl)) as (v & Ev & Hv).
      destruct IH as (vs & E1 & E2). { intros. apply H. now right. }
      exists ((w x, v) :: vs). cbn [omap map]. rewrite Ev, E1. split; [reflexivity|].
      simpl. rewrite Hv. destruct (g x); simpl; congruence. }
  destruct E as (vs & -> & <-). reflexivity.
Qed.

(** ---- values ---- *)

Lemma vbool_holds b : holds (vbool b) = b.
Proof. destruct b; reflexivity. Qed.
Lemma bin_and a b : bin OAnd (vbool a) (vbool b) = vbool (a && b).
Proof. destruct a, b; reflexivity. Qed.
Lemma bin_or a b : bin OOr (vbool a) (vbool b) = vbool (a || b).
Proof. destruct a, b; reflexivity. Qed.
Lemma bin_le_int a b : bin OLe (VInt a) (VInt b) = vbool (a <=? b).
Proof. cbn. unfold Z.leb. destruct (a ?= b); reflexivity. Qed.
Lemma bin_lt_int a b : bin OLt (VInt a) (VInt b) = vbool (a <? b).
Proof. cbn. unfold Z.ltb. destruct (a ?= b); reflexivity. Qed.
Lemma bin_gt_int a b : bin OGt (VInt a) (VInt b) = vbool (b <? a).
Proof. cbn. unfold Z.ltb. rewrite (Z.compare_antisym a b). destruct (a ?= b); reflexivity. Qed.
Lemma bin_eq_int a b : bin OEq (VInt a) (VInt b) = vbool (a =? b).
Proof. cbn. rewrite Z.eqb_compare. destruct (a ?= b); reflexivity. Qed.
Lemma bin_ne_int a b : bin ONe (VInt a) (VInt b) = vbool (negb (a =? b)).
Proof. cbn. rewrite Z.eqb_compare. destruct (a ?= b); reflexivity. Qed.
Lemma bin_ge_text a b : bin OGe (VText a) (VText b) = vbool (bleb b a).
Proof. cbn. unfold bleb. rewrite (bcmp_opp a b). destruct (bcmp a b); reflexivity. Qed.
Lemma bin_lt_text a b : bin OLt (VText a) (VText b) = vbool (bltb a b).
Proof. cbn. unfold bltb. destruct (bcmp a b); reflexivity. Qed.
Lemma bin_eq_text a b : bin OEq (VText a) (VText b) = vbool (beqb a b).
Proof. cbn. unfold beqb. destruct (bcmp a b); reflexivity. Qed.
Lemma bin_ne_text a b : bin ONe (VText a) (VText b) = vbool (negb (beqb a b)).
Proof. cbn. unfold beqb. destruct (bcmp a b); reflexivity. Qed.
Lemma bin_eq0 b : bin OEq (vbool b) (VInt 0) = vbool (negb b).
Proof. destruct b; reflexivity. Qed.
Lemma bin_eq1 b : bin OEq (vbool b) (VInt 1) = vbool b.
Proof. destruct b; reflexivity. Qed.
Global Hint Rewrite vbool_holds bin_and bin_or bin_eq0 bin_eq1 bin_le_int bin_lt_int bin_gt_int
  bin_eq_int bin_ne_int bin_ge_text bin_lt_text bin_eq_text bin_ne_text : sqlv.

(** ---- the texts, parsed ---- *)
Definition ast_rev := Eval vm_compute in parse revSQL.
Definition ast_list := Eval vm_compute in parse listSQL.
Definition ast_list1 := Eval vm_compute in parse listSqlV1_0.
Definition ast_list_lim := Eval vm_compute in parse (with_limit listSQL).
Definition ast_list1_lim := Eval vm_compute in parse (with_limit listSqlV1_0).
Definition ast_interval := Eval vm_compute in parse revisionIntervalSQL.
Definition ast_count := Eval vm_compute in parse countRevisionSQL.
Definition ast_count1 := Eval vm_compute in parse countRevisionSQLV1_0.
Definition ast_after_prefix := Eval vm_compute in parse afterSQLPrefix.
Definition ast_after := Eval vm_compute in parse afterSQL.
Definition ast_after_lim := Eval vm_compute in parse (with_limit afterSQL).
Definition ast_ttl := Eval vm_compute in parse ttlSQL.
Definition ast_delete_rev := Eval vm_compute in parse deleteRevSQL.
Definition ast_update_compact := Eval vm_compute in parse updateCompactSQL.
Definition ast_delete := Eval vm_compute in parse deleteSQL.
Definition ast_create := Eval vm_compute in parse createSQL.
Definition ast_update := Eval vm_compute in parse updateSQL.
Definition ast_size := Eval vm_compute in parse getSizeSQL.
Definition ast_superseded := Eval vm_compute in parse compactSupersededSQL.
Definition ast_tombstones := Eval vm_compute in parse compactTombstonesSQL.

Lemma parse_rev : parse revSQL = ast_rev. Proof. vm_compute. reflexivity. Qed.
Lemma parse_list : parse listSQL = ast_list. Proof. vm_compute. reflexivity. Qed.
Lemma parse_list1 : parse listSqlV1_0 = ast_list1. Proof. vm_compute. reflexivity. Qed.
Lemma parse_list_lim : parse (with_limit listSQL) = ast_list_lim. Proof. vm_compute. reflexivity. Qed.
Lemma parse_list1_lim : parse (with_limit listSqlV1_0) = ast_list1_lim. Proof. vm_compute. reflexivity. Qed.
Lemma parse_interval : parse revisionIntervalSQL = ast_interval. Proof. vm_compute. reflexivity. Qed.
Lemma parse_count : parse countRevisionSQL = ast_count. Proof. vm_compute. reflexivity. Qed.
Lemma parse_count1 : parse countRevisionSQLV1_0 = ast_count1. Proof. vm_compute. reflexivity. Qed.
Lemma parse_after_prefix : parse afterSQLPrefix = ast_after_prefix. Proof. vm_compute. reflexivity. Qed.
Lemma parse_after : parse afterSQL = ast_after. Proof. vm_compute. reflexivity. Qed.
Lemma parse_after_lim : parse (with_limit afterSQL) = ast_after_lim. Proof. vm_compute. reflexivity. Qed.
Lemma parse_ttl : parse ttlSQL = ast_ttl. Proof. vm_compute. reflexivity. Qed.
Lemma parse_delete_rev : parse deleteRevSQL = ast_delete_rev. Proof. vm_compute. reflexivity. Qed.
Lemma parse_update_compact : parse updateCompactSQL = ast_update_compact. Proof. vm_compute. reflexivity. Qed.
Lemma parse_delete : parse deleteSQL = ast_delete. Proof. vm_compute. reflexivity. Qed.
Lemma parse_create : parse createSQL = ast_create. Proof. vm_compute. reflexivity. Qed.
Lemma parse_update : parse updateSQL = ast_update. Proof. vm_compute. reflexivity. Qed.
Lemma parse_size : parse getSizeSQL = ast_size. Proof. vm_compute. reflexivity. Qed.
Lemma parse_superseded : parse compactSupersededSQL = ast_superseded. Proof. vm_compute. reflexivity. Qed.
Lemma parse_tombstones : parse compactTombstonesSQL = ast_tombstones. Proof. vm_compute. reflexivity. Qed.


(** ---- one-step equations of the evaluator ---- *)
Section Eqs.
Context (n : nat) (cat : catalog) (ps : list val) (g : option (list combo)) (sc : scopes).
Lemma e_col q c : ev (S n) cat ps g sc (ECol q c) = resolve q c sc. Proof. reflexivity. Qed.
Lemma e_int z : ev (S n) cat ps g sc (EInt z) = Some (VInt z). Proof. reflexivity. Qed.
Lemma e_str s : ev (S n) cat ps g sc (EStr s) = Some (VText (str_bytes s)). Proof. reflexivity. Qed.
Lemma e_null : ev (S n) cat ps g sc ENull = Some VNull. Proof. reflexivity. Qed.
Lemma e_par k : ev (S n) cat ps g sc (EPar k) = nth_error ps k. Proof. reflexivity. Qed.
Lemma e_bin o a b : ev (S n) cat ps g sc (EBin o a b) =
  obind (ev n cat ps g sc a) (fun x => obind (ev n cat ps g sc b) (fun y => Some (bin o x y))).
Proof. reflexivity. Qed.
Lemma e_isnull a : ev (S n) cat ps g sc (EIsNull a) =
  obind (ev n cat ps g sc a) (fun x => Some (vbool (match x with VNull => true | _ => false end))).
Proof. reflexivity. Qed.
Lemma e_case c a b : ev (S n) cat ps g sc (ECase c a b) =
  obind (ev n cat ps g sc c) (fun x => obind (ev n cat ps g sc a) (fun y =>
    obind (ev n cat ps g sc b) (fun z => Some (if holds x then y else z)))).
Proof. reflexivity. Qed.
Lemma e_cast a : ev (S n) cat ps g sc (ECastText a) = obind (ev n cat ps g sc a) (fun x => Some (cast_text x)).
Proof. reflexivity. Qed.
Lemma e_coalesce a b : ev (S n) cat ps g sc (ECoalesce a b) =
  obind (ev n cat ps g sc a) (fun x => obind (ev n cat ps g sc b) (fun y =>
    Some (match x with VNull => y | _ => x end))).
Proof. reflexivity. Qed.
Lemma e_max2 a b : ev (S n) cat ps g sc (EMax2 a b) =
  obind (ev n cat ps g sc a) (fun x => obind (ev n cat ps g sc b) (fun y =>
    Some (match x, y with VNull, _ | _, VNull => VNull | _, _ => match vcmp x y with Lt => y | _ => x end end))).
Proof. reflexivity. Qed.
Lemma e_scalar q : ev (S n) cat ps g sc (EScalar q) =
  obind (ev_select n cat ps sc q) (fun r =>
    match r with Rel [_] ([v] :: _) => Some v | Rel [_] [] => Some VNull | _ => None end).
Proof. reflexivity. Qed.
Lemma e_in a q : ev (S n) cat ps g sc (EIn a q) =
  obind (ev n cat ps g sc a) (fun x => obind (ev_select n cat ps sc q) (fun r =>
    match r with
    | Rel [_] rs => Some (of_truth (fold_right (fun y t => or3 (truth (bin OEq x (hd VNull y))) t) (Some false) rs))
    | _ => None
    end)).
Proof. reflexivity. Qed.
Lemma e_max sh r rs a : ev (S n) cat ps (Some rs) ((sh, r) :: sc) (EMax a) =
  obind (omap (fun r => ev n cat ps None ((sh, r) :: sc) a) rs) (fun vs => Some (agg_max vs)).
Proof. reflexivity. Qed.
Lemma e_count rs : ev (S n) cat ps (Some rs) sc ECount = Some (VInt (Z.of_nat (List.length rs))).
Proof. reflexivity. Qed.
Lemma s_table t al : ev_source (S n) cat ps sc (FTable t al) =
  obind (find_rel t cat) (fun r =>
    Some ([(match al with Some a => a | None => t end, cols r)], map (fun x => [x]) (body r))).
Proof. reflexivity. Qed.
Lemma s_sub q al : ev_source (S n) cat ps sc (FSub q al) =
  obind (ev_select n cat ps sc q) (fun r =>
    Some ([(match al with Some a => a | None => EmptyString end, cols r)], map (fun x => [x]) (body r))).
Proof. reflexivity. Qed.
Lemma s_join a b on : ev_source (S n) cat ps sc (FJoin a b on) =
  obind (ev_source n cat ps sc a) (fun x => obind (ev_source n cat ps sc b) (fun y =>
    let sh := (fst x ++ fst y)%list in
    let pairs := flat_map (fun u => map (fun v => (u ++ v)%list) (snd y)) (snd x) in
    obind (do_where (fun g r e => ev n cat ps g ((sh, r) :: sc) e) on pairs) (fun rs => Some (sh, rs)))).
Proof. reflexivity. Qed.
Lemma q_select its src wh gby hav ord lim :
  ev_select (S n) cat ps sc (Select its src wh gby hav ord lim) =
  obind (match src with None => Some ([], [[]]) | Some s => ev_source n cat ps sc s end) (fun from =>
    let sh := fst from in
    let E : evaluator := fun g r e => ev n cat ps g ((sh, r) :: sc) e in
    obind (do_where E wh (snd from)) (fun rs =>
    obind (do_group E its gby sh rs) (fun us =>
    obind (do_having E hav us) (fun us1 =>
    obind (do_order E its ord us1) (fun us2 =>
    obind (do_items E its us2) (fun out =>
    obind (do_limit (match lim with None => None | Some l => Some (ev n cat ps None [] l) end) out)
      (fun o => Some (Rel (map item_name its) o)))))))).
Proof. reflexivity. Qed.
End Eqs.
Arguments ev : simpl never.
Arguments ev_select : simpl never.
Arguments ev_source : simpl never.
Global Hint Rewrite e_col e_int e_str e_null e_par e_bin e_isnull e_case e_cast e_coalesce e_max2 : sqle.

(** A row of the table as a combination of a FROM clause with a single table. *)
Definition wrap (x : nrow) : combo := [enc_row x].
(** The catalog holding the encoded rows. *)
Definition K (T : list nrow) : catalog := [("kine"%string, Rel kine_cols (map enc_row T))].

(** The row of the table joined with its own id. *)
Definition jshape : shape := [("kv"%string, kine_cols); ("maxkv"%string, ["id"%string])].
Definition jwrap (t : nrow) : combo := [enc_row t; [VInt (id (fst t))]].

(** Full evaluation of an expression without subqueries on one encoded row. *)
Ltac ev_red :=
  cbv beta iota zeta delta [obind resolve col_vals combine flat_map map filter String.eqb Ascii.eqb Bool.eqb app snd fst
       nth_error cast_text enc_row kine_cols wrap jwrap jshape item_name order_target find omap str_bytes
       Sql.id Sql.name Sql.created Sql.deleted Sql.create_revision Sql.prev_revision Sql.lease Sql.value Sql.old_value].
Ltac ev_row := autorewrite with sqle; ev_red; autorewrite with sqlv.

Lemma src_kine n T extra ps sc al :
  ev_source (S n) (K T ++ extra) ps sc (FTable "kine" al) =
  Some ([(match al with Some a => a | None => "kine"%string end, kine_cols)], map wrap T).
Proof. rewrite s_table. cbn. now rewrite map_map. Qed.

Lemma stored_cat t d : stored t d -> exists T, kine_catalog t = K T /\ rows d = map fst T /\ t_seq t = Sql.seq d
  /\ t_rows t = map enc_row T.
Proof. intros (T & E1 & E2 & E3). exists T. unfold kine_catalog, K. rewrite E1. auto. Qed.

(** ---- maxima ---- *)
Lemma agg_max_ints l : agg_max (map VInt l) = match max_opt l with None => VNull | Some m => VInt m end.
Proof.
  unfold agg_max. destruct l as [|x l]; [reflexivity|].
  cbn [map fold_left]. change (vcmp VNull (VInt x)) with Lt. cbv iota. cbn [max_opt].
  revert x. induction l as [|y l IH]; intros x; [reflexivity|].
  cbn [map fold_left]. cbn [vcmp].
  replace (match x ?= y with Lt => VInt y | _ => VInt x end) with (VInt (Z.max x y)).
  - apply IH.
  - unfold Z.max. destruct (x ?= y) eqn:E; auto.
Qed.


(** WHERE on rows of a single table. *)
Lemma where_rep {B} (w : B -> combo) E wh (p : B -> bool) (T : list B) :
  match wh with
  | None => forall t, p t = true
  | Some e => forall t, In t T -> exists v, E None (w t) e = Some v /\ holds v = p t
  end ->
  do_where E wh (map w T) = Some (map w (filter p T)).
Proof.
  destruct wh; cbn [do_where]; intros H.
  - now apply ofilter_rep.
  - rewrite filter_all; auto.
Qed.

(** SELECT MAX(col) FROM kine WHERE ... *)
Lemma q_max n T extra ps sc al q c nm wh (p : nrow -> bool) (f : nrow -> Z) :
  let sh : shape := [(match al with Some a => a | None => "kine"%string end, kine_cols)] in
  match wh with
  | None => forall t, p t = true
  | Some e => forall t, In t T -> exists v, ev (S (S n)) (K T ++ extra) ps None ((sh, wrap t) :: sc) e = Some v /\ holds v = p t
  end ->
  (forall t, resolve q c ((sh, wrap t) :: sc) = Some (VInt (f t))) ->
  ev_select (S (S (S n))) (K T ++ extra) ps sc
    (Select [(EMax (ECol q c), nm)] (Some (FTable "kine" al)) wh [] None [] None) =
  Some (Rel [item_name (EMax (ECol q c), nm)]
     [[match max_opt (map f (filter p T)) with None => VNull | Some m => VInt m end]]).
Proof.
  intros sh Hw Hc. rewrite q_select, src_kine. fold sh. cbn [obind fst snd].
  rewrite (where_rep wrap _ wh p T) by (destruct wh; auto).
  cbn [obind]. unfold do_group.
  change (is_agg [(EMax (ECol q c), nm)] []) with true. cbv iota. cbn [do_partition obind omap].
  unfold do_rep at 1. cbn [first_max max_arg].
  rewrite (omap_rep wrap _ (fun t => (VInt (f t), wrap t))).
  2: { intros t _. rewrite e_col, Hc. reflexivity. }
  cbn [obind]. unfold do_items. cbn [do_having obind do_order omap fst snd].
  rewrite e_max.
  rewrite (omap_rep wrap _ (fun t => VInt (f t))).
  2: { intros t _. rewrite e_col. apply Hc. }
  cbn [obind omap do_limit map].
  rewrite <- (map_map f VInt), agg_max_ints. reflexivity.
Qed.

Lemma stored_run_query t d : stored t d -> exists T, rows d = map fst T /\
  forall extra txt ps, run_query extra txt ps t =
    match parse txt with
    | Some (SQuery None q) => ev_select 12 (K T ++ extra) ps [] q
    | Some (SQuery (Some (c, q1)) q) =>
        match ev_select 12 (K T ++ extra) ps [] q1 with
        | Some r => ev_select 12 ((c, r) :: K T ++ extra) ps [] q
        | None => None
        end
    | _ => None
    end.
Proof.
  intros S. destruct (stored_cat _ _ S) as (T & EK & E2 & _). exists T. split; [exact E2|].
  intros. unfold run_query, depth. rewrite EK. reflexivity.
Qed.

Lemma map_fst_filter (p : row -> bool) (T : list nrow) :
  filter p (map fst T) = map fst (filter (fun t => p (fst t)) T).
Proof. apply filter_map_comm. Qed.

Lemma scan_null_max o : scan_null_int (match o with None => VNull | Some m => VInt m end) = Some o.
Proof. destruct o; reflexivity. Qed.

Lemma rev_sql_text t d : stored t d ->
  exists out, run_query [] revSQL [] t = Some out /\
    map (map scan_null_int) (body out) = [[Some (rev_sql d)]].
Proof.
  intros S. destruct (stored_run_query _ _ S) as (T & E & ->).
  rewrite parse_rev. unfold ast_rev.
  rewrite (q_max _ _ _ _ _ _ _ _ _ _ (fun _ => true) (fun t => id (fst t))); auto.
  2: { intros [[] []]. reflexivity. }
  eexists. split; [reflexivity|]. cbn. unfold rev_sql.
  rewrite E, map_map, filter_all by auto. destruct (max_opt _); reflexivity.
Qed.

Lemma interval_sql_text t d : stored t d ->
  exists out, run_query [] revisionIntervalSQL [] t = Some out /\
    map (map scan_null_int) (body out) =
      [[Some (fst (revision_interval_sql d)); Some (snd (revision_interval_sql d))]].
Proof.
  intros S. destruct (stored_run_query _ _ S) as (T & E & ->).
  rewrite parse_interval. unfold ast_interval. rewrite q_select.
  cbn [obind fst snd do_where do_group is_agg existsb has_agg orb do_having do_order do_items].
  unfold do_items. cbn [map omap fst snd]. rewrite !e_scalar.
  rewrite (q_max _ _ _ _ _ _ _ _ _ (Some _) (fun t => beqb (name (fst t)) compact_rev_key) (fun t => prev_revision (fst t))).
  2: { intros [[] []] _. ev_row. eexists. split; [reflexivity|]. autorewrite with sqlv. reflexivity. }
  2: { intros [[] []]. reflexivity. }
  rewrite (q_max _ _ _ _ _ _ _ _ _ None (fun _ => true) (fun t => id (fst t))); auto.
  2: { intros [[] []]. reflexivity. }
  cbn [obind item_name do_limit]. eexists. split; [reflexivity|]. cbn [body map].
  unfold revision_interval_sql. cbn [fst snd]. rewrite E, map_fst_filter, !map_map, (filter_all (fun _ => true)) by auto.
  rewrite !scan_null_max. reflexivity.
Qed.

(** ---- ORDER BY ---- *)
Lemma sort_insert_rep {B C} (kf : B -> list val) (h : B -> C) (le : B -> B -> bool) (x : B) (l : list B) :
  (forall a b, match vscmp (kf a) (kf b) with Gt => false | _ => true end = le a b) ->
  sort_insert (kf x, h x) (map (fun t => (kf t, h t)) l) = map (fun t => (kf t, h t)) (insert_sorted le x l).
Proof.
  intros H. induction l as [|y l IH]; [reflexivity|]. cbn [map sort_insert insert_sorted fst].
  rewrite <- H. destruct (vscmp (kf x) (kf y)); cbn [map]; try reflexivity. now rewrite IH.
Qed.
Lemma sort_rep {B C} (kf : B -> list val) (h : B -> C) (le : B -> B -> bool) (l : list B) :
  (forall a b, match vscmp (kf a) (kf b) with Gt => false | _ => true end = le a b) ->
  map snd (sort_keys (map (fun t => (kf t, h t)) l)) = map h (order_by le l).
Proof.
  intros H. replace (sort_keys (map (fun t => (kf t, h t)) l)) with (map (fun t => (kf t, h t)) (order_by le l)).
  - now rewrite map_map.
  - unfold sort_keys, order_by. induction l as [|x l IH]; [reflexivity|].
    cbn [map fold_right]. rewrite <- IH. symmetry. now apply sort_insert_rep.
Qed.
Lemma order_by_map {A B} (f : A -> B) (le : B -> B -> bool) (l : list A) :
  order_by le (map f l) = map f (order_by (fun a b => le (f a) (f b)) l).
Proof.
  unfold order_by. induction l as [|x l IH]; [reflexivity|]. cbn [map fold_right]. rewrite IH.
  generalize (fold_right (insert_sorted (fun a b => le (f a) (f b))) [] l) as m.
  induction m as [|y m IHm]; [reflexivity|]. cbn [map insert_sorted].
  destruct (le (f x) (f y)); cbn [map]; congruence.
Qed.

Lemma order_rep {B} E its ord (h : B -> option (list combo) * combo) (kf : B -> list val) (le : B -> B -> bool) (l : list B) :
  ord <> [] ->
  (forall t, In t l -> omap (fun o => E (fst (h t)) (snd (h t)) (order_target its o)) ord = Some (kf t)) ->
  (forall a b, match vscmp (kf a) (kf b) with Gt => false | _ => true end = le a b) ->
  do_order E its ord (map h l) = Some (map h (order_by le l)).
Proof.
  intros N H1 H2. unfold do_order. destruct ord as [|o ord]; [congruence|].
  rewrite (omap_rep h _ (fun t => (kf t, h t))).
  - cbn [obind]. now rewrite (sort_rep kf h le).
  - intros t Ht. rewrite H1 by auto. reflexivity.
Qed.

Lemma items_rep {B} E its (h : B -> option (list combo) * combo) (out : B -> list val) (l : list B) :
  (forall t, In t l -> omap (fun i => E (fst (h t)) (snd (h t)) (fst i)) its = Some (out t)) ->
  do_items E its (map h l) = Some (map out l).
Proof. intros H. unfold do_items. now apply omap_rep. Qed.

Lemma by_id_keys (a b : nrow) :
  match vscmp [VInt (id (fst a))] [VInt (id (fst b))] with Gt => false | _ => true end = by_id (fst a) (fst b).
Proof. cbn. unfold by_id, Z.leb. destruct (id (fst a) ?= id (fst b)); reflexivity. Qed.

Lemma scan_enc_row t : scan_row (enc_row t) = Some (fst t).
Proof. destruct t as [[] [nv no]]. cbn. destruct created, deleted, value, old_value, nv, no; reflexivity. Qed.

(** SELECT <all columns> FROM kine WHERE ... ORDER BY id [LIMIT ?]. *)
Definition all_items : list (expr * option string) :=
  map (fun c => (ECol None c, None)) kine_cols.
Lemma q_all n T extra ps wh (p : nrow -> bool) lim :
  let sh : shape := [("kine"%string, kine_cols)] in
  match wh with
  | None => forall t, p t = true
  | Some e => forall t, In t T -> exists v, ev (S (S n)) (K T ++ extra) ps None [(sh, wrap t)] e = Some v /\ holds v = p t
  end ->
  ev_select (S (S (S n))) (K T ++ extra) ps []
    (Select all_items (Some (FTable "kine" None)) wh [] None [ECol None "id"] lim) =
  obind (do_limit (match lim with None => None | Some l => Some (ev (S (S n)) (K T ++ extra) ps None [] l) end)
           (map enc_row (order_by (fun a b => by_id (fst a) (fst b)) (filter p T))))
    (fun o => Some (Rel kine_cols o)).
Proof.
  intros sh Hw. rewrite q_select, src_kine. fold sh. cbn [obind fst snd].
  rewrite (where_rep wrap _ wh p T) by (destruct wh; auto).
  cbn [obind]. unfold do_group. change (is_agg all_items []) with false. cbv iota. cbn [obind do_having].
  rewrite map_map.
  rewrite (order_rep _ _ _ (fun t : nrow => (None, wrap t)) (fun t => [VInt (id (fst t))]) (fun a b => by_id (fst a) (fst b))).
  2: discriminate. 2: { intros [[] []] _. reflexivity. } 2: apply by_id_keys.
  cbn [obind]. rewrite (items_rep _ _ (fun t : nrow => (None, wrap t)) enc_row).
  2: { intros [[] []] _. reflexivity. }
  reflexivity.
Qed.

Lemma scan_sorted (p : row -> bool) (T : list nrow) :
  map scan_row (map enc_row (order_by (fun a b => by_id (fst a) (fst b)) (filter (fun t => p (fst t)) T))) =
  map Some (order_by by_id (filter p (map fst T))).
Proof.
  rewrite map_fst_filter, order_by_map, !map_map. apply map_ext. intros. apply scan_enc_row.
Qed.

Lemma after_prefix_sql_text t d lo hi start stop : stored t d ->
  exists out, run_query [] afterSQLPrefix [VBlob lo; VBlob hi; VInt start; VInt stop] t = Some out /\
    map scan_row (body out) = map Some (after_prefix_sql lo hi start stop d).
Proof.
  intros S. destruct (stored_run_query _ _ S) as (T & E & ->).
  rewrite parse_after_prefix. unfold ast_after_prefix. fold all_items.
  rewrite (q_all _ _ _ _ (Some _) (fun t => in_range_b lo hi (name (fst t)) && (start <? id (fst t)) && (id (fst t) <=? stop))).
  2: { intros [[] []] _. ev_row. eexists. split; [reflexivity|]. autorewrite with sqlv. reflexivity. }
  cbn [do_limit obind]. eexists. split; [reflexivity|]. cbn [body].
  rewrite (scan_sorted (fun r => in_range_b lo hi (name r) && (start <? id r) && (id r <=? stop))).
  unfold after_prefix_sql. rewrite E. reflexivity.
Qed.

Lemma after_sql_text t d start : stored t d ->
  exists out, run_query [] afterSQL [VInt start] t = Some out /\
    map scan_row (body out) = map Some (after_sql start d).
Proof.
  intros S. destruct (stored_run_query _ _ S) as (T & E & ->).
  rewrite parse_after. unfold ast_after. fold all_items.
  rewrite (q_all _ _ _ _ (Some _) (fun t => start <? id (fst t))).
  2: { intros [[] []] _. ev_row. eexists. split; [reflexivity|]. autorewrite with sqlv. reflexivity. }
  cbn [do_limit obind]. eexists. split; [reflexivity|]. cbn [body].
  rewrite (scan_sorted (fun r => start <? id r)).
  unfold after_sql. rewrite E. reflexivity.
Qed.

Lemma limit_ztake {A} (lim : Z) (l : list A) : 0 < lim -> limit_rows (VInt lim) l = Some (ztake lim l).
Proof.
  intros H. cbn. destruct (Z.ltb_spec lim 0); [lia|]. rewrite ztake_firstn by lia. reflexivity.
Qed.

Lemma after_lim_sql_text t d start lim : stored t d -> 0 < lim ->
  exists out, run_query [] (with_limit afterSQL) [VInt start; VInt lim] t = Some out /\
    map scan_row (body out) = map Some (ztake lim (after_sql start d)).
Proof.
  intros S L. destruct (stored_run_query _ _ S) as (T & E & ->).
  rewrite parse_after_lim. unfold ast_after_lim. fold all_items.
  rewrite (q_all _ _ _ _ (Some _) (fun t => start <? id (fst t))).
  2: { intros [[] []] _. ev_row. eexists. split; [reflexivity|]. autorewrite with sqlv. reflexivity. }
  rewrite e_par. cbn [nth_error do_limit]. rewrite limit_ztake by auto. cbn [obind].
  eexists. split; [reflexivity|]. cbn [body].
  rewrite !ztake_map. rewrite (scan_sorted (fun r => start <? id r)).
  unfold after_sql. rewrite E. reflexivity.
Qed.

(** ---- GROUP BY ---- *)
Lemma vcmp_eq a b : vcmp a b = Eq <-> a = b.
Proof.
  destruct a, b; cbn; split; intros H; try congruence; try discriminate.
  - apply Z.compare_eq in H. now subst.
  - injection H as ->. apply Z.compare_refl.
  - apply bcmp_eq in H. now subst.
  - injection H as ->. apply bcmp_refl.
  - apply bcmp_eq in H. now subst.
  - injection H as ->. apply bcmp_refl.
Qed.
Lemma vscmp_eq a b : vscmp a b = Eq <-> a = b.
Proof.
  revert b; induction a as [|x a IH]; intros [|y b]; cbn; split; intros H; try congruence; try discriminate.
  - destruct (vcmp x y) eqn:E; try discriminate. apply vcmp_eq in E. apply IH in H. congruence.
  - injection H as -> ->. replace (vcmp y y) with Eq by (symmetry; now apply vcmp_eq). now apply IH.
Qed.

Section Groups.
Context {A : Type} (kf : A -> list val).

Definition groups (l : list A) : list (list A) := group_keys (map (fun t => (kf t, t)) l).

Definition ginv (gs : list (list val * list A)) (l : list A) : Prop :=
  NoDup (map fst gs) /\
  (forall k xs, In (k, xs) gs -> xs <> [] /\ forall x, In x xs -> kf x = k) /\
  (forall x, In x l <-> exists k xs, In (k, xs) gs /\ In x xs).

Lemma add_group_keys k (x : A) gs :
  incl (map fst (add_group k x gs)) (k :: map fst gs) /\ (NoDup (map fst gs) -> NoDup (map fst (add_group k x gs))).
Proof.
  induction gs as [|[k' xs] gs [IH1 IH2]]; cbn.
  - split; [apply incl_refl|]. intros _. constructor; auto. constructor.
  - destruct (vscmp k k') eqn:E; cbn.
    + split; auto. intros y Hy. now right.
    + split.
      * intros y [->|Hy]; [right; now left|]. destruct (IH1 _ Hy) as [->|Hy']; [now left|right; now right].
      * intros N. inversion N as [|? ? N1 N2]; subst. constructor; auto.
        intros Hc. destruct (IH1 _ Hc) as [->|Hc']; auto.
        assert (vscmp k' k' = Eq) by now apply vscmp_eq. congruence.
    + split.
      * intros y [->|Hy]; [right; now left|]. destruct (IH1 _ Hy) as [->|Hy']; [now left|right; now right].
      * intros N. inversion N as [|? ? N1 N2]; subst. constructor; auto.
        intros Hc. destruct (IH1 _ Hc) as [->|Hc']; auto.
        assert (vscmp k' k' = Eq) by now apply vscmp_eq. congruence.
Qed.

Lemma add_group_in k (x : A) gs k' xs : In (k', xs) (add_group k x gs) ->
  (exists ys, xs = ys ++ [x] /\ k' = k /\ (ys = [] \/ In (k', ys) gs)) \/ In (k', xs) gs.
Proof.
  induction gs as [|[k0 ys] gs IH]; cbn.
  - intros [H|[]]. injection H as <- <-. left. exists []. auto.
  - destruct (vscmp k k0) eqn:E; cbn.
    + apply vscmp_eq in E. subst k0. intros [H|H].
      * injection H as <- <-. left. exists ys. auto.
      * right. now right.
    + intros [H|H]; [right; now left|]. destruct (IH H) as [(zs & ? & ? & [?|?])|?]; eauto 8.
    + intros [H|H]; [right; now left|]. destruct (IH H) as [(zs & ? & ? & [?|?])|?]; eauto 8.
Qed.

Lemma add_group_has k (x : A) gs : exists xs, In (k, xs ++ [x]) (add_group k x gs).
Proof.
  induction gs as [|[k0 ys] gs [zs IH]]; cbn.
  - exists []. now left.
  - destruct (vscmp k k0) eqn:E; cbn.
    + apply vscmp_eq in E. subst k0. exists ys. now left.
    + exists zs. now right.
    + exists zs. now right.
Qed.

Lemma add_group_keeps k (x : A) gs k' xs y : In (k', xs) gs -> In y xs ->
  exists ys, In (k', ys) (add_group k x gs) /\ In y ys.
Proof.
  induction gs as [|[k0 ys] gs IH]; cbn; [tauto|]. intros [H|H] Hy.
  - injection H as -> ->. destruct (vscmp k k') eqn:E; cbn.
    + exists (xs ++ [x]). split; [now left|]. apply in_or_app. now left.
    + exists xs. split; auto.
    + exists xs. split; auto.
  - destruct (vscmp k k0) eqn:E; cbn.
    + exists xs. split; auto.
    + destruct (IH H Hy) as (zs & ? & ?). exists zs. auto.
    + destruct (IH H Hy) as (zs & ? & ?). exists zs. auto.
Qed.

Lemma ginv_add gs l x : ginv gs l -> ginv (add_group (kf x) x gs) (l ++ [x]).
Proof.
  intros (N & G & M). split; [|split].
  - now apply add_group_keys.
  - intros k xs H. apply add_group_in in H. destruct H as [(ys & -> & -> & [->|H])|H].
    + split; [discriminate|]. intros y [->|[]]. reflexivity.
    + split. { destruct ys; discriminate. }
      intros y Hy. apply in_app_or in Hy. destruct Hy as [Hy|[->|[]]]; auto. now apply (G _ _ H).
    + now apply G.
  - intros y. rewrite in_app_iff. split.
    + intros [Hy|[->|[]]].
      * apply M in Hy. destruct Hy as (k & xs & H & Hy). destruct (add_group_keeps (kf x) x _ _ _ _ H Hy) as (zs & ? & ?). eauto.
      * destruct (add_group_has (kf y) y gs) as (zs & H). exists (kf y), (zs ++ [y]). split; auto. apply in_or_app. right. now left.
    + intros (k & xs & H & Hy). apply add_group_in in H. destruct H as [(ys & -> & -> & H)|H].
      * apply in_app_or in Hy. destruct Hy as [Hy|[->|[]]]; [|right; now left].
        destruct H as [->|H]; [destruct Hy|]. left. apply M. eauto.
      * left. apply M. eauto.
Qed.

Lemma groups_inv l : exists gs, groups l = map snd gs /\ ginv gs l.
Proof.
  unfold groups, group_keys. eexists. split; [reflexivity|].
  rewrite <- (rev_involutive l) at 2.
  rewrite <- (rev_involutive l) at 1. generalize (rev l) as m. clear l.
  induction m as [|x m IH]; cbn [rev].
  - cbn. split; [constructor|]. split; [intros ? ? []|]. intros x. cbn. split; [intros []|]. intros (? & ? & [] & _).
  - rewrite map_app, fold_left_app. cbn [map fold_left]. now apply ginv_add.
Qed.

End Groups.

Lemma add_group_map {A B} (h : A -> B) k x gs :
  add_group k (h x) (map (fun p => (fst p, map h (snd p))) gs) = map (fun p => (fst p, map h (snd p))) (add_group k x gs).
Proof.
  induction gs as [|[k' xs] gs IH]; [reflexivity|]. cbn. destruct (vscmp k k'); cbn; try congruence.
  now rewrite map_app.
Qed.
Lemma groups_map {A B} (kf : A -> list val) (h : A -> B) (l : list A) :
  group_keys (map (fun t => (kf t, h t)) l) = map (map h) (groups kf l).
Proof.
  unfold groups, group_keys. rewrite !map_map.
  assert (H : forall l gs, fold_left (fun gs '(k, x) => add_group k x gs) (map (fun t => (kf t, h t)) l) (map (fun p => (fst p, map h (snd p))) gs)
     = map (fun p => (fst p, map h (snd p))) (fold_left (fun gs '(k, x) => add_group k x gs) (map (fun t => (kf t, t)) l) gs)).
  { clear l. induction l as [|x l IH]; intros gs; [reflexivity|]. cbn [map fold_left]. rewrite add_group_map. apply IH. }
  specialize (H l []). cbn [map] in H. rewrite H, map_map. reflexivity.
Qed.

(** The row with the greatest id, the first one if several. *)
Definition best (x : nrow) (l : list nrow) : nrow :=
  fold_left (fun m y => match vcmp (VInt (id (fst m))) (VInt (id (fst y))) with Lt => y | _ => m end) l x.
Lemma best_spec x l : In (best x l) (x :: l) /\ forall y, In y (x :: l) -> id (fst y) <= id (fst (best x l)).
Proof.
  unfold best. revert x. induction l as [|y l IH]; intros x.
  - cbn. split; auto. intros y [->|[]]. lia.
  - cbn [fold_left]. destruct (vcmp (VInt (id (fst x))) (VInt (id (fst y)))) eqn:C; cbn in C;
    [apply Z.compare_eq in C|rewrite Z.compare_lt_iff in C|rewrite Z.compare_gt_iff in C].
    + destruct (IH x) as [H1 H2]. split.
      * destruct H1 as [H1|H1]; [now left|right; now right].
      * intros z [<-|[<-|Hz]]; [apply H2; now left| |apply H2; now right].
        rewrite <- C. apply H2. now left.
    + destruct (IH y) as [H1 H2]. split; [now right|].
      intros z [<-|Hz]; [|now apply H2]. specialize (H2 y (or_introl eq_refl)). lia.
    + destruct (IH x) as [H1 H2]. split.
      * destruct H1 as [H1|H1]; [now left|right; now right].
      * intros z [<-|[<-|Hz]]; [apply H2; now left| |apply H2; now right].
        specialize (H2 x (or_introl eq_refl)). lia.
Qed.
Lemma pick_best {C} sh (h : nrow -> combo) (c : C) x l :
  pick_rep sh (map (fun t => (VInt (id (fst t)), h t)) (x :: l)) = h (best x l).
Proof.
  cbn [map pick_rep]. unfold best. revert x. induction l as [|y l IH]; intros x; [reflexivity|].
  cbn [map fold_left fst]. destruct (vcmp (VInt (id (fst x))) (VInt (id (fst y)))); apply IH.
Qed.
Lemma best_max x l : max_opt (map (fun t => id (fst t)) (x :: l)) = Some (id (fst (best x l))).
Proof.
  apply max_opt_spec. destruct (best_spec x l) as [H1 H2]. split.
  - apply in_map_iff. eauto.
  - intros y Hy. apply in_map_iff in Hy. destruct Hy as (z & <- & Hz). auto.
Qed.

(** The row a (non-empty) group is represented by. *)
Definition gbest (g : list nrow) : nrow :=
  match g with [] => (Row 0 [] false false 0 0 0 [] [], (false, false)) | x :: l => best x l end.
Definition nkey (t : nrow) : list val := [VText (name (fst t))].
Definition gh (sh : shape) (g : list nrow) : option (list combo) * combo :=
  (Some (map wrap g), match g with [] => map (fun '(_, cs) => map (fun _ => VNull) cs) sh | _ => wrap (gbest g) end).

Lemma groups_nonempty kf (l : list nrow) g : In g (groups kf l) -> g <> [].
Proof.
  destruct (groups_inv kf l) as (gs & -> & (_ & G & _)). intros H. apply in_map_iff in H.
  destruct H as ([k xs] & <- & H). now apply (G k).
Qed.

Lemma group_perm (l : list nrow) : NoDup (map (fun t => id (fst t)) l) ->
  Permutation (map fst (map gbest (groups nkey l))) (group_max (map fst l)).
Proof.
  intros N. destruct (groups_inv nkey l) as (gs & E & (Ng & G & M)). rewrite E.
  assert (B : forall k xs, In (k, xs) gs -> In (gbest xs) xs /\ forall y, In y xs -> id (fst y) <= id (fst (gbest xs))).
  { intros k xs H. destruct (G _ _ H) as [Hn _]. destruct xs as [|x xs]; [congruence|]. apply best_spec. }
  assert (U : forall a b, In a l -> In b l -> id (fst a) = id (fst b) -> a = b).
  { clear -N. induction l as [|x l IH]; cbn; [tauto|]. inversion N; subst. intros a b [->|Ha] [->|Hb] E; auto.
    - exfalso. apply H1. rewrite E. now apply (in_map (fun t => id (fst t))).
    - exfalso. apply H1. rewrite <- E. now apply (in_map (fun t => id (fst t))). }
  apply NoDup_Permutation.
  - apply (NoDup_map_inv (fun r => [VText (name r)])). rewrite !map_map.
    replace (map (fun x => [VText (name (fst (gbest (snd x))))]) gs) with (map fst gs); auto.
    apply map_ext_in. intros [k xs] H. destruct (B _ _ H) as [Hb _]. cbn [fst snd].
    destruct (G _ _ H) as [_ Hk]. specialize (Hk _ Hb). unfold nkey in Hk. congruence.
  - apply nodup_unique. unfold unique_ids. destruct (group_max_filter (map fst l)) as (q & ->).
    apply unique_filter. unfold unique_ids. now rewrite map_map.
  - intros x. rewrite group_max_in. rewrite !map_map. rewrite in_map_iff. split.
    + intros ([k xs] & <- & H). cbn [snd]. destruct (B _ _ H) as [Hb Hm]. split.
      * apply in_map. apply M. eauto.
      * intros y Hy En. apply in_map_iff in Hy. destruct Hy as (y' & <- & Hy).
        apply Hm. apply M in Hy. destruct Hy as (k' & ys & H' & Hy).
        destruct (G _ _ H) as [_ Gk]. destruct (G _ _ H') as [_ Gk'].
        assert (k = k'). { rewrite <- (Gk _ Hb), <- (Gk' _ Hy). unfold nkey. congruence. }
        subst k'. assert (E' : (k, xs) = (k, ys)); [|congruence].
        clear -Ng H H'. induction gs as [|[k0 zs] gs IH]; cbn in *; [tauto|]. inversion Ng; subst.
        destruct H as [H|H], H' as [H'|H']; try congruence; auto.
        -- injection H as -> ->. exfalso. apply H2. apply in_map_iff. exists (k, ys). auto.
        -- injection H' as -> ->. exfalso. apply H2. apply in_map_iff. exists (k, xs). auto.
    + intros [Hx Hm]. apply in_map_iff in Hx. destruct Hx as (x' & <- & Hx).
      pose proof Hx as Hx0. apply M in Hx. destruct Hx as (k & xs & H & Hx). exists (k, xs). split; auto. cbn [snd].
      destruct (B _ _ H) as [Hb Hbm]. f_equal. apply U; auto.
      * apply M. eauto.
      * specialize (Hbm _ Hx). destruct (G _ _ H) as [_ Gk].
        specialize (Hm (fst (gbest xs))).
        assert (id (fst (gbest xs)) <= id (fst x')).
        { apply Hm. - apply in_map. apply M. eauto. - pose proof (Gk _ Hb) as K1. pose proof (Gk _ Hx) as K2.
          unfold nkey in *. congruence. }
        lia.
Qed.

(** SELECT MAX(id) FROM kine WHERE ... GROUP BY name [HAVING ...] [ORDER BY ...]:
    up to and including the grouping. *)
Lemma group_phase n T extra ps sc al q q' nm (l : list nrow) :
  let sh : shape := [(al, kine_cols)] in
  (forall t, resolve q "id" ((sh, wrap t) :: sc) = Some (VInt (id (fst t)))) ->
  (forall t, resolve q' "name" ((sh, wrap t) :: sc) = Some (VText (name (fst t)))) ->
  do_group (fun g r e => ev (S n) (K T ++ extra) ps g ((sh, r) :: sc) e) [(EMax (ECol q "id"), nm)] [ECol q' "name"] sh (map wrap l)
  = Some (map (gh sh) (groups nkey l)).
Proof.
  intros sh H1 H2. unfold do_group. change (is_agg _ _) with true. cbv iota. unfold do_partition.
  rewrite (omap_rep wrap _ (fun t => (nkey t, wrap t))).
  2: { intros t _. cbn [omap]. rewrite e_col, H2. reflexivity. }
  cbn [obind]. rewrite groups_map.
  apply omap_rep. intros g Hg. apply groups_nonempty in Hg. unfold do_rep. cbn [first_max max_arg].
  rewrite (omap_rep wrap _ (fun t => (VInt (id (fst t)), wrap t))).
  2: { intros t _. rewrite e_col, H1. reflexivity. }
  cbn [obind]. unfold gh. destruct g as [|x g]; [congruence|]. rewrite (pick_best sh wrap tt). reflexivity.
Qed.

(** The SELECT list of such a query. *)
Lemma group_items n T extra ps sc al q nm (gs : list (list nrow)) :
  let sh : shape := [(al, kine_cols)] in
  (forall t, resolve q "id" ((sh, wrap t) :: sc) = Some (VInt (id (fst t)))) ->
  (forall g, In g gs -> g <> []) ->
  do_items (fun g r e => ev (S (S n)) (K T ++ extra) ps g ((sh, r) :: sc) e) [(EMax (ECol q "id"), nm)] (map (gh sh) gs)
  = Some (map (fun g => [VInt (id (fst (gbest g)))]) gs).
Proof.
  intros sh H1 Hn. apply items_rep. intros g Hg. cbn [omap fst snd]. unfold gh at 1. cbn [fst].
  rewrite e_max.
  rewrite (omap_rep wrap _ (fun t => VInt (id (fst t)))).
  2: { intros t _. rewrite e_col. apply H1. }
  cbn [obind]. rewrite <- (map_map (fun t : nrow => id (fst t)) VInt), agg_max_ints.
  specialize (Hn _ Hg). destruct g as [|x g]; [congruence|]. rewrite best_max. reflexivity.
Qed.

(** SELECT MAX(id) AS id FROM kine WHERE ... GROUP BY name. *)
Lemma q_group_max n T extra ps sc al q q' nm wh (p : nrow -> bool) :
  let al' := match al with Some a => a | None => "kine"%string end in
  let sh : shape := [(al', kine_cols)] in
  match wh with
  | None => forall t, p t = true
  | Some e => forall t, In t T -> exists v, ev (S (S n)) (K T ++ extra) ps None ((sh, wrap t) :: sc) e = Some v /\ holds v = p t
  end ->
  (forall t, resolve q "id" ((sh, wrap t) :: sc) = Some (VInt (id (fst t)))) ->
  (forall t, resolve q' "name" ((sh, wrap t) :: sc) = Some (VText (name (fst t)))) ->
  ev_select (S (S (S n))) (K T ++ extra) ps sc
    (Select [(EMax (ECol q "id"), nm)] (Some (FTable "kine" al)) wh [ECol q' "name"] None [] None) =
  Some (Rel [item_name (EMax (ECol q "id"), nm)]
         (map (fun g => [VInt (id (fst (gbest g)))]) (groups nkey (filter p T)))).
Proof.
  intros al' sh Hw H1 H2. rewrite q_select, src_kine. fold al'. fold sh. cbn [obind fst snd].
  rewrite (where_rep wrap _ wh p T) by (destruct wh; auto).
  cbn [obind]. subst sh. rewrite group_phase by auto. cbn [obind do_having do_order].
  rewrite group_items by (auto; apply groups_nonempty). reflexivity.
Qed.

(** ---- joins on the primary key ---- *)
Lemma pairs_prod {A B} (f : A -> combo) (g : B -> combo) (la : list A) (lb : list B) :
  flat_map (fun u => map (fun v => u ++ v) (map g lb)) (map f la) =
  map (fun p => f (fst p) ++ g (snd p)) (list_prod la lb).
Proof.
  induction la as [|a la IH]; [reflexivity|]. cbn [map flat_map list_prod]. rewrite map_app, <- IH, !map_map. reflexivity.
Qed.

Lemma filter_app {A} (f : A -> bool) l1 l2 : filter f (l1 ++ l2) = filter f l1 ++ filter f l2.
Proof. induction l1; cbn; auto. destruct (f a); cbn; congruence. Qed.

Lemma join_pk (T : list nrow) (M : list Z) : NoDup M ->
  filter (fun p => snd p =? id (fst (fst p))) (list_prod T M) =
  map (fun t => (t, id (fst t))) (filter (fun t => existsb (Z.eqb (id (fst t))) M) T).
Proof.
  intros N. induction T as [|t T IH]; [reflexivity|]. cbn [list_prod]. rewrite filter_app, IH.
  assert (E : filter (fun p : nrow * Z => snd p =? id (fst (fst p))) (map (fun y => (t, y)) M)
     = if existsb (Z.eqb (id (fst t))) M then [(t, id (fst t))] else []).
  { clear IH T. induction M as [|m M IH]; [reflexivity|]. inversion N; subst. cbn [map filter existsb fst snd].
    rewrite (Z.eqb_sym (id (fst t)) m). destruct (Z.eqb_spec m (id (fst t))) as [->|Hm]; cbn [orb].
    - rewrite IH by auto. replace (existsb (Z.eqb (id (fst t))) M) with false; auto.
      symmetry. apply not_true_is_false. intros Hc. apply existsb_exists in Hc. destruct Hc as (z & Hz & Ez).
      apply Z.eqb_eq in Ez. congruence.
    - auto. }
  rewrite E. cbn [filter]. destruct (existsb (Z.eqb (id (fst t))) M); reflexivity.
Qed.

Lemma src_join n T extra ps sel M : NoDup M ->
  ev_select (S n) (K T ++ extra) ps [] sel = Some (Rel ["id"%string] (map (fun m => [VInt m]) M)) ->
  ev_source (S (S (S n))) (K T ++ extra) ps []
    (FJoin (FTable "kine" (Some "kv"%string)) (FSub sel (Some "maxkv"%string))
       (Some (EBin OEq (ECol (Some "maxkv"%string) "id") (ECol (Some "kv"%string) "id")))) =
  Some (jshape, map jwrap (filter (fun t => existsb (Z.eqb (id (fst t))) M) T)).
Proof.
  intros N H. rewrite s_join, src_kine, s_sub, H. cbn [obind fst snd body cols].
  rewrite map_map, pairs_prod.
  rewrite (where_rep (fun p : nrow * Z => wrap (fst p) ++ [[VInt (snd p)]]) _ (Some _) (fun p => snd p =? id (fst (fst p)))).
  2: { intros [[[] []] m] _. ev_row. eexists. split; [reflexivity|]. autorewrite with sqlv. reflexivity. }
  cbn [obind]. rewrite join_pk by auto. rewrite map_map. reflexivity.
Qed.

Lemma gmax_ids lo hi rev (T : list nrow) d : rows d = map fst T -> unique_ids (rows d) ->
  let p := fun t : nrow => in_range_b lo hi (name (fst t)) && (id (fst t) <=? rev) in
  Permutation (map (fun g => id (fst (gbest g))) (groups nkey (filter p T)))
              (map id (group_max (candidates lo hi rev d))).
Proof.
  intros E U p. rewrite <- (map_map (fun g => fst (gbest g)) id), <- (map_map gbest fst).
  apply Permutation_map. unfold candidates. rewrite E, map_fst_filter. apply group_perm.
  rewrite <- (map_map fst id). rewrite <- (map_fst_filter (fun r => in_range_b lo hi (name r) && (id r <=? rev))).
  rewrite <- E. now apply unique_filter.
Qed.

Lemma perm_existsb z M M' : Permutation M M' -> existsb (Z.eqb z) M = existsb (Z.eqb z) M'.
Proof.
  intros P. apply eq_true_iff_eq. rewrite !existsb_exists. split; intros (x & Hx & E); exists x; split; auto.
  - eapply Permutation_in; eauto.
  - eapply Permutation_in; [apply Permutation_sym|]; eauto.
Qed.

Lemma candidates_nodup lo hi rev d : unique_ids (rows d) -> NoDup (map id (group_max (candidates lo hi rev d))).
Proof.
  intros U. destruct (group_max_filter (candidates lo hi rev d)) as (q & ->).
  apply unique_filter. unfold candidates. now apply unique_filter.
Qed.

(** The subquery shared by listSQL and countRevisionSQL. *)
Lemma sub_max n T extra lo hi rev rest :
  ev_select (S (S (S (S (S (S n)))))) (K T ++ extra) (VBlob lo :: VBlob hi :: VInt rev :: rest) []
    (Select [(EMax (ECol (Some "mkv"%string) "id"), Some "id"%string)] (Some (FTable "kine" (Some "mkv"%string)))
       (Some (EBin OAnd
           (EBin OAnd (EBin OGe (ECol (Some "mkv"%string) "name") (ECastText (EPar 0)))
                      (EBin OLt (ECol (Some "mkv"%string) "name") (ECastText (EPar 1))))
           (EBin OLe (ECol (Some "mkv"%string) "id") (EPar 2))))
       [ECol (Some "mkv"%string) "name"] None [] None) =
  Some (Rel ["id"%string] (map (fun m => [VInt m])
    (map (fun g => id (fst (gbest g)))
       (groups nkey (filter (fun t : nrow => in_range_b lo hi (name (fst t)) && (id (fst t) <=? rev)) T))))).
Proof.
  rewrite (q_group_max _ _ _ _ _ _ _ _ _ (Some _) (fun t : nrow => in_range_b lo hi (name (fst t)) && (id (fst t) <=? rev))).
  - rewrite map_map. reflexivity.
  - intros [[] []] _. ev_row. eexists. split; [reflexivity|]. autorewrite with sqlv. reflexivity.
  - intros [[] []]. reflexivity.
  - intros [[] []]. reflexivity.
Qed.

Lemma by_name_id_keys (a b : nrow) :
  match vscmp [VText (name (fst a)); VInt (id (fst a))] [VText (name (fst b)); VInt (id (fst b))] with Gt => false | _ => true end
  = by_name_id (fst a) (fst b).
Proof.
  cbn. unfold by_name_id, Z.leb. destruct (bcmp (name (fst a)) (name (fst b))); auto.
  destruct (id (fst a) ?= id (fst b)); reflexivity.
Qed.

Definition lout (t : nrow) : list val :=
  [VInt (id (fst t)); VText (name (fst t)); VInt (create_rev_of (fst t)); VInt (lease (fst t));
   enc_blob (fst (snd t)) (value (fst t))].
Lemma scan_lout t : scan_lrow (lout t) = Some (project (fst t)).
Proof. destruct t as [[] [nv no]]. cbn. destruct value, nv; reflexivity. Qed.

(** The body of listSQL, with or without LIMIT. *)
Definition list_sel : option expr -> select := Eval vm_compute in
  match ast_list with
  | Some (SQuery None (Select its src wh gby hav ord _)) => fun lim => Select its src wh gby hav ord lim
  | _ => fun lim => Select [] None None [] None [] lim
  end.
Lemma parse_list_sel : parse listSQL = Some (SQuery None (list_sel None)).
Proof. vm_compute. reflexivity. Qed.
Lemma parse_list_sel_lim : parse (with_limit listSQL) = Some (SQuery None (list_sel (Some (EPar 3)))).
Proof. vm_compute. reflexivity. Qed.
Lemma q_list n T extra lo hi rev rest d lim : rows d = map fst T -> unique_ids (rows d) ->
  ev_select (S (S (S (S (S (S (S (S (S (S n)))))))))) (K T ++ extra) (VBlob lo :: VBlob hi :: VInt rev :: rest) [] (list_sel lim) =
  obind (do_limit (match lim with None => None | Some l => Some (ev (S (S (S (S (S (S (S (S (S n))))))))) (K T ++ extra) (VBlob lo :: VBlob hi :: VInt rev :: rest) None [] l) end)
      (map lout (order_by (fun a b => by_name_id (fst a) (fst b))
         (filter (fun t => existsb (Z.eqb (id (fst t))) (map id (group_max (candidates lo hi rev d))) && negb (deleted (fst t))) T))))
    (fun o => Some (Rel ["id"; "name"; "create_revision"; "lease"; "value"]%string o)).
Proof.
  intros E U. unfold list_sel. rewrite q_select.
  pose proof (gmax_ids lo hi rev T d E U) as P.
  erewrite src_join.
  3: { apply sub_max. }
  2: { eapply Permutation_NoDup; [apply Permutation_sym, P|]. now apply candidates_nodup. }
  cbn [obind fst snd].
  erewrite filter_ext.
  2: { intros t. apply (perm_existsb _ _ _ P). }
  rewrite (where_rep jwrap _ (Some _) (fun t => negb (deleted (fst t)))).
  2: { intros [[] []] _. ev_row. eexists. split; [reflexivity|]. autorewrite with sqlv. reflexivity. }
  cbn [obind]. rewrite filter_filter.
  unfold do_group. match goal with |- context [is_agg ?a ?b] => change (is_agg a b) with false end.
  cbv iota. cbn [obind do_having]. rewrite map_map.
  rewrite (order_rep _ _ _ (fun t : nrow => (None, jwrap t)) (fun t => [VText (name (fst t)); VInt (id (fst t))]) (fun a b => by_name_id (fst a) (fst b))).
  2: discriminate. 2: { intros [[] []] _. reflexivity. } 2: apply by_name_id_keys.
  cbn [obind]. rewrite (items_rep _ _ (fun t : nrow => (None, jwrap t)) lout).
  2: { intros [[? ? cr] []] _. cbn [omap fst snd]. ev_row. destruct cr; reflexivity. }
  reflexivity.
Qed.

Lemma list_answer lo hi rev d T : rows d = map fst T ->
  map scan_lrow (map lout (order_by (fun a b => by_name_id (fst a) (fst b))
         (filter (fun t => existsb (Z.eqb (id (fst t))) (map id (group_max (candidates lo hi rev d))) && negb (deleted (fst t))) T)))
  = map Some (list_sql lo hi rev d).
Proof.
  intros E. unfold list_sql. rewrite E at 1. cbv zeta. rewrite map_fst_filter.
  rewrite order_by_map, !map_map. apply map_ext. intros. apply scan_lout.
Qed.

Lemma list_sql_text t d lo hi rev : stored t d -> unique_ids (rows d) ->
  exists out, run_query [] listSQL [VBlob lo; VBlob hi; VInt rev] t = Some out /\
    map scan_lrow (body out) = map Some (list_sql lo hi rev d).
Proof.
  intros S U. destruct (stored_run_query _ _ S) as (T & E & ->). rewrite parse_list_sel.
  rewrite (q_list 2 T [] lo hi rev [] d None E U). cbn [do_limit obind].
  eexists. split; [reflexivity|]. cbn [body]. now apply list_answer.
Qed.

Lemma list_lim_sql_text t d lo hi rev lim : stored t d -> unique_ids (rows d) -> 0 < lim ->
  exists out, run_query [] (with_limit listSQL) [VBlob lo; VBlob hi; VInt rev; VInt lim] t = Some out /\
    map scan_lrow (body out) = map Some (ztake lim (list_sql lo hi rev d)).
Proof.
  intros S U L. destruct (stored_run_query _ _ S) as (T & E & ->). rewrite parse_list_sel_lim.
  rewrite (q_list 2 T [] lo hi rev [VInt lim] d (Some (EPar 3)) E U).
  rewrite e_par. cbn [nth_error do_limit]. rewrite limit_ztake by auto. cbn [obind].
  eexists. split; [reflexivity|]. cbn [body]. rewrite !ztake_map. f_equal. now apply list_answer.
Qed.

Lemma count_sql_text t d lo hi rev : stored t d -> unique_ids (rows d) ->
  exists out, run_query [] countRevisionSQL [VBlob lo; VBlob hi; VInt rev] t = Some out /\
    map (map scan_int) (body out) = [[Some (count_sql lo hi rev d)]].
Proof.
  intros S U. destruct (stored_run_query _ _ S) as (T & E & ->). rewrite parse_count. unfold ast_count.
  rewrite q_select.
  pose proof (gmax_ids lo hi rev T d E U) as P.
  erewrite src_join.
  3: { apply sub_max. }
  2: { eapply Permutation_NoDup; [apply Permutation_sym, P|]. now apply candidates_nodup. }
  cbn [obind fst snd].
  erewrite filter_ext.
  2: { intros t0. apply (perm_existsb _ _ _ P). }
  rewrite (where_rep jwrap _ (Some _) (fun t => negb (deleted (fst t)))).
  2: { intros [[] []] _. ev_row. eexists. split; [reflexivity|]. autorewrite with sqlv. reflexivity. }
  cbn [obind]. rewrite filter_filter.
  unfold do_group. match goal with |- context [is_agg ?a ?b] => change (is_agg a b) with true end.
  cbv iota. cbn [do_partition obind omap]. unfold do_rep. cbn [first_max max_arg obind do_having do_order].
  unfold do_items. cbn [omap fst snd]. rewrite e_count. cbn [obind omap do_limit].
  eexists. split; [reflexivity|]. cbn [body map scan_int]. unfold count_sql. cbv zeta.
  rewrite map_length. rewrite E. rewrite map_fst_filter, map_length. reflexivity.
Qed.

Lemma ttl_sql_text t d rev : stored t d -> unique_ids (rows d) ->
  exists out, run_query [] ttlSQL [VInt rev] t = Some out /\
    map scan_ttl (body out) = map Some (ttl_sql rev d).
Proof.
  intros S U. destruct (stored_run_query _ _ S) as (T & E & ->). rewrite parse_ttl. unfold ast_ttl.
  rewrite q_select.
  assert (P : Permutation (map (fun g => id (fst (gbest g))) (groups nkey (filter (fun t : nrow => id (fst t) <=? rev) T)))
              (map id (group_max (filter (fun r => id r <=? rev) (rows d))))).
  { rewrite <- (map_map (fun g => fst (gbest g)) id), <- (map_map gbest fst).
    apply Permutation_map. rewrite E, map_fst_filter. apply group_perm.
    rewrite <- (map_map fst id). rewrite <- (map_fst_filter (fun r => id r <=? rev)).
    rewrite <- E. now apply unique_filter. }
  erewrite src_join.
  3: { rewrite (q_group_max _ _ _ _ _ _ _ _ _ (Some _) (fun t : nrow => id (fst t) <=? rev)).
       - rewrite <- (map_map (fun g => id (fst (gbest g))) (fun m => [VInt m])). reflexivity.
       - intros [[] []] _. ev_row. eexists. split; [reflexivity|]. autorewrite with sqlv. reflexivity.
       - intros [[] []]. reflexivity.
       - intros [[] []]. reflexivity. }
  2: { eapply Permutation_NoDup; [apply Permutation_sym, P|].
       destruct (group_max_filter (filter (fun r => id r <=? rev) (rows d))) as (q & ->).
       now apply unique_filter, unique_filter. }
  cbn [obind fst snd].
  erewrite filter_ext.
  2: { intros t0. apply (perm_existsb _ _ _ P). }
  rewrite (where_rep jwrap _ (Some _) (fun t => negb (deleted (fst t)) && negb (lease (fst t) =? 0))).
  2: { intros [[] []] _. ev_row. eexists. split; [reflexivity|]. autorewrite with sqlv. reflexivity. }
  cbn [obind]. rewrite filter_filter.
  unfold do_group. match goal with |- context [is_agg ?a ?b] => change (is_agg a b) with false end.
  cbv iota. cbn [obind do_having do_order]. rewrite map_map.
  rewrite (items_rep _ _ (fun t : nrow => (None, jwrap t)) (fun t => [VInt (id (fst t)); VText (name (fst t)); VInt (lease (fst t))])).
  2: { intros [[] []] _. reflexivity. }
  cbn [obind do_limit]. eexists. split; [reflexivity|]. cbn [body].
  unfold ttl_sql. cbv zeta. set (M := map id (group_max _)). rewrite E. rewrite map_fst_filter, !map_map.
  erewrite (filter_ext (fun t => _ && (_ && _))); [reflexivity|].
  intros x. cbn. now rewrite andb_assoc.
Qed.

(** ---- the statements of schema version 1.0 ---- *)
Lemma sorted_perm_names l1 l2 : Permutation l1 l2 ->
  (forall a b, In a l1 -> In b l1 -> name a = name b -> a = b) ->
  order_by by_name l1 = order_by by_name l2.
Proof.
  intros P I.
  assert (S1 := order_by_sorted by_name by_name_total by_name_trans l1).
  assert (S2 := order_by_sorted by_name by_name_total by_name_trans l2).
  assert (P' : Permutation (order_by by_name l1) (order_by by_name l2)).
  { etransitivity; [apply Permutation_sym, order_by_perm|]. etransitivity; [apply P|]. apply order_by_perm. }
  assert (I' : forall a b, In a (order_by by_name l1) -> In b (order_by by_name l1) -> name a = name b -> a = b).
  { intros a b Ha Hb. apply I; [apply (order_by_in by_name l1)|apply (order_by_in by_name l1)]; auto. }
  clear P I. revert P' I' S1 S2. generalize (order_by by_name l1) (order_by by_name l2).
  clear l1 l2. induction l as [|x l IH]; intros m P I S1 S2.
  - now apply Permutation_nil in P.
  - destruct m as [|y m]. { apply Permutation_sym, Permutation_nil in P. discriminate. }
    assert (x = y).
    { inversion S1 as [|? ? S1' F1]; subst. inversion S2 as [|? ? S2' F2]; subst.
      assert (Hx : In x (y :: m)) by (eapply Permutation_in; [apply P|now left]).
      assert (Hy : In y (x :: l)) by (eapply Permutation_in; [apply Permutation_sym, P|now left]).
      destruct Hx as [->|Hx]; auto. destruct Hy as [->|Hy]; auto.
      rewrite Forall_forall in F1, F2. specialize (F1 _ Hy). specialize (F2 _ Hx).
      apply I; [now left|now right|].
      unfold by_name in *. rewrite bleb_true in *. unfold ble in *.
      apply bcmp_eq. rewrite (bcmp_opp (name x) (name y)) in F2. destruct (bcmp (name x) (name y)); cbn in *; congruence. }
    subst y. f_equal. apply Permutation_cons_inv in P. inversion S1; inversion S2; subst. apply IH; auto.
    intros a b Ha Hb. apply I; now right.
Qed.

(** SELECT MAX(id) FROM kine WHERE range GROUP BY name HAVING deleted = 0 [ORDER BY name]. *)
Definition v1_where : expr :=
  EBin OAnd
    (EBin OAnd (EBin OGe (ECol None "name") (ECastText (EPar 0)))
               (EBin OLt (ECol None "name") (ECastText (EPar 1))))
    (EBin OLe (ECol None "id") (EPar 2)).
Definition v1_groups lo hi rev T :=
  filter (fun g => negb (deleted (fst (gbest g))))
    (groups nkey (filter (fun t : nrow => in_range_b lo hi (name (fst t)) && (id (fst t) <=? rev)) T)).

Lemma q_v1 n T extra lo hi rev rest nm ord : (ord = [] \/ (ord = [ECol None "name"] /\ nm = Some "id"%string)) ->
  ev_select (S (S (S (S (S (S n)))))) (K T ++ extra) (VBlob lo :: VBlob hi :: VInt rev :: rest) []
    (Select [(EMax (ECol None "id"), nm)] (Some (FTable "kine" None)) (Some v1_where)
       [ECol None "name"] (Some (EBin OEq (ECol None "deleted") (EInt 0))) ord None) =
  Some (Rel [item_name (EMax (ECol None "id"), nm)]
    (map (fun g => [VInt (id (fst (gbest g)))])
       (match ord with [] => v1_groups lo hi rev T
        | _ => order_by (fun a b => by_name (fst (gbest a)) (fst (gbest b))) (v1_groups lo hi rev T) end))).
Proof.
  intros Ho. rewrite q_select, src_kine. cbn [obind fst snd].
  rewrite (where_rep wrap _ (Some _) (fun t : nrow => in_range_b lo hi (name (fst t)) && (id (fst t) <=? rev))).
  2: { unfold v1_where. intros [[] []] _. ev_row. eexists. split; [reflexivity|]. autorewrite with sqlv. reflexivity. }
  cbn [obind]. rewrite group_phase.
  2: { intros [[] []]. reflexivity. } 2: { intros [[] []]. reflexivity. }
  set (sh := [("kine"%string, kine_cols)]). cbn [obind]. unfold do_having.
  rewrite (ofilter_rep (gh sh) _ (fun g => negb (deleted (fst (gbest g))))).
  2: { intros g Hg. apply groups_nonempty in Hg. destruct g as [|x g]; [congruence|].
       unfold gh. cbn [fst snd]. destruct (gbest (x :: g)) as [[] []]. unfold wrap, sh.
       ev_row. eexists. split; [reflexivity|]. autorewrite with sqlv. reflexivity. }
  cbn [obind]. fold (v1_groups lo hi rev T).
  assert (NE : forall g, In g (v1_groups lo hi rev T) -> g <> []).
  { intros g Hg. apply filter_In in Hg. destruct Hg as [Hg _]. now apply groups_nonempty in Hg. }
  destruct Ho as [->|[-> ->]].
  - cbn [do_order obind]. subst sh.
    rewrite group_items. 2: { intros [[] []]. reflexivity. } 2: auto. reflexivity.
  - rewrite (order_rep _ _ _ (gh sh) (fun g => [VText (name (fst (gbest g)))]) (fun a b => by_name (fst (gbest a)) (fst (gbest b)))).
    2: discriminate.
    2: { intros g Hg. apply NE in Hg. destruct g as [|x g]; [congruence|].
         unfold gh. cbn [fst snd omap]. destruct (gbest (x :: g)) as [[] []]. reflexivity. }
    2: { intros a b. cbn. unfold by_name, bleb. destruct (bcmp _ _); reflexivity. }
    cbn [obind]. subst sh. rewrite group_items. 2: { intros [[] []]. reflexivity. }
    2: { intros g Hg. apply NE. now apply order_by_in in Hg. } reflexivity.
Qed.

Lemma v1_groups_perm lo hi rev T d : rows d = map fst T -> unique_ids (rows d) ->
  Permutation (map (fun g => fst (gbest g)) (v1_groups lo hi rev T)) (selected lo hi rev d).
Proof.
  intros E U. unfold v1_groups, selected.
  rewrite <- (filter_map_comm (fun g => fst (gbest g)) (fun r => negb (deleted r))).
  assert (P : Permutation (map (fun g => fst (gbest g)) (groups nkey (filter (fun t : nrow => in_range_b lo hi (name (fst t)) && (id (fst t) <=? rev)) T)))
     (group_max (candidates lo hi rev d))).
  { rewrite <- (map_map gbest fst). unfold candidates. rewrite E, map_fst_filter. apply group_perm.
    rewrite <- (map_map fst id). rewrite <- (map_fst_filter (fun r => in_range_b lo hi (name r) && (id r <=? rev))).
    rewrite <- E. now apply unique_filter. }
  revert P. generalize (group_max (candidates lo hi rev d)). generalize (map (fun g => fst (gbest g)) (groups nkey (filter (fun t : nrow => in_range_b lo hi (name (fst t)) && (id (fst t) <=? rev)) T))).
  intros l1 l2 P. induction P; cbn; auto.
  - destruct (deleted x); cbn; auto.
  - destruct (deleted x), (deleted y); cbn; auto. apply perm_swap.
  - etransitivity; eauto.
Qed.

Lemma count_v1_sql_text t d lo hi rev : stored t d -> unique_ids (rows d) ->
  exists out, run_query [] countRevisionSQLV1_0 [VBlob lo; VBlob hi; VInt rev] t = Some out /\
    map (map scan_int) (body out) = [[Some (count_sql_v1 lo hi rev d)]].
Proof.
  intros S U. destruct (stored_run_query _ _ S) as (T & E & ->). rewrite parse_count1. unfold ast_count1.
  rewrite q_select, s_sub. fold v1_where. rewrite q_v1 by auto. cbn [obind fst snd body cols do_where].
  unfold do_group. match goal with |- context [is_agg ?a ?b] => change (is_agg a b) with true end.
  cbv iota. cbn [do_partition obind omap]. unfold do_rep. cbn [first_max max_arg obind do_having do_order].
  unfold do_items. cbn [omap fst snd]. rewrite e_count. cbn [obind omap do_limit].
  eexists. split; [reflexivity|]. cbn [body map scan_int]. unfold count_sql_v1. fold (selected lo hi rev d).
  rewrite !map_length. rewrite <- (Permutation_length (v1_groups_perm lo hi rev T d E U)), map_length. reflexivity.
Qed.

Lemma src_kine2 n c r T extra ps sc al : String.eqb "kine" c = false ->
  ev_source (S n) ((c, r) :: K T ++ extra) ps sc (FTable "kine" al) =
  Some ([(match al with Some a => a | None => "kine"%string end, kine_cols)], map wrap T).
Proof. intros H. rewrite s_table. cbn [find_rel]. rewrite H. cbn. now rewrite map_map. Qed.

Lemma join_pk_left (T : list nrow) (M : list Z) :
  filter (fun p : Z * nrow => fst p =? id (fst (snd p))) (list_prod M T) =
  flat_map (fun m => map (fun t => (m, t)) (filter (fun t => id (fst t) =? m) T)) M.
Proof.
  induction M as [|m M IH]; [reflexivity|]. cbn [list_prod flat_map]. rewrite filter_app, IH. f_equal.
  rewrite filter_map_comm. f_equal. apply filter_ext. intros t. cbn. apply Z.eqb_sym.
Qed.

Definition list1_cte : select := Eval vm_compute in
  match ast_list1 with Some (SQuery (Some (_, q1)) _) => q1 | _ => Select [] None None [] None [] None end.
Definition list1_sel : option expr -> select := Eval vm_compute in
  match ast_list1 with
  | Some (SQuery (Some _) (Select its src wh gby hav ord _)) => fun lim => Select its src wh gby hav ord lim
  | _ => fun lim => Select [] None None [] None [] lim
  end.
Lemma parse_list1_sel : parse listSqlV1_0 = Some (SQuery (Some ("maxkv"%string, list1_cte)) (list1_sel None)).
Proof. vm_compute. reflexivity. Qed.
Lemma parse_list1_sel_lim :
  parse (with_limit listSqlV1_0) = Some (SQuery (Some ("maxkv"%string, list1_cte)) (list1_sel (Some (EPar 3)))).
Proof. vm_compute. reflexivity. Qed.

Definition list1_ids lo hi rev T :=
  map (fun g => id (fst (gbest g))) (order_by (fun a b => by_name (fst (gbest a)) (fst (gbest b))) (v1_groups lo hi rev T)).
Lemma q_list1_cte n T extra lo hi rev rest :
  ev_select (S (S (S (S (S (S n)))))) (K T ++ extra) (VBlob lo :: VBlob hi :: VInt rev :: rest) [] list1_cte =
  Some (Rel ["id"%string] (map (fun m => [VInt m]) (list1_ids lo hi rev T))).
Proof.
  unfold list1_cte. fold v1_where. rewrite q_v1 by auto. unfold list1_ids. rewrite map_map. reflexivity.
Qed.

Lemma q_list1 n T M ps lim :
  let cat := ("maxkv"%string, Rel ["id"%string] (map (fun m => [VInt m]) M)) :: K T ++ [] in
  ev_select (S (S (S (S (S n))))) cat ps [] (list1_sel lim) =
  obind (do_limit (match lim with None => None | Some l => Some (ev (S (S (S (S n)))) cat ps None [] l) end)
      (map lout (flat_map (fun m => filter (fun t => id (fst t) =? m) T) M)))
    (fun o => Some (Rel ["id"; "name"; "create_revision"; "lease"; "value"]%string o)).
Proof.
  intros cat. unfold list1_sel, cat. rewrite q_select, s_join, s_table, src_kine2 by reflexivity.
  cbn [find_rel String.eqb Ascii.eqb Bool.eqb obind fst snd body cols].
  rewrite map_map, pairs_prod.
  rewrite (where_rep (fun p : Z * nrow => [[VInt (fst p)]] ++ wrap (snd p)) _ (Some _) (fun p => fst p =? id (fst (snd p)))).
  2: { intros [m [[] []]] _. ev_row. eexists. split; [reflexivity|]. autorewrite with sqlv. reflexivity. }
  cbn [obind fst snd do_where]. rewrite join_pk_left.
  unfold do_group. match goal with |- context [is_agg ?a ?b] => change (is_agg a b) with false end.
  cbv iota. cbn [obind do_having do_order]. rewrite map_map.
  rewrite (items_rep _ _ (fun p : Z * nrow => (None, [[VInt (fst p)]] ++ wrap (snd p))) (fun p => lout (snd p))).
  2: { intros [m [[? ? cr] []]] _. cbn [omap fst snd]. ev_row. destruct cr; reflexivity. }
  cbn [obind]. 
  replace (map (fun p : Z * nrow => lout (snd p)) (flat_map (fun m => map (fun t => (m, t)) (filter (fun t => id (fst t) =? m) T)) M))
    with (map lout (flat_map (fun m => filter (fun t => id (fst t) =? m) T) M)).
  - reflexivity.
  - clear cat. induction M as [|m M IH]; [reflexivity|]. cbn [flat_map]. rewrite !map_app, IH, map_map. reflexivity.
Qed.

Lemma list1_answer lo hi rev d T : rows d = map fst T -> unique_ids (rows d) ->
  map scan_lrow (map lout (flat_map (fun m => filter (fun t => id (fst t) =? m) T)
    (list1_ids lo hi rev T)))
  = map Some (list_sql_v1 lo hi rev d).
Proof.
  intros E U. unfold list_sql_v1, list1_ids. cbv zeta. fold (selected lo hi rev d).
  rewrite <- (map_map (fun g => fst (gbest g)) id).
  rewrite <- (order_by_map (fun g => fst (gbest g)) by_name).
  rewrite (sorted_perm_names _ _ (v1_groups_perm lo hi rev T d E U)).
  2: { intros a b Ha Hb. pose proof (v1_groups_perm lo hi rev T d E U) as P.
       apply (selected_names lo hi rev d a b U); eapply Permutation_in; eauto. }
  rewrite map_map. rewrite E.
  generalize (map id (order_by by_name (selected lo hi rev d))) as M.
  induction M as [|m M IH]; [reflexivity|]. cbn [flat_map]. rewrite !map_app, IH. f_equal.
  rewrite map_fst_filter, !map_map. apply map_ext. intros. apply scan_lout.
Qed.

Lemma list_v1_sql_text t d lo hi rev : stored t d -> unique_ids (rows d) ->
  exists out, run_query [] listSqlV1_0 [VBlob lo; VBlob hi; VInt rev] t = Some out /\
    map scan_lrow (body out) = map Some (list_sql_v1 lo hi rev d).
Proof.
  intros S U. destruct (stored_run_query _ _ S) as (T & E & ->). rewrite parse_list1_sel, q_list1_cte, q_list1. cbn [do_limit obind].
  eexists. split; [reflexivity|]. cbn [body]. now apply list1_answer.
Qed.

Lemma list_v1_lim_sql_text t d lo hi rev lim : stored t d -> unique_ids (rows d) -> 0 < lim ->
  exists out, run_query [] (with_limit listSqlV1_0) [VBlob lo; VBlob hi; VInt rev; VInt lim] t = Some out /\
    map scan_lrow (body out) = map Some (ztake lim (list_sql_v1 lo hi rev d)).
Proof.
  intros S U L. destruct (stored_run_query _ _ S) as (T & E & ->). rewrite parse_list1_sel_lim, q_list1_cte, q_list1.
  rewrite e_par. cbn [nth_error do_limit]. rewrite limit_ztake by auto. cbn [obind].
  eexists. split; [reflexivity|]. cbn [body]. rewrite !ztake_map. f_equal. now apply list1_answer.
Qed.

(** getSizeSQL over the three pragma functions. *)
Lemma size_sql_text t pc ps fl :
  run_query [("pragma_page_count", Rel ["page_count"] [[VInt pc]]);
             ("pragma_page_size", Rel ["page_size"] [[VInt ps]]);
             ("pragma_freelist_count", Rel ["freelist_count"] [[VInt fl]])]%string getSizeSQL [] t
  = Some (Rel [""%string] [[VInt ((pc - fl) * ps)]]).
Proof. unfold run_query. rewrite parse_size. reflexivity. Qed.

(** ---- changes ---- *)
Lemma stored_run_exec t d : stored t d -> exists T, rows d = map fst T /\ t_seq t = Sql.seq d /\ t_rows t = map enc_row T /\
  forall txt ps, run_exec txt ps t =
    match parse txt with
    | Some (SInsert "kine" cs q) =>
        match ev_select 12 (K T) ps [] q with Some r => ins_rows cs (body r) t 0 0 | None => None end
    | Some (SDelete "kine" wh) =>
        match (match wh with
               | None => Some (map (fun _ => vbool true) (map enc_row T))
               | Some w => omap (fun r => ev 12 (K T) ps None [([("kine"%string, kine_cols)], [r])] w) (map enc_row T)
               end) with
        | Some vs =>
            let kept := map fst (filter (fun p => negb (holds (snd p))) (combine (map enc_row T) vs)) in
            Some (TDb kept (t_seq t), (Z.of_nat (List.length (map enc_row T)) - Z.of_nat (List.length kept), 0))
        | None => None
        end
    | Some (SUpdate "kine" c e wh) =>
        match omap (fun r =>
            let sc := [([("kine"%string, kine_cols)], [r])] in
            match (match wh with None => Some (vbool true)
                   | Some w => ev 12 (K T) ps None sc w end),
                  ev 12 (K T) ps None sc e with
            | Some w, Some v =>
                Some (if holds w
                      then (map (fun '(c', x) => if String.eqb c c' then v else x) (combine kine_cols r), 1)
                      else (r, 0))
            | _, _ => None
            end) (map enc_row T) with
        | Some rs => Some (TDb (map fst rs) (t_seq t), (fold_right Z.add 0 (map snd rs), 0))
        | None => None
        end
    | _ => None
    end.
Proof.
  intros S. destruct (stored_cat _ _ S) as (T & EK & E2 & E3 & E4). exists T. split; [auto|]. split; [auto|]. split; [auto|].
  intros. unfold run_exec, depth. rewrite EK, E4. reflexivity.
Qed.

(** DELETE FROM kine WHERE ...: the rows failing the condition stay. *)
Lemma delete_rep (T : list nrow) (f : list val -> option val) (p : nrow -> bool) :
  (forall t, In t T -> exists v, f (enc_row t) = Some v /\ holds v = p t) ->
  exists vs, omap f (map enc_row T) = Some vs /\
    map fst (filter (fun p => negb (holds (snd p))) (combine (map enc_row T) vs)) = map enc_row (filter (fun t => negb (p t)) T).
Proof.
  induction T as [|t T IH]; intros H.
  - exists []. split; reflexivity.
  - destruct (H t (or_introl eq_refl)) as (v & Ev & Hv). destruct IH as (vs & E1 & E2). { intros; apply H; now right. }
    exists (v :: vs). cbn [map omap]. rewrite Ev, E1. split; [reflexivity|].
    cbn [combine filter snd]. rewrite Hv. destruct (p t); cbn; congruence.
Qed.

Lemma delete_exec t d ps (f : nrow -> option val) w txt (p : row -> bool) :
  stored t d -> parse txt = Some (SDelete "kine" (Some w)) ->
  (forall T, rows d = map fst T -> forall x, In x T ->
     exists v, ev 12 (K T) ps None [([("kine"%string, kine_cols)], wrap x)] w = Some v /\ holds v = p (fst x)) ->
  exists t', run_exec txt ps t =
      Some (t', (Z.of_nat (List.length (rows d)) - Z.of_nat (List.length (filter (fun r => negb (p r)) (rows d))), 0)) /\
    stored t' (Db (filter (fun r => negb (p r)) (rows d)) (Sql.seq d)).
Proof.
  intros S P H. destruct (stored_run_exec _ _ S) as (T & E2 & E3 & E4 & ->). rewrite P.
  destruct (delete_rep T (fun r => ev 12 (K T) ps None [([("kine"%string, kine_cols)], [r])] w) (fun t => p (fst t))) as (vs & -> & ->).
  { intros x Hx. apply (H T E2 x Hx). }
  cbv zeta. rewrite E3. exists (TDb (map enc_row (filter (fun t => negb (p (fst t))) T)) (Sql.seq d)).
  rewrite E2, map_fst_filter, !map_length. split; [reflexivity|].
  exists (filter (fun t => negb (p (fst t))) T). auto.
Qed.

Lemma delete_rev_sql_text t d rev : stored t d ->
  exists t', run_exec deleteRevSQL [VInt rev] t = Some (t', snd (delete_rev_sql rev d)) /\
    stored t' (fst (delete_rev_sql rev d)).
Proof.
  intros S. pose proof parse_delete_rev as P. unfold ast_delete_rev in P.
  apply (delete_exec t d _ (fun _ => None) _ _ (fun r => id r =? rev) S P).
  intros T _ [[] []] _. unfold wrap. ev_row. eexists. split; [reflexivity|]. autorewrite with sqlv. reflexivity.
Qed.

Lemma tombstones_sql_text t d start stop : stored t d ->
  exists t' n, run_exec compactTombstonesSQL [VInt start; VInt stop] t = Some (t', n) /\
    stored t' (compact_tombstones_sql start stop d).
Proof.
  intros S. pose proof parse_tombstones as P. unfold ast_tombstones in P.
  destruct (delete_exec t d [VInt start; VInt stop] (fun _ => None) _ _ (fun r => deleted r && (start <? id r) && (id r <=? stop)) S P) as (t' & E & S').
  - intros T _ [[] []] _. unfold wrap. ev_row. eexists. split; [reflexivity|]. autorewrite with sqlv. reflexivity.
  - eauto.
Qed.

Lemma fold_or3 x (l : list Z) :
  fold_right (fun y t => or3 (truth (bin OEq (VInt x) (hd VNull y))) t) (Some false) (map (fun z => [VInt z]) l)
  = Some (existsb (Z.eqb x) l).
Proof.
  induction l as [|y l IH]; [reflexivity|]. cbn [map fold_right hd existsb]. rewrite IH, bin_eq_int.
  destruct (x =? y), (existsb (Z.eqb x) l); reflexivity.
Qed.

Lemma superseded_sql_text t d start stop : stored t d ->
  exists t' n, run_exec compactSupersededSQL [VInt start; VInt stop] t = Some (t', n) /\
    stored t' (compact_superseded_sql start stop d).
Proof.
  intros S. pose proof parse_superseded as P. unfold ast_superseded in P.
  set (v := fun r => negb (beqb (name r) compact_rev_key) && negb (created r)
                      && negb (prev_revision r =? 0) && (start <? id r) && (id r <=? stop)).
  destruct (delete_exec t d [VInt start; VInt stop] (fun _ => None) _ _
     (fun r => existsb (Z.eqb (id r)) (map prev_revision (filter v (rows d)))) S P) as (t' & E & S').
  - intros T ET x _. rewrite e_in. rewrite <- (app_nil_r (K T)), q_select, src_kine. cbn [obind fst snd].
    rewrite (where_rep wrap _ (Some _) (fun t => v (fst t))).
    2: { intros [[] []] _. ev_row. eexists. split; [reflexivity|]. autorewrite with sqlv. reflexivity. }
    unfold do_group. match goal with |- context [is_agg ?a ?b] => change (is_agg a b) with false end.
    cbv iota. cbn [obind do_having do_order]. rewrite map_map.
    rewrite (items_rep _ _ (fun t : nrow => (None, wrap t)) (fun t => [VInt (prev_revision (fst t))])).
    2: { intros [[] []] _. reflexivity. }
    cbn [obind do_limit map item_name].
    rewrite <- (map_map (fun t : nrow => prev_revision (fst t)) (fun z => [VInt z])).
    rewrite e_col. replace (resolve None "id" [([("kine"%string, kine_cols)], wrap x)]) with (Some (VInt (id (fst x)))).
    2: { destruct x as [[] []]. reflexivity. }
    cbn [obind]. rewrite fold_or3. eexists. split; [reflexivity|].
    unfold of_truth. rewrite vbool_holds. rewrite ET, map_fst_filter, map_map. reflexivity.
  - eauto.
Qed.

Lemma update_compact_sql_text t d rev : stored t d ->
  exists t' n, run_exec updateCompactSQL [VInt rev] t = Some (t', n) /\ stored t' (update_compact_sql rev d).
Proof.
  intros S. destruct (stored_run_exec _ _ S) as (T & E2 & E3 & E4 & ->). rewrite parse_update_compact. unfold ast_update_compact.
  set (up := fun x : nrow => (set_prev (fst x) (Z.max (prev_revision (fst x)) rev), snd x)).
  set (isk := fun x : nrow => beqb (name (fst x)) compact_rev_key).
  rewrite (omap_rep enc_row _ (fun x => if isk x then (enc_row (up x), 1) else (enc_row x, 0))).
  - eexists _, _. split; [reflexivity|].
    exists (map (fun x => if isk x then up x else x) T). cbn [t_rows t_seq]. rewrite !map_map. split; [|split; auto].
    + apply map_ext. intros x. destruct (isk x); reflexivity.
    + unfold update_compact_sql. cbn [rows]. rewrite E2, map_map. apply map_ext. intros x. unfold isk.
      destruct (beqb (name (fst x)) compact_rev_key); reflexivity.
  - intros [[] []] _. cbv zeta. unfold isk, up. ev_row.
    match goal with |- context [beqb name (?x :: ?y)] => change (x :: y) with compact_rev_key end. destruct (beqb name compact_rev_key); [|reflexivity].
    cbn. do 5 f_equal. unfold Z.max. f_equal. destruct (prev_revision ?= rev); reflexivity.
Qed.

Lemma compact_tx_sql_text t d start stop : stored t d ->
  exists t1 t2 t3 n1 n2 n3,
    run_exec compactSupersededSQL [VInt start; VInt stop] t = Some (t1, n1) /\
    run_exec compactTombstonesSQL [VInt start; VInt stop] t1 = Some (t2, n2) /\
    run_exec updateCompactSQL [VInt stop] t2 = Some (t3, n3) /\
    stored t3 (try_compact_tx start stop d).
Proof.
  intros S. destruct (superseded_sql_text t d start stop S) as (t1 & n1 & E1 & S1).
  destruct (tombstones_sql_text t1 _ start stop S1) as (t2 & n2 & E2 & S2).
  destruct (update_compact_sql_text t2 _ stop S2) as (t3 & n3 & E3 & S3).
  exists t1, t2, t3, n1, n2, n3. auto.
Qed.

(** INSERT ... SELECT of at most one row. *)
Lemma insert_one t d r (x : list val) nv no : stored t d -> id r = next_id d ->
  x = tl (enc_row (r, (nv, no))) ->
  exists t', ins_rows (tl kine_cols) [x] t 0 0 = Some (t', (1, id r)) /\ stored t' (insert d r).
Proof.
  intros (T & E1 & E2 & E3) Hid ->. unfold next_id in Hid. cbn.
  exists (TDb (map enc_row (T ++ [(r, (nv, no))])) (id r)). rewrite E1, E3, <- Hid, map_app. split; [reflexivity|].
  exists (T ++ [(r, (nv, no))]). cbn [t_rows t_seq]. rewrite map_app. split; [reflexivity|]. split; [|reflexivity].
  unfold insert. cbn [rows]. now rewrite map_app, E2.
Qed.

Lemma best_max_row x (l : list nrow) : max_row (map fst (x :: l)) = Some (fst (best x l)).
Proof.
  cbn [map max_row].
  assert (H : forall l x, fst (best x l) = match max_row (map fst l) with None => fst x
      | Some r' => if id (fst x) <? id r' then r' else fst x end).
  { clear. induction l as [|y l IH]; intros x; [reflexivity|].
    unfold best in *. cbn [fold_left map max_row].
    destruct (vcmp (VInt (id (fst x))) (VInt (id (fst y)))) eqn:C; cbn in C;
    [apply Z.compare_eq in C|rewrite Z.compare_lt_iff in C|rewrite Z.compare_gt_iff in C]; rewrite IH;
      destruct (max_row (map fst l)) as [r'|];
      repeat match goal with |- context [?a <? ?b] => destruct (Z.ltb_spec a b) end; try reflexivity; try lia. }
  rewrite H. destruct (max_row (map fst l)) as [r'|]; auto. destruct (id (fst x) <? id r'); reflexivity.
Qed.

Lemma blob_arg_enc v b : blob_arg v b -> exists nul, v = enc_blob nul b.
Proof. intros [->|[-> ->]]; [exists false; destruct b; reflexivity|exists true; reflexivity]. Qed.

Lemma where_single E e c : do_where E (Some e) [c] = obind (E None c e) (fun v => Some (if holds v then [c] else [])).
Proof.
  cbn [do_where]. unfold ofilter. cbn [omap]. destruct (E None c e) as [v|]; cbn [obind]; auto.
  cbn [filter snd]. destruct (holds v); reflexivity.
Qed.
Lemma items_single E its g c : do_items E its [(g, c)] = obind (omap (fun i => E g c (fst i)) its) (fun o => Some [o]).
Proof. unfold do_items. cbn [omap fst snd]. destruct (omap _ its); reflexivity. Qed.

(** SELECT MAX(id) AS id, deleted FROM kine WHERE name = ?: the latest row of a name. *)
Lemma q_latest n T extra ps k : nth_error ps 3 = Some (VBlob k) ->
  ev_select (S (S (S (S (S n))))) (K T ++ extra) ps []
    (Select [(EMax (ECol None "id"), Some "id"%string); (ECol None "deleted", None)] (Some (FTable "kine" None))
       (Some (EBin OEq (ECol None "name") (ECastText (EPar 3)))) [] None [] None) =
  Some (Rel ["id"; "deleted"]%string
    [match max_row (filter (fun r => beqb (name r) k) (map fst T)) with
     | None => [VNull; VNull] | Some m => [VInt (id m); vbool (deleted m)] end]).
Proof.
  intros Hp. rewrite q_select, src_kine. cbn [obind fst snd].
  rewrite (where_rep wrap _ (Some _) (fun t => beqb (name (fst t)) k)).
  2: { intros [[] []] _. autorewrite with sqle. rewrite Hp. ev_red. autorewrite with sqlv.
       eexists. split; [reflexivity|]. autorewrite with sqlv. reflexivity. }
  cbn [obind]. rewrite map_fst_filter.
  set (l := filter (fun t => beqb (name (fst t)) k) T).
  match goal with |- context [do_group ?E ?its [] ?sh (map wrap l)] =>
    assert (G : do_group E its [] sh (map wrap l) = Some [gh sh l]) end.
  { unfold do_group. match goal with |- context [is_agg ?a ?b] => change (is_agg a b) with true end.
    cbv iota. cbn [do_partition obind omap]. unfold do_rep. cbn [first_max max_arg].
    rewrite (omap_rep wrap _ (fun t => (VInt (id (fst t)), wrap t))).
    2: { intros [[] []] _. reflexivity. }
    cbn [obind]. unfold gh. destruct l as [|x l']; [reflexivity|]. rewrite (pick_best _ wrap tt). reflexivity. }
  rewrite G. clear G. cbn [obind do_having do_order]. unfold gh. rewrite items_single.
  cbn [omap fst]. rewrite e_max.
  rewrite (omap_rep wrap _ (fun t => VInt (id (fst t)))).
  2: { intros [[] []] _. reflexivity. }
  cbn [obind]. rewrite <- (map_map (fun t : nrow => id (fst t)) VInt), agg_max_ints.
  destruct l as [|x l'].
  - reflexivity.
  - rewrite best_max, best_max_row. cbn [gbest]. destruct (best x l') as [[] []]. reflexivity.
Qed.

