(** C116-C118: what the literal SQL texts of the driver compute, under SQLite's semantics. *)
From Coq Require Import List ZArith Bool String.
From Verif Require Import Bytes Spec Sql System Prog Backend Limited Api Demo Sim SqlLang SqlText SqlRep SqlDriver
  SqlTextProofs SqlDriverProofs ApiLemmas.
Import ListNotations.
Open Scope Z_scope.

(** C116: every sequence of API requests and compaction runs, each of whose database calls is
    made by sending a statement text to SQL, gets the answers of an append-only history;
    no text is ever refused.  [pv] is how the library binds the bytes of a value: as a blob, or
    as NULL if there are none. *)
Theorem C116_requests : forall pv cfg reqs, (forall b, blob_arg (pv b) b) ->
  Forall (api_ok compact_rev_key) reqs -> Z.of_nat (List.length reqs) <= int64_max ->
  exists t answers s, text_api pv cfg reqs empty_tdb = Some (t, answers) /\
    api_answers compact_rev_key empty_store reqs answers s.
Proof.
  exact (fun pv cfg reqs P F L =>
    let '(ex_intro _ t (conj E _)) := text_api_ok pv cfg reqs empty_tdb init_world P stored_empty tidy_empty in
    ex_intro _ t (ex_intro _ _ (ex_intro _ _ (conj E (proj2 (run_api_ok cfg reqs init_world reach_init F L)))))).
Qed.
Print Assumptions C116_requests.

(** An empty value bound as NULL; all others as blobs. *)
Definition nullable (b : bytes) : val := match b with [] => VNull | _ => VBlob b end.

Example C116_nonvacuous : (forall b, blob_arg (nullable b) b) /\ (forall b, blob_arg (VBlob b) b) /\
  option_map snd (text_api nullable cfg0
    [ApiCreate ka v1 0; ApiUpdate ka [] 1 0; ApiUpdate ka v2 1 0; ApiCreate kb v3 5; ApiDelete kb 3; ApiCompaction;
     ApiRange (range ka kc 10 1); ApiRange (range ka kc 0 0)] empty_tdb) = Some
   [RTxn (Ok (TxnResp 1 true [RespPut 1]));
    RTxn (Ok (TxnResp 2 true [RespPut 2]));
    RTxn (Ok (TxnResp 0 false [RespRange (RangeResp 2 [KV ka [] 0 1 2] false 0)]));
    RTxn (Ok (TxnResp 3 true [RespPut 3]));
    RTxn (Ok (TxnResp 4 true [RespDelete 4]));
    RCompaction (Ok tt);
    RRange (Ok (RangeResp 5 [KV ka v1 0 1 1] false 1));
    RRange (Ok (RangeResp 5 [KV ka [] 0 1 2] false 1))].
Proof.
  split; [intros [|x b]; [right|left]; auto|]. split; [now left|]. vm_compute. reflexivity.
Qed.

(** C117: any function of the server, under any interference of other processes, any faults and
    any crash point, ends with the same result and the same table contents whether its database
    calls are the model's or the texts'. *)
Theorem C117_programs : forall A pv (p : prog A) sched t w, (forall b, blob_arg (pv b) b) ->
  stored t (fst w) -> wreach w ->
  exists t', text_exec pv p sched t = Some (t', snd (exec p sched w)) /\ stored t' (fst (fst (exec p sched w))).
Proof.
  exact (fun A pv p sched t w P S W => text_exec_ok pv p sched t w P S (reach_tidy _ _ W)).
Qed.
Print Assumptions C117_programs.

(** In particular from the fresh table, after any statements at all. *)
Theorem C117_statements : forall pv ops, (forall b, blob_arg (pv b) b) ->
  exists t, text_env pv ops empty_tdb = Some t /\ stored t (fst (fold_left wapply ops init_world)).
Proof.
  exact (fun pv ops P =>
    let '(ex_intro _ t (conj E (conj St _))) := text_env_ok pv ops empty_tdb init_world P stored_empty tidy_empty in
    ex_intro _ t (conj E St)).
Qed.
Print Assumptions C117_statements.

Example C117_nonvacuous : stored empty_tdb (fst init_world) /\ wreach init_world /\
  option_map t_rows (text_env nullable demo_ops empty_tdb) =
    Some (map enc_row (map (fun r => (r, (true, true))) (rows (fst demo)))) /\
  List.length (rows (fst demo)) = 5%nat /\
  option_map snd (text_exec nullable (s_range cfg0 (range ka kc 0 0)) [([], NoFault); ([], FailBefore EBusy); ([], NoFault); ([], NoFault)]
     match text_env nullable demo_ops empty_tdb with Some t => t | None => empty_tdb end) =
   Some (snd (exec (s_range cfg0 (range ka kc 0 0)) [([], NoFault); ([], FailBefore EBusy); ([], NoFault); ([], NoFault)] demo)).
Proof. split; [apply stored_empty|]. split; [constructor|]. vm_compute. auto. Qed.

(** C118: the texts against the history.  Each change text does to the table what the history
    says, and reports rows affected and revision accordingly. *)
Theorem C118_write : forall pv t s a, (forall b, blob_arg (pv b) b) -> text_reach pv t s -> allowed s a ->
  exists t', text_apply pv t a = Some (t', snd (spec_apply s a)) /\ text_reach pv t' (fst (spec_apply s a)).
Proof. exact text_reach_write. Qed.
Print Assumptions C118_write.

(** The two listing texts return the contents of the key range at the revision, in key order. *)
Theorem C118_list : forall pv t s lo hi n (v1 : bool), (forall b, blob_arg (pv b) b) -> text_reach pv t s -> floor_of s <= n ->
  exists out L, run_query [] (if v1 then listSqlV1_0 else listSQL) [VBlob lo; VBlob hi; VInt n] t = Some out /\
    map scan_lrow (body out) = map Some L /\ is_snapshot (history_of s) n lo hi (map scan_key_value L).
Proof. exact text_reach_list. Qed.
Print Assumptions C118_list.

(** With LIMIT ? appended, the first so many of them. *)
Theorem C118_list_limit : forall pv t s lo hi n lim (v1 : bool), (forall b, blob_arg (pv b) b) -> text_reach pv t s ->
  floor_of s <= n -> 0 < lim ->
  exists out L, run_query [] (with_limit (if v1 then listSqlV1_0 else listSQL)) [VBlob lo; VBlob hi; VInt n; VInt lim] t = Some out /\
    map scan_lrow (body out) = map Some (firstn (Z.to_nat lim) L) /\ is_snapshot (history_of s) n lo hi (map scan_key_value L).
Proof. exact text_reach_list_limit. Qed.
Print Assumptions C118_list_limit.

(** The two counting texts return the number of keys. *)
Theorem C118_count : forall pv t s lo hi n (v1 : bool), (forall b, blob_arg (pv b) b) -> text_reach pv t s -> floor_of s <= n ->
  exists L, is_snapshot (history_of s) n lo hi L /\
    exists out, run_query [] (if v1 then countRevisionSQLV1_0 else countRevisionSQL) [VBlob lo; VBlob hi; VInt n] t = Some out /\
      map (map scan_int) (body out) = [[Some (Z.of_nat (List.length L))]].
Proof. exact text_reach_count. Qed.
Print Assumptions C118_count.

(** The text behind a watch's backlog returns exactly the changes of the range, in order. *)
Theorem C118_events : forall pv t s lo hi a b, (forall b, blob_arg (pv b) b) -> text_reach pv t s ->
  floor_of s <= a -> b <= revision (history_of s) ->
  exists out L, run_query [] afterSQLPrefix [VBlob lo; VBlob hi; VInt a; VInt b] t = Some out /\
    map scan_row (body out) = map Some L /\ reports (history_of s) (in_range lo hi) a b (map scan_event L).
Proof. exact text_reach_events. Qed.
Print Assumptions C118_events.

(** The interval text returns the compaction floor and the current revision. *)
Theorem C118_interval : forall pv t s, (forall b, blob_arg (pv b) b) -> text_reach pv t s ->
  exists out lo hi, run_query [] revisionIntervalSQL [] t = Some out /\
    map (map scan_null_int) (body out) = [[Some lo; Some hi]] /\
    null_int64 lo = floor_of s /\ null_int64 hi = revision (history_of s).
Proof. exact text_reach_interval. Qed.
Print Assumptions C118_interval.

(** The size text multiplies the pages in use by the page size. *)
Theorem C118_size : forall t pc ps fl,
  run_query [("pragma_page_count", Rel ["page_count"] [[VInt pc]]);
             ("pragma_page_size", Rel ["page_size"] [[VInt ps]]);
             ("pragma_freelist_count", Rel ["freelist_count"] [[VInt fl]])]%string getSizeSQL [] t
  = Some (Rel [""%string] [[VInt ((pc - fl) * ps)]]).
Proof. exact size_sql_text. Qed.
Print Assumptions C118_size.

(** The demo history, recorded by texts alone. *)
Example C118_nonvacuous : exists t s, text_reach nullable t s /\ floor_of s = floor_of (snd demo) /\ 0 < floor_of s /\
  history_of s = history_of (snd demo) /\ text_env nullable demo_ops empty_tdb = Some t.
Proof.
  enough (G : forall ops t s, text_reach nullable t s -> (fix ok s ops := match ops with [] => True | a :: r => allowed s a /\ ok (fst (spec_apply s a)) r end) s ops ->
     exists t', text_reach nullable t' (fold_left (fun s a => fst (spec_apply s a)) ops s) /\ text_env nullable ops t = Some t').
  { destruct (G demo_ops empty_tdb empty_store (text_reach_init _)) as (t' & H & E).
    - vm_compute. repeat split; intros; try discriminate.
    - exists t', (fold_left (fun s a => fst (spec_apply s a)) demo_ops empty_store). split; [exact H|].
      split; [vm_compute; reflexivity|]. split; [vm_compute; reflexivity|]. split; [vm_compute; reflexivity|exact E]. }
  assert (P : forall b, blob_arg (nullable b) b) by (intros [|x b]; [right|left]; auto).
  induction ops as [|a ops IH]; intros t s H A; [eauto|].
  destruct A as [A1 A2]. destruct (text_reach_write nullable t s a P H A1) as (t1 & E1 & H1).
  destruct (IH t1 _ H1 A2) as (t2 & H2 & E2). exists t2. split; [exact H2|]. cbn [text_env]. rewrite E1. exact E2.
Qed.
