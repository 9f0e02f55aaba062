(** C06-C13, C18, C19, C35, C107: reads. *)
From Coq Require Import List ZArith Bool Lia Sorting.Sorted.
From Verif Require Import Bytes Spec Sql System Prog Backend Limited Api Pool Observe Demo SpecLemmas SqlLemmas Sim ProgLemmas ReadProgs ApiLemmas StoreProofs ReadProofs ReadWitness.
Import ListNotations.
Open Scope Z_scope.

(** C06: a range read returns the exact snapshot of the requested revision. *)
Theorem C06_range : forall cfg w lo hi rev, wreach w -> hi <> [] ->
  match ask cfg w (range lo hi 0 rev) with
  | Ok resp => rr_header resp = revision (history_of (snd w)) /\
               is_snapshot (history_of (snd w)) (read_at rev (rr_header resp)) lo hi (rr_kvs resp)
  | Err e => e = ECompacted /\ rev <> 0 /\ rev < floor_of (snd w)
  end.
Proof. exact list_now. Qed.
Print Assumptions C06_range.

(** The same while other processes write and compact between the statements of
    the read, and statements fail and are retried, provided the revision read is
    not below the floor when the answer is given (C19 is about that case). *)
Theorem C06_range_concurrent : forall cfg lo hi rev w sched w' resp, wreach w -> hi <> [] ->
  fair (s_range cfg (range lo hi 0 rev)) sched w -> Forall (fun x => clean (snd x)) sched ->
  exec (s_range cfg (range lo hi 0 rev)) sched w = (w', Some (Ok resp)) ->
  let n := read_at rev (rr_header resp) in
  revision (history_of (snd w)) <= rr_header resp <= revision (history_of (snd w')) /\
  (floor_of (snd w') <= n -> is_snapshot (history_of (snd w')) n lo hi (rr_kvs resp) /\
     rr_more resp = false /\ (rev <= rr_header resp -> rr_count resp = Z.of_nat (length (rr_kvs resp)))).
Proof. exact list_concurrent. Qed.
Print Assumptions C06_range_concurrent.

(** A snapshot is determined by history, revision and range. *)
Theorem C06_snapshot_unique : forall h n lo hi L1 L2,
  is_snapshot h n lo hi L1 -> is_snapshot h n lo hi L2 -> L1 = L2.
Proof. exact snapshot_unique. Qed.
Print Assumptions C06_snapshot_unique.

Example C06_nonvacuous : wreach demo /\
  ask cfg0 demo (range ka [100%N] 0 6) =
    Ok (RangeResp 8 [KV ka v2 0 1 4; KV kc v3 0 6 6; KV compact_rev_key [] 0 2 2] false 3) /\
  ask cfg0 demo (range ka [100%N] 0 4) = Err ECompacted /\
  exec (s_range cfg0 (range ka [100%N] 0 0))
    [([], FailBefore EBusy); ([ADelete ka 4], NoFault); ([AUpdate kb v1 7 0; ACompact 5 6], FailAfter EBusy); ([], NoFault)] demo
   = (fold_left wapply [ADelete ka 4; AUpdate kb v1 7 0; ACompact 5 6] demo,
      Some (Ok (RangeResp 9 [KV kb v3 30 7 7; KV kc v1 0 6 8; KV compact_rev_key [] 0 2 2] false 3))).
Proof. split; [apply demo_reach|]. vm_compute. auto. Qed.

(** C07: a get returns the version of exactly the requested key. *)
Theorem C07_get : forall cfg w k rev, wreach w ->
  ask cfg w (range k [] 0 rev) =
  if negb (rev =? 0) && (rev <? floor_of (snd w)) then Err ECompacted
  else Ok (RangeResp (revision (history_of (snd w)))
            (match kv_at (history_of (snd w)) (read_at rev (revision (history_of (snd w)))) k with
             | Some x => [x] | None => [] end) false 0).
Proof. exact ask_get. Qed.
Print Assumptions C07_get.

Theorem C07_get_concurrent : forall cfg k rev w sched w' resp, wreach w ->
  fair (s_range cfg (range k [] 0 rev)) sched w -> Forall (fun x => clean (snd x)) sched ->
  exec (s_range cfg (range k [] 0 rev)) sched w = (w', Some (Ok resp)) ->
  let n := read_at rev (rr_header resp) in
  revision (history_of (snd w)) <= rr_header resp <= revision (history_of (snd w')) /\
  (floor_of (snd w') <= n ->
   rr_kvs resp = match kv_at (history_of (snd w')) n k with Some x => [x] | None => [] end).
Proof. exact get_concurrent. Qed.
Print Assumptions C07_get_concurrent.

(** The range [k, k\0) contains k only. *)
Theorem C07_successor : forall k x : bytes, in_range k (k ++ [0%N]) x <-> x = k.
Proof. exact bsucc_spec. Qed.
Print Assumptions C07_successor.

Example C07_nonvacuous :
  ask cfg0 demo (range ka [] 0 0) = Ok (RangeResp 8 [KV ka v2 0 1 4] false 0) /\
  ask cfg0 demo (range kb [] 0 6) = Ok (RangeResp 8 [] false 0).
Proof. vm_compute. auto. Qed.

(** C08: a count equals the length of the unlimited list. *)
Theorem C08_count : forall cfg w lo hi rev, wreach w -> hi <> [] ->
  match ask cfg w (count_req lo hi rev), ask cfg w (range lo hi 0 rev) with
  | Ok c, Ok l => rr_count c = Z.of_nat (length (rr_kvs l)) /\ rr_count l = rr_count c /\ rr_header c = rr_header l
  | Err e, Err e' => e = ECompacted /\ e' = ECompacted
  | _, _ => False
  end.
Proof. exact count_list. Qed.
Print Assumptions C08_count.

Example C08_nonvacuous : ask cfg0 demo (count_req ka [100%N] 6) = Ok (RangeResp 8 [] false 3).
Proof. vm_compute. auto. Qed.

(** C09: legacy and current schema queries agree, on every table with a primary
    key, hence on every request in every reachable state. *)
Theorem C09_schemas : forall lo hi rev d, NoDup (map id (rows d)) ->
  list_sql lo hi rev d = list_sql_v1 lo hi rev d /\ count_sql lo hi rev d = count_sql_v1 lo hi rev d.
Proof. exact schemas_sql. Qed.
Print Assumptions C09_schemas.
Theorem C09_requests : forall cfg cfg' w r, wreach w -> run (s_range cfg r) w = run (s_range cfg' r) w.
Proof. exact cfg_irrelevant. Qed.
Print Assumptions C09_requests.

Example C09_nonvacuous : NoDup (map id (rows (fst demo))) /\ length (list_sql [] [255%N] 8 (fst demo)) = 4%nat.
Proof. vm_compute. split; auto. repeat (constructor; [simpl; intuition discriminate|]). constructor. Qed.

(** C10: pagination at a fixed revision, with arbitrary activity of other
    processes during and between pages, is lossless as long as no page is refused
    and compaction has not passed the revision when the last page arrives. *)
Theorem C10_pages : forall cfg hi limit rev lo w w' L, wreach w -> hi <> [] ->
  0 < limit < int64_max -> 0 < rev <= revision (history_of (snd w)) ->
  pages cfg clean hi limit rev lo w w' L ->
  floor_of (snd w') <= rev ->
  is_snapshot (history_of (snd w')) rev lo hi L.
Proof. exact pages_lemma. Qed.
Print Assumptions C10_pages.

Example C10_nonvacuous :
  pages cfg0 clean [100%N] 2 8 ka demo (wapply demo (ADelete ka 4))
   [KV ka v2 0 1 4; KV kb v3 30 7 7; KV kc v1 0 6 8; KV compact_rev_key [] 0 2 2] /\
  floor_of (snd (wapply demo (ADelete ka 4))) <= 8.
Proof.
  split; [|vm_compute; discriminate].
  eapply (pages_more cfg0 clean [100%N] 2 8 ka demo demo
    [([], NoFault); ([], NoFault); ([], NoFault); ([], NoFault)] demo _
    (RangeResp 8 [KV ka v2 0 1 4; KV kb v3 30 7 7] true 4) [KV ka v2 0 1 4] (KV kb v3 30 7 7)
    [KV kc v1 0 6 8; KV compact_rev_key [] 0 2 2]).
  - constructor.
  - vm_compute. tauto.
  - repeat constructor.
  - vm_compute. reflexivity.
  - reflexivity.
  - reflexivity.
  - apply (pages_last cfg0 clean [100%N] 2 8 (kb ++ [0%N]) demo (wapply demo (ADelete ka 4))
      [([], NoFault); ([], NoFault)] _
      (RangeResp 9 [KV kc v1 0 6 8; KV compact_rev_key [] 0 2 2] false 2)).
    + apply (wsteps_one demo demo); [constructor|]. vm_compute. discriminate.
    + vm_compute. tauto.
    + repeat constructor.
    + vm_compute. reflexivity.
    + reflexivity.
Qed.

(** C11: limit, more and count, for every 64-bit limit. *)
Theorem C11_limit : forall cfg w lo hi limit rev, wreach w -> hi <> [] -> int64 limit ->
  (limit = int64_max -> revision (history_of (snd w)) <= int64_max) ->
  forall resp, ask cfg w (range lo hi limit rev) = Ok resp ->
  exists L, is_snapshot (history_of (snd w)) (read_at rev (rr_header resp)) lo hi L /\
    rr_header resp = revision (history_of (snd w)) /\
    rr_kvs resp = page limit L /\
    (rr_more resp = true <-> 0 < limit < Z.of_nat (length L)) /\
    rr_count resp = Z.of_nat (length L).
Proof. exact limited_list. Qed.
Print Assumptions C11_limit.

Example C11_nonvacuous :
  ask cfg0 demo (range ka [100%N] 1 6) = Ok (RangeResp 8 [KV ka v2 0 1 4] true 3) /\
  ask cfg0 demo (range ka [100%N] 3 6) =
    Ok (RangeResp 8 [KV ka v2 0 1 4; KV kc v3 0 6 6; KV compact_rev_key [] 0 2 2] false 3) /\
  ask cfg0 demo (range ka [100%N] int64_max 6) = ask cfg0 demo (range ka [100%N] (-5) 6) /\
  int64 int64_max.
Proof. vm_compute. intuition discriminate. Qed.

(** C12: a compaction is invisible: afterwards every read is answered exactly as
    before or refused, and reads at or above the new floor (and current reads) are
    not refused. *)
Theorem C12_invisible : forall cfg w start stop r, wreach w -> supported_range r ->
  int64 (r_limit r) /\ revision (history_of (snd w)) <= int64_max ->
  allowed (snd w) (ACompact start stop) ->
  let w' := wapply w (ACompact start stop) in
  (ask cfg w' r <> Err ECompacted -> ask cfg w' r = ask cfg w r) /\
  (r_revision r = 0 \/ Z.max (floor_of (snd w)) stop <= r_revision r -> ask cfg w' r = ask cfg w r).
Proof. exact compaction_step_invisible. Qed.
Print Assumptions C12_invisible.

(** More generally, a read at a fixed past revision gives the same content or is
    refused, whatever writes, deletes and compactions happened since. *)
Theorem C12_past_is_stable : forall cfg w w' r, wreach w -> wsteps w w' -> supported_range r ->
  int64 (r_limit r) /\ revision (history_of (snd w')) <= int64_max ->
  0 < r_revision r <= revision (history_of (snd w)) ->
  match ask cfg w' r with
  | Ok a => exists b, ask cfg w r = Ok b /\ rr_kvs a = rr_kvs b /\ rr_more a = rr_more b /\ rr_count a = rr_count b
  | Err e => e = ECompacted
  end.
Proof. exact past_stable'. Qed.
Print Assumptions C12_past_is_stable.

Example C12_nonvacuous :
  allowed (snd demo) (ACompact 5 7) /\
  ask cfg0 (wapply demo (ACompact 5 7)) (range ka [100%N] 0 7) = ask cfg0 demo (range ka [100%N] 0 7) /\
  ask cfg0 (wapply demo (ACompact 5 7)) (range ka [100%N] 0 6) = Err ECompacted /\
  ask cfg0 demo (range ka [100%N] 0 6) <> Err ECompacted.
Proof. vm_compute. intuition discriminate. Qed.

(** C13: reads below the floor are refused, nothing else is, and refusals are
    forever; the floor is at most the current revision. *)
Theorem C13_refusal : forall cfg w r, wreach w -> supported_range r ->
  int64 (r_limit r) /\ revision (history_of (snd w)) <= int64_max ->
  (ask cfg w r = Err ECompacted <-> r_revision r <> 0 /\ r_revision r < floor_of (snd w)) /\
  (ask cfg w r <> Err ECompacted -> exists a, ask cfg w r = Ok a) /\
  0 <= floor_of (snd w) <= revision (history_of (snd w)).
Proof. exact refusal_lemma. Qed.
Print Assumptions C13_refusal.

Theorem C13_forever : forall cfg w w' r, wreach w -> wsteps w w' -> supported_range r ->
  int64 (r_limit r) /\ revision (history_of (snd w')) <= int64_max ->
  ask cfg w r = Err ECompacted -> ask cfg w' r = Err ECompacted.
Proof. exact refusal_forever. Qed.
Print Assumptions C13_forever.

(** Under interference and faults, a refusal is still always justified. *)
Theorem C13_justified : forall cfg r w sched w', wreach w -> supported_range r -> int64 (r_limit r) -> r_limit r <> int64_max ->
  fair (s_range cfg r) sched w -> Forall (fun x => clean (snd x)) sched ->
  exec (s_range cfg r) sched w = (w', Some (Err ECompacted)) ->
  (r_revision r <> 0 /\ r_revision r < floor_of (snd w')) \/
  (r_revision r = 0 /\ revision (history_of (snd w)) < floor_of (snd w')).
Proof. exact refusal_concurrent. Qed.
Print Assumptions C13_justified.

Example C13_nonvacuous :
  floor_of (snd demo) = 5 /\ ask cfg0 demo (range ka kc 0 4) = Err ECompacted /\ ask cfg0 demo (range ka kc 0 (-1)) = Err ECompacted /\
  ask cfg0 demo (range ka kc 0 5) = Ok (RangeResp 8 [KV ka v2 0 1 4] false 1).
Proof. vm_compute. auto. Qed.

(** C127: the header of an unlimited list at revision 0 is the revision whose
    content was returned, unless compaction has passed that revision meanwhile. *)
Theorem C127_header : forall cfg lo hi w sched w' resp, wreach w -> hi <> [] ->
  fair (s_range cfg (range lo hi 0 0)) sched w -> Forall (fun x => clean (snd x)) sched ->
  exec (s_range cfg (range lo hi 0 0)) sched w = (w', Some (Ok resp)) ->
  floor_of (snd w') <= rr_header resp ->
  is_snapshot (history_of (snd w')) (rr_header resp) lo hi (rr_kvs resp).
Proof. exact header_partial. Qed.
Print Assumptions C127_header.
Example C127_nonvacuous : wreach demo /\
  let sched := [([ADelete kc 8], NoFault); ([ACreate kc v2 0], NoFault)] in
  fair (s_range cfg0 (range ka [100%N] 0 0)) sched demo /\ Forall (fun x => clean (snd x)) sched /\
  exists w' resp, exec (s_range cfg0 (range ka [100%N] 0 0)) sched demo = (w', Some (Ok resp)) /\
    floor_of (snd w') = 5 /\ rr_header resp = 9 /\ map kv_key (rr_kvs resp) = [ka; kb; compact_rev_key] /\ revision (history_of (snd w')) = 10.
Proof.
  split; [exact demo_reach|]. cbv zeta. split; [vm_compute; intuition discriminate|]. split; [repeat constructor|].
  eexists _, _. split; [vm_compute; reflexivity|]. repeat split; vm_compute; reflexivity.
Qed.

(** C18: refuted for limited lists (list.go:73-80): the header is that of a second,
    later query, so a watch from header+1 misses the write in between. *)
Theorem C18_header_refuted : exists w sched w' resp,
  wreach w /\ fair (s_range cfg0 (range ka [100%N] 1 0)) sched w /\
  Forall (fun x => snd x = NoFault) sched /\
  exec (s_range cfg0 (range ka [100%N] 1 0)) sched w = (w', Some (Ok resp)) /\
  floor_of (snd w') <= rr_header resp /\
  ~ (exists L, is_snapshot (history_of (snd w')) (rr_header resp) ka [100%N] L /\ rr_kvs resp = page 1 L).
Proof. exact header_refuted. Qed.
Print Assumptions C18_header_refuted.

(** C147 (part of C19): complete whenever the revision is still
    readable when the answer is given; refuted in general below. *)
Theorem C147_race : forall cfg lo hi rev w sched w' resp, wreach w -> hi <> [] ->
  fair (s_range cfg (range lo hi 0 rev)) sched w -> Forall (fun x => clean (snd x)) sched ->
  exec (s_range cfg (range lo hi 0 rev)) sched w = (w', Some (Ok resp)) ->
  let n := read_at rev (rr_header resp) in
  n <> 0 -> ask cfg w' (range lo hi 0 n) <> Err ECompacted ->
  is_snapshot (history_of (snd w')) n lo hi (rr_kvs resp).
Proof. exact race_partial. Qed.
Print Assumptions C147_race.
Example C19_nonvacuous : wreach demo /\
  let sched := [([ADelete kc 8], NoFault); ([ACompact 5 6], NoFault)] in
  fair (s_range cfg0 (range ka [100%N] 0 7)) sched demo /\ Forall (fun x => clean (snd x)) sched /\
  exists w' resp, exec (s_range cfg0 (range ka [100%N] 0 7)) sched demo = (w', Some (Ok resp)) /\
    read_at 7 (rr_header resp) = 7 /\ floor_of (snd w') = 6 /\ ask cfg0 w' (range ka [100%N] 0 7) <> Err ECompacted /\ map kv_mod (rr_kvs resp) = [4; 7; 6; 2].
Proof.
  split; [exact demo_reach|]. cbv zeta. split; [vm_compute; intuition discriminate|]. split; [repeat constructor|].
  eexists _, _. split; [vm_compute; reflexivity|]. repeat split; try (vm_compute; reflexivity). vm_compute. discriminate.
Qed.

(** Refuted: the floor is checked in one query and the rows are read in another
    (backend.go:239-258); one compaction transaction in between and the read
    silently returns an incomplete result.  105 revisions exist and the compactor
    leaves the last 100. *)
Theorem C19_race_refuted : exists w sched w' resp,
  wreach w /\ revision (history_of (snd w)) = 105 /\
  fair (s_range cfg0 (range ka [100%N] 0 3)) sched w /\
  Forall (fun x => snd x = NoFault /\ (fst x = [] \/ fst x = [ACompact 0 5])) sched /\
  exec (s_range cfg0 (range ka [100%N] 0 3)) sched w = (w', Some (Ok resp)) /\
  ~ is_snapshot (history_of (snd w')) 3 ka [100%N] (rr_kvs resp).
Proof. exact race_refuted. Qed.
Print Assumptions C19_race_refuted.

(** C107 (and C35): a broken result set.  Counts are exact or the request fails,
    whatever breaks; lists are refuted below. *)
Theorem C107_count : forall cfg lo hi rev w sched w' resp, wreach w -> hi <> [] ->
  fair (s_range cfg (count_req lo hi rev)) sched w -> Forall (fun x => db_fault (snd x)) sched ->
  exec (s_range cfg (count_req lo hi rev)) sched w = (w', Some (Ok resp)) ->
  floor_of (snd w') <= read_at rev (rr_header resp) ->
  exists L, is_snapshot (history_of (snd w')) (read_at rev (rr_header resp)) lo hi L /\
            rr_count resp = Z.of_nat (length L).
Proof. exact count_faulty. Qed.
Print Assumptions C107_count.
Example C107_nonvacuous : wreach demo /\
  let sched := [([ADelete kc 8], NoFault); ([], CutRows 1 EOther)] in
  fair (s_range cfg0 (count_req ka [100%N] 0)) sched demo /\ Forall (fun x => db_fault (snd x)) sched /\
  exists w' resp, exec (s_range cfg0 (count_req ka [100%N] 0)) sched demo = (w', Some (Ok resp)) /\
    rr_count resp = 3 /\ floor_of (snd w') = 5 /\ read_at 0 (rr_header resp) = 9.
Proof.
  split; [exact demo_reach|]. cbv zeta. split; [vm_compute; intuition discriminate|]. split; [repeat constructor|].
  eexists _, _. split; [vm_compute; reflexivity|]. split; [|split]; vm_compute; reflexivity.
Qed.

(** Refuted for lists (utils.go:11-24 never looks at rows.Err()): a result set that
    breaks after one row is returned as a complete success. *)
Theorem C35_list_refuted : exists w sched w' resp,
  wreach w /\ fair (s_range cfg0 (range ka [100%N] 0 0)) sched w /\
  sched = [([], NoFault); ([], CutRows 1 EOther)] /\
  exec (s_range cfg0 (range ka [100%N] 0 0)) sched w = (w', Some (Ok resp)) /\
  ~ is_snapshot (history_of (snd w')) (rr_header resp) ka [100%N] (rr_kvs resp).
Proof. exact list_cut_refuted. Qed.
Print Assumptions C35_list_refuted.
