(** C121-C126: requests and watches together.
    [kreach cfg okf st s]: [s] is a reachable state of any number of servers that share
    one database, with requests, batched writes, pollers, watch streams, crashes; the
    faults of requests satisfy [okf], those of pollers and registrations are arbitrary;
    [st] = true: compared to the 100 revisions that compaction keeps, pollers and
    registrations are not too late (Whole.v, Resume.v).
    [k_log s]: everything clients asked ([Did (Asked ..)], [Watched ..]), everything
    committed ([Did (Committed ..)]) and everything they were told ([Did (Answered ..)],
    [Said ..]), in real-time order; [dids]: the part about requests.
    [Said conn (MEvents rev id evs)]: on connection [conn] the events [evs] were sent for
    watch [id]. *)
From Coq Require Import List ZArith Bool Lia Sorting.Sorted.
From Verif Require Import Bytes Spec Sql System Prog Backend Limited Api Pool Ledger Shown Batch BatchKine Node Watch Stream Reflector Resume Whole.
From Verif Require Import Demo ApiLemmas WholeProofs WholeResults.
From Verif Require Import Watch Stream Whole.
Import ListNotations.
Open Scope Z_scope.

(** C121.  An event is only ever sent after the change it describes was committed, on
    behalf of a request that had asked for exactly that change and whose condition
    held; its revision is the number of the change; key, kind, value and lease
    are those of the change. *)
Theorem C121_events : forall cfg okf st s A conn rev id evs B ev, tolerant okf -> kreach cfg okf st s ->
  k_log s = A ++ Said conn (MEvents rev id evs) :: B -> In ev evs ->
  exists L1 i e L2 q, dids A = L1 ++ Committed i e :: L2 /\ ev_rev ev = revision (commits L1) + 1 /\
    e_key e = kv_key (ev_kv ev) /\
    match e_change e with Put v l => ev_delete ev = false /\ kv_value (ev_kv ev) = v /\ kv_lease (ev_kv ev) = l | Del => ev_delete ev = true end /\
    In (Asked i q) L1 /\ warranted q e (commits L1).
Proof. exact (fun cfg okf st s A conn rev id evs B ev T H => seen_committed cfg okf st s T H A conn rev id evs B ev). Qed.
Print Assumptions C121_events.
(** It answers a watch requested before on the same connection, for a range with the key. *)
Theorem C121_asked : forall cfg okf st s A conn rev id evs B ev, tolerant okf -> kreach cfg okf st s ->
  k_log s = A ++ Said conn (MEvents rev id evs) :: B -> In ev evs ->
  exists lo hi start, In (Watched conn id lo hi start) A /\ in_range lo hi (kv_key (ev_kv ev)).
Proof.
  intros cfg okf st s A conn rev id evs B ev T H E I. destruct (seen_watch cfg okf st s T H _ _ _ _ _ _ _ E I) as (lo & hi & start & W).
  exists lo, hi, start. split; [exact W|]. eapply seen_range; eauto.
Qed.
Print Assumptions C121_asked.
(** The range written down with a request ([told_by], Whole.v) is the one asked for. *)
Theorem C121_range : forall lo hi k, in_range lo (range_end lo hi) k <-> match hi with [] => k = lo | _ => in_range lo hi k end.
Proof. intros lo hi k. destruct hi; cbn [range_end]; [apply bsucc_spec|tauto]. Qed.
Print Assumptions C121_range.

(** C122.  What a client has seen in an event, no later read contradicts: a Range request
    made - by anybody, at any server - after an event was sent is answered at no older revision. *)
Theorem C122_reads : forall cfg okf st s A conn rev id evs B ev i r before during after a, tolerant okf -> kreach cfg okf st s ->
  k_log s = A ++ Said conn (MEvents rev id evs) :: B -> In ev evs -> In (Did (Asked i (WRange r))) B ->
  answered_request (dids (k_log s)) before during after i (WRange r) (ReRange (Ok a)) -> ev_rev ev <= rr_header a.
Proof. exact (fun cfg okf st s A conn rev id evs B ev i r before during after a T H => seen_then_header cfg okf st s T H A conn rev id evs B ev i r before during after a). Qed.
Print Assumptions C122_reads.

(** Unless more than 100 changes are made while it is processed, a get of the key shows
    that version or a newer one; if it shows none, a delete was committed at that revision or later. *)
Theorem C122_get : forall cfg st s A conn rev id evs B ev i k before during after a, kreach cfg clean st s ->
  k_log s = A ++ Said conn (MEvents rev id evs) :: B -> In ev evs -> k = kv_key (ev_kv ev) ->
  In (Did (Asked i (WRange (range k [] 0 0)))) B ->
  answered_request (dids (k_log s)) before during after i (WRange (range k [] 0 0)) (ReRange (Ok a)) -> revision (commits during) <= 100 ->
  match rr_kvs a with
  | [] => exists r, ev_rev ev <= r <= rr_header a /\ nth_error (commits (dids (k_log s))) (Z.to_nat (r - 1)) = Some (Entry k Del)
  | [x] => kv_key x = k /\ ev_rev ev <= kv_mod x /\ (kv_mod x = ev_rev ev -> ev_delete ev = false /\ x = ev_kv ev)
  | _ => False
  end.
Proof. exact seen_then_get. Qed.
Print Assumptions C122_get.

(** C123.  No lost update on what was watched: when a write that insists on the version of
    an event is committed, that version, in every field, is still the newest of its key. *)
Theorem C123_watched : forall cfg okf st s A conn rev id evs B ev L1 j e L2 c, tolerant okf -> kreach cfg okf st s ->
  k_log s = A ++ Said conn (MEvents rev id evs) :: B -> In ev evs -> ev_delete ev = false ->
  In (Asked j (WTxn (request c))) (dids (k_log s)) -> expects c (kv_key (ev_kv ev)) (ev_rev ev) ->
  dids (k_log s) = L1 ++ Committed j e :: L2 -> e = effect c /\ now (commits L1) (kv_key (ev_kv ev)) = Some (ev_kv ev).
Proof. exact (fun cfg okf st s A conn rev id evs B ev L1 j e L2 c T H => seen_no_lost cfg okf st s T H A conn rev id evs B ev L1 j e L2 c). Qed.
Print Assumptions C123_watched.

(** C124.  No gaps, no repetitions: at the moment a message with events of a watch is sent,
    all the watch has sent so far is exactly the changes of its range from the beginning
    of the watch (not after the requested revision) to the last event sent, once each, in
    revision order, truthful.  Any number of servers and of clients, crashes. *)
Theorem C124_complete : forall cfg okf s A conn rev id evs B ev lo hi start, tolerant okf -> kreach cfg okf true s ->
  k_log s = A ++ Said conn (MEvents rev id evs) :: B -> In ev evs -> In (Watched conn id lo hi start) A ->
  let got := sent (said conn (A ++ [Said conn (MEvents rev id evs)])) id in
  exists a, 0 <= a /\ (0 < start -> a < start) /\ reports (commits (dids A)) (in_range lo hi) a (last_seen a got) got.
Proof. exact (fun cfg okf s A conn rev id evs B ev lo hi start T H => seen_complete cfg okf true s T H A conn rev id evs B ev lo hi start eq_refl). Qed.
Print Assumptions C124_complete.
(** Without the provisos there may be gaps (C24), but never disorder or repetition. *)
Theorem C124_order : forall cfg okf st s A conn rev id evs B ev, tolerant okf -> kreach cfg okf st s ->
  k_log s = A ++ Said conn (MEvents rev id evs) :: B -> In ev evs ->
  StronglySorted Z.lt (map ev_rev (sent (said conn (A ++ [Said conn (MEvents rev id evs)])) id)).
Proof.
  intros cfg okf st s A conn rev id evs B ev T H E I. destruct (seen_order cfg okf st s T H _ _ _ _ _ _ E) as [S| ->]; [exact S|destruct I].
Qed.
Print Assumptions C124_order.

(** C125.  List and watch, on any servers: a client lists a range, while at most 100 changes
    are made, watches it, on any connection, from the revision after that of the list, and
    applies the events newer than the list.  Whenever a message with events arrives, its copy is exactly
    the content of the range at one revision, that of the list or of the last event,
    whichever is later. *)
Theorem C125_mirror : forall cfg s A conn rev id evs B ev lo hi start before during after i resp, kreach cfg clean true s -> hi <> [] ->
  answered_request (dids (k_log s)) before during after i (WRange (range lo hi 0 0)) (ReRange (Ok resp)) -> revision (commits during) <= 100 ->
  k_log s = A ++ Said conn (MEvents rev id evs) :: B -> In ev evs ->
  In (Watched conn id lo hi start) A -> start = rr_header resp + 1 ->
  let got := sent (said conn (A ++ [Said conn (MEvents rev id evs)])) id in
  let h := commits (dids (k_log s)) in
  exists b, rr_header resp <= b /\ last_seen 0 got <= b /\ (b = rr_header resp \/ b = last_seen 0 got) /\
    copy_at h b lo hi (mirror (rr_kvs resp) (newer (rr_header resp) got)).
Proof. exact whole_mirror. Qed.
Print Assumptions C125_mirror.

(** C126.  Nobody ever disagrees about a revision: two events of the same revision, sent to
    anybody by any server at any time, are of the same key, of the same kind and, for puts,
    show the same key value; so does an answer that shows a version of that revision. *)
Theorem C126_events : forall cfg okf st s A conn rev id evs B ev A' conn' rev' id' evs' B' ev', tolerant okf -> kreach cfg okf st s ->
  k_log s = A ++ Said conn (MEvents rev id evs) :: B -> In ev evs ->
  k_log s = A' ++ Said conn' (MEvents rev' id' evs') :: B' -> In ev' evs' -> ev_rev ev = ev_rev ev' ->
  kv_key (ev_kv ev) = kv_key (ev_kv ev') /\ ev_delete ev = ev_delete ev' /\ (ev_delete ev = false -> ev_kv ev = ev_kv ev').
Proof. exact (fun cfg okf st s A conn rev id evs B ev A' conn' rev' id' evs' B' ev' T H => agree cfg okf st s T H A conn rev id evs B ev A' conn' rev' id' evs' B' ev'). Qed.
Print Assumptions C126_events.
Theorem C126_answers : forall cfg okf st s A conn rev id evs B ev before during after i q o x, tolerant okf -> kreach cfg okf st s ->
  k_log s = A ++ Said conn (MEvents rev id evs) :: B -> In ev evs ->
  answered_request (dids (k_log s)) before during after i q o -> (forall t, q = WTxn t -> is_compact t = false) -> shows o x ->
  kv_key x = kv_key (ev_kv ev) -> kv_mod x = ev_rev ev -> ev_delete ev = false /\ x = ev_kv ev.
Proof. exact (fun cfg okf st s A conn rev id evs B ev before during after i q o x T H => agree_shown cfg okf st s T H A conn rev id evs B ev before during after i q o x). Qed.
Print Assumptions C126_answers.

(** ---- an execution ---- *)
Definition no_cutb (f : fault) : bool := match f with NoFault | FailBefore _ => true | _ => false end.
Definition steadyb (b : bstate) (a : action) : bool :=
  let current := revision (history_of (snd (b_world b))) in
  match a with
  | AFetch _ => current - b_poll b <=? 100
  | AQuery i id f => no_cutb f && match nth_error (b_groups b) i with Some g => match pending_of id g with Some (r, _) => current - r_start r <? 100 | None => true end | None => true end
  | AEnv _ => false
  | _ => true
  end.
Definition okb (s : kstate) (x : kaction) : bool :=
  match x with
  | KNode (NAsk _ q) => match q with WTxn t => match txn_key t with Some k => negb (beqb k compact_rev_key) | None => false end | WRange _ => true | _ => false end
  | KNode (NCall _ f) => match f with NoFault => true | _ => false end
  | KNode (NBatch _ (BExecute _ f)) => match f with BFNone => true | _ => false end
  | KNode _ => true
  | KBack j a => match a with AWatch _ _ _ _ => false | _ => true end &&
      match nth_error (k_servers s) j with Some v => steadyb (seen (n_world (k_node s)) (k_back v)) a | None => true end
  | KStream j i (SQuery f) =>
      match nth_error (k_servers s) j with
      | Some v => match nth_error (k_streams v) i with
                  | Some (_, st0) => match s_creating st0 with Some id => steadyb (seen (n_world (k_node s)) (k_back v)) (AQuery (s_i st0) id f) | None => true end
                  | None => true end
      | None => true end
  | KStream _ _ (SBack _) => false
  | _ => true
  end.
Fixpoint krun (cfg : driver_cfg) (xs : list kaction) (s : kstate) : option kstate :=
  match xs with [] => Some s | x :: xs => if okb s x then match kstep cfg s x with Some s' => krun cfg xs s' | None => None end else None end.
Lemma steadyb_ok b a : steadyb b a = true -> steady b a.
Proof.
  destruct a; cbn; try discriminate; auto.
  - intros H. now apply Z.leb_le in H.
  - intros H. apply andb_true_iff in H. destruct H as [H1 H2]. split; [destruct f; cbn in *; auto; discriminate|].
    intros g r p G P. rewrite G, P in H2. now apply Z.ltb_lt in H2.
Qed.
Lemma okb_ok s x : okb s x = true -> kaction_ok clean true s x.
Proof.
  destruct x as [x| |j|j a|j|j i a]; cbn [okb kaction_ok]; auto.
  - destruct x as [|j q|i f| |j a| | |]; cbn [naction_ok]; auto.
    + destruct q as [t|r| | |k rev]; cbn [work_ok]; try discriminate; auto. destruct (txn_key t) as [k|]; [|discriminate]. rewrite negb_true_iff. intros H [= ->]. rewrite Bytes.beqb_refl in H. discriminate.
    + destruct f; try discriminate. intros _. unfold clean; cbn; auto.
    + destruct a; cbn [naction_ok]; auto. destruct f; try discriminate. intros _. unfold clean; cbn; auto.
  - intros H. apply andb_true_iff in H. destruct H as [H1 H2]. split; [destruct a; auto; discriminate|]. intros _ v N. rewrite N in H2. now apply steadyb_ok.
  - intros H _ v c st0 N NS. destruct a; cbn [back_ok]; auto; [discriminate|]. rewrite N, NS in H. change (s_creating (synced (n_world (k_node s)) v st0)) with (s_creating st0).
    destruct (s_creating st0); auto. now apply steadyb_ok.
Qed.
Lemma krun_reach cfg xs : forall s s', kreach cfg clean true s -> krun cfg xs s = Some s' -> kreach cfg clean true s'.
Proof.
  induction xs as [|x xs IH]; cbn [krun]; intros s s' H E; [injection E as <-; exact H|]. destruct (okb s x) eqn:O; [|discriminate].
  destruct (kstep cfg s x) as [s1|] eqn:ST; [|discriminate]. eapply IH; [|exact E]. econstructor; eauto using okb_ok.
Qed.

(** Two servers.  A client creates [ka] at server 0 and lists [ka, kd) there (revision 1),
    then watches from revision 2 at server 1; another creates [kb], updates [ka] at
    server 0; the poller of server 1 finds these, the client is sent them; it reads [ka]
    at server 0, and deletes it at the version of the event. *)
Definition exec_write (j : nat) (c : conditional) : list kaction :=
  [KNode (NAsk j (WTxn (request c))); KNode (NSubmit 0); KNode (NBatch j (BTake _)); KNode (NBatch j (BExecute _ BFNone)); KNode (NBatch j (BFinish _)); KNode (NReturn 0); KNode (NAnswer 0)].
Definition exec_range (j n : nat) (r : range_req) : list kaction :=
  KNode (NAsk j (WRange r)) :: repeat (KNode (NCall 0 NoFault)) n ++ [KNode (NAnswer 0)].
Definition poll_at (j : nat) : list kaction := [KBack j (AFetch NoFault); KBack j APublish].
Definition kd : bytes := [100%N].
Definition scenario : list kaction :=
  [KBoot; KBoot] ++ exec_write 0 (CreateKey ka v1 0) ++ exec_range 0 2 (range ka kd 0 0) ++
  [KOpen 1; KStream 1 0 (SCreate 0 ka kd 2); KStream 1 0 (SCheck NoFault); KStream 1 0 (SQuery NoFault); KStream 1 0 SFinish] ++
  exec_write 0 (CreateKey kb v2 0) ++ exec_write 0 (UpdateKey ka v3 1 0) ++ poll_at 1 ++
  [KStream 1 0 SRecv; KStream 1 0 SSend] ++ exec_range 0 2 (range ka [] 0 0) ++ exec_write 1 (DeleteKey ka 3) ++ [KCrash 1].
Definition kfinal : kstate := match krun cfg0 scenario kinit with Some s => s | None => kinit end.
Definition asked i q : knote := Did (Asked i q).
Definition writes i c : list knote := [asked i (WTxn (request c)); Did (Committed i (effect c))].
Definition done i c rev : knote := Did (Answered i (ReTxn (Ok (success c rev)))).
Definition ev1 : event := Event false (KV ka v1 0 1 1) None.
Definition ev2 : event := Event false (KV kb v2 0 2 2) None.
Definition ev3 : event := Event false (KV ka v3 0 1 3) (Some (KV ka v1 0 1 1)).
(** before the events are sent, and after *)
Definition part1 : list knote :=
  writes 0 (CreateKey ka v1 0) ++ [done 0 (CreateKey ka v1 0) 1;
  asked 1 (WRange (range ka kd 0 0)); Did (Answered 1 (ReRange (Ok (RangeResp 1 [KV ka v1 0 1 1] false 1))));
  Watched 0 1 ka kd 2; Said 0 (MCreated 1)] ++
  writes 2 (CreateKey kb v2 0) ++ done 2 (CreateKey kb v2 0) 2 ::
  writes 3 (UpdateKey ka v3 1 0) ++ [done 3 (UpdateKey ka v3 1 0) 3].
Definition part2 : list knote :=
  [asked 4 (WRange (range ka [] 0 0)); Did (Answered 4 (ReRange (Ok (RangeResp 3 [KV ka v3 0 1 3] false 0))))] ++
  writes 5 (DeleteKey ka 3) ++ [done 5 (DeleteKey ka 3) 4].
Lemma kfinal_log : k_log kfinal = part1 ++ Said 0 (MEvents 3 1 [ev1; ev2; ev3]) :: part2.
Proof. vm_compute. reflexivity. Qed.
Lemma kfinal_reach : kreach cfg0 clean true kfinal.
Proof. apply (krun_reach cfg0 scenario kinit); [constructor|]. vm_compute. reflexivity. Qed.
Lemma clean_tolerant : tolerant clean.
Proof. unfold tolerant, clean; cbn; auto. Qed.

Example C121_nonvacuous : tolerant clean /\ kreach cfg0 clean true kfinal /\
  k_log kfinal = part1 ++ Said 0 (MEvents 3 1 [ev1; ev2; ev3]) :: part2 /\ In ev3 [ev1; ev2; ev3].
Proof. split; [exact clean_tolerant|]. split; [exact kfinal_reach|]. split; [exact kfinal_log|cbn; auto]. Qed.
Example C122_nonvacuous : exists before during after, kreach cfg0 clean true kfinal /\
  k_log kfinal = part1 ++ Said 0 (MEvents 3 1 [ev1; ev2; ev3]) :: part2 /\ In (asked 4 (WRange (range ka [] 0 0))) part2 /\
  answered_request (dids (k_log kfinal)) before during after 4 (WRange (range ka [] 0 0)) (ReRange (Ok (RangeResp 3 [KV ka v3 0 1 3] false 0))) /\
  revision (commits during) <= 100 /\ kv_key (ev_kv ev3) = ka.
Proof.
  exists (firstn 11 (dids (k_log kfinal))), [], (skipn 13 (dids (k_log kfinal))). split; [exact kfinal_reach|]. split; [exact kfinal_log|].
  split; [cbn; auto|]. split; [vm_compute; reflexivity|]. split; [vm_compute; congruence|reflexivity].
Qed.
Example C123_nonvacuous : exists L1 L2, kreach cfg0 clean true kfinal /\
  k_log kfinal = part1 ++ Said 0 (MEvents 3 1 [ev1; ev2; ev3]) :: part2 /\ ev_delete ev3 = false /\
  In (Asked 5 (WTxn (request (DeleteKey ka 3)))) (dids (k_log kfinal)) /\ expects (DeleteKey ka 3) (kv_key (ev_kv ev3)) (ev_rev ev3) /\
  dids (k_log kfinal) = L1 ++ Committed 5 (effect (DeleteKey ka 3)) :: L2.
Proof.
  exists (firstn 14 (dids (k_log kfinal))), (skipn 15 (dids (k_log kfinal))). split; [exact kfinal_reach|]. split; [exact kfinal_log|].
  split; [reflexivity|]. split; [rewrite kfinal_log; cbn; tauto|]. split; [cbn; auto with zarith|vm_compute; reflexivity].
Qed.
(** the watch from revision 2 is sent the change of revision 1 too, as the poller of
    server 1 had not seen it *)
Example C124_nonvacuous : kreach cfg0 clean true kfinal /\
  k_log kfinal = part1 ++ Said 0 (MEvents 3 1 [ev1; ev2; ev3]) :: part2 /\ In (Watched 0 1 ka kd 2) part1 /\
  sent (said 0 (part1 ++ [Said 0 (MEvents 3 1 [ev1; ev2; ev3])])) 1 = [ev1; ev2; ev3].
Proof. split; [exact kfinal_reach|]. split; [exact kfinal_log|]. split; [cbn; tauto|vm_compute; reflexivity]. Qed.
Example C125_nonvacuous : exists before during after, kreach cfg0 clean true kfinal /\ kd <> [] /\
  answered_request (dids (k_log kfinal)) before during after 1 (WRange (range ka kd 0 0)) (ReRange (Ok (RangeResp 1 [KV ka v1 0 1 1] false 1))) /\
  revision (commits during) <= 100 /\ k_log kfinal = part1 ++ Said 0 (MEvents 3 1 [ev1; ev2; ev3]) :: part2 /\
  In (Watched 0 1 ka kd (1 + 1)) part1 /\ newer 1 [ev1; ev2; ev3] = [ev2; ev3].
Proof.
  exists (firstn 3 (dids (k_log kfinal))), [], (skipn 5 (dids (k_log kfinal))). split; [exact kfinal_reach|]. split; [discriminate|].
  split; [vm_compute; reflexivity|]. split; [vm_compute; congruence|]. split; [exact kfinal_log|]. split; [cbn; tauto|vm_compute; reflexivity].
Qed.
Example C126_nonvacuous : exists before during after, kreach cfg0 clean true kfinal /\
  k_log kfinal = part1 ++ Said 0 (MEvents 3 1 [ev1; ev2; ev3]) :: part2 /\
  answered_request (dids (k_log kfinal)) before during after 4 (WRange (range ka [] 0 0)) (ReRange (Ok (RangeResp 3 [KV ka v3 0 1 3] false 0))) /\
  shows (ReRange (Ok (RangeResp 3 [KV ka v3 0 1 3] false 0))) (KV ka v3 0 1 3) /\ ev_rev ev3 = 3.
Proof.
  exists (firstn 11 (dids (k_log kfinal))), [], (skipn 13 (dids (k_log kfinal))). split; [exact kfinal_reach|]. split; [exact kfinal_log|].
  split; [vm_compute; reflexivity|]. split; [cbn; auto|reflexivity].
Qed.
