(** C53, C54, C60, C61, C112: listener, trace filters, SQLite metrics. *)
From Coq Require Import String.
From Coq Require Import List ZArith NArith Bool Lia.
From Verif Require Import Bytes Server Misc MiscProofs.
Import ListNotations.
Open Scope string_scope.
Open Scope list_scope.
Open Scope Z_scope.

(** C53: a listen value is split at its first "://"; without one the network is empty. *)
Theorem C53_split : forall s n a, network_and_address s = (n, a) <->
  (s = n ++ txt "://" ++ a /\ ~ contains n) \/ (~ contains s /\ n = [] /\ a = s).
Proof. exact split_lemma. Qed.
Print Assumptions C53_split.
(** "net://rest" listens on network "net", which must be one that exists. *)
Theorem C53_scheme : forall rm bd ok mode net a n, ~ contains net ->
  (net = txt "unix" -> listen rm bd ok mode (net ++ txt "://" ++ a) n = unix_listen rm bd mode n) /\
  (net <> txt "unix" -> listen rm bd ok mode (net ++ txt "://" ++ a) n = ([], known_network net && ok)).
Proof.
  intros rm bd ok mode net a n N. unfold listen.
  assert (L : listen_address (net ++ txt "://" ++ a) = net ++ txt "://" ++ a) by (destruct net; reflexivity). rewrite L. split; intros E.
  - subst net. apply unix_listener.
  - now apply other_listener.
Qed.
Print Assumptions C53_scheme.
(** The empty value means the default unix socket. *)
Theorem C53_default : forall rm bd ok mode n, listen rm bd ok mode [] n = listen rm bd ok mode (txt "unix://kine.sock") n /\
  listen rm bd ok mode [] n = unix_listen rm bd mode n.
Proof. intros. split; reflexivity. Qed.
Print Assumptions C53_default.
(** C84.  A value without scheme is not treated as a unix socket: listening always fails. *)
Theorem C84_refuted : forall rm bd ok mode s n, s <> [] -> ~ contains s ->
  listen rm bd ok mode s n = ([], false).
Proof. intros rm bd ok mode s n E H. destruct s as [|c s]; [congruence|]. exact (no_scheme_fails (c :: s) rm bd ok mode n H). Qed.
Print Assumptions C84_refuted.
Example C53_nonvacuous :
  network_and_address (txt "tcp://127.0.0.1:12379") = (txt "tcp", txt "127.0.0.1:12379") /\
  network_and_address (txt "unix:///a://b") = (txt "unix", txt "/a://b") /\
  network_and_address (txt "/var/kine.sock") = ([], txt "/var/kine.sock") /\
  listen true true true 493 (txt "unix://kine.sock") (Some (Sock 384)) = ([None; Some (Sock 493); Some (Sock 384)], true) /\
  listen true true true 493 (txt "/var/kine.sock") None = ([], false).
Proof. vm_compute. repeat split. Qed.

(** C162 (part of C60): a unix listener comes up whatever was left at its path, and its socket is
    accessible to the owner only when the call returns. *)
Theorem C162_unix_socket : forall mode n, 
  snd (unix_listen true true mode n) = true /\ last (fst (unix_listen true true mode n)) None = Some (Sock 384).
Proof. intros mode n. split; reflexivity. Qed.
Print Assumptions C162_unix_socket.
Example C60_nonvacuous : unix_listen true true 493 (Some (Sock 511)) = ([None; Some (Sock 493); Some (Sock 384)], true) /\
  snd (unix_listen false true 493 (Some (Sock 511))) = false.
Proof. split; reflexivity. Qed.
(** It reports success only then. *)
Theorem C162_mode_on_success : forall rm bd mode n,
  snd (unix_listen rm bd mode n) = true -> last (fst (unix_listen rm bd mode n)) None = Some (Sock 384).
Proof. intros rm bd mode n. destruct rm, bd, n; cbn; try discriminate; reflexivity. Qed.
Print Assumptions C162_mode_on_success.
(** In between it has the mode the umask gives, 0777 for an empty umask; and whatever
    else was at that path, a regular file for instance, is deleted. *)
Theorem C60_window_refuted : exists n, snd (unix_listen true true 511 n) = true /\
  n = Some (OtherFile 420) /\ In (Some (Sock 511)) (fst (unix_listen true true 511 n)).
Proof. exists (Some (OtherFile 420)). cbn. auto. Qed.
Print Assumptions C60_window_refuted.

(** C54: for every sequence of ended spans and exports, the spans exported so far
    followed by those waiting are exactly the ended spans selected by the options, in
    order. *)
Theorem C54_selected : forall n d acts, n <> BadPattern -> Forall (fun s => 0 <= sp_duration s) (ended acts) ->
  let t := fold_left trace_step acts (setup_tracer n d) in
  exists sel, (forall s, 0 <= sp_duration s -> (sel s = true <-> matches_name n s /\ long_enough d s)) /\
    tr_exported t ++ tr_queue t = filter sel (ended acts).
Proof. exact trace_lemma. Qed.
Print Assumptions C54_selected.
(** If the expression does not compile, nothing is exported at all. *)
Theorem C54_bad_pattern : forall d acts, tr_exported (fold_left trace_step acts (setup_tracer BadPattern d)) = [].
Proof. exact (fun d acts => trace_none acts (setup_tracer BadPattern d) eq_refl eq_refl). Qed.
Print Assumptions C54_bad_pattern.
(** C81.  Shutdown does not flush: selected spans that are waiting are lost. *)
Theorem C81_refuted : exists acts s,
  matches_name (Pattern (fun _ => true)) s /\ long_enough (Duration 5) s /\ In s (ended acts) /\
  tr_exported (fold_left trace_step (acts ++ [TShutdown]) (setup_tracer (Pattern (fun _ => true)) (Duration 5))) = [].
Proof. exists [TEnd (Span (txt "list") 7)], (Span (txt "list") 7). cbn. repeat split; auto. discriminate. Qed.
Print Assumptions C81_refuted.
Example C54_nonvacuous :
  let t := fold_left trace_step [TEnd (Span (txt "a") 10); TEnd (Span (txt "b") 10); TEnd (Span (txt "a") 4); TExport 1; TEnd (Span (txt "a") 5)]
             (setup_tracer (Pattern (beqb (txt "a"))) (Duration 5)) in
  tr_exported t = [Span (txt "a") 10] /\ tr_queue t = [Span (txt "a") 5].
Proof. vm_compute. split; reflexivity. Qed.

(** C112: whatever the interleaving of finished statements, fetches and resets, the
    values handed out by resets and what is left add up to what was collected (modulo
    2^64), for the counters of writes, hits and times. *)
Theorem C112_conserved : forall k calls ops, sound_counter k -> NoDup (flat_map readers calls) ->
  interleave (map mcall_ops calls) ops ->
  let s := fold_left mstep ops metrics_init in
  zsum (flat_map (sample_of k) calls) mod 2 ^ 64 =
  (zsum (map (fun r => m_read s r k) (flat_map resetters calls)) + m_global s k) mod 2 ^ 64.
Proof. exact metrics_lemma. Qed.
Print Assumptions C112_conserved.
(** an interleaving is in C61_nonvacuous *)
Example C112_nonvacuous : sound_counter CWrites /\ NoDup (flat_map readers [Finished (Sample 1 2 3 4 5 true); Reset 0; Fetch 1]).
Proof. split; [unfold sound_counter; cbn; tauto|]. cbn. repeat constructor; cbn; intuition lia. Qed.
(** C61.  Misses are never reported: the field holds the spills, and a reset discards the
    misses; the field of the spills is always 0. *)
Theorem C61_misses_refuted :
  (forall calls ops, interleave (map mcall_ops calls) ops ->
     forall r, m_read (fold_left mstep ops metrics_init) r CSpills = 0) /\
  exists calls ops, calls = [Finished (Sample 1 2 30 4 500 true); Reset 0] /\ interleave (map mcall_ops calls) ops /\
    let s := fold_left mstep ops metrics_init in
    m_read s 0%nat CMisses = 4 /\ m_global s CMisses = 0.
Proof.
  split; [exact spills_never|]. exists [Finished (Sample 1 2 30 4 500 true); Reset 0], (collect_ops (Sample 1 2 30 4 500 true) ++ metrics_ops true 0).
  split; [reflexivity|]. split; [|vm_compute; split; reflexivity].
  cbn [map mcall_ops collect_ops metrics_ops app].
  do 5 apply (inter_cons [] _ [_]). do 6 apply (inter_cons [_] _ []). cbn. constructor. repeat constructor.
Qed.
Print Assumptions C61_misses_refuted.
Example C61_nonvacuous : exists ops,
  interleave (map mcall_ops [Finished (Sample 1 2 3 4 5 true); Reset 0; Fetch 1]) ops /\
  m_read (fold_left mstep ops metrics_init) 0%nat CWrites = 1 /\ m_read (fold_left mstep ops metrics_init) 1%nat CWrites = 0 /\
  m_global (fold_left mstep ops metrics_init) CHits = 2.
Proof.
  eexists. split.
  - cbn [map mcall_ops collect_ops metrics_ops sm_readonly sm_writes sm_hits sm_misses sm_spills sm_time].
    apply (inter_cons [] _ [_; _]). apply (inter_cons [_] _ [_]). apply (inter_cons [_] _ [_]).
    do 6 apply (inter_cons [_; _] _ []). do 4 apply (inter_cons [_] _ [_]). do 4 apply (inter_cons [] _ [_; _]).
    cbn [app]. constructor. repeat constructor.
  - vm_compute. repeat split.
Qed.
