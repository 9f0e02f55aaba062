(** Proofs about Rpc.v. *)
From Coq Require Import List ZArith Bool Lia String.
From Verif Require Import Bytes Spec Sql System Prog Backend Limited Lease Rpc.
Import ListNotations.
Open Scope Z_scope.
Open Scope list_scope.

Inductive reader {A} : prog A -> Prop :=
| reader_ret a : reader (Ret a)
| reader_call c k : op_of c = None -> (forall r, reader (k r)) -> reader (Call c k).
Lemma sem_reads f c w : op_of c = None -> fst (sem f c w) = w.
Proof. intros E. destruct f; cbn [sem fst]; auto; unfold weffect; now rewrite E. Qed.
Lemma reader_others {A} (p : prog A) : reader p -> forall sched w,
  exists n, (n <= List.length sched)%nat /\ fst (exec p sched w) = only_others n sched w.
Proof.
  induction 1 as [a|c k E R IH]; intros sched w; [exists 0%nat; split; [lia|reflexivity]|].
  cbn [exec]. destruct sched as [|[env f] sched]; [exists 0%nat; split; [lia|reflexivity]|].
  destruct (sem f c (fold_left wapply env w)) as [w1 r] eqn:SE.
  assert (W : w1 = fold_left wapply env w) by (pose proof (sem_reads f c (fold_left wapply env w) E) as X; rewrite SE in X; exact X). subst w1.
  destruct (IH r sched (fold_left wapply env w)) as (n & L & X). exists (S n). split; [cbn [List.length]; lia|]. rewrite X.
  unfold only_others. cbn [firstn map fst List.concat]. rewrite fold_left_app. reflexivity.
Qed.
Lemma reader_bind {A B} (p : prog A) (f : A -> prog B) : reader p -> (forall a, reader (f a)) -> reader (pbind p f).
Proof. induction 1 as [a|c k E R IH]; intros F; cbn [pbind]; auto. constructor; auto. Qed.
Lemma reader_rbind {A B} (p : prog (result A)) (f : A -> prog (result B)) : reader p -> (forall a, reader (f a)) -> reader (rbind p f).
Proof. intros P F. unfold rbind. apply reader_bind; auto. intros [a|e]; auto. constructor. Qed.
Lemma reader_retry n c : op_of c = None -> reader (with_retry n c).
Proof.
  intros E. induction n as [|n IH]; cbn [with_retry]; constructor; auto. intros [x|e]; [constructor|]. destruct n; [constructor|]. destruct (retryable e); [exact IH|constructor].
Qed.
Ltac reads := repeat first
  [ match goal with |- reader (with_retry ?n ?c) => exact (reader_retry n c eq_refl) end | apply reader_rbind | progress intros
  | match goal with |- reader (Ret _) => constructor end
  | match goal with |- reader (match ?x with _ => _ end) => destruct x end
  | match goal with |- reader (if ?x then _ else _) => destruct x end ].
Lemma reader_interval : reader d_get_compact_revision.
Proof. unfold d_get_compact_revision, d_query. reads. Qed.
Lemma reader_list cfg k re l r : reader (b_list cfg k re l r).
Proof. unfold b_list. apply reader_rbind; [apply reader_interval|]. intros [c0 c1]. unfold d_list, d_query. reads. Qed.
Lemma reader_count cfg k re r : reader (b_count cfg k re r).
Proof. unfold b_count. apply reader_rbind; [apply reader_interval|]. intros [c0 c1]. unfold d_count, d_query. reads. Qed.
Lemma reader_range cfg r : reader (s_range cfg r).
Proof.
  unfold s_range. repeat (match goal with |- reader (if ?x then _ else _) => destruct x; [constructor|] end).
  unfold l_range. destruct (r_range_end r) as [|b bs] eqn:E.
  - unfold l_get. apply reader_rbind; [apply reader_list|]. reads.
  - unfold l_list. rewrite E. destruct (r_count_only r).
    + apply reader_rbind; [apply reader_count|]. reads.
    + apply reader_rbind; [apply reader_list|]. intros [rev kvs]. destruct (_ && _); [|constructor]. apply reader_rbind; [apply reader_count|]. reads.
Qed.
Lemma reader_reply {A} (f : A -> reply) p : reader p -> reader (as_reply f p).
Proof. intros H. apply reader_bind; auto. intros; constructor. Qed.
Lemma serve_reads cfg x : (forall t, x <> RTxn t) -> forall sched w,
  exists n, (n <= List.length sched)%nat /\ fst (exec (serve cfg x) sched w) = only_others n sched w.
Proof.
  intros NT. apply reader_others. destruct x; cbn [serve]; try (apply reader_reply; constructor); [apply reader_reply, reader_range|]. exfalso. now apply (NT t).
Qed.
Lemma serve_refused cfg x : match x with RRange _ | RTxn _ | RCompact _ | RLeaseGrant _ => False | _ => True end ->
  forall sched w, exec (serve cfg x) sched w = (w, Some (Err EUnsupported)).
Proof. destruct x; try contradiction; reflexivity. Qed.
Lemma serve_compact cfg rev sched w : exec (serve cfg (RCompact rev)) sched w = (w, Some (Ok (ReCompact rev))).
Proof. reflexivity. Qed.

(** Status. *)
Lemma size_query_ok n : forall sched rs, size_query n sched = Some (Ok rs) ->
  exists i x, (i < Nat.max 1 n)%nat /\ nth_error sched i = Some x /\ size_try x = Ok rs /\
    forall j, (j < i)%nat -> exists p, In (nth_error sched j) [Some (p, FailBefore EBusy); Some (p, FailAfter EBusy)].
Proof.
  induction n as [|n IH]; intros [|x sched] rs; cbn [size_query]; try discriminate.
  - destruct (size_try x) as [rs'|e] eqn:T; [|discriminate]. intros [= ->]. exists 0%nat, x. repeat split; auto. intros j L. lia.
  - destruct (size_try x) as [rs'|e] eqn:T; [intros [= ->]; exists 0%nat, x; repeat split; auto; [lia|intros j L; lia]|].
    destruct n as [|n]; [discriminate|]. destruct (retryable e) eqn:R; [|discriminate]. intros H. destruct (IH _ _ H) as (i & y & L & N & TY & B).
    exists (S i), y. split; [lia|]. split; [exact N|]. split; [exact TY|]. intros [|j] LJ; [|apply B; lia].
    cbn [nth_error]. destruct e; try discriminate. destruct x as [p []]; cbn in T; try discriminate; injection T as ->; exists p; cbn; auto.
Qed.
Lemma status_ok sched a : status sched = Some (Ok a) ->
  sr_version a = Server.txt "3.5.13" /\
  exists i p f, (i < 500)%nat /\ nth_error sched i = Some (p, f) /\ sr_db_size a = (pg_count p - pg_free p) * pg_size p /\
    forall j, (j < i)%nat -> exists q, In (nth_error sched j) [Some (q, FailBefore EBusy); Some (q, FailAfter EBusy)].
Proof.
  unfold status, get_size. destruct (size_query max_retries sched) as [[rs|e]|] eqn:Q; try discriminate.
  destruct (size_query_ok max_retries _ _ Q) as (i & [p f] & L & N & T & B).
  assert (R : rs_rows rs = [] \/ rs_rows rs = [(pg_count p - pg_free p) * pg_size p]).
  { destruct f as [| | |k e'|]; cbn in T; try discriminate; injection T as <-; cbn; auto. destruct k as [|[|k]]; cbn; auto. }
  destruct R as [R|R]; rewrite R; [destruct (rs_err rs); discriminate|]. intros [= <-]. split; [reflexivity|].
  exists i, p, f. split; [exact L|]. split; [exact N|]. split; [reflexivity|exact B].
Qed.
Lemma status_bounds p : legal_file p -> 0 <= (pg_count p - pg_free p) * pg_size p <= pg_count p * pg_size p /\ pg_count p * pg_size p < 9223372036854775808.
Proof. intros (S1 & F & C). split; [split|]; nia. Qed.
Lemma size_query_live n : forall pre p post, (List.length pre < n)%nat -> Forall (fun x => exists q, In x [(q, FailBefore EBusy); (q, FailAfter EBusy)]) pre ->
  size_query n (pre ++ (p, NoFault) :: post) = Some (Ok (RowSet (size_rows p) None)).
Proof.
  induction n as [|n IH]; intros [|x pre] p post L F; cbn [List.length] in L; try lia; [reflexivity|].
  inversion F as [|? ? (q & I) F']; subst. destruct n as [|n]; [lia|].
  assert (T : size_try x = Err EBusy) by (destruct I as [<-|[<-|[]]]; reflexivity).
  cbn [app size_query]. rewrite T. cbn [retryable]. apply (IH pre p post); [lia|exact F'].
Qed.
Lemma status_live pre p post : (List.length pre < 500)%nat -> Forall (fun x => exists q, In x [(q, FailBefore EBusy); (q, FailAfter EBusy)]) pre ->
  status (pre ++ (p, NoFault) :: post) = Some (Ok (StatusResp (Server.txt "3.5.13") ((pg_count p - pg_free p) * pg_size p))).
Proof. intros L F. unfold status, get_size. rewrite (size_query_live max_retries pre p post L F). reflexivity. Qed.
