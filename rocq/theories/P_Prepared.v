(** C43, C57, C108: the cache of prepared statements.  A run of any number of concurrent
    calls is a list of actions; [preach s]: [s] is reached by one.  [p_handed]: the
    (query, statement) pairs given to callers; [p_prepared]: those prepared on the
    database; [p_closed]: the statements closed, one entry per close. *)
From Coq Require Import List ZArith Bool Lia Sorting.Permutation.
From Verif Require Import Bytes Prog Prepared PreparedProofs.
Import ListNotations.

(** Two callers get the same statement iff they asked for the same query, and it was
    prepared once. *)
Theorem C43_once : forall s, preach s ->
  (forall q1 n1 q2 n2, In (q1, n1) (p_handed s) -> In (q2, n2) (p_handed s) -> (q1 = q2 <-> n1 = n2)) /\
  NoDup (map fst (p_prepared s)) /\ incl (p_handed s) (p_prepared s).
Proof. exact prepared_cache. Qed.
Print Assumptions C43_once.
(** No statement is closed before Close; after it, each was closed exactly once. *)
Theorem C43_closed : forall s, preach s ->
  (p_open s = true -> p_closed s = []) /\
  (p_open s = false -> p_closed s = map snd (p_prepared s) /\ NoDup (p_closed s)).
Proof. exact prepared_closed. Qed.
Print Assumptions C43_closed.
(** After Close nothing more is prepared, cached or handed out: callers get an error,
    also those that had found the cache empty before Close. *)
Theorem C43_refuses : forall acts s, preach s -> p_open s = false ->
  p_handed (fold_left pstep acts s) = p_handed s /\ p_prepared (fold_left pstep acts s) = p_prepared s /\
  p_closed (fold_left pstep acts s) = p_closed s.
Proof. exact prepared_refuses. Qed.
Print Assumptions C43_refuses.
Theorem C43_refused_error : forall s i q fails, preach s -> p_open s = false -> nth_error (p_waiting s) i = Some q ->
  p_refused (pstep s (PPrepare i fails)) = S (p_refused s) /\ p_panicked (pstep s (PPrepare i fails)) = p_panicked s.
Proof. exact prepared_refused. Qed.
Print Assumptions C43_refused_error.
(** Every call is answered at most once: the first step of a call hands out a statement
    or leaves the call waiting, the second takes exactly that call off the waiting ones
    and hands it a statement for its query, or refuses it (only when closed), or reports
    the error of the database. *)
Theorem C43_looked_up : forall s q, let s' := pstep s (PLookup q) in
  (exists n, p_handed s' = p_handed s ++ [(q, n)] /\ p_waiting s' = p_waiting s) \/
  (p_handed s' = p_handed s /\ p_waiting s' = p_waiting s ++ [q]).
Proof. exact prepared_looked_up. Qed.
Print Assumptions C43_looked_up.
Theorem C43_answered : forall s i q fails, nth_error (p_waiting s) i = Some q ->
  let s' := pstep s (PPrepare i fails) in
  Permutation (p_waiting s) (q :: p_waiting s') /\
  ((exists n, p_handed s' = p_handed s ++ [(q, n)] /\ p_refused s' = p_refused s) \/
   (p_handed s' = p_handed s /\ p_refused s' = S (p_refused s) /\ p_open s = false) \/
   (p_handed s' = p_handed s /\ p_refused s' = p_refused s /\ fails = true /\ p_open s = true)).
Proof. exact prepared_answered. Qed.
Print Assumptions C43_answered.

Definition qa : bytes := [65%N].
Definition qb : bytes := [66%N].
(** two racing callers of qa, one of qb whose first attempt fails, one late, Close *)
Definition prun : list paction :=
  [PLookup qa; PLookup qa; PLookup qb; PPrepare 0 false; PPrepare 1 true; PPrepare 0 false; PLookup qb; PPrepare 0 false; PLookup qa; PLookup [67%N]; PClose; PPrepare 0 false].
Lemma prun_preach acts : preach (fold_left pstep acts p_init).
Proof.
  assert (G : forall s, preach s -> preach (fold_left pstep acts s)) by (induction acts; intros s H; cbn; auto; apply IHacts; now constructor).
  apply G. constructor.
Qed.
Example C43_nonvacuous : preach (fold_left pstep prun p_init) /\
  p_handed (fold_left pstep prun p_init) = [(qa, 0%nat); (qa, 0%nat); (qb, 1%nat); (qa, 0%nat)] /\
  p_closed (fold_left pstep prun p_init) = [0%nat; 1%nat] /\ p_refused (fold_left pstep prun p_init) = 1%nat.
Proof. split; [apply prun_preach|vm_compute; auto]. Qed.

(** C108.  Reads and writes through the cache never panic, open or closed (and if Close
    is called once and no transaction or connection is asked for afterwards, nothing
    does); a second Close, a transaction or a connection after Close does. *)
Theorem C108_no_panic : forall acts,
  (forall pre a post, acts = pre ++ a :: post -> In PClose pre -> match a with PLookup _ | PPrepare _ _ => True | _ => False end) ->
  p_panicked (fold_left pstep acts p_init) = false.
Proof. exact prepared_nopanic. Qed.
Print Assumptions C108_no_panic.
Example C108_nonvacuous :
  (forall pre a post, prun = pre ++ a :: post -> In PClose pre -> match a with PLookup _ | PPrepare _ _ => True | _ => False end) /\ In PClose prun.
Proof.
  split; [|cbn; tauto]. intros pre a post E P.
  assert (H : forall pre a post (l : list paction), l = pre ++ a :: post -> In PClose pre ->
    (fix ok (l : list paction) : bool := match l with [] => true | PClose :: r => forallb (fun x => match x with PLookup _ | PPrepare _ _ => true | _ => false end) r | _ :: r => ok r end) l = true ->
    match a with PLookup _ | PPrepare _ _ => True | _ => False end).
  { clear. induction pre as [|x pre IH]; intros a post l -> P H; [destruct P|]. cbn [app] in H. destruct x;
      try (destruct P as [P|P]; [discriminate|]; eapply IH; [reflexivity|exact P|exact H]).
    rewrite forallb_app in H. apply andb_true_iff in H. destruct H as [_ H]. cbn in H. destruct a; (exact Logic.I || discriminate). }
  eapply H; [exact E|exact P|reflexivity].
Qed.
Theorem C57_refuted : forall a, In a [PClose; PBeginTx; PConn; PDirect] ->
  exists s, preach s /\ p_panicked s = false /\ p_panicked (pstep s a) = true.
Proof. exact prepared_panics. Qed.
Print Assumptions C57_refuted.
