(** C70, C71, C106, C135: connections.
    [pool_reach max s]: [s] is reachable on a server whose connection limit is [max]
    (0 or less: none), any requests, batches and compactions arriving at any time,
    database calls succeeding or failing; [pool_step s i ok]: the next step of user
    [i], [None] if it has to wait or is done. *)
From Coq Require Import List ZArith Bool Lia.
From Verif Require Import ConnPool ConnPoolProofs.
Import ListNotations.
Open Scope Z_scope.

(** Without a limit or with one of at least three, users never wait for each other
    forever: however the steps are scheduled, they come to an end, and at the end
    everybody is done. *)
Theorem C135_finish : forall max s, pool_reach max s -> (max <= 0 \/ 3 <= max) ->
  (exists bound, forall n s', pool_runs n s s' -> (n <= bound)%nat) /\
  forall n s', pool_runs n s s' -> (forall i ok, pool_step s' i ok = None) -> all_done s'.
Proof.
  intros max s R M. split.
  - exists (work s). intros n s' RU. apply (finishes max s R M n s' RU).
  - intros n s' RU. apply (finishes max s R M n s' RU).
Qed.
Print Assumptions C135_finish.
(** C106.  The limit is respected: transactions between their begin and the end of
    their commit or rollback, statements being prepared (each needs a connection of its
    own, also in a transaction) and statements running on their own are together never
    more than the limit.  The count is written out here, apart from the model's. *)
Definition in_transaction (u : user) : bool :=
  match u_role u, u_pc u with Single, _ | _, Begin | _, Done => false | _, _ => true end.
Definition preparing (u : user) : bool := match u_pc u with Prepare _ => true | _ => false end.
Definition running_alone (u : user) : bool := match u_role u, u_pc u with Single, Run _ => true | _, _ => false end.
Definition count (f : user -> bool) (s : pool) : Z := Z.of_nat (length (filter f (p_users s))).
Lemma in_use_count s : in_use s = count in_transaction s + count preparing s + count running_alone s.
Proof.
  unfold in_use, count. induction (p_users s) as [|u l IH]; [reflexivity|].
  cbn [fold_right filter]. rewrite IH. unfold holds. destruct u as [r p t].
  destruct r, p; cbn [is_tx u_role u_pc in_transaction preparing running_alone length]; lia.
Qed.
Theorem C106_limit : forall max s, pool_reach max s -> 0 < max ->
  count in_transaction s + count preparing s + count running_alone s <= max.
Proof. intros max s R M. rewrite <- in_use_count. exact (limit_kept max s R M). Qed.
Print Assumptions C106_limit.

(** steps of users 0, 1, 2.. as listed *)
Fixpoint play (l : list nat) (s : pool) : option pool :=
  match l with [] => Some s | i :: l => match pool_step s i true with Some s' => play l s' | None => None end end.
Lemma play_reach max l : forall s s', pool_reach max s -> play l s = Some s' -> pool_reach max s'.
Proof.
  induction l as [|i l IH]; cbn [play]; intros s s' R H; [injection H as <-; exact R|].
  destruct (pool_step s i true) as [s1|] eqn:E; [|discriminate]. eapply IH; [|exact H]. eapply pool_next; eauto.
Qed.
(** a request, a compaction of three statements and a batch of two writes *)
Definition crowd (max : Z) : pool :=
  arrive (arrive (arrive (PoolState max [] None []) Single [7%nat]) Compactor [1; 2; 3]%nat) Worker [4; 5]%nat.
Lemma crowd_reach max : pool_reach max (crowd max).
Proof.
  unfold crowd. apply pool_arrive; [apply pool_arrive; [apply pool_arrive; [apply pool_init|]|]|].
  - exists 7%nat. reflexivity.
  - intros (u & [<-|[]] & R & _). discriminate.
  - intros (u & [<-|[<-|[]]] & R & _); discriminate.
Qed.
Example C135_nonvacuous : exists s, pool_reach 3 s /\ in_use s = 3 /\
  map u_pc (p_users s) = [WantLock 7; Prepare 1; Lookup 4]%nat.
Proof.
  assert (H : play [0; 1; 2; 1; 1; 1; 1]%nat (crowd 3) = play [0; 1; 2; 1; 1; 1; 1]%nat (crowd 3)) by reflexivity.
  vm_compute in H. match type of H with ?x = Some ?s => exists s end.
  split; [|split; reflexivity]. eapply play_reach; [apply crowd_reach|]. instantiate (1 := [0; 1; 2; 1; 1; 1; 1]%nat). vm_compute. reflexivity.
Qed.

(** With a limit of one the first compaction (or batch of a new statement) hangs, and
    with it every request, for good: whatever happens afterwards, nobody ever takes
    another step. *)
Theorem C70_one_refuted : exists s, pool_reach 1 s /\ (exists u, In u (p_users s) /\ u_role u = Compactor /\ u_pc u <> Done) /\
  forall s', pool_later s s' -> forall i ok, pool_step s' i ok = None.
Proof.
  exists (PoolState 1 [] (Some 0%nat) [User Compactor (WantConn 1%nat) [2; 3]%nat]). split; [|split].
  - eapply (play_reach 1 [0; 0; 0; 0]%nat (arrive (PoolState 1 [] None []) Compactor [1; 2; 3]%nat)); [|vm_compute; reflexivity].
    apply pool_arrive; [apply pool_init|]. intros (u & [] & _).
  - eexists. split; [left; reflexivity|]. split; [reflexivity|discriminate].
  - intros s' L. apply (fun S => proj2 (stuck_forever _ _ S L)). split; [discriminate|]. split; [reflexivity|]. intros u [<-|[]]. exact Logic.I.
Qed.
Print Assumptions C70_one_refuted.
(** With a limit of two a batch and a compaction can block each other, and everybody. *)
Theorem C70_two_refuted : exists s, pool_reach 2 s /\ (forall r, busy s r) /\
  forall s', pool_later s s' -> forall i ok, pool_step s' i ok = None.
Proof.
  assert (H : play [1; 2; 1; 1; 1]%nat (crowd 2) = play [1; 2; 1; 1; 1]%nat (crowd 2)) by reflexivity.
  vm_compute in H. match type of H with ?x = Some ?s => exists s end. clear H.
  split; [|split].
  - eapply (play_reach 2 [1; 2; 1; 1; 1]%nat); [apply crowd_reach|]. vm_compute. reflexivity.
  - intros [].
    + eexists. split; [left; reflexivity|]. split; [reflexivity|discriminate].
    + eexists. split; [right; right; left; reflexivity|]. split; [reflexivity|discriminate].
    + eexists. split; [right; left; reflexivity|]. split; [reflexivity|discriminate].
  - intros s' L. apply (fun S => proj2 (stuck_forever _ _ S L)). split; [discriminate|]. split; [reflexivity|]. intros u [<-|[<-|[<-|[]]]]; exact Logic.I.
Qed.
Print Assumptions C70_two_refuted.

(** C106 and C71: the pool flags do what their help says. *)
Theorem C106_open : forall idle open, max_open (apply_pool idle open) = promised_open open.
Proof. exact pool_open. Qed.
Print Assumptions C106_open.
Example C106_nonvacuous : pool_reach 2 (crowd 2) /\ promised_open 7 = 7 /\ promised_open (-4) = 0.
Proof. split; [apply crowd_reach|split; reflexivity]. Qed.
Theorem C163_idle : forall idle open, idle <> 0 -> effective_idle (apply_pool idle open) = promised_idle idle open.
Proof. exact pool_idle. Qed.
Print Assumptions C163_idle.
Example C71_nonvacuous : promised_idle 5 3 = 3 /\ promised_idle (-1) 5 = 0 /\ promised_idle 0 5 = 2 /\ promised_idle 7 0 = 7 /\ promised_open (-4) = 0.
Proof. repeat split. Qed.
(** 0 does not mean the default: no connection is kept, whatever the other flag. *)
Theorem C71_idle_refuted : forall open, effective_idle (apply_pool 0 open) = 0 /\ promised_idle 0 open > 0.
Proof. exact pool_idle_zero. Qed.
Print Assumptions C71_idle_refuted.
