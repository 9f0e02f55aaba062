(** Proofs for ConnPool.v. *)
From Coq Require Import List ZArith Bool Lia.
From Verif Require Import ConnPool.
Import ListNotations.
Open Scope Z_scope.

Lemma update_nth i u l j : nth_error (update_user i u l) j = if Nat.eqb i j then option_map (fun _ => u) (nth_error l j) else nth_error l j.
Proof.
  revert i j. induction l as [|x l IH]; intros [|i] [|j]; cbn; try reflexivity.
  - destruct (Nat.eqb i j); reflexivity.
  - apply IH.
Qed.
Lemma update_len i u l : length (update_user i u l) = length l.
Proof. revert i. induction l as [|x l IH]; intros [|i]; cbn; auto. Qed.
Lemma sum_update (f : user -> Z) u0 u l : forall i, nth_error l i = Some u0 ->
  fold_right (fun u n => f u + n) 0 (update_user i u l) = fold_right (fun u n => f u + n) 0 l - f u0 + f u.
Proof. induction l as [|x l IH]; intros [|i] H; cbn in *; try discriminate; [injection H as ->; lia|]. rewrite (IH i H). lia. Qed.

Definition locked (p : pc) : bool := match p with Check _ | WantConn _ | Prepare _ => true | _ => false end.
Definition open_tx (u : user) : Z := if is_tx (u_role u) then match u_pc u with Done => 0 | _ => 1 end else 0.
Definition n_tx (s : pool) : Z := fold_right (fun u n => open_tx u + n) 0 (p_users s).
Definition n_role (r : role) (s : pool) : Z := fold_right (fun u n => (match u_role u, r with Worker, Worker | Compactor, Compactor => match u_pc u with Done => 0 | _ => 1 end | _, _ => 0 end) + n) 0 (p_users s).

Record pinv (max : Z) (s : pool) : Prop := {
  I_max : p_max s = max;
  I_lock : forall i, p_lock s = Some i -> exists u, nth_error (p_users s) i = Some u /\ locked (u_pc u) = true;
  I_held : forall i u, nth_error (p_users s) i = Some u -> locked (u_pc u) = true -> p_lock s = Some i;
  I_single : forall u, In u (p_users s) -> is_tx (u_role u) = false -> u_pc u <> Begin /\ u_pc u <> Finish;
  I_run : forall u, In u (p_users s) -> is_tx (u_role u) = true -> forall q, u_pc u <> Run q;
  I_w : n_role Worker s <= 1;
  I_c : n_role Compactor s <= 1 }.

Lemma n_tx_roles s : n_tx s = n_role Worker s + n_role Compactor s.
Proof.
  unfold n_tx, n_role. induction (p_users s) as [|u l IH]; [reflexivity|]. cbn [fold_right]. rewrite IH. unfold open_tx, is_tx.
  destruct (u_role u), (u_pc u); lia.
Qed.
Lemma n_role_zero r s : (r = Worker \/ r = Compactor) -> ~ busy s r -> n_role r s = 0.
Proof.
  intros R B. unfold n_role. assert (H : forall u, In u (p_users s) -> u_role u = r -> u_pc u = Done).
  { intros u Hu Hr. destruct (u_pc u) eqn:E; try reflexivity; exfalso; apply B; exists u; rewrite E; repeat split; auto; discriminate. }
  clear B. induction (p_users s) as [|u l IH]; cbn; [reflexivity|]. rewrite IH by (intros; apply H; cbn; auto).
  specialize (H u (or_introl eq_refl)). destruct R as [-> | ->]; destruct (u_role u); try reflexivity; rewrite H by reflexivity; reflexivity.
Qed.
Lemma n_role_nonneg r s : 0 <= n_role r s.
Proof. unfold n_role. induction (p_users s) as [|u l IH]; cbn; [lia|]. destruct (u_role u), r, (u_pc u); lia. Qed.

Lemma next_role u : u_role (next u) = u_role u.
Proof. unfold next. destruct (u_todo u); reflexivity. Qed.
Lemma next_pc u : (exists q, u_pc (next u) = Lookup q) \/ u_pc (next u) = Finish /\ is_tx (u_role u) = true \/ u_pc (next u) = Done /\ is_tx (u_role u) = false.
Proof. unfold next. destruct (u_todo u) as [|q l]; cbn; [|eauto]. destruct (is_tx (u_role u)); auto. Qed.

(** what a step does to its user *)
Lemma step_shape s i ok s' : pool_step s i ok = Some s' -> exists u u', nth_error (p_users s) i = Some u /\ p_users s' = update_user i u' (p_users s) /\
  p_max s' = p_max s /\ u_role u' = u_role u /\ u_pc u <> Done /\
  (locked (u_pc u) = true -> locked (u_pc u') = true -> p_lock s' = p_lock s) /\
  (locked (u_pc u) = true -> locked (u_pc u') = false -> p_lock s' = None) /\
  (locked (u_pc u) = false -> locked (u_pc u') = true -> p_lock s = None /\ p_lock s' = Some i) /\
  (locked (u_pc u) = false -> locked (u_pc u') = false -> p_lock s' = p_lock s) /\
  (is_tx (u_role u) = false -> u_pc u <> Begin -> u_pc u <> Finish -> u_pc u' <> Begin /\ u_pc u' <> Finish) /\
  (is_tx (u_role u) = true -> (forall q, u_pc u <> Run q) -> forall q, u_pc u' <> Run q).
Proof.
  unfold pool_step. destruct (nth_error (p_users s) i) as [u|] eqn:N; [|discriminate]. intros H.
  destruct u as [r p t]. cbn [u_pc u_role] in H.
  assert (NX : forall u0, locked (u_pc (next u0)) = false).
  { intros u0. destruct (next_pc u0) as [[q ->]|[[-> _]|[-> _]]]; reflexivity. }
  destruct p as [|q|q|q|q|q|q|q| |]; try discriminate.
  - destruct (free_conn s); [|discriminate]. injection H as <-. eexists _, _. split; [reflexivity|]. split; [reflexivity|]. split; [reflexivity|].
    cbn [u_pc u_role]. split; [destruct ok; [apply next_role|reflexivity]|]. split; [discriminate|].
    split; [discriminate|]. split; [discriminate|]. split; [|split; [reflexivity|]].
    + intros _ L. exfalso. destruct ok; [rewrite NX in L|cbn in L]; discriminate.
    + split; [congruence|]. intros T _ q. destruct ok; cbn; [|discriminate]. destruct (next_pc (User r Begin t)) as [[x ->]|[[-> _]|[-> _]]]; discriminate.
  - destruct (p_lock s) eqn:PL; [discriminate|]. injection H as <-. eexists _, _. split; [reflexivity|]. split; [reflexivity|]. split; [reflexivity|].
    cbn [u_pc u_role at_pc set_user p_lock]. split; [reflexivity|]. split; [discriminate|]. destruct (cached s q); cbn; repeat split; try discriminate; auto; congruence.
  - destruct (p_lock s) eqn:PL; [discriminate|]. injection H as <-. eexists _, _. split; [reflexivity|]. split; [reflexivity|]. split; [reflexivity|].
    cbn. repeat split; try discriminate; auto; congruence.
  - destruct (cached s q); injection H as <-; eexists _, _; (split; [reflexivity|]); (split; [reflexivity|]); (split; [reflexivity|]); cbn; repeat split; try discriminate; auto; congruence.
  - destruct (free_conn s); [|discriminate]. injection H as <-. eexists _, _. split; [reflexivity|]. split; [reflexivity|]. split; [reflexivity|]. cbn. repeat split; try discriminate; auto; congruence.
  - destruct ok; injection H as <-; eexists _, _; (split; [reflexivity|]); (split; [reflexivity|]); (split; [reflexivity|]); cbn.
    + repeat split; try discriminate; auto; congruence.
    + destruct (is_tx r) eqn:T; cbn; repeat split; try discriminate; auto; congruence.
  - destruct (is_tx r) eqn:T.
    + injection H as <-. eexists _, _. split; [reflexivity|]. split; [reflexivity|]. split; [reflexivity|]. cbn [u_pc u_role].
      split; [destruct ok; [apply next_role|reflexivity]|]. split; [discriminate|]. split; [discriminate|]. split; [discriminate|]. split; [|split; [reflexivity|]].
      * intros _ L. exfalso. destruct ok; [rewrite NX in L; discriminate|]. cbn in L. rewrite T in L. discriminate.
      * split; [congruence|]. intros _ _ x. destruct ok.
        -- destruct (next_pc (User r (WantRun q) t)) as [[y ->]|[[-> _]|[-> _]]]; discriminate.
        -- cbn. rewrite T. discriminate.
    + destruct (free_conn s); [|discriminate]. injection H as <-. eexists _, _. split; [reflexivity|]. split; [reflexivity|]. split; [reflexivity|]. cbn. repeat split; try discriminate; auto; congruence.
  - injection H as <-. eexists _, _. split; [reflexivity|]. split; [reflexivity|]. split; [reflexivity|]. cbn. repeat split; try discriminate; auto; congruence.
  - injection H as <-. eexists _, _. split; [reflexivity|]. split; [reflexivity|]. split; [reflexivity|]. cbn. repeat split; try discriminate; auto; congruence.
Qed.

Lemma in_update i u l x : In x (update_user i u l) -> x = u \/ In x l.
Proof. revert i. induction l as [|y l IH]; intros [|i]; cbn; intuition. destruct (IH _ H0); auto. Qed.

Lemma pinv_step max s i ok s' : pinv max s -> pool_step s i ok = Some s' -> pinv max s'.
Proof.
  intros V H. destruct (step_shape _ _ _ _ H) as (u & u' & N & US & MX & RO & ND & L1 & L2 & L3 & L4 & SG & RN).
  assert (NEW : nth_error (p_users s') i = Some u') by (rewrite US, update_nth, Nat.eqb_refl, N; reflexivity).
  assert (OLD : forall j, j <> i -> nth_error (p_users s') j = nth_error (p_users s) j).
  { intros j D. rewrite US, update_nth. destruct (Nat.eqb_spec i j); [congruence|reflexivity]. }
  constructor.
  - rewrite MX. apply V.
  - intros j PL. destruct (Nat.eq_dec j i) as [->|D].
    + exists u'. split; [exact NEW|]. destruct (locked (u_pc u')) eqn:LU'; [reflexivity|]. destruct (locked (u_pc u)) eqn:LU.
      * rewrite L2 in PL by auto. discriminate.
      * rewrite L4 in PL by auto. destruct (I_lock _ _ V _ PL) as (x & N1 & LX). congruence.
    + rewrite OLD by auto. apply (I_lock _ _ V). destruct (locked (u_pc u')) eqn:LU', (locked (u_pc u)) eqn:LU.
      * rewrite L1 in PL by auto. exact PL.
      * destruct (L3 eq_refl eq_refl) as [_ X]. congruence.
      * rewrite L2 in PL by auto. discriminate.
      * rewrite L4 in PL by auto. exact PL.
  - intros j x NJ LX. destruct (Nat.eq_dec j i) as [->|D].
    + rewrite NEW in NJ. injection NJ as <-. destruct (locked (u_pc u)) eqn:LU.
      * rewrite L1 by auto. eapply (I_held _ _ V); eauto.
      * apply L3; auto.
    + rewrite OLD in NJ by auto. pose proof (I_held _ _ V _ _ NJ LX) as PL. destruct (locked (u_pc u')) eqn:LU', (locked (u_pc u)) eqn:LU.
      * pose proof (I_held _ _ V _ _ N LU). congruence.
      * destruct (L3 eq_refl eq_refl) as [X _]. congruence.
      * pose proof (I_held _ _ V _ _ N LU). congruence.
      * rewrite L4 by auto. exact PL.
  - intros x Hx T. rewrite US in Hx. apply in_update in Hx. destruct Hx as [->|Hx]; [|eapply (I_single _ _ V); eauto].
    rewrite RO in T. destruct (I_single _ _ V u (nth_error_In _ _ N) T). apply SG; auto.
  - intros x Hx T. rewrite US in Hx. apply in_update in Hx. destruct Hx as [->|Hx]; [|eapply (I_run _ _ V); eauto].
    rewrite RO in T. apply RN; auto. apply (I_run _ _ V); eauto using nth_error_In.
  - unfold n_role. rewrite US, (sum_update _ u u' _ i N). pose proof (I_w _ _ V) as W. unfold n_role in W. rewrite RO. destruct (u_role u); try lia.
    destruct (u_pc u); [..|congruence]; destruct (u_pc u'); lia.
  - unfold n_role. rewrite US, (sum_update _ u u' _ i N). pose proof (I_c _ _ V) as W. unfold n_role in W. rewrite RO. destruct (u_role u); try lia.
    destruct (u_pc u); [..|congruence]; destruct (u_pc u'); lia.
Qed.

Lemma sum_app (f : user -> Z) l x : fold_right (fun u n => f u + n) 0 (l ++ [x]) = fold_right (fun u n => f u + n) 0 l + f x.
Proof. induction l as [|y l IH]; cbn; lia. Qed.
Lemma pinv_arrive max s r qs : pinv max s -> may_arrive s r qs -> pinv max (arrive s r qs).
Proof.
  intros V M. set (n := if is_tx r then User r Begin qs else next (User r Done qs)).
  assert (PU : p_users (arrive s r qs) = p_users s ++ [n]) by reflexivity.
  assert (LN : locked (u_pc n) = false). { unfold n. destruct (is_tx r); [reflexivity|]. destruct (next_pc (User r Done qs)) as [[q ->]|[[-> _]|[-> _]]]; reflexivity. }
  assert (RN : u_role n = r). { unfold n. destruct (is_tx r); [reflexivity|]. rewrite next_role. reflexivity. }
  constructor.
  - apply V.
  - intros i PL. cbn [arrive p_lock] in PL. destruct (I_lock _ _ V _ PL) as (u & N & L). exists u. rewrite PU, nth_error_app1; [auto|]. apply nth_error_Some. congruence.
  - intros i u N L. rewrite PU in N. cbn [arrive p_lock]. destruct (Nat.lt_ge_cases i (length (p_users s))) as [LT|GE].
    + rewrite nth_error_app1 in N by auto. eapply (I_held _ _ V); eauto.
    + rewrite nth_error_app2 in N by auto. destruct (i - length (p_users s))%nat as [|m]; [|destruct m; discriminate]. injection N as <-. congruence.
  - intros u Hu T. rewrite PU in Hu. apply in_app_iff in Hu. destruct Hu as [Hu|[<-|[]]]; [eapply (I_single _ _ V); eauto|].
    unfold n. rewrite RN in T. rewrite T. destruct (next_pc (User r Done qs)) as [[q ->]|[[-> X]|[-> X]]]; try (split; discriminate). cbn in X. congruence.
  - intros u Hu T q. rewrite PU in Hu. apply in_app_iff in Hu. destruct Hu as [Hu|[<-|[]]]; [eapply (I_run _ _ V); eauto|].
    unfold n. rewrite RN in T. rewrite T. discriminate.
  - unfold n_role. rewrite PU, sum_app. pose proof (I_w _ _ V) as W. unfold n_role in W. rewrite RN. destruct r; try lia.
    pose proof (n_role_zero Worker s (or_introl eq_refl) M) as Z0. unfold n_role in Z0. rewrite Z0. cbn. lia.
  - unfold n_role. rewrite PU, sum_app. pose proof (I_c _ _ V) as W. unfold n_role in W. rewrite RN. destruct r; try lia.
    pose proof (n_role_zero Compactor s (or_intror eq_refl) M) as Z0. unfold n_role in Z0. rewrite Z0. cbn. lia.
Qed.
Lemma pinv_reach max s : pool_reach max s -> pinv max s.
Proof.
  induction 1 as [|s r qs H IH M|s i ok s' H IH P]; eauto using pinv_step, pinv_arrive.
  constructor; cbn; try lia; auto; try discriminate; try tauto. intros [|i]; discriminate.
Qed.

(** nobody is stuck *)
Definition waits (u : user) : bool :=
  match u_pc u with
  | Begin | Lookup _ | WantLock _ | WantConn _ => true
  | WantRun _ => negb (is_tx (u_role u))
  | _ => false
  end.
Lemma moves s i u : nth_error (p_users s) i = Some u -> u_pc u <> Done -> waits u = false -> exists s', pool_step s i true = Some s'.
Proof.
  intros N D W. unfold pool_step. rewrite N. unfold waits in W. destruct (u_pc u); try discriminate; try congruence; eauto.
  - destruct (cached s q); eauto.
  - destruct (is_tx (u_role u)); [eauto|discriminate].
Qed.
Lemma holds_le u : waits u = true -> (is_tx (u_role u) = false -> u_pc u <> Begin /\ u_pc u <> Finish) -> holds u <= open_tx u.
Proof. destruct u as [r p t]. unfold waits, holds, open_tx. cbn [u_pc u_role]. destruct p, (is_tx r); cbn; intros; try discriminate; try lia. Qed.

Lemma progress max s : pinv max s -> (max <= 0 \/ 3 <= max) -> (exists u, In u (p_users s) /\ u_pc u <> Done) -> exists i s', pool_step s i true = Some s'.
Proof.
  intros V M (u0 & I0 & D0).
  destruct (existsb (fun u => match u_pc u with Done => false | _ => negb (waits u) end) (p_users s)) eqn:E.
  { apply existsb_exists in E. destruct E as (u & I & E). apply In_nth_error in I. destruct I as [i N]. exists i. apply (moves s i u N); destruct (u_pc u); try discriminate; apply negb_true_iff; exact E. }
  assert (W : forall u, In u (p_users s) -> u_pc u = Done \/ waits u = true).
  { intros u I. destruct (waits u) eqn:WU; [auto|]. left. assert (F : existsb (fun u => match u_pc u with Done => false | _ => negb (waits u) end) (p_users s) = true \/ u_pc u = Done).
    { destruct (u_pc u) eqn:P; [left..|right; reflexivity]; apply existsb_exists; exists u; rewrite P, WU; auto. }
    destruct F; congruence. }
  assert (FR : free_conn s = true).
  { unfold free_conn. rewrite (I_max _ _ V). destruct M as [M|M]; [apply orb_true_intro; left; apply Z.leb_le; exact M|]. apply orb_true_intro. right. apply Z.ltb_lt.
    assert (LE : in_use s <= n_tx s).
    { unfold in_use, n_tx. pose proof (I_single _ _ V) as SG. clear - W SG. induction (p_users s) as [|u l IH]; cbn; [lia|].
      assert (holds u <= open_tx u). { destruct (W u (or_introl eq_refl)) as [X|X]; [|apply holds_le; auto; intros T; apply SG; cbn; auto]. unfold holds, open_tx. rewrite X. destruct (is_tx (u_role u)); lia. }
      assert (fold_right (fun u n => holds u + n) 0 l <= fold_right (fun u n => open_tx u + n) 0 l) by (apply IH; [intros; apply W; cbn; auto|intros; apply SG; cbn; auto]). lia. }
    rewrite n_tx_roles in LE. pose proof (I_w _ _ V). pose proof (I_c _ _ V). lia. }
  destruct (W u0 I0) as [X|W0]; [congruence|].
  destruct (p_lock s) as [i|] eqn:PL.
  - destruct (I_lock _ _ V _ PL) as (u & N & L). exists i. unfold pool_step. rewrite N.
    destruct (W u (nth_error_In _ _ N)) as [X|X]; [rewrite X in L; discriminate|]. unfold waits in X. destruct (u_pc u); try discriminate. rewrite FR. eauto.
  - apply In_nth_error in I0. destruct I0 as [i N]. exists i. unfold pool_step. rewrite N. unfold waits in W0. rewrite FR, PL. destruct (u_pc u0); try discriminate; eauto.
    apply negb_true_iff in W0. rewrite W0. eauto.
Qed.

(** every step is progress *)
Definition cost (u : user) : nat :=
  (9 * length (u_todo u) + match u_pc u with
  | Begin => 10 | Lookup _ => 9 | WantLock _ => 8 | Check _ => 7 | WantConn _ => 6 | Prepare _ => 5 | WantRun _ => 4 | Run _ => 3 | Finish => 1 | Done => 0
  end)%nat.
Definition work (s : pool) : nat := list_sum (map cost (p_users s)).
Lemma work_update l : forall i u u', nth_error l i = Some u -> (cost u' < cost u)%nat -> (list_sum (map cost (update_user i u' l)) < list_sum (map cost l))%nat.
Proof. induction l as [|x l IH]; intros [|i] u u' N C; cbn [nth_error update_user map] in *; try discriminate; unfold list_sum in *; cbn [fold_right] in *; [injection N as ->; lia|]. specialize (IH i u u' N C). lia. Qed.
Lemma next_cost u p : u_pc u = p -> (1 < match p with Begin => 10 | WantRun _ => 4 | _ => 0 end)%nat -> (cost (next u) < cost u)%nat.
Proof. destruct u as [r p0 [|q l]]; intros P H; cbn [u_pc] in P; subst p0; unfold next, cost; cbn [u_todo u_pc u_role length]; [destruct (is_tx r)|]; destruct p; lia. Qed.
Lemma work_step s i ok s' : pool_step s i ok = Some s' -> (work s' < work s)%nat.
Proof.
  unfold pool_step, work. destruct (nth_error (p_users s) i) as [u|] eqn:N; [|discriminate]. intros H.
  assert (G : forall t u', p_users t = update_user i u' (p_users s) -> (cost u' < cost u)%nat -> (list_sum (map cost (p_users t)) < list_sum (map cost (p_users s)))%nat).
  { intros t u' -> C. eapply work_update; eauto. }
  destruct (u_pc u) eqn:P; try discriminate.
  - destruct (free_conn s); [|discriminate]. injection H as <-. eapply G; [reflexivity|]. destruct ok; [eapply next_cost; [exact P|cbn; lia]|]. unfold cost. rewrite P. cbn [u_todo u_pc length]. lia.
  - destruct (p_lock s); [discriminate|]. injection H as <-. eapply G; [reflexivity|]. unfold cost. rewrite P. cbn [at_pc u_todo u_pc]. destruct (cached s q); lia.
  - destruct (p_lock s); [discriminate|]. injection H as <-. eapply G; [reflexivity|]. unfold cost. rewrite P. cbn [at_pc u_todo u_pc]. lia.
  - destruct (cached s q); injection H as <-; (eapply G; [reflexivity|]); unfold cost; rewrite P; cbn [at_pc u_todo u_pc]; lia.
  - destruct (free_conn s); [|discriminate]. injection H as <-. eapply G; [reflexivity|]. unfold cost. rewrite P. cbn [at_pc u_todo u_pc]. lia.
  - destruct ok; injection H as <-; (eapply G; [reflexivity|]); unfold cost; rewrite P; cbn [at_pc give_up u_todo u_pc length]; [lia|]. destruct (is_tx (u_role u)); lia.
  - destruct (is_tx (u_role u)) eqn:T.
    + injection H as <-. eapply G; [reflexivity|]. destruct ok; [eapply next_cost; [exact P|cbn; lia]|]. unfold cost. rewrite P. cbn [give_up u_todo u_pc length]. rewrite T. lia.
    + destruct (free_conn s); [|discriminate]. injection H as <-. eapply G; [reflexivity|]. unfold cost. rewrite P. cbn [at_pc u_todo u_pc]. lia.
  - injection H as <-. eapply G; [reflexivity|]. unfold cost. rewrite P. cbn [u_todo u_pc length]. lia.
  - injection H as <-. eapply G; [reflexivity|]. unfold cost. rewrite P. cbn [u_todo u_pc length]. lia.
Qed.
Lemma runs_bounded n s s' : pool_runs n s s' -> (n + work s' <= work s)%nat.
Proof. induction 1 as [|n s i ok s' s'' P R IH]; [lia|]. apply work_step in P. lia. Qed.

Lemma finishes max s : pool_reach max s -> (max <= 0 \/ 3 <= max) -> forall n s', pool_runs n s s' ->
  (n <= work s)%nat /\ ((forall i ok, pool_step s' i ok = None) -> all_done s').
Proof.
  intros R M n s' RU. split; [pose proof (runs_bounded _ _ _ RU); lia|]. intros ST u Hu.
  assert (R' : pool_reach max s'). { clear -R RU. induction RU; auto. apply IHRU. eapply pool_next; eauto. }
  destruct (u_pc u) eqn:P; [..|reflexivity]; exfalso;
  (destruct (progress max s' (pinv_reach _ _ R') M) as (i & t & X); [exists u; rewrite P; split; [exact Hu|discriminate]|]; rewrite ST in X; discriminate).
Qed.

(** stuck for good *)
Definition stuck (s : pool) : Prop := p_lock s <> None /\ free_conn s = false /\
  forall u, In u (p_users s) -> match u_pc u with Begin | Lookup _ | WantLock _ | WantConn _ | Done => True | WantRun _ => is_tx (u_role u) = false | _ => False end.
Lemma stuck_step s i ok : stuck s -> pool_step s i ok = None.
Proof.
  intros (L & F & U). unfold pool_step. destruct (nth_error (p_users s) i) as [u|] eqn:N; [|reflexivity]. specialize (U u (nth_error_In _ _ N)).
  rewrite F. destruct (p_lock s); [|congruence]. destruct (u_pc u); try reflexivity; try contradiction. rewrite U. reflexivity.
Qed.
Lemma stuck_arrive s r qs : stuck s -> may_arrive s r qs -> stuck (arrive s r qs).
Proof.
  intros (L & F & U) M. split; [exact L|]. set (n := if is_tx r then User r Begin qs else next (User r Done qs)).
  assert (N : match u_pc n with Begin | Lookup _ => True | _ => False end). { unfold n. destruct r; cbn; try exact Logic.I. destruct M as [q ->]. exact Logic.I. }
  split.
  - unfold free_conn in *. cbn [arrive p_max]. replace (in_use (arrive s r qs)) with (in_use s); [exact F|]. unfold in_use. cbn [arrive p_users]. fold n. rewrite sum_app.
    assert (H0 : holds n = 0). { unfold n. destruct r; try reflexivity. destruct M as [q' ->]. reflexivity. }
    rewrite H0. lia.
  - intros u Hu. cbn [arrive p_users] in Hu. apply in_app_iff in Hu. destruct Hu as [Hu|[<-|[]]]; [exact (U u Hu)|]. fold n. destruct (u_pc n); try contradiction; exact Logic.I.
Qed.
Lemma stuck_forever s s' : stuck s -> pool_later s s' -> stuck s' /\ forall i ok, pool_step s' i ok = None.
Proof.
  intros S L. assert (S' : stuck s'). { induction L as [|s' r qs L IH M|s' i ok s'' L IH P]; auto using stuck_arrive. rewrite (stuck_step _ i ok IH) in P. discriminate. }
  split; [exact S'|]. intros. now apply stuck_step.
Qed.

(** the limit is respected *)
Lemma in_use_step s i ok s' : pool_step s i ok = Some s' -> (forall u, In u (p_users s) -> is_tx (u_role u) = false -> u_pc u <> Begin /\ u_pc u <> Finish) ->
  in_use s' <= in_use s \/ free_conn s = true /\ in_use s' <= in_use s + 1.
Proof.
  unfold pool_step. destruct (nth_error (p_users s) i) as [u|] eqn:N; [|discriminate]. intros H SG.
  specialize (SG u (nth_error_In _ _ N)).
  assert (G : forall t u', p_users t = update_user i u' (p_users s) -> in_use t = in_use s - holds u + holds u').
  { intros t u' E. unfold in_use. rewrite E. now apply sum_update. }
  assert (NX : holds (next u) <= if is_tx (u_role u) then 1 else 0). { unfold holds, next. destruct (u_todo u); cbn; destruct (is_tx (u_role u)); cbn; lia. }
  destruct (u_pc u) eqn:P; try discriminate.
  - destruct (free_conn s) eqn:F; [|discriminate]. injection H as <-. right. split; [reflexivity|]. erewrite G by reflexivity. unfold holds at 1. rewrite P.
    destruct ok; [destruct (is_tx (u_role u)); lia|]. unfold holds. cbn. destruct (is_tx (u_role u)); lia.
  - destruct (p_lock s); [discriminate|]. injection H as <-. left. erewrite G by reflexivity. unfold holds. rewrite P. cbn. destruct (cached s q), (is_tx (u_role u)); lia.
  - destruct (p_lock s); [discriminate|]. injection H as <-. left. erewrite G by reflexivity. unfold holds. rewrite P. cbn. destruct (is_tx (u_role u)); lia.
  - left. destruct (cached s q); injection H as <-; erewrite G by reflexivity; unfold holds; rewrite P; cbn; destruct (is_tx (u_role u)); lia.
  - destruct (free_conn s) eqn:F; [|discriminate]. injection H as <-. right. split; [reflexivity|]. erewrite G by reflexivity. unfold holds. rewrite P. cbn. destruct (is_tx (u_role u)); lia.
  - left. destruct ok; injection H as <-; erewrite G by reflexivity; unfold holds; rewrite P; cbn; destruct (is_tx (u_role u)); cbn; lia.
  - destruct (is_tx (u_role u)) eqn:T.
    + injection H as <-. left. erewrite G by reflexivity. unfold holds at 1. rewrite P, T. destruct ok; [lia|]. unfold holds. cbn. rewrite T. lia.
    + destruct (free_conn s) eqn:F; [|discriminate]. injection H as <-. right. split; [reflexivity|]. erewrite G by reflexivity. unfold holds. rewrite P. cbn. rewrite T. lia.
  - injection H as <-. left. erewrite G by reflexivity. unfold holds. rewrite P. cbn. destruct (is_tx (u_role u)); lia.
  - injection H as <-. left. erewrite G by reflexivity. unfold holds. rewrite P. cbn. destruct (is_tx (u_role u)); lia.
Qed.
Lemma limit_kept max s : pool_reach max s -> 0 < max -> in_use s <= max.
Proof.
  intros R M. induction R as [|s r qs R IH MA|s i ok s' R IH P].
  - cbn. lia.
  - unfold in_use. cbn [arrive p_users]. rewrite sum_app. fold (in_use s).
    assert (H0 : holds (if is_tx r then User r Begin qs else next (User r Done qs)) = 0). { destruct r; try reflexivity. destruct MA as [q' ->]. reflexivity. }
    rewrite H0. lia.
  - pose proof (pinv_reach _ _ R) as V. destruct (in_use_step _ _ _ _ P (I_single _ _ V)) as [X|[F X]]; [lia|].
    unfold free_conn in F. rewrite (I_max _ _ V) in F. apply orb_prop in F. destruct F as [F|F]; [apply Z.leb_le in F|apply Z.ltb_lt in F]; lia.
Qed.

Lemma idle_fresh n : set_max_idle n fresh_db = SqlDb (if 0 <? n then n else -1) 0.
Proof. reflexivity. Qed.
Lemma pool_facts idle open : max_open (apply_pool idle open) = promised_open open /\
  effective_idle (apply_pool idle open) = let n := if 0 <? idle then idle else 0 in if 0 <? open then Z.min n open else n.
Proof.
  unfold apply_pool. rewrite idle_fresh. unfold promised_open, set_max_open. cbn [max_open max_idle_count].
  assert (E : effective_idle (SqlDb (if 0 <? idle then idle else -1) (if open <? 0 then 0 else open)) = if 0 <? idle then idle else 0).
  { unfold effective_idle. cbn [max_idle_count]. destruct (Z.ltb_spec 0 idle); [|reflexivity]. destruct (Z.eqb_spec idle 0); [lia|]. destruct (Z.ltb_spec idle 0); [lia|reflexivity]. }
  rewrite E. set (n := if 0 <? idle then idle else 0). assert (N : 0 <= n) by (unfold n; destruct (Z.ltb_spec 0 idle); lia).
  cbv zeta. destruct (Z.ltb_spec 0 open) as [P|P].
  - destruct (Z.ltb_spec open 0); [lia|]. destruct (Z.leb_spec open 0); [lia|]. destruct (Z.ltb_spec 0 open); [|lia]. cbn [andb].
    destruct (Z.ltb_spec open n).
    + unfold set_max_idle. cbn [max_open]. destruct (Z.ltb_spec 0 open); [|lia]. cbn [andb].
      assert (E2 : effective_idle (SqlDb open open) = open). { unfold effective_idle. cbn [max_idle_count]. destruct (Z.eqb_spec open 0); [lia|]. destruct (Z.ltb_spec open 0); lia. }
      rewrite E2, Z.ltb_irrefl. cbn [max_open]. rewrite E2. split; [reflexivity|lia].
    + cbn [max_open]. split; [reflexivity|]. destruct (Z.ltb_spec open 0); [lia|]. rewrite E. lia.
  - assert (X : (if open <? 0 then 0 else open) = 0) by (destruct (Z.ltb_spec open 0); lia). rewrite X in *. cbn [andb Z.ltb Z.compare max_open].
    destruct (Z.leb_spec open 0); [|lia]. split; [reflexivity|exact E].
Qed.
Lemma pool_open idle open : max_open (apply_pool idle open) = promised_open open.
Proof. apply pool_facts. Qed.
Lemma pool_idle idle open : idle <> 0 -> effective_idle (apply_pool idle open) = promised_idle idle open.
Proof.
  intros D. rewrite (proj2 (pool_facts idle open)). unfold promised_idle. cbv zeta.
  destruct (Z.eqb_spec idle 0); [lia|]. destruct (Z.ltb_spec 0 idle), (Z.ltb_spec idle 0); try lia; reflexivity.
Qed.
Lemma pool_idle_zero open : effective_idle (apply_pool 0 open) = 0 /\ promised_idle 0 open > 0.
Proof.
  rewrite (proj2 (pool_facts 0 open)). unfold promised_idle. cbn [Z.ltb Z.eqb Z.compare]. destruct (Z.ltb_spec 0 open); lia.
Qed.
