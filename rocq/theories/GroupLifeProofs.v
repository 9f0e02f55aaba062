(** Watcher groups are closed once and never used afterwards; handlers of streams return. *)
From Coq Require Import List ZArith Bool Arith Lia.
From Verif Require Import Watch WatchLemmas WatchProofs GroupLife.
Import ListNotations.

(** a group in the map is open, one taken out is closed *)
Definition sound (g : life) : Prop :=
  match l_after g with
  | Armed | Started => l_in g = true /\ l_closed g = false
  | Stopped | Finished => l_in g = false /\ l_closed g = true
  end.
Definition todo_ok (s : lives) : Prop :=
  match mutex s with
  | Nobody => True
  | Publishing todo full =>
      NoDup todo /\ (forall i, In i todo -> exists g, nth_error (ls s) i = Some g /\ l_in g = true) /\ (todo = [] -> full = false)
  end.
Definition linv (s : lives) : Prop := Forall sound (ls s) /\ todo_ok s /\ panicked s = false.

Lemma upd_nth {A} j f (l : list A) i : nth_error (update_nth i f l) j = option_map (if Nat.eqb j i then f else (fun x => x)) (nth_error l j).
Proof.
  revert i j. induction l as [|x l IH]; intros [|i] [|j]; cbn [update_nth nth_error]; try reflexivity.
  - destruct (nth_error l j); reflexivity.
  - rewrite IH. reflexivity.
Qed.
Lemma in_map_spec l : forall i j, In j (in_map i l) <-> exists g, (i <= j)%nat /\ nth_error l (j - i) = Some g /\ l_in g = true.
Proof.
  induction l as [|g l IH]; intros i j; simpl.
  - split; [contradiction|]. intros (g & _ & E & _). destruct (j - i)%nat; discriminate.
  - assert (X : In j (in_map (S i) l) <-> exists g0, (S i <= j)%nat /\ nth_error (g :: l) (j - i) = Some g0 /\ l_in g0 = true).
    { rewrite IH. split; intros (g0 & L & E & T); exists g0; (split; [lia|]).
      - replace (j - i)%nat with (S (j - S i)) by lia. auto.
      - replace (j - i)%nat with (S (j - S i)) in E by lia. auto. }
    destruct (l_in g) eqn:T; simpl; rewrite X.
    + split.
      * intros [<-|(g0 & L & E)]; [exists g; rewrite Nat.sub_diag; auto|exists g0; split; [lia|auto]].
      * intros (g0 & L & E & T0). destruct (Nat.eq_dec i j) as [->|N]; [auto|right]. exists g0. split; [lia|auto].
    + split.
      * intros (g0 & L & E). exists g0. split; [lia|auto].
      * intros (g0 & L & E & T0). destruct (Nat.eq_dec i j) as [->|N]; [|exists g0; split; [lia|auto]].
        rewrite Nat.sub_diag in E. injection E as <-. congruence.
Qed.
Lemma in_map_nodup l : forall i, NoDup (in_map i l).
Proof.
  induction l as [|g l IH]; intros i; simpl; [constructor|]. destruct (l_in g); [|apply IH]. constructor; [|apply IH].
  rewrite in_map_spec. intros (g0 & L & _). lia.
Qed.
Lemma Forall_upd i f (l : list life) : Forall sound l -> (forall g, nth_error l i = Some g -> sound (f g)) -> Forall sound (update_nth i f l).
Proof.
  intros F. revert i. induction F as [|g l S F IH]; intros [|i] H; simpl; constructor; auto.
Qed.
Lemma sound_nth l i g : Forall sound l -> nth_error l i = Some g -> sound g.
Proof. intros F N. rewrite Forall_forall in F. eapply F, nth_error_In, N. Qed.
(** changing a group without taking it out of the map leaves the iteration sound *)
Lemma todo_keep i (f : life -> life) l h p : (forall g, nth_error l i = Some g -> l_in (f g) = l_in g) -> todo_ok (Lives l h p) -> todo_ok (Lives (update_nth i f l) h p).
Proof.
  intros K. unfold todo_ok. cbn [mutex ls]. destruct h as [|todo full]; [auto|]. intros (ND & I & E). split; [exact ND|]. split; [|exact E].
  intros j J. destruct (I j J) as (g & N & T). rewrite upd_nth, N. cbn [option_map]. eexists. split; [reflexivity|].
  destruct (Nat.eqb_spec j i) as [->|]; [rewrite K; auto|auto].
Qed.
Lemma linv_step s a : linv s -> linv (lstep s a).
Proof.
  intros (F & T & P). destruct s as [l h p]. cbn [panicked] in P. subst p. cbn [ls] in F. unfold lstep. cbn [ls mutex panicked].
  assert (SAME : linv (Lives l h false)) by (split; [exact F|split; [exact T|reflexivity]]).
  destruct a as [|i|i| | | | |i].
  - destruct h; [|exact SAME]. split; [|split; [exact Logic.I|reflexivity]]. cbn [ls]. apply Forall_app. split; [exact F|]. constructor; [|constructor]. split; reflexivity.
  - destruct (nth_error l i) as [g|] eqn:N; [|exact SAME]. destruct (l_after g) eqn:A; try exact SAME.
    split; [|split; [|reflexivity]]; cbn [ls].
    + apply Forall_upd; [exact F|]. intros g' N'. rewrite N in N'. injection N' as <-. pose proof (sound_nth _ _ _ F N) as S. unfold sound in *. rewrite A in S. exact S.
    + apply todo_keep; [reflexivity|exact T].
  - destruct h; [|exact SAME]. destruct (nth_error l i) as [g|] eqn:N; [|exact SAME]. destruct (l_after g) eqn:A; try exact SAME.
    pose proof (sound_nth _ _ _ F N) as S. unfold sound in S. rewrite A in S. destruct S as [_ C]. rewrite C. cbn [orb].
    split; [|split; [exact Logic.I|reflexivity]]. cbn [ls]. apply Forall_upd; [exact F|]. intros g' _. split; reflexivity.
  - destruct h; [|exact SAME]. split; [exact F|]. split; [|reflexivity]. unfold todo_ok. cbn [mutex ls]. split; [apply in_map_nodup|]. split; [|reflexivity].
    intros i I. apply in_map_spec in I. destruct I as (g & _ & N & G). rewrite Nat.sub_0_r in N. eauto.
  - destruct h as [|[|i todo] [|]]; try exact SAME. destruct T as (ND & IT & _). cbn [ls] in IT.
    destruct (nth_error l i) as [g|] eqn:N; [|exact SAME]. destruct (IT i (or_introl eq_refl)) as (g0 & N0 & G0). rewrite N in N0. injection N0 as <-.
    pose proof (sound_nth _ _ _ F N) as S. assert (C : l_closed g = false) by (unfold sound in S; destruct (l_after g); destruct S; congruence). rewrite C.
    assert (REST : todo_ok (Lives l (Publishing todo false) false)).
    { unfold todo_ok. cbn [mutex ls]. inversion ND; subst. split; [assumption|]. split; [|reflexivity]. intros j J. apply IT. right. exact J. }
    destruct (l_buf g <? channel_size)%nat.
    + split; [|split; [|reflexivity]]; cbn [ls].
      * apply Forall_upd; [exact F|]. intros g' N'. rewrite N in N'. injection N' as <-. exact S.
      * apply todo_keep; [reflexivity|exact REST].
    + split; [exact F|]. split; [|reflexivity]. unfold todo_ok. cbn [mutex ls]. split; [exact ND|]. split; [exact IT|discriminate].
  - destruct h as [|[|i todo] [|]]; try exact SAME. destruct T as (ND & IT & _). cbn [ls] in IT.
    destruct (nth_error l i) as [g|] eqn:N; [|exact SAME]. destruct (IT i (or_introl eq_refl)) as (g0 & N0 & G0). rewrite N in N0. injection N0 as <-.
    pose proof (sound_nth _ _ _ F N) as S. inversion ND; subst.
    assert (REST : todo_ok (Lives l (Publishing todo false) false)).
    { unfold todo_ok. cbn [mutex ls]. split; [assumption|]. split; [|reflexivity]. intros j J. apply IT. right. exact J. }
    destruct (l_after g) eqn:A; try (split; [exact F|split; [exact REST|reflexivity]]).
    unfold sound in S. rewrite A in S. destruct S as [_ C]. rewrite C. cbn [orb]. split; [|split; [|reflexivity]]; cbn [ls].
    + apply Forall_upd; [exact F|]. intros g' _. split; reflexivity.
    + unfold todo_ok. cbn [mutex ls]. split; [assumption|]. split; [|reflexivity]. intros j J. destruct (IT j (or_intror J)) as (g1 & N1 & G1).
      rewrite upd_nth. destruct (Nat.eqb_spec j i) as [->|]; [contradiction|]. rewrite N1. eexists. split; [reflexivity|exact G1].
  - destruct h as [|[|i todo] [|]]; try exact SAME. split; [exact F|]. split; [exact Logic.I|reflexivity].
  - split; [|split; [|reflexivity]]; cbn [ls].
    + apply Forall_upd; [exact F|]. intros g' N'. exact (sound_nth _ _ _ F N').
    + apply todo_keep; [reflexivity|exact T].
Qed.
Lemma linv_run acts : linv (lrun acts).
Proof.
  unfold lrun. assert (H : linv (Lives [] Nobody false)) by (split; [constructor|split; [exact Logic.I|reflexivity]]).
  revert H. generalize (Lives [] Nobody false). induction acts as [|a acts IH]; intros s H; [exact H|]. apply IH, linv_step, H.
Qed.
Lemma never_panics acts : panicked (lrun acts) = false.
Proof. apply linv_run. Qed.
Lemma registered_iff_open acts i g : nth_error (ls (lrun acts)) i = Some g -> l_in g = negb (l_closed g).
Proof.
  intros N. destruct (linv_run acts) as (F & _). pose proof (sound_nth _ _ _ F N) as S. unfold sound in S. destruct (l_after g); destruct S as [-> ->]; reflexivity.
Qed.
(** the cancelled group is gone as soon as its function ran *)
Lemma cancelled_removed acts i g : nth_error (ls (lrun acts)) i = Some g -> mutex (lrun acts) = Nobody ->
  exists g', nth_error (ls (lstep (lstep (lrun acts) (LCancel i)) (LAfter i))) i = Some g' /\ l_in g' = false /\ l_closed g' = true.
Proof.
  intros N M. destruct (linv_run acts) as (F & _). pose proof (sound_nth _ _ _ F N) as S. unfold sound in S. destruct (lrun acts) as [l h p].
  cbn [ls mutex] in *. subst h. unfold lstep. cbn [ls mutex panicked]. rewrite N.
  destruct (l_after g) eqn:A; cbn [ls mutex panicked].
  - rewrite upd_nth, N, Nat.eqb_refl. cbn [option_map l_after]. cbn [ls]. rewrite !upd_nth, Nat.eqb_refl, N. cbn [option_map]. eexists. split; [reflexivity|]. split; reflexivity.
  - rewrite N, A. cbn [ls]. exists g. auto.
  - rewrite N, A. cbn [ls]. rewrite upd_nth, Nat.eqb_refl, N. cbn [option_map]. eexists. split; [reflexivity|]. split; reflexivity.
  - rewrite N, A. cbn [ls]. exists g. auto.
Qed.
(** and a closed group stays so, and gets no further update *)
Lemma closed_stays acts more i g : nth_error (ls (lrun acts)) i = Some g -> l_closed g = true ->
  exists g', nth_error (ls (fold_left lstep more (lrun acts))) i = Some g' /\ l_closed g' = true /\ l_in g' = false /\ (l_buf g' <= l_buf g)%nat.
Proof.
  intros N C. pose proof (linv_run acts) as H. revert N H. generalize (lrun acts). intros s N H.
  revert s g C N H. induction more as [|a more IH]; intros s g C N H.
  - exists g. cbn [fold_left]. split; [exact N|]. split; [exact C|]. split; [|lia]. destruct H as (F & _). pose proof (sound_nth _ _ _ F N) as S. unfold sound in S.
    destruct (l_after g); destruct S; congruence.
  - cbn [fold_left]. assert (X : exists g1, nth_error (ls (lstep s a)) i = Some g1 /\ l_closed g1 = true /\ (l_buf g1 <= l_buf g)%nat).
    { destruct H as (F & T & P). destruct s as [l h p]. cbn [ls] in *. unfold todo_ok in T. cbn [mutex ls] in T.
      assert (SAME : exists g1, nth_error l i = Some g1 /\ l_closed g1 = true /\ (l_buf g1 <= l_buf g)%nat) by (exists g; auto).
      assert (UPD : forall j f, (forall g0, l_closed (f g0) = true \/ l_closed (f g0) = l_closed g0) -> (j = i -> (l_buf (f g) <= l_buf g)%nat) ->
         exists g1, nth_error (update_nth j f l) i = Some g1 /\ l_closed g1 = true /\ (l_buf g1 <= l_buf g)%nat).
      { intros j f F1 F2. rewrite upd_nth, N. cbn [option_map]. eexists. split; [reflexivity|]. destruct (Nat.eqb_spec i j) as [E|E]; [|auto]. split; [|auto].
        destruct (F1 g) as [->| ->]; auto. }
      unfold lstep. cbn [ls mutex panicked]. destruct a as [|j|j| | | | |j].
      - destruct h; cbn [ls]; [|exact SAME]. rewrite nth_error_app1 by (apply nth_error_Some; congruence). exact SAME.
      - destruct (nth_error l j) as [g0|]; [|exact SAME]. destruct (l_after g0); try exact SAME. cbn [ls]. apply UPD; [auto|reflexivity].
      - destruct h; [|exact SAME]. destruct (nth_error l j) as [g0|]; [|exact SAME]. destruct (l_after g0); try exact SAME. cbn [ls]. apply UPD; [auto|reflexivity].
      - destruct h; exact SAME.
      - destruct h as [|[|j todo] [|]]; try exact SAME. destruct T as (ND & IT & _). destruct (nth_error l j) as [g0|] eqn:N0; [|exact SAME].
        destruct (l_closed g0) eqn:C0; [exact SAME|]. destruct (_ <? _)%nat; [|exact SAME]. cbn [ls]. apply UPD; [auto|].
        intros ->. rewrite N in N0. injection N0 as ->. congruence.
      - destruct h as [|[|j todo] [|]]; try exact SAME. destruct (nth_error l j) as [g0|]; [|exact SAME]. destruct (l_after g0); try exact SAME. cbn [ls]. apply UPD; [auto|reflexivity].
      - destruct h as [|[|j todo] [|]]; exact SAME.
      - cbn [ls]. apply UPD; [auto|]. intros _. cbn [l_buf]. lia. }
    destruct X as (g1 & N1 & C1 & L1). destruct (IH (lstep s a) g1 C1 N1 (linv_step _ a H)) as (g2 & A & B & D & E). exists g2. repeat split; auto. lia.
Qed.

(** ---- handlers ---- *)
Lemma take_all n : forall h, h_updates h = true -> h_buf h = n -> hrun (repeat HTake n) h = Handler (h_gone h) (h_cancelled h) (h_closed h) 0 (h_requests h) true (h_ticks h).
Proof.
  induction n as [|n IH]; intros h U E.
  - destruct h; cbn in *. subst. reflexivity.
  - cbn [repeat]. unfold hrun. cbn [fold_left]. fold (hrun (repeat HTake n)). rewrite IH.
    + unfold hstep. rewrite U. reflexivity.
    + unfold hstep. now rewrite U.
    + unfold hstep. rewrite U. cbn [h_buf]. lia.
Qed.
(** the client's context being done implies the errgroup's being done *)
Definition hok (h : handler) : Prop := h_gone h = true -> h_cancelled h = true.
Lemma hok_step h a : hok h -> hok (hstep h a).
Proof.
  unfold hok. intros H. destruct a; cbn [hstep].
  - reflexivity.
  - destruct (_ || _); [exact H|exact H].
  - destruct (h_cancelled h) eqn:C; cbn [orb]; [rewrite C; exact H|]. destruct (_ <? _)%nat; [rewrite C; exact H|]. cbn. rewrite ?C. exact H.
  - destruct (h_cancelled h) eqn:C; [reflexivity|rewrite C; exact H].
  - destruct (h_requests h); [reflexivity|exact H].
  - destruct (h_requests h && h_gone h); [reflexivity|exact H].
  - destruct (h_updates h); exact H.
  - destruct (h_updates h && h_gone h); [reflexivity|exact H].
  - destruct (_ && _); exact H.
  - destruct (h_ticks h && h_gone h); exact H.
Qed.
Lemma hok_run acts : forall h, hok h -> hok (hrun acts h).
Proof. induction acts as [|a acts IH]; intros h H; [exact H|]. apply IH, hok_step, H. Qed.
(** whatever happened, once the client is gone the handler can return, by its own steps *)
Lemma handler_returns h : h_gone h = true -> hok h ->
  returned (hrun (HRecvFails :: HTicksEnd :: HAfter :: repeat HTake (h_buf h) ++ [HUpdatesEnd]) h) = true.
Proof.
  intros G K. specialize (K G). destruct h as [g c cl n rq up tk]. cbn in G, K. subst g c.
  unfold hrun. cbn [fold_left]. rewrite fold_left_app. cbn [h_buf].
  assert (X : forall t, hstep (hstep (hstep (Handler true true cl n rq up tk) HRecvFails) HTicksEnd) HAfter = t -> t = Handler true true true n false up false).
  { intros t <-. destruct rq, tk; reflexivity. }
  rewrite (X _ eq_refl). clear X. destruct up.
  - fold (hrun (repeat HTake n) (Handler true true true n false true false)). rewrite (take_all n); [|reflexivity|reflexivity]. reflexivity.
  - assert (Y : forall k, fold_left hstep (repeat HTake k) (Handler true true true n false false false) = Handler true true true n false false false).
    { induction k as [|k IH]; [reflexivity|exact IH]. }
    rewrite Y. reflexivity.
Qed.
(** the steps of the handler itself bring it nearer to returning *)
Definition left_to_do (h : handler) : nat := h_buf h + (if h_closed h then 0 else 1) + (if h_requests h then 1 else 0) + (if h_updates h then 1 else 0) + (if h_ticks h then 1 else 0).
Lemma handler_progress h : h_gone h = true -> hok h -> returned h = false ->
  exists a, In a [HRecvFails; HTicksEnd; HAfter; HTake; HUpdatesEnd] /\ (left_to_do (hstep h a) < left_to_do h)%nat.
Proof.
  intros G K R. specialize (K G). destruct h as [g c cl n rq up tk]. cbn in G, K. subst g c. unfold left_to_do, returned in *. cbn [h_buf h_closed h_requests h_updates h_ticks] in *.
  destruct rq; [exists HRecvFails; split; [simpl; auto|]; cbn; lia|].
  destruct tk; [exists HTicksEnd; split; [simpl; auto|]; cbn; lia|].
  destruct up; [|discriminate].
  destruct cl; [|exists HAfter; split; [simpl; auto|]; cbn; lia].
  destruct n as [|n]; [exists HUpdatesEnd; split; [simpl; auto 6|]; cbn; lia|]. exists HTake. split; [simpl; auto|]. cbn. lia.
Qed.
(** ... and none of the others takes it back *)
Lemma handler_no_return h a : h_closed h = true -> h_closed (hstep h a) = true /\ (left_to_do (hstep h a) <= left_to_do h)%nat.
Proof.
  intros C. destruct h as [g c cl n rq up tk]. cbn in C. subst cl. destruct a; unfold left_to_do; cbn.
  - split; [reflexivity|lia].
  - split; [reflexivity|lia].
  - destruct (c || _); split; try reflexivity; cbn; lia.
  - destruct c; split; try reflexivity; cbn; lia.
  - destruct rq; split; try reflexivity; cbn; lia.
  - destruct (rq && g) eqn:E; split; try reflexivity; cbn; try lia. 
  - destruct up; split; try reflexivity; cbn; lia.
  - destruct (up && g) eqn:E; split; try reflexivity; cbn; try lia.
  - destruct (up && true && (n =? 0)%nat) eqn:E; split; try reflexivity; cbn; try lia.
  - destruct (tk && g) eqn:E; split; try reflexivity; cbn; try lia.
Qed.
(** as long as the client is there, it does not return: no error is ever reported *)
Lemma stays acts : forall h, h_gone h = false -> h_ticks h = true -> ~ In HGone acts -> returned (hrun acts h) = false.
Proof.
  induction acts as [|a acts IH]; intros h G T N.
  - unfold returned. cbn [hrun fold_left]. rewrite T. apply andb_false_r.
  - unfold hrun. cbn [fold_left]. fold (hrun acts (hstep h a)). apply IH.
    + destruct a; cbn [hstep]; try exact G; [exfalso; apply N; left; reflexivity|..].
      all: repeat match goal with |- context [if ?b then _ else _] => destruct b end; exact G.
    + destruct a; cbn [hstep]; try exact T; rewrite ?G, ?andb_false_r; repeat match goal with |- context [if ?b then _ else _] => destruct b end; exact T.
    + intros X. apply N. right. exact X.
Qed.
(** once the channel is closed nothing is put into it *)
Lemma closed_step h a : h_closed h = true -> h_closed (hstep h a) = true /\ (h_buf (hstep h a) <= h_buf h)%nat.
Proof.
  intros C. destruct h as [g ca cl b r u t]. cbn [h_closed] in C. subst cl.
  destruct a; cbn [hstep h_gone h_cancelled h_closed h_buf h_requests h_updates h_ticks orb].
  all: repeat match goal with |- context [if ?c then _ else _] => destruct c end; cbn [h_closed h_buf]; split; auto; lia.
Qed.
Lemma closed_run acts : forall h, h_closed h = true -> h_closed (hrun acts h) = true /\ (h_buf (hrun acts h) <= h_buf h)%nat.
Proof.
  induction acts as [|a acts IH]; intros h C; [auto|]. destruct (closed_step h a C) as [C1 L1]. destruct (IH _ C1) as [C2 L2]. cbn. unfold hrun in *. cbn [fold_left]. split; [exact C2|lia].
Qed.
Lemma closed_drains h : h_closed h = true -> h_updates h = true -> h_updates (hrun (repeat HTake (h_buf h) ++ [HUpdatesEnd]) h) = false.
Proof.
  intros C U. unfold hrun. rewrite fold_left_app. fold (hrun (repeat HTake (h_buf h)) h). rewrite (take_all (h_buf h) h U eq_refl). cbn. now rewrite C.
Qed.
Lemma overflow_closes h : h_cancelled h = false -> (channel_size <= h_buf h)%nat -> hstep h HOverflow = Handler (h_gone h) (h_cancelled h) true (h_buf h) (h_requests h) (h_updates h) (h_ticks h).
Proof. intros C L. cbn [hstep]. rewrite C. cbn [orb]. now rewrite (proj2 (Nat.ltb_ge _ _) L). Qed.
