From Coq Require Import List ZArith Bool Lia Sorting.Permutation.
From Verif Require Import Bytes Prog Prepared.
Import ListNotations.

Record PrI (s : pstate) : Prop := {
  N_query : NoDup (map fst (p_prepared s));
  N_stmt : NoDup (map snd (p_prepared s));
  N_next : forall x, In x (p_prepared s) -> (snd x < p_next s)%nat;
  N_cache : if p_open s then p_cache s = p_prepared s /\ p_closed s = [] else p_cache s = [] /\ p_closed s = map snd (p_prepared s);
  N_handed : forall x, In x (p_handed s) -> In x (p_prepared s) }.

Lemma lookup_some q c n : lookup q c = Some n -> In (q, n) c.
Proof.
  unfold lookup. destruct (find _ c) as [[q' n']|] eqn:E; [|discriminate]. intros [= <-]. apply find_some in E. destruct E as [I B].
  apply beqb_true in B. cbn in *. now subst.
Qed.
Lemma lookup_none q c : lookup q c = None -> ~ In q (map fst c).
Proof.
  unfold lookup. destruct (find _ c) as [x|] eqn:E; [discriminate|]. intros _ I. apply in_map_iff in I. destruct I as (x & <- & I).
  apply (find_none _ _ E) in I. cbn in I. now rewrite beqb_refl in I.
Qed.
Lemma NoDup_snoc {A} (l : list A) x : NoDup l -> ~ In x l -> NoDup (l ++ [x]).
Proof. intros H N. apply NoDup_rev in H. rewrite <- (rev_involutive l) at 1. change [x] with (rev [x]). rewrite <- rev_app_distr. apply NoDup_rev. constructor; auto. now rewrite <- in_rev. Qed.

Lemma PrI_step s a : PrI s -> PrI (pstep s a).
Proof.
  intros [A B C D E]. destruct s as [op ca nx pr cl wa ha re pa]. cbn [p_open p_cache p_next p_prepared p_closed p_waiting p_handed] in *.
  destruct a as [q|i fails| | | |]; cbn [pstep p_open p_cache p_next p_prepared p_closed p_waiting p_handed p_refused p_panicked]; try (constructor; auto; fail).
  - destruct (lookup q ca) as [n|] eqn:L; [|constructor; auto]. apply lookup_some in L.
    constructor; cbn [p_open p_cache p_next p_prepared p_closed p_waiting p_handed]; auto. intros x I. apply in_app_iff in I. destruct I as [I|[<-|[]]]; auto.
    destruct op; destruct D as [-> _]; auto. destruct L.
  - destruct (nth_error wa i) as [q|]; [|constructor; auto]. destruct op; cbn [negb]; [|constructor; auto].
    destruct D as [-> D]. destruct (lookup q pr) as [n|] eqn:L.
    + apply lookup_some in L. constructor; cbn [p_open p_cache p_next p_prepared p_closed p_waiting p_handed]; auto.
      intros x I. apply in_app_iff in I. destruct I as [I|[<-|[]]]; auto.
    + destruct fails; [constructor; cbn [p_open p_cache p_next p_prepared p_closed p_waiting p_handed]; auto|]. apply lookup_none in L. constructor; cbn [p_open p_cache p_next p_prepared p_closed p_waiting p_handed]; rewrite ?map_app; cbn [map fst snd].
      * apply NoDup_snoc; assumption.
      * apply NoDup_snoc; [assumption|]. intros I. apply in_map_iff in I. destruct I as (x & X & I). apply C in I. cbn in X. lia.
      * intros x I. apply in_app_iff in I. destruct I as [I|[<-|[]]]; cbn [snd]; [apply C in I|]; lia.
      * auto.
      * intros x I. apply in_app_iff in I. apply in_app_iff. destruct I as [I|I]; auto.
  - constructor; cbn [p_open p_cache p_next p_prepared p_closed p_waiting p_handed]; auto. split; auto. destruct op; destruct D as [-> ->]; auto. apply app_nil_r.
Qed.
Lemma preach_PrI s : preach s -> PrI s.
Proof. induction 1; [|now apply PrI_step]. constructor; cbn; auto; try constructor; easy. Qed.

Lemma snd_inj {A B} (l : list (A * B)) x y : NoDup (map snd l) -> In x l -> In y l -> snd x = snd y -> x = y.
Proof.
  induction l as [|z l IH]; intros N I J E; [destruct I|]. cbn in N. inversion N as [|? ? N1 N2]; subst.
  destruct I as [->|I]; destruct J as [->|J]; auto; exfalso; apply N1; [rewrite E|rewrite <- E]; now apply in_map.
Qed.
Lemma fst_inj {A B} (l : list (A * B)) x y : NoDup (map fst l) -> In x l -> In y l -> fst x = fst y -> x = y.
Proof.
  induction l as [|z l IH]; intros N I J E; [destruct I|]. cbn in N. inversion N as [|? ? N1 N2]; subst.
  destruct I as [->|I]; destruct J as [->|J]; auto; exfalso; apply N1; [rewrite E|rewrite <- E]; now apply in_map.
Qed.
Lemma handed_once s q1 n1 q2 n2 : preach s -> In (q1, n1) (p_handed s) -> In (q2, n2) (p_handed s) -> (q1 = q2 <-> n1 = n2).
Proof.
  intros H I J. destruct (preach_PrI _ H) as [A B C D E]. apply E in I, J. split; intros ->.
  - pose proof (fst_inj _ _ _ A I J eq_refl). congruence.
  - pose proof (snd_inj _ _ _ B I J eq_refl). congruence.
Qed.
Lemma prepared_once s : preach s -> NoDup (map fst (p_prepared s)) /\ NoDup (map snd (p_prepared s)).
Proof. intros H. destruct (preach_PrI _ H). auto. Qed.
Lemma closed_once s : preach s -> p_open s = false -> p_closed s = map snd (p_prepared s) /\ NoDup (p_closed s).
Proof. intros H O. destruct (preach_PrI _ H) as [A B C D E]. rewrite O in D. destruct D as [_ D]. rewrite D. auto. Qed.
Lemma open_unclosed s : preach s -> p_open s = true -> p_closed s = [].
Proof. intros H O. destruct (preach_PrI _ H) as [A B C D E]. rewrite O in D. tauto. Qed.
Lemma after_close s q i : preach s -> p_open s = false ->
  p_handed (pstep s (PLookup q)) = p_handed s /\ p_handed (pstep s (PPrepare i false)) = p_handed s /\ p_prepared (pstep s (PPrepare i false)) = p_prepared s.
Proof.
  intros H O. destruct (preach_PrI _ H) as [A B C D E]. rewrite O in D. destruct D as [D _]. cbn [pstep]. rewrite D, O. cbn [lookup find option_map].
  split; auto. destruct (nth_error (p_waiting s) i); auto.
Qed.
Lemma prepared_cache s : preach s ->
  (forall q1 n1 q2 n2, In (q1, n1) (p_handed s) -> In (q2, n2) (p_handed s) -> (q1 = q2 <-> n1 = n2)) /\
  NoDup (map fst (p_prepared s)) /\ incl (p_handed s) (p_prepared s).
Proof. intros H. split; [intros; eapply handed_once; eauto|]. split; [now apply prepared_once|]. destruct (preach_PrI _ H). unfold incl. auto. Qed.
Lemma prepared_closed s : preach s ->
  (p_open s = true -> p_closed s = []) /\
  (p_open s = false -> p_closed s = map snd (p_prepared s) /\ NoDup (p_closed s)).
Proof. intros H. split; intros O; [now apply open_unclosed|now apply closed_once]. Qed.
Lemma closed_step s a : preach s -> p_open s = false ->
  p_open (pstep s a) = false /\ p_handed (pstep s a) = p_handed s /\ p_prepared (pstep s a) = p_prepared s /\ p_closed (pstep s a) = p_closed s.
Proof.
  intros H O. destruct (preach_PrI _ H) as [A B C D E]. rewrite O in D. destruct D as [D _].
  destruct a as [q|i fails| | | |]; cbn [pstep]; rewrite ?D, ?O; cbn [lookup find option_map negb]; auto.
  - destruct (nth_error (p_waiting s) i); auto.
  - cbn [map]. rewrite app_nil_r. auto.
Qed.
Lemma prepared_refuses acts : forall s, preach s -> p_open s = false ->
  p_handed (fold_left pstep acts s) = p_handed s /\ p_prepared (fold_left pstep acts s) = p_prepared s /\
  p_closed (fold_left pstep acts s) = p_closed s.
Proof.
  induction acts as [|a acts IH]; intros s H O; [auto|]. cbn [fold_left]. destruct (closed_step s a H O) as (O' & E1 & E2 & E3).
  rewrite <- E1, <- E2, <- E3. apply IH; auto. now constructor.
Qed.
Lemma prepared_refused s i q fails : preach s -> p_open s = false -> nth_error (p_waiting s) i = Some q ->
  p_refused (pstep s (PPrepare i fails)) = S (p_refused s) /\ p_panicked (pstep s (PPrepare i fails)) = p_panicked s.
Proof. intros H O E. cbn [pstep]. rewrite E, O. cbn. auto. Qed.
Lemma open_unless acts : forall s, ~ In PClose acts -> p_open (fold_left pstep acts s) = p_open s.
Proof.
  induction acts as [|a acts IH]; intros s N; [auto|]. cbn [fold_left]. rewrite IH by (intros I; apply N; now right).
  destruct a as [q|i fails| | | |]; cbn [pstep]; auto.
  - destruct (lookup q (p_cache s)); auto.
  - destruct (nth_error _ _); auto. destruct (p_open s) eqn:O; cbn; auto. destruct (lookup _ _); auto. destruct fails; auto.
  - exfalso. apply N. now left.
Qed.
Lemma prepared_nopanic acts :
  (forall pre a post, acts = pre ++ a :: post -> In PClose pre -> match a with PLookup _ | PPrepare _ _ => True | _ => False end) ->
  p_panicked (fold_left pstep acts p_init) = false.
Proof.
  induction acts as [|a acts IH] using rev_ind; intros H; [reflexivity|]. rewrite fold_left_app. cbn [fold_left].
  assert (P : p_panicked (fold_left pstep acts p_init) = false).
  { apply IH. intros pre b post -> I. apply (H pre b (post ++ [a])); auto. now rewrite <- app_assoc. }
  assert (D : In PClose acts \/ ~ In PClose acts).
  { clear. induction acts as [|b acts IH]; [right; easy|]. destruct b; try (left; now left); destruct IH as [I|N]; try (left; now right); right; intros [E|I]; (discriminate || tauto). }
  remember (fold_left pstep acts p_init) as s.
  assert (Q : match a with PLookup _ | PPrepare _ _ => True | _ => p_open s = true end).
  { destruct D as [I|N].
    - specialize (H acts a [] eq_refl I). destruct a; auto; destruct H.
    - assert (p_open s = true) by (subst s; now rewrite open_unless). destruct a; auto. }
  destruct a as [q|i fails| | | |]; cbn [pstep].
  - destruct (lookup q (p_cache s)); auto.
  - destruct (nth_error _ _); auto. destruct (p_open s); cbn; auto. destruct (lookup _ _); auto. destruct fails; auto.
  - cbn. now rewrite P, Q.
  - cbn. now rewrite P, Q.
  - cbn. now rewrite P, Q.
  - cbn. now rewrite P, Q.
Qed.
Lemma prepared_panics a : In a [PClose; PBeginTx; PConn; PDirect] ->
  exists s, preach s /\ p_panicked s = false /\ p_panicked (pstep s a) = true.
Proof.
  intros I. exists (pstep p_init PClose). split; [repeat constructor|]. split; [reflexivity|].
  destruct I as [<-|[<-|[<-|[<-|[]]]]]; reflexivity.
Qed.

Lemma remove_nth_perm {A} i : forall (l : list A) x, nth_error l i = Some x -> Permutation l (x :: remove_nth i l).
Proof.
  induction i as [|i IH]; intros [|y l] x H; try discriminate; cbn in *.
  - injection H as ->. reflexivity.
  - apply IH in H. rewrite H at 1. apply perm_swap.
Qed.
Lemma prepared_answered s i q fails : nth_error (p_waiting s) i = Some q ->
  let s' := pstep s (PPrepare i fails) in
  Permutation (p_waiting s) (q :: p_waiting s') /\
  ((exists n, p_handed s' = p_handed s ++ [(q, n)] /\ p_refused s' = p_refused s) \/
   (p_handed s' = p_handed s /\ p_refused s' = S (p_refused s) /\ p_open s = false) \/
   (p_handed s' = p_handed s /\ p_refused s' = p_refused s /\ fails = true /\ p_open s = true)).
Proof.
  intros H. cbn [pstep]. rewrite H. destruct (p_open s) eqn:O; cbn [negb].
  - destruct (lookup q (p_cache s)) as [n|]; [|destruct fails]; cbn [p_waiting p_handed p_refused p_open];
      (split; [now apply remove_nth_perm|]); eauto 10.
  - cbn [p_waiting p_handed p_refused p_open]. split; [now apply remove_nth_perm|]. auto.
Qed.
Lemma prepared_looked_up s q : let s' := pstep s (PLookup q) in
  (exists n, p_handed s' = p_handed s ++ [(q, n)] /\ p_waiting s' = p_waiting s) \/
  (p_handed s' = p_handed s /\ p_waiting s' = p_waiting s ++ [q]).
Proof. cbn [pstep]. destruct (lookup q (p_cache s)) as [n|]; cbn [p_waiting p_handed]; eauto. Qed.
