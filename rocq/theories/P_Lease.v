(** C85, C86: leases end to end.
    [run (lease_grant r) w]: the LeaseGrant request [r] executed now.
    [treach], [tcalm], [TAttempt j f], [t_stamps]: see P_Ttl.v.  [tlater s s']: anything
    may happen between [s] and [s']. *)
From Coq Require Import List ZArith Bool Lia.
From Verif Require Import Bytes Spec Sql System Prog Backend Limited Watch Observe Demo WatchWitness Ttl TtlProofs TtlLive TtlWitness Lease LeaseProofs.
Import ListNotations.
Open Scope Z_scope.
Local Notation hist s := (history_of (snd (b_world (t_b s)))).

(** C155 (part of C85).  A key whose current version was written with the id of a lease granted for
    [ttl] seconds is not deleted by expiry earlier than that. *)
Theorem C155_not_early : forall ttl wanted w id t, snd (run (lease_grant (LeaseReq ttl wanted)) w) = Ok (id, t) ->
  t = ttl /\ forall s j f k x, treach s -> now (hist s) k = Some x -> kv_lease x = id -> 0 < ttl <= 9223372035 ->
    hist (tstep s (TAttempt j f)) = hist s ++ [Entry k Del] ->
    exists written_at, nth_error (t_stamps s) (Z.to_nat (kv_mod x - 1)) = Some written_at /\ written_at + ttl * 1000000000 <= t_now s.
Proof. exact granted_not_early. Qed.
Print Assumptions C155_not_early.
(** And it is deleted in time: once the server has received the update with that
    version, it has a timer that deletes the key when its lease and one more second
    have passed, whatever happens meanwhile, unless the key was changed. *)
Theorem C155_in_time : forall s st i g n u k x, tcalm s -> t_phase s = TPLoop st i -> nth_error (b_groups (t_b s)) i = Some g ->
  t_ack s = Some n -> (n < g_taken g)%nat -> nth_error (g_updates g) (g_taken g - 1) = Some u ->
  now (hist s) k = Some x -> 0 < kv_lease x <= 9223372035 -> kv_mod x <= u_rev u -> (kv_mod x <= st \/ in_range [0%N] [255%N] k) ->
  exists j, forall s', tlater s s' -> now (hist s') k = Some x -> t_now s + kv_lease x * 1000000000 + 1000000000 <= t_now s' ->
    hist (tstep s' (TAttempt j NoFault)) = hist s' ++ [Entry k Del].
Proof. exact leased_key_expires. Qed.
Print Assumptions C155_in_time.
(** The key [kd] of P_Ttl.v, created with lease 10 at time 0 and seen at time 1. *)
Example C85_nonvacuous : snd (run (lease_grant (LeaseReq 10 77)) demo) = Ok (10, 10) /\ treach ttl2 /\
  now (hist ttl2) kd = Some (KV kd v1 10 9 9) /\ hist (tstep ttl2 (TAttempt 2 NoFault)) = hist ttl2 ++ [Entry kd Del] /\
  tcalm ttl1 /\ t_phase ttl1 = TPLoop 8 0 /\ t_ack ttl1 = Some 0%nat /\ now (hist ttl1) kd = Some (KV kd v1 10 9 9) /\
  (exists g u, nth_error (b_groups (t_b ttl1)) 0 = Some g /\ g_taken g = 1%nat /\ nth_error (g_updates g) 0 = Some u /\ u_rev u = 10) /\
  tlater ttl1 ttl2 /\ t_now ttl1 + 11 * second <= t_now ttl2.
Proof.
  split; [reflexivity|]. split; [exact ttl2_reach|]. split; [vm_compute; reflexivity|]. split; [vm_compute; reflexivity|].
  destruct ttl1_facts as (_ & A & B & C & D & _ & E). split; [exact ttl1_calm|]. split; [exact B|]. split; [exact A|]. split; [exact D|]. split; [exact E|].
  split.
  - unfold ttl2. cbn [trun fold_left]. apply tlater_step; [apply tlater_refl|exact Logic.I].
  - vm_compute. discriminate.
Qed.
(** Lease ids are not unique and not the requested ones: all leases with the same
    duration are the same lease. *)
Theorem C85_id_refuted : forall ttl a b w, snd (run (lease_grant (LeaseReq ttl a)) w) = snd (run (lease_grant (LeaseReq ttl b)) w) /\
  (a <> ttl -> forall t, snd (run (lease_grant (LeaseReq ttl a)) w) <> Ok (a, t)).
Proof. intros. split; [reflexivity|]. intros N t E. cbn in E. congruence. Qed.
Print Assumptions C85_id_refuted.

(** C86.  A key without lease does not expire, whatever happened: apart from statements that a
    request made some server execute ([TBack (AEnv op)]), nothing changes it - no timer, no step of
    the expiry goroutine, of the poll loop or of a watch, no passing of time. *)
Theorem C86 : forall s a k x, treach s -> now (hist s) k = Some x -> kv_lease x = 0 ->
  (forall op, a <> TBack (AEnv op)) -> now (hist (tstep s a)) k = Some x.
Proof. exact unleased_only_requests. Qed.
Print Assumptions C86.
(** [kd] again, overwritten without lease while its old timer is running. *)
Definition unleased : tstate := trun [TBack (AEnv (AUpdate kd v2 9 0)); TTime (60 * second)] ttl1.
Example C86_nonvacuous : treach unleased /\ now (hist unleased) kd = Some (KV kd v2 0 9 11) /\
  (exists tm, nth_error (t_timers unleased) 2 = Some tm /\ tm_key tm = kd /\ tm_due tm <= t_now unleased) /\
  now (hist (tstep unleased (TAttempt 2 NoFault))) kd = Some (KV kd v2 0 9 11).
Proof.
  split; [apply (trun_reach _ _ false); [apply tcalm_treach; exact ttl1_calm|vm_compute; reflexivity]|].
  split; [vm_compute; reflexivity|]. split; [|vm_compute; reflexivity].
  eexists. split; [vm_compute; reflexivity|]. split; [reflexivity|]. apply Z.leb_le. vm_compute. reflexivity.
Qed.
