(** C36, C37, C38, C130: lease expiry.
    [treach s]: [s] is a reachable state of a server with its expiry goroutine, under
    any interleaving with writers, compaction, other watches, passing time and any
    query faults; [tcalm s]: same, under the provisos of C24 (Watch.v, [calm]) and
    with no result set of the start-up scan cut short.
    [t_timers s]: the timers started so far; [TAttempt j f]: timer [j] tries to delete
    its key; [t_stamps s]: when each revision was written. *)
From Coq Require Import List ZArith Bool Lia Sorting.Sorted.
From Verif Require Import Bytes Spec Sql System Prog Backend Watch SpecLemmas SqlLemmas Sim ReadLemmas ProgLemmas ReadProgs WatchLemmas WatchProofs WatchResults WatchWitness Observe Demo Ttl TtlProofs TtlLive TtlWitness.
Import ListNotations.
Open Scope Z_scope.
Local Notation hist s := (history_of (snd (b_world (t_b s)))).

(** C36.  Whatever happened since the timer was started, an expiry attempt, failing or not, either
    changes nothing or deletes the timer's key; the latter only when due and if the
    current version is the very revision the timer was started for, with that lease. *)
Theorem C36 : forall s j f tm, treach s -> nth_error (t_timers s) j = Some tm ->
  let s' := tstep s (TAttempt j f) in
  hist s' = hist s \/
  hist s' = hist s ++ [Entry (tm_key tm) Del] /\ tm_due tm <= t_now s /\
  exists x, now (hist s) (tm_key tm) = Some x /\ kv_mod x = tm_rev tm /\ kv_lease x = tm_lease tm /\ kv_lease x <> 0.
Proof. exact expiry_exact. Qed.
Print Assumptions C36.
(** And in that case an attempt without fault does delete it. *)
Theorem C36_works : forall s j tm x, treach s -> nth_error (t_timers s) j = Some tm -> tm_due tm <= t_now s ->
  now (hist s) (tm_key tm) = Some x -> kv_mod x = tm_rev tm ->
  hist (tstep s (TAttempt j NoFault)) = hist s ++ [Entry (tm_key tm) Del].
Proof. exact expiry_works. Qed.
Print Assumptions C36_works.
Example C36_nonvacuous : treach ttl2 /\ treach ttl3 /\ exists tm, nth_error (t_timers ttl2) 2 = Some tm /\ nth_error (t_timers ttl3) 2 = Some tm /\ tm_key tm = kd /\
  tm_due tm <= t_now ttl2 /\ (exists x, now (hist ttl2) kd = Some x /\ kv_mod x = tm_rev tm) /\
  hist (tstep ttl2 (TAttempt 2 NoFault)) = hist ttl2 ++ [Entry kd Del] /\
  hist (tstep ttl3 (TAttempt 2 NoFault)) = hist ttl3.
Proof.
  split; [exact ttl2_reach|]. split; [exact ttl3_reach|]. eexists. split; [vm_compute; reflexivity|]. split; [vm_compute; reflexivity|].
  split; [reflexivity|]. split; [apply Z.leb_le; vm_compute; reflexivity|]. split; [eexists; split; vm_compute; reflexivity|]. split; vm_compute; reflexivity.
Qed.

(** C154 (part of C37).  Once the goroutine's Watch has succeeded and it has received an update
    published after that, every live version with a positive lease up to the revision
    of the last received update has a timer, if it was there at start or its
    key is in ["\0", "\255"). *)
Theorem C154_timer : forall s st i g n u k x, tcalm s -> t_phase s = TPLoop st i -> nth_error (b_groups (t_b s)) i = Some g ->
  t_ack s = Some n -> (n < g_taken g)%nat -> nth_error (g_updates g) (g_taken g - 1) = Some u ->
  now (hist s) k = Some x -> 0 < kv_lease x -> kv_mod x <= u_rev u -> (kv_mod x <= st \/ in_range [0%N] [255%N] k) ->
  exists tm, In tm (t_timers s) /\ tm_key tm = k /\ tm_rev tm = kv_mod x /\ tm_lease tm = kv_lease x.
Proof. exact all_leased_have_timers. Qed.
Print Assumptions C154_timer.
Example C37_nonvacuous : tcalm ttl1 /\ t_phase ttl1 = TPLoop 8 0 /\ t_ack ttl1 = Some 0%nat /\
  now (hist ttl1) kb = Some (KV kb v3 30 7 7) /\ now (hist ttl1) kd = Some (KV kd v1 10 9 9) /\ in_range [0%N] [255%N] kd /\
  exists g u, nth_error (b_groups (t_b ttl1)) 0 = Some g /\ g_taken g = 1%nat /\ nth_error (g_updates g) 0 = Some u /\ u_rev u = 10.
Proof.
  destruct ttl1_facts as (_ & A & B & C & D & _ & E). split; [exact ttl1_calm|]. split; [exact B|]. split; [exact A|]. split; [exact C|]. split; [exact D|].
  split; [|exact E]. split; [vm_compute; discriminate|vm_compute; reflexivity].
Qed.
(** A key from "\255" on written while the server runs gets no timer although the
    goroutine has been told of its revision. *)
Theorem C37_refuted : exists s, tcalm s /\ now (hist s) [255%N] = Some (KV [255%N] v1 10 10 10) /\
  (forall tm, In tm (t_timers s) -> tm_key tm <> [255%N]) /\
  exists i st g u, t_phase s = TPLoop st i /\ nth_error (b_groups (t_b s)) i = Some g /\ nth_error (g_updates g) (g_taken g - 1) = Some u /\ u_rev u = 10.
Proof.
  exists ttl1. destruct ttl1_facts as (T & A & B & C & D & F & g & u & E1 & E2 & E3 & E4). split; [exact ttl1_calm|]. split; [exact F|]. split.
  - intros tm I E. assert (J : In (tm_key tm) (map tm_key (t_timers ttl1))) by (apply in_map; exact I). rewrite ttl1_keys, E in J.
    destruct J as [J|[J|[J|[]]]]; discriminate.
  - exists 0%nat, 8, g, u. rewrite E2. auto.
Qed.
Print Assumptions C37_refuted.
(** One failed query in the Watch call at start, and keys written afterwards get no
    timer: the goroutine goes on listening to a group without watchers. *)
Theorem C37_fault_refuted : exists s, tcalm s /\ now (hist s) kd = Some (KV kd v1 10 9 9) /\ in_range [0%N] [255%N] kd /\
  (forall tm, In tm (t_timers s) -> tm_key tm <> kd) /\
  exists g, t_phase s = TPLoop 8 0 /\ nth_error (b_groups (t_b s)) 0 = Some g /\ g_watchers g = [] /\ g_taken g = 1%nat.
Proof.
  exists ttl_bad. split; [exact ttl_bad_calm|]. split; [vm_compute; reflexivity|]. split; [split; [vm_compute; discriminate|vm_compute; reflexivity]|].
  split.
  - intros tm I. assert (J : In (tm_key tm) (map tm_key (t_timers ttl_bad))) by (apply in_map; exact I). rewrite ttl_bad_keys in J. destruct J as [<-|[]]. discriminate.
  - eexists. split; [vm_compute; reflexivity|]. split; [vm_compute; reflexivity|]. split; reflexivity.
Qed.
Print Assumptions C37_fault_refuted.

(** C130.  A key with a lease of up to 9223372035 s does not expire early. *)
Theorem C130_not_early : forall s j f tm, treach s -> nth_error (t_timers s) j = Some tm -> 0 < tm_lease tm <= 9223372035 ->
  hist (tstep s (TAttempt j f)) <> hist s ->
  exists written_at, nth_error (t_stamps s) (Z.to_nat (tm_rev tm - 1)) = Some written_at /\ written_at + tm_lease tm * 1000000000 <= t_now s.
Proof. exact expiry_late. Qed.
Print Assumptions C130_not_early.
Example C130_nonvacuous : treach ttl2 /\ exists tm, nth_error (t_timers ttl2) 2 = Some tm /\ tm_lease tm = 10 /\
  hist (tstep ttl2 (TAttempt 2 NoFault)) = hist ttl2 ++ [Entry kd Del] /\ nth_error (t_stamps ttl2) 8 = Some 0 /\ t_now ttl2 = 61 * second.
Proof. split; [exact ttl2_reach|]. eexists. split; [vm_compute; reflexivity|]. split; [reflexivity|]. split; [vm_compute; reflexivity|]. split; vm_compute; reflexivity. Qed.
(** A lease of 9223372037 s wraps: the key is deleted at the very instant it was written. *)
Theorem C38_refuted : exists s tm, treach s /\ nth_error (t_timers s) 1 = Some tm /\ tm_key tm = kd /\ tm_lease tm = 9223372037 /\
  nth_error (t_stamps s) (Z.to_nat (tm_rev tm - 1)) = Some (t_now s) /\
  hist (tstep s (TAttempt 1 NoFault)) = hist s ++ [Entry kd Del].
Proof. exists ttl_long. eexists. split; [exact ttl_long_reach|]. split; [vm_compute; reflexivity|]. split; [reflexivity|]. split; [reflexivity|]. split; vm_compute; reflexivity. Qed.
Print Assumptions C38_refuted.
(** A negative lease is ignored while the server runs but expires at once at the next start. *)
Theorem C38_negative_refuted : exists s tm, treach s /\ nth_error (t_timers s) 1 = Some tm /\ tm_key tm = kd /\ tm_lease tm = -5 /\
  hist (tstep s (TAttempt 1 NoFault)) = hist s ++ [Entry kd Del].
Proof. exists ttl_neg. eexists. split; [exact ttl_neg_reach|]. split; [vm_compute; reflexivity|]. split; [reflexivity|]. split; [reflexivity|]. vm_compute; reflexivity. Qed.
Print Assumptions C38_negative_refuted.
