(** C205, C206: publishing to all watch streams of a server.
    [lrun acts]: the groups of a server and the mutex of the backend after any interleaving [acts] of
    publishing, overflow, cancellation, receiving and new streams (GroupLife.v).
    [fold_left turn_of xs s]: then the turns [xs] are taken: [None] - publishEvents takes its next step;
    [Some a] - anybody takes step [a] (GroupPublish.v). *)
From Coq Require Import List ZArith Bool Arith Lia.
From Verif Require Import Watch GroupLife GroupLifeProofs GroupPublish.
Import ListNotations.
Open Scope nat_scope.

(** C205.  No stream can hold up the others: whatever everybody does meanwhile - in particular if nobody
    ever receives - publishing ends, and the mutex is free again, before publishEvents has had
    two turns for each group and one more. *)
Theorem C205_ends : forall acts xs, mutex (lrun acts) <> Nobody -> (2 * length (ls (lrun acts)) + 1 <= own_turns xs)%nat ->
  exists ys zs, xs = ys ++ zs /\ mutex (fold_left turn_of ys (lrun acts)) = Nobody.
Proof. exact publishing_ends. Qed.
Print Assumptions C205_ends.
(** Three streams, none of which receives: the first two are full. *)
Definition fill : list lact := [LNew; LNew] ++ concat (repeat [LBegin; LSend; LSend; LEnd] 100) ++ [LNew].
Example C205_nonvacuous : map l_buf (ls (lrun (fill ++ [LBegin]))) = [100; 100; 0] /\ mutex (lrun (fill ++ [LBegin])) = Publishing [0; 1; 2] false /\
  own_turns (repeat None 7) = 7 /\ mutex (fold_left turn_of [None; None; Some (LCancel 1); None; Some (LAfter 1); None; None; None] (lrun (fill ++ [LBegin]))) = Nobody.
Proof. split; [vm_compute; reflexivity|]. split; [vm_compute; reflexivity|]. split; vm_compute; reflexivity. Qed.

(** C206.  What publishing does, when nothing else happens: each registered stream with fewer than 100 updates in its channel gets
    exactly one more; one with a full channel is closed and taken out, unless its context is over
    (then that closes it); the others are left alone. *)
Theorem C206_effect : forall acts, mutex (lrun acts) = Nobody ->
  exists n, let s' := fold_left turn_of (Some LBegin :: repeat None n) (lrun acts) in
    mutex s' = Nobody /\ ls s' = map (fun g =>
      if l_in g
      then if (l_buf g <? 100)%nat then Life (l_after g) true (l_closed g) (S (l_buf g))
           else match l_after g with Armed => Life Stopped false true (l_buf g) | _ => g end
      else g) (ls (lrun acts)).
Proof. exact publish_effect. Qed.
Print Assumptions C206_effect.
Example C206_nonvacuous : mutex (lrun (fill ++ [LCancel 1])) = Nobody /\
  ls (lrun (fill ++ [LCancel 1])) = [Life Armed true false 100; Life Started true false 100; Life Armed true false 0] /\
  ls (fold_left turn_of (Some LBegin :: repeat None 6) (lrun (fill ++ [LCancel 1]))) = [Life Stopped false true 100; Life Started true false 100; Life Armed true false 1].
Proof. split; [vm_compute; reflexivity|]. split; vm_compute; reflexivity. Qed.
