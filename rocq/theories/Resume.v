(** Watching with a margin, and resuming a watch: what is assumed and what the
    client does.  Nothing here is part of the repository. *)
From Coq Require Import List ZArith Bool.
From Verif Require Import Bytes Spec Sql System Prog Watch Stream Reflector.
Import ListNotations.
Open Scope Z_scope.

(** Executions in which
    - compactions stay 100 revisions behind (what every compaction run of every
      server does: C14, C16);
    - the poller, when it polls, is at most 100 revisions behind the store;
    - when a registration reads its backlog, its start revision is one of the last
      100, and the result set is read to its end. *)
Definition steady (s : bstate) (a : action) : Prop :=
  let current := revision (history_of (snd (b_world s))) in
  match a with
  | AEnv (ACompact _ stop) => stop <= Z.max 0 (current - 100)
  | AFetch _ => current - b_poll s <= 100
  | AQuery i id f => no_cut f /\
      forall g r p, nth_error (b_groups s) i = Some g -> pending_of id g = Some (r, p) ->
        current - r_start r < 100
  | _ => True
  end.
(** Specification vocabulary (not code): states reached by such executions. *)
Inductive steady_reach : bstate -> Prop :=
| steady_start w : wreach w -> floor_of (snd w) <= Z.max 0 (revision (history_of (snd w)) - 100) -> steady_reach (bstart w)
| steady_step s a : steady_reach s -> possible s a -> steady s a -> steady_reach (bstep s a).

(** The last revision a client has seen: that of the last event, or [old] if it has
    seen none. *)
Definition last_seen (old : Z) (evs : list event) : Z := last (map ev_rev evs) old.

(** A client that follows the range [lo, hi) over any number of streams, on any
    servers: [watched a w evs]: it began after revision [a], has received [evs] so far,
    the last time when the database was in state [w].  It resumes at the revision
    after the last one seen, and leaves out events it has seen; when the server it
    talks to has already polled what the client has seen, it need not. *)
Inductive watched (lo hi : bytes) (a : Z) : world -> list event -> Prop :=
| watched_first s g r : scalm s -> group_of s = Some g -> In r (g_regs g) ->
    r_lo r = lo -> r_hi r = hi -> begins r = a ->
    watched lo hi a (b_world (s_b s)) (sent (s_out s) (r_id r))
| watched_newer w evs s g r : watched lo hi a w evs -> wsteps w (b_world (s_b s)) ->
    scalm s -> group_of s = Some g -> In r (g_regs g) ->
    r_lo r = lo -> r_hi r = hi -> r_start r = last_seen a evs + 1 ->
    watched lo hi a (b_world (s_b s)) (evs ++ newer (last_seen a evs) (sent (s_out s) (r_id r)))
| watched_all w evs s g r : watched lo hi a w evs -> wsteps w (b_world (s_b s)) ->
    scalm s -> group_of s = Some g -> In r (g_regs g) ->
    r_lo r = lo -> r_hi r = hi -> r_start r = last_seen a evs + 1 ->
    last_seen a evs <= r_captured r ->
    watched lo hi a (b_world (s_b s)) (evs ++ sent (s_out s) (r_id r)).
