(** The whole system: any number of servers that share one database; on each, requests
    in progress and a batching layer (Node.v), a poller with its watcher groups (Watch.v)
    and any number of watch streams (Stream.v) that share them.  This is what
    pkg/server/server.go:419-467 starts and cmd/root.go runs, seen from the clients:
    the ghost log has everything they said and were told, in real-time order.
    Simplifications: those of Node.v, Watch.v and Stream.v; a crash of a server loses
    its streams, groups and requests, and it starts again at once with a new poller. *)
From Coq Require Import List ZArith Bool.
From Verif Require Import Bytes Spec Sql System Prog Backend Limited Api Pool Ledger Batch BatchKine Node Watch Stream Resume.
Import ListNotations.
Open Scope Z_scope.

(** The poller and the groups of a server (backend.go:68-83), and its watch streams with
    the number of the connection (watch.go:17-48).  The copies of the database in
    [k_back], and those of the backend in the streams, are not used: see [seen], [synced]. *)
Record kserver := KServer { k_back : bstate; k_streams : list (nat * sstate) }.

(** What clients can observe, and what is committed: requests, commits and answers as
    in Ledger.v; a watch requested on a connection; a message sent on it. *)
Inductive knote :=
| Did (x : note)
| Watched (conn : nat) (id : Z) (lo hi : bytes) (start : Z)
| Said (conn : nat) (m : msg).

(** Servers with their requests (Node.v), their pollers and streams, ghost log, number of
    the next connection. *)
Record kstate := KState {
  k_node : nstate;
  k_servers : list kserver;
  k_log : list knote;
  k_next : nat }.
(** No server, empty database. *)
Definition kinit : kstate := KState ninit [] [] 0.

(** A poller looking at database [w]: every query of watcher.go runs on the shared database. *)
Definition seen (w : world) (b : bstate) : bstate := BState w (b_poll b) (b_batch b) (b_dead b) (b_groups b).
(** A stream of server [v] looking at database [w] and at the poller of its server. *)
Definition synced (w : world) (v : kserver) (st : sstate) : sstate := with_b st (seen w (k_back v)).
(** Statements reach the database only through requests (Node.v). *)
Definition internal (a : action) : bool := match a with AEnv _ => false | _ => true end.
(** Ghost: the watches registered on a stream (watch.go:58-70). *)
Definition regs_of (st : sstate) : list reg := match group_of st with Some g => g_regs g | None => [] end.
(** Ghost: step [a] of connection [conn] from [st] to [st'] writes the watch requested, with
    what the client asked for (no range end: the single key, Backend.v [range_end]) and
    the number it was given, and the messages sent into the log. *)
Definition told_by (conn : nat) (a : saction) (st st' : sstate) : list knote :=
  match a with
  | SCreate _ lo hi start => map (fun r => Watched conn (r_id r) lo (range_end lo hi) start) (skipn (length (regs_of st)) (regs_of st'))
  | _ => []
  end ++
  map (Said conn) (skipn (length (s_out st)) (s_out st')).

(** One step: servers are named by their position, streams by their position on it. *)
Inductive kaction :=
| KNode (x : naction)                 (* requests and the batching layers, Node.v *)
| KBoot                               (* a server joins *)
| KCrash (j : nat)                    (* a server dies and starts again *)
| KBack (j : nat) (a : action)        (* poller of server [j], or a group that is no stream's: the one of ttl.go:82 *)
| KOpen (j : nat)                     (* a client opens a watch stream at server [j] (watch.go:17-31) *)
| KStream (j i : nat) (a : saction).  (* a step of its [i]-th stream *)

(** The step, if it is possible. *)
Definition kstep (cfg : driver_cfg) (s : kstate) (x : kaction) : option kstate :=
  let '(KState nd sv log n) := s in
  let w := n_world nd in
  match x with
  | KNode (NBoot | NCrash _) => None
  | KNode x =>
      match nstep cfg nd x with
      | Some nd' => Some (KState nd' sv (log ++ map Did (skipn (length (n_log nd)) (n_log nd'))) n)
      | None => None
      end
  | KBoot =>
      match nstep cfg nd NBoot with
      | Some nd' => Some (KState nd' (sv ++ [KServer (bstart w) []]) log n)
      | None => None
      end
  | KCrash j =>
      match nstep cfg nd (NCrash j) with
      | Some nd' => Some (KState nd' (put j (KServer (bstart w) []) sv) log n)
      | None => None
      end
  | KBack j a =>
      match nth_error sv j with
      | Some v =>
          if internal a && forallb (fun c : nat * sstate => foreign (s_i (snd c)) a) (k_streams v)
          then Some (KState nd (put j (KServer (bstep (seen w (k_back v)) a) (k_streams v)) sv) log n)
          else None
      | None => None
      end
  | KOpen j =>
      match nth_error sv j with
      | Some v =>
          let st := sopen (seen w (k_back v)) in
          Some (KState nd (put j (KServer (s_b st) (k_streams v ++ [(n, st)])) sv) log (S n))
      | None => None
      end
  | KStream _ _ (SBack _) => None
  | KStream j i a =>
      match nth_error sv j with
      | Some v =>
          match nth_error (k_streams v) i with
          | Some (conn, st0) =>
              let st := synced w v st0 in
              let st' := sstep st a in
              Some (KState nd (put j (KServer (s_b st') (put i (conn, st') (k_streams v))) sv)
                           (log ++ told_by conn a st st') n)
          | None => None
          end
      | None => None
      end
  end.

(** Faults of requests satisfy [okf], those of the poller and of registrations are
    arbitrary; ttl gives its watch a range end (ttl.go:82).  [st] = true: besides, the
    provisos of Resume.v: no poller that polls is more than 100 revisions behind,
    backlogs are read at most 100 revisions behind and to their end. *)
Definition kaction_ok (okf : fault -> Prop) (st : bool) (s : kstate) (x : kaction) : Prop :=
  match x with
  | KNode x => naction_ok okf x
  | KBack j a =>
      (match a with AWatch _ _ hi _ => hi <> [] | _ => True end) /\
      (st = true -> forall v, nth_error (k_servers s) j = Some v -> steady (seen (n_world (k_node s)) (k_back v)) a)
  | KStream j i a =>
      st = true -> forall v c st0, nth_error (k_servers s) j = Some v -> nth_error (k_streams v) i = Some (c, st0) ->
        back_ok (synced (n_world (k_node s)) v st0) a steady
  | _ => True
  end.
(** Any execution. *)
Inductive kreach (cfg : driver_cfg) (okf : fault -> Prop) (st : bool) : kstate -> Prop :=
| kreach_init : kreach cfg okf st kinit
| kreach_step s x s' : kreach cfg okf st s -> kaction_ok okf st s x -> kstep cfg s x = Some s' -> kreach cfg okf st s'.

(** The ledger part of the log. *)
Definition dids (l : list knote) : ledger := flat_map (fun x => match x with Did y => [y] | _ => [] end) l.
(** Specification vocabulary (not code): the messages of a connection, in order. *)
Definition said (conn : nat) (l : list knote) : list msg :=
  flat_map (fun x => match x with Said c m => if Nat.eqb c conn then [m] else [] | _ => [] end) l.
(** Specification vocabulary (not code): the client of connection [conn] has received [ev] on its watch [id]. *)
Definition received (l : list knote) (conn : nat) (id : Z) (ev : event) : Prop := In ev (sent (said conn l) id).
