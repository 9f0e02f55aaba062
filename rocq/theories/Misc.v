(** Small parts: the listener (pkg/endpoint/endpoint.go), the trace filters
    (cmd/tracing.go), the SQLite metrics (pkg/instrument/extension.c). *)
From Coq Require Import List ZArith NArith Bool String Ascii.
From Verif Require Import Bytes Server.
Import ListNotations.
Open Scope Z_scope.

(** ** Listen addresses *)
(** strings.Cut(s, "://"): the parts before and after the first occurrence *)
Definition sep : bytes := txt "://".
(** Prefix test of strings.Cut. *)
Fixpoint starts_with (p s : bytes) : bool :=
  match p, s with
  | [], _ => true
  | a :: p', b :: s' => N.eqb a b && starts_with p' s'
  | _, [] => false
  end.
(** strings.Cut(s, "://"), endpoint.go:108-114. *)
Fixpoint cut (s : bytes) : option (bytes * bytes) :=
  if starts_with sep s then Some ([], skipn 3 s)
  else match s with
       | [] => None
       | c :: s' => match cut s' with None => None | Some (a, b) => Some (c :: a, b) end
       end.
(** endpoint.go:108-114 *)
Definition network_and_address (s : bytes) : bytes * bytes :=
  match cut s with Some (n, a) => (n, a) | None => ([], s) end.
(** endpoint.go:54-57, 21-23 *)
Definition default_socket : bytes := txt "unix://kine.sock".
(** The address Listen uses, endpoint.go:54-57. *)
Definition listen_address (s : bytes) : bytes := match s with [] => default_socket | _ => s end.
(** The networks net.Listen accepts; anything else is an "unknown network" error. *)
Definition known_network (n : bytes) : bool :=
  existsb (beqb n) [txt "tcp"; txt "tcp4"; txt "tcp6"; txt "unix"; txt "unixpacket"].

(** What is at the path of a unix socket; [Sock mode]: a listening or stale socket
    with permission bits [mode]. *)
Inductive node := Sock (mode : Z) | OtherFile (mode : Z).
(** os.Chmod, endpoint.go:88-106. *)
Definition chmod (m : Z) (n : node) : node := match n with Sock _ => Sock m | OtherFile _ => OtherFile m end.
(** endpoint.go:88-106 for one path.  [removable]: os.Remove works; [bindable]: bind
    works when nothing is at the path; [mode]: the permissions bind gives the socket
    (0777 less the umask).  Result: the states of the path after each system call, and
    whether a listener is returned. *)
Definition unix_listen (removable bindable : bool) (mode : Z) (n : option node) : list (option node) * bool :=
  let n1 := if removable then None else n in
  let '(n2, bound) := match n1 with
    | None => if bindable then (Some (Sock mode), true) else (None, false)
    | Some x => (Some x, false)
    end in
  let '(n3, chmoded) := match n2 with None => (None, false) | Some x => (Some (chmod 384 x), true) end in
  ([n1; n2; n3], bound && chmoded).
(** endpoint.go:88-106: the result of createListener for networks other than "unix" is
    that of net.Listen ([other]). *)
Definition create_listener (removable bindable other : bool) (mode : Z) (s : bytes) (n : option node) : list (option node) * bool :=
  let '(net, _) := network_and_address s in
  if beqb net (txt "unix") then unix_listen removable bindable mode n
  else ([], known_network net && other).

(** endpoint.go:42-62: Listen, up to the creation of the listener (the gRPC server
    behind it is not modelled) *)
Definition listen (removable bindable other : bool) (mode : Z) (s : bytes) (n : option node) : list (option node) * bool :=
  create_listener removable bindable other mode (listen_address s) n.

(** ** Trace filters *)
Record span := Span { sp_name : bytes; sp_duration : Z }.
(** --otel-span-name-filter: empty, not a regular expression, or a regular expression
    (the set of names it matches). *)
Inductive name_opt := NoPattern | BadPattern | Pattern (matches : bytes -> bool).
(** --otel-span-min-duration-filter: empty, not a duration, or a duration (ns) *)
Inductive dur_opt := NoDuration | BadDuration | Duration (d : Z).
(** cmd/root.go:109-116: an unreadable duration becomes 10ms *)
Definition min_duration (d : dur_opt) : Z :=
  match d with NoDuration => 0 | BadDuration => 10000000 | Duration x => x end.
(** NameFilter.OnEnd (tracing.go:46-51) and DurationFilter.OnEnd (tracing.go:69-75):
    [true] = handed on to Next *)
Definition name_filter (p : option (bytes -> bool)) (s : span) : bool :=
  match p with Some m => m (sp_name s) | None => true end.
(** DurationFilter.OnEnd, tracing.go:69-75. *)
Definition duration_filter (min : Z) (s : span) : bool :=
  negb ((0 <? min) && (sp_duration s <? min)).
(** newTraceProvider (tracing.go:233-267): a pipeline of filters in front of the
    batch processor, or an error if the expression does not compile *)
Definition pipeline (n : name_opt) (d : dur_opt) : option (span -> bool) :=
  match n with
  | BadPattern => None
  | NoPattern => Some (fun s => if 0 <? min_duration d then duration_filter (min_duration d) s && true else true)
  | Pattern m => Some (fun s => if 0 <? min_duration d then duration_filter (min_duration d) s && name_filter (Some m) s
                                else name_filter (Some m) s)
  end.
(** The batch processor: a queue that is exported now and then.  Its bound (spans
    beyond 2048 queued are dropped) is not modelled. *)
Record tracer := Tracer { tr_filter : option (span -> bool); tr_queue : list span; tr_exported : list span }.
(** tracing.go:176-181: on error there is no tracer provider, spans go nowhere *)
Definition setup_tracer (n : name_opt) (d : dur_opt) : tracer := Tracer (pipeline n d) [] [].
(** A span ends, spans are exported, the provider is shut down (tracing.go:134-181). *)
Inductive tstep := TEnd (s : span) | TExport (n : nat) | TShutdown.
(** [TShutdown]: tracing.go:107-141.  The closure flushes the variable traceProvider,
    which is never assigned (line 176 declares another one, tracerProvider), so nothing
    is flushed. *)
Definition trace_step (t : tracer) (a : tstep) : tracer :=
  match a with
  | TEnd s => match tr_filter t with
              | Some f => if f s then Tracer (tr_filter t) (tr_queue t ++ [s]) (tr_exported t) else t
              | None => t
              end
  | TExport n => Tracer (tr_filter t) (skipn n (tr_queue t)) (tr_exported t ++ firstn n (tr_queue t))
  | TShutdown => t
  end.

(** ** SQLite metrics *)
Inductive counter := CWrites | CHits | CMisses | CSpills | CReadTime | CWriteTime.
(** Same counter. *)
Definition counter_eqb (a b : counter) : bool :=
  match a, b with
  | CWrites, CWrites | CHits, CHits | CMisses, CMisses | CSpills, CSpills
  | CReadTime, CReadTime | CWriteTime, CWriteTime => true
  | _, _ => false
  end.
(** The counters of pkg/instrument/extension.c:14-24. *)
Definition counters := counter -> Z.
(** Assignment to one counter. *)
Definition set_counter (c : counter) (v : Z) (g : counters) : counters :=
  fun x => if counter_eqb x c then v else g x.
(** Atomic operations: fetch_add on a global counter; exchange with 0 or load of global
    counter [c] into field [f] of the metrics of reader [r]. *)
Inductive mop := MAdd (c : counter) (n : Z) | MTake (r : nat) (f c : counter) | MLoad (r : nat) (f c : counter).
(** global counters, and the metrics filled so far by each reader *)
Record mstate := MState { m_global : counters; m_read : nat -> counters }.
(** Effect of one atomic operation (extension.c:46-100). *)
Definition mstep (s : mstate) (o : mop) : mstate :=
  let store r f v g := fun x => if Nat.eqb x r then set_counter f v (m_read s r) else g x in
  match o with
  | MAdd c n => MState (set_counter c (u64 (m_global s c + n)) (m_global s)) (m_read s)
  | MTake r f c => MState (set_counter c 0 (m_global s)) (store r f (m_global s c) (m_read s))
  | MLoad r f c => MState (m_global s) (store r f (m_global s c) (m_read s))
  end.
(** Counters before the first statement. *)
Definition no_counts : counters := fun _ => 0.
(** State when the extension is loaded. *)
Definition metrics_init : mstate := MState no_counts (fun _ => no_counts).
(** extension.c:46-70 for one finished statement *)
Record sample := Sample { sm_writes : Z; sm_hits : Z; sm_misses : Z; sm_spills : Z; sm_time : Z; sm_readonly : bool }.
(** The atomic additions of extension.c:46-70. *)
Definition collect_ops (x : sample) : list mop :=
  [MAdd CWrites (sm_writes x); MAdd CHits (sm_hits x); MAdd CMisses (sm_misses x); MAdd CSpills (sm_spills x);
   MAdd (if sm_readonly x then CReadTime else CWriteTime) (sm_time x)].
(** extension.c:25-43; the fourth assignment writes page_cache_misses again *)
Definition metrics_ops (reset : bool) (r : nat) : list mop :=
  let rd f c := if reset then MTake r f c else MLoad r f c in
  [rd CWrites CWrites; rd CHits CHits; rd CMisses CMisses; rd CMisses CSpills;
   rd CReadTime CReadTime; rd CWriteTime CWriteTime].
(** what happens in one thread: a statement finishes, or metrics are read by a reader *)
Inductive mcall := Finished (x : sample) | Fetch (r : nat) | Reset (r : nat).
(** The atomic operations of a call (extension.c:46-100). *)
Definition mcall_ops (c : mcall) : list mop :=
  match c with Finished x => collect_ops x | Fetch r => metrics_ops false r | Reset r => metrics_ops true r end.

(** ** Vocabulary of the statements *)
(** [s] contains "://" *)
Definition contains (s : bytes) : Prop := exists a b, s = a ++ sep ++ b.
(** the span is selected by the name option / the duration option *)
Definition matches_name (n : name_opt) (s : span) : Prop :=
  match n with NoPattern => True | BadPattern => False | Pattern m => m (sp_name s) = true end.
(** Specification vocabulary (not code): what the duration option selects. *)
Definition long_enough (d : dur_opt) (s : span) : Prop :=
  match d with NoDuration => True | BadDuration => 10000000 <= sp_duration s | Duration x => x <= sp_duration s end.
(** the spans that ended, in order *)
Fixpoint ended (l : list tstep) : list span :=
  match l with [] => [] | TEnd s :: l' => s :: ended l' | _ :: l' => ended l' end.
(** sum *)
Fixpoint zsum (l : list Z) : Z := match l with [] => 0 | x :: r => x + zsum r end.
(** [interleave ts ops]: [ops] is an interleaving of the threads [ts] *)
Inductive interleave : list (list mop) -> list mop -> Prop :=
| inter_nil ts : Forall (fun t => t = []) ts -> interleave ts []
| inter_cons pre t post o rest : interleave (pre ++ t :: post) rest -> interleave (pre ++ (o :: t) :: post) (o :: rest).
(** the readers of a call; those that reset; what a call adds to a counter *)
Definition readers (c : mcall) : list nat := match c with Finished _ => [] | Fetch r | Reset r => [r] end.
(** Specification vocabulary (not code): readers of a call that reset. *)
Definition resetters (c : mcall) : list nat := match c with Reset r => [r] | _ => [] end.
(** Specification vocabulary (not code): what a call adds to a counter. *)
Definition sample_of (k : counter) (c : mcall) : list Z :=
  match c with
  | Finished x => match k with
      | CWrites => [sm_writes x] | CHits => [sm_hits x] | CMisses => [sm_misses x] | CSpills => [sm_spills x]
      | CReadTime => if sm_readonly x then [sm_time x] else []
      | CWriteTime => if sm_readonly x then [] else [sm_time x]
      end
  | _ => []
  end.
(** the counters that are read correctly *)
Definition sound_counter (k : counter) : Prop := k = CWrites \/ k = CHits \/ k = CReadTime \/ k = CWriteTime.
