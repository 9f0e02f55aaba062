# Formal model of k8s-dqlite in Rocq (Coq 8.16.1)

## Approach
The model is executable Gallina: one definition per Go function, SQL statement or
critical section, each preceded by a comment citing the file and lines of `/repo` it
models and saying what is simplified.  Three styles are used.

* **Programs** (`Prog.v`).  A Go function that talks to the database is a tree of
  database calls.  Its semantics is relational and small-step: before every call any
  number of allowed steps of others may happen; a call may fail cleanly, fail after it
  took effect, or return part of its rows; a process may crash between any two calls.
* **Transition systems** (`Watch.v`, `Stream.v`, `Ttl.v`, `Batch.v`, `Prepared.v`,
  `ConnPool.v`, `Server.v`, `Run.v`, `Schema.v`, `Pool.v`, `Ledger.v`, `Node.v`, `Whole.v`).  Goroutines that
  share memory are state machines at the granularity of the code's critical sections
  and channel operations.  Reachability covers every interleaving.
* **Functions** on strings, integers with Go's wrap-around, and file-system states.

Properties are stated against a small separate specification that mentions no table,
statement or program: `Spec.v` (append-only history of puts and deletes; `kv_at log n k`,
what key `k` was at revision `n`; compaction floor), `Api.v` (requests and the answers
they must get), `Etcd.v` (etcd's transaction semantics), `Observe.v` (abbreviations for
"call this now and look at the answer").  The simulation relation between table and
specification is in `Sim.v`.

Naming: a theorem without suffix proves what its comment says in full; `_refuted` proves
that the full English property is *false of the code*, by a reachable run or for all
states.  A property with a `_refuted` theorem has status `partial`; what is true of it is
stated, with its proviso, as a property of its own, and MANIFEST.json lists the theorems
of both under it.  (No theorem is named `_partial` any more.)
Beside each theorem an `Example …_nonvacuous` gives a concrete non-trivial case meeting
its hypotheses.

| files | content |
|---|---|
| `Bytes.v` | byte strings and their order (bytes.Compare, BINARY collation) |
| `Spec.v`, `Api.v`, `Etcd.v`, `Observe.v`, `Resume.v`, `Reflector.v`, `Shown.v`, `FairWatch.v`, `FairTtl.v` | specification and clients, not code of the repository |
| `Sql.v`, `System.v` | table `kine`, every SQL statement of driver.go; statements and transactions as atomic operations in lock step with the specification |
| `SqlText.v`, `SqlLang.v`, `SqlRep.v`, `SqlDriver.v` | the statement texts of driver.go character by character (generated by `tools/gen_sqltext.py`), the part of SQL they use (lexer, parser, evaluator), how a table of SQL values stands for rows, the driver's calls made through the texts |
| `Prog.v`, `Backend.v`, `Limited.v` | programs: driver.go (sqlite, dqlite), backend.go, utils.go, pkg/limited |
| `Pool.v`, `Ledger.v` | any number of such programs interleaved; log of requests, commits, answers |
| `Watch.v`, `Stream.v`, `Wire.v`, `KvWire.v`, `GroupLife.v`, `Ttl.v`, `Lease.v` | watcher.go, limited/watch.go, protobuf messages, ttl.go, limited/lease.go |
| `Batch.v`, `BatchKine.v`, `Prepared.v`, `ConnPool.v`, `Node.v` | pkg/database; the connection pool with it; servers whose writes are batched |
| `Whole.v` | all of it together: servers with requests, batches, pollers and watch streams on one database; log of what clients asked and were told |
| `Schema.v` | schema.go, driver.go setup |
| `Server.v`, `Run.v`, `Intervals.v` | pkg/server (New, Start, Shutdown, disk watcher), backend Start/Stop/Close, cmd/root.go, durations and tickers |
| `Compactor.v` | the compaction goroutine (backend.go:282-296) |
| `Poller.v` | the poll loop, its ticker and its notification channel (watcher.go:178-214) |
| `Busy.v` | vocabulary of C190: a schedule without its busy refusals |
| `Rpc.v` | every unary method of the gRPC services; Status with the size query |
| `Halt.v` | Stop with the poll loop, compaction, the expiry goroutine and its timers on one database (backend.go 85-127, 282-301; ttl.go) |
| `Metrics.v` | the Prometheus metrics of the driver (metrics.go, driver.go 405-478, 680-687) |
| `Cluster.v` | the servers of Whole.v, each with its expiry goroutine and timers, and a clock (ttl.go 12-99, backend.go 85-113) |
| `Calm.v` | specification vocabulary for C208, C209: turns in which no database call fails, servers with nothing cancelled or closed, answers that are not failures |
| `ClusterFair.v` | infinite schedules of the cluster of `Cluster.v` (C209): turns, fairness, calm, passing time, timers that keep trying |
| `Metered.v` | pkg/instrument/dqlite.go: the listener whose accepted connections go through a channel, its goroutine, Close, and the byte counters |
| `Holder.v` | not code: the list-and-watch client of C228 |
| `Client.v`, `ClientMore.v`, `Migrate.v` | pkg/client, pkg/migrator |
| `Misc.v` | pkg/endpoint, cmd/tracing.go, pkg/instrument/extension.c |
| `Demo.v`, `*Witness.v` | concrete states and runs for the examples and refutations |
| `*Lemmas.v`, `*Proofs.v`, `Sim.v`, `Safety.v`, `TtlLive.v`, `StreamCancel.v`, `StreamMore.v`, `DriverCompact.v`, `SqlTextWrites.v`, `Ledger{More,Reads,Values}.v`, `*Results.v` | proofs |
| `P_*.v` | the property theorems, each `exact lemma`, with `Print Assumptions` and the example |

## Each property: how it is modelled and proved
* **C01** Store behaves as one linear multi-version history. Forward simulation (Sim.v) between the table and the specification, for every statement of System.v; the processes of Pool.v are shown to issue only statements the simulation covers (Safety.v). Traces by induction. *(`P_Store.v`; proved)*
* **C02** Create succeeds exactly when the key is not live. Undisturbed run of the create program from any reachable state, computed against `kv_at` by the simulation. *(`P_Store.v`; proved)*
* **C03** Update is compare-and-swap on the mod revision. As C02, for update. *(`P_Store.v`; proved)*
* **C04** Delete is compare-and-delete on the mod revision. As C02, for delete. *(`P_Store.v`; proved)*
* **C05** Revisions are strictly increasing, gap free and never reused. Revision = length of the history; monotone along every trace, including compaction, from the simulation. *(`P_Store.v`; proved)*
* **C06** Range reads return the exact snapshot. The list program is executed symbolically under interference (ReadProgs.v); the SQL query equals the sorted live keys; `C06_snapshot_unique` shows that sortedness and membership determine the answer. *(`P_Read.v`; proved)*
* **C07** Get reads exactly one key. As C06, for one key; range end = key ++ [0] shown to contain exactly the key. *(`P_Read.v`; proved)*
* **C08** Count agrees with list. Count query = length of the list query, all tables. *(`P_Read.v`; proved)*
* **C09** Both schema versions answer identically. Equality of the two generations of queries on every table with unique ids, then of all requests. *(`P_Read.v`; proved)*
* **C10** Pagination is lossless. Induction on the pages, with arbitrary steps of others between them. *(`P_Read.v`; proved)*
* **C11** More and Count flags are exact. From C06 and C08: length of the answer, More and Count as functions of the snapshot and the limit. *(`P_Read.v`; proved)*
* **C12** Compaction is invisible at and above the floor. `kv_at` at and above the floor is preserved by the compaction step of the simulation; lifted to traces. *(`P_Read.v`; proved)*
* **C13** Compacted reads are refused and the floor is monotone. Floor monotone along traces; symbolic execution of the read programs; justification from the floor being at most the revision compacted. *(`P_Read.v`; proved)*
* **C14** A compaction run keeps the last 100 revisions. Induction over the batches of DoCompact, with arbitrary interference (Pool.v); floor = min of interval and current-100. *(`P_Compact.v`; proved)*
* **C15** Compaction reclaims everything superseded. The rows left by the deletion statement are characterised exactly. *(`P_Compact.v`; proved)*
* **C16** Any interleaving of clients, compactors and crashes is safe. Invariant over the pool: each step preserves the simulation; crash = dropping a process at any statement. *(`P_Compact.v`; proved)*
* **C17** Failed conditional writes report the current value. Symbolic execution of the failed branch under interference, faults and retries (TxnProofs.v). *(`P_Txn.v`; proved)*
* **C18** The list header revision identifies the returned snapshot. Header of one-statement answers from the simulation; refutation by a run with a write between the two statements of a limited list. *(`P_Read.v`; partial)*
* **C19** A read racing with compaction is complete or refused. Symbolic execution under interference with the floor as ghost; refutation by a run. *(`P_Read.v`; partial)*
* **C20** Accepted transactions follow etcd semantics. `Etcd.v` is an independent semantics of transactions; the recognisers are compared with it by case analysis; refutations by requests. *(`P_Txn.v`; partial)*
* **C21** Unsupported requests are rejected without effect. The program of an unsupported request is shown to issue no statement and to answer with an error; supported ones are characterised. *(`P_Txn.v`; proved)*
* **C22** The bookkeeping key is protected. Floor preserved by every statement on another key; refutations by runs of transactions on `compact_rev_key`. *(`P_Compact.v`; partial)*
* **C23** Repairing duplicate bookkeeping rows keeps the floor. Permutation reasoning about the repair statements (RepairProofs.v); refutation by a table. *(`P_Compact.v`; partial)*
* **C24** Watch delivers every matching event once, in order. Invariants of the transition system of Watch.v relating delivered, queued and stored events with the history (WatchProofs.v, WatchResults.v); refutation by a run. *(`P_Watch.v`; partial)*
* **C25** Watch delivers nothing older than requested. Same invariants; refutations by runs with a lagging poller. *(`P_Watch.v`; partial)*
* **C26** Watch on compacted history is refused. Same; refutations by runs. *(`P_Watch.v`; partial)*
* **C27** Watch events carry true contents. Same invariants: every event row is reported with the contents `kv_at` gives. *(`P_Watch.v`; proved)*
* **C28** Update batches are revision-complete. Same invariants, for the updates published to a group. *(`P_Watch.v`; partial)*
* **C29** Progress notifications never overtake events. Invariants of the stream transition system (Stream.v over Watch.v); refutations by runs. *(`P_Stream.v`; partial)*
* **C30** Periodic progress keeps flowing. Same; the refutation is an invariant (the flag is never set again). *(`P_Stream.v`; partial)*
* **C31** Slow consumers are told they lost events. Same; the refutation is an invariant of all later states. *(`P_Stream.v`; partial)*
* **C32** A rejected watch leaves nothing behind. Same; refutation by a run. *(`P_Watch.v`; partial)*
* **C33** Watch ids on a stream are unique and owned. Uniqueness by invariant; isolation by a simulation between the runs with and without the cancel (StreamCancel.v). *(`P_Stream.v`; proved)*
* **C34** Polling survives query time-outs. Case analysis of the poller's step; refutation as invariant (the poller never runs again). *(`P_Watch.v`; partial)*
* **C35** Interrupted result sets are reported. Faulty row sets are part of Prog.v; symbolic execution; refutation by a run. *(`P_Read.v`; partial)*
* **C36** Expiry deletes only the exact leased version. Transition system of Ttl.v (timers over Watch.v); the delete program is compare-and-delete (C04). *(`P_Ttl.v`; proved)*
* **C37** Every leased key gets an expiry timer. Liveness as invariant: every leased version seen has a timer (TtlLive.v); refutations by runs. *(`P_Ttl.v`; partial)*
* **C38** Keys do not expire early. Timers carry the time they were set; clock monotone; int64 wrap of the multiplication modelled; refutations by runs. *(`P_Ttl.v`; partial)*
* **C39** Batched writes run exactly once, in order, atomically. Transition system of Batch.v (callers, queue, worker), generic in the database; ghost log of executed statements related to answers by invariants. *(`P_Batch.v`; proved)*
* **C40** One client's cancellation does not fail others. Same; refutation by a run. *(`P_Batch.v`; partial)*
* **C41** Closing the batched database is clean. Same; returning shown by a decreasing measure under every schedule. *(`P_Batch.v`; proved)*
* **C42** Retried writes take effect at most once. Symbolic execution with ambiguous faults: at most one statement of the retry loop has an effect. *(`P_Txn.v`; proved)*
* **C43** Prepared statements are cached once per query and closed. Transition system with the two critical sections of prepare (Prepared.v), invariants. *(`P_Prepared.v`; proved)*
* **C44** Schema versions encode losslessly. Arithmetic on int16/int32 with wrap (Z.land, shifts). *(`P_Schema.v`; partial)*
* **C45** Schema setup is idempotent and crash safe. Set-ups of any number of servers as interleaved transactions with faults and crashes; reachable schemas enumerated by an invariant. *(`P_Schema.v`; proved)*
* **C46** Snapshot tuning never leaves the safe region. uint64 arithmetic with wrap. *(`P_Server.v`; partial)*
* **C47** Initial configuration survives crashes. Directory states of a start; induction over crashed starts. *(`P_Server.v`; partial)*
* **C48** Address update is crash idempotent. As C47, for update.yaml. *(`P_Server.v`; partial)*
* **C49** Low disk space triggers exactly the configured action. uint64 arithmetic for the decision; transition system of the disk watcher for the actions. *(`P_Server.v`; partial)*
* **C50** Start and stop can be called in any order. Transition system of Start/Stop/Close with the mutex and the goroutines; completion by a decreasing measure. *(`P_Server.v`; partial)*
* **C51** Backup and restore round-trip. Files as map from names to contents; induction over the listed keys; refutations by runs. *(`P_Client.v`; partial)*
* **C52** Client put stores the value. Symbolic execution of the client's put under interference; refutation for all states. *(`P_Client.v`; partial)*
* **C53** Listen address parsing is total and predictable. Induction on strings. *(`P_Misc.v`; proved)*
* **C54** Trace filters export exactly the selected spans. Case analysis; the export loop by induction over spans. *(`P_Misc.v`; proved)*
* **C55** Compaction only deletes on the leader. Symbolic execution with the leader query as oracle; refutation by a run. *(`P_Compact.v`; partial)*
* **C56** Legacy unique index never rejects a write. Uniqueness of (name, prev_revision) as invariant of the table. *(`P_Compact.v`; proved)*
* **C57** Using a closed database returns an error. Transition system of Prepared.v; refutation for every closed state. *(`P_Prepared.v`; partial)*
* **C58** Shutdown does not crash the disk watcher. Transition system of the disk watcher; refutation by a run. *(`P_Server.v`; partial)*
* **C59** Client list by prefix is exact. Prefix successor by induction on the bytes; then C06. *(`P_Client.v`; partial)*
* **C60** A unix listener is private and survives stale files. Listener as a sequence of file-system effects. *(`P_Misc.v`; partial)*
* **C61** SQLite metrics lose and double count nothing. Conservation law over interleavings of the counters' reads and resets. *(`P_Misc.v`; partial)*
* **C62** Concurrent conditional writes are linearizable. Ledger.v records requests, commits and answers; invariant of every process between its call and its answer (rely-guarantee over the shared log). *(`P_Ledger.v`; proved)*
* **C63** Concurrent reads at the current revision are linearizable. Same, with the floor margin as hypothesis; refutation by a run. *(`P_Ledger.v`; partial)*
* **C64** Optimistic concurrency has one winner. From C62 and the uniqueness of mod revisions. *(`P_Ledger.v`; proved)*
* **C65** Reads respect real time. From the ledger invariants for reads (LedgerReads.v). *(`P_Ledger.v`; proved)*
* **C66** Nothing is committed that nobody asked for. Ledger invariant: every commit carries its request. *(`P_Ledger.v`; proved)*
* **C67** Compacting to any revision is clamped. Symbolic execution of Driver.Compact with any argument; refutation by a table. *(`P_Driver.v`; partial)*
* **C68** List and watch reproduce the store. Reflector client applied to list answer and watch events; by the invariants of C24 the copy is the fold of the history; refutation by a run. *(`P_Reflector.v`; partial)*
* **C69** Batched writes are linearizable. Batch.v instantiated with the statements of System.v; ghost history per statement. *(`P_BatchKine.v`; proved)*
* **C70** The server never blocks on its own connections. Transition system of connections, cache lock and waiting callers; no-deadlock plus decreasing measure; refutations by invariants. *(`P_ConnPool.v`; partial)*
* **C71** Connection pool flags do what their help says. Case analysis on the integers passed to database/sql. *(`P_ConnPool.v`; partial)*
* **C72** Every request does a bounded amount of work. Bound on the number of statements by structural reasoning on programs, with maxRetries. *(`P_Work.v`; proved)*
* **C73** Database errors reach the client at once. Symbolic execution with one failing statement. *(`P_Work.v`; proved)*
* **C74** Storage does not grow with the number of changes. Counting argument over the table after compaction and between compactions. *(`P_Size.v`; proved)*
* **C75** Watches lose nothing while the poller keeps up. The margins as hypotheses on single steps; with them the provisos of C24 hold as an invariant. *(`P_Resume.v`; proved)*
* **C76** A watch can be resumed anywhere. Two watches combined; from the invariants of C24; refutation by a run. *(`P_Resume.v`; partial)*
* **C77** The Go client reports conflicts exactly. Symbolic execution of the client's operations. *(`P_Client.v`; proved)*
* **C78** Compaction works in small transactions. Ledger of compaction calls per batch; refutation by a run of the dqlite driver. *(`P_Compact.v`; partial)*
* **C79** A write answered with failure changed nothing. As C42, C62, C39, C69, under the hypothesis on faults; refutations by runs. *(`P_Batch.v`, `P_BatchKine.v`, `P_Ledger.v`, `P_Txn.v`; partial)*
* **C80** Set-up gets through, and refuses what it does not know. Symbolic execution of the set-up without faults; refutation for all newer versions. *(`P_Schema.v`; partial)*
* **C81** No span is lost at shutdown. The shutdown closure is modelled as written. *(`P_Misc.v`; partial)*
* **C82** Watch events arrive in order, once and within the range. Invariants of C24 that need no proviso. *(`P_Watch.v`; proved)*
* **C83** A client can choose the id of a watch. For every stream state. *(`P_Wire.v`; partial)*
* **C84** A listen value without scheme is a unix socket path. For every string. *(`P_Misc.v`; partial)*
* **C85** Leases work end to end. C37, C38 and LeaseGrant put together. *(`P_Lease.v`; partial)*
* **C86** A key without lease never expires. From C36 and the simulation: a timer deletes only the version with its lease. *(`P_Lease.v`; proved)*
* **C87** Opening the database gives one working handle or none. Induction over the attempts. *(`P_Run.v`; proved)*
* **C88** Exit status zero means an orderly stop. Invariant `marks_at` of the process's transition system. *(`P_Run.v`; proved)*
* **C89** Asked to stop, the process stops in an orderly way. Rank function of the main goroutine for the completion; refutations as computations for all continuations. *(`P_Run.v`; partial)*
* **C90** The metrics endpoint does not affect the service. Invariant; computation. *(`P_Run.v`; partial)*
* **C91** TLS and low-disk options mean what they say. Case analysis on strings, as an equivalence. *(`P_Run.v`; proved)*
* **C92** A start refused because of an option changes nothing. Computation of New for all directories. *(`P_Run.v`; partial)*
* **C93** Watch responses follow their confirmation. Invariants of watcher groups and of the stream; order of messages. *(`P_Wire.v`; proved)*
* **C94** Every create request is answered as such. Case analysis of all stream steps during a registration; counterexample with a failing query. *(`P_Wire.v`; partial)*
* **C95** Cancelling a watch is confirmed. All messages of all reachable streams, via the wire format (Wire.v). *(`P_Wire.v`; partial)*
* **C96** The refusal of a compacted watch tells the compaction revision. All messages, via the wire format; a refused watch as witness. *(`P_Wire.v`; partial)*
* **C97** Watch options are honoured. The request as protobuf record; one witness run per option. *(`P_Wire.v`; partial)*
* **C98** Streams end without crashing the server. Transition system of groups, mutex and AfterFunc (GroupLife.v); inductive invariant. *(`P_Wire.v`; proved)*
* **C99** A watch call returns when it is over. Transition system of the handler's goroutines (GroupLife.v); measure; invariant. *(`P_Wire.v`; partial)*
* **C100** The disk watcher takes exactly the configured action. Transition system of the disk watcher (Server.v); induction on runs. *(`P_Server.v`; proved)*
* **C101** Snapshot parameters keep their order. uint64 arithmetic with wrap. *(`P_Server.v`; proved)*
* **C102** A successful client put was written. Symbolic execution of the put under interference. *(`P_Client.v`; proved)*
* **C103** A prefix list is the prefix. Prefix successor by induction on the bytes; then C06. *(`P_Client.v`; proved)*
* **C104** Start-up never destroys state. Case analysis of a start on all directories. *(`P_Server.v`; proved)*
* **C105** A stopped backend stays stopped. Transition system of Start/Stop/Close; inductive invariant. *(`P_Server.v`; proved)*
* **C106** The limit of open connections is kept. Inductive invariant of the pool (ConnPool.v). *(`P_ConnPool.v`; proved)*
* **C107** Counts are exact or refused. Symbolic execution of the count under interference and faults. *(`P_Read.v`; proved)*
* **C108** Statements on a closed database do not crash. Inductive invariant of the statement cache (Prepared.v). *(`P_Prepared.v`; proved)*
* **C109** Small compaction transactions on SQLite. Ledger of the compaction calls of a run. *(`P_Compact.v`; proved)*
* **C110** Requests on ordinary keys leave the floor alone. Frame property of the transaction programs. *(`P_Compact.v`; proved)*
* **C111** A watch below the floor is refused. The check of a watch in any reachable state (Watch.v). *(`P_Watch.v`; proved)*
* **C112** SQLite counters are conserved. Conservation law over interleavings of atomic operations. *(`P_Misc.v`; proved)*
* **C113** The handler of a departed client returns. Transition system of the handler's goroutines (GroupLife.v); measure. *(`P_Wire.v`; proved)*
* **C114** Batching is invisible. Node.v: servers with the batching layer of Batch.v under the programs of Ledger.v; forward simulation, one call of the Ledger per statement of a batch. *(`P_Node.v`; proved)*
* **C115** No write waits for more than two batches. Invariant of the run numbers; five steps of the batching goroutine. *(`P_Node.v`; proved)*
* **C116** The server behaves the same when its database calls are the SQL it really sends. SqlText.v holds the texts verbatim, SqlLang.v parses and evaluates them, SqlDriver.v makes the driver's calls with them; equality with the calls of Prog.v, then C01. *(`P_SqlText.v`; proved)*
* **C117** No schedule tells the SQL texts from their intended meaning. Induction on the program tree; each text shown equal to its function in Sql.v for all tables with distinct row ids (SqlTextProofs.v, SqlTextWrites.v). *(`P_SqlText.v`; proved)*
* **C118** Each SQL text computes what the history says. Reachability by texts beside the history; the simulation of Sim.v composed with the texts' correctness. *(`P_SqlText.v`; proved)*
* **C119** Answers show only committed versions. Shown.v says what an answer shows; LedgerValues.v proves, for every program and any fault, that rows of the list queries are versions of the history at their id (simulation relation), then carries this through the ledger as a promise of every answered request. *(`P_Values.v`; proved)*
* **C120** No lost updates. The condition of a committed conditional write holds right before its commit (C66); the version at a revision of a growing history never changes, so the version insisted on is the version shown (C119). *(`P_Values.v`; proved)*
* **C121** Events report committed, requested changes. Whole.v: the servers of Node.v, each with the poller and groups of Watch.v and any number of streams of Stream.v, one database, one log in real-time order. WholeProofs.v: an invariant kept by all steps - log commits = history of the database, each stream of each server satisfies the stream invariant against that database, each sent message was truthful of the log before it. C121 reads it off and finds the request that caused the commit with the ledger theorem of C66. *(`P_Whole.v`; proved)*
* **C122** Reads never lag behind received events. The event's change precedes the request in the log; headers are bounded below by the revision at the request (C65); linearizability of the get (C63). *(`P_Whole.v`; proved)*
* **C123** No lost update on watched versions. C66 gives the condition of the committed write; the version of an event is the version of the history at its revision, which never changes. *(`P_Whole.v`; proved)*
* **C124** Watches have no gaps while many servers write. The stream invariants (completeness, order) of StreamProofs.v hold for each stream with respect to the shared database; steps of other streams, servers and requests only extend it. *(`P_Whole.v`; proved)*
* **C125** List and watch across servers. C124 composed with the linearizable list and the mirror lemmas of ReflectorProofs.v. *(`P_Whole.v`; proved)*
* **C126** Nobody disagrees about a revision. Both are the version of one history at one revision (C119, C121). *(`P_Whole.v`; proved)*
* **C127** The header of an unlimited list identifies its snapshot. Symbolic execution of the list under interference: the content is that of the revision read with the floor check; keeping the rows needs only that the floor has not passed. *(`P_Read.v`; proved)*
* **C128** Transactions about one key follow etcd. Case analysis of the recognisers; each coherent shape is one SQL statement whose effect is the specification's. *(`P_Txn.v`; proved)*
* **C129** Watches have no gaps while compaction keeps behind. Invariant of the watch state machine: delivered = changes of the range up to the group's position; progress by induction on the distance to the current revision. *(`P_Watch.v`; proved)*
* **C130** Leases of up to 292 years are not cut short. Time-stamped ttl machine: the timer of a version is never earlier than its write plus the lease, for products below 2^63. *(`P_Ttl.v`; proved)*
* **C131** Schema versions with non-negative minors encode losslessly. Integer arithmetic with wrap-around. *(`P_Schema.v`; proved)*
* **C132** Reads overtaken by at most 100 changes are linearizable. Linearization point at the first statement of the read; rows of the last 100 revisions survive compaction. *(`P_Ledger.v`; proved)*
* **C133** Compaction is clamped to the current revision. Symbolic execution of the driver's compaction on every reachable store. *(`P_Driver.v`; proved)*
* **C134** List and watch, skipping what is known. C127 composed with C129: applying the changes between two revisions to a snapshot gives the later snapshot. *(`P_Reflector.v`; proved)*
* **C135** Three connections are enough. Ranking function for termination; invariant on who holds and waits for connections, mutex and locks for progress. *(`P_ConnPool.v`; proved)*
* **C136** A watch resumed by a careful client has no gaps. Induction over the streams of the client with C129 for each. *(`P_Resume.v`; proved)*
* **C137** A watch is for the range and start asked. Case analysis of a stream step on the request; every other step is shown to leave the registrations unchanged. *(`P_Wire.v`; proved)*
* **C138** Every request is answered. Infinite schedule; the order "one step of its own goroutine later" on what a request has left to do is well-founded; turns of the others leave it unchanged; a write handed to the batching layer is reported within a round of the batching goroutine; induction over the order. *(`P_Fair.v`; proved)*
* **C139** Every change is eventually delivered. Projection of the infinite run of the whole system to the one stream (each step of the system is a step of the stream, of its poller, or leaves it alone); the poll position reaches the revision (well-founded), a later publication puts the change into the channel (publish_complete), the number of updates taken reaches it (well-founded). *(`P_FairWatch.v`; proved)*
* **C140** Every watch request is answered. Invariant of a stream: answers sent plus the one in progress are the registrations, numbered in order; projection of the infinite run to the stream; the phase of the registration (check, query, final section) decreases at its next turn and is left alone by everything else. *(`P_FairCreate.v`; proved)*
* **C141** Migration from etcd brings over every key. Migrate.v models BackupEtcd over etcd's history (listing of the live keys, descending); composition of the written files, the reading loop and putKey (lemmas of C51). *(`P_Migrate.v`; proved)*
* **C142** Migration to etcd brings over every key under "/". Migrate.v models RestoreToEtcd; induction over the entries read, composed with the listing of C51; there-and-back by composing with C141. *(`P_Migrate.v`; proved)*
* **C143** The messages carry the versions unchanged. KvWire.v models the protobuf messages (all fields of mvccpb.KeyValue, nil pointers included) and toKV/toKVs; composed with C06, C07 and the lemmas of C03/C04. *(`P_KvWire.v`; proved)*
* **C144** Every answer tells the current revision. Case analysis with the lemmas of C02-C04; refuted for failures. *(`P_KvWire.v`; partial)*
* **C145** Versions and counts are those of etcd. Versions by induction over the history (Etcd.v); refuted for all live keys. *(`P_KvWire.v`; partial)*
* **C146** A successful compaction run has compacted. Weakest preconditions of the compaction program over all interleavings and faults (ProgLemmas.v): after each batch the floor is at least the batch's end; loop induction; size with the row bound of C74. *(`P_CompactRun.v`; proved)*
* **C147** A read that compaction does not overtake is complete. Split off C19: Symbolic execution under interference with the floor as ghost; refutation by a run. *(`P_Read.v`; proved)*
* **C148** A caught-up watch delivers nothing older. Split off C25: Same invariants; refutations by runs with a lagging poller. *(`P_Watch.v`; proved)*
* **C149** Updates are complete up to their revision while compaction keeps behind. Split off C28: Same invariants, for the updates published to a group. *(`P_Watch.v`; proved)*
* **C150** What a client has been sent is a gap-free prefix. Split off C31: Same; the refutation is an invariant of all later states. *(`P_Stream.v`; proved)*
* **C151** A progress notification after a delivered update is true. Split off C29: Invariants of the stream transition system (Stream.v over Watch.v); refutations by runs. *(`P_Stream.v`; proved)*
* **C152** Idle watches get periodic progress. Split off C30: Same; the refutation is an invariant (the flag is never set again). *(`P_Stream.v`; proved)*
* **C153** Polling survives errors other than time-outs. Split off C34: Case analysis of the poller's step; refutation as invariant (the poller never runs again). *(`P_Watch.v`; proved)*
* **C154** Leased keys the server has seen get a timer. Split off C37: Liveness as invariant: every leased version seen has a timer (TtlLive.v); refutations by runs. *(`P_Ttl.v`; proved)*
* **C155** Expiry respects the lease granted and is prompt. Split off C85: C37, C38 and LeaseGrant put together. *(`P_Lease.v`; proved)*
* **C156** A write whose batch mates are not cancelled succeeds. Split off C40: Same; refutation by a run. *(`P_Batch.v`; proved)*
* **C157** Start-up configuration survives crashes between file writes. Split off C47, C48: Directory states of a start; induction over crashed starts. *(`P_Server.v`; proved)*
* **C158** Backend calls return unless an unstarted backend was stopped. Split off C50: Transition system of Start/Stop/Close with the mutex and the goroutines; completion by a decreasing measure. *(`P_Server.v`; proved)*
* **C159** Backup and restore bring over the keys under /. Split off C51: Files as map from names to contents; induction over the listed keys; refutations by runs. *(`P_Client.v`; proved)*
* **C160** A client put on a live key works. Split off C52: Symbolic execution of the client's put under interference; refutation for all states. *(`P_Client.v`; proved)*
* **C161** A node that knows it is a follower does not compact. Split off C55: Symbolic execution with the leader query as oracle; refutation by a run. *(`P_Compact.v`; proved)*
* **C162** A unix listener is private once it is up. Split off C60: Listener as a sequence of file-system effects. *(`P_Misc.v`; proved)*
* **C163** A non-zero idle connection flag is obeyed. Split off C71: Case analysis on the integers passed to database/sql. *(`P_ConnPool.v`; proved)*
* **C164** A write answered with failure changed nothing, if the database reports truthfully. Split off C79: As C42, C62, C39, C69, under the hypothesis on faults; refutations by runs. *(`P_Batch.v`, `P_BatchKine.v`, `P_Ledger.v`, `P_Txn.v`; proved)*
* **C165** Set-up gets through undisturbed. Split off C80: Symbolic execution of the set-up without faults; refutation for all newer versions. *(`P_Schema.v`; proved)*
* **C166** A serving process stops in an orderly way on a signal. Split off C89: Rank function of the main goroutine for the completion; refutations as computations for all continuations. *(`P_Run.v`; proved)*
* **C167** A start refused because of the low-disk or TLS options touches nothing. Split off C92: Computation of New for all directories. *(`P_Run.v`; proved)*
* **C168** Registration requests begin and end with one answer. Split off C94: Case analysis of all stream steps during a registration; counterexample with a failing query. *(`P_Wire.v`; proved)*
* **C169** A performed write answers with its revision. Split off C144: Case analysis with the lemmas of C02-C04; refuted for failures. *(`P_KvWire.v`; proved)*
* **C170** Repairing bookkeeping rows keeps the highest floor written by a compaction. Split off C23: Permutation reasoning about the repair statements (RepairProofs.v); refutation by a table. *(`P_Compact.v`; proved)*
* **C171** A watch whose backlog cannot be read leaves nothing. Split off C32: Same; refutation by a run. *(`P_Watch.v`; proved)*
* **C172** Snapshot parameters are safe for sensible settings. Split off C46: uint64 arithmetic with wrap. *(`P_Server.v`; proved)*
* **C173** Free space is measured exactly. Split off C49: uint64 arithmetic for the decision; transition system of the disk watcher for the actions. *(`P_Server.v`; proved)*
* **C174** Shutting down after the disk watcher returned does not crash. Split off C58: Transition system of the disk watcher; refutation by a run. *(`P_Server.v`; proved)*
* **C175** Every lease eventually runs out. FairTtl.v defines infinite schedules and fairness; the poll position passes the revision (well-founded), a publication puts an update into the goroutine's channel, the number of updates taken passes it, C155 gives the timer, time passes its due date, an attempt deletes the key. *(`P_FairTtl.v`; proved)*
* **C176** The start-up of expiry completes. Ranking of the start-up's stages; every step keeps the stage or moves on, the stage's own action moves on. *(`P_FairTtl.v`; proved)*
* **C177** A failing put of a migration to etcd costs only its own key. Induction over the entries read; keys of a listing are distinct. *(`P_Migrate.v`; proved)*
* **C178** A migration that lost keys says so. Refutation by a concrete run. *(`P_Migrate.v`; partial)*
* **C179** Compaction runs keep coming and every run ends. Compactor.v: the ticker goroutine as a state machine around the DoCompact program; induction over the program with the wp calculus under interference: every call node is left at the next turn, so every run ends; wp with no faults gives success; the floor then only grows. *(`P_Compactor.v`; proved)*
* **C180** The table does not grow with the history. The run found for C179, and the bound on retained rows (SizeProofs). *(`P_Compactor.v`; proved)*
* **C181** Durations are the configured ones. Definition of the configuration, case analysis; the ticker steps are the identity when durations are positive. *(`P_Intervals.v`; proved)*
* **C182** A server that accepts its configuration serves until it is told to stop. Refutation for every non-positive value. *(`P_Intervals.v`; partial)*
* **C183** The query timeout is at least five seconds. Refutation: invariant that no batch is ever fetched. *(`P_Intervals.v`; partial)*
* **C184** A write is published without waiting for the poll interval. Infinite schedules of the loop; leads-to lemmas with a measure (distance of the poller to the revision, position in the channel); a batch of less than 100 events is complete. *(`P_Poller.v`; proved)*
* **C185** Every successful write wakes the poller. Refutation: two concrete infinite schedules with a fixed point. *(`P_Poller.v`; partial)*
* **C186** The poll ticker alone suffices. Leads-to lemmas: tick, select, query attempted again and again; then as C184. *(`P_Poller.v`; proved)*
* **C187** The poller does not flood the database. Amortised counting: every notification and tick is worth one query, every batch of 100 events one more. *(`P_Poller.v`; proved)*
* **C188** The poller does not flood the database when queries fail. Refutation: fixed point of the failing step. *(`P_Poller.v`; partial)*
* **C189** A stream is dropped for slowness only at 100 waiting updates. Case analysis of a step on one group; invariant over all reachable states for the bound. *(`P_Channel.v`; proved)*
* **C190** A busy database is not noticed. Induction over the request's program: each retry loop on a schedule equals one attempt on the schedule without busy refusals. *(`P_Busy.v`; proved)*
* **C191** Status tells the version and the bytes in use. Rpc.v models Status down to the size query (whose text is run in C118_size); induction over the attempts. *(`P_Rpc.v`; proved)*
* **C192** Only transactions change the store. Rpc.v dispatches every unary method; a request is a reader if it issues no writing statement: structural induction over programs. *(`P_Rpc.v`; proved)*
* **C193** A compaction request compacts. Refutation on the demo database. *(`P_Rpc.v`; partial)*
* **C194** Stopping a backend returns. Liveness by leads-to arguments along the nine places of the expiry goroutine, well-founded on the remaining updates; the poll loop and compaction likewise. *(`P_Halt.v`; proved)*
* **C195** A stopped backend's goroutines are silent. Inductive invariant; the deletions on their way as a decreasing measure. *(`P_Halt.v`; proved)*
* **C196** A stopped backend changes nothing. Refuted by a concrete execution. *(`P_Halt.v`; partial)*
* **C197** Operation counters are exact. Metered driver calls over the program model; induction on the sequence of calls. *(`P_Metrics.v`; proved)*
* **C198** Every operation is counted once. Refuted by a concrete run; exactly twice by the same induction. *(`P_Metrics.v`; partial)*
* **C199** Transactions are counted individually. Refuted by a concrete run with two retries. *(`P_Metrics.v`; partial)*
* **C200** Latency buckets are right. Refuted by a concrete run; exact meaning of the buckets by induction. *(`P_Metrics.v`; partial)*
* **C201** In a cluster, nothing but clients, start-up and expired leases changes the store. invariant over the cluster (timers truthful, every expiry request stems from a due timer, the commit times of what it deletes) on top of the ledger theorem for every commit *(`P_Cluster.v`; proved)*
* **C202** A key without an expired lease disappears only on request. corollary of C201 *(`P_Cluster.v`; proved)*
* **C203** Each server of a cluster expires leases as a server on its own does. simulation: every step of the cluster is a (possibly empty) sequence of steps of the single-server model of Ttl.v for each server *(`P_Cluster.v`; proved)*
* **C204** Leases written anywhere get timers on every server that heard of them. C154 through the simulation of C203 *(`P_Cluster.v`; proved)*
* **C205** One slow watch stream cannot hold up the others. a measure of the publisher's own steps that no other step raises *(`P_Publish.v`; proved)*
* **C206** What publishing does to each stream. induction over the groups still to do *(`P_Publish.v`; proved)*
* **C207** A successful expiry deletion is final. promise over the ledger of requests: the delete statement leaves the version not current, later commits cannot bring an old revision back *(`P_Expire.v`; proved)*
* **C208** Available as soon as the database answers. the node refines the ledger with the faults its state can cause (none in a calm period), programs whose calls all succeed do not fail, fairness gives the answer (C138) *(`P_Calm.v`; proved)*
* **C209** Leases end in a cluster. the timer stays and its firing asks for the deletion, which by C208 is answered without an error and by C207 final; schedules of the cluster project to schedules of its request part *(`P_ClusterFair.v`; proved)*
* **C210** Leases end, from the write on. ClusterHearProofs.v: the view of one server through every step of the cluster; the poller reaches every committed revision; the loop receives it; then C209. *(`P_ClusterHear.v`; proved)*
* **C211** Watches deliver in the whole cluster. ClusterWatchProofs.v: a schedule of the cluster is a schedule of Whole.v step by step (rest_of); then C139 *(`P_ClusterWatch.v`; proved)*
* **C212** Watchers see leases end. the first change after the leased version exists by C210 and is delivered by C211; its previous value is the version *(`P_ClusterWatch.v`; proved)*
* **C213** Availability in the whole cluster. projection of the cluster to its request part (ClusterFairProofs.v), then C208 *(`P_ClusterWatch.v`; proved)*
* **C214** A dropped stream is drained and then silent. GroupLifeProofs.v: a closed channel stays closed and is never filled; invariant of the handler *(`P_Wire.v`; proved)*
* **C215** A watch that is asked for starts, and works from then on. P_WatchStart.v, WatchStartProofs.v: `answered` of FairCreateProofs.v gives the answer; that the watch is not cancelled and the poller runs is kept along the schedule by the step lemma `follow`; then `comes_out` of FairWatchProofs.v; clusters through the schedule `ksch` of ClusterWatchProofs.v. *(`P_WatchStart.v`; proved)*
* **C216** List-and-watch clients catch up. P_Converge.v, ConvergeProofs.v: the list is a snapshot of its header (`list_snapshot`, from the linearizability of reads); what has been sent is a gap-free prefix (`stream_prefix`), hence the copy is right at every moment (`client_right`); for N take the last change of the range up to N: by C215 its event is received, so the copy has reached it, and up to N nothing changes (`catches_up`). *(`P_Converge.v`; proved)*
* **C217** The instrumented listener hands over every accepted connection once. Metered.v; induction over runs: received, in hand and waiting form a subsequence of (without Close: equal) the connections made. *(`P_Metered.v`; proved)*
* **C218** The byte counters of the instrumented listener are exact. Metered.v; induction over the operations against a sum that restarts at each store. *(`P_Metered.v`; proved)*
* **C219** Samples taken by Metrics and ResetMetrics add up. Metered.v; counterexample; induction over quiet periods. *(`P_Metered.v`; partial)*
* **C220** Using the instrumented listener never crashes the process. Metered.v; counterexamples; invariant of tidy runs: the channel is closed only when no socket is open. *(`P_Metered.v`; partial)*
* **C221** Close of the instrumented listener returns. Metered.v; distance of the goroutine from its end never grows after the close and falls with each turn. *(`P_Metered.v`; proved)*
* **C222** An orderly Close of the instrumented listener leaves no error. Metered.v; counterexample; invariant: no failure is looked at before the context is cancelled. *(`P_Metered.v`; partial)*
* **C223** Requests are accepted only after a complete start-up. Run.v; invariant over runs of the process: the calls made so far are determined by where the main goroutine is. *(`P_Run.v`; proved)*
* **C224** Compaction works in a running cluster. Cluster.v, ClusterFair.v; the promise of each process is what it answers and the state it leaves (wp of the run under interference, CompactRunProofs.v), kept by every step of the ledger; lifted to the cluster as C213. *(`P_ClusterCompact.v`; proved)*
* **C225** A watch from a compacted revision is refused from then on. Watch.v, Stream.v, Whole.v, Cluster.v; invariant along the schedule: a registration made after the refused read, from a revision below the floor of that moment, never passes the check; the answers are matched with the requests as in C140. *(`P_WatchRefused.v`; proved)*
* **C226** A watch refused as compacted is compacted. Watch.v, Stream.v, Whole.v, Cluster.v; invariant over the steps of a stream: every refusal sent names a registration whose start was below the floor; with the margin kept by compaction. *(`P_TrueRefusal.v`; proved)*
* **C227** On a healthy database a watch from a recent revision is confirmed, and a list-and-watch client catches up. every answer after T on the stream of a schedule whose SCheck/SQuery do not fail is not MUnhealthy (ConfirmedProofs.v, well_step), the first answered time excludes MCompacted by C226, then C215/C216 *(`P_Confirmed.v`; proved)*
* **C228** List-and-watch clients agree at last, with each other and with every reader. C227_catches gives each copy the content of its range at rest; the later list is the content of its revision (read linearizability), which is not before the one of agreement; keys unchanged in between *(`P_Agree.v`; proved)*

No property of the list is out of reach of a model; where only part is proved the
reason is that the rest is false of the code (a `_refuted` theorem), unless the note in
`MANIFEST.json` says otherwise.

## Trusted base
* **Coq 8.16.1's kernel**, including its virtual machine (`vm_compute`, used to check
  examples and concrete runs).  No plugin, no native_compute, no kernel check disabled.
* **Assumptions.**  Every property theorem is followed by `Print Assumptions`; all
  print "Closed under the global context": no axiom is used, not even one of the
  standard library.  (Loading `ssreflect`-based files of the standard library makes
  `coqchk` list `Coq.ssr.ssrunder.Under_rel.*` for the context; no theorem depends on
  them.)  There is no `Axiom`, `Parameter`, section-less `Variable` or `Hypothesis`, no
  `Admitted`, no functor and no module type.
* **The translation** of Go into Gallina, by reading; each definition cites its
  lines.  The SQL of driver.go is not translated by reading: `SqlText.v` holds the texts
  themselves, and `Sql.v` (which the rest of the model uses) is proved equal to what
  evaluating them gives (C116-C118).  What is trusted there is `SqlLang.v` as a description
  of SQLite: three-valued logic, comparison by storage class, `max()`/bare columns from the
  row of the maximum, nested-loop order of joins, INSERT ... SELECT reading before
  writing, AUTOINCREMENT; and the arguments' order in `SqlDriver.v`.  The mutation log `seeded/LOG.jsonl` records how the theorems react to edits
  of the definitions.
* **The environment**, assumed as follows.
  - SQLite/dqlite: a statement or transaction is atomic, isolated and durable;
    AUTOINCREMENT ids grow; text/blob comparison is memcmp; `LIKE`/collation are not used.
  - A statement that reports an error may or may not have had its effect, unless a
    theorem says otherwise; a query may deliver part of its rows and then an error.
  - Go: mutexes, channels, `sync.WaitGroup`, `select`, maps and `time.Timer` behave as
    documented; `select` chooses arbitrarily among ready cases.
  - Integers are unbounded in the model except where the code's arithmetic can wrap
    (schema versions, tuning, disk space, lease durations), which is modelled.
  - go-dqlite's `app.New`, `Handover`, `Ready`, `ReconfigureMembershipExt`, `client.Leader` are
    oracles with the behaviour stated in `Server.v`, `Run.v` and `Backend.v`.
  - gRPC delivers the messages of a stream in order and runs handlers concurrently.
  - Byte slices are values: `append(key, 0)` (driver.go:481-483, 723-725, 774-776) never writes
    into an array another slice shares.  A nil byte slice (an empty bytes field of a
    protobuf message) bound to a statement is the empty string, not NULL.
  - `time.NewTicker` panics on a duration that is not positive and otherwise ticks for ever.

## What is modelled, and what is not
| source | modelled in | left out |
|---|---|---|
| pkg/backend/sqlite/driver.go | `SqlText.v`, `SqlDriver.v`, `Sql.v`, `System.v`, `Backend.v`, `Schema.v` | spans, counters; indexes (they do not change results; uniqueness violations of the legacy unique index: C56) |
| pkg/backend/sqlite/schema.go | `Schema.v` | text of the DDL |
| pkg/backend/sqlite/backend.go, pkg/backend/dqlite/backend.go | (construction only) | |
| pkg/backend/sqlite/metrics.go | `Metrics.v` | the gauge current_ops (never set by the code); OTel counters |
| pkg/backend/dqlite/driver.go | `Backend.v`, `Prog.v` (retry) | go-dqlite client |
| pkg/backend/internal/backend/* | `Backend.v`, `Watch.v`, `Poller.v`, `Compactor.v`, `Ttl.v`, `Halt.v`, `Server.v` (life cycle) | spans |
| pkg/limited/* | `Limited.v`, `Stream.v`, `Wire.v`, `GroupLife.v`, `Lease.v`, `Rpc.v` | spans |
| pkg/database/* | `Batch.v`, `Prepared.v`, `ConnPool.v`, `BatchKine.v`, `Node.v` | statement statistics |
| pkg/server/* | `Server.v`, `Run.v`, `ConnPool.v` | contents of certificates and yaml syntax |
| pkg/endpoint | `Misc.v`, `Run.v` | gRPC transport |
| pkg/client, pkg/migrator, cmd/migrator.go | `Client.v`, `ClientMore.v` | progress output |
| cmd/root.go, cmd/tracing.go | `Run.v`, `Misc.v` | profiling, log level, OTel exporters |
| pkg/instrument/extension.c, dqlite.go | `Misc.v`, `Metered.v` | pkg/instrument/sqlite.go (calls of the C functions) |
| pkg/tls/config.go, cmd/version.go | | not modelled |

## Findings: properties refuted of the code
* **C18** The list header revision identifies the returned snapshot: The true part (unlimited lists) is C127; refuted for limited lists: list.go:73-80 overwrites the header with the one of a second query.
* **C19** A read racing with compaction is complete or refused: Complete whenever the revision is still readable when the answer is given (C147); refuted in general: floor check and row query are separate statements (backend.go:239-258).
* **C20** Accepted transactions follow etcd semantics: The true part (coherent transactions) is C128; refuted for accepted transactions whose compare key, put key, put flags or absent-key revision the recognisers ignore.
* **C22** The bookkeeping key is protected: The true part is C110; refuted for client transactions on compact_rev_key itself, which the server accepts.
* **C23** Repairing duplicate bookkeeping rows keeps the floor: Proved when a row with the highest floor has created=0 (C170); refuted when all duplicates have created=1: backend.go:160-167 then deletes all of them and the floor is lost.
* **C24** Watch delivers every matching event once, in order: The true part is C129, order and uniqueness C82; refuted in general: when compaction overtakes the poller or a registration, events are lost silently.
* **C25** Watch delivers nothing older than requested: Proved when the start is at most one above the group position or absent (relative to that position); refuted when the poller lags: a watch from revision 4 receives 1-3.
* **C26** Watch on compacted history is refused: Refusal below the floor proved; refuted for a start equal to the floor when that change is a deletion, and for a compaction between check and query.
* **C28** Update batches are revision-complete: Same proviso as C24; refuted when compaction overtakes the poller.
* **C29** Progress notifications never overtake events: Proved for every moment at which no update is held between receive and send and at least one update published after the acknowledgement was sent (provisos of C24). Without either proviso the property is false of the code: ws.revision is assigned before the mutex is taken (watch.go:88), and a new watch shares the stream revision before its backlog is flushed; both refuted by reachable runs.
* **C30** Periodic progress keeps flowing: Proved for watches that never got an event. After the first event the code never sends periodic progress again (watch.go:146 assigns the loop variable instead of the map): proved for every later state, so the property is refuted.
* **C31** Slow consumers are told they lost events: Prefix part proved under the provisos of C24. The termination part is false: a dropped group leaves the stream open and silent forever while new watches are still acknowledged (proved for all later states).
* **C32** A rejected watch leaves nothing behind: Proved for a failing initial query; refuted for a watch refused as compacted, whose watcher stays registered and collects events.
* **C34** Polling survives query time-outs: Proved for errors other than time-outs and cancellation; refuted for a time-out: polling ends for good.
* **C35** Interrupted result sets are reported: The true part, counts, is C107; refuted for lists: ScanAll (utils.go:11-24) ignores rows.Err().
* **C37** Every leased key gets an expiry timer: Proved for every leased version seen by the start-up scan or written afterwards when no fault drops the group and the lease is at least one; refuted for keys the watch misses between scan and watch, and for a failing start-up query.
* **C38** Keys do not expire early: The true part is C130; refuted for leases above 2^63/10^9 seconds (the multiplication wraps, the key expires at once) and for negative ones.
* **C40** One client's cancellation does not fail others: Proved when the cancelled caller is alone in its batch or leaves the queue first (C156); refuted: a statement failing by its caller's cancellation fails the whole batch.
* **C44** Schema versions encode losslessly: The true part (non-negative minors) is C131; a negative minor, allowed by the int16 signature, overwrites the major: refuted for every major.
* **C46** Snapshot tuning never leaves the safe region: trailing >= 512 and threshold <= trailing proved for all uint64 pairs; the minimum threshold only for trailing >= 512 without overflow of 3*trailing; refuted otherwise (threshold 0 is handed to dqlite).
* **C47** Initial configuration survives crashes: Proved for crashes and failures that do not fall between the removal of init.yaml and the end of app.New; refuted for every configuration otherwise, also without a crash when a later configuration step fails.
* **C48** Address update is crash idempotent: Proved for every crash pattern that does not leave info.yaml truncated; refuted for a crash between truncation and write (os.WriteFile): the node loses its id.
* **C49** Low disk space triggers exactly the configured action: Proved when free blocks * block size fits uint64 and statfs works; refuted for overflow and for a failing statfs, which is treated as low space.
* **C50** Start and stop can be called in any order: Completion (no deadlock) from every reachable state while the mutex is not lost, and nothing left running after the last stop. Refuted: Stop on a backend that is not started returns with the mutex held (backend.go:118-120), so every later call hangs.
* **C51** Backup and restore round-trip: Round trip proved for keys under "/" into any store, undisturbed, provided no leftover file of a larger earlier backup follows. Refuted in full: stale files are restored, keys outside "/" and leases are lost, put errors are swallowed, and an interrupted backup over an older one pairs keys with wrong values.
* **C52** Client put stores the value: That success means written is proved for every schedule and fault; success on present keys undisturbed. For absent keys put always fails with "not found" (proved for all states): refuted.
* **C55** Compaction only deletes on the leader: Proved when every leader query is answered; refuted when the leader is unknown: the node then compacts (dqlite/driver.go:58-60).
* **C57** Using a closed database returns an error: Holds for reads and writes; a second Close, BeginTx, Conn or PrepareContext after Close panics on a nil interface.
* **C58** Shutdown does not crash the disk watcher: Proved when the disk watcher has returned before Shutdown closes the channel; nothing enforces that, refuted by a check in progress.
* **C59** Client list by prefix is exact: Proved for every prefix that has a byte below 0xff; the empty prefix lists nothing.
* **C60** A unix listener is private and survives stale files: Private at return and independent of what was left; between bind and chmod the socket has the umask mode, and any file at the path is deleted.
* **C61** SQLite metrics lose and double count nothing: Proved for writes, hits and the two times over every interleaving; misses are overwritten by spills and lost, spills always read 0.
* **C63** Concurrent reads at the current revision are linearizable: The true part (at most 100 changes meanwhile) is C132; refuted beyond: compaction between the two statements of a read.
* **C67** Compacting to any revision is clamped: The true part, the floor, is C133; refuted: the current revision goes back when the compacted revision is a deletion at the end of the history (not reachable through the compaction loop, which stays 100 behind).
* **C68** List and watch reproduce the store: The true part is C134; refuted for clients that apply everything while the poller lags: a deleted key comes back.
* **C70** The server never blocks on its own connections: The true part (no limit, or at least three) is C135, respect of the limit C106; refuted for 1 and 2: transactions prepare statements through the pool while holding a connection.
* **C71** Connection pool flags do what their help says: Open limit proved for all values, idle limit for all values but 0; refuted for 0: no connection is kept (server.go:88 passes the raw value, the computed one is only logged).
* **C76** A watch can be resumed anywhere: The true part is C136; refuted for clients that do not skip on a server whose poller lags: revisions are delivered twice.
* **C78** Compaction works in small transactions: Proved for sqlite (C109); refuted for dqlite when the node becomes leader between two batches: the skipped ones are done in one transaction.
* **C79** A write answered with failure changed nothing: Proved if statements and commits that report an error had no effect, for single requests (C79_txn), concurrent ones (C79_concurrent) and batches (C79_batch, C79_kine). Refuted otherwise: a retried or reported error can hide a commit.
* **C80** Set-up gets through, and refuses what it does not know: Success proved if the legacy unique index fits the rows. Refusal of newer majors is refuted: any incompatible version is silently accepted (driver.go:361-365).
* **C81** No span is lost at shutdown: Refuted: shutdown never flushes (the closure refers to a variable that is never assigned).
* **C83** A client can choose the id of a watch: Refuted for every stream state: no answer ever, and all watches of the stream stop silently while the stream stays open (ServeProgress keeps the errgroup waiting).
* **C84** A listen value without scheme is a unix socket path: Refuted for every such string: listening always fails.
* **C85** Leases work end to end: Not too early and in time, under the provisos of C37 and C38 (C155: durations up to 292 years, timer running); refuted for ids: the requested id is ignored and all leases of the same duration are one lease (lease.go:10-32).
* **C89** Asked to stop, the process stops in an orderly way: Proved when the process is serving and no call fails except the handover (C166). Refuted: a failing backend close (server.go:511), a signal or failure during start-up (the node is left open), requests are accepted after the backend is closed (endpoint.go:70), and the disk watcher may panic with action terminate.
* **C90** The metrics endpoint does not affect the service: Both halves are refuted: root.go:122-125 shadows metricsServer, so root.go:193 never shuts it down; root.go:135-137 exits the process when the endpoint fails.
* **C92** A start refused because of an option changes nothing: Proved for the action and, without init.yaml/update.yaml, for TLS (C167); refuted with init.yaml: it is deleted (server.go:178) before the TLS options are checked (server.go:264-276).
* **C94** Every create request is answered as such: C168_answered: exactly one answer per request, marked created unless a query failed; undisturbed it arrives. C94_refuted: a failing query is answered without created mark and with id 0.
* **C95** Cancelling a watch is confirmed: Refuted for all executions: no response marked cancelled carries the id of a created watch.
* **C96** The refusal of a compacted watch tells the compaction revision: Refuted for all executions: the compaction revision of every response is 0.
* **C97** Watch options are honoured: Refuted: requests that differ only in options are served alike; a counterexample for each of the four options.
* **C99** A watch call returns when it is over: C113: once the client is gone. C99_refuted: as long as the client is there the handler never returns, even when nothing is served any more.
* **C144** Every answer tells the current revision: Refuted for every transaction that is not performed: its header revision is 0. True part: ranges (C143) and performed transactions.
* **C145** Versions and counts are those of etcd: Refuted for every live key: Version is never assigned, a get counts 0 keys, a delete reports 0 deleted keys. Counts of lists are right: C08, C11.
* **C178** A migration that lost keys says so: Refuted: errors of the puts are logged and forgotten.  What stays true: C177.
* **C182** A server that accepts its configuration serves until it is told to stop: Refuted: kine-compact-interval: 0s or kine-poll-interval: 0s in tuning.yaml are accepted and end the process with a panic at every start; --watch-progress-notify-interval=0 ends it at the first watch.  What stays true: C181.
* **C183** The query timeout is at least five seconds: Refuted: the flag is not checked; with a value that is not positive no event is ever delivered by polling.
* **C185** Every successful write wakes the poller: refuted: a dropped notification (channel of 100 full) and a notification used up by a failed query; the change is published at the next tick (C186).
* **C188** The poller does not flood the database when queries fail: refuted: hot loop after a failing query with waitForMore false (watcher.go:200-207).
* **C193** A compaction request compacts: Refuted: the request is answered but ignored (server.go:137-143), whatever the revision. Compaction happens only in the background (C14, C179). Missing: the whole property, it is false.
* **C196** A stopped backend changes nothing: False: a timer goroutine (ttl.go:70, 92) is not counted in the wait group; its deletion, sent before the stop, can take effect after the stop has returned. What holds is C195.
* **C198** Every operation is counted once: False: GetCompactRevision records besides the record of its query (driver.go:683-684), so it counts twice (C198_twice).
* **C199** Transactions are counted individually: False: recordTxResult is called once after the retry loop (driver.go:438, 476); what holds is C197.
* **C200** Latency buckets are right: False: time.Since(start)/time.Second is an integer division (metrics.go:42), so the buckets below one second are all equal; what holds is C200_seconds.
* **C219** Samples taken by Metrics and ResetMetrics add up: Refuted: bytes transferred between Metrics and ResetMetrics are set to 0 without having been reported. Proved: the samples add up if nothing is transferred between the two calls.
* **C220** Using the instrumented listener never crashes the process: Refuted: Close closes the channel AcceptedConns and sets netListener to nil; a later Listen succeeds, and its goroutine panics when it sends the first connection. Two calls of Close at the same time close the channel twice. Proved: no panic if Close is never called during another Close and Listen never after a Close.
* **C222** An orderly Close of the instrumented listener leaves no error: Refuted: Accept returns net.ErrClosed when Close closes the socket, and unless the context has been cancelled before, the goroutine records that. Proved: Err reports nothing if the context is cancelled before Close (C222_cancelled); real failures are kept (C222_reported, C222_close_reported).
