{"id": "C01", "title": "Store behaves as one linear multi-version history", "statement": "Every sequence of creates, conditional updates, conditional deletes and background compactions leaves the store observably equal to an append-only history of puts and deletes plus a compaction floor: each operation's result (success flag and revision) and all later reads are those of that history.", "quantifier": "all finite sequences of operations with all keys, values, leases, revisions and compaction intervals the server can issue, from an empty store", "why_tests_cant": "the state space is infinite and results depend on the whole history including what compaction removed", "anchors": ["pkg/backend/sqlite/driver.go:createSQL,updateSQL,deleteSQL,tryCompact", "pkg/backend/sqlite/driver.go:Create,Update,Delete,Compact"]}
{"id": "C02", "title": "Create succeeds exactly when the key is not live", "statement": "A create transaction on key k succeeds iff k has no live value at that moment (never written, or last write was a delete, whether or not the tombstone was compacted); on success the key holds exactly the given value and lease with create = mod = new revision, and no other key changes; on failure nothing changes.", "quantifier": "all reachable stores, keys, values, leases", "why_tests_cant": "must hold for every history, including after compaction removed the tombstone", "anchors": ["pkg/backend/sqlite/driver.go:createSQL", "pkg/backend/sqlite/driver.go:Create", "pkg/limited/create.go:create"]}
{"id": "C03", "title": "Update is compare-and-swap on the mod revision", "statement": "An update of k expecting mod revision m succeeds iff k is live with mod revision exactly m (or k is absent and m = 0, when it creates k); then value and lease are replaced, create revision is preserved, mod revision is the new revision and other keys are untouched; otherwise nothing changes.", "quantifier": "all reachable stores, keys, values, leases, expected revisions", "why_tests_cant": "quantifies over all histories, keys and expected revisions", "anchors": ["pkg/backend/sqlite/driver.go:updateSQL", "pkg/backend/sqlite/driver.go:Update", "pkg/limited/update.go:update"]}
{"id": "C04", "title": "Delete is compare-and-delete on the mod revision", "statement": "A delete of k expecting mod revision m succeeds iff k is live with mod revision exactly m; afterwards k is absent, other keys are untouched; otherwise nothing changes.", "quantifier": "all reachable stores, keys, expected revisions", "why_tests_cant": "whether the comparison and the deletion are one step shows only when another client's write falls between them, and retries after an unknown outcome may act twice; tests run one client", "anchors": ["pkg/backend/sqlite/driver.go:deleteSQL", "pkg/backend/sqlite/driver.go:Delete", "pkg/limited/delete.go:delete"]}
{"id": "C05", "title": "Revisions are strictly increasing, gap free and never reused", "statement": "Each successful write gets the previous current revision plus one; failed writes and compactions consume no revision; a revision number is never handed out twice, and the current revision reported by reads never decreases, even after compaction removed rows.", "quantifier": "all operation sequences including compactions at every point", "why_tests_cant": "id reuse only shows after particular delete/compact interleavings", "anchors": ["pkg/backend/sqlite/driver.go:revSQL,revisionIntervalSQL,createSQL", "pkg/backend/sqlite/driver.go:CurrentRevision", "pkg/backend/sqlite/schema.go:applySchemaV0_1"]}
{"id": "C06", "title": "Range reads return the exact snapshot", "statement": "A range read [lo,hi) at revision r (0 or future = current) that is not refused returns exactly the keys live at r with their value, lease, create and mod revision, each once, in ascending byte order, whatever was written or compacted since.", "quantifier": "all reachable stores, ranges, revisions at or above the floor", "why_tests_cant": "the answer is compared with the history at any earlier revision, for every range and every history, while writers and compaction go on between its statements", "anchors": ["pkg/backend/sqlite/driver.go:listSQL,listSqlV1_0", "pkg/backend/internal/backend/backend.go:List", "pkg/limited/list.go:list"]}
{"id": "C07", "title": "Get reads exactly one key", "statement": "A get of key k returns the version of exactly k live at the requested revision, and never a different key; the internal successor range k..k\\0 contains k only.", "quantifier": "all keys, stores, revisions", "why_tests_cant": "the key is any byte string, and ranges, prefixes and the order of bytes meet at corner cases (zero bytes, 0xff, empty keys)", "anchors": ["pkg/limited/get.go:get", "pkg/backend/sqlite/driver.go:List"]}
{"id": "C08", "title": "Count agrees with list", "statement": "A count over a range at a revision equals the number of keys an unlimited list over the same range and revision returns.", "quantifier": "all reachable stores, ranges, revisions", "why_tests_cant": "two independent SQL queries must agree on every table", "anchors": ["pkg/backend/sqlite/driver.go:countRevisionSQL,countRevisionSQLV1_0", "pkg/backend/internal/backend/backend.go:Count", "pkg/limited/list.go:list"]}
{"id": "C09", "title": "Both schema versions answer identically", "statement": "The queries used on a legacy schema and on the current schema return the same rows in the same order and the same counts.", "quantifier": "all tables with unique ids, all ranges, revisions and limits", "why_tests_cant": "two different queries over the same table have to agree on every table a store can reach, for every range, revision and limit; tests compare a few", "anchors": ["pkg/backend/sqlite/driver.go:listSQL,listSqlV1_0,countRevisionSQL,countRevisionSQLV1_0"]}
{"id": "C10", "title": "Pagination is lossless", "statement": "Reading a range in pages of any positive size at one fixed revision, continuing each time from the successor of the last key, yields exactly the unpaginated list, without gaps or duplicates, even if writes happen between pages.", "quantifier": "all stores, page sizes, ranges, and all writes between pages (floor not passing the revision)", "why_tests_cant": "the number of pages is unbounded and writers and compactors act between them", "anchors": ["pkg/limited/list.go:list", "pkg/backend/sqlite/driver.go:List"]}
{"id": "C11", "title": "More and Count flags are exact", "statement": "A limited list returns min(limit,n) first keys of the range, more=true iff more than limit keys match, and count = number of matching keys, for every limit including 0, negative and 2^63-1.", "quantifier": "all limits in int64, all stores and ranges", "why_tests_cant": "off-by-one and overflow at boundaries over all sizes", "anchors": ["pkg/limited/list.go:list"]}
{"id": "C12", "title": "Compaction is invisible at and above the floor", "statement": "For every revision r at or above the resulting compaction floor, every read at r returns the same before and after a compaction.", "quantifier": "all stores, all compaction intervals, all reads", "why_tests_cant": "requires comparing every possible read on every possible history", "anchors": ["pkg/backend/sqlite/driver.go:tryCompact", "pkg/backend/sqlite/driver.go:Compact"]}
{"id": "C13", "title": "Compacted reads are refused and the floor is monotone", "statement": "A read at a revision r with 0<r<floor is refused with the compacted error and never returns data; the floor never decreases and never exceeds the current revision.", "quantifier": "all executions, all revisions", "why_tests_cant": "monotonicity across all interleavings of compactors", "anchors": ["pkg/backend/internal/backend/backend.go:List,Count", "pkg/backend/sqlite/driver.go:updateCompactSQL,GetCompactRevision"]}
{"id": "C14", "title": "A compaction run keeps the last 100 revisions", "statement": "A completed compaction run moves the floor to exactly max(old floor, current-100) when there are enough revisions, never above current-100, so every revision newer than that stays readable and watchable.", "quantifier": "all stores, any number of batches, failures after any batch", "why_tests_cant": "batch loop for arbitrary sizes and arbitrary failure points", "anchors": ["pkg/backend/internal/backend/backend.go:DoCompact,compactStart", "pkg/backend/sqlite/driver.go:Compact"]}
{"id": "C15", "title": "Compaction reclaims everything superseded", "statement": "After a compaction to floor f the rows at or below f that remain are exactly the current versions of the keys live at f (plus the bookkeeping key); every superseded version and every tombstone at or below f is physically gone, and every row above f is kept.", "quantifier": "all histories and floors", "why_tests_cant": "every row of every history has to be judged: kept if still visible at or after the floor, removed otherwise", "anchors": ["pkg/backend/sqlite/driver.go:tryCompact"]}
{"id": "C16", "title": "Any interleaving of clients, compactors and crashes is safe", "statement": "However client requests, expiry deletions, several compactors and server starts interleave at statement granularity, with statements failing, being retried, failing after taking effect, and processes dying at any point, the database always represents a single linear history with a correct floor, and at most one bookkeeping row exists.", "quantifier": "all schedules, crash points, error and retry patterns", "why_tests_cant": "the number of interleavings of clients, compactors and crashes grows exponentially; no test visits more than a handful", "anchors": ["pkg/backend/internal/backend/backend.go:Start,DoCompact,compactStart", "pkg/backend/sqlite/driver.go:execute,Compact,tryCompact"]}
{"id": "C17", "title": "Failed conditional writes report the current value", "statement": "A failed update or delete transaction returns in its failure branch the key's version (or nothing if absent) at a revision that was current at some moment during the request.", "quantifier": "all reachable stores, keys, revisions and interleavings", "why_tests_cant": "depends on every history and on concurrent writers", "anchors": ["pkg/limited/update.go:update", "pkg/limited/delete.go:delete"]}
{"id": "C18", "title": "The list header revision identifies the returned snapshot", "statement": "The revision in the header of a list at revision 0 is the revision at which the returned keys are the exact content, so that a watch started at header+1 misses nothing.", "quantifier": "all stores, limits, and concurrent writes between the statements of the request", "why_tests_cant": "needs a write to land between two particular statements", "anchors": ["pkg/limited/list.go:list", "pkg/backend/internal/backend/backend.go:List"]}
{"id": "C19", "title": "A read racing with compaction is complete or refused", "statement": "A read at revision r that overlaps a compaction passing r either returns the complete snapshot at r or the compacted error.", "quantifier": "all interleavings of a read with compactors", "why_tests_cant": "needs a compaction between two statements of one read", "anchors": ["pkg/backend/internal/backend/backend.go:List,Count"]}
{"id": "C20", "title": "Accepted transactions follow etcd semantics", "statement": "Every transaction the server accepts has the same success flag and the same effect on the store as the etcd semantics of its compare and operation lists.", "quantifier": "all transaction requests and stores", "why_tests_cant": "infinitely many requests; shape recognisers ignore some fields", "anchors": ["pkg/limited/limited.go:Txn", "pkg/limited/create.go:isCreate", "pkg/limited/update.go:isUpdate", "pkg/limited/delete.go:isDelete", "pkg/limited/compact.go:isCompact"]}
{"id": "C21", "title": "Unsupported requests are rejected without effect", "statement": "Requests using features outside the supported subset (sorting, key-only, min/max revision filters, bare put, bare delete range, other transaction shapes, create flags) are answered with an error and execute no database statement.", "quantifier": "all requests", "why_tests_cant": "a request has a dozen fields and nested operations, and one unchecked combination is enough to be half executed; tests try a few shapes", "anchors": ["pkg/limited/server.go:Range,Put,DeleteRange,Txn,Compact", "pkg/limited/create.go:create"]}
{"id": "C22", "title": "The bookkeeping key is protected", "statement": "No client request can alter the compaction floor: reads that were refused stay refused, whatever keys clients write.", "quantifier": "all client requests including ones naming the bookkeeping key", "why_tests_cant": "an adversary chooses the key names and request shapes; a test cannot enumerate the requests that might reach the reserved row", "anchors": ["pkg/backend/sqlite/driver.go:updateCompactSQL,revisionIntervalSQL", "pkg/backend/internal/backend/backend.go:compactStart"]}
{"id": "C23", "title": "Repairing duplicate bookkeeping rows keeps the floor", "statement": "When several bookkeeping rows exist (left by an old version), the repair keeps exactly one of them, the one with the highest floor, and the floor is not lowered.", "quantifier": "all tables with any number of duplicate bookkeeping rows", "why_tests_cant": "the duplicates come from crashed or older servers: any number of rows with any contents in any order", "anchors": ["pkg/backend/internal/backend/backend.go:compactStart", "pkg/backend/sqlite/driver.go:DeleteRevision"]}
{"id": "C24", "title": "Watch delivers every matching event once, in order", "statement": "A watch started at revision S on a range receives, after it is acknowledged and as the server's poller advances, every change in the range with revision >= S exactly once, in revision order, with no gap, as long as its consumer keeps up and the start was not compacted.", "quantifier": "all interleavings of writers, poller, watch registration, cancellation and consumption", "why_tests_cant": "the registration of a watch races with the poller at every point of both, and the events wanted may be in the table, in the poller's hands or yet to come", "anchors": ["pkg/backend/internal/backend/watcher.go:Watch,publish,update,initialEvents,poll,publishEvents"]}
{"id": "C25", "title": "Watch delivers nothing older than requested", "statement": "A watch started at S receives no event with revision < S, and a watch with S=0 receives only events after its creation.", "quantifier": "all start revisions and poller positions", "why_tests_cant": "needs the poller to lag behind the requested revision", "anchors": ["pkg/backend/internal/backend/watcher.go:Watch"]}
{"id": "C26", "title": "Watch on compacted history is refused", "statement": "A watch whose start revision is at or below what compaction removed is refused with the compacted error carrying the floor, rather than silently missing events.", "quantifier": "all start revisions, floors, and compactions racing with registration", "why_tests_cant": "the check, the registration and the read of the history are separate steps between which compaction may run; the boundary is at equality", "anchors": ["pkg/backend/internal/backend/watcher.go:Watch"]}
{"id": "C27", "title": "Watch events carry true contents", "statement": "Each delivered event at revision r has the key and type of the r-th change, for a put the exact value, lease, create and mod revision, and the previous value, create and mod revision of the key just before r if it existed.", "quantifier": "all events of all histories, before and after compaction", "why_tests_cant": "the value before a change depends on the whole history of the key, on deletions and re-creations and on how much of it compaction has removed when the event is read; a test sees one history at one moment", "anchors": ["pkg/backend/internal/backend/utils.go:scanEvent", "pkg/backend/sqlite/driver.go:afterSQL,afterSQLPrefix"]}
{"id": "C28", "title": "Update batches are revision-complete", "statement": "When a watcher group publishes an update with revision R, every event <= R for each initialised watcher of the group has been put into this or an earlier update.", "quantifier": "all interleavings", "why_tests_cant": "races between registration, polling and publication", "anchors": ["pkg/backend/internal/backend/watcher.go:publish,update"]}
{"id": "C29", "title": "Progress notifications never overtake events", "statement": "A progress notification with revision R is sent on a stream only after all events with revision <= R for the watches of that stream have been sent.", "quantifier": "all interleavings of the update loop, progress ticker and requests on a stream", "why_tests_cant": "three goroutines (updates, ticker, requests) write to one stream, and the bookkeeping of what was sent is updated apart from the sending: only particular interleavings break the order", "anchors": ["pkg/limited/watch.go:sendUpdates,sendProgress,RequestProgress"]}
{"id": "C30", "title": "Periodic progress keeps flowing", "statement": "A watch created with progress_notify that has received no event for a full notify interval gets a progress notification at the next tick, forever.", "quantifier": "all event/tick sequences", "why_tests_cant": "the notifications must keep coming through unbounded sequences of events, ticks and requests in any order", "anchors": ["pkg/limited/watch.go:sendProgress"]}
{"id": "C31", "title": "Slow consumers are told they lost events", "statement": "A stream whose consumer falls more than the buffer behind never silently loses events: the delivered events form a prefix and the stream is terminated with an error so the client re-lists.", "quantifier": "all buffer occupancies and schedules", "why_tests_cant": "the buffer must overflow at a particular moment relative to sends, receives and the end of the stream", "anchors": ["pkg/backend/internal/backend/watcher.go:publish,publishEvents", "pkg/limited/watch.go:ServeUpdates"]}
{"id": "C32", "title": "A rejected watch leaves nothing behind", "statement": "A watch request that is refused leaves no watcher registered and accumulates no memory afterwards.", "quantifier": "all failure points of watch registration", "why_tests_cant": "what a refused watch leaves behind - a subscription, a goroutine, a slot - only shows after arbitrarily many refusals, in whatever state the stream was", "anchors": ["pkg/backend/internal/backend/watcher.go:Watch", "pkg/limited/watch.go:Create"]}
{"id": "C33", "title": "Watch ids on a stream are unique and owned", "statement": "Watch ids acknowledged on a stream are unique, cancelling a watch stops that watch and does not change what the other watches of the stream receive, whatever happens later.", "quantifier": "all sequences of create and cancel requests with arbitrary ids", "why_tests_cant": "arbitrary client-chosen ids mixed with automatic ones", "anchors": ["pkg/limited/watch.go:Create,Close"]}
{"id": "C34", "title": "Polling survives query time-outs", "statement": "If a polling query times out, watchers still receive the missed events once the database answers again.", "quantifier": "all patterns of query failures", "why_tests_cant": "requires time-outs at arbitrary moments over unbounded time", "anchors": ["pkg/backend/internal/backend/watcher.go:poll,getLatestEvents"]}
{"id": "C35", "title": "Interrupted result sets are reported", "statement": "If reading rows fails midway, the request fails with an error; it never returns a truncated list, count or event batch as complete.", "quantifier": "all failure points in a result set", "why_tests_cant": "a failure can hit after any row of any result set, and iteration errors are reported apart from row errors; tests use a database that does not fail", "anchors": ["pkg/backend/internal/backend/utils.go:ScanAll", "pkg/backend/sqlite/driver.go:Count,GetCompactRevision,CurrentRevision"]}
{"id": "C36", "title": "Expiry deletes only the exact leased version", "statement": "A lease expiry removes a key only if its current version is the one the lease was attached to: re-created, updated or re-leased keys survive.", "quantifier": "all interleavings of expiry, updates, deletes and re-creations", "why_tests_cant": "a timer may fire, be retried or be answered late while the key is updated, deleted and created again, on several servers", "anchors": ["pkg/backend/internal/backend/ttl.go:ttl", "pkg/backend/sqlite/driver.go:deleteSQL"]}
{"id": "C37", "title": "Every leased key gets an expiry timer", "statement": "Every version written with a positive lease, before or after a server start, has an expiry timer scheduled on the running server, whatever its key.", "quantifier": "all histories, start moments and keys", "why_tests_cant": "gap between the start-up scan and the live watch", "anchors": ["pkg/backend/internal/backend/ttl.go:ttl", "pkg/backend/sqlite/driver.go:ttlSQL"]}
{"id": "C38", "title": "Keys do not expire early", "statement": "A key with lease T seconds is not removed by expiry before T seconds after the write became visible to the server, for every T the API accepts.", "quantifier": "all leases in int64", "why_tests_cant": "the lease is any 64-bit number and is multiplied into nanoseconds: the dangerous values are not those a test waits for", "anchors": ["pkg/backend/internal/backend/ttl.go:ttl", "pkg/limited/lease.go:LeaseGrant"]}
{"id": "C39", "title": "Batched writes run exactly once, in order, atomically", "statement": "Each submitted statement that is reported successful is executed exactly once in a committed transaction, statements are executed in submission order, and a batch is executed as a whole or not at all.", "quantifier": "all arrival patterns, batch boundaries and failures", "why_tests_cant": "statements arrive while batches are formed, run, fail at begin, in the middle or at commit, are cancelled or closed: every combination of arrival, batch boundary and failure counts", "anchors": ["pkg/database/batched.go:ExecContext,run,execQueue"]}
{"id": "C40", "title": "One client's cancellation does not fail others", "statement": "Cancelling one client's request does not cause another client's independent write to fail.", "quantifier": "all batches and cancellations", "why_tests_cant": "the cancellation has to come while the batch that the client shares with others is formed, begun, run or committed", "anchors": ["pkg/database/batched.go:ExecContext,execQueue"]}
{"id": "C41", "title": "Closing the batched database is clean", "statement": "After the batch layer is closed no further statement executes and every waiting caller is released with its result or an error.", "quantifier": "all close moments", "why_tests_cant": "close may race with a statement being enqueued, taken, executed or answered; each moment has a different outcome", "anchors": ["pkg/database/batched.go:Close,run"]}
{"id": "C42", "title": "Retried writes take effect at most once", "statement": "A conditional update or delete, retried internally after errors that may have taken effect, is applied at most once; a reported success was applied exactly once with the returned revision.", "quantifier": "all retry counts and ambiguous failure patterns with concurrent writers", "why_tests_cant": "the answer of a commit has to be lost at an arbitrary attempt and another client has to write before the next", "anchors": ["pkg/backend/sqlite/driver.go:execute,Update,Delete,Create", "pkg/backend/dqlite/driver.go:dqliteRetry"]}
{"id": "C43", "title": "Prepared statements are cached once per query and closed", "statement": "Concurrent preparation of the same query yields one cached statement, distinct queries never share one, and closing closes each cached statement exactly once.", "quantifier": "all interleavings of prepare and close", "why_tests_cant": "two goroutines must prepare the same query at the same time, or one while the cache is being closed; the outcome differs only in particular interleavings", "anchors": ["pkg/database/prepared.go:prepare,Close"]}
{"id": "C44", "title": "Schema versions encode losslessly", "statement": "Encoding then decoding a major/minor version returns the same pair, ordering of encoded versions is lexicographic, and compatibility holds iff the majors allow it.", "quantifier": "all major and minor numbers", "why_tests_cant": "two 16-bit numbers are packed into 32 bits: all sign combinations and pairs of pairs would have to be tried", "anchors": ["pkg/backend/sqlite/schema.go:NewSchemaVersion,Major,Minor,CompatibleWith"]}
{"id": "C45", "title": "Schema setup is idempotent and crash safe", "statement": "Running setup any number of times, crashing at any point and from any number of concurrent servers, leaves the same schema as one run and never loses existing rows.", "quantifier": "all crash points, concurrent setups and stored versions", "why_tests_cant": "any number of servers set up the same database at once, each may die anywhere, and the stored version is arbitrary", "anchors": ["pkg/backend/sqlite/driver.go:setup", "pkg/backend/sqlite/schema.go:applySchemaV0_1,applySchemaV1_0"]}
{"id": "C46", "title": "Snapshot tuning never leaves the safe region", "statement": "Whatever snapshot threshold and trailing values tuning.yaml contains, the values applied satisfy trailing >= 512, threshold <= trailing and threshold >= the minimum.", "quantifier": "all uint64 pairs", "why_tests_cant": "both parameters are arbitrary 64-bit unsigned integers, and the default of one is computed from the other with overflow", "anchors": ["pkg/server/server.go:New"]}
{"id": "C47", "title": "Initial configuration survives crashes", "statement": "A crash during first start never loses the initial join configuration: a restart still uses it.", "quantifier": "all crash points of start-up", "why_tests_cant": "the process can die between any two file operations of start-up; tests start once, without dying", "anchors": ["pkg/server/server.go:New"]}
{"id": "C48", "title": "Address update is crash idempotent", "statement": "Applying update.yaml, crashing anywhere and restarting ends in the same state as an uninterrupted run.", "quantifier": "all crash points", "why_tests_cant": "the process can die between any two of the renames, writes and membership calls, any number of times in a row", "anchors": ["pkg/server/server.go:New"]}
{"id": "C49", "title": "Low disk space triggers exactly the configured action", "statement": "When available space drops below the configured threshold the server performs the configured action (terminate, handover or nothing) and not otherwise.", "quantifier": "all thresholds and disk sizes", "why_tests_cant": "block counts, block sizes and thresholds are 64-bit quantities whose product may wrap, and the moments of ticks, failures and stops are arbitrary", "anchors": ["pkg/server/server.go:watchAvailableStorageSize", "pkg/server/util.go:checkAvailableStorageSize"]}
{"id": "C50", "title": "Start and stop can be called in any order", "statement": "Any sequence of start, stop and close calls on a backend terminates without deadlock and leaves it stopped after the last stop.", "quantifier": "all call sequences", "why_tests_cant": "a deadlock or a missed stop depends on the order of calls from several goroutines and on where the background goroutines are; sequences are unbounded", "anchors": ["pkg/backend/internal/backend/backend.go:Start,Stop,Close"]}
{"id": "C51", "title": "Backup and restore round-trip", "statement": "Backing up a store to a directory and restoring it into an empty store reproduces exactly the same live keys and values.", "quantifier": "all stores", "why_tests_cant": "keys and values are arbitrary byte strings and there are arbitrarily many; the migrator has a prefix, an index per file and stops at the first gap, and tests use well-behaved names", "anchors": ["pkg/migrator/migrator.go:BackupDqlite,RestoreToDqlite", "pkg/migrator/util.go:putKey", "pkg/client/client.go"]}
{"id": "C52", "title": "Client put stores the value", "statement": "A client put returns success only if the key holds the given value afterwards, and succeeds for absent and present keys alike.", "quantifier": "all stores and keys", "why_tests_cant": "the put is several requests; another client's write may fall between any two of them, after any history", "anchors": ["pkg/client/client.go:Put"]}
{"id": "C53", "title": "Listen address parsing is total and predictable", "statement": "A listen endpoint scheme://rest is split into the network and address it names; the empty value stands for the default unix socket.", "quantifier": "all strings", "why_tests_cant": "the listen value is an arbitrary string of any length; a table of examples cannot exclude a value that is split in an unexpected place", "anchors": ["pkg/endpoint/endpoint.go:networkAndAddress"]}
{"id": "C54", "title": "Trace filters export exactly the selected spans", "statement": "A span is exported iff its name matches the configured filter and its duration reaches the configured minimum; with an invalid filter nothing is exported.", "quantifier": "all spans and configurations", "why_tests_cant": "spans arrive from goroutines in any order with arbitrary names and durations and the filter is an arbitrary regular expression: a test checks a few spans against one filter", "anchors": ["cmd/tracing.go:NameFilter,DurationFilter"]}
{"id": "C55", "title": "Compaction only deletes on the leader", "statement": "On a dqlite cluster a node that is not the leader performs no compaction.", "quantifier": "all cluster states", "why_tests_cant": "leadership can change before every single statement of a run; a test cannot place a role change at each of them", "anchors": ["pkg/backend/dqlite/driver.go:Compact"]}
{"id": "C56", "title": "Legacy unique index never rejects a write", "statement": "On databases that stay on the legacy schema, whose table has a unique index on (prev_revision, name), no write or compaction the server performs ever violates it.", "quantifier": "all reachable tables and all operations", "why_tests_cant": "uniqueness over all histories including floor updates and compaction", "anchors": ["pkg/backend/sqlite/schema.go:applySchemaV0_1", "pkg/backend/sqlite/driver.go:createSQL,updateSQL,deleteSQL,updateCompactSQL"]}
{"id": "C57", "title": "Using a closed database returns an error", "statement": "After the database handle is closed, every operation on it, including a second close, returns an error and never crashes the server.", "quantifier": "all call sequences after close", "why_tests_cant": "a call may race with close at every step of both, in every order of calls", "anchors": ["pkg/database/prepared.go:Close,BeginTx,Conn,PrepareContext,prepare"]}
{"id": "C58", "title": "Shutdown does not crash the disk watcher", "statement": "Shutting the server down while the disk space check is active never panics the process.", "quantifier": "all interleavings of checks, signals, cancellation and shutdown", "why_tests_cant": "a check of the disk has to be in flight exactly when the last step of shutdown closes the channel", "anchors": ["pkg/server/server.go:watchAvailableStorageSize,Shutdown", "cmd/root.go"]}
{"id": "C59", "title": "Client list by prefix is exact", "statement": "Listing a prefix with the Go client returns exactly the live keys that start with the prefix, in key order.", "quantifier": "all prefixes and stores", "why_tests_cant": "all byte strings, including prefixes ending in 0xff", "anchors": ["pkg/client/client.go:List"]}
{"id": "C60", "title": "A unix listener is private and survives stale files", "statement": "Listening on a unix path works whatever an earlier process left there, and the socket is never accessible to other users.", "quantifier": "all initial states of the path and system call outcomes", "why_tests_cant": "the window between creating the socket and restricting it, and the leftovers of an earlier process, depend on the outcome of every single system call", "anchors": ["pkg/endpoint/endpoint.go:createListener"]}
{"id": "C61", "title": "SQLite metrics lose and double count nothing", "statement": "For every counter, the values handed out by resets plus the value still accumulated add up to what finished statements contributed.", "quantifier": "all interleavings of statements, fetches and resets", "why_tests_cant": "statements finish in many threads while readers fetch and reset counter after counter: a lost or doubled update needs a race between two atomic operations", "anchors": ["pkg/instrument/extension.c:sqlite3_metrics,sqlite3_collect_metrics"]}
{"id": "C62", "title": "Concurrent conditional writes are linearizable", "statement": "Whatever runs concurrently on any number of servers, each create, update or delete takes effect at one moment between its request and its answer: a success found its condition true, was committed right there and reports the revision it got; a failure found its condition false at such a moment.", "quantifier": "all interleavings of requests, compactions, expiries, faults and crashes", "why_tests_cant": "all schedules at the granularity of single statements", "anchors": ["pkg/limited/limited.go:Txn", "pkg/limited/create.go", "pkg/limited/update.go", "pkg/limited/delete.go", "pkg/backend/sqlite/driver.go:Create,Update,Delete,execute"]}
{"id": "C63", "title": "Concurrent reads at the current revision are linearizable", "statement": "A range or get without a revision returns the exact content of the store at one moment between request and answer, and reports that moment's revision.", "quantifier": "all interleavings of requests, compactions, faults and crashes", "why_tests_cant": "the read is two statements with arbitrary work in between", "anchors": ["pkg/limited/list.go", "pkg/limited/get.go", "pkg/backend/internal/backend/backend.go:List,Count", "pkg/backend/sqlite/driver.go:GetCompactRevision,List,Count"]}
{"id": "C64", "title": "Optimistic concurrency has one winner", "statement": "Of all updates and deletes that insist on the same version of a key at most one is ever performed and at most one caller is told it succeeded; between two creations of a key it was deleted.", "quantifier": "all sets of concurrent requests on any number of servers", "why_tests_cant": "several clients on several servers race, with retries after lost answers; two winners would need a rare schedule", "anchors": ["pkg/limited/update.go", "pkg/limited/delete.go", "pkg/limited/create.go", "pkg/backend/sqlite/driver.go:updateSQL,deleteSQL,createSQL"]}
{"id": "C65", "title": "Reads respect real time", "statement": "A read asked after another read was answered has no smaller header revision, and a read asked after a write was acknowledged is answered at or above that write's revision, with the write in its history.", "quantifier": "all pairs of requests in all interleavings", "why_tests_cant": "real-time order relates requests on different servers over all schedules; a stale read needs a rare interleaving", "anchors": ["pkg/limited/list.go", "pkg/limited/get.go", "pkg/backend/internal/backend/backend.go:List", "pkg/backend/sqlite/driver.go:GetCompactRevision"]}
{"id": "C66", "title": "Nothing is committed that nobody asked for", "statement": "Every change in the history is exactly the change some request asked for, committed between the request and its answer, when its condition held; servers themselves only create their two own keys when absent.", "quantifier": "all interleavings with all faults and crashes", "why_tests_cant": "a stray or duplicated change needs a particular interleaving of several requests, a batch, a failure after the commit, a retry or a crash; all of them, of any number of servers, have to be excluded", "anchors": ["pkg/limited/limited.go:Txn", "pkg/backend/sqlite/driver.go:Create,Update,Delete", "pkg/backend/internal/backend/backend.go:Start,compactStart"]}
{"id": "C67", "title": "Compacting to any revision is clamped", "statement": "Asking the storage driver to compact to any revision succeeds, raises the floor to that revision but never beyond the current one, never lowers it, and leaves the current revision as it was.", "quantifier": "all stores and all requested revisions, including future ones", "why_tests_cant": "the revision is any 64-bit integer, before the floor, beyond the end or negative, against any history; tests try the one of a fresh store", "anchors": ["pkg/backend/sqlite/driver.go:Compact,tryCompact,GetCompactRevision"]}
{"id": "C68", "title": "List and watch reproduce the store", "statement": "A client that lists a range, watches it from the revision after the list's header and applies what it is sent has at every moment the exact content of the range at one revision, never older than the list, and ends up with the current content.", "quantifier": "all stores, ranges, concurrent writers and servers, schedules of poller and streams, query faults", "why_tests_cant": "the gap between list and watch over all interleavings", "anchors": ["pkg/limited/list.go", "pkg/limited/watch.go", "pkg/backend/internal/backend/watcher.go:Watch,poll", "pkg/backend/internal/backend/backend.go:List"]}
{"id": "C69", "title": "Batched writes are linearizable", "statement": "Many requests hand in writes at once and the server executes them in batches while other servers write too: every write answered with success took effect at one moment between hand-in and answer, with the result (success or not, new revision) of that moment.", "quantifier": "Every schedule of callers, worker and other writers, every fault of BEGIN, statements and COMMIT, every cancellation, closing at any time", "why_tests_cant": "The point of effect has to be exhibited for every schedule and fault; a test sees one schedule.", "anchors": ["pkg/database/batched.go:ExecContext, run, execQueue", "pkg/server/server.go:434", "pkg/backend/sqlite/driver.go:Create, Update, Delete"]}
{"id": "C70", "title": "The server never blocks on its own connections", "statement": "Whatever the configured limit of database connections, requests, batches and compactions never wait for each other forever: once database calls return, everything in progress finishes, and no more connections than configured are in use.", "quantifier": "Every connection limit, every interleaving of requests, batches and compactions, every success or failure of database calls", "why_tests_cant": "Deadlocks depend on the schedule and on which statements are cached; tests run with one limit.", "anchors": ["pkg/database/prepared.go:prepare, BeginTx, PrepareContext", "pkg/database/batched.go:execQueue", "pkg/backend/sqlite/driver.go:tryCompact", "pkg/server/server.go:apply"]}
{"id": "C71", "title": "Connection pool flags do what their help says", "statement": "The number of idle and open connections kept follows the flags: 0 idle connections means the default of two, negative none, positive that many but not more than may be open; 0 or less open connections means no limit.", "quantifier": "Every pair of integers", "why_tests_cant": "whether the flags do what they say depends on pairs of settings and on how a pool behaves over an unbounded sequence of requests", "anchors": ["pkg/server/server.go:apply", "cmd/root.go:flags"]}
{"id": "C72", "title": "Every request does a bounded amount of work", "statement": "Whatever the database does and whatever other clients do, a range request issues at most 2000 and a transaction at most 1500 statements and then answers; if the database is never busy, at most four and three.", "quantifier": "Every request, every schedule of interference, every pattern of statement failures", "why_tests_cant": "A worst case over all schedules and fault patterns.", "anchors": ["pkg/backend/sqlite/driver.go:query, execute", "pkg/backend/internal/backend/backend.go:List, Count", "pkg/limited/limited.go", "pkg/limited/server.go:Range, Txn"]}
{"id": "C73", "title": "Database errors reach the client at once", "statement": "When a statement of a request fails with an error that is not retried, the request fails with that same error, issues no further statement and, if the statement had no effect, changes nothing more.", "quantifier": "Every request, every moment of its execution, every error other than busy", "why_tests_cant": "Quantifies over every failure point of every request.", "anchors": ["pkg/backend/sqlite/driver.go:query, execute", "pkg/backend/internal/backend/backend.go:List, Count, Create, Update, Delete", "pkg/limited/limited.go"]}
{"id": "C74", "title": "Storage does not grow with the number of changes", "statement": "After a compaction run the table holds at most 200 rows more than there are live keys, and at any time at most two rows per revision since the compaction floor more, however many changes were ever made.", "quantifier": "Every reachable database", "why_tests_cant": "A bound over all histories; tests only look at small ones.", "anchors": ["pkg/backend/sqlite/driver.go:Compact, tryCompact, updateCompactSQL, deleteSQL", "pkg/backend/internal/backend/backend.go:DoCompact"]}
{"id": "C75", "title": "Watches lose nothing while the poller keeps up", "statement": "If compactions keep the 100 revisions they promise, polls are never more than 100 revisions late and watches start at most 100 revisions back, a watcher at every moment has received exactly the changes of its range up to some revision, in order and once, and receives all of them once polling has caught up.", "quantifier": "Every interleaving of writes, compactions, polls, registrations and deliveries by any number of servers that keeps these margins", "why_tests_cant": "Depends on all interleavings of pollers, compactors and registrations.", "anchors": ["pkg/backend/internal/backend/watcher.go", "pkg/backend/internal/backend/backend.go:startWatch, DoCompact"]}
{"id": "C76", "title": "A watch can be resumed anywhere", "statement": "A client whose stream ended resumes its watch after the last revision it has seen, on any server of the cluster and any number of times, and over all its streams gets exactly the changes of its range since it began, in order and once.", "quantifier": "Every number of streams, every server, every interleaving", "why_tests_cant": "Spans several servers, streams and arbitrary lag of their pollers.", "anchors": ["pkg/limited/watch.go", "pkg/backend/internal/backend/watcher.go:Watch,initialEvents,publish"]}
{"id": "C77", "title": "The Go client reports conflicts exactly", "statement": "Get, Create, Update and Delete of the Go client succeed exactly if the key is present, absent, at the given revision, and have exactly that effect; otherwise they report not found, exists or mismatch and change nothing; and if Create or Update reports success under any interference and faults, the value was stored during the call.", "quantifier": "Every store, key, value and revision; for stored: every schedule", "why_tests_cant": "Quantifies over all stores and all interleavings.", "anchors": ["pkg/client/client.go:Get, Create, Update, Delete"]}
{"id": "C78", "title": "Compaction works in small transactions", "statement": "Every transaction of a compaction run covers at most 1000 revisions, so that it does not hold up requests for long.", "quantifier": "all stores, node roles changing at any time, failures", "why_tests_cant": "the loop runs for arbitrary history sizes and leader changes between batches", "anchors": ["pkg/backend/internal/backend/backend.go:DoCompact", "pkg/backend/sqlite/driver.go:Compact,tryCompact", "pkg/backend/dqlite/driver.go:Compact"]}
{"id": "C79", "title": "A write answered with failure changed nothing", "statement": "A create, update or delete that is answered with \"not performed\" or with an error has not changed the store, whether executed alone or in a batch, on any server.", "quantifier": "all schedules, faults before or after a statement or commit took effect, retries", "why_tests_cant": "needs an error report that gets lost between the commit and the answer", "anchors": ["pkg/backend/sqlite/driver.go:execute,Create,Update,Delete", "pkg/database/batched.go:execQueue", "pkg/limited/update.go:update"]}
{"id": "C80", "title": "Set-up gets through, and refuses what it does not know", "statement": "A server started undisturbed on any database of a known schema version gets through set-up; a database with a newer major schema version is refused.", "quantifier": "all stored schema versions and tables, all earlier crashes", "why_tests_cant": "any version may be stored, and any number of other servers may set up the same database at the same time", "anchors": ["pkg/backend/sqlite/driver.go:setup", "pkg/backend/sqlite/schema.go:CompatibleWith"]}
{"id": "C81", "title": "No span is lost at shutdown", "statement": "When tracing is shut down, every selected span that has ended has been exported.", "quantifier": "all sequences of spans and exports", "why_tests_cant": "all interleavings of spans, export runs and shutdown", "anchors": ["cmd/tracing.go:setupOTelSDK"]}
{"id": "C82", "title": "Watch events arrive in order, once and within the range", "statement": "Whatever happens to the server and the database, the events delivered to a watch have strictly increasing revisions and belong to its key range: no event twice, none out of order, none of another key.", "quantifier": "all executions: compactions, faults, lagging pollers, slow consumers, any number of watches", "why_tests_cant": "all interleavings of poller, registration, compaction and consumer", "anchors": ["pkg/backend/internal/backend/watcher.go:publish,Watch,initialEvents,poll"]}
{"id": "C83", "title": "A client can choose the id of a watch", "statement": "A create request with an explicit watch id is either accepted with that id or refused, and in both cases the other watches of the stream go on.", "quantifier": "all streams and ids", "why_tests_cant": "the id is any 64-bit number, the stream may hold any set of watches, and the refusal happens after part of the work has been done", "anchors": ["pkg/limited/watch.go:ServeRequests"]}
{"id": "C84", "title": "A listen value without scheme is a unix socket path", "statement": "A listen value without \"://\" is taken as the path of a unix socket.", "quantifier": "all strings", "why_tests_cant": "must hold for every string without the separator, including empty ones and ones with part of the separator in them", "anchors": ["pkg/endpoint/endpoint.go:networkAndAddress,createListener"]}
{"id": "C85", "title": "Leases work end to end", "statement": "A key written with the id of a lease granted for T seconds is not deleted by expiry before T seconds have passed since the write, is deleted by the server once T seconds and the slack of a second have passed unless it was changed, and a lease gets the id the client asked for or an id of its own.", "quantifier": "all durations, requested ids, keys and schedules of writes, watcher, timers and clock", "why_tests_cant": "tests wait for one key with one short lease on an idle server; the claim is about every interleaving of writes, notifications and timers, and about all durations", "anchors": ["pkg/limited/lease.go:LeaseGrant", "pkg/backend/internal/backend/ttl.go:ttl", "pkg/backend/sqlite/driver.go:ListTTL"]}
{"id": "C86", "title": "A key without lease never expires", "statement": "A key whose current version was written without a lease stays, whatever timers earlier versions of it or other keys have started and whatever the server attempts.", "quantifier": "all histories and schedules", "why_tests_cant": "the timers of overwritten versions fire at arbitrary later times; a test only sees the interleavings it happens to run", "anchors": ["pkg/backend/internal/backend/ttl.go:run", "pkg/backend/sqlite/driver.go:deleteSQL"]}
{"id": "C87", "title": "Opening the database gives one working handle or none", "statement": "Start tries to open the database at most 300 times, stops when cancelled, and returns a handle that answered a ping and has the configured pool; every other handle it opened is closed; if an attempt would work before cancellation, it succeeds.", "quantifier": "all outcomes of up to 300 attempts", "why_tests_cant": "there are more than 2^600 outcomes of the attempts; tests see the first attempt work", "anchors": ["pkg/server/server.go:robustOpenDb,openAndTestDb"]}
{"id": "C88", "title": "Exit status zero means an orderly stop", "statement": "If the process exits with status 0, it was listening, was asked to stop by a signal or by low disk space with that action, and then in this order cancelled its context, closed the backend, tried to hand over the leadership, closed the dqlite node and shut down tracing if enabled.", "quantifier": "all runs of the process: signals, disk watcher, failures, in any order", "why_tests_cant": "all interleavings of signals, disk watcher and failing calls; tests cannot place a signal at every point", "anchors": ["cmd/root.go:Run", "pkg/server/server.go:Start,Shutdown,MustStop"]}
{"id": "C89", "title": "Asked to stop, the process stops in an orderly way", "statement": "A process that gets a termination signal closes the backend and the dqlite node, hands over its leadership and exits with status 0, whatever state it is in, and does not serve requests once the backend is closed.", "quantifier": "all moments of the signal, all behaviours of the calls", "why_tests_cant": "the signal may come at any moment and any call may fail; tests stop a healthy server", "anchors": ["cmd/root.go:Run", "pkg/server/server.go:Shutdown"]}
{"id": "C90", "title": "The metrics endpoint does not affect the service", "statement": "The metrics endpoint is shut down with the process, and a failure of it does not stop the service.", "quantifier": "all runs", "why_tests_cant": "failures at every moment of a run cannot be enumerated by tests", "anchors": ["cmd/root.go:Run"]}
{"id": "C91", "title": "TLS and low-disk options mean what they say", "statement": "The minimum TLS version is the one named by the option (default 1.2), the session cache has the configured size when positive, the low-disk action is the one named; every other value is refused.", "quantifier": "all strings and sizes", "why_tests_cant": "the options are arbitrary strings; tests try the documented ones", "anchors": ["pkg/server/server.go:New"]}
{"id": "C92", "title": "A start refused because of an option changes nothing", "statement": "If the server refuses to start because of a command-line option, the storage directory is as before, so that correcting the option is enough.", "quantifier": "all option values and directory contents", "why_tests_cant": "all combinations of option values and directory contents", "anchors": ["pkg/server/server.go:New"]}
{"id": "C93", "title": "Watch responses follow their confirmation", "statement": "Every event and progress notification that carries a watch id is sent after the response that confirmed the creation of that watch.", "quantifier": "all interleavings of the three loops of a stream, the poller, writers, compaction and failing queries", "why_tests_cant": "the confirmation races with the publication of the first events at every point", "anchors": ["pkg/limited/watch.go:Create,sendUpdates,sendProgress", "pkg/backend/internal/backend/watcher.go:Watch,publish"]}
{"id": "C94", "title": "Every create request is answered as such", "statement": "Every create request of a watch stream gets exactly one response marked as created, carrying the new id unless the watch is refused, whatever happens to the queries made for it.", "quantifier": "all reachable streams, all failures of the queries", "why_tests_cant": "failures at each point of a registration under all interleavings", "anchors": ["pkg/limited/watch.go:Create"]}
{"id": "C95", "title": "Cancelling a watch is confirmed", "statement": "A cancel request for a watch is answered with a response for that watch marked as cancelled.", "quantifier": "all reachable streams", "why_tests_cant": "absence of a response in every execution cannot be tested", "anchors": ["pkg/limited/watch.go:Close"]}
{"id": "C96", "title": "The refusal of a compacted watch tells the compaction revision", "statement": "The response that refuses a watch because its start was compacted carries the compaction revision, from which clients recognise the reason.", "quantifier": "all refusals in all executions", "why_tests_cant": "all floors and start revisions, races with compaction", "anchors": ["pkg/limited/watch.go:Create"]}
{"id": "C97", "title": "Watch options are honoured", "statement": "A watch created without puts, without deletes, without previous values or without progress notifications does not get them (or the request is refused).", "quantifier": "all create requests and histories", "why_tests_cant": "it says that certain events are absent and others complete in all executions, for every combination of options and every history", "anchors": ["pkg/limited/watch.go:ServeRequests"]}
{"id": "C98", "title": "Streams end without crashing the server", "statement": "No interleaving of publishing, overflow, cancellation and new streams closes an update channel twice or sends on a closed one; a cancelled stream is removed from the server and gets nothing more.", "quantifier": "all interleavings of any number of streams", "why_tests_cant": "the crash needs cancellation between a failed send and its clean-up", "anchors": ["pkg/backend/internal/backend/watcher.go:publishEvents,WatcherGroup,publish"]}
{"id": "C99", "title": "A watch call returns when it is over", "statement": "The handler of a watch stream returns when its client is gone, and also, with an error, when the server gives up serving its requests or drops it.", "quantifier": "all interleavings of the three goroutines of the handler", "why_tests_cant": "goroutines left behind show only under particular interleavings", "anchors": ["pkg/limited/watch.go:Watch,ServeRequests,ServeUpdates,ServeProgress"]}
{"id": "C100", "title": "The disk watcher takes exactly the configured action", "statement": "A check that finds the available space low takes the configured action once: nothing, one handover, or one stop signal the main goroutine can receive; as long as no check finds it low, none is taken, and actions other than the configured one are never taken.", "quantifier": "all sequences of checks, readings and scheduling steps, all three actions, all thresholds", "why_tests_cant": "a wrong action shows only on a node that is running out of disk, at one particular check", "anchors": ["pkg/server/server.go:watchAvailableStorageSize", "pkg/server/util.go:checkAvailableStorageSize"]}
{"id": "C101", "title": "Snapshot parameters keep their order", "statement": "Whatever 64-bit numbers tuning.yaml contains for snapshots, at least 512 log entries are kept after a snapshot and the threshold is at most the number of entries kept.", "quantifier": "all pairs of 64-bit numbers, or no section at all", "why_tests_cant": "2^128 combinations, with unsigned overflow among them", "anchors": ["pkg/server/server.go:New"]}
{"id": "C102", "title": "A successful client put was written", "statement": "If a put of the Go client reports success, the given value was stored under the key by a revision made during the call, whatever other clients, compactions and database errors did meanwhile.", "quantifier": "all keys and values, all reachable stores, all interleavings with other writers and all faults", "why_tests_cant": "the put is a read followed by a guarded write; what matters is every interleaving between the two", "anchors": ["pkg/client/client.go:Put"]}
{"id": "C103", "title": "A prefix list is the prefix", "statement": "A Go client list of a non-empty prefix returns exactly the live keys of the range computed for it, in key order, at one revision, or the compacted error for a revision below the floor; and unless the prefix consists of 0xFF bytes only, that range contains exactly the keys with the prefix.", "quantifier": "all prefixes, all keys, all reachable stores, all revisions", "why_tests_cant": "prefixes that end in 0xFF need a carry, and tests use paths", "anchors": ["pkg/client/client.go:List"]}
{"id": "C104", "title": "Start-up never destroys state", "statement": "A start with init.yaml on a directory that already has state, with an init.yaml or update.yaml without address, or with an update.yaml on a node that never ran, fails and changes no file; an uninterrupted start with update.yaml moves exactly this node to the new address, keeps its id and role, and removes update.yaml.", "quantifier": "all directory contents, all addresses, all outcomes of the calls made", "why_tests_cant": "every combination of files, present, absent, empty or damaged, and of failures while reading them", "anchors": ["pkg/server/server.go:New"]}
{"id": "C105", "title": "A stopped backend stays stopped", "statement": "After any sequence of starts, stops and closes that ends with a stop or close which returned, the backend is stopped and its polling, compaction and expiry goroutines have ended.", "quantifier": "all sequences of calls, all interleavings with the goroutines", "why_tests_cant": "a goroutine left behind depends on the interleaving of its last steps with the stop", "anchors": ["pkg/backend/internal/backend/backend.go:Start,Stop,Close"]}
{"id": "C106", "title": "The limit of open connections is kept", "statement": "The flag for open connections sets the limit its help describes, and under any mix of requests, batches and compactions no more connections than that are in use.", "quantifier": "all flag values, all arrivals and interleavings, successful and failing database calls", "why_tests_cant": "the number in use is a property of every interleaving", "anchors": ["pkg/server/server.go:apply", "pkg/database/prepared.go:prepare, BeginTx", "pkg/backend/sqlite/driver.go:tryCompact"]}
{"id": "C107", "title": "Counts are exact or refused", "statement": "A count that succeeds is the number of live keys in the range at the revision it names, provided that revision is still readable when the answer is given, even if result sets break midway and other clients write meanwhile.", "quantifier": "all ranges, revisions, reachable stores, interleavings and database faults", "why_tests_cant": "needs a fault at each possible row of each query of the request", "anchors": ["pkg/backend/sqlite/driver.go:Count,countRevisionSQL", "pkg/backend/internal/backend/backend.go:Count"]}
{"id": "C108", "title": "Statements on a closed database do not crash", "statement": "Reads and writes may race with closing the database in any way, and come after it: they never crash the server.", "quantifier": "all interleavings of any number of calls with one close", "why_tests_cant": "the crash would be a nil map written in a window of a few instructions", "anchors": ["pkg/database/prepared.go:Close,prepare,QueryContext,ExecContext"]}
{"id": "C109", "title": "Small compaction transactions on SQLite", "statement": "With the SQLite driver, every transaction of a compaction run covers at most 1000 revisions.", "quantifier": "all reachable stores, all interleavings and faults", "why_tests_cant": "the bound must hold for every history length and every concurrent change of the floor", "anchors": ["pkg/backend/internal/backend/backend.go:DoCompact", "pkg/backend/sqlite/driver.go:Compact,tryCompact"]}
{"id": "C110", "title": "Requests on ordinary keys leave the floor alone", "statement": "A transaction on any key but the bookkeeping key never makes a read readable that was refused as compacted, nor the other way round.", "quantifier": "all transactions, stores, faults and all reads", "why_tests_cant": "quantifies over pairs of a transaction and a read", "anchors": ["pkg/backend/sqlite/driver.go:createSQL,updateSQL,deleteSQL", "pkg/limited/limited.go:Txn"]}
{"id": "C111", "title": "A watch below the floor is refused", "statement": "A watch whose start revision is below the compaction floor when the server looks is answered with the compacted error carrying the floor and the current revision, or with another error if the database fails; a watch at or above the floor never gets the compacted error.", "quantifier": "all reachable states of the server with any number of streams and watches, all faults", "why_tests_cant": "the floor moves concurrently with the creation of watches", "anchors": ["pkg/backend/internal/backend/watcher.go:Watch"]}
{"id": "C112", "title": "SQLite counters are conserved", "statement": "For the counters of pages written, cache hits, and the two times, what resets handed out and what is still accumulated add up to what finished statements contributed (modulo 2^64), whatever runs concurrently.", "quantifier": "all interleavings of statements, fetches and resets", "why_tests_cant": "lost updates need a reset between another thread's two atomic operations", "anchors": ["pkg/instrument/extension.c:sqlite3_metrics,sqlite3_collect_metrics"]}
{"id": "C113", "title": "The handler of a departed client returns", "statement": "Once the client of a watch stream is gone, its handler can return from whatever state its goroutines are in: until it has, one of its own steps brings it nearer, and once its channel is closed no step of anybody sets it back.", "quantifier": "all interleavings of the goroutines with requests, publishing and cancellation", "why_tests_cant": "a handler that hangs needs one particular interleaving", "anchors": ["pkg/limited/watch.go:Watch,ServeRequests,ServeUpdates,ServeProgress"]}
{"id": "C114", "title": "Batching is invisible", "statement": "Any number of servers may share the database, each collecting the writes of concurrent requests into batches; batches may fail as a whole, lose the report of their commit, contain cancelled requests, and servers may close or crash at any moment. What is asked, committed and answered, and in which order, is always something that can happen when every write is executed on its own; in particular conditional writes stay atomic and linearizable, acknowledged writes are seen by later reads, and nothing is committed that nobody asked for.", "quantifier": "all numbers of servers and requests, all interleavings, batch compositions, faults, cancellations, closings and crashes", "why_tests_cant": "the composition of batches depends on timing, and the guarantee is about every interleaving of them", "anchors": ["pkg/database/batched.go:ExecContext,run,execQueue", "pkg/backend/sqlite/driver.go:execute", "pkg/server/server.go:Start"]}
{"id": "C115", "title": "No write waits for more than two batches", "statement": "A request waiting for its write can continue after at most the batch in progress and the next one, whatever faults these suffer.", "quantifier": "all reachable states of all servers, all faults", "why_tests_cant": "a lost wake-up or an off-by-one in the run number shows only when a request arrives at one particular moment of a batch", "anchors": ["pkg/database/batched.go:ExecContext,run"]}
{"id": "C116", "title": "The server behaves the same when its database calls are the SQL it really sends", "statement": "Take the exact texts of the statements the driver sends, with the arguments it binds, and evaluate them by SQL's rules on a table that starts empty. Then every sequence of creates, updates, deletes, ranges and compaction runs gets the answers of an append-only history of changes, and no statement is ever refused, whether empty values are bound as NULL or as empty blobs.", "quantifier": "all sequences of requests, both schema generations, all ways of binding values", "why_tests_cant": "the meaning of GROUP BY with bare columns, of MAX over nothing, of NULL in comparisons and of INSERT ... SELECT shows only on particular table contents", "anchors": ["pkg/backend/sqlite/driver.go:createSQL,updateSQL,deleteSQL,listSQL,listSqlV1_0,countRevisionSQL,countRevisionSQLV1_0,revisionIntervalSQL", "pkg/limited/limited.go:Range,Txn", "pkg/backend/internal/backend/backend.go:DoCompact"]}
{"id": "C117", "title": "No schedule tells the SQL texts from their intended meaning", "statement": "Any operation of the server, interrupted by any statements of other servers between its own, with any statement failing before or after its effect, any result set breaking off and any crash point, ends with the same result and leaves the same rows whether its database calls are carried out by the literal SQL texts or by their intended meaning. From the empty table, any sequence of the driver's changes is accepted.", "quantifier": "all operations, schedules, faults, crash points and table contents", "why_tests_cant": "the product of statements, schedules and contents is unbounded", "anchors": ["pkg/backend/sqlite/driver.go:query,execute,Create,Update,Delete,List,Count,After,AfterPrefix,ListTTL,CurrentRevision,GetCompactRevision,DeleteRevision,tryCompact"]}
{"id": "C118", "title": "Each SQL text computes what the history says", "statement": "In a table produced by the driver's own statements: the create, update and delete texts insert a row exactly when the history says the request succeeds and report its revision; both listing texts return the contents of the key range at the revision in key order, with LIMIT the first of them; both counting texts return their number; the backlog text returns each change of the range exactly once, in order, with true contents; the interval text returns the compaction floor and the current revision; the size text returns the bytes in use.", "quantifier": "all tables reachable by the driver's statements, all keys, revisions and limits", "why_tests_cant": "a wrong join, a missing HAVING or a bare column from another row gives right answers on most tables", "anchors": ["pkg/backend/sqlite/driver.go:createSQL,updateSQL,deleteSQL,listSQL,listSqlV1_0,countRevisionSQL,countRevisionSQLV1_0,afterSQLPrefix,revisionIntervalSQL,getSizeSQL,tryCompact"]}
{"id": "C119", "title": "Answers show only committed versions", "statement": "Every key value in an answer - of a get or list, or in the failure branch of a conditional update or delete - is exactly the version (value, lease, creation and modification revision) that the committed changes gave that key at its modification revision; its key was asked about, and it is not newer than the revision asked for nor than the revision the answer reports. The fixed refusal of a compaction transaction is the only exception.", "quantifier": "every interleaving of requests, expirations, compactions, starts and crashes, every fault of every database call including result sets that break midway, with and without batched writes", "why_tests_cant": "needs every interleaving of reads with writes and compactions at database-call granularity and every fault; a test sees a few schedules", "anchors": ["pkg/backend/internal/backend/backend.go:List", "pkg/backend/sqlite/driver.go:listSQL", "pkg/backend/internal/backend/utils.go:scanKeyValue", "pkg/limited/list.go", "pkg/limited/get.go", "pkg/limited/update.go", "pkg/limited/delete.go"]}
{"id": "C120", "title": "No lost updates", "statement": "When an update or delete that insists on the modification revision of a version some caller was shown is committed, that version, in every field, is still the newest version of its key right before the commit: a read-modify-write overwrites nothing its author did not see.", "quantifier": "every interleaving, fault, crash and compaction, every pair of an answer that shows a version and a conditional write that insists on it, whether or not the writer was answered, with and without batched writes", "why_tests_cant": "the window between reading a version and writing is crossed by unboundedly many schedules of other writers, retries after ambiguous errors, expirations and compactions", "anchors": ["pkg/backend/internal/backend/backend.go:Update", "pkg/backend/internal/backend/backend.go:Delete", "pkg/backend/sqlite/driver.go:updateSQL", "pkg/backend/sqlite/driver.go:deleteSQL", "pkg/limited/update.go", "pkg/limited/delete.go"]}
{"id": "C121", "title": "Events report committed, requested changes", "statement": "On any server, an event is sent only after the change it reports was committed, on behalf of a request that asked for exactly this change and whose condition held at that moment. The event's revision is the number of the change in commit order; key, kind, value and lease are those of the change. The event answers a watch requested before on the same connection for a range that contains the key.", "quantifier": "any number of servers, clients, requests and watches; every interleaving, batching, crash, compaction and fault", "why_tests_cant": "the order of a commit, a poll and a send on different servers is decided by the scheduler; tests see a few orders", "anchors": ["pkg/backend/internal/backend/watcher.go:poll,publish", "pkg/limited/watch.go:sendUpdates", "pkg/backend/internal/backend/backend.go:Create,Update,Delete", "pkg/database/batched.go:execQueue"]}
{"id": "C122", "title": "Reads never lag behind received events", "statement": "After an event was sent to any client, a Range request made to any server is answered at a revision not older than the event's; a get of the event's key (at most 100 changes while it is processed) shows that version or a newer one, or nothing if the key was deleted at that revision or later.", "quantifier": "any number of servers and clients, every interleaving, batching, crash, compaction; for the header also every tolerated fault", "why_tests_cant": "causality between a watch on one server and a read on another is a statement about all schedules of both", "anchors": ["pkg/backend/internal/backend/watcher.go:poll,publish", "pkg/backend/internal/backend/backend.go:List", "pkg/limited/watch.go:sendUpdates", "pkg/limited/get.go", "pkg/limited/list.go"]}
{"id": "C123", "title": "No lost update on watched versions", "statement": "When a conditional write that insists on the version a client learnt from an event is committed, that version, in every field, is still the newest of its key: controllers that act on watched state overwrite nothing they have not seen.", "quantifier": "any number of servers and clients, every interleaving, batching, crash, compaction and fault", "why_tests_cant": "the time between an event and the write based on it is crossed by unboundedly many schedules of other writers", "anchors": ["pkg/backend/internal/backend/watcher.go:publish", "pkg/limited/watch.go:sendUpdates", "pkg/limited/update.go", "pkg/limited/delete.go", "pkg/backend/sqlite/driver.go:updateSQL,deleteSQL"]}
{"id": "C124", "title": "Watches have no gaps while many servers write", "statement": "At the moment events of a watch are sent, all that was sent for it so far is exactly the changes of its range, from its beginning (not after the requested revision) to the last event sent, once each and in revision order, provided pollers and registrations stay within the 100 revisions that compaction keeps. Without the proviso there may be gaps but never disorder or repetition.", "quantifier": "any number of servers and clients, every interleaving, batching, crash, compaction and fault within the proviso", "why_tests_cant": "completeness of a stream is a statement about every schedule of writers, poller, registration and sender", "anchors": ["pkg/backend/internal/backend/watcher.go:Watch,initialEvents,poll,publish", "pkg/limited/watch.go:Create,ServeUpdates,sendUpdates"]}
{"id": "C125", "title": "List and watch across servers", "statement": "A client lists a range on one server and watches it on the same or another from the next revision, applying the events newer than its list. Whenever events arrive, its copy is exactly the content of the range at one revision: that of the list or of the last event, whichever is later.", "quantifier": "any number of servers, writers and clients, every interleaving, batching, crash and compaction; at most 100 changes during the list; pollers and registrations within the 100 revisions compaction keeps", "why_tests_cant": "needs every interleaving of a list, a registration, pollers and writers on several servers", "anchors": ["pkg/backend/internal/backend/backend.go:List", "pkg/backend/internal/backend/watcher.go:Watch,initialEvents,publish", "pkg/limited/list.go", "pkg/limited/watch.go:Create,sendUpdates"]}
{"id": "C126", "title": "Nobody disagrees about a revision", "statement": "Two events of the same revision, sent by any servers to any clients at any time, are of the same key and kind and, for puts, carry the same key value; an answer of any server that shows a version of that key and revision shows the same one.", "quantifier": "any number of servers and clients, every interleaving, batching, crash, compaction and fault", "why_tests_cant": "agreement ranges over all pairs of messages of all executions", "anchors": ["pkg/backend/internal/backend/watcher.go:publish", "pkg/limited/watch.go:sendUpdates", "pkg/backend/internal/backend/backend.go:List", "pkg/backend/internal/backend/utils.go:scanEvent,scanKeyValue"]}
{"id": "C127", "title": "The header of an unlimited list identifies its snapshot", "statement": "The revision in the header of a list without limit and without requested revision is the revision at which the returned keys are the exact content of the range, unless compaction has passed that revision before the answer; a watch from the next revision misses nothing.", "quantifier": "all stores, ranges and interleavings with writes and compactions between the statements of the list, all clean faults", "why_tests_cant": "needs writes and compactions to land between any two statements of the request", "anchors": ["pkg/limited/list.go:list", "pkg/backend/internal/backend/backend.go:List"]}
{"id": "C128", "title": "Transactions about one key follow etcd", "statement": "A transaction of a supported shape whose compare and operations are about the same key, with no put flags, gets the success flag and has the effect that etcd's semantics give it.", "quantifier": "all such transactions and all reachable stores", "why_tests_cant": "the transactions and the stores are infinite in number, and etcd's meaning has to be met by every one whose operations touch one key", "anchors": ["pkg/limited/limited.go:Txn", "pkg/limited/create.go", "pkg/limited/update.go", "pkg/limited/delete.go"]}
{"id": "C129", "title": "Watches have no gaps while compaction keeps behind", "statement": "If compaction overtakes neither the poller nor a registration in progress, every consumer has at every moment received exactly the changes of its range from the beginning of its watch to some revision, and once the poller has run often enough, to the current revision.", "quantifier": "all interleavings of writers, poller, registrations, cancellations and consumption, all faults of the poller's queries", "why_tests_cant": "the registration of a watch races with the poller and with compaction at every point of all three", "anchors": ["pkg/backend/internal/backend/watcher.go:Watch,publish,update,initialEvents,poll,publishEvents"]}
{"id": "C130", "title": "Leases of up to 292 years are not cut short", "statement": "A key written with a lease of 1 to 9223372035 seconds is not removed by expiry before that many seconds have passed since the write.", "quantifier": "all such leases, all interleavings of writes, timers, expirations and faults, all clocks that do not go back", "why_tests_cant": "arithmetic over the entire range of durations, and every schedule of the timers", "anchors": ["pkg/backend/internal/backend/ttl.go:ttl", "pkg/limited/lease.go:LeaseGrant"]}
{"id": "C131", "title": "Schema versions with non-negative minors encode losslessly", "statement": "For majors of 16 bits and non-negative minors, encoding then decoding gives back the pair, the order of encoded versions is lexicographic, and compatibility holds exactly for equal majors or an unversioned database.", "quantifier": "all such pairs", "why_tests_cant": "2^31 values, compared in pairs: the order and the compatibility test quantify over all pairs of versions", "anchors": ["pkg/backend/sqlite/schema.go:NewSchemaVersion,Major,Minor,CompatibleWith"]}
{"id": "C132", "title": "Reads overtaken by at most 100 changes are linearizable", "statement": "A range or get without revision, during which at most 100 changes are committed, returns the exact content of the range at one moment between request and answer, limited and counted as asked; without further pages its header is that moment's revision.", "quantifier": "all interleavings of requests, batches, compactions, clean faults and crashes", "why_tests_cant": "a read is several statements with arbitrary work of others in between", "anchors": ["pkg/limited/list.go", "pkg/limited/get.go", "pkg/backend/internal/backend/backend.go:List,Count", "pkg/backend/sqlite/driver.go:GetCompactRevision,List,Count"]}
{"id": "C133", "title": "Compaction is clamped to the current revision", "statement": "Asked to compact to any revision whatever, the driver succeeds and the floor becomes the larger of the old floor and the smaller of the requested and the current revision.", "quantifier": "all stores with the bookkeeping key, all requested revisions including negative and future ones", "why_tests_cant": "the requested revision is any 64-bit integer, negative and future ones included, against every history", "anchors": ["pkg/backend/sqlite/driver.go:Compact,tryCompact,GetCompactRevision"]}
{"id": "C134", "title": "List and watch, skipping what is known", "statement": "A client that lists a range, watches it from the next revision and applies only events newer than its list has at every moment the exact content of the range at one revision not older than the list, and ends up with the current content; so does one that applies everything if the server had passed the list's revision.", "quantifier": "all stores, ranges, writers, schedules of pollers and streams and query faults within the provisos of the previous watch property", "why_tests_cant": "the gap between list and watch over all interleavings", "anchors": ["pkg/limited/list.go", "pkg/limited/watch.go", "pkg/backend/internal/backend/watcher.go:Watch,poll", "pkg/backend/internal/backend/backend.go:List"]}
{"id": "C135", "title": "Three connections are enough", "statement": "With no connection limit or a limit of at least three, whatever requests, batches and compactions are in progress comes to an end under every schedule, and when nobody can go on everybody is done.", "quantifier": "all such limits, numbers of users, schedules and results of database calls", "why_tests_cant": "deadlock freedom is a statement about all schedules", "anchors": ["pkg/database/prepared.go:prepare,BeginTx", "pkg/database/batched.go:execQueue", "pkg/backend/sqlite/driver.go:tryCompact"]}
{"id": "C136", "title": "A watch resumed by a careful client has no gaps", "statement": "A client that resumes its watch after the last revision seen, any number of times and on any servers, and leaves out what it has seen, gets over all streams exactly the changes of its range since it began, in order and once (compaction behind pollers and registrations).", "quantifier": "all numbers of streams and servers, all interleavings", "why_tests_cant": "spans several servers and streams and arbitrary lag of their pollers", "anchors": ["pkg/limited/watch.go", "pkg/backend/internal/backend/watcher.go:Watch,initialEvents,publish"]}
{"id": "C137", "title": "A watch is for the range and start asked", "statement": "A create request without an id, served while the stream is not busy registering another watch, adds exactly one watch: for the key or range and the start revision of the request, numbered with the next number. No other request, tick, send or cancellation adds a watch or changes what an existing one is for.", "quantifier": "all states of a watch stream reachable under any interleaving with writers, poller and compaction, all create requests", "why_tests_cant": "the watch is registered while other watches exist and events flow; unit tests register one or two watches on a quiet store", "anchors": ["pkg/limited/watch.go:ServeRequests,Create", "pkg/backend/internal/backend/watcher.go:Watch"]}
{"id": "C138", "title": "Every request is answered", "statement": "If the goroutine that serves a request keeps being scheduled, and the goroutine that runs the batched writes of the same server keeps being scheduled, then the request is answered after finitely many steps, with a result or an error, whatever all other requests and servers do and whatever faults its statements and its batches suffer (busy, rolled back, lost connection, cancelled), unless its server crashes.", "quantifier": "all configurations, all requests, all infinite schedules of any number of requests on any number of servers with any faults, in which the two goroutines get turns again and again", "why_tests_cant": "it is about infinite executions: a test can only see that a request was answered within some time on some schedule; a lost wake-up, an endless retry or a batch that never reports shows only on the schedule that causes it", "anchors": ["pkg/database/batched.go:ExecContext,run,execQueue", "pkg/limited/server.go:Range,Txn", "pkg/backend/sqlite/driver.go:execute,query"]}
{"id": "C139", "title": "Every change is eventually delivered", "statement": "Once a watch is acknowledged, every change of its range that is ever committed by anybody at any server, at or after the requested revision (or, whatever was requested, after the acknowledgement), is eventually sent on its stream as an event with that revision and the true contents, provided that the server of the watch does not crash, its poller keeps getting successful queries and stays within 100 revisions of the newest change, and the goroutine that sends keeps getting its turns and the mutex; unless the client cancels the watch or the server closes the stream.", "quantifier": "all infinite schedules of any number of servers, requests, crashes of other servers, other streams and faults that satisfy these fairness conditions; all watches, ranges, start revisions and changes", "why_tests_cant": "it is about infinite executions: a test sees an event within some time on some schedule; a change that falls between two polls, a backlog that is never flushed or a lost wake-up shows only on the schedule that causes it", "anchors": ["pkg/backend/internal/backend/watcher.go:poll,publishEvents,publish,Watch", "pkg/limited/watch.go:ServeUpdates,sendUpdates"]}
{"id": "C140", "title": "Every watch request is answered", "statement": "Create requests on a watch stream are answered one for one and in order: at any time at most one received request is waiting for its answer and there are no more answers than requests; a confirmation carries the number the server gave to the request it answers; and, as long as the server does not crash and the goroutine that serves the stream's requests keeps getting its turns, every received request is eventually confirmed or refused, whether its queries succeed or fail.", "quantifier": "all executions of any number of servers, requests, streams and faults; for the last part all infinite schedules with these fairness conditions; all connections and requests", "why_tests_cant": "it is about infinite executions and every interleaving with polls, publications, sends and requests of other streams: a test that gets its answers cannot show that no schedule leaves a client waiting", "anchors": ["pkg/limited/watch.go:ServeRequests,Create", "pkg/backend/internal/backend/watcher.go:Watch"]}
{"id": "C141", "title": "Migration from etcd brings over every key", "statement": "Backing up an etcd server and restoring the backup into k8s-dqlite (uninterrupted, without a leftover key file behind the last new one) reports success, gives every key that is live in etcd the value it has there, whatever the key, and leaves all other keys of k8s-dqlite unchanged.", "quantifier": "every history of the etcd server, every reachable state of k8s-dqlite, every directory content", "why_tests_cant": "needs all histories and all sets of keys; a test migrates a few keys into an empty store", "anchors": ["pkg/migrator/migrator.go:BackupEtcd, RestoreToDqlite", "pkg/migrator/util.go:putKey"]}
{"id": "C142", "title": "Migration to etcd brings over every key under \"/\"", "statement": "Backing up k8s-dqlite and restoring the backup into an etcd server (uninterrupted, without a leftover key file behind the last new one, no failing put) reports success, gives every key under \"/\" the value it has in k8s-dqlite and leaves the rest of etcd unchanged; going on from an empty etcd back into any k8s-dqlite store brings the same keys there.", "quantifier": "every reachable state of k8s-dqlite, every history of the etcd server, every directory content", "why_tests_cant": "needs all states on both sides; a test migrates a few keys into an empty etcd", "anchors": ["pkg/migrator/migrator.go:BackupDqlite, RestoreToEtcd, BackupEtcd, RestoreToDqlite"]}
{"id": "C143", "title": "The messages carry the versions unchanged", "statement": "The protobuf message answering a list has, in order, exactly one entry for every version in the snapshot of the requested revision, with its key, value, lease, create and mod revision; that of a get carries exactly the version of the key; header, count and more flag arrive as computed for every combination of options; a conditional update or delete that is not performed brings the present version of the key.", "quantifier": "every reachable store, every request", "why_tests_cant": "needs every store content; a test compares a few messages", "anchors": ["pkg/limited/server.go:Range, toKVs, toKV", "pkg/backend/internal/backend/utils.go:scanKeyValue", "pkg/limited/update.go", "pkg/limited/delete.go"]}
{"id": "C144", "title": "Every answer tells the current revision", "statement": "The header of every answer of the key-value API holds the revision of the store when it was answered.", "quantifier": "every reachable store and request", "why_tests_cant": "needs every store and every outcome of a request", "anchors": ["pkg/limited/limited.go:txnHeader", "pkg/limited/create.go", "pkg/limited/update.go", "pkg/limited/delete.go", "pkg/backend/sqlite/driver.go:Create, Update, Delete"]}
{"id": "C145", "title": "Versions and counts are those of etcd", "statement": "The Version of a returned key is the number of its puts since it was created, the Count of a get the number of keys found, and Deleted the number of keys a delete removed.", "quantifier": "every reachable store and request", "why_tests_cant": "the version counts all puts since the last creation, however many there were and whatever was compacted in between", "anchors": ["pkg/limited/server.go:toKV", "pkg/limited/get.go", "pkg/limited/delete.go"]}
{"id": "C146", "title": "A successful compaction run has compacted", "statement": "When a compaction run reports success, every revision more than 100 older than the store's revision at the start of the run is compacted (reads of it are refused) and the table has at most 200 rows more than there are live keys, plus two for each change made during the run, whatever other processes write and compact meanwhile and whichever statements fail and are retried (on dqlite while the node is the leader).", "quantifier": "every reachable store, every interleaving with writers and other compactors, every pattern of failing statements", "why_tests_cant": "interleavings and faults within a run cannot be enumerated by tests", "anchors": ["pkg/backend/internal/backend/backend.go:DoCompact, compactStart", "pkg/backend/sqlite/driver.go:Compact, tryCompact", "pkg/backend/dqlite/driver.go:Compact"]}
{"id": "C147", "title": "A read that compaction does not overtake is complete", "statement": "A range read that is answered returns the complete snapshot at its revision, provided that revision is still readable when the answer is given, whatever writers and compactors do between its statements.", "quantifier": "all reachable stores, ranges and revisions, all interleavings of the statements of the read with writers and compactors", "why_tests_cant": "needs compactions and writes between particular statements of one read", "anchors": ["pkg/backend/internal/backend/backend.go:List", "pkg/limited/list.go:list", "pkg/backend/sqlite/driver.go:List,GetCompactRevision"]}
{"id": "C148", "title": "A caught-up watch delivers nothing older", "statement": "A watch whose start revision is at most one above the position its server had published when it was requested receives no event older than the start; one without a start revision receives no event at or below that position.", "quantifier": "all interleavings of writers, poller, registrations and consumers", "why_tests_cant": "needs the poller, the registration and the backlog query to interleave in particular ways", "anchors": ["pkg/backend/internal/backend/watcher.go:Watch,update,publish"]}
{"id": "C149", "title": "Updates are complete up to their revision while compaction keeps behind", "statement": "While compaction stays behind the poller and behind registrations in progress, an update with revision R completes the deliveries up to R: every change in the range of an acknowledged watch, from its start up to R, has been put into this or an earlier update, once and in order.", "quantifier": "all interleavings of writers, poller, registrations and consumers with that proviso", "why_tests_cant": "races between registration, polling and publication", "anchors": ["pkg/backend/internal/backend/watcher.go:publish,update,publishEvents"]}
{"id": "C150", "title": "What a client has been sent is a gap-free prefix", "statement": "While compaction stays behind the poller and behind registrations in progress, the events sent on a stream for a watch are at every moment exactly the changes in its range from its start up to some revision, even if the server has dropped the stream's group because its buffer was full.", "quantifier": "all executions of a stream with that proviso, including overflow of the buffer", "why_tests_cant": "needs the buffer to overflow at every possible moment", "anchors": ["pkg/backend/internal/backend/watcher.go:publish,publishEvents", "pkg/limited/watch.go:sendUpdates,ServeUpdates"]}
{"id": "C151", "title": "A progress notification after a delivered update is true", "statement": "If an update published after the watch was acknowledged has been sent and none is waiting to be sent, a progress notification with revision R comes after all changes of the watch up to R have been sent.", "quantifier": "all executions of a stream in which compaction keeps behind", "why_tests_cant": "three goroutines write to one stream; the order in which updates are taken, sent and acknowledged differs in every run", "anchors": ["pkg/limited/watch.go:sendProgress,RequestProgress,sendUpdates"]}
{"id": "C152", "title": "Idle watches get periodic progress", "statement": "A watch that is not cancelled and never got an event gets a progress notification at every tick at which no registration is in progress on its stream.", "quantifier": "all executions of a stream", "why_tests_cant": "unbounded sequences of events, registrations and ticks", "anchors": ["pkg/limited/watch.go:sendProgress,Create"]}
{"id": "C153", "title": "Polling survives errors other than time-outs", "statement": "Whatever number of polling queries fail with errors other than a time-out or a cancellation, the poller goes on, and once the database answers it catches up with the current revision in as many rounds as there are missing revisions (plus one), if compaction has not passed it.", "quantifier": "all reachable states of the server and all sequences of such errors", "why_tests_cant": "errors may come in any sequence over an unbounded time, at each of the statements of a poll", "anchors": ["pkg/backend/internal/backend/watcher.go:poll,getLatestEvents"]}
{"id": "C154", "title": "Leased keys the server has seen get a timer", "statement": "Once the expiry goroutine's watch is acknowledged and it has received a later update, every live version with a positive lease up to the revision of the last update received has an expiry timer with its exact revision and lease, provided the key was there at start or begins with a byte below 255.", "quantifier": "all executions in which compaction keeps behind the expiry watch, all keys and leases", "why_tests_cant": "gap between the start-up scan and the live watch under any interleaving", "anchors": ["pkg/backend/internal/backend/ttl.go:ttl", "pkg/backend/sqlite/driver.go:ttlSQL"]}
{"id": "C155", "title": "Expiry respects the lease granted and is prompt", "statement": "A key written with the id of a lease granted for T seconds (0 < T <= 9223372035) is not deleted by expiry before T seconds after it was written; and once the server has received the update with that version, it deletes the key when T plus one second have passed, unless the key was changed.", "quantifier": "all grants, all executions of the expiry goroutine, timers and writers", "why_tests_cant": "races of timers with writers over unbounded time", "anchors": ["pkg/limited/lease.go:LeaseGrant", "pkg/backend/internal/backend/ttl.go:ttl"]}
{"id": "C156", "title": "A write whose batch mates are not cancelled succeeds", "statement": "On a working database that is not being closed, a write none of whose batch mates (nor itself) is cancelled when the batch is executed succeeds; a write alone in its batch succeeds whatever else happens.", "quantifier": "all reachable states of the batching layer, all batches", "why_tests_cant": "which statements share a batch depends on arrival times; all sets of mates, and cancellations of others at any moment before the batch, have to be considered", "anchors": ["pkg/database/batched.go:execQueue,run"]}
{"id": "C157", "title": "Start-up configuration survives crashes between file writes", "statement": "As long as no start crashes or fails at a moment when neither init.yaml nor info.yaml exists, or when info.yaml is empty, any number of starts that succeed, fail or crash lead to the intended result: with init.yaml, every start that succeeds runs with the address and cluster given there and a working start succeeds; with update.yaml, every start that succeeds runs with the new address, has rewritten info.yaml and the membership, and has removed update.yaml.", "quantifier": "all sequences of starts, crash points and failures with that proviso", "why_tests_cant": "files are created, renamed and removed one by one and every start may fail or die between two of them, again and again: all sequences of starts count", "anchors": ["pkg/server/server.go:New"]}
{"id": "C158", "title": "Backend calls return unless an unstarted backend was stopped", "statement": "In any sequence of start, stop and close calls, interleaved in any way with the goroutines of the backend, every call can return, unless a backend that was not started has been stopped.", "quantifier": "all sequences of calls and all interleavings", "why_tests_cant": "deadlocks depend on where the goroutines of the backend are when a call comes; the sequences of calls are unbounded", "anchors": ["pkg/backend/internal/backend/backend.go:Start,Stop,Close"]}
{"id": "C159", "title": "Backup and restore bring over the keys under /", "statement": "Restoring a complete backup into a store gives every key under / the value it had in the backed-up store, keeps the other keys of the target, and reports success, if the directory had no further key file; a backup cut in the middle of an entry is reported by the restore.", "quantifier": "all pairs of reachable stores, all directories, all cut points in the middle of an entry", "why_tests_cant": "the contents of both stores and of the directory are arbitrary and the backup may be cut after every single file", "anchors": ["pkg/migrator/migrator.go:BackupDqlite,RestoreToDqlite", "pkg/migrator/util.go:putKey", "pkg/client/client.go:Put,List"]}
{"id": "C160", "title": "A client put on a live key works", "statement": "Undisturbed, a client put on a live key succeeds, uses one revision, keeps the create revision, and changes no other key.", "quantifier": "all reachable stores, live keys and values", "why_tests_cant": "depends on the whole history of the key (earlier deletions, leases, compactions) and on what every other key holds; a test looks at one store", "anchors": ["pkg/client/client.go:Put,Update,Create"]}
{"id": "C161", "title": "A node that knows it is a follower does not compact", "statement": "A dqlite node whose leader queries answer that it is not the leader issues no compaction transaction, whatever other statements fail.", "quantifier": "all stores, all interleavings and faults of a compaction run", "why_tests_cant": "the failures of the other statements are arbitrary and may hit at every statement of a run of unbounded length, while other servers write", "anchors": ["pkg/backend/dqlite/driver.go:Compact,dqliteRetry", "pkg/backend/internal/backend/backend.go:DoCompact"]}
{"id": "C162", "title": "A unix listener is private once it is up", "statement": "When listening on a unix socket reports success, the socket is accessible to its owner only, whatever the process umask was and whatever was left at the path, and if removing and binding work it does come up.", "quantifier": "all previous contents of the path, all modes, all failures of the steps", "why_tests_cant": "it depends on which of several system calls fails, and on what was at the path before", "anchors": ["pkg/endpoint/endpoint.go:createListener"]}
{"id": "C163", "title": "A non-zero idle connection flag is obeyed", "statement": "With a non-zero value of the idle connections flag the number of idle connections kept is the one its help promises, for every value of the other flags.", "quantifier": "all integer values of the flags", "why_tests_cant": "the flags are arbitrary integers and act on each other; the pool has to be observed over an unbounded sequence of requests", "anchors": ["pkg/server/server.go:apply", "cmd/root.go"]}
{"id": "C164", "title": "A write answered with failure changed nothing, if the database reports truthfully", "statement": "If every statement and COMMIT that reports an error had no effect, then a transaction answered with an error or as not succeeded has committed nothing, and one answered as succeeded exactly its change, alone, concurrently with others, and through the batching layer.", "quantifier": "all transactions, interleavings with other clients, batches and faults with that proviso", "why_tests_cant": "unbounded concurrency with faults at every statement", "anchors": ["pkg/limited/limited.go:Txn", "pkg/backend/sqlite/driver.go:execute", "pkg/database/batched.go:execQueue"]}
{"id": "C165", "title": "Set-up gets through undisturbed", "statement": "A server whose set-up is not disturbed completes it whatever starts, failures and crashes of other servers came before, if the legacy index fits the rows.", "quantifier": "all initial schemas, all histories of other set-ups", "why_tests_cant": "any number of earlier set-ups may have died at any point, and the rows are arbitrary", "anchors": ["pkg/backend/sqlite/driver.go:setup,NewDriver", "pkg/backend/sqlite/schema.go:applySchemaV0_1,applySchemaV1_0"]}
{"id": "C166", "title": "A serving process stops in an orderly way on a signal", "statement": "If the process is serving when it is asked to stop, its low-disk action is not terminate, and from then on no call fails except the handover, it exits with status 0 after eight more steps, whatever else happens in between.", "quantifier": "all executions before and after the signal with that proviso", "why_tests_cant": "arbitrary schedules of the main goroutine, signals and failures", "anchors": ["cmd/root.go:Run", "pkg/server/server.go:Shutdown"]}
{"id": "C167", "title": "A start refused because of the low-disk or TLS options touches nothing", "statement": "A start refused because the low-disk action is not supported, or because of the TLS options when there is no init.yaml and no update.yaml, leaves the storage directory as it was.", "quantifier": "all options, environments and directories", "why_tests_cant": "every combination of options and of files that are there has to be tried, and the absence of any effect checked", "anchors": ["pkg/server/server.go:New"]}
{"id": "C168", "title": "Registration requests begin and end with one answer", "statement": "A create request without watch id either is confirmed at once or begins a registration; a registration ends with exactly one answer, marked created with the watch's id or as refused, or, only if one of its queries failed, as cancelled; and undisturbed it ends after three steps.", "quantifier": "all reachable states of a stream, all faults", "why_tests_cant": "all interleavings of registration with the rest of the stream", "anchors": ["pkg/limited/watch.go:ServeRequests,Create", "pkg/backend/internal/backend/watcher.go:Watch"]}
{"id": "C169", "title": "A performed write answers with its revision", "statement": "The header of the answer to a conditional write that was performed carries the revision of that write, which is the store's new current revision, one above the one before.", "quantifier": "all reachable stores, keys, values, leases and expected revisions", "why_tests_cant": "must hold in every reachable store, after any sequence of deletions, compactions and failed writes, each of which could shift the count of revisions", "anchors": ["pkg/limited/limited.go:txnHeader", "pkg/limited/create.go:create", "pkg/limited/update.go:update", "pkg/limited/delete.go:delete"]}
{"id": "C170", "title": "Repairing bookkeeping rows keeps the highest floor written by a compaction", "statement": "If several bookkeeping rows exist and one with the highest floor was not written by a create, starting a compaction keeps exactly one row with the highest floor and touches nothing else.", "quantifier": "all tables with unique positive ids", "why_tests_cant": "the duplicates come from crashed or older servers: any number of rows with any contents in any order, and the highest floor may be in any of them", "anchors": ["pkg/backend/internal/backend/backend.go:compactStart", "pkg/backend/sqlite/driver.go:DeleteRevision"]}
{"id": "C171", "title": "A watch whose backlog cannot be read leaves nothing", "statement": "A watch request that fails because its backlog query fails is answered with that error and leaves no watcher behind.", "quantifier": "all reachable states of the server, all errors", "why_tests_cant": "failure in the middle of a registration under any interleaving", "anchors": ["pkg/backend/internal/backend/watcher.go:Watch,initialEvents"]}
{"id": "C172", "title": "Snapshot parameters are safe for sensible settings", "statement": "Without a snapshot section, or with a trailing value of at least 512 (and no overflow when the threshold is left to its default), the threshold handed to dqlite is at least 384, at most trailing, and trailing is at least 512.", "quantifier": "all pairs of uint64 values", "why_tests_cant": "both parameters range over all 64-bit unsigned integers and overflow matters at the far end", "anchors": ["pkg/server/server.go:New"]}
{"id": "C173", "title": "Free space is measured exactly", "statement": "When free blocks times block size fits in 64 bits, storage counts as low exactly when the free bytes are below the configured minimum.", "quantifier": "all free block counts, block sizes and minimums", "why_tests_cant": "the product of two arbitrary 64-bit numbers is compared with a third; the boundary cases are not in the range a test disk offers", "anchors": ["pkg/server/util.go:checkAvailableStorageSize", "pkg/server/server.go:watchAvailableStorageSize"]}
{"id": "C174", "title": "Shutting down after the disk watcher returned does not crash", "statement": "If the server is closed only once and only after its disk watcher has returned, the watcher never crashes the process.", "quantifier": "all executions of the watcher, ticks, failures and closing", "why_tests_cant": "the panic needs close to come between two particular steps of another goroutine; tests rarely hit the moment", "anchors": ["pkg/server/server.go:watchAvailableStorageSize,Shutdown"]}
{"id": "C175", "title": "Every lease eventually runs out", "statement": "On a server whose expiry goroutine has finished its start-up and keeps getting its turns, a key version written with a lease does not stay for ever: sooner or later it has been overwritten, deleted or expired, unless the server closed the goroutine's own watch because it was too slow.", "quantifier": "all infinite executions (with fair goroutines, a database that again and again works, and passing time), keys and leases up to 292 years, every later moment", "why_tests_cant": "liveness: no finite test shows that something happens in every infinite schedule", "anchors": ["pkg/backend/internal/backend/ttl.go:ttl", "pkg/backend/internal/backend/watcher.go:poll", "pkg/backend/internal/backend/watcher.go:publishEvents", "pkg/backend/sqlite/driver.go:ttlSQL"]}
{"id": "C176", "title": "The start-up of expiry completes", "statement": "On a store that is not empty, if the statements of the expiry goroutine's start-up do not fail, the goroutine reaches its loop with an acknowledged watch, unless a compaction passed its start revision in the meantime.", "quantifier": "all infinite executions with fair goroutines, all interleavings of start-up with writes, compaction and polling", "why_tests_cant": "that something eventually happens is a statement about infinite executions; a test stops at some point", "anchors": ["pkg/backend/internal/backend/ttl.go:ttl", "pkg/backend/internal/backend/watcher.go:Watch", "pkg/backend/internal/backend/backend.go:Start"]}
{"id": "C177", "title": "A failing put of a migration to etcd costs only its own key", "statement": "When some puts fail while a backup is restored into etcd, exactly the keys of the failing puts keep their old state in etcd; all other keys of the backup arrive, other keys are untouched.", "quantifier": "all stores, all contents of etcd, all subsets of failing puts", "why_tests_cant": "any subset of the puts may fail and the others must all arrive, for stores of any contents", "anchors": ["pkg/migrator/migrator.go:RestoreToEtcd", "pkg/migrator/util.go:putKey"]}
{"id": "C178", "title": "A migration that lost keys says so", "statement": "If restoring a backup into etcd reports success then every key of the backup is in etcd.", "quantifier": "all stores, all contents of etcd, all subsets of failing puts", "why_tests_cant": "any subset of the puts may fail, in stores of any size; a test with a working etcd never sees one", "anchors": ["pkg/migrator/migrator.go:RestoreToEtcd"]}
{"id": "C179", "title": "Compaction runs keep coming and every run ends", "statement": "While a server is running and its compaction ticker ticks, runs of compaction begin again and again and each of them ends whatever statements fail; a run none of whose statements fails reports success whatever other servers and clients do meanwhile; and if there are such runs again and again, every revision more than 100 behind the current one is sooner or later refused as compacted, for good.", "quantifier": "all infinite executions of the compaction goroutine with arbitrary interference by clients, expiry and other servers, both drivers, all revisions", "why_tests_cant": "liveness: no finite test shows that something happens in every infinite schedule", "anchors": ["pkg/backend/internal/backend/backend.go:startWatch", "pkg/backend/internal/backend/backend.go:DoCompact", "pkg/backend/internal/backend/backend.go:compactStart", "pkg/backend/sqlite/driver.go:Compact"]}
{"id": "C180", "title": "The table does not grow with the history", "statement": "On a server that runs without failing statements again and again, there is again and again a moment - the end of a compaction run - at which the table has at most 200 rows more than there are live keys, plus two for each change made during that run.", "quantifier": "all infinite executions of the compaction goroutine with arbitrary interference, both drivers", "why_tests_cant": "liveness over all infinite schedules and all histories", "anchors": ["pkg/backend/internal/backend/backend.go:startWatch", "pkg/backend/internal/backend/backend.go:DoCompact", "pkg/backend/sqlite/driver.go:tryCompact"]}
{"id": "C181", "title": "Durations are the configured ones", "statement": "The compaction and poll intervals in effect are those of tuning.yaml or the documented defaults, the query timeout and the notification interval are those of the flags; if they are positive, the goroutines using them never end the process.", "quantifier": "all tuning files and flags, all executions of the process", "why_tests_cant": "all configurations and interleavings of the goroutines", "anchors": ["pkg/server/server.go:New", "pkg/server/types.go:TuningConfiguration", "cmd/root.go:rootCmd", "pkg/backend/internal/backend/backend.go:startWatch", "pkg/backend/internal/backend/watcher.go:poll", "pkg/limited/watch.go:ServeProgress"]}
{"id": "C182", "title": "A server that accepts its configuration serves until it is told to stop", "statement": "No accepted configuration makes the process end by itself.", "quantifier": "all tuning files and flags, all executions of the process", "why_tests_cant": "the process may end on its own at any time under any configuration; a test watches one configuration for a while", "anchors": ["pkg/server/server.go:New", "pkg/backend/internal/backend/backend.go:startWatch", "pkg/backend/internal/backend/watcher.go:poll", "pkg/limited/watch.go:ServeProgress", "cmd/root.go:rootCmd"]}
{"id": "C183", "title": "The query timeout is at least five seconds", "statement": "A value of --watch-query-timeout below the documented minimum of five seconds is refused or raised, so that watches work with every accepted value.", "quantifier": "all values of the flag, all histories of writes and polls", "why_tests_cant": "the flag takes any duration, and whether a watch works with it depends on unbounded histories of writes and polls", "anchors": ["cmd/root.go:rootCmd", "pkg/backend/internal/backend/watcher.go:getLatestEvents", "pkg/backend/internal/backend/watcher.go:poll"]}
{"id": "C184", "title": "A write is published without waiting for the poll interval", "statement": "When a create, update or delete of a server succeeds and its notification finds room in the channel to the poller, then, queries not failing from then on, the poller publishes the change to every acknowledged watch of every open stream even if its ticker never fires.", "quantifier": "all infinite executions of a server: any interleaving of requests, other servers, watches and the poll loop", "why_tests_cant": "liveness over all infinite schedules and channel contents", "anchors": ["pkg/backend/internal/backend/watcher.go:notifyWatcherPoll", "pkg/backend/internal/backend/watcher.go:poll", "pkg/backend/internal/backend/backend.go:Create", "pkg/backend/internal/backend/backend.go:Update", "pkg/backend/internal/backend/backend.go:Delete"]}
{"id": "C185", "title": "Every successful write wakes the poller", "statement": "The notification of a successful write always leads to the publication of its change without a tick of the poll ticker.  (False: it is dropped if 100 notifications, possibly of changes long published, are in the channel; and it is used up by a query that fails.)", "quantifier": "all infinite executions of a server", "why_tests_cant": "needs a particular order of 100 writes, a tick and the select's choice", "anchors": ["pkg/backend/internal/backend/watcher.go:notifyWatcherPoll", "pkg/backend/internal/backend/watcher.go:poll"]}
{"id": "C186", "title": "The poll ticker alone suffices", "statement": "Whatever notifications are lost, and although queries fail now and then (not by a deadline or cancellation), as long as the ticker fires and the poller gets its turns every committed change of any server is published to all acknowledged watches.", "quantifier": "all infinite executions of a server, all changes", "why_tests_cant": "liveness over all infinite schedules and fault patterns", "anchors": ["pkg/backend/internal/backend/watcher.go:poll", "pkg/backend/internal/backend/watcher.go:getLatestEvents", "pkg/backend/internal/backend/watcher.go:publishEvents"]}
{"id": "C187", "title": "The poller does not flood the database", "statement": "As long as its queries succeed, the number of queries the poller has sent is at most the number of ticks and notifications so far plus one for every 100 revisions published.", "quantifier": "all finite executions of a server of any length", "why_tests_cant": "a bound that has to hold after every finite number of ticks, notifications and queries, in any order", "anchors": ["pkg/backend/internal/backend/watcher.go:poll"]}
{"id": "C188", "title": "The poller does not flood the database when queries fail", "statement": "The same bound when queries fail.  (False: after a batch of 100 or more events the loop does not wait, a failing query leaves it so, and it asks again at once, without limit.)", "quantifier": "all finite executions of a server", "why_tests_cant": "needs a failing query exactly after a batch of 100 events", "anchors": ["pkg/backend/internal/backend/watcher.go:poll"]}
{"id": "C189", "title": "A stream is dropped for slowness only at 100 waiting updates", "statement": "The server closes the channel of a watch stream only when the client's context ends or when 100 updates already wait for the stream's consumer at a publication; with fewer waiting the stream stays open and gets the update; never do more than 100 wait.", "quantifier": "all interleavings of publishing, consumption, registration and cancellation, any number of streams", "why_tests_cant": "the boundary is exact: 99 or 100 waiting updates at the moment of a publication that races with the receiver", "anchors": ["pkg/backend/internal/backend/watcher.go:publish", "pkg/backend/internal/backend/watcher.go:publishEvents", "pkg/backend/internal/backend/watcher.go:WatcherGroup"]}
{"id": "C190", "title": "A busy database is not noticed", "statement": "If no statement is refused as busy 500 times in a row (and a busy refusal has no effect), a transaction or range request has the same answer and the same effect on the database as if the database had never been busy, whatever other processes do between the attempts and whatever other errors happen.", "quantifier": "all requests, all databases, all schedules of other processes' actions and faults with fewer than 500 consecutive busy refusals", "why_tests_cant": "every position and length of the refusals, every interleaving of other writers", "anchors": ["pkg/backend/sqlite/driver.go:query", "pkg/backend/sqlite/driver.go:execute", "pkg/backend/sqlite/driver.go:maxRetries", "pkg/limited/limited.go:Txn", "pkg/limited/server.go:Range"]}
{"id": "C191", "title": "Status tells the version and the bytes in use", "statement": "A Status request answers version 3.5.13 and the bytes in use (pages that are not free, times the page size) of the database file at a moment between request and answer; the figure is never negative, never above the size of the file and fits in an int64; busy refusals are absorbed up to 499 in a row.", "quantifier": "all legal page counts, all schedules of attempts, errors and changes of the file in between", "why_tests_cant": "every file, every moment of change, every pattern of refusals", "anchors": ["pkg/limited/maintenance.go:Status", "pkg/limited/dbsize.go:dbSize", "pkg/backend/internal/backend/backend.go:DbSize", "pkg/backend/sqlite/driver.go:GetSize,getSizeSQL,query"]}
{"id": "C192", "title": "Only transactions change the store", "statement": "No request other than a transaction (range reads, counts, leases, compaction, status, all refused methods) changes the database: after it there are exactly the changes other processes made meanwhile.  Every method of the KV, Lease and Maintenance services other than Range, Txn, Compact, LeaseGrant and Status is refused without a statement.", "quantifier": "all requests, all databases, all schedules of other processes and faults", "why_tests_cant": "every request of the API, in every state and interleaving, must be shown to leave the store as it is", "anchors": ["pkg/limited/server.go:Range,Put,DeleteRange,Compact", "pkg/limited/lease.go:LeaseGrant,LeaseRevoke,LeaseKeepAlive,LeaseTimeToLive,LeaseLeases", "pkg/limited/maintenance.go:Alarm,Defragment,Hash,HashKV,Snapshot,MoveLeader,Downgrade"]}
{"id": "C193", "title": "A compaction request compacts", "statement": "After an answered Compact request for a revision, reads below that revision are refused; a revision that does not exist yet is refused.", "quantifier": "all databases and revisions", "why_tests_cant": "it relates one request to every read that is answered afterwards, for ever, with writers and other compactions in between", "anchors": ["pkg/limited/server.go:Compact", "pkg/limited/compact.go:isCompact,compact"]}
{"id": "C194", "title": "Stopping a backend returns", "statement": "When a backend is stopped, the call returns, whatever polling, compaction and lease expiry are doing and whatever requests go on, provided the goroutines are scheduled and statements with a cancelled context fail.", "quantifier": "all states of the goroutines at the time of the call, all fair infinite schedules", "why_tests_cant": "a hang depends on where each goroutine is when the context is cancelled", "anchors": ["pkg/backend/internal/backend/backend.go:Stop,startWatch", "pkg/backend/internal/backend/ttl.go:ttl", "pkg/backend/internal/backend/watcher.go:poll,WatcherGroup"]}
{"id": "C195", "title": "A stopped backend's goroutines are silent", "statement": "After a stop has returned, polling, compaction and expiry handling of that backend issue no more statements; only lease deletions already on their way can still change the database, each once.", "quantifier": "all executions before and after the stop", "why_tests_cant": "an extra statement after the stop needs a particular interleaving", "anchors": ["pkg/backend/internal/backend/backend.go:Stop", "pkg/backend/internal/backend/ttl.go:ttl"]}
{"id": "C196", "title": "A stopped backend changes nothing", "statement": "After a stop has returned, the backend makes no more changes to the database.", "quantifier": "all executions before and after the stop", "why_tests_cant": "the change is made by a goroutine nobody waits for", "anchors": ["pkg/backend/internal/backend/backend.go:Stop", "pkg/backend/internal/backend/ttl.go:ttl"]}
{"id": "C197", "title": "Operation counters are exact", "statement": "The exported counters of database operations count every finished operation exactly once, under success if and only if it succeeded, however often its statement was retried (reading the compaction interval: C198).", "quantifier": "all sequences of operations, retries and faults", "why_tests_cant": "a miscount needs a particular sequence of failures and retries, of any length", "anchors": ["pkg/backend/sqlite/driver.go:query,execute", "pkg/backend/sqlite/metrics.go:recordTxResult,recordOpResult"]}
{"id": "C198", "title": "Every operation is counted once", "statement": "The exported counters count each finished database operation once.", "quantifier": "all sequences of operations", "why_tests_cant": "a test of the counters would need every operation under every outcome", "anchors": ["pkg/backend/sqlite/driver.go:query,GetCompactRevision", "pkg/backend/sqlite/metrics.go:recordOpResult"]}
{"id": "C199", "title": "Transactions are counted individually", "statement": "The exported counter of individual database transactions counts every transaction that was attempted.", "quantifier": "all fault sequences", "why_tests_cant": "whether an attempt is counted once or twice only shows when attempts are repeated, which needs contention at the right statement", "anchors": ["pkg/backend/sqlite/driver.go:query,execute", "pkg/backend/sqlite/metrics.go:recordTxResult"]}
{"id": "C200", "title": "Latency buckets are right", "statement": "Each bucket of the exported latency histogram counts the operations that took at most its upper bound.", "quantifier": "all sequences of operations and durations", "why_tests_cant": "the duration of a call in a test is not under its control, so the boundaries of the buckets are never hit", "anchors": ["pkg/backend/sqlite/metrics.go:recordOpResult,metricsOpLatency"]}
{"id": "C201", "title": "In a cluster, nothing but clients, start-up and expired leases changes the store", "statement": "In any execution of any number of servers with requests, batched writes, compaction, watches, crashes and lease expiry, every committed change was asked for by a client whose condition held at that moment, or creates one of the two keys servers need and which was absent, or deletes a key whose current version carries a lease - for leases up to 9223372035 s not before the lease has passed since that version was committed. The content of the store is exactly these changes in order.", "quantifier": "every interleaving of any number of servers, clients, expiry goroutines and timers, every fault, crash and delay", "why_tests_cant": "The claim is about every interleaving of timers of several servers with writers, crashes and batches.", "anchors": ["pkg/backend/internal/backend/ttl.go:ttl,ttl", "pkg/backend/internal/backend/backend.go:Start,Delete", "pkg/database/batched.go:ExecContext"]}
{"id": "C202", "title": "A key without an expired lease disappears only on request", "statement": "In the same executions, when a key is deleted whose current version has no lease, or a lease (up to 9223372035 s) that has not run out since that version was committed, a client had asked for that deletion, and if it insisted on a version, on this one.", "quantifier": "every execution of a cluster, every key and every deletion", "why_tests_cant": "A stale timer of any server, or one that survives an overwrite, could delete the key at any later time.", "anchors": ["pkg/backend/internal/backend/ttl.go:ttl,ttl", "pkg/backend/sqlite/driver.go:Delete"]}
{"id": "C203", "title": "Each server of a cluster expires leases as a server on its own does", "statement": "Whatever other servers, clients and streams do, the state of a server together with its expiry goroutine is always one that the guarantees for a single server (C36, C86, C130, C154, C155) speak about, and no step of the goroutine is ever blocked by the rest.", "quantifier": "every reachable state of a cluster, every server, every step of its goroutine", "why_tests_cant": "Watch groups, poller and database are shared with streams and other servers in every possible way.", "anchors": ["pkg/backend/internal/backend/ttl.go:ttl,ttl", "pkg/backend/internal/backend/watcher.go:WatcherGroup,Watch,publish"]}
{"id": "C204", "title": "Leases written anywhere get timers on every server that heard of them", "statement": "In a cluster whose pollers and start-up scans are not too late: once a server whose expiry goroutine is up has received an update covering a version with a lease of up to 9223372035 s - written at whatever server - it has a timer for exactly that version, due at most the lease plus one second later, if the key was there at start or lies in [\"\\0\",\"\\255\"); and a timer that is due can always ask for the deletion.", "quantifier": "every reachable cluster state, every server, key and lease up to 9223372035 s", "why_tests_cant": "Depends on every interleaving of writes elsewhere with polling, publication and start-up.", "anchors": ["pkg/backend/internal/backend/ttl.go:ttl,ttl", "pkg/backend/internal/backend/watcher.go:poll,publishEvents,Watch"]}
{"id": "C205", "title": "One slow watch stream cannot hold up the others", "statement": "Publishing an update to the streams of a server ends, and other streams can be opened and closed again, before the publisher has had two turns per stream and one more, whatever the streams do meanwhile - in particular if no client ever receives anything.", "quantifier": "every number of streams, every state of their channels, every interleaving of receiving, cancelling and publishing", "why_tests_cant": "A test sees a few streams and one schedule; the claim is the absence of any blocking schedule.", "anchors": ["pkg/backend/internal/backend/watcher.go:publishEvents,publish,WatcherGroup"]}
{"id": "C206", "title": "What publishing does to each stream", "statement": "A publication gives every registered stream that has fewer than 100 updates waiting exactly one more, closes and removes every stream whose channel is full - unless its client has gone, when that closes it - and leaves all others alone.", "quantifier": "every set of streams in every reachable state", "why_tests_cant": "All combinations of full, cancelled, closed and fresh streams.", "anchors": ["pkg/backend/internal/backend/watcher.go:publishEvents,publish,WatcherGroup"]}
{"id": "C207", "title": "A successful expiry deletion is final", "statement": "When the deletion of an expired version, issued by a lease timer on any server, returns without an error, that version is not the current version of its key at that moment nor at any later moment - whether it deleted the key itself or found it overwritten or deleted - so repeating only the failed attempts is enough.", "quantifier": "all cluster executions: any number of servers, clients, timers, batching, retries, compactions, crashes and interleavings, and all expiry requests answered without error in them", "why_tests_cant": "a test sees one interleaving of the expiry with updates, retried transactions and crashes; the claim is about every one, and about the whole future of the key", "anchors": ["pkg/backend/internal/backend/ttl.go:run,deleteLease", "pkg/backend/internal/backend/backend.go:Delete", "pkg/backend/sqlite/driver.go:Delete"]}
{"id": "C208", "title": "Available as soon as the database answers", "statement": "Whatever failures, cancellations and crashes happened before: once no database call fails any more, nobody cancels a write that waits for its batch and no server is being closed, every request that arrives at a server that stays up is answered, and not with a failure: conditional writes are told whether their condition held, reads get data unless the revision they need has been compacted, lease deletions, starts and (on a database with content) compactions are carried out - however many other requests interleave and whichever other servers crash.", "quantifier": "all infinite fair executions of any number of servers with batched writes, all prefixes with arbitrary faults before the calm period, all requests asked in it", "why_tests_cant": "availability is about every interleaving of the calm period and about every state that earlier failures may have left behind (half-processed batches, waiting callers); tests only try a few", "anchors": ["pkg/backend/sqlite/driver.go:query,execute", "pkg/database/batched.go:ExecContext,run,execQueue", "pkg/limited/limited.go:Txn,Range", "pkg/backend/internal/backend/backend.go:List,Count,DoCompact,Start"]}
{"id": "C209", "title": "Leases end in a cluster", "statement": "A version with a lease that a running server has a timer for (or has heard of, C204) does not stay for ever: once the database answers, and as long as that server keeps running and its goroutines get their turns, from some moment on that version is not the current one of its key any more - whatever other requests there are, whatever other servers do, and however often attempts to delete it failed before.", "quantifier": "all infinite schedules of the whole cluster in which calls stop failing at some moment and the goroutines of one server with a timer are scheduled fairly; all keys, leases, histories", "why_tests_cant": "A liveness claim: a test observes finite runs under one scheduler and a handful of fault patterns, never that no schedule with other writers, retries and crashes of other servers keeps the version alive.", "anchors": ["pkg/backend/internal/backend/ttl.go:ttl,run,deleteLease", "pkg/backend/internal/backend/backend.go:Delete", "pkg/backend/sqlite/driver.go:Delete,execute"]}
{"id": "C210", "title": "Leases end, from the write on", "statement": "In a cluster, once one server's expiry goroutine is past its start-up and as long as that server keeps running, its poller, its expiry goroutine, its timers and its batching goroutine get their turns and - from some point on - the database answers, every version written with a lease by any server ends: at last it is not the current version of its key and never is again. The only exception is that the server dropped the goroutine's watch because it fell too far behind.", "quantifier": "every infinite schedule of the whole cluster (all servers, clients, polling, compaction, crashes of other servers, faults before the calm period, jitter, clock), every key, value and lease up to 9223372035 s, every moment of the write", "why_tests_cant": "The path from a write on one server through polling, the watch channel, the goroutine, the timer, the retries and the batching layer of another takes unboundedly many steps and depends on scheduling; a test can only wait for one timing.", "anchors": ["pkg/backend/internal/backend/ttl.go:run,deleteLease", "pkg/backend/internal/backend/watcher.go:poll,publishEvents,Watch", "pkg/backend/internal/backend/backend.go:Start,Delete"]}
{"id": "C211", "title": "Watches deliver in the whole cluster", "statement": "In the whole cluster - every server with its poller, its watch streams, its expiry goroutine and its batching goroutine - a watch that has been confirmed is told of every change of its range that is ever committed after it, by whichever client or expired lease on whichever server, as a truthful event of that revision, as long as its server runs, its poller and its sending goroutine get their turns and the watch is not cancelled; or its stream is closed because its consumer is too slow.", "quantifier": "every infinite schedule of the whole cluster (all servers, clients, leases, polling, compaction, crashes of other servers, tolerated faults), every watch, range, start revision and change", "why_tests_cant": "The change may be made by any server, at any time, through any interleaving with polling, leases and batching; a test waits for a few events of one schedule.", "anchors": ["pkg/backend/internal/backend/watcher.go:notifyWatcherPoll,poll,publishEvents,Watch", "pkg/limited/watch.go:ServeUpdates,Create", "pkg/backend/internal/backend/ttl.go:ttl"]}
{"id": "C212", "title": "Watchers see leases end", "statement": "If a version of a key is written with a lease, a client that watches the key is told of the end of that very version: it receives a truthful event of the key whose previous value is that version - a deletion by the expiry goroutine, or whatever replaced it before - provided one server with a started expiry goroutine and the server of the watch keep running, goroutines get their turns and from some point on the database answers. The only exceptions are that the stream is closed, or the expiry goroutine's own watch dropped, for being too slow.", "quantifier": "every infinite schedule of the whole cluster as in C210 and C211, every key, value and lease up to 9223372035 s, every watch covering the key, on the same or another server", "why_tests_cant": "From the write with a lease on one server to the event on the connection of another server there are two pollers, two channels, a timer with jitter and retries and a batching layer; no test covers the whole path for every schedule.", "anchors": ["pkg/backend/internal/backend/ttl.go:ttl", "pkg/backend/internal/backend/watcher.go:poll,publishEvents", "pkg/limited/watch.go:ServeUpdates"]}
{"id": "C213", "title": "Availability in the whole cluster", "statement": "In the whole cluster, whatever happened before, once the database answers (no database call of a request and no batch fails, nobody cancels a waiting write or closes a server), every request a client makes of a running server is answered, and with the answer its kind allows, not with a failure; pollers, streams, expiry goroutines with their own deletions, compactions, the clock and crashes of other servers do not matter.", "quantifier": "every infinite schedule of the whole cluster that is calm from some point on, every request of every client, every server", "why_tests_cant": "Deletions for leases, polling and compactions compete with the request for the database and the batching goroutine in ways that depend on the schedule.", "anchors": ["pkg/limited/server.go:Range,Txn,Compact", "pkg/database/batched.go:run,execQueue,ExecContext", "pkg/backend/internal/backend/ttl.go:ttl"]}
{"id": "C214", "title": "A dropped stream is drained and then silent", "statement": "When a watch stream's channel is full at the next publication the stream is dropped: from then on nothing is put into its channel, whatever clients, pollers and goroutines do; the goroutine that sends can still take every update that was in it, in as many steps, and then ends.", "quantifier": "every history of the handler up to the overflow and every one after it", "why_tests_cant": "The overflow needs 100 unread updates and a particular order of publication, cancellation and sending; what follows it must hold for all orders.", "anchors": ["pkg/backend/internal/backend/watcher.go:publishEvents,publish,WatcherGroup", "pkg/limited/watch.go:ServeUpdates,Watch"]}
{"id": "C215", "title": "A watch that is asked for starts, and works from then on", "statement": "A client sends a watch request on a stream. If the server does not crash, its goroutines get their turns and its poller survives, the request is answered; the answer is a refusal (compacted, unhealthy) or the confirmation of the watch, and then every change of the range not before the requested revision, or committed after the answer, is sent to the client sooner or later, unless the server closes the stream or the client cancels.", "quantifier": "every configuration, tolerated fault pattern and infinite fair schedule of any number of servers, requests, streams and expiry goroutines; every stream, number of the request, range and start revision", "why_tests_cant": "It is a liveness claim about infinite schedules, in which the creation of the watch races the poller and the writers: a test sees a finite prefix of one schedule.", "anchors": ["pkg/backend/internal/backend/watcher.go:Watch,initialEvents,publish,publishEvents,poll", "pkg/limited/watch.go:ServeRequests,Create,ServeUpdates,sendUpdates"]}
{"id": "C216", "title": "List-and-watch clients catch up", "statement": "A client lists a key range on any server of a cluster, asks any server for a watch from the revision after that of the list, and applies the events newer than the list. At every moment its copy is exactly the content of the range at one revision, not before that of the list or of any event received. If the server of the watch does not crash and its goroutines get their turns, then, unless the watch is refused or the server closes the stream, the client passes every revision that is ever reached and never falls behind it again; when the range is not changed any more, its copy is the current content and stays so.", "quantifier": "every configuration and infinite fair schedule of any number of servers, clients, requests, streams, compactions, crashes of other servers and expiry goroutines; every range, list answer and stream", "why_tests_cant": "Convergence is a statement about what comes sooner or later and then stays for ever, on schedules no test can finish; and the list, the watch and the writers race.", "anchors": ["pkg/backend/internal/backend/watcher.go:Watch,initialEvents,publish,publishEvents,poll", "pkg/limited/watch.go:ServeRequests,Create,ServeUpdates,sendUpdates", "pkg/limited/list.go:list"]}
{"id": "C217", "title": "The instrumented listener hands over every accepted connection once", "statement": "What the application receives from AcceptedConns of an instrumented listener is, in every run, a subsequence of the connections that clients made: in their order, none twice. As long as nobody calls Close and the context is not cancelled, nothing is dropped: received, in the goroutine's hands (at most one) and waiting in the kernel are together all that were made; and if Accept has not failed, enough turns of the goroutine and of a receiving application deliver all of them.", "quantifier": "every run: any number of listens, connections, accepts that fail or not, receives, cancellations and closes in any order", "why_tests_cant": "The accept goroutine, the clients, the application and Close run in parallel; a test sees a few connections in one schedule.", "anchors": ["pkg/instrument/dqlite.go:Listen,Connect,Close"]}
{"id": "C218", "title": "The byte counters of the instrumented listener are exact", "statement": "Each of the two counters that Metrics reports is exactly the number of bytes written (or read) over all connections of the listener since that counter was last reset.", "quantifier": "every interleaving of writes, reads, loads and stores of any number of connections", "why_tests_cant": "Connections count in parallel with Metrics and ResetMetrics; a lost update shows in few schedules.", "anchors": ["pkg/instrument/dqlite.go:Write,Read,Metrics,ResetMetrics"]}
{"id": "C219", "title": "Samples taken by Metrics and ResetMetrics add up", "statement": "The numbers reported by calls of Metrics, each followed by ResetMetrics, add up to all the bytes transferred.", "quantifier": "every interleaving of the two calls with the traffic", "why_tests_cant": "Only traffic in the moment between the two calls tells the difference.", "anchors": ["pkg/instrument/dqlite.go:Metrics,ResetMetrics"]}
{"id": "C220", "title": "Using the instrumented listener never crashes the process", "statement": "Whatever the order of Listen, Connect, Close and cancellation, the process does not panic.", "quantifier": "every run of the listener", "why_tests_cant": "A panic (send on, or close of, a closed channel) happens only after particular orders of calls of several goroutines.", "anchors": ["pkg/instrument/dqlite.go:Listen,Close"]}
{"id": "C221", "title": "Close of the instrumented listener returns", "statement": "A call of Close of an open listener returns, and leaves the listener closed, once the accept goroutine gets its turns and the application receives the connection the goroutine has in its hands, whatever else happens in between. If the application does not receive it, Close never returns.", "quantifier": "every run before the call and every continuation in which Close is not called again at the same time and Listen not after it", "why_tests_cant": "Whether Close hangs depends on where the accept goroutine is, which a test does not control.", "anchors": ["pkg/instrument/dqlite.go:Listen,Close"]}
{"id": "C222", "title": "An orderly Close of the instrumented listener leaves no error", "statement": "If neither Accept nor the closing of the socket fails by itself, Err reports nothing after Close; if one of them does, before the context is cancelled, Err reports it.", "quantifier": "every run of the listener", "why_tests_cant": "Accept returns an error because of Close itself; whether it is recorded depends on whether the context was cancelled before the goroutine looked.", "anchors": ["pkg/instrument/dqlite.go:Listen,Close,Err"]}
{"id": "C223", "title": "Requests are accepted only after a complete start-up", "statement": "While the endpoint accepts requests, every call of the start-up has succeeded (opening the database, starting the backend, listening), and the process has neither exited nor been killed.", "quantifier": "every run: any outcome of every call, any order of signals, disk checks, cancellation and failures of the metrics endpoint", "why_tests_cant": "Start-up, signals, the disk watcher and the endpoint run in parallel, and any call can fail at any point.", "anchors": ["pkg/server/server.go:Start", "cmd/root.go:rootCmd", "pkg/endpoint/endpoint.go:Listen"]}
{"id": "C224", "title": "Compaction works in a running cluster", "statement": "In the whole cluster, whatever happened before: once the database answers, every compaction run that begins, with a non-empty table, on a server that keeps running ends with success, whatever clients write meanwhile through any server and whatever other servers, their compaction runs, pollers, streams and expiry goroutines do (they may crash); from then on every read of a revision that was more than 100 behind when the run began is refused as compacted, and the table has at most 200 rows more than there are live keys and two for each change since the run began. So as long as one server's ticker ticks, every revision that is at some moment more than 100 behind is sooner or later refused for good.", "quantifier": "every infinite schedule of the cluster from some moment on without failing statements, every server, run and request", "why_tests_cant": "the run races with writers, other compactors, the batching goroutine and crashes of other servers over an unbounded time; tests compact an idle store", "anchors": ["pkg/backend/internal/backend/backend.go:startWatch,DoCompact", "pkg/backend/sqlite/driver.go:Compact,tryCompact,updateCompactSQL", "pkg/database/batched.go:run,execQueue"]}
{"id": "C225", "title": "A watch from a compacted revision is refused from then on", "statement": "Once a read at some revision would be refused as compacted, whichever server it is sent to, every watch that is asked for later from that revision or an earlier one, on an open stream of a server that keeps running, is refused too: its request is never answered with a confirmation, whatever queries fail and however other clients, servers, pollers and compaction runs interfere; and when the goroutine serving the stream gets its turns, the answer comes and says that the revision is compacted or that the server is unhealthy. So as long as the database answers and one server compacts, no server confirms any more, sooner or later, a watch from a revision that was more than 100 behind.", "quantifier": "all executions of the whole cluster from the moment of the refused read on, all streams and positions of the create request, all key ranges and positive start revisions up to that of the read, all failures of the registration's queries; for the second half, all fair schedules of the stream", "why_tests_cant": "the refusal is decided by a query between two critical sections of the registration, on a server whose poller may be arbitrarily far behind and while other servers compact: a test registers one watch on one server after one compaction and cannot see the interleavings in which the check and the answer are separated by others' work", "anchors": ["pkg/backend/internal/backend/watcher.go:Watch,initialEvents", "pkg/limited/watch.go:Create,ServeRequests", "pkg/backend/sqlite/driver.go:GetCompactRevision"]}
{"id": "C226", "title": "A watch refused as compacted is compacted", "statement": "If a create request is answered with the compacted error, it asked for a start revision and that revision is more than 100 behind the current one; every read of that revision or of an earlier one is refused as compacted too; and the revision told with the refusal is not beyond the current one. So a watch from one of the last 100 revisions, or from now on, is never refused as compacted, whoever compacts and however far behind the server is that is asked.", "quantifier": "all reachable states of the whole cluster, all streams, positions of the create request, key ranges and start revisions, all failures of queries", "why_tests_cant": "the compaction floor moves under the registration, driven by other servers; a refusal that comes one revision too early, or after a failed query, needs a particular interleaving of registration, compaction and fault", "anchors": ["pkg/backend/internal/backend/watcher.go:Watch,initialEvents", "pkg/limited/watch.go:Create", "pkg/backend/internal/backend/backend.go:DoCompact", "pkg/backend/sqlite/driver.go:GetCompactRevision"]}
{"id": "C227", "title": "On a healthy database a watch from a recent revision is confirmed, and a list-and-watch client catches up", "statement": "If the server of a watch stream does not crash, its goroutines get their turns, its poller survives and the two database reads that answering a create request takes do not fail, then a request for a watch from now on, or from a revision that is not more than 100 changes behind when the request is answered, is always confirmed - it is refused neither as compacted nor as unhealthy, whatever faults everything else in the cluster meets - and every change of the range from the start on is delivered unless the server closes the stream. So a client that has listed a range and asks for a watch from the next revision is confirmed and catches up with every revision that is ever reached; and once the range is not changed any more, its copy is the content of the range and remains so.", "quantifier": "all infinite schedules of any number of servers (reads, writes, polls, compactions, expirations, crashes of other servers, streams) in which the server of the stream does not crash and its goroutines get turns infinitely often, all ranges, starts and positions of the request on its connection", "why_tests_cant": "a confirmation and a delivery are liveness promises over infinite schedules of pollers, writers and compactors; a test sees a finite run in which the request happened to be confirmed, and cannot show that no interleaving refuses it", "anchors": ["pkg/backend/internal/backend/watcher.go:Watch,initialEvents,poll", "pkg/limited/watch.go:Create,ServeUpdates", "pkg/backend/internal/backend/backend.go:startWatch,DoCompact"]}
{"id": "C228", "title": "List-and-watch clients agree at last, with each other and with every reader", "statement": "Two clients have each listed a range, on any servers and at any times while at most 100 changes were made, asked for watches from the revisions after those of their lists, and are served (the servers of their streams do not crash, their goroutines get turns, their pollers survive, the reads that answering the requests takes do not fail, the answers come at most 100 changes late). If the two ranges are not changed any more from some time on, then at last, and for ever after, their copies agree on every key that is in both ranges: whether it exists, its value and its revisions. And every list, of any range and on any server, that is asked for late enough and during which at most 100 changes are made shows of each key of both ranges what the client holds. Both unless a server closes one of the streams.", "quantifier": "all infinite schedules of any number of servers and clients, all pairs of streams, ranges and request positions, all lists asked after the time of agreement", "why_tests_cant": "agreement of independent caches is a statement about two infinite executions at once; a test compares two copies after a pause and cannot tell whether they would have diverged under another schedule", "anchors": ["pkg/backend/internal/backend/watcher.go:Watch,poll,publishEvents", "pkg/limited/watch.go:Create,sendUpdates", "pkg/backend/internal/backend/backend.go:List"]}
