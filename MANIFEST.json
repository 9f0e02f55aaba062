{
 "claims": [
  {
   "property": "C01",
   "status": "proved",
   "theorems": [
    "C01_linear_history",
    "C01_atomic_operations"
   ],
   "note": "Forward simulation (Sim.v) between the table and the specification, for every statement of System.v; the processes of Pool.v are shown to issue only statements the simulation covers (Safety.v). Traces by induction."
  },
  {
   "property": "C02",
   "status": "proved",
   "theorems": [
    "C02_create",
    "C02_liveness"
   ],
   "note": "Undisturbed run of the create program from any reachable state, computed against `kv_at` by the simulation."
  },
  {
   "property": "C03",
   "status": "proved",
   "theorems": [
    "C03_update"
   ],
   "note": "As C02, for update."
  },
  {
   "property": "C04",
   "status": "proved",
   "theorems": [
    "C04_delete"
   ],
   "note": "As C02, for delete."
  },
  {
   "property": "C05",
   "status": "proved",
   "theorems": [
    "C05_revisions",
    "C05_monotone"
   ],
   "note": "Revision = length of the history; monotone along every trace, including compaction, from the simulation."
  },
  {
   "property": "C06",
   "status": "proved",
   "theorems": [
    "C06_range",
    "C06_range_concurrent",
    "C06_snapshot_unique"
   ],
   "note": "The list program is executed symbolically under interference (ReadProgs.v); the SQL query equals the sorted live keys; `C06_snapshot_unique` shows that sortedness and membership determine the answer."
  },
  {
   "property": "C07",
   "status": "proved",
   "theorems": [
    "C07_get",
    "C07_get_concurrent",
    "C07_successor"
   ],
   "note": "As C06, for one key; range end = key ++ [0] shown to contain exactly the key."
  },
  {
   "property": "C08",
   "status": "proved",
   "theorems": [
    "C08_count"
   ],
   "note": "Count query = length of the list query, all tables."
  },
  {
   "property": "C09",
   "status": "proved",
   "theorems": [
    "C09_schemas",
    "C09_requests"
   ],
   "note": "On every table with unique ids; hence on all requests in reachable states."
  },
  {
   "property": "C10",
   "status": "proved",
   "theorems": [
    "C10_pages"
   ],
   "note": "Induction on the pages, with arbitrary steps of others between them."
  },
  {
   "property": "C11",
   "status": "proved",
   "theorems": [
    "C11_limit"
   ],
   "note": "From C06 and C08: length of the answer, More and Count as functions of the snapshot and the limit."
  },
  {
   "property": "C12",
   "status": "proved",
   "theorems": [
    "C12_invisible",
    "C12_past_is_stable"
   ],
   "note": "`kv_at` at and above the floor is preserved by the compaction step of the simulation; lifted to traces."
  },
  {
   "property": "C13",
   "status": "proved",
   "theorems": [
    "C13_refusal",
    "C13_forever",
    "C13_justified"
   ],
   "note": "Floor monotone along traces; symbolic execution of the read programs; justification from the floor being at most the revision compacted."
  },
  {
   "property": "C14",
   "status": "proved",
   "theorems": [
    "C14_run",
    "C14_floor",
    "C14_margin",
    "C14_margin_rows"
   ],
   "note": "Floor and margin, also under arbitrary concurrency. The size of the batches is C78."
  },
  {
   "property": "C15",
   "status": "proved",
   "theorems": [
    "C15_reclaimed"
   ],
   "note": "The rows left by the deletion statement are characterised exactly."
  },
  {
   "property": "C16",
   "status": "proved",
   "theorems": [
    "C16_safe",
    "C16_linear"
   ],
   "note": "Invariant over the pool: each step preserves the simulation; crash = dropping a process at any statement."
  },
  {
   "property": "C17",
   "status": "proved",
   "theorems": [
    "C17_conflict"
   ],
   "note": "For all schedules, faults and retries. That nothing was changed is C79."
  },
  {
   "property": "C18",
   "status": "partial",
   "theorems": [
    "C18_header_refuted",
    "C127_header"
   ],
   "note": "The true part (unlimited lists) is C127; refuted for limited lists: list.go:73-80 overwrites the header with the one of a second query."
  },
  {
   "property": "C19",
   "status": "partial",
   "theorems": [
    "C19_race_refuted",
    "C147_race"
   ],
   "note": "Complete whenever the revision is still readable when the answer is given (C147); refuted in general: floor check and row query are separate statements (backend.go:239-258)."
  },
  {
   "property": "C20",
   "status": "partial",
   "theorems": [
    "C20_etcd_refuted",
    "C128_etcd"
   ],
   "note": "The true part (coherent transactions) is C128; refuted for accepted transactions whose compare key, put key, put flags or absent-key revision the recognisers ignore."
  },
  {
   "property": "C21",
   "status": "proved",
   "theorems": [
    "C21_txn",
    "C21_range",
    "C21_bare",
    "C21_supported"
   ],
   "note": "The program of an unsupported request is shown to issue no statement and to answer with an error; supported ones are characterised."
  },
  {
   "property": "C22",
   "status": "partial",
   "theorems": [
    "C22_lowered_refuted",
    "C22_raised_refuted",
    "C110_protected"
   ],
   "note": "The true part is C110; refuted for client transactions on compact_rev_key itself, which the server accepts."
  },
  {
   "property": "C23",
   "status": "partial",
   "theorems": [
    "C23_repair_refuted",
    "C170_repair"
   ],
   "note": "Proved when a row with the highest floor has created=0 (C170); refuted when all duplicates have created=1: backend.go:160-167 then deletes all of them and the floor is lost."
  },
  {
   "property": "C24",
   "status": "partial",
   "theorems": [
    "C24_refuted",
    "C129_no_gap",
    "C129_eventually"
   ],
   "note": "The true part is C129, order and uniqueness C82; refuted in general: when compaction overtakes the poller or a registration, events are lost silently."
  },
  {
   "property": "C25",
   "status": "partial",
   "theorems": [
    "C25_refuted",
    "C25_now_refuted",
    "C148_not_older"
   ],
   "note": "Proved when the start is at most one above the group position or absent (relative to that position); refuted when the poller lags: a watch from revision 4 receives 1-3."
  },
  {
   "property": "C26",
   "status": "partial",
   "theorems": [
    "C26_at_floor_refuted",
    "C26_race_refuted",
    "C111_refused"
   ],
   "note": "Refusal below the floor proved; refuted for a start equal to the floor when that change is a deletion, and for a compaction between check and query."
  },
  {
   "property": "C27",
   "status": "proved",
   "theorems": [
    "C27_contents"
   ],
   "note": "Same invariants: every event row is reported with the contents `kv_at` gives."
  },
  {
   "property": "C28",
   "status": "partial",
   "theorems": [
    "C28_refuted",
    "C149_complete"
   ],
   "note": "Same proviso as C24; refuted when compaction overtakes the poller."
  },
  {
   "property": "C29",
   "status": "partial",
   "theorems": [
    "C29_refuted",
    "C29_backlog_refuted",
    "C151_progress"
   ],
   "note": "Proved for every moment at which no update is held between receive and send and at least one update published after the acknowledgement was sent (provisos of C24). Without either proviso the property is false of the code: ws.revision is assigned before the mutex is taken (watch.go:88), and a new watch shares the stream revision before its backlog is flushed; both refuted by reachable runs."
  },
  {
   "property": "C30",
   "status": "partial",
   "theorems": [
    "C30_refuted",
    "C152_idle"
   ],
   "note": "Proved for watches that never got an event. After the first event the code never sends periodic progress again (watch.go:146 assigns the loop variable instead of the map): proved for every later state, so the property is refuted."
  },
  {
   "property": "C31",
   "status": "partial",
   "theorems": [
    "C31_refuted",
    "C150_prefix"
   ],
   "note": "Prefix part proved under the provisos of C24. The termination part is false: a dropped group leaves the stream open and silent forever while new watches are still acknowledged (proved for all later states)."
  },
  {
   "property": "C32",
   "status": "partial",
   "theorems": [
    "C32_refuted",
    "C171_query_fails"
   ],
   "note": "Proved for a failing initial query; refuted for a watch refused as compacted, whose watcher stays registered and collects events."
  },
  {
   "property": "C33",
   "status": "proved",
   "theorems": [
    "C33_unique",
    "C33_isolation",
    "C33_stops"
   ],
   "note": "C33_isolation is noninterference: for every later run the other watches see the same messages with and without the cancel. Explicit ids are C83."
  },
  {
   "property": "C34",
   "status": "partial",
   "theorems": [
    "C34_refuted",
    "C153_survives"
   ],
   "note": "Proved for errors other than time-outs and cancellation; refuted for a time-out: polling ends for good."
  },
  {
   "property": "C35",
   "status": "partial",
   "theorems": [
    "C35_list_refuted",
    "C107_count"
   ],
   "note": "The true part, counts, is C107; refuted for lists: ScanAll (utils.go:11-24) ignores rows.Err()."
  },
  {
   "property": "C36",
   "status": "proved",
   "theorems": [
    "C36",
    "C36_works"
   ],
   "note": "Expiry deletes only the exact version, for every schedule, and does delete it if nothing changed it."
  },
  {
   "property": "C37",
   "status": "partial",
   "theorems": [
    "C37_refuted",
    "C37_fault_refuted",
    "C154_timer"
   ],
   "note": "Proved for every leased version seen by the start-up scan or written afterwards when no fault drops the group and the lease is at least one; refuted for keys the watch misses between scan and watch, and for a failing start-up query."
  },
  {
   "property": "C38",
   "status": "partial",
   "theorems": [
    "C38_refuted",
    "C38_negative_refuted",
    "C130_not_early"
   ],
   "note": "The true part is C130; refuted for leases above 2^63/10^9 seconds (the multiplication wraps, the key expires at once) and for negative ones."
  },
  {
   "property": "C39",
   "status": "proved",
   "theorems": [
    "C39_log",
    "C39_success",
    "C39_answer",
    "C39_atomic"
   ],
   "note": "For every schedule and fault over any database. What a failure says is C79."
  },
  {
   "property": "C40",
   "status": "partial",
   "theorems": [
    "C40_refuted",
    "C156_alone"
   ],
   "note": "Proved when the cancelled caller is alone in its batch or leaves the queue first (C156); refuted: a statement failing by its caller's cancellation fails the whole batch."
  },
  {
   "property": "C41",
   "status": "proved",
   "theorems": [
    "C41_quiet",
    "C41_refused",
    "C41_released",
    "C41_returns"
   ],
   "note": "Same; returning shown by a decreasing measure under every schedule."
  },
  {
   "property": "C42",
   "status": "proved",
   "theorems": [
    "C42_update",
    "C42_delete",
    "C42_create_twice"
   ],
   "note": "Update and delete: at most once, exactly once if success is reported. C42_create_twice records that creates are not covered."
  },
  {
   "property": "C43",
   "status": "proved",
   "theorems": [
    "C43_once",
    "C43_closed",
    "C43_refuses",
    "C43_refused_error",
    "C43_looked_up",
    "C43_answered"
   ],
   "note": "Over every interleaving of the two critical sections of prepare and of Close."
  },
  {
   "property": "C44",
   "status": "partial",
   "theorems": [
    "C44_refuted",
    "C131_encoding"
   ],
   "note": "The true part (non-negative minors) is C131; a negative minor, allowed by the int16 signature, overwrites the major: refuted for every major."
  },
  {
   "property": "C45",
   "status": "proved",
   "theorems": [
    "C45_schema",
    "C45_rows",
    "C45_new"
   ],
   "note": "For every interleaving, crash and starting schema. When set-up succeeds is C80."
  },
  {
   "property": "C46",
   "status": "partial",
   "theorems": [
    "C46_refuted",
    "C46_overflow_refuted",
    "C172_params",
    "C101_bounds"
   ],
   "note": "trailing >= 512 and threshold <= trailing proved for all uint64 pairs; the minimum threshold only for trailing >= 512 without overflow of 3*trailing; refuted otherwise (threshold 0 is handed to dqlite)."
  },
  {
   "property": "C47",
   "status": "partial",
   "theorems": [
    "C47_refuted",
    "C47_failure_refuted",
    "C157_initial",
    "C104_guard",
    "C104_no_address"
   ],
   "note": "Proved for crashes and failures that do not fall between the removal of init.yaml and the end of app.New; refuted for every configuration otherwise, also without a crash when a later configuration step fails."
  },
  {
   "property": "C48",
   "status": "partial",
   "theorems": [
    "C48_refuted",
    "C157_update",
    "C104_update",
    "C104_incomplete"
   ],
   "note": "Proved for every crash pattern that does not leave info.yaml truncated; refuted for a crash between truncation and write (os.WriteFile): the node loses its id."
  },
  {
   "property": "C49",
   "status": "partial",
   "theorems": [
    "C49_refuted",
    "C49_error_refuted",
    "C173_decides",
    "C100_acts",
    "C100_every",
    "C100_quiet",
    "C100_kind"
   ],
   "note": "Proved when free blocks * block size fits uint64 and statfs works; refuted for overflow and for a failing statfs, which is treated as low space."
  },
  {
   "property": "C50",
   "status": "partial",
   "theorems": [
    "C50_refuted",
    "C158_returns",
    "C158_cause",
    "C105_stopped"
   ],
   "note": "Completion (no deadlock) from every reachable state while the mutex is not lost, and nothing left running after the last stop. Refuted: Stop on a backend that is not started returns with the mutex held (backend.go:118-120), so every later call hangs."
  },
  {
   "property": "C51",
   "status": "partial",
   "theorems": [
    "C51_backup_lists",
    "C51_stale_refuted",
    "C51_outside_refuted",
    "C51_silent_refuted",
    "C51_crash_refuted",
    "C51_cut_refuted",
    "C159_roundtrip",
    "C159_torn"
   ],
   "note": "Round trip proved for keys under \"/\" into any store, undisturbed, provided no leftover file of a larger earlier backup follows. Refuted in full: stale files are restored, keys outside \"/\" and leases are lost, put errors are swallowed, and an interrupted backup over an older one pairs keys with wrong values."
  },
  {
   "property": "C52",
   "status": "partial",
   "theorems": [
    "C52_absent_refuted",
    "C160_present",
    "C102_written"
   ],
   "note": "That success means written is proved for every schedule and fault; success on present keys undisturbed. For absent keys put always fails with \"not found\" (proved for all states): refuted."
  },
  {
   "property": "C53",
   "status": "proved",
   "theorems": [
    "C53_split",
    "C53_scheme",
    "C53_default"
   ],
   "note": "For all strings. Values without scheme are C84."
  },
  {
   "property": "C54",
   "status": "proved",
   "theorems": [
    "C54_selected",
    "C54_bad_pattern"
   ],
   "note": "For all spans, options and export patterns. Flushing at shutdown is C81."
  },
  {
   "property": "C55",
   "status": "partial",
   "theorems": [
    "C55_unknown_refuted",
    "C161_follower"
   ],
   "note": "Proved when every leader query is answered; refuted when the leader is unknown: the node then compacts (dqlite/driver.go:58-60)."
  },
  {
   "property": "C56",
   "status": "proved",
   "theorems": [
    "C56_legacy_index"
   ],
   "note": "Uniqueness of (name, prev_revision) as invariant of the table."
  },
  {
   "property": "C57",
   "status": "partial",
   "theorems": [
    "C57_refuted",
    "C108_no_panic"
   ],
   "note": "Holds for reads and writes; a second Close, BeginTx, Conn or PrepareContext after Close panics on a nil interface."
  },
  {
   "property": "C58",
   "status": "partial",
   "theorems": [
    "C58_refuted",
    "C174_returned"
   ],
   "note": "Proved when the disk watcher has returned before Shutdown closes the channel; nothing enforces that, refuted by a check in progress."
  },
  {
   "property": "C59",
   "status": "partial",
   "theorems": [
    "C59_whole_range_refuted",
    "C103_prefix_range",
    "C103_list"
   ],
   "note": "Proved for every prefix that has a byte below 0xff; the empty prefix lists nothing."
  },
  {
   "property": "C60",
   "status": "partial",
   "theorems": [
    "C60_window_refuted",
    "C162_unix_socket",
    "C162_mode_on_success"
   ],
   "note": "Private at return and independent of what was left; between bind and chmod the socket has the umask mode, and any file at the path is deleted."
  },
  {
   "property": "C61",
   "status": "partial",
   "theorems": [
    "C61_misses_refuted",
    "C112_conserved"
   ],
   "note": "Proved for writes, hits and the two times over every interleaving; misses are overwritten by spills and lost, spills always read 0."
  },
  {
   "property": "C62",
   "status": "proved",
   "theorems": [
    "C62_success",
    "C62_failure"
   ],
   "note": "For every schedule, fault and crash. What a failure says about the store is C79."
  },
  {
   "property": "C63",
   "status": "partial",
   "theorems": [
    "C63_read_refuted",
    "C132_read"
   ],
   "note": "The true part (at most 100 changes meanwhile) is C132; refuted beyond: compaction between the two statements of a read."
  },
  {
   "property": "C64",
   "status": "proved",
   "theorems": [
    "C64_one_commit",
    "C64_one_success",
    "C64_recreated"
   ],
   "note": "From C62 and the uniqueness of mod revisions."
  },
  {
   "property": "C65",
   "status": "proved",
   "theorems": [
    "C65_monotonic",
    "C65_own_writes"
   ],
   "note": "From the ledger invariants for reads (LedgerReads.v)."
  },
  {
   "property": "C66",
   "status": "proved",
   "theorems": [
    "C66_every_commit",
    "C66_store"
   ],
   "note": "Ledger invariant: every commit carries its request."
  },
  {
   "property": "C67",
   "status": "partial",
   "theorems": [
    "C67_current_refuted",
    "C133_clamped"
   ],
   "note": "The true part, the floor, is C133; refuted: the current revision goes back when the compacted revision is a deletion at the end of the history (not reachable through the compaction loop, which stays 100 behind)."
  },
  {
   "property": "C68",
   "status": "partial",
   "theorems": [
    "C68_refuted",
    "C134_newer",
    "C134_all",
    "C134_caught_up"
   ],
   "note": "The true part is C134; refuted for clients that apply everything while the poller lags: a deleted key comes back."
  },
  {
   "property": "C69",
   "status": "proved",
   "theorems": [
    "C69_success",
    "C69_contents"
   ],
   "note": "For every schedule and fault, the database being the real statements in lock step with the history. What a failure says is C79."
  },
  {
   "property": "C70",
   "status": "partial",
   "theorems": [
    "C70_one_refuted",
    "C70_two_refuted",
    "C106_limit",
    "C135_finish"
   ],
   "note": "The true part (no limit, or at least three) is C135, respect of the limit C106; refuted for 1 and 2: transactions prepare statements through the pool while holding a connection."
  },
  {
   "property": "C71",
   "status": "partial",
   "theorems": [
    "C71_idle_refuted",
    "C163_idle",
    "C106_open"
   ],
   "note": "Open limit proved for all values, idle limit for all values but 0; refuted for 0: no connection is kept (server.go:88 passes the raw value, the computed one is only logged)."
  },
  {
   "property": "C72",
   "status": "proved",
   "theorems": [
    "C72_range",
    "C72_txn",
    "C72_quick"
   ],
   "note": "The bounds are reached (Example)."
  },
  {
   "property": "C73",
   "status": "proved",
   "theorems": [
    "C73_range",
    "C73_txn"
   ],
   "note": "Holds before and after the statement took effect; in the latter case the effect stays (see C62)."
  },
  {
   "property": "C74",
   "status": "proved",
   "theorems": [
    "C74_compacted",
    "C74_always"
   ],
   "note": "C74_compacted after a compaction run, C74_always at any time."
  },
  {
   "property": "C75",
   "status": "proved",
   "theorems": [
    "C75_no_gap",
    "C75_eventually"
   ],
   "note": "The margins are hypotheses on single steps of the execution (Resume.v steady); without them see C24_refuted and C28_refuted."
  },
  {
   "property": "C76",
   "status": "partial",
   "theorems": [
    "C76_refuted",
    "C136_resumed"
   ],
   "note": "The true part is C136; refuted for clients that do not skip on a server whose poller lags: revisions are delivered twice."
  },
  {
   "property": "C77",
   "status": "proved",
   "theorems": [
    "C77_get",
    "C77_create",
    "C77_update",
    "C77_delete",
    "C77_stored"
   ],
   "note": "Undisturbed calls are characterised exactly (C77_get to C77_delete); C77_stored covers every schedule and fault."
  },
  {
   "property": "C78",
   "status": "partial",
   "theorems": [
    "C78_batches_refuted",
    "C109_sqlite"
   ],
   "note": "Proved for sqlite (C109); refuted for dqlite when the node becomes leader between two batches: the skipped ones are done in one transaction."
  },
  {
   "property": "C79",
   "status": "partial",
   "theorems": [
    "C79_batch_refuted",
    "C79_kine_refuted",
    "C79_concurrent_refuted",
    "C79_txn_refuted",
    "C164_txn",
    "C164_concurrent",
    "C164_batch",
    "C164_kine"
   ],
   "note": "Proved if statements and commits that report an error had no effect, for single requests (C79_txn), concurrent ones (C79_concurrent) and batches (C79_batch, C79_kine). Refuted otherwise: a retried or reported error can hide a commit."
  },
  {
   "property": "C80",
   "status": "partial",
   "theorems": [
    "C80_newer_refuted",
    "C165_works"
   ],
   "note": "Success proved if the legacy unique index fits the rows. Refusal of newer majors is refuted: any incompatible version is silently accepted (driver.go:361-365)."
  },
  {
   "property": "C81",
   "status": "partial",
   "theorems": [
    "C81_refuted"
   ],
   "note": "Refuted: shutdown never flushes (the closure refers to a variable that is never assigned)."
  },
  {
   "property": "C82",
   "status": "proved",
   "theorems": [
    "C82_order"
   ],
   "note": "Invariants of C24 that need no proviso."
  },
  {
   "property": "C83",
   "status": "partial",
   "theorems": [
    "C83_refuted"
   ],
   "note": "Refuted for every stream state: no answer ever, and all watches of the stream stop silently while the stream stays open (ServeProgress keeps the errgroup waiting)."
  },
  {
   "property": "C84",
   "status": "partial",
   "theorems": [
    "C84_refuted"
   ],
   "note": "Refuted for every such string: listening always fails."
  },
  {
   "property": "C85",
   "status": "partial",
   "theorems": [
    "C85_id_refuted",
    "C155_not_early",
    "C155_in_time"
   ],
   "note": "Not too early and in time, under the provisos of C37 and C38 (C155: durations up to 292 years, timer running); refuted for ids: the requested id is ignored and all leases of the same duration are one lease (lease.go:10-32)."
  },
  {
   "property": "C86",
   "status": "proved",
   "theorems": [
    "C86"
   ],
   "note": "P_Lease.v; for all reachable states of the watcher/timer system."
  },
  {
   "property": "C87",
   "status": "proved",
   "theorems": [
    "C87",
    "C87_succeeds"
   ],
   "note": "P_Run.v; both what was done with every handle and that a working attempt is found."
  },
  {
   "property": "C88",
   "status": "proved",
   "theorems": [
    "C88"
   ],
   "note": "P_Run.v; for every interleaving of main goroutine, signals, disk watcher and metrics endpoint."
  },
  {
   "property": "C89",
   "status": "partial",
   "theorems": [
    "C89_close_refuted",
    "C89_start_refuted",
    "C89_leak_refuted",
    "C89_serving_refuted",
    "C89_panic_refuted",
    "C166_stops"
   ],
   "note": "Proved when the process is serving and no call fails except the handover (C166). Refuted: a failing backend close (server.go:511), a signal or failure during start-up (the node is left open), requests are accepted after the backend is closed (endpoint.go:70), and the disk watcher may panic with action terminate."
  },
  {
   "property": "C90",
   "status": "partial",
   "theorems": [
    "C90_down_refuted",
    "C90_kill_refuted"
   ],
   "note": "Both halves are refuted: root.go:122-125 shadows metricsServer, so root.go:193 never shuts it down; root.go:135-137 exits the process when the endpoint fails."
  },
  {
   "property": "C91",
   "status": "proved",
   "theorems": [
    "C91",
    "C91_action"
   ],
   "note": "P_Run.v; equivalences, so nothing else is accepted."
  },
  {
   "property": "C92",
   "status": "partial",
   "theorems": [
    "C92_refuted",
    "C167_refused"
   ],
   "note": "Proved for the action and, without init.yaml/update.yaml, for TLS (C167); refuted with init.yaml: it is deleted (server.go:178) before the TLS options are checked (server.go:264-276)."
  },
  {
   "property": "C93",
   "status": "proved",
   "theorems": [
    "C93_confirmed_first"
   ],
   "note": "Invariant: whoever can be published has been acknowledged to the group, and whatever the group acknowledged has been sent as created."
  },
  {
   "property": "C94",
   "status": "partial",
   "theorems": [
    "C94_refuted",
    "C168_answered"
   ],
   "note": "C168_answered: exactly one answer per request, marked created unless a query failed; undisturbed it arrives. C94_refuted: a failing query is answered without created mark and with id 0."
  },
  {
   "property": "C95",
   "status": "partial",
   "theorems": [
    "C95_refuted"
   ],
   "note": "Refuted for all executions: no response marked cancelled carries the id of a created watch."
  },
  {
   "property": "C96",
   "status": "partial",
   "theorems": [
    "C96_refuted"
   ],
   "note": "Refuted for all executions: the compaction revision of every response is 0."
  },
  {
   "property": "C97",
   "status": "partial",
   "theorems": [
    "C97_refuted"
   ],
   "note": "Refuted: requests that differ only in options are served alike; a counterexample for each of the four options."
  },
  {
   "property": "C98",
   "status": "proved",
   "theorems": [
    "C98_no_panic",
    "C98_removed",
    "C98_closed"
   ],
   "note": "Separate transition system with the mutex, context.AfterFunc and its stop function (GroupLife.v)."
  },
  {
   "property": "C99",
   "status": "partial",
   "theorems": [
    "C99_refuted",
    "C113_returns"
   ],
   "note": "C113: once the client is gone. C99_refuted: as long as the client is there the handler never returns, even when nothing is served any more."
  },
  {
   "property": "C100",
   "status": "proved",
   "theorems": [
    "C100_acts",
    "C100_every",
    "C100_quiet",
    "C100_kind"
   ],
   "note": "Low as the program computes it; how that relates to the space that is really available is C49."
  },
  {
   "property": "C101",
   "status": "proved",
   "theorems": [
    "C101_bounds"
   ],
   "note": "The minimum threshold does not hold; see C46."
  },
  {
   "property": "C102",
   "status": "proved",
   "theorems": [
    "C102_written"
   ],
   "note": "That a put succeeds on absent keys is false; see C52."
  },
  {
   "property": "C103",
   "status": "proved",
   "theorems": [
    "C103_prefix_range",
    "C103_list"
   ],
   "note": "For prefixes of 0xFF bytes only see C59."
  },
  {
   "property": "C104",
   "status": "proved",
   "theorems": [
    "C104_guard",
    "C104_state",
    "C104_no_address",
    "C104_update",
    "C104_incomplete"
   ],
   "note": "What a crash in between can do is C47 and C48."
  },
  {
   "property": "C105",
   "status": "proved",
   "theorems": [
    "C105_stopped"
   ],
   "note": "That every call returns is false in general; see C50.  The goroutines of the expiry timers, which Stop does not wait for, are in Halt.v (C195, C196)."
  },
  {
   "property": "C106",
   "status": "proved",
   "theorems": [
    "C106_limit",
    "C106_open"
   ],
   "note": "Deadlock under small limits is C70, the idle connections are C71."
  },
  {
   "property": "C107",
   "status": "proved",
   "theorems": [
    "C107_count"
   ],
   "note": "Lists do not have this property; see C35."
  },
  {
   "property": "C108",
   "status": "proved",
   "theorems": [
    "C108_no_panic"
   ],
   "note": "A second close, and transactions after closing, do crash; see C57."
  },
  {
   "property": "C109",
   "status": "proved",
   "theorems": [
    "C109_sqlite"
   ],
   "note": "The dqlite driver does not have this property; see C78."
  },
  {
   "property": "C110",
   "status": "proved",
   "theorems": [
    "C110_protected"
   ],
   "note": "Transactions on the bookkeeping key do not have this property; see C22."
  },
  {
   "property": "C111",
   "status": "proved",
   "theorems": [
    "C111_refused"
   ],
   "note": "At the floor a watch may still miss events; see C26."
  },
  {
   "property": "C112",
   "status": "proved",
   "theorems": [
    "C112_conserved"
   ],
   "note": "The counters of misses and spills do not have this property; see C61."
  },
  {
   "property": "C113",
   "status": "proved",
   "theorems": [
    "C113_returns"
   ],
   "note": "When the client is there but the stream has ended for another reason the handler never returns; see C99."
  },
  {
   "property": "C114",
   "status": "proved",
   "theorems": [
    "C114_refines",
    "C114_success",
    "C114_failure",
    "C114_own_writes",
    "C114_every_commit",
    "C114_store"
   ],
   "note": "Refinement of Ledger.v by Node.v for every class of faults that allows success, cancelled contexts and closed databases; C62, C65 and C66 follow."
  },
  {
   "property": "C115",
   "status": "proved",
   "theorems": [
    "C115_returns"
   ],
   "note": "Invariant of the run numbers; five steps of the batching goroutine."
  },
  {
   "property": "C116",
   "status": "proved",
   "theorems": [
    "C116_requests"
   ],
   "note": "Model of SQL in SqlLang.v (lexer, parser, evaluator), texts copied from driver.go by tools/gen_sqltext.py. Keys are bound as blobs; the library binding a nil key as NULL is not modelled. The outer SELECT of listSqlV1_0 has no ORDER BY: that its rows come in the order of the inner, ordered one is a rule of the evaluator (nested loops of CROSS JOIN)."
  },
  {
   "property": "C117",
   "status": "proved",
   "theorems": [
    "C117_programs",
    "C117_statements"
   ],
   "note": "For every program tree of the model, not only those of the server; faults as in Prog.v."
  },
  {
   "property": "C118",
   "status": "proved",
   "theorems": [
    "C118_write",
    "C118_list",
    "C118_list_limit",
    "C118_count",
    "C118_events",
    "C118_interval",
    "C118_size"
   ],
   "note": "Statement texts directly against Spec.v."
  },
  {
   "property": "C119",
   "status": "proved",
   "theorems": [
    "C119_shown",
    "C119_header",
    "C119_batched"
   ],
   "note": "LedgerValues.v: weakest preconditions of the read programs under any fault give genuine versions; a promise kept by every answered request."
  },
  {
   "property": "C120",
   "status": "proved",
   "theorems": [
    "C120_commit",
    "C120_success",
    "C120_batched"
   ],
   "note": "From C119, C66 (why a change is committed) and uniqueness of the version at a revision."
  },
  {
   "property": "C121",
   "status": "proved",
   "theorems": [
    "C121_events",
    "C121_asked",
    "C121_range"
   ],
   "note": "Whole.v joins Node.v, Watch.v and Stream.v; WholeProofs.v: one invariant over every step; the commits of the log are the history of the database."
  },
  {
   "property": "C122",
   "status": "proved",
   "theorems": [
    "C122_reads",
    "C122_get"
   ],
   "note": "From C121 and the header bounds and linearizability of reads of the ledger."
  },
  {
   "property": "C123",
   "status": "proved",
   "theorems": [
    "C123_watched"
   ],
   "note": "From C121 and the reasons of every committed change."
  },
  {
   "property": "C124",
   "status": "proved",
   "theorems": [
    "C124_complete",
    "C124_order"
   ],
   "note": "Per-stream invariants of Stream.v carried through foreign steps of the whole system."
  },
  {
   "property": "C125",
   "status": "proved",
   "theorems": [
    "C125_mirror"
   ],
   "note": "From C124 and linearizability of the list."
  },
  {
   "property": "C126",
   "status": "proved",
   "theorems": [
    "C126_events",
    "C126_answers"
   ],
   "note": "Every event and every shown version is the version of the one history at its revision."
  },
  {
   "property": "C127",
   "status": "proved",
   "theorems": [
    "C127_header"
   ],
   "note": "The true part of C18."
  },
  {
   "property": "C128",
   "status": "proved",
   "theorems": [
    "C128_etcd"
   ],
   "note": "The true part of C20; coherent: Etcd.v."
  },
  {
   "property": "C129",
   "status": "proved",
   "theorems": [
    "C129_no_gap",
    "C129_eventually"
   ],
   "note": "The true part of C24."
  },
  {
   "property": "C130",
   "status": "proved",
   "theorems": [
    "C130_not_early"
   ],
   "note": "The true part of C38."
  },
  {
   "property": "C131",
   "status": "proved",
   "theorems": [
    "C131_encoding"
   ],
   "note": "The true part of C44."
  },
  {
   "property": "C132",
   "status": "proved",
   "theorems": [
    "C132_read"
   ],
   "note": "The true part of C63."
  },
  {
   "property": "C133",
   "status": "proved",
   "theorems": [
    "C133_clamped"
   ],
   "note": "The true part of C67."
  },
  {
   "property": "C134",
   "status": "proved",
   "theorems": [
    "C134_newer",
    "C134_all",
    "C134_caught_up"
   ],
   "note": "The true part of C68."
  },
  {
   "property": "C135",
   "status": "proved",
   "theorems": [
    "C135_finish"
   ],
   "note": "The true part of C70; with C106 (the limit is respected)."
  },
  {
   "property": "C136",
   "status": "proved",
   "theorems": [
    "C136_resumed"
   ],
   "note": "The true part of C76."
  },
  {
   "property": "C137",
   "status": "proved",
   "theorems": [
    "C137_asked",
    "C137_only"
   ],
   "note": "Catches mutant wi04 (a start off by one in the request loop)."
  },
  {
   "property": "C138",
   "status": "proved",
   "theorems": [
    "C138_answered"
   ],
   "note": "liveness: assumes the Go scheduler (and sync.Mutex, sync.Cond) gives the two goroutines turns again and again, and that database calls return."
  },
  {
   "property": "C139",
   "status": "proved",
   "theorems": [
    "C139_delivered"
   ],
   "note": "liveness: the fairness conditions are hypotheses of the theorem (polling, consuming in FairWatch.v).  Provisos: pollers and registrations at most 100 revisions behind (otherwise see C24), the poller survives its faults (otherwise see C34)."
  },
  {
   "property": "C140",
   "status": "proved",
   "theorems": [
    "C140_answered",
    "C140_matched"
   ],
   "note": "liveness: fairness is a hypothesis (creating in FairWatch.v).  Requests with an explicit watch id end the stream instead of being answered (see C83); whether refusals can be told from confirmations is C94."
  },
  {
   "property": "C141",
   "status": "proved",
   "theorems": [
    "C141_listing",
    "C141_migrated"
   ],
   "note": "etcd itself is outside the repository: it is its history of changes, and its answer to the listing is every live key, in descending order. Excluded: a live key named compact_rev_key in etcd."
  },
  {
   "property": "C142",
   "status": "proved",
   "theorems": [
    "C142_migrated",
    "C142_there_and_back"
   ],
   "note": "Errors of the puts on etcd are logged and forgotten by the code (the model has them; the theorem is about none failing), as in C51."
  },
  {
   "property": "C143",
   "status": "proved",
   "theorems": [
    "C143_list",
    "C143_get",
    "C143_request",
    "C143_failed"
   ],
   "note": "The Version field is C145. Header revision 0 of a transaction that is not performed: C144."
  },
  {
   "property": "C144",
   "status": "partial",
   "theorems": [
    "C144_failed_refuted",
    "C169_performed"
   ],
   "note": "Refuted for every transaction that is not performed: its header revision is 0. True part: ranges (C143) and performed transactions."
  },
  {
   "property": "C145",
   "status": "partial",
   "theorems": [
    "C145_version_refuted",
    "C145_get_count_refuted",
    "C145_deleted_refuted"
   ],
   "note": "Refuted for every live key: Version is never assigned, a get counts 0 keys, a delete reports 0 deleted keys. Counts of lists are right: C08, C11."
  },
  {
   "property": "C146",
   "status": "proved",
   "theorems": [
    "C146_refused",
    "C146_size"
   ],
   "note": "C14 and C74 are about undisturbed runs. On a dqlite follower a run reports success without compacting (C55)."
  },
  {
   "property": "C147",
   "status": "proved",
   "theorems": [
    "C147_race"
   ],
   "note": "True part of C19, which is refuted in general."
  },
  {
   "property": "C148",
   "status": "proved",
   "theorems": [
    "C148_not_older"
   ],
   "note": "True part of C25, which is refuted in general."
  },
  {
   "property": "C149",
   "status": "proved",
   "theorems": [
    "C149_complete"
   ],
   "note": "True part of C28, which is refuted in general."
  },
  {
   "property": "C150",
   "status": "proved",
   "theorems": [
    "C150_prefix"
   ],
   "note": "True part of C31, which is refuted in general."
  },
  {
   "property": "C151",
   "status": "proved",
   "theorems": [
    "C151_progress"
   ],
   "note": "True part of C29, which is refuted in general."
  },
  {
   "property": "C152",
   "status": "proved",
   "theorems": [
    "C152_idle"
   ],
   "note": "True part of C30, which is refuted in general."
  },
  {
   "property": "C153",
   "status": "proved",
   "theorems": [
    "C153_survives"
   ],
   "note": "True part of C34, which is refuted in general."
  },
  {
   "property": "C154",
   "status": "proved",
   "theorems": [
    "C154_timer"
   ],
   "note": "True part of C37, which is refuted in general."
  },
  {
   "property": "C155",
   "status": "proved",
   "theorems": [
    "C155_not_early",
    "C155_in_time"
   ],
   "note": "True part of C85, which is refuted in general."
  },
  {
   "property": "C156",
   "status": "proved",
   "theorems": [
    "C156_alone"
   ],
   "note": "True part of C40, which is refuted in general."
  },
  {
   "property": "C157",
   "status": "proved",
   "theorems": [
    "C157_initial",
    "C157_update"
   ],
   "note": "True part of C47 and C48, which is refuted in general."
  },
  {
   "property": "C158",
   "status": "proved",
   "theorems": [
    "C158_returns",
    "C158_cause"
   ],
   "note": "True part of C50, which is refuted in general."
  },
  {
   "property": "C159",
   "status": "proved",
   "theorems": [
    "C159_roundtrip",
    "C159_torn"
   ],
   "note": "True part of C51, which is refuted in general."
  },
  {
   "property": "C160",
   "status": "proved",
   "theorems": [
    "C160_present"
   ],
   "note": "True part of C52, which is refuted in general."
  },
  {
   "property": "C161",
   "status": "proved",
   "theorems": [
    "C161_follower"
   ],
   "note": "True part of C55, which is refuted in general."
  },
  {
   "property": "C162",
   "status": "proved",
   "theorems": [
    "C162_unix_socket",
    "C162_mode_on_success"
   ],
   "note": "True part of C60, which is refuted in general."
  },
  {
   "property": "C163",
   "status": "proved",
   "theorems": [
    "C163_idle"
   ],
   "note": "True part of C71, which is refuted in general."
  },
  {
   "property": "C164",
   "status": "proved",
   "theorems": [
    "C164_batch",
    "C164_kine",
    "C164_concurrent",
    "C164_txn"
   ],
   "note": "True part of C79, which is refuted in general."
  },
  {
   "property": "C165",
   "status": "proved",
   "theorems": [
    "C165_works",
    "C165_refuses"
   ],
   "note": "True part of C80, which is refuted in general."
  },
  {
   "property": "C166",
   "status": "proved",
   "theorems": [
    "C166_stops"
   ],
   "note": "True part of C89, which is refuted in general."
  },
  {
   "property": "C167",
   "status": "proved",
   "theorems": [
    "C167_refused"
   ],
   "note": "True part of C92, which is refuted in general."
  },
  {
   "property": "C168",
   "status": "proved",
   "theorems": [
    "C168_answered"
   ],
   "note": "True part of C94, which is refuted in general."
  },
  {
   "property": "C169",
   "status": "proved",
   "theorems": [
    "C169_performed"
   ],
   "note": "True part of C144, which is refuted in general."
  },
  {
   "property": "C170",
   "status": "proved",
   "theorems": [
    "C170_repair"
   ],
   "note": "True part of C23, which is refuted in general."
  },
  {
   "property": "C171",
   "status": "proved",
   "theorems": [
    "C171_query_fails"
   ],
   "note": "True part of C32, which is refuted in general."
  },
  {
   "property": "C172",
   "status": "proved",
   "theorems": [
    "C172_params"
   ],
   "note": "True part of C46, which is refuted in general."
  },
  {
   "property": "C173",
   "status": "proved",
   "theorems": [
    "C173_decides"
   ],
   "note": "True part of C49, which is refuted in general."
  },
  {
   "property": "C174",
   "status": "proved",
   "theorems": [
    "C174_returned"
   ],
   "note": "True part of C58, which is refuted in general."
  },
  {
   "property": "C175",
   "status": "proved",
   "theorems": [
    "C175_expires"
   ],
   "note": "liveness: fairness, passing time and a database that again and again works are hypotheses (expiring in FairTtl.v).  Provisos of C24; keys below the watched range [0x00] or above [0xff] written after start-up are excluded (see C37)."
  },
  {
   "property": "C176",
   "status": "proved",
   "theorems": [
    "C176_starts"
   ],
   "note": "liveness; the start-up does not retry (C35 and others): that its statements do not fail is a hypothesis."
  },
  {
   "property": "C177",
   "status": "proved",
   "theorems": [
    "C177_isolated"
   ],
   "note": "etcd itself is outside the repository: it is its history of changes; a failing put changes nothing."
  },
  {
   "property": "C178",
   "status": "partial",
   "theorems": [
    "C178_silent_refuted"
   ],
   "note": "Refuted: errors of the puts are logged and forgotten.  What stays true: C177."
  },
  {
   "property": "C179",
   "status": "proved",
   "theorems": [
    "C179_runs",
    "C179_succeeds",
    "C179_refused"
   ],
   "note": "liveness: fair scheduling of the goroutine is a hypothesis (cturns); the ticker is an action that may happen while the goroutine waits.  On dqlite a run without a failing statement includes that the node is the leader."
  },
  {
   "property": "C180",
   "status": "proved",
   "theorems": [
    "C180_small"
   ],
   "note": "liveness, same hypotheses as C179."
  },
  {
   "property": "C181",
   "status": "proved",
   "theorems": [
    "C181_configured",
    "C181_up"
   ],
   "note": "the default values are compared with the numbers of the documentation; time.NewTicker is modelled by its panic on arguments that are not positive."
  },
  {
   "property": "C182",
   "status": "partial",
   "theorems": [
    "C182_start_refuted",
    "C182_watch_refuted"
   ],
   "note": "Refuted: kine-compact-interval: 0s or kine-poll-interval: 0s in tuning.yaml are accepted and end the process with a panic at every start; --watch-progress-notify-interval=0 ends it at the first watch.  What stays true: C181."
  },
  {
   "property": "C183",
   "status": "partial",
   "theorems": [
    "C183_refuted"
   ],
   "note": "Refuted: the flag is not checked; with a value that is not positive no event is ever delivered by polling."
  },
  {
   "property": "C184",
   "status": "proved",
   "theorems": [
    "C184_prompt",
    "C184_due"
   ],
   "note": "liveness: fairness of the Go scheduler and of select is a hypothesis (the loop tries the channel again and again); compaction does not overtake the poller (as C129)."
  },
  {
   "property": "C185",
   "status": "partial",
   "theorems": [
    "C185_refuted"
   ],
   "note": "refuted: a dropped notification (channel of 100 full) and a notification used up by a failed query; the change is published at the next tick (C186)."
  },
  {
   "property": "C186",
   "status": "proved",
   "theorems": [
    "C186_ticks"
   ],
   "note": "liveness: the hypotheses about the ticker, the scheduler and the queries are written out in the statement."
  },
  {
   "property": "C187",
   "status": "proved",
   "theorems": [
    "C187_queries"
   ],
   "note": "Amortised counting: every notification and tick is worth one query, every batch of 100 events one more."
  },
  {
   "property": "C188",
   "status": "partial",
   "theorems": [
    "C188_refuted"
   ],
   "note": "refuted: hot loop after a failing query with waitForMore false (watcher.go:200-207)."
  },
  {
   "property": "C189",
   "status": "proved",
   "theorems": [
    "C189_only_slow",
    "C189_room",
    "C189_bounded"
   ],
   "note": "Case analysis of a step on one group; invariant over all reachable states for the bound."
  },
  {
   "property": "C190",
   "status": "proved",
   "theorems": [
    "C190_txn",
    "C190_range"
   ],
   "note": "The bound 500 is exact (C190_bound)."
  },
  {
   "property": "C191",
   "status": "proved",
   "theorems": [
    "C191_answer",
    "C191_bounds",
    "C191_answered"
   ],
   "note": "C191_answer: what an answer says. C191_bounds: for every file SQLite can have. C191_answered: it comes."
  },
  {
   "property": "C192",
   "status": "proved",
   "theorems": [
    "C192_reads",
    "C192_refused"
   ],
   "note": "Watch and Txn are the other methods; their effects are C20, C42, C66."
  },
  {
   "property": "C193",
   "status": "partial",
   "theorems": [
    "C193_refuted"
   ],
   "note": "Refuted: the request is answered but ignored (server.go:137-143), whatever the revision. Compaction happens only in the background (C14, C179). Missing: the whole property, it is false."
  },
  {
   "property": "C194",
   "status": "proved",
   "theorems": [
    "C194_returns"
   ],
   "note": "Fairness: each goroutine executes its next step again and again, and select does not pass over a cancelled context for ever. Statements begun with a cancelled context fail (database/sql, batched.go:195)."
  },
  {
   "property": "C195",
   "status": "proved",
   "theorems": [
    "C195_gone",
    "C195_step",
    "C195_few",
    "C195_silent"
   ],
   "note": "Inductive invariant; the deletions on their way as a decreasing measure."
  },
  {
   "property": "C196",
   "status": "partial",
   "theorems": [
    "C196_refuted"
   ],
   "note": "False: a timer goroutine (ttl.go:70, 92) is not counted in the wait group; its deletion, sent before the stop, can take effect after the stop has returned. What holds is C195."
  },
  {
   "property": "C197",
   "status": "proved",
   "theorems": [
    "C197_counted",
    "C197_names"
   ],
   "note": "GetSize is not among the calls (its query is in Rpc.v); compaction transactions are not counted by the code at all."
  },
  {
   "property": "C198",
   "status": "partial",
   "theorems": [
    "C198_refuted",
    "C198_twice"
   ],
   "note": "False: GetCompactRevision records besides the record of its query (driver.go:683-684), so it counts twice (C198_twice)."
  },
  {
   "property": "C199",
   "status": "partial",
   "theorems": [
    "C199_refuted"
   ],
   "note": "False: recordTxResult is called once after the retry loop (driver.go:438, 476); what holds is C197."
  },
  {
   "property": "C200",
   "status": "partial",
   "theorems": [
    "C200_refuted",
    "C200_seconds"
   ],
   "note": "False: time.Since(start)/time.Second is an integer division (metrics.go:42), so the buckets below one second are all equal; what holds is C200_seconds."
  },
  {
   "property": "C201",
   "status": "proved",
   "theorems": [
    "C201_commits",
    "C201_content",
    "C201_whole"
   ],
   "note": "Cluster.v puts the expiry goroutine of Ttl.v and its timers on every server of Whole.v; a timer that fires is a request of its server, batched like those of clients. C201_whole carries C121-C126 over."
  },
  {
   "property": "C202",
   "status": "proved",
   "theorems": [
    "C202_kept"
   ],
   "note": "Corollary of C201 for deletions; ages are measured between the commits, whatever the clock does in between (it never runs backwards)."
  },
  {
   "property": "C203",
   "status": "proved",
   "theorems": [
    "C203_server",
    "C203_moves"
   ],
   "note": "All servers share one clock in the model; timers only compare it with itself."
  },
  {
   "property": "C204",
   "status": "proved",
   "theorems": [
    "C204_timer",
    "C204_fires"
   ],
   "note": "Provisos as for C154/C155; beyond the range and for longer leases see C37, C38."
  },
  {
   "property": "C205",
   "status": "proved",
   "theorems": [
    "C205_ends"
   ],
   "note": "GroupLife.v, with turns of the publisher and of anybody else (GroupPublish.v)."
  },
  {
   "property": "C206",
   "status": "proved",
   "theorems": [
    "C206_effect"
   ],
   "note": "The publication is taken without interruption; what interruptions can do is covered by C98 and C205."
  },
  {
   "property": "C207",
   "status": "proved",
   "theorems": [
    "C207_expired"
   ],
   "note": "Over Cluster.v (whole cluster with expiry goroutines); the only proviso is that faults are tolerated as in C114 (tolerant okf)."
  },
  {
   "property": "C208",
   "status": "proved",
   "theorems": [
    "C208_available"
   ],
   "note": "Fairness of goroutines is assumed (as in C138); calm and undisturbed are spelled out in Calm.v. A list with a limit at the current revision may still be told that its revision is compacted (it counts in a second step, list.go:67-76); in_order says so."
  },
  {
   "property": "C209",
   "status": "proved",
   "theorems": [
    "C209_ends",
    "C209_lease"
   ],
   "note": "Assumed of the environment: from some turn on no database call or batch fails, nobody cancels a waiting write or closes a server (ccalm, undisturbed); the clock grows without bound; a timer keeps trying until an attempt succeeds (backoff.Retry with MaxElapsedTime 0); goroutines of requests and the batching goroutine of that server get their turns. That the server receives the update that covers the version is a hypothesis of C209_lease (that written revisions reach the watchers of a server that keeps polling is C139; C175 is the property of one backend, where an attempt is one statement)."
  },
  {
   "property": "C210",
   "status": "proved",
   "theorems": [
    "C210_lease_ends"
   ],
   "note": "Combines, in the model of the whole cluster, the liveness of polling and of the channel (as C175) with C209. Alternative in the conclusion: the group was dropped (watcher.go:222-228) and with it the expiry goroutine of that server. Fairness assumptions are those listed in ClusterFair.v (polls, hears, tries, cbatching, time_passes)."
  },
  {
   "property": "C211",
   "status": "proved",
   "theorems": [
    "C211_delivered"
   ],
   "note": "C139 lifted to the cluster of Cluster.v, where expiry goroutines take part: every schedule of the cluster is shown to be a schedule of the system without them."
  },
  {
   "property": "C212",
   "status": "proved",
   "theorems": [
    "C212_end_seen"
   ],
   "note": "C210 and C211 together: the first change after the leased version is the one that ends it, and it is delivered. Alternatives in the conclusion: the stream is closed or the group of the expiry goroutine was dropped (both watcher.go:222-228). Fairness assumptions as in C210 and C211."
  },
  {
   "property": "C213",
   "status": "proved",
   "theorems": [
    "C213_available"
   ],
   "note": "C208 lifted to the cluster. Requests for expired leases are covered by C209."
  },
  {
   "property": "C214",
   "status": "proved",
   "theorems": [
    "C214_dropped"
   ],
   "note": "The handler itself does not return then as long as its client stays (C99_refuted)."
  },
  {
   "property": "C215",
   "status": "proved",
   "theorems": [
    "C215_starts",
    "C215_from_the_answer",
    "C215_cluster"
   ],
   "note": "From the request to the last event: the answer comes (C140), a confirmed watch is a watch of C139 (its registration is not cancelled and the poller of the server runs), so every change is delivered. C215_from_the_answer is for every moment at which the answer is there; C215_cluster is the same with the expiry goroutines of the servers."
  },
  {
   "property": "C216",
   "status": "proved",
   "theorems": [
    "C216_converges",
    "C216_always"
   ],
   "note": "The liveness side of C125 and C134, for the informer pattern of Kubernetes. The provisos are those of C129 and C215: at most 100 changes during the list, pollers and registrations not more than 100 revisions behind."
  },
  {
   "property": "C217",
   "status": "proved",
   "theorems": [
    "C217_in_order",
    "C217_all_kept",
    "C217_delivered"
   ],
   "note": "What may be lost after a cancelled context (at most the connection that Accept has just returned, and those in the kernel) is in l_lost of the model. An error of Accept ends the goroutine: later connections then wait for ever."
  },
  {
   "property": "C218",
   "status": "proved",
   "theorems": [
    "C218_loads"
   ],
   "note": "Metered.v; induction over the operations against a sum that restarts at each store."
  },
  {
   "property": "C219",
   "status": "partial",
   "theorems": [
    "C219_quiet",
    "C219_refuted"
   ],
   "note": "Refuted: bytes transferred between Metrics and ResetMetrics are set to 0 without having been reported. Proved: the samples add up if nothing is transferred between the two calls."
  },
  {
   "property": "C220",
   "status": "partial",
   "theorems": [
    "C220_refuted",
    "C220_no_crash"
   ],
   "note": "Refuted: Close closes the channel AcceptedConns and sets netListener to nil; a later Listen succeeds, and its goroutine panics when it sends the first connection. Two calls of Close at the same time close the channel twice. Proved: no panic if Close is never called during another Close and Listen never after a Close."
  },
  {
   "property": "C221",
   "status": "proved",
   "theorems": [
    "C221_close_returns",
    "C221_needs_receiver"
   ],
   "note": "C221_needs_receiver shows that the condition on the application is needed: with an accepted connection that nobody receives, Close blocks for ever, even after the context has been cancelled (the send on the channel is not in a select)."
  },
  {
   "property": "C222",
   "status": "partial",
   "theorems": [
    "C222_refuted",
    "C222_cancelled",
    "C222_reported",
    "C222_close_reported"
   ],
   "note": "Refuted: Accept returns net.ErrClosed when Close closes the socket, and unless the context has been cancelled before, the goroutine records that. Proved: Err reports nothing if the context is cancelled before Close (C222_cancelled); real failures are kept (C222_reported, C222_close_reported)."
  },
  {
   "property": "C223",
   "status": "proved",
   "theorems": [
    "C223_serving"
   ],
   "note": "Run.v; invariant over runs of the process: the calls made so far are determined by where the main goroutine is."
  },
  {
   "property": "C224",
   "status": "proved",
   "theorems": [
    "C224_compacts",
    "C224_again"
   ],
   "note": "C179 and C180 are about one server and an abstract environment; here the run is one of the processes of the cluster, its statements go through the batching layer of its server. Database failures after the run began are excluded by ccalm; what a run interrupted by failures leaves behind is C146."
  },
  {
   "property": "C225",
   "status": "proved",
   "theorems": [
    "C225_refused",
    "C225_cluster",
    "C225_again"
   ],
   "note": "The counterpart for a watch whose check came before the compaction is C26 (its _race_ theorem): there the confirmation can follow a compaction that overtook it. Start revisions 0 and below ask for no past and are not refused."
  },
  {
   "property": "C226",
   "status": "proved",
   "theorems": [
    "C226_compacted",
    "C226_cluster",
    "C226_recent"
   ],
   "note": "The converse of C225. That the refusal tells the current instead of the compacted revision is C96."
  },
  {
   "property": "C227",
   "status": "proved",
   "theorems": [
    "C227_confirmed",
    "C227_catches"
   ],
   "note": "Theorems C227_confirmed (any fault model with the tolerance premise, from the request to the delivery of each change), C227_catches (list and watch: the conclusions of C216 without its two refusals). Witness: the cluster of C216 (list at server 0, watch at server 1)."
  },
  {
   "property": "C228",
   "status": "proved",
   "theorems": [
    "C228_agree",
    "C228_reads"
   ],
   "note": "Theorems C228_agree (two clients, any servers), C228_reads (client and later list). The clients are described in Holder.v (specification, not code). Witness: two clients with overlapping ranges on two watches of one connection; one has the key from events, the other from its list and then an event."
  }
 ]
}