{"id": "C01", "title": "Positions are gapless, increasing and never reused", "statement": "After any history of accepted appends the events stored are at positions 1..n with no gap and no duplicate, in the order they were accepted; an append of k>=1 events that is newly accepted when the store holds n events occupies n+1..n+k and returns n+k; an event once stored is never changed or removed.", "quantifier": "every sequence of append requests (any events, conditions, tracking), starting from an empty store", "why_tests_cant": "tests exercise a handful of histories; the claim is an invariant over unbounded histories", "anchors": ["umadb-core/src/db.rs: unconditional_append_event_values, process_append_request", "umadb-core/src/mvcc.rs: Writer::issue_position"]}
{"id": "C02", "title": "Sequential read returns exactly the requested slice", "statement": "A read with start position, direction and limit and no tag filter returns exactly the stored events at or after (forwards) or at or before (backwards) the start, in position order for that direction, truncated at the limit, never skipping or duplicating an event.", "quantifier": "every store content, every tree shape reachable by appends, every start (0 and 2^64-1 included), direction and limit", "why_tests_cant": "tree depth, leaf boundaries and start positions form an unbounded space", "anchors": ["umadb-core/src/db.rs: read_conditional", "umadb-core/src/events_tree.rs: EventIterator"]}
{"id": "C03", "title": "Tag-index read equals a filtered scan, for any hash function", "statement": "A read whose query items all carry tags returns exactly the events a full scan filtered by the query would return, in the same order and under the same start, direction and limit, even when different tags collide in the index and when an event carries a tag twice.", "quantifier": "every store content, query, start, direction, limit and every hash function from tags to index keys", "why_tests_cant": "collisions cannot be produced by tests with a real hash; queries and merges are unbounded", "anchors": ["umadb-core/src/db.rs: read_conditional, tag_to_hash", "umadb-core/src/tags_tree.rs: TagsTreeIterator"]}
{"id": "C04", "title": "Append condition is enforced exactly", "statement": "An append with a condition is rejected with an integrity error if and only if some stored event with position greater than `after` (any position when absent) matches the condition's query and the request is not an idempotent retry; otherwise it is accepted.", "quantifier": "every store content, condition query, after value (below 2^64-1), events", "why_tests_cant": "must hold for all queries and histories; one missed match is a lost-update anomaly", "anchors": ["umadb-core/src/db.rs: process_append_request, read_conditional"]}
{"id": "C05", "title": "Retries are idempotent", "statement": "If a conditional append whose events all carry ids was accepted at position p, with an `after` not beyond the head of the store at that time and a query that matches its events, then sending the same request again at any later time returns p and adds nothing; and a request answered as an idempotent retry never adds events.", "quantifier": "every history between the first call and the retry, every request", "why_tests_cant": "depends on arbitrary interleaved history between original and retry", "anchors": ["umadb-core/src/db.rs: is_request_idempotent, process_append_request"]}
{"id": "C06", "title": "A rejected request has no effect", "statement": "A request answered with an integrity error or an invalid-argument error leaves the stored events, all later read results, all positions and all tracking values as if it had never been sent.", "quantifier": "every store state and every rejected request, alone or in a batch with others", "why_tests_cant": "requires comparing all later observations; tests check a few", "anchors": ["umadb-core/src/db.rs: append_batch, process_append_request, tracking_upsert"]}
{"id": "C07", "title": "Batched processing equals one-at-a-time processing", "statement": "Processing a group of requests in one transaction gives every request the same answer and leaves the same stored state as processing the requests one at a time in the same order; if the group is aborted, nothing of it is stored and no request of it is acknowledged.", "quantifier": "every store state, every list of requests, every position of an aborting error", "why_tests_cant": "batch composition depends on timing; the space of batches is unbounded", "anchors": ["umadb-core/src/db.rs: append_batch", "umadb-core/src/writer_thread_blocking.rs", "umadb-core/src/writer_thread_pipelining.rs"]}
{"id": "C08", "title": "Tracking positions only move forward", "statement": "For every upstream source the recorded tracking position never decreases and changes only to the position supplied by an accepted append; an append supplying a position less than or equal to the recorded one is rejected with an integrity error; get_tracking_info returns the latest accepted position.", "quantifier": "every history of appends with tracking info, every set of source names", "why_tests_cant": "tracking tree shapes and histories are unbounded", "anchors": ["umadb-core/src/db.rs: tracking_upsert, UmaDb::get_tracking_info", "umadb-core/src/tracking_tree_nodes.rs"]}
{"id": "C09", "title": "Tracking and events are atomic", "statement": "The events of a request and its tracking position become visible and durable together or not at all, also across a crash.", "quantifier": "every history, every crash point", "why_tests_cant": "needs all crash points", "anchors": ["umadb-core/src/db.rs: process_append_request", "umadb-core/src/mvcc.rs: Mvcc::commit"]}
{"id": "C10", "title": "Acknowledged appends survive a crash", "statement": "If an append has been answered successfully, then after a crash at any later moment and reopening the file, its events and tracking are present at the same positions.", "quantifier": "every history, every crash point, every subset/tearing of unsynced page writes", "why_tests_cant": "crash points x write subsets cannot be enumerated by tests", "anchors": ["umadb-core/src/mvcc.rs: Mvcc::commit, write_pages, Mvcc::new", "umadb-core/src/pager.rs"]}
{"id": "C11", "title": "A crash is atomic per commit", "statement": "After a crash at any moment, reopening yields exactly the state after some commit: the last acknowledged one or the one in flight; never a mixture and never a failure to open (after the database has been created).", "quantifier": "every history, every crash point, every subset/tearing of unsynced page writes", "why_tests_cant": "same as C10", "anchors": ["umadb-core/src/mvcc.rs: Mvcc::new, get_latest_header_page, commit"]}
{"id": "C12", "title": "Header recovery picks the newest valid header", "statement": "With two header slots of which at least one is intact, opening selects the intact header with the greatest transaction number; with none intact, opening fails with an error and changes nothing readable.", "quantifier": "all contents of the two header pages", "why_tests_cant": "all byte contents", "anchors": ["umadb-core/src/mvcc.rs: Mvcc::new, get_latest_header_page"]}
{"id": "C13", "title": "Readers see a stable snapshot", "statement": "A reader opened at some commit sees exactly the events of that commit for as long as it lives, whatever commits happen meanwhile (default, non-pipelined writer).", "quantifier": "every interleaving of reader open/close with commits, any number of readers", "why_tests_cant": "schedules unbounded", "anchors": ["umadb-core/src/mvcc.rs: reader, writer, ReaderTsnRegistry, find_reusable_page_ids"]}
{"id": "C14", "title": "Readers see a stable snapshot in pipelined mode too", "statement": "The same as C13 for the pipelined writer, where the next transaction is prepared while the previous one is being written.", "quantifier": "every interleaving of reader registration with pipelined prepare/commit steps", "why_tests_cant": "race window is a few instructions wide", "anchors": ["umadb-core/src/writer_thread_pipelining.rs", "umadb-core/src/mvcc.rs: find_reusable_page_ids_with_snapshot, reader"]}
{"id": "C15", "title": "No page is lost or used twice", "statement": "After any history, every page of the file below the high-water mark is either part of exactly one live structure or recorded as free exactly once: the file never leaks space and never shares a page between two structures.", "quantifier": "every history", "why_tests_cant": "invariant over unbounded histories", "anchors": ["umadb-core/src/mvcc.rs: Writer, process_freed_page_ids, insert_freed_page_id, remove_free_page_id"]}
{"id": "C16", "title": "A page visible to a live reader is never overwritten", "statement": "A transaction only writes pages that are unreachable from the snapshot of every live reader and from the last durable commit.", "quantifier": "every history, every set of live readers", "why_tests_cant": "depends on schedules", "anchors": ["umadb-core/src/mvcc.rs: find_reusable_page_ids, alloc_page_id, get_dirty_page_id"]}
{"id": "C17", "title": "Every stored page round-trips", "statement": "Whatever the database writes into a page is read back as the same content, for each kind of page.", "quantifier": "every page content that fits its length fields", "why_tests_cant": "all byte contents", "anchors": ["umadb-core/src/events_tree_nodes.rs", "umadb-core/src/tags_tree_nodes.rs", "umadb-core/src/tracking_tree_nodes.rs", "umadb-core/src/free_lists_tree_nodes.rs", "umadb-core/src/header_node.rs", "umadb-core/src/node.rs"]}
{"id": "C18", "title": "Size accounting is safe", "statement": "The size computed for a page before writing it is never less than the number of bytes actually written, so a page accepted by the size check always fits.", "quantifier": "every page content", "why_tests_cant": "all contents", "anchors": ["umadb-core/src/*_nodes.rs: calc_serialized_size, serialize_into"]}
{"id": "C19", "title": "Corruption is detected", "statement": "If the stored bytes of a page differ from what was written in a single run of up to four consecutive bytes that touches neither the page-kind byte nor the length field, reading the page either reports an error or returns exactly what was written; a change inside the content is always reported.", "quantifier": "every page content, every corrupted run, every corrupting value", "why_tests_cant": "all contents and corruptions", "anchors": ["umadb-core/src/page.rs: Page::deserialize, calc_crc"]}
{"id": "C20", "title": "Decoding arbitrary bytes never crashes", "statement": "Decoding any byte string as a page or as a page body yields a value or a reported error; it never indexes out of bounds.", "quantifier": "every byte string of any length", "why_tests_cant": "all byte strings", "anchors": ["umadb-core/src/*_nodes.rs: from_slice", "umadb-core/src/page.rs", "umadb-core/src/slice_reader.rs"]}
{"id": "C21", "title": "Large event payloads round-trip", "statement": "An event of any data size (stored inline or spread over a chain of pages) is read back with identical type, data, tags and id.", "quantifier": "every data size", "why_tests_cant": "sizes and chain lengths unbounded", "anchors": ["umadb-core/src/events_tree.rs: event_tree_append, materialize_event_overflow", "umadb-core/src/events_tree_nodes.rs"]}
{"id": "C22", "title": "Head is the last position", "statement": "head() returns nothing on an empty store and otherwise the position of the last stored event; a read without limit reports that same head, and a read with limit reports the position of the last event returned.", "quantifier": "every history and read", "why_tests_cant": "all histories", "anchors": ["umadb-core/src/db.rs: UmaDb::head, read, ReadResponse"]}
{"id": "C23", "title": "A remote read is one consistent snapshot", "statement": "The batches streamed to a remote reader, concatenated, are exactly the read result on the store as it was when the first batch was read, whatever is appended while the stream is being consumed and whatever the batch size.", "quantifier": "every store content, growth between batches, batch size, limit, start, direction", "why_tests_cant": "interleavings of appends with batches", "anchors": ["umadb-server/src/lib.rs: read", "umadb-server/src/handler.rs"]}
{"id": "C24", "title": "A subscription delivers every matching event exactly once, in order, and never stalls", "statement": "A subscription after position p delivers all and only the matching events with position > p in order with no duplicates; whenever an undelivered matching event is stored the subscriber is not left waiting.", "quantifier": "every interleaving of appends, notifications and subscriber steps", "why_tests_cant": "lost-wakeup races are schedule dependent", "anchors": ["umadb-server/src/lib.rs: subscribe", "umadb-core/src/writer_thread_blocking.rs: head_watch"]}
{"id": "C25", "title": "Appends are linearizable and acknowledged only once durable", "statement": "Answers to concurrent appends are those of some one-at-a-time execution in the order in which the server took them from its queue; a success is sent only after the commit holding it has been synced.", "quantifier": "every interleaving of clients, any batching", "why_tests_cant": "schedules unbounded", "anchors": ["umadb-core/src/writer_thread_blocking.rs", "umadb-core/src/writer_thread_pipelining.rs"]}
{"id": "C26", "title": "Every request is answered exactly once", "statement": "Every append taken from the queue receives exactly one answer: success with a position or an error.", "quantifier": "every batch, every outcome of each item and of the commit", "why_tests_cant": "all batches and failure combinations", "anchors": ["umadb-core/src/writer_thread_blocking.rs", "umadb-core/src/writer_thread_pipelining.rs"]}
{"id": "C27", "title": "No request can stop the writer", "statement": "Every append request, whatever its content, is answered; none makes the writer panic.", "quantifier": "every request and store content", "why_tests_cant": "all requests", "anchors": ["umadb-core/src/db.rs: is_request_idempotent, process_append_request", "umadb-server/src/lib.rs: append"]}
{"id": "C28", "title": "Boundary value of `after`", "statement": "A condition or read with after/start equal to the largest 64-bit value behaves as `nothing is after it`.", "quantifier": "every store content", "why_tests_cant": "boundary of a 64-bit range", "anchors": ["umadb-core/src/db.rs: process_append_request"]}
{"id": "C29", "title": "Tag index pages always fit", "statement": "Accepting an event with valid tags never makes a tag-index page exceed the page size, so the commit never fails for that reason.", "quantifier": "every history of valid appends", "why_tests_cant": "requires specific fill patterns of the index", "anchors": ["umadb-core/src/tags_tree.rs: tags_tree_insert"]}
{"id": "C30", "title": "Tracking pages always fit", "statement": "Accepting a tracking update with a valid source name never makes a tracking page exceed the page size, so the commit never fails for that reason.", "quantifier": "every history of valid tracking updates", "why_tests_cant": "requires specific fill patterns", "anchors": ["umadb-core/src/db.rs: tracking_upsert", "umadb-core/src/tracking_tree_nodes.rs"]}
{"id": "C31", "title": "A read is complete or reports an error", "statement": "If a stored page cannot be read, a read (and the evaluation of an append condition) reports an error rather than silently returning fewer events.", "quantifier": "every store, every set of unreadable pages", "why_tests_cant": "fault injection at every page", "anchors": ["umadb-core/src/tags_tree.rs: TagsTreeIterator::next", "umadb-core/src/db.rs: read_conditional"]}
{"id": "C32", "title": "Commits work for every configured page size", "statement": "With any supported page size the pages written by a pipelined commit are exactly one page long each, at their own offsets.", "quantifier": "every page size", "why_tests_cant": "tests use the default", "anchors": ["umadb-core/src/mvcc.rs: prepare_commit"]}
{"id": "C33", "title": "A failed commit leaves no trace", "statement": "An append answered with an error because its commit failed is never visible later, and does not endanger other data, also when the failure was in the final sync and a crash follows.", "quantifier": "every failure point of a commit, followed by any commits and a crash", "why_tests_cant": "fault + crash combinations", "anchors": ["umadb-core/src/mvcc.rs: commit"]}
{"id": "C34", "title": "One client's cancellation does not affect another's append", "statement": "An append is answered with success or with an error caused by its own content; cancelling another client's request never makes it fail.", "quantifier": "every batch and every subset of cancelled requests", "why_tests_cant": "timing dependent", "anchors": ["umadb-core/src/db.rs: process_append_request", "umadb-core/src/writer_thread_blocking.rs", "umadb-server/src/lib.rs: append"]}
{"id": "C35", "title": "API key is enforced on every call", "statement": "When the server is configured with an API key, every operation is performed only for requests presenting exactly `Bearer <key>`; without a configured key every request is admitted.", "quantifier": "every configured key, every header value", "why_tests_cant": "all header values", "anchors": ["umadb-server/src/lib.rs: enforce_api_key"]}
{"id": "C36", "title": "Errors keep their meaning across the wire", "statement": "The error a remote client receives is of the same kind as the error produced by the store, for the kinds a client acts upon (integrity, serialization, corruption, invalid argument, authentication ...).", "quantifier": "every error", "why_tests_cant": "all error payloads", "anchors": ["umadb-proto/src/lib.rs: status_from_dcb_error, dcb_error_from_status"]}
{"id": "C37", "title": "Values keep their meaning across the wire", "statement": "Events, queries, conditions and tracking info sent by a client arrive at the store unchanged, and events sent back arrive unchanged; malformed ids are rejected, not altered.", "quantifier": "every event, query, condition", "why_tests_cant": "all values", "anchors": ["umadb-proto/src/lib.rs: conversions", "umadb-client/src/lib.rs"]}
{"id": "C38", "title": "Client streams deliver each event once, in order", "statement": "A client iterating a read response, one by one or in batches mixed in any way, obtains exactly the streamed events in order, each once, and the reported head is the one of the stream.", "quantifier": "every stream of batches, every interleaving of next/next_batch/collect/head calls", "why_tests_cant": "call interleavings unbounded", "anchors": ["umadb-client/src/lib.rs: AsyncClientReadResponse, SyncStreamEngine"]}
{"id": "C39", "title": "A torn header write is never believed", "statement": "Interrupting the write of a header page at any byte leaves the database openable at the previous commit or the new one.", "quantifier": "every tear position and header content", "why_tests_cant": "all tears", "anchors": ["umadb-core/src/header_node.rs", "umadb-core/src/page.rs", "umadb-core/src/mvcc.rs: get_latest_header_page"]}
{"id": "C40", "title": "Creation is crash safe", "statement": "A crash at any moment during creation of a database file leaves a path which can be opened afterwards.", "quantifier": "every crash point of creation", "why_tests_cant": "crash points", "anchors": ["umadb-core/src/mvcc.rs: Mvcc::new"]}
{"id": "C41", "title": "Opening never loses a commit", "statement": "Opening a database never discards an intact latest commit, even when a page read fails transiently.", "quantifier": "every read-failure pattern at open", "why_tests_cant": "fault injection", "anchors": ["umadb-core/src/mvcc.rs: Mvcc::new (header repair)"]}
{"id": "C42", "title": "Shutdown request is honoured", "statement": "A shutdown request sent to the writer makes it stop after answering the requests queued before it.", "quantifier": "every queue content", "why_tests_cant": "timing dependent", "anchors": ["umadb-core/src/writer_thread_blocking.rs", "umadb-core/src/writer_thread_pipelining.rs"]}
{"id": "C43", "title": "Page kind is protected by the checksum", "statement": "A changed page-kind byte is detected when the page is read.", "quantifier": "every page content, every changed kind byte", "why_tests_cant": "all contents and all kinds", "anchors": ["umadb-core/src/page.rs: serialize_page_into, Page::deserialize"]}
{"id": "C44", "title": "A restart of the process endangers nothing", "statement": "If the server process ends at any moment and is started again while the machine keeps running, acknowledged appends survive any later crash of the machine.", "quantifier": "every moment of the restart, every later history and crash point", "why_tests_cant": "Requires killing the process between the write and the sync of a header and crashing the machine before the next sync; the loss depends on which unsynced writes reach the disk.", "anchors": ["umadb-core/src/mvcc.rs:379-533", "umadb-core/src/mvcc.rs:810-854"]}
{"id": "C45", "title": "A batch given up by the pipelined writer leaves no trace", "statement": "With the pipelined writer, an append answered with an error because its batch was given up is never visible later.", "quantifier": "every batch, every reason to give it up, every later history, including pages that cannot be read for a moment", "why_tests_cant": "needs a read error in the moment of the rollback; tests have no faulty disk", "anchors": ["umadb-core/src/writer_thread_pipelining.rs: rollback"]}
{"id": "C46", "title": "Errors keep their text across the wire", "statement": "The message text of an error received by a remote client is that of the error produced by the store.", "quantifier": "every error", "why_tests_cant": "all texts and kinds", "anchors": ["umadb-proto/src/lib.rs: status_from_dcb_error, dcb_error_from_status"]}
{"id": "C47", "title": "What can be appended remotely can be read remotely", "statement": "An event that the server accepts from a client can be read back by a client, and a read with default settings succeeds whatever the sizes of the (individually acceptable) events.", "quantifier": "every event within the size limit of a request, every history, every batch size", "why_tests_cant": "needs payloads near 4 MiB or a thousand events of some kilobytes; tests use tiny events", "anchors": ["umadb-server/src/lib.rs: read", "umadb-client/src/lib.rs"]}
{"id": "C48", "title": "A remote read is complete or reported as failed", "statement": "If collecting the response to a remote read succeeds, the result is the whole answer to the query in one state of the store.", "quantifier": "every query, every moment at which the server is told to shut down", "why_tests_cant": "needs a shutdown between two batches of a read", "anchors": ["umadb-server/src/lib.rs: read", "umadb-client/src/lib.rs: collect_with_head"]}
{"id": "C49", "title": "Cancelling a response has the documented effect", "statement": "After a response is cancelled no further batch is fetched; events that had arrived are handed out at most once and in order; and the calls answer as documented (read: None and an empty Vec; subscription: the error CancelledByUser).", "quantifier": "every stream, every sequence of calls before and after", "why_tests_cant": "call interleavings unbounded", "anchors": ["umadb-client/src/lib.rs: cancel, cancel_handle", "umadb-dcb/src/lib.rs: DcbReadResponseSync, DcbSubscriptionSync"]}
{"id": "C50", "title": "The client sends its API key over TLS only", "statement": "A client configured with an API key sends requests only over a TLS URL, with exactly the header that a server with the same key admits and a server with another key refuses; a key that no header can carry is reported.", "quantifier": "every key, URL and set of other headers", "why_tests_cant": "all keys", "anchors": ["umadb-client/src/lib.rs: add_auth", "umadb-server/src/lib.rs: enforce_api_key"]}
{"id": "C51", "title": "A commit writes exactly its pages to the file", "statement": "Writing the pages of a commit, in runs of neighbouring pages and with the file growing in advance, puts the bytes of each page where a later read of that page finds them, and changes no other page; allocated space that was never written is not taken for a page; windows for memory maps are aligned for the operating system.", "quantifier": "every page size, operating system page size, file, set of distinct pages in any order", "why_tests_cant": "all offsets, lengths and groupings", "anchors": ["umadb-core/src/pager.rs: write_contiguous_pages, preallocate, pages_per_map", "umadb-core/src/mvcc.rs: write_pages"]}
{"id": "C52", "title": "Both ways of reading pages show the same pages", "statement": "Whatever page file I/O can read, a memory map can read, with the same bytes, and the other way round.", "quantifier": "every sequence of writes and reads from a new file on", "why_tests_cant": "needs files of more than 256 MiB and commits of any size", "anchors": ["umadb-core/src/pager.rs: read_page_mmap_slice, read_page_from_file", "umadb-core/src/io_shell.rs"]}
{"id": "C53", "title": "A batch is acknowledged only when its pages are completely written", "statement": "When the I/O thread of the pipelining writer reports success, every page of the batch is in the file.", "quantifier": "every batch, every outcome of each write that the system permits", "why_tests_cant": "short writes do not occur in tests", "anchors": ["umadb-core/src/io_shell.rs: do_uring_commit"]}
{"id": "C54", "title": "No message makes the server work on a malformed request", "statement": "Whatever bytes are received as a request, either they are refused, or the request that is handed to the store has texts that are valid UTF-8, positions and limits that fit their types, no retired subscription flag, and fewer events than bytes may carry; the writer's arithmetic on it cannot overflow unless the condition names the largest position (a finding). A message that ends in the middle of a field is refused.", "quantifier": "every byte string up to the size a server receives", "why_tests_cant": "all byte strings, including those no correct client sends", "anchors": ["umadb-proto/src/lib.rs", "umadb-server/src/lib.rs: append, read, subscribe"]}
{"id": "C55", "title": "Waiting requests are committed together, up to the limit", "statement": "A request that is waiting when the writer builds a batch joins that batch as long as the batch holds fewer events than the limit; no request joins a batch that already has reached it.", "quantifier": "every execution of the server, every queue", "why_tests_cant": "depends on which requests wait at which moment", "anchors": ["umadb-server/src/lib.rs: writer thread"]}
{"id": "C56", "title": "Pipelined writer: appends take effect in one order, each atomically", "statement": "With the pipelining writer, as long as no write or sync of a header page fails (and no read while a batch is rolled back; and, if the page cache is switched on, no failing commit has overwritten a cached page): requests are answered, and change what is stored, as if they were executed one after the other in the order of the commits; positions have no gaps; what was answered stays, across crashes and changes of the writer thread; a batch that is given up, be it cancelled or because its pages could not be written, leaves nothing behind. Readers may do whatever they like.", "quantifier": "every execution with the default page size, including batches built while their predecessor is being written, crashes at any step and restarts with either thread", "why_tests_cant": "overlap of batches with writes, cache loads and crashes: all interleavings", "anchors": ["umadb-core/src/writer_thread_pipelining.rs", "umadb-core/src/mvcc.rs: prepare_commit, finish_commit", "umadb-core/src/io_shell.rs"]}
{"id": "C57", "title": "Pipelined writer: crashes lose nothing that was answered", "statement": "As C56: after a crash of the machine, or the end of the process, the file can be opened, for either writer thread, and shows what was shown before, or in addition exactly the whole batch that was being written; a batch that was only being built on it is never there.", "quantifier": "every execution, every moment of the crash, every subset of unsynced writes surviving", "why_tests_cant": "needs power failures at chosen moments while two batches overlap", "anchors": ["umadb-core/src/writer_thread_pipelining.rs", "umadb-core/src/io_shell.rs", "umadb-core/src/mvcc.rs: new"]}
{"id": "C58", "title": "Pipelined writer: readers show one state, if opened at the right moment", "statement": "As C56, and if no reader registers while a batch is being built on one that is still being written (unless one of the same or an older state is registered already): a reader shows, as long as it is open, exactly one state, that of some moment between its being asked for and its being provided, and head() returns that of such a moment. Without the condition this is false (C14).", "quantifier": "every execution that meets the condition, every query, start, direction and limit", "why_tests_cant": "all interleavings of readers with overlapping batches", "anchors": ["umadb-core/src/mvcc.rs: reader, find_reusable_page_ids", "umadb-core/src/writer_thread_pipelining.rs"]}
{"id": "C59", "title": "umadb-check finds all events and complains only about pages that do not matter", "statement": "On a database file that only the store has written, crashes and failures included, umadb-check opens the file, ends, and finds exactly the events stored. It complains about nothing but: the absence of events, if there are none; pages that cannot be decoded and are free or past the high-water mark. It passes if and only if there is an event and all pages up to the high-water mark, and those after it up to the first empty one, can be decoded. Whatever a file holds, it complains of a page past the high-water mark exactly if that page cannot be decoded and it and all pages from the mark to it are there and not all zeros, and of a page below the mark exactly if it cannot be read.", "quantifier": "every file an execution of the store leaves behind, whatever the page size, hash function and schedule", "why_tests_cant": "all executions, crashes at any step with any subset of the unsynced writes", "anchors": ["umadb-tools/src/bin/umadb-check.rs"]}
{"id": "C60", "title": "umadb-check passes every healthy database", "statement": "A database all of whose commits succeeded, and one that is new or was interrupted by a crash from which it recovered, passes umadb-check.", "quantifier": "every such file", "why_tests_cant": "the pages that fail are left by particular sequences of readers and appends", "anchors": ["umadb-tools/src/bin/umadb-check.rs: 258-312, 377-407, 592", "umadb-core/src/mvcc.rs: 1355"]}
{"id": "C61", "title": "umadb-check leaves the file alone, and a file that passes is in order", "statement": "umadb-check does not modify the file; if it reports that the headers are fine, they were; if it passes a file, no event is missing and reads by tag return the events that have the tags.", "quantifier": "every file", "why_tests_cant": "needs files damaged in ways that keep each page intact", "anchors": ["umadb-tools/src/bin/umadb-check.rs: 113-120, 444-606"]}
{"id": "C62", "title": "Pipelined writer: each append is answered once, as some one-at-a-time order says", "statement": "With the pipelined writer, at any moment each append that arrived is in exactly one place: answered, about to be answered, in the commit being written, in the batch being built, or waiting; none is answered twice. Those answered with a position are, in order of arrival, those the database committed, with the answers they would get if processed one at a time on what the database showed at the start; the others are answered with errors and leave nothing stored.", "quantifier": "every schedule of clients, writer thread, I/O thread and readers, every batch limit", "why_tests_cant": "unbounded interleavings of overlapping batches", "anchors": ["umadb-core/src/writer_thread_pipelining.rs", "umadb-server/src/handler.rs"]}
{"id": "C63", "title": "Pipelined writer: no append waits for ever", "statement": "If input and output do not fail, the pipelined writer is never stuck: as long as an append waits or a commit is being written, it or the I/O thread can take a step, and each step leaves less to do. When nothing is left to do, every append has been answered. When the writer ends after a shutdown request, every append that came before it has been answered.", "quantifier": "every reachable state of queue, writer thread and I/O thread", "why_tests_cant": "a lost wakeup or a commit nobody waits for needs a particular interleaving", "anchors": ["umadb-core/src/writer_thread_pipelining.rs: 104-314"]}
{"id": "C64", "title": "Pipelined writer: the published head is the stored one", "statement": "The head that the pipelined writer announces to subscribers, once the answers of a commit are sent, is the head of the database then: never one that is not yet durable, and never an older one.", "quantifier": "every execution without failed writes of a header, as C56", "why_tests_cant": "timing between the answer, the announcement and the next batch", "anchors": ["umadb-core/src/writer_thread_pipelining.rs: 40-103, 290-314", "umadb-server/src/lib.rs: subscribe"]}
{"id": "C65", "title": "Pipelined writer: shutdown is honoured, and cancellations stay with their client", "statement": "With the pipelined writer, a shutdown request makes the writer stop after the requests before it; an append is never answered 'cancelled' because another client cancelled.", "quantifier": "every queue", "why_tests_cant": "timing of a message between two others", "anchors": ["umadb-core/src/writer_thread_pipelining.rs: 116-235"]}
{"id": "C66", "title": "Pipelined writer: a failed commit leaves no trace", "statement": "With the pipelined writer, an append answered with an error because its commit failed is never visible later, and does not endanger other data, also when the failure was in the final sync and a crash follows.", "quantifier": "every failure point of a commit, followed by any commits and a crash", "why_tests_cant": "fault + crash combinations", "anchors": ["umadb-core/src/writer_thread_pipelining.rs: rollback", "umadb-core/src/io_shell.rs"]}
{"id": "C67", "title": "Each call has exactly two names, and the API key covers both", "statement": "A gRPC request to /umadb.UmaDBService/M does exactly what the same request to /umadb.v1.DCB/M does, for the five calls M; a request to any other path does nothing to the database; without the right API key no request by whatever path reads or changes anything.", "quantifier": "every path, query string, metadata and state", "why_tests_cant": "the set of paths is infinite; repeated and nested prefixes", "anchors": ["umadb-server/src/lib.rs:79-165", "umadb-server/src/lib.rs:427-442", "umadb-proto/proto"]}
{"id": "C68", "title": "A running server has the options it was given", "statement": "If the server starts, it listens where asked, uses the database file asked for (uma.db inside, for a directory), the asked read method, caches, fill and writer, requires the API key given, and uses TLS with exactly the given files if a certificate or key was given; it never runs with less protection than asked for. At least one reader is admitted at a time, and as many as UMADB_READER_THREADS asks for.", "quantifier": "every command line, environment and machine", "why_tests_cant": "combinations of eleven options and faults", "anchors": ["umadb/src/lib.rs:12-224", "umadb-server/src/lib.rs:43-70", "umadb-server/src/lib.rs:382-396", "umadb-core/src/mvcc.rs:63-72"]}
{"id": "C69", "title": "Unusable options are refused", "statement": "A command line with an option value that cannot be used makes the program end with an error message before it serves.", "quantifier": "every command line", "why_tests_cant": "one has to think of the value", "anchors": ["umadb/src/lib.rs:151", "umadb/src/lib.rs:221", "umadb-server/src/lib.rs:185-188", "umadb-server/src/lib.rs:409-418"]}
{"id": "C70", "title": "Starting never lowers the limit on open files", "statement": "Starting the server leaves the soft limit on open files at least as high as it was and at most at the hard limit, and raises it to the hard limit or to 2^20 where the kernel allows it.", "quantifier": "every pair of limits and every kernel", "why_tests_cant": "depends on the limits of the machine", "anchors": ["umadb-server/src/lib.rs:206-268"]}
{"id": "C71", "title": "Databases of the older format keep working", "statement": "A database file of schema version 0 (8-byte tag hashes) opens, and again after every crash or end of the process; everything that reads, appends and tracking queries answer afterwards, in every interleaving and after every crash, is what the abstract store answers. The tag hashes the code computes are stored without loss in both formats.", "quantifier": "every execution on a schema 0 file, every tag", "why_tests_cant": "interleavings and crashes on top of a file format no current software creates", "anchors": ["umadb-core/src/mvcc.rs:452-470", "umadb-core/src/db.rs:919-966", "umadb-core/src/tags_tree_nodes.rs:14-60"]}
{"id": "C72", "title": "Databases opened in one process do not influence each other", "statement": "Whatever is done with one open database, another one opened in the same process answers as if it were alone.", "quantifier": "every interleaving of executions on two databases", "why_tests_cant": "needs two databases of different format at once; the damage shows only later", "anchors": ["umadb-core/src/tags_tree_nodes.rs:14-25", "umadb-core/src/mvcc.rs:464-470"]}
{"id": "C73", "title": "Iteration in Python hands out every event once and in order", "statement": "The events a Python program gets from a response, by whatever sequence of its methods, are those the server sent, each once and in order; the end is announced only when all of them were handed out, unless the program was told of an error or cancelled the response; a call that waits longer than the polling interval does not fail for that.", "quantifier": "every stream, every sequence of calls, every timing of messages and signals", "why_tests_cant": "depends on when messages and signals arrive", "anchors": ["umadb-python/src/lib.rs:285-463", "umadb-client/src/lib.rs:480-700"]}
{"id": "C74", "title": "Python exceptions tell the kind of error", "statement": "An append refused for its condition raises IntegrityError and nothing else does; authentication failures, invalid arguments and damage have their classes; connection errors raise TransportError and other errors RuntimeError or OSError, and iteration after cancel() raises CancelledByUserError, as documented.", "quantifier": "every error of the server, every connection failure, every point of cancellation", "why_tests_cant": "connection failures and internal errors are not provoked", "anchors": ["umadb-python/src/lib.rs:15-33", "umadb-python/README.md:459-470", "umadb-python/src/lib.rs:363-377", "umadb-proto/src/lib.rs"]}
{"id": "C75", "title": "Metadata given as a dict is accepted and comes back as the same dict", "statement": "An event made in Python with any metadata dict is never refused for a repeated key, and the dict read back is the same, in whatever order the map is stored.", "quantifier": "every dict, every order of the hash map", "why_tests_cant": "the order of a hash map differs from run to run", "anchors": ["umadb-python/src/lib.rs:46-63", "umadb-python/src/lib.rs:87-90"]}
{"id": "C76", "title": "close() stops the responses of its client and no others", "statement": "Closing or dropping a client makes every response it returned, and that is still there, raise the cancellation at the next step (unless at its end), leaves the responses of other clients of the process untouched, and dropping a response never detaches another one from its client.", "quantifier": "every interleaving of any number of clients, responses and threads", "why_tests_cant": "needs interleavings of opening, dropping and closing", "anchors": ["umadb-client/src/lib.rs:788-833", "umadb-client/src/lib.rs:1055-1057", "umadb-client/src/lib.rs:1181-1187"]}
{"id": "C77", "title": "A remote read holds a snapshot only while a batch is read", "statement": "A remote read or subscription that waits for its turn, for the client to take a response or for new events, or that has ended, failed or been closed, has no reader registered; so slow or abandoned clients do not keep pages from being reused.", "quantifier": "every interleaving of any number of remote calls, appends, failures and disconnections", "why_tests_cant": "a leaked registration only shows in the growth of the file, and depends on where the call was interrupted", "anchors": ["umadb-server/src/lib.rs:449-661", "umadb-server/src/lib.rs:665-845", "umadb-server/src/handler.rs:94-130"]}
{"id": "C78", "title": "A remote read that ends without an error is complete", "statement": "When a page cannot be read for a remote read or subscription, the client gets an error; a stream that ends normally has all events asked for.", "quantifier": "every store, request, and page that cannot be read", "why_tests_cant": "needs failing disk reads at chosen pages", "anchors": ["umadb-server/src/handler.rs:94-130", "umadb-core/src/tags_tree.rs:697-767"]}
{"id": "C79", "title": "The limit on concurrent reads is kept and locks nobody out", "statement": "At most the configured number of batches is read at once, whatever the number of remote reads and subscriptions; and from any state each of them can get its next response (or its end, or, for a subscription that has caught up, go to wait) by nothing more than those that are reading a batch finishing it: slow clients, waiting subscriptions and abandoned calls keep no permit. The same with lookups of tracked positions, which take permits of the same semaphore: reads and lookups together never exceed the number, a lookup gives its permit back whatever the others do, and neither keeps the other out.", "quantifier": "every interleaving of any number of remote reads, subscriptions, appends, failures and disconnections; every number of permits a started server can have", "why_tests_cant": "a permit that is not given back on one path locks readers out only after as many such events as there are permits", "anchors": ["umadb-server/src/lib.rs:371-419", "umadb-server/src/lib.rs:512-547", "umadb-server/src/lib.rs:729-772", "umadb-server/src/lib.rs: get_tracking_info"]}
{"id": "C80", "title": "One process at a time has the database", "statement": "However many processes are started on one path, at any moment at most one of them has got past the lock, and the database is read and written only while that process runs; every other is told that the file is locked and changes nothing.", "quantifier": "any number of processes, started, ended and killed at any moment, any interleaving of their steps, crashes of the machine", "why_tests_cant": "interleavings of several processes between looking for, opening and locking a file", "anchors": ["umadb-core/src/pager.rs:62-103", "umadb-core/src/mvcc.rs:239-533"]}
{"id": "C81", "title": "Processes started at the same time on one path do no harm", "statement": "If several processes are started on the same path, then what one of them has acknowledged is kept by the others, and one of them, or a later one, can open the database; as if they had been started one after the other.", "quantifier": "any number of processes and interleavings; path with and without a file", "why_tests_cant": "needs two processes meeting within microseconds of a first start", "anchors": ["umadb-core/src/pager.rs:63", "umadb-core/src/pager.rs:65-83", "umadb-core/src/pager.rs:88-103", "umadb-core/src/mvcc.rs:306-377"]}
{"id": "C82", "title": "Answers and cache loads may be spread over time", "statement": "A reader gets the pages of an answer one after the other, pages are read from the file and put into the page cache at different moments, and commits, other readers, evictions and failed writes come in between. Nevertheless everything that is answered could have been answered with each answer made in one instant: in particular a reader opened at some moment answers every read as of that moment, also a read during which commits are made. A read that has begun ends, whatever else is going on at that time.", "quantifier": "all executions, with any number of readers, any interleaving of single page reads and cache loads with the writer, with or without a page cache, all queries", "why_tests_cant": "the interleavings of single page reads with page writes and cache insertions are not under the control of a test", "anchors": ["umadb-core/src/mvcc.rs:603-625", "umadb-core/src/db.rs:532-822", "umadb-core/src/events_tree.rs:58-77", "umadb-core/src/mvcc.rs:688-730"]}
{"id": "C83", "title": "Acknowledged events survive a reader that is slow to fill the page cache", "statement": "With the pipelining writer and a page cache, whatever readers do and however long they take to put a page they have read from the file into the cache, events whose append was acknowledged are returned by later reads, in this process and after a restart (as C56 and C57 say when reads and cache loads take no time).", "quantifier": "all executions without failing input and output, any interleaving of page reads and cache insertions with the writer and I/O threads", "why_tests_cant": "needs a thread to be held up between reading a page and inserting it into the cache for the time of two commits", "anchors": ["umadb-core/src/mvcc.rs:603-625", "umadb-core/src/mvcc.rs:922-930", "umadb-core/src/writer_thread_pipelining.rs:56-72", "umadb-core/src/writer_thread_pipelining.rs:135-147", "umadb-core/src/mvcc.rs:688-720"]}
{"id": "C84", "title": "Only two kinds of page can be too long for a commit", "statement": "Of the pages a commit has to write, only leaves of the tag index and pages of the tracking tree can be longer than a page; every other page fits, however large the batch and the database, for every allowed page size. So long as nothing stored has a tag and no tracking position is recorded, no batch can make its commit fail for the length of a page, and the commit can be completed.", "quantifier": "every execution with crashes, restarts and aborted batches, both writer threads, every page size, files of both schema versions", "why_tests_cant": "the page sizes depend on the whole history of splits, on pages moved to the free list and on readers that hold pages back", "anchors": ["umadb-core/src/events_tree.rs", "umadb-core/src/tags_tree.rs", "umadb-core/src/mvcc.rs: commit, prepare_commit"]}
{"id": "C85", "title": "A read over pages that cannot be read returns only true events", "statement": "Whatever pages cannot be read while a reader is answered, and however this changes from one page request to the next, a read either reports an error or returns events of the one committed state the reader shows that match the query, each once, in order and within the limit, together with the right head; and if the query is not only by tags it returns all of them. A tracking position is right or an error is reported.", "quantifier": "every execution with concurrent readers, commits, crashes and restarts; every choice of page requests that fail; every query, start, direction and limit", "why_tests_cant": "needs a fault at every page request of every read, in combination", "anchors": ["umadb-core/src/tags_tree.rs:697-767", "umadb-core/src/db.rs:151-197", "umadb-core/src/db.rs: read_conditional", "umadb-core/src/events_tree.rs: event_tree_lookup, EventIterator"]}
{"id": "C86", "title": "Pages that cannot be read at worst make a tag condition misjudged", "statement": "Whatever pages the writer cannot read, nothing that was stored is lost, altered or moved, positions stay without gaps, and each committed request is answered and carried out as it should be, except that one whose append condition is only by tags and fails may be carried out as if it had no condition, rejected although it is a retry, or be taken for a retry of stored events with exactly the submitted ids.", "quantifier": "every execution with concurrent readers, batches, aborted batches, crashes and restarts (schema 1, blocking writer); every choice of page requests that fail", "why_tests_cant": "needs a fault at every page request of every append, in combination with later crashes", "anchors": ["umadb-core/src/db.rs:827-918", "umadb-core/src/db.rs:967-1030", "umadb-core/src/tags_tree.rs:697-767", "umadb-core/src/writer_thread_blocking.rs:54-148"]}
{"id": "C87", "title": "What a new database has acknowledged survives a crash", "statement": "Events whose append was acknowledged are there after a crash of the machine, also if the database file was created since the machine was started.", "quantifier": "every execution that starts without a file; any moment at which the file system stores the directory entry", "why_tests_cant": "needs a power failure between the first commit and the file system's own writing of the directory", "anchors": ["umadb-core/src/pager.rs:62-80", "umadb-core/src/pager.rs:544-575", "umadb-core/src/mvcc.rs:300-398"]}
{"id": "C88", "title": "A wrong page size does no harm", "statement": "Opening or checking a database with another page size than the one it was created with may fail, but leaves the database as it was: opened again with the right page size it shows what it showed before.", "quantifier": "every file, every page size", "why_tests_cant": "tests open a file with the size they created it with; most other sizes are harmless", "anchors": ["umadb-core/src/mvcc.rs:399-533", "umadb-tools/src/bin/umadb-check.rs:46-76, 104-120"]}
{"id": "C89", "title": "Files of earlier versions keep their meaning", "statement": "Whatever a database holds is found again, and everything done with it later is answered as if nothing had changed, when pages of its file are in the layout of an earlier version: headers without a schema version or without extension fields, and recorded positions with long lengths and unsorted sources. What does not fit the present layout is refused, not cut off. The layout of every kind of page is the documented one.", "quantifier": "every execution leading to the file, every choice of pages in an older layout, every order of the sources, every execution after it", "why_tests_cant": "the tests read three hand-made pages; whether a whole database behaves the same depends on the state and on all that follows", "anchors": ["umadb-core/src/header_node.rs:60-170", "umadb-core/src/tracking_tree_nodes.rs:36-124, 240-305", "umadb-core/src/page.rs:36-80, 205-232", "umadb-core/src/node.rs:11-123"]}
{"id": "C90", "title": "Client and server keep to the published protocol", "statement": "Any bytes that umadb.proto and the Protocol Buffers rules make a message with certain contents, and that are not longer than what is accepted, are taken for these contents: by the server for requests, by the client for answers and errors. This holds for fields in any order, for fields that umadb.proto does not have, for values sent although they are the default. What client and server send are such messages with exactly the contents they were given, with the error numbers of umadb.proto.", "quantifier": "every sequence of bytes, every message type, every request, answer and error", "why_tests_cant": "all tests use the same generated code on both sides; a field number that is wrong on both sides, or an order that another implementation uses, is not seen", "anchors": ["umadb-proto/proto/v1/umadb.proto:5-168", "umadb-proto/src/lib.rs:17-224", "umadb-server/src/lib.rs:457-477, 673-689, 856-892", "umadb-client/src/lib.rs:95-118, 1028-1034, 1103-1112, 1155-1171"]}
{"id": "C91", "title": "The file grows only when no page can be used again", "statement": "If a commit makes the file longer, then every page that is free after it either was put out of use by this very commit, or was put out of use after the state that some reader, registered when the transaction began, is looking at. Without readers, after a commit that makes the file longer, every free page was put out of use by that commit. The free pages, and the transaction each was put out of use by, are those the file itself records; they are exactly the pages of the file that nothing refers to.", "quantifier": "every execution: any batches, any readers opening and closing at any time, failures, crashes and restarts; every commit; every page", "why_tests_cant": "whether free pages are forgotten shows only as a file that grows faster than it should, after many commits with particular free list shapes and readers; no answer is ever wrong", "anchors": ["umadb-core/src/mvcc.rs:1083-1092", "umadb-core/src/mvcc.rs:1139-1333", "umadb-core/src/mvcc.rs:722-755", "umadb-core/src/mvcc.rs:125-153"]}
{"id": "C92", "title": "What one client was told is stored, every client that asks later gets", "statement": "Once the server has answered an append with a position, any read that is requested afterwards, by any client, and ends without an error delivers the appended events that match its query and range, unchanged and at their positions, unless it was cut off by its own limit. The same holds for the program behind the other client's library, after the way through protobuf. A subscription that waits, without a notification outstanding, has delivered them. A read that is requested after another read has been sent an event delivers that event too: reads do not go back in time.", "quantifier": "every execution of the server with the blocking writer: any number of clients, appends, reads, subscriptions, cancellations, failing commits, concurrent in any way; any query, range, direction, limit, batch size", "why_tests_cant": "it is about what happens between the answer and the next request under all schedules of the writer thread, the tasks of the reads and the page cache; a stale snapshot would appear only in a window of microseconds", "anchors": ["umadb-core/src/writer_thread_blocking.rs:151-169", "umadb-server/src/lib.rs:495-600", "umadb-server/src/handler.rs:94-130", "umadb-core/src/mvcc.rs:560-640"]}
{"id": "C93", "title": "A decision based on a remote read is protected", "statement": "A client reads, forwards and to the end, the events selected by a query, and gets a list of events and a head. Then an append is sent on condition that no event matching the same query was stored after that head, and is answered with a position. Then the list is exactly all the selected events that were stored when the append took effect: nothing the decision should have taken into account was stored in between, or missed. The only other case is that events with the ids of the request, matching and after the head, had already been stored: the append repeats one that took effect.", "quantifier": "every execution of the server with the blocking writer, any number of other clients; every query, start, limit and batch size; read and append by the same or by different clients", "why_tests_cant": "it joins the snapshot of a read sent in several responses, the head that comes with it, the wire format, the client library and the judgement of the condition; tests exercise these one by one and with few interleavings", "anchors": ["umadb-server/src/lib.rs:495-600", "umadb-client/src/lib.rs", "umadb-core/src/db.rs:930-1060", "umadb-core/src/writer_thread_blocking.rs:54-111"]}
{"id": "C94", "title": "Remote reads are answered from one snapshot with the pipelining writer as well", "statement": "As C23, with the pipelining writer, under the conditions of C56 (no header write or sync fails, ...) and C58 (no reader registers first while a batch is being built on one that is being written): what a remote read has been sent, in however many responses, is at any time the beginning of the answer to its request in one state of the store, committed between the arrival of the request and the first response, and all of it when the stream has ended; batches keep to their size and carry the head of that state; the stream fails only for an unreadable page. Either client library collects exactly that answer and head from the stream. The tasks of the reads do not change what the writer thread and the I/O thread do.", "quantifier": "every execution with the default page size: any number of clients, reads that begin, go on and end while batches are built, written, acknowledged or given up, in any interleaving", "why_tests_cant": "a read in several responses is interleaved with two overlapping batches, the I/O thread and the page cache; the windows are microseconds", "anchors": ["umadb-server/src/lib.rs:449-661", "umadb-core/src/writer_thread_pipelining.rs:97-320", "umadb-server/src/handler.rs:81-142"]}
{"id": "C95", "title": "Subscriptions with the pipelining writer: exact, and notified of every commit", "statement": "As C24, with the pipelining writer, under the conditions of C56 (no header write or sync fails, ...) and C58 (no reader registers first while a batch is being built on one that is being written): the events a subscription has been sent are at any time the beginning of the list of the stored events that match and come after the given position, in order, without gap or duplicate, and never an event of a batch that is only being written; responses are not empty. A subscriber that waits although there are events it has not been sent has been notified or is about to be: the watched version has changed or the writer thread is on its way to change it.", "quantifier": "every execution with the default page size: any number of subscriptions, beginning at any moment relative to building, writing, acknowledging and publishing", "why_tests_cant": "lost wake-ups need the subscription to look between the acknowledgement and the publication of a commit that overlaps with the next", "anchors": ["umadb-server/src/lib.rs:665-845", "umadb-core/src/writer_thread_pipelining.rs:56-72"]}
{"id": "C96", "title": "Across clients of the pipelining writer: acknowledged events are read, conditional appends protect decisions", "statement": "As C92 and C93, with the pipelining writer, under the conditions of C56 (no header write or sync fails, ...) and C58 (no reader registers first while a batch is being built on one that is being written): once an append has been answered with a position, a read requested afterwards by any client delivers the appended events it asks for (unless cut off by its limit), so does its client library, and a subscription that waits without outstanding notification has delivered them; a read requested after another has been sent an event delivers it too; a list read to the end with its head is exactly what was stored of it when an append conditional on that head and query took effect, even when the append was built while another batch was being written.", "quantifier": "every execution with the default page size, any number of clients, every query, range, limit, batch size", "why_tests_cant": "joins the overlap of batches, the order of answers and publication, the snapshot of a read in several responses, the wire and the client library", "anchors": ["umadb-core/src/writer_thread_pipelining.rs:56-72,160-300", "umadb-server/src/lib.rs:449-845", "umadb-core/src/db.rs:930-1060"]}
{"id": "C97", "title": "Pipelined writer: clients that read at any moment get what was acknowledged, and may decide by it", "statement": "C96 without its condition on when readers register: on hardware that does not fail, a remote read that starts after an append was acknowledged returns its events (if they match), and a client that reads and then appends, on condition that nothing matching was stored after the head it was given, has decided on all matching events. False: a read by tags that starts while one batch is being written and the next is being built can be told that there are no such events, because the page of the tag index is overwritten and the failure to read it is taken for the end of the list; the conditional append that follows is accepted.", "quantifier": "every execution without failures of the hardware, every moment a read starts at", "why_tests_cant": "needs a read to start in a window of a few instructions between two overlapping batches and to go on after the second is written", "anchors": ["umadb-core/src/mvcc.rs: reader, find_reusable_page_ids", "umadb-core/src/writer_thread_pipelining.rs", "umadb-core/src/tags_tree.rs: TagsTreeIterator", "umadb-server/src/lib.rs: read"]}
{"id": "C98", "title": "Remote reads come to an end", "statement": "The responses to a remote read are never more than the events it is answered with (or one, if there are none), however many events are appended meanwhile. And from every state a server can reach, with any number of reads and subscriptions competing for any positive number of permits, a read whose client stays and for which every page can be read gets its whole answer, without a commit, an end of another call or another client doing anything: it is enough that the calls that are reading a batch finish it.", "quantifier": "every execution of the server, every number of permits, every query, start, direction, limit and batch size", "why_tests_cant": "a read that goes on for ever, or is starved, depends on the interleaving with appends and with other reads", "anchors": ["umadb-server/src/lib.rs: read", "umadb-server/src/handler.rs: read"]}
{"id": "C99", "title": "Remote reads and subscriptions next to the pipelining writer get on", "statement": "With the pipelining writer thread, too, the responses to a remote read are never more than the events it is answered with (or one). And at any time at which no batch is being built on one still being written and no commit is about to be announced, steps of the calls alone lead to the end of a read whose client stays, with the whole answer, and to a subscription having been sent all that is committed and that it asks for: the writer thread and the I/O thread need not do anything, however long the commit being written takes, and their state is left as it was.", "quantifier": "every execution with the pipelining writer thread that meets the conditions of C57 and C58, every query, start, direction, limit and batch size, any number of other calls", "why_tests_cant": "whether a call can get stuck waiting for a commit or a notification depends on where the three threads are when it starts", "anchors": ["umadb-server/src/lib.rs: read, subscribe", "umadb-server/src/handler.rs: read", "umadb-core/src/writer_thread_pipelining.rs"]}
{"id": "C100", "title": "From any point the server with the pipelining writer can finish its calls", "statement": "Wherever the writer thread, the I/O thread and the calls are, and with no new request coming in, there is a way for the server to go on that ends each read whose client stays, with the whole answer, and that sends each subscription all that is committed and that it asks for. The threads' own steps first lead to a point where no batch is being built on one still being written and no commit is about to be announced, also when the write of a commit has failed: the batch built on it is then given up and the writer made anew. Asked of a batch being built: the requests that may still join it keep to the documented use, positions are left for their events, and no write of the commit before has failed yet.", "quantifier": "every execution with the pipelining writer thread that meets the conditions of C57 and C58, at every point of it, every query, start, direction, limit and batch size, any number of other calls and waiting requests", "why_tests_cant": "a deadlock would need the three threads and the calls to meet in one of unboundedly many states; no set of runs visits them all", "anchors": ["umadb-core/src/writer_thread_pipelining.rs", "umadb-core/src/io_shell.rs", "umadb-server/src/lib.rs: read, subscribe"]}
{"id": "C101", "title": "Remote reads and subscriptions do a bounded amount of work", "statement": "However the other calls, the clients and the writer are scheduled, a remote read does at most 7 steps and 5 for each event it is answered with (at least one response): it never goes round its loop without sending something. A subscription does at most 7 steps, 5 for each event committed so far that it asks for, and 6 for each commit made since it began (counting one made just before and not yet announced): it is never woken without a commit, and never twice for one, so while nothing is committed it comes to rest. Steps: taking a permit, opening the reader, the reader being ready, reading a batch, handing it on, waking up, ending. The same with the pipelining writer.", "quantifier": "every execution of the server with either writer thread, of every length, at every point of it, every query, start, direction, limit and batch size; calls for which a page could not be read and was passed over excepted", "why_tests_cant": "a loop that spins, or a wake-up storm, shows only under particular interleavings of appends, notifications and reads; tests see the events that are delivered, not the work done for them", "anchors": ["umadb-server/src/lib.rs: read, subscribe", "umadb-server/src/handler.rs: read, watch_head"]}
{"id": "C102", "title": "Calls that compete for permits are all served, with either writer thread", "statement": "The server reads at most as many batches at once as its setting for concurrent reads says, with the pipelining writer thread as with the blocking one. If that is at least one, no call is shut out: wherever the threads and the other calls are, whoever has the permits, and with no new request coming in, there is a way for the server to go on, within the limit, that ends each read whose client stays with the whole answer, and one that sends each subscription all that is committed and that it asks for (with the blocking writer thread: all that was committed at that point).", "quantifier": "every number of permits, every execution of the server with either writer thread (with the pipelining one those of C57 and C58, and with the room asked for in C100), at every point of it, every query, start, direction, limit and batch size, any number of other calls", "why_tests_cant": "a permit kept while waiting for an event, for a client or for another permit blocks the others only when all permits are out; tests run with far more permits than calls", "anchors": ["umadb-server/src/lib.rs: read, subscribe, readers_semaphore", "umadb-core/src/writer_thread_pipelining.rs"]}
{"id": "C103", "title": "Requests built with the library's builders ask for what was put in", "statement": "An event made with the builder calls, in any order and number, has the type, data, tags and id given last and, for each metadata key, the value given last (an entry for the key, or a whole list of entries, which replaces all before it); what was not given is empty. An entry given again keeps its place. Unless a list with a repeated key was handed over, the event is never refused for a repeated key. A query matches exactly the events that one of the items added to it matches, and every event if none was added; adding an item to a query that has one never takes a match away. An item matches the events of one of the types given last (any, if none or an empty list) that have all the tags given last.", "quantifier": "all sequences of builder calls with all arguments, all events", "why_tests_cant": "tests build a handful of events and queries; calls may come in any order, be repeated, and overlap in keys", "anchors": ["umadb-dcb/src/lib.rs: DcbEvent, DcbQuery, DcbQueryItem"]}
{"id": "C104", "title": "An error that was serialised means the same when read back", "statement": "With the feature serde: an error written to any data format and read back has the kind and the text it had. True of every error but I/O errors, and of I/O errors made with a text and of a kind that has a name; names of kinds are not confused, and handing an error on again changes nothing more. False of the errors of the operating system: all of them are read back with the text \"unknown error\", and those without a name (such as EIO) with the kind \"other\".", "quantifier": "all errors, all kinds of I/O error", "why_tests_cant": "the list of kinds is written out twice and only agrees by inspection; the errors that lose their text are those of failing devices", "anchors": ["umadb-dcb/src/lib.rs: serde_io_error, DcbError"]}
{"id": "C105", "title": "How a client connects, and that its key only travels encrypted", "statement": "Whatever address and options a client was made with: if it sends its API key with a call, the connection is encrypted. A client connected to an https:// or grpcs:// address is encrypted, one connected to http:// is not and refuses to send its key. With the builder grpcs:// is the same as https://. Connecting makes between 1 and 50 attempts, gives the first client that could be had and an error only after 50 failures; the client has the key and the batch size given last, and a server that is only trusted through a certificate of its own is reached with ca_path and not without. False in part: connecting to grpcs:// without options for TLS always fails; an address HTTPS:// is encrypted but the key is refused; an unreadable certificate panics.", "quantifier": "all addresses, options, sequences of settings, behaviours of the server over the attempts", "why_tests_cant": "the decision to encrypt and the decision to send the key are taken in different places from different texts; tests try two or three addresses", "anchors": ["umadb-client/src/lib.rs: new_endpoint, new_channel, AsyncUmaDbClient::connect, connect_with_tls_options, add_auth, UmaDbClient"]}
{"id": "C106", "title": "What umadb-check recovers of damaged tag pages is what they held", "statement": "On a page of the tag index that cannot be decoded, umadb-check never stops with a panic, whatever the page holds. Bytes that the database itself can decode it reads as the database does, without remark, and it remarks on all others. Of a page that is cut off it reports only entries the page had: the first ones in full and of one more the first positions. Of a page that is overwritten from some byte on in any way it recovers every entry that ends before. The printed numbers are the number of positions, of those with a readable event, of those whose event has a tag with the key's hash, and the first five positions without.", "quantifier": "all byte strings, both key widths, all leaves, all cuts and overwritten ends, all sets of readable events", "why_tests_cant": "damaged pages come in as many forms as there are byte strings; the program is used when the data is already bad, and the repository has no test of it", "anchors": ["umadb-tools/src/bin/umadb-check.rs: forensic_parse_tags_leaf, analyze_entries"]}
{"id": "C107", "title": "The tag index on the disk is exact", "statement": "Read directly off the file, for the last committed state and for every state a reader has open, the tag index has a position under a key exactly if an event is stored at that position and has a tag with this hash: no entry is missing, and none is left over from a failed or aborted append, a crash, or a page used again. So whatever umadb-check recovers of a leaf of the index of such a file, whole or cut off anywhere, it counts as matching.", "quantifier": "every execution, crashes and I/O failures included, every key and position; every cut of every leaf", "why_tests_cant": "reads check the events the index refers to again and so hide superfluous entries; a missing one shows only for the query that needs it", "anchors": ["umadb-core/src/tags_tree.rs: tags_tree_insert", "umadb-core/src/tags_tree_nodes.rs", "umadb-tools/src/bin/umadb-check.rs:698-865"]}
{"id": "C108", "title": "The events and tracked positions on the disk are exactly those stored", "statement": "Read directly off the file with nothing but the node layout, for the last committed state and for every state a reader has open, the tree of events has an event at a position exactly if that event (type, data, metadata, tags, uuid, tracking) is stored there, whether its bytes are in the leaf or on overflow pages; and the tracking tree has a position for a source exactly if that is the last one recorded. Nothing is left of failed, refused or lost appends. With the pipelining writer this holds also while the pages of the next commit are being written.", "quantifier": "every execution, crashes and I/O failures included, every position, event, source; sequential and pipelining writer", "why_tests_cant": "reads go through the same tree code that wrote the pages, starting from the index or the head; what else the tree holds (entries no lookup reaches, stale separators, chains shared between events) does not show", "anchors": ["umadb-core/src/events_tree.rs: event_tree_append, event_tree_lookup", "umadb-core/src/events_tree_nodes.rs: EventLeafNode, EventValue, EventOverflowNode", "umadb-core/src/tracking_tree_nodes.rs: TrackingLeafNode, TrackingInternalNode", "umadb-core/src/db.rs: get_tracking_info"]}
{"id": "C109", "title": "Older databases tell tags apart by 64-bit hashes", "statement": "In a database of schema version 0, two tags whose 32-bit checksums agree still have different index keys unless the second, salted half agrees by chance. (Tags that differ only within four bytes of each other always have different keys.)", "quantifier": "every two tags", "why_tests_cant": "clashes of checksums are not in the tests, and the tag hash is only benchmarked", "anchors": ["umadb-core/src/db.rs:929-955"]}
{"id": "C110", "title": "umadb-check reports missing events exactly", "statement": "If the events umadb-check finds end before the position the header says, it names exactly the pages, in use or not, below the high-water mark or in the written run past it, that hold a leaf with a missing position, with the number of missing positions on each and the ten smallest of them in order. On a file that only the store has written nothing is reported missing. An event that is reported missing cannot be read.", "quantifier": "every file, whatever damage; every file an execution leaves, crashes and failures included", "why_tests_cant": "the tool has no tests; damage at every place of a file, and every state of its free pages, are not tried", "anchors": ["umadb-tools/src/bin/umadb-check.rs:444-530", "umadb-tools/src/bin/umadb-check.rs:608-672"]}
{"id": "C111", "title": "umadb-check's counts by type are exact, and a damaged page keeps its name", "statement": "The number umadb-check gives for a type of page is exactly the number of pages counted under it among the two header pages that are there, the pages below the high-water mark and the written run past it; no page is counted twice or left out, and a type with no page is not listed. A page that can be read is counted under its own type. A page that was written by the store and damaged anywhere but in its first byte is still counted under the type it was written as.", "quantifier": "every file, whatever damage; every node, page size and tag hash width; every damage that leaves the first byte", "why_tests_cant": "the tool has no tests; every type of page with every damage, and every layout of a file, are not tried", "anchors": ["umadb-tools/src/bin/umadb-check.rs:17-34", "umadb-tools/src/bin/umadb-check.rs:143-203", "umadb-tools/src/bin/umadb-check.rs:258-312", "umadb-tools/src/bin/umadb-check.rs:328-430"]}
{"id": "C112", "title": "umadb-check examines exactly the damaged leaves of the tag index, and gets all entries out of those whose page header alone is damaged", "statement": "The pages umadb-check examines in its last stage are exactly those, headers aside, that are below the high-water mark or in the written run past it, cannot be decoded, and begin with the type byte of a leaf of the tag index; each once, with the right note whether it is past the mark. Every examined page has been named as a problem before, so that a file that passes has none. A leaf written by the store of whose page header anything but the first byte was overwritten can still be read as a leaf or is examined, and all its entries are then found, whatever was written over the header. The reading with keys of eight bytes counts all keys and positions of a leaf of the older form. Of any page at all the two readings with keys of eight bytes report the same numbers, and the strict one fails exactly when the tolerant one has something to note.", "quantifier": "every file, whatever damage; every leaf, page size, damaged page header and set of events", "why_tests_cant": "the tool has no tests; every damage to every page header and every layout of a file are not tried", "anchors": ["umadb-tools/src/bin/umadb-check.rs:135-140", "umadb-tools/src/bin/umadb-check.rs:280-298", "umadb-tools/src/bin/umadb-check.rs:382-391", "umadb-tools/src/bin/umadb-check.rs:819-905"]}
{"id": "C113", "title": "A write transaction has for use exactly the free pages no reader may need", "statement": "Whenever no write transaction is under way one can begin, and the pages it may use again are exactly those that the file lists as free since a transaction that no reader, open or about to be open, is behind. The registry of readers counts exactly these readers: one that was closed, or a call that had to start again because a commit came in between, holds back no page, and when all readers are closed every page listed as free is for use.", "quantifier": "every history, every interleaving of readers being opened and closed with commits, failures and crashes", "why_tests_cant": "depends on schedules; a count that stays behind shows only as a file that keeps growing", "anchors": ["umadb-core/src/mvcc.rs:125-153", "umadb-core/src/mvcc.rs:688-757", "umadb-core/src/mvcc.rs:1139-1256"]}
