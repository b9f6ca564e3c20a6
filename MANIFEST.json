{
 "claims": [
  {
   "property": "C01",
   "status": "proved",
   "theorems": [
    "positions_gapless",
    "events_permanent",
    "append_positions"
   ],
   "note": "Over every run of the transition system (crashes, restarts, failed commits included), for requests satisfying req_wf."
  },
  {
   "property": "C02",
   "status": "proved",
   "theorems": [
    "read_exact"
   ],
   "note": ""
  },
  {
   "property": "C03",
   "status": "proved",
   "theorems": [
    "read_exact",
    "index_read_is_scan"
   ],
   "note": "hash is an arbitrary function."
  },
  {
   "property": "C04",
   "status": "proved",
   "theorems": [
    "condition_enforced"
   ],
   "note": "after below 2^64-1 (req_wf); see C28 for the boundary."
  },
  {
   "property": "C05",
   "status": "proved",
   "theorems": [
    "retry_idempotent"
   ],
   "note": "With the proviso that after does not lie beyond the head at the first call; a request naming a future position is accepted twice."
  },
  {
   "property": "C06",
   "status": "proved",
   "theorems": [
    "rejected_no_effect"
   ],
   "note": ""
  },
  {
   "property": "C07",
   "status": "proved",
   "theorems": [
    "batch_is_sequence",
    "batching_irrelevant",
    "aborted_batch_no_trace"
   ],
   "note": ""
  },
  {
   "property": "C08",
   "status": "proved",
   "theorems": [
    "tracking_forward",
    "tracking_enforced"
   ],
   "note": ""
  },
  {
   "property": "C09",
   "status": "proved",
   "theorems": [
    "tracking_atomic"
   ],
   "note": ""
  },
  {
   "property": "C10",
   "status": "proved",
   "theorems": [
    "acked_survive",
    "open_succeeds"
   ],
   "note": "Header pages are assumed to be written sector-atomically (may_hold); see C39."
  },
  {
   "property": "C100",
   "status": "proved",
   "theorems": [
    "pipelined_comes_to_ease",
    "pipelined_read_ends_anyway",
    "pipelined_subscription_catches_up_anyway"
   ],
   "note": "From every state of an execution meeting the conditions of C57 and C58; room_for asks something only while a batch is being built (requests of documented use, positions left, no failed write of the commit before). Reachability: there is a continuation, with no new request."
  },
  {
   "property": "C101",
   "status": "proved",
   "theorems": [
    "read_steps",
    "subscription_steps",
    "pipelined_read_steps",
    "pipelined_subscription_steps"
   ],
   "note": "Steps of the model: changes of the state of the call in the execution. Calls in v_lost/w_lost (a page was passed over) are excepted."
  },
  {
   "property": "C102",
   "status": "proved",
   "theorems": [
    "limited_subscription_catches_up",
    "pipelined_reads_limited",
    "pipelined_limited_read_ends",
    "pipelined_limited_subscription_catches_up"
   ],
   "note": "The blocking server's reads are in C79 (read_ends). Reachability, as in C79: some way of going on, within the limit; fairness of the semaphore is not part of the model."
  },
  {
   "property": "C103",
   "status": "proved",
   "theorems": [
    "built_event",
    "built_metadata_unique",
    "entry_in_place",
    "built_query",
    "built_item",
    "added_item_widens"
   ],
   "note": "Builder calls as folds over the empty value; conversions into String are the identity."
  },
  {
   "property": "C104",
   "status": "proved",
   "theorems": [
    "serialized_io_error",
    "kind_names_differ",
    "serialized_error_same",
    "serialized_twice",
    "serialized_error_refuted",
    "serialized_eio_refuted"
   ],
   "note": "False of the code for errors of the operating system (F39): text and, without a name, kind are lost; the theorems say what is kept."
  },
  {
   "property": "C105",
   "status": "proved",
   "theorems": [
    "key_only_encrypted",
    "secure_address",
    "clear_address",
    "grpcs_is_https",
    "attempts",
    "settings_kept",
    "own_certificate",
    "grpcs_alias_refuted",
    "capital_scheme_refuted",
    "connect_panics_refuted"
   ],
   "note": "False of the code in part: F40 (grpcs:// without TLS options), F41 (panic for an unreadable CA file), F42 (HTTPS:// in capitals). The rest holds for all addresses, options and behaviours of the server. Of tonic it is assumed that TLS is used exactly for https."
  },
  {
   "property": "C106",
   "status": "proved",
   "theorems": [
    "forensic_exact",
    "forensic_survives",
    "forensic_prefix",
    "forensic_cut",
    "forensic_damage",
    "forensic_partial",
    "forensic_page_exact",
    "forensic_page_legacy",
    "forensic_counts",
    "forensic_all_match"
   ],
   "note": "For a key width of at most 16 (the code has 8 and 16)."
  },
  {
   "property": "C107",
   "status": "proved",
   "theorems": [
    "index_exact",
    "index_exact_stored",
    "check_index",
    "pipelined_index_exact"
   ],
   "note": "filed only knows the file format. check_index with the hash of the code. For the pipelining writer, the last committed state, under the conditions of C56."
  },
  {
   "property": "C108",
   "status": "proved",
   "theorems": [
    "file_holds",
    "file_holds_stored",
    "pipelined_file_holds"
   ],
   "note": "Everything a file's event and tracking trees hold, read with the node layout alone, against what readers get and what is stored."
  },
  {
   "property": "C109",
   "status": "proved",
   "theorems": [
    "old_hash_64_refuted",
    "old_hash_32",
    "old_hash_apart"
   ],
   "note": "False of the code (finding F44): two tags have the same hash exactly if their 32-bit checksums agree; the salted half adds nothing. Proved also: tags that differ only within four bytes have different hashes."
  },
  {
   "property": "C11",
   "status": "proved",
   "theorems": [
    "crash_atomic",
    "open_succeeds"
   ],
   "note": "A third outcome, a batch answered with an error because its header could not be written or synced, is the subject of C33. Header pages assumed sector-atomic; see C39."
  },
  {
   "property": "C110",
   "status": "proved",
   "theorems": [
    "missing_events_refuted",
    "probe_exact",
    "probe_when",
    "probe_ends",
    "nothing_missing"
   ],
   "note": "False of the code in one part (finding F45): events reported missing can be readable, as one unreadable event hides its whole batch of up to 1024. Proved: when it looks for them, that the search ends, which pages are named and with what, for any file; nothing is missing on files of executions."
  },
  {
   "property": "C111",
   "status": "proved",
   "theorems": [
    "counts_exact",
    "page_named",
    "damaged_page_named",
    "damaged_page_named_refuted"
   ],
   "note": "False of the code for the inner pages of the tracking tree (damaged_page_named_refuted): damaged, they are counted as unknown. Proved for the other 13 types, and the counts for all files."
  },
  {
   "property": "C112",
   "status": "proved",
   "theorems": [
    "examined_exact",
    "examined_named",
    "pass_nothing_examined",
    "damaged_leaf_recovered",
    "core_legacy_exact",
    "legacy_readings_agree"
   ],
   "note": "For all files; the process-wide key width that is changed for the reading with keys of eight bytes is set back at once and is not in the model."
  },
  {
   "property": "C113",
   "status": "proved",
   "theorems": [
    "registry_exact",
    "registry_exact_pipelined",
    "reusable_exact",
    "reusable_when_closed"
   ],
   "note": "The registry for both writer threads, whatever fails; the pages for use for the thread that blocks (of the pipelining writer see C14 and C97)."
  },
  {
   "property": "C12",
   "status": "proved",
   "theorems": [
    "header_recovery",
    "no_header_no_open",
    "header_recovery_opens"
   ],
   "note": "For a file with any contents whatsoever. A slot holding a page that decodes to something other than a header makes opening fail with an error; it is then neither intact nor unreadable."
  },
  {
   "property": "C13",
   "status": "proved",
   "theorems": [
    "snapshot_isolation"
   ],
   "note": "Blocking writer."
  },
  {
   "property": "C14",
   "status": "proved",
   "theorems": [
    "pipelined_snapshot_refuted"
   ],
   "note": "False of the code: with the pipelined writer a reader opened while one batch is in flight and the next one has begun can have its pages overwritten; with and without page cache."
  },
  {
   "property": "C15",
   "status": "proved",
   "theorems": [
    "no_page_lost_or_shared",
    "pages_used_once"
   ],
   "note": "Every execution of the transition system, crashes and restarts included; pages counted by an independent walk over the file format (Walk.v)."
  },
  {
   "property": "C16",
   "status": "proved",
   "theorems": [
    "pages_in_use_readable",
    "pages_in_use_not_written",
    "pages_in_use_kept"
   ],
   "note": "Blocking writer; the pages of the committed header and of every open reader; failed writes, failed syncs and machine crashes included."
  },
  {
   "property": "C17",
   "status": "proved",
   "theorems": [
    "page_round_trip",
    "page_injective",
    "any_buffer_round_trip"
   ],
   "note": ""
  },
  {
   "property": "C18",
   "status": "proved",
   "theorems": [
    "page_size_safe"
   ],
   "note": ""
  },
  {
   "property": "C19",
   "status": "proved",
   "theorems": [
    "page_corruption_detected",
    "page_body_corruption_rejected"
   ],
   "note": ""
  },
  {
   "property": "C20",
   "status": "proved",
   "theorems": [
    "decode_never_crashes",
    "decode_body_never_crashes"
   ],
   "note": ""
  },
  {
   "property": "C21",
   "status": "proved",
   "theorems": [
    "payload_round_trip"
   ],
   "note": "For requests answered with a position; later commits, crashes and restarts in between."
  },
  {
   "property": "C22",
   "status": "proved",
   "theorems": [
    "head_is_last",
    "head_linearizable"
   ],
   "note": ""
  },
  {
   "property": "C23",
   "status": "proved",
   "theorems": [
    "remote_read_snapshot",
    "remote_read_batches",
    "remote_request_kept"
   ],
   "note": "The snapshot is a state committed between the arrival of the request and the first response. The stream is a prefix of the answer at all times and all of it when it ends; cancelled streams are prefixes. Pages may be unreadable for the task: it then fails with an error, unless the query uses the index of tags and the error goes unnoticed (C78), which is excluded by a premise here."
  },
  {
   "property": "C24",
   "status": "proved",
   "theorems": [
    "subscription_exact",
    "subscription_batches",
    "subscription_notified",
    "subscription_catches_up",
    "subscription_delivered"
   ],
   "note": "Delivered events are at all times a prefix of the matching events after the position; a waiting subscriber with something undelivered has a notification pending; its own steps then lead to everything being delivered. Also at the client, through the wire and for any sequence of calls (subscription_delivered). Pages may be unreadable for the task: it then fails with an error, unless the query uses the index of tags and the error goes unnoticed (C78), which is excluded by a premise here."
  },
  {
   "property": "C25",
   "status": "proved",
   "theorems": [
    "appends_linearizable",
    "acked_survive",
    "server_linearizable"
   ],
   "note": "Blocking writer thread; a commit is answered in the step after the sync of its header. server_linearizable: over the queue, in order of arrival."
  },
  {
   "property": "C26",
   "status": "proved",
   "theorems": [
    "answered_once",
    "server_linearizable",
    "writer_never_stuck",
    "writer_finishes"
   ],
   "note": "Blocking writer thread, every outcome of items and of the commit. At any time each request is in exactly one place; each step of the thread decreases a well-founded measure; when the thread waits on an empty queue every request has been answered."
  },
  {
   "property": "C27",
   "status": "proved",
   "theorems": [
    "no_request_stops_writer_refuted",
    "request_answered"
   ],
   "note": "False of the code: a request without events whose condition is met makes the writer panic (exhibited execution). True part: every request that keeps to the documented use (req_wf: a condition comes with events) is answered in every reachable state."
  },
  {
   "property": "C28",
   "status": "proved",
   "theorems": [
    "after_max_refuted",
    "read_exact",
    "condition_enforced"
   ],
   "note": "False of the code for conditions: after = 2^64-1 wraps to 0 (exhibited execution). True part: reads with any start value are exact, and conditions with any smaller after are enforced exactly."
  },
  {
   "property": "C29",
   "status": "proved",
   "theorems": [
    "tag_pages_fit_refuted",
    "aborted_batch_no_trace"
   ],
   "note": "False of the code: exhibited request with the default page size whose events are all accepted and whose commit can only fail because a tag-index leaf was split into a part longer than a page. Such a failed commit leaves no trace (aborted_batch_no_trace)."
  },
  {
   "property": "C30",
   "status": "proved",
   "theorems": [
    "tracking_pages_fit_refuted",
    "aborted_batch_no_trace"
   ],
   "note": "False of the code: exhibited batch of 31 valid tracking updates, default page size, whose commit can only fail because of an oversized tracking leaf."
  },
  {
   "property": "C31",
   "status": "proved",
   "theorems": [
    "read_complete_or_error_refuted",
    "scan_complete_or_error"
   ],
   "note": "False of the code for reads and conditions that use the tag index (errors are taken for the end of the list); true for every read that scans."
  },
  {
   "property": "C32",
   "status": "proved",
   "theorems": [
    "small_pages_refuted",
    "large_pages_refuted",
    "default_pages_exact"
   ],
   "note": "False of the code for page sizes other than 4096 (buffers of DEFAULT_PAGE_SIZE bytes); for 4096 default_pages_exact holds."
  },
  {
   "property": "C33",
   "status": "proved",
   "theorems": [
    "failed_commit_no_trace_refuted",
    "failed_sync_harmless_refuted",
    "aborted_batch_no_trace"
   ],
   "note": "False of the code when the header page cannot be synced: the rejected append may reappear after a crash, and because the process goes on with the page numbers of the failed transaction a later crash can make the file impossible to open (both exhibited). True for failures before the header page is written (aborted_batch_no_trace)."
  },
  {
   "property": "C34",
   "status": "proved",
   "theorems": [
    "cancellation_isolated_refuted"
   ],
   "note": "False of the code: a request with a condition whose client cancels while it is checked makes the whole batch fail, with it other clients' requests already processed with success."
  },
  {
   "property": "C35",
   "status": "proved",
   "theorems": [
    "api_key_exact",
    "api_key_header",
    "api_key_enforced",
    "api_key_admits"
   ],
   "note": "All five methods. The first header of the name counts. A configured key with a byte outside the visible range admits nobody. The health service is not behind the check."
  },
  {
   "property": "C36",
   "status": "proved",
   "theorems": [
    "error_kind_kept",
    "error_kind_exact"
   ],
   "note": "For every error and text: the kind seen by the client, through status code, details message and decoding; the kinds that share a status are listed exactly."
  },
  {
   "property": "C37",
   "status": "proved",
   "theorems": [
    "append_arrives",
    "read_arrives",
    "subscribe_arrives",
    "response_arrives",
    "position_arrives",
    "opt_position_arrives",
    "source_arrives",
    "ids_checked"
   ],
   "note": "Through the bytes of protobuf, for every value with UTF-8 text whose message is within the size limit; an id is accepted exactly when it is a text form of a UUID."
  },
  {
   "property": "C38",
   "status": "proved",
   "theorems": [
    "sync_stream_exact",
    "async_stream_exact",
    "stream_collected",
    "failure_reported",
    "remote_collect"
   ],
   "note": "For every stream of batches and every sequence of calls, both clients; remote_collect composes client, wire and server down to the file."
  },
  {
   "property": "C39",
   "status": "proved",
   "theorems": [
    "torn_header_refuted",
    "crash_atomic"
   ],
   "note": "False at byte level: two headers and a tear position are exhibited whose mixture has a valid checksum. Under the assumption that the 61 bytes of a header, which lie in one sector, are written as a whole or not at all, crash_atomic holds."
  },
  {
   "property": "C40",
   "status": "proved",
   "theorems": [
    "creation_crash_refuted",
    "creation_complete",
    "creation_crash_empty"
   ],
   "note": "False of the code: at every moment before creation finishes a crash may leave a file that cannot be opened. True parts: a finished creation is durable; if the file left by a crash opens, it is an empty database."
  },
  {
   "property": "C41",
   "status": "proved",
   "theorems": [
    "opening_loses_nothing_refuted",
    "header_recovery"
   ],
   "note": "False of the code: a transient read error on the newer header page makes opening overwrite it with the older one (exhibited). Without read errors the newest intact header is chosen (header_recovery)."
  },
  {
   "property": "C42",
   "status": "proved",
   "theorems": [
    "shutdown_honoured_refuted"
   ],
   "note": "False of the code: a shutdown message met while collecting a batch is dropped. (The server itself never sends one: DbHandler::shutdown is dead code.)"
  },
  {
   "property": "C43",
   "status": "proved",
   "theorems": [
    "page_kind_protected_refuted"
   ],
   "note": "False of the code: the checksum covers the body only. Refuted with a witness."
  },
  {
   "property": "C44",
   "status": "proved",
   "theorems": [
    "restart_harmless_refuted",
    "acked_survive"
   ],
   "note": "False of the code when the process is killed between writing a header page and its sync (exhibited); true for a kill at any other moment (acked_survive covers LKill under d_settled)."
  },
  {
   "property": "C45",
   "status": "proved",
   "theorems": [
    "pipelined_abort_no_trace_refuted"
   ],
   "note": "False of the code: when the rollback itself meets an unreadable page the thread goes on with the changed writer and commits the changes of the batch it had given up."
  },
  {
   "property": "C46",
   "status": "proved",
   "theorems": [
    "error_text_kept_refuted"
   ],
   "note": "False of the code (F19): the prefix of the kind is doubled."
  },
  {
   "property": "C47",
   "status": "proved",
   "theorems": [
    "event_returns_refuted",
    "default_batch_refuted",
    "small_responses_arrive"
   ],
   "note": "False of the code (F20, F21); small_responses_arrive gives sizes for which it holds."
  },
  {
   "property": "C48",
   "status": "proved",
   "theorems": [
    "truncation_reported_refuted",
    "emptiness_true_refuted",
    "remote_collect",
    "long_response_reported"
   ],
   "note": "False of the code (F22, F43) when the server shuts down; remote_collect: true of reads the server has finished; long_response_reported: a response too long to be received is an error, not an end."
  },
  {
   "property": "C49",
   "status": "proved",
   "theorems": [
    "sync_cancel_stops",
    "async_cancel_stops",
    "read_cancel_documented_refuted",
    "subscription_cancel_documented_refuted"
   ],
   "note": "The first two are the true part: nothing is fetched any more. The documented answers are false of the code (F23)."
  },
  {
   "property": "C50",
   "status": "proved",
   "theorems": [
    "api_key_over_tls",
    "api_key_sent",
    "no_api_key",
    "api_key_once"
   ],
   "note": "All keys, URLs and headers."
  },
  {
   "property": "C51",
   "status": "proved",
   "theorems": [
    "windows_aligned",
    "commit_pages_read_back",
    "commit_nodes_read_back",
    "commit_success_written",
    "page_de_zeros"
   ],
   "note": "File I/O; the preallocation finds room, or the commit reports an error."
  },
  {
   "property": "C52",
   "status": "proved",
   "theorems": [
    "mmap_never_wrong",
    "mmap_reads_partial",
    "single_page_write",
    "pipelined_mmap_refuted",
    "large_commit_mmap_refuted"
   ],
   "note": "False of the code: pages of an incomplete window cannot be read through a memory map. True as long as only the blocking writer writes (runs of pages and single pages) and no commit adds more than one window (mmap_reads_partial); a map never shows anything else than file I/O."
  },
  {
   "property": "C53",
   "status": "proved",
   "theorems": [
    "short_write_reported_refuted",
    "complete_writes_partial"
   ],
   "note": "False of the code: a short write is taken for success. True when every write is complete."
  },
  {
   "property": "C54",
   "status": "proved",
   "theorems": [
    "received_append_ok",
    "received_append_guard",
    "received_read_ok",
    "received_subscribe_ok",
    "cut_message_refused"
   ],
   "note": "All byte strings. received_append_guard excludes F1 (empty list with a condition) and F2 (after = largest position)."
  },
  {
   "property": "C55",
   "status": "proved",
   "theorems": [
    "batch_limited",
    "waiting_joins"
   ],
   "note": "Every execution of the server."
  },
  {
   "property": "C56",
   "status": "proved",
   "theorems": [
    "pipelined_gapless",
    "pipelined_permanent",
    "pipelined_commit",
    "pipelined_linearizable",
    "pipelined_abort"
   ],
   "note": "Default page size; condition healthy: no header write or sync fails, the rollback of a batch that is given up can read its pages, and a commit whose pages cannot be written has not overwritten cached pages (there is no cache by default). Without the second: C45."
  },
  {
   "property": "C57",
   "status": "proved",
   "theorems": [
    "pipelined_crash",
    "pipelined_permanent"
   ],
   "note": "Default page size; condition healthy as for C56."
  },
  {
   "property": "C58",
   "status": "proved",
   "theorems": [
    "pipelined_isolation",
    "pipelined_head"
   ],
   "note": "As C56, and no reader registers while a batch is built on one being written (undisturbed); without this it is false, see C14."
  },
  {
   "property": "C59",
   "status": "proved",
   "theorems": [
    "check_finds_all",
    "check_ends",
    "check_pages_exact",
    "check_pass_exact"
   ],
   "note": "For every file an execution leaves; stages 1-3 and the outcome of the tool. For any file at all: exactly which pages are complained of, and when it passes."
  },
  {
   "property": "C60",
   "status": "proved",
   "theorems": [
    "check_new_refuted",
    "check_healthy_refuted",
    "check_crashed_refuted"
   ],
   "note": "False of the code (F27): new databases fail; so does a database with only successful commits, because of pages that were allocated and given up in one transaction; so does a recovered one. check_finds_all says that only such pages are reported."
  },
  {
   "property": "C61",
   "status": "proved",
   "theorems": [
    "check_readonly_refuted",
    "check_pass_refuted"
   ],
   "note": "False of the code (F28, F29): opening repairs a damaged header; only the last position is compared with the header."
  },
  {
   "property": "C62",
   "status": "proved",
   "theorems": [
    "pipelined_answered_once",
    "pipelined_server_linearizable",
    "pipelined_server_stored"
   ],
   "note": "Any failures for the first two; the third under the condition healthy of C56 (pages may fail to be written)."
  },
  {
   "property": "C63",
   "status": "proved",
   "theorems": [
    "pipelined_never_stuck",
    "pipelined_finishes",
    "pipelined_shutdown"
   ],
   "note": "z_able: the requests satisfy req_wf, no page read reports a cancellation nobody asked for, written numbers fit their fields."
  },
  {
   "property": "C64",
   "status": "proved",
   "theorems": [
    "pipelined_published"
   ],
   "note": "For the thread's notification after the answers of a commit; condition healthy of C56."
  },
  {
   "property": "C65",
   "status": "proved",
   "theorems": [
    "pipelined_shutdown_honoured_refuted",
    "pipelined_cancellation_isolated_refuted"
   ],
   "note": "False of the code (F9, F12), as with the blocking writer: a shutdown message met while a batch is collected is dropped; a cancelled request aborts the batch it is in."
  },
  {
   "property": "C66",
   "status": "proved",
   "theorems": [
    "pipelined_failed_commit_no_trace_refuted",
    "pipelined_failed_sync_harmless_refuted",
    "pipelined_abort"
   ],
   "note": "False of the code when the header page cannot be synced (F8), as with the blocking writer: the rejected append reappears after a crash, or a later commit makes the file impossible to open. True when the failure is before the header is written (pipelined_abort, under the condition healthy of C56)."
  },
  {
   "property": "C67",
   "status": "proved",
   "theorems": [
    "calls_by_both_names",
    "other_names_nothing",
    "no_path_around_key"
   ],
   "note": "Health checks (grpc.health.v1) need no key and touch nothing."
  },
  {
   "property": "C68",
   "status": "proved",
   "theorems": [
    "options_honoured",
    "never_less_protected",
    "readers_never_locked_out",
    "number_read"
   ],
   "note": "From clap's typed values on; the read method as asked if it is one of the two names (in any case), see C69."
  },
  {
   "property": "C69",
   "status": "proved",
   "theorems": [
    "bad_options_refused_refuted",
    "start_panics_partial"
   ],
   "note": "False of the code (finding F30): witnesses; start_panics_partial says that the listed panics are the only ones."
  },
  {
   "property": "C70",
   "status": "proved",
   "theorems": [
    "open_files_limit"
   ],
   "note": ""
  },
  {
   "property": "C71",
   "status": "proved",
   "theorems": [
    "legacy_as_specified",
    "legacy_opens",
    "tag_hash_stored"
   ],
   "note": "Schema 0 files, executions of Mvcc.v at key width 8."
  },
  {
   "property": "C72",
   "status": "proved",
   "theorems": [
    "twins_independent_refuted",
    "twins_damage_refuted",
    "twins_independent_partial"
   ],
   "note": "False of the code (F31): the tag key width is process-wide. twins_independent_partial: true while all open databases are of one format."
  },
  {
   "property": "C73",
   "status": "proved",
   "theorems": [
    "python_stream_exact_refuted",
    "python_stream_exact_partial"
   ],
   "note": "False of the code: a signal handler that raises makes the event or batch just fetched disappear (finding F32). The partial theorem covers all calls during which no signal handler raises."
  },
  {
   "property": "C74",
   "status": "proved",
   "theorems": [
    "python_exceptions",
    "python_exceptions_documented_refuted",
    "python_cancel_documented_refuted",
    "python_cancel_raises",
    "python_bases"
   ],
   "note": "False of the code as documented (finding F33): broken connections and internal errors raise plain Exception; a cancelled read response goes on and ends. Proved: the classes of the errors the server reports and their bases, and that close() or cancelling all raises at the next step."
  },
  {
   "property": "C75",
   "status": "proved",
   "theorems": [
    "python_metadata"
   ],
   "note": "PyO3's conversion of dicts is trusted."
  },
  {
   "property": "C76",
   "status": "proved",
   "theorems": [
    "close_exact",
    "close_stops"
   ],
   "note": "A response whose call was still underway when close() ran is not stopped (close_example)."
  },
  {
   "property": "C77",
   "status": "proved",
   "theorems": [
    "remote_holds_no_snapshot"
   ],
   "note": "Every phase of a task other than opening a reader, reading with it and closing it."
  },
  {
   "property": "C78",
   "status": "proved",
   "theorems": [
    "remote_complete_or_error_refuted",
    "scan_not_lost"
   ],
   "note": "False of the code for queries by tags (finding F5: the iterator over the index takes an error for the end). True for queries that do not use the index (scan_not_lost, with remote_read_snapshot); example of a reported failure: remote_read_fails."
  },
  {
   "property": "C79",
   "status": "proved",
   "theorems": [
    "reads_limited",
    "permit_waits",
    "limited_serves",
    "read_gets_on",
    "started_read_gets_on",
    "lookups_serve",
    "permits_limited",
    "lookup_waits",
    "lookup_ends",
    "read_gets_on_among_lookups",
    "permit_free_again"
   ],
   "note": "Progress as reachability: from every reachable state there is a continuation, made of steps of the tasks and lookups that hold permits and of the one concerned, in which it gets its next response; fairness of the runtime and of tokio's semaphore (first come, first served) is not modelled."
  },
  {
   "property": "C80",
   "status": "proved",
   "theorems": [
    "one_process",
    "existing_file_shared"
   ],
   "note": "For the lock of flock, with no process that ignores it; processes_example for a process that is refused."
  },
  {
   "property": "C81",
   "status": "proved",
   "theorems": [
    "new_file_race_refuted",
    "start_race_refuted",
    "existing_file_shared",
    "calm_creation",
    "processes_keep_events"
   ],
   "note": "False of the code: two processes that are started on a path without a file may lose what one of them acknowledged, or leave a file no process can open. True if the file is there already, or if no process looks for it while another, which found none, is on its way to the lock."
  },
  {
   "property": "C82",
   "status": "proved",
   "theorems": [
    "spread_reads_refine",
    "spread_reads_isolated",
    "spread_read_begins",
    "spread_read_ends",
    "pipelined_spread_reads_refine",
    "pipelined_spread_isolated",
    "pipelined_spread_read_begins",
    "pipelined_spread_read_ends"
   ],
   "note": "Every page size the codecs allow with the blocking writer thread; pages of the default size with the pipelining one, under the conditions of C58 (DESIGN.md). See there for what is taken of the writer's own reads."
  },
  {
   "property": "C83",
   "status": "proved",
   "theorems": [
    "pipelined_poisoned_cache_refuted"
   ],
   "note": "False of the code: an old page gets into the cache, and acknowledged events are lost (F36). With the conditions of C82 it holds."
  },
  {
   "property": "C84",
   "status": "proved",
   "theorems": [
    "commit_pages_fit",
    "plain_commit_possible",
    "legacy_commit_pages_fit",
    "pipelined_commit_pages_fit",
    "pipelined_plain_commit_possible"
   ],
   "note": "Blocking and pipelining writer, and files of the earlier schema. The pipelined ones under the conditions of C56. The two exceptions are real: C29 and C30."
  },
  {
   "property": "C85",
   "status": "proved",
   "theorems": [
    "patchy_reads_true",
    "patchy_tracking_true",
    "patchy_refines",
    "patchy_includes"
   ],
   "note": "for every execution in which any page request fails or not; the execution in q_happens has a read that gets a part of the events"
  },
  {
   "property": "C86",
   "status": "proved",
   "theorems": [
    "patchy_commit",
    "patchy_commit_exact",
    "patchy_keeps",
    "patchy_refines",
    "processed_ordinary",
    "patchy_includes"
   ],
   "note": "blocking writer, schema 1; q_happens is an execution in which a request with a failed tag condition is committed (F5)"
  },
  {
   "property": "C87",
   "status": "proved",
   "theorems": [
    "new_database_survives_refuted",
    "named_stays",
    "entry_refines",
    "entry_lost"
   ],
   "note": "False of the code: the directory of a new file is not synced (F37). named_stays, entry_refines and entry_lost: the file is lost as a whole or not at all, only by a crash of the machine and only until its name is stored"
  },
  {
   "property": "C88",
   "status": "proved",
   "theorems": [
    "other_page_size_refuted",
    "second_header_lost",
    "pages_lost",
    "other_size_bytes",
    "half_size_harmless",
    "multiple_size_harmless",
    "open_file_pages"
   ],
   "note": "False of the code: a wrong page size makes the second header be repaired in the wrong place (F38). The other theorems say, for every size, which bytes may change, and that sizes up to half of the right one and multiples of it are harmless"
  },
  {
   "property": "C89",
   "status": "proved",
   "theorems": [
    "older_as_specified",
    "older_legacy_as_specified",
    "older_opens",
    "older_reads",
    "header48_read",
    "header52_read",
    "leaf_v0_read",
    "leaf_v0_refused",
    "long_source_refused",
    "page_vectors_hold"
   ],
   "note": "for files of schema version 1 and 0; page_vectors_hold compares one or two pages of each kind with bytes computed by other software"
  },
  {
   "property": "C90",
   "status": "proved",
   "theorems": [
    "append_understood",
    "read_understood",
    "subscribe_understood",
    "response_understood",
    "answers_understood",
    "error_understood",
    "append_spoken",
    "read_spoken",
    "subscribe_spoken",
    "response_spoken",
    "answers_spoken",
    "error_spoken",
    "message_vectors_hold"
   ],
   "note": "Protocol.v states umadb.proto independently of the encoder. Not covered: groups (wire types 3 and 4) and messages in which a field that is not repeated comes twice."
  },
  {
   "property": "C91",
   "status": "proved",
   "theorems": [
    "file_grows_only_when_needed",
    "file_grows_without_readers",
    "free_pages_recorded"
   ],
   "note": "Example x_grows: with a reader open the file grows although an older page is free, and the theorem names the reader."
  },
  {
   "property": "C92",
   "status": "proved",
   "theorems": [
    "acknowledged_read",
    "acknowledged_collected",
    "acknowledged_delivered",
    "later_read_has_more"
   ],
   "note": "Blocking writer. Reads over the index of tags during which a page could not be read are excluded (v_lost, finding F5); reads that do not use it never are (scan_not_lost)."
  },
  {
   "property": "C93",
   "status": "proved",
   "theorems": [
    "decision_protected"
   ],
   "note": "Blocking writer; any start and limit, forwards. The responses must be within the client's size limit and the texts UTF-8, as in remote_collect."
  },
  {
   "property": "C94",
   "status": "proved",
   "theorems": [
    "pipelined_remote_read",
    "pipelined_remote_batches",
    "pipelined_remote_request",
    "pipelined_tasks_apart",
    "pipelined_remote_collect"
   ],
   "note": "PropsPipelinedRemote.v; example pipelined_clients_example"
  },
  {
   "property": "C95",
   "status": "proved",
   "theorems": [
    "pipelined_subscription_exact",
    "pipelined_subscription_batches",
    "pipelined_subscription_notified",
    "pipelined_subscription_delivered"
   ],
   "note": "PropsPipelinedRemote.v; example pipelined_clients_example"
  },
  {
   "property": "C96",
   "status": "proved",
   "theorems": [
    "pipelined_acknowledged_read",
    "pipelined_acknowledged_collected",
    "pipelined_later_read_has_more",
    "pipelined_acknowledged_delivered",
    "pipelined_decision_protected"
   ],
   "note": "PropsPipelinedRemote.v; example pipelined_clients_example"
  },
  {
   "property": "C97",
   "status": "proved",
   "theorems": [
    "pipelined_remote_read_refuted"
   ],
   "note": "False of the code: with the pipelining writer a remote read by tags that starts between two overlapping batches is told that nothing matches although a matching event was acknowledged before, and the conditional append based on it succeeds (finding F6 together with F5). With the condition of C58 it holds: C94, C96."
  },
  {
   "property": "C98",
   "status": "proved",
   "theorems": [
    "responses_bounded",
    "read_ends"
   ],
   "note": "Progress as reachability, as in C79. Reads over the index of tags during which a page could not be read are excluded (v_lost, finding F5)."
  },
  {
   "property": "C99",
   "status": "proved",
   "theorems": [
    "pipelined_responses_bounded",
    "pipelined_read_ends",
    "pipelined_subscription_catches_up"
   ],
   "note": "Steps of the calls alone lead from every reachable state in which no batch is built on one in flight and no commit is to be announced to the end of a read and to a subscription having been sent everything committed; tasks_only says that the threads and the watch are as before. Reachability, as in C79; the limit on concurrent reads (C79) is not part of this model."
  }
 ]
}