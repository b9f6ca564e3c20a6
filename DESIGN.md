# UmaDB: model, properties, proofs

Sources: `/repo` at the pinned commit, read as text. Model and proofs: `rocq/theories`.
Properties: `properties.jsonl`. Status per property: `MANIFEST.json`.

## Trusted base

* Coq 8.16.1's kernel (and `coqchk`), the standard library and std++.
* `Print Assumptions` is run for each property theorem in the `Props*.v` files; every one prints
  `Closed under the global context` (no axioms at all).  `coqchk` lists four constants of the standard library's
  `Coq.ssr.ssrunder` (`Under_rel.*`), which std++ loads and no theorem here depends on.
* The transcription from Rust to Gallina, done function by function; each definition cites file and lines.
* The operating system contract used by the crash model (`disk` in `Mvcc.v`), see "The disk" below.

### How the model stands to the code

| Code (umadb-core/src unless said otherwise) | Model | Remarks |
|---|---|---|
| `slice_reader.rs`, `header_node.rs`, `free_lists_tree_nodes.rs`, `events_tree_nodes.rs`, `tags_tree_nodes.rs`, `tracking_tree_nodes.rs`, `node.rs` | `Nodes.v` | byte by byte; Rust panics are the error `Panic` |
| `page.rs`, CRC-32 | `Page.v` | byte by byte |
| `events_tree.rs`, `tags_tree.rs`, `tracking` part of `db.rs` | `CowTree.v`, `EventsTree.v`, `TagsTree.v`, `TrackingTree.v` over `Writer.v`, `Store.v` | the shared "descend, copy, walk up, split" loops are one definition (`CowTree.v`) instantiated per tree; page ids and the dirty map are those of `Writer` |
| `mvcc.rs`: free list functions | `FreeList.v` | |
| iterators of `events_tree.rs`, `tags_tree.rs`; `db.rs` 532-822 | `Query.v`, `Iter.v` | |
| `db.rs` 45-1030 | `Append.v`, `Query.v` | |
| `mvcc.rs`: `Mvcc`, `Reader`, registry, `commit`, `new` (existing file) | `Mvcc.v` | a transition system |
| `mvcc.rs` 239-377 (new file) | `PropsCrash.v` (`creation`) | |
| `writer_thread_blocking.rs`; `umadb-server/src/handler.rs`; `umadb-server/src/lib.rs`: tasks of `read` (449-661) and `subscribe` (665-845) | `Server.v` | a transition system around that of `Mvcc.v`: queue, writer thread, answers, watched head, one task per call |
| `umadb-server/src/lib.rs`: `enforce_api_key` | `Auth.v` | |
| `writer_thread_pipelining.rs`, `mvcc.rs` 856-963, `io_shell.rs` | `Pipeline.v` | a transition system over the disk, readers and cache of `Mvcc.v`; I/O of pages of the default size, byte-level writes for other sizes |
| `writer_thread_pipelining.rs`: the loop over the request queue, answers, published head | `PipelineServer.v` | a transition system around that of `Pipeline.v` |
| `umadb-server/src/lib.rs` 449-845, `handler.rs` 81-142 next to the pipelining writer; `writer_thread_pipelining.rs` 64-68 (the watch) | `PipelineRemote.v` | the threads of `PipelineServer.v` with the tasks of `Server.v` |
| `umadb-server/src/handler.rs` 29-95: which writer thread runs | `PipelineSys.v` | openings, crashes and restarts around `Pipeline.v` and `Mvcc.v` |
| `pager.rs`, `mvcc.rs` 760-830, `io_shell.rs` 36-70 | `Pager.v` | a file is a length and a function from offsets to bytes |
| `umadb-tools/src/bin/umadb-check.rs` | `Check.v`, `Forensic.v`, `Probe.v`, `Census.v`, `Examine.v` | stages 1-3 and the outcome; the counts of pages by type (lines 17-34, 128, 427-430); the search for missing events (lines 608-672); stage 4 (forensics of tag pages, lines 698-905): which pages, and the numbers it prints, as a function of the page's bytes and the events of stage 3 |
| protobuf encoding of the messages of `umadb.proto` (prost), size limit of received messages (tonic's default, 4 MiB) | `Wire.v` | byte by byte: varints, field order, unknown fields of all wire types but groups (which are refused here; prost skips them), repeated fields, defaults; `Protocol.v` says separately what `umadb.proto` makes of fields |
| `umadb-proto/src/lib.rs`: conversions, errors; `uuid` text form | `Proto.v` | |
| `db.rs` 919-966, SHA-1 and UUID version 5 | `TagHash.v` | byte by byte |
| `tags_tree_nodes.rs` 14-25, for several open databases | `Twin.v` | two systems of `Mvcc.v` and the process-wide width |
| `umadb/src/lib.rs`; `umadb-server/src/lib.rs`: path rewriting, start, limits | `Options.v` | typed arguments to server options |
| `umadb-client/src/lib.rs`: read responses and subscriptions, asynchronous and synchronous; `add_auth`; `umadb-dcb/src/lib.rs` 214-222 | `Client.v` | state machines driven by any sequence of calls |
| `umadb-client/src/lib.rs`: the registry of responses, `close` | `Registry.v` | several clients and threads of one process |
| `umadb-server/src/lib.rs`: the semaphore of readers | `Permits.v` | counted on top of `Server.v` |
| `pager.rs:62-103` (Pager::new: look, open or create, lock) | `Locking.v` | any number of processes around the system of `PipelineSys.v` |
| `mvcc.rs` 603-625 (`read_page`); the reads of `db.rs`, `events_tree.rs`, `tags_tree.rs` page by page | `PageReads.v` | programs that ask for pages, interleaved with the steps of `Mvcc.v` or `PipelineSys.v`; a load of a page into the cache is two steps |
| reads of `db.rs`, `tags_tree.rs`, `events_tree.rs`, and `check_condition`, over pages that cannot be read | `Patchy.v` | each request for a page gives the page or any error, anew each time; on top of `PageReads.v` and `Mvcc.v` |
| `pager.rs:62-80, 544-575`: the name of a new file | `Entry.v` | on top of `Mvcc.v`: a name that POSIX does not promise to keep |
| `mvcc.rs` 399-533 for any page size; `umadb-check.rs` 46-120 | `Reopen.v` | opening by bytes, over `Pager.v`; with the right size it is `open_db` of `Mvcc.v` (`open_file_pages`) |
| `umadb-python/src/lib.rs`: exceptions, iteration, metadata | `Python.v` | on top of `Client.v`; PyO3's conversions are the identity |
| `umadb-dcb/src/lib.rs`: builders; `serde_io_error` | `Dcb.v` | `Into<String>` and the like are the identity |
| `umadb-client/src/lib.rs:915-1091, 1314-1371`: endpoints, connecting, the builder | `Connect.v` | which URIs parse, which certificates can be used and when the server is reached are parameters. Of tonic and http (not in /repo) it is taken from their documentation that schemes are read without regard to case, that TLS is used for https only, and that https without a configuration of TLS is an error |

Deliberate simplifications, all in the direction of more behaviours unless marked (restriction):

* Rust integers are unbounded `N`; the places where the code wraps or panics on overflow are modelled where the
  value can be reached by a request (`after + 1`), otherwise excluded by the guard `req_wf` (restriction: fewer than
  2^64 events, at most 2^32-1 per request) and by `storable` in `S_commit` (restriction: every number written to a
  page fits its field; `usize` arithmetic on page ids does not overflow).
* Hash maps are finite maps with an arbitrary iteration order (`order`, `ford`).
* The hash of a tag is an arbitrary function; most store theorems are for 16-byte keys (schema 1, the
  only one new files get), the page theorems for every key width. `PropsLegacy.v` has the simulation for 8-byte keys
  (schema 0), and that the code's own hashes (`TagHash.v`) are stored without loss at both widths.
* Except in `Twin.v`, one process has one database open, so the key width is that of its file.
* The page cache may load and forget any page at any time; it may also be absent.
* A read, and a load of a page into the cache, is one step; `PageReads.v` has them page by page, with anything in between, and C82 says that this makes no difference. There the lazy iterators are run one after the other (the theorems are about every program that asks only for pages it was referred to). The writer reads from the snapshot it began with; the pages it loads into the cache are those of the last committed state (restriction: not pages it wrote itself, which it has in memory).
* The descend loops carry fuel, the number of pages; `Err` on exhaustion is proved unreachable.
* A call whose client has gone may be dropped at any point between its steps; the polls of the cancellation flag during
  a read are left out (`handler_read`), since the result is not used then. In the writer they are there.
* Any read of a page may fail in the writer thread (`V_begin_fails`, `V_fails` with `unreadable`), as may each write and
  sync, and any read by the task of a remote call: it then ends with an error (`V_unreadable`), or, where the iterators take
  the error for the end of a list (F5), with another answer (`V_lossy`). In the blocking writer both are possible
  (`Patchy.v`, C86); in the pipelining writer, and in the theorems about the server, the error is always noticed (restriction; F5
  shows for one request what happens otherwise). In `Patchy.v` pages the transaction has in memory may fail as well.
* Several processes on one path (`Locking.v`): nobody deletes, renames or replaces the file; all of them ask for the lock; the lock is that of `flock`. The pages of a new database are written in one step (a crash meanwhile is C40). An opening that is refused leaves the file as it was (in the code a header page may have been repaired before). The name of a new file is durable with its contents (so everywhere but in `Entry.v`).
* A remote call holds a semaphore permit while it reads a batch. `Server.v` has any number of permits; `Permits.v` counts them (every limited run is one of `Server.v`). The permit `get_tracking_info` takes for one lookup is counted in `Lookups.v` (every run of which is one of `Permits.v`; its reader has a number of its own); for the pipelining writer `takes_turns` (`PropsPipelinedPermits.v`) says the same of the states gone through.
* The task of a subscription whose client leaves during the read of a batch ends at once and the read goes on in the background (`lib.rs:763-772`, aborted without waiting); in the model the task has ended when the read has. Nothing else sees the difference.
* `tokio`'s watch channel is a value and a version number, changed only while there is a receiver.
* A response that waits for room in the channel of a stream counts as sent.
* The client: what a call does while it waits is left out. A call with a timeout is told whether it gives up; a cancellation
  that comes while a call waits is one that came before it (for `poll_next`, which does not wake up for it, after it).
  Handshakes, certificates and keep-alive are not modelled (`Connect.v` has when TLS is used).
* HTTP/2 and gRPC framing carry messages, metadata and the final status unchanged; a stream whose sender is dropped ends with
  status OK; a message that is longer than the limit or cannot be decoded ends the stream with an error (all tonic's).
* Texts are byte strings; theorems about the wire ask for UTF-8 (Rust's `String` guarantees it).
* In `Mvcc.v` memory mapping, preallocation and direct I/O are read and write of pages; `Pager.v` has the file below, and
  `PropsPager.v` shows where that view is right (C51) and where it is not (C52, C53).  A map shows what the file holds at
  the time of the read; alignment of direct I/O buffers and `madvise` are not modelled.

### The disk

A page write that has not been synced may be found done, not done, or with any contents whatsoever after a crash of
the machine; a failed write likewise, at once.  A successful sync makes the writes before it durable.  After a failed sync
every unsynced page has one of its possible contents and later syncs do not write it again.  Restrictions:

* A header page that was being written is found as it was, as it should be, or undecodable (`may_hold`): its 61 bytes
  lie in one sector. Without this the property is false (C39).
* A process is not killed (with the machine going on) between writing and syncing a header page (`Y_kill`). Without this
  the property is false (C44).
* After an error while writing or syncing a header page the process makes no further write transaction (`WBroken`). The
  code goes on, which is harmful (C33).

## Plan: what is modelled and how each property is proved

| Property | Model | Proof method |
|---|---|---|
| C01, C02, C04-C06, C08, C22 | `process_append_request`, `read_conditional`, `tracking_upsert` over pages (B+trees in a page store with copy on write) | refinement to a small abstract store (list of events + tracking map); tree invariants by induction |
| C03 | tag index read with an arbitrary hash function, merge/group-by and re-check | equality with a filtered scan, by induction |
| C07, C25, C26, C34, C42 | the two writer-thread loops as functions over queues, with the abstract store | induction over batches/queues |
| C09-C12, C33, C39, C40, C41 | disk = durable pages + pending writes, commit step list, crash relation, recovery | invariant over all executions with crashes at every step |
| C13, C14, C16 | reader registry + writer transitions, interleaved | inductive invariant over the transition system; C14 by a counterexample trace |
| C15 | free list tree insert/remove/find + writer allocator | page accounting invariant |
| C17-C20, C29, C30, C32 | byte-level codecs and CRC-32, calc_serialized_size, page framing | round trip by induction on lists; CRC injectivity argument; concrete witnesses for the refuted ones |
| C21 | overflow chain writer/reader over the page store | induction on chain |
| C23, C24 | server read loop and subscription loop | induction over batches; transition system invariant for wakeups |
| C27, C28, C31 | same definitions as C04/C05/C03 | concrete witness (`_refuted`) plus the true part as `_partial` |
| C35, C36, C37 | conversion functions, error mapping, api-key check | case analysis, round trips |
| C46, C47 | the same, sizes of encodings | witnesses; bounds by induction |
| C38, C48, C49 | client stream state machine, composed with the server and the wire | invariant over call sequences; witnesses |
| C51-C53 | the page file below `Mvcc.v` | induction over writes; witnesses |
| C54, C55 | decoders composed with the server's checks; the queue of the server (`PropsDecode.v`, `PropsServer.v`) | case analysis, invariant |
| C56-C58 | `PipelineSys.v` | simulation: a state of the pipelining thread stands for one of the blocking thread, in which the batch in flight is being written and the one being built has not begun (`PipelineTxn.v`, `PipelineProofs.v`, `PipelineSteps.v`), hence the abstract store (`PipelineRefine.v`). For C56 and C57 the readers are erased first, so that nothing is assumed of them. After pages of a commit could not be written the state stands for one in which the blocking thread is idle, until the thread notices |
| C66 | `PipelineSys.v` | witnesses |
| C62-C65 | `PipelineServer.v` | accounting invariant over queue, batch, batch in flight and answers (`PipelineQueue.v`), composed with C56; a well-founded measure for progress; witnesses |
| C59-C61 | `Check.v` run on the files that executions of `Mvcc.v` leave | invariant, page accounting (C15); witnesses; of any file at all, which pages are complained of (`PropsCheckExact.v`) |
| C50 | `add_auth` composed with `enforce_api_key` | case analysis |
| C67-C70 | `Options.v`: path rewriting and dispatch, command line, start, limit on open files | case analysis; induction over texts; witnesses for C69 |
| C71, C72 | `Mvcc.v` at key width 8; `Twin.v` | the simulation of C01-C15 from another start; witnesses |
| C73-C75 | `Python.v` | C48's invariant carried over the polling loops; case analysis; witnesses |
| C76 | `Registry.v` | refinement of a store of responses without registry |
| C77, C78 | `Server.v` | invariants; witness for C78 |
| C79 | `Permits.v` over `Server.v`, with C69's number of permits; `Lookups.v` | counting; from any state a path to the next response. With lookups (`PropsLookups.v`): they can all end first, each by steps of its own reader |
| C80, C81 | `Locking.v` over `PipelineSys.v` | invariant of the lock; erasing the processes gives an execution of one process after the other |
| C82, C83 | `PageReads.v` over `Mvcc.v` and over `PipelineSys.v` | simulation: a read spread over time stands for one made at its end; its invariant is that what remains to be asked gives, from the pages of the snapshot, the same answer as at the start (`PageReadsRefine.v`). For the pipelining thread under the conditions of C58; without them a witness |
| C84 | the size checks of every tree, `process_freed_page_ids`, both commits | invariant of committed states and of the write transaction: every live page passes `fit` (`Fits.v`, a law for each function of the writer). Pages the transaction read may since have become unreadable, so the invariant is shown for a run in which they are readable and carried over by a simulation (`FitsSim.v`, `Txn.v: tinv_mask`). `PropsFits.v` adds which kinds of page each tree has, so without tags and tracking the two unchecked kinds are empty or absent |
| C85, C86 | `Patchy.v` over `PageReads.v` and `Mvcc.v` | `SpecPatchy.v` says what may go wrong; a program that passes every error on gives the right answer or an error (`strict`), the index iterators give a prefix per tag, the merge of prefixes a part (`PatchyReads.v`). Simulation by the system of `Mvcc.v` in which a misjudged request is replaced by one without condition, or by an empty one (`PatchyRefine.v`) |
| C87 | `Entry.v` over `Mvcc.v` | witness; erasing the name gives an execution of the store since the creation of the file, so with C10 nothing is lost but with the whole file |
| C88 | `Reopen.v` | witness; for every size which bytes change, which pages are lost and which sizes are harmless |
| C89 | `Nodes.v`, `Mvcc.v` | any page of a reachable file may be in an older layout (`older`): it reads the same, so the simulation goes on; pages of each kind compared with bytes computed by other software |
| C90 | `Wire.v`, `Proto.v`, `Protocol.v` | `Protocol.v` and the `means_…` relations are the published protocol; only the order among the fields of one number matters (`merge_chunks`); messages of each kind compared with bytes computed by other software |
| C91 | `Writer.v`, `FreeList.v`, `Mvcc.v` (blocking writer) | free pages and their transactions are read off the file by `recorded` (`PropsSpace.v`), which only knows the node layout and is shown to agree with the walk of C15; `Thrift.v`: every operation of a transaction takes reusable pages first, whether it succeeds or fails |
| C92, C93 | `Server.v`, `Client.v`, `Proto.v`, `Wire.v`, `Mvcc.v` (blocking writer) | stated over two moments of an execution (`leads`); `own_events` (`PropsRemote.v`) says which stored events an answer stands for; no new model |
| C94-C96 | `PipelineRemote.v`, `Client.v`, `Proto.v`, `Wire.v` | the invariant of the tasks (`TaskProofs.v`) asks of the database only what both writer threads guarantee, so it is shared with C23-C26; the threads' part is C56-C66 (`PipelineTasks.v`). Conditions: those of C56 and C58, which exclude findings recorded there |
| C97 | as C94-C96 | witness: C96 without the condition of C58 |
| C98 | `Server.v`, `Permits.v` | bound from the invariant of C23 (no empty batches, the answer is that of one state); progress of C79 iterated, with the bound as measure. As in C79, progress is reachability |
| C99 | as C94-C96 | the rounds of C24/C98 (`ServerLive.v`, `Section rounds`), which ask of the state only that the tasks' invariant holds, that a scan of an open reader succeeds and that both survive steps of the tasks; instantiated with `w_ok` of `PipelineTasks.v` while no batch is built on one in flight (then the condition of C58 is void). Reachability, as in C79 |
| C100 | as C99 | the threads' steps up to the end of the batch being built and of the commit before it (`PropsPipelinedEase.v`), chosen as in C63 and shown to meet the conditions of C57 and C58 (a request that joins a batch is answered, since the invariant of C57 covers the batch being built; the writer can be made anew since the invariant covers what is committed), by well-founded induction on what C63 counts; then C99. Reachability, as in C79 |
| C101 | `spec_read`, the events a subscription asks for; `moves` (how often the call's entry differs between adjacent states of the execution) and `committed` (labels of commits) in `PropsRounds.v` | a potential (5 per response, 6 per version of the watch seen, and the phase in its loop) that each step of a call increases; the version of the watch is bounded by the commits (`leads_ver`, `w_leads_ver`). What counts as a step is a step of the model: a change of the call's state |
| C102 | as C79 and C100; `takes_turns n` in `PropsPipelinedPermits.v` (a permit is only given while fewer than `n` are taken) | the lemmas behind C79 and C100 once more, for any invariant of the server's tasks that is kept by steps within the limit: a task that has a permit can always give it back, since between getting it and giving it back it waits for nothing but the reader; so one is free for the call in question. For the pipelining writer the threads first get to the end of the batch being built (C100), whose steps neither take nor give permits. Reachability, as in C79 |
| C103 | what was said last (`said`, `value_of`), `Spec.v` for matching | `Dcb.v`: builder calls folded over the empty value; induction on the calls from the end |
| C104 | kind and text of the error | `Dcb.v`: the two tables of names as in the code; serde's derived code and the data format are taken to give back what they were given; of `std::io::Error` only `kind`, `Display` and `get_ref` are modelled (the last is `None` but for errors made with a payload: std's documentation). False in general: F39 |
| C105 | addresses as texts; encrypted or not; number of attempts | `Connect.v`: case analysis on the address, induction on the attempts. False in part: F40, F41, F42 |
| C106 | the decoder of `Nodes.v`; prefixes of lists; the stored hashes of `TagHash.v` | `Forensic.v`: slices that go out of range are panics; offsets related to the rest of the page, induction over keys and values |
| C107 | `filed`, `lists`, `leaf_of` (`PropsIndex.v`): the file read with nothing but the node layout; stored events by C01's `shows`, or by a reader's own read of everything | the invariant of C01-C15 has the index as a sorted list of keys with positions; `tree_says` (C91) relates it to `filed`. `check_index` adds `Forensic.v`: bytes after a leaf do not matter to the decoder, a cut leaf shows first entries (C106). Pipelining writer: `minv_held` |
| C108 | `spells`, `means`, `kept`, `recorded` (`PropsHolds.v`): as for C107; metadata by the decoder `meta_de` | as for C107, `tree_says` on the event tree and the tracking tree; overflow chains are functional (`spells_fun`). The tracking tree's root 0 means "none" |
| C109 | `TagHash.v`; the checksum of `Page.v` | the checksum of a tag and a constant after it is a function of that of the tag; the lemma `crc_burst`; values computed elsewhere |
| C110 | `Probe.v` on `Check.v` | `holds`, `absent` (`PropsProbe.v`): leaves of events by the decoder, wherever in the file; for files of executions from C59; witness |
| C111 | `Census.v` on `Probe.v` | `looked_at` (`PropsCensus.v`): the pages by number; names by the node that was written; witness |
| C112 | `Examine.v` on `Forensic.v` and `Probe.v` | `failed_leaf` (`PropsExamine.v`), `looked_at` (C111); problems by C59's `check_pages_exact`; entries by C106's `forensic_page_exact`; the two readings by `forensic_exact` (C106) |
| C113 | `Mvcc.v`, `FreeList.v` | `recorded` (C91): the free list read off the file; `reads_at` (`PropsReuse.v`): readers by their phase; the invariant's `reg_ok` and `find_reusable_ok`. Registry for both writer threads (`registry_exact_pipelined`, by induction over the steps of `PipelineSys.v`), the pages for use for the thread that blocks |

Not modelled: gRPC/TLS transport, tokio scheduling fairness, real time, clap's reading of the command line into typed values
(`Options.v` starts from those), metrics, PyO3. `Options.v` takes from the libraries: tokio's runtime builder panics
for 0 blocking threads, its semaphore beyond 2^61-1 permits; the generated server compares paths with the full method names.

## Findings

Statements that one would expect of the code and that are false of the model; each has a theorem `…_refuted` with a
concrete witness that follows the code step by step. "Reach" says what it takes.

| Id | Finding | Theorem | Reach |
|---|---|---|---|
| F1 (C27) | An append without events but with a condition that is met indexes an empty vector (`db.rs:1024`). The release profile aborts on panic: one request stops the server. | `no_request_stops_writer_refuted` | any gRPC client; the library call `append` filters empty requests, the server does not |
| F2 (C28) | `after = 2^64-1` wraps to 0 in `after + 1`; the condition looks at all events instead of none. | `after_max_refuted` | any client |
| F3 (C29) | Splitting a leaf of the tag index in the middle of the *keys* can leave a part longer than a page; the commit, with all appends in it, fails, and every retry too. | `tag_pages_fit_refuted` | 3 appends, default page size |
| F4 (C30) | The same for the tracking tree. | `tracking_pages_fit_refuted` | 31 tracking updates, default page size |
| F5 (C31, C78, C86) | The iterator over the tag index takes a read error for the end of the list: a query by tags returns a part of the events, a condition is judged on a part. | `read_complete_or_error_refuted`; for a remote read `remote_complete_or_error_refuted` | a page that cannot be read |
| F6 (C14, C97) | Pipelined writer: a batch that starts while its predecessor is in flight takes all free pages if no reader is registered, those of the latest acknowledged state included. A reader that opens then gets that state, and its pages are overwritten: it sees events beyond its head, or garbage. Together with F5 a remote client is told that no event has a tag although one was acknowledged before it asked, and its append on condition that nothing was added since succeeds: a decision on wrong grounds without any failing hardware. | `pipelined_snapshot_refuted`; over the network `pipelined_remote_read_refuted` | `--pipelined-writer`; a read that starts while one batch is written and the next collected, with no other reader |
| F7 (C32) | Pipelined writer: pages are written from buffers of 4096 bytes, whatever the page size: smaller pages overwrite their neighbours, larger ones make commits fail. | `small_pages_refuted`, `large_pages_refuted` | library users; the server uses 4096 |
| F8 (C33, C66) | When syncing the header fails the append is answered with an error, but may be there after a restart; as the process goes on with the old page numbers, a second commit can overwrite pages of the state the header names, and the file may not open after a crash. | `failed_commit_no_trace_refuted`, `failed_sync_harmless_refuted`; with the pipelined writer `pipelined_failed_commit_no_trace_refuted`, `pipelined_failed_sync_harmless_refuted` | failed fsync |
| F9 (C34, C65) | A request with a condition whose client cancels while it is processed makes the batch fail as a whole: other clients' requests, already processed with success, are answered "cancelled". | `cancellation_isolated_refuted`, `pipelined_cancellation_isolated_refuted` | a client that disconnects |
| F10 (C40) | A crash while a database is created leaves a file that can neither be opened nor is recognised as new. | `creation_crash_refuted` | crash in the first moments |
| F11 (C41) | A transient read error on the newer header makes opening "repair" it with the older one: acknowledged appends are lost. | `opening_loses_nothing_refuted` | one failed read while opening |
| F12 (C42, C65) | A shutdown message met while the writer collects a batch is dropped; the thread goes on. | `shutdown_honoured_refuted`, `pipelined_shutdown_honoured_refuted` | `shutdown`, which the server never calls |
| F15 (C43) | The checksum of a page does not cover its type and length. | `page_kind_protected_refuted` | a flipped bit |
| F16 (C44) | Opening does not sync. If the process was killed between writing and syncing a header, the new process builds on a state that is not durable; a crash can then lose what it acknowledged. | `restart_harmless_refuted` | kill, then power loss |
| F17 (C39) | The header's checksum is CRC-32 of the whole; two headers exist whose torn mixture passes. | `torn_header_refuted` | tear inside a sector |
| F18 (C45) | Pipelined writer: when a batch is given up and a page cannot be read while the writer is rolled back, the thread keeps the writer with the changes of the batch and commits them with the next one, after having answered with errors. | `pipelined_abort_no_trace_refuted` | a failed read just after a cancelled request |
| F19 (C46) | The text of an error is sent with its prefix, which the client puts in front once more ("integrity error: integrity error: …"). | `error_text_kept_refuted` | any error |
| F20 (C47) | The server sends an event in a message a few bytes longer than the request that brought it: an event of just under 4 MiB is accepted, and then no client can read it or anything after it. | `event_returns_refuted` | one append of 4 MiB |
| F21 (C47) | The server sends up to 1024 events per message by default, however long: a history of events of 4.1 kB cannot be read with default settings. | `default_batch_refuted` (with 5 kB); `small_responses_arrive` for what does work | ordinary use |
| F22 (C48) | A server that shuts down during a remote read just ends the stream: the client takes the events so far for the whole answer. | `truncation_reported_refuted` | shutdown during a read of more than one batch; a decision based on the answer with the head sent along is unsound |
| F23 (C49) | `next_batch` after `cancel()` fails where an empty batch is documented; on a subscription it succeeds where an error is documented; the asynchronous stream repeats the error forever instead of ending. | `read_cancel_documented_refuted`, `subscription_cancel_documented_refuted` | any client |
| F24 (C52) | The I/O thread of the pipelining writer extends the file page by page; with memory maps, pages of a window that is not complete cannot be read ("file too small"). | `pipelined_mmap_refuted` | a database of more than 256 MiB, `--pipelined` with memory maps |
| F25 (C52) | One run of new pages longer than a window leaves a file that is not a whole number of windows; its last pages cannot be read by memory maps. | `large_commit_mmap_refuted` | a commit that adds more than 256 MiB |
| F26 (C53) | The number of bytes written is not looked at in the I/O thread (`write_at`, not `write_all_at`): a short write is acknowledged as a commit. | `short_write_reported_refuted` | the disk is full, signals |
| F27 (C60) | umadb-check fails on a new database (no last event), and on a healthy one with pages that were allocated at the end of the file and given up in the same transaction: they are dropped from the dirty map (`mvcc.rs:1355`) and never written, but lie below the high-water mark. Also on a healthy file after a crash in the middle of a page write. | `check_new_refuted`, `check_healthy_refuted`, `check_crashed_refuted` | new file; a reader open over ~27 commits of 1 kB pages, closed before a large append |
| F28 (C61) | umadb-check, said never to modify the file, opens it as a server would, and overwrites a damaged header; it reports "Headers: OK" then. | `check_readonly_refuted` | a torn or unreadable header |
| F29 (C61) | umadb-check passes a file whose tag index is empty, or in which an event other than the last is missing: it compares only the last position with the header. | `check_pass_refuted` | a page replaced by another intact one (lost write) |
| F30 (C69) | A misspelt `--read-method` is not refused but becomes `mmap`, which is not the default (`umadb/src/lib.rs:151`) and with which the pipelined writer's pages cannot be read (C52); `--max-blocking-threads 0`, an excessive `UMADB_READER_THREADS` and PEM files the TLS library rejects make the program panic instead of ending with a message. | `bad_options_refused_refuted` | command line |
| F31 (C72) | The width of stored tag hashes is a variable of the process (`tags_tree_nodes.rs:14`), set by every opening. With a database of schema 1 open, opening one of schema 0 beside it (to migrate) makes the first store and look up 8-byte CRC keys in its 16-byte index: an append whose condition must fail succeeds, and events written meanwhile are not found by their tags later, when the database is opened alone. No error is reported. A new file does not set the width at all (`mvcc.rs:285-377`). | `twins_independent_refuted`, `twins_damage_refuted` | library use: two databases of different schema in one process |
| F32 (C73) | Iteration in Python takes an event out of the response, then looks for signals. If a signal handler raises (an alarm that limits the time of a loop, say), the event, and with `Subscription.next_batch` the whole batch, is gone; a program that catches the exception and goes on does not get it. The default handler of SIGINT (`umadb/__init__.py`) cancels all responses, so it takes another one. (`umadb-python/src/lib.rs:306-309, 405-408, 431-434`) | `python_stream_exact_refuted` | any handler that raises |
| F33 (C74) | The documentation says connection errors raise `TransportError` and other errors `RuntimeError` or `OSError`; a connection that breaks during a call and internal errors of the server raise plain `Exception`, which neither clause catches. It says iteration after `cancel()` raises `CancelledByUserError`; a cancelled `ReadResponse` goes on with the events it has and then ends as if complete, and `Subscription.next_batch` hands out a batch first. | `python_exceptions_documented_refuted`, `python_cancel_documented_refuted` | as documented use |
| F34 (C81) | Whether the file is new is found out before it is opened and locked (`pager.rs:63`). A process that looked before another one created the database, and gets the lock after that one has ended, makes a new database in the file: all events are gone. | `new_file_race_refuted` | two first starts on one path, the first process ending while the second is between two system calls |
| F35 (C81) | A process that finds the file just created by another, which has not locked it yet, takes the lock and fails on the empty file; the other is refused the lock and gives up. Both are gone and the empty file remains, which no process can open (cf. F10). | `start_race_refuted` | two first starts on one path at the same moment (a supervisor that starts a replica, say) |
| F36 (C83) | A page read from the file is put into the page cache later, unconditionally (`try_get_with`, `mvcc.rs:611`). In the situation of F6 the reader's page is overwritten meanwhile; the old page then replaces the new one in the cache. Later readers do not see acknowledged events, and once the writer begins anew from the pages (a batch is given up) it builds on the old page: the events are lost in the file too. | `pipelined_poisoned_cache_refuted` | `--pipelined` with a page cache (off by default); a reader held up during the load of a page for two commits |
| F37 (C87) | The directory in which the database file was created is never synced. After a crash of the machine the file may be gone, with everything that was synced and acknowledged; the next start creates an empty database. (Some file systems, ext4 among them, store the name of a new file with it; POSIX does not ask for it.) | `new_database_survives_refuted`; `entry_refines` and `entry_lost` for what does hold | a power failure soon after the first start, on a file system that takes the liberty |
| F38 (C88) | The page size is not stored in the file. Opened with another one, the second header is looked for in a wrong place, usually not found, and "repaired": 1 page of the wrong size is overwritten. With a size between half and all of the right one this always destroys the second header, and with it, every other time, the last commit; with a larger one it may destroy pages of the trees. | `other_page_size_refuted`, `second_header_lost`, `pages_lost`; `half_size_harmless`, `multiple_size_harmless` for the other sizes | `umadb-check --page-size 3072` on a database of the default page size (the tool says it never modifies the file); the library |
| F39 (C104) | A serialised I/O error keeps its text only if it was made with a payload (`get_ref`, `umadb-dcb/src/lib.rs:598`). Errors of the operating system (disk full, EIO, …) come back as "unknown error", without their code; those without a name in the table also lose their kind. | `serialized_error_refuted`, `serialized_eio_refuted` | users of the crate with the feature `serde` |
| F40 (C105) | `grpcs://` is made `https://` for the URI, but TLS is switched on by the text as given (`umadb-client/src/lib.rs:948`). `connect_with_tls_options` without options never connects to `grpcs://`, though the same `https://` address works. `connect` and the builder always give options and are not affected. | `grpcs_alias_refuted` | users of `connect_with_tls_options` |
| F41 (C105) | A CA file that cannot be read makes `connect` panic instead of giving an error (`lib.rs:985-986`). | `connect_panics_refuted` | users of `ca_path` |
| F42 (C105) | `tls_enabled` is set by the text of the address, case by case. With `HTTPS://` the connection is encrypted, but every call of a client with a key fails with "TLS required". It fails on the safe side. | `capital_scheme_refuted` | users of unusual addresses |
| F43 (C48) | A server that shuts down before the first batch of a remote read is sent ends the stream as well: the client is told, without an error, that there are no events and that the store is empty. | `emptiness_true_refuted` | shutdown during any read, also of one batch; whoever takes the answer for the truth (a copy of the store, a report, an append without condition) is wrong |
| F44 (C109) | The "64-bit" tag hashes of databases of schema version 0 tell two tags apart exactly if their 32-bit checksums differ: the salt comes after the tag, so the second half is a function of the first. | `old_hash_64_refuted`, `old_hash_32` | tags such as "plumless" and "buckeroo"; among 100000 tags one expects a clash. Reads stay right (C03 holds for any hash) but go through the positions of both tags |
| F45 (C110) | umadb-check reads 1024 events at a time and drops the whole batch for one event that cannot be read: it says that the events end before the batch and calls all of it, and everything after it, missing, although the events before and after the damage can be read. | `missing_events_refuted` | one damaged page of a longer event |
| F46 (C111) | umadb-check's table of type bytes has no entry for the inner pages of the tracking tree (`e`): when damaged, such a page is counted and reported as "unknown", although its first byte says what it is. | `damaged_page_named_refuted` | a damaged inner page of the tracking tree |

Smaller observations, not stated as properties: the size of tracking leaves is over-estimated by two bytes per entry
(harmless); a retried append whose `after` lies beyond the head is accepted twice (proviso of C05);
`append_batch` gives up the whole batch on an invalid argument whereas the writer threads do not.
