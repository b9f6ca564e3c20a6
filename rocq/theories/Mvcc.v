(** The database as a whole: umadb-core/src/mvcc.rs (Mvcc, Reader, ReaderTsnRegistry), its file, and the
    way the blocking writer thread (writer_thread_blocking.rs) and UmaDb::append (db.rs:214-236) drive it.

    The database is a transition system.  Write transactions, readers, the page cache and the disk make
    steps of their own; between any two steps the machine may crash. *)
From Verif Require Export FreeList Append SpecSys.
From Verif Require Import EventsProofs PageProofs.
Local Open Scope N_scope.

(** ** Write transactions *)
(* mvcc.rs:731-744 *)
Definition new_writer (h : header) : writer :=
  MkWriter (h_tsn h + 1) (h_next_page h) (h_free_root h) (h_events_root h) (h_tags_root h) (h_tracking_root h)
    (h_next_pos h) [] ∅ ∅ ∅ [].
(* mvcc.rs:722-755; [smallest] is ReaderTsnRegistry::min() *)
Definition mvcc_writer (rd : snapshot) (smallest : option N) (h : header) : res unit * writer :=
  find_reusable_page_ids rd smallest (new_writer h).
(* mvcc.rs:2412-2442, the node; [schema] is that of the header the transaction started from *)
Definition next_header (schema : N) (w : writer) : header :=
  Header (w_tsn w) (w_free_root w) (w_events_root w) (w_tags_root w) (w_next_page w) (w_next_pos w) schema (w_tracking_root w).
(* mvcc.rs:2413-2417 *)
Definition other_slot (p : N) : N := if p =? 0 then 1 else 0.

(** ** The disk *)
(** [d_cur]: what a read of a page returns; [d_dur]: the contents a page may have after a crash of the machine;
    [d_wr]: the pages written since the last sync. *)
(* what pager.rs:390-432 and 544-575 work on *)
Record disk := Disk { d_cur : N -> option bytes; d_dur : N -> option bytes -> Prop; d_wr : N -> bool }.

Section disk.
  Context (kw : nat).
  (* PageRW::read_page, mvcc.rs:184-196 *)
  Definition dec (c : option bytes) : res node := match c with Some b => page_de kw b | None => Err EIo end.

  (** What may be found in page [p] after a crash, when [b] was being written over it.  Nothing is assumed about an
      ordinary page.  For a header page: it decodes to what was there before, to what was written, or not at all (the
      62 bytes of a header lie in one disk sector, and have a checksum). *)
  (* pager.rs:390-432: a write that was not synced *)
  Definition may_hold (d : disk) (p : N) (b : bytes) (c : option bytes) : Prop :=
    if p <? 2 then forall n, dec c = Ok n -> dec (Some b) = Ok n \/ exists c0, d_dur d p c0 /\ dec c0 = Ok n
    else True.
  (* Pager::write_page_data and write_contiguous_pages, pager.rs:390-431, for one page *)
  Definition d_write (p : N) (b : bytes) (d : disk) : disk :=
    Disk (fun q => if q =? p then Some b else d_cur d q)
      (fun q c => if q =? p then c = Some b \/ may_hold d p b c else d_dur d q c)
      (fun q => (q =? p) || d_wr d q).
  (** A failed write may have changed the page. *)
  Definition d_spoilt (p : N) (b : bytes) (d d' : disk) : Prop :=
    exists c, may_hold d p b c /\
      d' = Disk (fun q => if q =? p then c else d_cur d q)
             (fun q c => if q =? p then may_hold d p b c else d_dur d q c)
             (fun q => (q =? p) || d_wr d q).
  (* Pager::fsync, pager.rs:544-551 *)
  Definition d_synced (d : disk) : disk :=
    Disk (d_cur d) (fun q c => if d_wr d q then c = d_cur d q else d_dur d q c) (fun _ => false).
  (** After a failed sync the operating system may drop the changes: a page has any of its possible contents, and
      a later sync does not write it again. *)
  Definition d_unsynced (d d' : disk) : Prop :=
    exists f, (forall q, if d_wr d q then d_dur d q (f q) else f q = d_cur d q) /\
      d' = Disk f (d_dur d) (fun _ => false).
  (** A crash of the machine. *)
  Definition d_crashed (d d' : disk) : Prop :=
    exists f, (forall q, d_dur d q (f q)) /\ d' = Disk f (fun q c => c = f q) (fun _ => false).
  (** The header pages are on the disk as they were written last. *)
  Definition d_settled (d : disk) : Prop := forall p c, p < 2 -> d_dur d p c -> c = d_cur d p.
End disk.

(** ** The registry of readers *)
(* mvcc.rs:125-153 *)
Definition reg_register (t : N) (m : gmap N nat) : gmap N nat := <[t := S (default 0%nat (m !! t))]> m.
Definition reg_unregister (t : N) (m : gmap N nat) : gmap N nat :=
  match m !! t with
  | None => m
  | Some c => if (c - 1 =? 0)%nat then delete t m else <[t := (c - 1)%nat]> m
  end.
Definition reg_min (m : gmap N nat) : option N :=
  foldr (fun t acc => Some (match acc with Some a => N.min t a | None => t end)) None (map fst (map_to_list m)).

(** ** The process *)
(** A header page: its page id and its contents. *)
Notation hpage := (N * header)%type.
(* mvcc.rs:536-585; a pinned header is always a header node, see [open_db] *)
Definition latest_of (h0 h1 : hpage) : hpage := if h_tsn h0.2 <? h_tsn h1.2 then h1 else h0.

(** A call of Mvcc::reader (mvcc.rs:688-720).  [RCall]: before the first header is read; [RObs]: header 0 read;
    [RSeen]: latest header found; [RReg]: its tsn registered; [RChk]: header 0 read again; [ROpen]: the reader is
    returned. *)
Inductive rphase :=
  | RCall | RObs (a : hpage) | RSeen (a : hpage) | RReg (a : hpage) | RChk (a b : hpage) | ROpen (a : hpage).
(** The write transaction.  [WBusy]: requests are being processed, [rd] are the pages as they were when it began;
    [WPages]: committing (mvcc.rs:810-854), [todo] still to be written; [WHeader]: pages written and synced, header to
    be written; [WSync]: header written, to be synced; [WBroken]: writing or syncing the header failed. *)
Inductive wphase :=
  | WIdle
  | WBusy (rd : snapshot) (w : writer) (done : list request) (ans : list (res N))
  | WPages (w : writer) (todo : list (N * node)) (done : list request) (ans : list (res N))
  | WHeader (w : writer) (done : list request) (ans : list (res N))
  | WSync (w : writer) (done : list request) (ans : list (res N))
  | WBroken.
(* Mvcc, mvcc.rs:210-228: pinned_headers, page_cache, reader_tsns *)
Record proc := Proc {
  p_pin0 : hpage; p_pin1 : hpage; p_cache : gmap N node; p_regs : gmap N nat;
  p_readers : gmap nat rphase; p_writer : wphase }.
Definition latest (p : proc) : hpage := latest_of (p_pin0 p) (p_pin1 p).
(* mvcc.rs:593-596 *)
Definition pin_header (a : hpage) (p : proc) : proc :=
  if a.1 =? 0 then Proc a (p_pin1 p) (p_cache p) (p_regs p) (p_readers p) (p_writer p)
  else Proc (p_pin0 p) a (p_cache p) (p_regs p) (p_readers p) (p_writer p).
Definition set_cache c p := Proc (p_pin0 p) (p_pin1 p) c (p_regs p) (p_readers p) (p_writer p).
Definition set_regs r p := Proc (p_pin0 p) (p_pin1 p) (p_cache p) r (p_readers p) (p_writer p).
Definition set_readers r p := Proc (p_pin0 p) (p_pin1 p) (p_cache p) (p_regs p) r (p_writer p).
Definition set_writer x p := Proc (p_pin0 p) (p_pin1 p) (p_cache p) (p_regs p) (p_readers p) x.
Definition set_reader i r p := set_readers (<[i := r]> (p_readers p)) p.

(** The whole: the file, and the process if there is one. *)
(* mvcc.rs:215-236 *)
Record sys := Sys { y_disk : disk; y_proc : option proc }.

(** ** Opening an existing file *)
(* Page::as_header_node, page.rs *)
Definition as_header (n : node) : res header := match n with NHeader h => Ok h | _ => Err EDatabaseCorrupted end.
(* mvcc.rs:381-411: the header pages to pin, and the repair to make *)
Definition read_headers (r0 r1 : res node) : res ((N * node) * (N * node) * option (N * node)) :=
  match r0, r1 with
  | Ok n0, Ok n1 => Ok ((0, n0), (1, n1), None)
  | Ok n0, Err _ => Ok ((0, n0), (0, n0), Some (1, n0))
  | Err _, Ok n1 => Ok ((1, n1), (1, n1), Some (0, n1))
  | Err e, Err _ => Err e
  end.
Definition is_free_root (n : node) : bool := match n with NFreeInt _ | NFreeLeaf _ => true | _ => false end.
Definition is_tags_root (n : node) : bool := match n with NTagsInt _ | NTagsLeaf _ => true | _ => false end.
Definition is_ev_root (n : node) : bool := match n with NEvInt _ | NEvLeaf _ => true | _ => false end.
Definition is_trk_root (n : node) : bool := match n with NTrkInt _ | NTrkLeaf _ => true | _ => false end.
Definition check_root (f : node -> bool) (r : res node) : res unit :=
  match r with Ok n => if f n then Ok tt else Err EDatabaseCorrupted | Err e => Err e end.
(* mvcc.rs:434-532.  [read] is read_page with the tag width set from the header; the width must be the [kw] this
   model was instantiated with. *)
Definition check_roots (kw : nat) (read : N -> res node) (h : header) : res unit :=
  if 1 <? h_schema h then Err EInternal
  else if negb (Nat.eqb (if h_schema h =? 0 then 8%nat else 16%nat) kw) then Err EInit
  else let? _ := if h_schema h =? 1 then match read (h_tags_root h) with Ok _ => Ok tt | Err _ => Err EInit end else Ok tt in
  let? _ := check_root is_free_root (read (h_free_root h)) in
  let? _ := check_root is_tags_root (read (h_tags_root h)) in
  let? _ := check_root is_ev_root (read (h_events_root h)) in
  if h_tracking_root h =? 0 then Ok tt else check_root is_trk_root (read (h_tracking_root h)).

Section system.
  (** [kw] tag hash width, [ps] page size, [hash] tag_to_hash, [order] and [ford] iteration orders of hash maps,
      [caching]: a page cache is configured. *)
  Context (kw : nat) (ps : N) (hash : bytes -> bytes) (order : list bytes -> list bytes) (ford : gset N -> list N)
    (caching : bool).
  Notation dec := (dec kw).
  Notation d_write := (d_write kw).

  (* read_page, mvcc.rs:603-625 *)
  Definition fetch (c : gmap N node) (d : disk) (q : N) : res node :=
    if q <? 2 then Err EInternal
    else match c !! q with Some n => Ok n | None => dec (d_cur d q) end.

  (* mvcc.rs:379-533: read the headers, repair one from the other, check the roots *)
  Definition open_db (d : disk) : res (disk * proc) :=
    let? '(n0, n1, fix_) := read_headers (dec (d_cur d 0)) (dec (d_cur d 1)) in
    let? d' := match fix_ with
               | None => Ok d
               | Some (q, n) => let? b := page_ser kw ps n in Ok (d_write q b d)
               end in
    let? h0 := as_header n0.2 in
    let? h1 := as_header n1.2 in
    let p := Proc (n0.1, h0) (n1.1, h1) ∅ ∅ ∅ WIdle in
    let? _ := check_roots kw (fetch ∅ d') (latest p).2 in
    Ok (d', p).

  (** The pages a transaction wrote can be stored: the numbers fit their fields.  (A page that is too long for its
      frame makes the write fail instead.) *)
  (* page.rs:205-232: the casts to the widths of the fields *)
  Definition storable (n : node) : Prop := node_ok kw n /\ node_bytes n.
  (* for statements; mvcc.rs:810-854: the header has been written and is not synced *)
  Definition in_flight (x : wphase) : list request := match x with WSync _ done _ => done | _ => [] end.

  (** A request that keeps to the documented use of the interface: its strings are UTF-8 and its ids 16 bytes (the types
      of the Rust code), a condition comes with events and does not name the last possible position, and there are
      positions left. *)
  (* restriction, see DESIGN.md; for db.rs:824-916 *)
  Definition req_wf (w : writer) (r : request) : Prop :=
    Forall rec_wf (map (to_record (rq_trk r)) (rq_events r)) /\ nlen (rq_events r) <= 4294967295 /\
    (forall c a, rq_cond r = Some c -> ac_after c = Some a -> a + 1 < U64) /\
    (forall c, rq_cond r = Some c -> rq_events r <> []) /\ w_next_pos w + nlen (rq_events r) < U64.
  (* db.rs:1033-1039; writer_thread_blocking.rs:104-118 *)
  Definition is_abort (e : err) : bool := match e with EIntegrity | EInvalidArgument => false | _ => true end.

  (* db.rs:199-205 *)
  Definition header_head (h : header) : option N := if h_next_pos h - 1 =? 0 then None else Some (h_next_pos h - 1).
  (* db.rs:151-197; [force] is false there *)
  Definition umadb_read (rd : N -> res node) (h : header) (q : query) (start : option N) (bw : bool) (limit : option N) (force : bool) :
    res (list seq_event * option N) :=
    let? evs := read_conditional rd (N.to_nat (h_next_page h)) hash order (h_events_root h) (h_tags_root h) q start bw limit force in
    Ok (evs, match limit with None => header_head h | Some _ => fst <$> last evs end).

  (** The steps of a running process. *)
  (* mvcc.rs:536-854, db.rs:824-916, writer_thread_blocking.rs:20-185, as cited at the constructors *)
  Inductive pstep : disk -> proc -> label -> disk -> proc -> Prop :=
    (** the page cache (moka) may hold any page it has read, and forget it *)
    | S_load d p q n : caching = true -> 2 <= q -> fetch (p_cache p) d q = Ok n ->
        pstep d p LTau d (set_cache (<[q := n]> (p_cache p)) p)
    | S_evict d p q : pstep d p LTau d (set_cache (delete q (p_cache p)) p)
    (** readers: mvcc.rs:688-720 *)
    | S_call d p i : p_readers p !! i = None ->
        pstep d p (LCall i) d (set_reader i RCall p)
    | S_obs d p i : p_readers p !! i = Some RCall ->
        pstep d p LTau d (set_reader i (RObs (p_pin0 p)) p)
    | S_seen d p i a : p_readers p !! i = Some (RObs a) ->
        pstep d p LTau d (set_reader i (RSeen (latest_of a (p_pin1 p))) p)
    | S_reg d p i a : p_readers p !! i = Some (RSeen a) ->
        pstep d p LTau d (set_regs (reg_register (h_tsn a.2) (p_regs p)) (set_reader i (RReg a) p))
    | S_chk d p i a : p_readers p !! i = Some (RReg a) ->
        pstep d p LTau d (set_reader i (RChk a (p_pin0 p)) p)
    | S_ready d p i a b : p_readers p !! i = Some (RChk a b) -> h_tsn (latest_of b (p_pin1 p)).2 = h_tsn a.2 ->
        pstep d p (LReady i) d (set_reader i (ROpen a) p)
    | S_retry d p i a b : p_readers p !! i = Some (RChk a b) -> h_tsn (latest_of b (p_pin1 p)).2 <> h_tsn a.2 ->
        pstep d p LTau d (set_regs (reg_unregister (h_tsn a.2) (p_regs p)) (set_reader i RCall p))
    (* Drop for Reader, mvcc.rs:2456-2461 *)
    | S_close d p i a : p_readers p !! i = Some (ROpen a) ->
        pstep d p (LClose i) d (set_regs (reg_unregister (h_tsn a.2) (p_regs p)) (set_readers (delete i (p_readers p)) p))
    (* db.rs:151-197 *)
    | S_read d p i a q start bw limit force : p_readers p !! i = Some (ROpen a) ->
        pstep d p (LRead i q start bw limit (umadb_read (fetch (p_cache p) d) a.2 q start bw limit force)) d p
    (* db.rs:199-205: the latest header is looked up, no reader is registered *)
    | S_head d p i a : p_readers p !! i = Some (RSeen a) ->
        pstep d p (LHead i (header_head a.2)) d (set_readers (delete i (p_readers p)) p)
    (* db.rs:45-76 *)
    | S_track d p i a src : p_readers p !! i = Some (ROpen a) ->
        pstep d p (LTrack i src (get_tracking_info (N.to_nat (h_next_page a.2)) (fetch (p_cache p) d) (h_tracking_root a.2) src)) d p
    (** write transactions *)
    (* mvcc.rs:722-755 *)
    | S_begin d p w : p_writer p = WIdle -> 
        mvcc_writer (fetch (p_cache p) d) (reg_min (p_regs p)) (latest p).2 = (Ok tt, w) ->
        pstep d p LTau d (set_writer (WBusy (fetch (p_cache p) d) w [] []) p)
    (* writer_thread_blocking.rs:54-62, 93-113; db.rs:214-236 *)
    | S_request d p rd w done ans r a w' : p_writer p = WBusy rd w done ans -> req_wf w r ->
        process_append_request rd kw ps hash order (false, false) (rq_events r) (rq_cond r) (rq_trk r) w = (a, w') ->
        match a with Ok _ => True | Err e => is_abort e = false end ->
        pstep d p LTau d (set_writer (WBusy rd w' (done ++ [r]) (ans ++ [a])) p)
    (** a request that is cancelled, a page that cannot be read, and any other error: nothing is committed
        (writer_thread_blocking.rs:133-148) *)
    | S_abort d p rd w done ans r : p_writer p = WBusy rd w done ans ->
        pstep d p (LAbort (done ++ r)) d (set_writer WIdle p)
    (* mvcc.rs:817: process_freed_page_ids; the pages are written in some order *)
    | S_commit d p rd w done ans w' todo : p_writer p = WBusy rd w done ans ->
        process_freed_page_ids rd kw ps ford w = (Ok tt, w') -> todo ≡ₚ map_to_list (w_dirty w') ->
        Forall (fun e => storable e.2) todo -> storable (NHeader (next_header (h_schema (latest p).2) w')) ->
        pstep d p LTau d (set_writer (WPages w' todo done ans) p)
    (* mvcc.rs:820-825, one page *)
    | S_page d p w q n b todo done ans : p_writer p = WPages w ((q, n) :: todo) done ans ->
        page_ser kw ps n = Ok b ->
        pstep d p LTau (d_write q b d) (set_writer (WPages w todo done ans) p)
    (** the page is too long, or the disk fails *)
    | S_page_fails d p w q n b todo done ans d' : p_writer p = WPages w ((q, n) :: todo) done ans ->
        (d' = d \/ d_spoilt kw q b d d') ->
        pstep d p (LAbort done) d' (set_writer WIdle p)
    (* mvcc.rs:828-837: sync, then move the pages into the cache *)
    | S_sync d p w done ans : p_writer p = WPages w [] done ans ->
        pstep d p LTau (d_synced d)
          (set_writer (WHeader w done ans) (if caching then set_cache (w_dirty w ∪ p_cache p) p else p))
    | S_sync_fails d p w done ans d' : p_writer p = WPages w [] done ans -> d_unsynced d d' ->
        pstep d p (LAbort done) d' (set_writer WIdle p)
    (* mvcc.rs:840-841 *)
    | S_header d p w done ans b : p_writer p = WHeader w done ans ->
        page_ser kw ps (NHeader (next_header (h_schema (latest p).2) w)) = Ok b ->
        pstep d p LTau (d_write (other_slot (latest p).1) b d) (set_writer (WSync w done ans) p)
    | S_header_fails d p w done ans b d' : p_writer p = WHeader w done ans ->
        page_ser kw ps (NHeader (next_header (h_schema (latest p).2) w)) = Ok b ->
        d_spoilt kw (other_slot (latest p).1) b d d' ->
        pstep d p (LUnsure done) d' (set_writer WBroken p)
    (* mvcc.rs:844-847: sync, pin; then the answers are sent *)
    | S_done d p w done ans : p_writer p = WSync w done ans ->
        pstep d p (LCommit done ans) (d_synced d)
          (pin_header (other_slot (latest p).1, next_header (h_schema (latest p).2) w) (set_writer WIdle p))
    | S_done_fails d p w done ans d' : p_writer p = WSync w done ans -> d_unsynced d d' ->
        pstep d p (LUnsure done) d' (set_writer WBroken p).

  (** The steps of the whole. *)
  (* as cited at the constructors; mvcc.rs:239-533 *)
  Inductive step : sys -> label -> sys -> Prop :=
    | Y_proc d p l d' p' : pstep d p l d' p' -> step (Sys d (Some p)) l (Sys d' (Some p'))
    | Y_crash d p d' : d_crashed d d' -> step (Sys d (Some p)) (LCrash (in_flight (p_writer p))) (Sys d' None)
    | Y_crash_down d d' : d_crashed d d' -> step (Sys d None) (LCrash []) (Sys d' None)
    (** The process ends or is killed and the operating system goes on; not while a header page is waiting to be
        synced (see [restart_harmless_refuted] in PropsCrash.v for why). *)
    | Y_kill d p : d_settled d -> step (Sys d (Some p)) (LKill (in_flight (p_writer p))) (Sys d None)
    | Y_open d d' p : open_db d = Ok (d', p) -> step (Sys d None) LOpen (Sys d' (Some p)).

  (* executions of mvcc.rs and db.rs *)
  Inductive steps : sys -> list label -> sys -> Prop :=
    | steps_nil y : steps y [] y
    | steps_snoc y tr y' l y'' : steps y tr y' -> step y' l y'' -> steps y (tr ++ [l]) y''.

  (** ** A new database *)
  (* mvcc.rs:285-377: schema version 1, so tag hashes are 16 bytes wide *)
  Definition init_header : header := Header 0 2 3 4 5 1 1 0.
  Definition init_page (q : N) : option node :=
    if q =? 0 then Some (NHeader init_header) else if q =? 1 then Some (NHeader init_header)
    else if q =? 2 then Some (NFreeLeaf (FlLeaf [] []))
    else if q =? 3 then Some (NEvLeaf (EvLeaf [] []))
    else if q =? 4 then Some (NTagsLeaf (TagsLeaf [] []))
    else None.
  Definition init_file (q : N) : option bytes :=
    match init_page q with
    | Some n => match page_ser kw ps n with Ok b => Some b | Err _ => None end
    | None => None
    end.
  Definition init_disk : disk := Disk init_file (fun q c => c = init_file q) (fun _ => false).
  (* mvcc.rs:239-398 *)
  Definition init_sys : sys := Sys init_disk (Some (Proc (0, init_header) (1, init_header) ∅ ∅ ∅ WIdle)).
End system.
