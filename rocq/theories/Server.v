(** The server around the database: umadb-server/src/handler.rs and lib.rs, and the blocking writer thread,
    umadb-core/src/writer_thread_blocking.rs.

    The server is a transition system over the one of Mvcc.v: each of its steps leaves the database alone or makes
    one step of the database.  It starts from an open database and lives until the process ends. *)
From Verif Require Export Mvcc.
Local Open Scope N_scope.

(* lib.rs:170-171 *)
Definition READ_BATCH_DEFAULT : N := 1024.
Definition READ_BATCH_MAX : N := 4096.
(* lib.rs:473-476 and 686-689 *)
Definition clamp_batch (b : option N) : N := N.max 1 (N.min (match b with Some x => x | None => READ_BATCH_DEFAULT end) READ_BATCH_MAX).
(* u64::saturating_add *)
Definition sat_add (a b : N) : N := N.min (a + b) (U64 - 1).

(** ** Messages to the writer thread *)
(* writer_thread_request.rs; [id] stands for the response channel *)
Inductive msg := MAppend (id : nat) (r : request) | MShutdown.
Notation item := (nat * request * res N)%type.
Definition it_id (x : item) : nat := x.1.1.
Definition it_req (x : item) : request := x.1.2.
Definition it_ans (x : item) : res N := x.2.
(* total_events *)
Definition total_events (items : list item) : N := foldr (fun x t => nlen (rq_events (it_req x)) + t) 0 items.

(** The thread, writer_thread_blocking.rs.  [TOpen]: a request was received, lines 20-28; [TProc]: a request is about to be
    processed, after those of [items]; [TDrain]: at the head of the inner loop, line 77; [TCommit]: line 151; [TReply]:
    answers to be sent, and the head to be published if the batch was committed; [TStop]: the thread has ended. *)
Inductive tphase :=
  | TWait
  | TOpen (id : nat) (r : request)
  | TProc (items : list item) (id : nat) (r : request)
  | TDrain (items : list item)
  | TCommit (items : list item)
  | TReply (todo : list (nat * res N)) (head : option (option N))
  | TStop.
(* db.rs:1065-1087: the error has the same kind *)
Definition shadow_for_batch_abort (e : err) : err := e.
(* writer_thread_blocking.rs:163-168 *)
Definition published_head (w : writer) : option N := let last := w_next_pos w - 1 in if last =? 0 then None else Some last.
Definition committing (x : wphase) : bool := match x with WPages _ _ _ _ | WHeader _ _ _ | WSync _ _ _ => true | _ => false end.

(** ** Remote reads and subscriptions *)
(* lib.rs:449-661: the request, and the local variables of the task; [rr_out]: the responses sent *)
Record rread := RRead {
  rr_q : query; rr_start : option N; rr_bw : bool; rr_limit : option N; rr_batch : N;
  rr_next : option N; rr_remaining : N; rr_head : option (option N); rr_out : list (list seq_event * option N) }.
(* lib.rs:493-497 *)
Definition new_read (q : query) (start : option N) (bw : bool) (limit : option N) (batch : option N) : rread :=
  RRead q start bw limit (clamp_batch batch) start (match limit with Some l => l | None => U32 - 1 end) None [].
(* lib.rs:507 *)
Definition read_limit (r : rread) : N := N.min (rr_remaining r) (rr_batch r).
(* lib.rs:509-511 *)
Definition read_exhausted (r : rread) : bool := is_someb (rr_limit r) && (rr_remaining r =? 0).
(* lib.rs:551-642: one batch; [true]: go on *)
Definition read_iter (r : rread) (evs : list seq_event) (db_head : option N) : rread * bool :=
  let head := match rr_head r with Some h => h | None => db_head end in
  let kept := match head with Some h => List.filter (fun e => e.1 <=? h) evs | None => evs end in
  let less := nlen evs <? read_limit r in
  let reached := is_someb head && (nlen kept <? nlen evs) in
  let upd next rem out := RRead (rr_q r) (rr_start r) (rr_bw r) (rr_limit r) (rr_batch r) next rem (Some head) out in
  match last kept with
  | None =>
    (upd (rr_next r) (rr_remaining r)
       (match rr_out r with [] => [([], if is_someb (rr_limit r) then None else head)] | o => o end), false)
  | Some e =>
    let out := rr_out r ++ [(kept, if is_someb (rr_limit r) then Some e.1 else head)] in
    let next := Some (if rr_bw r then e.1 - 1 else sat_add e.1 1) in
    if less || reached then (upd next (rr_remaining r) out, false)
    else if is_someb (rr_limit r) then
      let rem := rr_remaining r - nlen kept in (upd next rem out, negb (rem =? 0))
    else (upd next (rr_remaining r) out, true)
  end.

(* lib.rs:665-845; [su_seen]: the version of the watched head seen last (tokio's watch::Receiver) *)
Record rsub := RSub {
  su_q : query; su_after : option N; su_batch : N; su_next : option N; su_seen : nat; su_out : list (list seq_event) }.
(* lib.rs:710-712 *)
Definition new_sub (q : query) (after : option N) (batch : option N) (ver : nat) : rsub :=
  RSub q after (clamp_batch batch) (match after with Some a => Some (sat_add a 1) | None => None end) ver [].
Definition saw (ver : nat) (s : rsub) : rsub := RSub (su_q s) (su_after s) (su_batch s) (su_next s) ver (su_out s).

(** Where the task is.  [QLoop]: at the head of the loop; [QBorrow]: a permit is held and, for a subscription, the watch
    has been marked as seen (lib.rs:743); [QCall]: in Mvcc::reader; [QOpen]: the reader is there; [QRead]: the read is done
    (handler.rs:94-130), the reader about to be dropped; [QWait]: waiting for the watch (lib.rs:786-790); [QEnd]: all is
    sent; [QFail]: an error was sent; [QGone]: given up because the client has gone or the server is to shut down. *)
Inductive qphase :=
  | QLoop | QBorrow | QCall | QOpen | QRead (x : res (list seq_event * option N)) | QWait | QEnd | QFail (e : err) | QGone.
Inductive rpc := QRd (r : rread) (x : qphase) | QSub (s : rsub) (x : qphase).
(* lib.rs:775-828 *)
Definition sub_iter (s : rsub) (evs : list seq_event) : rsub * qphase :=
  match last evs with
  | None => (s, QWait)
  | Some e =>
    if e.1 =? U64 - 1 then (RSub (su_q s) (su_after s) (su_batch s) (su_next s) (su_seen s) (su_out s ++ [evs]), QEnd)
    else (RSub (su_q s) (su_after s) (su_batch s) (Some (sat_add e.1 1)) (su_seen s) (su_out s ++ [evs]), QLoop)
  end.
Definition rpc_phase (x : rpc) : qphase := match x with QRd _ q | QSub _ q => q end.
Definition set_phase (q : qphase) (x : rpc) : rpc := match x with QRd r _ => QRd r q | QSub s _ => QSub s q end.
(* what is asked of the handler: lib.rs:525-531 and 748-755 *)
Definition rpc_args (x : rpc) : query * option N * bool * N :=
  match x with
  | QRd r _ => (rr_q r, rr_next r, rr_bw r, read_limit r)
  | QSub s _ => (su_q s, su_next s, false, su_batch s)
  end.
(* what is done with the answer *)
Definition rpc_handle (x : rpc) (a : res (list seq_event * option N)) : rpc :=
  match a with
  | Err e => set_phase (match e with ECancelled => QGone | _ => QFail e end) x
  | Ok (evs, h) =>
    match x with
    | QRd r _ => let '(r', go) := read_iter r evs h in QRd r' (if go && negb (read_exhausted r') then QLoop else QEnd)
    | QSub s _ => let '(s', q) := sub_iter s evs in QSub s' q
    end
  end.

(** ** The server *)
(** [v_sent]: answers sent by the thread; [v_seen]: the requests put into the queue so far, in order; [v_gone]: the clients
    that cancelled; [v_ver], [v_head]: the watched head and its version. *)
(* umadb-server/src/handler.rs:14-79 *)
Record srv := Srv {
  v_disk : disk; v_proc : proc; v_queue : list msg; v_thread : tphase; v_sent : list (nat * res N);
  v_seen : list (nat * request); v_gone : list nat; v_ver : nat; v_head : option N; v_rpcs : gmap nat rpc;
  v_unread : list nat; v_lost : list nat }.
(* the database and its parts: handler.rs:14-79; setters *)
Definition v_sys (v : srv) : sys := Sys (v_disk v) (Some (v_proc v)).
Definition v_set_db d p v := Srv d p (v_queue v) (v_thread v) (v_sent v) (v_seen v) (v_gone v) (v_ver v) (v_head v) (v_rpcs v) (v_unread v) (v_lost v).
Definition v_set_queue q v := Srv (v_disk v) (v_proc v) q (v_thread v) (v_sent v) (v_seen v) (v_gone v) (v_ver v) (v_head v) (v_rpcs v) (v_unread v) (v_lost v).
Definition v_set_thread t v := Srv (v_disk v) (v_proc v) (v_queue v) t (v_sent v) (v_seen v) (v_gone v) (v_ver v) (v_head v) (v_rpcs v) (v_unread v) (v_lost v).
Definition v_send x v := Srv (v_disk v) (v_proc v) (v_queue v) (v_thread v) (v_sent v ++ [x]) (v_seen v) (v_gone v) (v_ver v) (v_head v) (v_rpcs v) (v_unread v) (v_lost v).
Definition v_note id r v := Srv (v_disk v) (v_proc v) (v_queue v) (v_thread v) (v_sent v) (v_seen v ++ [(id, r)]) (v_gone v) (v_ver v) (v_head v) (v_rpcs v) (v_unread v) (v_lost v).
Definition v_leave id v := Srv (v_disk v) (v_proc v) (v_queue v) (v_thread v) (v_sent v) (v_seen v) (id :: v_gone v) (v_ver v) (v_head v) (v_rpcs v) (v_unread v) (v_lost v).
Definition v_set_rpc k x v := Srv (v_disk v) (v_proc v) (v_queue v) (v_thread v) (v_sent v) (v_seen v) (v_gone v) (v_ver v) (v_head v) (<[k := x]> (v_rpcs v)) (v_unread v) (v_lost v).
(** ghost: a page could not be read for task [k] *)
(* for statements; handler.rs:81-142 with an error from mvcc.rs:603-625 *)
Definition v_mark k v := Srv (v_disk v) (v_proc v) (v_queue v) (v_thread v) (v_sent v) (v_seen v) (v_gone v) (v_ver v) (v_head v) (v_rpcs v) (k :: v_unread v) (v_lost v).
(** ghost: ... and the task got an answer nevertheless *)
(* for statements; tags_tree.rs:697-702 (F5) *)
Definition v_lose k v := Srv (v_disk v) (v_proc v) (v_queue v) (v_thread v) (v_sent v) (v_seen v) (v_gone v) (v_ver v) (v_head v) (v_rpcs v) (v_unread v) (k :: v_lost v).
(** tokio's watch::Sender::send changes nothing when there is no receiver; a receiver lives as long as its task. *)
(* handler.rs:181; lib.rs:665-845 *)
Definition listening (x : rpc) : bool := match x with QSub _ (QEnd | QFail _ | QGone) => false | QSub _ _ => true | QRd _ _ => false end.
Definition has_listener (v : srv) : bool := existsb (fun kx => listening kx.2) (map_to_list (v_rpcs v)).
(* writer_thread_blocking.rs:163-171 *)
Definition v_publish h v :=
  if has_listener v then Srv (v_disk v) (v_proc v) (v_queue v) (v_thread v) (v_sent v) (v_seen v) (v_gone v) (S (v_ver v)) h (v_rpcs v) (v_unread v) (v_lost v) else v.

Section server.
  Context (kw : nat) (ps : N) (hash : bytes -> bytes) (order : list bytes -> list bytes) (ford : gset N -> list N)
    (caching : bool) (max_events : N).
  Notation pstep := (pstep kw ps hash order ford caching).

  (* handler.rs:94-130; the polls of the cancellation flag are left out: once it is set the result is not used *)
  Definition handler_head (h : header) : option N := if 1 <? h_next_pos h then Some (h_next_pos h - 1) else None.
  Definition handler_read (rd : N -> res node) (h : header) (q : query) (start : option N) (bw : bool) (limit : N) :
    res (list seq_event * option N) :=
    match read_conditional rd (N.to_nat (h_next_page h)) hash order (h_events_root h) (h_tags_root h) q start bw (Some limit) false with
    | Ok evs => Ok (evs, handler_head h)
    | Err ECancelled => Err ECancelled
    | Err _ => Err ECorruption
    end.

  (** The steps of the server, with the step of the database each makes. *)
  (* as cited at the constructors; lib.rs:449-945, handler.rs, writer_thread_blocking.rs *)
  Inductive sstep : srv -> option label -> srv -> Prop :=
    (** the clients: handler.rs:144-173.  The channel is closed when the thread has ended. *)
    | V_arrive v id r : v_thread v <> TStop -> id ∉ map fst (v_seen v) ->
        sstep v None (v_note id r (v_set_queue (v_queue v ++ [MAppend id r]) v))
    | V_cancel v id : sstep v None (v_leave id v)
    (* handler.rs:185-190 *)
    | V_shutdown v : sstep v None (v_set_queue (v_queue v ++ [MShutdown]) v)
    (** the page cache, and readers on their way to be opened *)
    | V_tau v d' p' : pstep (v_disk v) (v_proc v) LTau d' p' -> p_writer p' = p_writer (v_proc v) ->
        sstep v (Some LTau) (v_set_db d' p' v)
    (** other users of readers: the calls head and get_tracking_info (handler.rs:132-142, 175-178) *)
    | V_other v l i d' p' : pstep (v_disk v) (v_proc v) l d' p' -> v_rpcs v !! i = None ->
        (l = LCall i \/ l = LReady i \/ l = LClose i \/ (exists r, l = LHead i r) \/ (exists s r, l = LTrack i s r)) ->
        sstep v (Some l) (v_set_db d' p' v)
    (** the writer thread *)
    (* writer_thread_blocking.rs:20 *)
    | V_take v id r q : v_thread v = TWait -> v_queue v = MAppend id r :: q ->
        sstep v None (v_set_thread (TOpen id r) (v_set_queue q v))
    (* :185-187 *)
    | V_stop v q : v_thread v = TWait -> v_queue v = MShutdown :: q ->
        sstep v None (v_set_thread TStop (v_set_queue q v))
    (* :38 *)
    | V_begin v id r rd w d' p' : v_thread v = TOpen id r -> pstep (v_disk v) (v_proc v) LTau d' p' ->
        p_writer (v_proc v) = WIdle -> p_writer p' = WBusy rd w [] [] ->
        sstep v (Some LTau) (v_set_thread (TProc [] id r) (v_set_db d' p' v))
    (* :40-43; a page cannot be read *)
    | V_begin_fails v id r e : v_thread v = TOpen id r -> e <> ECancelled ->
        sstep v None (v_set_thread TWait (v_send (id, Err e) v))
    (* :54-66 and 96-111 *)
    | V_process v items id r rd w w' a d' p' : v_thread v = TProc items id r ->
        p_writer (v_proc v) = WBusy rd w (map it_req items) (map it_ans items) ->
        pstep (v_disk v) (v_proc v) LTau d' p' ->
        p_writer p' = WBusy rd w' (map it_req items ++ [r]) (map it_ans items ++ [a]) ->
        sstep v (Some LTau) (v_set_thread (TDrain (items ++ [(id, r, a)])) (v_set_db d' p' v))
    (** an error that aborts the batch, :67-71, 112-117 and 136-148.  [flags]: what the two polls of the cancellation flag
        see; a page that cannot be read gives an error of another kind *)
    | V_fails v items id r rd w w' flags e unreadable d' p' : v_thread v = TProc items id r ->
        p_writer (v_proc v) = WBusy rd w (map it_req items) (map it_ans items) ->
        (id ∉ v_gone v -> flags = (false, false)) -> is_abort e = true ->
        (if unreadable : bool then e <> ECancelled
         else process_append_request rd kw ps hash order flags (rq_events r) (rq_cond r) (rq_trk r) w = (Err e, w')) ->
        pstep (v_disk v) (v_proc v) (LAbort (map it_req items ++ [r])) d' p' ->
        sstep v (Some (LAbort (map it_req items ++ [r])))
          (v_set_thread (TReply (map (fun x => (it_id x, Err (shadow_for_batch_abort e))) items ++ [(id, Err e)]) None) (v_set_db d' p' v))
    (* :78-80 *)
    | V_full v items : v_thread v = TDrain items -> max_events <= total_events items ->
        sstep v None (v_set_thread (TCommit items) v)
    (* :85-95 *)
    | V_more v items id r q : v_thread v = TDrain items -> total_events items < max_events -> v_queue v = MAppend id r :: q ->
        sstep v None (v_set_thread (TProc items id r) (v_set_queue q v))
    (* :121-127: the message is taken from the queue *)
    | V_swallow v items q : v_thread v = TDrain items -> total_events items < max_events -> v_queue v = MShutdown :: q ->
        sstep v None (v_set_thread (TCommit items) (v_set_queue q v))
    (* :128-130 *)
    | V_empty v items : v_thread v = TDrain items -> total_events items < max_events -> v_queue v = [] ->
        sstep v None (v_set_thread (TCommit items) v)
    (* :151 *)
    | V_commit v items d' p' : v_thread v = TCommit items -> pstep (v_disk v) (v_proc v) LTau d' p' ->
        p_writer p' <> p_writer (v_proc v) -> committing (p_writer p') = true ->
        sstep v (Some LTau) (v_set_db d' p' v)
    (* :151-161 *)
    | V_committed v items w done ans d' p' : v_thread v = TCommit items -> p_writer (v_proc v) = WSync w done ans ->
        pstep (v_disk v) (v_proc v) (LCommit done ans) d' p' ->
        sstep v (Some (LCommit done ans))
          (v_set_thread (TReply (map (fun x => (it_id x, it_ans x)) items) (Some (published_head w))) (v_set_db d' p' v))
    (* :171-181 *)
    | V_commit_fails v items reqs l e d' p' : v_thread v = TCommit items -> (l = LAbort reqs \/ l = LUnsure reqs) -> e <> ECancelled ->
        pstep (v_disk v) (v_proc v) l d' p' ->
        sstep v (Some l) (v_set_thread (TReply (map (fun x => (it_id x, Err e)) items) None) (v_set_db d' p' v))
    (* :139-145, 159-161 and 177-181 *)
    | V_reply v id a todo h : v_thread v = TReply ((id, a) :: todo) h ->
        sstep v None (v_set_thread (TReply todo h) (v_send (id, a) v))
    (* :163-169 *)
    | V_publish v h : v_thread v = TReply [] (Some h) ->
        sstep v None (v_set_thread TWait (v_publish h v))
    | V_next v : v_thread v = TReply [] None ->
        sstep v None (v_set_thread TWait v)
    (** remote reads and subscriptions *)
    | V_read v k q start bw limit batch : v_rpcs v !! k = None -> p_readers (v_proc v) !! k = None ->
        match limit with Some l => l < U32 | None => True end ->
        let r := new_read q start bw limit batch in
        sstep v None (v_set_rpc k (QRd r (if read_exhausted r then QEnd else QLoop)) v)
    (* lib.rs:677-683: nothing can follow the last position *)
    | V_subscribe v k q after batch : v_rpcs v !! k = None -> p_readers (v_proc v) !! k = None ->
        match after with Some a => a < U64 | None => True end ->
        sstep v None (v_set_rpc k (QSub (new_sub q after batch (v_ver v))
          (if bool_decide (after = Some (U64 - 1)) then QEnd else QLoop)) v)
    (** the client has gone, or the server is to shut down: lib.rs:502-505, 718-721; the read of a subscription that has not
        begun is aborted, lib.rs:763-772 *)
    | V_close v k x : v_rpcs v !! k = Some x -> match x with QRd _ (QLoop | QWait) | QSub _ (QLoop | QWait | QBorrow) => True | _ => False end ->
        sstep v None (v_set_rpc k (set_phase QGone x) v)
    (* lib.rs:515-518, and 733-743 *)
    | V_permit v k x : v_rpcs v !! k = Some x -> rpc_phase x = QLoop ->
        sstep v None (v_set_rpc k (match x with QRd r _ => QRd r QBorrow | QSub s _ => QSub (saw (v_ver v) s) QBorrow end) v)
    (* handler.rs:102 *)
    | V_call v k x d' p' : v_rpcs v !! k = Some x -> rpc_phase x = QBorrow -> pstep (v_disk v) (v_proc v) (LCall k) d' p' ->
        sstep v (Some (LCall k)) (v_set_rpc k (set_phase QCall x) (v_set_db d' p' v))
    | V_ready v k x d' p' : v_rpcs v !! k = Some x -> rpc_phase x = QCall -> pstep (v_disk v) (v_proc v) (LReady k) d' p' ->
        sstep v (Some (LReady k)) (v_set_rpc k (set_phase QOpen x) (v_set_db d' p' v))
    (* handler.rs:103-127 *)
    | V_scan v k x a q start bw limit : v_rpcs v !! k = Some x -> rpc_phase x = QOpen ->
        p_readers (v_proc v) !! k = Some (ROpen a) -> rpc_args x = (q, start, bw, limit) ->
        sstep v None (v_set_rpc k (set_phase (QRead (handler_read (fetch kw (p_cache (v_proc v)) (v_disk v)) a.2 q start bw limit)) x) v)
    (* handler.rs:129-130, then the rest of the loop *)
    | V_handle v k x ans d' p' : v_rpcs v !! k = Some x -> rpc_phase x = QRead ans -> pstep (v_disk v) (v_proc v) (LClose k) d' p' ->
        sstep v (Some (LClose k)) (v_set_rpc k (rpc_handle x ans) (v_set_db d' p' v))
    (** the same, but the client has gone, or the server is to shut down: lib.rs:538-547, 763-772.  (The task of a
        subscription does not wait for the read to finish; here it counts as [QGone] when it has.) *)
    | V_dropped v k x ans d' p' : v_rpcs v !! k = Some x -> rpc_phase x = QRead ans -> pstep (v_disk v) (v_proc v) (LClose k) d' p' ->
        sstep v (Some (LClose k)) (v_set_rpc k (set_phase QGone x) (v_set_db d' p' v))
    (** lib.rs:787: the watch has a version that was not seen *)
    | V_wake v k s : v_rpcs v !! k = Some (QSub s QWait) -> v_ver v <> su_seen s ->
        sstep v None (v_set_rpc k (QSub (saw (v_ver v) s) QLoop) v)
    (** a page cannot be read: handler.rs:110-127, the error whatever it is becomes one of corruption.  (Opening the reader,
        :102, reads no page: mvcc.rs:598-601.) *)
    | V_unreadable v k x : v_rpcs v !! k = Some x -> rpc_phase x = QOpen ->
        sstep v None (v_set_rpc k (set_phase (QRead (Err ECorruption)) x) (v_mark k v))
    (** the same, but the iterators get over it and there is an answer, another one than that of [V_scan] *)
    | V_lossy v k x a q start bw limit rd' y : v_rpcs v !! k = Some x -> rpc_phase x = QOpen ->
        p_readers (v_proc v) !! k = Some (ROpen a) -> rpc_args x = (q, start, bw, limit) ->
        (forall i, rd' i = fetch kw (p_cache (v_proc v)) (v_disk v) i \/ exists e, rd' i = Err e) ->
        handler_read rd' a.2 q start bw limit = Ok y -> handler_read (fetch kw (p_cache (v_proc v)) (v_disk v)) a.2 q start bw limit <> Ok y ->
        sstep v None (v_set_rpc k (set_phase (QRead (Ok y)) x) (v_lose k v)).

  (** The states a server goes through, the last one first, and what the database did. *)
  (* handler.rs:30-79 *)
  Definition new_srv (d : disk) (p : proc) (h : option N) : srv := Srv d p [] TWait [] [] [] 0 h ∅ [] [].
  (* executions of lib.rs:449-945 *)
  Inductive serves (d : disk) (p : proc) (h : option N) : list srv -> list label -> Prop :=
    | serves_start : serves d p h [new_srv d p h] []
    | serves_step v vs tr ol v' : serves d p h (v :: vs) tr -> sstep v ol v' ->
        serves d p h (v' :: v :: vs) (tr ++ match ol with Some l => [l] | None => [] end).
End server.
