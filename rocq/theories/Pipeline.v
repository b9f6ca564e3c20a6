(** The pipelining writer thread: umadb-core/src/writer_thread_pipelining.rs, Mvcc::prepare_commit (mvcc.rs:856-920) and
    the I/O thread (io_shell.rs).  While the pages of one batch are written the next batch is processed already.

    The readers, the page cache and the disk are those of Mvcc.v; the write transaction there stays idle. *)
From Verif Require Export Mvcc.
Local Open Scope N_scope.

(* mvcc.rs:34 *)
Definition DEFAULT_PAGE_SIZE : N := 4096.

(** ** Preparing a commit *)
(* mvcc.rs:884-895: the buffers have DEFAULT_PAGE_SIZE bytes *)
Fixpoint prepare_pages (kw : nat) (l : list (N * node)) : res (list (N * bytes)) :=
  match l with
  | [] => Ok []
  | (q, n) :: l' => let? b := page_ser kw DEFAULT_PAGE_SIZE n in let? r := prepare_pages kw l' in Ok ((q, b) :: r)
  end.
(* mvcc.rs:915-917 (header_page is kept beside the writer, see [pipe]) *)
Definition advance (w : writer) : writer :=
  MkWriter (w_tsn w + 1) (w_next_page w) (w_free_root w) (w_events_root w) (w_tags_root w) (w_tracking_root w) (w_next_pos w)
    (w_reusable w) (w_freed w) ∅ ∅ (w_reused w).
(* mvcc.rs:950-963 *)
Definition wet_read (wet : gmap N node) (base : snapshot) : snapshot := fun q => match wet !! q with Some n => Ok n | None => base q end.

(** ** The state *)
(** What the I/O thread has to do for a batch, io_shell.rs:36-70: [IPages]: write the pages; [IHeader]: they are synced, the
    header is to be written; [ISync]: and to be synced; [IDone], [IFailed]: the result is sent; [hdr]: it failed when the header was
    written or synced.  [ICached]: the writer thread has taken note and updated the cache (writer_thread_pipelining.rs:61), but not
    yet pinned the header. *)
Inductive io := IPages (todo : list (N * bytes)) | IHeader | ISync | IDone | ICached | IFailed (hdr : bool).
(* InflightCommit, writer_thread_pipelining.rs:17-24, and PreparedCommit *)
Record fly := Fly { y_io : io; y_header : hpage; y_bytes : bytes; y_wet : gmap N node; y_done : list request; y_ans : list (res N) }.
Definition set_io x f := Fly x (y_header f) (y_bytes f) (y_wet f) (y_done f) (y_ans f).
(** The thread: [PFetch]: at the head of the loop; [PBuild]: requests are being processed; [PBuilt]: the batch is complete, or
    one request failed in a way that aborts it; the thread is at the barrier (line 240). *)
Inductive pphase := PFetch | PBuild (done : list request) (ans : list (res N)) | PBuilt (done : list request) (ans : list (res N)) (failed : option err).
Record pipe := Pipe { l_w : writer; l_header : hpage; l_wet : gmap N node; l_phase : pphase; l_fly : option fly }.
Definition set_phase x l := Pipe (l_w l) (l_header l) (l_wet l) x (l_fly l).
Definition set_fly x l := Pipe (l_w l) (l_header l) (l_wet l) (l_phase l) x.
Definition set_pw x l := Pipe x (l_header l) (l_wet l) (l_phase l) (l_fly l).
Record psys := PSys { s_disk : disk; s_proc : proc; s_pipe : pipe }.

(** A snapshot some of whose pages cannot be read at the moment. *)
(* for statements; mvcc.rs:603-625 may fail *)
Definition ailing (rd rd' : snapshot) : Prop := forall q, rd' q = rd q \/ exists e, rd' q = Err e.

Section pipeline.
  Context (kw : nat) (ps : N) (hash : bytes -> bytes) (order : list bytes -> list bytes) (ford : gset N -> list N) (caching : bool).
  Notation pstep := (pstep kw ps hash order ford caching).
  Notation fetch := (fetch kw).
  (* mvcc.rs:944-963 *)
  Definition snap (d : disk) (p : proc) (l : pipe) : snapshot := wet_read (l_wet l) (fetch (p_cache p) d).
  (* writer_thread_pipelining.rs:92-101; when the writer cannot be made the old one stays in use *)
  Definition rollback (rd : snapshot) (p : proc) (l : pipe) : pipe :=
    match mvcc_writer rd (reg_min (p_regs p)) (latest p).2 with
    | (Ok tt, w) => Pipe w (latest p) ∅ PFetch None
    | (Err _, _) => Pipe (l_w l) (l_header l) ∅ PFetch None
    end.
  (* mvcc.rs:856-920; [todo]: the pages in the order in which the map is drained *)
  Definition prepare_commit (rd : snapshot) (todo : list (N * node)) (l : pipe) : res (hpage * bytes * list (N * bytes) * writer) :=
    match process_freed_page_ids rd kw ps ford (l_w l) with
    | (Err e, _) => Err e
    | (Ok tt, w) =>
      let h := next_header (h_schema (l_header l).2) w in
      let? hb := page_ser kw ps (NHeader h) in
      let? pages := prepare_pages kw todo in
      Ok ((other_slot (l_header l).1, h), hb, pages, w)
    end.

  (* writer_thread_pipelining.rs:56-319, io_shell.rs:11-111, as cited at the constructors *)
  Inductive lstep : psys -> label -> psys -> Prop :=
    (** readers and the cache *)
    | L_other d p pi l p' : pstep d p l d p' -> p_writer p = WIdle -> p_writer p' = WIdle ->
        lstep (PSys d p pi) l (PSys d p' pi)
    (* writer_thread_pipelining.rs:135-147: reusable pages *)
    | L_begin d p pi w : l_phase pi = PFetch ->
        find_reusable_page_ids (snap d p pi) (reg_min (p_regs p)) (l_w pi) = (Ok tt, w) ->
        lstep (PSys d p pi) LTau (PSys d p (set_phase (PBuild [] []) (set_pw w pi)))
    | L_begin_fails d p pi rd r e w : l_phase pi = PFetch -> ailing (snap d p pi) rd ->
        find_reusable_page_ids rd (reg_min (p_regs p)) (l_w pi) = (Err e, w) ->
        lstep (PSys d p pi) (LAbort [r]) (PSys d p (set_pw w pi))
    (* :162-169, 201-209 *)
    | L_request d p pi done ans r a w : l_phase pi = PBuild done ans -> req_wf (l_w pi) r ->
        process_append_request (snap d p pi) kw ps hash order (false, false) (rq_events r) (rq_cond r) (rq_trk r) (l_w pi) = (a, w) ->
        match a with Ok _ => True | Err e => is_abort e = false end ->
        lstep (PSys d p pi) LTau (PSys d p (set_phase (PBuild (done ++ [r]) (ans ++ [a])) (set_pw w pi)))
    (** a page cannot be read, or the request is cancelled *)
    | L_fails d p pi rd flags done ans r e w : l_phase pi = PBuild done ans -> ailing (snap d p pi) rd ->
        process_append_request rd kw ps hash order flags (rq_events r) (rq_cond r) (rq_trk r) (l_w pi) = (Err e, w) -> is_abort e = true ->
        lstep (PSys d p pi) LTau (PSys d p (set_phase (PBuilt (done ++ [r]) (ans ++ [Err e]) (Some e)) (set_pw w pi)))
    (* :189-236 *)
    | L_built d p pi done ans : l_phase pi = PBuild done ans -> done <> [] ->
        lstep (PSys d p pi) LTau (PSys d p (set_phase (PBuilt done ans None) pi))
    (* :56-72: at the barrier (:242), or because there is no request (:307) *)
    | L_cached d p pi f : match l_phase pi with PBuild _ _ => False | _ => True end -> l_fly pi = Some f -> y_io f = IDone ->
        lstep (PSys d p pi) LTau (PSys d (if caching then set_cache (y_wet f ∪ p_cache p) p else p) (set_fly (Some (set_io ICached f)) pi))
    | L_acked d p pi f : match l_phase pi with PBuild _ _ => False | _ => True end -> l_fly pi = Some f -> y_io f = ICached ->
        lstep (PSys d p pi) (LCommit (y_done f) (y_ans f)) (PSys d (pin_header (y_header f) p) (set_fly None pi))
    (* :73-87, 243-254, 308-310; the clients get errors in either case, the label says whether the commit may have been written *)
    | L_failed d p pi f hdr rd : l_fly pi = Some f -> y_io f = IFailed hdr -> ailing (fetch (p_cache p) d) rd ->
        match l_phase pi with PBuild _ _ => False | _ => True end ->
        lstep (PSys d p pi) ((if hdr then LUnsure else LAbort) (y_done f ++ match l_phase pi with PBuilt done _ _ => done | _ => [] end))
          (PSys d p (rollback rd p pi))
    (* :260-271 *)
    | L_abort d p pi done ans e rd : l_phase pi = PBuilt done ans (Some e) -> l_fly pi = None -> ailing (fetch (p_cache p) d) rd ->
        lstep (PSys d p pi) (LAbort done) (PSys d p (rollback rd p pi))
    (* :274-295 *)
    | L_dispatch d p pi done ans todo hp hb pages w : l_phase pi = PBuilt done ans None -> l_fly pi = None ->
        prepare_commit (snap d p pi) todo pi = Ok (hp, hb, pages, w) -> todo ≡ₚ map_to_list (w_dirty w) ->
        Forall (fun e => storable kw e.2) todo -> storable kw (NHeader hp.2) ->
        lstep (PSys d p pi) LTau
          (PSys d p (Pipe (advance w) hp (w_dirty w) PFetch (Some (Fly (IPages pages) hp hb (w_dirty w) done ans))))
    (* :296-303 *)
    | L_dispatch_fails d p pi done ans rd todo e rd' : l_phase pi = PBuilt done ans None -> l_fly pi = None ->
        ailing (snap d p pi) rd -> prepare_commit rd todo pi = Err e -> ailing (fetch (p_cache p) d) rd' ->
        lstep (PSys d p pi) (LAbort done) (PSys d p (rollback rd' p pi))
    (** the I/O thread, io_shell.rs:36-70.  For pages of DEFAULT_PAGE_SIZE bytes; see [uring_write] for others. *)
    | L_page d p pi f q b todo : ps = DEFAULT_PAGE_SIZE -> l_fly pi = Some f -> y_io f = IPages ((q, b) :: todo) ->
        lstep (PSys d p pi) LTau (PSys (d_write kw q b d) p (set_fly (Some (set_io (IPages todo) f)) pi))
    | L_page_fails d p pi f q b todo d' : ps = DEFAULT_PAGE_SIZE -> l_fly pi = Some f -> y_io f = IPages ((q, b) :: todo) ->
        (d' = d \/ d_spoilt kw q b d d') ->
        lstep (PSys d p pi) LTau (PSys d' p (set_fly (Some (set_io (IFailed false) f)) pi))
    | L_sync d p pi f : l_fly pi = Some f -> y_io f = IPages [] ->
        lstep (PSys d p pi) LTau (PSys (d_synced d) p (set_fly (Some (set_io IHeader f)) pi))
    | L_sync_fails d p pi f d' : l_fly pi = Some f -> y_io f = IPages [] -> d_unsynced d d' ->
        lstep (PSys d p pi) LTau (PSys d' p (set_fly (Some (set_io (IFailed false) f)) pi))
    | L_header d p pi f : l_fly pi = Some f -> y_io f = IHeader ->
        lstep (PSys d p pi) LTau (PSys (d_write kw (y_header f).1 (y_bytes f) d) p (set_fly (Some (set_io ISync f)) pi))
    | L_header_fails d p pi f d' : l_fly pi = Some f -> y_io f = IHeader -> d_spoilt kw (y_header f).1 (y_bytes f) d d' ->
        lstep (PSys d p pi) LTau (PSys d' p (set_fly (Some (set_io (IFailed true) f)) pi))
    | L_done d p pi f : l_fly pi = Some f -> y_io f = ISync ->
        lstep (PSys d p pi) LTau (PSys (d_synced d) p (set_fly (Some (set_io IDone f)) pi))
    | L_done_fails d p pi f d' : l_fly pi = Some f -> y_io f = ISync -> d_unsynced d d' ->
        lstep (PSys d p pi) LTau (PSys d' p (set_fly (Some (set_io (IFailed true) f)) pi)).
  (* executions of writer_thread_pipelining.rs *)
  Inductive lsteps : psys -> list label -> psys -> Prop :=
    | lsteps_nil s : lsteps s [] s
    | lsteps_snoc s tr s' l s'' : lsteps s tr s' -> lstep s' l s'' -> lsteps s (tr ++ [l]) s''.
  (* writer_thread_pipelining.rs:46-52: the thread starts *)
  Definition starts (d : disk) (p : proc) (s : psys) : Prop :=
    p_writer p = WIdle /\ exists w, mvcc_writer (fetch (p_cache p) d) (reg_min (p_regs p)) (latest p).2 = (Ok tt, w) /\ s = PSys d p (Pipe w (latest p) ∅ PFetch None).
End pipeline.

(** ** The file in bytes *)
(** io_shell.rs:41-52: [write_at]; each write covers as many bytes as its buffer has, whatever the page size. *)
Definition uring_write (ps : N) (q : N) (b : bytes) (file : N -> N) : N -> N :=
  fun o => if (q * ps <=? o) && (o <? q * ps + nlen b) then nth (N.to_nat (o - q * ps)) b 0 else file o.
(* pager.rs:160-172 *)
Definition file_page (ps : N) (file : N -> N) (q : N) : bytes := map (fun i => file (q * ps + N.of_nat i)) (seq 0 (N.to_nat ps)).
