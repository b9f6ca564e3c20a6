(** The server with the pipelining writer thread: requests on their way through the loop of
    umadb-core/src/writer_thread_pipelining.rs, with the commits that the I/O thread writes meanwhile (Pipeline.v). *)
From Verif Require Export PipelineSys.
From Verif Require Export Server.
Local Open Scope N_scope.

(** The thread.  [ZFetch]: at the head of the loop, line 104; [ZOpen]: a request was taken, :126-147; [ZProc]: a request is about
    to be processed, after those of [items], :162 and :201; [ZDrain]: at the head of the inner loop, :185; [ZBarrier]: the batch is
    complete, or given up, :242; [ZIdle]: no request, but a commit is being written, :305; [ZReap]: after the loop, :316; [ZSend]:
    answers to be sent, then the head to be published, if any, then on to [next]; [ZStop]: the thread has ended. *)
Inductive zphase :=
  | ZFetch
  | ZOpen (id : nat) (r : request)
  | ZProc (items : list item) (id : nat) (r : request)
  | ZDrain (items : list item)
  | ZBarrier (items : list item)
  | ZIdle
  | ZReap
  | ZSend (todo : list (nat * res N)) (head : option (option N)) (next : zphase)
  | ZStop.
(* :242-258, 305-310, 316-319: where the thread waits for the I/O thread, and what it does when the commit has succeeded ... *)
Definition z_next (t : zphase) : option zphase :=
  match t with ZBarrier items => Some (ZBarrier items) | ZIdle => Some ZFetch | ZReap => Some ZStop | _ => None end.
(** ... and when it has failed: the batch built on it is given up (:243-254). *)
Definition z_after (t : zphase) : option (list item * zphase) :=
  match t with ZBarrier items => Some (items, ZFetch) | ZIdle => Some ([], ZFetch) | ZReap => Some ([], ZStop) | _ => None end.

(** [z_fly]: the response channels of the commit being written (:19); [z_sent]: the answers sent; [z_seen]: the requests that came
    in, in order; [z_gone]: those whose client has given up; [z_head]: what was last published on the watch. *)
Record zsrv := Zsrv {
  z_sys : psys; z_queue : list msg; z_thread : zphase; z_fly : list nat; z_sent : list (nat * res N);
  z_seen : list (nat * request); z_gone : list nat; z_head : option N }.
Definition z_set_sys x v := Zsrv x (z_queue v) (z_thread v) (z_fly v) (z_sent v) (z_seen v) (z_gone v) (z_head v).
Definition z_set_queue x v := Zsrv (z_sys v) x (z_thread v) (z_fly v) (z_sent v) (z_seen v) (z_gone v) (z_head v).
Definition z_set_thread x v := Zsrv (z_sys v) (z_queue v) x (z_fly v) (z_sent v) (z_seen v) (z_gone v) (z_head v).
Definition z_set_fly x v := Zsrv (z_sys v) (z_queue v) (z_thread v) x (z_sent v) (z_seen v) (z_gone v) (z_head v).
Definition z_send x v := Zsrv (z_sys v) (z_queue v) (z_thread v) (z_fly v) (z_sent v ++ [x]) (z_seen v) (z_gone v) (z_head v).
Definition z_note x v := Zsrv (z_sys v) (z_queue v) (z_thread v) (z_fly v) (z_sent v) (z_seen v ++ [x]) (z_gone v) (z_head v).
Definition z_leave x v := Zsrv (z_sys v) (z_queue v) (z_thread v) (z_fly v) (z_sent v) (z_seen v) (x :: z_gone v) (z_head v).
Definition z_publish x v :=
  Zsrv (z_sys v) (z_queue v) (z_thread v) (z_fly v) (z_sent v) (z_seen v) (z_gone v) (match x with Some h => h | None => z_head v end).
(* writer_thread_pipelining.rs:20-103 *)
Definition z_pipe (v : zsrv) : pipe := s_pipe (z_sys v).
(* :276-281 (prepare_commit leaves next_position as it is in the header) *)
Definition fly_head (f : fly) : option N := let last := h_next_pos (y_header f).2 - 1 in if last =? 0 then None else Some last.
(** The I/O thread has work to do (io_shell.rs:36-70). *)
Definition writing (x : io) : bool := match x with IPages _ | IHeader | ISync => true | _ => false end.

Section server.
  Context (kw : nat) (ps : N) (hash : bytes -> bytes) (order : list bytes -> list bytes) (ford : gset N -> list N) (caching : bool)
    (max_events : N).
  Notation pstep := (pstep kw ps hash order ford caching).
  Notation lstep := (lstep kw ps hash order ford caching).

  (* writer_thread_pipelining.rs:56-319, as cited at the constructors *)
  Inductive zstep : zsrv -> option label -> zsrv -> Prop :=
    (** clients (handler.rs:151-215, 292-296), as with the other thread *)
    | Z_arrive v id r : z_thread v <> ZStop -> id ∉ map fst (z_seen v) ->
        zstep v None (z_set_queue (z_queue v ++ [MAppend id r]) (z_note (id, r) v))
    | Z_leave v id : zstep v None (z_leave id v)
    | Z_shutdown v : zstep v None (z_set_queue (z_queue v ++ [MShutdown]) v)
    (** readers and the cache *)
    | Z_other v d p pi l p' : z_sys v = PSys d p pi -> pstep d p l d p' -> p_writer p = WIdle -> p_writer p' = WIdle ->
        zstep v (Some l) (z_set_sys (PSys d p' pi) v)
    (** the I/O thread *)
    | Z_io v f x s' : l_fly (z_pipe v) = Some f -> writing (y_io f) = true -> lstep (z_sys v) LTau s' ->
        s_proc s' = s_proc (z_sys v) -> s_pipe s' = set_fly (Some (set_io x f)) (z_pipe v) ->
        zstep v (Some LTau) (z_set_sys s' v)
    (* :107-121, 126-133 *)
    | Z_take v id r q : z_thread v = ZFetch -> z_queue v = MAppend id r :: q ->
        zstep v None (z_set_queue q (z_set_thread (ZOpen id r) v))
    | Z_stop v q : z_thread v = ZFetch -> z_queue v = MShutdown :: q ->
        zstep v None (z_set_queue q (z_set_thread ZReap v))
    | Z_idle v : z_thread v = ZFetch -> z_queue v = [] -> l_fly (z_pipe v) <> None ->
        zstep v None (z_set_thread ZIdle v)
    (* :135-147 *)
    | Z_begin v id r s' : z_thread v = ZOpen id r -> lstep (z_sys v) LTau s' -> l_phase (s_pipe s') = PBuild [] [] ->
        zstep v (Some LTau) (z_set_sys s' (z_set_thread (ZProc [] id r) v))
    | Z_begin_fails v id r e s' : z_thread v = ZOpen id r -> lstep (z_sys v) (LAbort [r]) s' -> l_fly (s_pipe s') = l_fly (z_pipe v) -> e <> ECancelled ->
        zstep v (Some (LAbort [r])) (z_send (id, Err e) (z_set_sys s' (z_set_thread ZFetch v)))
    (* :162-169, 201-216 *)
    | Z_process v items id r a s' : z_thread v = ZProc items id r -> lstep (z_sys v) LTau s' ->
        l_phase (s_pipe s') = PBuild (map it_req items ++ [r]) (map it_ans items ++ [a]) ->
        zstep v (Some LTau) (z_set_sys s' (z_set_thread (ZDrain (items ++ [(id, r, a)])) v))
    | Z_fails v items id r e s' : z_thread v = ZProc items id r -> lstep (z_sys v) LTau s' ->
        l_phase (s_pipe s') = PBuilt (map it_req items ++ [r]) (map it_ans items ++ [Err e]) (Some e) ->
        (e = ECancelled -> id ∈ z_gone v) ->
        zstep v (Some LTau) (z_set_sys s' (z_set_thread (ZBarrier (items ++ [(id, r, Err e)])) v))
    (* :186, 190, 232, 233 *)
    | Z_full v items s' : z_thread v = ZDrain items -> max_events <= total_events items -> lstep (z_sys v) LTau s' ->
        l_phase (s_pipe s') = PBuilt (map it_req items) (map it_ans items) None ->
        zstep v (Some LTau) (z_set_sys s' (z_set_thread (ZBarrier items) v))
    | Z_more v items id r q : z_thread v = ZDrain items -> total_events items < max_events -> z_queue v = MAppend id r :: q ->
        zstep v None (z_set_queue q (z_set_thread (ZProc items id r) v))
    (** a shutdown message is taken from the queue here and has no further effect *)
    | Z_swallow v items q s' : z_thread v = ZDrain items -> total_events items < max_events -> z_queue v = MShutdown :: q ->
        lstep (z_sys v) LTau s' -> l_phase (s_pipe s') = PBuilt (map it_req items) (map it_ans items) None ->
        zstep v (Some LTau) (z_set_queue q (z_set_sys s' (z_set_thread (ZBarrier items) v)))
    | Z_empty v items s' : z_thread v = ZDrain items -> total_events items < max_events -> z_queue v = [] ->
        lstep (z_sys v) LTau s' -> l_phase (s_pipe s') = PBuilt (map it_req items) (map it_ans items) None ->
        zstep v (Some LTau) (z_set_sys s' (z_set_thread (ZBarrier items) v))
    (* :56-72; responders and results are zipped *)
    | Z_cached v f s' : z_next (z_thread v) <> None -> l_fly (z_pipe v) = Some f -> y_io f = IDone -> lstep (z_sys v) LTau s' ->
        s_pipe s' = set_fly (Some (set_io ICached f)) (z_pipe v) ->
        zstep v (Some LTau) (z_set_sys s' v)
    | Z_acked v f next s' : z_next (z_thread v) = Some next -> l_fly (z_pipe v) = Some f ->
        lstep (z_sys v) (LCommit (y_done f) (y_ans f)) s' ->
        zstep v (Some (LCommit (y_done f) (y_ans f)))
          (z_set_sys s' (z_set_fly [] (z_set_thread (ZSend (zip (z_fly v) (y_ans f)) (Some (fly_head f)) next) v)))
    (* :73-87, 243-254, 308-310; the clients of the batch being built get an error of another text *)
    | Z_failed v f hdr items next e e' reqs s' : z_after (z_thread v) = Some (items, next) -> l_fly (z_pipe v) = Some f -> y_io f = IFailed hdr ->
        lstep (z_sys v) ((if hdr then LUnsure else LAbort) reqs) s' -> l_fly (s_pipe s') = None -> e <> ECancelled -> e' <> ECancelled ->
        zstep v (Some ((if hdr then LUnsure else LAbort) reqs))
          (z_set_sys s' (z_set_fly [] (z_set_thread (ZSend (map (fun i => (i, Err e)) (z_fly v) ++ map (fun x => (it_id x, Err e')) items) None next) v)))
    (* :260-271 and 296-303; the errors of the members of an aborted batch are all of the kind of the one that aborted it *)
    | Z_abort v items e reqs s' : z_thread v = ZBarrier items -> l_fly (z_pipe v) = None -> lstep (z_sys v) (LAbort reqs) s' ->
        (forall done ans o, l_phase (z_pipe v) = PBuilt done ans o -> match o with Some e' => e = e' | None => e <> ECancelled end) ->
        zstep v (Some (LAbort reqs)) (z_set_sys s' (z_set_thread (ZSend (map (fun x => (it_id x, Err e)) items) None ZFetch) v))
    (* :274-295 *)
    | Z_dispatch v items f s' : z_thread v = ZBarrier items -> l_fly (z_pipe v) = None -> lstep (z_sys v) LTau s' -> l_fly (s_pipe s') = Some f ->
        zstep v (Some LTau) (z_set_sys s' (z_set_fly (map it_id items) (z_set_thread ZFetch v)))
    (* :316-319 *)
    | Z_reap v : z_thread v = ZReap -> l_fly (z_pipe v) = None -> zstep v None (z_set_thread ZStop v)
    (** an answer is sent; the head is published *)
    | Z_send v id a todo h next : z_thread v = ZSend ((id, a) :: todo) h next ->
        zstep v None (z_send (id, a) (z_set_thread (ZSend todo h next) v))
    | Z_publish v h next : z_thread v = ZSend [] h next -> zstep v None (z_publish h (z_set_thread next v)).

  (** From a thread that has just started. *)
  (* writer_thread_pipelining.rs:20-103 *)
  Definition z_init (s : psys) (head : option N) : zsrv := Zsrv s [] ZFetch [] [] [] [] head.
  (** [vs]: the states so far, latest first; [tr]: the steps of the database. *)
  (* executions of writer_thread_pipelining.rs:104-319 *)
  Inductive zserves (s : psys) (head : option N) : list zsrv -> list label -> Prop :=
    | zserves_init : zserves s head [z_init s head] []
    | zserves_step v vs tr ol v' : zserves s head (v :: vs) tr -> zstep v ol v' ->
        zserves s head (v' :: v :: vs) (tr ++ match ol with Some l => [l] | None => [] end).
End server.
