(** Pages that cannot be read.

    In Mvcc.v every page a reader or the writer asks for is there (S_abort allows the writer to give up for any reason).  Here any
    request for a page may fail, each time anew (an I/O error, a page whose checksum does not match), also where the code takes the
    failure for the end of a list: the iterator over the tag index, tags_tree.rs:697-767.  The reads are the programs of PageReads.v.

    Simplified: pages the transaction has in memory may fail as well; a failure while an accepted request is carried out
    makes the writer give up the batch (S_abort, writer_thread_blocking.rs:133-148), since there every error is passed on. *)
From Verif Require Export PageReads.
Local Open Scope N_scope.

(** The results of a program when each page it asks for is that of [rd] or an error. *)
(* mvcc.rs:603-625 gives the page or an error *)
Fixpoint may {A} (rd : snapshot) (t : prog A) (a : A) : Prop :=
  match t with Ret b => a = b | Ask q k => may rd (k (rd q)) a \/ exists e, may rd (k (Err e)) a end.

Section patchy.
  Context (kw : nat) (ps : N) (hash : bytes -> bytes) (order : list bytes -> list bytes) (ford : gset N -> list N) (caching : bool).

  (** ** The writer; see Append.v for the same with pages that can be read *)
  (* db.rs:838-849, 993-1004 *)
  Definition read_patchy (rd : snapshot) (w : writer) (q : query) (start : option N) (limit : N) (r : res (list seq_event)) : Prop :=
    let pg := page_at rd (w_dirty w) in let np := N.to_nat (w_next_page w) in
    may pg (read_conditional_prog (scan_fuel pg np) np hash order (w_events_root w) (w_tags_root w) q start false (Some limit) false) r.
  (* db.rs:1010-1030, with the answer [again] of the second read *)
  Definition verdict (evs : list new_event) (again : list seq_event) : res (option N) :=
    if nlen again =? nlen evs then
      match last again with
      | None => Err Panic
      | Some e => if decide (map (fun f => er_uuid f.2) again = map ne_uuid evs) then Ok (Some e.1) else Err EIntegrity
      end
    else Err EIntegrity.
  (* db.rs:835-880, 967-1009.  Both reads give an answer: an error of theirs, which is never one of the two that reject a request
     (no IntegrityError or InvalidArgument in pager.rs, mvcc.rs, page.rs and the readers of nodes and trees), makes the writer give
     up the batch (S_abort). *)
  Definition judged (rd : snapshot) (w : writer) (evs : list new_event) (cond : option append_condition) (r : res (option N)) : Prop :=
    match cond with
    | None => r = Ok None
    | Some c =>
      let from := match ac_after c with Some a => Some ((a + 1) mod U64) | None => None end in
      exists found, read_patchy rd w (ac_query c) from 1 (Ok found) /\
        match found with
        | [] => r = Ok None
        | _ =>
          if forallb (fun e => is_someb (ne_uuid e)) evs && (nlen evs <=? 4294967295)
          then exists again, read_patchy rd w (ac_query c) from (nlen evs) (Ok again) /\ r = verdict evs again
          else r = Err EIntegrity
        end
    end.
  (* db.rs:827-918: once the condition is judged, as without condition *)
  Definition processed (rd : snapshot) (r : request) (w : writer) (a : res N) (w' : writer) : Prop :=
    exists early, judged rd w (rq_events r) (rq_cond r) early /\
      (a, w') = match early with
                | Err e => (Err e, w)
                | Ok (Some p) => (Ok p, w)
                | Ok None => process_append_request rd kw ps hash order (false, false) (rq_events r) None (rq_trk r) w
                end.

  (** ** The system *)
  (* db.rs:530-916 over mvcc.rs:603-625, as cited at the constructors *)
  Inductive qstep : sys -> label -> sys -> Prop :=
    | Q_step y l y' : step kw ps hash order ford caching y l y' -> qstep y l y'
    (* writer_thread_blocking.rs:54-62, 93-113 *)
    | Q_request d p rd w done ans r a w' : p_writer p = WBusy rd w done ans -> req_wf w r -> processed rd r w a w' ->
        match a with Ok _ => True | Err e => is_abort e = false end ->
        qstep (Sys d (Some p)) LTau (Sys d (Some (set_writer (WBusy rd w' (done ++ [r]) (ans ++ [a])) p)))
    (* db.rs:151-197 *)
    | Q_read d p i h q start bw limit force r : p_readers p !! i = Some (ROpen h) ->
        let rd := fetch kw (p_cache p) d in
        may rd (read_prog (scan_fuel rd (N.to_nat (h_next_page h.2))) hash order h.2 q start bw limit force) r ->
        qstep (Sys d (Some p)) (LRead i q start bw limit r) (Sys d (Some p))
    (* db.rs:45-76 *)
    | Q_track d p i h src r : p_readers p !! i = Some (ROpen h) ->
        may (fetch kw (p_cache p) d) (tracking_prog (N.to_nat (h_next_page h.2)) (h_tracking_root h.2) src) r ->
        qstep (Sys d (Some p)) (LTrack i src r) (Sys d (Some p)).
  Inductive qsteps : sys -> list label -> sys -> Prop :=
    | qsteps_nil y : qsteps y [] y
    | qsteps_snoc y tr y' l y'' : qsteps y tr y' -> qstep y' l y'' -> qsteps y (tr ++ [l]) y''.
End patchy.
