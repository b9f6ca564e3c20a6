(** Append requests: umadb-core/src/db.rs, process_append_request and what it calls. *)
From Verif Require Export EventsTree TagsTree TrackingTree Query Iter.
Local Open Scope N_scope.

Section append.
  (** [rd] the committed pages, [hash] is tag_to_hash, [order] the iteration order of a HashMap of tags. *)
  Context (rd : snapshot) (kw : nat) (page_size : N) (hash : bytes -> bytes) (order : list bytes -> list bytes).

  (* db.rs:511-515 *)
  Fixpoint insert_tags (tags : list bytes) (pos : N) : M unit :=
    match tags with
    | [] => ret tt
    | t :: tags' => do! tags_tree_insert rd kw page_size (hash t) pos in insert_tags tags' pos
    end.

  (* db.rs:492-528 *)
  Fixpoint append_values (svs : list sized_value) (last : N) : M N :=
    match svs with
    | [] => ret last
    | sv :: svs' =>
      let! pos := issue_position in
      do! match sv with
          | ((Inline r, _), _) => insert_tags (er_tags r) pos
          | _ => fail EInternal
          end in
      do! event_tree_append rd kw page_size sv pos in
      append_values svs' pos
    end.

  (* the calls of read_conditional with the pages of the transaction: db.rs:838-849, 993-1004;
     [flag]: the cancellation flag is seen set by this read *)
  Definition read_dirty (flag : bool) (q : query) (start : option N) (limit : N) : M (list seq_event) := fun w =>
    (with_cancel flag
       (read_conditional (page_at rd (w_dirty w)) (N.to_nat (w_next_page w)) hash order
          (w_events_root w) (w_tags_root w) q start false (Some limit) false), w).

  (* db.rs:967-1030.  [found_events[found_events_len - 1]] panics when nothing was found and nothing submitted *)
  Definition is_request_idempotent (flag : bool) (evs : list new_event) (q : query) (start : option N) : M (option N) :=
    if forallb (fun e => is_someb (ne_uuid e)) evs && (nlen evs <=? 4294967295) then
      let! found := read_dirty flag q start (nlen evs) in
      if nlen found =? nlen evs then
        match last found with
        | None => fail Panic
        | Some e => ret (if decide (map (fun f => er_uuid f.2) found = map ne_uuid evs) then Some e.1 else None)
        end
      else ret None
    else ret None.

  (* db.rs:835-880: [Some p] is the early return with [p] *)
  Definition check_condition (cancel : bool * bool) (evs : list new_event) (cond : option append_condition) : M (option N) :=
    match cond with
    | None => ret None
    | Some c =>
      let from := match ac_after c with Some a => Some ((a + 1) mod U64) | None => None end in  (* wraps *)
      let! found := read_dirty cancel.1 (ac_query c) from 1 in
      match found with
      | [] => ret None
      | _ =>
        let! r := is_request_idempotent cancel.2 evs (ac_query c) from in
        match r with
        | Some p => ret (Some p)
        | None => fail EIntegrity
        end
      end
    end.

  (* db.rs:883-896 *)
  Fixpoint validate_all (rs : list event_record) : res (list sized_value) :=
    match rs with
    | [] => Ok []
    | r :: rs' =>
      let? sv := validate_event_record page_size r in
      let? svs := validate_all rs' in
      Ok (sv :: svs)
    end.

  (* db.rs:827-918 *)
  Definition process_append_request (cancel : bool * bool) (evs : list new_event) (cond : option append_condition)
    (trk : option tracking) : M N :=
    let! early := check_condition cancel evs cond in
    match early with
    | Some p => ret p
    | None =>
      let! svs := lift (validate_all (map (to_record trk) evs)) in
      do! match trk with
          | Some t => tracking_upsert rd kw page_size (tr_source t) (tr_pos t)
          | None => ret tt
          end in
      match svs with
      | [] => ret 0
      | _ => append_values svs 0
      end
    end.
End append.
