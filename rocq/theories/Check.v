(** umadb-check (umadb-tools/src/bin/umadb-check.rs): the tool that checks a database file.

    Left out: what it prints besides the errors, and stage 4, which looks at leaves of the tag index that could not be read and has no
    influence on the outcome.  A page of the file that was never written is [None], whether the file ends before it or, having been
    extended in advance, has zeros there. *)
From Verif Require Export Store Mvcc.
Local Open Scope N_scope.

(** What it complains about.  [QHeader]: a header page cannot be read (191-202); [QPage]: a page below the high-water mark cannot be
    decoded (258-312); [QBeyond]: one above it (377-407); [QScan], [QLast]: reading events failed (525-528, 554-559); [QEnd]: the last event
    read is not the one the header says (563-572); [QNone]: there is no last event (592); [QTree]: it is another (586-591); [QDiffer]: reading
    forwards and backwards ends at different events (599-606). *)
Inductive problem :=
  | QHeader (q : N) | QPage (q : N) | QBeyond (q : N) | QScan (e : err) | QLast (e : err) | QEnd (last : N) | QNone | QTree (last : N) | QDiffer.
(** [c_headers]: header pages it calls damaged (169-189; printed, without influence on the outcome); [c_events]: the events found. *)
Record report := Report { c_headers : list N; c_problems : list problem; c_events : list seq_event }.
(* 909-917 *)
Definition passes (r : report) : Prop := c_problems r = [].

(* umadb-check.rs:362 *)
Definition zero_page (b : bytes) : bool := forallb (N.eqb 0) b.

Section check.
  Context (kw : nat) (ps : N) (hash : bytes -> bytes) (order : list bytes -> list bytes).
  Notation dec := (dec kw).
  (* 142-203 *)
  Definition bad_headers (d : disk) : list N := List.filter (fun q => match d_cur d q with Some b => negb (is_ok (page_de kw b)) | None => false end) [0; 1].
  Definition lost_headers (d : disk) : list N := List.filter (fun q => match d_cur d q with Some _ => false | None => true end) [0; 1].
  (* 258-312; [d] through Mvcc::read_page *)
  Definition bad_pages (d : disk) (h : header) : list N := List.filter (fun q => negb (is_ok (fetch kw ∅ d q))) (seqN 2 (N.to_nat (h_next_page h - 2))).
  (* 314-412: to the end of the file or the first page of zeros *)
  Inductive beyond (d : disk) : N -> list N -> Prop :=
    | beyond_end q : d_cur d q = None -> beyond d q []
    | beyond_zero q b : d_cur d q = Some b -> zero_page b = true -> beyond d q []
    | beyond_ok q b n l : d_cur d q = Some b -> zero_page b = false -> page_de kw b = Ok n -> beyond d (q + 1) l -> beyond d q l
    | beyond_bad q b e l : d_cur d q = Some b -> zero_page b = false -> page_de kw b = Err e -> beyond d (q + 1) l -> beyond d q (q :: l).
  Definition check_read (d : disk) (h : header) (start : option N) (bw : bool) (limit : N) : res (list seq_event) :=
    read_conditional (fetch kw ∅ d) (N.to_nat (h_next_page h)) hash order (h_events_root h) (h_tags_root h) [] start bw (Some limit) false.
  (* 444-530: the events found, and the error that ended the loop *)
  Inductive scan (d : disk) (h : header) : N -> list seq_event -> option err -> Prop :=
    | scan_end k : check_read d h (Some k) false 1024 = Ok [] -> scan d h k [] None
    | scan_more k evs e evs' r : check_read d h (Some k) false 1024 = Ok evs -> last evs = Some e -> scan d h (e.1 + 1) evs' r -> scan d h k (evs ++ evs') r
    | scan_fails k e : check_read d h (Some k) false 1024 = Err e -> scan d h k [] (Some e).
  (* 532-606 *)
  Definition judge (h : header) (evs : list seq_event) (r : option err) (back : res (list seq_event)) : list problem :=
    let lst := from_option fst 0 (last evs) in
    let hl := h_next_pos h - 1 in
    let tree := match back with Ok l => fst <$> last l | Err _ => None end in
    match r with Some e => [QScan e] | None => [] end ++
    match back with Err e => [QLast e] | Ok _ => [] end ++
    (if lst =? hl then [] else [QEnd lst]) ++
    match tree with Some p => if p =? hl then [] else [QTree p] | None => [QNone] end ++
    match tree with Some p => if p =? lst then [] else [QDiffer] | None => [] end.
  (** The tool is run on the file [d]: it leaves [d'] and reports, or fails to open the file (113-120). *)
  Inductive check (d : disk) : disk -> res report -> Prop :=
    | check_fails e : open_db kw ps d = Err e -> check d d (Err e)
    | check_done d' p l evs r : open_db kw ps d = Ok (d', p) -> beyond d' (h_next_page (latest p).2) l -> scan d' (latest p).2 1 evs r ->
        check d d' (Ok (Report (bad_headers d')
          (map QHeader (lost_headers d') ++ map QPage (bad_pages d' (latest p).2) ++ map QBeyond l ++ judge (latest p).2 evs r (check_read d' (latest p).2 None true 1)) evs)).
End check.
