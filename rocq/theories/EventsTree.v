(** The events tree: umadb-core/src/events_tree.rs. *)
From Verif Require Export CowTree.

(** ** Validation (events_tree_nodes.rs:57-215) *)
(* events_tree_nodes.rs:131-150; the check of the length of each tag is commented out there *)
Definition validate_tags (tags : list bytes) : res unit :=
  if 65535 <? nlen tags then Err EInvalidArgument else Ok tt.
(* events_tree_nodes.rs:192-215; both code paths (brute force, hash set) decide the same *)
Fixpoint has_duplicate_key (m : list (bytes * bytes)) : bool :=
  match m with
  | [] => false
  | (k, _) :: m' => existsb (fun kv => bytes_eqb k kv.1) m' || has_duplicate_key m'
  end.
(* events_tree_nodes.rs:156-188 *)
Definition validate_metadata (m : list (bytes * bytes)) : res unit :=
  if 65535 <? nlen m then Err EInvalidArgument
  else if has_duplicate_key m then Err EInvalidArgument
  else if existsb (fun kv => (65535 <? nlen kv.1) || (65535 <? nlen kv.2)) m then Err EInvalidArgument
  else Ok tt.

(** The value to append with the number of bytes it adds to a leaf, and the overflow form
    if the inline form does not fit a page. *)
(* events_tree_nodes.rs:57-115 *)
Definition sized_value : Type := (event_value * N) * option (event_value * N).

(* events_tree_nodes.rs:57-115.  [calc_serialized_size] of a leaf with one key is
   2 + 8 + size of the value, of an empty leaf 2. *)
Definition validate_event_record (page_size : N) (r : event_record) : res sized_value :=
  let? _ := validate_tags (er_tags r) in
  let? _ := validate_metadata (er_meta r) in
  let empty_size := ev_leaf_size (EvLeaf [] []) in
  let inline_value := Inline r in
  let inline_size := ev_leaf_size (EvLeaf [0] [inline_value]) in
  if inline_size + PAGE_HEADER_SIZE <=? page_size then
    Ok ((inline_value, inline_size - empty_size), None)
  else
    let overflow_value :=
      Overflow (er_type r) (nlen (er_data r)) (er_tags r) 0 (er_uuid r)
               (match er_meta r with [] => 0 | _ => 1 end) (er_tracking r) in
    let overflow_size := ev_leaf_size (EvLeaf [0] [overflow_value]) in
    if page_size <? overflow_size + PAGE_HEADER_SIZE then Err EInvalidArgument
    else Ok ((inline_value, inline_size - empty_size), Some (overflow_value, overflow_size - empty_size)).

(** ** Overflow chains (events_tree.rs:15-77) *)
(* events_tree.rs:24-31 *)
Fixpoint chunk_loop (fuel cap : nat) (data : bytes) : list bytes :=
  match fuel with
  | O => []
  | S fuel' => match data with
               | [] => []
               | _ => take cap data :: chunk_loop fuel' cap (drop cap data)
               end
  end.
Definition chunks (cap : nat) (data : bytes) : list bytes := chunk_loop (length data) cap data.

(* events_tree.rs:44-55, over the reversed chunks *)
Fixpoint write_chunks (rev_chunks : list bytes) (next : N) : M N :=
  match rev_chunks with
  | [] => ret next
  | c :: rest =>
    let! q := alloc_page_id in
    do! insert_dirty q (NEvOverflow (EvOverflow next c)) in
    write_chunks rest q
  end.

(* events_tree.rs:16-56 *)
Definition write_overflow_chain (page_size : N) (data : bytes) : M N :=
  let cap := page_size - (PAGE_HEADER_SIZE + 8) in
  if cap =? 0 then fail EDatabaseCorrupted
  else match chunks (N.to_nat cap) data with
       | [] =>
         let! q := alloc_page_id in
         do! insert_dirty q (NEvOverflow (EvOverflow 0 [])) in
         ret q
       | cs => write_chunks (rev cs) 0
       end.

(* events_tree.rs:58-77 *)
Fixpoint read_overflow_chain (fuel : nat) (pg : snapshot) (p : N) : res bytes :=
  if p =? 0 then Ok [] else
  match fuel with
  | O => Err Fuel
  | S fuel' =>
    let? n := pg p in
    match n with
    | NEvOverflow o => let? rest := read_overflow_chain fuel' pg (ov_next o) in Ok (ov_data o ++ rest)
    | _ => Err EDatabaseCorrupted
    end
  end.

(* events_tree.rs:100-125 *)
Definition data_and_metadata_to_chain (page_size : N) (data : bytes) (m : list (bytes * bytes)) : M (N * N) :=
  let mbytes := match m with [] => [] | _ => meta_ser m end in
  let! root := write_overflow_chain page_size (mbytes ++ data) in
  ret (root, match m with [] => 0 | _ => meta_size m end).

(* events_tree.rs:127-168; the sum of the two lengths is u64 *)
Definition materialize (fuel : nat) (pg : snapshot) (v : event_value) : res event_record :=
  match v with
  | Inline r => Ok r
  | Overflow ty dl tags root uuid ml trk =>
    let? all := read_overflow_chain fuel pg root in
    if negb (nlen all =? (dl + ml) mod U64) then Err EDatabaseCorrupted
    else
      let? mpart := slice_range 0 (N.to_nat ml) all in
      let? m := (if 0 <? ml then meta_de mpart else Ok []) in
      Ok (EventRecord ty (drop (N.to_nat ml) all) tags uuid m trk)
  end.

(** ** Append (events_tree.rs:184-490) *)
(* events_tree.rs:257-284 *)
Definition choose_value (page_size : N) (sv : sized_value) : M (event_value * N) :=
  match sv with
  | ((Inline r, _), Some (ov, od)) =>
    let! '(root, ml) := data_and_metadata_to_chain page_size (er_data r) (er_meta r) in
    match ov with
    | Overflow ty dl tags _ uuid _ trk => ret (Overflow ty dl tags root uuid ml trk, od)
    | _ => fail EInternal
    end
  | ((v, d), None) => ret (v, d)
  | _ => fail EInternal
  end.

(* events_tree.rs:184-490; the stack of the Rust code has no child index (always the last child) *)
Definition event_tree_append (rd : snapshot) (kw : nat) (page_size : N) (sv : sized_value) (pos : N) : M unit :=
  let! root := gets w_events_root in
  let! np := gets w_next_page in
  let! '(leaf, stack) := descend ev_ops rd (S (N.to_nat np)) root [] in
  let! dleaf := get_dirty_page_id leaf in
  let! n := get_page_ref rd dleaf in
  let size := page_size_of kw n in
  let! '(v, diff) := choose_value page_size sv in
  let! sinfo :=
    (if size + diff <=? page_size then
       let! n := get_mut_dirty dleaf in
       match n with
       | NEvLeaf l => do! put_dirty dleaf (NEvLeaf (EvLeaf (ev_keys l ++ [pos]) (ev_values l ++ [v]))) in ret None
       | _ => fail EDatabaseCorrupted
       end
     else
       let! q := alloc_page_id in
       do! insert_dirty q (NEvLeaf (EvLeaf [pos] [v])) in
       ret (Some (pos, q))) in
  let! '(rinfo, sinfo') := propagate ev_ops kw page_size stack (info leaf dleaf) sinfo in
  let! root' := finish ev_ops root rinfo sinfo' in
  modify (set_events_root root').

(* events_tree.rs:492-545 *)
Fixpoint event_tree_lookup (fuel cfuel : nat) (pg : snapshot) (p pos : N) : res event_record :=
  match fuel with
  | O => Err Fuel
  | S fuel' =>
    let? n := pg p in
    match n with
    | NEvInt nd =>
      let i := bs_child (bs_N pos (in_keys nd)) in
      match in_children nd !! i with
      | Some c => event_tree_lookup fuel' cfuel pg c pos
      | None => Err EDatabaseCorrupted
      end
    | NEvLeaf l =>
      match bs_N pos (ev_keys l) with
      | inl i => match ev_values l !! i with
                 | Some v => materialize cfuel pg v
                 | None => Err Panic
                 end
      | inr _ => Err EDatabaseCorrupted
      end
    | _ => Err EDatabaseCorrupted
    end
  end.
