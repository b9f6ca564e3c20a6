(** Page contents: the node types and their byte-level codecs.

    Models umadb-core/src/{header_node,free_lists_tree_nodes,events_tree_nodes,
    tags_tree_nodes,tracking_tree_nodes,node}.rs and slice_reader.rs.
    Strings are byte strings; a Rust [String] is always valid UTF-8 ([utf8_ok]).
    [Cursor::write_all] into a buffer of capacity [cap] is modelled by producing the whole byte
    string and failing with [EIo] when it is longer than [cap] (the partially written
    buffer is never looked at after an error). *)
From Verif Require Export Base.

(** ** SliceReader (slice_reader.rs:7-97) *)
Definition reader (A : Type) := bytes -> res (A * bytes).

(* [slice::split_at] panics when the slice is too short *)
(* slice_reader.rs:24 *)
Definition split_at (n : nat) (s : bytes) : res (bytes * bytes) :=
  if (length s <? n)%nat then Err Panic else Ok (take n s, drop n s).
(* [&s[i..j]] panics when the range is not inside the slice *)
(* e.g. page.rs:42-78 *)
Definition slice_range (i j : nat) (s : bytes) : res bytes :=
  if ((i <=? j) && (j <=? length s))%nat then Ok (take (j - i) (drop i s)) else Err Panic.

(* slice_reader.rs:17-27 *)
Definition read_bytes (n : nat) : reader bytes := fun s =>
  if (length s <? n)%nat then Err EDeserialization else split_at n s.

(* slice_reader.rs:29-32 *)
Definition read_u8 : reader N := fun s =>
  let? '(b, s) := read_bytes 1 s in Ok (le_val b, s).
(* slice_reader.rs:34-37 *)
Definition read_u16 : reader N := fun s =>
  let? '(b, s) := read_bytes 2 s in Ok (le_val b, s).
(* slice_reader.rs:39-42 *)
Definition read_u32 : reader N := fun s =>
  let? '(b, s) := read_bytes 4 s in Ok (le_val b, s).
(* slice_reader.rs:44-47; also read_page_id 55-57, read_position 59-61, read_tsn 63-65 *)
Definition read_u64 : reader N := fun s =>
  let? '(b, s) := read_bytes 8 s in Ok (le_val b, s).
(* slice_reader.rs:49-53: Uuid::from_slice never fails on 16 bytes *)
Definition read_uuid : reader bytes := read_bytes 16.
(* slice_reader.rs:68-79 *)
Definition read_string (n : nat) : reader bytes := fun s =>
  let? '(b, s) := read_bytes n s in
  if utf8_ok b then Ok (b, s) else Err EDeserialization.
(* slice_reader.rs:82-91; [kw] is the process-wide tag key width (tags_tree_nodes.rs:14-25) *)
Definition read_tag_hash (kw : nat) : reader bytes := fun s =>
  let? '(b, s) := read_bytes kw s in Ok (b ++ replicate (16 - kw) 0, s).

(* the [for _ in 0..n] loops of the from_slice functions *)
(* e.g. events_tree_nodes.rs:529-656, tags_tree_nodes.rs:99-150 *)
Fixpoint read_list {A} (rd : reader A) (n : nat) : reader (list A) := fun s =>
  match n with
  | O => Ok ([], s)
  | S n' => let? '(x, s) := rd s in
            let? '(xs, s) := read_list rd n' s in
            Ok (x :: xs, s)
  end.

(** ** Node types *)

(* header_node.rs:17-27 *)
Record header := Header {
  h_tsn : N; h_free_root : N; h_events_root : N; h_tags_root : N;
  h_next_page : N; h_next_pos : N; h_schema : N; h_tracking_root : N }.

(* free_lists_tree_nodes.rs:13-16 *)
Record fl_value := FlValue { fv_page_ids : list N; fv_root : N }.
(* free_lists_tree_nodes.rs:7-10 *)
Record fl_leaf := FlLeaf { fl_keys : list N; fl_values : list fl_value }.

(* The five internal node types have the same two fields:
   free_lists_tree_nodes.rs:161-164 and 329-332, events_tree_nodes.rs:689-692,
   tags_tree_nodes.rs:143-146 and 293-296, tracking_tree_nodes.rs:167-170. *)
Record inode (K : Type) := INode { in_keys : list K; in_children : list N }.
Arguments INode {K} _ _.
Arguments in_keys {K} _.
Arguments in_children {K} _.

(* umadb-dcb/src/lib.rs:467-472 *)
Record tracking := Tracking { tr_source : bytes; tr_pos : N }.

(* events_tree_nodes.rs:13-20 *)
Record event_record := EventRecord {
  er_type : bytes; er_data : bytes; er_tags : list bytes; er_uuid : option bytes;
  er_meta : list (bytes * bytes); er_tracking : option tracking }.

(* events_tree_nodes.rs:23-35 *)
Inductive event_value :=
| Inline (r : event_record)
| Overflow (ty : bytes) (data_len : N) (tags : list bytes) (root : N)
           (uuid : option bytes) (meta_len : N) (trk : option tracking).

(* events_tree_nodes.rs:327-330 *)
Record ev_leaf := EvLeaf { ev_keys : list N; ev_values : list event_value }.
(* events_tree_nodes.rs:652-655 *)
Record ev_overflow := EvOverflow { ov_next : N; ov_data : bytes }.

(* tags_tree_nodes.rs:41-46 *)
Record tags_value := TagsValue { tv_root : N; tv_positions : list N }.
(* tags_tree_nodes.rs:49-52 *)
Record tags_leaf := TagsLeaf { tl_keys : list bytes; tl_values : list tags_value }.

(* tracking_tree_nodes.rs:9-12 *)
Record trk_leaf := TrkLeaf { tk_keys : list bytes; tk_values : list N }.

(* node.rs:28-43; TagLeaf (tags_tree_nodes.rs:245-247) and FreeListTsnLeaf
   (free_lists_tree_nodes.rs:280-282) are just lists *)
Inductive node :=
| NHeader (h : header)
| NFreeLeaf (n : fl_leaf)
| NFreeInt (n : inode N)
| NEvLeaf (n : ev_leaf)
| NEvInt (n : inode N)
| NEvOverflow (n : ev_overflow)
| NTagsLeaf (n : tags_leaf)
| NTagsInt (n : inode bytes)
| NTagLeaf (positions : list N)
| NTagInt (n : inode N)
| NTsnLeaf (page_ids : list N)
| NTsnInt (n : inode N)
| NTrkLeaf (n : trk_leaf)
| NTrkInt (n : inode bytes).

Global Instance header_eq_dec : EqDecision header. Proof. solve_decision. Defined.
Global Instance fl_value_eq_dec : EqDecision fl_value. Proof. solve_decision. Defined.
Global Instance fl_leaf_eq_dec : EqDecision fl_leaf. Proof. solve_decision. Defined.
Global Instance inode_eq_dec {K} `{EqDecision K} : EqDecision (inode K). Proof. solve_decision. Defined.
Global Instance tracking_eq_dec : EqDecision tracking. Proof. solve_decision. Defined.
Global Instance event_record_eq_dec : EqDecision event_record. Proof. solve_decision. Defined.
Global Instance event_value_eq_dec : EqDecision event_value. Proof. solve_decision. Defined.
Global Instance ev_leaf_eq_dec : EqDecision ev_leaf. Proof. solve_decision. Defined.
Global Instance ev_overflow_eq_dec : EqDecision ev_overflow. Proof. solve_decision. Defined.
Global Instance tags_value_eq_dec : EqDecision tags_value. Proof. solve_decision. Defined.
Global Instance tags_leaf_eq_dec : EqDecision tags_leaf. Proof. solve_decision. Defined.
Global Instance trk_leaf_eq_dec : EqDecision trk_leaf. Proof. solve_decision. Defined.
Global Instance node_eq_dec : EqDecision node. Proof. solve_decision. Defined.

(** ** Writing helpers *)
(* to_le_bytes and the copies into the buffer in every serialize_into, e.g. events_tree_nodes.rs:226-250, header_node.rs:60-120 *)
Definition w8 (x : N) : bytes := [x].
Definition w16 (x : N) : bytes := le_bytes 2 (as_u16 x).
Definition w32 (x : N) : bytes := le_bytes 4 x.
Definition w64 (x : N) : bytes := le_bytes 8 x.
Definition w64s (l : list N) : bytes := flat_map w64 l.
(* u16 length followed by the bytes *)
(* e.g. events_tree_nodes.rs:236-246 *)
Definition wstr16 (s : bytes) : bytes := w16 (nlen s) ++ s.

(** ** Header (header_node.rs) *)
(* header_node.rs:47-58 *)
Definition header_size (h : header) : N :=
  if h_tracking_root h =? 0 then 52 else 62.
(* header_node.rs:60-93 *)
Definition header_ser (h : header) : bytes :=
  w64 (h_tsn h) ++ w64 (h_next_page h) ++ w64 (h_free_root h) ++ w64 (h_events_root h)
  ++ w64 (h_tags_root h) ++ w64 (h_next_pos h) ++ w32 (h_schema h)
  ++ (if h_tracking_root h =? 0 then [] else w16 1 ++ w64 (h_tracking_root h)).
(* header_node.rs:123-170; flags: only bit 0 is known (header_node.rs:8-13) *)
Definition header_de (s : bytes) : res header :=
  let? '(tsn, s) := read_u64 s in
  let? '(np, s) := read_u64 s in
  let? '(fr, s) := read_u64 s in
  let? '(er, s) := read_u64 s in
  let? '(tr, s) := read_u64 s in
  let? '(npos, s) := read_u64 s in
  let? '(ver, s) := if (4 <=? length s)%nat then read_u32 s else Ok (0, s) in
  let? '(flags, s) :=
     if (2 <=? length s)%nat then
       let? '(bits, s) := read_u16 s in
       if bits <? 2 then Ok (bits, s) else Err EDeserialization
     else Ok (0, s) in
  let? '(trk, s) := if flags =? 1 then read_u64 s else Ok (0, s) in
  Ok (Header tsn fr er tr np npos ver trk).

(** ** Free list nodes (free_lists_tree_nodes.rs) *)
(* free_lists_tree_nodes.rs:23-43 *)
Definition fl_leaf_size (n : fl_leaf) : N :=
  2 + nlen (fl_keys n) * 8
  + foldr (fun v acc => 2 + nlen (fv_page_ids v) * 8 + 8 + acc) 0 (fl_values n).
(* free_lists_tree_nodes.rs:45-73 *)
Definition fl_leaf_ser (n : fl_leaf) : bytes :=
  w16 (nlen (fl_keys n)) ++ w64s (fl_keys n)
  ++ flat_map (fun v => w16 (nlen (fv_page_ids v)) ++ w64s (fv_page_ids v) ++ w64 (fv_root v)) (fl_values n).
(* free_lists_tree_nodes.rs:103-115 (loop body) *)
Definition read_fl_value : reader fl_value := fun s =>
  let? '(n, s) := read_u16 s in
  let? '(ids, s) := read_list read_u64 (N.to_nat n) s in
  let? '(root, s) := read_u64 s in
  Ok (FlValue ids root, s).
(* free_lists_tree_nodes.rs:91-120 *)
Definition fl_leaf_de (s : bytes) : res fl_leaf :=
  let? '(n, s) := read_u16 s in
  let? '(ks, s) := read_list read_u64 (N.to_nat n) s in
  let? '(vs, s) := read_list read_fl_value (N.to_nat n) s in
  Ok (FlLeaf ks vs).

(* free_lists_tree_nodes.rs:171-185 and 335-338 *)
Definition fl_int_size (n : inode N) : N :=
  2 + nlen (in_keys n) * 8 + 2 + nlen (in_children n) * 8.
(* free_lists_tree_nodes.rs:187-210 and 340-362 *)
Definition fl_int_ser (n : inode N) : bytes :=
  w16 (nlen (in_keys n)) ++ w64s (in_keys n) ++ w16 (nlen (in_children n)) ++ w64s (in_children n).
(* free_lists_tree_nodes.rs:224-246 and 364-386 *)
Definition fl_int_de (s : bytes) : res (inode N) :=
  let? '(n, s) := read_u16 s in
  let? '(ks, s) := read_list read_u64 (N.to_nat n) s in
  let? '(m, s) := read_u16 s in
  let? '(cs, s) := read_list read_u64 (N.to_nat m) s in
  Ok (INode ks cs).

(* free_lists_tree_nodes.rs:285-288; tags_tree_nodes.rs:250-253 *)
Definition u64_list_size (l : list N) : N := 2 + nlen l * 8.
(* free_lists_tree_nodes.rs:290-303; tags_tree_nodes.rs:255-268 *)
Definition u64_list_ser (l : list N) : bytes := w16 (nlen l) ++ w64s l.
(* free_lists_tree_nodes.rs:305-318; tags_tree_nodes.rs:270-283 *)
Definition u64_list_de (s : bytes) : res (list N) :=
  let? '(n, s) := read_u16 s in
  let? '(l, s) := read_list read_u64 (N.to_nat n) s in
  Ok l.

(** ** Event nodes (events_tree_nodes.rs) *)
(* events_tree_nodes.rs:217-223 *)
Definition meta_size (m : list (bytes * bytes)) : N :=
  2 + foldr (fun kv acc => 2 + nlen kv.1 + 2 + nlen kv.2 + acc) 0 m.
(* events_tree_nodes.rs:226-249 *)
Definition meta_ser (m : list (bytes * bytes)) : bytes :=
  w16 (nlen m) ++ flat_map (fun kv => wstr16 kv.1 ++ wstr16 kv.2) m.
Definition read_str16 : reader bytes := fun s =>
  let? '(n, s) := read_u16 s in read_string (N.to_nat n) s.
(* events_tree_nodes.rs:260-275 *)
Definition read_meta_entry : reader (bytes * bytes) := fun s =>
  let? '(k, s) := read_str16 s in
  let? '(v, s) := read_str16 s in
  Ok ((k, v), s).
Definition read_metadata : reader (list (bytes * bytes)) := fun s =>
  let? '(n, s) := read_u16 s in read_list read_meta_entry (N.to_nat n) s.
(* events_tree_nodes.rs:279-282 *)
Definition meta_de (s : bytes) : res (list (bytes * bytes)) :=
  let? '(m, _) := read_metadata s in Ok m.
(* events_tree_nodes.rs:285-290 *)
Definition read_tracking : reader tracking := fun s =>
  let? '(src, s) := read_str16 s in
  let? '(p, s) := read_u64 s in
  Ok (Tracking src p, s).
Definition tracking_ser (t : tracking) : bytes := wstr16 (tr_source t) ++ w64 (tr_pos t).

(* events_tree_nodes.rs:333-402 *)
Definition tags_size (tags : list bytes) : N := foldr (fun t acc => 2 + nlen t + acc) 0 tags.
Definition opt_size {A} (f : A -> N) (o : option A) : N := match o with Some a => f a | None => 0 end.

(* events_tree_nodes.rs:343-399 (loop body).  The code counts 4 bytes for the
   length of a tracking source although 2 are written: kept as in the code. *)
Definition ev_value_size (v : event_value) : N :=
  match v with
  | Inline r =>
    1 + (2 + nlen (er_type r)) + (2 + nlen (er_data r)) + 2 + tags_size (er_tags r)
    + opt_size (fun _ => 16) (er_uuid r)
    + (match er_meta r with [] => 0 | m => meta_size m end)
    + opt_size (fun t => 4 + nlen (tr_source t) + 8) (er_tracking r)
  | Overflow ty _ tags _ uuid ml trk =>
    1 + (2 + nlen ty) + 8 + 2 + tags_size tags + 8
    + opt_size (fun _ => 16) uuid
    + (if 0 <? ml then 8 else 0)
    + opt_size (fun t => 4 + nlen (tr_source t) + 8) trk
  end.
(* events_tree_nodes.rs:333-402 *)
Definition ev_leaf_size (n : ev_leaf) : N :=
  2 + nlen (ev_keys n) * 8 + foldr (fun v acc => ev_value_size v + acc) 0 (ev_values n).

(* Option::is_some and Vec::is_empty, events_tree_nodes.rs:405-528 *)
Definition is_someb {A} (o : option A) : bool := match o with Some _ => true | None => false end.
Definition is_nilb {A} (l : list A) : bool := match l with [] => true | _ => false end.

(* EventValueFlags (events_tree_nodes.rs:316-324): bit 0 overflow, 1 uuid, 2 metadata, 3 tracking *)
Definition mk_flags (ovf uuid meta trk : bool) : N :=
  (if ovf then 1 else 0) + (if uuid then 2 else 0) + (if meta then 4 else 0) + (if trk then 8 else 0).
Definition wopt {A} (f : A -> bytes) (o : option A) : bytes := match o with Some a => f a | None => [] end.

(* events_tree_nodes.rs:419-523 (loop body) *)
Definition ev_value_ser (v : event_value) : bytes :=
  match v with
  | Inline r =>
    w8 (mk_flags false (is_someb (er_uuid r)) (negb (is_nilb (er_meta r))) (is_someb (er_tracking r)))
    ++ wstr16 (er_type r) ++ wstr16 (er_data r)
    ++ w16 (nlen (er_tags r)) ++ flat_map wstr16 (er_tags r)
    ++ wopt id (er_uuid r)
    ++ (match er_meta r with [] => [] | m => meta_ser m end)
    ++ wopt tracking_ser (er_tracking r)
  | Overflow ty dl tags root uuid ml trk =>
    w8 (mk_flags true (is_someb uuid) (0 <? ml) (is_someb trk))
    ++ wstr16 ty ++ w64 dl
    ++ w16 (nlen tags) ++ flat_map wstr16 tags
    ++ w64 root
    ++ wopt id uuid
    ++ (if 0 <? ml then w64 ml else [])
    ++ wopt tracking_ser trk
  end.
(* events_tree_nodes.rs:405-526 *)
Definition ev_leaf_ser (n : ev_leaf) : bytes :=
  w16 (nlen (ev_keys n)) ++ w64s (ev_keys n) ++ flat_map ev_value_ser (ev_values n).

(* parts of EventLeafNode::from_slice, events_tree_nodes.rs:529-656 *)
Definition read_data16 : reader bytes := fun s =>
  let? '(n, s) := read_u16 s in read_bytes (N.to_nat n) s.
Definition read_opt {A} (b : bool) (rd : reader A) : reader (option A) := fun s =>
  if b then let? '(x, s) := rd s in Ok (Some x, s) else Ok (None, s).
Definition read_tags : reader (list bytes) := fun s =>
  let? '(n, s) := read_u16 s in read_list read_str16 (N.to_nat n) s.

(* events_tree_nodes.rs:542-633 (loop body) *)
Definition read_ev_value : reader event_value := fun s =>
  let? '(fl, s) := read_u8 s in
  if 16 <=? fl then Err EDeserialization else
  let? '(ty, s) := read_str16 s in
  let ovf := N.testbit fl 0 in
  let hu := N.testbit fl 1 in
  let hm := N.testbit fl 2 in
  let ht := N.testbit fl 3 in
  if negb ovf then
    let? '(data, s) := read_data16 s in
    let? '(tags, s) := read_tags s in
    let? '(uuid, s) := read_opt hu read_uuid s in
    let? '(meta, s) := if hm then read_metadata s else Ok ([], s) in
    let? '(trk, s) := read_opt ht read_tracking s in
    Ok (Inline (EventRecord ty data tags uuid meta trk), s)
  else
    let? '(dl, s) := read_u64 s in
    let? '(tags, s) := read_tags s in
    let? '(root, s) := read_u64 s in
    let? '(uuid, s) := read_opt hu read_uuid s in
    let? '(ml, s) := if hm then read_u64 s else Ok (0, s) in
    let? '(trk, s) := read_opt ht read_tracking s in
    Ok (Overflow ty dl tags root uuid ml trk, s).
(* events_tree_nodes.rs:529-636 *)
Definition ev_leaf_de (s : bytes) : res ev_leaf :=
  let? '(n, s) := read_u16 s in
  let? '(ks, s) := read_list read_u64 (N.to_nat n) s in
  let? '(vs, s) := read_list read_ev_value (N.to_nat n) s in
  Ok (EvLeaf ks vs).

(* events_tree_nodes.rs:658-661 *)
Definition ev_overflow_size (n : ev_overflow) : N := 8 + nlen (ov_data n).
(* events_tree_nodes.rs:663-673 *)
Definition ev_overflow_ser (n : ev_overflow) : bytes := w64 (ov_next n) ++ ov_data n.
(* events_tree_nodes.rs:675-685 *)
Definition ev_overflow_de (s : bytes) : res ev_overflow :=
  let? '(nx, s) := read_u64 s in
  let? '(d, s) := read_bytes (length s) s in
  Ok (EvOverflow nx d).

(* events_tree_nodes.rs:695-706; tags_tree_nodes.rs:299-302 (TagInternalNode) *)
Definition u64_int_size (n : inode N) : N := 2 + nlen (in_keys n) * 8 + nlen (in_children n) * 8.
(* events_tree_nodes.rs:708-726; tags_tree_nodes.rs:304-322 *)
Definition u64_int_ser (n : inode N) : bytes :=
  w16 (nlen (in_keys n)) ++ w64s (in_keys n) ++ w64s (in_children n).
(* events_tree_nodes.rs:728-750; tags_tree_nodes.rs:324-346 *)
Definition u64_int_de (s : bytes) : res (inode N) :=
  let? '(n, s) := read_u16 s in
  let? '(ks, s) := read_list read_u64 (N.to_nat n) s in
  let? '(cs, s) := read_list read_u64 (S (N.to_nat n)) s in
  Ok (INode ks cs).

(** ** Tag index nodes (tags_tree_nodes.rs); [kw] = key width in bytes *)
(* tags_tree_nodes.rs:55-66 *)
Definition tags_leaf_size (kw : nat) (n : tags_leaf) : N :=
  2 + nlen (tl_keys n) * N.of_nat kw
  + foldr (fun v acc => 8 + 2 + nlen (tv_positions v) * 8 + acc) 0 (tl_values n).
(* tags_tree_nodes.rs:68-97 *)
Definition tags_leaf_ser (kw : nat) (n : tags_leaf) : bytes :=
  w16 (nlen (tl_keys n)) ++ flat_map (take kw) (tl_keys n)
  ++ flat_map (fun v => w64 (tv_root v) ++ w16 (nlen (tv_positions v)) ++ w64s (tv_positions v)) (tl_values n).
(* tags_tree_nodes.rs:112-123 (loop body) *)
Definition read_tags_value : reader tags_value := fun s =>
  let? '(root, s) := read_u64 s in
  let? '(n, s) := read_u16 s in
  let? '(ps, s) := read_list read_u64 (N.to_nat n) s in
  Ok (TagsValue root ps, s).
(* tags_tree_nodes.rs:99-127 *)
Definition tags_leaf_de (kw : nat) (s : bytes) : res tags_leaf :=
  let? '(n, s) := read_u16 s in
  let? '(ks, s) := read_list (read_tag_hash kw) (N.to_nat n) s in
  let? '(vs, s) := read_list read_tags_value (N.to_nat n) s in
  Ok (TagsLeaf ks vs).
(* tags_tree_nodes.rs:149-153 *)
Definition tags_int_size (kw : nat) (n : inode bytes) : N :=
  2 + nlen (in_keys n) * N.of_nat kw + nlen (in_children n) * 8.
(* tags_tree_nodes.rs:155-174 *)
Definition tags_int_ser (kw : nat) (n : inode bytes) : bytes :=
  w16 (nlen (in_keys n)) ++ flat_map (take kw) (in_keys n) ++ w64s (in_children n).
(* tags_tree_nodes.rs:176-198 *)
Definition tags_int_de (kw : nat) (s : bytes) : res (inode bytes) :=
  let? '(n, s) := read_u16 s in
  let? '(ks, s) := read_list (read_tag_hash kw) (N.to_nat n) s in
  let? '(cs, s) := read_list read_u64 (S (N.to_nat n)) s in
  Ok (INode ks cs).

(** ** Tracking nodes (tracking_tree_nodes.rs) *)
(* tracking_tree_nodes.rs:22-34 *)
Definition trk_leaf_size (n : trk_leaf) : N :=
  3 + foldr (fun k acc => 1 + nlen k + acc) 0 (tk_keys n) + 8 * nlen (tk_values n).
(* tracking_tree_nodes.rs:46-60, 250-264: a key longer than 255 bytes is an io error *)
Definition keys8_ok (ks : list bytes) : bool := forallb (fun k => nlen k <? 256) ks.
Definition wkeys8 (ks : list bytes) : bytes := flat_map (fun k => w8 (nlen k) ++ k) ks.
(* tracking_tree_nodes.rs:36-68 *)
Definition trk_leaf_ser (n : trk_leaf) : res bytes :=
  if keys8_ok (tk_keys n) then
    Ok (w8 1 ++ w16 (nlen (tk_keys n)) ++ wkeys8 (tk_keys n) ++ w64s (tk_values n))
  else Err EIo.
Definition read_key8 : reader bytes := fun s =>
  let? '(n, s) := read_u8 s in read_string (N.to_nat n) s.
(* v0: u32 length that must fit in a u8, tracking_tree_nodes.rs:90-96 *)
Definition read_key32 : reader bytes := fun s =>
  let? '(n, s) := read_u32 s in
  if n <? 256 then read_string (N.to_nat n) s else Err EDeserialization.
(* sort_by on keys is a stable sort (tracking_tree_nodes.rs:113-115): insertion sort *)
Fixpoint ins_pair (p : bytes * N) (l : list (bytes * N)) : list (bytes * N) :=
  match l with
  | [] => [p]
  | q :: l' => match bytes_cmp p.1 q.1 with Gt => q :: ins_pair p l' | _ => p :: l end
  end.
Fixpoint sort_pairs (l : list (bytes * N)) : list (bytes * N) :=
  match l with [] => [] | p :: l' => ins_pair p (sort_pairs l') end.
(* tracking_tree_nodes.rs:70-124 *)
Definition trk_leaf_de (s : bytes) : res trk_leaf :=
  let? '(ver, s) := read_u8 s in
  if ver =? 0 then
    let? '(cnt, s) := read_u32 s in
    if U16 <=? cnt then Err EDeserialization else
    let? '(ks, s) := read_list read_key32 (N.to_nat cnt) s in
    let? '(vs, s) := read_list read_u64 (N.to_nat cnt) s in
    let ps := sort_pairs (zip ks vs) in
    Ok (TrkLeaf (map fst ps) (map snd ps))
  else
    let? '(cnt, s) := read_u16 s in
    let? '(ks, s) := read_list read_key8 (N.to_nat cnt) s in
    let? '(vs, s) := read_list read_u64 (N.to_nat cnt) s in
    Ok (TrkLeaf ks vs).
(* tracking_tree_nodes.rs:226-238: counts keys+1 children *)
Definition trk_int_size (n : inode bytes) : N :=
  3 + foldr (fun k acc => 1 + nlen k + acc) 0 (in_keys n) + 8 * (nlen (in_keys n) + 1).
(* tracking_tree_nodes.rs:240-272 *)
Definition trk_int_ser (n : inode bytes) : res bytes :=
  if keys8_ok (in_keys n) then
    Ok (w8 1 ++ w16 (nlen (in_keys n)) ++ wkeys8 (in_keys n) ++ w64s (in_children n))
  else Err EIo.
(* tracking_tree_nodes.rs:274-305 *)
Definition trk_int_de (s : bytes) : res (inode bytes) :=
  let? '(ver, s) := read_u8 s in
  if ver =? 0 then Err EDeserialization else
  let? '(cnt, s) := read_u16 s in
  let? '(ks, s) := read_list read_key8 (N.to_nat cnt) s in
  let? '(cs, s) := read_list read_u64 (S (N.to_nat cnt)) s in
  Ok (INode ks cs).

(** ** Node (node.rs) *)
(* node.rs:46-63, constants node.rs:11-24 *)
Definition type_byte (n : node) : N :=
  match n with
  | NHeader _ => 49 | NFreeLeaf _ => 50 | NFreeInt _ => 51 | NEvLeaf _ => 52 | NEvInt _ => 53
  | NTagsLeaf _ => 54 | NTagsInt _ => 55 | NTagLeaf _ => 56 | NTagInt _ => 57
  | NEvOverflow _ => 97 | NTsnLeaf _ => 98 | NTsnInt _ => 99 | NTrkLeaf _ => 100 | NTrkInt _ => 101
  end.
(* node.rs:84-101 *)
Definition node_size (kw : nat) (n : node) : N :=
  match n with
  | NHeader h => header_size h
  | NFreeLeaf n => fl_leaf_size n | NFreeInt n => fl_int_size n
  | NEvLeaf n => ev_leaf_size n | NEvInt n => u64_int_size n | NEvOverflow n => ev_overflow_size n
  | NTagsLeaf n => tags_leaf_size kw n | NTagsInt n => tags_int_size kw n
  | NTagLeaf l => u64_list_size l | NTagInt n => u64_int_size n
  | NTsnLeaf l => u64_list_size l | NTsnInt n => fl_int_size n
  | NTrkLeaf n => trk_leaf_size n | NTrkInt n => trk_int_size n
  end.
(* node.rs:106-123 *)
Definition node_ser (kw : nat) (n : node) : res bytes :=
  match n with
  | NHeader h => Ok (header_ser h)
  | NFreeLeaf n => Ok (fl_leaf_ser n) | NFreeInt n => Ok (fl_int_ser n)
  | NEvLeaf n => Ok (ev_leaf_ser n) | NEvInt n => Ok (u64_int_ser n) | NEvOverflow n => Ok (ev_overflow_ser n)
  | NTagsLeaf n => Ok (tags_leaf_ser kw n) | NTagsInt n => Ok (tags_int_ser kw n)
  | NTagLeaf l => Ok (u64_list_ser l) | NTagInt n => Ok (u64_int_ser n)
  | NTsnLeaf l => Ok (u64_list_ser l) | NTsnInt n => Ok (fl_int_ser n)
  | NTrkLeaf n => trk_leaf_ser n | NTrkInt n => trk_int_ser n
  end.
(* node.rs:125-187 *)
Definition node_de (kw : nat) (ty : N) (s : bytes) : res node :=
  if ty =? 49 then res_map NHeader (header_de s)
  else if ty =? 50 then res_map NFreeLeaf (fl_leaf_de s)
  else if ty =? 51 then res_map NFreeInt (fl_int_de s)
  else if ty =? 52 then res_map NEvLeaf (ev_leaf_de s)
  else if ty =? 53 then res_map NEvInt (u64_int_de s)
  else if ty =? 97 then res_map NEvOverflow (ev_overflow_de s)
  else if ty =? 54 then res_map NTagsLeaf (tags_leaf_de kw s)
  else if ty =? 55 then res_map NTagsInt (tags_int_de kw s)
  else if ty =? 56 then res_map NTagLeaf (u64_list_de s)
  else if ty =? 57 then res_map NTagInt (u64_int_de s)
  else if ty =? 98 then res_map NTsnLeaf (u64_list_de s)
  else if ty =? 99 then res_map NTsnInt (fl_int_de s)
  else if ty =? 100 then res_map NTrkLeaf (trk_leaf_de s)
  else if ty =? 101 then res_map NTrkInt (trk_int_de s)
  else Err EDatabaseCorrupted.
