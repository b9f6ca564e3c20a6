(** CRC-32 and page framing: umadb-core/src/page.rs. *)
From Verif Require Export Nodes.

(** [crc32fast::hash] is the standard reflected CRC-32 (polynomial 0xEDB88320,
    initial value and final xor 0xFFFFFFFF); modelled bit by bit.  That the
    external crate computes this function is part of the trusted base. *)
(* page.rs:236-238: crc32fast::hash *)
Definition crc_poly : N := 3988292384.  (* 0xEDB88320 *)
Definition crc_mask : N := 4294967295.  (* 0xFFFFFFFF *)

(* page.rs:236-238: crc32fast::hash, bit by bit and byte by byte *)
Definition crc_bit (c : N) : N :=
  if N.odd c then N.lxor (N.div2 c) crc_poly else N.div2 c.
Fixpoint crc_bits (k : nat) (c : N) : N :=
  match k with O => c | S k' => crc_bits k' (crc_bit c) end.
Definition crc_byte (c b : N) : N := crc_bits 8 (N.lxor c b).
Definition crc_update (c : N) (l : bytes) : N := fold_left crc_byte l c.
(* page.rs:236-238 *)
Definition calc_crc (l : bytes) : N := N.lxor (crc_update crc_mask l) crc_mask.

(* page.rs:18 *)
Definition PAGE_HEADER_SIZE : N := 9.

(* page.rs:30-33 *)
Definition page_size_of (kw : nat) (n : node) : N := PAGE_HEADER_SIZE + node_size kw n.

(* page.rs:205-232, called with a buffer of [page_size] bytes and zero_fill_remainder = true
   (mvcc.rs:759-920).  The body is at most page_size - 9 bytes long or the write fails
   with an io error (Cursor::write_all). *)
Definition page_ser (kw : nat) (page_size : N) (n : node) : res bytes :=
  let? body := node_ser kw n in
  if page_size <? PAGE_HEADER_SIZE + nlen body then Err EIo
  else Ok ([type_byte n] ++ w32 (calc_crc body) ++ w32 (as_u32 (nlen body)) ++ body
           ++ replicate (N.to_nat (page_size - PAGE_HEADER_SIZE - nlen body)) 0).

(* page.rs:42-78; slicing out of range is a panic *)
Definition page_de (kw : nat) (s : bytes) : res node :=
  if nlen s <? PAGE_HEADER_SIZE then Err EDatabaseCorrupted else
  let? tyb := slice_range 0 1 s in
  let? crcb := slice_range 1 5 s in
  let? lenb := slice_range 5 9 s in
  let ty := le_val tyb in
  let crc := le_val crcb in
  let len := le_val lenb in
  if nlen s <? PAGE_HEADER_SIZE + len then Err EDatabaseCorrupted else
  let? data := slice_range 9 (9 + N.to_nat len) s in
  if calc_crc data =? crc then node_de kw ty data else Err EDatabaseCorrupted.
