(** The tags tree: umadb-core/src/tags_tree.rs, insertion. *)
From Verif Require Export CowTree.

(** ** The tree of positions of one tag (tags_tree.rs:157-315) *)
(* Returns the new root of the per-tag tree.  [pop_last_position] (tags_tree_nodes.rs:285-289)
   after the push gives back the list before the push. *)
Definition per_tag_insert (rd : snapshot) (kw : nat) (page_size : N) (root pos : N) : M N :=
  let! np := gets w_next_page in
  let! '(leaf, stack) := descend (tag_ops pos) rd (S (N.to_nat np)) root [] in
  let! dleaf := get_dirty_page_id leaf in
  let! n := get_mut_dirty dleaf in
  let! sinfo :=
    match n with
    | NTagLeaf l =>
      if page_size <? page_size_of kw (NTagLeaf (l ++ [pos])) then
        do! put_dirty dleaf (NTagLeaf l) in
        let! q := alloc_page_id in
        do! insert_dirty q (NTagLeaf [pos]) in
        ret (Some (pos, q))
      else
        do! put_dirty dleaf (NTagLeaf (l ++ [pos])) in
        ret None
    | _ => fail EDatabaseCorrupted
    end in
  let! '(rinfo, sinfo') := propagate (tag_ops pos) kw page_size stack (info leaf dleaf) sinfo in
  finish (tag_ops pos) root rinfo sinfo'.

(** ** Moving the inline positions of a tag to a per-tag tree (tags_tree.rs:353-414) *)
Definition new_per_tag_tree (kw : nat) (page_size : N) (positions : list N) : M N :=
  if page_size_of kw (NTagLeaf positions) <=? page_size then
    let! q := alloc_page_id in
    do! insert_dirty q (NTagLeaf positions) in
    ret q
  else
    match last positions with
    | None => fail EDatabaseCorrupted
    | Some last_pos =>
      let left := removelast positions in
      if page_size <? page_size_of kw (NTagLeaf left) then fail EDatabaseCorrupted
      else
        let! l := alloc_page_id in
        do! insert_dirty l (NTagLeaf left) in
        let! r := alloc_page_id in
        do! insert_dirty r (NTagLeaf [last_pos]) in
        let! q := alloc_page_id in
        do! insert_dirty q (NTagInt (INode [last_pos] [l; r])) in
        ret q
    end.

(* read and write of values[i] through the dirty leaf; an out of range index panics *)
(* tags_tree.rs:310-340 *)
Definition set_tags_value (dleaf : N) (i : nat) (v : tags_value) : M unit :=
  let! n := get_mut_dirty dleaf in
  match n with
  | NTagsLeaf l =>
    match tl_values l !! i with
    | Some _ => put_dirty dleaf (NTagsLeaf (TagsLeaf (tl_keys l) (<[i := v]> (tl_values l))))
    | None => fail Panic
    end
  | _ => fail EDatabaseCorrupted
  end.

(** The leaf update (tags_tree.rs:75-427): everything between the copy-on-write of the leaf
    and its size check.  Between [mem::take] of the positions and the assignment of the root the
    Rust code leaves an empty value in the leaf; here the value is replaced once the pages
    exist, and on an error in between the transaction is dropped in both. *)
Definition tags_leaf_update (rd : snapshot) (kw : nat) (page_size : N) (dleaf : N) (tag : bytes) (pos : N) : M unit :=
  let! n := get_mut_dirty dleaf in
  match n with
  | NTagsLeaf l =>
    match bs_bytes tag (tl_keys l) with
    | inl i =>
      match tl_values l !! i with
      | None => fail Panic
      | Some v =>
        if tv_root v =? 0 then
          let positions := tv_positions v ++ [pos] in
          let l1 := TagsLeaf (tl_keys l) (<[i := TagsValue 0 positions]> (tl_values l)) in
          do! put_dirty dleaf (NTagsLeaf l1) in
          if (page_size <? page_size_of kw (NTagsLeaf l1)) && (page_size <? nlen positions * 8 * 2) then
            let! q := new_per_tag_tree kw page_size positions in
            set_tags_value dleaf i (TagsValue q [])
          else ret tt
        else
          let! q := per_tag_insert rd kw page_size (tv_root v) pos in
          let! n' := get_mut_dirty dleaf in
          match n' with
          | NTagsLeaf l' =>
            match bs_bytes tag (tl_keys l') with
            | inl j => match tl_values l' !! j with
                       | Some v' => set_tags_value dleaf j (TagsValue q (tv_positions v'))
                       | None => fail Panic
                       end
            | inr _ => fail EDatabaseCorrupted
            end
          | _ => fail EDatabaseCorrupted
          end
      end
    | inr i =>
      put_dirty dleaf (NTagsLeaf (TagsLeaf (vec_insert i tag (tl_keys l))
                                           (vec_insert i (TagsValue 0 [pos]) (tl_values l))))
    end
  | _ => fail EDatabaseCorrupted
  end.

(* tags_tree.rs:429-463 *)
Definition tags_leaf_split (kw : nat) (page_size : N) (dleaf : N) : M (option (bytes * N)) :=
  let! n := get_mut_dirty dleaf in
  if page_size <? page_size_of kw n then
    match n with
    | NTagsLeaf l =>
      let mid := Nat.div2 (length (tl_keys l)) in
      match drop mid (tl_keys l) with
      | [] => fail Panic
      | k :: _ =>
        do! put_dirty dleaf (NTagsLeaf (TagsLeaf (take mid (tl_keys l)) (take mid (tl_values l)))) in
        let! q := alloc_page_id in
        do! insert_dirty q (NTagsLeaf (TagsLeaf (drop mid (tl_keys l)) (drop mid (tl_values l)))) in
        ret (Some (k, q))
      end
    | _ => ret None
    end
  else ret None.

(* tags_tree.rs:21-590 *)
Definition tags_tree_insert (rd : snapshot) (kw : nat) (page_size : N) (tag : bytes) (pos : N) : M unit :=
  let! root := gets w_tags_root in
  let! np := gets w_next_page in
  let! '(leaf, stack) := descend (tags_ops tag) rd (S (N.to_nat np)) root [] in
  let! dleaf := get_dirty_page_id leaf in
  do! tags_leaf_update rd kw page_size dleaf tag pos in
  let! sinfo := tags_leaf_split kw page_size dleaf in
  let! '(rinfo, sinfo') := propagate (tags_ops tag) kw page_size stack (info leaf dleaf) sinfo in
  let! root' := finish (tags_ops tag) root rinfo sinfo' in
  modify (set_tags_root root').
