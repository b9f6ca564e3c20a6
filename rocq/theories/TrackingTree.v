(** The tracking tree: umadb-core/src/db.rs, tracking_upsert and get_tracking_info. *)
From Verif Require Export CowTree.

(* TrackingLeafNode::get, tracking_tree_nodes.rs:126-131 *)
Definition trk_get (source : bytes) (l : trk_leaf) : res (option N) :=
  match bs_bytes source (tk_keys l) with
  | inl i => match tk_values l !! i with Some v => Ok (Some v) | None => Err Panic end
  | inr _ => Ok None
  end.

(* db.rs:344-354, and the overflow check 355-383 *)
Definition trk_leaf_update (kw : nat) (page_size : N) (dleaf : N) (source : bytes) (pos : N) : M (option (bytes * N)) :=
  let! n := get_mut_dirty dleaf in
  match n with
  | NTrkLeaf l =>
    let! l1 := lift (match bs_bytes source (tk_keys l) with
                     | inl i => match tk_values l !! i with
                                | Some _ => Ok (TrkLeaf (tk_keys l) (<[i := pos]> (tk_values l)))
                                | None => Err Panic
                                end
                     | inr i => Ok (TrkLeaf (vec_insert i source (tk_keys l)) (vec_insert i pos (tk_values l)))
                     end) in
    do! put_dirty dleaf (NTrkLeaf l1) in
    if page_size <? page_size_of kw (NTrkLeaf l1) then
      if (length (tk_keys l1) <? 2)%nat then fail EDatabaseCorrupted
      else
        let mid := Nat.div2 (length (tk_keys l1)) in
        match drop mid (tk_keys l1) with
        | [] => fail EDatabaseCorrupted
        | k :: _ =>
          do! put_dirty dleaf (NTrkLeaf (TrkLeaf (take mid (tk_keys l1)) (take mid (tk_values l1)))) in
          let! q := alloc_page_id in
          do! insert_dirty q (NTrkLeaf (TrkLeaf (drop mid (tk_keys l1)) (drop mid (tk_values l1)))) in
          ret (Some (k, q))
        end
    else ret None
  | _ => fail EDatabaseCorrupted
  end.

(* db.rs:246-461 *)
Definition tracking_upsert (rd : snapshot) (kw : nat) (page_size : N) (source : bytes) (pos : N) : M unit :=
  if 255 <? nlen source then fail EInvalidArgument
  else
    let! root := gets w_tracking_root in
    if root =? 0 then
      let! q := alloc_page_id in
      do! insert_dirty q (NTrkLeaf (TrkLeaf [source] [pos])) in
      modify (set_tracking_root q)
    else
      let! np := gets w_next_page in
      let! '(leaf, stack) := descend (trk_ops source) rd (S (N.to_nat np)) root [] in
      let! n := get_page_ref rd leaf in
      do! match n with
          | NTrkLeaf l =>
            let! old := lift (trk_get source l) in
            match old with
            | Some existing => if pos <=? existing then fail EIntegrity else ret tt
            | None => ret tt
            end
          | _ => fail EDatabaseCorrupted
          end in
      let! dleaf := get_dirty_page_id leaf in
      let! sinfo := trk_leaf_update kw page_size dleaf source pos in
      let! '(rinfo, sinfo') := propagate (trk_ops source) kw page_size stack (info leaf dleaf) sinfo in
      let! root' := finish (trk_ops source) root rinfo sinfo' in
      modify (set_tracking_root root').

(* db.rs:45-76 *)
Fixpoint tracking_lookup (fuel : nat) (pg : snapshot) (p : N) (source : bytes) : res (option N) :=
  match fuel with
  | O => Err Fuel
  | S fuel' =>
    let? n := pg p in
    match n with
    | NTrkLeaf l => trk_get source l
    | NTrkInt nd =>
      match in_children nd !! bs_child (bs_bytes source (in_keys nd)) with
      | Some c => tracking_lookup fuel' pg c source
      | None => Err EDatabaseCorrupted
      end
    | _ => Err EDatabaseCorrupted
    end
  end.
(* db.rs:45-80 *)
Definition get_tracking_info (fuel : nat) (pg : snapshot) (root : N) (source : bytes) : res (option N) :=
  if root =? 0 then Ok None else tracking_lookup fuel pg root source.
