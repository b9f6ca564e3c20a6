(** The copy-on-write B-tree loops shared by the trees of the database.

    The Rust code repeats the same two loops for each tree (the descent to a leaf with a stack of
    parents, and the walk back up that applies child replacements and splits):
      events      events_tree.rs:184-218 and 350-470
      tags        tags_tree.rs:35-60 and 465-580
      per tag     tags_tree.rs:158-180 and 217-300
      tracking    db.rs:277-302 and 382-446
      free list   mvcc.rs:1389-1447 and 1637-1757
      TSN subtree mvcc.rs:1802-1822 and 1855-1930
    They are modelled once, with the differences between the trees in [tree_ops]. *)
From Verif Require Export Writer.

(* the differences between the six loops listed above (events_tree.rs, tags_tree.rs, db.rs, mvcc.rs) *)
Record tree_ops (K : Type) := TreeOps {
  t_leaf : node -> bool;                  (* is this the leaf kind of the tree *)
  t_int : node -> option (inode K);       (* is this the internal kind of the tree *)
  t_mk : inode K -> node;
  t_choose : inode K -> res (nat * N);    (* child index and child taken by the descent *)
  t_repl : inode K -> nat -> N -> N -> res (inode K);  (* replace a child id *)
  t_ins : inode K -> nat -> K -> N -> inode K;         (* insert a promoted key and child *)
  t_split : inode K -> res (inode K * K * inode K);    (* split_off: left, promoted, right *)
  t_arity_check : bool;    (* "needs at least 3 keys and 4 children" error before the split *)
  t_check_always : bool;   (* size check also when nothing was promoted (tracking: no) *)
  t_cow : bool             (* copy on write; the TSN subtree only touches dirty pages *)
}.
Arguments t_leaf {K} _. Arguments t_int {K} _. Arguments t_mk {K} _. Arguments t_choose {K} _.
Arguments t_repl {K} _. Arguments t_ins {K} _. Arguments t_split {K} _.
Arguments t_arity_check {K} _. Arguments t_check_always {K} _. Arguments t_cow {K} _.

Section tree.
  Context {K : Type} (ops : tree_ops K).
  Context (rd : snapshot) (kw : nat) (page_size : N).

  (** The descent: leaf page id and the stack of (parent, child index), innermost first. *)
  (* events_tree.rs:184-218, tags_tree.rs:35-60 and 158-180, db.rs:277-302, mvcc.rs:1389-1447 and 1802-1822 *)
  Fixpoint descend (fuel : nat) (p : N) (stack : list (N * nat)) : M (N * list (N * nat)) :=
    match fuel with
    | O => fail Fuel
    | S fuel' =>
      let! n := get_page_ref rd p in
      if t_leaf ops n then ret (p, stack)
      else match t_int ops n with
           | None => fail EDatabaseCorrupted
           | Some nd =>
             let! '(i, c) := lift (t_choose ops nd) in
             descend fuel' c ((p, i) :: stack)
           end
    end.

  (* e.g. events_tree.rs:350-360, mvcc.rs:1637-1645 *)
  Definition info (old new : N) : option (N * N) := if old =? new then None else Some (old, new).

  (** The walk back up. [rinfo]: the child [old] is now at [new]; [sinfo]: the child was split,
      [(key, right)]. *)
  (* events_tree.rs:350-440, tags_tree.rs:217-280 and 465-550, db.rs:382-425, mvcc.rs:1637-1730 and 1855-1910 *)
  Fixpoint propagate (stack : list (N * nat)) (rinfo : option (N * N)) (sinfo : option (K * N))
    : M (option (N * N) * option (K * N)) :=
    match stack with
    | [] => ret (rinfo, sinfo)
    | (p, i) :: stack' =>
      if negb (t_cow ops) && match sinfo with Some _ => false | None => true end
      then propagate stack' None None else
      let! dp := (if t_cow ops then get_dirty_page_id p else ret p) in
      let! n := get_mut_dirty dp in
      match t_int ops n with
      | None => fail EDatabaseCorrupted
      | Some nd =>
        let! nd1 := lift (match rinfo with Some (old, new) => t_repl ops nd i old new | None => Ok nd end) in
        let nd2 := match sinfo with Some (k, c) => t_ins ops nd1 i k c | None => nd1 end in
        do! put_dirty dp (t_mk ops nd2) in
        if (page_size <? page_size_of kw (t_mk ops nd2))
           && (t_check_always ops || match sinfo with Some _ => true | None => false end) then
          if t_arity_check ops && ((nlen (in_keys nd2) <? 3) || (nlen (in_children nd2) <? 4))
          then fail EDatabaseCorrupted
          else
            let! '(l, k, r) := lift (t_split ops nd2) in
            do! put_dirty dp (t_mk ops l) in
            let! q := alloc_page_id in
            do! insert_dirty q (t_mk ops r) in
            propagate stack' (info p dp) (Some (k, q))
        else propagate stack' (info p dp) None
      end
    end.

  (** Root replacement and, if a split remains, a new root; returns the new root id. *)
  (* events_tree.rs:440-470, tags_tree.rs:280-300 and 550-580, db.rs:425-446, mvcc.rs:1730-1757 and 1910-1930 *)
  Definition finish (root : N) (rinfo : option (N * N)) (sinfo : option (K * N)) : M N :=
    let! root1 := (match rinfo with
                   | Some (old, new) => if root =? old then ret new else fail ERootIdMismatch
                   | None => ret root
                   end) in
    match sinfo with
    | None => ret root1
    | Some (k, r) =>
      let! q := alloc_page_id in
      do! insert_dirty q (t_mk ops (INode [k] [root1; r])) in
      ret q
    end.
End tree.

(** ** Node operations used by several trees *)

(* the last child: events_tree.rs:208-211 ([ok_or_else]), mvcc.rs:1435-1439 ([expect]) *)
Definition choose_last {K} (e : err) (nd : inode K) : res (nat * N) :=
  match last (in_children nd) with
  | Some c => Ok (Nat.pred (length (in_children nd)), c)
  | None => Err e
  end.
(* binary search: Ok(i) => i + 1, Err(i) => i, then child_ids[i] *)
Definition bs_child (r : nat + nat) : nat := match r with inl i => S i | inr i => i end.
Definition choose_bs {K} (bs : list K -> nat + nat) (e : err) (nd : inode K) : res (nat * N) :=
  let i := bs_child (bs (in_keys nd)) in
  match in_children nd !! i with
  | Some c => Ok (i, c)
  | None => Err e
  end.
(* replace_last_child_id: events_tree_nodes.rs:752-761, free_lists_tree_nodes.rs:248-257.
   With no children [len - 1] underflows and the index panics. *)
Definition repl_last {K} (nd : inode K) (_ : nat) (old new : N) : res (inode K) :=
  let i := Nat.pred (length (in_children nd)) in
  match in_children nd !! i with
  | Some c => if c =? old then Ok (INode (in_keys nd) (<[i := new]> (in_children nd)))
              else Err EDatabaseCorrupted
  | None => Err Panic
  end.
(* tags_tree.rs:233-242 and 486-494 (out of range index panics); tracking_tree_nodes.rs:180-196 *)
Definition repl_at {K} (e : err) (nd : inode K) (i : nat) (old new : N) : res (inode K) :=
  match in_children nd !! i with
  | Some c => if c =? old then Ok (INode (in_keys nd) (<[i := new]> (in_children nd)))
              else Err EDatabaseCorrupted
  | None => Err e
  end.
(* append_promoted_key_and_page_id: events_tree_nodes.rs:762-770, free_lists_tree_nodes.rs:259-267 *)
Definition ins_last {K} (nd : inode K) (_ : nat) (k : K) (c : N) : inode K :=
  INode (in_keys nd ++ [k]) (in_children nd ++ [c]).
(* keys.insert(i, k); child_ids.insert(i + 1, c): tags_tree.rs:255-256 and 512-515,
   tracking_tree_nodes.rs:198-201, mvcc.rs:1867-1868 *)
Definition ins_at {K} (nd : inode K) (i : nat) (k : K) (c : N) : inode K :=
  INode (vec_insert i k (in_keys nd)) (vec_insert (S i) c (in_children nd)).
(* split at key index [m]: keys[..m] | keys[m] | keys[m+1..], children[..m+1] | children[m+1..] *)
Definition split_key {K} (m : nat) (nd : inode K) : res (inode K * K * inode K) :=
  match in_keys nd !! m with
  | Some k => Ok (INode (take m (in_keys nd)) (take (S m) (in_children nd)), k,
                  INode (drop (S m) (in_keys nd)) (drop (S m) (in_children nd)))
  | None => Err Panic
  end.
(* split_off by moving the last key: events_tree_nodes.rs:771-777, free_lists_tree_nodes.rs:269-275 *)
Definition split_last {K} (nd : inode K) : res (inode K * K * inode K) :=
  split_key (length (in_keys nd) - 2) nd.
(* TagsInternalNode::split_off, tags_tree_nodes.rs:220-239, and TagInternalNode::split_off,
   tags_tree_nodes.rs:507-526: mid = children/2 stay on the left, keys[mid-1] goes up *)
Definition split_children_half {K} (nd : inode K) : res (inode K * K * inode K) :=
  let n := length (in_children nd) in
  if (n <? 4)%nat || negb (S (length (in_keys nd)) =? n)%nat then Err EDatabaseCorrupted
  else split_key (Nat.div2 n - 1) nd.
(* TrackingInternalNode::split_off, tracking_tree_nodes.rs:204-218 *)
Definition split_keys_half_checked {K} (nd : inode K) : res (inode K * K * inode K) :=
  let n := length (in_children nd) in
  if (n <? 4)%nat || negb (S (length (in_keys nd)) =? n)%nat then Err EDatabaseCorrupted
  else split_key (Nat.div2 (length (in_keys nd))) nd.
(* TSN subtree, mvcc.rs:1877-1909: same midpoint; arity errors *)
Definition split_keys_half {K} (nd : inode K) : res (inode K * K * inode K) :=
  if negb (S (length (in_keys nd)) =? length (in_children nd))%nat then Err EDatabaseCorrupted
  else split_key (Nat.div2 (length (in_keys nd))) nd.

(** ** The six trees *)
(* events_tree.rs *)
Definition ev_ops : tree_ops N := {|
  t_leaf n := match n with NEvLeaf _ => true | _ => false end;
  t_int n := match n with NEvInt i => Some i | _ => None end;
  t_mk := NEvInt;
  t_choose := choose_last EDatabaseCorrupted;
  t_repl := repl_last; t_ins := ins_last; t_split := split_last;
  t_arity_check := true; t_check_always := true; t_cow := true |}.
(* tags_tree.rs, tree of tag hashes; [tag] is the key looked for *)
Definition tags_ops (tag : bytes) : tree_ops bytes := {|
  t_leaf n := match n with NTagsLeaf _ => true | _ => false end;
  t_int n := match n with NTagsInt i => Some i | _ => None end;
  t_mk := NTagsInt;
  t_choose := choose_bs (bs_bytes tag) Panic;
  t_repl := repl_at Panic; t_ins := ins_at; t_split := split_children_half;
  t_arity_check := true; t_check_always := true; t_cow := true |}.
(* tags_tree.rs, tree of positions of one tag *)
Definition tag_ops (pos : N) : tree_ops N := {|
  t_leaf n := match n with NTagLeaf _ => true | _ => false end;
  t_int n := match n with NTagInt i => Some i | _ => None end;
  t_mk := NTagInt;
  t_choose := choose_bs (bs_N pos) Panic;
  t_repl := repl_at Panic; t_ins := ins_at; t_split := split_children_half;
  t_arity_check := true; t_check_always := true; t_cow := true |}.
(* db.rs tracking_upsert *)
Definition trk_ops (source : bytes) : tree_ops bytes := {|
  t_leaf n := match n with NTrkLeaf _ => true | _ => false end;
  t_int n := match n with NTrkInt i => Some i | _ => None end;
  t_mk := NTrkInt;
  t_choose := choose_bs (bs_bytes source) EDatabaseCorrupted;
  t_repl := repl_at EDatabaseCorrupted; t_ins := ins_at; t_split := split_keys_half_checked;
  t_arity_check := false; t_check_always := false; t_cow := true |}.
(* mvcc.rs insert_freed_page_id *)
Definition fl_ops : tree_ops N := {|
  t_leaf n := match n with NFreeLeaf _ => true | _ => false end;
  t_int n := match n with NFreeInt i => Some i | _ => None end;
  t_mk := NFreeInt;
  t_choose := choose_last Panic;
  t_repl := repl_last; t_ins := ins_last; t_split := split_last;
  t_arity_check := true; t_check_always := true; t_cow := true |}.
(* mvcc.rs tsn_subtree_insert; there the size check is node size <= max_node_size, and
   max_node_size = page_size - PAGE_HEADER_SIZE (mvcc.rs: Mvcc::new) *)
Definition tsn_ops (key : N) : tree_ops N := {|
  t_leaf n := match n with NTsnLeaf _ => true | _ => false end;
  t_int n := match n with NTsnInt i => Some i | _ => None end;
  t_mk := NTsnInt;
  t_choose := choose_bs (bs_N key) Panic;
  t_repl := repl_at Panic; t_ins := ins_at; t_split := split_keys_half;
  t_arity_check := false; t_check_always := false; t_cow := false |}.
