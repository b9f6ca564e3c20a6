(** The free list: umadb-core/src/mvcc.rs, the free-list methods of [Writer].

    The free list tree maps a transaction number to the page ids freed in that transaction.  The ids are kept
    in the leaf or, when they are many, in a tree of their own (the TSN subtree). *)
From Verif Require Export CowTree.
Local Open Scope N_scope.

(* Iterator::position: mvcc.rs:2014, 2040, 2086, 2150 *)
Fixpoint position (x : N) (l : list N) : option nat :=
  match l with
  | [] => None
  | y :: l' => if y =? x then Some 0%nat else match position x l' with Some i => Some (S i) | None => None end
  end.
(* Vec::is_empty, mvcc.rs:1341 *)
Definition is_nil {A} (l : list A) : bool := match l with [] => true | _ => false end.

Section free_list.
  Context (rd : snapshot) (kw : nat) (page_size : N).

  (** ** Insertion *)
  (* mvcc.rs:1794-1951.  [calc_serialized_size() <= max_node_size] is [page_size_of <= page_size] since
     max_node_size = page_size - PAGE_HEADER_SIZE (mvcc.rs:303).  The walk up the parents and the new root are
     [propagate] and [finish]. *)
  Definition tsn_subtree_insert (root key : N) : M N :=
    let! np := gets w_next_page in
    let! '(leaf, stack) := descend (tsn_ops key) rd (S (N.to_nat np)) root [] in
    let! n := get_mut_dirty leaf in
    match n with
    | NTsnLeaf ids =>
      match bs_N key ids with
      | inl _ => ret root
      | inr i =>
        let ids' := vec_insert i key ids in
        do! put_dirty leaf (NTsnLeaf ids') in
        if page_size_of kw (NTsnLeaf ids') <=? page_size then ret root
        else
          let mid := Nat.div2 (length ids') in
          match drop mid ids' with
          | [] => fail Panic
          | k :: ids2 =>
            do! put_dirty leaf (NTsnLeaf (take mid ids')) in
            let! q := alloc_page_id in
            do! insert_dirty q (NTsnLeaf (k :: ids2)) in
            let! '(ri, si) := propagate (tsn_ops key) kw page_size stack None (Some (k, q)) in
            finish (tsn_ops key) root ri si
          end
      end
    | _ => fail EDatabaseCorrupted
    end.
  (* mvcc.rs:1545-1548 *)
  Fixpoint tsn_insert_all (root : N) (ids : list N) : M N :=
    match ids with
    | [] => ret root
    | p :: ids' => let! r := tsn_subtree_insert root p in tsn_insert_all r ids'
    end.

  (* free_lists_tree_nodes.rs:123-127 and 138-142 *)
  Definition fits_new_tsn (l : fl_leaf) : bool := fl_leaf_size l + 26 <=? page_size - PAGE_HEADER_SIZE.
  Definition fits_new_id (l : fl_leaf) : bool := fl_leaf_size l + 8 <=? page_size - PAGE_HEADER_SIZE.

  (* FreePageIDInsertStrategy, mvcc.rs *)
  Inductive plan := PushTsn | PushId (i : nat) | PushSubtree | MoveToSubtree | SplitLeaf | CreateLeaf.
  (* mvcc.rs:1393-1432 *)
  Definition choose_plan (tsn : N) (l : fl_leaf) : res plan :=
    match last (fl_keys l) with
    | None => if fits_new_tsn l then Ok PushTsn else Err EInternal
    | Some k =>
      let i := Nat.pred (length (fl_keys l)) in
      if tsn =? k then
        match fl_values l !! i with
        | None => Err Panic
        | Some v =>
          if negb (fv_root v =? 0) then Ok PushSubtree
          else if fits_new_id l then Ok (PushId i)
          else if (length (fl_keys l) =? 1)%nat then Ok MoveToSubtree
          else Ok SplitLeaf
        end
      else if k <? tsn then (if fits_new_tsn l then Ok PushTsn else Ok CreateLeaf)
      else Err EInternal
    end.

  (* sort_by_key and dedup, mvcc.rs:1511-1512 *)
  Fixpoint insert_sorted (x : N) (l : list N) : list N :=
    match l with
    | [] => [x]
    | y :: l' => if x <=? y then x :: y :: l' else y :: insert_sorted x l'
    end.
  Definition sort_ids (l : list N) : list N := foldr insert_sorted [] l.
  Fixpoint dedup (l : list N) : list N :=
    match l with
    | x :: (y :: _) as l' => if x =? y then dedup l' else x :: dedup l'
    | l => l
    end.
  (* mvcc.rs:1519-1530 *)
  Fixpoint fill_leaf (acc ids : list N) : list N :=
    match ids with
    | [] => acc
    | p :: ids' => if page_size_of kw (NTsnLeaf (acc ++ [p])) <=? page_size then fill_leaf (acc ++ [p]) ids' else acc
    end.

  (* mvcc.rs:1454-1635: the change of the (dirty) leaf, and the new leaf promoted if any.  The leaf the plan was
     chosen for and the dirty leaf have the same content. *)
  Definition apply_plan (pl : plan) (tsn freed dl : N) : M (option (N * N)) :=
    let! n := get_mut_dirty dl in
    match n with
    | NFreeLeaf l =>
      let i := Nat.pred (length (fl_keys l)) in
      match pl with
      | PushSubtree =>
        match fl_values l !! i with
        | None => fail Panic
        | Some v =>
          if fv_root v =? 0 then fail EDatabaseCorrupted
          else
            let! r := tsn_subtree_insert (fv_root v) freed in
            if r =? fv_root v then ret None
            else
              do! put_dirty dl (NFreeLeaf (FlLeaf (fl_keys l) (<[i := FlValue (fv_page_ids v) r]> (fl_values l)))) in
              ret None
        end
      | MoveToSubtree =>
        match fl_values l !! i with
        | None => fail Panic
        | Some v =>
          let ids := dedup (sort_ids (fv_page_ids v ++ [freed])) in
          let first := fill_leaf [] ids in
          if is_nil first then fail EInternal
          else
            let! q := alloc_page_id in
            do! insert_dirty q (NTsnLeaf first) in
            let! r := tsn_insert_all q (filter (fun p => p ∉ first) ids) in
            do! put_dirty dl (NFreeLeaf (FlLeaf (fl_keys l) (<[i := FlValue [] r]> (fl_values l)))) in
            ret None
        end
      | PushTsn =>
        do! put_dirty dl (NFreeLeaf (FlLeaf (fl_keys l ++ [tsn]) (fl_values l ++ [FlValue [freed] 0]))) in
        ret None
      | PushId j =>
        match fl_values l !! j with
        | None => fail Panic
        | Some v =>
          do! put_dirty dl (NFreeLeaf (FlLeaf (fl_keys l) (<[j := FlValue (fv_page_ids v ++ [freed]) (fv_root v)]> (fl_values l)))) in
          ret None
        end
      | SplitLeaf =>
        match last (fl_keys l), last (fl_values l) with
        | Some k, Some v =>
          do! put_dirty dl (NFreeLeaf (FlLeaf (removelast (fl_keys l)) (removelast (fl_values l)))) in
          let! q := alloc_page_id in
          do! insert_dirty q (NFreeLeaf (FlLeaf [k] [FlValue (fv_page_ids v ++ [freed]) (fv_root v)])) in
          ret (Some (tsn, q))
        | _, _ => fail Panic
        end
      | CreateLeaf =>
        let! q := alloc_page_id in
        do! insert_dirty q (NFreeLeaf (FlLeaf [tsn] [FlValue [freed] 0])) in
        ret (Some (tsn, q))
      end
    | _ => fail EDatabaseCorrupted
    end.

  (* mvcc.rs:1371-1790 *)
  Definition insert_freed_page_id (tsn freed : N) : M unit :=
    let! root := gets w_free_root in
    let! np := gets w_next_page in
    let! '(leaf, stack) := descend fl_ops rd (S (N.to_nat np)) root [] in
    let! n := get_page_ref rd leaf in
    match n with
    | NFreeLeaf l =>
      let! pl := lift (choose_plan tsn l) in
      let! dl := get_dirty_page_id leaf in
      let! si := apply_plan pl tsn freed dl in
      let! '(ri, si) := propagate fl_ops kw page_size stack (info leaf dl) si in
      let! r := finish fl_ops root ri si in
      modify (set_free_root r)
    | _ => fail EDatabaseCorrupted
    end.

  (** ** Removal *)
  (* the linear scan, mvcc.rs:1982-1987 and 2103-2109 *)
  Fixpoint lin_idx (x : N) (ks : list N) : nat :=
    match ks with [] => 0%nat | k :: ks' => if k <=? x then S (lin_idx x ks') else 0%nat end.
  Definition choose_lin (x : N) (nd : inode N) : res (nat * N) :=
    let i := lin_idx x (in_keys nd) in
    match in_children nd !! i with Some c => Ok (i, c) | None => Err Panic end.
  (* mvcc.rs:2211-2214: the child id is set without a check of the old one *)
  Definition repl_set {K} (nd : inode K) (i : nat) (old new : N) : res (inode K) :=
    match in_children nd !! i with
    | Some _ => Ok (INode (in_keys nd) (<[i := new]> (in_children nd)))
    | None => Err Panic
    end.
  (* The walk of remove_free_page_id in the free list tree; no node is inserted, so nothing is split. *)
  Definition fl_rm_ops (tsn : N) : tree_ops N := {|
    t_leaf n := match n with NFreeLeaf _ => true | _ => false end;
    t_int n := match n with NFreeInt i => Some i | _ => None end;
    t_mk := NFreeInt;
    t_choose := choose_lin tsn;
    t_repl := repl_at Panic; t_ins := ins_at; t_split := split_keys_half;
    t_arity_check := false; t_check_always := false; t_cow := true |}.
  (* mvcc.rs:2110-2225 *)
  Definition tsn_rm_ops (id : N) : tree_ops N := {|
    t_leaf n := match n with NTsnLeaf _ => true | _ => false end;
    t_int n := match n with NTsnInt i => Some i | _ => None end;
    t_mk := NTsnInt;
    t_choose := choose_lin id;
    t_repl := repl_set; t_ins := ins_at; t_split := split_keys_half;
    t_arity_check := false; t_check_always := false; t_cow := true |}.

  (* removal of a child and a key beside it, mvcc.rs:2172-2178 and 2348-2352; an index out of range panics *)
  Definition remove_child (nd : inode N) (i : nat) : res (inode N) :=
    match in_children nd !! i with
    | None => Err Panic
    | Some _ => Ok (INode (vec_remove (Nat.pred i) (in_keys nd)) (vec_remove i (in_children nd)))
    end.

  (* mvcc.rs:2152-2225: the walk up the TSN subtree after removing an id from the leaf now at [dl] (it was at
     [leaf]).  Answer: the node replacing the root of the walk ([None]: nothing left), and the pages dropped. *)
  Definition tsn_remove_up (id : N) (leaf dl : N) (emptied : bool) (stack : list (N * nat)) (root : N) : M (option N * list N) :=
    let top ri := match ri with Some (_, new) => new | None => root end in
    match emptied, stack with
    | true, (p, i) :: stack' =>
      let! dp := get_dirty_page_id p in
      let! n := get_mut_dirty dp in
      match n with
      | NTsnInt nd =>
        let! nd' := lift (remove_child nd i) in
        do! put_dirty dp (NTsnInt nd') in
        match in_children nd' with
        | [] =>
          (* the levels above, if any, are walked but the result is not used *)
          let! _ := propagate (tsn_rm_ops id) kw page_size stack' None None in
          ret (None, [dp])
        | [c] =>
          let! '(ri, _) := propagate (tsn_rm_ops id) kw page_size stack' (Some (p, c)) None in
          ret (Some (top ri), [dp])
        | _ =>
          let! '(ri, _) := propagate (tsn_rm_ops id) kw page_size stack' (info p dp) None in
          ret (Some (top ri), [])
        end
      | _ => fail EDatabaseCorrupted
      end
    | _, _ =>
      let! '(ri, _) := propagate (tsn_rm_ops id) kw page_size stack (info leaf dl) None in
      ret (Some (top ri), [])
    end.

  (* mvcc.rs:2062-2233: removal from the TSN subtree at [root].  The root page is not read before
     get_dirty_page_id. *)
  Definition tsn_remove (root id : N) : M (option N * list N) :=
    let! droot := get_dirty_page_id root in
    let! n := get_mut_dirty droot in
    match n with
    | NTsnLeaf ids =>
      match position id ids with
      | None => fail EDatabaseCorrupted
      | Some j =>
        let ids' := vec_remove j ids in
        do! put_dirty droot (NTsnLeaf ids') in
        if is_nil ids' then ret (None, [droot]) else ret (Some droot, [])
      end
    | NTsnInt _ =>
      let! np := gets w_next_page in
      let! '(leaf, stack) := descend (tsn_rm_ops id) rd (S (N.to_nat np)) droot [] in
      let! dl := get_dirty_page_id leaf in
      let! n := get_mut_dirty dl in
      match n with
      | NTsnLeaf ids =>
        match position id ids with
        | None => fail EDatabaseCorrupted
        | Some j =>
          let ids' := vec_remove j ids in
          do! put_dirty dl (NTsnLeaf ids') in
          let! '(r, rem) := tsn_remove_up id leaf dl (is_nil ids') stack droot in
          ret (r, if is_nil ids' then dl :: rem else rem)
        end
      | _ => fail EDatabaseCorrupted
      end
    | _ => fail EDatabaseCorrupted
    end.

  (* mvcc.rs:2028-2063 and 2236-2281: the change of the leaf.  Answer: the dirty leaf, whether it is empty now, and
     the pages dropped. *)
  Definition leaf_remove (tsn id leaf : N) (i : nat) (root : N) : M (N * bool * list N) :=
    if root =? 0 then
      let! dl := get_dirty_page_id leaf in
      let! n := get_mut_dirty dl in
      match n with
      | NFreeLeaf l =>
        match fl_values l !! i with
        | None => fail Panic
        | Some v =>
          match position id (fv_page_ids v) with
          | None => fail EDatabaseCorrupted
          | Some j =>
            let ids' := vec_remove j (fv_page_ids v) in
            let l' := if is_nil ids' then FlLeaf (vec_remove i (fl_keys l)) (vec_remove i (fl_values l))
                      else FlLeaf (fl_keys l) (<[i := FlValue ids' (fv_root v)]> (fl_values l)) in
            do! put_dirty dl (NFreeLeaf l') in
            ret (dl, is_nil ids' && is_nil (fl_keys l'), [])
          end
        end
      | _ => fail EDatabaseCorrupted
      end
    else
      let! '(r, rem) := tsn_remove root id in
      let! dl := get_dirty_page_id leaf in
      let! n := get_mut_dirty dl in
      match n with
      | NFreeLeaf l =>
        match fl_keys l !! i with
        | None => fail (if is_nil (fl_keys l) then EDatabaseCorrupted else Panic)
        | Some k =>
          if negb (k =? tsn) then fail EDatabaseCorrupted
          else match r with
               | None =>
                 let l' := FlLeaf (vec_remove i (fl_keys l)) (vec_remove i (fl_values l)) in
                 do! put_dirty dl (NFreeLeaf l') in
                 ret (dl, is_nil (fl_keys l'), rem)
               | Some r' =>
                 if r' =? root then ret (dl, false, rem)
                 else match fl_values l !! i with
                      | None => fail Panic
                      | Some v =>
                        do! put_dirty dl (NFreeLeaf (FlLeaf (fl_keys l) (<[i := FlValue (fv_page_ids v) r']> (fl_values l)))) in
                        ret (dl, false, rem)
                      end
               end
        end
      | _ => fail EDatabaseCorrupted
      end.

  (* mvcc.rs:2284-2386: the walk up the free list tree; the first parent drops the leaf if it is empty, and is
     dropped itself when one child is left. *)
  Definition fl_remove_up (tsn leaf dl : N) (emptied : bool) (stack : list (N * nat)) : M (option (N * N) * list N) :=
    match emptied, stack with
    | true, (p, i) :: stack' =>
      let! dp := get_dirty_page_id p in
      let! n := get_mut_dirty dp in
      match n with
      | NFreeInt nd =>
        let! nd1 := lift (match info leaf dl with Some (old, new) => repl_at Panic nd i old new | None => Ok nd end) in
        match in_children nd1 !! i with
        | None => fail Panic
        | Some c =>
          if negb (c =? dl) then fail EDatabaseCorrupted
          else
            let! nd2 := lift (remove_child nd1 i) in
            do! put_dirty dp (NFreeInt nd2) in
            if is_nil (in_keys nd2) then
              match in_children nd2 with
              | [c'] =>
                let old := match info p dp with Some (o, _) => o | None => dp end in
                let! '(ri, _) := propagate (fl_rm_ops tsn) kw page_size stack' (Some (old, c')) None in
                ret (ri, [dl; dp])
              | _ => fail Panic
              end
            else
              let! '(ri, _) := propagate (fl_rm_ops tsn) kw page_size stack' (info p dp) None in
              ret (ri, [dl])
        end
      | _ => fail EDatabaseCorrupted
      end
    | _, _ =>
      let! '(ri, _) := propagate (fl_rm_ops tsn) kw page_size stack (info leaf dl) None in
      ret (ri, [])
    end.

  (* mvcc.rs:2391-2395 *)
  Fixpoint free_all (ids : list N) : M unit :=
    match ids with
    | [] => ret tt
    | p :: ids' => do! append_freed_page_id p in free_all ids'
    end.

  (* mvcc.rs:1953-2410 *)
  Definition remove_free_page_id (tsn id : N) : M unit :=
    let! root := gets w_free_root in
    let! np := gets w_next_page in
    let! '(leaf, stack) := descend (fl_rm_ops tsn) rd (S (N.to_nat np)) root [] in
    let! n := get_page_ref rd leaf in
    match n with
    | NFreeLeaf l =>
      match position tsn (fl_keys l) with
      | None => fail EDatabaseCorrupted
      | Some i =>
        match fl_values l !! i with
        | None => fail Panic
        | Some v =>
          let! '(dl, emptied, rem1) := leaf_remove tsn id leaf i (fv_root v) in
          let! '(ri, rem2) := fl_remove_up tsn leaf dl emptied stack in
          do! free_all (rem1 ++ rem2) in
          match ri with
          | Some (old, new) =>
            if root =? old then
              do! append_freed_page_id old in modify (set_free_root new)
            else fail ERootIdMismatch
          | None => ret tt
          end
        end
      end
    | _ => fail EDatabaseCorrupted
    end.

  (** ** Processing at commit *)
  (* mvcc.rs:1341-1346 *)
  Fixpoint remove_reused (fuel : nat) : M unit :=
    let! r := gets w_reused in
    match r with
    | [] => ret tt
    | (id, tsn) :: rest =>
      match fuel with
      | O => fail Fuel
      | S fuel' =>
        do! modify (set_reused rest) in
        do! remove_free_page_id tsn id in
        remove_reused fuel'
      end
    end.
  (* mvcc.rs:1353-1366 *)
  Fixpoint insert_freed_all (ids : list N) : M unit :=
    match ids with
    | [] => ret tt
    | p :: ids' =>
      do! modify (fun w => set_dirty (delete p (w_dirty w)) w) in
      let! tsn := gets w_tsn in
      do! insert_freed_page_id tsn p in
      insert_freed_all ids'
    end.
  (* mvcc.rs:1335-1368.  [ford] is the iteration order of the HashSet of freed page ids. *)
  Fixpoint process_freed_loop (ford : gset N -> list N) (fuel : nat) : M unit :=
    let! reused := gets w_reused in
    let! freed := gets w_freed in
    if is_nil reused && bool_decide (freed = ∅) then ret tt
    else match fuel with
         | O => fail Fuel
         | S fuel' =>
           let! reusable := gets w_reusable in
           do! remove_reused (length reused + length reusable) in
           let! freed := gets w_freed in
           do! modify (set_freed ∅) in
           do! insert_freed_all (ford freed) in
           process_freed_loop ford fuel'
         end.
  (* mvcc.rs:1335-1387 *)
  Definition process_freed_page_ids (ford : gset N -> list N) : M unit :=
    let! reusable := gets w_reusable in
    let! np := gets w_next_page in
    process_freed_loop ford (S (S (length reusable + N.to_nat np))).

  (** ** Finding reusable pages *)
  (* The two depth-first loops with explicit stacks (mvcc.rs:1168-1262) are written as recursion over the tree; the
     order in which pages are read and ids collected is the same.  A page that cannot be read is an error. *)
  Definition load_page (p : N) : M node := fun w =>
    match get_page_ref rd p w with
    | (Ok n, w') => (Ok n, w')
    | (Err _, w') => (Err EDatabaseCorrupted, w')
    end.
  Fixpoint concat_m {A} (f : N -> M (list A)) (l : list N) : M (list A) :=
    match l with
    | [] => ret []
    | c :: l' => let! a := f c in let! b := concat_m f l' in ret (a ++ b)
    end.
  (* mvcc.rs:1212-1256 *)
  Fixpoint tsn_collect (fuel : nat) (p : N) : M (list N) :=
    match fuel with
    | O => fail Fuel
    | S fuel' =>
      let! n := load_page p in
      match n with
      | NTsnInt nd => concat_m (tsn_collect fuel') (in_children nd)
      | NTsnLeaf ids => ret ids
      | _ => fail EDatabaseCorrupted
      end
    end.
  (* mvcc.rs:1196-1258; the flag says that a too young transaction was met *)
  Fixpoint leaf_collect (fuel : nat) (smallest : option N) (ks : list N) (vs : list fl_value) : M (list (N * N) * bool) :=
    match ks with
    | [] => ret ([], false)
    | tsn :: ks' =>
      if match smallest with Some s => s <? tsn | None => false end then ret ([], true)
      else
        match vs with
        | [] => fail Panic
        | v :: vs' =>
          let! ids := (if fv_root v =? 0 then ret (fv_page_ids v) else tsn_collect fuel (fv_root v)) in
          let! '(l, fin) := leaf_collect fuel smallest ks' vs' in
          ret (map (fun p => (p, tsn)) ids ++ l, fin)
        end
    end.
  (* mvcc.rs:1171-1196: children from left to right, until finished *)
  Fixpoint collect_until (f : N -> M (list (N * N) * bool)) (l : list N) : M (list (N * N) * bool) :=
    match l with
    | [] => ret ([], false)
    | c :: l' =>
      let! '(a, fin) := f c in
      if fin then ret (a, true)
      else let! '(b, fin') := collect_until f l' in ret (a ++ b, fin')
    end.
  (* mvcc.rs:1171-1262 *)
  Fixpoint fl_collect (fuel : nat) (smallest : option N) (p : N) : M (list (N * N) * bool) :=
    match fuel with
    | O => fail Fuel
    | S fuel' =>
      let! n := load_page p in
      match n with
      | NFreeInt nd => collect_until (fl_collect fuel' smallest) (in_children nd)
      | NFreeLeaf l =>
        let! np := gets w_next_page in
        leaf_collect (S (N.to_nat np)) smallest (fl_keys l) (fl_values l)
      | _ => fail EDatabaseCorrupted
      end
    end.
End free_list.

(* the extents, mvcc.rs:1266-1304: sorted by page id, grouped into runs, longest run first *)
Fixpoint insert_by {A} (le : A -> A -> bool) (x : A) (l : list A) : list A :=
  match l with
  | [] => [x]
  | y :: l' => if le x y then x :: y :: l' else y :: insert_by le x l'
  end.
Definition sort_by {A} (le : A -> A -> bool) (l : list A) : list A := foldr (insert_by le) [] l.
Fixpoint extents (cur : list (N * N)) (l : list (N * N)) : list (list (N * N)) :=
  match l with
  | [] => if is_nil cur then [] else [cur]
  | (p, t) :: l' =>
    match last cur with
    | Some (lp, _) => if p =? lp + 1 then extents (cur ++ [(p, t)]) l' else cur :: extents [(p, t)] l'
    | None => extents (cur ++ [(p, t)]) l'
    end
  end.
(* mvcc.rs:1295-1302 *)
Definition extent_le (a b : list (N * N)) : bool :=
  (length b <? length a)%nat || ((length a =? length b)%nat &&
    match a, b with (p, _) :: _, (q, _) :: _ => p <=? q | _, _ => true end).
(* mvcc.rs:1266-1312 *)
Definition order_reusable (l : list (N * N)) : list (N * N) :=
  concat (sort_by extent_le (extents [] (sort_by (fun a b => a.1 <=? b.1) l))).

(* mvcc.rs:1139-1333 *)
Definition find_reusable_page_ids (rd : snapshot) (smallest : option N) : M unit :=
  let! root := gets w_free_root in
  let! np := gets w_next_page in
  let! '(l, _) := fl_collect rd (S (N.to_nat np)) smallest root in
  modify (set_reusable (order_reusable l)).
