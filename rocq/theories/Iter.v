(** Iterators and reads: events_tree.rs:547-776, tags_tree.rs:596-895 and db.rs:530-822.

    The iterators keep a private page cache; pages never change under an iterator, so it is left
    out.  The cancellation flag polled by the loops is modelled by [with_cancel]: a set flag makes the
    call return [CancelledByUser] and has no other effect. *)
From Verif Require Export EventsTree TagsTree Query.

(** An entry of the traversal stack: page and next index. *)
Notation item := (N * option nat)%type.

(* the child taken on the first visit: events_tree.rs:623-637, tags_tree.rs:775-789 *)
Definition first_child (start : option N) (bw : bool) (nd : inode N) : nat :=
  match start with
  | Some f => bs_child (bs_N f (in_keys nd))
  | None => if bw then (length (in_children nd) - 1)%nat else 0%nat
  end.
(* the child, then the revisit: events_tree.rs:640-669, tags_tree.rs:790-813 *)
Definition push_children (bw : bool) (p : N) (nd : inode N) (i : nat) (c : N) : list item :=
  (c, None) ::
  (if bw then match i with O => [] | S i' => [(p, Some i')] end
   else if (S i <? length (in_children nd))%nat then [(p, Some (S i))] else []).

(** ** EventIterator (events_tree.rs:547-776) *)
Section event_iterator.
  Context (cfuel : nat) (pg : snapshot) (start : option N) (bw : bool).

  (* events_tree.rs:685-705; in release builds [i - 1] wraps for [i = 0], the wrapped index is out
     of range and the page is dropped *)
  Definition first_value (l : ev_leaf) : option nat :=
    match ev_values l with
    | [] => None
    | _ =>
      match start with
      | Some f => match bs_N f (ev_keys l) with
                  | inl i => Some i
                  | inr i => if bw then match i with O => None | S i' => Some i' end else Some i
                  end
      | None => Some (if bw then (length (ev_values l) - 1)%nat else 0%nat)
      end
    end.

  (* one turn of the loop, events_tree.rs:597-771: the event emitted, the entries pushed (top first) *)
  Definition ei_step (it : item) : res (list (N * event_record) * list item) :=
    let '(p, oi) := it in
    let? n := pg p in
    match n with
    | NEvInt nd =>
      match (match oi with
             | Some i => Some i
             | None => match in_keys nd with [] => None | _ => Some (first_child start bw nd) end
             end) with
      | None => Ok ([], [])
      | Some i => match in_children nd !! i with
                  | Some c => Ok ([], push_children bw p nd i c)
                  | None => Err Panic
                  end
      end
    | NEvLeaf l =>
      match (match oi with Some i => Some i | None => first_value l end) with
      | None => Ok ([], [])
      | Some i =>
        match ev_values l !! i with
        | None => Ok ([], [])
        | Some v =>
          match ev_keys l !! i with
          | None => Err Panic
          | Some pos =>
            let? r := materialize cfuel pg v in
            Ok ([(pos, r)],
                if bw then match i with O => [] | S i' => [(p, Some i')] end
                else if (S i <? length (ev_values l))%nat then [(p, Some (S i))] else [])
          end
        end
      end
    | _ => Err EDatabaseCorrupted
    end.

  (* events_tree.rs:574-776: the batch and the stack left *)
  Fixpoint ei_loop (fuel : nat) (room : nat) (st : list item) : res (list (N * event_record) * list item) :=
    match room, st with
    | O, _ | _, [] => Ok ([], st)
    | _, it :: st' =>
      match fuel with
      | O => Err Fuel
      | S fuel' =>
        let? '(out, push) := ei_step it in
        let? '(rest, st'') := ei_loop fuel' (room - length out) (push ++ st') in
        Ok (out ++ rest, st'')
      end
    end.
  Definition ei_next_batch (fuel : nat) (batch_size : N) (st : list item)
    : res (list (N * event_record) * list item) :=
    if batch_size =? 0 then Ok ([], st)
    else if bw && match start with Some 0 => true | _ => false end then Ok ([], st)
    else ei_loop fuel (N.to_nat batch_size) st.
End event_iterator.

(** ** TagsTreeIterator (tags_tree.rs:596-895)

    The iterator yields its batches one position at a time ([next], tags_tree.rs:649-680); it has no
    observable effect between them, so the model computes the whole list of positions.  Any page error
    ends the list (tags_tree.rs:697-702, 760-767, 880). *)
(* tags_tree.rs:737, 746, 834, 844 *)
Definition partition_point {A} (f : A -> bool) (l : list A) : nat :=
  match binary_search (fun x => if f x then Lt else Gt) l with inl i | inr i => i end.

Section tags_iterator.
  Context (pg : snapshot) (start : option N) (bw : bool).

  (* the positions of one list in range, in order: tags_tree.rs:742-764 and 815-848 *)
  Definition pos_batch (l : list N) : list N :=
    match start with
    | Some f =>
      if bw then rev (take (partition_point (fun p => p <=? f) l) l)
      else drop (partition_point (fun p => p <? f) l) l
    | None => if bw then rev l else l
    end.

  (* one turn of the loop tags_tree.rs:753-878; a child index out of range or another node kind
     drops the page *)
  Definition ti_step (it : item) : res (list N * list item) :=
    let '(p, oi) := it in
    let? n := pg p in
    match n with
    | NTagInt nd =>
      let i := match oi with
               | Some i => i
               | None => match in_keys nd with
                         | [] => if bw then (length (in_children nd) - 1)%nat else 0%nat
                         | _ => first_child start bw nd
                         end
               end in
      match in_children nd !! i with
      | Some c => Ok ([], push_children bw p nd i c)
      | None => Ok ([], [])
      end
    | NTagLeaf l => Ok (pos_batch l, [])
    | _ => Ok ([], [])
    end.
  (* tags_tree.rs:760-880 *)
  Fixpoint ti_loop (fuel : nat) (st : list item) : list N :=
    match st with
    | [] => []
    | it :: st' =>
      match fuel with
      | O => []
      | S fuel' => match ti_step it with
                   | Ok (out, push) => out ++ ti_loop fuel' (push ++ st')
                   | Err _ => []
                   end
      end
    end.

  (* tags_tree.rs:688-750: the value of the tag; [None] ends the iteration *)
  Fixpoint ti_find (fuel : nat) (p : N) (tag : bytes) : option tags_value :=
    match fuel with
    | O => None
    | S fuel' =>
      match pg p with
      | Ok (NTagsInt nd) =>
        match in_children nd !! bs_child (bs_bytes tag (in_keys nd)) with
        | Some c => ti_find fuel' c tag
        | None => None
        end
      | Ok (NTagsLeaf l) =>
        match bs_bytes tag (tl_keys l) with
        | inl i => tl_values l !! i
        | inr _ => None
        end
      | _ => None
      end
    end.
  (* tags_tree.rs:649-760 *)
  Definition tag_positions (fuel np : nat) (root : N) (tag : bytes) : list N :=
    match ti_find np root tag with
    | None => []
    | Some v => if tv_root v =? 0 then pos_batch (tv_positions v)
                else ti_loop fuel [(tv_root v, None)]
    end.
End tags_iterator.

(** Enough fuel to visit every page: the number of entries of all pages below [np]. *)
(* not in the code: bounds for the loops of events_tree.rs:600-730 and tags_tree.rs:760-880 *)
Definition items (n : node) : nat :=
  match n with
  | NEvLeaf l => length (ev_values l)
  | NEvInt nd => length (in_children nd)
  | NTagInt nd => length (in_children nd)
  | _ => 0
  end.
Definition visits (pg : snapshot) (p : N) : nat := match pg p with Ok n => S (items n) | Err _ => 1 end.
Definition scan_fuel (pg : snapshot) (np : nat) : nat :=
  foldr (fun i a => visits pg (N.of_nat i) + a)%nat 1%nat (seq 0 np).

(* db.rs:588-601: the match of the sequential scan *)
Definition matches_item (q : query) (r : event_record) : bool :=
  existsb (fun it =>
    (match qi_types it with [] => true | _ => false end || existsb (fun t => bool_decide (t = er_type r)) (qi_types it))
    && forallb (fun t => existsb (fun et => bool_decide (et = t)) (er_tags r)) (qi_tags it)) q.

(* db.rs:559-579, 613-636 *)
Definition limit_reached (limit : option N) {A} (out : list A) : bool :=
  match limit with Some lim => lim <=? nlen out | None => false end.

(* db.rs:559-579 and 613-636: push the matching events of a batch; [true] = stop *)
Fixpoint push_batch (limit : option N) (keep : event_record -> bool)
  (batch out : list (N * event_record)) : list (N * event_record) * bool :=
  match batch with
  | [] => (out, false)
  | (pos, r) :: batch' =>
    if keep r then
      let out' := out ++ [(pos, r)] in
      if limit_reached limit out' then (out', true) else push_batch limit keep batch' out'
    else push_batch limit keep batch' out
  end.

(* db.rs:550-582 and 605-640 *)
Fixpoint scan_loop (fuel : nat) (next : list item -> res (list (N * event_record) * list item))
  (limit : option N) (keep : event_record -> bool) (st : list item) (out : list (N * event_record))
  : res (list (N * event_record)) :=
  match fuel with
  | O => Err Fuel
  | S fuel' =>
    let? '(batch, st') := next st in
    match batch with
    | [] => Ok out
    | _ =>
      let '(out', stop) := push_batch limit keep batch out in
      if stop then Ok out' else scan_loop fuel' next limit keep st' out'
    end
  end.

(** ** Merging the positions of several tags *)
(* db.rs:690-703 *)
Definition tagged : Type := N * bytes * list nat. (* position, tag, indexes of the items with the tag *)

(* itertools kmerge_by (db.rs:701-703): repeatedly the first element of the list whose head is first in
   the order.  The order among equal positions is not used below. *)
Definition before (bw : bool) (a b : tagged) : bool :=
  if bw then b.1.1 <? a.1.1 else a.1.1 <? b.1.1.
Fixpoint best_head (bw : bool) (ls : list (list tagged)) : option tagged :=
  match ls with
  | [] => None
  | l :: ls' =>
    match head l, best_head bw ls' with
    | Some a, Some b => if before bw b a then Some b else Some a
    | Some a, None => Some a
    | None, b => b
    end
  end.
(* drop the head [a] from the first list that starts with it *)
(* db.rs:701-703 *)
Fixpoint pop_head (a : tagged) (ls : list (list tagged)) : list (list tagged) :=
  match ls with
  | [] => []
  | l :: ls' => match l with
                | b :: l' => if decide (b = a) then l' :: ls' else l :: pop_head a ls'
                | [] => l :: pop_head a ls'
                end
  end.
(* db.rs:701-703 *)
Fixpoint kmerge (fuel : nat) (bw : bool) (ls : list (list tagged)) : list tagged :=
  match fuel with
  | O => []
  | S fuel' => match best_head bw ls with
               | None => []
               | Some a => a :: kmerge fuel' bw (pop_head a ls)
               end
  end.

(* GroupByPositionIterator, db.rs:705-770: [cur] = current position with the tags and items seen *)
Fixpoint group_from (cur : option (N * list bytes * list nat)) (l : list tagged)
  : list (N * list bytes * list nat) :=
  match l with
  | [] => match cur with Some g => [g] | None => [] end
  | (pos, tag, qiids) :: l' =>
    match cur with
    | None => group_from (Some (pos, [tag], qiids)) l'
    | Some (p, tags, qiis) =>
      if p =? pos then group_from (Some (p, tag :: tags, qiids ++ qiis)) l'
      else (p, tags, qiis) :: group_from (Some (pos, [tag], qiids)) l'
    end
  end.

(* db.rs:784-808: the check of the event itself, against the items whose tags are all present *)
Definition check_match (q : query) (matching : list nat) (r : event_record) : bool :=
  existsb (fun i => match q !! i with
                    | Some it => matches_item [it] r
                    | None => false
                    end) matching.
Definition subset_tags (tags present : list bytes) : bool :=
  forallb (fun t => existsb (fun t' => bool_decide (t' = t)) present) tags.

(* db.rs:772-820 *)
Fixpoint index_loop (lookup : N -> res event_record) (q : query) (limit : option N)
  (gs : list (N * list bytes * list nat)) (out : list (N * event_record)) : res (list (N * event_record)) :=
  match gs with
  | [] => Ok out
  | (pos, tags, qiis) :: gs' =>
    let matching := List.filter (fun i => match q !! i with
                                          | Some it => subset_tags (qi_tags it) tags
                                          | None => false
                                          end) qiis in
    match matching with
    | [] => index_loop lookup q limit gs' out
    | _ =>
      let? r := lookup pos in
      if check_match q matching r then
        let out' := out ++ [(pos, r)] in
        if limit_reached limit out' then Ok out' else index_loop lookup q limit gs' out'
      else index_loop lookup q limit gs' out
    end
  end.

(* db.rs:644-656: the items that have the tag, by index *)
Definition tag_qiids (q : query) (tag : bytes) : list nat :=
  omap (fun '(i, it) => if existsb (fun t => bool_decide (t = tag)) (qi_tags it) then Some i else None)
       (zip (seq 0 (length q)) q).

Section read.
  (** [np] bounds the page ids in use; [hash] is tag_to_hash; [order] is the iteration order of the
      HashMap of tags, any function that lists the distinct tags. *)
  Context (pg : snapshot) (np : nat) (hash : bytes -> bytes) (order : list bytes -> list bytes).

  (* db.rs:544 *)
  Definition SCAN_BATCH_SIZE : N := 256.

  (* db.rs:530-822 *)
  Definition read_conditional (events_root tags_root : N) (q : query) (start : option N) (bw : bool)
    (limit : option N) (force_sequential : bool) : res (list (N * event_record)) :=
    match limit with
    | Some 0 => Ok []
    | _ =>
      let fuel := scan_fuel pg np in
      let next bs := ei_next_batch np pg start bw fuel bs in
      match q with
      | [] =>
        scan_loop (S fuel) (next (match limit with Some l => l | None => SCAN_BATCH_SIZE end)) limit
          (fun _ => true) [(events_root, None)] []
      | _ =>
        if negb (forallb (fun it => match qi_tags it with [] => false | _ => true end) q) || force_sequential
        then scan_loop (S fuel) (next SCAN_BATCH_SIZE) limit (matches_item q) [(events_root, None)] []
        else
          let tags := order (concat (map qi_tags q)) in
          let lists := map (fun t => map (fun p => (p, t, tag_qiids q t))
                                         (tag_positions pg start bw fuel np tags_root (hash t))) tags in
          let merged := kmerge (length (concat lists)) bw lists in
          index_loop (event_tree_lookup np np pg events_root) q limit (group_from None merged) []
      end
    end.
End read.

(* the polls of the flag: db.rs:553, 607, 774, events_tree.rs:588 *)
Definition with_cancel {A} (flag : bool) (r : res A) : res A := if flag then Err ECancelled else r.
