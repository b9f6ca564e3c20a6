(** The write transaction: umadb-core/src/mvcc.rs, [struct Writer] and its page operations. *)
From Verif Require Export Page.

(** mvcc.rs:966-983.  [header_page], [verbose] and the page-size copies that are constants of the
    database are parameters of the functions instead of fields.  HashMaps are finite maps. *)
Record writer := MkWriter {
  w_tsn : N;
  w_next_page : N;
  w_free_root : N;
  w_events_root : N;
  w_tags_root : N;
  w_tracking_root : N;
  w_next_pos : N;
  w_reusable : list (N * N);
  w_freed : gset N;
  w_deser : gmap N node;
  w_dirty : gmap N node;
  w_reused : list (N * N) }.

(* assignments to the fields of Writer, mvcc.rs:966-983 *)
Definition set_next_page x w := MkWriter (w_tsn w) x (w_free_root w) (w_events_root w) (w_tags_root w) (w_tracking_root w) (w_next_pos w) (w_reusable w) (w_freed w) (w_deser w) (w_dirty w) (w_reused w).
Definition set_free_root x w := MkWriter (w_tsn w) (w_next_page w) x (w_events_root w) (w_tags_root w) (w_tracking_root w) (w_next_pos w) (w_reusable w) (w_freed w) (w_deser w) (w_dirty w) (w_reused w).
Definition set_events_root x w := MkWriter (w_tsn w) (w_next_page w) (w_free_root w) x (w_tags_root w) (w_tracking_root w) (w_next_pos w) (w_reusable w) (w_freed w) (w_deser w) (w_dirty w) (w_reused w).
Definition set_tags_root x w := MkWriter (w_tsn w) (w_next_page w) (w_free_root w) (w_events_root w) x (w_tracking_root w) (w_next_pos w) (w_reusable w) (w_freed w) (w_deser w) (w_dirty w) (w_reused w).
Definition set_tracking_root x w := MkWriter (w_tsn w) (w_next_page w) (w_free_root w) (w_events_root w) (w_tags_root w) x (w_next_pos w) (w_reusable w) (w_freed w) (w_deser w) (w_dirty w) (w_reused w).
Definition set_next_pos x w := MkWriter (w_tsn w) (w_next_page w) (w_free_root w) (w_events_root w) (w_tags_root w) (w_tracking_root w) x (w_reusable w) (w_freed w) (w_deser w) (w_dirty w) (w_reused w).
Definition set_reusable x w := MkWriter (w_tsn w) (w_next_page w) (w_free_root w) (w_events_root w) (w_tags_root w) (w_tracking_root w) (w_next_pos w) x (w_freed w) (w_deser w) (w_dirty w) (w_reused w).
Definition set_freed x w := MkWriter (w_tsn w) (w_next_page w) (w_free_root w) (w_events_root w) (w_tags_root w) (w_tracking_root w) (w_next_pos w) (w_reusable w) x (w_deser w) (w_dirty w) (w_reused w).
Definition set_deser x w := MkWriter (w_tsn w) (w_next_page w) (w_free_root w) (w_events_root w) (w_tags_root w) (w_tracking_root w) (w_next_pos w) (w_reusable w) (w_freed w) x (w_dirty w) (w_reused w).
Definition set_dirty x w := MkWriter (w_tsn w) (w_next_page w) (w_free_root w) (w_events_root w) (w_tags_root w) (w_tracking_root w) (w_next_pos w) (w_reusable w) (w_freed w) (w_deser w) x (w_reused w).
Definition set_reused x w := MkWriter (w_tsn w) (w_next_page w) (w_free_root w) (w_events_root w) (w_tags_root w) (w_tracking_root w) (w_next_pos w) (w_reusable w) (w_freed w) (w_deser w) (w_dirty w) x.

(** A function [fn f(&mut Writer) -> DcbResult<A>]: the changes made before an error stay. *)
(* e.g. mvcc.rs:1043, 1335-1340 *)
Definition M (A : Type) : Type := writer -> res A * writer.
(* Ok, Err, [?] and the access to fields of Writer in the functions of mvcc.rs:985-2400 *)
Definition ret {A} (a : A) : M A := fun w => (Ok a, w).
Definition fail {A} (e : err) : M A := fun w => (Err e, w).
Definition wbind {A B} (m : M A) (f : A -> M B) : M B := fun w =>
  match m w with
  | (Ok a, w') => f a w'
  | (Err e, w') => (Err e, w')
  end.
Definition lift {A} (r : res A) : M A := fun w => (r, w).
(* reading and assigning fields, mvcc.rs:985-2400 *)
Definition gets {A} (f : writer -> A) : M A := fun w => (Ok (f w), w).
Definition modify (f : writer -> writer) : M unit := fun w => (Ok tt, f w).

Notation "'let!' x := r 'in' k" := (wbind r (fun x => k))
  (at level 200, x name, r at level 100, k at level 200, right associativity).
Notation "'let!' ' x := r 'in' k" := (wbind r (fun x => k))
  (at level 200, x strict pattern, r at level 100, k at level 200, right associativity).
Notation "'do!' r 'in' k" := (wbind r (fun _ => k))
  (at level 200, r at level 100, k at level 200, right associativity).

(** [MvccSnapshot::read_page] (mvcc.rs:935-963): the committed pages, from cache or disk. *)
Definition snapshot := N -> res node.

(* mvcc.rs:1043-1059 *)
Definition get_page_ref (rd : snapshot) (p : N) : M node := fun w =>
  match w_dirty w !! p with
  | Some n => (Ok n, w)
  | None =>
    match w_deser w !! p with
    | Some n => (Ok n, w)
    | None =>
      match rd p with
      | Ok n => (Ok n, set_deser (<[p := n]> (w_deser w)) w)
      | Err e => (Err e, w)
      end
    end
  end.

(* mvcc.rs:1061-1067; the returned reference is written back with [put_dirty] *)
Definition get_mut_dirty (p : N) : M node := fun w =>
  match w_dirty w !! p with
  | Some n => (Ok n, w)
  | None => (Err EDirtyPageNotFound, w)
  end.
(* assignment through the reference obtained from get_mut_dirty *)
Definition put_dirty (p : N) (n : node) : M unit := fun w =>
  (Ok tt, set_dirty (<[p := n]> (w_dirty w)) w).

(* mvcc.rs:1069-1081 *)
Definition insert_dirty (p : N) (n : node) : M unit := fun w =>
  if decide (p ∈ w_freed w) then (Err EPageAlreadyFreed, w)
  else match w_dirty w !! p with
       | Some _ => (Err EPageAlreadyDirty, w)
       | None => (Ok tt, set_dirty (<[p := n]> (w_dirty w)) w)
       end.

(* mvcc.rs:1083-1092 *)
Definition alloc_page_id : M N := fun w =>
  match w_reusable w with
  | (p, tsn) :: rest => (Ok p, set_reused (w_reused w ++ [(p, tsn)]) (set_reusable rest w))
  | [] => (Ok (w_next_page w), set_next_page (w_next_page w + 1) w)
  end.

(* mvcc.rs:1094-1131 *)
Definition get_dirty_page_id (p : N) : M N := fun w =>
  if decide (p ∈ w_freed w) then (Err EPageAlreadyFreed, w)
  else match w_dirty w !! p with
       | Some _ => (Ok p, w)
       | None =>
         (let! q := alloc_page_id in
          fun w1 =>
            match w_deser w1 !! p with
            | None => (Err EDatabaseCorrupted, w1)
            | Some n => (Ok q, set_dirty (<[q := n]> (w_dirty w1)) (set_deser (delete p (w_deser w1)) w1))
            end) (set_freed ({[p]} ∪ w_freed w) w)
       end.

(* mvcc.rs:1133-1137 *)
Definition append_freed_page_id (p : N) : M unit := fun w =>
  if decide (p ∈ w_freed w) then (Ok tt, w)
  else (Ok tt, set_dirty (delete p (w_dirty w)) (set_freed ({[p]} ∪ w_freed w) w)).

(* mvcc.rs:1024-1028; the addition wraps in release builds *)
Definition issue_position : M N := fun w =>
  (Ok (w_next_pos w), set_next_pos ((w_next_pos w + 1) mod U64) w).

(** [with_page] (events_tree.rs:79-94): dirty pages first, then the snapshot. *)
Definition page_at (rd : snapshot) (dirty : gmap N node) (p : N) : res node :=
  match dirty !! p with Some n => Ok n | None => rd p end.

(** ** [slice::binary_search] *)
(* Rust's std implementation (library/core/src/slice/mod.rs, binary_search_by, 1.83 and later):
   halving the size with a branchless update of [base], then one final comparison.
   The model's proofs use only its contract (Proofs: binary_search_spec). *)
Section bsearch.
  Context {A : Type} (cmp : A -> comparison). (* compares an element with the target *)
  Fixpoint bs_loop (fuel : nat) (l : list A) (base size : nat) : nat :=
    match fuel with
    | O => base
    | S fuel' =>
      if (size <=? 1)%nat then base
      else
        let half := Nat.div2 size in
        let mid := (base + half)%nat in
        let base' := match l !! mid with
                     | Some x => match cmp x with Gt => base | _ => mid end
                     | None => base
                     end in
        bs_loop fuel' l base' (size - half)
    end.
  (* [inl i] = Ok(i), [inr i] = Err(i) *)
  (* e.g. events_tree.rs:512, tags_tree.rs:48, db.rs:340 *)
  Definition binary_search (l : list A) : nat + nat :=
    match l with
    | [] => inr 0%nat
    | _ =>
      let base := bs_loop (length l) l 0 (length l) in
      match l !! base with
      | Some x => match cmp x with
                  | Eq => inl base
                  | Lt => inr (S base)
                  | Gt => inr base
                  end
      | None => inr base
      end
    end.
End bsearch.
(* slice::binary_search and binary_search_by: events_tree.rs:512, tags_tree.rs:48, db.rs:340, mvcc.rs:1810 *)
Definition bs_N (x : N) (l : list N) : nat + nat := binary_search (fun k => N.compare k x) l.
Definition bs_bytes (x : bytes) (l : list bytes) : nat + nat := binary_search (fun k => bytes_cmp k x) l.

(** ** Vec operations *)
(* Vec::insert and Vec::remove: mvcc.rs:1876-1877, 2052, tags_tree.rs:254-255 *)
Definition vec_insert {A} (i : nat) (x : A) (l : list A) : list A := take i l ++ x :: drop i l.
Definition vec_remove {A} (i : nat) (l : list A) : list A := take i l ++ drop (S i) l.
