(** umadb-check, looking for missing events (umadb-tools/src/bin/umadb-check.rs:129, 154, 268, 379, 608-672): if the events end before the position the
    header says, the tool goes through all pages that hold a leaf of the event tree, whether or not the tree has them. *)
From Verif Require Export Check.
Local Open Scope N_scope.

Section probe.
  Context (kw : nat) (hash : bytes -> bytes) (order : list bytes -> list bytes).
  (* 328-412: the pages past the high-water mark it looks at *)
  Inductive past (d : disk) : N -> list N -> Prop :=
    | past_end q : d_cur d q = None -> past d q []
    | past_zero q b : d_cur d q = Some b -> zero_page b = true -> past d q []
    | past_more q b l : d_cur d q = Some b -> zero_page b = false -> past d (q + 1) l -> past d q (q :: l).
  (* 639-656: the page, the number of missing positions on it, the first ten of them in order; 647, 651: pages of other kinds and pages that cannot
     be read are passed over, so that it does not matter that only those found to be leaves in 154, 268 and 379 are tried *)
  Definition finding : Type := N * N * list N.
  Definition find_missing (d : disk) (lo hi : N) (q : N) : option finding :=
    match fetch kw ∅ d q with
    | Ok (NEvLeaf n) =>
      match List.filter (fun k => (lo <=? k) && (k <=? hi)) (ev_keys n) with
      | [] => None
      | m => Some (q, nlen m, take (N.to_nat (N.min (nlen m) 10)) (merge_sort N.le m))
      end
    | _ => None
    end.
  (* 608-609 *)
  Definition events_ok (h : header) (evs : list seq_event) (back : res (list seq_event)) : bool :=
    let lst := from_option fst 0 (last evs) in
    let tree := match back with Ok l => fst <$> last l | Err _ => None end in
    (lst =? h_next_pos h - 1) && match tree with Some p => p =? h_next_pos h - 1 | None => false end && match tree with Some p => p =? lst | None => false end.
  (* 611-672; [None]: nothing is printed; [Some []]: that no page was found (665-670).  [evs]: the events read (444-530) *)
  Inductive probes (d : disk) (h : header) (evs : list seq_event) : option (list finding) -> Prop :=
    | probes_not : events_ok h evs (check_read kw hash order d h None true 1) = true \/ h_next_pos h - 1 < from_option fst 0 (last evs) + 1 -> probes d h evs None
    | probes_done l : events_ok h evs (check_read kw hash order d h None true 1) = false -> from_option fst 0 (last evs) + 1 <= h_next_pos h - 1 -> past d (h_next_page h) l ->
        probes d h evs (Some (omap (find_missing d (from_option fst 0 (last evs) + 1) (h_next_pos h - 1)) ([0; 1] ++ seqN 2 (N.to_nat (h_next_page h - 2)) ++ l))).
End probe.
