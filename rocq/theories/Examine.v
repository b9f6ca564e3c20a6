(** umadb-check, the leaves of the tag index it examines in stage 4 (umadb-tools/src/bin/umadb-check.rs:135-140, 280-298, 382-391, 819-905). *)
From Verif Require Export Probe Forensic.
Local Open Scope N_scope.

(* 280-298 and 382-391: pages that cannot be decoded and whose first byte is that of a leaf of the tag index (line 24); the headers are not among them
   (143-203).  [l]: the pages past the mark, as in Probe.v.  With each page where it was found: [true] is "beyond-header" *)
Definition failed_tags_leaf (kw : nat) (d : disk) (q : N) : bool :=
  match d_cur d q with Some (b :: r) => (b =? 54) && negb (is_ok (page_de kw (b :: r))) | _ => false end.
Definition examined (kw : nat) (d : disk) (h : header) (l : list N) : list (N * bool) :=
  map (fun q => (q, false)) (List.filter (failed_tags_leaf kw d) (seqN 2 (N.to_nat (h_next_page h - 2)))) ++ map (fun q => (q, true)) (List.filter (failed_tags_leaf kw d) l).
(* 882-905: the numbers of keys and positions printed; [None]: that it failed.  The process-wide width is set back before anything else is done *)
Definition core_legacy (bytes : bytes) : option (N * N) :=
  let body := if (9 <=? length bytes)%nat then drop 9 bytes else bytes in
  match tags_leaf_de 8 body with Ok n => Some (nlen (tl_keys n), foldr N.add 0 (map (fun v => nlen (tv_positions v)) (tl_values n))) | Err _ => None end.
