(** Stage 4 of umadb-check, what it can still read of damaged leaves of the tag index: umadb-tools/src/bin/umadb-check.rs:698-865.
    Indices are [nat]; a slice out of range is [Panic]. *)
From Verif Require Export Nodes TagHash.
Local Open Scope N_scope.

(* the texts pushed to [notes], umadb-check.rs:710, 717, 728, 738, 748 *)
Inductive note := TooShort | NoKeys | KeyTruncated (i : nat) | HeaderTruncated (i : nat) | PositionsTruncated (i : nat).
(* umadb-check.rs:721-734, the loop body; [k[..keyw]] is out of range if keyw > TAG_HASH_LEN *)
Definition forensic_key (body : bytes) (kw offset i : nat) : res (bytes * list note) :=
  let start := (offset + i * kw)%nat in let end_ := (start + kw)%nat in
  if (end_ <=? length body)%nat
  then if (16 <? kw)%nat then Err Panic else let? b := slice_range start end_ body in Ok (b ++ replicate (16 - kw) 0, [])
  else let avail := (length body - start)%nat in
       if (16 <? avail)%nat then Err Panic else let? b := slice_range start (start + avail) body in Ok (b ++ replicate (16 - avail) 0, [KeyTruncated i]).
(* umadb-check.rs:720-735 *)
Fixpoint forensic_keys (body : bytes) (kw offset i n : nat) : res (list bytes * list note) :=
  match n with
  | O => Ok ([], [])
  | S n' => let? '(k, a) := forensic_key body kw offset i in let? '(ks, b) := forensic_keys body kw offset (S i) n' in Ok (k :: ks, a ++ b)
  end.
(* umadb-check.rs:754-758, 762-766 *)
Fixpoint forensic_positions (body : bytes) (offset n : nat) : res (list N) :=
  match n with
  | O => Ok []
  | S n' => let? b := slice_range offset (offset + 8) body in let? ps := forensic_positions body (offset + 8) n' in Ok (le_val b :: ps)
  end.
(* umadb-check.rs:737-770 *)
Fixpoint forensic_values (body : bytes) (offset i : nat) (keys : list bytes) : res (list (bytes * list N) * list note) :=
  match keys with
  | [] => Ok ([], [])
  | k :: keys' =>
      if (length body <? offset + 10)%nat then Ok ([], [HeaderTruncated i])
      else
        let? _ := slice_range offset (offset + 8) body in
        let? pl := slice_range (offset + 8) (offset + 10) body in
        let plen := N.to_nat (le_val pl) in
        if (length body <? offset + 10 + plen * 8)%nat
        then let? ps := forensic_positions body (offset + 10) ((length body - (offset + 10)) / 8) in Ok ([(k, ps)], [PositionsTruncated i])
        else let? ps := forensic_positions body (offset + 10) plen in
             let? '(es, notes) := forensic_values body (offset + 10 + plen * 8) (S i) keys' in
             Ok ((k, ps) :: es, notes)
  end.
(* umadb-check.rs:704-771 *)
Definition forensic_parse_tags_leaf (body : bytes) (kw : nat) : res (list (bytes * list N) * list note) :=
  if (length body <? 2)%nat then Ok ([], [TooShort])
  else
    let? b := slice_range 0 2 body in
    let n := N.to_nat (le_val b) in
    if (length body <? 2 + n * kw)%nat then Ok ([], [NoKeys])
    else
      let? '(keys, a) := forensic_keys body kw 2 0 n in
      let? '(es, notes) := forensic_values body (2 + n * kw) 0 keys in
      Ok (es, a ++ notes).

(* umadb-check.rs:786-801: some tag of the event hashes to the key *)
Definition tag_matches (used_w : nat) (kh : bytes) (tags : list bytes) : bool :=
  existsb (fun t => if Nat.eqb used_w 8 then bytes_eqb (take 8 (tag_to_hash_crc64 t)) (take 8 kh) else bytes_eqb (take used_w (tag_to_hash used_w t) ++ replicate (16 - used_w) 0) kh) tags.
(* the counters of umadb-check.rs:777-780; of the mismatches the positions *)
Record analysis := Analysis { a_total : N; a_with_event : N; a_matches : N; a_mismatches : list N }.
(* umadb-check.rs:784-812 *)
Definition analyze_position (used_w : nat) (events : N -> option (list bytes)) (kh : bytes) (a : analysis) (p : N) : analysis :=
  match events p with
  | None => a
  | Some tags => if tag_matches used_w kh tags then Analysis (a_total a) (a_with_event a + 1) (a_matches a + 1) (a_mismatches a)
                 else Analysis (a_total a) (a_with_event a + 1) (a_matches a) (if (length (a_mismatches a) <? 5)%nat then a_mismatches a ++ [p] else a_mismatches a)
  end.
(* umadb-check.rs:772-817; [events]: the tags of the events found in stage 3 *)
Definition analyze_entries (used_w : nat) (events : N -> option (list bytes)) (es : list (bytes * list N)) : analysis :=
  fold_left (fun a e => fold_left (analyze_position used_w events (fst e)) (snd e) (Analysis (a_total a + nlen (snd e)) (a_with_event a) (a_matches a) (a_mismatches a))) es (Analysis 0 0 0 []).
(* umadb-check.rs:819-865, without the printing *)
Definition forensic_page (bytes : bytes) (cur_w : nat) (events : N -> option (list Base.bytes)) : res (analysis * analysis) :=
  let body := if (9 <=? length bytes)%nat then drop 9 bytes else bytes in
  let? '(cur, _) := forensic_parse_tags_leaf body cur_w in
  let? '(legacy, _) := forensic_parse_tags_leaf body 8 in
  Ok (analyze_entries cur_w events cur, analyze_entries 8 events legacy).
