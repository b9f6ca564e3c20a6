(** Properties C17-C20 and C43: the page format. *)
From Verif Require Import CodecProofs Page PageProofs DecodeTotal.

(** ** C17: every stored page round-trips *)
Theorem page_round_trip kw ps n pb :
  (kw <= 16)%nat -> ps < U32 -> node_ok kw n -> node_bytes n ->
  page_ser kw ps n = Ok pb -> page_de kw pb = Ok n /\ nlen pb = ps.
Proof.
  intros Hkw Hps Hok Hby E. split.
  - eapply page_rt; eauto. intros b Eb. eapply node_ser_bytes; eauto.
  - destruct (page_ser_layout _ _ _ _ E) as (? & _ & _ & _ & H). exact H.
Qed.

(** Two different contents never have the same stored form. *)
Theorem page_injective kw ps n1 n2 pb :
  (kw <= 16)%nat -> ps < U32 -> node_ok kw n1 -> node_bytes n1 -> node_ok kw n2 -> node_bytes n2 ->
  page_ser kw ps n1 = Ok pb -> page_ser kw ps n2 = Ok pb -> n1 = n2.
Proof.
  intros Hkw Hps H1 B1 H2 B2 E1 E2.
  destruct (page_round_trip _ _ _ _ Hkw Hps H1 B1 E1) as [R1 _].
  destruct (page_round_trip _ _ _ _ Hkw Hps H2 B2 E2) as [R2 _]. congruence.
Qed.

(** ** C18: size accounting *)
Theorem page_size_safe kw ps n :
  (kw <= 16)%nat -> node_ok kw n -> page_size_of kw n <= ps ->
  exists pb, page_ser kw ps n = Ok pb.
Proof.
  intros Hkw Hok Hsz. destruct (node_rt kw n Hkw Hok) as (b & Eb & _).
  pose proof (node_size_ge kw n b Hkw Hok Eb) as Hge.
  unfold page_ser. rewrite Eb. cbn [rbind]. unfold page_size_of in Hsz.
  rewrite (proj2 (N.ltb_ge _ _)) by lia. eauto.
Qed.

(** ** C19: corruption of a run of at most four bytes *)
(** [pb'] is [pb] with the bytes [w] at offset [|a|] replaced by [w']; the run does not touch the
    kind byte (offset 0) or the length field (offsets 5 to 8). *)
Theorem page_corruption_detected kw ps n pb a w w' c :
  (kw <= 16)%nat -> ps < U32 -> node_ok kw n -> node_bytes n ->
  page_ser kw ps n = Ok pb ->
  pb = a ++ w ++ c -> is_bytes w' -> length w' = length w -> (length w <= 4)%nat ->
  ((1 <= length a /\ length a + length w <= 5) \/ 9 <= length a)%nat ->
  page_de kw (a ++ w' ++ c) = Err EDatabaseCorrupted \/ page_de kw (a ++ w' ++ c) = Ok n.
Proof.
  intros Hkw Hps Hok Hby E Epb Hw' Hl H4 Hpos.
  destruct (decide (w = w')) as [<-|Hne].
  { right. rewrite <- Epb. now apply (page_round_trip kw ps n pb). }
  destruct (page_ser_layout _ _ _ _ E) as (body & Eb & Hfit & Elay & Hlen).
  pose proof (node_ser_bytes _ _ _ Hby Eb) as Hbb.
  assert (Hbl : nlen body < U32) by lia.
  unfold as_u32 in Elay. rewrite N.mod_small in Elay by exact Hbl.
  set (rest := replicate _ 0) in Elay.
  assert (L4 : forall x, length (w32 x) = 4%nat) by (intros; apply le_bytes_length).
  destruct Hpos as [[Ha1 Ha2]|Ha].
  - (* inside the checksum *)
    left. set (ty := type_byte n) in *. unfold page_layout in Elay. rewrite Elay in Epb.
    destruct a as [|a0 a1]; [cbn in Ha1; lia|]. change ((a0 :: a1) ++ w ++ c) with ([a0] ++ a1 ++ w ++ c) in Epb.
    apply app_inj_1 in Epb; [|reflexivity]. destruct Epb as [Et Epb]. assert (ty = a0) as <- by congruence. clear Et.
    cbn [length] in Ha2.
    assert (Hs : w32 (calc_crc body) = a1 ++ w ++ drop (4 - length a1 - length w) [] ++ take (4 - length a1 - length w) c
                 /\ w32 (nlen body) ++ body ++ rest = drop (4 - length a1 - length w) c).
    { rewrite drop_nil. cbn [app].
      assert (E4 : take 4 (w32 (calc_crc body) ++ w32 (nlen body) ++ body ++ rest) = take 4 (a1 ++ w ++ c)) by now rewrite Epb.
      assert (D4 : drop 4 (w32 (calc_crc body) ++ w32 (nlen body) ++ body ++ rest) = drop 4 (a1 ++ w ++ c)) by now rewrite Epb.
      rewrite take_app_alt in E4 by now rewrite L4. rewrite drop_app_alt in D4 by now rewrite L4. split.
      - rewrite E4. rewrite take_app_ge by lia. f_equal. rewrite take_app_ge by lia. reflexivity.
      - rewrite D4. rewrite drop_app_ge by lia. rewrite drop_app_ge by lia. reflexivity. }
    rewrite drop_nil in Hs. cbn [app] in Hs. destruct Hs as [Hcrc Hrest].
    set (c1 := take (4 - length a1 - length w) c) in *. set (c2 := drop (4 - length a1 - length w) c) in *.
    assert (Hc : c = c1 ++ c2) by (symmetry; apply take_drop).
    assert (Hcb : is_bytes (a1 ++ w' ++ c1)).
    { assert (is_bytes (w32 (calc_crc body))) as H by apply le_bytes_is_bytes. rewrite Hcrc in H.
      unfold is_bytes in *. rewrite !Forall_app in *. tauto. }
    assert (Hcl : length (a1 ++ w' ++ c1) = 4%nat).
    { rewrite <- (L4 (calc_crc body)), Hcrc, !app_length. lia. }
    set (crc' := le_val (a1 ++ w' ++ c1)).
    assert (Hw32 : w32 crc' = a1 ++ w' ++ c1). { unfold w32, crc'. rewrite <- Hcl. now apply le_bytes_val. }
    assert (Hclt : crc' < U32).
    { unfold crc'. pose proof (le_val_bound _ Hcb). unfold nlen in H. rewrite Hcl in H. exact H. }
    assert ((ty :: a1) ++ w' ++ c = page_layout ty crc' (nlen body) body rest) as Ex.
    { unfold page_layout. rewrite Hw32, Hrest. fold c2. rewrite Hc at 1. change ((ty :: a1) ++ w' ++ c1 ++ c2) with ([ty] ++ a1 ++ w' ++ c1 ++ c2). now rewrite <- !app_assoc. }
    rewrite Ex.
    apply page_crc_corruption; try assumption.
    intros Heq. apply Hne. rewrite Heq in Hw32. rewrite Hcrc in Hw32.
    apply app_inv_head in Hw32. apply app_inv_tail in Hw32. congruence.
  - (* at or after the body *)
    set (hdr := [type_byte n] ++ w32 (calc_crc body) ++ w32 (nlen body)).
    assert (Hh : length hdr = 9%nat) by (unfold hdr; rewrite !app_length, !L4; reflexivity).
    assert (E2 : hdr ++ body ++ rest = a ++ w ++ c).
    { rewrite <- Epb, Elay. unfold hdr, page_layout. now rewrite <- !app_assoc. }
    assert (Ha' : a = hdr ++ drop 9 a).
    { assert (take 9 (hdr ++ body ++ rest) = take 9 (a ++ w ++ c)) as H by now rewrite E2.
      rewrite take_app_alt in H by now rewrite Hh. rewrite take_app_le in H by exact Ha.
      rewrite H. symmetry. apply take_drop. }
    set (a' := drop 9 a) in *. rewrite Ha' in E2. rewrite <- app_assoc in E2. apply app_inv_head in E2.
    set (L := length body).
    set (cut := fun v => take L (a' ++ v ++ c)). set (tl := fun v => drop L (a' ++ v ++ c)).
    assert (Hcut : forall v, cut v = take L a' ++ take (L - length a') v ++ take (L - length a' - length v) c).
    { intros v. unfold cut. 
      rewrite firstn_app. f_equal. rewrite firstn_app. reflexivity. }
    assert (Hbody : body = cut w). { unfold cut. rewrite <- E2. symmetry. apply (take_app body rest). }
    assert (Hlc : length (cut w') = L).
    { assert (length (cut w) = L) by now rewrite <- Hbody.
      unfold cut in *. rewrite !take_length, !app_length in *. lia. }
    assert (Hn : nlen (cut w') = nlen body) by (unfold nlen; rewrite Hlc; reflexivity).
    assert (Ex : a ++ w' ++ c = page_layout (type_byte n) (calc_crc body) (nlen body) (cut w') (tl w')).
    { rewrite Ha' at 1. unfold page_layout, hdr, cut, tl. rewrite take_drop. now rewrite <- !app_assoc. }
    rewrite Ex. rewrite page_de_layout; [|now apply calc_crc_lt|exact Hn|exact Hbl].
    destruct (N.eqb_spec (calc_crc (cut w')) (calc_crc body)) as [Hcrc|_]; [|now left].
    right. assert (cut w' = body) as ->.
    { rewrite Hbody. rewrite (Hcut w), (Hcut w'). rewrite Hl. f_equal. f_equal.
      destruct (decide (take (L - length a') w = take (L - length a') w')) as [->|Hd]; [reflexivity|exfalso].
      rewrite Hbody in Hcrc, Hbb. rewrite (Hcut w), (Hcut w') in Hcrc. rewrite (Hcut w) in Hbb.
      rewrite Hl in Hcrc. symmetry in Hcrc. revert Hcrc.
      unfold is_bytes in Hbb. rewrite !Forall_app in Hbb.
      apply crc_burst; try tauto.
      - now apply is_bytes_take.
      - rewrite !take_length. lia.
      - rewrite take_length. lia. }
    destruct (node_rt kw n Hkw Hok) as (b & Eb' & D). rewrite Eb in Eb'. injection Eb' as <-. exact D.
Qed.

(** In particular a changed run inside the body is always rejected. *)
Theorem page_body_corruption_rejected kw ps n pb body a w w' c :
  (kw <= 16)%nat -> ps < U32 -> node_ok kw n -> node_bytes n ->
  page_ser kw ps n = Ok pb -> node_ser kw n = Ok body ->
  body = a ++ w ++ c -> is_bytes w' -> length w' = length w -> (length w <= 4)%nat -> w' <> w ->
  page_de kw (take 9 pb ++ (a ++ w' ++ c) ++ drop (9 + length body) pb) = Err EDatabaseCorrupted.
Proof.
  intros Hkw Hps Hok Hby E Eb Ebody Hw' Hl H4 Hne.
  destruct (page_ser_layout _ _ _ _ E) as (body' & Eb' & Hfit & Elay & Hlen).
  rewrite Eb in Eb'. injection Eb' as <-.
  pose proof (node_ser_bytes _ _ _ Hby Eb) as Hbb.
  assert (Hbl : nlen body < U32) by lia.
  unfold as_u32 in Elay. rewrite N.mod_small in Elay by exact Hbl.
  set (rest := replicate _ 0) in Elay.
  assert (L4 : forall x, length (w32 x) = 4%nat) by (intros; apply le_bytes_length).
  set (hdr := [type_byte n] ++ w32 (calc_crc body) ++ w32 (nlen body)).
  assert (Hh : length hdr = 9%nat) by (unfold hdr; rewrite !app_length, !L4; reflexivity).
  assert (Epb : pb = hdr ++ body ++ rest) by (rewrite Elay; unfold page_layout, hdr; now rewrite <- !app_assoc).
  rewrite Epb. rewrite take_app_alt by now rewrite Hh.
  rewrite (app_assoc hdr body rest). rewrite drop_app_alt by (rewrite app_length, Hh; reflexivity).
  replace (hdr ++ (a ++ w' ++ c) ++ rest)
    with (page_layout (type_byte n) (calc_crc body) (nlen body) (a ++ w' ++ c) rest)
    by (unfold page_layout, hdr; now rewrite <- !app_assoc).
  subst body. unfold is_bytes in Hbb. rewrite !Forall_app in Hbb.
  apply page_body_corruption; try tauto; try lia; congruence.
Qed.

(** ** C20: decoding arbitrary bytes *)
Theorem decode_never_crashes kw s :
  (exists n, page_de kw s = Ok n) \/ page_de kw s = Err EDatabaseCorrupted \/ page_de kw s = Err EDeserialization.
Proof.
  pose proof (page_de_total kw s) as H. destruct (page_de kw s) as [n|e]; [left; eauto|].
  destruct H as [->| ->]; auto.
Qed.
Theorem decode_body_never_crashes kw ty s :
  (exists n, node_de kw ty s = Ok n) \/ node_de kw ty s = Err EDatabaseCorrupted \/ node_de kw ty s = Err EDeserialization.
Proof.
  pose proof (node_de_total kw ty s) as H. destruct (node_de kw ty s) as [n|e]; [left; eauto|].
  destruct H as [->| ->]; auto.
Qed.

(** ** C43: the kind byte is not protected by the checksum *)
(** Changing one byte of a stored page makes it decode, without any error, to a page of another kind. *)
Theorem page_kind_protected_refuted :
  exists kw ps n pb ty' n',
    (kw <= 16)%nat /\ node_ok kw n /\ node_bytes n /\ page_ser kw ps n = Ok pb /\
    page_de kw (ty' :: drop 1 pb) = Ok n' /\ n' <> n.
Proof.
  exists 16%nat, 64, (NEvInt (INode [5] [7; 8])).
  eexists. exists 57, (NTagInt (INode [5] [7; 8])).
  split; [lia|]. split.
  { repeat split; cbn; repeat constructor; unfold u64_ok, U64, U16, nlen; cbn; lia. }
  split; [exact I|]. split; [vm_compute; reflexivity|]. split; [vm_compute; reflexivity|discriminate].
Qed.

(** ** Examples: the hypotheses are met *)
Definition ex_event : event_record :=
  EventRecord [97; 98] [1; 2; 3; 255] [[116; 49]; [116; 50]] (Some (replicate 16 7)) [([107], [118])]
              (Some (Tracking [115] 42)).
Definition ex_leaf : node :=
  NEvLeaf (EvLeaf [1; 2] [Inline ex_event; Overflow [97] 5000 [[116]] 9 None 12 None]).
Example ex_leaf_ok : node_ok 16 ex_leaf /\ node_bytes ex_leaf.
Proof.
  repeat split; cbn; repeat constructor; cbn; unfold u64_ok, U64, U16, nlen; cbn; try lia.
Qed.
Example ex_leaf_page : exists pb, page_ser 16 4096 ex_leaf = Ok pb /\ page_de 16 pb = Ok ex_leaf.
Proof.
  destruct (page_size_safe 16 4096 ex_leaf) as [pb E]; [lia|apply ex_leaf_ok|vm_compute; congruence|].
  exists pb. split; [exact E|]. eapply page_round_trip; [lia| |apply ex_leaf_ok|apply ex_leaf_ok|exact E].
  unfold U32; lia.
Qed.
Definition ex_page : bytes := match page_ser 16 300 ex_leaf with Ok pb => pb | Err _ => [] end.
Example ex_corruption : page_ser 16 300 ex_leaf = Ok ex_page
  /\ ex_page = take 40 ex_page ++ take 4 (drop 40 ex_page) ++ drop 44 ex_page
  /\ page_de 16 (take 40 ex_page ++ [9; 9; 9; 9] ++ drop 44 ex_page) = Err EDatabaseCorrupted.
Proof. split; [vm_compute; reflexivity|]. split; vm_compute; reflexivity. Qed.

Print Assumptions page_round_trip.
Print Assumptions page_injective.
Print Assumptions page_size_safe.
Print Assumptions page_corruption_detected.
Print Assumptions page_body_corruption_rejected.
Print Assumptions decode_never_crashes.
Print Assumptions decode_body_never_crashes.
Print Assumptions page_kind_protected_refuted.
