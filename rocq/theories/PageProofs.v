(** Page round trip and corruption detection. *)
From Verif Require Import Page CodecProofs.

(** ** CRC is linear and injective on short bursts *)
Lemma odd_lxor a b : N.odd (N.lxor a b) = xorb (N.odd a) (N.odd b).
Proof. now rewrite <- !N.bit0_odd, N.lxor_spec. Qed.
Lemma div2_lxor a b : N.div2 (N.lxor a b) = N.lxor (N.div2 a) (N.div2 b).
Proof. rewrite !N.div2_spec. apply N.shiftr_lxor. Qed.

Lemma lxor_cancel a b : N.lxor (N.lxor a b) b = a.
Proof. now rewrite N.lxor_assoc, N.lxor_nilpotent, N.lxor_0_r. Qed.

Lemma crc_bit_lxor a b : crc_bit (N.lxor a b) = N.lxor (crc_bit a) (crc_bit b).
Proof.
  unfold crc_bit. rewrite odd_lxor, div2_lxor.
  destruct (N.odd a), (N.odd b); cbn [xorb].
  - rewrite (N.lxor_comm (N.div2 b)), N.lxor_assoc, <- (N.lxor_assoc crc_poly), N.lxor_nilpotent, N.lxor_0_l. reflexivity.
  - rewrite N.lxor_assoc, (N.lxor_comm (N.div2 b)), <- N.lxor_assoc. reflexivity.
  - now rewrite N.lxor_assoc.
  - reflexivity.
Qed.
Lemma crc_bits_lxor k a b : crc_bits k (N.lxor a b) = N.lxor (crc_bits k a) (crc_bits k b).
Proof. revert a b; induction k as [|k IH]; intros a b; cbn [crc_bits]; [reflexivity|]. now rewrite crc_bit_lxor, IH. Qed.
Lemma crc_bits_add j k c : crc_bits (j + k) c = crc_bits k (crc_bits j c).
Proof. revert c; induction j as [|j IH]; intros c; cbn [crc_bits Nat.add]; [reflexivity|]. apply IH. Qed.

Lemma crc_bit_double x : crc_bit (2 * x) = x.
Proof.
  unfold crc_bit. rewrite N.odd_mul, (eq_refl : N.odd 2 = false). cbn [andb].
  rewrite N.div2_div. rewrite N.mul_comm. apply N.div_mul. discriminate.
Qed.
Lemma crc_bits8_256 x : crc_bits 8 (256 * x) = x.
Proof.
  replace (256 * x) with (2 * (2 * (2 * (2 * (2 * (2 * (2 * (2 * x)))))))) by lia.
  cbn [crc_bits]. now rewrite !crc_bit_double.
Qed.

Lemma lxor_256 b x : b < 256 -> N.lxor b (256 * x) = b + 256 * x.
Proof.
  intros Hb. symmetry. apply N.add_nocarry_lxor. apply N.bits_inj_0. intros n.
  rewrite N.land_spec. change 256 with (2 ^ 8). rewrite N.mul_comm.
  destruct (N.lt_ge_cases n 8) as [Hn|Hn].
  - rewrite N.mul_pow2_bits_low by exact Hn. apply andb_false_r.
  - replace (N.testbit b n) with false; [reflexivity|].
    symmetry. destruct (N.eq_dec b 0) as [->|Hb0]; [apply N.bits_0|].
    apply N.bits_above_log2. apply N.lt_le_trans with 8; [|exact Hn].
    apply N.log2_lt_pow2; lia.
Qed.

Lemma crc_update_word c w : is_bytes w ->
  crc_update c w = crc_bits (8 * length w) (N.lxor c (le_val w)).
Proof.
  intros Hw. revert c. induction Hw as [|b w Hb Hw IH]; intros c.
  - cbn. now rewrite N.lxor_0_r.
  - cbn [crc_update fold_left length le_val]. change (fold_left crc_byte w) with (fun c => crc_update c w). cbn beta.
    rewrite IH. replace (8 * S (length w))%nat with (8 + 8 * length w)%nat by lia.
    rewrite crc_bits_add. f_equal. unfold crc_byte.
    rewrite <- (crc_bits8_256 (le_val w)) at 1. rewrite <- crc_bits_lxor.
    f_equal. rewrite N.lxor_assoc. now rewrite lxor_256.
Qed.

Lemma crc_update_app c a b : crc_update c (a ++ b) = crc_update (crc_update c a) b.
Proof. apply fold_left_app. Qed.

Lemma div2_lt x : x < 2 ^ 32 -> N.div2 x < 2 ^ 31.
Proof. intros H. rewrite N.div2_div. apply N.div_lt_upper_bound; [discriminate|]. exact H. Qed.

Lemma lxor_lt a b n : a < 2 ^ n -> b < 2 ^ n -> N.lxor a b < 2 ^ n.
Proof.
  intros Ha Hb. destruct (N.eq_dec (N.lxor a b) 0) as [->|H0]; [apply N.neq_0_lt_0, N.pow_nonzero; discriminate|].
  apply N.log2_lt_pow2; [lia|]. eapply N.le_lt_trans; [apply N.log2_lxor|].
  destruct (N.eq_dec a 0) as [->|Ha0], (N.eq_dec b 0) as [->|Hb0].
  - rewrite N.lxor_0_l in H0. lia.
  - rewrite N.max_r by (change (N.log2 0) with 0; lia). apply N.log2_lt_pow2; [lia|exact Hb].
  - rewrite N.max_l by (change (N.log2 0) with 0; lia). apply N.log2_lt_pow2; [lia|exact Ha].
  - apply N.max_lub_lt; apply N.log2_lt_pow2; lia.
Qed.

Lemma crc_bit_lt x : x < 2 ^ 32 -> crc_bit x < 2 ^ 32.
Proof.
  intros H. pose proof (div2_lt x H). unfold crc_bit. destruct (N.odd x).
  - apply lxor_lt; [|reflexivity]. change (2 ^ 31) with 2147483648 in *. change (2 ^ 32) with 4294967296 in *. lia.
  - change (2 ^ 31) with 2147483648 in *. change (2 ^ 32) with 4294967296 in *. lia.
Qed.

Lemma bit31_low y : y < 2 ^ 31 -> N.testbit y 31 = false.
Proof.
  intros H. destruct (N.eq_dec y 0) as [->|H0]; [reflexivity|].
  apply N.bits_above_log2. apply N.log2_lt_pow2; [lia|exact H].
Qed.

Lemma odd_div2_inj x y : N.odd x = N.odd y -> N.div2 x = N.div2 y -> x = y.
Proof.
  intros Ho Hd. rewrite (N.div2_odd x), (N.div2_odd y), Ho, Hd. reflexivity.
Qed.

Lemma crc_bit_inj x y : x < 2 ^ 32 -> y < 2 ^ 32 -> crc_bit x = crc_bit y -> x = y.
Proof.
  intros Hx Hy E. pose proof (bit31_low _ (div2_lt x Hx)) as Bx. pose proof (bit31_low _ (div2_lt y Hy)) as By.
  assert (Hp : N.testbit crc_poly 31 = true) by reflexivity.
  pose proof (f_equal (fun z => N.testbit z 31) E) as B. cbn beta in B.
  unfold crc_bit in *. destruct (N.odd x) eqn:Ox, (N.odd y) eqn:Oy.
  - apply odd_div2_inj; [congruence|]. rewrite <- (lxor_cancel (N.div2 x) crc_poly), E. apply lxor_cancel.
  - rewrite N.lxor_spec, Bx, By, Hp in B. discriminate.
  - rewrite N.lxor_spec, Bx, By, Hp in B. discriminate.
  - apply odd_div2_inj; congruence.
Qed.

Lemma crc_bits_lt k x : x < 2 ^ 32 -> crc_bits k x < 2 ^ 32.
Proof. revert x; induction k as [|k IH]; intros x H; cbn [crc_bits]; [exact H|]. apply IH, crc_bit_lt, H. Qed.
Lemma crc_bits_inj k x y : x < 2 ^ 32 -> y < 2 ^ 32 -> crc_bits k x = crc_bits k y -> x = y.
Proof.
  revert x y; induction k as [|k IH]; intros x y Hx Hy E; cbn [crc_bits] in E; [exact E|].
  apply IH in E; [|now apply crc_bit_lt|now apply crc_bit_lt]. now apply crc_bit_inj.
Qed.
Lemma byte_lt b : b < 256 -> b < 2 ^ 32.
Proof. change (2 ^ 32) with 4294967296. lia. Qed.
Lemma crc_update_lt c l : is_bytes l -> c < 2 ^ 32 -> crc_update c l < 2 ^ 32.
Proof.
  intros Hl. revert c. induction Hl as [|b l Hb Hl IH]; intros c Hc; [exact Hc|].
  apply IH. unfold crc_byte. apply crc_bits_lt, lxor_lt; [exact Hc|now apply byte_lt].
Qed.
Lemma lxor_inj_r a b c : N.lxor a c = N.lxor b c -> a = b.
Proof. intros E. rewrite <- (lxor_cancel a c), E. apply lxor_cancel. Qed.
Lemma lxor_inj_l a b c : N.lxor c a = N.lxor c b -> a = b.
Proof. rewrite !(N.lxor_comm c). apply lxor_inj_r. Qed.

Lemma crc_byte_inj b x y : b < 256 -> x < 2 ^ 32 -> y < 2 ^ 32 -> crc_byte x b = crc_byte y b -> x = y.
Proof.
  intros Hb Hx Hy E. unfold crc_byte in E.
  apply crc_bits_inj in E; try (apply lxor_lt; [assumption|now apply byte_lt]). now apply lxor_inj_r in E.
Qed.
Lemma crc_update_inj_state l x y : is_bytes l -> x < 2 ^ 32 -> y < 2 ^ 32 ->
  crc_update x l = crc_update y l -> x = y.
Proof.
  intros Hl. revert x y. induction Hl as [|b l Hb Hl IH]; intros x y Hx Hy E; [exact E|].
  cbn [crc_update fold_left] in E. apply IH in E.
  - now apply crc_byte_inj in E.
  - apply crc_bits_lt, lxor_lt; [exact Hx|now apply byte_lt].
  - apply crc_bits_lt, lxor_lt; [exact Hy|now apply byte_lt].
Qed.

Lemma le_val_inj a b : is_bytes a -> is_bytes b -> length a = length b -> le_val a = le_val b -> a = b.
Proof. intros Ha Hb Hl E. rewrite <- (le_bytes_val a), <- (le_bytes_val b) by assumption. now rewrite E, Hl. Qed.

Lemma pow256_le n : (n <= 4)%nat -> 256 ^ N.of_nat n <= 2 ^ 32.
Proof. intros H. change (2 ^ 32) with (256 ^ 4). apply N.pow_le_mono_r; [discriminate|lia]. Qed.

(** A change confined to at most four consecutive bytes always changes the CRC. *)
Lemma crc_burst p w w' s :
  is_bytes p -> is_bytes w -> is_bytes w' -> is_bytes s ->
  length w = length w' -> (length w <= 4)%nat -> w <> w' ->
  calc_crc (p ++ w ++ s) <> calc_crc (p ++ w' ++ s).
Proof.
  intros Hp Hw Hw' Hs Hl H4 Hne E. apply Hne. unfold calc_crc in E. apply lxor_inj_r in E.
  rewrite !crc_update_app in E.
  assert (Hc : crc_update crc_mask p < 2 ^ 32) by (apply crc_update_lt; [exact Hp|reflexivity]).
  apply crc_update_inj_state in E; [|exact Hs|now apply crc_update_lt|now apply crc_update_lt].
  rewrite (crc_update_word _ w Hw), (crc_update_word _ w' Hw') in E. rewrite <- Hl in E.
  assert (Bw : le_val w < 2 ^ 32).
  { eapply N.lt_le_trans; [apply le_val_bound, Hw|]. now apply pow256_le. }
  assert (Bw' : le_val w' < 2 ^ 32).
  { eapply N.lt_le_trans; [apply le_val_bound, Hw'|]. unfold nlen. rewrite <- Hl. now apply pow256_le. }
  assert (L1 := lxor_lt _ _ 32 Hc Bw). assert (L2 := lxor_lt _ _ 32 Hc Bw').
  pose proof (crc_bits_inj _ _ _ L1 L2 E) as E1.
  apply lxor_inj_l in E1. exact (le_val_inj _ _ Hw Hw' Hl E1).
Qed.

Lemma calc_crc_lt l : is_bytes l -> calc_crc l < U32.
Proof. intros H. unfold calc_crc. change U32 with (2 ^ 32). apply lxor_lt; [|reflexivity]. apply crc_update_lt; [exact H|reflexivity]. Qed.

(** ** Page layout *)
(** The nine header bytes followed by the body and anything after it. *)
Definition page_layout (ty crc len : N) (body rest : bytes) : bytes :=
  [ty] ++ w32 crc ++ w32 len ++ body ++ rest.

Lemma page_layout_nlen ty crc len body rest :
  nlen (page_layout ty crc len body rest) = 9 + nlen body + nlen rest.
Proof. unfold page_layout. rewrite !nlen_app, !nlen_w32. change (nlen [ty]) with 1. lia. Qed.

Lemma le_val_w32 x : x < U32 -> le_val (w32 x) = x.
Proof. intros H. now apply le_val_bytes. Qed.

Lemma slice_range_mid p m r i j : length p = i -> length (p ++ m) = j -> slice_range i j (p ++ m ++ r) = Ok m.
Proof.
  intros <- <-. unfold slice_range. rewrite !app_length.
  rewrite (proj2 (Nat.leb_le _ _)) by lia. rewrite (proj2 (Nat.leb_le _ _)) by lia. cbn [andb].
  rewrite drop_app, take_app_alt by lia. reflexivity.
Qed.

Lemma page_de_layout kw ty crc len body rest :
  crc < U32 -> nlen body = len -> len < U32 ->
  page_de kw (page_layout ty crc len body rest) =
  if calc_crc body =? crc then node_de kw ty body else Err EDatabaseCorrupted.
Proof.
  intros Hc Hb Hl. unfold page_de. rewrite page_layout_nlen. unfold PAGE_HEADER_SIZE.
  rewrite (proj2 (N.ltb_ge _ _)) by lia.
  unfold page_layout.
  assert (L4 : forall x, length (w32 x) = 4%nat) by (intros; apply le_bytes_length).
  change (slice_range 0 1 ([ty] ++ w32 crc ++ w32 len ++ body ++ rest))
    with (slice_range 0 1 ([] ++ [ty] ++ w32 crc ++ w32 len ++ body ++ rest)).
  rewrite (slice_range_mid [] [ty]) by reflexivity. cbn [rbind].
  rewrite (slice_range_mid [ty] (w32 crc)) by (rewrite ?app_length, ?L4; reflexivity). cbn [rbind].
  rewrite (app_assoc [ty] (w32 crc)).
  rewrite (slice_range_mid ([ty] ++ w32 crc) (w32 len)) by (rewrite ?app_length, ?L4; reflexivity). cbn [rbind].
  rewrite (le_val_w32 crc), (le_val_w32 len) by assumption.
  rewrite (proj2 (N.ltb_ge _ _)) by lia.
  rewrite (app_assoc ([ty] ++ w32 crc) (w32 len)).
  rewrite (slice_range_mid (([ty] ++ w32 crc) ++ w32 len) body).
  2:{ rewrite ?app_length, ?L4; reflexivity. }
  2:{ rewrite ?app_length, ?L4. cbn [length]. unfold nlen in Hb. lia. }
  cbn [rbind le_val]. now replace (ty + 256 * 0) with ty by lia.
Qed.

Lemma page_ser_layout kw ps n pb : page_ser kw ps n = Ok pb ->
  exists body, node_ser kw n = Ok body /\ 9 + nlen body <= ps /\
    pb = page_layout (type_byte n) (calc_crc body) (as_u32 (nlen body)) body
           (replicate (N.to_nat (ps - PAGE_HEADER_SIZE - nlen body)) 0) /\ nlen pb = ps.
Proof.
  unfold page_ser. destruct (node_ser kw n) as [body|e]; cbn [rbind]; [|discriminate].
  destruct (N.ltb_spec ps (PAGE_HEADER_SIZE + nlen body)) as [H|H]; [discriminate|].
  unfold PAGE_HEADER_SIZE in *.
  set (pb' := [type_byte n] ++ _). intros E. assert (pb = pb') as -> by congruence.
  exists body. split; [reflexivity|]. split; [exact H|]. split; [reflexivity|].
  change pb' with (page_layout (type_byte n) (calc_crc body) (as_u32 (nlen body)) body (replicate (N.to_nat (ps - 9 - nlen body)) 0)).
  rewrite page_layout_nlen. unfold nlen at 2. rewrite replicate_length. lia.
Qed.

(** A written page is read back as the same node. *)
Lemma page_rt kw ps n pb : (kw <= 16)%nat -> ps < U32 -> node_ok kw n ->
  (forall b, node_ser kw n = Ok b -> is_bytes b) ->
  page_ser kw ps n = Ok pb -> page_de kw pb = Ok n.
Proof.
  intros Hkw Hps Hn Hby E. destruct (page_ser_layout _ _ _ _ E) as (body & Eb & Hl & -> & _).
  assert (nlen body < U32) by lia. unfold as_u32. rewrite N.mod_small by assumption.
  rewrite page_de_layout; [|apply calc_crc_lt, Hby, Eb|reflexivity|assumption].
  rewrite N.eqb_refl. destruct (node_rt kw n Hkw Hn) as (b & Eb' & D).
  rewrite Eb in Eb'. injection Eb' as <-. exact D.
Qed.

(** Corruption inside the body, in a run of at most four bytes. *)
Lemma page_body_corruption kw ty p w w' s rest :
  is_bytes p -> is_bytes w -> is_bytes w' -> is_bytes s -> length w = length w' -> (length w <= 4)%nat -> w <> w' ->
  nlen (p ++ w ++ s) < U32 ->
  page_de kw (page_layout ty (calc_crc (p ++ w ++ s)) (nlen (p ++ w ++ s)) (p ++ w' ++ s) rest)
  = Err EDatabaseCorrupted.
Proof.
  intros Hp Hw Hw' Hs Hl H4 Hne Hlen.
  rewrite page_de_layout; [|apply calc_crc_lt; unfold is_bytes; rewrite !Forall_app; auto| |exact Hlen].
  2:{ unfold nlen. rewrite !app_length. lia. }
  rewrite (proj2 (N.eqb_neq _ _)); [reflexivity|]. intros E. symmetry in E. revert E. now apply crc_burst.
Qed.

(** Corruption of the stored checksum. *)
Lemma page_crc_corruption kw ty crc' body rest :
  is_bytes body -> nlen body < U32 -> crc' < U32 -> crc' <> calc_crc body ->
  page_de kw (page_layout ty crc' (nlen body) body rest) = Err EDatabaseCorrupted.
Proof.
  intros Hb Hl Hc Hne. rewrite page_de_layout by (assumption || reflexivity).
  rewrite (proj2 (N.eqb_neq _ _)); [reflexivity|]. congruence.
Qed.

(** Bytes after the body do not matter. *)
Lemma page_padding_irrelevant kw ty body rest rest' :
  is_bytes body -> nlen body < U32 ->
  page_de kw (page_layout ty (calc_crc body) (nlen body) body rest)
  = page_de kw (page_layout ty (calc_crc body) (nlen body) body rest').
Proof. intros Hb Hl. now rewrite !page_de_layout by (try apply calc_crc_lt; assumption || reflexivity). Qed.

(** ** The encoded body consists of bytes *)
Definition tr_bytes (t : tracking) : Prop := is_bytes (tr_source t).
Definition ev_value_bytes (v : event_value) : Prop :=
  match v with
  | Inline r => is_bytes (er_type r) /\ is_bytes (er_data r) /\ Forall is_bytes (er_tags r)
                /\ opt_ok is_bytes (er_uuid r) /\ Forall (fun kv => is_bytes kv.1 /\ is_bytes kv.2) (er_meta r)
                /\ opt_ok tr_bytes (er_tracking r)
  | Overflow ty _ tags _ uuid _ trk =>
    is_bytes ty /\ Forall is_bytes tags /\ opt_ok is_bytes uuid /\ opt_ok tr_bytes trk
  end.
(** every byte string inside the node consists of bytes *)
Definition node_bytes (n : node) : Prop :=
  match n with
  | NEvLeaf l => Forall ev_value_bytes (ev_values l)
  | NEvOverflow o => is_bytes (ov_data o)
  | NTagsLeaf l => Forall is_bytes (tl_keys l)
  | NTagsInt i => Forall is_bytes (in_keys i)
  | NTrkLeaf l => Forall is_bytes (tk_keys l)
  | NTrkInt i => Forall is_bytes (in_keys i)
  | _ => True
  end.

Lemma is_bytes_app a b : is_bytes (a ++ b) <-> is_bytes a /\ is_bytes b.
Proof. apply Forall_app. Qed.
Lemma is_bytes_nil : is_bytes []. Proof. constructor. Qed.
Lemma is_bytes_flat_map {A} (f : A -> bytes) l : (forall x, x ∈ l -> is_bytes (f x)) -> is_bytes (flat_map f l).
Proof.
  induction l as [|x l IH]; intros H; cbn [flat_map]; [constructor|]. apply is_bytes_app. split.
  - apply H; now left.
  - apply IH; intros; apply H; now right.
Qed.
Lemma is_bytes_w64s l : is_bytes (w64s l).
Proof. apply is_bytes_flat_map. intros; apply le_bytes_is_bytes. Qed.
Lemma is_bytes_w8 x : x < 256 -> is_bytes (w8 x).
Proof. intros; now constructor. Qed.
Lemma is_bytes_wstr16 s : is_bytes s -> is_bytes (wstr16 s).
Proof. intros; apply is_bytes_app; split; [apply le_bytes_is_bytes|assumption]. Qed.
Lemma is_bytes_wopt {A} (f : A -> bytes) (P : A -> Prop) o :
  (forall a, P a -> is_bytes (f a)) -> opt_ok P o -> is_bytes (wopt f o).
Proof. intros Hf; destruct o; cbn; [apply Hf|constructor]. Qed.
Lemma is_bytes_take n s : is_bytes s -> is_bytes (take n s).
Proof. apply Forall_take. Qed.
Lemma is_bytes_wkeys8 ks : keys8_ok ks = true -> Forall is_bytes ks -> is_bytes (wkeys8 ks).
Proof.
  intros Hk Hb. apply is_bytes_flat_map. intros k Hin. apply is_bytes_app. split.
  - apply is_bytes_w8. unfold keys8_ok in Hk. rewrite forallb_forall in Hk. apply N.ltb_lt, Hk. now apply elem_of_list_In.
  - rewrite Forall_forall in Hb. now apply Hb.
Qed.
Lemma is_bytes_tracking t : tr_bytes t -> is_bytes (tracking_ser t).
Proof. intros H. apply is_bytes_app; split; [now apply is_bytes_wstr16|apply le_bytes_is_bytes]. Qed.
Lemma is_bytes_tags tags : Forall is_bytes tags -> is_bytes (flat_map wstr16 tags).
Proof. intros H. apply is_bytes_flat_map. intros t Ht. rewrite Forall_forall in H. now apply is_bytes_wstr16, H. Qed.

Ltac ib := repeat first
  [ apply is_bytes_nil | apply le_bytes_is_bytes | apply is_bytes_w64s | apply is_bytes_wstr16; assumption
  | apply is_bytes_tags; assumption | (apply is_bytes_app; split) | assumption ].

Lemma ev_value_ser_bytes v : ev_value_bytes v -> is_bytes (ev_value_ser v).
Proof.
  assert (Hfl : forall a b c d, is_bytes (w8 (mk_flags a b c d))).
  { intros. apply is_bytes_w8. pose proof (mk_flags_spec a b c d). lia. }
  destruct v as [[ty data tags uuid meta trk]|ty dl tags root uuid ml trk];
    cbn [ev_value_bytes ev_value_ser er_type er_data er_tags er_uuid er_meta er_tracking].
  - intros (H1 & H2 & H3 & H4 & H5 & H6). ib; try apply Hfl.
    + eapply is_bytes_wopt; [|exact H4]. auto.
    + destruct meta as [|m meta]; [constructor|]. apply is_bytes_app; split; [apply le_bytes_is_bytes|].
      apply is_bytes_flat_map. intros kv Hin. rewrite Forall_forall in H5. destruct (H5 kv Hin). ib.
    + eapply is_bytes_wopt; [|exact H6]. apply is_bytes_tracking.
  - intros (H1 & H3 & H4 & H6). ib; try apply Hfl.
    + eapply is_bytes_wopt; [|exact H4]. auto.
    + destruct (0 <? ml); ib.
    + eapply is_bytes_wopt; [|exact H6]. apply is_bytes_tracking.
Qed.

Lemma node_ser_bytes kw n b : node_bytes n -> node_ser kw n = Ok b -> is_bytes b.
Proof.
  destruct n; cbn [node_bytes node_ser]; intros Hb E;
    try (match type of E with Ok ?x = Ok _ => assert (b = x) as -> by congruence end).
  - unfold header_ser. ib. destruct (h_tracking_root h =? 0); ib.
  - unfold fl_leaf_ser. ib. apply is_bytes_flat_map. intros; ib.
  - unfold fl_int_ser. ib.
  - unfold ev_leaf_ser. ib. apply is_bytes_flat_map. intros v Hv. rewrite Forall_forall in Hb. now apply ev_value_ser_bytes, Hb.
  - unfold u64_int_ser. ib.
  - unfold ev_overflow_ser. ib.
  - unfold tags_leaf_ser. ib; [|apply is_bytes_flat_map; intros; ib].
    apply is_bytes_flat_map. intros k Hk. rewrite Forall_forall in Hb. now apply is_bytes_take, Hb.
  - unfold tags_int_ser. ib. apply is_bytes_flat_map. intros k Hk. rewrite Forall_forall in Hb. now apply is_bytes_take, Hb.
  - unfold u64_list_ser. ib.
  - unfold u64_int_ser. ib.
  - unfold u64_list_ser. ib.
  - unfold fl_int_ser. ib.
  - unfold trk_leaf_ser in E. destruct (keys8_ok (tk_keys n)) eqn:Hk; [|discriminate].
    match type of E with Ok ?x = Ok _ => assert (b = x) as -> by congruence end.
    ib; [apply is_bytes_w8; lia|]. now apply is_bytes_wkeys8.
  - unfold trk_int_ser in E. destruct (keys8_ok (in_keys n)) eqn:Hk; [|discriminate].
    match type of E with Ok ?x = Ok _ => assert (b = x) as -> by congruence end.
    ib; [apply is_bytes_w8; lia|]. now apply is_bytes_wkeys8.
Qed.
