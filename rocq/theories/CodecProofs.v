(** Proofs about the node codecs: round trips, sizes. *)
From Verif Require Import Nodes.

(** Well-formed node contents: what fits the length and integer fields. *)
Definition u64_ok (x : N) : Prop := x < U64.
Definition str16_ok (s : bytes) : Prop := nlen s < U16 /\ utf8_ok s = true.
Definition key8_ok (s : bytes) : Prop := nlen s < 256 /\ utf8_ok s = true.
Definition uuid_ok (s : bytes) : Prop := length s = 16%nat.
(** a 16 byte hash whose bytes beyond the on-disk width are zero *)
Definition hash_ok (kw : nat) (s : bytes) : Prop :=
  length s = 16%nat /\ drop kw s = replicate (16 - kw) 0.
Definition tracking_ok (t : tracking) : Prop := str16_ok (tr_source t) /\ u64_ok (tr_pos t).
Definition meta_ok (m : list (bytes * bytes)) : Prop :=
  nlen m < U16 /\ Forall (fun kv => str16_ok kv.1 /\ str16_ok kv.2) m.
Definition tags_ok (tags : list bytes) : Prop := nlen tags < U16 /\ Forall str16_ok tags.
Definition opt_ok {A} (P : A -> Prop) (o : option A) : Prop := match o with Some a => P a | None => True end.

Definition header_ok (h : header) : Prop :=
  u64_ok (h_tsn h) /\ u64_ok (h_free_root h) /\ u64_ok (h_events_root h) /\ u64_ok (h_tags_root h)
  /\ u64_ok (h_next_page h) /\ u64_ok (h_next_pos h) /\ h_schema h < U32 /\ u64_ok (h_tracking_root h).
Definition u64s_ok (l : list N) : Prop := nlen l < U16 /\ Forall u64_ok l.
Definition fl_value_ok (v : fl_value) : Prop := u64s_ok (fv_page_ids v) /\ u64_ok (fv_root v).
Definition fl_leaf_ok (n : fl_leaf) : Prop :=
  u64s_ok (fl_keys n) /\ length (fl_values n) = length (fl_keys n) /\ Forall fl_value_ok (fl_values n).
Definition fl_int_ok (n : inode N) : Prop := u64s_ok (in_keys n) /\ u64s_ok (in_children n).
Definition ev_value_ok (v : event_value) : Prop :=
  match v with
  | Inline r => str16_ok (er_type r) /\ nlen (er_data r) < U16 /\ tags_ok (er_tags r)
                /\ opt_ok uuid_ok (er_uuid r) /\ meta_ok (er_meta r) /\ opt_ok tracking_ok (er_tracking r)
  | Overflow ty dl tags root uuid ml trk =>
    str16_ok ty /\ u64_ok dl /\ tags_ok tags /\ u64_ok root /\ opt_ok uuid_ok uuid /\ u64_ok ml
    /\ opt_ok tracking_ok trk
  end.
Definition ev_leaf_ok (n : ev_leaf) : Prop :=
  u64s_ok (ev_keys n) /\ length (ev_values n) = length (ev_keys n) /\ Forall ev_value_ok (ev_values n).
Definition u64_int_ok (n : inode N) : Prop :=
  u64s_ok (in_keys n) /\ length (in_children n) = S (length (in_keys n)) /\ Forall u64_ok (in_children n).
Definition tags_value_ok (v : tags_value) : Prop := u64_ok (tv_root v) /\ u64s_ok (tv_positions v).
Definition tags_leaf_ok (kw : nat) (n : tags_leaf) : Prop :=
  nlen (tl_keys n) < U16 /\ Forall (hash_ok kw) (tl_keys n)
  /\ length (tl_values n) = length (tl_keys n) /\ Forall tags_value_ok (tl_values n).
Definition tags_int_ok (kw : nat) (n : inode bytes) : Prop :=
  nlen (in_keys n) < U16 /\ Forall (hash_ok kw) (in_keys n)
  /\ length (in_children n) = S (length (in_keys n)) /\ Forall u64_ok (in_children n).
Definition trk_leaf_ok (n : trk_leaf) : Prop :=
  nlen (tk_keys n) < U16 /\ Forall key8_ok (tk_keys n)
  /\ length (tk_values n) = length (tk_keys n) /\ Forall u64_ok (tk_values n).
Definition trk_int_ok (n : inode bytes) : Prop :=
  nlen (in_keys n) < U16 /\ Forall key8_ok (in_keys n)
  /\ length (in_children n) = S (length (in_keys n)) /\ Forall u64_ok (in_children n).

Definition node_ok (kw : nat) (n : node) : Prop :=
  match n with
  | NHeader h => header_ok h
  | NFreeLeaf n => fl_leaf_ok n
  | NFreeInt n | NTsnInt n => fl_int_ok n
  | NEvLeaf n => ev_leaf_ok n
  | NEvInt n | NTagInt n => u64_int_ok n
  | NEvOverflow n => u64_ok (ov_next n)
  | NTagsLeaf n => tags_leaf_ok kw n
  | NTagsInt n => tags_int_ok kw n
  | NTagLeaf l | NTsnLeaf l => u64s_ok l
  | NTrkLeaf n => trk_leaf_ok n
  | NTrkInt n => trk_int_ok n
  end.

(** ** Readers undo writers *)
Lemma read_bytes_app n a r : length a = n -> read_bytes n (a ++ r) = Ok (a, r).
Proof.
  intros <-. unfold read_bytes, split_at.
  rewrite !(proj2 (Nat.ltb_ge _ _)) by (rewrite app_length; lia).
  now rewrite take_app, drop_app.
Qed.

Lemma read_u16_app x r : x < U16 -> read_u16 (w16 x ++ r) = Ok (x, r).
Proof.
  intros Hx. unfold read_u16, w16, as_u16. rewrite read_bytes_app by apply le_bytes_length. cbn [rbind].
  rewrite N.mod_small by exact Hx. now rewrite le_val_bytes.
Qed.
Lemma read_u32_app x r : x < U32 -> read_u32 (w32 x ++ r) = Ok (x, r).
Proof.
  intros Hx. unfold read_u32, w32. rewrite read_bytes_app by apply le_bytes_length. cbn [rbind].
  now rewrite le_val_bytes.
Qed.
Lemma read_u64_app x r : u64_ok x -> read_u64 (w64 x ++ r) = Ok (x, r).
Proof.
  intros Hx. unfold read_u64, w64. rewrite read_bytes_app by apply le_bytes_length. cbn [rbind].
  now rewrite le_val_bytes.
Qed.
Lemma read_u8_app x r : read_u8 (w8 x ++ r) = Ok (x, r).
Proof.
  unfold read_u8, w8. rewrite read_bytes_app by reflexivity. cbn [rbind le_val]. do 2 f_equal. lia.
Qed.
Lemma read_u8_cons x r : read_u8 (x :: r) = Ok (x, r).
Proof. apply (read_u8_app x r). Qed.
Lemma read_string_app s r : utf8_ok s = true -> read_string (length s) (s ++ r) = Ok (s, r).
Proof.
  intros Hs. unfold read_string. rewrite read_bytes_app by reflexivity. cbn [rbind]. now rewrite Hs.
Qed.
Lemma to_nat_nlen {A} (l : list A) : N.to_nat (nlen l) = length l.
Proof. unfold nlen. lia. Qed.

Lemma read_str16_app s r : str16_ok s -> read_str16 (wstr16 s ++ r) = Ok (s, r).
Proof.
  intros [Hl Hu]. unfold read_str16, wstr16. rewrite <- app_assoc, read_u16_app by exact Hl.
  cbn [rbind]. rewrite to_nat_nlen. now apply read_string_app.
Qed.
Lemma read_data16_app s r : nlen s < U16 -> read_data16 (wstr16 s ++ r) = Ok (s, r).
Proof.
  intros Hl. unfold read_data16, wstr16. rewrite <- app_assoc, read_u16_app by exact Hl.
  cbn [rbind]. rewrite to_nat_nlen. now apply read_bytes_app.
Qed.
Lemma read_key8_app s r : key8_ok s -> read_key8 (w8 (nlen s) ++ s ++ r) = Ok (s, r).
Proof.
  intros [Hl Hu]. unfold read_key8. rewrite read_u8_app. cbn [rbind]. rewrite to_nat_nlen.
  now apply read_string_app.
Qed.

Lemma read_list_app {A} (rd : reader A) (wr : A -> bytes) (P : A -> Prop) (l : list A) n r :
  (forall x r, P x -> rd (wr x ++ r) = Ok (x, r)) ->
  Forall P l -> length l = n -> read_list rd n (flat_map wr l ++ r) = Ok (l, r).
Proof.
  intros Hrd Hl <-. induction Hl as [|x l Hx Hl IH]; [reflexivity|].
  cbn [flat_map length read_list]. rewrite <- app_assoc, Hrd by exact Hx. cbn [rbind].
  rewrite IH. reflexivity.
Qed.
Lemma read_u64s_app l n r : Forall u64_ok l -> length l = n -> read_list read_u64 n (w64s l ++ r) = Ok (l, r).
Proof. intros Hl Hn. eapply read_list_app; eauto. intros; now apply read_u64_app. Qed.

Lemma read_hash_app kw k r : (kw <= 16)%nat -> hash_ok kw k -> read_tag_hash kw (take kw k ++ r) = Ok (k, r).
Proof.
  intros Hkw [Hl Hz]. unfold read_tag_hash. rewrite read_bytes_app by (rewrite take_length; lia).
  cbn [rbind]. rewrite <- Hz. now rewrite take_drop.
Qed.

Ltac step H := rewrite ?app_assoc_reverse; rewrite H; cbn [rbind]; rewrite ?to_nat_nlen.

Lemma read_end {A} (f : bytes -> A) (s : bytes) : f s = f (s ++ []).
Proof. now rewrite app_nil_r. Qed.

Lemma header_rt h : header_ok h -> header_de (header_ser h) = Ok h.
Proof.
  intros (H1 & H2 & H3 & H4 & H5 & H6 & H7 & H8).
  destruct h as [tsn fr er tr np npos sv trk]; cbn [h_tsn h_free_root h_events_root h_tags_root h_next_page h_next_pos h_schema h_tracking_root] in *.
  unfold header_de, header_ser; cbn [h_tsn h_free_root h_events_root h_tags_root h_next_page h_next_pos h_schema h_tracking_root].
  do 6 (rewrite read_u64_app by assumption; cbn [rbind]).
  set (tail := if trk =? 0 then [] else _).
  assert (E : (4 <=? length (w32 sv ++ tail))%nat = true).
  { apply Nat.leb_le. unfold w32. rewrite app_length, le_bytes_length. lia. }
  rewrite E, read_u32_app by assumption. cbn [rbind]. subst tail.
  destruct (N.eqb_spec trk 0) as [->|Hn].
  - reflexivity.
  - assert (E2 : (2 <=? length (w16 1 ++ w64 trk))%nat = true).
    { apply Nat.leb_le. unfold w16. rewrite app_length, le_bytes_length. lia. }
    rewrite E2, read_u16_app by (unfold U16; lia). cbn [rbind].
    change (1 <? 2) with true. cbn [rbind]. change (1 =? 1) with true.
    rewrite (read_end read_u64), read_u64_app by assumption. reflexivity.
Qed.

Lemma read_fl_value_app v r :
  fl_value_ok v -> read_fl_value ((w16 (nlen (fv_page_ids v)) ++ w64s (fv_page_ids v) ++ w64 (fv_root v)) ++ r) = Ok (v, r).
Proof.
  intros [[Hn Hl] Hr]. unfold read_fl_value. destruct v as [ids root]; cbn [fv_page_ids fv_root] in *.
  rewrite <- !app_assoc. rewrite read_u16_app by assumption. cbn [rbind]. rewrite to_nat_nlen.
  rewrite read_u64s_app by auto. cbn [rbind]. rewrite read_u64_app by assumption. reflexivity.
Qed.

Lemma fl_leaf_rt n : fl_leaf_ok n -> fl_leaf_de (fl_leaf_ser n) = Ok n.
Proof.
  intros ([Hn Hk] & Hlen & Hv). destruct n as [ks vs]; cbn [fl_keys fl_values] in *.
  unfold fl_leaf_de, fl_leaf_ser; cbn [fl_keys fl_values].
  rewrite read_u16_app by assumption. cbn [rbind]. rewrite to_nat_nlen.
  rewrite read_u64s_app by auto. cbn [rbind].
  rewrite (read_end (read_list _ _)).
  erewrite read_list_app; [reflexivity| |exact Hv|exact Hlen].
  intros; now apply read_fl_value_app.
Qed.

Lemma fl_int_rt n : fl_int_ok n -> fl_int_de (fl_int_ser n) = Ok n.
Proof.
  intros ([Hn Hk] & [Hm Hc]). destruct n as [ks cs]; cbn [in_keys in_children] in *.
  unfold fl_int_de, fl_int_ser; cbn [in_keys in_children].
  rewrite read_u16_app by assumption. cbn [rbind]. rewrite to_nat_nlen.
  rewrite read_u64s_app by auto. cbn [rbind].
  rewrite read_u16_app by assumption. cbn [rbind]. rewrite to_nat_nlen.
  rewrite (read_end (read_list _ _)), read_u64s_app by auto. reflexivity.
Qed.

Lemma u64_list_rt l : u64s_ok l -> u64_list_de (u64_list_ser l) = Ok l.
Proof.
  intros [Hn Hk]. unfold u64_list_de, u64_list_ser.
  rewrite read_u16_app by assumption. cbn [rbind]. rewrite to_nat_nlen.
  rewrite (read_end (read_list _ _)), read_u64s_app by auto. reflexivity.
Qed.

Lemma u64_int_rt n : u64_int_ok n -> u64_int_de (u64_int_ser n) = Ok n.
Proof.
  intros ([Hn Hk] & Hlen & Hc). destruct n as [ks cs]; cbn [in_keys in_children] in *.
  unfold u64_int_de, u64_int_ser; cbn [in_keys in_children].
  rewrite read_u16_app by assumption. cbn [rbind]. rewrite to_nat_nlen.
  rewrite read_u64s_app by auto. cbn [rbind].
  rewrite (read_end (read_list _ _)), read_u64s_app by auto. reflexivity.
Qed.

Lemma read_meta_app m r : meta_ok m -> read_metadata (meta_ser m ++ r) = Ok (m, r).
Proof.
  intros [Hn Hm]. unfold read_metadata, meta_ser. rewrite <- app_assoc, read_u16_app by assumption.
  cbn [rbind]. rewrite to_nat_nlen. eapply read_list_app; [|exact Hm|reflexivity].
  intros [k v] r' [Hk Hv]; cbn [fst snd] in *. unfold read_meta_entry.
  rewrite <- app_assoc, read_str16_app by assumption. cbn [rbind].
  rewrite read_str16_app by assumption. reflexivity.
Qed.
Lemma meta_rt m : meta_ok m -> meta_de (meta_ser m) = Ok m.
Proof. intros H. unfold meta_de. rewrite (read_end read_metadata), read_meta_app by assumption. reflexivity. Qed.

Lemma read_tracking_app t r : tracking_ok t -> read_tracking (tracking_ser t ++ r) = Ok (t, r).
Proof.
  intros [Hs Hp]. destruct t as [s p]; unfold read_tracking, tracking_ser; cbn [tr_source tr_pos] in *.
  rewrite <- app_assoc, read_str16_app by assumption. cbn [rbind].
  rewrite read_u64_app by assumption. reflexivity.
Qed.
Lemma read_tags_app tags r : tags_ok tags -> read_tags (w16 (nlen tags) ++ flat_map wstr16 tags ++ r) = Ok (tags, r).
Proof.
  intros [Hn Ht]. unfold read_tags. rewrite read_u16_app by assumption. cbn [rbind]. rewrite to_nat_nlen.
  eapply read_list_app; [|exact Ht|reflexivity]. intros; now apply read_str16_app.
Qed.
Lemma read_opt_app {A} (rd : reader A) (wr : A -> bytes) (P : A -> Prop) o r :
  (forall x r, P x -> rd (wr x ++ r) = Ok (x, r)) -> opt_ok P o ->
  read_opt (is_someb o) rd (wopt wr o ++ r) = Ok (o, r).
Proof.
  intros Hrd Ho. destruct o as [a|]; cbn [is_someb wopt opt_ok read_opt] in *; [|reflexivity].
  unfold read_opt. rewrite Hrd by exact Ho. reflexivity.
Qed.
Lemma read_uuid_app u r : uuid_ok u -> read_uuid (id u ++ r) = Ok (u, r).
Proof. intros H. now apply read_bytes_app. Qed.

Lemma mk_flags_spec a b c d :
  mk_flags a b c d < 16 /\ N.testbit (mk_flags a b c d) 0 = a /\ N.testbit (mk_flags a b c d) 1 = b
  /\ N.testbit (mk_flags a b c d) 2 = c /\ N.testbit (mk_flags a b c d) 3 = d.
Proof. destruct a, b, c, d; repeat split; reflexivity. Qed.

Lemma read_ev_value_app v r : ev_value_ok v -> read_ev_value (ev_value_ser v ++ r) = Ok (v, r).
Proof.
  destruct v as [[ty data tags uuid meta trk]|ty dl tags root uuid ml trk]; cbn [ev_value_ok ev_value_ser].
  - cbn [er_type er_data er_tags er_uuid er_meta er_tracking]. intros (Hty & Hd & Ht & Hu & Hm & Hk).
    unfold read_ev_value. rewrite <- !app_assoc, read_u8_app. cbn [rbind].
    pose proof (mk_flags_spec false (is_someb uuid) (negb (is_nilb meta)) (is_someb trk)) as (F & F0 & F1 & F2 & F3).
    rewrite (proj2 (N.leb_gt _ _)) by exact F. rewrite F0, F1, F2, F3. cbn [negb].
    rewrite read_str16_app by assumption. cbn [rbind].
    rewrite read_data16_app by assumption. cbn [rbind].
    rewrite read_tags_app by assumption. cbn [rbind].
    rewrite (read_opt_app read_uuid id uuid_ok) by (try assumption; intros; now apply read_uuid_app). cbn [rbind].
    destruct meta as [|m meta]; cbn [is_nilb negb].
    + cbn [rbind app].
      rewrite (read_opt_app read_tracking tracking_ser tracking_ok) by (try assumption; intros; now apply read_tracking_app).
      reflexivity.
    + rewrite read_meta_app by assumption. cbn [rbind].
      rewrite (read_opt_app read_tracking tracking_ser tracking_ok) by (try assumption; intros; now apply read_tracking_app).
      reflexivity.
  - intros (Hty & Hd & Ht & Hr & Hu & Hm & Hk).
    unfold read_ev_value. rewrite <- !app_assoc, read_u8_app. cbn [rbind].
    pose proof (mk_flags_spec true (is_someb uuid) (0 <? ml) (is_someb trk)) as (F & F0 & F1 & F2 & F3).
    rewrite (proj2 (N.leb_gt _ _)) by exact F. rewrite F0, F1, F2, F3. cbn [negb].
    rewrite read_str16_app by assumption. cbn [rbind].
    rewrite read_u64_app by assumption. cbn [rbind].
    rewrite read_tags_app by assumption. cbn [rbind].
    rewrite read_u64_app by assumption. cbn [rbind].
    rewrite (read_opt_app read_uuid id uuid_ok) by (try assumption; intros; now apply read_uuid_app). cbn [rbind].
    destruct (N.ltb_spec 0 ml) as [Hml|Hml].
    + rewrite read_u64_app by assumption. cbn [rbind].
      rewrite (read_opt_app read_tracking tracking_ser tracking_ok) by (try assumption; intros; now apply read_tracking_app).
      reflexivity.
    + cbn [rbind app].
      rewrite (read_opt_app read_tracking tracking_ser tracking_ok) by (try assumption; intros; now apply read_tracking_app).
      cbn [rbind]. replace ml with 0 by lia. reflexivity.
Qed.

Lemma ev_leaf_rt n : ev_leaf_ok n -> ev_leaf_de (ev_leaf_ser n) = Ok n.
Proof.
  intros ([Hn Hk] & Hlen & Hv). destruct n as [ks vs]; cbn [ev_keys ev_values] in *.
  unfold ev_leaf_de, ev_leaf_ser; cbn [ev_keys ev_values].
  rewrite read_u16_app by assumption. cbn [rbind]. rewrite to_nat_nlen.
  rewrite read_u64s_app by auto. cbn [rbind].
  rewrite (read_end (read_list _ _)).
  erewrite read_list_app; [reflexivity| |exact Hv|exact Hlen].
  intros; now apply read_ev_value_app.
Qed.

Lemma ev_overflow_rt n : u64_ok (ov_next n) -> ev_overflow_de (ev_overflow_ser n) = Ok n.
Proof.
  intros Hn. destruct n as [nx d]; cbn [ov_next ov_data] in *. unfold ev_overflow_de, ev_overflow_ser; cbn [ov_next ov_data].
  rewrite read_u64_app by assumption. cbn [rbind].
  rewrite (read_end (read_bytes _)), read_bytes_app by reflexivity. reflexivity.
Qed.

Lemma read_tags_value_app v r :
  tags_value_ok v -> read_tags_value ((w64 (tv_root v) ++ w16 (nlen (tv_positions v)) ++ w64s (tv_positions v)) ++ r) = Ok (v, r).
Proof.
  intros [Hr [Hn Hl]]. unfold read_tags_value. destruct v as [root ps]; cbn [tv_root tv_positions] in *.
  rewrite <- !app_assoc. rewrite read_u64_app by assumption. cbn [rbind].
  rewrite read_u16_app by assumption. cbn [rbind]. rewrite to_nat_nlen.
  rewrite read_u64s_app by auto. reflexivity.
Qed.

Lemma tags_leaf_rt kw n : (kw <= 16)%nat -> tags_leaf_ok kw n -> tags_leaf_de kw (tags_leaf_ser kw n) = Ok n.
Proof.
  intros Hkw (Hn & Hk & Hlen & Hv). destruct n as [ks vs]; cbn [tl_keys tl_values] in *.
  unfold tags_leaf_de, tags_leaf_ser; cbn [tl_keys tl_values].
  rewrite read_u16_app by assumption. cbn [rbind]. rewrite to_nat_nlen.
  erewrite (read_list_app (read_tag_hash kw) _ (hash_ok kw)); [|intros; now apply read_hash_app|exact Hk|reflexivity]. cbn [rbind].
  rewrite (read_end (read_list _ _)).
  erewrite read_list_app; [reflexivity| |exact Hv|exact Hlen].
  intros; now apply read_tags_value_app.
Qed.

Lemma tags_int_rt kw n : (kw <= 16)%nat -> tags_int_ok kw n -> tags_int_de kw (tags_int_ser kw n) = Ok n.
Proof.
  intros Hkw (Hn & Hk & Hlen & Hv). destruct n as [ks cs]; cbn [in_keys in_children] in *.
  unfold tags_int_de, tags_int_ser; cbn [in_keys in_children].
  rewrite read_u16_app by assumption. cbn [rbind]. rewrite to_nat_nlen.
  erewrite (read_list_app (read_tag_hash kw) _ (hash_ok kw)); [|intros; now apply read_hash_app|exact Hk|reflexivity]. cbn [rbind].
  rewrite (read_end (read_list _ _)), read_u64s_app by auto. reflexivity.
Qed.

Lemma keys8_forall ks : Forall key8_ok ks -> keys8_ok ks = true.
Proof.
  intros H. unfold keys8_ok. apply forallb_forall. intros k Hk. rewrite Forall_forall in H.
  apply N.ltb_lt. apply H. now apply elem_of_list_In.
Qed.

Lemma trk_leaf_rt n : trk_leaf_ok n -> exists b, trk_leaf_ser n = Ok b /\ trk_leaf_de b = Ok n.
Proof.
  intros (Hn & Hk & Hlen & Hv). destruct n as [ks vs]; cbn [tk_keys tk_values] in *.
  unfold trk_leaf_ser; cbn [tk_keys tk_values]. rewrite keys8_forall by assumption.
  eexists; split; [reflexivity|]. unfold trk_leaf_de.
  rewrite read_u8_app. cbn [rbind]. change (1 =? 0) with false.
  rewrite read_u16_app by assumption. cbn [rbind]. rewrite to_nat_nlen. unfold wkeys8.
  erewrite (read_list_app read_key8 _ key8_ok); [|intros x r Hx; rewrite <- app_assoc; now apply read_key8_app|exact Hk|reflexivity]. cbn [rbind].
  rewrite (read_end (read_list _ _)), read_u64s_app by auto. reflexivity.
Qed.

Lemma trk_int_rt n : trk_int_ok n -> exists b, trk_int_ser n = Ok b /\ trk_int_de b = Ok n.
Proof.
  intros (Hn & Hk & Hlen & Hv). destruct n as [ks cs]; cbn [in_keys in_children] in *.
  unfold trk_int_ser; cbn [in_keys in_children]. rewrite keys8_forall by assumption.
  eexists; split; [reflexivity|]. unfold trk_int_de.
  rewrite read_u8_app. cbn [rbind]. change (1 =? 0) with false.
  rewrite read_u16_app by assumption. cbn [rbind]. rewrite to_nat_nlen. unfold wkeys8.
  erewrite (read_list_app read_key8 _ key8_ok); [|intros x r Hx; rewrite <- app_assoc; now apply read_key8_app|exact Hk|reflexivity]. cbn [rbind].
  rewrite (read_end (read_list _ _)), read_u64s_app by auto. reflexivity.
Qed.

(** Round trip for every node kind. *)
Lemma node_rt kw n : (kw <= 16)%nat -> node_ok kw n ->
  exists b, node_ser kw n = Ok b /\ node_de kw (type_byte n) b = Ok n.
Proof.
  intros Hkw Hn. destruct n; cbn [node_ok node_ser type_byte] in *.
  1-12: eexists; split; [reflexivity|]; unfold node_de.
  - cbn [N.eqb Pos.eqb]. now rewrite header_rt.
  - cbn [N.eqb Pos.eqb]. now rewrite fl_leaf_rt.
  - cbn [N.eqb Pos.eqb]. now rewrite fl_int_rt.
  - cbn [N.eqb Pos.eqb]. now rewrite ev_leaf_rt.
  - cbn [N.eqb Pos.eqb]. now rewrite u64_int_rt.
  - cbn [N.eqb Pos.eqb]. now rewrite ev_overflow_rt.
  - cbn [N.eqb Pos.eqb]. now rewrite tags_leaf_rt.
  - cbn [N.eqb Pos.eqb]. now rewrite tags_int_rt.
  - cbn [N.eqb Pos.eqb]. now rewrite u64_list_rt.
  - cbn [N.eqb Pos.eqb]. now rewrite u64_int_rt.
  - cbn [N.eqb Pos.eqb]. now rewrite u64_list_rt.
  - cbn [N.eqb Pos.eqb]. now rewrite fl_int_rt.
  - destruct (trk_leaf_rt n Hn) as (b & E & D). exists b; split; [exact E|]. unfold node_de. cbn [N.eqb Pos.eqb]. now rewrite D.
  - destruct (trk_int_rt n Hn) as (b & E & D). exists b; split; [exact E|]. unfold node_de. cbn [N.eqb Pos.eqb]. now rewrite D.
Qed.

(** ** Sizes *)
Lemma nlen_w16 x : nlen (w16 x) = 2. Proof. unfold nlen, w16. now rewrite le_bytes_length. Qed.
Lemma nlen_w32 x : nlen (w32 x) = 4. Proof. unfold nlen, w32. now rewrite le_bytes_length. Qed.
Lemma nlen_w64 x : nlen (w64 x) = 8. Proof. unfold nlen, w64. now rewrite le_bytes_length. Qed.
Lemma nlen_w8 x : nlen (w8 x) = 1. Proof. reflexivity. Qed.
Lemma nlen_flat_map {A} (f : A -> bytes) l : nlen (flat_map f l) = foldr (fun x acc => nlen (f x) + acc) 0 l.
Proof. induction l as [|x l IH]; [reflexivity|]. cbn [flat_map foldr]. now rewrite nlen_app, IH. Qed.
Lemma nlen_w64s l : nlen (w64s l) = nlen l * 8.
Proof.
  unfold w64s. rewrite nlen_flat_map. induction l as [|x l IH]; [reflexivity|].
  cbn [foldr]. rewrite IH, nlen_w64, nlen_cons. lia.
Qed.
Lemma nlen_wstr16 s : nlen (wstr16 s) = 2 + nlen s.
Proof. unfold wstr16. now rewrite nlen_app, nlen_w16. Qed.
Lemma foldr_ext_forall {A} (f g : A -> N -> N) l :
  (forall x acc, x ∈ l -> f x acc = g x acc) -> foldr f 0 l = foldr g 0 l.
Proof.
  induction l as [|x l IH]; intros H; [reflexivity|]. cbn [foldr].
  rewrite IH by (intros; apply H; now right). apply H. now left.
Qed.
Lemma foldr_le_forall {A} (f g : A -> N) l :
  (forall x, x ∈ l -> f x <= g x) -> foldr (fun x acc => f x + acc) 0 l <= foldr (fun x acc => g x + acc) 0 l.
Proof.
  induction l as [|x l IH]; intros H; [reflexivity|]. cbn [foldr].
  specialize (IH ltac:(intros; apply H; now right)). pose proof (H x ltac:(now left)). lia.
Qed.

Lemma header_size_eq h : nlen (header_ser h) = header_size h.
Proof.
  unfold header_ser, header_size. rewrite !nlen_app, !nlen_w64, nlen_w32.
  destruct (h_tracking_root h =? 0); rewrite ?nlen_app, ?nlen_w16, ?nlen_w64; reflexivity.
Qed.
Lemma fl_leaf_size_eq n : nlen (fl_leaf_ser n) = fl_leaf_size n.
Proof.
  unfold fl_leaf_ser, fl_leaf_size. rewrite !nlen_app, nlen_w16, nlen_w64s, nlen_flat_map.
  rewrite <- N.add_assoc. do 2 f_equal. apply foldr_ext_forall. intros v acc _.
  rewrite !nlen_app, nlen_w16, nlen_w64s, nlen_w64. lia.
Qed.
Lemma fl_int_size_eq n : nlen (fl_int_ser n) = fl_int_size n.
Proof. unfold fl_int_ser, fl_int_size. rewrite !nlen_app, !nlen_w16, !nlen_w64s. lia. Qed.
Lemma u64_list_size_eq l : nlen (u64_list_ser l) = u64_list_size l.
Proof. unfold u64_list_ser, u64_list_size. rewrite nlen_app, nlen_w16, nlen_w64s. lia. Qed.
Lemma u64_int_size_eq n : nlen (u64_int_ser n) = u64_int_size n.
Proof. unfold u64_int_ser, u64_int_size. rewrite !nlen_app, !nlen_w16, !nlen_w64s. lia. Qed.
Lemma ev_overflow_size_eq n : nlen (ev_overflow_ser n) = ev_overflow_size n.
Proof. unfold ev_overflow_ser, ev_overflow_size. now rewrite nlen_app, nlen_w64. Qed.
Lemma meta_size_eq m : nlen (meta_ser m) = meta_size m.
Proof.
  unfold meta_ser, meta_size. rewrite nlen_app, nlen_w16, nlen_flat_map. f_equal.
  apply foldr_ext_forall. intros kv acc _. rewrite nlen_app, !nlen_wstr16. lia.
Qed.
Lemma tags_size_eq tags : nlen (flat_map wstr16 tags) = tags_size tags.
Proof. rewrite nlen_flat_map. unfold tags_size. apply foldr_ext_forall. intros t acc _. now rewrite nlen_wstr16. Qed.
Lemma nlen_wopt {A} (f : A -> bytes) (g : A -> N) o k :
  (forall a, o = Some a -> nlen (f a) + k = g a) -> nlen (wopt f o) + (if is_someb o then k else 0) = opt_size g o.
Proof. intros H. destruct o as [a|]; cbn [wopt is_someb opt_size]; [now apply H|reflexivity]. Qed.

Definition ev_value_tracked (v : event_value) : bool :=
  match v with Inline r => is_someb (er_tracking r) | Overflow _ _ _ _ _ _ t => is_someb t end.

(** Exactly two bytes too many are counted for an event carrying tracking info. *)
Lemma ev_value_size_eq v : ev_value_ok v ->
  nlen (ev_value_ser v) + (if ev_value_tracked v then 2 else 0) = ev_value_size v.
Proof.
  destruct v as [[ty data tags uuid meta trk]|ty dl tags root uuid ml trk];
    cbn [ev_value_ok ev_value_ser ev_value_size ev_value_tracked er_type er_data er_tags er_uuid er_meta er_tracking].
  - intros (_ & _ & _ & Hu & _ & _).
    rewrite !nlen_app, nlen_w8, !nlen_wstr16, nlen_w16, tags_size_eq.
    pose proof (nlen_wopt id (fun _ => 16) uuid 0) as Eu.
    rewrite <- Eu by (intros a ->; cbn in Hu; unfold uuid_ok in Hu; unfold nlen, id; rewrite Hu; reflexivity).
    pose proof (nlen_wopt tracking_ser (fun t => 4 + nlen (tr_source t) + 8) trk 2) as Et.
    rewrite <- Et by (intros a _; unfold tracking_ser; rewrite nlen_app, nlen_wstr16, nlen_w64; lia).
    destruct meta as [|m meta]; [|rewrite meta_size_eq]; destruct (is_someb uuid); rewrite ?nlen_nil; lia.
  - intros (_ & _ & _ & _ & Hu & _ & _).
    rewrite !nlen_app, nlen_w8, !nlen_wstr16, nlen_w16, tags_size_eq, !nlen_w64.
    pose proof (nlen_wopt id (fun _ => 16) uuid 0) as Eu.
    rewrite <- Eu by (intros a ->; cbn in Hu; unfold uuid_ok in Hu; unfold nlen, id; rewrite Hu; reflexivity).
    pose proof (nlen_wopt tracking_ser (fun t => 4 + nlen (tr_source t) + 8) trk 2) as Et.
    rewrite <- Et by (intros a _; unfold tracking_ser; rewrite nlen_app, nlen_wstr16, nlen_w64; lia).
    destruct (0 <? ml); rewrite ?nlen_w64, ?nlen_nil; destruct (is_someb uuid); lia.
Qed.

Lemma ev_leaf_size_ge n : Forall ev_value_ok (ev_values n) -> nlen (ev_leaf_ser n) <= ev_leaf_size n.
Proof.
  intros Hv. unfold ev_leaf_ser, ev_leaf_size. rewrite !nlen_app, nlen_w16, nlen_w64s, nlen_flat_map.
  pose proof (foldr_le_forall (fun v => nlen (ev_value_ser v)) ev_value_size (ev_values n)) as H.
  assert (forall x, x ∈ ev_values n -> nlen (ev_value_ser x) <= ev_value_size x).
  { intros x Hx. rewrite Forall_forall in Hv. pose proof (ev_value_size_eq x (Hv x Hx)). lia. }
  specialize (H H0). lia.
Qed.

Lemma tags_leaf_size_eq kw n : Forall (fun k => (kw <= length k)%nat) (tl_keys n) ->
  nlen (tags_leaf_ser kw n) = tags_leaf_size kw n.
Proof.
  intros Hk. unfold tags_leaf_ser, tags_leaf_size. rewrite !nlen_app, nlen_w16, !nlen_flat_map.
  replace (foldr (fun x acc => nlen (take kw x) + acc) 0 (tl_keys n)) with (nlen (tl_keys n) * N.of_nat kw).
  2:{ induction Hk as [|k ks Hk Hks IH]; [reflexivity|]. cbn [foldr]. rewrite <- IH, nlen_cons.
      unfold nlen. rewrite take_length. lia. }
  rewrite <- N.add_assoc. do 2 f_equal. apply foldr_ext_forall. intros v acc _.
  rewrite !nlen_app, nlen_w16, nlen_w64s, nlen_w64. lia.
Qed.
Lemma tags_int_size_eq kw n : Forall (fun k => (kw <= length k)%nat) (in_keys n) ->
  nlen (tags_int_ser kw n) = tags_int_size kw n.
Proof.
  intros Hk. unfold tags_int_ser, tags_int_size. rewrite !nlen_app, nlen_w16, nlen_flat_map, nlen_w64s.
  replace (foldr (fun x acc => nlen (take kw x) + acc) 0 (in_keys n)) with (nlen (in_keys n) * N.of_nat kw).
  2:{ induction Hk as [|k ks Hk Hks IH]; [reflexivity|]. cbn [foldr]. rewrite <- IH, nlen_cons.
      unfold nlen. rewrite take_length. lia. }
  lia.
Qed.
Lemma nlen_wkeys8 ks : nlen (wkeys8 ks) = foldr (fun k acc => 1 + nlen k + acc) 0 ks.
Proof.
  unfold wkeys8. rewrite nlen_flat_map. apply foldr_ext_forall. intros k acc _. rewrite nlen_app, nlen_w8. lia.
Qed.
Lemma trk_leaf_size_eq n b : trk_leaf_ser n = Ok b -> nlen b = trk_leaf_size n.
Proof.
  unfold trk_leaf_ser, trk_leaf_size. destruct (keys8_ok _); [|discriminate].
  remember (w8 1 ++ _) as x eqn:Ex. intros [= <-]. subst x.
  rewrite !nlen_app, nlen_w8, nlen_w16, nlen_wkeys8, nlen_w64s. lia.
Qed.
Lemma trk_int_size_eq n b : length (in_children n) = S (length (in_keys n)) ->
  trk_int_ser n = Ok b -> nlen b = trk_int_size n.
Proof.
  intros Hl. unfold trk_int_ser, trk_int_size. destruct (keys8_ok _); [|discriminate].
  remember (w8 1 ++ _) as x eqn:Ex. intros [= <-]. subst x.
  rewrite !nlen_app, nlen_w8, nlen_w16, nlen_wkeys8, nlen_w64s. unfold nlen. rewrite Hl. lia.
Qed.

Lemma hash_ok_len kw ks : (kw <= 16)%nat -> Forall (hash_ok kw) ks -> Forall (fun k => (kw <= length k)%nat) ks.
Proof. intros Hkw Hf. eapply Forall_impl; [exact Hf|]. intros k [H _]. cbn. lia. Qed.

Lemma node_size_ge kw n b : (kw <= 16)%nat -> node_ok kw n -> node_ser kw n = Ok b -> nlen b <= node_size kw n.
Proof.
  intros Hkw Hn. destruct n; cbn [node_ok node_ser node_size] in *; try (intros [= <-]).
  - now rewrite header_size_eq.
  - now rewrite fl_leaf_size_eq.
  - now rewrite fl_int_size_eq.
  - apply ev_leaf_size_ge. apply Hn.
  - now rewrite u64_int_size_eq.
  - now rewrite ev_overflow_size_eq.
  - rewrite tags_leaf_size_eq; [reflexivity|]. destruct Hn as (_ & Hk & _). now apply hash_ok_len.
  - rewrite tags_int_size_eq; [reflexivity|]. destruct Hn as (_ & Hk & _). now apply hash_ok_len.
  - now rewrite u64_list_size_eq.
  - now rewrite u64_int_size_eq.
  - now rewrite u64_list_size_eq.
  - now rewrite fl_int_size_eq.
  - intros H. now rewrite (trk_leaf_size_eq _ _ H).
  - intros H. rewrite (trk_int_size_eq _ _ ltac:(apply Hn) H). reflexivity.
Qed.

(** The calculated size is exact, except for 2 bytes per event with tracking info. *)
Definition no_tracked (n : node) : Prop :=
  match n with NEvLeaf l => Forall (fun v => ev_value_tracked v = false) (ev_values l) | _ => True end.
Lemma node_size_exact kw n b : (kw <= 16)%nat -> node_ok kw n -> no_tracked n ->
  node_ser kw n = Ok b -> nlen b = node_size kw n.
Proof.
  intros Hkw Hn Ht. destruct n; cbn [node_ok node_ser node_size] in *; try (intros [= <-]).
  - now rewrite header_size_eq.
  - now rewrite fl_leaf_size_eq.
  - now rewrite fl_int_size_eq.
  - destruct Hn as (_ & _ & Hv). cbn in Ht. unfold ev_leaf_ser, ev_leaf_size.
    rewrite !nlen_app, nlen_w16, nlen_w64s, nlen_flat_map. rewrite <- N.add_assoc. do 2 f_equal.
    apply foldr_ext_forall. intros v acc Hin. rewrite Forall_forall in Hv, Ht.
    pose proof (ev_value_size_eq v (Hv v Hin)). rewrite (Ht v Hin) in *. lia.
  - now rewrite u64_int_size_eq.
  - now rewrite ev_overflow_size_eq.
  - rewrite tags_leaf_size_eq; [reflexivity|]. destruct Hn as (_ & Hk & _). now apply hash_ok_len.
  - rewrite tags_int_size_eq; [reflexivity|]. destruct Hn as (_ & Hk & _). now apply hash_ok_len.
  - now rewrite u64_list_size_eq.
  - now rewrite u64_int_size_eq.
  - now rewrite u64_list_size_eq.
  - now rewrite fl_int_size_eq.
  - apply trk_leaf_size_eq.
  - apply trk_int_size_eq. apply Hn.
Qed.
