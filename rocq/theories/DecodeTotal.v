(** Decoding arbitrary bytes: only the two decoding errors, never a panic; and what is
    decoded is never longer than the input. *)
From Verif Require Import CodecProofs Page PageProofs.

(** [rd] either succeeds on a prefix of its input or reports a deserialization error. *)
Definition safe_reader {A} (rd : reader A) : Prop :=
  forall s, match rd s with
            | Ok (_, s') => (length s' <= length s)%nat
            | Err e => e = EDeserialization
            end.

Lemma safe_bind {A B} (rd : reader A) (k : A -> reader B) :
  safe_reader rd -> (forall a, safe_reader (k a)) ->
  safe_reader (fun s => let? '(a, s') := rd s in k a s').
Proof.
  intros H1 H2 s. specialize (H1 s). destruct (rd s) as [[a s']|e]; cbn [rbind]; [|exact H1].
  specialize (H2 a s'). destruct (k a s') as [[b s'']|e]; [lia|exact H2].
Qed.
Lemma safe_ret {A} (a : A) : safe_reader (fun s => Ok (a, s)).
Proof. intros s. cbn. lia. Qed.
Lemma safe_err {A} : safe_reader (fun _ => Err EDeserialization : res (A * bytes)).
Proof. intros s. reflexivity. Qed.
Lemma safe_if {A} (b : bool) (r1 r2 : reader A) : safe_reader r1 -> safe_reader r2 ->
  safe_reader (fun s => if b then r1 s else r2 s).
Proof. intros H1 H2 s. destruct b; [apply H1|apply H2]. Qed.

Lemma safe_read_bytes n : safe_reader (read_bytes n).
Proof.
  intros s. unfold read_bytes, split_at. destruct (length s <? n)%nat; [reflexivity|].
  rewrite drop_length. lia.
Qed.
Ltac sr := repeat first
  [ apply safe_read_bytes | apply safe_ret | apply safe_err | assumption
  | (apply safe_if) | (apply safe_bind; [|intros ?]) ].
Lemma safe_read_u8 : safe_reader read_u8. Proof. unfold read_u8. sr. Qed.
Lemma safe_read_u16 : safe_reader read_u16. Proof. unfold read_u16. sr. Qed.
Lemma safe_read_u32 : safe_reader read_u32. Proof. unfold read_u32. sr. Qed.
Lemma safe_read_u64 : safe_reader read_u64. Proof. unfold read_u64. sr. Qed.
Lemma safe_read_uuid : safe_reader read_uuid. Proof. unfold read_uuid. sr. Qed.
Lemma safe_read_string n : safe_reader (read_string n). Proof. unfold read_string. sr. Qed.
Lemma safe_read_tag_hash n : safe_reader (read_tag_hash n). Proof. unfold read_tag_hash. sr. Qed.
Lemma safe_read_list {A} (rd : reader A) n : safe_reader rd -> safe_reader (read_list rd n).
Proof. intros H. induction n as [|n IH]; cbn [read_list]; sr. Qed.
Ltac sr2 := repeat first
  [ apply safe_read_bytes | apply safe_read_u8 | apply safe_read_u16 | apply safe_read_u32 | apply safe_read_u64
  | apply safe_read_uuid | apply safe_read_string | apply safe_read_tag_hash | apply safe_read_list
  | apply safe_ret | apply safe_err | assumption
  | (apply safe_if) | (apply safe_bind; [|intros ?]) ].
Lemma safe_read_fl_value : safe_reader read_fl_value. Proof. unfold read_fl_value. sr2. Qed.
Lemma safe_read_str16 : safe_reader read_str16. Proof. unfold read_str16. sr2. Qed.
Lemma safe_read_data16 : safe_reader read_data16. Proof. unfold read_data16. sr2. Qed.
Lemma safe_read_key8 : safe_reader read_key8. Proof. unfold read_key8. sr2. Qed.
Lemma safe_read_key32 : safe_reader read_key32. Proof. unfold read_key32. sr2. Qed.
Lemma safe_read_opt {A} b (rd : reader A) : safe_reader rd -> safe_reader (read_opt b rd).
Proof. intros H. unfold read_opt. sr2. Qed.
Lemma safe_read_tags : safe_reader read_tags. Proof. unfold read_tags. sr2; apply safe_read_str16. Qed.
Lemma safe_read_meta_entry : safe_reader read_meta_entry.
Proof. unfold read_meta_entry. apply safe_bind; [apply safe_read_str16|intros ?]. apply safe_bind; [apply safe_read_str16|intros ?]. sr2. Qed.
Lemma safe_read_metadata : safe_reader read_metadata. Proof. unfold read_metadata. sr2; apply safe_read_meta_entry. Qed.
Lemma safe_read_tracking : safe_reader read_tracking.
Proof. unfold read_tracking. apply safe_bind; [apply safe_read_str16|intros ?]. sr2. Qed.
Lemma safe_read_tags_value : safe_reader read_tags_value. Proof. unfold read_tags_value. sr2. Qed.
Ltac sr3 := repeat first
  [ apply safe_read_str16 | apply safe_read_data16 | apply safe_read_tags | apply safe_read_metadata | apply safe_read_tracking
  | apply safe_read_bytes | apply safe_read_u8 | apply safe_read_u16 | apply safe_read_u32 | apply safe_read_u64
  | apply safe_read_uuid | apply safe_read_string | apply safe_read_tag_hash | apply safe_read_list
  | apply safe_read_opt | apply safe_ret | apply safe_err | assumption
  | (apply safe_if) | (apply safe_bind; [|intros ?]) ].
Lemma safe_read_ev_value : safe_reader read_ev_value.
Proof.
  unfold read_ev_value. apply safe_bind; [apply safe_read_u8|intros fl]. apply safe_if; [apply safe_err|].
  apply safe_bind; [apply safe_read_str16|intros ty]. cbv zeta. apply safe_if; sr3.
Qed.

(** A whole decoder: success or a deserialization error. *)
Definition safe_dec {A} (f : bytes -> res A) : Prop :=
  forall s, match f s with Ok _ => True | Err e => e = EDeserialization end.
Lemma safe_dec_bind {A B} (rd : reader A) (k : A -> bytes -> res B) :
  safe_reader rd -> (forall a, safe_dec (k a)) -> safe_dec (fun s => let? '(a, s') := rd s in k a s').
Proof.
  intros H1 H2 s. specialize (H1 s). destruct (rd s) as [[a s']|e]; cbn [rbind]; [|exact H1]. apply H2.
Qed.
Lemma safe_dec_ret {A} (a : A) : safe_dec (fun _ => Ok a). Proof. intros s. exact I. Qed.
Lemma safe_dec_err {A} : safe_dec (fun _ => Err EDeserialization : res A). Proof. intros s. reflexivity. Qed.
Lemma safe_dec_if {A} (b : bool) (f g : bytes -> res A) : safe_dec f -> safe_dec g -> safe_dec (fun s => if b then f s else g s).
Proof. intros H1 H2 s. destruct b; [apply H1|apply H2]. Qed.
Ltac sd := repeat first
  [ apply safe_read_u8 | apply safe_read_u16 | apply safe_read_u32 | apply safe_read_u64
  | apply safe_read_tag_hash | apply safe_read_list | apply safe_read_fl_value | apply safe_read_ev_value
  | apply safe_read_tags_value | apply safe_read_key8 | apply safe_read_key32
  | apply safe_dec_ret | apply safe_dec_err | assumption
  | (apply safe_dec_if) | (apply safe_dec_bind; [|intros ?]) ].

Lemma safe_header_de : safe_dec header_de.
Proof.
  assert (Hv : safe_reader (fun s => if (4 <=? length s)%nat then read_u32 s else Ok (0, s))).
  { intros s. destruct (4 <=? length s)%nat; [apply safe_read_u32|cbn; lia]. }
  assert (Hf : safe_reader (fun s => if (2 <=? length s)%nat then
       let? '(bits, s) := read_u16 s in if bits <? 2 then Ok (bits, s) else Err EDeserialization else Ok (0, s))).
  { intros s. destruct (2 <=? length s)%nat; [|cbn; lia].
    refine (safe_bind read_u16 (fun bits s => if bits <? 2 then Ok (bits, s) else Err EDeserialization) _ _ s).
    - apply safe_read_u16.
    - intros a. sr2. }
  unfold header_de. do 6 (apply safe_dec_bind; [apply safe_read_u64|intros ?]).
  apply (safe_dec_bind _ _ Hv); intros ver.
  apply (safe_dec_bind _ _ Hf); intros fl.
  apply (safe_dec_bind (fun s => if fl =? 1 then read_u64 s else Ok (0, s))); [|intros ?; sd].
  apply safe_if; [apply safe_read_u64|apply safe_ret].
Qed.

Lemma safe_ev_overflow_de : safe_dec ev_overflow_de.
Proof.
  unfold ev_overflow_de. apply safe_dec_bind; [apply safe_read_u64|intros nx]. intros s.
  pose proof (safe_read_bytes (length s) s) as H.
  destruct (read_bytes (length s) s) as [[d s']|e]; cbn [rbind]; [exact I|exact H].
Qed.

Lemma safe_map {A} (f : A -> node) (g : bytes -> res A) : safe_dec g -> safe_dec (fun s => res_map f (g s)).
Proof. intros H s. specialize (H s). destruct (g s); [exact I|exact H]. Qed.

Definition decode_error (e : err) : Prop := e = EDatabaseCorrupted \/ e = EDeserialization.

Lemma node_de_total kw ty s : match node_de kw ty s with Ok _ => True | Err e => decode_error e end.
Proof.
  assert (H : forall {A} (f : A -> node) g, safe_dec g ->
            match res_map f (g s) with Ok _ => True | Err e => decode_error e end).
  { intros A f g Hg. pose proof (safe_map f g Hg s) as H. destruct (res_map f (g s)); [exact I|right; exact H]. }
  unfold node_de.
  repeat match goal with |- context [if ty =? ?k then _ else _] => destruct (ty =? k); [apply H|] end;
    try (left; reflexivity);
    try apply safe_header_de; try apply safe_ev_overflow_de;
    unfold fl_leaf_de, fl_int_de, ev_leaf_de, u64_int_de, tags_leaf_de, tags_int_de, u64_list_de, trk_leaf_de, trk_int_de;
    cbv zeta; sd.
Qed.

Lemma slice_range_ok i j s : (i <= j)%nat -> (j <= length s)%nat ->
  exists b, slice_range i j s = Ok b /\ length b = (j - i)%nat.
Proof.
  intros H1 H2. unfold slice_range. rewrite (proj2 (Nat.leb_le _ _)), (proj2 (Nat.leb_le _ _)) by lia.
  cbn [andb]. eexists; split; [reflexivity|]. rewrite take_length, drop_length. lia.
Qed.

Lemma page_de_total kw s : match page_de kw s with Ok _ => True | Err e => decode_error e end.
Proof.
  unfold page_de. destruct (N.ltb_spec (nlen s) PAGE_HEADER_SIZE) as [H|H]; [left; reflexivity|].
  unfold PAGE_HEADER_SIZE, nlen in H.
  destruct (slice_range_ok 0 1 s) as (b1 & -> & _); [lia|lia|]. cbn [rbind].
  destruct (slice_range_ok 1 5 s) as (b2 & -> & _); [lia|lia|]. cbn [rbind].
  destruct (slice_range_ok 5 9 s) as (b3 & -> & _); [lia|lia|]. cbn [rbind]. cbv zeta.
  destruct (N.ltb_spec (nlen s) (PAGE_HEADER_SIZE + le_val b3)) as [H'|H']; [left; reflexivity|].
  unfold PAGE_HEADER_SIZE, nlen in H'.
  destruct (slice_range_ok 9 (9 + N.to_nat (le_val b3)) s) as (b4 & -> & _); [lia|lia|]. cbn [rbind].
  destruct (calc_crc b4 =? le_val b2); [|left; reflexivity]. apply node_de_total.
Qed.
