(** What umadb-check recovers of damaged leaves of the tag index: C106. *)
From Verif Require Import Forensic CodecProofs.
Local Open Scope N_scope.

Lemma read_bytes_eq n s : read_bytes n s = if (length s <? n)%nat then Err EDeserialization else Ok (take n s, drop n s).
Proof. unfold read_bytes, split_at. destruct (length s <? n)%nat; reflexivity. Qed.
Lemma slice_ok (i k : nat) s : (i + k <= length s)%nat -> slice_range i (i + k) s = Ok (take k (drop i s)).
Proof. intros H. unfold slice_range. rewrite (proj2 (Nat.leb_le i (i + k)%nat)), (proj2 (Nat.leb_le (i + k)%nat (length s))) by lia. cbn [andb]. replace (i + k - i)%nat with k by lia. reflexivity. Qed.

(** A leaf read by the code proper, as keys with their positions. *)
Definition entries_of (n : tags_leaf) : list (bytes * list N) := zip (tl_keys n) (map tv_positions (tl_values n)).

Lemma positions_total body (n off : nat) : (off + n * 8 <= length body)%nat -> exists ps, forensic_positions body off n = Ok ps /\ read_list read_u64 n (drop off body) = Ok (ps, drop (off + n * 8) body).
Proof.
  revert off. induction n as [|n IH]; intros off H; cbn [forensic_positions read_list].
  - exists []. split; [reflexivity|]. now rewrite Nat.mul_0_l, Nat.add_0_r.
  - rewrite slice_ok by lia. cbn [rbind]. destruct (IH (off + 8)%nat ltac:(lia)) as (ps & -> & E2). cbn [rbind]. eexists. split; [reflexivity|].
    unfold read_u64 at 1. rewrite read_bytes_eq, drop_length. rewrite (proj2 (Nat.ltb_ge _ _)) by lia. cbn [rbind]. rewrite drop_drop, E2. cbn [rbind]. do 2 f_equal. f_equal. lia.
Qed.
Lemma positions_short body (n off : nat) : (off <= length body)%nat -> (length body < off + n * 8)%nat -> exists e, read_list read_u64 n (drop off body) = Err e.
Proof.
  revert off. induction n as [|n IH]; intros off Ho H; [lia|].
  - cbn [read_list]. unfold read_u64 at 1. rewrite read_bytes_eq, drop_length. destruct (Nat.ltb_spec (length body - off) 8); cbn [rbind]; [eauto|]. rewrite drop_drop. destruct (IH (off + 8)%nat ltac:(lia) ltac:(lia)) as (e & ->). cbn. eauto.
Qed.

Lemma keys_total body (kw off : nat) (n i : nat) : (kw <= 16)%nat -> (off + (i + n) * kw <= length body)%nat ->
  exists ks, length ks = n /\ forensic_keys body kw off i n = Ok (ks, []) /\ read_list (read_tag_hash kw) n (drop (off + i * kw) body) = Ok (ks, drop (off + (i + n) * kw) body).
Proof.
  intros Hkw. revert i. induction n as [|n IH]; intros i H; cbn [forensic_keys read_list].
  - exists []. rewrite Nat.add_0_r. auto.
  - unfold forensic_key. rewrite (proj2 (Nat.leb_le _ _)) by lia. rewrite (proj2 (Nat.ltb_ge _ _)) by lia. rewrite slice_ok by lia. cbn [rbind].
    destruct (IH (S i) ltac:(lia)) as (ks & El & -> & E2). cbn [rbind app]. eexists. split; [|split; [reflexivity|]]; [cbn; congruence|].
    unfold read_tag_hash at 1. rewrite read_bytes_eq, drop_length. rewrite (proj2 (Nat.ltb_ge _ _)) by lia. cbn [rbind]. rewrite drop_drop. replace (off + i * kw + kw)%nat with (off + S i * kw)%nat by lia. rewrite E2. cbn [rbind]. do 3 f_equal. lia.
Qed.
Lemma keys_short body (kw off n : nat) : (off <= length body)%nat -> (length body < off + n * kw)%nat -> exists e, read_list (read_tag_hash kw) n (drop off body) = Err e.
Proof.
  revert off. induction n as [|n IH]; intros off Ho H; [lia|]. cbn [read_list]. unfold read_tag_hash at 1. rewrite read_bytes_eq, drop_length. destruct (Nat.ltb_spec (length body - off) kw); cbn [rbind]; [eauto|]. rewrite drop_drop.
  destruct (IH (off + kw)%nat ltac:(lia) ltac:(lia)) as (e & ->). cbn. eauto.
Qed.
(** The loop over the values and the loop of the code proper. *)
Lemma values_agree body keys (off i : nat) : (off <= length body)%nat ->
  match read_list read_tags_value (length keys) (drop off body) with
  | Ok (vs, _) => length vs = length keys /\ forensic_values body off i keys = Ok (zip keys (map tv_positions vs), [])
  | Err _ => exists es nt, forensic_values body off i keys = Ok (es, [nt])
  end.
Proof.
  revert off i. induction keys as [|k keys IH]; intros off i Ho; cbn [forensic_values read_list length]; [auto|].
  destruct (Nat.ltb_spec (length body) (off + 10)) as [Hs|Hs].
  - assert (E : exists e, read_tags_value (drop off body) = Err e); [|destruct E as (e & ->); cbn; eauto].
    unfold read_tags_value, read_u64, read_u16. rewrite read_bytes_eq, drop_length. destruct (Nat.ltb_spec (length body - off) 8); cbn [rbind]; [eauto|].
    rewrite read_bytes_eq, !drop_length. destruct (Nat.ltb_spec (length body - off - 8) 2); cbn [rbind]; [eauto|lia].
  - rewrite slice_ok by lia. cbn [rbind]. replace (off + 10)%nat with (off + 8 + 2)%nat by lia. rewrite slice_ok by lia. cbn [rbind]. set (plen := N.to_nat (le_val (take 2 (drop (off + 8) body)))).
    assert (E : read_tags_value (drop off body) = let? '(ps, s) := read_list read_u64 plen (drop (off + 8 + 2) body) in Ok (TagsValue (le_val (take 8 (drop off body))) ps, s)).
    { unfold read_tags_value, read_u64 at 1, read_u16. rewrite read_bytes_eq, drop_length, (proj2 (Nat.ltb_ge _ _)) by lia. cbn [rbind]. rewrite drop_drop, read_bytes_eq, drop_length, (proj2 (Nat.ltb_ge _ _)) by lia. cbn [rbind]. rewrite drop_drop. reflexivity. }
    rewrite E. destruct (Nat.ltb_spec (length body) (off + 8 + 2 + plen * 8)) as [Hp|Hp].
    + destruct (positions_short body plen (off + 8 + 2)%nat ltac:(lia) Hp) as (e & ->). cbn [rbind].
      destruct (positions_total body ((length body - (off + 8 + 2)) / 8) (off + 8 + 2)%nat) as (ps & -> & _); [|cbn; eauto].
      pose proof (Nat.mul_div_le (length body - (off + 8 + 2)) 8 ltac:(lia)). lia.
    + destruct (positions_total body plen (off + 8 + 2)%nat Hp) as (ps & -> & ->). cbn [rbind]. specialize (IH (off + 8 + 2 + plen * 8)%nat (S i) Hp).
      destruct (read_list read_tags_value (length keys) _) as [[vs s]|e]; cbn [rbind].
      * destruct IH as [El ->]. cbn. auto.
      * destruct IH as (es & nt & ->). cbn. eauto.
Qed.

(** The program gets through every page whatever is in it, for both widths of keys; it has something to remark exactly on those the code proper cannot read, and reads the others as that does. *)
Theorem forensic_exact body kw : (kw <= 16)%nat ->
  match tags_leaf_de kw body with
  | Ok n => forensic_parse_tags_leaf body kw = Ok (entries_of n, [])
  | Err _ => exists es nt, forensic_parse_tags_leaf body kw = Ok (es, [nt])
  end.
Proof.
  intros Hkw. unfold forensic_parse_tags_leaf, tags_leaf_de, read_u16. rewrite read_bytes_eq. destruct (Nat.ltb_spec (length body) 2) as [H2|H2]; cbn [rbind]; [eauto|].
  rewrite (slice_ok 0 2) by lia. cbn [rbind]. change (drop 0 body) with body. set (n := N.to_nat (le_val (take 2 body))).
  destruct (Nat.ltb_spec (length body) (2 + n * kw)) as [Hk|Hk].
  - destruct (keys_short body kw 2 n H2 Hk) as (e & ->). cbn. eauto.
  - destruct (keys_total body kw 2 n 0 Hkw Hk) as (ks & El & E1 & E2). rewrite E1. rewrite Nat.mul_0_l in E2. change (2 + 0)%nat with 2%nat in E2. rewrite E2. cbn [rbind]. change (0 + n)%nat with n.
    pose proof (values_agree body ks (2 + n * kw)%nat 0 Hk) as V. rewrite El in V. destruct (read_list read_tags_value n _) as [[vs s]|e]; cbn [rbind].
    + destruct V as [_ ->]. reflexivity.
    + destruct V as (es & nt & ->). cbn. eauto.
Qed.
Corollary forensic_survives bytes cur_w events : (cur_w <= 16)%nat -> exists a b, forensic_page bytes cur_w events = Ok (a, b).
Proof.
  intros Hw. unfold forensic_page. assert (H : forall body kw, (kw <= 16)%nat -> exists x, forensic_parse_tags_leaf body kw = Ok x).
  { intros body kw Hkw. pose proof (forensic_exact body kw Hkw) as H. destruct (tags_leaf_de kw body); [eauto|destruct H as (? & ? & ->); eauto]. }
  destruct (H (if (9 <=? length bytes)%nat then drop 9 bytes else bytes) cur_w Hw) as ([x1 x2] & ->). destruct (H (if (9 <=? length bytes)%nat then drop 9 bytes else bytes) 8%nat ltac:(lia)) as ([y1 y2] & ->). cbn. eauto.
Qed.

(** What is lost when a page is cut, or overwritten, from some byte on. *)
Lemma slice_prefix i j a c : (j <= length a)%nat -> slice_range i j (a ++ c) = slice_range i j a.
Proof.
  intros H. unfold slice_range. rewrite app_length. rewrite (proj2 (Nat.leb_le j (length a))), (proj2 (Nat.leb_le j (length a + length c))) by lia. destruct (Nat.leb_spec i j); cbn [andb]; [|reflexivity]. f_equal. rewrite drop_app_le by lia. rewrite take_app_le; [reflexivity|rewrite drop_length; lia].
Qed.
Lemma positions_prefix a c (n m off : nat) : (off + n * 8 <= length a)%nat -> (n <= m)%nat -> (off + m * 8 <= length (a ++ c))%nat ->
  exists ps more, forensic_positions a off n = Ok ps /\ forensic_positions (a ++ c) off m = Ok (ps ++ more).
Proof.
  revert m off. induction n as [|n IH]; intros m off Ha Hm Hac.
  - destruct (positions_total (a ++ c) m off Hac) as (ps & -> & _). exists [], ps. auto.
  - destruct m as [|m]; [lia|]. cbn [forensic_positions]. rewrite slice_prefix by lia. rewrite slice_ok by lia. cbn [rbind]. destruct (IH m (off + 8)%nat ltac:(lia) ltac:(lia) ltac:(lia)) as (ps & more & -> & ->). cbn. eauto.
Qed.
Lemma positions_len {body off n ps} : forensic_positions body off n = Ok ps -> length ps = n.
Proof.
  revert off ps. induction n as [|n IH]; intros off ps; cbn [forensic_positions]; [intros [= <-]; reflexivity|]. destruct (slice_range _ _ body); [|discriminate]. cbn [rbind]. destruct (forensic_positions body (off + 8) n) as [qs|] eqn:E; [|discriminate]. intros [= <-]. cbn. f_equal. exact (IH _ _ E).
Qed.
(** Of the pages read, the shorter shows the first entries of the longer, its last one perhaps with fewer positions. *)
Definition shows_first (ea eb : list (bytes * list N)) : Prop :=
  forall i k ps, ea !! i = Some (k, ps) -> exists qs, eb !! i = Some (k, ps ++ qs) /\ (S i < length ea -> qs = [])%nat.
Lemma shows_nil eb : shows_first [] eb.
Proof. intros i k ps H. discriminate H. Qed.
Lemma shows_cons x ea eb : shows_first ea eb -> shows_first (x :: ea) (x :: eb).
Proof.
  intros H [|i] k ps; cbn.
  - intros [= ->]. exists []. rewrite app_nil_r. auto.
  - intros Hi. destruct (H i k ps Hi) as (qs & E & Hq). exists qs. split; [exact E|]. intros Hl. apply Hq. cbn in Hl. lia.
Qed.
Lemma values_prefix a c keys (off i : nat) ea na eb nb : forensic_values a off i keys = Ok (ea, na) -> forensic_values (a ++ c) off i keys = Ok (eb, nb) -> shows_first ea eb.
Proof.
  revert off i ea na eb nb. induction keys as [|k keys IH]; intros off i ea na eb nb; cbn [forensic_values]; [intros [= <- <-] _; apply shows_nil|].
  destruct (Nat.ltb_spec (length a) (off + 10)) as [Hs|Hs]; [intros [= <- <-] _; apply shows_nil|]. rewrite app_length. rewrite (proj2 (Nat.ltb_ge (length a + length c) _)) by lia.
  rewrite !slice_prefix by lia. rewrite slice_ok by lia. cbn [rbind]. replace (off + 10)%nat with (off + 8 + 2)%nat in * by lia. rewrite slice_ok by lia. cbn [rbind]. set (plen := N.to_nat (le_val (take 2 (drop (off + 8) a)))).
  destruct (Nat.ltb_spec (length a) (off + 8 + 2 + plen * 8)) as [Hp|Hp].
  - pose proof (Nat.mul_div_le (length a - (off + 8 + 2)) 8 ltac:(lia)) as Da. pose proof (Nat.mul_div_le (length a + length c - (off + 8 + 2)) 8 ltac:(lia)) as Dc.
    assert (Hd : ((length a - (off + 8 + 2)) / 8 <= (length a + length c - (off + 8 + 2)) / 8)%nat) by (apply Nat.div_le_mono; lia).
    assert (Hone : forall ps qs more, shows_first [(k, ps)] ((k, ps ++ qs) :: more)).
    { intros ps qs more [|j] k' ps' H; cbn in H; [|discriminate H]. injection H as <- <-. exists qs. split; [reflexivity|]. cbn. lia. }
    destruct (Nat.ltb_spec (length a + length c) (off + 8 + 2 + plen * 8)) as [Hq|Hq].
    + destruct (positions_prefix a c ((length a - (off + 8 + 2)) / 8) ((length a + length c - (off + 8 + 2)) / 8) (off + 8 + 2)%nat ltac:(lia) Hd ltac:(rewrite app_length; lia)) as (ps & more & -> & ->). cbn [rbind]. intros [= <- <-] [= <- <-]. apply Hone.
    + destruct (positions_prefix a c ((length a - (off + 8 + 2)) / 8) plen (off + 8 + 2)%nat ltac:(lia) ltac:(lia) ltac:(rewrite app_length; lia)) as (ps & more & -> & ->). cbn [rbind].
      destruct (forensic_values (a ++ c) _ _ keys) as [[es nt]|]; [|discriminate]. cbn [rbind]. intros [= <- <-] [= <- <-]. apply Hone.
  - rewrite (proj2 (Nat.ltb_ge (length a + length c) _)) by lia. destruct (positions_prefix a c plen plen (off + 8 + 2)%nat Hp ltac:(lia) ltac:(rewrite app_length; lia)) as (ps & more & E1 & E2).
    pose proof (positions_len E1) as L1. pose proof (positions_len E2) as L2. rewrite app_length in L2. assert (more = []) as -> by (apply nil_length_inv; lia). rewrite app_nil_r in E2. rewrite E1, E2. cbn [rbind].
    destruct (forensic_values a _ _ keys) as [[es nt]|] eqn:Ea; [|discriminate]. cbn [rbind]. intros [= <- <-]. destruct (forensic_values (a ++ c) _ _ keys) as [[es' nt']|] eqn:Eb; [|discriminate]. cbn [rbind]. intros [= <- <-]. apply shows_cons. exact (IH _ _ _ _ _ _ Ea Eb).
Qed.
Lemma keys_prefix a c kw (off n i : nat) ks ks' : (off + (i + n) * kw <= length a)%nat -> forensic_keys a kw off i n = Ok (ks, []) -> forensic_keys (a ++ c) kw off i n = Ok (ks', []) -> ks' = ks.
Proof.
  revert i ks ks'. induction n as [|n IH]; intros i ks ks' Ho; cbn [forensic_keys]; [intros [= <-] [= <-]; reflexivity|].
  unfold forensic_key. rewrite app_length. rewrite (proj2 (Nat.leb_le _ (length a))) by lia. rewrite (proj2 (Nat.leb_le _ (length a + length c))) by lia. destruct (16 <? kw)%nat; [discriminate|]. rewrite slice_prefix by lia. destruct (slice_range _ _ a); [|discriminate]. cbn [rbind].
  destruct (forensic_keys a kw off (S i) n) as [[x y]|] eqn:Ea; [|discriminate]. destruct (forensic_keys (a ++ c) kw off (S i) n) as [[x' y']|] eqn:Eb; [|intros _; discriminate]. cbn [rbind app]. intros [= <- ->] [= <- ->]. f_equal. exact (IH (S i) _ _ ltac:(lia) Ea Eb).
Qed.
Theorem forensic_prefix a c kw ea na eb nb : (kw <= 16)%nat -> forensic_parse_tags_leaf a kw = Ok (ea, na) -> forensic_parse_tags_leaf (a ++ c) kw = Ok (eb, nb) -> shows_first ea eb.
Proof.
  intros Hkw. unfold forensic_parse_tags_leaf. rewrite app_length. destruct (Nat.ltb_spec (length a) 2) as [H2|H2]; [intros [= <- <-] _; apply shows_nil|]. rewrite (proj2 (Nat.ltb_ge (length a + length c) _)) by lia.
  rewrite slice_prefix by lia. rewrite (slice_ok 0 2) by lia. cbn [rbind]. set (n := N.to_nat (le_val (take 2 (drop 0 a)))). destruct (Nat.ltb_spec (length a) (2 + n * kw)) as [Hk|Hk]; [intros [= <- <-] _; apply shows_nil|].
  rewrite (proj2 (Nat.ltb_ge (length a + length c) _)) by lia. destruct (keys_total a kw 2 n 0 Hkw Hk) as (ks & El & E1 & E2). rewrite E1. destruct (keys_total (a ++ c) kw 2 n 0 Hkw ltac:(rewrite app_length; cbn; lia)) as (ks' & El' & E1' & E2'). rewrite E1'. cbn [rbind app].
  assert (ks' = ks) as -> by exact (keys_prefix a c kw 2 n 0 ks ks' Hk E1 E1').
  destruct (forensic_values a _ _ ks) as [[es nt]|] eqn:Ea; [|discriminate]. cbn [rbind]. intros [= <- <-]. destruct (forensic_values (a ++ c) _ _ ks) as [[es' nt']|] eqn:Eb; [|discriminate]. cbn [rbind]. intros [= <- <-]. exact (values_prefix _ _ _ _ _ _ _ _ _ Ea Eb).
Qed.
(** Of a leaf that is cut off anywhere, only what it held is reported: the first entries in full, and of one more the first positions. *)
Theorem forensic_cut kw n a c : (kw <= 16)%nat -> tags_leaf_ok kw n -> tags_leaf_ser kw n = a ++ c -> exists es notes, forensic_parse_tags_leaf a kw = Ok (es, notes) /\ shows_first es (entries_of n).
Proof.
  intros Hkw Hn E. pose proof (forensic_exact a kw Hkw) as Ha. pose proof (forensic_exact (a ++ c) kw Hkw) as Hb. rewrite <- E in Hb. rewrite (tags_leaf_rt kw n Hkw Hn) in Hb. rewrite E in Hb.
  destruct (tags_leaf_de kw a) as [n'|]; [exists (entries_of n'), []|destruct Ha as (es & nt & Ha); exists es, [nt]]; (split; [exact Ha|]); exact (forensic_prefix _ _ _ _ _ _ _ Hkw Ha Hb).
Qed.
(** Of a leaf that is damaged from some byte on, in any way, all entries that end before it are recovered. *)
Definition ser_values (vs : list tags_value) : bytes := flat_map (fun v => w64 (tv_root v) ++ w16 (nlen (tv_positions v)) ++ w64s (tv_positions v)) vs.
Lemma count_back {A} body (off : nat) (ps : list A) rest : nlen ps < U16 -> drop off body = w16 (nlen ps) ++ rest -> N.to_nat (le_val (take 2 (drop off body))) = length ps.
Proof.
  intros Hn ->. rewrite take_app_alt by reflexivity. unfold w16. rewrite le_val_bytes by (unfold as_u16; pose proof (N.mod_lt (nlen ps) 65536 ltac:(discriminate)); cbn; unfold U16 in *; lia). unfold as_u16. rewrite N.mod_small by exact Hn. unfold nlen. lia.
Qed.
Lemma values_step body v k keys rest (off i : nat) : tags_value_ok v -> (off <= length body)%nat -> drop off body = w64 (tv_root v) ++ w16 (nlen (tv_positions v)) ++ w64s (tv_positions v) ++ rest ->
  let off' := (off + 8 + 2 + length (tv_positions v) * 8)%nat in (off' <= length body)%nat /\ drop off' body = rest /\
  forensic_values body off i (k :: keys) = let? '(es, notes) := forensic_values body off' (S i) keys in Ok ((k, tv_positions v) :: es, notes).
Proof.
  intros (Hr & Hn & Hps) Ho E. cbv zeta.
  assert (Lb : (off + (10 + length (tv_positions v) * 8 + length rest))%nat = length body).
  { apply (f_equal length) in E. rewrite drop_length, !app_length in E. assert (length (w64s (tv_positions v)) = (length (tv_positions v) * 8)%nat) by (pose proof (nlen_w64s (tv_positions v)) as X; unfold nlen in X; lia). change (length (w64 (tv_root v))) with 8%nat in E. change (length (w16 (nlen (tv_positions v)))) with 2%nat in E. lia. }
  assert (E8 : drop (off + 8) body = w16 (nlen (tv_positions v)) ++ w64s (tv_positions v) ++ rest) by (rewrite <- drop_drop, E; reflexivity).
  assert (E10 : drop (off + 8 + 2) body = w64s (tv_positions v) ++ rest) by (rewrite <- drop_drop, E8; reflexivity).
  split; [lia|]. cbn [forensic_values]. rewrite (proj2 (Nat.ltb_ge _ _)) by lia. rewrite slice_ok by lia. cbn [rbind]. replace (off + 10)%nat with (off + 8 + 2)%nat by lia. rewrite slice_ok by lia. cbn [rbind].
  rewrite (count_back body (off + 8) (tv_positions v) _ Hn E8). rewrite (proj2 (Nat.ltb_ge _ _)) by lia. destruct (positions_total body (length (tv_positions v)) (off + 8 + 2)%nat ltac:(lia)) as (ps & E1 & E2). rewrite E10, read_u64s_app in E2 by auto. injection E2 as <- E2. rewrite E1. auto.
Qed.
Lemma values_damage body vs keys rest (off i : nat) : Forall tags_value_ok vs -> (length vs <= length keys)%nat -> (off <= length body)%nat -> drop off body = ser_values vs ++ rest ->
  exists more notes, forensic_values body off i keys = Ok (zip keys (map tv_positions vs) ++ more, notes).
Proof.
  revert keys off i. induction vs as [|v vs IH]; intros keys off i Hok Hl Ho E.
  - pose proof (values_agree body keys off i Ho) as V. assert (exists es notes, forensic_values body off i keys = Ok (es, notes)) as (es & notes & ->); [|exists es, notes; destruct keys; reflexivity].
    destruct (read_list _ _ _) as [[vs s]|]; [destruct V as [_ V]; eauto|destruct V as (es & nt & V); eauto].
  - apply Forall_cons in Hok as [Hv Hok]. destruct keys as [|k keys]; [cbn in Hl; lia|]. cbn [length] in Hl. cbn [ser_values flat_map] in E. rewrite <- !app_assoc in E. fold (ser_values vs) in E.
    destruct (values_step body v k keys _ off i Hv Ho E) as (Ho' & E' & ->). destruct (IH keys _ (S i) Hok ltac:(lia) Ho' E') as (more & notes & ->). cbn. eauto.
Qed.
Lemma leaf_begins kw n rest : (kw <= 16)%nat -> tags_leaf_ok kw n -> let body := w16 (nlen (tl_keys n)) ++ flat_map (take kw) (tl_keys n) ++ rest in
  let off := (2 + length (tl_keys n) * kw)%nat in (off <= length body)%nat /\ drop off body = rest /\ forensic_parse_tags_leaf body kw = let? '(es, notes) := forensic_values body off 0 (tl_keys n) in Ok (es, notes).
Proof.
  intros Hkw (H1 & H2 & H3 & H4). cbv zeta. set (body := w16 _ ++ _).
  assert (Lk : length (flat_map (take kw) (tl_keys n)) = (length (tl_keys n) * kw)%nat).
  { clear -H2 Hkw. induction H2 as [|k ks Hk _ IH]; [reflexivity|]. cbn [flat_map length]. rewrite app_length, IH, take_length. destruct Hk as [Hk _]. lia. }
  assert (Lb : (2 + length (tl_keys n) * kw <= length body)%nat) by (unfold body; rewrite !app_length, Lk; cbn [length w16 le_bytes]; lia). split; [exact Lb|].
  unfold forensic_parse_tags_leaf. rewrite (proj2 (Nat.ltb_ge _ _)) by lia. rewrite (slice_ok 0 2) by lia. cbn [rbind].
  rewrite (count_back body 0 (tl_keys n) _ H1 eq_refl). rewrite (proj2 (Nat.ltb_ge _ _)) by lia. destruct (keys_total body kw 2 (length (tl_keys n)) 0 Hkw Lb) as (ks & El & E1 & E2). rewrite E1. cbn [rbind].
  change (drop (2 + 0 * kw) body) with (flat_map (take kw) (tl_keys n) ++ rest) in E2.
  erewrite (read_list_app (read_tag_hash kw) _ (hash_ok kw)) in E2; [|intros; now apply read_hash_app|exact H2|reflexivity]. injection E2 as <- E2. split; [exact (eq_sym E2)|]. reflexivity.
Qed.
Lemma take_entries n m : take m (entries_of n) = zip (tl_keys n) (map tv_positions (take m (tl_values n))).
Proof. unfold entries_of. generalize (tl_keys n), (tl_values n), m. clear. induction l as [|k ks IH]; intros vs j; [destruct j; reflexivity|]. destruct vs as [|v vs], j as [|j]; try reflexivity. cbn. f_equal. apply IH. Qed.
Theorem forensic_damage kw n m rest : (kw <= 16)%nat -> tags_leaf_ok kw n ->
  exists es notes, forensic_parse_tags_leaf (w16 (nlen (tl_keys n)) ++ flat_map (take kw) (tl_keys n) ++ ser_values (take m (tl_values n)) ++ rest) kw = Ok (es, notes) /\ take m (entries_of n) `prefix_of` es.
Proof.
  intros Hkw Hn. destruct (leaf_begins kw n (ser_values (take m (tl_values n)) ++ rest) Hkw Hn) as (Ho & E & ->). destruct Hn as (H1 & H2 & H3 & H4).
  assert (H5 : Forall tags_value_ok (take m (tl_values n))) by (apply Forall_take; exact H4). assert (H6 : (length (take m (tl_values n)) <= length (tl_keys n))%nat) by (rewrite take_length; lia).
  destruct (values_damage _ (take m (tl_values n)) (tl_keys n) rest _ 0 H5 H6 Ho E) as (more & notes & ->). cbn [rbind]. eexists _, _. split; [reflexivity|]. exists more. now rewrite take_entries.
Qed.
(** Of a value that is cut all positions that are there are recovered. *)
Lemma values_partial body vs v keys k (off i j : nat) short : Forall tags_value_ok (vs ++ [v]) -> (off <= length body)%nat -> keys !! length vs = Some k -> (j < length (tv_positions v))%nat -> (length short < 8)%nat ->
  drop off body = ser_values vs ++ w64 (tv_root v) ++ w16 (nlen (tv_positions v)) ++ w64s (take j (tv_positions v)) ++ short ->
  forensic_values body off i keys = Ok (zip keys (map tv_positions vs) ++ [(k, take j (tv_positions v))], [PositionsTruncated (i + length vs)]).
Proof.
  revert keys off i. induction vs as [|u vs IH]; intros keys off i Hok Ho Hk Hj Hsh E; (destruct keys as [|k' keys]; [discriminate Hk|]).
  - apply Forall_cons in Hok as [(Hr & Hn & Hps) _]. cbn in Hk. injection Hk as ->. cbn [ser_values flat_map app] in E.
    assert (Lw : length (w64s (take j (tv_positions v))) = (j * 8)%nat) by (pose proof (nlen_w64s (take j (tv_positions v))) as X; unfold nlen in X; rewrite take_length in X; lia).
    assert (Lb : (off + (10 + j * 8 + length short))%nat = length body).
    { apply (f_equal length) in E. rewrite drop_length, !app_length, Lw in E. change (length (w64 (tv_root v))) with 8%nat in E. change (length (w16 (nlen (tv_positions v)))) with 2%nat in E. lia. }
    assert (E8 : drop (off + 8) body = w16 (nlen (tv_positions v)) ++ w64s (take j (tv_positions v)) ++ short) by (rewrite <- drop_drop, E; reflexivity).
    assert (E10 : drop (off + 8 + 2) body = w64s (take j (tv_positions v)) ++ short) by (rewrite <- drop_drop, E8; reflexivity).
    cbn [forensic_values]. rewrite (proj2 (Nat.ltb_ge _ _)) by lia. rewrite slice_ok by lia. cbn [rbind]. replace (off + 10)%nat with (off + 8 + 2)%nat by lia. rewrite slice_ok by lia. cbn [rbind].
    rewrite (count_back body (off + 8) (tv_positions v) _ Hn E8). rewrite (proj2 (Nat.ltb_lt _ _)) by lia.
    replace ((length body - (off + 8 + 2)) / 8)%nat with j by (apply (Nat.div_unique _ _ _ (length short)); lia).
    destruct (positions_total body j (off + 8 + 2)%nat ltac:(lia)) as (ps & E1 & E2). rewrite E10, read_u64s_app in E2; [|now apply Forall_take|rewrite take_length; lia]. injection E2 as <- _. rewrite E1. cbn. rewrite Nat.add_0_r. reflexivity.
  - cbn [app] in Hok. apply Forall_cons in Hok as [Hu Hok]. cbn in Hk. cbn [ser_values flat_map] in E. rewrite <- !app_assoc in E. fold (ser_values vs) in E.
    destruct (values_step body u k' keys _ off i Hu Ho E) as (Ho' & E' & ->). rewrite (IH keys _ (S i) Hok Ho' Hk Hj Hsh E'). cbn. rewrite Nat.add_succ_r. reflexivity.
Qed.
Theorem forensic_partial kw n m k v j short : (kw <= 16)%nat -> tags_leaf_ok kw n -> tl_keys n !! m = Some k -> tl_values n !! m = Some v -> (j < length (tv_positions v))%nat -> (length short < 8)%nat ->
  forensic_parse_tags_leaf (w16 (nlen (tl_keys n)) ++ flat_map (take kw) (tl_keys n) ++ ser_values (take m (tl_values n)) ++ w64 (tv_root v) ++ w16 (nlen (tv_positions v)) ++ w64s (take j (tv_positions v)) ++ short) kw =
    Ok (take m (entries_of n) ++ [(k, take j (tv_positions v))], [PositionsTruncated m]).
Proof.
  intros Hkw Hn Hk Hv Hj Hs. destruct (leaf_begins kw n (ser_values (take m (tl_values n)) ++ w64 (tv_root v) ++ w16 (nlen (tv_positions v)) ++ w64s (take j (tv_positions v)) ++ short) Hkw Hn) as (Ho & E & ->). destruct Hn as (H1 & H2 & H3 & H4).
  assert (Lm : length (take m (tl_values n)) = m) by (rewrite take_length; apply lookup_lt_Some in Hv; lia).
  rewrite (values_partial _ (take m (tl_values n)) v (tl_keys n) k _ 0 j short); [cbn [rbind]; rewrite take_entries, Lm; reflexivity| |exact Ho|rewrite Lm; exact Hk|exact Hj|exact Hs|exact E].
  apply Forall_app. split; [now apply Forall_take|]. apply Forall_singleton. apply (Forall_lookup_1 _ _ _ _ H4 Hv).
Qed.
(** A page as it is on the disk: nine bytes of page header, the leaf, and whatever is after it. *)
Theorem forensic_page_exact w events hdr n pad : (w <= 16)%nat -> length hdr = 9%nat -> tags_leaf_ok w n ->
  exists b, forensic_page (hdr ++ tags_leaf_ser w n ++ pad) w events = Ok (analyze_entries w events (entries_of n), b).
Proof.
  intros Hw Hh Hn. unfold forensic_page. rewrite (proj2 (Nat.leb_le _ _)) by (rewrite app_length; lia). rewrite drop_app_alt by (symmetry; exact Hh). set (body := _ ++ pad).
  pose proof (forensic_exact body 8 ltac:(lia)) as H8. unfold body at 1. unfold tags_leaf_ser. rewrite <- !app_assoc. destruct (leaf_begins w n (ser_values (tl_values n) ++ pad) Hw Hn) as (Ho & E & E'). fold (ser_values (tl_values n)). rewrite E'. clear E'. destruct Hn as (H1 & H2 & H3 & H4).
  pose proof (values_agree _ (tl_keys n) _ 0 Ho) as V. rewrite E in V. unfold ser_values in V. erewrite (read_list_app read_tags_value _ tags_value_ok) in V; [|intros; now apply read_tags_value_app|exact H4|exact H3]. destruct V as [_ V]. fold (ser_values (tl_values n)) in V. rewrite V. cbn [rbind].
  destruct (tags_leaf_de 8 body); [rewrite H8|destruct H8 as (es & nt & ->)]; cbn; eauto.
Qed.
(** The second reading is that of a leaf with keys of eight bytes. *)
Theorem forensic_page_legacy w events hdr n pad : (w <= 16)%nat -> length hdr = 9%nat -> tags_leaf_ok 8 n ->
  exists a, forensic_page (hdr ++ tags_leaf_ser 8 n ++ pad) w events = Ok (a, analyze_entries 8 events (entries_of n)).
Proof.
  intros Hw Hh Hn. destruct (forensic_page_exact 8 events hdr n pad ltac:(lia) Hh Hn) as (b & E). unfold forensic_page in *. destruct (forensic_parse_tags_leaf _ 8) as [[es nt]|]; [|discriminate]. cbn [rbind] in *.
  set (body := if (9 <=? length _)%nat then _ else _). pose proof (forensic_exact body w Hw) as H. destruct (tags_leaf_de w body); [rewrite H|destruct H as (es' & nt' & ->)]; cbn [rbind]; injection E as E _; rewrite E; eauto.
Qed.

(** ** The counts *)
(** Each key with each of its positions, in order. *)
Definition pairs (es : list (bytes * list N)) : list (bytes * N) := flat_map (fun e => map (pair (fst e)) (snd e)) es.
Definition with_event (events : N -> option (list bytes)) (x : bytes * N) : Prop := exists tags, events (snd x) = Some tags.
(** The event at the position has a tag with this key. *)
Definition right (w : nat) (events : N -> option (list bytes)) (x : bytes * N) : Prop := exists tags t, events (snd x) = Some tags /\ t ∈ tags /\ tag_to_hash w t = fst x.
Global Instance with_event_dec events x : Decision (with_event events x).
Proof. destruct (events (snd x)) as [l|] eqn:E; [left; exists l; exact E|right; intros (l & H); congruence]. Defined.
Global Instance right_dec w events x : Decision (right w events x).
Proof.
  destruct (events (snd x)) as [l|] eqn:E; [|right; intros (l & t & H & _); congruence]. destruct (decide (Exists (fun t => tag_to_hash w t = fst x) l)) as [H|H].
  - left. apply Exists_exists in H as (t & H1 & H2). exists l, t. auto.
  - right. intros (l' & t & H1 & H2 & H3). apply H. apply Exists_exists. exists t. rewrite E in H1. injection H1 as ->. auto.
Defined.
Lemma matches_right w events p kh tags : w = 8%nat \/ w = 16%nat -> hash_ok w kh -> events p = Some tags -> tag_matches w kh tags = true <-> right w events (kh, p).
Proof.
  intros Hw Hk He. unfold tag_matches. rewrite existsb_exists. unfold right. cbn [fst snd]. split.
  - intros (t & Ht & H). exists tags, t. split; [exact He|]. split; [now apply elem_of_list_In|]. destruct Hw as [-> | ->]; cbn [Nat.eqb Nat.sub replicate] in H; apply bool_decide_eq_true in H.
    + destruct Hk as [Hk1 Hk2]. unfold tag_to_hash. cbn [Nat.eqb]. rewrite <- (take_drop 8 kh), Hk2, <- H. reflexivity.
    + rewrite app_nil_r in H. rewrite <- H. symmetry. apply take_ge. unfold tag_to_hash. cbn [Nat.eqb]. destruct (v5uuid_ok t) as [H1 _]. lia.
  - intros (tags' & t & H1 & H2 & H3). rewrite He in H1. injection H1 as <-. exists t. split; [now apply elem_of_list_In|]. destruct Hw as [-> | ->]; cbn [Nat.eqb Nat.sub replicate]; apply bool_decide_eq_true.
    + rewrite <- H3. reflexivity.
    + rewrite app_nil_r, <- H3. apply take_ge. unfold tag_to_hash. cbn [Nat.eqb]. destruct (v5uuid_ok t) as [H4 _]. lia.
Qed.
Definition fits (a : analysis) (w : nat) events (l : list (bytes * N)) : Prop :=
  a_with_event a = nlen (filter (with_event events) l) /\ a_matches a = nlen (filter (right w events) l) /\ a_mismatches a = take 5 (map snd (filter (fun x => ~ right w events x) (filter (with_event events) l))).
Lemma position_fits w events a l kh p : w = 8%nat \/ w = 16%nat -> hash_ok w kh -> fits a w events l -> fits (analyze_position w events kh a p) w events (l ++ [(kh, p)]) /\ a_total (analyze_position w events kh a p) = a_total a.
Proof.
  intros Hw Hk (F1 & F2 & F3). unfold fits. rewrite !filter_app. unfold analyze_position. destruct (events p) as [tags|] eqn:E.
  - pose proof (matches_right w events p kh tags Hw Hk E) as M. rewrite (filter_cons_True (with_event events) (kh, p) []) by (exists tags; exact E). rewrite (filter_nil (with_event events)). destruct (tag_matches w kh tags).
    + rewrite (filter_cons_True (right w events) (kh, p) []) by (now apply M). rewrite (filter_cons_False (fun x => ~ right w events x) (kh, p) []) by (intros H; apply H; now apply M). cbn [a_total a_with_event a_matches a_mismatches]. rewrite !filter_nil, app_nil_r. rewrite F1, F2, F3. unfold nlen. rewrite !app_length. cbn [length]. split; [|reflexivity]. repeat split; lia.
    + assert (Hn : ~ right w events (kh, p)) by (intros H; apply M in H; discriminate H). rewrite (filter_cons_False (right w events) (kh, p) []) by exact Hn. rewrite (filter_cons_True (fun x => ~ right w events x) (kh, p) []) by exact Hn. cbn [a_total a_with_event a_matches a_mismatches]. rewrite !filter_nil, app_nil_r, map_app. split; [|reflexivity].
      split; [rewrite F1; unfold nlen; rewrite app_length; cbn [length]; lia|]. split; [exact F2|]. rewrite F3. set (x := map snd _). rewrite take_length. cbn [map snd]. destruct (Nat.ltb_spec (5 `min` length x) 5); [rewrite !take_ge by (rewrite ?app_length; cbn [length]; lia); reflexivity|]. rewrite take_app_le by lia. reflexivity.
  - rewrite (filter_cons_False (with_event events) (kh, p) []) by (intros (t & Ht); cbn in Ht; congruence). rewrite (filter_cons_False (right w events) (kh, p) []) by (intros (l' & t & Ht & _); cbn in Ht; congruence). rewrite !filter_nil, !app_nil_r. auto.
Qed.
(** The counts are what they are said to be. *)
Theorem forensic_counts w events es : w = 8%nat \/ w = 16%nat -> Forall (fun e => hash_ok w (fst e)) es ->
  let a := analyze_entries w events es in a_total a = nlen (pairs es) /\ fits a w events (pairs es).
Proof.
  intros Hw Hes. cbv zeta. unfold analyze_entries.
  assert (G : forall es a l, Forall (fun e => hash_ok w (fst e)) es -> a_total a = nlen l -> fits a w events l ->
    let a' := fold_left (fun a e => fold_left (analyze_position w events (fst e)) (snd e) (Analysis (a_total a + nlen (snd e)) (a_with_event a) (a_matches a) (a_mismatches a))) es a in
    a_total a' = nlen (l ++ pairs es) /\ fits a' w events (l ++ pairs es)).
  { clear es Hes. induction es as [|[kh ps] es IH]; intros a l Hes Ht Hf; cbn [fold_left pairs flat_map]; [rewrite app_nil_r; auto|]. apply Forall_cons in Hes as [Hk Hes]. cbn [fst snd] in *.
    assert (P : forall ps a l, fits a w events l -> fits (fold_left (analyze_position w events kh) ps a) w events (l ++ map (pair kh) ps) /\ a_total (fold_left (analyze_position w events kh) ps a) = a_total a).
    { clear -Hw Hk. induction ps as [|p ps IHp]; intros a l Hf; cbn [fold_left map]; [rewrite app_nil_r; auto|]. destruct (position_fits w events a l kh p Hw Hk Hf) as [F T]. destruct (IHp _ _ F) as [F' T']. rewrite <- app_assoc in F'. split; [exact F'|congruence]. }
    destruct (P ps (Analysis (a_total a + nlen ps) (a_with_event a) (a_matches a) (a_mismatches a)) l Hf) as [F T]. rewrite app_assoc. apply IH; [exact Hes| |exact F]. rewrite T. cbn [a_total]. rewrite Ht. unfold nlen. rewrite app_length, map_length. lia. }
  apply (G es (Analysis 0 0 0 []) [] Hes eq_refl). repeat split.
Qed.
(** So entries of which each position, if it can be read, has a tag with the key, are reported without mismatch; and one that has not is counted. *)
Corollary forensic_all_match w events es : w = 8%nat \/ w = 16%nat -> Forall (fun e => hash_ok w (fst e)) es ->
  let a := analyze_entries w events es in a_mismatches a = [] <-> (forall x, x ∈ pairs es -> with_event events x -> right w events x).
Proof.
  intros Hw Hes. cbv zeta. destruct (forensic_counts w events es Hw Hes) as (_ & _ & _ & ->). split.
  - intros H x Hx He. destruct (decide (right w events x)) as [|Hn]; [assumption|]. exfalso. assert (Hin : x ∈ filter (fun x => ~ right w events x) (filter (with_event events) (pairs es))) by (apply elem_of_list_filter; split; [exact Hn|]; apply elem_of_list_filter; auto).
    destruct (filter (fun x => ~ right w events x) _) as [|y l]; [now apply elem_of_nil in Hin|discriminate H].
  - intros H. destruct (filter (fun x => ~ right w events x) _) as [|y l] eqn:E; [reflexivity|]. exfalso. assert (Hin : y ∈ filter (fun x => ~ right w events x) (filter (with_event events) (pairs es))) by (rewrite E; now left). apply elem_of_list_filter in Hin as [H1 H2]. apply elem_of_list_filter in H2 as [H2 H3]. exact (H1 (H y H3 H2)).
Qed.
(** A leaf of two entries: whole, cut in the positions of the second, with its second entry overwritten, and with its keys cut. *)
Definition f_leaf : tags_leaf := TagsLeaf [tag_to_hash 8 [97]; tag_to_hash 8 [98]] [TagsValue 0 [1; 2]; TagsValue 0 [3; 4]].
Example forensic_example : tags_leaf_ok 8 f_leaf /\
  forensic_parse_tags_leaf (tags_leaf_ser 8 f_leaf ++ [9; 9]) 8 = Ok (entries_of f_leaf, []) /\
  forensic_parse_tags_leaf (take 65 (tags_leaf_ser 8 f_leaf)) 8 = Ok ([(tag_to_hash 8 [97], [1; 2]); (tag_to_hash 8 [98], [3])], [PositionsTruncated 1]) /\
  forensic_parse_tags_leaf (take 44 (tags_leaf_ser 8 f_leaf) ++ replicate 40 255) 8 = Ok ([(tag_to_hash 8 [97], [1; 2]); (tag_to_hash 8 [98], replicate 3 18446744073709551615)], [PositionsTruncated 1]) /\
  forensic_parse_tags_leaf (take 17 (tags_leaf_ser 8 f_leaf)) 8 = Ok ([], [NoKeys]) /\
  let events p := match p with 1 => Some [[97]] | 2 => Some [[98]; [97]] | 3 => Some [[97]] | _ => None end in
  analyze_entries 8 events (entries_of f_leaf) = Analysis 4 3 2 [3] /\ Forall (fun e => hash_ok 8 (fst e)) (entries_of f_leaf).
Proof.
  split; [split; [reflexivity|]; split; [repeat constructor|]; split; [reflexivity|]; repeat constructor|]. repeat (split; [vm_compute; reflexivity|]). repeat constructor.
Qed.
Print Assumptions forensic_exact.
Print Assumptions forensic_survives.
Print Assumptions forensic_prefix.
Print Assumptions forensic_cut.
Print Assumptions forensic_damage.
Print Assumptions forensic_partial.
Print Assumptions forensic_page_exact.
Print Assumptions forensic_page_legacy.
Print Assumptions forensic_counts.
Print Assumptions forensic_all_match.
