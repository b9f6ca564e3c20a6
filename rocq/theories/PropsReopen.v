(** Property C88: a page size other than the one the file was created with. *)
From Verif Require Import Reopen PagerProofs PageProofs CodecProofs MvccProofs SpecProofs StoreProofs Exec PropsStore PropsFindings.
Local Open Scope N_scope.

(** ** Decoding looks at the beginning of a page *)
(** The bytes of a page that count. *)
Definition page_len (b : bytes) : N := 9 + le_val (take 4 (drop 5 b)).
Lemma slice_prefix i j k b c : (i <= j)%nat -> (j <= k)%nat -> (k <= length b)%nat -> take k c = take k b -> slice_range i j c = slice_range i j b.
Proof.
  intros Hi Hj Hk E. assert (k <= length c)%nat as Hc. { apply (f_equal length) in E. rewrite !take_length in E. lia. }
  unfold slice_range. rewrite !(proj2 (Nat.leb_le _ _)) by lia. cbn [andb]. f_equal.
  rewrite !take_drop_commute. replace (i + (j - i))%nat with j by lia. f_equal.
  replace j with (j `min` k)%nat by lia. rewrite <- !take_take, E. reflexivity.
Qed.
Lemma page_de_prefix kw b c n : page_de kw b = Ok n -> take (N.to_nat (page_len b)) c = take (N.to_nat (page_len b)) b -> page_de kw c = Ok n.
Proof.
  unfold page_len. intros H E. revert H. unfold page_de. unfold PAGE_HEADER_SIZE. destruct (N.ltb_spec (nlen b) 9) as [|H9]; [discriminate|].
  assert (slice_range 5 9 b = Ok (take 4 (drop 5 b))) as E5.
  { unfold slice_range. rewrite (proj2 (Nat.leb_le 5 9)) by lia. rewrite (proj2 (Nat.leb_le _ _)) by (unfold nlen in H9; lia). reflexivity. }
  rewrite E5. set (len := le_val (take 4 (drop 5 b))) in *.
  destruct (slice_range 0 1 b) as [x1|] eqn:E1; cbn [rbind]; [|discriminate]. destruct (slice_range 1 5 b) as [x2|] eqn:E2; cbn [rbind]; [|discriminate].
  fold len. destruct (N.ltb_spec (nlen b) (9 + len)) as [|Hl]; [discriminate|].
  assert (nlen c >= 9 + len) as Hc. { apply (f_equal length) in E. rewrite !take_length in E. unfold nlen in *. lia. }
  rewrite (proj2 (N.ltb_ge (nlen c) 9)) by lia.
  rewrite (slice_prefix 0 1 (N.to_nat (9 + len)) b c), (slice_prefix 1 5 (N.to_nat (9 + len)) b c), (slice_prefix 5 9 (N.to_nat (9 + len)) b c) by (assumption || (unfold nlen in *; lia)).
  rewrite E1, E2, E5. cbn [rbind]. fold len. rewrite (proj2 (N.ltb_ge (nlen c) _)) by lia.
  rewrite (slice_prefix 9 (9 + N.to_nat len) (N.to_nat (9 + len)) b c) by (assumption || (unfold nlen in *; lia)). auto.
Qed.
Lemma page_de_long kw b n : page_de kw b = Ok n -> page_len b <= nlen b.
Proof.
  unfold page_de, page_len, PAGE_HEADER_SIZE. destruct (N.ltb_spec (nlen b) 9) as [|H9]; [discriminate|].
  assert (slice_range 5 9 b = Ok (take 4 (drop 5 b))) as E5.
  { unfold slice_range. rewrite (proj2 (Nat.leb_le 5 9)) by lia. rewrite (proj2 (Nat.leb_le _ _)) by (unfold nlen in H9; lia). reflexivity. }
  rewrite E5. destruct (slice_range 0 1 b); cbn [rbind]; [|discriminate]. destruct (slice_range 1 5 b); cbn [rbind]; [|discriminate].
  destruct (N.ltb_spec (nlen b) (9 + le_val (take 4 (drop 5 b)))); [discriminate|]. auto.
Qed.
(** A header page that was written as such needs at most 71 bytes. *)
Definition is_header_page (kw : nat) (b : bytes) : Prop := (exists h, page_de kw b = Ok (NHeader h)) /\ page_len b <= 71.
Lemma header_written kw ps h b : ps < U32 -> page_ser kw ps (NHeader h) = Ok b -> page_len b <= 71.
Proof.
  intros Hp H. destruct (page_ser_layout _ _ _ _ H) as (body & E & Hl & -> & _). cbn [node_ser] in E. injection E as <-. unfold page_len.
  assert (nlen (header_ser h) <= 62) as Hb. { rewrite header_size_eq. unfold header_size. destruct (_ =? _); lia. }
  unfold page_layout. rewrite (app_assoc [_] (w32 _)). rewrite drop_app_alt by reflexivity.
  rewrite take_app_alt by reflexivity. unfold as_u32. rewrite N.mod_small by lia. rewrite le_val_w32 by lia. lia.
Qed.

Section reopen.
  Context (kw : nat) (os : N).
  Notation open_file := (open_file kw os).
  Notation file_node := (file_node kw os).
  Notation file_put := (file_put kw os).
  Lemma file_node_dec ps f q : 0 < ps -> file_node ps f q = dec kw (page_of ps f q).
  Proof. intros H. unfold file_node. rewrite read_file_ok by exact H. change (g_ps (open_pager os ps f)) with ps. now destruct (page_of ps f q). Qed.
  (** Only the bytes of the page are changed. *)
  Lemma file_put_bytes room s f q n r f' : 0 < s -> file_put room s f q n = (r, f') ->
    f_len f <= f_len f' /\ forall i, i < f_len f -> (i < q * s \/ (q + 1) * s <= i) -> f_byte f' i = f_byte f i.
  Proof.
    intros Hs. unfold file_put. destruct (page_ser kw s n) as [b|e] eqn:E; [|intros [= <- <-]; split; [lia|auto]].
    pose proof (page_ser_nlen _ _ _ _ E) as Hb. unfold write_page_data. cbn [g_ps open_pager g_len]. rewrite Hb, N.eqb_refl. cbn [negb].
    destruct (_ && _); [intros [= <- <-]; split; [lia|auto]|].
    destruct (f_len f <? s * (q + 1)); cbn [preallocate]; intros [= <- <-].
    - split; [rewrite f_write_len by (intros ->; cbn in Hb; lia); cbn; lia|]. intros i Hi Ho. rewrite f_write_out; [now apply f_allocate_byte|lia|cbn; lia].
    - split; [rewrite f_write_len by (intros ->; cbn in Hb; lia); lia|]. intros i Hi Ho. apply f_write_out; lia.
  Qed.
  Lemma file_put_inside room s f q n b : 0 < s -> (q + 1) * s <= f_len f -> page_ser kw s n = Ok b -> file_put room s f q n = (Ok tt, f_write (q * s) b f).
  Proof.
    intros Hs Hl E. unfold file_put. rewrite E. pose proof (page_ser_nlen _ _ _ _ E) as Hb. unfold write_page_data. cbn [g_ps open_pager g_len]. rewrite Hb, N.eqb_refl. cbn [negb].
    rewrite (proj2 (N.ltb_ge _ _)) by lia. reflexivity.
  Qed.

  (** ** The right page size *)
  (** The pages of a file, all of them durable. *)
  Definition disk_of (ps : N) (f : file) : disk := Disk (page_of ps f) (fun q c => c = page_of ps f q) (fun _ => false).
  Lemma check_roots_ext r1 r2 h : (forall q, r1 q = r2 q) -> check_roots kw r1 h = check_roots kw r2 h.
  Proof. intros E. unfold check_roots. now rewrite !E. Qed.
  (** Opening a file by its bytes is what Mvcc.v says about its pages. *)
  Theorem open_file_pages room ps f : 0 < ps -> 2 * ps <= f_len f ->
    match open_file room ps f with
    | (Ok (a, b), f') => exists d' p, open_db kw ps (disk_of ps f) = Ok (d', p) /\ p_pin0 p = a /\ p_pin1 p = b /\ forall q, page_of ps f' q = d_cur d' q
    | (Err e, _) => open_db kw ps (disk_of ps f) = Err e
    end.
  Proof.
    intros Hp Hl. unfold Reopen.open_file, open_db. rewrite !(file_node_dec ps f) by exact Hp. cbn [disk_of d_cur].
    destruct (read_headers _ _) as [[[n0 n1] fx]|e] eqn:Er; cbn [rbind]; [|reflexivity].
    assert (match fx with None => True | Some (q, n) => q < 2 end) as Hq.
    { revert Er. unfold read_headers. destruct (dec kw (page_of ps f 0)), (dec kw (page_of ps f 1)); intros [= <- <- <-]; auto; lia. }
    destruct fx as [[q n]|].
    - destruct (page_ser kw ps n) as [b|e] eqn:E; [|unfold Reopen.file_put; rewrite E; reflexivity].
      rewrite (file_put_inside room ps f q n b) by (assumption || nia). cbn [rbind].
      assert (forall k, page_of ps (f_write (q * ps) b f) k = d_cur (d_write kw q b (disk_of ps f)) k) as Hk.
      { intros k. pose proof (page_ser_nlen _ _ _ _ E) as Hb. assert (b <> []) as Hne by (intros ->; cbn in Hb; lia).
        cbn [d_cur d_write disk_of]. unfold page_of at 1. rewrite f_write_len by exact Hne. rewrite N.max_l by nia.
        destruct (N.eqb_spec k q) as [->|Hne'].
        - rewrite (proj2 (N.leb_le _ _)) by nia. f_equal. replace (q * ps) with (q * ps + 0) at 1 by lia. rewrite f_write_in by lia. rewrite drop_0. apply take_ge. unfold nlen in Hb. lia.
        - unfold page_of. destruct (N.leb_spec ((k + 1) * ps) (f_len f)) as [H|H]; [|reflexivity]. f_equal. apply f_bytes_ext. intros i Hi. apply f_write_out; nia. }
      destruct (as_header n0.2) as [h0|e]; cbn [rbind]; [|reflexivity]. destruct (as_header n1.2) as [h1|e]; cbn [rbind]; [|reflexivity]. cbn [latest p_pin0 p_pin1].
      rewrite (check_roots_ext _ (fetch kw ∅ (d_write kw q b (disk_of ps f)))); [|intros k; unfold fetch; rewrite file_node_dec by exact Hp; rewrite lookup_empty, Hk; reflexivity].
      destruct (check_roots _ _ _); cbn [rbind]; [|reflexivity]. eexists _, _. split; [reflexivity|]. auto.
    - cbn [rbind]. destruct (as_header n0.2) as [h0|e]; cbn [rbind]; [|reflexivity]. destruct (as_header n1.2) as [h1|e]; cbn [rbind]; [|reflexivity]. cbn [latest p_pin0 p_pin1].
      rewrite (check_roots_ext _ (fetch kw ∅ (disk_of ps f))); [|intros k; unfold fetch; rewrite file_node_dec by exact Hp; rewrite lookup_empty; reflexivity].
      destruct (check_roots _ _ _); cbn [rbind]; [|reflexivity]. eexists _, _. split; [reflexivity|]. auto.
  Qed.

  (** ** Another page size *)
  Lemma header0_decodes ps f b0 s : 0 < ps -> page_of ps f 0 = Some b0 -> is_header_page kw b0 -> 71 <= s -> s <= f_len f -> exists h, dec kw (page_of s f 0) = Ok (NHeader h).
  Proof.
    intros Hp E0 [[h Hh] Hlen] Hs Hl. exists h. unfold page_of in *. destruct (N.leb_spec ((0 + 1) * ps) (f_len f)) as [H|]; [|discriminate]. injection E0 as <-.
    rewrite (proj2 (N.leb_le _ _)) by lia. cbn [dec]. eapply page_de_prefix; [exact Hh|]. pose proof (page_de_long _ _ _ Hh) as Hk. rewrite f_bytes_nlen in Hk.
    set (k := page_len _) in *. clearbody k.
    apply list_eq. intros i. destruct (decide (i < N.to_nat k)%nat) as [Hi|Hi].
    - rewrite !lookup_take by exact Hi. rewrite !f_bytes_lookup by lia. reflexivity.
    - rewrite !lookup_take_ge by lia. reflexivity.
  Qed.
  (** Whatever the page size: the damage is done between one and two of it. *)
  Theorem other_size_bytes room ps s f b0 r f' : 0 < ps -> page_of ps f 0 = Some b0 -> is_header_page kw b0 -> 71 <= s -> open_file room s f = (r, f') ->
    f_len f <= f_len f' /\ forall i, i < f_len f -> (i < s \/ 2 * s <= i) -> f_byte f' i = f_byte f i.
  Proof.
    intros Hp E0 Hh Hs. unfold Reopen.open_file. rewrite !(file_node_dec s f) by lia.
    destruct (N.leb_spec s (f_len f)) as [Hl|Hl].
    - destruct (header0_decodes _ _ _ _ Hp E0 Hh Hs Hl) as [h ->]. destruct (dec kw (page_of s f 1)) as [n1|e] eqn:E1; cbn [read_headers].
      + intros [= _ <-]. split; [lia|auto].
      + destruct (file_put room s f 1 (NHeader h)) as [r1 f1] eqn:Ep. destruct (file_put_bytes room s f 1 (NHeader h) _ _ ltac:(lia) Ep) as [H1 H2].
        destruct r1; intros [= _ <-]; (split; [exact H1|]); intros i Hi Ho; apply H2; lia.
    - unfold page_of. rewrite !(proj2 (N.leb_gt _ _)) by lia. cbn. intros [= _ <-]. split; [lia|auto].
  Qed.
  (** At most half of the right page size: every page means what it meant. *)
  Theorem half_size_harmless room ps s f b0 r f' : 0 < ps -> page_of ps f 0 = Some b0 -> is_header_page kw b0 -> 71 <= s -> 2 * s <= ps -> open_file room s f = (r, f') ->
    forall q n, dec kw (page_of ps f q) = Ok n -> dec kw (page_of ps f' q) = Ok n.
  Proof.
    intros Hp E0 Hh Hs H2 Ho q n Hq. destruct (other_size_bytes _ _ _ _ _ _ _ Hp E0 Hh Hs Ho) as [Hl Hb].
    unfold page_of in Hq |- *. destruct (N.leb_spec ((q + 1) * ps) (f_len f)) as [H|]; [|discriminate]. rewrite (proj2 (N.leb_le _ _)) by lia. cbn [dec] in *.
    eapply page_de_prefix; [exact Hq|]. pose proof (page_de_long _ _ _ Hq) as Hk. rewrite f_bytes_nlen in Hk.
    assert (page_len (f_bytes (q * ps) ps f) <= s \/ 0 < q) as Hc.
    { destruct (N.eq_dec q 0) as [->|]; [|right; lia]. left. unfold page_of in E0. rewrite (proj2 (N.leb_le _ _)) in E0 by lia. injection E0 as <-. destruct Hh as [_ Hh]. lia. }
    set (k := page_len _) in *. clearbody k.
    apply list_eq. intros i. destruct (decide (i < N.to_nat k)%nat) as [Hi|Hi].
    - rewrite !lookup_take by exact Hi. rewrite !f_bytes_lookup by lia. f_equal. apply Hb; [nia|]. destruct (N.eq_dec q 0) as [->|Hq0]; [left; destruct Hc; lia|right; nia].
    - rewrite !lookup_take_ge by lia. reflexivity.
  Qed.
  (** A multiple of the right page size: if the page found in place of the second header can be decoded, nothing is written. *)
  Theorem multiple_size_harmless room ps k f b0 n r f' : 0 < ps -> page_of ps f 0 = Some b0 -> is_header_page kw b0 -> 71 <= ps -> 0 < k -> 2 * (k * ps) <= f_len f ->
    dec kw (page_of ps f k) = Ok n -> open_file room (k * ps) f = (r, f') -> f' = f.
  Proof.
    intros Hp E0 Hh Hs Hk Hl Hn. unfold Reopen.open_file. rewrite !(file_node_dec (k * ps) f) by nia.
    destruct (header0_decodes _ _ _ (k * ps) Hp E0 Hh ltac:(nia) ltac:(nia)) as [h ->].
    assert (dec kw (page_of (k * ps) f 1) = Ok n) as ->; [|cbn [read_headers]; now intros [= _ <-]].
    unfold page_of in *. rewrite (proj2 (N.leb_le _ _)) by nia. destruct (N.leb_spec ((k + 1) * ps) (f_len f)) as [H|]; [|discriminate]. cbn [dec] in *.
    eapply page_de_prefix; [exact Hn|]. pose proof (page_de_long _ _ _ Hn) as Hlen. rewrite f_bytes_nlen in Hlen. set (m := page_len _) in *. clearbody m.
    apply list_eq. intros i. destruct (decide (i < N.to_nat m)%nat) as [Hi|Hi].
    - rewrite !lookup_take by exact Hi. rewrite !f_bytes_lookup by nia. f_equal. f_equal. lia.
    - rewrite !lookup_take_ge by lia. reflexivity.
  Qed.
End reopen.

(** ** What is lost *)
Lemma zeros_rejected kw b : take 9 b = replicate 9 0 -> exists e, page_de kw b = Err e.
Proof.
  intros E. destruct (page_de kw b) as [n|e] eqn:H; [|eauto]. exfalso.
  assert (page_len b = 9) as El.
  { unfold page_len. replace (take 4 (drop 5 b)) with (take 4 (drop 5 (take 9 b))); [rewrite E; reflexivity|]. rewrite (take_drop_commute (take 9 b)), (take_drop_commute b), take_take. reflexivity. }
  assert (page_de kw (replicate 9 0) = Ok n) as H0.
  { eapply page_de_prefix; [exact H|]. rewrite El. change (N.to_nat 9) with 9%nat. now rewrite E. }
  vm_compute in H0. discriminate H0.
Qed.
Lemma header_zeros kw ps h b i : page_ser kw ps (NHeader h) = Ok b -> (71 <= i)%nat -> (i < N.to_nat ps)%nat -> b !! i = Some 0.
Proof.
  intros H Hi Hl. destruct (page_ser_layout _ _ _ _ H) as (body & E & Hb & -> & Hn). cbn [node_ser] in E. injection E as <-.
  assert (nlen (header_ser h) <= 62) as Hs. { rewrite header_size_eq. unfold header_size. destruct (_ =? _); lia. }
  unfold page_layout in *. rewrite !app_assoc. rewrite lookup_app_r.
  - apply lookup_replicate. split; [reflexivity|]. rewrite !app_length. unfold PAGE_HEADER_SIZE, nlen, w32 in *. rewrite !le_bytes_length. cbn [length]. lia.
  - rewrite !app_length. unfold nlen, w32 in *. rewrite !le_bytes_length. cbn [length]. lia.
Qed.
Section lost.
  Context (kw : nat) (os : N).
  Notation open_file := (open_file kw os).
  (** If what is found in place of the second header cannot be decoded, every page that begins in the place where it is written anew is lost. *)
  Theorem pages_lost room ps s f b0 h r f' q : 0 < ps -> page_of ps f 0 = Some b0 -> page_de kw b0 = Ok (NHeader h) -> page_len b0 <= 71 -> 71 <= s -> 2 * s <= f_len f ->
    (forall n, dec kw (page_of s f 1) <> Ok n) -> open_file room s f = (r, f') -> s + 71 <= q * ps -> q * ps + 9 <= 2 * s -> 9 <= ps -> forall n, dec kw (page_of ps f' q) <> Ok n.
  Proof.
    intros Hp E0 Hh Hlen Hs Hl H1 Ho Hq1 Hq2 Hp9 n. assert (is_header_page kw b0) as Hi by (split; eauto).
    destruct (header0_decodes kw ps f b0 s Hp E0 Hi Hs ltac:(lia)) as [h' Hh'].
    revert Ho. unfold Reopen.open_file. rewrite !(file_node_dec kw os s f) by lia. rewrite Hh'. destruct (dec kw (page_of s f 1)) as [n1|e1]; [now destruct (H1 n1)|]. cbn [read_headers].
    destruct (page_ser kw s (NHeader h')) as [b|e] eqn:Eb.
    2:{ exfalso. revert Eb. unfold page_ser. cbn [node_ser rbind]. destruct (N.ltb_spec s (PAGE_HEADER_SIZE + nlen (header_ser h'))) as [Hx|]; [|discriminate].
        unfold PAGE_HEADER_SIZE in Hx. rewrite header_size_eq in Hx. unfold header_size in Hx. destruct (_ =? _) in Hx; lia. }
    rewrite (file_put_inside kw os room s f 1 _ b) by (assumption || lia). intros [= _ <-].
    pose proof (page_ser_nlen _ _ _ _ Eb) as Hb. assert (b <> []) as Hne by (intros ->; cbn in Hb; lia).
    unfold page_of. rewrite f_write_len by exact Hne. destruct (N.leb_spec ((q + 1) * ps) (N.max (f_len f) (1 * s + nlen b))) as [Hin|]; [|discriminate]. cbn [dec].
    destruct (zeros_rejected kw (f_bytes (q * ps) ps (f_write (1 * s) b f))) as [e ->]; [|discriminate].
    apply list_eq. intros i. destruct (decide (i < 9)%nat) as [Hi9|Hi9].
    - rewrite lookup_take by exact Hi9. rewrite f_bytes_lookup by lia. rewrite lookup_replicate_2 by lia. f_equal. unfold f_write. destruct b as [|x b']; [now destruct Hne|].
      cbn [f_byte]. rewrite (proj2 (N.leb_le _ _)) by lia. rewrite (proj2 (N.ltb_lt _ _)) by lia. cbn [andb]. apply nth_lookup_Some. eapply header_zeros; [exact Eb|lia|lia].
    - rewrite lookup_take_ge by lia. symmetry. apply lookup_replicate_None. lia.
  Qed.
  (** Between half and all of the right page size: the second header is always lost, and only it. *)
  Theorem second_header_lost room ps s f b0 h r f' : page_of ps f 0 = Some b0 -> page_ser kw ps (NHeader h) = Ok b0 -> page_de kw b0 = Ok (NHeader h) -> ps < U32 ->
    71 <= s -> s + 71 <= ps -> ps + 9 <= 2 * s -> 2 * ps <= f_len f -> open_file room s f = (r, f') ->
    (forall n, dec kw (page_of ps f' 1) <> Ok n) /\ forall q n, q <> 1 -> dec kw (page_of ps f q) = Ok n -> dec kw (page_of ps f' q) = Ok n.
  Proof.
    intros E0 Es Hh H32 Hs Hsp Hps Hl Ho. pose proof (header_written _ _ _ _ H32 Es) as Hlen.
    assert (forall n, dec kw (page_of s f 1) <> Ok n) as H1.
    { intros n. unfold page_of in E0 |- *. rewrite (proj2 (N.leb_le _ _)) in E0 by lia. injection E0 as E0. rewrite (proj2 (N.leb_le _ _)) by lia. cbn [dec].
      destruct (zeros_rejected kw (f_bytes (1 * s) s f)) as [e ->]; [|discriminate].
      apply list_eq. intros i. destruct (decide (i < 9)%nat) as [Hi9|Hi9].
      - rewrite lookup_take by exact Hi9. rewrite f_bytes_lookup by lia. rewrite lookup_replicate_2 by lia.
        pose proof (header_zeros _ _ _ _ (N.to_nat s + i) Es ltac:(lia) ltac:(lia)) as Hz. rewrite <- E0 in Hz. rewrite f_bytes_lookup in Hz by lia. rewrite <- Hz. f_equal. f_equal. lia.
      - rewrite lookup_take_ge by lia. symmetry. apply lookup_replicate_None. lia. }
    split.
    - eapply (pages_lost room ps s f b0 h r f' 1); eauto; lia.
    - intros q n Hq Hn. assert (is_header_page kw b0) as Hi by (split; eauto).
      destruct (other_size_bytes kw os room ps s f b0 r f' ltac:(lia) E0 Hi Hs Ho) as [Hl' Hb].
      unfold page_of in Hn |- *. destruct (N.leb_spec ((q + 1) * ps) (f_len f)) as [H|]; [|discriminate]. rewrite (proj2 (N.leb_le _ _)) by lia. cbn [dec] in *.
      eapply page_de_prefix; [exact Hn|]. pose proof (page_de_long _ _ _ Hn) as Hk. rewrite f_bytes_nlen in Hk.
      assert (page_len (f_bytes (q * ps) ps f) <= s \/ 0 < q) as Hc.
      { destruct (N.eq_dec q 0) as [->|]; [|right; lia]. left. unfold page_of in E0. rewrite (proj2 (N.leb_le _ _)) in E0 by lia. injection E0 as ->. lia. }
      set (k := page_len (f_bytes (q * ps) ps f)) in *. clearbody k.
      apply list_eq. intros i. destruct (decide (i < N.to_nat k)%nat) as [Hik|Hik].
      + rewrite !lookup_take by exact Hik. rewrite !f_bytes_lookup by lia. f_equal. apply Hb; [nia|]. destruct (N.eq_dec q 0) as [->|Hq0]; [left; destruct Hc; lia|right; nia].
      + rewrite !lookup_take_ge by lia. reflexivity.
  Qed.
End lost.

(** ** C88: two databases that were opened, or checked, with another page size *)
(** A file of [n] pages. *)
Definition file_of (ps n : N) (d : disk) : file := File (n * ps) (fun i => nth (N.to_nat (i mod ps)) (default [] (d_cur d (i / ps))) 0).
Lemma file_of_pages ps n d q b : 0 < ps -> q < n -> d_cur d q = Some b -> nlen b = ps -> page_of ps (file_of ps n d) q = Some b.
Proof.
  intros Hp Hq E Hb. unfold page_of, file_of. cbn [f_len]. rewrite (proj2 (N.leb_le _ _)) by nia. f_equal. apply list_eq. intros i.
  destruct (decide (i < N.to_nat ps)%nat) as [Hi|Hi].
  - rewrite f_bytes_lookup by exact Hi. cbn [f_byte]. replace ((q * ps + N.of_nat i) / ps) with q by (rewrite N.div_add_l, N.div_small by lia; lia).
    replace ((q * ps + N.of_nat i) mod ps) with (N.of_nat i) by (rewrite N.add_comm, N.mod_add, N.mod_small by lia; reflexivity).
    rewrite E. cbn [default from_option]. rewrite Nat2N.id. destruct (lookup_lt_is_Some_2 b i) as [x Hx]; [unfold nlen in Hb; lia|]. rewrite Hx. f_equal. now apply nth_lookup_Some.
  - rewrite !lookup_ge_None_2; [reflexivity| |rewrite f_bytes_length; lia]. unfold nlen in Hb. lia.
Qed.
Definition all_pages (ps n : N) (d : disk) : bool := forallb (fun q => match d_cur d q with Some b => nlen b =? ps | None => false end) (seqN 0 (N.to_nat n)).
Lemma all_pages_ok ps n d q : all_pages ps n d = true -> q < n -> exists b, d_cur d q = Some b /\ nlen b = ps.
Proof.
  unfold all_pages. rewrite forallb_forall. intros H Hq. specialize (H q). rewrite <- elem_of_list_In in H. assert (q ∈ seqN 0 (N.to_nat n)) as Hin by (apply elem_of_seqN; lia). specialize (H Hin).
  destruct (d_cur d q) as [b|]; [|discriminate]. exists b. split; [reflexivity|]. now apply N.eqb_eq.
Qed.
Lemma check_roots_mono kw r1 r2 h : (forall q n, r1 q = Ok n -> r2 q = Ok n) -> check_roots kw r1 h = Ok tt -> check_roots kw r2 h = Ok tt.
Proof.
  intros E. assert (forall g q, check_root g (r1 q) = Ok tt -> check_root g (r2 q) = Ok tt) as Ec.
  { intros g q. unfold check_root. destruct (r1 q) as [n|] eqn:H; [|discriminate]. now rewrite (E _ _ H). }
  unfold check_roots. destruct (_ <? _); [auto|]. destruct (negb _); [auto|].
  assert (forall x, (let? _ := (if h_schema h =? 1 then match r1 (h_tags_root h) with Ok _ => Ok tt | Err _ => Err EInit end else Ok tt) in x) = Ok tt ->
    x = Ok tt /\ (if h_schema h =? 1 then match r2 (h_tags_root h) with Ok _ => Ok tt | Err _ => Err EInit end else Ok tt) = Ok tt) as E1.
  { intros x. destruct (h_schema h =? 1); [|auto]. destruct (r1 (h_tags_root h)) as [n|] eqn:H; [|discriminate]. rewrite (E _ _ H). auto. }
  intros H. apply E1 in H as [H ->]. cbn [rbind]. revert H.
  destruct (check_root is_free_root (r1 _)) as [[]|] eqn:H1; cbn [rbind]; [|discriminate]. rewrite (Ec _ _ H1). cbn [rbind].
  destruct (check_root is_tags_root (r1 _)) as [[]|] eqn:H2; cbn [rbind]; [|discriminate]. rewrite (Ec _ _ H2). cbn [rbind].
  destruct (check_root is_ev_root (r1 _)) as [[]|] eqn:H3; cbn [rbind]; [|discriminate]. rewrite (Ec _ _ H3). cbn [rbind].
  destruct (h_tracking_root h =? 0); [auto|apply Ec].
Qed.
Lemma check_roots_needs kw r h q : check_roots kw r h = Ok tt -> q = h_free_root h \/ q = h_tags_root h \/ q = h_events_root h -> exists n, r q = Ok n.
Proof.
  unfold check_roots. destruct (_ <? _); [discriminate|]. destruct (negb _); [discriminate|].
  assert (forall g q, check_root g (r q) = Ok tt -> exists n, r q = Ok n) as Ec by (intros g k; unfold check_root; destruct (r k); [eauto|discriminate]).
  destruct (if h_schema h =? 1 then _ else _) as [[]|]; cbn [rbind]; [|discriminate].
  destruct (check_root is_free_root (r _)) as [[]|] eqn:H1; cbn [rbind]; [|discriminate].
  destruct (check_root is_tags_root (r _)) as [[]|] eqn:H2; cbn [rbind]; [|discriminate].
  destruct (check_root is_ev_root (r _)) as [[]|] eqn:H3; cbn [rbind]; [|discriminate].
  intros _ [->|[->| ->]]; eauto.
Qed.

(** A stopped database with one event: what the witnesses use of it. *)
Definition m_read (d : disk) (q : N) : res node := if q <? 2 then Err EInternal else if q <? 8 then dec 16 (d_cur d q) else Err EIo.
Definition m_good (d : disk) (h0 h1 : header) : bool :=
  all_pages 4096 8 d && (h_tsn h0 <? h_tsn h1) && bool_decide (header_head h0 = None) && bool_decide (header_head h1 = Some 1) &&
  match check_roots 16 (m_read d) h0 with Ok _ => true | Err _ => false end && match check_roots 16 (m_read d) h1 with Ok _ => true | Err _ => false end &&
  match d_cur d 0 with Some b => match page_ser 16 4096 (NHeader h0) with Ok b' => bool_decide (b = b') | Err _ => false end | None => false end &&
  match d_cur d 5 with Some b => bool_decide (take 9 (drop 512 b) = replicate 9 0) | None => false end &&
  ((6 <=? h_events_root h1) && (h_events_root h1 <? 8) && is_ok (dec 16 (d_cur d 2))).
Lemma m_found : exists tr d h0 h1, f_run tr (Sys d None) /\ LCommit [f_one] [Ok 1] ∈ tr /\ dec 16 (d_cur d 0) = Ok (NHeader h0) /\ dec 16 (d_cur d 1) = Ok (NHeader h1) /\ m_good d h0 h1 = true.
Proof.
  destruct (f_runs (x_batch [f_one] 3 ++ [ADone; ACrash]) (replicate 8 LTau ++ [LCommit [f_one] [Ok 1]; LCrash []])) as (y & H & E); [vm_compute; reflexivity|].
  assert (match f_exec (x_batch [f_one] 3 ++ [ADone; ACrash]) with
    | Some (_, Sys d None) => match dec 16 (d_cur d 0), dec 16 (d_cur d 1) with Ok (NHeader h0), Ok (NHeader h1) => m_good d h0 h1 | _, _ => false end
    | _ => false end = true) as HP by (vm_compute; reflexivity).
  rewrite E in HP. clear E. destruct y as [d [p|]]; [discriminate|].
  destruct (dec 16 (d_cur d 0)) as [[]|] eqn:E0; try discriminate. destruct (dec 16 (d_cur d 1)) as [[]|] eqn:E1; try discriminate.
  eexists _, d, _, _. split; [exact H|]. split; [set_solver|]. split; [exact E0|]. split; [exact E1|exact HP].
Qed.
Section witness.
  Context (d : disk) (h0 h1 : header) (E0 : dec 16 (d_cur d 0) = Ok (NHeader h0)) (E1 : dec 16 (d_cur d 1) = Ok (NHeader h1)) (Hg : m_good d h0 h1 = true).
  Notation m_file := (file_of 4096 16 d).
  Lemma m_props : all_pages 4096 8 d = true /\ h_tsn h0 < h_tsn h1 /\ header_head h0 = None /\ header_head h1 = Some 1 /\ check_roots 16 (m_read d) h0 = Ok tt /\ check_roots 16 (m_read d) h1 = Ok tt /\
    (exists b, d_cur d 0 = Some b /\ page_ser 16 4096 (NHeader h0) = Ok b) /\ (exists b, d_cur d 5 = Some b /\ take 9 (drop 512 b) = replicate 9 0) /\ 6 <= h_events_root h1 < 8 /\ exists n, dec 16 (d_cur d 2) = Ok n.
  Proof.
    clear E0 E1. revert Hg. unfold m_good. rewrite !andb_true_iff, !bool_decide_eq_true, N.ltb_lt, N.leb_le. intros [[[[[[[[Ha Ht] Hh0] Hh1] Hr0] Hr1] Hb] H5] He].
    destruct (check_roots 16 (m_read d) h0) as [[]|]; [|discriminate]. destruct (check_roots 16 (m_read d) h1) as [[]|]; [|discriminate].
    destruct (d_cur d 0) as [b|]; [|discriminate]. destruct (page_ser 16 4096 (NHeader h0)) as [b'|]; [|discriminate]. apply bool_decide_eq_true in Hb as ->.
    destruct (d_cur d 5) as [b5|]; [|discriminate]. apply bool_decide_eq_true in H5. destruct He as [[He1 He2] He3]. apply N.ltb_lt in He2. destruct (dec 16 (d_cur d 2)); [|discriminate]. split_and!; eauto.
  Qed.
  Lemma m_page q : q < 8 -> page_of 4096 m_file q = d_cur d q.
  Proof. intros Hq. destruct m_props as (Ha & _). destruct (all_pages_ok _ _ _ _ Ha Hq) as (b & Eb & Hb). rewrite Eb. apply file_of_pages; auto; lia. Qed.
  (** With the right page size it opens, and its head is 1. *)
  Lemma m_opens room : open_file 16 4096 room 4096 m_file = (Ok ((0, h0), (1, h1)), m_file).
  Proof.
    destruct m_props as (_ & Ht & _ & _ & _ & Hr & _). unfold Reopen.open_file. rewrite !(file_node_dec 16 4096 4096) by lia. rewrite !m_page by lia. rewrite E0, E1. cbn [read_headers as_header snd fst rbind].
    unfold latest_of. cbn [snd]. rewrite (proj2 (N.ltb_lt _ _) Ht). cbn [snd].
    erewrite check_roots_mono; [reflexivity| |exact Hr]. intros q n. unfold m_read. destruct (q <? 2); [discriminate|]. destruct (N.ltb_spec q 8); [|discriminate].
    intros Hn. rewrite file_node_dec by lia. now rewrite m_page.
  Qed.
  (** 3072 instead: afterwards it opens with the first header, and there is no event. *)
  Lemma m_lost room r f' : open_file 16 4096 room 3072 m_file = (r, f') -> exists f'', open_file 16 4096 room 4096 f' = (Ok ((0, h0), (0, h0)), f'').
  Proof.
    intros Ho. destruct m_props as (_ & Ht & _ & _ & Hr & _ & (b & Eb & Es) & _).
    assert (page_of 4096 m_file 0 = Some b) as P0 by (rewrite m_page by lia; exact Eb). assert (page_de 16 b = Ok (NHeader h0)) as D0 by (rewrite Eb in E0; exact E0).
    destruct (second_header_lost 16 4096 room 4096 3072 m_file b h0 r f' P0 Es D0 f_ps32 ltac:(lia) ltac:(lia) ltac:(lia) ltac:(cbn; lia) Ho) as [H1 H2].
    assert (is_header_page 16 b) as Hh by (split; [eauto|exact (header_written _ _ _ _ f_ps32 Es)]).
    destruct (other_size_bytes 16 4096 room 4096 3072 m_file b r f' ltac:(lia) P0 Hh ltac:(lia) Ho) as [Hl _]. cbn [file_of f_len] in Hl.
    unfold Reopen.open_file at 1. rewrite !(file_node_dec 16 4096 4096) by lia.
    rewrite (H2 0 (NHeader h0)) by (lia || (rewrite P0; exact D0)). destruct (dec 16 (page_of 4096 f' 1)) as [n|e] eqn:E; [now destruct (H1 n)|]. cbn [read_headers].
    destruct (page_ser 16 4096 (NHeader h0)) as [b1|e1] eqn:Eb1; [|discriminate]. rewrite (file_put_inside 16 4096 room 4096 f' 1 _ b1) by (assumption || lia).
    cbn [as_header snd fst rbind]. unfold latest_of. cbn [snd]. rewrite N.ltb_irrefl. cbn [snd]. eexists.
    erewrite check_roots_mono; [reflexivity| |exact Hr]. intros q n. unfold m_read. destruct (N.ltb_spec q 2); [discriminate|]. destruct (N.ltb_spec q 8); [|discriminate].
    intros Hn. rewrite file_node_dec by lia. rewrite <- m_page in Hn by assumption. pose proof (H2 q n ltac:(lia) Hn) as Hn'. pose proof (page_ser_nlen _ _ _ _ Eb1) as Hb1.
    destruct (page_of 4096 f' q) as [bq|] eqn:Eq; [|discriminate]. erewrite page_of_keep; [exact Hn'|exact Eq|rewrite f_write_len by (intros ->; cbn in Hb1; lia); lia|].
    intros i Hi Hil. apply f_write_out; lia.
  Qed.
  (** 20992 instead: afterwards it cannot be opened. *)
  Lemma m_dead room r f' : open_file 16 4096 room 20992 m_file = (r, f') -> exists e, open_file 16 4096 room 4096 f' = (Err e, f').
  Proof.
    intros Ho. destruct m_props as (_ & Ht & _ & _ & _ & _ & (b & Eb & Es) & (b5 & E5 & Hz) & He & _).
    assert (page_of 4096 m_file 0 = Some b) as P0 by (rewrite m_page by lia; exact Eb). assert (page_de 16 b = Ok (NHeader h0)) as D0 by (rewrite Eb in E0; exact E0).
    assert (is_header_page 16 b) as Hh by (split; [eauto|exact (header_written _ _ _ _ f_ps32 Es)]).
    destruct (other_size_bytes 16 4096 room 4096 20992 m_file b r f' ltac:(lia) P0 Hh ltac:(lia) Ho) as [Hl Hb]. cbn [file_of f_len] in Hl.
    assert (forall q, q < 5 -> page_of 4096 f' q = d_cur d q) as Hlow.
    { intros q Hq. rewrite <- m_page by lia. destruct (page_of 4096 m_file q) as [bq|] eqn:Eq.
      - eapply page_of_keep; [exact Eq|cbn; lia|]. intros i Hi Hil. apply Hb; [exact Hil|lia].
      - exfalso. unfold page_of in Eq. cbn [file_of f_len] in Eq. rewrite (proj2 (N.leb_le _ _)) in Eq by lia. discriminate. }
    unfold Reopen.open_file at 1. rewrite !(file_node_dec 16 4096 4096) by lia. rewrite !Hlow by lia. rewrite E0, E1. cbn [read_headers as_header snd fst rbind].
    unfold latest_of. cbn [snd]. rewrite (proj2 (N.ltb_lt _ _) Ht). cbn [snd].
    destruct (check_roots 16 _ h1) as [[]|e] eqn:Ec; [|cbn [rbind]; eauto]. exfalso.
    apply (check_roots_needs _ _ _ (h_events_root h1)) in Ec as [n Hn]; [|auto]. rewrite (proj2 (N.ltb_ge _ _)) in Hn by lia. rewrite file_node_dec in Hn by lia. revert Hn.
    apply (pages_lost 16 4096 room 4096 20992 m_file b h0 r f'); try assumption; try (cbn; lia); try lia.
    - exact (header_written _ _ _ _ f_ps32 Es).
    - intros n'. unfold page_of. cbn [file_of f_len]. rewrite (proj2 (N.leb_le _ _)) by lia. cbn [dec].
      destruct (zeros_rejected 16 (f_bytes (1 * 20992) 20992 m_file)) as [e ->]; [|discriminate]. rewrite <- Hz. apply list_eq. intros i. destruct (decide (i < 9)%nat) as [Hi9|Hi9].
      + rewrite !lookup_take by exact Hi9. rewrite f_bytes_lookup by lia. rewrite lookup_drop. pose proof (m_page 5 ltac:(lia)) as P5. rewrite E5 in P5. unfold page_of in P5.
        cbn [file_of f_len] in P5. rewrite (proj2 (N.leb_le _ _)) in P5 by lia. injection P5 as P5. rewrite <- P5. rewrite f_bytes_lookup by lia. f_equal. f_equal. lia.
      + rewrite !lookup_take_ge by lia. reflexivity.
  Qed.
End witness.
(** A database with one acknowledged event is stopped.  The tool that only checks is run on it with page size 3072, or 20992, both of which it accepts.
    After the first the event is gone, after the second the database cannot be opened. *)
Theorem other_page_size_refuted : exists tr d f, f_run tr (Sys d None) /\ LCommit [f_one] [Ok 1] ∈ tr /\ (forall q, q < 8 -> page_of 4096 f q = d_cur d q) /\
  (exists a b, open_file 16 4096 true 4096 f = (Ok (a, b), f) /\ header_head (latest_of a b).2 = Some 1) /\
  tool_accepts 3072 = true /\ tool_accepts 20992 = true /\
  (exists a b f', open_file 16 4096 true 4096 (open_file 16 4096 true 3072 f).2 = (Ok (a, b), f') /\ header_head (latest_of a b).2 = None) /\
  (exists e f', open_file 16 4096 true 4096 (open_file 16 4096 true 20992 f).2 = (Err e, f')).
Proof.
  destruct m_found as (tr & d & h0 & h1 & H & Hc & E0 & E1 & Hg). destruct (m_props d h0 h1 Hg) as (_ & Ht & Hh0 & Hh1 & _).
  exists tr, d, (file_of 4096 16 d). split; [exact H|]. split; [exact Hc|]. split; [intros q Hq; eapply m_page; eauto|].
  split; [exists (0, h0), (1, h1); split; [now apply m_opens|]; unfold latest_of; cbn [snd]; rewrite (proj2 (N.ltb_lt _ _) Ht); exact Hh1|]. split; [reflexivity|]. split; [reflexivity|].
  split.
  - destruct (open_file 16 4096 true 3072 (file_of 4096 16 d)) as [r f'] eqn:Ho. destruct (m_lost d h0 h1 E0 Hg _ _ _ Ho) as [f'' Hf]. exists (0, h0), (0, h0), f''.
    split; [exact Hf|]. unfold latest_of. cbn [snd]. rewrite N.ltb_irrefl. exact Hh0.
  - destruct (open_file 16 4096 true 20992 (file_of 4096 16 d)) as [r f'] eqn:Ho. destruct (m_dead d h0 h1 E0 E1 Hg _ _ _ Ho) as [e Hf]. exists e, f'. exact Hf.
Qed.
(** The theorems about harmless sizes apply to it. *)
Example half_applies : exists f b0, page_of 4096 f 0 = Some b0 /\ is_header_page 16 b0 /\ 71 <= 2048 /\ 2 * 2048 <= 4096 /\ 2 * (2 * 4096) <= f_len f /\ exists n, dec 16 (page_of 4096 f 2) = Ok n.
Proof.
  destruct m_found as (tr & d & h0 & h1 & H & Hc & E0 & E1 & Hg). destruct (m_props d h0 h1 Hg) as (Ha & _ & _ & _ & _ & _ & (b & Eb & Es) & _ & _ & H2).
  exists (file_of 4096 16 d), b. split; [rewrite (m_page d h0 h1 Hg) by lia; exact Eb|].
  split; [split; [exists h0; rewrite Eb in E0; exact E0|exact (header_written _ _ _ _ f_ps32 Es)]|]. split; [lia|]. split; [lia|]. split; [cbn; lia|].
  rewrite (m_page d h0 h1 Hg) by lia. exact H2.
Qed.

Print Assumptions open_file_pages.
Print Assumptions other_size_bytes.
Print Assumptions half_size_harmless.
Print Assumptions multiple_size_harmless.
Print Assumptions pages_lost.
Print Assumptions second_header_lost.
Print Assumptions other_page_size_refuted.
