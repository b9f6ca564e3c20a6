(** Lemmas about Pager.v. *)
From Verif Require Export Pager.
From Verif Require Import PageProofs.
Local Open Scope N_scope.

Lemma gcd_loop_ok fuel a b : (N.to_nat b < fuel)%nat -> gcd_loop fuel a b = N.gcd a b.
Proof.
  revert a b. induction fuel as [|k IH]; intros a b H; [lia|]. cbn [gcd_loop]. destruct (N.eqb_spec b 0) as [->|Hb]; [now rewrite N.gcd_0_r|].
  pose proof (N.mod_upper_bound a b Hb). rewrite IH by lia. rewrite N.gcd_comm, N.gcd_mod by exact Hb. apply N.gcd_comm.
Qed.
Lemma gcd_ok a b : gcd a b = N.gcd a b. Proof. apply gcd_loop_ok. lia. Qed.
Lemma div_ceil_ge a b : 0 < b -> a <= div_ceil a b * b.
Proof.
  intros Hb. unfold div_ceil. pose proof (N.div_mod (a + b - 1) b ltac:(lia)) as H. pose proof (N.mod_upper_bound (a + b - 1) b ltac:(lia)). lia.
Qed.
Lemma window_aligned os ps : 0 < os -> 0 < ps -> (os | pages_per_map os ps * ps).
Proof.
  intros Ho Hp. unfold pages_per_map. rewrite gcd_ok. set (g := N.gcd os ps). destruct (N.gcd_divide_l os ps) as [x Hx], (N.gcd_divide_r os ps) as [y Hy]. fold g in Hx, Hy.
  assert (0 < g) by (destruct (N.eq_dec g 0); [subst g; lia|lia]).
  assert (os / g = x) as -> by (rewrite Hx; apply N.div_mul; lia). assert (0 < x) by nia. rewrite N.max_r by lia.
  match goal with |- context [N.max 1 ?k] => set (m := N.max 1 k) end. clearbody m g. exists (m * y). rewrite Hx, Hy. ring.
Qed.
Lemma window_large os ps : 0 < os -> 0 < ps -> MIN_WINDOW <= pages_per_map os ps * ps.
Proof.
  intros Ho Hp. unfold pages_per_map. set (al := N.max 1 (os / gcd os ps)). pose proof (div_ceil_ge MIN_WINDOW ps Hp) as H.
  destruct (N.eqb_spec (div_ceil MIN_WINDOW ps) 0) as [E|E]; [unfold MIN_WINDOW in *; lia|].
  pose proof (div_ceil_ge (div_ceil MIN_WINDOW ps) al ltac:(unfold al; lia)) as H2. set (mp := div_ceil MIN_WINDOW ps) in *. set (k := div_ceil mp al) in *. clearbody mp k al.
  assert (k <= N.max 1 k) by lia. set (m := N.max 1 k) in *. clearbody m. transitivity (mp * ps); [lia|]. apply N.mul_le_mono_r. nia.
Qed.
Lemma ppm_pos os ps : 0 < os -> 0 < ps -> 0 < pages_per_map os ps.
Proof. intros Ho Hp. pose proof (window_large os ps Ho Hp). unfold MIN_WINDOW in *. destruct (N.eq_dec (pages_per_map os ps) 0) as [E|]; [rewrite E in *; lia|lia]. Qed.

(** ** The file *)
Lemma f_bytes_length o n f : length (f_bytes o n f) = N.to_nat n.
Proof. unfold f_bytes. now rewrite map_length, seq_length. Qed.
Lemma f_bytes_nlen o n f : nlen (f_bytes o n f) = n.
Proof. unfold nlen. rewrite f_bytes_length. lia. Qed.
Lemma f_bytes_lookup o n f i : (i < N.to_nat n)%nat -> f_bytes o n f !! i = Some (f_byte f (o + N.of_nat i)).
Proof. intros H. unfold f_bytes. rewrite list_lookup_fmap, lookup_seq_lt by exact H. reflexivity. Qed.
Lemma f_bytes_ext o n f g : (forall i, o <= i < o + n -> f_byte f i = f_byte g i) -> f_bytes o n f = f_bytes o n g.
Proof.
  intros H. apply list_eq. intros i. destruct (Nat.lt_ge_cases i (N.to_nat n)) as [Hi|Hi].
  - rewrite !f_bytes_lookup by exact Hi. rewrite H by lia. reflexivity.
  - rewrite !lookup_ge_None_2 by (rewrite f_bytes_length; lia). reflexivity.
Qed.
Lemma f_write_len o b f : b <> [] -> f_len (f_write o b f) = N.max (f_len f) (o + nlen b).
Proof. destruct b; [done|reflexivity]. Qed.
Lemma f_write_in o b f k n : k + n <= nlen b -> f_bytes (o + k) n (f_write o b f) = take (N.to_nat n) (drop (N.to_nat k) b).
Proof.
  intros H. apply list_eq. intros i. destruct (Nat.lt_ge_cases i (N.to_nat n)) as [Hi|Hi].
  - rewrite f_bytes_lookup by exact Hi. rewrite lookup_take, lookup_drop by exact Hi. destruct b as [|x b]; [unfold nlen in H; cbn in H; lia|]. cbn [f_write f_byte]. unfold nlen in *.
    rewrite (proj2 (N.leb_le _ _)), (proj2 (N.ltb_lt _ _)) by lia. cbn [andb]. replace (N.to_nat (o + k + N.of_nat i - o)) with (N.to_nat k + i)%nat by lia.
    destruct (nth_lookup_or_length (x :: b) (N.to_nat k + i) 0) as [E|E]; [now rewrite E|cbn [length] in *; lia].
  - rewrite !lookup_ge_None_2; [reflexivity| |rewrite f_bytes_length; lia]. rewrite take_length. lia.
Qed.
Lemma f_write_out o b f i : (i < o \/ o + nlen b <= i) -> i < f_len f -> f_byte (f_write o b f) i = f_byte f i.
Proof.
  intros H Hl. destruct b as [|x b]; [reflexivity|]. cbn [f_write f_byte]. set (m := nlen (x :: b)) in *. unfold f_at. rewrite (proj2 (N.ltb_lt _ _) Hl).
  destruct (N.leb_spec o i), (N.ltb_spec i (o + m)); cbn; reflexivity || lia.
Qed.
Lemma f_allocate_byte o n f i : i < f_len f -> f_byte (f_allocate o n f) i = f_byte f i.
Proof. intros H. cbn. unfold f_at. now rewrite (proj2 (N.ltb_lt _ _) H). Qed.

(** ** Pages *)
(** What page [q] of the file holds. *)
Definition page_of (ps : N) (f : file) (q : N) : option bytes := if (q + 1) * ps <=? f_len f then Some (f_bytes (q * ps) ps f) else None.
Lemma read_file_ok p f q : 0 < g_ps p -> read_page_from_file p f q = match page_of (g_ps p) f q with Some b => Ok b | None => Err EIo end.
Proof.
  intros Hp. unfold read_page_from_file, page_of, f_read. rewrite f_bytes_nlen.
  destruct (N.leb_spec ((q + 1) * g_ps p) (f_len f)) as [H|H].
  - rewrite N.min_l by lia. rewrite N.ltb_irrefl. reflexivity.
  - rewrite (proj2 (N.ltb_lt _ _)) by lia. reflexivity.
Qed.
Lemma page_of_nlen ps f q b : page_of ps f q = Some b -> nlen b = ps.
Proof. unfold page_of. destruct (_ <=? _); [|discriminate]. intros [= <-]. apply f_bytes_nlen. Qed.
Lemma page_in_window ps ppm q : 0 < ppm -> 0 < ps -> q / ppm * ppm * ps + (q * ps - q / ppm * ppm * ps) = q * ps /\ (q * ps - q / ppm * ppm * ps) + ps <= ppm * ps.
Proof.
  intros H Hp. pose proof (N.div_mod q ppm ltac:(lia)) as E. pose proof (N.mod_upper_bound q ppm ltac:(lia)). set (d := q / ppm) in *. set (m := q mod ppm) in *. clearbody d m. subst q.
  split; nia.
Qed.

Definition pager_ok (p : pager) (f : file) : Prop :=
  0 < g_ps p /\ 0 < g_ppm p /\ g_len p <= f_len f /\ forall m, m ∈ g_maps p -> (m + 1) * window p <= f_len f.
Lemma open_pager_ok os ps f : 0 < os -> 0 < ps -> pager_ok (open_pager os ps f) f.
Proof. intros Ho Hp. split; [exact Hp|]. split; [now apply ppm_pos|]. split; [reflexivity|]. intros m Hm. cbn in Hm. set_solver. Qed.
(** What a memory map shows is what the file holds. *)
Lemma read_mmap_ok p f q b p' : pager_ok p f -> read_page_mmap p f q = (Ok b, p') -> page_of (g_ps p) f q = Some b /\ pager_ok p' f.
Proof.
  intros (Hp & Hm & Hl & Hw). unfold read_page_mmap. destruct (page_in_window (g_ps p) (g_ppm p) q Hm Hp) as [E1 E2].
  rewrite (proj2 (N.ltb_ge _ _)) by lia. rewrite E1.
  assert (forall m, m = q / g_ppm p -> (m + 1) * window p <= f_len f -> (q + 1) * g_ps p <= f_len f) as Hin.
  { intros m -> H. unfold window in H. set (d := q / g_ppm p) in *. nia. }
  destruct (decide _) as [Hd|Hd].
  - intros [= <- <-]. split; [|split_and!; auto]. unfold page_of. rewrite (proj2 (N.leb_le _ _)); [reflexivity|]. eapply Hin; [reflexivity|now apply Hw].
  - destruct (N.ltb_spec (f_len f) (q * g_ps p + g_ps p)); [discriminate|]. destruct (N.ltb_spec (f_len f) (q / g_ppm p * g_ppm p * g_ps p + g_ppm p * g_ps p)); [discriminate|]. intros [= <- <-].
    split; [unfold page_of; rewrite (proj2 (N.leb_le _ _)) by lia; reflexivity|]. split; [exact Hp|]. split; [exact Hm|]. split; [exact Hl|]. intros m. cbn [g_maps]. rewrite elem_of_union, elem_of_singleton. intros [->|Hin']; [unfold window; cbn; lia|now apply Hw].
Qed.
Lemma read_mmap_keeps p f q x p' : pager_ok p f -> read_page_mmap p f q = (x, p') -> pager_ok p' f /\ g_ps p' = g_ps p /\ g_ppm p' = g_ppm p /\ g_len p' = g_len p.
Proof.
  intros H E. destruct x as [b|e].
  - split; [eapply read_mmap_ok; eassumption|]. revert E. unfold read_page_mmap. repeat case_match; intros E; inversion E; subst; auto.
  - revert E. unfold read_page_mmap. destruct (page_in_window (g_ps p) (g_ppm p) q) as [_ E2]; [apply H|apply H|]. rewrite (proj2 (N.ltb_ge (g_ppm p * _) _)) by lia.
    repeat case_match; intros E; inversion E; subst; auto.
Qed.
(** In a file that consists of whole windows every page can be read through a map. *)
Lemma read_mmap_whole p f q b : pager_ok p f -> (window p | f_len f) -> page_of (g_ps p) f q = Some b -> exists p', read_page_mmap p f q = (Ok b, p').
Proof.
  intros (Hp & Hm & Hl & Hw) [k Hk]. unfold page_of. destruct (N.leb_spec ((q + 1) * g_ps p) (f_len f)) as [Hq|]; [|discriminate]. intros [= <-].
  unfold read_page_mmap. destruct (page_in_window (g_ps p) (g_ppm p) q Hm Hp) as [E1 E2]. rewrite (proj2 (N.ltb_ge (g_ppm p * _) _)) by lia. rewrite E1.
  destruct (decide _); [eauto|]. rewrite (proj2 (N.ltb_ge _ _)) by lia.
  rewrite (proj2 (N.ltb_ge _ _)); [eauto|]. rewrite Hk. unfold window in *.
  assert (q < k * g_ppm p) by nia. assert (q / g_ppm p < k) by (apply N.div_lt_upper_bound; lia). nia.
Qed.

(** ** Writing *)
Lemma prealloc_ok p f : pager_ok p f -> pager_ok (preallocate (g_len p) (window p) p f).1 (preallocate (g_len p) (window p) p f).2.
Proof.
  intros (Hp & Hm & Hl & Hw). split; [exact Hp|]. split; [exact Hm|]. split; [cbn; lia|]. intros m H. cbn [preallocate fst snd g_maps] in H. specialize (Hw m H). unfold window in *. cbn [preallocate fst snd g_ps g_ppm f_len f_allocate]. lia.
Qed.
Lemma page_of_keep ps f g q b : page_of ps f q = Some b -> f_len f <= f_len g -> (forall i, q * ps <= i < (q + 1) * ps -> i < f_len f -> f_byte g i = f_byte f i) -> page_of ps g q = Some b.
Proof.
  unfold page_of. destruct (N.leb_spec ((q + 1) * ps) (f_len f)) as [H|]; [|discriminate]. intros [= <-] Hl Hi. rewrite (proj2 (N.leb_le _ _)) by lia. f_equal.
  apply f_bytes_ext. intros i Hi'. apply Hi; nia.
Qed.
Lemma contiguous_ok p f start data p' f' : pager_ok p f -> data <> [] -> write_contiguous_pages true p f start data = (Ok tt, (p', f')) ->
  g_ps p' = g_ps p /\ g_ppm p' = g_ppm p /\ pager_ok p' f' /\
  (forall i, i < nlen data / g_ps p -> page_of (g_ps p) f' (start + i) = Some (take (N.to_nat (g_ps p)) (drop (N.to_nat (i * g_ps p)) data))) /\
  (forall q b, (q + 1) * g_ps p <= start * g_ps p \/ start * g_ps p + nlen data <= q * g_ps p -> page_of (g_ps p) f q = Some b -> page_of (g_ps p) f' q = Some b).
Proof.
  intros H Hd. unfold write_contiguous_pages. cbn [negb]. rewrite andb_false_r.
  set (need := g_len p <? g_ps p * (start + nlen data / g_ps p)).
  assert (exists p1 f1, (if need then preallocate (g_len p) (window p) p f else (p, f)) = (p1, f1) /\ pager_ok p1 f1 /\ g_ps p1 = g_ps p /\ g_ppm p1 = g_ppm p /\
    f_len f <= f_len f1 /\ forall i, i < f_len f -> f_byte f1 i = f_byte f i) as (p1 & f1 & -> & H1 & E1 & E2 & L1 & B1).
  { destruct need; eexists _, _; (split; [reflexivity|]); split_and!; auto; try reflexivity.
    - now apply prealloc_ok.
    - cbn. lia.
    - intros i Hi. now apply f_allocate_byte. }
  intros [= <- <-]. split; [exact E1|]. split; [exact E2|]. destruct H as (Hp & Hm & Hl & Hw).
  assert (Lw : f_len (f_write (start * g_ps p) data f1) = N.max (f_len f1) (start * g_ps p + nlen data)) by now apply f_write_len.
  split; [|split].
  - destruct H1 as (Hp1 & Hm1 & Hl1 & Hw1). split; [exact Hp1|]. split; [exact Hm1|]. rewrite Lw. split; [lia|]. intros m Hi. specialize (Hw1 m Hi). lia.
  - intros i Hi. unfold page_of. pose proof (N.mul_div_le (nlen data) (g_ps p) ltac:(lia)) as Hdiv. assert (Hb : (i + 1) * g_ps p <= nlen data) by nia.
    rewrite Lw. rewrite (proj2 (N.leb_le _ _)) by lia. f_equal. replace ((start + i) * g_ps p) with (start * g_ps p + i * g_ps p) by lia. apply f_write_in. lia.
  - intros q b Ho Hq. eapply page_of_keep; [exact Hq|rewrite Lw; lia|]. intros i Hi Hil. rewrite f_write_out by lia. now apply B1.
Qed.

(** ** The pages of a commit *)
Lemma chunks_concat l : concat (chunks l) = l.
Proof. induction l as [|a l IH]; [reflexivity|]. cbn [chunks]. destruct (chunks l) as [|[|b c] r]; [cbn in *; now subst| |]; cbn in IH |- *; [now rewrite IH|]. destruct (_ =? _); cbn; now rewrite IH. Qed.
(** A chunk: consecutive page ids. *)
Fixpoint run_of (q : N) (l : list (N * node)) : Prop := match l with [] => True | a :: l' => a.1 = q /\ run_of (q + 1) l' end.
Lemma chunks_runs l : Forall (fun c => exists a c', c = a :: c' /\ run_of a.1 c) (chunks l).
Proof.
  induction l as [|a l IH]; [constructor|]. cbn [chunks]. destruct (chunks l) as [|[|b c] r]; [|constructor; [|exact IH]; exists a, []; cbn; auto|].
  - constructor; [|constructor]. exists a, []. cbn. auto.
  - inversion IH as [|x y (a' & c' & E & Hr) Hrest]; subst. injection E as <- <-. destruct (N.eqb_spec (a.1 + 1) b.1) as [E|E].
    + constructor; [|exact Hrest]. exists a, (b :: c). split; [reflexivity|]. cbn [run_of]. split; [reflexivity|]. rewrite E. exact Hr.
    + constructor; [exists a, []; cbn; auto|]. exact IH.
Qed.
Lemma run_lookup q l i x : run_of q l -> l !! i = Some x -> x.1 = q + N.of_nat i.
Proof. revert q i. induction l as [|a l IH]; intros q i Hr Hl; [discriminate|]. destruct Hr as [Ha Hr]. destruct i as [|i]; cbn in Hl; [injection Hl as <-; lia|]. rewrite (IH _ _ Hr Hl). lia. Qed.
Lemma page_ser_nlen kw ps n b : page_ser kw ps n = Ok b -> nlen b = ps.
Proof.
  unfold page_ser. destruct (node_ser kw n) as [body|]; [|discriminate]. cbn [rbind]. destruct (N.ltb_spec ps (PAGE_HEADER_SIZE + nlen body)); [discriminate|]. intros E. assert (forall x y : bytes, Ok x = Ok y -> x = y) as Hinj by congruence. apply Hinj in E. subst b.
  assert (L4 : forall x, length (w32 x) = 4%nat) by (intros; apply le_bytes_length).
  unfold nlen, PAGE_HEADER_SIZE in *. rewrite app_length, app_length, app_length, app_length, replicate_length, !L4. cbn [length]. lia.
Qed.
Lemma serialize_all_ok kw ps l data : serialize_all kw ps l = Ok data -> nlen data = nlen l * ps /\
  forall i x, l !! i = Some x -> exists b, page_ser kw ps x.2 = Ok b /\ take (N.to_nat ps) (drop (N.to_nat (N.of_nat i * ps)) data) = b.
Proof.
  revert data. induction l as [|[q n] l IH]; intros data; cbn [serialize_all].
  - intros [= <-]. split; [reflexivity|]. intros i x Hx. discriminate.
  - destruct (page_ser kw ps n) as [b|] eqn:Eb; [|discriminate]. cbn [rbind]. destruct (serialize_all kw ps l) as [r|] eqn:Er; [|discriminate]. cbn [rbind]. intros [= <-].
    pose proof (page_ser_nlen _ _ _ _ Eb) as Lb. destruct (IH r eq_refl) as [Lr Hr]. assert (Lb' : length b = N.to_nat ps) by (unfold nlen in Lb; lia). split.
    + unfold nlen in *. rewrite app_length. cbn [length]. lia.
    + intros [|i] x Hx; cbn in Hx.
      * injection Hx as <-. exists b. split; [exact Eb|]. replace (N.to_nat (N.of_nat 0 * ps)) with 0%nat by lia. rewrite drop_0, take_app_le by lia. rewrite take_ge by lia. reflexivity.
      * destruct (Hr i x Hx) as (b' & E' & T'). exists b'. split; [exact E'|]. rewrite drop_app_ge by nia. rewrite <- T'. f_equal. f_equal. nia.
Qed.
Lemma ser_all_total kw ps l : Forall (fun x => exists b, page_ser kw ps x.2 = Ok b) l -> exists data, serialize_all kw ps l = Ok data.
Proof. induction 1 as [|[q n] l [b Hb] _ [r Hr]]; [exists []; reflexivity|]. cbn in *. rewrite Hb. cbn. rewrite Hr. cbn. eauto. Qed.
Lemma put_chunks_ok kw l : forall p f, pager_ok p f ->
  Forall (fun c => exists a c', c = a :: c' /\ run_of a.1 c) l -> NoDup (map fst (concat l)) ->
  Forall (fun x => exists b, page_ser kw (g_ps p) x.2 = Ok b) (concat l) ->
  exists p' f', put_chunks kw true l p f = (Ok tt, (p', f')) /\ g_ps p' = g_ps p /\ g_ppm p' = g_ppm p /\ pager_ok p' f' /\
    (forall x b, x ∈ concat l -> page_ser kw (g_ps p) x.2 = Ok b -> page_of (g_ps p) f' x.1 = Some b) /\
    (forall q b, q ∉ map fst (concat l) -> page_of (g_ps p) f q = Some b -> page_of (g_ps p) f' q = Some b).
Proof.
  induction l as [|c l IH]; intros p f Hok Hr Hnd Hser.
  - exists p, f. cbn. split_and!; auto. intros x b Hx. set_solver.
  - inversion Hr as [|x y (a & c' & -> & Hrun) Hr']; subst. cbn [concat] in *. rewrite map_app in Hnd. apply NoDup_app in Hnd as (Hn1 & Hn2 & Hn3). apply Forall_app in Hser as [Hs1 Hs2].
    cbn [put_chunks head]. destruct (ser_all_total kw (g_ps p) _ Hs1) as [data Hdata]. rewrite Hdata. destruct (serialize_all_ok _ _ _ _ Hdata) as [Ld Pd].
    assert (Hp : 0 < g_ps p) by apply Hok. assert (Hne : data <> []) by (intros ->; unfold nlen in Ld; cbn in Ld; nia).
    destruct (write_contiguous_pages true p f a.1 data) as [x [p1 f1]] eqn:Ew.
    assert (x = Ok tt) as -> by (revert Ew; unfold write_contiguous_pages; cbn [negb]; rewrite andb_false_r; case_match; congruence).
    destruct (contiguous_ok _ _ _ _ _ _ Hok Hne Ew) as (E1 & E2 & Hok1 & Pin & Pout). rewrite <- E1 in Hs2.
    destruct (IH p1 f1 Hok1 Hr' Hn3 Hs2) as (p2 & f2 & -> & E3 & E4 & Hok2 & Qin & Qout). rewrite E1 in *.
    assert (Hcnt : nlen data / g_ps p = nlen (a :: c')) by (rewrite Ld; apply N.div_mul; lia).
    exists p2, f2. split; [reflexivity|]. split; [congruence|]. split; [congruence|]. split; [exact Hok2|]. split.
    + intros z b Hz Eb. rewrite elem_of_app in Hz. destruct Hz as [Hz|Hz]; [|now apply Qin].
      apply Qout; [apply Hn2, elem_of_list_fmap; eauto|]. apply elem_of_list_lookup in Hz as [i Hi]. rewrite (run_lookup _ _ _ _ Hrun Hi).
      rewrite Pin by (rewrite Hcnt; unfold nlen; apply lookup_lt_Some in Hi; lia). destruct (Pd _ _ Hi) as (b' & Eb' & ->). congruence.
    + intros q b Hq Hb. rewrite map_app, not_elem_of_app in Hq. destruct Hq as [Hq1 Hq2]. apply Qout; [exact Hq2|]. apply Pout; [|exact Hb].
      rewrite Ld. destruct (N.lt_ge_cases q a.1) as [|Hge]; [left; nia|right]. destruct (N.lt_ge_cases q (a.1 + nlen (a :: c'))) as [Hlt|]; [|nia]. exfalso. apply Hq1.
      destruct (lookup_lt_is_Some_2 (a :: c') (N.to_nat (q - a.1)) ltac:(unfold nlen in Hlt; lia)) as [z Hz]. apply elem_of_list_fmap. exists z. split; [|eapply elem_of_list_lookup_2, Hz].
      rewrite (run_lookup _ _ _ _ Hrun Hz). lia.
Qed.
