(** C89: what earlier versions of the software wrote keeps its meaning, and the layout of a page. *)
From Coq Require Import Sorted.
From Verif Require Import Mvcc MvccProofs SpecProofs StoreProofs Exec PropsStore PageProofs CodecProofs TrackingProofs SearchTree PropsFindings PropsLegacy.
Local Open Scope N_scope.

(** ** Layouts *)
(** A page: its kind, the check sum and length of its contents, the contents, and anything after them. *)
Definition old_page (kind : N) (body rest : bytes) : bytes := page_layout kind (calc_crc body) (nlen body) body rest.
(** A header without a schema version (48 bytes). *)
Definition header48 (h : header) : bytes :=
  le_bytes 8 (h_tsn h) ++ le_bytes 8 (h_next_page h) ++ le_bytes 8 (h_free_root h) ++ le_bytes 8 (h_events_root h) ++ le_bytes 8 (h_tags_root h) ++ le_bytes 8 (h_next_pos h).
(** One with a schema version (52 bytes). *)
Definition header52 (h : header) : bytes := header48 h ++ le_bytes 4 (h_schema h).
(** A page of recorded positions in the first layout: the sources in any order, with lengths of 4 bytes. *)
Definition leaf_v0 (l : list (bytes * N)) : bytes :=
  [0] ++ le_bytes 4 (nlen l) ++ flat_map (fun x => le_bytes 4 (nlen x.1) ++ x.1) l ++ flat_map (fun x => le_bytes 8 x.2) l.

(** Page contents in the layout of an earlier version, for those that a page has in the present one. *)
Inductive older (kw : nat) (c : option bytes) : option bytes -> Prop :=
| older_same : older kw c c
| older_header h rest : dec kw c = Ok (NHeader h) -> header_ok h -> h_schema h = 0 -> h_tracking_root h = 0 ->
    older kw c (Some (old_page 49 (header48 h) rest))
| older_header52 h rest : dec kw c = Ok (NHeader h) -> header_ok h -> h_tracking_root h = 0 ->
    older kw c (Some (old_page 49 (header52 h) rest))
| older_leaf n l rest : dec kw c = Ok (NTrkLeaf n) -> trk_leaf_ok n -> Forall is_bytes (tk_keys n) -> StronglySorted (clt bytes_cmp) (tk_keys n) ->
    l ≡ₚ zip (tk_keys n) (tk_values n) -> nlen (leaf_v0 l) < U32 -> older kw c (Some (old_page 100 (leaf_v0 l) rest)).

(** ** Headers *)
Theorem header48_read h : header_ok h -> header_de (header48 h) = Ok (Header (h_tsn h) (h_free_root h) (h_events_root h) (h_tags_root h) (h_next_page h) (h_next_pos h) 0 0).
Proof.
  intros (H1 & H2 & H3 & H4 & H5 & H6 & _). unfold header_de, header48. fold (w64 (h_tsn h)) (w64 (h_next_page h)) (w64 (h_free_root h)) (w64 (h_events_root h)) (w64 (h_tags_root h)) (w64 (h_next_pos h)).
  do 5 (rewrite read_u64_app by assumption; cbn [rbind]). rewrite (read_end read_u64), read_u64_app by assumption. reflexivity.
Qed.
Theorem header52_read h : header_ok h -> header_de (header52 h) = Ok (Header (h_tsn h) (h_free_root h) (h_events_root h) (h_tags_root h) (h_next_page h) (h_next_pos h) (h_schema h) 0).
Proof.
  intros (H1 & H2 & H3 & H4 & H5 & H6 & H7 & _). unfold header_de, header52, header48. fold (w64 (h_tsn h)) (w64 (h_next_page h)) (w64 (h_free_root h)) (w64 (h_events_root h)) (w64 (h_tags_root h)) (w64 (h_next_pos h)).
  rewrite <- !app_assoc. do 6 (rewrite read_u64_app by assumption; cbn [rbind]). rewrite le_bytes_length. change (4 <=? 4)%nat with true. cbv iota.
  fold (w32 (h_schema h)). rewrite (read_end read_u32), read_u32_app by assumption. reflexivity.
Qed.

(** ** Recorded positions *)
Notation plt := (fun x y : bytes * N => clt bytes_cmp x.1 y.1).
Lemma plt_keys l : StronglySorted plt l <-> StronglySorted (clt bytes_cmp) (map fst l).
Proof.
  induction l as [|x l IH]; [split; constructor|]. cbn [map]. split; intros H; inversion H as [|? ? Hs Hf]; subst; constructor; try (now apply IH).
  - rewrite Forall_map. exact Hf.
  - rewrite Forall_map in Hf. exact Hf.
Qed.
Lemma ins_pair_perm p l : ins_pair p l ≡ₚ p :: l.
Proof.
  induction l as [|q l IH]; [reflexivity|]. cbn [ins_pair]. destruct (bytes_cmp p.1 q.1); [reflexivity|reflexivity|]. rewrite IH. constructor.
Qed.
Lemma sort_pairs_perm l : sort_pairs l ≡ₚ l.
Proof. induction l as [|p l IH]; [reflexivity|]. cbn [sort_pairs]. rewrite ins_pair_perm. now rewrite IH. Qed.
Lemma ins_pair_sorted p l : p.1 ∉ map fst l -> StronglySorted plt l -> StronglySorted plt (ins_pair p l).
Proof.
  intros Hn Hs. induction Hs as [|q l Hs IH Hf]; [repeat constructor|]. cbn [ins_pair]. cbn [map] in Hn. apply not_elem_of_cons in Hn as [Hq Hn].
  destruct (bytes_cmp p.1 q.1) eqn:E.
  - now apply bytes_cmp_eq in E.
  - constructor; [now constructor|]. constructor; [exact E|]. rewrite Forall_forall in *. intros x Hx. unfold clt. exact (bytes_cmp_lt_trans _ _ _ E (Hf x Hx)).
  - constructor; [now apply IH|]. rewrite ins_pair_perm. constructor; [|exact Hf]. unfold clt. rewrite bytes_cmp_antisym, E. reflexivity.
Qed.
Lemma sort_pairs_sorted l : NoDup (map fst l) -> StronglySorted plt (sort_pairs l).
Proof.
  induction l as [|p l IH]; cbn [map sort_pairs]; [constructor|]. intros (Hn & Hd)%NoDup_cons. apply ins_pair_sorted; [|now apply IH].
  intros H. apply Hn. apply elem_of_list_fmap in H as (x & -> & Hx). rewrite sort_pairs_perm in Hx. apply elem_of_list_fmap. now exists x.
Qed.
Lemma read_key32_app k r : key8_ok k -> read_key32 ((le_bytes 4 (nlen k) ++ k) ++ r) = Ok (k, r).
Proof.
  intros [Hl Hu]. unfold read_key32. rewrite <- app_assoc. fold (w32 (nlen k)). rewrite read_u32_app by (unfold U32; lia). cbn [rbind].
  rewrite (proj2 (N.ltb_lt _ _)) by exact Hl. rewrite to_nat_nlen. now apply read_string_app.
Qed.
Lemma leaf_v0_de l : nlen l < U16 -> Forall (fun x => key8_ok x.1 /\ u64_ok x.2) l ->
  trk_leaf_de (leaf_v0 l) = Ok (TrkLeaf (map fst (sort_pairs l)) (map snd (sort_pairs l))).
Proof.
  intros Hn Hf. unfold trk_leaf_de, leaf_v0. change ([0] ++ ?x) with (w8 0 ++ x). rewrite read_u8_app. cbn [rbind]. change (0 =? 0) with true. cbv iota.
  fold (w32 (nlen l)). rewrite read_u32_app by (unfold U16 in Hn; unfold U32; lia). cbn [rbind]. rewrite (proj2 (N.leb_gt _ _)) by exact Hn. rewrite to_nat_nlen.
  replace (flat_map (fun x => le_bytes 4 (nlen x.1) ++ x.1) l) with (flat_map (fun k => le_bytes 4 (nlen k) ++ k) (map fst l)) by (clear; induction l as [|x l IH]; [reflexivity|cbn [map flat_map fst]; now rewrite IH]).
  replace (flat_map (fun x => le_bytes 8 x.2) l) with (w64s (map snd l)) by (clear; induction l as [|x l IH]; [reflexivity|unfold w64s in *; cbn [map flat_map snd]; now rewrite IH]).
  rewrite (read_list_app read_key32 _ key8_ok (map fst l)); [|intros; now apply read_key32_app|apply Forall_map; eapply Forall_impl; [exact Hf|now intros ? []]|apply map_length].
  cbn [rbind]. rewrite (read_end (read_list _ _)), read_u64s_app; [|apply Forall_map; eapply Forall_impl; [exact Hf|now intros ? []]|apply map_length]. cbn [rbind].
  replace (zip (map fst l) (map snd l)) with l by (clear; induction l as [|[a b] l IH]; [reflexivity|cbn [map zip zip_with fst snd]; now rewrite <- IH]). reflexivity.
Qed.
Lemma plt_unique l1 l2 : StronglySorted plt l1 -> StronglySorted plt l2 -> l1 ≡ₚ l2 -> l1 = l2.
Proof.
  intros H1 H2 H. assert (Hanti : AntiSymm (=) plt).
  { intros x y Hx Hy. exfalso. unfold clt in *. pose proof (bytes_cmp_lt_trans _ _ _ Hx Hy) as Ht. now rewrite bytes_cmp_refl in Ht. }
  now apply (@StronglySorted_unique _ plt Hanti).
Qed.
Lemma alookup_perm (l l' : list (bytes * N)) src : NoDup (map fst l) -> l ≡ₚ l' -> alookup src l = alookup src l'.
Proof.
  intros Hd H. induction H as [|[k v] l l' H IH|[k v] [k' v'] l|l l' l'' H1 IH1 H2 IH2]; [reflexivity| | |].
  - cbn [alookup]. cbn [map] in Hd. apply NoDup_cons in Hd as [_ Hd]. destruct (decide (k = src)); [reflexivity|now apply IH].
  - cbn [alookup]. cbn [map fst] in Hd. apply NoDup_cons in Hd as [Hn _]. apply not_elem_of_cons in Hn as [Hn _].
    destruct (decide (k = src)), (decide (k' = src)); congruence.
  - rewrite IH1 by exact Hd. apply IH2. now rewrite <- H1.
Qed.

(** Every source keeps its position, whatever the order the sources were written in, and the page needs no more room. *)
Theorem leaf_v0_read l : nlen l < U16 -> Forall (fun x => key8_ok x.1 /\ u64_ok x.2) l -> NoDup (map fst l) ->
  exists n, trk_leaf_de (leaf_v0 l) = Ok n /\ trk_leaf_ok n /\ StronglySorted (clt bytes_cmp) (tk_keys n) /\
    (forall src, trk_get src n = Ok (alookup src l)) /\ trk_leaf_size n <= nlen (leaf_v0 l).
Proof.
  intros Hn Hf Hd. pose proof (sort_pairs_perm l) as Hp. pose proof (sort_pairs_sorted l Hd) as Hs. eexists. split; [now apply leaf_v0_de|].
  assert (Hf' : Forall (fun x => key8_ok x.1 /\ u64_ok x.2) (sort_pairs l)) by now rewrite Hp. apply plt_keys in Hs. split; [|split; [exact Hs|split]].
  - repeat split; cbn [tk_keys tk_values].
    + unfold nlen. rewrite map_length, Hp. exact Hn.
    + apply Forall_map. eapply Forall_impl; [exact Hf'|now intros ? []].
    + now rewrite !map_length.
    + apply Forall_map. eapply Forall_impl; [exact Hf'|now intros ? []].
  - intros src. rewrite trk_get_ok by exact Hs. f_equal. apply alookup_perm; [|exact Hp]. apply ssorted_nodup. exact Hs.
  - unfold trk_leaf_size, leaf_v0. cbn [tk_keys tk_values]. rewrite !nlen_app. change (nlen [0]) with 1.
    assert (E1 : forall m, nlen (le_bytes 4 m) = 4) by (intros; unfold nlen; now rewrite le_bytes_length).
    assert (E8 : nlen (flat_map (fun x => le_bytes 8 x.2) l) = 8 * nlen l).
    { clear. induction l as [|x l IH]; [reflexivity|]. cbn [flat_map]. rewrite nlen_app, IH. unfold nlen. rewrite le_bytes_length. cbn [length]. lia. }
    rewrite E1, E8. assert (L : nlen (map snd (sort_pairs l)) = nlen l) by (unfold nlen; now rewrite map_length, Hp). rewrite L.
    assert (K : foldr (fun k acc => 1 + nlen k + acc) 0 (map fst (sort_pairs l)) = foldr (fun k acc => 1 + nlen k + acc) 0 (map fst l)).
    { clear - Hp. induction Hp as [|x a b H IH|x y a|a b c H1 IH1 H2 IH2]; cbn [map foldr]; [reflexivity|now rewrite IH|lia|congruence]. }
    rewrite K. assert (K2 : foldr (fun k acc => 1 + nlen k + acc) 0 (map fst l) <= nlen (flat_map (fun x : bytes * N => le_bytes 4 (nlen x.1) ++ x.1) l)).
    { clear - E1. induction l as [|x l IH]; cbn [map foldr flat_map]; [reflexivity|]. rewrite !nlen_app, E1. lia. }
    lia.
Qed.
(** What does not fit the present layout is refused rather than cut off. *)
Theorem leaf_v0_refused l r : U16 <= nlen l -> nlen l < U32 -> trk_leaf_de (leaf_v0 l ++ r) = Err EDeserialization.
Proof.
  intros Hn Hl. unfold trk_leaf_de, leaf_v0. rewrite <- !app_assoc. change ([0] ++ ?x) with (w8 0 ++ x). rewrite read_u8_app. cbn [rbind]. change (0 =? 0) with true. cbv iota.
  fold (w32 (nlen l)). rewrite read_u32_app by exact Hl. cbn [rbind]. now rewrite (proj2 (N.leb_le _ _)) by exact Hn.
Qed.
Theorem long_source_refused l k v l' : nlen (l ++ (k, v) :: l') < U16 -> Forall (fun x => key8_ok x.1) l -> 256 <= nlen k -> nlen k < U32 ->
  trk_leaf_de (leaf_v0 (l ++ (k, v) :: l')) = Err EDeserialization.
Proof.
  intros Hn Hf Hk Hk'. unfold trk_leaf_de, leaf_v0. change ([0] ++ ?x) with (w8 0 ++ x). rewrite read_u8_app. cbn [rbind]. change (0 =? 0) with true. cbv iota.
  set (m := nlen _) at 1. fold (w32 m). subst m. rewrite read_u32_app by (unfold U16 in Hn; unfold U32; lia). cbn [rbind]. rewrite (proj2 (N.leb_gt _ _)) by exact Hn. rewrite to_nat_nlen.
  generalize (flat_map (fun x : bytes * N => le_bytes 8 x.2) (l ++ (k, v) :: l')). intros r. rewrite app_length. cbn [length].
  assert (E : read_list read_key32 (length l + S (length l')) (flat_map (fun x : bytes * N => le_bytes 4 (nlen x.1) ++ x.1) (l ++ (k, v) :: l') ++ r) = Err EDeserialization).
  { clear Hn. induction Hf as [|x l Hx Hf IH].
    - cbn [app flat_map length Nat.add read_list fst]. rewrite <- !app_assoc. unfold read_key32. fold (w32 (nlen k)). rewrite read_u32_app by exact Hk'. cbn [rbind].
      rewrite (proj2 (N.ltb_ge _ _)) by exact Hk. reflexivity.
    - cbn [app flat_map length Nat.add read_list]. rewrite <- app_assoc. rewrite read_key32_app by exact Hx. cbn [rbind]. rewrite IH. reflexivity. }
  rewrite E. reflexivity.
Qed.

(** ** Pages *)
Lemma old_page_de kw kind body rest : is_bytes body -> nlen body < U32 -> page_de kw (old_page kind body rest) = node_de kw kind body.
Proof. intros Hb Hl. unfold old_page. rewrite page_de_layout; [|now apply calc_crc_lt|reflexivity|exact Hl]. now rewrite N.eqb_refl. Qed.
Lemma header48_bytes h : is_bytes (header48 h).
Proof. unfold header48. repeat (apply Forall_app; split); apply le_bytes_is_bytes. Qed.
(** A page reads the same in either layout. *)
Theorem older_reads kw c c' : older kw c c' -> dec kw c' = dec kw c.
Proof.
  intros [|h rest E Hh Hs Ht|h rest E Hh Ht|n l rest E Hn Hb Hs Hp Hl]; [reflexivity| | |].
  - rewrite E. cbn [dec]. rewrite old_page_de; [|apply header48_bytes|reflexivity]. unfold node_de. change (49 =? 49) with true. cbv iota. rewrite header48_read by exact Hh.
    cbn [res_map]. destruct h; cbn in *. now subst.
  - rewrite E. cbn [dec]. rewrite old_page_de; [|apply Forall_app; split; [apply header48_bytes|apply le_bytes_is_bytes]|reflexivity]. unfold node_de. change (49 =? 49) with true. cbv iota.
    rewrite header52_read by exact Hh. cbn [res_map]. destruct h; cbn in *. now subst.
  - rewrite E. destruct n as [ks vs]; cbn [tk_keys tk_values] in *. destruct Hn as (Hn & Hk & Hlen & Hv); cbn [tk_keys tk_values] in *.
    assert (Hlz : length l = length ks) by (rewrite Hp, zip_with_length; lia).
    assert (Hf : Forall (fun x : bytes * N => (key8_ok x.1 /\ u64_ok x.2) /\ is_bytes x.1) l).
    { rewrite Hp. rewrite Forall_forall. intros [k v] Hx. apply elem_of_zip_with in Hx as (k' & v' & [= <- <-] & H1 & H2). cbn. split; [split; [exact (proj1 (Forall_forall _ _) Hk _ H1)|exact (proj1 (Forall_forall _ _) Hv _ H2)]|exact (proj1 (Forall_forall _ _) Hb _ H1)]. }
    cbn [dec]. rewrite old_page_de; [| |exact Hl].
    2:{ unfold leaf_v0. apply Forall_app. split; [repeat constructor|]. apply Forall_app. split; [apply le_bytes_is_bytes|]. rewrite Forall_forall in Hf.
        apply Forall_app. split; apply is_bytes_flat_map; intros x Hx; [apply Forall_app; split; [apply le_bytes_is_bytes|now apply Hf]|apply le_bytes_is_bytes]. }
    unfold node_de. cbn [N.eqb Pos.eqb]. rewrite leaf_v0_de; [|unfold nlen in *; now rewrite Hlz|eapply Forall_impl; [exact Hf|now intros ? []]]. cbn [res_map].
    assert (Ez1 : map fst (zip ks vs) = ks) by (apply fst_zip; lia). assert (Ez2 : map snd (zip ks vs) = vs) by (apply snd_zip; lia).
    assert (Es : sort_pairs l = zip ks vs).
    { apply plt_unique; [apply sort_pairs_sorted|apply plt_keys; now rewrite Ez1|now rewrite sort_pairs_perm].
      rewrite (Permutation_map fst Hp : map fst l ≡ₚ map fst (zip ks vs)). rewrite Ez1. now apply ssorted_nodup. }
    rewrite Es, Ez1, Ez2. reflexivity.
Qed.

(** ** Databases *)
Section databases.
  Context (ps : N) (hash : bytes -> bytes) (order : list bytes -> list bytes) (ford : gset N -> list N) (caching : bool).
  Context (Hps : ps_ok ps) (Hps32 : ps < U32) (Hord : forall l t, t ∈ order l <-> t ∈ l) (Hford : forall s, ford s ≡ₚ elements s).

  (** Only what the pages read as matters. *)
  Lemma same_reading kw d f sy : inv kw ps hash caching (Sys d None) sy -> (forall q, exists c, d_dur d q c /\ dec kw (f q) = dec kw c) ->
    inv kw ps hash caching (at_rest f) sy.
  Proof.
    intros (G & H) Hf. exists G. destruct H as [Hc Hs (hid & Hsl) Hh Hg He]. constructor; cbn; [intros q; reflexivity|intros q c _ E; exact E| |exact Hh| |exact He].
    - exists hid. destruct Hsl as (H1 & H2 & H3). split; [exact H1|]. split.
      + intros b ->. destruct (Hf hid) as (c & Hd & ->). now apply H2.
      + intros b n -> En. destruct (Hf (other_slot hid)) as (c & Hd & Ed). rewrite Ed in En. now apply (H3 c n).
    - split; [exact (proj1 Hg)|]. intros q Hq. destruct (proj2 Hg q Hq) as (n & Hn & Hp & Hx). exists n. split; [exact Hn|]. split; [|exact Hx].
      intros b ->. destruct (Hf q) as (c & Hd & ->). now apply Hp.
  Qed.
  Lemma sim_from kw y sy tr y' : (kw <= 16)%nat -> inv kw ps hash caching y sy -> steps kw ps hash order ford caching y tr y' ->
    exists sy', spec_steps ps sy tr sy' /\ inv kw ps hash caching y' sy'.
  Proof.
    intros Hkw Hi H. induction H as [y|y tr y' l y'' H IH Hst].
    - exists sy. split; [constructor|exact Hi].
    - destruct (IH Hi) as (sy' & Hs & Hi'). destruct (step_inv kw ps hash order ford caching Hps Hps32 Hkw Hord Hford y' sy' l y'' Hi' Hst) as (sy'' & Hs' & Hi'').
      exists sy''. split; [econstructor; eassumption|exact Hi''].
  Qed.

  (** A database is used, and then closed or lost its process or its machine; the file has the pages that it may have then, any
      of them in the layout of an earlier version.  Whatever happens next is as specified, as if nothing had been changed. *)
  Theorem older_as_specified tr d f tr' y : run ps hash order ford caching tr (Sys d None) -> (forall q, exists c, d_dur d q c /\ older 16 c (f q)) ->
    steps 16 ps hash order ford caching (at_rest f) tr' y ->
    exists sy sy', spec_steps ps spec_init tr sy /\ spec_steps ps sy tr' sy' /\ (up y -> shows hash order y (sp_cur sy')).
  Proof.
    intros H Hf Hst. destruct (run_inv ps hash order ford caching Hps Hps32 Hord Hford _ _ H) as (sy & Hs & Hi & _). exists sy.
    assert (Hi' : inv 16 ps hash caching (at_rest f) sy).
    { apply (same_reading 16 d); [exact Hi|]. intros q. destruct (Hf q) as (c & Hd & Ho). exists c. split; [exact Hd|now apply older_reads]. }
    destruct (sim_from 16 _ sy tr' y (le_n _) Hi' Hst) as (sy' & Hs' & Hy). exists sy'. split; [exact Hs|]. split; [exact Hs'|]. now apply (inv_shows ps hash order ford caching Hps Hps32 Hord Hford).
  Qed.
  (** It opens. *)
  Theorem older_opens tr d f : run ps hash order ford caching tr (Sys d None) -> (forall q, exists c, d_dur d q c /\ older 16 c (f q)) ->
    exists d' p, open_db 16 ps (y_disk (at_rest f)) = Ok (d', p).
  Proof.
    intros H Hf. destruct (run_inv ps hash order ford caching Hps Hps32 Hord Hford _ _ H) as (sy & Hs & Hi & _).
    assert (Hi' : inv 16 ps hash caching (at_rest f) sy).
    { apply (same_reading 16 d); [exact Hi|]. intros q. destruct (Hf q) as (c & Hd & Ho). exists c. split; [exact Hd|now apply older_reads]. }
    destruct Hi' as (G & Hi'). destruct (open_ok 16 ps hash order ford caching Hps Hps32 (le_n _) Hord Hford _ _ _ Hi') as (d' & p & Ho & _). eauto.
  Qed.
  (** The same for a database of schema version 0. *)
  Theorem older_legacy_as_specified f0 tr d f tr' y : legacy_file f0 -> steps 8 ps hash order ford caching (at_rest f0) tr (Sys d None) ->
    (forall q, exists c, d_dur d q c /\ older 8 c (f q)) -> steps 8 ps hash order ford caching (at_rest f) tr' y ->
    exists sy sy', spec_steps ps (SSys spec_empty None false ∅ ∅) tr sy /\ spec_steps ps sy tr' sy' /\ (forall p, y_proc y = Some p -> shows8 hash order y (sp_cur sy')).
  Proof.
    intros Hl H Hf Hst. destruct (legacy_sim ps hash order ford caching Hps Hps32 Hord Hford f0 tr _ Hl H) as (sy & Hs & Hi). exists sy.
    assert (Hi' : inv 8 ps hash caching (at_rest f) sy).
    { apply (same_reading 8 d); [exact Hi|]. intros q. destruct (Hf q) as (c & Hd & Ho). exists c. split; [exact Hd|now apply older_reads]. }
    destruct (sim_from 8 _ sy tr' y ltac:(lia) Hi' Hst) as (sy' & Hs' & Hy). exists sy'. split; [exact Hs|]. split; [exact Hs'|]. intros p Hp. now apply (inv_shows8 ps hash order ford caching Hps Hps32 Hord Hford y sy' p).
  Qed.
End databases.

(** ** A case *)
(** Two sources are recorded, the process and the machine stop, and the page of recorded positions is as the first version
    would have written it, the sources in the order in which they came. *)
Definition o_track (src : bytes) (pos : N) : request := Req [NE [1] [] [[97]] None []] None (Some (Tracking src pos)).
Definition o_leaf : trk_leaf := TrkLeaf [[97]; [98]] [3; 7].
Definition o_script : list act := x_batch [o_track [98] 7; o_track [97] 3] 4 ++ [ADone; ACrash].
Definition o_page : bytes := old_page 100 (leaf_v0 [([98], 7); ([97], 3)]) (replicate 4049 0).
Definition o_check (y : sys) : bool :=
  match y with
  | Sys d None => match d_cur d 5 with Some b => match page_de 16 b with Ok (NTrkLeaf n) => bool_decide (n = o_leaf) && (nth 9 b 0 =? 1) | _ => false end | None => false end
  | _ => false
  end.
Example older_example : exists tr d f, f_run tr (Sys d None) /\ LCommit [o_track [98] 7; o_track [97] 3] [Ok 1; Ok 2] ∈ tr /\
  (forall q, exists c, d_dur d q c /\ older 16 c (f q)) /\ f 5 = Some o_page /\ f 5 <> d_cur d 5.
Proof.
  destruct (f_runs o_script (replicate 10 LTau ++ [LCommit [o_track [98] 7; o_track [97] 3] [Ok 1; Ok 2]; LCrash []])) as (y & H & E); [vm_compute; reflexivity|].
  assert (HP : match f_exec o_script with Some (_, y) => o_check y | _ => false end = true) by (vm_compute; reflexivity).
  rewrite E in HP. clear E. destruct y as [d [p|]]; [discriminate|]. unfold o_check in HP. destruct (d_cur d 5) as [b|] eqn:Eb; [|discriminate].
  destruct (page_de 16 b) as [n|] eqn:Ep; [|discriminate]. destruct n as [| | | | | | | | | | | |n|]; try discriminate. apply andb_prop in HP as [H1 H2].
  apply bool_decide_eq_true in H1 as ->. apply N.eqb_eq in H2.
  assert (Hc : cur_ok d). { destruct (run_inv 4096 f_hash (fun l => l) x_ford true f_ps f_ps32 x_ord x_ford_ok _ _ H) as (sy & _ & (G & Hi) & _). exact (dn_cur _ _ _ _ _ _ Hi). }
  eexists _, d, (fun q => if q =? 5 then Some o_page else d_cur d q). split; [exact H|]. split; [apply elem_of_list_In; cbn; tauto|]. split; [|split; [reflexivity|]].
  2:{ cbn [N.eqb Pos.eqb]. rewrite Eb. intros Hx. injection Hx as <-. vm_compute in H2. discriminate H2. }
  intros q. exists (d_cur d q). split; [apply Hc|]. destruct (N.eqb_spec q 5) as [->|_]; [|constructor].
  apply (older_leaf 16 (d_cur d 5) o_leaf); [rewrite Eb; exact Ep| | | | |reflexivity].
  - repeat split; cbn; try reflexivity; repeat constructor.
  - repeat constructor.
  - repeat constructor.
  - constructor.
Qed.
(** A header of 48 bytes, and a page of positions that is too full. *)
Example older_header_example : header_de (header48 (Header 5 2 3 4 9 7 0 0)) = Ok (Header 5 2 3 4 9 7 0 0) /\ header_ok (Header 5 2 3 4 9 7 0 0).
Proof. split; [vm_compute; reflexivity|]. repeat split; reflexivity. Qed.
Example leaf_v0_example : trk_leaf_de [0; 3;0;0;0; 1;0;0;0;98; 1;0;0;0;99; 1;0;0;0;97; 2;0;0;0;0;0;0;0; 3;0;0;0;0;0;0;0; 1;0;0;0;0;0;0;0] = Ok (TrkLeaf [[97]; [98]; [99]] [1; 2; 3]).
Proof. vm_compute. reflexivity. Qed.

(** ** The layout of a page *)
(** Pages of each kind, computed with other software from the description of the layout: what is written, and how it is read. *)
Definition page_vectors : list (nat * N * node * bytes) := [
  (16%nat, 80, NHeader (Header 72623859790382856 2 3 4 5 6 1 0), [49;151;27;137;39;52;0;0;0;8;7;6;5;4;3;2;1;5;0;0;0;0;0;0;0;2;0;0;0;0;0;0;0;3;0;0;0;0;0;0;0;4;0;0;0;0;0;0;0;6;0;0;0;0;0;0;0;1;0;0;0;0;0;0;0;0;0;0;0;0;0;0;0;0;0;0;0;0;0;0]);
  (16%nat, 80, NHeader (Header 7 2 3 4 5 6 1 258), [49;189;98;96;9;62;0;0;0;7;0;0;0;0;0;0;0;5;0;0;0;0;0;0;0;2;0;0;0;0;0;0;0;3;0;0;0;0;0;0;0;4;0;0;0;0;0;0;0;6;0;0;0;0;0;0;0;1;0;0;0;1;0;2;1;0;0;0;0;0;0;0;0;0;0;0;0;0;0;0]);
  (16%nat, 80, NFreeLeaf (FlLeaf [7;300] [FlValue [5;6] 0; FlValue [] 9]), [50;73;125;166;183;54;0;0;0;2;0;7;0;0;0;0;0;0;0;44;1;0;0;0;0;0;0;2;0;5;0;0;0;0;0;0;0;6;0;0;0;0;0;0;0;0;0;0;0;0;0;0;0;0;0;9;0;0;0;0;0;0;0;0;0;0;0;0;0;0;0;0;0;0;0;0;0;0;0;0]);
  (16%nat, 60, NFreeInt (INode [7;300] [5;6;8]), [51;157;136;206;140;44;0;0;0;2;0;7;0;0;0;0;0;0;0;44;1;0;0;0;0;0;0;3;0;5;0;0;0;0;0;0;0;6;0;0;0;0;0;0;0;8;0;0;0;0;0;0;0;0;0;0;0;0;0;0]);
  (16%nat, 160, NEvLeaf (EvLeaf [1;2;3] [Inline (EventRecord [84;121] [9;8;7] [[97];[98;99]] (Some [16;17;18;19;20;21;22;23;24;25;26;27;28;29;30;31]) [([107],[118;119])] (Some (Tracking [115;114;99] 300))); Inline (EventRecord [84] [] [] None [] None); Inline (EventRecord [84] [1] [] None [([107],[])] None)]), [52;178;20;120;205;107;0;0;0;3;0;1;0;0;0;0;0;0;0;2;0;0;0;0;0;0;0;3;0;0;0;0;0;0;0;14;2;0;84;121;3;0;9;8;7;2;0;1;0;97;2;0;98;99;16;17;18;19;20;21;22;23;24;25;26;27;28;29;30;31;1;0;1;0;107;2;0;118;119;3;0;115;114;99;44;1;0;0;0;0;0;0;0;1;0;84;0;0;0;0;4;1;0;84;1;0;1;0;0;1;0;1;0;107;0;0;0;0;0;0;0;0;0;0;0;0;0;0;0;0;0;0;0;0;0;0;0;0;0;0;0;0;0;0;0;0;0;0;0;0;0;0;0;0;0;0;0;0;0;0]);
  (16%nat, 160, NEvLeaf (EvLeaf [1;2] [Overflow [84;121] 5000 [[97]] 77 (Some [16;17;18;19;20;21;22;23;24;25;26;27;28;29;30;31]) 20 (Some (Tracking [115;114;99] 300)); Overflow [84] 5001 [] 78 None 0 None]), [52;31;159;211;1;103;0;0;0;2;0;1;0;0;0;0;0;0;0;2;0;0;0;0;0;0;0;15;2;0;84;121;136;19;0;0;0;0;0;0;1;0;1;0;97;77;0;0;0;0;0;0;0;16;17;18;19;20;21;22;23;24;25;26;27;28;29;30;31;20;0;0;0;0;0;0;0;3;0;115;114;99;44;1;0;0;0;0;0;0;1;1;0;84;137;19;0;0;0;0;0;0;0;0;78;0;0;0;0;0;0;0;0;0;0;0;0;0;0;0;0;0;0;0;0;0;0;0;0;0;0;0;0;0;0;0;0;0;0;0;0;0;0;0;0;0;0;0;0;0;0;0;0;0;0;0;0;0;0;0]);
  (16%nat, 60, NEvInt (INode [7;300] [5;6;8]), [53;101;70;204;73;42;0;0;0;2;0;7;0;0;0;0;0;0;0;44;1;0;0;0;0;0;0;5;0;0;0;0;0;0;0;6;0;0;0;0;0;0;0;8;0;0;0;0;0;0;0;0;0;0;0;0;0;0;0;0]);
  (16%nat, 30, NEvOverflow (EvOverflow 300 [9;8;7]), [97;230;227;175;81;11;0;0;0;44;1;0;0;0;0;0;0;9;8;7;0;0;0;0;0;0;0;0;0;0]);
  (16%nat, 100, NTagsLeaf (TagsLeaf [[1;2;3;4;5;6;7;8;9;10;11;12;13;14;15;16];[101;102;103;104;105;106;107;108;109;110;111;112;113;114;115;116]] [TagsValue 0 [5;6]; TagsValue 9 []]), [54;7;124;142;221;70;0;0;0;2;0;1;2;3;4;5;6;7;8;9;10;11;12;13;14;15;16;101;102;103;104;105;106;107;108;109;110;111;112;113;114;115;116;0;0;0;0;0;0;0;0;2;0;5;0;0;0;0;0;0;0;6;0;0;0;0;0;0;0;9;0;0;0;0;0;0;0;0;0;0;0;0;0;0;0;0;0;0;0;0;0;0;0;0;0;0;0;0;0;0]);
  (8%nat, 60, NTagsLeaf (TagsLeaf [[1;2;3;4;5;6;7;8;0;0;0;0;0;0;0;0]] [TagsValue 0 [5;6]]), [54;17;152;202;103;36;0;0;0;1;0;1;2;3;4;5;6;7;8;0;0;0;0;0;0;0;0;2;0;5;0;0;0;0;0;0;0;6;0;0;0;0;0;0;0;0;0;0;0;0;0;0;0;0;0;0;0;0;0;0]);
  (16%nat, 60, NTagsInt (INode [[1;2;3;4;5;6;7;8;9;10;11;12;13;14;15;16]] [5;6]), [55;134;164;217;163;34;0;0;0;1;0;1;2;3;4;5;6;7;8;9;10;11;12;13;14;15;16;5;0;0;0;0;0;0;0;6;0;0;0;0;0;0;0;0;0;0;0;0;0;0;0;0;0;0;0;0;0;0;0;0]);
  (8%nat, 60, NTagsInt (INode [[1;2;3;4;5;6;7;8;0;0;0;0;0;0;0;0]] [5;6]), [55;247;77;157;2;26;0;0;0;1;0;1;2;3;4;5;6;7;8;5;0;0;0;0;0;0;0;6;0;0;0;0;0;0;0;0;0;0;0;0;0;0;0;0;0;0;0;0;0;0;0;0;0;0;0;0;0;0;0;0]);
  (16%nat, 40, NTagLeaf [7;300], [56;22;32;152;151;18;0;0;0;2;0;7;0;0;0;0;0;0;0;44;1;0;0;0;0;0;0;0;0;0;0;0;0;0;0;0;0;0;0;0]);
  (16%nat, 60, NTagInt (INode [7] [5;6]), [57;67;251;223;197;26;0;0;0;1;0;7;0;0;0;0;0;0;0;5;0;0;0;0;0;0;0;6;0;0;0;0;0;0;0;0;0;0;0;0;0;0;0;0;0;0;0;0;0;0;0;0;0;0;0;0;0;0;0;0]);
  (16%nat, 40, NTsnLeaf [7;300], [98;22;32;152;151;18;0;0;0;2;0;7;0;0;0;0;0;0;0;44;1;0;0;0;0;0;0;0;0;0;0;0;0;0;0;0;0;0;0;0]);
  (16%nat, 60, NTsnInt (INode [7] [5;6]), [99;192;78;228;224;28;0;0;0;1;0;7;0;0;0;0;0;0;0;2;0;5;0;0;0;0;0;0;0;6;0;0;0;0;0;0;0;0;0;0;0;0;0;0;0;0;0;0;0;0;0;0;0;0;0;0;0;0;0;0]);
  (16%nat, 60, NTrkLeaf (TrkLeaf [[97];[98;99]] [7;300]), [100;91;25;72;89;24;0;0;0;1;2;0;1;97;2;98;99;7;0;0;0;0;0;0;0;44;1;0;0;0;0;0;0;0;0;0;0;0;0;0;0;0;0;0;0;0;0;0;0;0;0;0;0;0;0;0;0;0;0;0]);
  (16%nat, 60, NTrkInt (INode [[98;99]] [5;6]), [101;135;43;57;42;22;0;0;0;1;1;0;2;98;99;5;0;0;0;0;0;0;0;6;0;0;0;0;0;0;0;0;0;0;0;0;0;0;0;0;0;0;0;0;0;0;0;0;0;0;0;0;0;0;0;0;0;0;0;0])].
Theorem page_vectors_hold : Forall (fun x : nat * N * node * bytes => let '(kw, ps, n, b) := x in page_ser kw ps n = Ok b /\ page_de kw b = Ok n) page_vectors.
Proof. unfold page_vectors. repeat (constructor; [split; vm_compute; reflexivity|]). constructor. Qed.

Print Assumptions header48_read.
Print Assumptions header52_read.
Print Assumptions leaf_v0_read.
Print Assumptions leaf_v0_refused.
Print Assumptions long_source_refused.
Print Assumptions older_reads.
Print Assumptions older_as_specified.
Print Assumptions older_opens.
Print Assumptions older_legacy_as_specified.
Print Assumptions page_vectors_hold.
