(** Property C107: the tag index on the disk is exact; and C106 for the pages of a healthy database.

    What the index says is read off the file with [filed], which only knows the file format (tags_tree_nodes.rs: TagsLeafNode,
    TagsLeafValue, TagLeafNode, and the two kinds of internal node). *)
From Verif Require Import Mvcc MvccProofs SpecProofs StoreProofs ReadProofs LookupProofs TagsProofs Exec PropsStore PropsPages PropsSpace PropsFits PropsLegacy.
From Verif Require Import Forensic PropsForensic.
Local Open Scope N_scope.

(** [lists get p pos]: the tree of positions rooted at page [p] has [pos]. *)
Inductive lists (get : N -> option node) : N -> N -> Prop :=
  | lists_leaf p l pos : get p = Some (NTagLeaf l) -> pos ∈ l -> lists get p pos
  | lists_int p i c pos : get p = Some (NTagInt i) -> c ∈ in_children i -> lists get c pos -> lists get p pos.
(** [filed get p k pos]: the tag index rooted at page [p] has position [pos] under key [k]. *)
Inductive filed (get : N -> option node) : N -> bytes -> N -> Prop :=
  | filed_here p l i k v pos : get p = Some (NTagsLeaf l) -> tl_keys l !! i = Some k -> tl_values l !! i = Some v -> pos ∈ tv_positions v -> filed get p k pos
  | filed_tree p l i k v pos : get p = Some (NTagsLeaf l) -> tl_keys l !! i = Some k -> tl_values l !! i = Some v -> tv_root v <> 0 ->
      lists get (tv_root v) pos -> filed get p k pos
  | filed_int p i c k pos : get p = Some (NTagsInt i) -> c ∈ in_children i -> filed get c k pos -> filed get p k pos.
(** [leaf_of get p q n]: page [q] is a leaf of the tag index rooted at page [p], and holds [n]. *)
Inductive leaf_of (get : N -> option node) : N -> N -> tags_leaf -> Prop :=
  | leaf_self p n : get p = Some (NTagsLeaf n) -> leaf_of get p p n
  | leaf_int p i c q n : get p = Some (NTagsInt i) -> c ∈ in_children i -> leaf_of get c q n -> leaf_of get p q n.

Lemma pertag_lists get root P l pos : pertag get root P l -> lists get root pos <-> pos ∈ l.
Proof.
  intros (h & ts & Hs & Ht & _).
  destruct (tree_says (tag_ops 0) tagleaf get (fun p => lists get p pos) (fun x => x = pos)) as [H _].
  - intros p n P' es Hg _ [-> ->]. split.
    + intros Hl. inversion Hl as [? l' ? Hg' Hq|? i c ? Hg']; subst; [|congruence]. assert (l' = es) as -> by congruence. eauto.
    + intros (e & He & ->). eapply lists_leaf; eassumption.
  - intros p n ks cs Hg Hl Hi. destruct n as [| | | | | | | | |[ks' cs'] | | | |]; cbn in Hl, Hi; try discriminate. injection Hi as -> ->. split.
    + intros Hq. inversion Hq as [? l' ? Hg' Hq'|? i c ? Hg' Hc Hq']; subst; [congruence|]. assert (i = INode ks cs) as -> by congruence. eauto.
    + intros (c & Hc & Hq). eapply lists_int; eassumption.
  - rewrite (H _ _ _ _ Hs), Ht. split; [intros (e & He & <-); exact He|eauto].
Qed.
Lemma tvs_at kw ps (get : N -> option node) vs P (l : list (list N)) k v : listrep (tvrep kw ps) get vs P l -> vs !! k = Some v ->
  exists a Pv, l !! k = Some a /\ tvrep kw ps get v Pv a.
Proof.
  intros H. revert k. induction H as [|v' vs P P' a l H1 H2 IH]; intros k Hk; [destruct k; discriminate|].
  destruct k as [|k]; [injection Hk as ->; cbn; eauto|]. exact (IH k Hk).
Qed.
Lemma tvs_len kw ps (get : N -> option node) vs P (l : list (list N)) : listrep (tvrep kw ps) get vs P l -> length vs = length l.
Proof. induction 1 as [|v vs P P' a l H1 H2 IH]; cbn; congruence. Qed.
Lemma tags_keys_nodup ts : tags_sorted ts -> NoDup (map fst (toks_es ts)).
Proof.
  intros H. apply tsorted_es in H. revert H. generalize (map fst (toks_es ts)). induction 1 as [|k l _ IH Hk]; constructor; [|exact IH].
  intros Hin. rewrite Forall_forall in Hk. apply Hk in Hin. now apply clt_irrefl in Hin; [|apply bytes_cmp_ok].
Qed.
Lemma index_filed kw ps get h root P ts k pos : shape (tags_ops []) (tagsleaf kw ps) get h root P ts -> tags_sorted ts ->
  filed get root k pos <-> pos ∈ idx (toks_es ts) k.
Proof.
  intros Hs Hsrt.
  destruct (tree_says (tags_ops []) (tagsleaf kw ps) get (fun p => filed get p k pos) (fun e => e.1 = k /\ pos ∈ e.2)) as [H _].
  - intros p n P' es' Hg _ (vs & -> & Hv). split.
    + intros Hr. inversion Hr as [? l i ? v ? Hg' Hk Hvk Hq|? l i ? v ? Hg' Hk Hvk Hnz Hq|? i ? ? ? Hg']; subst; try congruence.
      all: assert (l = TagsLeaf (map fst es') vs) as -> by congruence; cbn [tl_keys tl_values] in Hk, Hvk.
      all: destruct (tvs_at _ _ _ _ _ _ _ _ Hv Hvk) as (a & Pv & Ha & Hf); rewrite map_at in Ha; rewrite map_at in Hk.
      all: destruct (es' !! i) as [e|] eqn:Ee; [|discriminate]; injection Ha as <-; injection Hk as <-.
      all: exists e; split; [eapply elem_of_list_lookup_2; exact Ee|]; split; [reflexivity|].
      * destruct Hf as [_ [(_ & _ & <- & _)|(_ & E0 & _)]]; [exact Hq|]. rewrite E0 in Hq. inversion Hq.
      * destruct Hf as [_ [(E0 & _)|(_ & _ & Htr)]]; [contradiction|]. now apply (pertag_lists _ _ _ _ _ Htr).
    + intros (e & He & <- & Hq). apply elem_of_list_lookup in He as (i & Hi).
      destruct (lookup_lt_is_Some_2 vs i) as (v & Hvk).
      { rewrite (tvs_len _ _ _ _ _ _ Hv), map_length. eapply lookup_lt_Some; exact Hi. }
      destruct (tvs_at _ _ _ _ _ _ _ _ Hv Hvk) as (a & Pv & Ha & Hf). rewrite map_at, Hi in Ha. injection Ha as <-.
      assert (tl_keys (TagsLeaf (map fst es') vs) !! i = Some e.1) as Hkk by (cbn [tl_keys]; now rewrite map_at, Hi).
      destruct Hf as [_ [(_ & _ & E0 & _)|(Hnz & _ & Htr)]].
      * eapply filed_here; [exact Hg|exact Hkk|exact Hvk|]. now rewrite E0.
      * eapply filed_tree; [exact Hg|exact Hkk|exact Hvk|exact Hnz|]. now apply (pertag_lists _ _ _ _ _ Htr).
  - intros p n ks cs Hg Hl Hi. destruct n as [| | | | | | |[ks' cs'] | | | | | |]; cbn in Hl, Hi; try discriminate. injection Hi as -> ->. split.
    + intros Hq. inversion Hq as [? l i ? v ? Hg'|? l i ? v ? Hg'|? i c ? ? Hg' Hc Hq']; subst; try congruence.
      assert (i = INode ks cs) as -> by congruence. eauto.
    + intros (c & Hc & Hq). eapply filed_int; eassumption.
  - rewrite (H _ _ _ _ Hs). unfold idx. split.
    + intros ([k' l] & He & <- & Hq). cbn in *. rewrite (alookup_nodup _ _ _ (tags_keys_nodup _ Hsrt) He). exact Hq.
    + destruct (alookup k (toks_es ts)) as [l|] eqn:E; [|intros Hq; inversion Hq]. intros Hq. apply alookup_in in E. exists (k, l). auto.
Qed.
Lemma leaf_keyed kw ps get h root P ts q n k : shape (tags_ops []) (tagsleaf kw ps) get h root P ts -> leaf_of get root q n -> k ∈ tl_keys n -> exists e, e ∈ toks_es ts /\ e.1 = k.
Proof.
  intros Hs Hl Hk.
  destruct (tree_says (tags_ops []) (tagsleaf kw ps) get (fun p => exists q n, leaf_of get p q n /\ k ∈ tl_keys n) (fun e => e.1 = k)) as [H _].
  - intros p m P' es' Hg _ (vs & -> & Hv). split.
    + intros (q' & n' & Hl' & Hk'). inversion Hl' as [? ? Hg'|? i c ? ? Hg']; subst; [|congruence]. assert (n' = TagsLeaf (map fst es') vs) as -> by congruence. cbn [tl_keys] in Hk'.
      apply elem_of_list_fmap in Hk' as (e & -> & He). eauto.
    + intros (e & He & <-). exists p, (TagsLeaf (map fst es') vs). split; [now constructor|]. cbn [tl_keys]. now apply elem_of_list_fmap_1.
  - intros p m ks cs Hg Hlf Hi. destruct m as [| | | | | | |[ks' cs'] | | | | | |]; cbn in Hlf, Hi; try discriminate. injection Hi as -> ->. split.
    + intros (q' & n' & Hl' & Hk'). inversion Hl' as [? ? Hg'|? i c ? ? Hg' Hc Hq']; subst; [congruence|]. assert (i = INode ks cs) as -> by congruence. eauto 6.
    + intros (c & Hc & q' & n' & Hl' & Hk'). exists q', n'. split; [eapply leaf_int; eassumption|exact Hk'].
  - apply (H _ _ _ _ Hs). eauto.
Qed.
Lemma leaf_filed get root q n k pos : leaf_of get root q n -> (k, pos) ∈ PropsForensic.pairs (entries_of n) -> filed get root k pos.
Proof.
  intros Hl Hp. induction Hl as [p n Hg|p i c q n Hg Hc _ IH]; [|eapply filed_int; eauto].
  apply elem_of_list_In, in_flat_map in Hp as ([k' l] & He & Hp). apply in_map_iff in Hp as (x & [= <- <-] & Hx). cbn [fst snd] in *. apply elem_of_list_In in He, Hx.
  apply elem_of_list_lookup in He as (j & Hj). apply lookup_zip_with_Some in Hj as (a & b & [= <- <-] & Ha & Hb). rewrite map_at in Hb. destruct (tl_values n !! j) as [v|] eqn:Ev; [|discriminate]. injection Hb as <-.
  eapply filed_here; eassumption.
Qed.

(** ** Bytes after a leaf do not matter *)
Definition steady {A} (rd : reader A) : Prop := forall s x s' c, rd s = Ok (x, s') -> rd (s ++ c) = Ok (x, s' ++ c).
Lemma bytes_steady n : steady (read_bytes n).
Proof.
  intros s x s' c. rewrite !read_bytes_eq. destruct (Nat.ltb_spec (length s) n); [discriminate|]. intros [= <- <-]. rewrite (proj2 (Nat.ltb_ge _ _)) by (rewrite app_length; lia). now rewrite take_app_le, drop_app_le by lia.
Qed.
Lemma list_steady {A} (rd : reader A) n : steady rd -> steady (read_list rd n).
Proof.
  intros Hrd. induction n as [|n IH]; intros s x s' c; cbn [read_list]; [now intros [= <- <-]|].
  destruct (rd s) as [[y s1]|] eqn:E1; [|discriminate]. cbn [rbind]. destruct (read_list rd n s1) as [[ys s2]|] eqn:E2; [|discriminate]. cbn [rbind]. intros [= <- <-].
  rewrite (Hrd _ _ _ c E1). cbn [rbind]. now rewrite (IH _ _ _ c E2).
Qed.
Lemma u64_steady : steady read_u64.
Proof. intros s x s' c. unfold read_u64. destruct (read_bytes 8 s) as [[b s1]|] eqn:E; [|discriminate]. cbn [rbind]. intros [= <- <-]. now rewrite (bytes_steady _ _ _ _ c E). Qed.
Lemma u16_steady : steady read_u16.
Proof. intros s x s' c. unfold read_u16. destruct (read_bytes 2 s) as [[b s1]|] eqn:E; [|discriminate]. cbn [rbind]. intros [= <- <-]. now rewrite (bytes_steady _ _ _ _ c E). Qed.
Lemma hash_steady kw : steady (read_tag_hash kw).
Proof. intros s x s' c. unfold read_tag_hash. destruct (read_bytes kw s) as [[b s1]|] eqn:E; [|discriminate]. cbn [rbind]. intros [= <- <-]. now rewrite (bytes_steady _ _ _ _ c E). Qed.
Lemma value_steady : steady read_tags_value.
Proof.
  intros s x s' c. unfold read_tags_value. destruct (read_u64 s) as [[r s1]|] eqn:E; [|discriminate]. cbn [rbind]. destruct (read_u16 s1) as [[m s2]|] eqn:E2; [|discriminate]. cbn [rbind].
  destruct (read_list read_u64 (N.to_nat m) s2) as [[l s3]|] eqn:E3; [|discriminate]. cbn [rbind]. intros [= <- <-]. rewrite (u64_steady _ _ _ c E). cbn [rbind]. rewrite (u16_steady _ _ _ c E2). cbn [rbind]. now rewrite (list_steady _ _ u64_steady _ _ _ c E3).
Qed.
Lemma leaf_steady kw s n c : tags_leaf_de kw s = Ok n -> tags_leaf_de kw (s ++ c) = Ok n.
Proof.
  unfold tags_leaf_de. destruct (read_u16 s) as [[m s1]|] eqn:E; [|discriminate]. cbn [rbind]. destruct (read_list (read_tag_hash kw) _ s1) as [[ks s2]|] eqn:E2; [|discriminate]. cbn [rbind].
  destruct (read_list read_tags_value _ s2) as [[vs s3]|] eqn:E3; [|discriminate]. cbn [rbind]. intros [= <-]. rewrite (u16_steady _ _ _ c E). cbn [rbind]. rewrite (list_steady _ _ (hash_steady kw) _ _ _ c E2). cbn [rbind]. now rewrite (list_steady _ _ value_steady _ _ _ c E3).
Qed.
(** A page that holds a leaf of the tag index, read by umadb-check. *)
Lemma page_leaf kw b n : page_de kw b = Ok (NTagsLeaf n) -> (9 <= length b)%nat /\ tags_leaf_de kw (drop 9 b) = Ok n.
Proof.
  unfold page_de. destruct (N.ltb_spec (nlen b) PAGE_HEADER_SIZE) as [|Hb]; [discriminate|]. unfold PAGE_HEADER_SIZE, nlen in Hb.
  destruct (slice_range 0 1 b) as [tyb|]; [|discriminate]. cbn [rbind]. destruct (slice_range 1 5 b) as [crcb|]; [|discriminate]. cbn [rbind]. destruct (slice_range 5 9 b) as [lenb|]; [|discriminate]. cbn [rbind].
  destruct (nlen b <? _); [discriminate|]. destruct (slice_range 9 _ b) as [data|] eqn:E; [|discriminate]. cbn [rbind]. destruct (_ =? _); [|discriminate]. intros H. split; [lia|].
  assert (Hd : tags_leaf_de kw data = Ok n).
  { unfold node_de in H. repeat (match type of H with (if ?c then _ else _) = _ => destruct c end); try discriminate H; try (unfold res_map in H; match type of H with match ?r with _ => _ end = _ => destruct r; discriminate H end). unfold res_map in H. destruct (tags_leaf_de kw data); [|discriminate H]. congruence. }
  unfold slice_range in E. destruct (_ && _) eqn:Eb; [|discriminate E]. injection E as <-. rewrite <- (take_drop (9 + N.to_nat (le_val lenb) - 9) (drop 9 b)). now apply leaf_steady.
Qed.

(** The tags of the events, as the program has found them in stage 3. *)
Definition tags_at (evs : list seq_event) (pos : N) : option (list bytes) := er_tags <$> alookup pos evs.

Section props.
  Context (ps : N) (hash : bytes -> bytes) (order : list bytes -> list bytes) (ford : gset N -> list N) (caching : bool).
  Context (Hps : ps_ok ps) (Hps32 : ps < U32) (Hord : forall l t, t ∈ order l <-> t ∈ l) (Hford : forall s, ford s ≡ₚ elements s).
  Notation run := (run ps hash order ford caching).
  Notation reads p y h := (umadb_read hash order (fetch 16 (p_cache p) (y_disk y)) h [] None false None).

  Lemma held_index d p G : cur_ok d -> held 16 ps hash d (p_cache p) G -> exists hist hd ht P ts,
    (forall force, reads p (Sys d (Some p)) (g_hdr G) force = Ok (hist, hd)) /\ map fst hist = seqN 1 (length hist) /\
    shape (tags_ops []) (tagsleaf 16 ps) (on_disk d) ht (h_tags_root (g_hdr G)) P ts /\ tags_sorted ts /\ indexed hash (toks_es ts) hist.
  Proof.
    intros Hc Hh. destruct (so_hist _ _ _ _ _ (proj1 Hh)) as [_ (ht & ts & Hs & Hsrt & Hidx)].
    exists (s_hist (g_st G)), (spec_read_head (g_st G) None (s_hist (g_st G))), ht, (sn_PT (g_sn G)), ts. split.
    { intros force. rewrite <- (read_all (s_hist (g_st G))). eapply held_response; try eassumption; lia. }
    split; [exact (so_seq _ _ _ _ _ (proj1 Hh))|]. split; [|auto]. eapply shape_frame; [apply tagsleaf_frame|exact Hs|]. intros x Hx. destruct (proj2 Hh x) as (n & Hn & Hg & _).
    - unfold g_live, sn_live. rewrite !elem_of_app. auto.
    - unfold on_disk. now rewrite (Hg _ (Hc x)), Hn.
  Qed.
  Lemma use_index tr y p h : run tr y -> y_proc y = Some p -> in_use p h -> exists hist hd ht P ts,
    (forall force, reads p y h force = Ok (hist, hd)) /\ map fst hist = seqN 1 (length hist) /\
    shape (tags_ops []) (tagsleaf 16 ps) (on_disk (y_disk y)) ht (h_tags_root h) P ts /\ tags_sorted ts /\ indexed hash (toks_es ts) hist.
  Proof.
    intros Hr Hp Hu. destruct (run_in_use ps hash order ford caching Hps Hps32 Hord Hford tr y p h Hr Hp Hu) as (g & sy & G & Hi & <- & Hh & _).
    exact (held_index _ _ _ (u_cur _ _ _ _ _ _ _ _ Hi) Hh).
  Qed.
  (** In every state an execution can reach, in what is committed and in what readers have open: a position is in the index under a
      key exactly if the event there is stored and has a tag with this hash. *)
  Theorem index_exact tr y p h evs hd force k pos : run tr y -> y_proc y = Some p -> in_use p h -> reads p y h force = Ok (evs, hd) ->
    filed (on_disk (y_disk y)) (h_tags_root h) k pos <-> exists r t, (pos, r) ∈ evs /\ t ∈ er_tags r /\ hash t = k.
  Proof.
    intros Hr Hp Hu He. destruct (use_index tr y p h Hr Hp Hu) as (hist & hd' & ht & P & ts & Hrd & _ & Hs & Hsrt & Hidx). rewrite Hrd in He. injection He as <- <-.
    rewrite (index_filed _ _ _ _ _ _ _ k pos Hs Hsrt). apply Hidx.
  Qed.
  (** Of what is committed, the same in terms of the events stored. *)
  Corollary index_exact_stored tr y p s k pos : run tr y -> shows hash order y s -> y_proc y = Some p ->
    filed (on_disk (y_disk y)) (h_tags_root (latest p).2) k pos <-> exists r t, (pos, r) ∈ s_hist s /\ t ∈ er_tags r /\ hash t = k.
  Proof.
    intros Hr (p' & Hp' & Hs & _) Hp. rewrite Hp in Hp'. injection Hp' as <-. specialize (Hs [] None false None false). rewrite read_all in Hs.
    exact (index_exact tr y p (latest p).2 _ _ false k pos Hr Hp (or_introl eq_refl) Hs).
  Qed.
End props.

Section check.
  Context (ps : N) (order : list bytes -> list bytes) (ford : gset N -> list N) (caching : bool).
  Context (Hps : ps_ok ps) (Hps32 : ps < U32) (Hord : forall l t, t ∈ order l <-> t ∈ l) (Hford : forall s, ford s ≡ₚ elements s).
  Notation run := (run ps (tag_to_hash 16) order ford caching).
  Notation reads p y h := (umadb_read (tag_to_hash 16) order (fetch 16 (p_cache p) (y_disk y)) h [] None false None).

  (** Of every leaf of the tag index umadb-check reads all entries; and all positions it finds in it, or in what is left of it when it
      is cut off anywhere, are right. *)
  Theorem check_index tr y p h evs hd force q n b m : run tr y -> y_proc y = Some p -> in_use p h -> reads p y h force = Ok (evs, hd) ->
    leaf_of (on_disk (y_disk y)) (h_tags_root h) q n -> d_cur (y_disk y) q = Some b -> (9 <= m)%nat ->
    forensic_parse_tags_leaf (drop 9 b) 16 = Ok (entries_of n, []) /\
    exists es notes x, forensic_parse_tags_leaf (drop 9 (take m b)) 16 = Ok (es, notes) /\ shows_first es (entries_of n) /\
      forensic_page (take m b) 16 (tags_at evs) = Ok (analyze_entries 16 (tags_at evs) es, x) /\
      let a := analyze_entries 16 (tags_at evs) es in a_mismatches a = [] /\ a_total a = nlen (PropsForensic.pairs es) /\ a_with_event a = a_total a /\ a_matches a = a_total a.
  Proof.
    intros Hr Hp Hu He Hl Hb Hm. destruct (use_index ps (tag_to_hash 16) order ford caching Hps Hps32 Hord Hford tr y p h Hr Hp Hu) as (hist & hd' & ht & P & ts & Hrd & Hseq & Hs & Hsrt & Hidx). rewrite Hrd in He. injection He as <- <-.
    assert (Hq : on_disk (y_disk y) q = Some (NTagsLeaf n)) by (clear -Hl; induction Hl; auto).
    unfold on_disk in Hq. rewrite Hb in Hq. cbn [dec] in Hq. destruct (page_de 16 b) as [n'|] eqn:Ed; [|discriminate Hq]. injection Hq as ->. destruct (page_leaf _ _ _ Ed) as [Hlen Hde].
    pose proof (forensic_exact (drop 9 b) 16 ltac:(lia)) as Hex. rewrite Hde in Hex. split; [exact Hex|].
    assert (Hcut : exists es notes, forensic_parse_tags_leaf (drop 9 (take m b)) 16 = Ok (es, notes)).
    { pose proof (forensic_exact (drop 9 (take m b)) 16 ltac:(lia)) as H. destruct (tags_leaf_de 16 (drop 9 (take m b))); [eauto|]. destruct H as (es & nt & ->). eauto. }
    destruct Hcut as (es & notes & Hcut).
    assert (Hsh : shows_first es (entries_of n)).
    { eapply (forensic_prefix (drop 9 (take m b)) (drop (m - 9) (drop 9 b)) 16); [lia|exact Hcut|]. replace (drop 9 (take m b) ++ drop (m - 9) (drop 9 b)) with (drop 9 b); [exact Hex|].
      rewrite <- (take_drop (m - 9) (drop 9 b)) at 1. f_equal. rewrite take_drop_commute. do 2 f_equal. lia. }
    assert (Hright : forall x, x ∈ PropsForensic.pairs es -> right 16 (tags_at hist) x).
    { intros [k pos] Hx. assert (Hin : (k, pos) ∈ PropsForensic.pairs (entries_of n)).
      { apply elem_of_list_In, in_flat_map in Hx as ([k' l] & Hi & Hx). apply in_map_iff in Hx as (x & [= <- <-] & Hx). cbn [fst snd] in *. apply elem_of_list_In, elem_of_list_lookup in Hi as (j & Hj). destruct (Hsh _ _ _ Hj) as (qs & Hj' & _).
        apply elem_of_list_In, in_flat_map. exists (k', l ++ qs). split; [apply elem_of_list_In; eapply elem_of_list_lookup_2; exact Hj'|]. cbn [fst snd]. apply in_map, in_or_app. now left. }
      pose proof (leaf_filed _ _ _ _ _ _ Hl Hin) as Hf. apply (index_filed _ _ _ _ _ _ _ k pos Hs Hsrt), Hidx in Hf as (r & t & H1 & H2 & H3).
      exists (er_tags r), t. cbn [fst snd]. split; [|auto]. unfold tags_at. rewrite (alookup_nodup hist pos r); [reflexivity| |exact H1]. rewrite Hseq. apply NoDup_seqN. }
    assert (Hkeys : Forall (fun e => hash_ok 16 (fst e)) es).
    { apply Forall_forall. intros [k l] Hi. apply elem_of_list_lookup in Hi as (j & Hj). destruct (Hsh _ _ _ Hj) as (qs & Hj' & _). cbn [fst]. apply lookup_zip_with_Some in Hj' as (a & c & [= <- _] & Ha & _).
      apply elem_of_list_lookup_2 in Ha. destruct (leaf_keyed _ _ _ _ _ _ _ _ _ _ Hs Hl Ha) as ([k' l'] & Hi' & Ek). cbn in Ek. subst k'. pose proof (tags_nonempty _ _ _ _ _ _ _ Hs) as Hne. rewrite Forall_forall in Hne. specialize (Hne _ Hi'). cbn in Hne.
      destruct l' as [|pos l']; [contradiction|]. destruct (proj1 (Hidx k pos)) as (r & t & _ & _ & <-); [|exact (proj1 (tag_hash_stored 16 t (or_intror eq_refl)))].
      unfold idx. rewrite (alookup_nodup _ _ _ (tags_keys_nodup _ Hsrt) Hi'). now left. }
    assert (Hpage : exists x, forensic_page (take m b) 16 (tags_at hist) = Ok (analyze_entries 16 (tags_at hist) es, x)).
    { unfold forensic_page. rewrite (proj2 (Nat.leb_le _ _)) by (rewrite take_length; lia). rewrite Hcut. cbn [rbind]. pose proof (forensic_exact (drop 9 (take m b)) 8 ltac:(lia)) as H. destruct (tags_leaf_de 8 (drop 9 (take m b))); [rewrite H|destruct H as (es' & nt & ->)]; cbn [rbind]; eauto. }
    destruct Hpage as (x & Hpage). exists es, notes, x. split; [exact Hcut|]. split; [exact Hsh|]. split; [exact Hpage|]. cbv zeta.
    destruct (forensic_counts 16 (tags_at hist) es (or_intror eq_refl) Hkeys) as (-> & -> & -> & _). split.
    - apply (forensic_all_match 16 (tags_at hist) es (or_intror eq_refl) Hkeys). auto.
    - split; [reflexivity|]. assert (All : forall (Q : bytes * N -> Prop) `{forall z, Decision (Q z)} (l : list (bytes * N)), (forall z, z ∈ l -> Q z) -> filter Q l = l).
      { clear. intros Q HQ l. induction l as [|z l IH]; intros H; [reflexivity|]. rewrite filter_cons_True by (apply H; now left). rewrite IH; [reflexivity|]. intros w Hw. apply H. now right. }
      rewrite !All; [auto|exact Hright|]. intros z Hz. destruct (Hright z Hz) as (tags & t & H1 & _). exists tags. exact H1.
  Qed.
End check.

(** An execution with the hash of the code: one event with tags "a" and "b", then one with "b"; and one of 130 events with tag "a", whose
    positions do not fit into the leaf. *)
Definition i_hash := tag_to_hash 16.
Notation i_exec := (exec 16 1024 i_hash (fun l => l) x_ford true (init_sys 16 1024)).
Notation i_run := (run 1024 i_hash (fun l => l) x_ford true).
Notation i_reads p y := (umadb_read i_hash (fun l => l) (fetch 16 (p_cache p) (y_disk y)) (latest p).2 [] None false None).
Lemma i_found s (P : sys -> bool) : match i_exec s with Some (_, y) => P y | None => false end = true -> exists tr y, i_run tr y /\ P y = true.
Proof.
  destruct (i_exec s) as [[tr y]|] eqn:E; [|discriminate]. intros HP. destruct (exec_runs 1024 i_hash (fun l => l) x_ford true x_ps x_ps32 x_ord x_ford_ok s tr) as (y' & H & E'); [now rewrite E|].
  exists tr, y. split; [|exact HP]. congruence.
Qed.
Definition i_script := x_batch [xr1] 3 ++ [ADone] ++ x_batch [xr6] 4 ++ [ADone].
Definition i_leaf : tags_leaf := TagsLeaf [i_hash xb; i_hash xa] [TagsValue 0 [1; 2]; TagsValue 0 [1]].
Definition i_p (y : sys) : bool := match y_proc y with
  | Some p => match i_reads p y false, d_cur (y_disk y) 3 with
    | Ok (evs, hd), Some b => (h_tags_root (latest p).2 =? 3) && bool_decide (on_disk (y_disk y) 3 = Some (NTagsLeaf i_leaf)) &&
        bool_decide (map (fun e => (e.1, er_tags e.2)) evs = [(1, [xa; xb]); (2, [xb])]) &&
        match forensic_page (take 62 b) 16 (tags_at evs) with Ok (a, _) => bool_decide ((a_total a, a_with_event a, a_matches a, a_mismatches a) = (1, 1, 1, [])) | Err _ => false end
    | _, _ => false end
  | None => false end.
Lemma i_p_found : exists tr y, i_run tr y /\ i_p y = true.
Proof. apply (i_found i_script). vm_compute. reflexivity. Qed.
Example index_example : exists tr y p evs hd b x, i_run tr y /\ y_proc y = Some p /\ in_use p (latest p).2 /\ i_reads p y false = Ok (evs, hd) /\
  map (fun e => (e.1, er_tags e.2)) evs = [(1, [xa; xb]); (2, [xb])] /\
  leaf_of (on_disk (y_disk y)) (h_tags_root (latest p).2) 3 i_leaf /\ filed (on_disk (y_disk y)) (h_tags_root (latest p).2) (i_hash xb) 2 /\
  d_cur (y_disk y) 3 = Some b /\ forensic_page (take 62 b) 16 (tags_at evs) = Ok (Analysis 1 1 1 [], x).
Proof.
  destruct i_p_found as (tr & y & Hr & H). unfold i_p in H. destruct (y_proc y) as [p|] eqn:Ep; [|discriminate H]. destruct (i_reads p y false) as [[evs hd]|] eqn:Er; [|discriminate H].
  destruct (d_cur (y_disk y) 3) as [b|] eqn:Eb; [|discriminate H]. apply andb_prop in H as [H H4]. apply andb_prop in H as [H H3]. apply andb_prop in H as [H1 H2].
  apply N.eqb_eq in H1. apply bool_decide_eq_true in H2, H3. destruct (forensic_page (take 62 b) 16 (tags_at evs)) as [[[a1 a2 a3 a4] x]|] eqn:Ef; [|discriminate H4]. apply bool_decide_eq_true in H4. cbn in H4. injection H4 as -> -> -> ->.
  exists tr, y, p, evs, hd, b, x. do 2 (split; [assumption|]). split; [now left|]. split; [exact Er|]. split; [exact H3|]. rewrite H1. split; [now constructor|]. split; [|auto].
  eapply (filed_here _ 3 i_leaf 0); [exact H2|reflexivity|reflexivity|]. right. left.
Qed.
Definition i_many := Req (replicate 130 (NE xz [] [xa] None [])) None None.
Definition i_p2 (y : sys) : bool := match y_proc y with
  | Some p => match on_disk (y_disk y) (h_tags_root (latest p).2) with
    | Some (NTagsLeaf (TagsLeaf [k] [v])) => bool_decide (k = x_hash xa) && negb (tv_root v =? 0) && match on_disk (y_disk y) (tv_root v) with
       | Some (NTagInt i) => existsb (fun c => match on_disk (y_disk y) c with Some (NTagLeaf l) => bool_decide (130 ∈ l) | _ => false end) (in_children i)
       | Some (NTagLeaf l) => bool_decide (130 ∈ l)
       | _ => false end
    | _ => false end
  | None => false end.
Lemma i_p2_found : exists tr y, x_run tr y /\ i_p2 y = true.
Proof. apply (x_found (x_batch [i_many] 9 ++ [ADone])). vm_compute. reflexivity. Qed.
Example index_tree_example : exists tr y p n v, x_run tr y /\ y_proc y = Some p /\ on_disk (y_disk y) (h_tags_root (latest p).2) = Some (NTagsLeaf n) /\
  tl_values n = [v] /\ tv_root v <> 0 /\ lists (on_disk (y_disk y)) (tv_root v) 130 /\ filed (on_disk (y_disk y)) (h_tags_root (latest p).2) (x_hash xa) 130.
Proof.
  destruct i_p2_found as (tr & y & Hr & H). unfold i_p2 in H. destruct (y_proc y) as [p|] eqn:Ep; [|discriminate H]. destruct (on_disk (y_disk y) (h_tags_root (latest p).2)) as [nd|] eqn:En; [|discriminate H].
  destruct nd as [| | | | | |[ks vs]| | | | | | |]; try discriminate H. destruct ks as [|k [|? ?]]; try discriminate H. destruct vs as [|v [|? ?]]; try discriminate H.
  apply andb_prop in H as [H H3]. apply andb_prop in H as [H1 H2]. apply bool_decide_eq_true in H1. apply negb_true_iff, N.eqb_neq in H2.
  assert (L : lists (on_disk (y_disk y)) (tv_root v) 130).
  { destruct (on_disk (y_disk y) (tv_root v)) as [nd|] eqn:Et; [|discriminate H3]. destruct nd; try discriminate H3.
    - apply bool_decide_eq_true in H3. eapply lists_leaf; eassumption.
    - apply existsb_exists in H3 as (c & Hc & H3). apply elem_of_list_In in Hc. destruct (on_disk (y_disk y) c) as [nd|] eqn:Ec; [|discriminate H3]. destruct nd; try discriminate H3. apply bool_decide_eq_true in H3.
      eapply lists_int; [exact Et|exact Hc|]. eapply lists_leaf; eassumption. }
  exists tr, y, p, (TagsLeaf [k] [v]), v. do 2 (split; [assumption|]). split; [exact En|]. split; [reflexivity|]. split; [exact H2|]. split; [exact L|].
  eapply (filed_tree _ _ (TagsLeaf [k] [v]) 0); [exact En|cbn; now rewrite H1|reflexivity|exact H2|exact L].
Qed.
Print Assumptions index_exact.
Print Assumptions index_exact_stored.
Print Assumptions check_index.
