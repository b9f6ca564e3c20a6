(** Insertion into the tags tree keeps its content and order. *)
From Verif Require Export SearchTree TagsTree.
Local Open Scope N_scope.

Section shape_ops.
  Context {K E : Type} (o1 o2 : tree_ops K) (lr : (N -> option node) -> node -> list N -> list E -> Prop).
  Context (HL : forall n, t_leaf o1 n = t_leaf o2 n) (HI : forall n, t_int o1 n = t_int o2 n).
  Lemma shape_ops get h p P ts : shape o1 lr get h p P ts -> shape o2 lr get h p P ts.
  Proof.
    revert h p P ts.
    apply (shape_mut o1 lr get (fun h p P ts _ => shape o2 lr get h p P ts) (fun h ks cs P ts _ => rforest o2 lr get h ks cs P ts)).
    - intros. econstructor; try eassumption. now rewrite <- HL.
    - intros. econstructor; try eassumption; [now rewrite <- HL|now rewrite <- HI].
    - constructor.
    - intros. now constructor.
  Qed.
End shape_ops.

(** ** The positions of one tag *)
Definition tagleaf (get : N -> option node) (n : node) (P : list N) (es : list N) : Prop := P = [] /\ n = NTagLeaf es.
Lemma tagleaf_frame get get' n P es :
  tagleaf get n P es -> (forall q, q ∈ P -> get' q = get q) -> tagleaf get' n P es.
Proof. auto. Qed.
Notation tagshape := (shape (tag_ops 0) tagleaf).
Definition Nle_sorted : list (tok N N) -> Prop := wsorted N.compare id.
Definition pertag (get : N -> option node) (root : N) (P : list N) (ps : list N) : Prop :=
  exists h ts, tagshape get h root P ts /\ toks_es ts = ps /\ wsorted N.compare id ts /\ sep_ok id ts.

Lemma pertag_frame get get' root P ps :
  pertag get root P ps -> (forall q, q ∈ P -> get' q = get q) -> pertag get' root P ps.
Proof.
  intros (h & ts & Hs & Ht & Hw & Hsep) Hq. exists h, ts. repeat split; auto.
  eapply shape_frame; [apply tagleaf_frame|exact Hs|exact Hq].
Qed.
Lemma pertag_root_in get root P ps : pertag get root P ps -> root ∈ P.
Proof. intros (h & ts & Hs & _). destruct (shape_head _ _ _ _ _ _ _ Hs) as [P' ->]. now left. Qed.

Lemma cleN a b : cle N.compare a b <-> a <= b.
Proof. unfold cle. rewrite N.compare_gt_iff. lia. Qed.
Lemma cltN a b : clt N.compare a b <-> a < b.
Proof. unfold clt. apply N.compare_lt_iff. Qed.

Lemma sep_ok_ks {K E} (ekey : E -> K) ts k : sep_ok ekey ts -> TS k ∈ ts -> exists e, TE e ∈ ts /\ ekey e = k.
Proof.
  intros H Hin. apply elem_of_list_split in Hin as (l & r & ->). apply sep_ok_cut2 in H as (e & r' & -> & He).
  exists e. split; [|exact He]. set_solver.
Qed.

Section per_tag.
  Context (rd : snapshot) (kw : nat) (ps : N) (Hps : ps_ok ps).

  Lemma per_tag_insert_ok w P Q root l pos :
    coh rd w -> pool_ok w (P ++ Q) -> pertag (vget rd w) root P l -> (forall p, p ∈ l -> p <= pos) ->
    exists w' root' P', per_tag_insert rd kw ps root pos w = (Ok root', w') /\ acc rd P w P' w' /\
      pertag (vget rd w') root' P' (l ++ [pos]).
  Proof.
    intros Hc Hp (h & ts & Hs & Ees & Hsrt & Hsep) Hle. unfold per_tag_insert.
    unfold wbind at 1. unfold gets at 1.
    destruct (pool_height _ _ _ _ _ _ _ _ _ Hp Hs) as (h0 & Hh & Hs0). clear Hs. rename Hs0 into Hs. clear h. rename h0 into h.
    assert (Hs' : shape (tag_ops pos) tagleaf (vget rd w) h root P ts) by (eapply shape_ops; [| |exact Hs]; reflexivity).
    assert (Hmax : forall t, t ∈ ts -> tk id t <= pos).
    { intros [e|k] Ht; cbn.
      - apply Hle. rewrite <- Ees. now apply elem_toks_es.
      - destruct (sep_ok_ks _ _ _ Hsep Ht) as (e & He & <-). apply Hle. rewrite <- Ees. now apply elem_toks_es. }
    edestruct (descend_ok (tag_ops pos) tagleaf tagleaf_frame rd kw ps False (fun _ => True) (tag_laws kw ps Hps pos)
      (StronglySorted (cle N.compare)) (fun k => cle N.compare k pos) (fun k => cle N.compare pos k)
      (fun ks ks' H1 H2 => ssorted_sublist _ ks ks' H1 H2)
      (fun ks cs Hl Hk => bs_choose_law_weak N.compare N_cmp_ok pos Panic ks cs Hl Hk)
      _ h root w [] root h [] [] [] P ts Hh)
      as (w1 & leaf & st & Pp & pre & post & n & Pl & es & E1 & S1 & C1 & [hl Hpath] & Hn & Hleaf & Hlr & Hld & Hst & _ & Etk & EP & Hpre & Hpost).
    { constructor. }
    { exact Hs'. }
    { exact Hc. }
    { constructor. }
    { left; reflexivity. }
    { left; reflexivity. }
    { rewrite app_nil_r. cbn [app]. now apply wsorted_ks in Hsrt. }
    { intros H; discriminate H. }
    cbn [app] in Etk. rewrite app_nil_r in Etk. cbn [app] in EP.
    destruct Hlr as [-> ->].
    unfold wbind at 1. rewrite E1.
    pose proof (sim_acc rd P w w1 S1 C1) as A1.
    assert (Hp1 : pool_ok w1 ([leaf] ++ [] ++ Pp ++ Q)).
    { eapply pool_ok_perm; [|eapply acc_pool'; [exact A1|exact Hp]]. rewrite <- EP. solve_Permutation. }
    destruct (cow_ok rd w1 leaf _ _ C1 Hld Hn Hp1) as (dl & w2 & E2 & A2 & D2).
    unfold wbind at 1. rewrite E2. unfold wbind at 1. unfold get_mut_dirty at 1. rewrite D2.
    pose proof (acc_pool' rd _ _ _ _ _ A2 Hp1) as Hp2.
    assert (Hstep : exists w4 si Pc tc,
      (if ps <? page_size_of kw (NTagLeaf (es ++ [pos])) then
        do! put_dirty dl (NTagLeaf es) in
        let! q := alloc_page_id in
        do! insert_dirty q (NTagLeaf [pos]) in
        ret (Some (pos, q))
      else
        do! put_dirty dl (NTagLeaf (es ++ [pos])) in
        ret None) w2 = (Ok si, w4) /\
      acc rd ([dl] ++ []) w2 Pc w4 /\
      hole (tag_ops pos) tagleaf (vget rd w4) 0 dl si Pc tc /\
      exists X, tc = map TE es ++ X /\ (X = [TE pos] \/ X = [TS pos; TE pos])).
    { destruct (N.ltb_spec ps (page_size_of kw (NTagLeaf (es ++ [pos])))) as [Hgt|Hle'].
      - destruct (put_dirty_ok rd w2 dl (NTagLeaf es) _ D2) as (w3 & E3 & A3 & D3).
        unfold wbind at 1. rewrite E3.
        pose proof (acc_pool' rd _ _ _ _ _ A3 Hp2) as Hp3.
        destruct (alloc_ok rd w3 _ Hp3) as (q & w3' & E4 & HqP & Hqf & Hq2 & Hins).
        destruct (Hins (NTagLeaf [pos])) as (w4 & E5 & A4 & D4).
        unfold wbind at 1. rewrite E4. unfold wbind at 1. rewrite E5.
        exists w4, (Some (pos, q)), ([dl] ++ [q]), (map TE es ++ [TS pos; TE pos]).
        split; [reflexivity|]. split; [|split].
        + apply (acc_perm_l rd [dl]); [reflexivity|]. eapply acc_trans; [exact A3|].
          apply (acc_perm_r rd _ _ ([q] ++ [dl])); [solve_Permutation|].
          exact (acc_frame_r rd [dl] [] w3 [q] w4 A4).
        + cbn [hole]. exists [dl], [q], (map TE es), (map TE [pos]). split; [reflexivity|]. split; [reflexivity|]. split.
          * apply (sh_leaf (tag_ops pos) tagleaf _ dl (NTagLeaf es)); [|reflexivity|split; reflexivity].
            apply dirty_vget. rewrite D4, lookup_insert_ne by set_solver. rewrite D3. apply lookup_insert.
          * apply (sh_leaf (tag_ops pos) tagleaf _ q (NTagLeaf [pos])); [|reflexivity|split; reflexivity].
            apply dirty_vget. rewrite D4. apply lookup_insert.
        + eauto.
      - destruct (put_dirty_ok rd w2 dl (NTagLeaf (es ++ [pos])) _ D2) as (w3 & E3 & A3 & D3).
        unfold wbind at 1. rewrite E3.
        exists w3, None, [dl], (map TE (es ++ [pos])). split; [reflexivity|]. split; [exact A3|]. split.
        + cbn [hole]. apply (sh_leaf (tag_ops pos) tagleaf _ dl (NTagLeaf (es ++ [pos]))); [|reflexivity|split; reflexivity].
          apply dirty_vget. rewrite D3. apply lookup_insert.
        + exists [TE pos]. rewrite map_app. auto. }
    destruct Hstep as (w4 & si & Pc & tc & E4 & A4 & Hhole & X & -> & HX).
    unfold wbind at 1. rewrite E4.
    edestruct (tree_close (tag_ops pos) tagleaf tagleaf_frame rd kw ps False (fun _ => True) (tag_laws kw ps Hps pos)
      w1 leaf st root h Pp pre post [] Q dl w2 w4 si Pc _ C1 Hpath Hst Hp1 A2 ltac:(discriminate) A4 Hhole)
      as (w5 & ri & si' & w6 & root' & h' & P6 & E5 & E6 & A6 & Hs6).
    { apply Forall_true. auto. }
    unfold wbind at 1. rewrite E5. rewrite E6.
    exists w6, root', P6. split; [reflexivity|]. split.
    { eapply acc_trans; [exact A1|]. eapply acc_perm_l; [|exact A6]. rewrite <- EP. solve_Permutation. }
    assert (HXes : toks_es X = [pos]) by (destruct HX as [-> | ->]; reflexivity).
    assert (Hpost' : forall t, t ∈ post -> tk id t = pos).
    { intros t Ht. apply N.le_antisymm.
      - apply Hmax. rewrite <- Etk. set_solver.
      - destruct Hpost as [-> | (post' & k & -> & Hk)]; [inversion Ht|]. apply cleN in Hk.
        apply elem_of_cons in Ht as [->|Ht]; [exact Hk|].
        rewrite <- Etk in Hsrt. apply ss_app in Hsrt as (_ & Hsrt & _). apply ss_app in Hsrt as (_ & Hsrt & _).
        inversion Hsrt as [|? ? _ Hf]; subst. rewrite Forall_forall in Hf. specialize (Hf t Ht). apply cleN in Hf. etransitivity; [exact Hk|exact Hf]. }
    exists h', (pre ++ (map TE es ++ X) ++ post). split; [|split; [|split]].
    - eapply shape_ops; [| |exact Hs6]; reflexivity.
    - assert (Hpe : toks_es post = replicate (length (toks_es post)) pos).
      { symmetry. apply replicate_as_elem_of; split; [reflexivity|]. intros e He. apply elem_toks_es in He. apply (Hpost' _ He). }
      rewrite <- Ees, <- Etk, !toks_es_app, toks_es_map, HXes, Hpe. rewrite <- !app_assoc. do 2 f_equal.
      cbn [app]. clear. induction (length (toks_es post)) as [|m IH]; [reflexivity|]. cbn. f_equal. exact IH.
    - unfold wsorted in *. rewrite <- Etk in Hsrt. rewrite <- Etk in Hmax.
      assert (HXt : forall t, t ∈ X -> tk id t = pos) by (destruct HX as [-> | ->]; intros t Ht; set_unfold in Ht; destruct Ht as [-> | [ -> | []]] || destruct Ht as [-> | []]; reflexivity).
      rewrite <- app_assoc. apply ss_app in Hsrt as (S1' & S2' & S3'). apply ss_app in S2' as (S2' & S4' & S5').
      apply ss_app. split; [exact S1'|]. split.
      + apply ss_app. split; [exact S2'|]. split.
        * apply ss_app. split; [|split; [exact S4'|]].
          -- destruct HX as [-> | ->]; repeat constructor. cbn. unfold id. apply cleN. lia.
          -- intros a b Ha Hb. rewrite (HXt a Ha), (Hpost' b Hb). apply cleN. lia.
        * intros a b Ha Hb. apply elem_of_app in Hb as [Hb|Hb]; [|now apply S5'].
          rewrite (HXt b Hb). apply cleN. apply Hmax. set_solver.
      + intros a b Ha Hb. rewrite !elem_of_app in Hb. destruct Hb as [Hb|[Hb|Hb]]; [apply S3'; set_solver| |apply S3'; set_solver].
        rewrite (HXt b Hb). apply cleN. apply Hmax. set_solver.
    - rewrite <- app_assoc. rewrite <- Etk in Hsep. eapply sep_ok_insert; [exact Hpre| |exact Hsep| |].
      + destruct Hpost as [-> | (? & ? & -> & _)]; eauto.
      + destruct HX as [-> | ->]; cbn; auto.
      + destruct HX as [-> | ->]; [exists pos, []|exists pos, [TS pos]]; reflexivity.
  Qed.
End per_tag.

  Lemma map_lookup_split {A B} (f : A -> B) (l : list A) i b :
    map f l !! i = Some b -> exists l1 a l2, l = l1 ++ a :: l2 /\ f a = b /\ length l1 = i.
  Proof.
    intros H. assert (exists a, l !! i = Some a /\ f a = b) as (a & Ha & <-).
    { change (map f l) with (f <$> l) in H. rewrite list_lookup_fmap in H. apply fmap_Some in H as (a & Ha & ->). eauto. }
    exists (take i l), a, (drop (S i) l). split; [symmetry; now apply take_drop_middle|]. split; [reflexivity|].
    rewrite take_length. apply lookup_lt_Some in Ha. lia.
  Qed.
  Lemma pool_ne0 w P q : pool_ok w P -> q ∈ P -> q <> 0.
  Proof. intros Hp Hq. pose proof (po_min _ _ Hp q ltac:(set_solver)). lia. Qed.
  Lemma ss_snoc (l : list N) x : StronglySorted N.le l -> (forall p, p ∈ l -> p <= x) -> StronglySorted N.le (l ++ [x]).
  Proof.
    intros H1 H2. apply ss_app. split; [exact H1|]. split; [repeat constructor|]. intros a b Ha Hb.
    apply elem_of_list_singleton in Hb as ->. auto.
  Qed.

(** ** The tree of tags *)
Notation tags_entry := (bytes * list N)%type.
Section tags.
  Context (rd : snapshot) (kw : nat) (ps : N) (Hps : ps_ok ps) (Hkw : (kw <= 16)%nat).

  (** The positions of a tag, inline or in a tree of their own.  An inline value fits a page alone. *)
  Definition tvrep (get : N -> option node) (v : tags_value) (P : list N) (l : list N) : Prop :=
    (StronglySorted N.le l /\ l <> []) /\
    ((tv_root v = 0 /\ P = [] /\ tv_positions v = l /\ 21 + N.of_nat kw + 8 * nlen l <= ps) \/
     (tv_root v <> 0 /\ tv_positions v = [] /\ pertag get (tv_root v) P l)).
  Definition tagsleaf (get : N -> option node) (n : node) (P : list N) (es : list tags_entry) : Prop :=
    exists vs, n = NTagsLeaf (TagsLeaf (map fst es) vs) /\ listrep tvrep get vs P (map snd es).
  Lemma tvrep_frame get get' v P l :
    tvrep get v P l -> (forall q, q ∈ P -> get' q = get q) -> tvrep get' v P l.
  Proof.
    intros [Hl [H|(H1 & H2 & H3)]] Hq; split; auto. right. repeat split; auto. eapply pertag_frame; eassumption.
  Qed.
  Lemma tagsleaf_frame get get' n P es :
    tagsleaf get n P es -> (forall q, q ∈ P -> get' q = get q) -> tagsleaf get' n P es.
  Proof.
    intros (vs & Hn & Hvs) Hq. exists vs. split; [exact Hn|]. eapply listrep_frame; [|exact Hvs|exact Hq].
    intros v P0 a Ha H. eapply tvrep_frame; eassumption.
  Qed.

  Definition vs_size (vs : list tags_value) : N := foldr (fun v acc => 8 + 2 + nlen (tv_positions v) * 8 + acc) 0 vs.
  Lemma vs_size_app a b : vs_size (a ++ b) = vs_size a + vs_size b.
  Proof. unfold vs_size. induction a as [|v a IH]; cbn [app foldr]; [lia|]. rewrite IH. lia. Qed.
  Lemma tags_page_size ks vs : page_size_of kw (NTagsLeaf (TagsLeaf ks vs)) = 11 + nlen ks * N.of_nat kw + vs_size vs.
  Proof. unfold page_size_of, node_size, tags_leaf_size, PAGE_HEADER_SIZE, vs_size. cbn [tl_keys tl_values]. lia. Qed.

  Lemma new_per_tag_tree_ok w Q l pos :
    pool_ok w Q -> StronglySorted N.le (l ++ [pos]) -> 21 + N.of_nat kw + 8 * nlen l <= ps ->
    exists w' q C, new_per_tag_tree kw ps (l ++ [pos]) w = (Ok q, w') /\ acc rd [] w C w' /\
      pertag (vget rd w') q C (l ++ [pos]).
  Proof.
    intros Hp Hs Hfit. unfold new_per_tag_tree.
    assert (Hle : page_size_of kw (NTagLeaf (l ++ [pos])) <= ps).
    { unfold page_size_of, node_size, u64_list_size, PAGE_HEADER_SIZE, nlen in *. rewrite app_length. cbn [length]. lia. }
    apply N.leb_le in Hle. rewrite Hle.
    destruct (alloc_ok rd w _ Hp) as (q & w1 & E1 & _ & _ & _ & Hins).
    destruct (Hins (NTagLeaf (l ++ [pos]))) as (w2 & E2 & A2 & D2).
    unfold wbind at 1. rewrite E1. unfold wbind at 1. rewrite E2.
    exists w2, q, [q]. split; [reflexivity|]. split; [exact A2|].
    exists 0%nat, (map TE (l ++ [pos])). split; [|split; [|split]].
    - apply (sh_leaf (tag_ops 0) tagleaf _ q (NTagLeaf (l ++ [pos]))); [|reflexivity|split; reflexivity].
      apply dirty_vget. rewrite D2. apply lookup_insert.
    - apply toks_es_map.
    - unfold wsorted. apply (ss_map N.le); [|exact Hs]. intros a b Hab. cbn. now apply cleN.
    - clear. induction (l ++ [pos]) as [|x l' IH]; [exact I|exact IH].
  Qed.




  Lemma tags_leaf_update_ok w dl n P es Q tag pos :
    coh rd w -> pool_ok w ([dl] ++ P ++ Q) -> w_dirty w !! dl = Some n -> tagsleaf (vget rd w) n P es ->
    StronglySorted (clt bytes_cmp) (map fst es) ->
    (forall t l p, (t, l) ∈ es -> p ∈ l -> p <= pos) ->
    exists w' n' P' es',
      tags_leaf_update rd kw ps dl tag pos w = (Ok tt, w') /\ acc rd ([dl] ++ P) w ([dl] ++ P') w' /\
      w_dirty w' !! dl = Some n' /\ tagsleaf (vget rd w') n' P' es' /\
      StronglySorted (clt bytes_cmp) (map fst es') /\
      ((exists es1 l es2, es = es1 ++ (tag, l) :: es2 /\ es' = es1 ++ (tag, l ++ [pos]) :: es2) \/
       (tag ∉ map fst es /\ exists es1 es2, es = es1 ++ es2 /\ es' = es1 ++ (tag, [pos]) :: es2)).
  Proof.
    intros Hc Hp Hd (vs & -> & Hvs) Hsrt Hmax. unfold tags_leaf_update.
    unfold wbind at 1. unfold get_mut_dirty at 1. rewrite Hd. cbn [tl_keys tl_values].
    pose proof (bs_leaf bytes_cmp bytes_cmp_ok tag (map fst es) Hsrt) as Hbs. fold (bs_bytes tag (map fst es)) in Hbs.
    destruct (bs_bytes tag (map fst es)) as [i|i] eqn:Ebs.
    - (* the tag is present *)
      destruct (map_lookup_split _ _ _ _ Hbs) as (es1 & [t l] & es2 & -> & Et & Ei). cbn in Et. subst t.
      assert (Hl : forall p, p ∈ l -> p <= pos) by (intros p Hpl; eapply (Hmax tag l); [set_solver|exact Hpl]).
      rewrite map_app in Hvs. destruct (listrep_split _ _ _ _ _ _ Hvs) as (vs1 & vs2' & P1 & P2' & -> & -> & EL & Hvs1 & Hvs2').
      rewrite map_length in EL. cbn [map snd] in Hvs2'. inversion Hvs2' as [|v vs2 Pv P2 ? ? Hv Hvs2]; subst vs2' P2' a l0.
      assert (Hlv : (vs1 ++ v :: vs2) !! i = Some v) by (apply list_lookup_middle; lia).
      assert (Hins : forall y, <[i := y]> (vs1 ++ v :: vs2) = vs1 ++ y :: vs2).
      { intros y. rewrite <- Ei, <- EL. apply list_insert_mid. }
      rewrite Hlv.
      assert (Hkeys : map fst (es1 ++ (tag, l) :: es2) = map fst (es1 ++ (tag, l ++ [pos]) :: es2)).
      { rewrite !map_app. reflexivity. }
      destruct Hv as [[Hls _] [(Hr0 & -> & Epos & Hfit)|(Hr0 & Epos & Hpt)]].
      + (* inline *)
        rewrite (proj2 (N.eqb_eq _ _) Hr0). cbv zeta. rewrite Epos. rewrite Hins.
        destruct (put_dirty_ok rd w dl (NTagsLeaf (TagsLeaf (map fst (es1 ++ (tag, l) :: es2)) (vs1 ++ TagsValue 0 (l ++ [pos]) :: vs2))) _ Hd)
          as (w1 & E1 & A1 & D1).
        unfold wbind at 1. rewrite E1.
        pose proof (acc_pool' rd _ _ _ _ _ A1 Hp) as Hp1.
        assert (Hview1 : forall q, q ∈ (P1 ++ [] ++ P2) ++ Q -> vget rd w1 q = vget rd w q).
        { intros q Hq. eapply acc_view; [exact A1|exact Hp|exact Hq]. }
        destruct ((ps <? page_size_of kw (NTagsLeaf (TagsLeaf (map fst (es1 ++ (tag, l) :: es2)) (vs1 ++ TagsValue 0 (l ++ [pos]) :: vs2))))
          && (ps <? nlen (l ++ [pos]) * 8 * 2)) eqn:Emig.
        * (* migrate *)
          destruct (new_per_tag_tree_ok w1 _ l pos Hp1 ltac:(now apply ss_snoc) Hfit) as (w2 & q & C & E2 & A2 & Hpt).
          unfold wbind at 1. rewrite E2.
          pose proof (acc_pool' rd [] _ _ _ _ A2 Hp1) as Hp2.
          assert (D2 : w_dirty w2 !! dl = Some (NTagsLeaf (TagsLeaf (map fst (es1 ++ (tag, l) :: es2)) (vs1 ++ TagsValue 0 (l ++ [pos]) :: vs2)))).
          { rewrite (acc_dirty' rd [] w1 C w2 _ dl A2 Hp1) by set_solver. rewrite D1. apply lookup_insert. }
          unfold set_tags_value. unfold wbind at 1. unfold get_mut_dirty. rewrite D2. cbn [tl_keys tl_values].
          rewrite list_lookup_middle by lia.
          assert (Hins2 : <[i := TagsValue q []]> (vs1 ++ TagsValue 0 (l ++ [pos]) :: vs2) = vs1 ++ TagsValue q [] :: vs2).
          { rewrite <- Ei, <- EL. apply list_insert_mid. }
          rewrite Hins2.
          destruct (put_dirty_ok rd w2 dl (NTagsLeaf (TagsLeaf (map fst (es1 ++ (tag, l) :: es2)) (vs1 ++ TagsValue q [] :: vs2))) _ D2)
            as (w3 & E3 & A3 & D3).
          rewrite E3.
          assert (Hp2' : pool_ok w2 ([dl] ++ C ++ (P1 ++ [] ++ P2) ++ Q)) by (eapply pool_ok_perm; [|exact Hp2]; solve_Permutation).
          assert (Hview3 : forall x, x ∈ P1 ++ P2 -> vget rd w3 x = vget rd w x).
          { intros x Hx. transitivity (vget rd w2 x); [eapply acc_view; [exact A3|exact Hp2'|set_solver]|].
            transitivity (vget rd w1 x); [eapply (acc_view rd [] w1 C w2); [exact A2|exact Hp1|set_solver]|].
            apply Hview1. set_solver. }
          eexists w3, _, (P1 ++ C ++ P2), (es1 ++ (tag, l ++ [pos]) :: es2). split; [reflexivity|]. split; [|split; [|split; [|split]]].
          -- apply (acc_perm_l rd ([dl] ++ (P1 ++ P2))); [solve_Permutation|].
             eapply acc_trans; [apply acc_frame_r; exact A1|].
             eapply acc_trans; [exact (acc_frame_r rd ([dl] ++ P1 ++ P2) [] w1 C w2 A2)|].
             apply (acc_perm_l rd ([dl] ++ (C ++ P1 ++ P2))); [solve_Permutation|].
             apply (acc_perm_r rd _ _ ([dl] ++ (C ++ P1 ++ P2))); [solve_Permutation|].
             apply acc_frame_r. exact A3.
          -- rewrite D3. apply lookup_insert.
          -- exists (vs1 ++ TagsValue q [] :: vs2). split; [now rewrite Hkeys|].
             rewrite map_app. apply listrep_app.
             ++ eapply listrep_frame; [|exact Hvs1|]; [intros; eapply tvrep_frame; eassumption|]. intros x Hx. apply Hview3. set_solver.
             ++ cbn [map snd]. constructor.
                ** split; [split; [now apply ss_snoc|now destruct l]|]. right. cbn [tv_root tv_positions].
                   split; [eapply pool_ne0; [exact Hp2|]; rewrite !elem_of_app; left; eapply pertag_root_in; exact Hpt|].
                   split; [reflexivity|]. eapply pertag_frame; [exact Hpt|].
                   intros x Hx. eapply acc_view; [exact A3|exact Hp2'|set_solver].
                ** eapply listrep_frame; [|exact Hvs2|]; [intros; eapply tvrep_frame; eassumption|]. intros x Hx. apply Hview3. set_solver.
          -- rewrite <- Hkeys. exact Hsrt.
          -- left. eauto 10.
        * (* stays inline *)
          eexists w1, _, (P1 ++ [] ++ P2), (es1 ++ (tag, l ++ [pos]) :: es2). split; [reflexivity|]. split; [|split; [|split; [|split]]].
          -- apply acc_frame_r. exact A1.
          -- rewrite D1. apply lookup_insert.
          -- exists (vs1 ++ TagsValue 0 (l ++ [pos]) :: vs2). split; [now rewrite Hkeys|].
             rewrite map_app. apply listrep_app.
             ++ eapply listrep_frame; [|exact Hvs1|]; [intros; eapply tvrep_frame; eassumption|]. intros x Hx. apply Hview1. set_solver.
             ++ cbn [map snd]. constructor.
                ** split; [split; [now apply ss_snoc|now destruct l]|]. left. cbn [tv_root tv_positions]. repeat split; auto.
                   apply andb_false_iff in Emig as [Em|Em]; apply N.ltb_ge in Em.
                   --- rewrite tags_page_size, vs_size_app in Em. cbn [vs_size foldr tv_positions] in Em.
                       fold (vs_size vs2) in Em. unfold nlen in Em |- *. rewrite map_length, !app_length in Em. cbn [length] in Em.
                       rewrite !app_length. cbn [length]. nia.
                   --- unfold ps_ok in Hps. lia.
                ** eapply listrep_frame; [|exact Hvs2|]; [intros; eapply tvrep_frame; eassumption|]. intros x Hx. apply Hview1. set_solver.
          -- rewrite <- Hkeys. exact Hsrt.
          -- left. eauto 10.
      + (* per-tag tree *)
        rewrite (proj2 (N.eqb_neq _ _) Hr0).
        assert (Hp' : pool_ok w (Pv ++ ([dl] ++ P1 ++ P2) ++ Q)) by (eapply pool_ok_perm; [|exact Hp]; solve_Permutation).
        destruct (per_tag_insert_ok rd kw ps Hps w Pv _ (tv_root v) l pos Hc Hp' Hpt Hl) as (w1 & root' & Pv' & E1 & A1 & Hpt').
        unfold wbind at 1. rewrite E1.
        pose proof (acc_pool' rd _ _ _ _ _ A1 Hp') as Hp1.
        assert (D1 : w_dirty w1 !! dl = Some (NTagsLeaf (TagsLeaf (map fst (es1 ++ (tag, l) :: es2)) (vs1 ++ v :: vs2)))).
        { rewrite (acc_dirty' rd _ _ _ _ _ dl A1 Hp') by set_solver. exact Hd. }
        unfold wbind at 1. unfold get_mut_dirty at 1. rewrite D1. cbn [tl_keys tl_values]. rewrite Ebs, Hlv.
        unfold set_tags_value. unfold wbind at 1. unfold get_mut_dirty at 1. rewrite D1. cbn [tl_keys tl_values]. rewrite Hlv, Hins, Epos.
        destruct (put_dirty_ok rd w1 dl (NTagsLeaf (TagsLeaf (map fst (es1 ++ (tag, l) :: es2)) (vs1 ++ TagsValue root' [] :: vs2))) _ D1)
          as (w3 & E3 & A3 & D3).
        rewrite E3.
        assert (Hp1' : pool_ok w1 ([dl] ++ Pv' ++ (P1 ++ P2) ++ Q)) by (eapply pool_ok_perm; [|exact Hp1]; solve_Permutation).
        assert (Hview3 : forall x, x ∈ P1 ++ P2 -> vget rd w3 x = vget rd w x).
        { intros x Hx. transitivity (vget rd w1 x); [eapply acc_view; [exact A3|exact Hp1'|set_solver]|].
          eapply acc_view; [exact A1|exact Hp'|set_solver]. }
        eexists w3, _, (P1 ++ Pv' ++ P2), (es1 ++ (tag, l ++ [pos]) :: es2). split; [reflexivity|]. split; [|split; [|split; [|split]]].
        * apply (acc_perm_l rd (Pv ++ ([dl] ++ P1 ++ P2))); [solve_Permutation|].
          eapply acc_trans; [apply acc_frame_r; exact A1|].
          apply (acc_perm_l rd ([dl] ++ (Pv' ++ P1 ++ P2))); [solve_Permutation|].
          apply (acc_perm_r rd _ _ ([dl] ++ (Pv' ++ P1 ++ P2))); [solve_Permutation|].
          apply acc_frame_r. exact A3.
        * rewrite D3. apply lookup_insert.
        * exists (vs1 ++ TagsValue root' [] :: vs2). split; [now rewrite Hkeys|].
          rewrite map_app. apply listrep_app.
          -- eapply listrep_frame; [|exact Hvs1|]; [intros; eapply tvrep_frame; eassumption|]. intros x Hx. apply Hview3. set_solver.
          -- cbn [map snd]. constructor.
             ++ split; [split; [now apply ss_snoc|now destruct l]|]. right. cbn [tv_root tv_positions].
                split; [eapply pool_ne0; [exact Hp1|]; rewrite !elem_of_app; left; eapply pertag_root_in; exact Hpt'|].
                split; [reflexivity|]. eapply pertag_frame; [exact Hpt'|].
                intros x Hx. eapply acc_view; [exact A3|exact Hp1'|set_solver].
             ++ eapply listrep_frame; [|exact Hvs2|]; [intros; eapply tvrep_frame; eassumption|]. intros x Hx. apply Hview3. set_solver.
        * rewrite <- Hkeys. exact Hsrt.
        * left. eauto 10.
    - (* new tag *)
      destruct Hbs as (Hi & Hlt & Hgt). rewrite map_length in Hi.
      rewrite <- (take_drop i es) in Hvs. rewrite map_app in Hvs.
      destruct (listrep_split _ _ _ _ _ _ Hvs) as (vs1 & vs2 & P1 & P2 & -> & -> & EL & Hvs1 & Hvs2).
      rewrite map_length, take_length in EL. rewrite Nat.min_l in EL by exact Hi.
      unfold vec_insert. rewrite take_app_alt, drop_app_alt by auto.
      match goal with |- context [put_dirty dl ?n'] =>
        destruct (put_dirty_ok rd w dl n' _ Hd) as (w1 & E1 & A1 & D1) end.
      rewrite E1.
      assert (Hkeys : map fst (take i es ++ (tag, [pos]) :: drop i es) = take i (map fst es) ++ tag :: drop i (map fst es)).
      { rewrite map_app. cbn [map fst]. now rewrite firstn_map, skipn_map. }
      assert (Hview1 : forall x, x ∈ P1 ++ P2 -> vget rd w1 x = vget rd w x).
      { intros x Hx. eapply acc_view; [exact A1|exact Hp|set_solver]. }
      eexists w1, _, (P1 ++ P2), (take i es ++ (tag, [pos]) :: drop i es). split; [reflexivity|]. split; [|split; [|split; [|split]]].
      + apply acc_frame_r. exact A1.
      + rewrite D1. apply lookup_insert.
      + exists (vs1 ++ TagsValue 0 [pos] :: vs2). split; [now rewrite Hkeys|].
        rewrite map_app. apply listrep_app.
        * eapply listrep_frame; [|exact Hvs1|]; [intros; eapply tvrep_frame; eassumption|]. intros x Hx. apply Hview1. set_solver.
        * cbn [map snd]. change P2 with ([] ++ P2). constructor.
          -- split; [split; [repeat constructor|discriminate]|]. left. cbn [tv_root tv_positions]. repeat split; auto.
             unfold ps_ok in Hps. unfold nlen. cbn [length]. lia.
          -- eapply listrep_frame; [|exact Hvs2|]; [intros; eapply tvrep_frame; eassumption|]. intros x Hx. apply Hview1. set_solver.
      + rewrite Hkeys. rewrite <- (take_drop i (map fst es)) in Hsrt. apply ss_app in Hsrt as (S1 & S2 & S3).
        apply ss_app. split; [exact S1|]. split.
        * constructor; [exact S2|]. apply Forall_forall. exact Hgt.
        * intros a b Ha Hb. apply elem_of_cons in Hb as [->|Hb]; [now apply Hlt|now apply S3].
      + right. split.
        * intros Hin. rewrite <- (take_drop i (map fst es)) in Hin. apply elem_of_app in Hin as [Hin|Hin].
          -- apply Hlt in Hin. now apply clt_irrefl in Hin; [|apply bytes_cmp_ok].
          -- apply Hgt in Hin. now apply clt_irrefl in Hin; [|apply bytes_cmp_ok].
        * exists (take i es), (drop i es). now rewrite take_drop.
  Qed.

  Lemma tags_leaf_split_ok w dl n P es Q tag :
    coh rd w -> pool_ok w ([dl] ++ P ++ Q) -> w_dirty w !! dl = Some n -> tagsleaf (vget rd w) n P es ->
    exists w' si Pc tc,
      tags_leaf_split kw ps dl w = (Ok si, w') /\ acc rd ([dl] ++ P) w Pc w' /\
      hole (tags_ops tag) tagsleaf (vget rd w') 0 dl si Pc tc /\
      (tc = map TE es \/ exists es1 e1 e2 es2, es = es1 ++ e1 :: e2 :: es2 /\
        tc = map TE (es1 ++ [e1]) ++ TS (fst e2) :: map TE (e2 :: es2)).
  Proof.
    intros Hc Hp Hd (vs & -> & Hvs). unfold tags_leaf_split.
    unfold wbind at 1. unfold get_mut_dirty at 1. rewrite Hd.
    destruct (N.ltb_spec ps (page_size_of kw (NTagsLeaf (TagsLeaf (map fst es) vs)))) as [Hgt|Hle].
    - cbv zeta. cbn [tl_keys tl_values]. rewrite map_length. set (mid := Nat.div2 (length es)).
      assert (Hlen : (2 <= length es)%nat).
      { destruct es as [|e1 [|e2 es]]; [| |cbn; lia]; exfalso; rewrite tags_page_size in Hgt; unfold ps_ok in Hps.
        - inversion Hvs; subst. cbn in Hgt. lia.
        - cbn [map] in Hvs. inversion Hvs as [|v vs' P1 P2 ? ? Hv Hvs']; subst. inversion Hvs'; subst.
          cbn [vs_size foldr] in Hgt. unfold nlen in Hgt. rewrite map_length in Hgt. cbn [length] in Hgt.
          destruct Hv as [_ [(_ & _ & Ee & Hf)|(_ & Ee & _)]]; rewrite Ee in Hgt; unfold nlen in *; cbn [length] in *; lia. }
      assert (Hmid : (1 <= mid < length es)%nat).
      { unfold mid. pose proof (Nat.div2_odd (length es)) as Hod. destruct (Nat.odd (length es)); cbn [Nat.b2n] in Hod; lia. }
      destruct (take mid es) as [|x xs] eqn:Etk.
      { apply (f_equal length) in Etk. rewrite take_length in Etk. cbn in Etk. lia. }
      destruct (exists_last (l := x :: xs)) as (es1 & e1 & Ee1); [discriminate|]. rewrite Ee1 in Etk. clear x xs Ee1.
      destruct (drop mid es) as [|e2 es2] eqn:Edr.
      { apply (f_equal length) in Edr. rewrite drop_length in Edr. cbn in Edr. lia. }
      assert (Ees : es = (es1 ++ [e1]) ++ e2 :: es2) by (rewrite <- Etk, <- Edr; symmetry; apply take_drop).
      assert (EL1 : length (es1 ++ [e1]) = mid) by (rewrite <- Etk, take_length; lia).
      rewrite skipn_map, Edr. cbn [map]. clearbody mid. subst es.
      rewrite map_app in Hvs. destruct (listrep_split _ _ _ _ _ _ Hvs) as (vs1 & vs2 & P1 & P2 & -> & -> & EL & Hvs1 & Hvs2).
      rewrite map_length in EL.
      rewrite (take_app_alt vs1 vs2) by lia. rewrite (drop_app_alt vs1 vs2) by lia.
      rewrite firstn_map, (take_app_alt (es1 ++ [e1])) by lia.
      set (nl := NTagsLeaf (TagsLeaf (map fst (es1 ++ [e1])) vs1)).
      set (nr := NTagsLeaf (TagsLeaf (map fst (e2 :: es2)) vs2)).
      change (NTagsLeaf {| tl_keys := e2.1 :: map fst es2; tl_values := vs2 |}) with nr.
      destruct (put_dirty_ok rd w dl nl _ Hd) as (w1 & E1 & A1 & D1).
      unfold wbind at 1. rewrite E1.
      pose proof (acc_pool' rd _ _ _ _ _ A1 Hp) as Hp1.
      destruct (alloc_ok rd w1 _ Hp1) as (q & w1' & E2 & HqP & Hqf & Hq2 & Hins).
      destruct (Hins nr) as (w2 & E3 & A2 & D2).
      unfold wbind at 1. rewrite E2. unfold wbind at 1. rewrite E3.
      assert (Hview : forall x, x ∈ P1 ++ P2 -> vget rd w2 x = vget rd w x).
      { intros x Hx. transitivity (vget rd w1 x); [eapply (acc_view rd [] w1 [q] w2); [exact A2|exact Hp1|set_solver]|].
        eapply acc_view; [exact A1|exact Hp|set_solver]. }
      exists w2, (Some (e2.1, q)), ((dl :: P1) ++ (q :: P2)), (map TE (es1 ++ [e1]) ++ TS e2.1 :: map TE (e2 :: es2)).
      split; [reflexivity|]. split; [|split].
      + eapply acc_trans; [apply acc_frame_r; exact A1|].
        apply (acc_perm_r rd _ _ ([q] ++ ([dl] ++ P1 ++ P2))); [solve_Permutation|].
        exact (acc_frame_r rd ([dl] ++ P1 ++ P2) [] w1 [q] w2 A2).
      + cbn [hole]. exists (dl :: P1), (q :: P2), (map TE (es1 ++ [e1])), (map TE (e2 :: es2)).
        split; [reflexivity|]. split; [reflexivity|]. split.
        * apply (sh_leaf (tags_ops tag) tagsleaf _ dl nl); [|reflexivity|].
          -- apply dirty_vget. rewrite D2, lookup_insert_ne by set_solver. rewrite D1. apply lookup_insert.
          -- exists vs1. split; [reflexivity|]. eapply listrep_frame; [|exact Hvs1|]; [intros; eapply tvrep_frame; eassumption|].
             intros x Hx. apply Hview. set_solver.
        * apply (sh_leaf (tags_ops tag) tagsleaf _ q nr); [|reflexivity|].
          -- apply dirty_vget. rewrite D2. apply lookup_insert.
          -- exists vs2. split; [reflexivity|]. eapply listrep_frame; [|exact Hvs2|]; [intros; eapply tvrep_frame; eassumption|].
             intros x Hx. apply Hview. set_solver.
      + right. exists es1, e1, e2, es2. split; [lassoc|reflexivity].
    - exists w, None, ([dl] ++ P), (map TE es). split; [reflexivity|]. split; [apply acc_refl|]. split; [|auto].
      cbn [hole]. apply (sh_leaf (tags_ops tag) tagsleaf _ dl (NTagsLeaf (TagsLeaf (map fst es) vs))); [|reflexivity|].
      + now apply dirty_vget.
      + exists vs. auto.
  Qed.

  Notation tagsshape := (shape (tags_ops []) tagsleaf).
  Definition tags_sorted : list (tok bytes tags_entry) -> Prop := tsorted bytes_cmp fst.
  (** The positions recorded for a tag. *)
  Definition idx (es : list tags_entry) (t : bytes) : list N := default [] (alookup t es).

  Lemma tsorted_notin pre es post x (ekey := fst : tags_entry -> bytes) :
    (forall t, t ∈ pre -> match t with TE e => clt bytes_cmp (ekey e) x | TS k => cle bytes_cmp k x end) ->
    (forall t, t ∈ post -> clt bytes_cmp x (tk ekey t)) ->
    x ∉ map fst es -> x ∉ map fst (toks_es (pre ++ map TE es ++ post)).
  Proof.
    intros H1 H2 H3 Hin. rewrite !toks_es_app, toks_es_map, !map_app, !elem_of_app in Hin.
    destruct Hin as [Hin|[Hin|Hin]]; [|contradiction|].
    - apply elem_of_list_fmap in Hin as (e & -> & He). apply elem_toks_es, H1 in He. now apply clt_irrefl in He; [|apply bytes_cmp_ok].
    - apply elem_of_list_fmap in Hin as (e & -> & He). apply elem_toks_es, H2 in He. now apply clt_irrefl in He; [|apply bytes_cmp_ok].
  Qed.

  Theorem tags_insert_ok w P Q h ts tag pos :
    coh rd w -> pool_ok w (P ++ Q) -> tagsshape (vget rd w) h (w_tags_root w) P ts -> tags_sorted ts ->
    (forall t p, p ∈ idx (toks_es ts) t -> p <= pos) ->
    exists w1 root' h' P' ts',
      tags_tree_insert rd kw ps tag pos w = (Ok tt, set_tags_root root' w1) /\
      acc rd P w P' w1 /\ tagsshape (vget rd w1) h' root' P' ts' /\ tags_sorted ts' /\
      (forall t, idx (toks_es ts') t = if decide (t = tag) then idx (toks_es ts) t ++ [pos] else idx (toks_es ts) t).
  Proof.
    intros Hc Hp Hs Hsrt Hmax. unfold tags_tree_insert.
    unfold wbind at 1. unfold gets at 1. unfold wbind at 1. unfold gets at 1.
    destruct (pool_height _ _ _ _ _ _ _ _ _ Hp Hs) as (h0 & Hh & Hs0). clear Hs. rename Hs0 into Hs. clear h. rename h0 into h.
    assert (Hs' : shape (tags_ops tag) tagsleaf (vget rd w) h (w_tags_root w) P ts) by (eapply shape_ops; [| |exact Hs]; reflexivity).
    edestruct (descend_ok (tags_ops tag) tagsleaf tagsleaf_frame rd kw ps False (fun _ => True) (tags_laws kw ps Hps tag Hkw)
      (StronglySorted (clt bytes_cmp)) (fun k => cle bytes_cmp k tag) (fun k => clt bytes_cmp tag k)
      (fun ks ks' H1 H2 => ssorted_sublist _ ks ks' H1 H2)
      (fun ks cs Hl Hk => bs_choose_law bytes_cmp bytes_cmp_ok tag Panic ks cs Hl Hk)
      _ h (w_tags_root w) w [] (w_tags_root w) h [] [] [] P ts Hh)
      as (w1 & leaf & st & Pp & pre & post & n & Pl & es & E1 & S1 & C1 & [hl Hpath] & Hn & Hleaf & Hlr & Hld & Hst & _ & Etk & EP & Hpre & Hpost).
    { constructor. }
    { exact Hs'. }
    { exact Hc. }
    { constructor. }
    { left; reflexivity. }
    { left; reflexivity. }
    { rewrite app_nil_r. cbn [app]. now apply tsorted_ks in Hsrt. }
    { intros H; discriminate H. }
    cbn [app] in Etk. rewrite app_nil_r in Etk. cbn [app] in EP.
    unfold wbind at 1. rewrite E1.
    pose proof (sim_acc rd P w w1 S1 C1) as A1.
    assert (Hp1 : pool_ok w1 ([leaf] ++ Pl ++ Pp ++ Q)).
    { eapply pool_ok_perm; [|eapply acc_pool'; [exact A1|exact Hp]]. rewrite <- EP. solve_Permutation. }
    destruct (cow_ok rd w1 leaf _ _ C1 Hld Hn Hp1) as (dl & w2 & E2 & A2 & D2).
    unfold wbind at 1. rewrite E2.
    pose proof (acc_pool' rd _ _ _ _ _ A2 Hp1) as Hp2.
    assert (C2 : coh rd w2) by (eapply acc_coh'; [exact A2|exact C1]).
    subst ts. unfold tags_sorted in Hsrt.
    destruct (search_split bytes_cmp bytes_cmp_ok fst tag pre es post Hsrt Hpre Hpost) as (Hpre' & Hpost' & Hes).
    assert (Hlr2 : tagsleaf (vget rd w2) n Pl es).
    { eapply tagsleaf_frame; [exact Hlr|]. intros q Hq. eapply acc_view; [exact A2|exact Hp1|set_solver]. }
    assert (Hnd : NoDup (map fst (toks_es (pre ++ map TE es ++ post)))).
    { apply tsorted_es in Hsrt. clear -Hsrt. induction Hsrt as [|x l Hs IH Hf]; constructor; auto.
      intros Hin. rewrite Forall_forall in Hf. apply Hf in Hin. now apply clt_irrefl in Hin; [|apply bytes_cmp_ok]. }
    assert (Hmax' : forall t l p, (t, l) ∈ es -> p ∈ l -> p <= pos).
    { intros t l p Hin Hpl. apply (Hmax t). unfold idx.
      assert (Hin' : (t, l) ∈ toks_es (pre ++ map TE es ++ post)).
      { rewrite !toks_es_app, toks_es_map. set_solver. }
      apply elem_of_list_split in Hin' as (l1 & l2 & El). rewrite El in Hnd |- *.
      rewrite map_app in Hnd. cbn [map fst] in Hnd. apply NoDup_app in Hnd as (_ & Hnd & _).
      rewrite alookup_mid; [exact Hpl|]. intros H. apply (Hnd t H). now left. }
    destruct (tags_leaf_update_ok w2 dl n Pl es (Pp ++ Q) tag pos C2 Hp2 D2 Hlr2 Hes Hmax')
      as (w3 & n3 & P3 & es3 & E3 & A3 & D3 & Hlr3 & Hes3 & Hupd).
    unfold wbind at 1. rewrite E3.
    assert (Hp2' : pool_ok w2 (([dl] ++ Pl) ++ Pp ++ Q)) by (eapply pool_ok_perm; [|exact Hp2]; solve_Permutation).
    pose proof (acc_pool' rd _ _ _ _ _ A3 Hp2') as Hp3.
    assert (C3 : coh rd w3) by (eapply acc_coh'; [exact A3|exact C2]).
    assert (Hp3' : pool_ok w3 ([dl] ++ P3 ++ Pp ++ Q)) by (eapply pool_ok_perm; [|exact Hp3]; solve_Permutation).
    destruct (tags_leaf_split_ok w3 dl n3 P3 es3 (Pp ++ Q) tag C3 Hp3' D3 Hlr3) as (w4 & si & Pc & tc & E4 & A4 & Hhole & Htc).
    unfold wbind at 1. rewrite E4.
    edestruct (tree_close (tags_ops tag) tagsleaf tagsleaf_frame rd kw ps False (fun _ => True) (tags_laws kw ps Hps tag Hkw)
      w1 leaf st (w_tags_root w) h Pp pre post Pl Q dl w2 w4 si Pc _ C1 Hpath Hst Hp1 A2 ltac:(discriminate)
      ltac:(eapply acc_trans; [exact A3|exact A4]) Hhole)
      as (w5 & ri & si' & w6 & root' & h' & P6 & E5 & E6 & A6 & Hs6).
    { apply Forall_true. auto. }
    unfold wbind at 1. rewrite E5. unfold wbind at 1. rewrite E6.
    exists w6, root', h', P6, (pre ++ tc ++ post). split; [reflexivity|]. split.
    { eapply acc_trans; [exact A1|]. eapply acc_perm_l; [|exact A6]. rewrite <- EP. solve_Permutation. }
    split; [eapply shape_ops; [| |exact Hs6]; reflexivity|].
    assert (Hold : forall e, e ∈ es3 -> fst e = tag \/ exists e', e' ∈ es /\ fst e' = fst e).
    { intros e He. destruct Hupd as [(es1 & l & es2 & -> & ->)|(_ & es1 & es2 & -> & ->)].
      - apply elem_of_app in He as [He|He]; [right; exists e; set_solver|].
        apply elem_of_cons in He as [->|He]; [now left|right; exists e; set_solver].
      - apply elem_of_app in He as [He|He]; [right; exists e; set_solver|].
        apply elem_of_cons in He as [->|He]; [now left|right; exists e; set_solver]. }
    pose proof (tsorted_update bytes_cmp bytes_cmp_ok fst tag pre es es3 post Hsrt Hpre' Hpost' Hes3 Hold) as Hsrt3.
    assert (Etc : toks_es tc = es3).
    { destruct Htc as [-> | (es1 & e1 & e2 & es2 & -> & ->)]; [apply toks_es_map|].
      rewrite toks_es_app, toks_es_map. change (TS e2.1 :: ?x) with ([TS e2.1] ++ x). rewrite toks_es_app, toks_es_map. lassoc. }
    split.
    - destruct Htc as [-> | (es1 & e1 & e2 & es2 & -> & ->)]; [exact Hsrt3|].
      assert (EQ1 : pre ++ map TE (es1 ++ e1 :: e2 :: es2) ++ post = (pre ++ map TE es1) ++ TE e1 :: TE e2 :: (map TE es2 ++ post)).
      { rewrite map_app. cbn [map]. lassoc. }
      rewrite EQ1 in Hsrt3. apply (tsorted_sep bytes_cmp bytes_cmp_ok) in Hsrt3. unfold tags_sorted.
      match goal with |- tsorted _ _ ?l => replace l with ((pre ++ map TE es1) ++ TE e1 :: TS e2.1 :: TE e2 :: map TE es2 ++ post); [exact Hsrt3|] end.
      rewrite map_app. cbn [map]. lassoc.
    - intros t. unfold idx. rewrite !toks_es_app, Etc, toks_es_map. destruct Hupd as [(es1 & l & es2 & -> & ->)|(Hnin & es1 & es2 & -> & ->)].
      + rewrite !toks_es_app, toks_es_map in Hnd. rewrite <- !app_assoc in *. cbn [app] in *. rewrite !(app_assoc (toks_es pre)) in *.
        rewrite map_app in Hnd. cbn [map fst] in Hnd. apply NoDup_app in Hnd as (_ & Hnd & _).
        destruct (decide (t = tag)) as [->|Hne].
        * rewrite !alookup_mid; [reflexivity| |]; intros H; apply (Hnd tag H); now left.
        * now rewrite !alookup_other.
      + assert (Hni : tag ∉ map fst (toks_es (pre ++ map TE (es1 ++ es2) ++ post))) by (apply tsorted_notin; assumption).
        rewrite !toks_es_app, toks_es_map in Hni. rewrite <- !app_assoc in *. cbn [app] in *. rewrite !(app_assoc (toks_es pre)) in *.
        destruct (decide (t = tag)) as [->|Hne].
        * rewrite alookup_mid by (rewrite map_app in Hni; set_solver). rewrite (alookup_notin tag) by exact Hni. reflexivity.
        * now rewrite alookup_other.
  Qed.
End tags.
