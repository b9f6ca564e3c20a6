(** The tracking tree: recorded positions only move forward, and lookups return them. *)
From Verif Require Export TagsProofs TrackingTree.
Local Open Scope N_scope.

Notation trk_entry := (bytes * N)%type.
Definition trkleaf (get : N -> option node) (n : node) (P : list N) (es : list trk_entry) : Prop :=
  P = [] /\ n = NTrkLeaf (TrkLeaf (map fst es) (map snd es)).
Lemma trkleaf_frame get get' n P es :
  trkleaf get n P es -> (forall q, q ∈ P -> get' q = get q) -> trkleaf get' n P es.
Proof. auto. Qed.
Notation trkshape := (shape (trk_ops []) trkleaf).
Definition trk_kok (k : bytes) : Prop := nlen k <= 255.

(** The tracking table with entries [es]. *)
Definition trkrep (get : N -> option node) (root : N) (P : list N) (es : list trk_entry) : Prop :=
  (root = 0 /\ P = [] /\ es = []) \/
  (root <> 0 /\ exists h ts, trkshape get h root P ts /\ toks_es ts = es /\ tsorted bytes_cmp fst ts /\
    Forall trk_kok (toks_ks ts) /\ Forall trk_kok (map fst es) /\ es <> []).
Lemma trkrep_frame get get' root P es :
  trkrep get root P es -> (forall q, q ∈ P -> get' q = get q) -> trkrep get' root P es.
Proof.
  intros [H|(H0 & h & ts & Hs & H)] Hq; [now left|]. right. split; [exact H0|]. exists h, ts. split; [|exact H].
  eapply shape_frame; [apply trkleaf_frame|exact Hs|exact Hq].
Qed.

Lemma ssorted_nodup l : StronglySorted (clt bytes_cmp) l -> NoDup l.
Proof.
  induction 1 as [|x l Hs IH Hf]; constructor; auto.
  intros Hin. rewrite Forall_forall in Hf. apply Hf in Hin. now apply clt_irrefl in Hin; [|apply bytes_cmp_ok].
Qed.

Lemma trk_get_ok src es : StronglySorted (clt bytes_cmp) (map fst es) ->
  trk_get src (TrkLeaf (map fst es) (map snd es)) = Ok (alookup src es).
Proof.
  intros Hs. unfold trk_get. cbn [tk_keys tk_values].
  pose proof (bs_leaf bytes_cmp bytes_cmp_ok src (map fst es) Hs) as Hbs. fold (bs_bytes src (map fst es)) in Hbs.
  destruct (bs_bytes src (map fst es)) as [i|i].
  - destruct (map_lookup_split _ _ _ _ Hbs) as (es1 & [t l] & es2 & -> & Et & Ei). cbn in Et. subst t.
    rewrite map_app. cbn [map]. rewrite list_lookup_middle by (rewrite map_length; lia).
    rewrite alookup_mid; [reflexivity|]. apply ssorted_nodup in Hs. rewrite map_app in Hs. cbn [map fst] in Hs.
    apply NoDup_app in Hs as (_ & Hs & _). intros H. apply (Hs src H). now left.
  - destruct Hbs as (Hi & Hlt & Hgt). rewrite alookup_notin; [reflexivity|].
    intros Hin. rewrite <- (take_drop i (map fst es)) in Hin. apply elem_of_app in Hin as [Hin|Hin].
    + apply Hlt in Hin. now apply clt_irrefl in Hin; [|apply bytes_cmp_ok].
    + apply Hgt in Hin. now apply clt_irrefl in Hin; [|apply bytes_cmp_ok].
Qed.

(** Looking a key up in the leaf reached by the descent is looking it up in the tree. *)
Lemma alookup_leaf {V} x pre (es : list (bytes * V)) post :
  (forall t, t ∈ pre -> match t with TE e => clt bytes_cmp (fst e) x | TS k => cle bytes_cmp k x end) ->
  (forall t, t ∈ post -> clt bytes_cmp x (tk fst t)) ->
  alookup x (toks_es (pre ++ map TE es ++ post)) = alookup x es.
Proof.
  intros H1 H2. rewrite !toks_es_app, toks_es_map, !alookup_app.
  rewrite (alookup_notin x (toks_es pre)).
  2:{ intros Hin. apply elem_of_list_fmap in Hin as (e & -> & He). apply elem_toks_es, H1 in He. now apply clt_irrefl in He; [|apply bytes_cmp_ok]. }
  rewrite (alookup_notin x (toks_es post)).
  2:{ intros Hin. apply elem_of_list_fmap in Hin as (e & -> & He). apply elem_toks_es, H2 in He. now apply clt_irrefl in He; [|apply bytes_cmp_ok]. }
  destruct (alookup x es); reflexivity.
Qed.

Section trk.
  Context (rd : snapshot) (kw : nat) (ps : N) (Hps : ps_ok ps).

  Lemma foldr_keys_app (a b : list bytes) :
    foldr (fun k acc => 1 + nlen k + acc) 0 (a ++ b) = foldr (fun k acc => 1 + nlen k + acc) 0 a + foldr (fun k acc => 1 + nlen k + acc) 0 b.
  Proof. induction a as [|k a IH]; cbn [app foldr]; [lia|]. rewrite IH. lia. Qed.

  Lemma trk_leaf_update_ok w dl es Q src pos :
    pool_ok w ([dl] ++ Q) -> w_dirty w !! dl = Some (NTrkLeaf (TrkLeaf (map fst es) (map snd es))) ->
    StronglySorted (clt bytes_cmp) (map fst es) -> Forall trk_kok (map fst es) -> trk_kok src ->
    exists w' si Pc tc es',
      trk_leaf_update kw ps dl src pos w = (Ok si, w') /\ acc rd ([dl] ++ []) w Pc w' /\
      hole (trk_ops src) trkleaf (vget rd w') 0 dl si Pc tc /\
      StronglySorted (clt bytes_cmp) (map fst es') /\
      (tc = map TE es' \/ exists es1 e1 e2 es2, es' = es1 ++ e1 :: e2 :: es2 /\
        tc = map TE (es1 ++ [e1]) ++ TS (fst e2) :: map TE (e2 :: es2)) /\
      ((exists es1 v es2, es = es1 ++ (src, v) :: es2 /\ es' = es1 ++ (src, pos) :: es2) \/
       (src ∉ map fst es /\ exists es1 es2, es = es1 ++ es2 /\ es' = es1 ++ (src, pos) :: es2)).
  Proof.
    intros Hp Hd Hsrt Hk Hsk. unfold trk_leaf_update. unfold wbind at 1. unfold get_mut_dirty at 1. rewrite Hd. cbn [tk_keys tk_values].
    assert (H1 : exists es', (match bs_bytes src (map fst es) with
       | inl i => match map snd es !! i with Some _ => Ok (TrkLeaf (map fst es) (<[i := pos]> (map snd es))) | None => Err Panic end
       | inr i => Ok (TrkLeaf (vec_insert i src (map fst es)) (vec_insert i pos (map snd es))) end)
       = Ok (TrkLeaf (map fst es') (map snd es')) /\ StronglySorted (clt bytes_cmp) (map fst es') /\
      ((exists es1 v es2, es = es1 ++ (src, v) :: es2 /\ es' = es1 ++ (src, pos) :: es2) \/
       (src ∉ map fst es /\ exists es1 es2, es = es1 ++ es2 /\ es' = es1 ++ (src, pos) :: es2))).
    { pose proof (bs_leaf bytes_cmp bytes_cmp_ok src (map fst es) Hsrt) as Hbs. fold (bs_bytes src (map fst es)) in Hbs.
      destruct (bs_bytes src (map fst es)) as [i|i].
      - destruct (map_lookup_split _ _ _ _ Hbs) as (es1 & [t l] & es2 & -> & Et & Ei). cbn in Et. subst t.
        exists (es1 ++ (src, pos) :: es2). rewrite !map_app. cbn [map fst snd]. rewrite list_lookup_middle by (rewrite map_length; lia).
        split; [|split].
        + do 2 f_equal. rewrite <- Ei. rewrite <- (map_length snd es1) at 1. apply list_insert_mid.
        + rewrite map_app in Hsrt. exact Hsrt.
        + left. eauto.
      - destruct Hbs as (Hi & Hlt & Hgt). exists (take i es ++ (src, pos) :: drop i es).
        assert (Hkeys : map fst (take i es ++ (src, pos) :: drop i es) = take i (map fst es) ++ src :: drop i (map fst es)).
        { rewrite map_app. cbn [map fst]. now rewrite firstn_map, skipn_map. }
        assert (Hvals : map snd (take i es ++ (src, pos) :: drop i es) = take i (map snd es) ++ pos :: drop i (map snd es)).
        { rewrite map_app. cbn [map snd]. now rewrite firstn_map, skipn_map. }
        split; [now rewrite Hkeys, Hvals|]. split.
        + rewrite Hkeys. rewrite <- (take_drop i (map fst es)) in Hsrt. apply ss_app in Hsrt as (S1 & S2 & S3).
          apply ss_app. split; [exact S1|]. split.
          * constructor; [exact S2|]. apply Forall_forall. exact Hgt.
          * intros a b Ha Hb. apply elem_of_cons in Hb as [->|Hb]; [now apply Hlt|now apply S3].
        + right. split.
          * intros Hin. rewrite <- (take_drop i (map fst es)) in Hin. apply elem_of_app in Hin as [Hin|Hin].
            -- apply Hlt in Hin. now apply clt_irrefl in Hin; [|apply bytes_cmp_ok].
            -- apply Hgt in Hin. now apply clt_irrefl in Hin; [|apply bytes_cmp_ok].
          * exists (take i es), (drop i es). now rewrite take_drop. }
    destruct H1 as (es' & EL1 & Hs' & Hupd). unfold wbind at 1. unfold lift. rewrite EL1. cbn [tk_keys tk_values].
    assert (Hk' : Forall trk_kok (map fst es')).
    { destruct Hupd as [(es1 & v & es2 & -> & ->)|(_ & es1 & es2 & -> & ->)]; rewrite map_app in *; cbn [map fst] in *.
      - exact Hk.
      - apply Forall_app in Hk as [K1 K2]. apply Forall_app. split; [exact K1|]. constructor; assumption. }
    destruct (put_dirty_ok rd w dl (NTrkLeaf (TrkLeaf (map fst es') (map snd es'))) _ Hd) as (w1 & E1 & A1 & D1).
    unfold wbind at 1. rewrite E1.
    destruct (N.ltb_spec ps (page_size_of kw (NTrkLeaf (TrkLeaf (map fst es') (map snd es'))))) as [Hgt|Hle].
    - rewrite map_length.
      assert (Hlen : (2 <= length es')%nat).
      { destruct es' as [|e1 [|e2 es0]]; [| |cbn; lia]; exfalso; unfold page_size_of, node_size, trk_leaf_size, PAGE_HEADER_SIZE in Hgt;
          unfold ps_ok in Hps; cbn [map tk_keys tk_values foldr] in Hgt; unfold nlen in Hgt; cbn [length] in Hgt; [lia|].
        cbn [map] in Hk'. rewrite Forall_singleton in Hk'. unfold trk_kok, nlen in Hk'. lia. }
      replace (length es' <? 2)%nat with false by (symmetry; apply Nat.ltb_ge; lia). cbv zeta.
      set (mid := Nat.div2 (length es')).
      assert (Hmid : (1 <= mid < length es')%nat).
      { unfold mid. pose proof (Nat.div2_odd (length es')) as Hod. destruct (Nat.odd (length es')); cbn [Nat.b2n] in Hod; lia. }
      destruct (take mid es') as [|x xs] eqn:Etk.
      { apply (f_equal length) in Etk. rewrite take_length in Etk. cbn in Etk. lia. }
      destruct (exists_last (l := x :: xs)) as (es1 & e1 & Ee1); [discriminate|]. rewrite Ee1 in Etk. clear x xs Ee1.
      destruct (drop mid es') as [|e2 es2] eqn:Edr.
      { apply (f_equal length) in Edr. rewrite drop_length in Edr. cbn in Edr. lia. }
      assert (Ees : es' = (es1 ++ [e1]) ++ e2 :: es2) by (rewrite <- Etk, <- Edr; symmetry; apply take_drop).
      rewrite !skipn_map, !firstn_map, Edr, Etk. cbn [map].
      set (nl := NTrkLeaf (TrkLeaf (map fst (es1 ++ [e1])) (map snd (es1 ++ [e1])))).
      set (nr := NTrkLeaf (TrkLeaf (map fst (e2 :: es2)) (map snd (e2 :: es2)))).
      change (NTrkLeaf {| tk_keys := e2.1 :: map fst es2; tk_values := e2.2 :: map snd es2 |}) with nr.
      assert (D1' : w_dirty w1 !! dl = Some (NTrkLeaf (TrkLeaf (map fst es') (map snd es')))) by (rewrite D1; apply lookup_insert).
      destruct (put_dirty_ok rd w1 dl nl _ D1') as (w2 & E2 & A2 & D2).
      unfold wbind at 1. rewrite E2.
      pose proof (acc_pool' rd _ _ _ _ _ A2 (acc_pool' rd _ _ _ _ _ A1 Hp)) as Hp2.
      destruct (alloc_ok rd w2 _ Hp2) as (q & w2' & E3 & HqP & Hqf & Hq2 & Hins).
      destruct (Hins nr) as (w3 & E4 & A3 & D3).
      unfold wbind at 1. rewrite E3. unfold wbind at 1. rewrite E4.
      exists w3, (Some (e2.1, q)), ([dl] ++ [q]), (map TE (es1 ++ [e1]) ++ TS e2.1 :: map TE (e2 :: es2)), es'.
      split; [reflexivity|]. split; [|split; [|split; [exact Hs'|split; [|exact Hupd]]]].
      + apply (acc_perm_l rd [dl]); [reflexivity|]. eapply acc_trans; [exact A1|]. eapply acc_trans; [exact A2|].
        apply (acc_perm_r rd _ _ ([q] ++ [dl])); [solve_Permutation|].
        exact (acc_frame_r rd [dl] [] w2 [q] w3 A3).
      + cbn [hole]. exists [dl], [q], (map TE (es1 ++ [e1])), (map TE (e2 :: es2)).
        split; [reflexivity|]. split; [reflexivity|]. split.
        * apply (sh_leaf (trk_ops src) trkleaf _ dl nl); [|reflexivity|split; reflexivity].
          apply dirty_vget. rewrite D3, lookup_insert_ne by set_solver. rewrite D2. apply lookup_insert.
        * apply (sh_leaf (trk_ops src) trkleaf _ q nr); [|reflexivity|split; reflexivity].
          apply dirty_vget. rewrite D3. apply lookup_insert.
      + right. exists es1, e1, e2, es2. split; [rewrite Ees; lassoc|reflexivity].
    - exists w1, None, [dl], (map TE es'), es'. split; [reflexivity|]. split; [exact A1|]. split; [|split; [exact Hs'|split; [auto|exact Hupd]]].
      cbn [hole]. apply (sh_leaf (trk_ops src) trkleaf _ dl (NTrkLeaf (TrkLeaf (map fst es') (map snd es')))); [|reflexivity|split; reflexivity].
      apply dirty_vget. rewrite D1. apply lookup_insert.
  Qed.

  (** The outcome of an upsert: refused without a change of any page, or recorded. *)
  Theorem tracking_upsert_ok w P Q es src pos :
    coh rd w -> pool_ok w (P ++ Q) -> trkrep (vget rd w) (w_tracking_root w) P es ->
    if 255 <? nlen src then tracking_upsert rd kw ps src pos w = (Err EInvalidArgument, w)
    else if match alookup src es with Some e => pos <=? e | None => false end then
      exists w1, tracking_upsert rd kw ps src pos w = (Err EIntegrity, w1) /\ sim w w1 /\ coh rd w1
    else
      exists w1 root' P' es', tracking_upsert rd kw ps src pos w = (Ok tt, set_tracking_root root' w1) /\
        acc rd P w P' w1 /\ trkrep (vget rd w1) root' P' es' /\
        (forall s, alookup s es' = if decide (s = src) then Some pos else alookup s es).
  Proof.
    intros Hc Hp Hr. unfold tracking_upsert. destruct (N.ltb_spec 255 (nlen src)) as [|Hlen]; [reflexivity|].
    match goal with |- context [?m w = (Err EIntegrity, _)] => set (comp := m) end.
    enough (Hrun : exists r w', comp w = (r, w') /\
      if match alookup src es with Some e => pos <=? e | None => false end then r = Err EIntegrity /\ sim w w' /\ coh rd w'
      else r = Ok tt /\ exists w1 root' P' es', w' = set_tracking_root root' w1 /\
        acc rd P w P' w1 /\ trkrep (vget rd w1) root' P' es' /\
        (forall s, alookup s es' = if decide (s = src) then Some pos else alookup s es)).
    { destruct Hrun as (r & w' & E & H). destruct (match alookup src es with Some e => pos <=? e | None => false end).
      - destruct H as (-> & H). exists w'. auto.
      - destruct H as (-> & w1 & root' & P' & es' & -> & H). exists w1, root', P', es'. auto. }
    unfold comp; clear comp. unfold wbind at 1. unfold gets at 1.
    destruct Hr as [(Hr0 & -> & ->)|(Hr0 & h & ts & Hs & Ees & Hsrt & Hks & Hes & _)].
    { cbn [alookup]. rewrite Hr0, N.eqb_refl.
      destruct (alloc_ok rd w _ Hp) as (q & w1 & E1 & HqP & Hqf & Hq2 & Hins).
      destruct (Hins (NTrkLeaf (TrkLeaf [src] [pos]))) as (w2 & E2 & A2 & D2).
      unfold wbind at 1. rewrite E1. unfold wbind at 1. rewrite E2.
      eexists _, _. split; [reflexivity|]. split; [reflexivity|].
      exists w2, q, [q], [(src, pos)]. split; [reflexivity|]. split; [exact A2|]. split.
      - right. split; [lia|]. exists 0%nat, (map TE [(src, pos)]). split; [|split; [reflexivity|split; [|split]]].
        + apply (sh_leaf (trk_ops []) trkleaf _ q (NTrkLeaf (TrkLeaf [src] [pos]))); [|reflexivity|split; reflexivity].
          apply dirty_vget. rewrite D2. apply lookup_insert.
        + repeat constructor.
        + constructor.
        + split; [|discriminate]. repeat constructor. exact Hlen.
      - intros s. cbn [alookup]. destruct (decide (src = s)), (decide (s = src)); congruence. }
    rewrite (proj2 (N.eqb_neq _ _) Hr0). unfold wbind at 1. unfold gets at 1.
    destruct (pool_height _ _ _ _ _ _ _ _ _ Hp Hs) as (h0 & Hh & Hs0). clear Hs. rename Hs0 into Hs. clear h. rename h0 into h.
    assert (Hs' : shape (trk_ops src) trkleaf (vget rd w) h (w_tracking_root w) P ts) by (eapply shape_ops; [| |exact Hs]; reflexivity).
    edestruct (descend_ok (trk_ops src) trkleaf trkleaf_frame rd kw ps False trk_kok (trk_laws kw ps Hps src)
      (StronglySorted (clt bytes_cmp)) (fun k => cle bytes_cmp k src) (fun k => clt bytes_cmp src k)
      (fun ks ks' H1 H2 => ssorted_sublist _ ks ks' H1 H2)
      (fun ks cs Hl Hk => bs_choose_law bytes_cmp bytes_cmp_ok src EDatabaseCorrupted ks cs Hl Hk)
      _ h (w_tracking_root w) w [] (w_tracking_root w) h [] [] [] P ts Hh)
      as (w1 & leaf & st & Pp & pre & post & n & Pl & esl & E1 & S1 & C1 & [hl Hpath] & Hn & Hleaf & Hlr & Hld & Hst & _ & Etk & EP & Hpre & Hpost).
    { constructor. }
    { exact Hs'. }
    { exact Hc. }
    { constructor. }
    { left; reflexivity. }
    { left; reflexivity. }
    { rewrite app_nil_r. cbn [app]. now apply tsorted_ks in Hsrt. }
    { intros H; discriminate H. }
    cbn [app] in Etk. rewrite app_nil_r in Etk. cbn [app] in EP.
    destruct Hlr as [-> ->].
    unfold wbind at 1. rewrite E1.
    subst ts.
    destruct (search_split bytes_cmp bytes_cmp_ok fst src pre esl post Hsrt Hpre Hpost) as (Hpre' & Hpost' & Hesl).
    assert (Elk : alookup src es = alookup src esl) by (rewrite <- Ees; now apply alookup_leaf).
    destruct (get_page_ref_ok rd w1 leaf _ C1 Hn) as (w1' & E1' & S1' & C1' & L1').
    assert (w1' = w1) as ->.
    { unfold get_page_ref in E1'. destruct (w_dirty w1 !! leaf) eqn:Ed; [congruence|].
      destruct Hld as [Hld|[m Hld]]; [rewrite Ed in Hld; now destruct Hld|]. rewrite Hld in E1'. congruence. }
    unfold wbind at 1. rewrite E1'.
    rewrite Elk. unfold wbind at 1. unfold wbind at 1. unfold lift at 1. rewrite (trk_get_ok src esl Hesl).
    destruct (match alookup src esl with Some e => pos <=? e | None => false end) eqn:Emono.
    { destruct (alookup src esl) as [e|]; [|discriminate]. rewrite Emono. cbn [fail]. eexists _, w1. split; [reflexivity|]. auto. }
    assert (Hgo : (match alookup src esl with Some existing => if pos <=? existing then fail EIntegrity else ret tt | None => ret tt end) w1 = (Ok tt, w1)).
    { destruct (alookup src esl) as [e|]; [rewrite Emono|]; reflexivity. }
    rewrite Hgo. clear Hgo.
    pose proof (sim_acc rd P w w1 S1 C1) as A1.
    assert (Hp1 : pool_ok w1 ([leaf] ++ [] ++ Pp ++ Q)).
    { eapply pool_ok_perm; [|eapply acc_pool'; [exact A1|exact Hp]]. rewrite <- EP. solve_Permutation. }
    destruct (cow_ok rd w1 leaf _ _ C1 Hld Hn Hp1) as (dl & w2 & E2 & A2 & D2).
    unfold wbind at 1. rewrite E2.
    pose proof (acc_pool' rd _ _ _ _ _ A2 Hp1) as Hp2.
    rewrite <- Ees, !toks_es_app, toks_es_map, !map_app, !Forall_app in Hes. destruct Hes as (Hk1 & Hk2 & Hk3).
    destruct (trk_leaf_update_ok w2 dl esl _ src pos Hp2 D2 Hesl Hk2 Hlen) as (w4 & si & Pc & tc & es3 & E4 & A4 & Hhole & Hs3 & Htc & Hupd).
    unfold wbind at 1. rewrite E4.
    assert (Etc : toks_es tc = es3).
    { destruct Htc as [-> | (es1 & e1 & e2 & es2 & -> & ->)]; [apply toks_es_map|].
      rewrite toks_es_app, toks_es_map. change (TS e2.1 :: ?x) with ([TS e2.1] ++ x). rewrite toks_es_app, toks_es_map. lassoc. }
    assert (Hk3' : Forall trk_kok (map fst es3)).
    { destruct Hupd as [(es1 & v & es2 & -> & ->)|(_ & es1 & es2 & -> & ->)]; rewrite map_app in *; cbn [map fst] in *.
      - exact Hk2.
      - apply Forall_app in Hk2 as [K1 K2]. apply Forall_app. split; [exact K1|]. constructor; assumption. }
    assert (Hkc : Forall trk_kok (toks_ks (pre ++ tc ++ post))).
    { rewrite !toks_ks_app in Hks |- *. rewrite toks_ks_map in Hks. rewrite !Forall_app in Hks |- *. destruct Hks as (K1 & _ & K2).
      split; [exact K1|]. split; [|exact K2].
      destruct Htc as [-> | (es1 & e1 & e2 & es2 & -> & ->)]; [rewrite toks_ks_map; constructor|].
      rewrite toks_ks_app, toks_ks_map. change (TS e2.1 :: ?x) with ([TS e2.1] ++ x). rewrite toks_ks_app, toks_ks_map. cbn.
      constructor; [|constructor]. rewrite map_app in Hk3'. cbn [map] in Hk3'. rewrite Forall_app, !Forall_cons in Hk3'. tauto. }
    edestruct (tree_close (trk_ops src) trkleaf trkleaf_frame rd kw ps False trk_kok (trk_laws kw ps Hps src)
      w1 leaf st (w_tracking_root w) h Pp pre post [] Q dl w2 w4 si Pc _ C1 Hpath Hst Hp1 A2 ltac:(discriminate) A4 Hhole Hkc)
      as (w5 & ri & si' & w6 & root' & h' & P6 & E5 & E6 & A6 & Hs6).
    unfold wbind at 1. rewrite E5. unfold wbind at 1. rewrite E6.
    assert (A : acc rd P w P6 w6).
    { eapply acc_trans; [exact A1|]. eapply acc_perm_l; [|exact A6]. rewrite <- EP. solve_Permutation. }
    eexists _, _. split; [reflexivity|]. split; [reflexivity|].
    exists w6, root', P6, (toks_es (pre ++ tc ++ post)). split; [reflexivity|]. split; [exact A|]. split.
    - right. split.
      + eapply pool_ne0; [eapply acc_pool'; [exact A|exact Hp]|]. destruct (shape_head _ _ _ _ _ _ _ Hs6) as [P6' ->]. set_solver.
      + exists h', (pre ++ tc ++ post). split; [eapply shape_ops; [| |exact Hs6]; reflexivity|]. split; [reflexivity|]. split; [|split; [exact Hkc|]].
        * assert (Hold : forall e, e ∈ es3 -> fst e = src \/ exists e', e' ∈ esl /\ fst e' = fst e).
          { intros e He. destruct Hupd as [(es1 & l & es2 & -> & ->)|(_ & es1 & es2 & -> & ->)].
            - apply elem_of_app in He as [He|He]; [right; exists e; set_solver|].
              apply elem_of_cons in He as [->|He]; [now left|right; exists e; set_solver].
            - apply elem_of_app in He as [He|He]; [right; exists e; set_solver|].
              apply elem_of_cons in He as [->|He]; [now left|right; exists e; set_solver]. }
          pose proof (tsorted_update bytes_cmp bytes_cmp_ok fst src pre esl es3 post Hsrt Hpre' Hpost' Hs3 Hold) as Hsrt3.
          destruct Htc as [-> | (es1 & e1 & e2 & es2 & -> & ->)]; [exact Hsrt3|].
          assert (EQ1 : pre ++ map TE (es1 ++ e1 :: e2 :: es2) ++ post = (pre ++ map TE es1) ++ TE e1 :: TE e2 :: (map TE es2 ++ post)).
          { rewrite map_app. cbn [map]. lassoc. }
          rewrite EQ1 in Hsrt3. apply (tsorted_sep bytes_cmp bytes_cmp_ok) in Hsrt3.
          match goal with |- tsorted _ _ ?l => replace l with ((pre ++ map TE es1) ++ TE e1 :: TS e2.1 :: TE e2 :: map TE es2 ++ post); [exact Hsrt3|] end.
          rewrite map_app. cbn [map]. lassoc.
        * split; [rewrite !toks_es_app, Etc, !map_app, !Forall_app; auto|]. intros E0. apply (f_equal length) in E0. rewrite !toks_es_app, Etc, !app_length in E0.
          destruct Hupd as [(es1 & l & es2 & _ & ->)|(_ & es1 & es2 & _ & ->)]; rewrite app_length in E0; cbn [length] in E0; lia.
    - intros s. rewrite <- Ees. rewrite !toks_es_app, Etc, toks_es_map.
      assert (Hnd : NoDup (map fst (toks_es (pre ++ map TE esl ++ post)))) by (apply ssorted_nodup, tsorted_es; exact Hsrt).
      destruct Hupd as [(es1 & l & es2 & -> & ->)|(Hnin & es1 & es2 & -> & ->)].
      + rewrite !toks_es_app, toks_es_map in Hnd. rewrite <- !app_assoc in *. cbn [app] in *. rewrite !(app_assoc (toks_es pre)) in *.
        rewrite map_app in Hnd. cbn [map fst] in Hnd. apply NoDup_app in Hnd as (_ & Hnd & _).
        destruct (decide (s = src)) as [->|Hne].
        * rewrite alookup_mid; [reflexivity|]; intros H; apply (Hnd src H); now left.
        * now rewrite !alookup_other.
      + assert (Hni : src ∉ map fst (toks_es pre)).
        { intros Hin. apply elem_of_list_fmap in Hin as (e & -> & He). apply elem_toks_es, Hpre' in He. now apply clt_irrefl in He; [|apply bytes_cmp_ok]. }
        rewrite map_app in Hnin. rewrite <- !app_assoc in *. cbn [app] in *. rewrite !(app_assoc (toks_es pre)) in *.
        destruct (decide (s = src)) as [->|Hne].
        * rewrite alookup_mid by (rewrite map_app; set_solver). reflexivity.
        * now rewrite alookup_other.
  Qed.
End trk.
