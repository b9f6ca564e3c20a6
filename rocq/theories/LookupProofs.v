(** Lookups by key: the event at a position, the positions of a tag, the position of a source. *)
From Verif Require Export EventsProofs TrackingProofs Iter.
Local Open Scope N_scope.

Lemma choose_bs_inv {K} (bs : list K -> nat + nat) e nd i c :
  choose_bs bs e nd = Ok (i, c) -> i = bs_child (bs (in_keys nd)) /\ in_children nd !! i = Some c.
Proof.
  unfold choose_bs. destruct (in_children nd !! bs_child (bs (in_keys nd))) as [c'|] eqn:Ec; [|discriminate].
  intros [= <- <-]. auto.
Qed.

Section step.
  Context {K V : Type} `{EqDecision K} (ops : tree_ops K) (cmp : K -> K -> comparison) (Hcmp : cmp_ok cmp).
  Context (lr : (N -> option node) -> node -> list N -> list (K * V) -> Prop).

  (** One step down the tree keeps the value of the key. *)
  Lemma lookup_step get h p P ts x :
    shape ops lr get h p P ts -> tsorted cmp fst ts ->
    (exists n P0 es, get p = Some n /\ t_leaf ops n = true /\ P = p :: P0 /\ ts = map TE es /\ lr get n P0 es) \/
    (exists h' n nd c Pc tc, h = S h' /\ get p = Some n /\ t_leaf ops n = false /\ t_int ops n = Some nd /\
       in_children nd !! bs_child (binary_search (fun k => cmp k x) (in_keys nd)) = Some c /\
       shape ops lr get h' c Pc tc /\ tsorted cmp fst tc /\ Pc ⊆+ P /\ (length Pc < length P)%nat /\
       alookup x (toks_es ts) = alookup x (toks_es tc)).
  Proof.
    intros Hs Hsrt. destruct (shape_int_forest ops lr get h p P ts Hs) as [H|(h' & n & ks & cs & P0 & -> & Hg & Hl & Hi & Hne & -> & Hf)];
      [now left|right].
    pose proof (forest_length _ _ _ _ _ _ _ _ Hf) as Elen.
    assert (Hks : StronglySorted (clt cmp) ks).
    { eapply ssorted_sublist; [|apply (tsorted_ks cmp (@fst K V)); exact Hsrt]. eapply forest_ks. exact Hf. }
    destruct (bs_choose_law cmp Hcmp x Panic ks cs Elen Hks) as (ksL & ksR & csL & c & csR & -> & -> & EL & Ech & _ & HkL & HkR).
    destruct (forest_unplug _ _ _ _ _ _ _ _ _ _ _ Hf EL) as (PL & Pc & PR & pre & tc & post & -> & -> & HL & Hsc & HR).
    apply choose_bs_inv in Ech as [Ei Ec]. cbn [in_keys in_children] in Ei, Ec.
    exists h', n, (INode (ksL ++ ksR) (csL ++ c :: csR)), c, Pc, tc. cbn [in_keys in_children]. rewrite <- Ei.
    assert (Hcl : forall e, e ∈ toks_es pre -> clt cmp (fst e) x).
    { intros e He. apply elem_toks_es in He.
      destruct (lforest_pre _ _ _ _ _ _ _ _ HL) as [[-> ->]|(ks' & k & pre' & -> & ->)]; [inversion He|].
      specialize (HkL k (last_snoc _ _)).
      apply elem_of_app in He as [He|He]; [|apply elem_of_list_singleton in He; discriminate].
      apply ss_app in Hsrt as (S1 & _ & _). apply ss_app in S1 as (_ & _ & S1).
      specialize (S1 (TE e) (TS k) He ltac:(now left)). cbn in S1. eapply clt_cle_trans; eassumption. }
    assert (Hcr : forall e, e ∈ toks_es post -> clt cmp x (fst e)).
    { intros e He. apply elem_toks_es in He.
      destruct (rforest_post _ _ _ _ _ _ _ _ HR) as [[-> ->]|(ks' & k & post' & -> & ->)]; [inversion He|].
      specialize (HkR k eq_refl).
      apply elem_of_cons in He as [He|He]; [discriminate|].
      apply ss_app in Hsrt as (_ & S2 & _). apply ss_app in S2 as (_ & S2 & _).
      inversion S2 as [|? ? _ Hfa]; subst. rewrite Forall_forall in Hfa. specialize (Hfa (TE e) He). cbn in Hfa.
      eapply clt_cle_trans; eassumption. }
    assert (Hn1 : alookup x (toks_es pre) = None).
    { apply alookup_notin. intros Hin. apply elem_of_list_fmap in Hin as (e & -> & He). apply (clt_irrefl _ Hcmp _ (Hcl e He)). }
    assert (Hn2 : alookup x (toks_es post) = None).
    { apply alookup_notin. intros Hin. apply elem_of_list_fmap in Hin as (e & -> & He). apply (clt_irrefl _ Hcmp _ (Hcr e He)). }
    repeat split; auto.
    - apply ss_app in Hsrt as (_ & S2 & _). apply ss_app in S2 as (S2 & _ & _). exact S2.
    - apply submseteq_cons, submseteq_inserts_l, submseteq_inserts_r. reflexivity.
    - cbn [length]. rewrite !app_length. lia.
    - rewrite !toks_es_app, !alookup_app, Hn1, Hn2. destruct (alookup x (toks_es tc)); reflexivity.
  Qed.
End step.

Lemma agrees_sub get pg P P' : P' ⊆ P -> agrees get pg P -> agrees get pg P'.
Proof. intros Hs Ha q n Hq. apply Ha. now apply Hs. Qed.

(** ** Tracking *)
Lemma tracking_lookup_ok get pg src : forall fuel h p P ts,
  trkshape get h p P ts -> tsorted bytes_cmp fst ts -> agrees get pg P -> (h < fuel)%nat ->
  tracking_lookup fuel pg p src = Ok (alookup src (toks_es ts)).
Proof.
  induction fuel as [|fuel IH]; intros h p P ts Hs Hsrt Ha Hf; [lia|]. cbn [tracking_lookup].
  destruct (lookup_step _ bytes_cmp bytes_cmp_ok _ get h p P ts src Hs Hsrt)
    as [(n & P0 & es & Hg & Hl & -> & -> & Hlr)|(h' & n & nd & c & Pc & tc & -> & Hg & Hl & Hi & Hc & Hsc & Hsrt' & Hsub & _ & ->)].
  - rewrite (Ha p n ltac:(set_solver) Hg). cbn [rbind]. destruct Hlr as [_ ->].
    rewrite toks_es_map. apply trk_get_ok. apply (tsorted_es bytes_cmp fst) in Hsrt. now rewrite toks_es_map in Hsrt.
  - assert (p ∈ P) as Hp by (destruct (shape_head _ _ _ _ _ _ _ Hs) as [? ->]; now left).
    rewrite (Ha p n Hp Hg). cbn [rbind]. destruct n; try discriminate Hi. injection Hi as ->.
    unfold bs_bytes. rewrite Hc. eapply IH; [exact Hsc|exact Hsrt'|eapply agrees_sub; [|eassumption]; intros ? ?; eapply elem_of_submseteq; eassumption|lia].
Qed.
Theorem get_tracking_info_ok get pg root P es src fuel :
  trkrep get root P es -> agrees get pg P -> (length P < fuel)%nat ->
  get_tracking_info fuel pg root src = Ok (alookup src es).
Proof.
  intros [(-> & _ & ->)|(H0 & h & ts & Hs & <- & Hsrt & _)] Ha Hf; unfold get_tracking_info; [reflexivity|].
  rewrite (proj2 (N.eqb_neq root 0) H0).
  destruct (shape_height _ _ _ _ _ _ _ Hs) as (h' & Hh & Hs').
  eapply tracking_lookup_ok; [exact Hs'|exact Hsrt|exact Ha|lia].
Qed.

(** ** Events *)
Lemma alookup_nodup {K V} `{EqDecision K} (l : list (K * V)) x v : NoDup (map fst l) -> (x, v) ∈ l -> alookup x l = Some v.
Proof.
  intros Hnd Hin. apply elem_of_list_split in Hin as (l1 & l2 & ->). apply alookup_mid.
  rewrite map_app in Hnd. apply NoDup_app in Hnd as (_ & Hnd & _). intros H. apply (Hnd x H). now left.
Qed.

Lemma event_tree_lookup_ok get pg pos cfuel : forall fuel h p P ts,
  shape ev_ops evleaf get h p P ts -> tsorted N.compare fst ts -> agrees get pg P -> (h < fuel)%nat -> (length P <= cfuel)%nat ->
  event_tree_lookup fuel cfuel pg p pos = match alookup pos (toks_es ts) with Some r => Ok r | None => Err EDatabaseCorrupted end.
Proof.
  induction fuel as [|fuel IH]; intros h p P ts Hs Hsrt Ha Hf Hcf; [lia|]. cbn [event_tree_lookup].
  assert (p ∈ P) as Hp by (destruct (shape_head _ _ _ _ _ _ _ Hs) as [? ->]; now left).
  destruct (lookup_step _ N.compare N_cmp_ok _ get h p P ts pos Hs Hsrt)
    as [(n & P0 & es & Hg & Hl & -> & -> & Hlr)|(h' & n & nd & c & Pc & tc & -> & Hg & Hl & Hi & Hc & Hsc & Hsrt' & Hsub & Hlen & ->)].
  - rewrite (Ha p n Hp Hg). cbn [rbind]. destruct Hlr as (vs & -> & Hvs). cbn [ev_keys ev_values].
    rewrite toks_es_map. apply (tsorted_es N.compare fst) in Hsrt. rewrite toks_es_map in Hsrt.
    pose proof (bs_leaf N.compare N_cmp_ok pos (map fst es) Hsrt) as Hbs. fold (bs_N pos (map fst es)) in Hbs.
    destruct (bs_N pos (map fst es)) as [i|i].
    + destruct (map_lookup_split _ _ _ _ Hbs) as (es1 & [t r] & es2 & -> & Et & Ei). cbn in Et. subst t.
      assert (is_Some (vs !! i)) as [v Hv].
      { apply lookup_lt_is_Some. rewrite (valsrep_length _ _ _ _ Hvs), map_length, app_length. cbn. lia. }
      rewrite Hv. destruct (valsrep_lookup _ _ _ _ _ _ Hvs Hv) as (r' & C & C1 & C2 & Hr' & Hvr & ->).
      rewrite map_app in Hr'. cbn [map] in Hr'. rewrite list_lookup_middle in Hr' by (rewrite map_length; lia). injection Hr' as <-.
      rewrite (materialize_ok _ pg _ _ _ cfuel Hvr).
      * rewrite alookup_mid; [reflexivity|]. intros Hin. rewrite map_app in Hsrt.
        apply ss_app in Hsrt as (_ & _ & H3). specialize (H3 pos pos Hin ltac:(now left)).
        now apply clt_irrefl in H3; [|apply N_cmp_ok].
      * eapply agrees_sub; [|exact Ha]. set_solver.
      * cbn [length] in Hcf. rewrite !app_length in Hcf. lia.
    + destruct Hbs as (Hi & Hlt & Hgt). rewrite alookup_notin; [reflexivity|].
      intros Hin. rewrite <- (take_drop i (map fst es)) in Hin. apply elem_of_app in Hin as [Hin|Hin].
      * apply Hlt in Hin. now apply clt_irrefl in Hin; [|apply N_cmp_ok].
      * apply Hgt in Hin. now apply clt_irrefl in Hin; [|apply N_cmp_ok].
  - rewrite (Ha p n Hp Hg). cbn [rbind]. destruct n; try discriminate Hi. injection Hi as ->.
    unfold bs_N. rewrite Hc. eapply IH; [exact Hsc|exact Hsrt'|eapply agrees_sub; [|eassumption]; intros ? ?; eapply elem_of_submseteq; eassumption|lia|lia].
Qed.

(** ** The value of a tag *)
Section tags.
  Context (kw : nat) (ps : N).
  Notation tagsshape := (shape (tags_ops []) (tagsleaf kw ps)).
  Lemma ti_find_ok get pg tag : forall fuel h p P ts,
    tagsshape get h p P ts -> tsorted bytes_cmp fst ts -> agrees get pg P -> (h < fuel)%nat ->
    match ti_find pg fuel p tag with
    | Some v => exists Pv l, alookup tag (toks_es ts) = Some l /\ tvrep kw ps get v Pv l /\ Pv ⊆+ P
    | None => alookup tag (toks_es ts) = None
    end.
  Proof.
    induction fuel as [|fuel IH]; intros h p P ts Hs Hsrt Ha Hf; [lia|]. cbn [ti_find].
    assert (p ∈ P) as Hp by (destruct (shape_head _ _ _ _ _ _ _ Hs) as [? ->]; now left).
    destruct (lookup_step _ bytes_cmp bytes_cmp_ok _ get h p P ts tag Hs Hsrt)
      as [(n & P0 & es & Hg & Hl & -> & -> & Hlr)|(h' & n & nd & c & Pc & tc & -> & Hg & Hl & Hi & Hc & Hsc & Hsrt' & Hsub & Hlen & ->)].
    - rewrite (Ha p n Hp Hg). destruct Hlr as (vs & -> & Hvs). cbn [tl_keys tl_values].
      rewrite toks_es_map. apply (tsorted_es bytes_cmp fst) in Hsrt. rewrite toks_es_map in Hsrt.
      pose proof (bs_leaf bytes_cmp bytes_cmp_ok tag (map fst es) Hsrt) as Hbs. fold (bs_bytes tag (map fst es)) in Hbs.
      destruct (bs_bytes tag (map fst es)) as [i|i].
      + destruct (map_lookup_split _ _ _ _ Hbs) as (es1 & [t r] & es2 & -> & Et & Ei). cbn in Et. subst t.
        assert (map snd (es1 ++ (tag, r) :: es2) !! i = Some r) as Hr.
        { rewrite map_app. cbn [map]. apply list_lookup_middle. rewrite map_length. lia. }
        destruct (listrep_lookup' _ _ _ _ _ _ _ Hvs Hr) as (Pv & v & Hv & Hrep & Hsub). rewrite Hv.
        exists Pv, r. split; [|split; [exact Hrep|]].
        * apply alookup_mid. intros Hin. rewrite map_app in Hsrt.
          apply ss_app in Hsrt as (_ & _ & H3). specialize (H3 tag tag Hin ltac:(now left)).
          now apply clt_irrefl in H3; [|apply bytes_cmp_ok].
        * apply submseteq_cons. now apply sublist_submseteq.
      + destruct Hbs as (Hi & Hlt & Hgt). apply alookup_notin.
        intros Hin. rewrite <- (take_drop i (map fst es)) in Hin. apply elem_of_app in Hin as [Hin|Hin].
        * apply Hlt in Hin. now apply clt_irrefl in Hin; [|apply bytes_cmp_ok].
        * apply Hgt in Hin. now apply clt_irrefl in Hin; [|apply bytes_cmp_ok].
    - rewrite (Ha p n Hp Hg). destruct n; try discriminate Hi. injection Hi as ->.
      unfold bs_bytes. rewrite Hc. specialize (IH h' c Pc tc Hsc Hsrt' ltac:(eapply agrees_sub; [|eassumption]; intros ? ?; eapply elem_of_submseteq; eassumption) ltac:(lia)).
      destruct (ti_find pg fuel c tag) as [v|]; [|exact IH].
      destruct IH as (Pv & l & H1 & H2 & H3). exists Pv, l. split; [exact H1|]. split; [exact H2|].
      etrans; eassumption.
  Qed.
End tags.
