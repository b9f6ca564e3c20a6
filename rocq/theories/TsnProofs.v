(** The page ids freed in one transaction, when kept in a tree of their own. *)
From Verif Require Export FreeList TagsProofs.
Local Open Scope N_scope.

Definition tsnleaf (get : N -> option node) (n : node) (P : list N) (es : list N) : Prop := P = [] /\ n = NTsnLeaf es.
Lemma tsnleaf_frame get get' n P es :
  tsnleaf get n P es -> (forall q, q ∈ P -> get' q = get q) -> tsnleaf get' n P es.
Proof. auto. Qed.
Notation tsnshape := (shape (tsn_ops 0) tsnleaf).
Definition tsntree (get : N -> option node) (root : N) (P : list N) (ids : list N) : Prop :=
  exists h ts, tsnshape get h root P ts /\ toks_es ts = ids /\ tsorted N.compare id ts.
Lemma tsntree_frame get get' root P ids :
  tsntree get root P ids -> (forall q, q ∈ P -> get' q = get q) -> tsntree get' root P ids.
Proof.
  intros (h & ts & Hs & Ht & Hw) Hq. exists h, ts. repeat split; auto.
  eapply shape_frame; [apply tsnleaf_frame|exact Hs|exact Hq].
Qed.
Lemma tsntree_head get root P ids : tsntree get root P ids -> exists P', P = root :: P'.
Proof. intros (h & ts & Hs & _). exact (shape_head _ _ _ _ _ _ _ Hs). Qed.
Lemma tsntree_sorted get root P ids : tsntree get root P ids -> StronglySorted (clt N.compare) ids.
Proof. intros (h & ts & Hs & <- & Hw). apply tsorted_es in Hw. rewrite map_id in Hw. exact Hw. Qed.
Lemma tsntree_nodup get root P ids : tsntree get root P ids -> NoDup ids.
Proof.
  intros H. apply tsntree_sorted in H. induction H as [|x l Hs IH Hf]; constructor; [|exact IH].
  intros Hx. rewrite Forall_forall in Hf. specialize (Hf x Hx). apply (proj1 (cltN _ _)) in Hf. exact (N.lt_irrefl _ Hf).
Qed.

(** A step never leaves pages of a dirty structure undirtied. *)
Lemma acc_all_dirty rd P w P' w' Q :
  acc rd P w P' w' -> pool_ok w (P ++ Q) -> (forall q, q ∈ P -> is_Some (w_dirty w !! q)) ->
  forall q, q ∈ P' -> is_Some (w_dirty w' !! q).
Proof.
  intros (po & k & fn & A) HQ Hd q Hq.
  assert (q ∉ fn) as Hf by (eapply acc_fn_notin; [exact A|exact HQ|set_solver]).
  assert (q ∈ P' ++ fn) as Hin by set_solver. rewrite (acc_perm _ _ _ _ _ _ _ _ A) in Hin.
  apply elem_of_app in Hin as [Hin|Hin].
  - apply (acc_keep _ _ _ _ _ _ _ _ A); auto.
  - apply (acc_new _ _ _ _ _ _ _ _ A); auto.
Qed.
Lemma acc_all_loaded rd P w P' w' Q :
  acc rd P w P' w' -> pool_ok w (P ++ Q) -> (forall q, q ∈ P -> loaded w q) ->
  forall q, q ∈ P' -> loaded w' q.
Proof.
  intros (po & k & fn & A) HQ Hd q Hq.
  assert (q ∉ fn) as Hf by (eapply acc_fn_notin; [exact A|exact HQ|set_solver]).
  assert (q ∈ P' ++ fn) as Hin by set_solver. rewrite (acc_perm _ _ _ _ _ _ _ _ A) in Hin.
  apply elem_of_app in Hin as [Hin|Hin].
  - apply (acc_loaded _ _ _ _ _ _ _ _ A); auto.
  - left. apply (acc_new _ _ _ _ _ _ _ _ A); auto.
Qed.

Lemma vec_insert_split {A} i (x : A) l : (i <= length l)%nat -> exists l1 l2, l = l1 ++ l2 /\ length l1 = i /\ vec_insert i x l = l1 ++ x :: l2.
Proof.
  intros Hi. exists (take i l), (drop i l). split; [now rewrite take_drop|]. split; [rewrite take_length; lia|reflexivity].
Qed.

Section tsn.
  Context (rd : snapshot) (kw : nat) (ps : N) (Hps : ps_ok ps).

  Lemma tsn_insert_ok w P Q root ids key :
    coh rd w -> pool_ok w (P ++ Q) -> tsntree (vget rd w) root P ids -> key ∉ ids ->
    (forall q, q ∈ P -> is_Some (w_dirty w !! q)) ->
    exists w' root' P' ids', tsn_subtree_insert rd kw ps root key w = (Ok root', w') /\ acc rd P w P' w' /\
      tsntree (vget rd w') root' P' ids' /\ ids' ≡ₚ key :: ids.
  Proof.
    intros Hc Hp (h & ts & Hs & Ees & Hsrt) Hnew Hdirty. unfold tsn_subtree_insert.
    unfold wbind at 1. unfold gets at 1.
    destruct (pool_height _ _ _ _ _ _ _ _ _ Hp Hs) as (h0 & Hh & Hs0). clear Hs. rename Hs0 into Hs. clear h. rename h0 into h.
    assert (Hs' : shape (tsn_ops key) tsnleaf (vget rd w) h root P ts) by (eapply shape_ops; [| |exact Hs]; reflexivity).
    edestruct (descend_ok (tsn_ops key) tsnleaf tsnleaf_frame rd kw ps False (fun _ => True) (tsn_laws kw ps Hps key)
      (StronglySorted (clt N.compare)) (fun k => cle N.compare k key) (fun k => clt N.compare key k)
      (fun ks ks' H1 H2 => ssorted_sublist _ ks ks' H1 H2)
      (fun ks cs Hl Hk => bs_choose_law N.compare N_cmp_ok key Panic ks cs Hl Hk)
      _ h root w [] root h [] [] [] P ts Hh)
      as (w1 & leaf & st & Pp & pre & post & n & Pl & es & E1 & S1 & C1 & [hl Hpath] & Hn & Hleaf & Hlr & Hld & Hst & Hdl & Etk & EP & Hpre & Hpost).
    { constructor. }
    { exact Hs'. }
    { exact Hc. }
    { constructor. }
    { left; reflexivity. }
    { left; reflexivity. }
    { rewrite app_nil_r. cbn [app]. exact (tsorted_ks N.compare (@id N) ts Hsrt). }
    { intros _. exact Hdirty. }
    cbn [app] in Etk. rewrite app_nil_r in Etk. cbn [app] in EP.
    destruct Hlr as [-> ->].
    unfold wbind at 1. rewrite E1.
    pose proof (sim_acc rd P w w1 S1 C1) as A1.
    assert (Hp1 : pool_ok w1 ([leaf] ++ [] ++ Pp ++ Q)).
    { eapply pool_ok_perm; [|eapply acc_pool'; [exact A1|exact Hp]]. rewrite <- EP. solve_Permutation. }
    assert (D1 : w_dirty w1 !! leaf = Some (NTsnLeaf es)).
    { destruct (Hdl eq_refl leaf ltac:(now left)) as [m Hm]. unfold vget in Hn. rewrite Hm in Hn. congruence. }
    unfold wbind at 1. unfold get_mut_dirty at 1. rewrite D1.
    rewrite <- Etk in Hsrt.
    destruct (search_split N.compare N_cmp_ok id key pre es post Hsrt Hpre Hpost) as (Hpre' & Hpost' & Hes).
    rewrite map_id in Hes.
    pose proof (bs_leaf N.compare N_cmp_ok key es Hes) as Hbs. fold (bs_N key es) in Hbs.
    destruct (bs_N key es) as [i|i] eqn:Ebs.
    { exfalso. apply Hnew. rewrite <- Ees, <- Etk, !toks_es_app, toks_es_map, !elem_of_app. right; left. eapply elem_of_list_lookup_2; exact Hbs. }
    destruct Hbs as (Hi & Hlt & Hgt). cbv zeta.
    destruct (vec_insert_split i key es Hi) as (e1 & e2 & Ee & Ei & Ev). rewrite Ev.
    rewrite Ee, take_app_alt in Hlt by lia. rewrite Ee, drop_app_alt in Hgt by lia.
    assert (Hes' : StronglySorted (clt N.compare) (map id (e1 ++ key :: e2))).
    { rewrite map_id. rewrite Ee in Hes. apply ss_app in Hes as (H1 & H2 & H3). apply ss_app. split; [exact H1|]. split.
      - constructor; [exact H2|]. apply Forall_forall. exact Hgt.
      - intros a b Ha Hb. apply elem_of_cons in Hb as [->|Hb]; [now apply Hlt|now apply H3]. }
    assert (Hsrt' : tsorted N.compare id (pre ++ map TE (e1 ++ key :: e2) ++ post)).
    { eapply (tsorted_update N.compare N_cmp_ok id key pre es); try eassumption.
      intros e He. apply elem_of_app in He as [He|He]; [|apply elem_of_cons in He as [->|He]].
      - right. exists e. split; [rewrite Ee; set_solver|reflexivity].
      - left; reflexivity.
      - right. exists e. split; [rewrite Ee; set_solver|reflexivity]. }
    assert (Hperm : toks_es (pre ++ map TE (e1 ++ key :: e2) ++ post) ≡ₚ key :: ids).
    { rewrite <- Ees, <- Etk, !toks_es_app, !toks_es_map, Ee. solve_Permutation. }
    destruct (put_dirty_ok rd w1 leaf (NTsnLeaf (e1 ++ key :: e2)) _ D1) as (w2 & E2 & A2 & D2).
    unfold wbind at 1. rewrite E2.
    pose proof (acc_pool' rd _ _ _ _ _ A2 Hp1) as Hp2.
    destruct (N.leb_spec (page_size_of kw (NTsnLeaf (e1 ++ key :: e2))) ps) as [Hle|Hgt'].
    { (* the leaf has room *)
      assert (Hpath2 : path (tsn_ops key) tsnleaf (vget rd w2) False hl leaf st root h Pp pre post).
      { eapply path_frame; [apply tsnleaf_frame|exact Hpath|]. intros q Hq. eapply acc_view; [exact A2|exact Hp1|set_solver]. }
      assert (Hl2 : shape (tsn_ops key) tsnleaf (vget rd w2) hl leaf [leaf] (map TE (e1 ++ key :: e2))).
      { apply (sh_leaf (tsn_ops key) tsnleaf _ leaf (NTsnLeaf (e1 ++ key :: e2))); [|reflexivity|split; reflexivity].
        apply dirty_vget. rewrite D2. apply lookup_insert. }
      destruct (path_plug _ _ _ _ _ _ _ _ _ _ _ _ _ _ Hpath2 Hl2) as (P' & Hs2 & HP').
      exists w2, root, P', (toks_es (pre ++ map TE (e1 ++ key :: e2) ++ post)). split; [reflexivity|]. split; [|split; [|exact Hperm]].
      - eapply acc_trans; [exact A1|]. apply (acc_perm_r rd _ _ ([leaf] ++ Pp)); [rewrite HP'; solve_Permutation|].
        eapply acc_perm_l; [|apply (acc_frame_r rd Pp); exact A2]. rewrite <- EP. solve_Permutation.
      - exists h, (pre ++ map TE (e1 ++ key :: e2) ++ post). split; [|split; [reflexivity|exact Hsrt']].
        eapply shape_ops; [| |exact Hs2]; reflexivity. }
    (* the leaf is split *)
    set (ids2 := e1 ++ key :: e2) in *.
    set (mid := Nat.div2 (length ids2)).
    assert (Hlen : (3 <= length ids2)%nat).
    { unfold page_size_of, node_size, u64_list_size, PAGE_HEADER_SIZE, nlen in Hgt'. unfold ps_ok in Hps. lia. }
    assert (Hmid : (0 < mid /\ mid < length ids2)%nat).
    { unfold mid. pose proof (div2_lt (length ids2) Hlen). lia. }
    destruct (drop mid ids2) as [|k right'] eqn:Ed.
    { assert (length (drop mid ids2) = 0%nat) by now rewrite Ed. rewrite drop_length in H. lia. }
    assert (Hd2 : w_dirty w2 !! leaf = Some (NTsnLeaf ids2)) by (rewrite D2; apply lookup_insert).
    destruct (put_dirty_ok rd w2 leaf (NTsnLeaf (take mid ids2)) _ Hd2) as (w3 & E3 & A3 & D3).
    unfold wbind at 1. rewrite E3.
    pose proof (acc_pool' rd _ _ _ _ _ A3 Hp2) as Hp3.
    destruct (alloc_ok rd w3 _ Hp3) as (q & w3' & E4 & HqP & Hqf & Hq2 & Hins).
    destruct (Hins (NTsnLeaf (k :: right'))) as (w4 & E5 & A4 & D4).
    unfold wbind at 1. rewrite E4. unfold wbind at 1. rewrite E5.
    assert (A24 : acc rd ([leaf] ++ []) w1 ([leaf] ++ [q]) w4).
    { apply (acc_perm_l rd [leaf]); [reflexivity|]. eapply acc_trans; [exact A2|]. eapply acc_trans; [exact A3|].
      apply (acc_perm_r rd _ _ ([q] ++ [leaf])); [solve_Permutation|]. exact (acc_frame_r rd [leaf] [] w3 [q] w4 A4). }
    set (tc := map TE (take mid ids2) ++ TS k :: map TE (k :: right')).
    assert (Hhole : hole (tsn_ops key) tsnleaf (vget rd w4) 0 leaf (Some (k, q)) ([leaf] ++ [q]) tc).
    { cbn [hole]. exists [leaf], [q], (map TE (take mid ids2)), (map TE (k :: right')). split; [reflexivity|]. split; [reflexivity|]. split.
      - apply (sh_leaf (tsn_ops key) tsnleaf _ leaf (NTsnLeaf (take mid ids2))); [|reflexivity|split; reflexivity].
        apply dirty_vget. rewrite D4, lookup_insert_ne by set_solver. rewrite D3. apply lookup_insert.
      - apply (sh_leaf (tsn_ops key) tsnleaf _ q (NTsnLeaf (k :: right'))); [|reflexivity|split; reflexivity].
        apply dirty_vget. rewrite D4. apply lookup_insert. }
    edestruct (tree_close (tsn_ops key) tsnleaf tsnleaf_frame rd kw ps False (fun _ => True) (tsn_laws kw ps Hps key)
      w1 leaf st root h Pp pre post [] Q leaf w1 w4 (Some (k, q)) ([leaf] ++ [q]) tc C1 Hpath Hst Hp1 (acc_refl rd [leaf] w1) ltac:(reflexivity) A24 Hhole)
      as (w5 & ri & si' & w6 & root' & h' & P6 & E6 & E7 & A6 & Hs6).
    { apply Forall_true. auto. }
    rewrite info_same in E6. unfold wbind at 1. rewrite E6. rewrite E7.
    exists w6, root', P6, (toks_es (pre ++ tc ++ post)). split; [reflexivity|]. split; [|split].
    - eapply acc_trans; [exact A1|]. eapply acc_perm_l; [|exact A6]. rewrite <- EP. solve_Permutation.
    - exists h', (pre ++ tc ++ post). split; [eapply shape_ops; [| |exact Hs6]; reflexivity|]. split; [reflexivity|].
      rewrite <- (take_drop mid ids2), Ed in Hsrt'.
      assert (Hne : take mid ids2 <> []). { intros H. assert (length (take mid ids2) = 0%nat) by now rewrite H. rewrite take_length in H0. lia. }
      destruct (exists_last Hne) as (t' & e' & Et'). unfold tc. rewrite Et' in Hsrt' |- *.
      rewrite !map_app in Hsrt'. rewrite !map_app. cbn [map] in Hsrt' |- *.
      match goal with |- tsorted _ _ ?x => replace x with ((pre ++ map TE t') ++ TE e' :: TS k :: TE k :: (map TE right' ++ post)) by lassoc end.
      apply (tsorted_sep N.compare N_cmp_ok id).
      match type of Hsrt' with tsorted _ _ ?x => replace x with ((pre ++ map TE t') ++ TE e' :: TE k :: (map TE right' ++ post)) in Hsrt' by lassoc end.
      exact Hsrt'.
    - rewrite <- Hperm. rewrite <- (take_drop mid ids2), Ed. unfold tc. rewrite !toks_es_app.
      change (TS k :: map TE (k :: right')) with ([TS k] ++ map TE (k :: right') : list (tok N N)).
      rewrite !toks_es_app, !toks_es_map. cbn [toks_es omap list_omap app]. rewrite take_drop_middle_alt || idtac.
      solve_Permutation.
  Qed.
End tsn.
