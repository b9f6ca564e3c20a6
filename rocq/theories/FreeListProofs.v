(** Insertion into and removal from the free list. *)
From Verif Require Export EventsProofs TreeRemove.
Local Open Scope N_scope.

(** An entry of the free list: a transaction, the page ids freed in it, and the pages of the tree these ids are
    kept in, if any. *)
Notation flent := (N * (list N * list N))%type.
Definition flval (get : N -> option node) (v : fl_value) (P : list N) (a : list N * list N) : Prop :=
  P = a.2 /\
  ((fv_root v = 0 /\ a.2 = [] /\ fv_page_ids v = a.1) \/
   (fv_root v <> 0 /\ fv_page_ids v = [] /\ tsntree get (fv_root v) a.2 a.1)).
Lemma flval_frame get get' v P a :
  flval get v P a -> (forall q, q ∈ P -> get' q = get q) -> flval get' v P a.
Proof.
  intros [-> [H|(H1 & H2 & H3)]] Hq; (split; [reflexivity|]); [now left|right]. split; [exact H1|]. split; [exact H2|].
  eapply tsntree_frame; [exact H3|exact Hq].
Qed.
Definition flleaf (get : N -> option node) (n : node) (P : list N) (es : list flent) : Prop :=
  exists vs, n = NFreeLeaf (FlLeaf (map fst es) vs) /\ listrep flval get vs P (map snd es).
Lemma flleaf_frame get get' n P es :
  flleaf get n P es -> (forall q, q ∈ P -> get' q = get q) -> flleaf get' n P es.
Proof.
  intros (vs & -> & H) Hq. exists vs. split; [reflexivity|]. eapply listrep_frame; [|exact H|exact Hq].
  intros. eapply flval_frame; eassumption.
Qed.
Notation flshape := (shape fl_ops flleaf).
(** The free list rooted at [root], with its pages and its entries, none younger than [tsn]. *)
Definition flrep (get : N -> option node) (tsn root : N) (P : list N) (es : list flent) : Prop :=
  exists h ts, flshape get h root P ts /\ toks_es ts = es /\ tsorted N.compare fst ts /\ (forall t, t ∈ ts -> tk fst t <= tsn).
Lemma flrep_frame get get' tsn root P es :
  flrep get tsn root P es -> (forall q, q ∈ P -> get' q = get q) -> flrep get' tsn root P es.
Proof.
  intros (h & ts & Hs & H) Hq. exists h, ts. split; [|exact H].
  eapply shape_frame; [apply flleaf_frame|exact Hs|exact Hq].
Qed.

Lemma listrep_pages get vs P (l : list (list N * list N)) : listrep flval get vs P l -> P = concat (map snd l).
Proof. induction 1 as [|v vs P P' a l [-> _] _ IH]; cbn; [reflexivity|]. now rewrite IH. Qed.

(** ** Sorting *)
Lemma insert_sorted_perm x l : insert_sorted x l ≡ₚ x :: l.
Proof. induction l as [|y l IH]; cbn [insert_sorted]; [reflexivity|]. destruct (x <=? y); [reflexivity|]. rewrite IH. solve_Permutation. Qed.
Lemma sort_ids_perm l : sort_ids l ≡ₚ l.
Proof. unfold sort_ids. induction l as [|x l IH]; cbn [foldr]; [reflexivity|]. now rewrite insert_sorted_perm, IH. Qed.
Lemma insert_sorted_sorted x l : StronglySorted N.le l -> StronglySorted N.le (insert_sorted x l).
Proof.
  induction 1 as [|y l Hs IH Hf]; cbn [insert_sorted]; [repeat constructor|].
  destruct (N.leb_spec x y) as [H|H].
  - constructor; [now constructor|]. constructor; [exact H|]. eapply Forall_impl; [exact Hf|]. cbn. lia.
  - constructor; [exact IH|]. rewrite Forall_forall in Hf |- *. intros z Hz. rewrite insert_sorted_perm in Hz.
    apply elem_of_cons in Hz as [->|Hz]; [lia|now apply Hf].
Qed.
Lemma sort_ids_sorted l : StronglySorted N.le (sort_ids l).
Proof. unfold sort_ids. induction l; cbn [foldr]; [constructor|]. now apply insert_sorted_sorted. Qed.
Lemma sort_ids_strict l : NoDup l -> StronglySorted (clt N.compare) (sort_ids l).
Proof.
  intros Hnd. rewrite <- (sort_ids_perm l) in Hnd. pose proof (sort_ids_sorted l) as Hs.
  induction Hs as [|x l' Hs IH Hf]; constructor.
  - apply IH. now apply NoDup_cons in Hnd.
  - apply NoDup_cons in Hnd as [Hx _]. rewrite Forall_forall in Hf |- *. intros y Hy. apply cltN. specialize (Hf y Hy).
    assert (x <> y) by (intros ->; contradiction). lia.
Qed.
Lemma dedup_strict l : StronglySorted (clt N.compare) l -> dedup l = l.
Proof.
  induction 1 as [|x l Hs IH Hf]; [reflexivity|]. destruct l as [|y l]; [reflexivity|].
  change (dedup (x :: y :: l)) with (if x =? y then dedup (y :: l) else x :: dedup (y :: l)).
  inversion Hf as [|? ? H _]; subst. apply (proj1 (cltN _ _)) in H. destruct (N.eqb_spec x y); [lia|]. now rewrite IH.
Qed.
Lemma fill_leaf_prefix kw ps ids : forall acc, exists l, fill_leaf kw ps acc ids = acc ++ l /\ exists r, ids = l ++ r.
Proof.
  induction ids as [|p ids IH]; intros acc; cbn [fill_leaf].
  - exists []. rewrite app_nil_r. eauto.
  - destruct (page_size_of kw (NTsnLeaf (acc ++ [p])) <=? ps).
    + destruct (IH (acc ++ [p])) as (l & -> & r & ->). exists (p :: l). rewrite <- app_assoc. eauto.
    + exists []. rewrite app_nil_r. eauto.
Qed.
Lemma fill_leaf_ne kw ps p ids : ps_ok ps -> exists l r, fill_leaf kw ps [] (p :: ids) = p :: l /\ ids = l ++ r.
Proof.
  intros Hps. cbn [fill_leaf]. cbn [app].
  assert (page_size_of kw (NTsnLeaf [p]) <=? ps = true) as ->.
  { apply N.leb_le. unfold page_size_of, node_size, PAGE_HEADER_SIZE, u64_list_size, nlen. cbn. unfold ps_ok in Hps. lia. }
  destruct (fill_leaf_prefix kw ps ids [p]) as (l & -> & r & ->). cbn [app]. eauto.
Qed.
Lemma filter_notin (l r : list N) : NoDup (l ++ r) -> filter (fun p => p ∉ l) (l ++ r) = r.
Proof.
  intros H. apply NoDup_app in H as (_ & H & _).
  assert (H1 : forall l' : list N, (forall x, x ∈ l' -> x ∈ l) -> filter (fun p => p ∉ l) l' = []).
  { induction l' as [|y l' IH]; intros Hin; [reflexivity|]. rewrite filter_cons_False; [apply IH; set_solver|]. intros Hn. apply Hn, Hin. now left. }
  rewrite filter_app, (H1 l) by auto. cbn [app].
  assert (H2 : forall r' : list N, (forall x, x ∈ r' -> x ∉ l) -> filter (fun p => p ∉ l) r' = r').
  { induction r' as [|y r' IH]; intros Hin; [reflexivity|]. rewrite filter_cons_True; [f_equal; apply IH; set_solver|]. apply Hin. now left. }
  apply H2. intros x Hx Hl. exact (H x Hl Hx).
Qed.

Section insert.
  Context (rd : snapshot) (kw : nat) (ps : N) (Hps : ps_ok ps).

  Lemma tsn_insert_all_ok ids : forall w P Q root old,
    coh rd w -> pool_ok w (P ++ Q) -> tsntree (vget rd w) root P old -> NoDup (ids ++ old) ->
    (forall q, q ∈ P -> is_Some (w_dirty w !! q)) ->
    exists w' root' P' new, tsn_insert_all rd kw ps root ids w = (Ok root', w') /\ acc rd P w P' w' /\
      tsntree (vget rd w') root' P' new /\ new ≡ₚ ids ++ old /\ (forall q, q ∈ P' -> is_Some (w_dirty w' !! q)).
  Proof.
    induction ids as [|x ids IH]; intros w P Q root old Hc Hp Ht Hnd Hd; cbn [tsn_insert_all].
    - exists w, root, P, old. split; [reflexivity|]. split; [apply acc_refl|]. split; [exact Ht|]. split; [reflexivity|exact Hd].
    - cbn [app] in Hnd. apply NoDup_cons in Hnd as [Hx Hnd].
      destruct (tsn_insert_ok rd kw ps Hps w P Q root old x Hc Hp Ht) as (w1 & r1 & P1 & old1 & E1 & A1 & T1 & Ep); [set_solver|exact Hd|].
      unfold wbind at 1. rewrite E1.
      destruct (IH w1 P1 Q r1 old1) as (w2 & r2 & P2 & old2 & E2 & A2 & T2 & Ep2 & Hd2).
      + eapply acc_coh'; eassumption.
      + eapply acc_pool'; eassumption.
      + exact T1.
      + rewrite Ep. rewrite <- Permutation_middle. constructor; assumption.
      + eapply acc_all_dirty; eassumption.
      + exists w2, r2, P2, old2. split; [exact E2|]. split; [eapply acc_trans; eassumption|]. split; [exact T2|]. split; [|exact Hd2].
        rewrite Ep2, Ep. cbn [app]. solve_Permutation.
  Qed.

  (** The change of the last leaf: the entry of the transaction [tsn] is created or extended. *)
  Lemma apply_plan_ok w dl es vs Pl Q tsn x :
    coh rd w -> pool_ok w ([dl] ++ Pl ++ Q) ->
    w_dirty w !! dl = Some (NFreeLeaf (FlLeaf (map fst es) vs)) -> listrep flval (vget rd w) vs Pl (map snd es) ->
    StronglySorted (clt N.compare) (map fst es) -> (forall e, e ∈ es -> e.1 <= tsn) ->
    (forall ids Pv, (tsn, (ids, Pv)) ∈ es -> NoDup (x :: ids) /\ forall q, q ∈ Pv -> is_Some (w_dirty w !! q)) ->
    exists pl si w' Pc es0 old ids ids' Pv' X,
      choose_plan ps tsn (FlLeaf (map fst es) vs) = Ok pl /\
      apply_plan rd kw ps pl tsn x dl w = (Ok si, w') /\
      acc rd ([dl] ++ Pl) w Pc w' /\
      hole fl_ops flleaf (vget rd w') 0 dl si Pc (map TE es0 ++ X) /\
      es = es0 ++ old /\ ((old = [] /\ ids = []) \/ exists Pv, old = [(tsn, (ids, Pv))]) /\
      ids' ≡ₚ x :: ids /\ (forall q, q ∈ Pv' -> is_Some (w_dirty w' !! q)) /\
      (forall e, e ∈ es0 -> e.1 < tsn) /\
      (X = [TE (tsn, (ids', Pv'))] \/ (X = [TS tsn; TE (tsn, (ids', Pv'))] /\ es0 <> [])).
  Proof.
    intros Hc Hp Hd Hvs Hsrt Hle Hx.
    pose proof (listrep_length _ _ _ _ _ Hvs) as Elen. rewrite map_length in Elen.
    unfold choose_plan. cbn [fl_keys fl_values].
    assert (Hcase : (forall e, e ∈ es -> e.1 < tsn) \/ exists es0 ids Pv, es = es0 ++ [(tsn, (ids, Pv))] /\ forall e, e ∈ es0 -> e.1 < tsn).
    { destruct es as [|e0 es0'] using rev_ind; [left; intros e He; inversion He|]. clear IHes0'.
      rewrite map_app in Hsrt. apply ss_app in Hsrt as (_ & _ & Hsrt).
      assert (Hlt : forall e, e ∈ es0' -> e.1 < e0.1).
      { intros e He. apply (proj1 (cltN _ _)). apply Hsrt; [now apply elem_of_list_fmap_1|]. cbn. now left. }
      destruct (N.eq_dec e0.1 tsn) as [Eq|Hne].
      - right. destruct e0 as [t [ids Pv]]. cbn in Eq. subst t. exists es0', ids, Pv. auto.
      - left. intros e He. assert (e0.1 <= tsn) by (apply Hle; set_solver).
        apply elem_of_app in He as [He|He]; [specialize (Hlt e He); lia|]. apply elem_of_list_singleton in He as ->. lia. }
    destruct Hcase as [Hlt|(es0 & ids & Pv & -> & Hlt)].
    - (* a new entry *)
      assert (Hpush : exists w',
        apply_plan rd kw ps PushTsn tsn x dl w = (Ok None, w') /\ acc rd ([dl] ++ Pl) w ([dl] ++ Pl) w' /\
        hole fl_ops flleaf (vget rd w') 0 dl None ([dl] ++ Pl) (map TE es ++ [TE (tsn, ([x], []))])).
      { unfold apply_plan. unfold wbind at 1. unfold get_mut_dirty at 1. rewrite Hd. cbn [fl_keys fl_values].
        destruct (put_dirty_ok rd w dl (NFreeLeaf (FlLeaf (map fst es ++ [tsn]) (vs ++ [FlValue [x] 0]))) _ Hd) as (w' & E1 & A1 & D1).
        unfold wbind at 1. rewrite E1. exists w'. split; [reflexivity|]. split; [now apply acc_frame_r|].
        cbn [hole]. replace (map TE es ++ [TE (tsn, ([x], []))]) with (map (TE (K:=N)) (es ++ [(tsn, ([x], []))])) by (now rewrite map_app).
        eapply (sh_leaf fl_ops flleaf); [apply dirty_vget; rewrite D1; apply lookup_insert|reflexivity|].
        exists (vs ++ [FlValue [x] 0]). rewrite !map_app. split; [reflexivity|].
        replace Pl with (Pl ++ []) by apply app_nil_r. apply listrep_app.
        - eapply listrep_frame; [intros; eapply flval_frame; eassumption|exact Hvs|].
          intros q Hq. eapply acc_view; [exact A1|exact Hp|set_solver].
        - cbn [map]. apply (lr_cons flval _ _ [] [] [] _ []); [|constructor]. split; [reflexivity|]. left. auto. }
      assert (Hcreate : es <> [] -> exists q w',
        apply_plan rd kw ps CreateLeaf tsn x dl w = (Ok (Some (tsn, q)), w') /\ acc rd ([dl] ++ Pl) w (([dl] ++ Pl) ++ [q]) w' /\
        hole fl_ops flleaf (vget rd w') 0 dl (Some (tsn, q)) (([dl] ++ Pl) ++ [q]) (map TE es ++ [TS tsn; TE (tsn, ([x], []))])).
      { intros _. unfold apply_plan. unfold wbind at 1. unfold get_mut_dirty at 1. rewrite Hd.
        assert (Hp' : pool_ok w (([dl] ++ Pl) ++ Q)) by (eapply pool_ok_perm; [|exact Hp]; solve_Permutation).
        destruct (alloc_ok rd w _ Hp') as (q & w1 & E1 & HqP & Hqf & Hq2 & Hins).
        destruct (Hins (NFreeLeaf (FlLeaf [tsn] [FlValue [x] 0]))) as (w2 & E2 & A2 & D2).
        unfold wbind at 1. rewrite E1. unfold wbind at 1. rewrite E2. exists q, w2. split; [reflexivity|]. split.
        - apply (acc_perm_r rd _ _ ([q] ++ ([dl] ++ Pl))); [solve_Permutation|]. exact (acc_frame_r rd ([dl] ++ Pl) [] w [q] w2 A2).
        - cbn [hole]. exists ([dl] ++ Pl), [q], (map TE es), [TE (tsn, ([x], []))]. split; [reflexivity|]. split; [reflexivity|]. split.
          + eapply (sh_leaf fl_ops flleaf); [apply dirty_vget; rewrite D2, lookup_insert_ne by set_solver; exact Hd|reflexivity|].
            exists vs. split; [reflexivity|]. eapply listrep_frame; [intros; eapply flval_frame; eassumption|exact Hvs|].
            intros q' Hq. eapply (acc_view rd [] w [q] w2); [exact A2|exact Hp'|set_solver].
          + apply (sh_leaf fl_ops flleaf _ q (NFreeLeaf (FlLeaf [tsn] [FlValue [x] 0])) [] [(tsn, ([x], []))]); [apply dirty_vget; rewrite D2; apply lookup_insert|reflexivity|].
            exists [FlValue [x] 0]. split; [reflexivity|]. apply (lr_cons flval _ _ [] [] [] _ []); [|constructor]. split; [reflexivity|]. left. auto. }
      assert (Hlast : last (map fst es) = None /\ es = [] \/ exists k, last (map fst es) = Some k /\ k < tsn /\ es <> []).
      { destruct es as [|e0 es0'] using rev_ind; [now left|]. right. exists e0.1. rewrite map_app. cbn [map]. rewrite last_snoc.
        split; [reflexivity|]. split; [apply Hlt; set_solver|]. now destruct es0'. }
      assert (Hres : forall pl, pl = PushTsn \/ (pl = CreateLeaf /\ es <> []) ->
        exists si w' Pc es0 old ids ids' Pv' X,
        apply_plan rd kw ps pl tsn x dl w = (Ok si, w') /\
        acc rd ([dl] ++ Pl) w Pc w' /\
        hole fl_ops flleaf (vget rd w') 0 dl si Pc (map TE es0 ++ X) /\
        es = es0 ++ old /\ ((old = [] /\ ids = []) \/ exists Pv, old = [(tsn, (ids, Pv))]) /\
        ids' ≡ₚ x :: ids /\ (forall q, q ∈ Pv' -> is_Some (w_dirty w' !! q)) /\
        (forall e, e ∈ es0 -> e.1 < tsn) /\
        (X = [TE (tsn, (ids', Pv'))] \/ (X = [TS tsn; TE (tsn, (ids', Pv'))] /\ es0 <> []))).
      { intros pl [->|[-> Hne]].
        - destruct Hpush as (w' & E1 & A1 & H1). exists None, w', ([dl] ++ Pl), es, [], [], [x], [], [TE (tsn, ([x], []))].
          split; [exact E1|]. split; [exact A1|]. split; [exact H1|]. split; [now rewrite app_nil_r|]. split; [now left|]. split; [reflexivity|].
          split; [intros q Hq; inversion Hq|]. split; [exact Hlt|]. now left.
        - destruct (Hcreate Hne) as (q & w' & E1 & A1 & H1).
          exists (Some (tsn, q)), w', (([dl] ++ Pl) ++ [q]), es, [], [], [x], [], [TS tsn; TE (tsn, ([x], []))].
          split; [exact E1|]. split; [exact A1|]. split; [exact H1|]. split; [now rewrite app_nil_r|]. split; [now left|]. split; [reflexivity|].
          split; [intros q' Hq; inversion Hq|]. split; [exact Hlt|]. right. auto. }
      destruct Hlast as [[-> ->]|(k & -> & Hk & Hne)].
      + destruct vs; [|discriminate Elen].
        assert (fits_new_tsn ps (FlLeaf (map fst ([] : list flent)) []) = true) as ->.
        { unfold fits_new_tsn. apply N.leb_le. unfold PAGE_HEADER_SIZE. unfold ps_ok in Hps. vm_compute (fl_leaf_size _). lia. }
        destruct (Hres PushTsn) as (si & w' & Pc & es0 & old & ids & ids' & Pv' & X & H); [now left|].
        exists PushTsn, si, w', Pc, es0, old, ids, ids', Pv', X. split; [reflexivity|exact H].
      + destruct (N.eqb_spec tsn k); [lia|]. destruct (N.ltb_spec k tsn); [|lia].
        destruct (fits_new_tsn ps (FlLeaf (map fst es) vs)).
        * destruct (Hres PushTsn) as (si & w' & Pc & es0 & old & ids & ids' & Pv' & X & H1); [now left|].
          exists PushTsn, si, w', Pc, es0, old, ids, ids', Pv', X. split; [reflexivity|exact H1].
        * destruct (Hres CreateLeaf) as (si & w' & Pc & es0 & old & ids & ids' & Pv' & X & H1); [right; auto|].
          exists CreateLeaf, si, w', Pc, es0, old, ids, ids', Pv', X. split; [reflexivity|exact H1].
    - (* the entry exists *)
      rewrite map_app in Hvs |- *. cbn [map fst snd] in Hvs |- *. rewrite last_snoc, N.eqb_refl.
      destruct (listrep_split _ _ _ _ _ _ Hvs) as (vs1 & vs2 & P1 & P2 & -> & -> & El1 & Hv1 & Hv2).
      inversion Hv2 as [|v vs2' P2' P2'' a l Hv Hv2']; subst. inversion Hv2'; subst. rewrite app_nil_r in *. clear Hv2 Hv2'.
      destruct Hv as [-> Hv]. cbn [fst snd] in Hv.
      destruct (Hx ids Pv) as [Hnd Hdv]; [set_solver|]. clear Hx.
      assert (Ei : Nat.pred (length (map fst es0 ++ [tsn])) = length vs1).
      { rewrite app_length, !map_length in *. cbn [length]. lia. }
      assert (Elook : (vs1 ++ [v]) !! length vs1 = Some v) by (now apply list_lookup_middle).
      assert (Eins : forall v', <[length vs1 := v']> (vs1 ++ [v]) = vs1 ++ [v']) by (intros v'; apply list_insert_mid).
      rewrite map_app in Hd. cbn [map fst] in Hd. cbv zeta. rewrite Ei, Elook.
      (* what remains to be shown of an update of the value in place *)
      assert (Hfin : forall w1 (P0 : list N) v' ids' Pv',
        pool_ok w1 ([dl] ++ (P1 ++ P0) ++ Q) -> Pv' = P0 -> 
        (forall q, q ∈ P1 -> vget rd w1 q = vget rd w q) ->
        acc rd ([dl] ++ P1 ++ Pv) w ([dl] ++ P1 ++ P0) w1 ->
        w_dirty w1 !! dl = Some (NFreeLeaf (FlLeaf (map fst es0 ++ [tsn]) (vs1 ++ [v']))) ->
        flval (vget rd w1) v' P0 (ids', Pv') ->
        hole fl_ops flleaf (vget rd w1) 0 dl None ([dl] ++ P1 ++ P0) (map TE es0 ++ [TE (tsn, (ids', Pv'))])).
      { intros w1 P0 v' ids' Pv' Hp1 -> Hq1 _ D1 Hv'. cbn [hole].
        replace (map TE es0 ++ [TE (tsn, (ids', P0))]) with (map (TE (K:=N)) (es0 ++ [(tsn, (ids', P0))])) by (now rewrite map_app).
        eapply (sh_leaf fl_ops flleaf); [apply dirty_vget; exact D1|reflexivity|].
        exists (vs1 ++ [v']). rewrite !map_app. split; [reflexivity|]. apply listrep_app.
        - eapply listrep_frame; [intros; eapply flval_frame; eassumption|exact Hv1|exact Hq1].
        - replace P0 with (P0 ++ []) by apply app_nil_r. constructor; [|constructor]. rewrite app_nil_r. exact Hv'. }
      (* keeping the hypotheses on the other entries *)
      assert (Hpv : pool_ok w (Pv ++ [dl] ++ P1 ++ Q)) by (eapply pool_ok_perm; [|exact Hp]; solve_Permutation).
      destruct Hv as [(Hr & Epv & Eids)|(Hr & Eids & Ht)].
      + (* kept in the leaf *)
        subst Pv. rewrite Hr. cbn [negb N.eqb]. rewrite app_nil_r in *.
        destruct (fits_new_id ps (FlLeaf (map fst es0 ++ [tsn]) (vs1 ++ [v]))); [|destruct (Nat.eqb_spec (length (map fst es0 ++ [tsn])) 1) as [E1|Hne1]].
        * (* one more id in the leaf *)
          destruct (put_dirty_ok rd w dl (NFreeLeaf (FlLeaf (map fst es0 ++ [tsn]) (vs1 ++ [FlValue (fv_page_ids v ++ [x]) (fv_root v)]))) _ Hd) as (w' & E1 & A1 & D1).
          exists (PushId (length vs1)), None, w', ([dl] ++ P1), es0, [(tsn, (ids, []))], ids, (ids ++ [x]), [], [TE (tsn, (ids ++ [x], []))].
          split; [reflexivity|]. split.
          { unfold apply_plan. unfold wbind at 1. unfold get_mut_dirty at 1. rewrite Hd. cbn [fl_keys fl_values]. rewrite Elook.
            unfold wbind at 1. rewrite Eins, E1. reflexivity. }
          split; [now apply acc_frame_r|]. split.
          { pose proof (Hfin w' [] (FlValue (fv_page_ids v ++ [x]) (fv_root v)) (ids ++ [x]) []) as H. rewrite app_nil_r in H. apply H.
            - eapply acc_pool'; eassumption.
            - reflexivity.
            - intros q Hq. eapply acc_view; [exact A1|exact Hp|set_solver].
            - now apply acc_frame_r.
            - rewrite D1. apply lookup_insert.
            - split; [reflexivity|]. left. cbn. rewrite Eids. auto. }
          split; [reflexivity|]. split; [right; eauto|]. split; [solve_Permutation|]. split; [intros q Hq; inversion Hq|]. split; [exact Hlt|]. now left.
        * (* moved to a tree *)
          set (sids := dedup (sort_ids (fv_page_ids v ++ [x]))).
          assert (Hss : sids = sort_ids (ids ++ [x])).
          { unfold sids. rewrite Eids. apply dedup_strict, sort_ids_strict. rewrite Permutation_app_comm. exact Hnd. }
          assert (Hsp : sids ≡ₚ x :: ids) by (rewrite Hss, sort_ids_perm; solve_Permutation).
          assert (Hsst : StronglySorted (clt N.compare) sids).
          { rewrite Hss. apply sort_ids_strict. rewrite Permutation_app_comm. exact Hnd. }
          destruct sids as [|p0 sids'] eqn:Esids. { apply Permutation_nil_cons in Hsp. contradiction. }
          destruct (fill_leaf_ne kw ps p0 sids' Hps) as (l & r & Efill & Erest).
          assert (Hp0 : pool_ok w ([dl] ++ P1 ++ Q)) by exact Hp.
          destruct (alloc_ok rd w _ Hp0) as (q & w1 & E2 & HqP & Hqf & Hq2 & Hins).
          destruct (Hins (NTsnLeaf (p0 :: l))) as (w2 & E3 & A2 & D2).
          assert (Hp2 : pool_ok w2 ([q] ++ [dl] ++ P1 ++ Q)) by (exact (acc_pool' rd [] w [q] w2 _ A2 Hp0)).
          destruct (tsn_insert_all_ok r w2 [q] ([dl] ++ P1 ++ Q) q (p0 :: l)) as (w3 & r3 & P3 & new & E4 & A3 & T3 & Ep3 & Hd3).
          { eapply acc_coh'; [exact A2|exact Hc]. }
          { exact Hp2. }
          { exists 0%nat, (map TE (p0 :: l)). split; [|split].
            - eapply sh_leaf; [apply dirty_vget; rewrite D2; apply lookup_insert|reflexivity|split; reflexivity].
            - apply toks_es_map.
            - apply (ss_map (clt N.compare)); [auto|]. rewrite Erest in Hsst. change (p0 :: l ++ r) with ((p0 :: l) ++ r) in Hsst.
              now apply ss_app in Hsst as (Hsst & _). }
          { rewrite <- Hsp, Erest in Hnd. change (p0 :: l ++ r) with ((p0 :: l) ++ r) in Hnd. now rewrite Permutation_app_comm. }
          { intros q' Hq'. apply elem_of_list_singleton in Hq' as ->. rewrite D2, lookup_insert. eauto. }
          assert (D3 : w_dirty w3 !! dl = Some (NFreeLeaf (FlLeaf (map fst es0 ++ [tsn]) (vs1 ++ [v])))).
          { rewrite (acc_dirty' rd _ _ _ _ _ dl A3 Hp2) by set_solver. rewrite D2, lookup_insert_ne by set_solver. exact Hd. }
          assert (Hp3 : pool_ok w3 ([dl] ++ P3 ++ P1 ++ Q)).
          { eapply pool_ok_perm; [|eapply acc_pool'; [exact A3|exact Hp2]]. solve_Permutation. }
          destruct (put_dirty_ok rd w3 dl (NFreeLeaf (FlLeaf (map fst es0 ++ [tsn]) (vs1 ++ [FlValue [] r3]))) _ D3) as (w4 & E5 & A4 & D4).
          assert (A24 : acc rd ([dl] ++ P1) w ([dl] ++ P1 ++ P3) w4).
          { eapply acc_trans; [exact (acc_frame_r rd ([dl] ++ P1) [] w [q] w2 A2)|].
            eapply acc_trans; [exact (acc_frame_r rd ([dl] ++ P1) [q] w2 P3 w3 A3)|].
            apply (acc_perm_l rd ([dl] ++ P1 ++ P3)); [solve_Permutation|]. now apply acc_frame_r. }
          assert (Tr3 : r3 ∈ P3) by (destruct (tsntree_head _ _ _ _ T3) as [P3' ->]; now left).
          exists MoveToSubtree, None, w4, ([dl] ++ P1 ++ P3), es0, [(tsn, (ids, []))], ids, new, P3, [TE (tsn, (new, P3))].
          split; [reflexivity|]. split.
          { unfold apply_plan. unfold wbind at 1. unfold get_mut_dirty at 1. rewrite Hd. cbv zeta. cbn [fl_keys fl_values]. rewrite Ei, Elook.
            fold sids. rewrite Esids, Efill. cbn [is_nil].
            unfold wbind at 1. rewrite E2. unfold wbind at 1. rewrite E3.
            rewrite Erest. change (p0 :: l ++ r) with ((p0 :: l) ++ r). rewrite filter_notin.
            2:{ change ((p0 :: l) ++ r) with (p0 :: l ++ r). rewrite <- Erest. rewrite Hsp. exact Hnd. }
            unfold wbind at 1. rewrite E4. unfold wbind at 1. rewrite Eins, E5. reflexivity. }
          split; [exact A24|]. split.
          { apply (Hfin w4 P3 (FlValue [] r3)).
            - eapply pool_ok_perm; [|eapply acc_pool'; [exact A4|exact Hp3]]. solve_Permutation.
            - reflexivity.
            - intros q' Hq'. transitivity (vget rd w3 q'); [eapply acc_view; [exact A4|exact Hp3|set_solver]|].
              transitivity (vget rd w2 q'); [eapply acc_view; [exact A3|exact Hp2|set_solver]|].
              eapply (acc_view rd [] w [q] w2); [exact A2|exact Hp0|set_solver].
            - exact A24.
            - rewrite D4. apply lookup_insert.
            - split; [reflexivity|]. right. cbn [fv_root fv_page_ids fst snd]. split; [|split; [reflexivity|]].
              + assert (2 <= r3); [|lia]. apply (po_min _ _ Hp3). set_solver.
              + eapply tsntree_frame; [exact T3|]. intros q' Hq'. eapply acc_view; [exact A4|exact Hp3|set_solver]. }
          split; [reflexivity|]. split; [right; eauto|]. split.
          { rewrite Ep3, Permutation_app_comm. change ((p0 :: l) ++ r) with (p0 :: l ++ r). rewrite <- Erest. exact Hsp. }
          split.
          { intros q' Hq'. rewrite (acc_dirty' rd _ _ _ _ _ q' A4 Hp3) by set_solver. now apply Hd3. }
          split; [exact Hlt|]. now left.
        * (* moved to a new leaf *)
          destruct (put_dirty_ok rd w dl (NFreeLeaf (FlLeaf (map fst es0) vs1)) _ Hd) as (w1 & E1 & A1 & D1).
          assert (Hp1 : pool_ok w1 (([dl] ++ P1) ++ Q)).
          { eapply pool_ok_perm; [|eapply acc_pool'; [exact A1|exact Hp]]. solve_Permutation. }
          destruct (alloc_ok rd w1 _ Hp1) as (q & w1' & E2 & HqP & Hqf & Hq2 & Hins).
          destruct (Hins (NFreeLeaf (FlLeaf [tsn] [FlValue (fv_page_ids v ++ [x]) (fv_root v)]))) as (w2 & E3 & A2 & D2).
          assert (Hv1w : forall q', q' ∈ P1 -> vget rd w2 q' = vget rd w q').
          { intros q' Hq'. transitivity (vget rd w1 q').
            - eapply (acc_view rd [] w1 [q] w2); [exact A2|exact Hp1|set_solver].
            - eapply acc_view; [exact A1|exact Hp|set_solver]. }
          exists SplitLeaf, (Some (tsn, q)), w2, (([dl] ++ P1) ++ [q]), es0, [(tsn, (ids, []))], ids, (ids ++ [x]), [], [TS tsn; TE (tsn, (ids ++ [x], []))].
          split; [reflexivity|]. split.
          { unfold apply_plan. unfold wbind at 1. unfold get_mut_dirty at 1. rewrite Hd. cbv zeta. cbn [fl_keys fl_values]. rewrite !last_snoc.
            rewrite !removelast_last.
            unfold wbind at 1. rewrite E1. unfold wbind at 1. rewrite E2. unfold wbind at 1. rewrite E3. reflexivity. }
          split.
          { eapply acc_trans; [apply acc_frame_r; exact A1|]. apply (acc_perm_r rd _ _ ([q] ++ ([dl] ++ P1))); [solve_Permutation|].
            exact (acc_frame_r rd ([dl] ++ P1) [] w1 [q] w2 A2). }
          split.
          { cbn [hole]. exists ([dl] ++ P1), [q], (map TE es0), [TE (tsn, (ids ++ [x], []))]. split; [reflexivity|]. split; [reflexivity|]. split.
            - eapply (sh_leaf fl_ops flleaf); [apply dirty_vget; rewrite D2, lookup_insert_ne by set_solver; rewrite D1; apply lookup_insert|reflexivity|].
              exists vs1. split; [reflexivity|]. eapply listrep_frame; [intros; eapply flval_frame; eassumption|exact Hv1|exact Hv1w].
            - apply (sh_leaf fl_ops flleaf _ q (NFreeLeaf (FlLeaf [tsn] [FlValue (fv_page_ids v ++ [x]) (fv_root v)])) [] [(tsn, (ids ++ [x], []))]);
                [apply dirty_vget; rewrite D2; apply lookup_insert|reflexivity|].
              eexists. split; [reflexivity|]. apply (lr_cons flval _ _ [] [] [] _ []); [|constructor]. split; [reflexivity|]. left.
              cbn. rewrite Eids. auto. }
          split; [reflexivity|]. split; [right; eauto|]. split; [solve_Permutation|]. split; [intros q' Hq'; inversion Hq'|]. split; [exact Hlt|]. right.
          split; [reflexivity|]. intros ->. now apply Hne1.
      + (* kept in a tree *)
        rewrite (proj2 (N.eqb_neq _ _) Hr). cbn [negb].
        destruct (tsn_insert_ok rd kw ps Hps w Pv ([dl] ++ P1 ++ Q) (fv_root v) ids x Hc Hpv Ht) as (w1 & r1 & P3 & new & E1 & A1 & T1 & Ep).
        { now apply NoDup_cons in Hnd as [Hnd _]. }
        { exact Hdv. }
        pose proof (acc_pool' rd _ _ _ _ _ A1 Hpv) as Hp1.
        assert (D1 : w_dirty w1 !! dl = Some (NFreeLeaf (FlLeaf (map fst es0 ++ [tsn]) (vs1 ++ [v])))).
        { rewrite (acc_dirty' rd _ _ _ _ _ dl A1 Hpv) by set_solver. exact Hd. }
        assert (Hp1' : pool_ok w1 ([dl] ++ P3 ++ P1 ++ Q)) by (eapply pool_ok_perm; [|exact Hp1]; solve_Permutation).
        assert (Hd1 : forall q, q ∈ P3 -> is_Some (w_dirty w1 !! q)) by (eapply acc_all_dirty; [exact A1|exact Hpv|exact Hdv]).
        assert (A1' : acc rd ([dl] ++ P1 ++ Pv) w ([dl] ++ P1 ++ P3) w1).
        { rewrite !app_assoc. now apply acc_frame_l. }
        assert (Hv1w : forall q', q' ∈ P1 -> vget rd w1 q' = vget rd w q').
        { intros q' Hq'. eapply acc_view; [exact A1|exact Hpv|set_solver]. }
        assert (Tr3 : r1 ∈ P3) by (destruct (tsntree_head _ _ _ _ T1) as [P3' ->]; now left).
        assert (Hr0 : r1 <> 0). { assert (2 <= r1); [|lia]. apply (po_min _ _ Hp1). set_solver. }
        assert (Hplan : forall si w2, (if r1 =? fv_root v then ret None
            else do! put_dirty dl (NFreeLeaf (FlLeaf (map fst es0 ++ [tsn]) (vs1 ++ [FlValue (fv_page_ids v) r1]))) in ret None) w1 = (Ok si, w2) ->
            apply_plan rd kw ps PushSubtree tsn x dl w = (Ok si, w2)).
        { intros si w2 H. unfold apply_plan. unfold wbind at 1. unfold get_mut_dirty at 1. rewrite Hd. cbv zeta. cbn [fl_keys fl_values]. rewrite Ei, Elook.
          rewrite (proj2 (N.eqb_neq _ _) Hr). unfold wbind at 1. rewrite E1, Eins. exact H. }
        assert (Hend : exists w2, apply_plan rd kw ps PushSubtree tsn x dl w = (Ok None, w2) /\ acc rd ([dl] ++ P1 ++ P3) w1 ([dl] ++ P1 ++ P3) w2 /\
            (forall q, q ∈ P1 ++ P3 -> vget rd w2 q = vget rd w1 q) /\
            (forall q, q ∈ P3 -> w_dirty w2 !! q = w_dirty w1 !! q) /\
            w_dirty w2 !! dl = Some (NFreeLeaf (FlLeaf (map fst es0 ++ [tsn]) (vs1 ++ [FlValue [] r1])))).
        { destruct (N.eqb_spec r1 (fv_root v)) as [Eq|Hne].
          - exists w1. split; [now apply Hplan|]. split; [apply acc_refl|]. split; [auto|]. split; [auto|]. rewrite D1. repeat f_equal.
            destruct v as [vi vr]. cbn in Eids, Eq. now subst.
          - destruct (put_dirty_ok rd w1 dl (NFreeLeaf (FlLeaf (map fst es0 ++ [tsn]) (vs1 ++ [FlValue (fv_page_ids v) r1]))) _ D1) as (w2 & E2 & A2 & D2).
            exists w2. split; [apply Hplan; unfold wbind at 1; rewrite E2; reflexivity|]. split; [now apply acc_frame_r|].
            split; [intros q Hq; eapply acc_view; [exact A2|exact Hp1'|set_solver]|].
            split; [intros q Hq; eapply acc_dirty'; [exact A2|exact Hp1'|set_solver]|]. rewrite D2, lookup_insert, Eids. reflexivity. }
        destruct Hend as (w2 & E2 & A2 & Hv2 & Hd2 & D2).
        exists PushSubtree, None, w2, ([dl] ++ P1 ++ P3), es0, [(tsn, (ids, Pv))], ids, new, P3, [TE (tsn, (new, P3))].
        split; [reflexivity|]. split; [exact E2|]. split; [eapply acc_trans; eassumption|]. split.
        { apply (Hfin w2 P3 (FlValue [] r1)).
          - assert (Hp1'' : pool_ok w1 (([dl] ++ P1 ++ P3) ++ Q)) by (eapply pool_ok_perm; [|exact Hp1]; solve_Permutation).
            eapply pool_ok_perm; [|eapply acc_pool'; [exact A2|exact Hp1'']]. solve_Permutation.
          - reflexivity.
          - intros q Hq. rewrite Hv2 by set_solver. now apply Hv1w.
          - eapply acc_trans; eassumption.
          - exact D2.
          - split; [reflexivity|]. right. cbn [fv_root fv_page_ids fst snd]. split; [exact Hr0|]. split; [reflexivity|].
            eapply tsntree_frame; [exact T1|]. intros q Hq. apply Hv2. set_solver. }
        split; [reflexivity|]. split; [right; eauto|]. split; [exact Ep|]. split.
        { intros q Hq. rewrite Hd2 by exact Hq. now apply Hd1. }
        split; [exact Hlt|]. now left.
  Qed.

  Lemma flshape_pages get h root P ts e : flshape get h root P ts -> TE e ∈ ts -> forall q, q ∈ e.2.2 -> q ∈ P.
  Proof using Type.
    clear Hps. intros Hs He. revert h root P ts Hs He.
    apply (shape_mut fl_ops flleaf get (fun h p P ts _ => TE e ∈ ts -> forall q, q ∈ e.2.2 -> q ∈ P)
      (fun h ks cs P ts _ => TE e ∈ ts -> forall q, q ∈ e.2.2 -> q ∈ P)).
    - intros h p n P es' Hg Hl Hr He q Hq. destruct Hr as (vs & -> & Hr).
      apply elem_of_list_In, in_map_iff in He as (e' & [= ->] & He).
      right. rewrite (listrep_pages _ _ _ _ Hr). apply elem_of_list_In, in_concat. exists e.2.2. split; [|now apply elem_of_list_In].
      apply in_map_iff. exists e.2. split; [reflexivity|]. now apply in_map.
    - intros. set_solver.
    - intros. set_solver.
    - intros. set_solver.
  Qed.
  Lemma flrep_pages get tsn root P es e : flrep get tsn root P es -> e ∈ es -> forall q, q ∈ e.2.2 -> q ∈ P.
  Proof using Type.
    intros (h & ts & Hs & <- & _) He. apply elem_toks_es in He. eapply flshape_pages; eassumption.
  Qed.

  Lemma insert_freed_ok w PF Q es tsn x :
    coh rd w -> pool_ok w (PF ++ Q) -> flrep (vget rd w) tsn (w_free_root w) PF es ->
    (forall ids Pv, (tsn, (ids, Pv)) ∈ es -> NoDup (x :: ids) /\ forall q, q ∈ Pv -> is_Some (w_dirty w !! q)) ->
    exists w1 r PF' es0 old ids ids' Pv',
      insert_freed_page_id rd kw ps tsn x w = (Ok tt, set_free_root r w1) /\ acc rd PF w PF' w1 /\
      flrep (vget rd w1) tsn r PF' (es0 ++ [(tsn, (ids', Pv'))]) /\
      es = es0 ++ old /\ ((old = [] /\ ids = []) \/ exists Pv, old = [(tsn, (ids, Pv))]) /\
      ids' ≡ₚ x :: ids /\ (forall q, q ∈ Pv' -> is_Some (w_dirty w1 !! q)) /\ (forall e, e ∈ es0 -> e.1 < tsn).
  Proof.
    intros Hc Hp (h & ts & Hs & Ees & Hsrt & Hbd) Hx. unfold insert_freed_page_id.
    unfold wbind at 1. unfold gets at 1. unfold wbind at 1. unfold gets at 1.
    destruct (pool_height _ _ _ _ _ _ _ _ _ Hp Hs) as (h0 & Hh & Hs0). clear Hs. rename Hs0 into Hs. clear h. rename h0 into h.
    edestruct (descend_ok fl_ops flleaf flleaf_frame rd kw ps True (fun _ => True) (fl_laws kw ps Hps)
      (fun _ => True) (fun _ => True) (fun _ => True) ltac:(auto)
      (fun ks cs Hl Hk => choose_last_law _ ks cs (fun _ => True) (fun _ => True) (fun _ => True) ltac:(auto) Hl Hk)
      _ h (w_free_root w) w [] (w_free_root w) h [] [] [] PF ts Hh)
      as (w1 & leaf & st & Pp & pre & post & n & Pl & es1 & E1 & S1 & C1 & [hl Hpath] & Hn & Hleaf & Hlr & Hld & Hst & _ & Etk & EP & Hpre & _).
    { constructor. }
    { exact Hs. }
    { exact Hc. }
    { constructor. }
    { left; reflexivity. }
    { left; reflexivity. }
    { exact I. }
    { intros H; discriminate H. }
    cbn [app] in Etk. rewrite app_nil_r in Etk. cbn [app] in EP.
    pose proof (path_rm_post _ _ _ _ _ _ _ _ _ _ _ Hpath) as ->. rewrite app_nil_r in Etk.
    unfold wbind at 1. rewrite E1.
    pose proof (sim_acc rd PF w w1 S1 C1) as A1.
    destruct (get_page_ref_ok rd w1 leaf n C1 Hn) as (w1b & E1b & S1b & C1b & _).
    unfold wbind at 1. rewrite E1b.
    pose proof (sim_acc rd PF w1 w1b S1b C1b) as A1b.
    assert (Hv1 : forall q, vget rd w1b q = vget rd w1 q) by (intros q; now apply sim_view).
    assert (Hpath' : path fl_ops flleaf (vget rd w1b) True hl leaf st (w_free_root w) h Pp pre []).
    { eapply path_frame; [apply flleaf_frame|exact Hpath|auto]. }
    assert (Hst' : stack_ok fl_ops w1b st).
    { unfold stack_ok in *. eapply Forall_impl; [exact Hst|]. intros y [H1 _]. split; [eapply sim_loaded; eassumption|discriminate]. }
    assert (Hld' : loaded w1b leaf) by (eapply sim_loaded; eassumption).
    assert (Hlr' : flleaf (vget rd w1b) n Pl es1) by (eapply flleaf_frame; [exact Hlr|auto]).
    rewrite <- Hv1 in Hn.
    assert (A1' : acc rd PF w PF w1b) by (eapply acc_trans; eassumption).
    assert (Hp1 : pool_ok w1b ([leaf] ++ Pl ++ Pp ++ Q)).
    { eapply pool_ok_perm; [|eapply acc_pool'; [exact A1'|exact Hp]]. rewrite <- EP. solve_Permutation. }
    assert (Hdd : forall q, w_dirty w1b !! q = w_dirty w !! q).
    { intros q. destruct S1b as [-> _]. destruct S1 as [-> _]. reflexivity. }
    clear Hpath Hst Hld Hlr. destruct Hlr' as (vs & -> & Hvs).
    destruct (cow_ok rd w1b leaf _ _ C1b Hld' Hn Hp1) as (dl & w2 & E2 & A2 & D2).
    pose proof (acc_pool' rd _ _ _ _ _ A2 Hp1) as Hp2.
    subst ts.
    assert (Hsrt1 : StronglySorted (clt N.compare) (map fst es1)).
    { apply ss_app in Hsrt as (_ & Hsrt & _). apply tsorted_es in Hsrt. now rewrite toks_es_map in Hsrt. }
    destruct (apply_plan_ok w2 dl es1 vs Pl (Pp ++ Q) tsn x) as (pl & si & w4 & Pc & es0 & old & ids & ids' & Pv' & X & E3 & E4 & A4 & Hhole & Ees1 & Hold & Hids & Hd4 & Hlt & HX).
    { eapply acc_coh'; eassumption. }
    { exact Hp2. }
    { exact D2. }
    { eapply listrep_frame; [intros; eapply flval_frame; eassumption|exact Hvs|]. intros q Hq. eapply acc_view; [exact A2|exact Hp1|set_solver]. }
    { exact Hsrt1. }
    { intros e He. apply (Hbd (TE e)). rewrite elem_of_app. right. now apply elem_of_list_fmap_1. }
    { intros ids Pv Hin. destruct (Hx ids Pv) as [H1 H2].
      { rewrite <- Ees, toks_es_app, toks_es_map. set_solver. }
      split; [exact H1|]. intros q Hq.
      assert (HqP : q ∈ Pl). { rewrite (listrep_pages _ _ _ _ Hvs). apply elem_of_list_In, in_concat. exists Pv.
        split; [|now apply elem_of_list_In]. apply in_map_iff. exists (ids, Pv). split; [reflexivity|]. apply in_map_iff. exists (tsn, (ids, Pv)).
        split; [reflexivity|now apply elem_of_list_In]. }
      rewrite (acc_dirty' rd _ _ _ _ _ q A2 Hp1) by set_solver. rewrite Hdd. now apply H2. }
    unfold wbind at 1. unfold lift at 1. rewrite E3. unfold wbind at 1. rewrite E2. unfold wbind at 1. rewrite E4.
    edestruct (tree_close fl_ops flleaf flleaf_frame rd kw ps True (fun _ => True) (fl_laws kw ps Hps)
      w1b leaf st (w_free_root w) h Pp pre [] Pl Q dl w2 w4 si Pc _ C1b Hpath' Hst' Hp1 A2 ltac:(discriminate) A4 Hhole)
      as (w5 & ri & si' & w6 & root' & h' & P6 & E5 & E6 & A6 & Hs6).
    { apply Forall_true. auto. }
    unfold wbind at 1. rewrite E5. unfold wbind at 1. rewrite E6. unfold modify.
    rewrite app_nil_r in Hs6.
    exists w6, root', P6, (toks_es pre ++ es0), old, ids, ids', Pv'. split; [reflexivity|].
    assert (Hent : forall e, TE e ∈ pre -> e.1 < tsn).
    { intros e He. subst es1. apply ss_app in Hsrt as (Hsp & _ & Hsrt).
      assert (Hnx : forall e', e' ∈ es0 ++ old -> e.1 < e'.1).
      { intros e' He'. apply (proj1 (cltN _ _)). apply (Hsrt (TE e) (TE e') He). now apply elem_of_list_fmap_1. }
      destruct Hold as [[-> _]|[Pv ->]].
      - destruct es0 as [|e0 es0'].
        + destruct Hpre as [->|(pre' & k & -> & _)]; [inversion He|].
          apply elem_of_app in He as [He|He]; [|apply elem_of_list_singleton in He; discriminate].
          apply ss_app in Hsp as (_ & _ & Hsp). specialize (Hsp (TE e) (TS k) He ltac:(now left)). cbn in Hsp. apply (proj1 (cltN _ _)) in Hsp.
          specialize (Hbd (TS k) ltac:(set_solver)). cbn in Hbd. lia.
        + specialize (Hnx e0 ltac:(set_solver)). specialize (Hlt e0 ltac:(set_solver)). lia.
      - apply (Hnx (tsn, (ids, Pv))). set_solver. }
    split; [|split; [|split; [|split; [exact Hold|split; [exact Hids|split]]]]].
    - eapply acc_trans; [exact A1'|]. eapply acc_perm_l; [|exact A6]. rewrite <- EP. solve_Permutation.
    - exists h', (pre ++ map TE es0 ++ X). split; [exact Hs6|]. split; [|split].
      + rewrite !toks_es_app, toks_es_map, <- app_assoc. destruct HX as [->|[-> _]]; reflexivity.
      + rewrite app_assoc. apply ss_app. split; [|split].
        * eapply ssorted_sublist; [|exact Hsrt]. subst es1. rewrite map_app, !app_assoc. apply sublist_inserts_r. reflexivity.
        * destruct HX as [->|[-> _]]; repeat constructor. cbn. apply cleN. lia.
        * assert (Hsep : es0 <> [] -> forall k, TS k ∈ pre -> k < tsn).
          { intros Hne k Hk. destruct es0 as [|e0 es0']; [congruence|]. subst es1. apply ss_app in Hsrt as (_ & _ & Hsrt).
            specialize (Hsrt (TS k) (TE e0) Hk). cbn in Hsrt. specialize (Hlt e0 ltac:(set_solver)).
            assert (Hke : cle N.compare k e0.1) by (apply Hsrt; set_solver). apply (proj1 (cleN _ _)) in Hke. lia. }
          intros a b Ha Hb. apply elem_of_app in Ha.
          assert (Hea : forall e, a = TE e -> e.1 < tsn).
          { intros e ->. destruct Ha as [Ha|Ha]; [now apply Hent|]. apply elem_of_list_In, in_map_iff in Ha as (e' & [= ->] & Ha). apply Hlt. now apply elem_of_list_In. }
          assert (Hba : b = TE (tsn, (ids', Pv')) \/ b = TS tsn /\ es0 <> []).
          { destruct HX as [->|[-> Hne]]; [left; now apply elem_of_list_singleton in Hb|].
            apply elem_of_cons in Hb as [->|Hb]; [auto|]. left; now apply elem_of_list_singleton in Hb. }
          destruct Hba as [->|[-> Hne]].
          -- destruct a as [e|k]; cbn; [apply cltN; now apply Hea|]. apply cleN.
             destruct Ha as [Ha|Ha]; [apply (Hbd (TS k)); set_solver|]. apply elem_of_list_In, in_map_iff in Ha as (e' & He & _). discriminate He.
          -- destruct a as [e|k]; cbn; apply cltN; [now apply Hea|].
             destruct Ha as [Ha|Ha]; [now apply Hsep|]. apply elem_of_list_In, in_map_iff in Ha as (e' & He & _). discriminate He.
      + intros t Ht. rewrite app_assoc in Ht. apply elem_of_app in Ht as [Ht|Ht].
        * apply Hbd. subst es1. rewrite map_app. set_solver.
        * destruct HX as [->|[-> _]].
          -- apply elem_of_list_singleton in Ht as ->. cbn. lia.
          -- apply elem_of_cons in Ht as [->|Ht]; [cbn; lia|]. apply elem_of_list_singleton in Ht as ->. cbn. lia.
    - rewrite <- Ees, toks_es_app, toks_es_map, Ees1, app_assoc. reflexivity.
    - intros q Hq.
      assert (HqP6 : q ∈ P6).
      { eapply (flshape_pages _ _ _ _ _ (tsn, (ids', Pv'))); [exact Hs6| |exact Hq].
        destruct HX as [->|[-> _]]; set_solver. }
      assert (A14 : acc rd ([leaf] ++ Pl) w1b Pc w4).
      { eapply acc_trans; [apply acc_frame_r; exact A2|exact A4]. }
      specialize (Hd4 q Hq).
      destruct A14 as (po & k & fn & A14). destruct A6 as (po6 & k6 & fn6 & A6).
      assert (Hpx : pool_ok w1b (([leaf] ++ Pl) ++ Pp ++ Q)) by (eapply pool_ok_perm; [|exact Hp1]; solve_Permutation).
      assert (Hpy : pool_ok w1b ((leaf :: Pl ++ Pp) ++ Q)) by (eapply pool_ok_perm; [|exact Hp1]; solve_Permutation).
      assert (q ∉ fn6) as Hqfn by (eapply acc_fn_notin; [exact A6|exact Hpy|set_solver]).
      assert (q ∈ P6 ++ fn6) as Hin by set_solver. rewrite (acc_perm _ _ _ _ _ _ _ _ A6) in Hin.
      apply elem_of_app in Hin as [Hin|Hin].
      + apply (acc_keep _ _ _ _ _ _ _ _ A6); [|exact Hqfn].
        destruct (acc_dom _ _ _ _ _ _ _ _ A14 q Hd4) as [H|H]; [exact H|]. exfalso.
        eapply (acc_fresh_notin rd _ _ _ _ _ _ _ _ q A14 Hpx); [set_solver|exact H].
      + apply (acc_new _ _ _ _ _ _ _ _ A6); assumption.
    - intros e He. apply elem_of_app in He as [He|He]; [|now apply Hlt]. apply Hent. now apply elem_toks_es.
  Qed.
End insert.
