(** Collecting the reusable pages at the start of a write transaction (mvcc.rs:1139-1333). *)
From Verif Require Export FreeProcess.
Local Open Scope N_scope.

Lemma sim_pool w w' P : sim w w' -> pool_ok w P -> pool_ok w' P.
Proof. intros [-> _] [A B C D F G H]. constructor; assumption. Qed.
Lemma sim_next w w' : sim w w' -> w_next_page w' = w_next_page w.
Proof. intros [-> _]. reflexivity. Qed.

Section find.
  Context (rd : snapshot) (smallest : option N).

  (** Old enough to be reused: no reader can see pages freed in this transaction or before. *)
  Definition old_enough (t : N) : Prop := match smallest with Some s => t <= s | None => True end.
  Global Instance old_enough_dec t : Decision (old_enough t).
  Proof. unfold old_enough. destruct smallest; apply _. Defined.
  Lemma old_enough_bool t : (match smallest with Some s => s <? t | None => false end) = negb (bool_decide (old_enough t)).
  Proof.
    destruct (decide (old_enough t)) as [H|H]; [rewrite (bool_decide_eq_true_2 _ H)|rewrite (bool_decide_eq_false_2 _ H)];
      unfold old_enough in H; destruct smallest as [s|]; cbn [negb]; try (now exfalso; apply H); try reflexivity;
      destruct (N.ltb_spec s t); auto; lia.
  Qed.

  Fixpoint until (es : list flent) : list flent :=
    match es with [] => [] | e :: es' => if decide (old_enough e.1) then e :: until es' else [] end.
  Definition stops (es : list flent) : bool := existsb (fun e => negb (bool_decide (old_enough e.1))) es.
  Lemma until_app a b : until (a ++ b) = if stops a then until a else a ++ until b.
  Proof.
    induction a as [|e a IH]; cbn [app until stops existsb]; [reflexivity|].
    destruct (decide (old_enough e.1)) as [H|H].
    - rewrite (bool_decide_eq_true_2 _ H). cbn [negb orb]. rewrite IH. unfold stops. now destruct (existsb _ a).
    - rewrite (bool_decide_eq_false_2 _ H). reflexivity.
  Qed.
  Lemma until_all a : stops a = false -> until a = a.
  Proof. intros H. pose proof (until_app a []) as E. rewrite app_nil_r, H in E. rewrite E. cbn. now rewrite app_nil_r. Qed.
  Lemma stops_app a b : stops (a ++ b) = stops a || stops b.
  Proof. apply existsb_app. Qed.

  Lemma load_page_ok w p n : coh rd w -> vget rd w p = Some n ->
    exists w', load_page rd p w = (Ok n, w') /\ sim w w' /\ coh rd w' /\ loaded w' p.
  Proof. intros Hc Hv. destruct (get_page_ref_ok rd w p n Hc Hv) as (w' & E & H). exists w'. unfold load_page. rewrite E. auto. Qed.

  (** A tree of page ids. *)
  Lemma tsn_collect_mut fuel : 
    (forall h p P ts w, (h < fuel)%nat -> tsnshape (vget rd w) h p P ts -> coh rd w ->
      exists w', tsn_collect rd fuel p w = (Ok (toks_es ts), w') /\ sim w w' /\ coh rd w' /\ forall q, q ∈ P -> loaded w' q) /\
    (forall h ks cs P ts w, (h < fuel)%nat -> rforest (tsn_ops 0) tsnleaf (vget rd w) h ks cs P ts -> coh rd w ->
      exists w', concat_m (tsn_collect rd fuel) cs w = (Ok (toks_es ts), w') /\ sim w w' /\ coh rd w' /\ forall q, q ∈ P -> loaded w' q).
  Proof.
    induction fuel as [|fuel [IH1 IH2]]; [split; intros; lia|].
    assert (H1 : forall h p P ts w, (h < S fuel)%nat -> tsnshape (vget rd w) h p P ts -> coh rd w ->
      exists w', tsn_collect rd (S fuel) p w = (Ok (toks_es ts), w') /\ sim w w' /\ coh rd w' /\ forall q, q ∈ P -> loaded w' q).
    { intros h p P ts w Hh Hs Hc. cbn [tsn_collect]. inversion Hs as [p' n P' es h' Hg Hl Hr|h' p' n ks c cs P1 ts1 P2 ts2 Hg Hl Hi Hk Hs1 Hf]; subst.
      - destruct (load_page_ok w p n Hc Hg) as (w1 & E1 & S1 & C1 & L1). unfold wbind at 1. rewrite E1.
        destruct Hr as [-> ->]. exists w1. rewrite toks_es_map. split; [reflexivity|]. split; [exact S1|]. split; [exact C1|]. intros q Hq. apply elem_of_list_singleton in Hq as ->. exact L1.
      - destruct (load_page_ok w p n Hc Hg) as (w1 & E1 & S1 & C1 & L1). unfold wbind at 1. rewrite E1.
        destruct n; try discriminate. cbn in Hi. injection Hi as ->. cbn [in_children concat_m].
        destruct (IH1 h' c P1 ts1 w1 ltac:(lia)) as (w2 & E2 & S2 & C2 & L2).
        { eapply shape_frame; [apply tsnleaf_frame|exact Hs1|]. intros q _. now apply sim_view. }
        { exact C1. }
        unfold wbind at 1. rewrite E2.
        destruct (IH2 h' ks cs P2 ts2 w2 ltac:(lia)) as (w3 & E3 & S3 & C3 & L3).
        { eapply rforest_frame; [apply tsnleaf_frame|exact Hf|]. intros q _. rewrite (sim_view rd w1 w2) by exact S2. now apply sim_view. }
        { exact C2. }
        unfold wbind at 1. rewrite E3. exists w3. rewrite toks_es_app. split; [reflexivity|]. split; [eauto using sim_trans|]. split; [exact C3|].
        intros q Hq. apply elem_of_cons in Hq as [->|Hq]; [eauto using sim_loaded|]. apply elem_of_app in Hq as [Hq|Hq]; [eauto using sim_loaded|now apply L3]. }
    split; [exact H1|]. intros h ks cs. revert ks. induction cs as [|c cs IHc]; intros ks P ts w Hh Hf Hc; inversion Hf as [|h' k ks' c' cs' P1 ts1 P2 ts2 Hs1 Hf1]; subst; cbn [concat_m].
    - exists w. split; [reflexivity|]. split; [apply sim_refl|]. split; [exact Hc|]. intros q Hq. inversion Hq.
    - destruct (H1 h c P1 ts1 w Hh Hs1 Hc) as (w1 & E1 & S1 & C1 & L1). unfold wbind at 1. rewrite E1.
      destruct (IHc ks' P2 ts2 w1 Hh) as (w2 & E2 & S2 & C2 & L2).
      { eapply rforest_frame; [apply tsnleaf_frame|exact Hf1|]. intros q _. now apply sim_view. }
      { exact C1. }
      unfold wbind at 1. rewrite E2. exists w2. change (toks_es (TS k :: ts1 ++ ts2)) with (toks_es (ts1 ++ ts2)); rewrite toks_es_app. split; [reflexivity|]. split; [eauto using sim_trans|]. split; [exact C2|].
      intros q Hq. apply elem_of_app in Hq as [Hq|Hq]; [eauto using sim_loaded|now apply L2].
  Qed.

  Lemma leaf_collect_ok es : forall vs P Q w, listrep flval (vget rd w) vs P (map snd es) -> coh rd w -> pool_ok w (P ++ Q) ->
    exists w', leaf_collect rd (S (N.to_nat (w_next_page w))) smallest (map fst es) vs w = (Ok (pairs (until es), stops es), w') /\
      sim w w' /\ coh rd w' /\ forall e q, e ∈ until es -> q ∈ e.2.2 -> loaded w' q.
  Proof.
    induction es as [|[t [ids Pv]] es IH]; intros vs P Q w Hl Hc Hp; cbn [map leaf_collect until stops existsb].
    - exists w. split; [reflexivity|]. split; [apply sim_refl|]. split; [exact Hc|]. intros e q He. inversion He.
    - cbn [fst snd] in *. rewrite old_enough_bool. destruct (decide (old_enough t)) as [Ho|Ho].
      2:{ rewrite (bool_decide_eq_false_2 _ Ho). cbn [negb orb]. exists w. split; [reflexivity|]. split; [apply sim_refl|]. split; [exact Hc|]. intros e q He. inversion He. }
      rewrite (bool_decide_eq_true_2 _ Ho). cbn [negb orb].
      inversion Hl as [|v vs' P1 P2 a l Hv Hl']; subst. destruct Hv as [-> Hv]. cbn [fst snd] in *.
      assert (Hids : exists w1, (if fv_root v =? 0 then ret (fv_page_ids v) else tsn_collect rd (S (N.to_nat (w_next_page w))) (fv_root v)) w = (Ok ids, w1) /\
        sim w w1 /\ coh rd w1 /\ forall q, q ∈ Pv -> loaded w1 q).
      { destruct Hv as [(Hr & -> & <-)|(Hr & _ & h & ts & Hs & <- & _)].
        - rewrite Hr, N.eqb_refl. exists w. split; [reflexivity|]. split; [apply sim_refl|]. split; [exact Hc|]. intros q Hq. inversion Hq.
        - rewrite (proj2 (N.eqb_neq _ _) Hr). rewrite <- app_assoc in Hp.
          destruct (pool_height _ _ _ _ _ _ _ _ _ Hp Hs) as (h' & Hh & Hs').
          exact (proj1 (tsn_collect_mut _) h' _ _ _ w Hh Hs' Hc). }
      destruct Hids as (w1 & E1 & S1 & C1 & L1). unfold wbind at 1. rewrite E1.
      destruct (IH vs' P2 (Pv ++ Q) w1) as (w2 & E2 & S2 & C2 & L2).
      { eapply listrep_frame; [intros; eapply flval_frame; eassumption|exact Hl'|]. intros q _. now apply sim_view. }
      { exact C1. }
      { eapply sim_pool; [exact S1|]. eapply pool_ok_perm; [|exact Hp]. solve_Permutation. }
      rewrite (sim_next w w1 S1) in E2. unfold wbind at 1. rewrite E2. exists w2. rewrite pairs_cons. split; [reflexivity|]. split; [eauto using sim_trans|]. split; [exact C2|].
      intros e q He Hq. apply elem_of_cons in He as [->|He]; [|eauto]. cbn in Hq. eauto using sim_loaded.
  Qed.

  Lemma fl_collect_mut fuel :
    (forall h p P ts Q w, (h < fuel)%nat -> flshape (vget rd w) h p P ts -> coh rd w -> pool_ok w (P ++ Q) ->
      exists w', fl_collect rd fuel smallest p w = (Ok (pairs (until (toks_es ts)), stops (toks_es ts)), w') /\ sim w w' /\ coh rd w' /\
        forall e q, e ∈ until (toks_es ts) -> q ∈ e.2.2 -> loaded w' q) /\
    (forall h ks cs P ts Q w, (h < fuel)%nat -> rforest fl_ops flleaf (vget rd w) h ks cs P ts -> coh rd w -> pool_ok w (P ++ Q) ->
      exists w', collect_until (fl_collect rd fuel smallest) cs w = (Ok (pairs (until (toks_es ts)), stops (toks_es ts)), w') /\ sim w w' /\ coh rd w' /\
        forall e q, e ∈ until (toks_es ts) -> q ∈ e.2.2 -> loaded w' q).
  Proof.
    induction fuel as [|fuel [IH1 IH2]]; [split; intros; lia|].
    assert (Hseq : forall (f : M (list (N * N) * bool)) (g : M (list (N * N) * bool)) ta tb w w1,
      f w = (Ok (pairs (until ta), stops ta), w1) -> sim w w1 -> coh rd w1 ->
      (forall e q, e ∈ until ta -> q ∈ e.2.2 -> loaded w1 q) ->
      (exists w2, g w1 = (Ok (pairs (until tb), stops tb), w2) /\ sim w1 w2 /\ coh rd w2 /\ forall e q, e ∈ until tb -> q ∈ e.2.2 -> loaded w2 q) ->
      exists w', (let! '(a, fin) := f in if fin then ret (a, true) else let! '(b, fin') := g in ret (a ++ b, fin')) w =
        (Ok (pairs (until (ta ++ tb)), stops (ta ++ tb)), w') /\ sim w w' /\ coh rd w' /\
        forall e q, e ∈ until (ta ++ tb) -> q ∈ e.2.2 -> loaded w' q).
    { intros f g ta tb w w1 Ef S1 C1 L1 (w2 & Eg & S2 & C2 & L2). rewrite stops_app, until_app. unfold wbind at 1. rewrite Ef.
      destruct (stops ta) eqn:Est.
      - exists w1. cbn [orb]. auto.
      - unfold wbind at 1. rewrite Eg. exists w2. cbn [orb]. rewrite pairs_app, (until_all ta Est). split; [reflexivity|]. split; [eauto using sim_trans|]. split; [exact C2|].
        intros e q He Hq. rewrite (until_all ta Est) in L1. apply elem_of_app in He as [He|He]; [eauto using sim_loaded|eauto]. }
    assert (H1 : forall h p P ts Q w, (h < S fuel)%nat -> flshape (vget rd w) h p P ts -> coh rd w -> pool_ok w (P ++ Q) ->
      exists w', fl_collect rd (S fuel) smallest p w = (Ok (pairs (until (toks_es ts)), stops (toks_es ts)), w') /\ sim w w' /\ coh rd w' /\
        forall e q, e ∈ until (toks_es ts) -> q ∈ e.2.2 -> loaded w' q).
    { intros h p P ts Q w Hh Hs Hc Hp. cbn [fl_collect]. inversion Hs as [p' n P' es h' Hg Hl Hr|h' p' n ks c cs P1 ts1 P2 ts2 Hg Hl Hi Hk Hs1 Hf]; subst.
      - destruct (load_page_ok w p n Hc Hg) as (w1 & E1 & S1 & C1 & L1). unfold wbind at 1. rewrite E1.
        destruct Hr as (vs & -> & Hvs). cbn [fl_keys fl_values]. unfold wbind at 1. unfold gets at 1. rewrite toks_es_map.
        destruct (leaf_collect_ok es vs P' (p :: Q) w1) as (w2 & E2 & S2 & C2 & L2).
        { eapply listrep_frame; [intros; eapply flval_frame; eassumption|exact Hvs|]. intros q _. now apply sim_view. }
        { exact C1. }
        { eapply sim_pool; [exact S1|]. eapply pool_ok_perm; [|exact Hp]. solve_Permutation. }
        exists w2. split; [exact E2|]. split; [eauto using sim_trans|]. auto.
      - destruct (load_page_ok w p n Hc Hg) as (w1 & E1 & S1 & C1 & L1). unfold wbind at 1. rewrite E1.
        destruct n; try discriminate. cbn in Hi. injection Hi as ->. cbn [in_children collect_until].
        rewrite toks_es_app.
        assert (Hp1 : pool_ok w1 (P1 ++ p :: P2 ++ Q)) by (eapply sim_pool; [exact S1|]; eapply pool_ok_perm; [|exact Hp]; solve_Permutation).
        destruct (IH1 h' c P1 ts1 (p :: P2 ++ Q) w1 ltac:(lia)) as (w2 & E2 & S2 & C2 & L2); [|exact C1|exact Hp1|].
        { eapply shape_frame; [apply flleaf_frame|exact Hs1|]. intros q _. now apply sim_view. }
        destruct (Hseq (fl_collect rd fuel smallest c) (collect_until (fl_collect rd fuel smallest) cs) (toks_es ts1) (toks_es ts2) w1 w2 E2 S2 C2 L2) as (w3 & E3 & S3 & C3 & L3).
        { apply (IH2 h' ks cs P2 ts2 (p :: P1 ++ Q) w2 ltac:(lia)); [|exact C2|].
          - eapply rforest_frame; [apply flleaf_frame|exact Hf|]. intros q _. rewrite (sim_view rd w1 w2) by exact S2. now apply sim_view.
          - eapply sim_pool; [exact S2|]. eapply pool_ok_perm; [|exact Hp1]. solve_Permutation. }
        exists w3. split; [exact E3|]. split; [eauto using sim_trans|]. auto. }
    split; [exact H1|]. intros h ks cs. revert ks. induction cs as [|c cs IHc]; intros ks P ts Q w Hh Hf Hc Hp; inversion Hf as [|h' k ks' c' cs' P1 ts1 P2 ts2 Hs1 Hf1]; subst; cbn [collect_until].
    - exists w. split; [reflexivity|]. split; [apply sim_refl|]. split; [exact Hc|]. intros e q He. inversion He.
    - assert (Hp1 : pool_ok w (P1 ++ P2 ++ Q)) by (eapply pool_ok_perm; [|exact Hp]; solve_Permutation).
      destruct (H1 h c P1 ts1 _ w Hh Hs1 Hc Hp1) as (w1 & E1 & S1 & C1 & L1).
      change (toks_es (TS k :: ts1 ++ ts2)) with (toks_es (ts1 ++ ts2)); rewrite toks_es_app.
      apply (Hseq (fl_collect rd (S fuel) smallest c) (collect_until (fl_collect rd (S fuel) smallest) cs) (toks_es ts1) (toks_es ts2) w w1 E1 S1 C1 L1).
      apply (IHc ks' P2 ts2 (P1 ++ Q) w1 Hh); [|exact C1|].
      + eapply rforest_frame; [apply flleaf_frame|exact Hf1|]. intros q _. now apply sim_view.
      + eapply sim_pool; [exact S1|]. eapply pool_ok_perm; [|exact Hp]. solve_Permutation.
  Qed.

  (** With increasing transactions, the entries up to the first too young one are the old ones. *)
  Lemma until_filter es : StronglySorted (clt N.compare) (map fst es) -> until es = filter (fun e => old_enough e.1) es.
  Proof.
    induction es as [|e es IH]; intros Hs; cbn [until]; [reflexivity|]. cbn [map] in Hs. inversion Hs as [|? ? Hs' Hf]; subst. rewrite filter_cons.
    destruct (decide (old_enough e.1)) as [H|H]; [now rewrite IH|].
    symmetry. destruct (filter _ es) as [|e' l] eqn:E; [reflexivity|]. exfalso.
    assert (Hin : e' ∈ filter (fun e => old_enough e.1) es) by (rewrite E; set_solver).
    apply elem_of_list_filter in Hin as [Ho Hin]. rewrite Forall_forall in Hf. specialize (Hf e'.1 ltac:(apply elem_of_list_fmap_1; exact Hin)).
    apply (proj1 (cltN _ _)) in Hf. clear E IH. unfold old_enough in *. destruct smallest; [lia|auto].
  Qed.

  (** The order in which ids are handed out does not matter: a permutation. *)
  Lemma insert_by_perm {A} le (x : A) l : insert_by le x l ≡ₚ x :: l.
  Proof. induction l as [|y l IH]; cbn [insert_by]; [reflexivity|]. destruct (le x y); [reflexivity|]. rewrite IH. solve_Permutation. Qed.
  Lemma sort_by_perm {A} le (l : list A) : sort_by le l ≡ₚ l.
  Proof. unfold sort_by. induction l as [|x l IH]; cbn [foldr]; [reflexivity|]. now rewrite insert_by_perm, IH. Qed.
  Lemma extents_concat l : forall cur, concat (extents cur l) = cur ++ l.
  Proof.
    induction l as [|[p t] l IH]; intros cur; cbn [extents].
    - destruct cur; cbn; now rewrite ?app_nil_r.
    - destruct (last cur) as [[lp lt]|]; [destruct (p =? lp + 1)|]; cbn [concat]; rewrite ?IH; lassoc.
  Qed.
  Lemma concat_perm {A} (l l' : list (list A)) : l ≡ₚ l' -> concat l ≡ₚ concat l'.
  Proof. induction 1; cbn [concat]; [reflexivity|now apply Permutation_app_head|solve_Permutation|etransitivity; eassumption]. Qed.
  Lemma order_reusable_perm l : order_reusable l ≡ₚ l.
  Proof. unfold order_reusable. rewrite (concat_perm _ _ (sort_by_perm extent_le _)), extents_concat. cbn [app]. apply sort_by_perm. Qed.

  Lemma find_reusable_ok w PF Q tsn es :
    coh rd w -> pool_ok w (PF ++ Q) -> flrep (vget rd w) tsn (w_free_root w) PF es ->
    exists w' l, find_reusable_page_ids rd smallest w = (Ok tt, set_reusable l w') /\ sim w w' /\ coh rd w' /\
      l ≡ₚ pairs (filter (fun e => old_enough e.1) es) /\
      forall t ids Pv, (t, (ids, Pv)) ∈ es -> old_enough t -> forall q, q ∈ Pv -> loaded w' q.
  Proof.
    intros Hc Hp (h & ts & Hs & <- & Hsrt & _). unfold find_reusable_page_ids.
    unfold wbind at 1. unfold gets at 1. unfold wbind at 1. unfold gets at 1.
    destruct (pool_height _ _ _ _ _ _ _ _ _ Hp Hs) as (h0 & Hh & Hs0).
    destruct (proj1 (fl_collect_mut _) _ _ _ _ Q w Hh Hs0 Hc Hp) as (w' & E & S & C & L).
    unfold wbind at 1. rewrite E. unfold modify.
    apply tsorted_es in Hsrt. rewrite (until_filter _ Hsrt) in *.
    exists w', (order_reusable (pairs (filter (fun e => old_enough e.1) (toks_es ts)))). split; [reflexivity|]. split; [exact S|]. split; [exact C|]. split; [apply order_reusable_perm|].
    intros t ids Pv He Ho q Hq. apply (L (t, (ids, Pv)) q); [|exact Hq]. apply elem_of_list_filter. auto.
  Qed.
End find.
