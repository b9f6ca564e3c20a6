(** The two iterators on represented trees. *)
From Verif Require Export IterProofs.
Local Open Scope N_scope.

Lemma wsum_submseteq wt P Q : P ⊆+ Q -> (wsum wt P <= wsum wt Q)%nat.
Proof.
  induction 1; cbn [wsum foldr] in *; unfold wsum in *; lia.
Qed.
Lemma scan_fuel_eq pg np : scan_fuel pg np = S (wsum (visits pg) (map N.of_nat (seq 0 np))).
Proof.
  unfold scan_fuel, wsum. generalize (seq 0 np). induction l as [|x l IH]; [reflexivity|]. cbn [foldr map]. rewrite IH. lia.
Qed.
Lemma scan_fuel_bound pg np P : NoDup P -> (forall p, p ∈ P -> (N.to_nat p < np)%nat) -> (wsum (visits pg) P < scan_fuel pg np)%nat.
Proof.
  intros Hnd Hb. rewrite scan_fuel_eq.
  enough (wsum (visits pg) P <= wsum (visits pg) (map N.of_nat (seq 0 np)))%nat by lia.
  apply wsum_submseteq, NoDup_submseteq; [exact Hnd|]. intros p Hp. apply elem_of_list_fmap.
  exists (N.to_nat p). split; [lia|]. apply elem_of_seq. specialize (Hb p Hp). lia.
Qed.

Lemma kept_mono start bw a b : kept start bw a = true -> (if bw then b <= a else a <= b) -> kept start bw b = true.
Proof. unfold kept. destruct start as [f|]; [|auto]. destruct bw; rewrite !N.leb_le; lia. Qed.

Lemma sublist_same {A} (l l' : list A) : l `sublist_of` l' -> NoDup l' -> (forall x, x ∈ l' -> x ∈ l) -> l = l'.
Proof.
  intros Hs. induction Hs as [|x l l' Hs IH|x l l' Hs IH]; intros Hnd Hin; [reflexivity| |].
  - inversion Hnd as [|? ? Hx Hnd']; subst. f_equal. apply IH; [exact Hnd'|]. intros y Hy.
    specialize (Hin y ltac:(now right)). apply elem_of_cons in Hin as [->|Hin]; [contradiction|exact Hin].
  - inversion Hnd as [|? ? Hx Hnd']; subst. destruct Hx. eapply elem_of_submseteq; [apply Hin; now left|]. now apply sublist_submseteq.
Qed.
Lemma sublist_NoDup {A} (l l' : list A) : l `sublist_of` l' -> NoDup l' -> NoDup l.
Proof.
  intros Hs. induction Hs as [|x l l' Hs IH|x l l' Hs IH]; intros Hnd; [constructor| |]; inversion Hnd as [|? ? Hx Hnd']; subst; auto.
  constructor; auto. intros Hin. apply Hx. eapply elem_of_submseteq; [exact Hin|]. now apply sublist_submseteq.
Qed.
Lemma dir_map_fst {A B} bw (l : list (A * B)) : map fst (dir bw l) = dir bw (map fst l).
Proof. destruct bw; [apply map_rev|reflexivity]. Qed.
Lemma dir_nodup {A} bw (l : list A) : NoDup l -> NoDup (dir bw l).
Proof. intros H. destruct bw; [|exact H]. unfold dir. now rewrite <- (Permutation_rev l). Qed.
Lemma filter_sublist {A} (p : A -> bool) l : List.filter p l `sublist_of` l.
Proof. induction l as [|x l IH]; cbn [List.filter]; [constructor|]. destruct (p x); now constructor. Qed.
Lemma filter_map_sublist {A B} (f : A -> B) (p : A -> bool) l : map f (List.filter p l) `sublist_of` map f l.
Proof. induction l as [|x l IH]; cbn [List.filter map]; [constructor|]. destruct (p x); now constructor. Qed.
Lemma clt_nodup l : StronglySorted (clt N.compare) l -> NoDup l.
Proof.
  induction 1 as [|x l Hs IH Hf]; constructor; auto.
  intros Hin. rewrite Forall_forall in Hf. apply Hf in Hin. now apply clt_irrefl in Hin; [|apply N_cmp_ok].
Qed.

(** ** Events *)
Section ev.
  Context (get : N -> option node) (pg : snapshot) (start : option N) (bw : bool) (cfuel : nat) (A : list N).
  Context (HA : agrees get pg A) (Hcf : (length A <= cfuel)%nat).
  Notation step := (ei_step cfuel pg start bw).

  Lemma ev_step p vs P0 (es : list seq_event) i pos r :
    p :: P0 ⊆ A -> (length P0 <= cfuel)%nat -> get p = Some (NEvLeaf (EvLeaf (map fst es) vs)) -> valsrep get vs P0 (map snd es) ->
    es !! i = Some (pos, r) ->
    step (p, Some i) = Ok ([(pos, r)],
      if bw then match i with O => [] | S i' => [(p, Some i')] end
      else if (S i <? length es)%nat then [(p, Some (S i))] else []).
  Proof.
    intros HP Hlen Hg Hvs Hi. unfold ei_step. rewrite (HA p _ ltac:(set_solver) Hg). cbn [rbind ev_values ev_keys].
    pose proof (valsrep_length _ _ _ _ Hvs) as Elen. rewrite map_length in Elen.
    assert (is_Some (vs !! i)) as [v Hv] by (apply lookup_lt_is_Some; rewrite Elen; apply lookup_lt_is_Some; eauto).
    rewrite Hv. change (map fst es) with (fst <$> es). rewrite list_lookup_fmap, Hi. cbn [fmap option_fmap option_map fst].
    destruct (valsrep_lookup _ _ _ _ _ _ Hvs Hv) as (r' & C & C1 & C2 & Hr' & Hvr & ->).
    change (map snd es) with (snd <$> es) in Hr'. rewrite list_lookup_fmap, Hi in Hr'. injection Hr' as <-.
    rewrite (materialize_ok _ pg _ _ _ cfuel Hvr); [|eapply agrees_sub; [|exact HA]; set_solver|rewrite !app_length in Hlen; lia].
    cbn [rbind]. now rewrite Elen.
  Qed.

  Lemma ev_step_f p vs P0 (es : list seq_event) i pos r : bw = false ->
    p :: P0 ⊆ A -> (length P0 <= cfuel)%nat -> get p = Some (NEvLeaf (EvLeaf (map fst es) vs)) -> valsrep get vs P0 (map snd es) ->
    es !! i = Some (pos, r) -> step (p, Some i) = Ok ([(pos, r)], if (S i <? length es)%nat then [(p, Some (S i))] else []).
  Proof. intros Hbw H1 H2 H3 H4 H5. rewrite (ev_step _ _ _ _ _ _ _ H1 H2 H3 H4 H5). now rewrite Hbw. Qed.
  Lemma ev_step_b p vs P0 (es : list seq_event) i pos r : bw = true ->
    p :: P0 ⊆ A -> (length P0 <= cfuel)%nat -> get p = Some (NEvLeaf (EvLeaf (map fst es) vs)) -> valsrep get vs P0 (map snd es) ->
    es !! i = Some (pos, r) -> step (p, Some i) = Ok ([(pos, r)], match i with O => [] | S i' => [(p, Some i')] end).
  Proof. intros Hbw H1 H2 H3 H4 H5. rewrite (ev_step _ _ _ _ _ _ _ H1 H2 H3 H4 H5). now rewrite Hbw. Qed.
  Lemma ev_runs_fwd p vs P0 (es : list seq_event) :
    bw = false -> p :: P0 ⊆ A -> (length P0 <= cfuel)%nat -> get p = Some (NEvLeaf (EvLeaf (map fst es) vs)) -> valsrep get vs P0 (map snd es) ->
    forall k i st, (length es - i = S k)%nat -> runs step ((p, Some i) :: st) (drop i es) st (S k).
  Proof.
    intros Hbw HP Hlen Hg Hvs. induction k as [|k IH]; intros i st Hk;
      (assert (is_Some (es !! i)) as [[pos r] Hi] by (apply lookup_lt_is_Some; lia));
      rewrite (drop_S _ _ _ Hi); change ((pos, r) :: drop (S i) es) with ([(pos, r)] ++ drop (S i) es);
      (eapply runs_step; [eapply ev_step_f; eassumption|]).
    - rewrite (proj2 (Nat.ltb_ge _ _)) by lia. rewrite drop_ge by lia. constructor.
    - rewrite (proj2 (Nat.ltb_lt _ _)) by lia. apply IH. lia.
  Qed.
  Lemma ev_runs_bwd p vs P0 (es : list seq_event) :
    bw = true -> p :: P0 ⊆ A -> (length P0 <= cfuel)%nat -> get p = Some (NEvLeaf (EvLeaf (map fst es) vs)) -> valsrep get vs P0 (map snd es) ->
    forall i st, (i < length es)%nat -> runs step ((p, Some i) :: st) (rev (take (S i) es)) st (S i).
  Proof.
    intros Hbw HP Hlen Hg Hvs. induction i as [|i IH]; intros st Hk;
      (assert (is_Some (es !! _)) as [[pos r] Hi] by (apply lookup_lt_is_Some; exact Hk));
      rewrite (take_S_r _ _ _ Hi), rev_app_distr; cbn [rev app]; change ((pos, r) :: ?l) with ([(pos, r)] ++ l);
      (eapply runs_step; [eapply ev_step_b; eassumption|]).
    - constructor.
    - apply IH. lia.
  Qed.

  (* a run starting at the index found on the first visit *)
  Lemma ev_first p n st i l m : pg p = Ok n -> (exists lf, n = NEvLeaf lf /\ first_value start bw lf = Some i) ->
    runs step ((p, Some i) :: st) l st m -> (0 < m)%nat -> runs step ((p, None) :: st) l st m.
  Proof.
    intros Hpg (lf & -> & Hf) Hr Hm. inversion Hr as [|it st0 out push l0 st' m0 Hs Hr']; subst; [lia|].
    eapply runs_step; [|exact Hr']. rewrite <- Hs. unfold ei_step. rewrite Hpg. cbn [rbind]. now rewrite Hf.
  Qed.

  Lemma ev_leaf_ok p n P0 (es : list seq_event) : p :: P0 ⊆ A -> (length P0 <= cfuel)%nat -> get p = Some n -> evleaf get n P0 es ->
    StronglySorted (clt N.compare) (map fst es) ->
    exists m, (m <= visits pg p)%nat /\ forall st, runs step ((p, None) :: st) (dir bw (List.filter (fun e => kept start bw (fst e)) es)) st m.
  Proof.
    intros HP HPl Hg (vs & -> & Hvs) Hsrt. pose proof (HA p _ ltac:(set_solver) Hg) as Hpg.
    pose proof (valsrep_length _ _ _ _ Hvs) as Elen. rewrite map_length in Elen.
    assert (Hvis : visits pg p = S (length es)).
    { unfold visits. rewrite Hpg. cbn [items ev_values]. lia. }
    assert (Hnone : first_value start bw (EvLeaf (map fst es) vs) = None -> forall st, runs step ((p, None) :: st) [] st 1).
    { intros Hf st. apply (runs_one step _ _ [] []). unfold ei_step. rewrite Hpg. cbn [rbind]. now rewrite Hf. }
    destruct es as [|e0 es0] eqn:Ees.
    { exists 1%nat. split; [lia|]. intros st. replace (dir bw _) with (@nil seq_event) by (now destruct bw).
      apply Hnone. destruct vs; [reflexivity|discriminate]. }
    rewrite <- Ees in *. assert (Hne : vs <> []) by (intros ->; rewrite Ees in Elen; discriminate).
    assert (Hlen : (0 < length es)%nat) by (rewrite Ees; cbn; lia). clear Ees e0 es0.
    assert (Hfv : first_value start bw (EvLeaf (map fst es) vs) =
      match start with
      | Some f => match bs_N f (map fst es) with
                  | inl i => Some i
                  | inr i => if bw then match i with O => None | S i' => Some i' end else Some i
                  end
      | None => Some (if bw then (length vs - 1)%nat else 0%nat)
      end) by (unfold first_value; cbn [ev_values ev_keys]; destruct vs; [congruence|reflexivity]).
    assert (Hfrom : forall i l, first_value start bw (EvLeaf (map fst es) vs) = Some i ->
      (i < length es)%nat -> l = (if bw then rev (take (S i) es) else drop i es) ->
      exists m, (m <= visits pg p)%nat /\ forall st, runs step ((p, None) :: st) l st m).
    { intros i l Hf Hi El. assert (bw = true \/ bw = false) as [Ebw|Ebw] by (destruct bw; auto); rewrite Ebw in El; subst l.
      - exists (S i). split; [lia|]. intros st. eapply ev_first; [exact Hpg|eauto| |lia]. eapply ev_runs_bwd; eassumption.
      - destruct (length es - i)%nat as [|k] eqn:Ek; [lia|]. exists (S k). split; [lia|]. intros st.
        eapply ev_first; [exact Hpg|eauto| |lia]. eapply ev_runs_fwd; eassumption. }
    assert (Hkeys : forall j a b, es !! j = Some a -> (forall i, es !! i = Some b -> (i < j)%nat -> fst b < fst a) /\
                                            (forall i, es !! i = Some b -> (j < i)%nat -> fst a < fst b)).
    { intros j a b Ha. split; intros i Hb Hij.
      - apply N.compare_lt_iff. apply (ssorted_lookup (clt N.compare) _ i j (fst b) (fst a) Hsrt); [lia| |];
          change (map fst es) with (fst <$> es); rewrite list_lookup_fmap; [now rewrite Hb|now rewrite Ha].
      - apply N.compare_lt_iff. apply (ssorted_lookup (clt N.compare) _ j i (fst a) (fst b) Hsrt); [lia| |];
          change (map fst es) with (fst <$> es); rewrite list_lookup_fmap; [now rewrite Ha|now rewrite Hb]. }
    unfold kept. destruct start as [f|] eqn:Est.
    - pose proof (bs_leaf N.compare N_cmp_ok f (map fst es) Hsrt) as Hbs. fold (bs_N f (map fst es)) in Hbs.
      destruct (bs_N f (map fst es)) as [i|i] eqn:Ebs.
      + change (map fst es) with (fst <$> es) in Hbs. rewrite list_lookup_fmap in Hbs.
        destruct (es !! i) as [[pos r]|] eqn:Ei; [|discriminate]. injection Hbs as ->.
        apply (Hfrom i); [exact Hfv|apply lookup_lt_is_Some; eauto|].
        destruct bw; unfold dir; [f_equal; apply filter_take_eq|apply filter_drop_eq]; intros [pos' r'] Hx.
        * apply elem_of_take in Hx as (j & Hj & Hji). cbn. apply N.leb_le. destruct (Nat.eq_dec j i) as [->|].
          -- rewrite Ei in Hj. injection Hj as -> ->. lia.
          -- pose proof (proj1 (Hkeys i _ (pos', r') Ei) j Hj ltac:(lia)). cbn in *. lia.
        * apply elem_of_list_lookup in Hx as [j Hj]. rewrite lookup_drop in Hj. cbn. apply N.leb_gt.
          pose proof (proj2 (Hkeys i _ (pos', r') Ei) _ Hj ltac:(lia)). exact H.
        * apply elem_of_take in Hx as (j & Hj & Hji). cbn. apply N.leb_gt.
          pose proof (proj1 (Hkeys i _ (pos', r') Ei) j Hj ltac:(lia)). exact H.
        * apply elem_of_list_lookup in Hx as [j Hj]. rewrite lookup_drop in Hj. cbn. apply N.leb_le. destruct (Nat.eq_dec j 0%nat) as [->|].
          -- rewrite Nat.add_0_r, Ei in Hj. injection Hj as -> ->. lia.
          -- pose proof (proj2 (Hkeys i _ (pos', r') Ei) _ Hj ltac:(lia)). cbn in *. lia.
      + destruct Hbs as (Hi & Hlt & Hgt). rewrite map_length in Hi.
        change (map fst es) with (fst <$> es) in Hlt, Hgt. rewrite <- fmap_take in Hlt. rewrite <- fmap_drop in Hgt.
        assert (Hlt' : forall x, x ∈ take i es -> fst x < f).
        { intros x Hx. apply N.compare_lt_iff, Hlt, elem_of_list_fmap. eauto. }
        assert (Hgt' : forall x, x ∈ drop i es -> f < fst x).
        { intros x Hx. apply N.compare_lt_iff, Hgt, elem_of_list_fmap. eauto. }
        destruct bw eqn:Ebw.
        * replace (List.filter _ es) with (take i es).
          2: { symmetry. apply filter_take_eq; intros x Hx; [apply N.leb_le|apply N.leb_gt]; [specialize (Hlt' x Hx); lia|auto]. }
          destruct i as [|i].
          -- exists 1%nat. split; [lia|]. apply Hnone. exact Hfv.
          -- apply (Hfrom i); [exact Hfv|lia|reflexivity].
        * replace (List.filter _ es) with (drop i es).
          2: { symmetry. apply filter_drop_eq; intros x Hx; [apply N.leb_gt|apply N.leb_le]; [auto|specialize (Hgt' x Hx); lia]. }
          destruct (Nat.eq_dec i (length es)) as [->|].
          -- exists 1%nat. split; [lia|]. intros st. rewrite drop_ge by lia. apply (runs_one _ _ _ [] []).
             unfold ei_step. rewrite Hpg. cbn [rbind]. rewrite Hfv. cbn [ev_values]. now rewrite (lookup_ge_None_2 vs) by lia.
          -- apply (Hfrom i); [exact Hfv|lia|reflexivity].
    - rewrite (filter_all_true _ es) by auto. apply (Hfrom (if bw then (length vs - 1)%nat else 0%nat)); [exact Hfv|destruct bw; lia|].
      destruct bw; [|reflexivity]. unfold dir. f_equal. rewrite take_ge; [reflexivity|lia].
  Qed.

  Theorem event_runs h root ts :
    shape ev_ops evleaf get h root A ts -> tsorted N.compare fst ts -> sep_ok fst ts ->
    exists m, (m <= wsum (visits pg) A)%nat /\
      runs step [(root, None)] (dir bw (List.filter (fun e => kept start bw (fst e)) (toks_es ts))) [] m.
  Proof.
    intros Hs Hsrt Hsep. pose proof (tsorted_es N.compare fst ts Hsrt) as Hes.
    destruct (dfs_ok ev_ops evleaf fst get start bw step A (visits pg)
      (fun es => StronglySorted (clt N.compare) (map fst es))) with (h := h) (p := root) (P := A) (ts := ts)
      as (out & m & Hr & Hm & Hsub & Hcov); auto.
    - intros a b H. rewrite map_app in H. apply ss_app in H as (H1 & H2 & _). auto.
    - intros p n nd c Hp Hg Hi Hne Hc. unfold ei_step. rewrite (HA p n Hp Hg). cbn [rbind].
      destruct n; try discriminate Hi. injection Hi as ->.
      destruct (in_keys nd) eqn:Ek; [congruence|]. now rewrite Hc.
    - intros p n nd c i Hp Hg Hi Hc. unfold ei_step. rewrite (HA p n Hp Hg). cbn [rbind].
      destruct n; try discriminate Hi. injection Hi as ->. now rewrite Hc.
    - intros p n nd Hp Hg Hi. unfold visits. rewrite (HA p n Hp Hg). destruct n; try discriminate Hi. injection Hi as ->. cbn. lia.
    - intros p n P0 es [HP HPl] Hg Hl Hlr Hgd _. apply ev_leaf_ok with (n := n) (P0 := P0); auto. cbn [length] in HPl. lia.
    - now split.
    - now apply tsorted_wsorted.
    - exists m. split; [exact Hm|]. specialize (Hr []).
      replace (dir bw _) with out; [exact Hr|].
      apply sublist_same; [exact Hsub| |].
      + assert (Hnd : NoDup (map fst (dir bw (List.filter (fun e => kept start bw (fst e)) (toks_es ts))))).
        { rewrite dir_map_fst. apply dir_nodup. eapply sublist_NoDup; [apply filter_map_sublist|]. now apply clt_nodup. }
        eapply NoDup_fmap_1. exact Hnd.
      + intros e He. apply elem_of_dir, filter_elem in He as [He Hk]. destruct (Hcov e He Hk) as (y & Hy & Ey).
        assert (y = e) as <-; [|exact Hy].
        assert (y ∈ toks_es ts) as Hy'.
        { eapply elem_of_submseteq in Hy; [|apply sublist_submseteq; exact Hsub]. now apply elem_of_dir, filter_elem in Hy as [Hy _]. }
        pose proof (alookup_nodup _ _ (snd y) (clt_nodup _ Hes) ltac:(rewrite <- (surjective_pairing y); exact Hy')) as L1.
        pose proof (alookup_nodup _ _ (snd e) (clt_nodup _ Hes) ltac:(rewrite <- (surjective_pairing e); exact He)) as L2.
        rewrite Ey in L1. destruct y, e; cbn in *. congruence.
  Qed.
End ev.
