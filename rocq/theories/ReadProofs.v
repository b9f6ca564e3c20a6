(** Reads return exactly the events of the history that match, in order: db.rs:530-822. *)
From Verif Require Export MergeProofs.
Local Open Scope N_scope.

Lemma matches_item_ok q r : matches_item q r = true <-> Exists (fun it => item_matches it r) q.
Proof.
  unfold matches_item. rewrite existsb_exists, Exists_exists.
  split; intros (it & Hin & H); exists it; (split; [now apply elem_of_list_In|]).
  - apply andb_true_iff in H as [H1 H2]. split.
    + apply orb_true_iff in H1 as [H1|H1]; [left; destruct (qi_types it); [reflexivity|discriminate]|right].
      apply existsb_exists in H1 as (t & Ht & E). apply bool_decide_eq_true in E as ->. now apply elem_of_list_In.
    + apply Forall_forall. intros t Ht. rewrite forallb_forall in H2. specialize (H2 t ltac:(now apply elem_of_list_In)).
      apply existsb_exists in H2 as (t' & Ht' & E). apply bool_decide_eq_true in E as ->. now apply elem_of_list_In.
  - destruct H as [H1 H2]. apply andb_true_iff. split.
    + destruct H1 as [->|H1]; [reflexivity|]. apply orb_true_iff. right. apply existsb_exists. exists (er_type r).
      split; [now apply elem_of_list_In|]. now apply bool_decide_eq_true.
    + apply forallb_forall. intros t Ht. rewrite Forall_forall in H2. apply existsb_exists. exists t.
      split; [|now apply bool_decide_eq_true]. apply elem_of_list_In, H2. now apply elem_of_list_In.
Qed.
Lemma kept_in_range start bw p : kept start bw p = true <-> in_range start bw p.
Proof. unfold kept, in_range. destruct start as [f|]; [destruct bw; apply N.leb_le|tauto]. Qed.

Lemma sfilter_filter {A} (P : A -> Prop) `{forall x, Decision (P x)} (p : A -> bool) l :
  (forall x, x ∈ l -> p x = true <-> P x) -> List.filter p l = filter P l.
Proof.
  induction l as [|x l IH]; intros Hp; [reflexivity|]. cbn [List.filter].
  rewrite IH by (intros y Hy; apply Hp; now right). specialize (Hp x ltac:(now left)).
  destruct (p x) eqn:E.
  - now rewrite filter_cons_True by (now apply Hp).
  - rewrite filter_cons_False; [reflexivity|]. intros HP. apply Hp in HP. congruence.
Qed.
Lemma filter_filter {A} (p q : A -> bool) l : List.filter p (List.filter q l) = List.filter (fun x => q x && p x) l.
Proof. induction l as [|x l IH]; cbn [List.filter]; [reflexivity|]. destruct (q x); cbn [List.filter andb]; [destruct (p x)|]; now rewrite IH. Qed.
Lemma filter_dir {A} (p : A -> bool) bw l : List.filter p (dir bw l) = dir bw (List.filter p l).
Proof.
  destruct bw; [|reflexivity]. unfold dir. induction l as [|x l IH]; [reflexivity|]. cbn [rev List.filter].
  rewrite List.filter_app, IH. cbn [List.filter]. destruct (p x); cbn [rev]; [reflexivity|apply app_nil_r].
Qed.
(** The specification as a list filter. *)
Lemma spec_read_eq h q start bw limit :
  spec_read h q start bw limit =
  cut limit (dir bw (List.filter (fun e => kept start bw (fst e) && match q with [] => true | _ => matches_item q (snd e) end) h)).
Proof.
  unfold spec_read. rewrite (sfilter_filter (fun e => in_range start bw e.1 /\ q_matches q e.2)); [reflexivity|].
  intros e _. rewrite andb_true_iff, kept_in_range. unfold q_matches. destruct q as [|it q].
  - split; intros [H _]; auto.
  - rewrite matches_item_ok. split; intros [H1 H2]; split; auto. destruct H2 as [H2|H2]; [discriminate|exact H2].
Qed.

(** The index loop. *)
Definition matching_items (q : query) (g : group) : list nat :=
  List.filter (fun i => match q !! i with Some it => subset_tags (qi_tags it) g.1.2 | None => false end) g.2.
Definition hit (lookup : N -> res event_record) (q : query) (g : group) : option seq_event :=
  match lookup g.1.1 with
  | Ok r => if check_match q (matching_items q g) r then Some (g.1.1, r) else None
  | Err _ => None
  end.
Lemma index_loop_ok lookup q limit : forall gs out, limit_reached limit out = false ->
  (forall g, g ∈ gs -> exists r, lookup g.1.1 = Ok r) ->
  index_loop lookup q limit gs out = Ok (cut limit (out ++ omap (hit lookup q) gs)).
Proof.
  induction gs as [|[[pos tags] qiis] gs IH]; intros out Hl Hlk; cbn [index_loop omap list_omap].
  - now rewrite app_nil_r, limit_reached_false.
  - destruct (Hlk (pos, tags, qiis) ltac:(now left)) as [r Hr]. cbn [fst snd] in Hr.
    assert (Hlk' : forall g, g ∈ gs -> exists r, lookup g.1.1 = Ok r) by (intros; apply Hlk; now right).
    cbv zeta. unfold hit at 1. cbn [fst snd]. rewrite Hr.
    change (List.filter _ qiis) with (matching_items q (pos, tags, qiis)).
    destruct (matching_items q (pos, tags, qiis)) as [|i m] eqn:Em.
    + cbn [check_match existsb]. now apply IH.
    + cbn [rbind]. destruct (check_match q (i :: m) r); [|now apply IH].
      destruct (limit_reached limit (out ++ [(pos, r)])) eqn:E.
      * change ((pos, r) :: ?x) with ([(pos, r)] ++ x). rewrite (limit_reached_true _ _ _ E).
        f_equal. unfold limit_reached, cut, nlen in *. destruct limit as [k|]; [|discriminate].
        apply N.leb_gt in Hl. apply N.leb_le in E. rewrite app_length in E. cbn in E. rewrite take_ge; [reflexivity|rewrite app_length; cbn; lia].
      * rewrite IH by assumption. now rewrite <- app_assoc.
Qed.

Lemma hit_pos lookup q g x : hit lookup q g = Some x -> fst x = g.1.1.
Proof. unfold hit. destruct (lookup g.1.1); [|discriminate]. destruct (check_match _ _ _); [|discriminate]. now intros [= <-]. Qed.

Lemma ss_rev {A} (R : A -> A -> Prop) l : StronglySorted R l -> StronglySorted (flip R) (rev l).
Proof.
  induction 1 as [|x l Hs IH Hf]; cbn [rev]; [constructor|]. apply ss_app. split; [exact IH|]. split; [repeat constructor|].
  intros a b Ha Hb. apply elem_of_list_singleton in Hb as ->. rewrite Forall_forall in Hf. apply Hf.
  apply elem_of_list_In. apply elem_of_list_In in Ha. now apply in_rev.
Qed.
Lemma ss_map_inv {A B} (R : B -> B -> Prop) (f : A -> B) l : StronglySorted R (map f l) -> StronglySorted (fun a b => R (f a) (f b)) l.
Proof.
  induction l as [|x l IH]; cbn [map]; intros H; [constructor|]. inversion H as [|? ? Hs Hf]; subst. constructor; [auto|].
  now rewrite Forall_map in Hf.
Qed.
Lemma subset_tags_ok tags present : subset_tags tags present = true <-> forall t, t ∈ tags -> t ∈ present.
Proof.
  unfold subset_tags. rewrite forallb_forall. split; intros H t Ht.
  - specialize (H t ltac:(now apply elem_of_list_In)). apply existsb_exists in H as (t' & Ht' & E). apply bool_decide_eq_true in E as ->. now apply elem_of_list_In.
  - apply existsb_exists. exists t. split; [|now apply bool_decide_eq_true]. apply elem_of_list_In, H. now apply elem_of_list_In.
Qed.
Lemma tag_qiids_ok q t i : i ∈ tag_qiids q t <-> exists it, q !! i = Some it /\ t ∈ qi_tags it.
Proof.
  unfold tag_qiids. rewrite elem_of_list_omap. split.
  - intros ([j it] & Hin & H). apply elem_of_list_lookup in Hin as [k Hk]. apply lookup_zip_with_Some in Hk as (x & y & [= -> ->] & H1 & H2).
    apply lookup_seq in H1 as [-> _]. cbn in *. destruct (existsb _ _) eqn:E; [|discriminate]. injection H as <-.
    exists y. split; [exact H2|]. apply existsb_exists in E as (t' & Ht' & E). apply bool_decide_eq_true in E as ->. now apply elem_of_list_In.
  - intros (it & Hi & Ht). exists (i, it). split.
    + apply elem_of_list_lookup. exists i. apply lookup_zip_with_Some. exists i, it. split; [reflexivity|]. split; [|exact Hi].
      apply lookup_seq. apply lookup_lt_Some in Hi. lia.
    + rewrite (proj2 (existsb_exists _ _)); [reflexivity|]. exists t. split; [now apply elem_of_list_In|]. now apply bool_decide_eq_true.
Qed.

(** ** The tree of events and the tag index *)
Definition indexed (hash : bytes -> bytes) (es : list tags_entry) (hist : list seq_event) : Prop :=
  forall x p, p ∈ idx es x <-> exists r t, (p, r) ∈ hist /\ t ∈ er_tags r /\ hash t = x.
Definition hist_rep (kw : nat) (ps : N) (hash : bytes -> bytes) (get : N -> option node) (er tr : N)
  (PE PT : list N) (hist : list seq_event) : Prop :=
  (exists h ts, shape ev_ops evleaf get h er PE ts /\ tsorted N.compare fst ts /\ sep_ok fst ts /\ toks_es ts = hist) /\
  (exists h ts, shape (tags_ops []) (tagsleaf kw ps) get h tr PT ts /\ tags_sorted ts /\ indexed hash (toks_es ts) hist).

Lemma nodup_bound (P : list N) np : NoDup P -> (forall p, p ∈ P -> (N.to_nat p < np)%nat) -> (length P <= np)%nat.
Proof.
  intros Hnd Hb. assert (P ⊆+ map N.of_nat (seq 0 np)) as H.
  { apply NoDup_submseteq; [exact Hnd|]. intros p Hp. apply elem_of_list_fmap. exists (N.to_nat p). split; [lia|].
    apply elem_of_seq. specialize (Hb p Hp). lia. }
  apply submseteq_length in H. now rewrite map_length, seq_length in H.
Qed.

Section read.
  Context (kw : nat) (ps : N) (hash : bytes -> bytes) (order : list bytes -> list bytes).
  Context (Hord : forall l t, t ∈ order l <-> t ∈ l).
  Context (get : N -> option node) (pg : snapshot) (np : nat) (er tr : N) (PE PT : list N) (hist : list seq_event).
  Context (Hrep : hist_rep kw ps hash get er tr PE PT hist).
  Context (HaE : agrees get pg PE) (HaT : agrees get pg PT) (HndE : NoDup PE) (HndT : NoDup PT).
  Context (HbE : forall p, p ∈ PE -> (N.to_nat p < np)%nat) (HbT : forall p, p ∈ PT -> (N.to_nat p < np)%nat).
  Context (Hpos : forall e, e ∈ hist -> 0 < fst e).

  Lemma hist_sorted : StronglySorted (clt N.compare) (map fst hist).
  Proof. destruct Hrep as [(h & ts & _ & Hs & _ & E) _]. apply tsorted_es in Hs. now rewrite E in Hs. Qed.

  Lemma scan_ok bs limit keep start bw : 0 < bs -> limit <> Some 0 ->
    scan_loop (S (scan_fuel pg np)) (ei_next_batch np pg start bw (scan_fuel pg np) bs) limit keep [(er, None)] [] =
    Ok (cut limit (dir bw (List.filter (fun e => kept start bw (fst e) && keep (snd e)) hist))).
  Proof.
    intros Hbs Hlim. pose proof (nodup_bound _ _ HndE HbE) as HL.
    assert (Hl0 : limit_reached limit (@nil seq_event) = false).
    { unfold limit_reached. destruct limit as [k|]; [|reflexivity]. apply N.leb_gt. unfold nlen. cbn. destruct k; [congruence|lia]. }
    destruct (bw && match start with Some 0 => true | _ => false end) eqn:E0.
    - cbn [scan_loop]. unfold ei_next_batch. rewrite (proj2 (N.eqb_neq bs 0)) by lia. rewrite E0. cbn [rbind].
      apply andb_true_iff in E0 as [-> E0]. destruct start as [[|]|]; try discriminate.
      rewrite filter_all_false; [unfold cut; cbn [dir rev]; destruct limit; [now rewrite take_nil|reflexivity]|].
      intros e He. specialize (Hpos e He). cbn. rewrite (proj2 (N.leb_gt _ _)) by lia. reflexivity.
    - destruct Hrep as [(h & ts & Hs & Hsrt & Hsep & Eh) _].
      destruct (event_runs get pg start bw np PE HaE HL h er ts Hs Hsrt Hsep) as (m & Hm & Hrun).
      pose proof (scan_fuel_bound pg np PE HndE HbE) as Hsf. rewrite Eh in Hrun.
      rewrite (scan_loop_ok np pg start bw (scan_fuel pg np) bs limit keep Hbs E0 _ _ _ m [] Hrun); [|lia| |exact Hl0].
      + cbn [app]. rewrite filter_dir, filter_filter. reflexivity.
      + assert (length (dir bw (List.filter (fun e => kept start bw e.1) hist)) <= m)%nat; [|lia].
        clear -Hrun. remember [] as st' eqn:E. clear E. induction Hrun as [|it st out push l st' m Hs Hr IH]; [cbn; lia|].
        apply ei_step_one in Hs. rewrite app_length. lia.
  Qed.

  Lemma lookup_event_ok pos r : (pos, r) ∈ hist -> event_tree_lookup np np pg er pos = Ok r.
  Proof.
    intros Hin. pose proof hist_sorted as Hsrt0. pose proof (nodup_bound _ _ HndE HbE) as HL.
    destruct Hrep as [(h & ts & Hs & Hsrt & Hsep & Eh) _].
    destruct (shape_height _ _ _ _ _ _ _ Hs) as (h' & Hh & Hs').
    rewrite (event_tree_lookup_ok get pg pos np np h' er PE ts Hs' Hsrt HaE ltac:(lia) HL), Eh.
    rewrite (alookup_nodup hist pos r (clt_nodup _ Hsrt0) Hin). reflexivity.
  Qed.

  Theorem read_conditional_ok q start bw limit force :
    read_conditional pg np hash order er tr q start bw limit force = Ok (spec_read hist q start bw limit).
  Proof.
    rewrite spec_read_eq. unfold read_conditional.
    assert (Hlim : limit = Some 0 \/ limit <> Some 0) by (destruct limit as [[|]|]; auto; right; discriminate).
    destruct Hlim as [->|Hlim]; [reflexivity|].
    assert (Hl0 : limit_reached limit (@nil seq_event) = false).
    { unfold limit_reached. destruct limit as [k|]; [|reflexivity]. apply N.leb_gt. unfold nlen. cbn. destruct k; [congruence|lia]. }
    match goal with |- match limit with Some _ => _ | None => ?x end = _ => enough (H : x = Ok (cut limit (dir bw (List.filter (fun e => kept start bw (fst e) && match q with [] => true | _ => matches_item q (snd e) end) hist))))
      by (destruct limit as [[|]|]; [congruence|exact H..]) end.
    cbv zeta. destruct q as [|it0 q0] eqn:Eq.
    { apply (scan_ok _ limit (fun _ => true)); [|exact Hlim]. destruct limit as [[|]|]; [congruence|lia|reflexivity]. }
    rewrite <- Eq. destruct (negb _ || force) eqn:Eseq.
    { rewrite (scan_ok _ limit (matches_item q) start bw); [rewrite Eq; reflexivity|reflexivity|exact Hlim]. }
    apply orb_false_iff in Eseq as [Eseq _]. apply negb_false_iff in Eseq.
    assert (Hne : forall it, it ∈ q -> qi_tags it <> []).
    { intros it Hit. rewrite forallb_forall in Eseq. specialize (Eseq it ltac:(now apply elem_of_list_In)). destruct (qi_tags it); [discriminate|congruence]. }
    set (tags := order (concat (map qi_tags q))).
    set (tp := fun t => tag_positions pg start bw (scan_fuel pg np) np tr (hash t)).
    set (lists := map (fun t => map (fun p => (p, t, tag_qiids q t)) (tp t)) tags).
    destruct (Hrep) as [_ (h & ts & Hs & Hsrt & Hidx)].
    destruct (shape_height _ _ _ _ _ _ _ Hs) as (h' & Hh & Hs'). pose proof (nodup_bound _ _ HndT HbT) as HL.
    assert (Htp : forall t, lists_positions start bw (idx (toks_es ts) (hash t)) (tp t)).
    { intros t. apply (tag_positions_ok kw ps get pg start bw h' tr PT ts (hash t) np Hs' Hsrt HaT ltac:(lia) HndT HbT). }
    assert (Hsorted_idx : forall x, StronglySorted N.le (idx (toks_es ts) x)).
    { intros x. pose proof (ti_find_ok kw ps get pg x np h' tr PT ts Hs' Hsrt HaT ltac:(lia)) as Hf. unfold idx.
      destruct (ti_find pg np tr x) as [v|]; [|rewrite Hf; constructor]. destruct Hf as (Pv & l & -> & [Hl _] & _). exact (proj1 Hl). }
    assert (Hkept : forall t p, p ∈ tp t <-> p ∈ idx (toks_es ts) (hash t) /\ kept start bw p = true).
    { intros t p. destruct (Htp t) as [Hsub Hcov]. split; [|intros [? ?]; auto].
      intros Hp. eapply elem_of_submseteq in Hp; [|apply sublist_submseteq; exact Hsub]. now apply elem_of_dir, filter_elem in Hp. }
    assert (Hls : Forall (StronglySorted (tle bw)) lists).
    { apply Forall_map, Forall_forall. intros t _. apply (ss_map (ple bw)); [auto|].
      destruct (Htp t) as [Hsub _]. eapply ssorted_sublist; [exact Hsub|].
      assert (Hf : StronglySorted N.le (List.filter (kept start bw) (idx (toks_es ts) (hash t)))) by (eapply ssorted_sublist; [apply filter_sublist|auto]).
      revert Hf. generalize (List.filter (kept start bw) (idx (toks_es ts) (hash t))). intros l Hf. destruct bw; [|exact Hf]. unfold dir. apply ss_rev in Hf. exact Hf. }
    destruct (kmerge_ok bw (length (concat lists)) lists (le_n _) Hls) as [Hperm Hmsrt].
    set (merged := kmerge (length (concat lists)) bw lists) in *.
    destruct (groups_ok bw merged Hmsrt) as (G1 & G2 & G3 & G4).
    assert (Hmem : forall p t Q, (p, t, Q) ∈ merged <-> t ∈ tags /\ p ∈ tp t /\ Q = tag_qiids q t).
    { intros p t Q. rewrite Hperm. split.
      - intros Hc. apply elem_of_list_In, in_concat in Hc as (l & Hl & Hin). apply in_map_iff in Hl as (t' & <- & Ht'). apply in_map_iff in Hin as (p' & [= -> -> <-] & Hp').
        rewrite !elem_of_list_In. auto.
      - intros (Ht & Hp & ->). apply elem_of_list_In, in_concat. eexists. split; [apply in_map_iff; exists t; split; [reflexivity|now apply elem_of_list_In]|].
        apply in_map_iff. exists p. split; [reflexivity|now apply elem_of_list_In]. }
    assert (Hrec : forall t p, p ∈ tp t -> exists r, (p, r) ∈ hist).
    { intros t p Hp. apply Hkept in Hp as [Hp _]. apply Hidx in Hp as (r & _ & Hr & _). eauto. }
    rewrite index_loop_ok; [|exact Hl0|].
    2: { intros g Hg. destruct (G4 g Hg) as ([[p t] Q] & Ha & Ea). cbn in Ea. apply Hmem in Ha as (_ & Hp & _).
         destruct (Hrec t p Hp) as [r Hr]. exists r. rewrite <- Ea. now apply lookup_event_ok. }
    cbn [app]. do 2 f_equal.
    apply (sorted_ext (fun a b => plt bw (fst a) (fst b))).
    - intros a. destruct bw; cbn; lia.
    - intros a b. destruct bw; cbn; lia.
    - apply ss_map_inv in G1. eapply ss_omap; [|exact G1]. intros g1 g2 x y Hlt H1 H2.
      rewrite (hit_pos _ _ _ _ H1), (hit_pos _ _ _ _ H2). exact Hlt.
    - pose proof hist_sorted as Hh0. apply ss_map_inv in Hh0.
      eapply ssorted_sublist in Hh0; [|apply (filter_sublist (fun e => kept start bw e.1 && matches_item q e.2))].
      destruct bw; unfold dir; [apply ss_rev in Hh0|]; (eapply ss_impl_in; [|exact Hh0]); unfold clt, flip; cbn; intros a b _ _; apply N.compare_lt_iff.
    - intros [p r]. rewrite elem_of_dir, filter_elem. cbn [fst snd]. rewrite andb_true_iff.
      rewrite elem_of_list_omap. split.
      + intros ([[p' T] Q] & Hg & Hh'). unfold hit in Hh'. cbn [fst] in Hh'.
        destruct (G4 _ Hg) as ([[p2 t] Q2] & Ha & Ea). cbn [fst snd] in Ea. subst p2. apply Hmem in Ha as (_ & Hp & _).
        destruct (Hrec t p' Hp) as [r' Hr']. rewrite (lookup_event_ok p' r' Hr') in Hh'.
        destruct (check_match q _ r') eqn:Ec; [|discriminate]. injection Hh' as -> ->.
        split; [exact Hr'|]. split; [now apply Hkept in Hp|].
        unfold check_match in Ec. apply existsb_exists in Ec as (i & _ & Hi). destruct (q !! i) as [it|] eqn:Ei; [|discriminate].
        apply matches_item_ok. apply matches_item_ok in Hi. apply Exists_exists. exists it.
        split; [eapply elem_of_list_lookup_2; exact Ei|]. apply Exists_exists in Hi as (it' & Hin & H). apply elem_of_list_singleton in Hin as ->. exact H.
      + intros (Hr & Hk & Hm). apply matches_item_ok in Hm. apply Exists_exists in Hm as (it & Hit & Hmt).
        apply elem_of_list_lookup in Hit as [i Hi].
        assert (Hall : forall t, t ∈ qi_tags it -> (p, t, tag_qiids q t) ∈ merged).
        { intros t Ht. apply Hmem. split; [|split; [|reflexivity]].
          - apply Hord. apply elem_of_list_In, in_concat. exists (qi_tags it). split; [|now apply elem_of_list_In].
            apply in_map, elem_of_list_In. eapply elem_of_list_lookup_2; exact Hi.
          - apply Hkept. split; [|exact Hk]. apply Hidx. exists r, t. split; [exact Hr|]. split; [|reflexivity].
            destruct Hmt as [_ Hmt]. rewrite Forall_forall in Hmt. now apply Hmt. }
        assert (Hne' : qi_tags it <> []) by (apply Hne; eapply elem_of_list_lookup_2; exact Hi).
        destruct (qi_tags it) as [|t0 tl] eqn:Et; [congruence|]. rewrite <- Et in *.
        assert (Ht0 : t0 ∈ qi_tags it) by (rewrite Et; now left).
        destruct (G3 _ (Hall t0 Ht0)) as (g & Hg & Eg). cbn [fst] in Eg. exists g. split; [exact Hg|].
        unfold hit. rewrite Eg, (lookup_event_ok p r Hr). destruct (G2 g Hg) as [GT GQ]. rewrite Eg in GT, GQ.
        unfold check_match. rewrite (proj2 (existsb_exists _ _)); [reflexivity|]. exists i. rewrite Hi. split.
        * apply filter_In. rewrite Hi. split.
          -- apply elem_of_list_In, GQ. exists t0, (tag_qiids q t0). split; [now apply Hall|]. apply tag_qiids_ok. eauto.
          -- apply subset_tags_ok. intros t Ht. apply GT. exists (tag_qiids q t). now apply Hall.
        * apply matches_item_ok. now constructor.
  Qed.
End read.
