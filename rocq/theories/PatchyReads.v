(** What reads give when pages cannot be read: with a scan, the answer or an error; by the tag index also a part of the answer. *)
From Verif Require Export SpecPatchy Patchy PageReadsProofs MergeProofs ReadProofs.
Local Open Scope N_scope.

Lemma may_once {A} rd (t : prog A) : may rd t (at_once rd t).
Proof. induction t as [a|q k IH]; cbn; [reflexivity|left; apply IH]. Qed.
Lemma may_bind {A B} rd (t : prog A) (f : A -> prog B) b : may rd (pbind t f) b <-> exists a, may rd t a /\ may rd (f a) b.
Proof.
  induction t as [a|q k IH]; cbn.
  - split; [eauto|]. now intros (? & -> & ?).
  - rewrite IH. split.
    + intros [(a & H1 & H2)|(e & H)]; [exists a; auto|]. apply IH in H as (a & H1 & H2). exists a. split; [right; eauto|exact H2].
    + intros (a & [H1|(e & H1)] & H2); [left; eauto|]. right. exists e. apply IH. eauto.
Qed.

(** ** Programs that pass every error on *)
Fixpoint fails {A} (t : prog (res A)) : Prop := match t with Ret (Err _) => True | Ret (Ok _) => False | Ask _ k => forall r, fails (k r) end.
Fixpoint strict {A} (t : prog (res A)) : Prop :=
  match t with Ret _ => True | Ask _ k => (forall r, strict (k r)) /\ forall e, fails (k (Err e)) end.
Lemma fails_may {A} rd (t : prog (res A)) a : fails t -> ~ may rd t (Ok a).
Proof.
  revert a. induction t as [r|q k IH]; intros a; cbn.
  - destruct r; [contradiction|]. now intros _ ?.
  - intros H [H'|(e & H')]; eapply IH; eauto.
Qed.
Lemma strict_may {A} rd (t : prog (res A)) a : strict t -> may rd t (Ok a) -> at_once rd t = Ok a.
Proof.
  revert a. induction t as [r|q k IH]; intros a; cbn; [now intros _ ->|].
  intros [H1 H2] [H|(e & H)]; [now apply IH|]. destruct (fails_may rd _ _ (H2 e) H).
Qed.
Lemma fails_pq {A B} (t : prog (res A)) (f : A -> prog (res B)) : fails t -> fails (pq t f).
Proof. induction t as [r|q k IH]; cbn; [destruct r; [contradiction|cbn; auto]|]. intros H r. now apply IH. Qed.
Lemma strict_pq {A B} (t : prog (res A)) (f : A -> prog (res B)) : strict t -> (forall a, strict (f a)) -> strict (pq t f).
Proof.
  intros Ht Hf. induction t as [r|q k IH]; cbn; [destruct r; [apply Hf|exact I]|]. destruct Ht as [H1 H2].
  split; [intros r; apply IH, H1|]. intros e. apply fails_pq, H2.
Qed.
Lemma page_strict q : strict (page q). Proof. cbn. auto. Qed.

Ltac st := repeat (first [apply strict_pq; [|intros]|apply page_strict|exact I]).
Lemma chain_strict fuel p : strict (chain_prog fuel p).
Proof.
  revert p. induction fuel as [|fuel IH]; intros p; cbn [chain_prog]; (destruct (p =? 0); [exact I|]); [exact I|].
  apply strict_pq; [apply page_strict|]. intros n. destruct n; try exact I. apply strict_pq; [apply IH|intros; exact I].
Qed.
Lemma materialize_strict fuel v : strict (materialize_prog fuel v).
Proof. destruct v; [exact I|]. cbn [materialize_prog]. apply strict_pq; [apply chain_strict|]. intros; exact I. Qed.
Lemma event_lookup_strict fuel cfuel p pos : strict (event_lookup_prog fuel cfuel p pos).
Proof.
  revert p. induction fuel as [|fuel IH]; intros p; [exact I|]. cbn [event_lookup_prog]. apply strict_pq; [apply page_strict|].
  intros n. destruct n; try exact I.
  - destruct (bs_N _ _); [|exact I]. destruct (ev_values _ !! _); [apply materialize_strict|exact I].
  - destruct (in_children _ !! _); [apply IH|exact I].
Qed.
Lemma tracking_lookup_strict fuel p src : strict (tracking_lookup_prog fuel p src).
Proof.
  revert p. induction fuel as [|fuel IH]; intros p; [exact I|]. cbn [tracking_lookup_prog]. apply strict_pq; [apply page_strict|].
  intros n. destruct n; try exact I. destruct (in_children _ !! _); [apply IH|exact I].
Qed.
Lemma tracking_strict fuel root src : strict (tracking_prog fuel root src).
Proof. unfold tracking_prog. destruct (root =? 0); [exact I|apply tracking_lookup_strict]. Qed.
Lemma ei_step_strict cfuel start bw it : strict (ei_step_prog cfuel start bw it).
Proof.
  destruct it as [p oi]. cbn [ei_step_prog]. apply strict_pq; [apply page_strict|]. intros n. destruct n as [| | |l|nd| | | | | | | | |]; try exact I.
  - destruct (match oi with Some i => Some i | None => first_value start bw l end); [|exact I].
    destruct (ev_values _ !! _); [|exact I]. destruct (ev_keys _ !! _); [|exact I]. apply strict_pq; [apply materialize_strict|intros; exact I].
  - destruct (match oi with Some i => Some i | None => _ end); [|exact I]. destruct (in_children _ !! _); exact I.
Qed.
Lemma ei_loop_strict cfuel start bw fuel room st : strict (ei_loop_prog cfuel start bw fuel room st).
Proof.
  revert room st. induction fuel as [|fuel IH]; intros room st; cbn [ei_loop_prog]; destruct room; try exact I; destruct st; try exact I.
  apply strict_pq; [apply ei_step_strict|]. intros [out push]. apply strict_pq; [apply IH|]. intros [rest st']. exact I.
Qed.
Lemma ei_next_strict cfuel start bw fuel bs st : strict (ei_next_prog cfuel start bw fuel bs st).
Proof. unfold ei_next_prog. destruct (bs =? 0); [exact I|]. destruct (bw && _); [exact I|apply ei_loop_strict]. Qed.
Lemma ti_step_strict start bw it : strict (ti_step_prog start bw it).
Proof. destruct it as [p oi]. cbn [ti_step_prog]. apply strict_pq; [apply page_strict|]. intros n. destruct n; try exact I. destruct (in_children _ !! _); exact I. Qed.
Lemma scan_strict fuel next limit keep st out : (forall st, strict (next st)) -> strict (scan_prog fuel next limit keep st out).
Proof.
  intros H. revert st out. induction fuel as [|fuel IH]; intros st out; [exact I|]. cbn [scan_prog]. apply strict_pq; [apply H|].
  intros [batch st']. destruct batch; [exact I|]. destruct (push_batch _ _ _ _) as [out' stop]. destruct stop; [exact I|apply IH].
Qed.
Lemma index_strict lookup q limit gs out : (forall pos, strict (lookup pos)) -> strict (index_prog lookup q limit gs out).
Proof.
  intros H. revert out. induction gs as [|[[pos tags] qiis] gs IH]; intros out; [exact I|]. cbn [index_prog]. cbv zeta.
  destruct (List.filter _ qiis); [apply IH|]. apply strict_pq; [apply H|]. intros r. destruct (check_match _ _ _); [|apply IH].
  destruct (limit_reached _ _); [exact I|apply IH].
Qed.

(** ** The tag index: a failure looks like the end *)
Section lists.
  Context (rd : snapshot).
  Lemma ti_loop_may start bw fuel st l : may rd (ti_loop_prog start bw fuel st) l -> l `prefix_of` ti_loop rd start bw fuel st.
  Proof.
    revert st l. induction fuel as [|fuel IH]; intros st l; cbn [ti_loop_prog ti_loop]; destruct st as [|it st]; try (intros ->; apply prefix_nil).
    intros H. apply may_bind in H as (r & H1 & H2). destruct r as [[out push]|e]; [|cbn in H2; subst; apply prefix_nil].
    apply strict_may in H1; [|apply ti_step_strict]. rewrite ti_step_once in H1. rewrite H1.
    apply may_bind in H2 as (rest & H2 & H3). cbn in H3. subst l. apply prefix_app. now apply IH.
  Qed.
  Lemma ti_find_may fuel p tag v : may rd (ti_find_prog fuel p tag) v -> v = None \/ v = ti_find rd fuel p tag.
  Proof.
    revert p. induction fuel as [|fuel IH]; intros p; cbn [ti_find_prog ti_find]; [now left|].
    intros H. apply may_bind in H as (r & H1 & H2). destruct r as [n|e]; [|left; exact H2].
    apply strict_may in H1; [|apply page_strict]. cbn in H1. rewrite H1.
    destruct n; try (left; exact H2); [right; exact H2|]. destruct (in_children _ !! _); [now apply IH|left; exact H2].
  Qed.
  Lemma tag_positions_may start bw fuel np root tag l : may rd (tag_positions_prog start bw fuel np root tag) l ->
    l `prefix_of` tag_positions rd start bw fuel np root tag.
  Proof.
    unfold tag_positions_prog, tag_positions. intros H. apply may_bind in H as (v & H1 & H2).
    apply ti_find_may in H1 as [->| ->]; [cbn in H2; subst; apply prefix_nil|].
    destruct (ti_find rd np root tag) as [v|]; [|cbn in H2; subst; apply prefix_nil].
    destruct (tv_root v =? 0); [cbn in H2; subst; reflexivity|now apply ti_loop_may].
  Qed.
  Lemma map_may {A B} (f : A -> prog B) (R : A -> B -> Prop) l bs : (forall a b, may rd (f a) b -> R a b) -> may rd (map_prog f l) bs -> Forall2 R l bs.
  Proof.
    intros HR. revert bs. induction l as [|a l IH]; intros bs; cbn [map_prog]; [now intros ->|].
    intros H. apply may_bind in H as (b & H1 & H2). apply may_bind in H2 as (bs' & H2 & H3). cbn in H3. subst. constructor; auto.
  Qed.
End lists.

Lemma sorted_sublist {A} (R : A -> A -> Prop) : (forall a, ~ R a a) -> (forall a b, R a b -> R b a -> False) -> forall l l',
  StronglySorted R l -> StronglySorted R l' -> (forall a, a ∈ l -> a ∈ l') -> l `sublist_of` l'.
Proof.
  intros Hi Ha l l' Hl Hl'. revert l Hl. induction Hl' as [|b l' Hl' IH Hb]; intros l Hl Hin.
  - destruct l as [|a l]; [constructor|]. specialize (Hin a ltac:(now left)). now apply elem_of_nil in Hin.
  - destruct l as [|a l]; [apply sublist_nil_l|]. inversion Hl as [|? ? Hl2 Hf]; subst. rewrite Forall_forall in Hb, Hf.
    destruct (proj1 (elem_of_cons _ _ _) (Hin a ltac:(now left))) as [->|Hal].
    + apply sublist_skip. apply IH; [exact Hl2|]. intros x Hx. destruct (proj1 (elem_of_cons _ _ _) (Hin x ltac:(now right))) as [->|H]; [|exact H].
      destruct (Hi b). now apply Hf.
    + apply sublist_cons. apply IH; [exact Hl|]. intros x Hx. destruct (proj1 (elem_of_cons _ _ _) (Hin x Hx)) as [->|H]; [|exact H].
      apply elem_of_cons in Hx as [->|Hx]; [exact Hal|]. destruct (Ha a b); auto.
Qed.

(** ** Reads *)
Lemma cut_within limit (l : list seq_event) : match limit with Some k => nlen (cut limit l) <= k | None => True end.
Proof. unfold cut. destruct limit; [|exact I]. unfold nlen. rewrite take_length. lia. Qed.
Lemma cut_sublist {A} limit (l : list A) : cut limit l `sublist_of` l.
Proof. unfold cut. destruct limit; [apply sublist_take|reflexivity]. Qed.

Section read.
  Context (kw : nat) (ps : N) (hash : bytes -> bytes) (order : list bytes -> list bytes).
  Context (Hord : forall l t, t ∈ order l <-> t ∈ l).
  Context (get : N -> option node) (pg : snapshot) (np : nat) (er tr : N) (PE PT : list N) (hist : list seq_event).
  Context (Hrep : hist_rep kw ps hash get er tr PE PT hist).
  Context (HaE : agrees get pg PE) (HaT : agrees get pg PT) (HndE : NoDup PE) (HndT : NoDup PT).
  Context (HbE : forall p, p ∈ PE -> (N.to_nat p < np)%nat) (HbT : forall p, p ∈ PT -> (N.to_nat p < np)%nat).
  Context (Hpos : forall e, e ∈ hist -> 0 < fst e).

  Theorem read_conditional_may q start bw limit force evs :
    may pg (read_conditional_prog (scan_fuel pg np) np hash order er tr q start bw limit force) (Ok evs) ->
    part hist q start bw limit evs.
  Proof.
    intros H. pose proof (read_conditional_once pg np hash order er tr q start bw limit force) as Honce.
    rewrite (read_conditional_ok kw ps hash order Hord get pg np er tr PE PT hist) in Honce by assumption.
    assert (Hex : forall t, strict t -> t = read_conditional_prog (scan_fuel pg np) np hash order er tr q start bw limit force -> evs = spec_read hist q start bw limit).
    { intros t Ht ->. apply strict_may in H; [|exact Ht]. rewrite H in Honce. now injection Honce. }
    unfold read_conditional_prog in *. cbv zeta in *.
    assert (Hlim : limit = Some 0 \/ limit <> Some 0) by (destruct limit as [[|]|]; auto; right; discriminate).
    destruct Hlim as [->|Hlim]; [left; eapply Hex; [|reflexivity]; exact I|].
    assert (Hl0 : limit_reached limit (@nil seq_event) = false).
    { unfold limit_reached. destruct limit as [k|]; [|reflexivity]. apply N.leb_gt. unfold nlen. cbn. destruct k; [congruence|lia]. }
    destruct q as [|it0 q0] eqn:Eq.
    { left. eapply Hex; [|reflexivity]. destruct limit as [[|]|]; try exact I; apply scan_strict; intros; apply ei_next_strict. }
    rewrite <- Eq in *. destruct (negb _ || force) eqn:Eseq.
    { left. eapply Hex; [|reflexivity]. rewrite Eq. destruct limit as [[|]|]; try exact I; apply scan_strict; intros; apply ei_next_strict. }
    right. apply orb_false_iff in Eseq as [Eseq _]. apply negb_false_iff in Eseq. clear Hex Honce.
    split.
    { split; [rewrite Eq; discriminate|]. intros it Hit E. rewrite forallb_forall in Eseq.
      specialize (Eseq it ltac:(now apply elem_of_list_In)). now rewrite E in Eseq. }
    set (tags := order (concat (map qi_tags q))) in *.
    set (tp := fun t => tag_positions pg start bw (scan_fuel pg np) np tr (hash t)).
    assert (Hm : exists lists, Forall2 (fun t l => exists l', l' `prefix_of` tp t /\ l = map (fun p => (p, t, tag_qiids q t)) l') tags lists /\
      may pg (index_prog (event_lookup_prog np np er) q limit (group_from None (kmerge (length (concat lists)) bw lists)) []) (Ok evs)).
    { assert (Hm : may pg (pbind (map_prog (fun t => pbind (tag_positions_prog start bw (scan_fuel pg np) np tr (hash t))
          (fun l => Ret (map (fun p => (p, t, tag_qiids q t)) l))) tags)
          (fun lists => index_prog (event_lookup_prog np np er) q limit (group_from None (kmerge (length (concat lists)) bw lists)) [])) (Ok evs)).
      { rewrite Eq in H. destruct limit as [[|]|]; [congruence|..]; rewrite <- Eq in H; exact H. }
      apply may_bind in Hm as (lists & H1 & H2). exists lists. split; [|exact H2].
      eapply map_may; [|exact H1]. cbv beta. intros t l Hl. apply may_bind in Hl as (l' & Hl & E). cbn in E. exists l'. split; [|exact E].
      now apply tag_positions_may in Hl. }
    clear H. destruct Hm as (lists & Hlists & Hm). apply strict_may in Hm; [|apply index_strict; intros; apply event_lookup_strict].
    rewrite (index_once pg _ (event_tree_lookup np np pg er)) in Hm by (intros; apply event_lookup_once).
    destruct (Hrep) as [_ (h & ts & Hs & Hsrt & Hidx)].
    destruct (shape_height _ _ _ _ _ _ _ Hs) as (h' & Hh & Hs'). pose proof (nodup_bound _ _ HndT HbT) as HL.
    assert (Htp : forall t, lists_positions start bw (idx (toks_es ts) (hash t)) (tp t)).
    { intros t. apply (tag_positions_ok kw ps get pg start bw h' tr PT ts (hash t) np Hs' Hsrt HaT ltac:(lia) HndT HbT). }
    assert (Hsorted_idx : forall x, StronglySorted N.le (idx (toks_es ts) x)).
    { intros x. pose proof (ti_find_ok kw ps get pg x np h' tr PT ts Hs' Hsrt HaT ltac:(lia)) as Hf. unfold idx.
      destruct (ti_find pg np tr x) as [v|]; [|rewrite Hf; constructor]. destruct Hf as (Pv & l & -> & [Hl _] & _). exact (proj1 Hl). }
    assert (Hkept : forall t p, p ∈ tp t -> p ∈ idx (toks_es ts) (hash t) /\ kept start bw p = true).
    { intros t p Hp. destruct (Htp t) as [Hsub _].
      eapply elem_of_submseteq in Hp; [|apply sublist_submseteq; exact Hsub]. now apply elem_of_dir, filter_elem in Hp. }
    assert (Hpre : forall l l' : list N, l `prefix_of` l' -> l `sublist_of` l').
    { intros l l' [x ->]. apply sublist_inserts_r. reflexivity. }
    assert (Hls : Forall (StronglySorted (tle bw)) lists).
    { apply Forall_forall. intros l Hl. apply elem_of_list_lookup in Hl as [i Hi].
      destruct (Forall2_lookup_r _ _ _ _ _ Hlists Hi) as (t & _ & l' & Hp & ->). apply (ss_map (ple bw)); [auto|].
      destruct (Htp t) as [Hsub _]. eapply ssorted_sublist; [apply Hpre; exact Hp|]. eapply ssorted_sublist; [exact Hsub|].
      assert (Hf : StronglySorted N.le (List.filter (kept start bw) (idx (toks_es ts) (hash t)))) by (eapply ssorted_sublist; [apply filter_sublist|auto]).
      revert Hf. generalize (List.filter (kept start bw) (idx (toks_es ts) (hash t))). intros l Hf. destruct bw; [|exact Hf]. unfold dir. apply ss_rev in Hf. exact Hf. }
    destruct (kmerge_ok bw (length (concat lists)) lists (le_n _) Hls) as [Hperm Hmsrt].
    set (merged := kmerge (length (concat lists)) bw lists) in *.
    destruct (groups_ok bw merged Hmsrt) as (G1 & _ & _ & G4).
    assert (Hmem : forall p t Q, (p, t, Q) ∈ merged -> p ∈ tp t).
    { intros p t Q Hc. rewrite Hperm in Hc. apply elem_of_list_In, in_concat in Hc as (l & Hl & Hin). apply elem_of_list_In, elem_of_list_lookup in Hl as [i Hi].
      destruct (Forall2_lookup_r _ _ _ _ _ Hlists Hi) as (t' & _ & l' & Hp & ->). apply in_map_iff in Hin as (p' & [= -> -> _] & Hp').
      eapply elem_of_submseteq; [apply elem_of_list_In; exact Hp'|]. apply sublist_submseteq, Hpre, Hp. }
    assert (Hrec : forall t p, p ∈ tp t -> exists r, (p, r) ∈ hist).
    { intros t p Hp. apply Hkept in Hp as [Hp _]. apply Hidx in Hp as (r & _ & Hr & _). eauto. }
    assert (Hlook : forall p r, (p, r) ∈ hist -> event_tree_lookup np np pg er p = Ok r).
    { intros p r. eapply lookup_event_ok; eassumption. }
    rewrite index_loop_ok in Hm; [|exact Hl0|].
    2: { intros g Hg. destruct (G4 g Hg) as ([[p t] Q] & Ha & Ea). cbn in Ea. apply Hmem in Ha.
         destruct (Hrec t p Ha) as [r Hr]. exists r. rewrite <- Ea. now apply Hlook. }
    cbn [app] in Hm. injection Hm as <-. split; [|apply cut_within]. etrans; [apply cut_sublist|].
    rewrite spec_read_eq. cbn [cut]. rewrite Eq. rewrite <- Eq.
    apply (sorted_sublist (fun a b => plt bw (fst a) (fst b))).
    - intros a. destruct bw; cbn; lia.
    - intros a b. destruct bw; cbn; lia.
    - apply ss_map_inv in G1. eapply ss_omap; [|exact G1]. intros g1 g2 x y Hlt H1 H2.
      rewrite (hit_pos _ _ _ _ H1), (hit_pos _ _ _ _ H2). exact Hlt.
    - assert (Hh0 : StronglySorted (clt N.compare) (map fst hist)) by (eapply hist_sorted; eassumption). apply ss_map_inv in Hh0.
      eapply ssorted_sublist in Hh0; [|apply (filter_sublist (fun e => kept start bw e.1 && matches_item q e.2))].
      destruct bw; unfold dir; [apply ss_rev in Hh0|]; (eapply ss_impl_in; [|exact Hh0]); unfold clt, flip; cbn; intros a b _ _; apply N.compare_lt_iff.
    - intros [p r]. rewrite elem_of_dir, filter_elem. cbn [fst snd]. rewrite andb_true_iff.
      rewrite elem_of_list_omap. intros ([[p' T] Q] & Hg & Hh'). unfold hit in Hh'. cbn [fst] in Hh'.
      destruct (G4 _ Hg) as ([[p2 t] Q2] & Ha & Ea). cbn [fst snd] in Ea. subst p2. apply Hmem in Ha.
      destruct (Hrec t p' Ha) as [r' Hr']. rewrite (Hlook p' r' Hr') in Hh'.
      destruct (check_match q _ r') eqn:Ec; [|discriminate]. injection Hh' as -> ->.
      split; [exact Hr'|]. split; [now apply Hkept in Ha|].
      unfold check_match in Ec. apply existsb_exists in Ec as (i & _ & Hi). destruct (q !! i) as [it|] eqn:Ei; [|discriminate].
      apply matches_item_ok. apply matches_item_ok in Hi. apply Exists_exists. exists it.
      split; [eapply elem_of_list_lookup_2; exact Ei|]. apply Exists_exists in Hi as (it' & Hin & Hm'). apply elem_of_list_singleton in Hin as ->. exact Hm'.
  Qed.
End read.
