(** Contract of [binary_search], and the child chosen by it. *)
From Verif Require Export CowTree.
Local Open Scope nat_scope.

Section bs.
  Context {A : Type} (f : A -> comparison).

  (** The slice is partitioned: first Less, then Equal, then Greater. *)
  Definition bs_mono (l : list A) : Prop :=
    forall i j a b, i <= j -> l !! i = Some a -> l !! j = Some b ->
      (f b = Lt -> f a = Lt) /\ (f a = Gt -> f b = Gt).

  Lemma bs_loop_inv : forall fuel l base size,
    bs_mono l -> size <= fuel -> 1 <= size -> base + size <= length l ->
    (base = 0 \/ exists a, l !! base = Some a /\ f a <> Gt) ->
    (forall j b, base + size <= j -> l !! j = Some b -> f b = Gt) ->
    let r := bs_loop f fuel l base size in
    r < length l /\ (r = 0 \/ exists a, l !! r = Some a /\ f a <> Gt) /\
    (forall j b, r < j -> l !! j = Some b -> f b = Gt).
  Proof.
    induction fuel as [|fuel IH]; intros l base size Hm Hs H1 Hlen Hb Hgt; [lia|]. cbn [bs_loop].
    destruct (Nat.leb_spec size 1) as [Hle|Hgt1].
    - split; [lia|]. split; [exact Hb|]. intros j b Hj. apply Hgt. lia.
    - cbv zeta. pose proof (Nat.div2_odd size) as Hod.
      assert (Hhalf : 1 <= Nat.div2 size /\ 2 * Nat.div2 size <= size /\ size <= 2 * Nat.div2 size + 1).
      { destruct (Nat.odd size); cbn [Nat.b2n] in Hod; lia. }
      set (half := Nat.div2 size) in *.
      assert (base + half < length l) as Hmid by lia.
      apply lookup_lt_is_Some in Hmid as [a Ha]. rewrite Ha.
      destruct (f a) eqn:Ef.
      + apply IH; try lia; [exact Hm|right; exists a; split; [exact Ha|congruence]|].
        intros j b Hj. apply Hgt. lia.
      + apply IH; try lia; [exact Hm|right; exists a; split; [exact Ha|congruence]|].
        intros j b Hj. apply Hgt. lia.
      + apply IH; try lia; [exact Hm|exact Hb|].
        intros j b Hj Hjb. destruct (Nat.le_gt_cases (base + size) j) as [H|H]; [eapply Hgt; eassumption|].
        apply (Hm (base + half) j a b); [lia|exact Ha|exact Hjb|exact Ef].
  Qed.

  Lemma binary_search_spec l : bs_mono l ->
    match binary_search f l with
    | inl i => exists a, l !! i = Some a /\ f a = Eq
    | inr i => i <= length l /\ (forall j a, j < i -> l !! j = Some a -> f a = Lt) /\
               (forall j a, i <= j -> l !! j = Some a -> f a = Gt)
    end.
  Proof.
    intros Hm. unfold binary_search. destruct l as [|x l'] eqn:El.
    { cbn. split; [lia|]. split; intros j a Hj Hja; [lia|]. now rewrite lookup_nil in Hja. }
    rewrite <- El in *. assert (1 <= length l) as Hlen by (rewrite El; cbn; lia). clear El x l'.
    destruct (bs_loop_inv (length l) l 0 (length l)) as (Hr & H0 & Hgt); try lia; auto.
    { intros j b Hj Hjb. apply lookup_lt_Some in Hjb. lia. }
    set (r := bs_loop f (length l) l 0 (length l)) in *. cbv zeta.
    pose proof Hr as Hr'. apply lookup_lt_is_Some in Hr' as [a Ha]. rewrite Ha.
    destruct (f a) eqn:Ef.
    - eauto.
    - split; [lia|]. split.
      + intros j b Hj Hjb. apply (Hm j r b a); [lia|exact Hjb|exact Ha|exact Ef].
      + intros j b Hj Hjb. apply (Hgt j b); [lia|exact Hjb].
    - destruct H0 as [->|(a' & Ha' & Hne)]; [|congruence].
      split; [lia|]. split; [intros; lia|].
      intros j b Hj Hjb. apply (Hm 0 j a b); [lia|exact Ha|exact Hjb|exact Ef].
  Qed.
End bs.

(** Total orders given by a comparison function. *)
Record cmp_ok {K} (cmp : K -> K -> comparison) : Prop := {
  co_eq : forall a b, cmp a b = Eq <-> a = b;
  co_anti : forall a b, cmp b a = CompOpp (cmp a b);
  co_trans : forall a b c, cmp a b = Lt -> cmp b c = Lt -> cmp a c = Lt }.
Lemma N_cmp_ok : cmp_ok N.compare.
Proof.
  split.
  - apply N.compare_eq_iff.
  - intros a b. apply N.compare_antisym.
  - intros a b c. rewrite !N.compare_lt_iff. lia.
Qed.
Lemma bytes_cmp_ok : cmp_ok bytes_cmp.
Proof. split; [apply bytes_cmp_eq|apply bytes_cmp_antisym|apply bytes_cmp_lt_trans]. Qed.

Section order.
  Context {K} (cmp : K -> K -> comparison) (Hc : cmp_ok cmp).
  Definition clt a b := cmp a b = Lt.
  Definition cle a b := cmp a b <> Gt.

  Lemma clt_cle a b : clt a b -> cle a b.
  Proof. unfold clt, cle. congruence. Qed.
  Lemma clt_irrefl a : ~ clt a a.
  Proof. unfold clt. rewrite (proj2 (co_eq _ Hc a a) eq_refl). discriminate. Qed.
  Lemma cgt_clt a b : cmp a b = Gt <-> clt b a.
  Proof. unfold clt. rewrite (co_anti _ Hc a b). destruct (cmp a b); cbn; split; congruence. Qed.
  Lemma cle_cases a b : cle a b <-> clt a b \/ a = b.
  Proof.
    unfold cle, clt. rewrite <- (co_eq _ Hc). destruct (cmp a b); split; intros H; auto; try congruence.
    destruct H; congruence.
  Qed.
  Lemma cle_trans a b c : cle a b -> cle b c -> cle a c.
  Proof.
    rewrite !cle_cases. intros [H1| ->] [H2| ->]; auto. left. eapply (co_trans _ Hc); eassumption.
  Qed.
  Lemma clt_cle_trans a b c : clt a b -> cle b c -> clt a c.
  Proof. rewrite cle_cases. intros H [H2| <-]; auto. eapply (co_trans _ Hc); eassumption. Qed.
  Lemma cle_clt_trans a b c : cle a b -> clt b c -> clt a c.
  Proof. rewrite cle_cases. intros [H2| ->] H; auto. eapply (co_trans _ Hc); eassumption. Qed.
  Lemma not_clt_cle a b : ~ clt a b -> cle b a.
  Proof. unfold clt, cle. rewrite (co_anti _ Hc a b). destruct (cmp a b); cbn; congruence. Qed.

  Lemma ssorted_lookup (R : K -> K -> Prop) l i j a b :
    StronglySorted R l -> i < j -> l !! i = Some a -> l !! j = Some b -> R a b.
  Proof.
    intros H. revert i j. induction H as [|x l Hs IH Hf]; intros i j Hij Hi Hj.
    - now rewrite lookup_nil in Hi.
    - destruct j as [|j]; [lia|]. destruct i as [|i].
      + cbn in Hi, Hj. injection Hi as <-. rewrite Forall_forall in Hf. apply Hf. now apply elem_of_list_lookup_2 in Hj.
      + cbn in Hi, Hj. eapply IH; [|exact Hi|exact Hj]. lia.
  Qed.
  Lemma ssorted_impl (R R' : K -> K -> Prop) l : (forall a b, R a b -> R' a b) -> StronglySorted R l -> StronglySorted R' l.
  Proof.
    intros H. induction 1 as [|x l Hs IH Hf]; constructor; auto. eapply Forall_impl; [exact Hf|]. auto.
  Qed.
  Lemma ssorted_sublist (R : K -> K -> Prop) l l' : l `sublist_of` l' -> StronglySorted R l' -> StronglySorted R l.
  Proof.
    intros Hsub Hs. induction Hsub as [|x l l' Hsub IH|x l l' Hsub IH].
    - constructor.
    - inversion Hs as [|? ? Hs' Hf]; subst. constructor; [auto|]. rewrite Forall_forall in Hf |- *.
      intros y Hy. apply Hf. eapply elem_of_submseteq; [exact Hy|]. now apply sublist_submseteq.
    - inversion Hs; subst. auto.
  Qed.

  Lemma sorted_mono x l : StronglySorted cle l -> bs_mono (fun k => cmp k x) l.
  Proof.
    intros Hs i j a b Hij Ha Hb.
    assert (cle a b) as Hab.
    { destruct (Nat.eq_dec i j) as [->|Hne].
      - rewrite Ha in Hb. injection Hb as ->. apply cle_cases. auto.
      - eapply ssorted_lookup; [exact Hs| |exact Ha|exact Hb]. lia. }
    split; intros H.
    - apply (cle_clt_trans a b x Hab H).
    - apply cgt_clt in H. apply cgt_clt. exact (clt_cle_trans x a b H Hab).
  Qed.

  (** The child taken by the descent. *)
  Lemma choose_bs_weak x e (ks : list K) (cs : list N) :
    length cs = S (length ks) -> StronglySorted cle ks ->
    exists ksL ksR csL c csR, ks = ksL ++ ksR /\ cs = csL ++ c :: csR /\ length ksL = length csL /\
      choose_bs (binary_search (fun k => cmp k x)) e (INode ks cs) = Ok (length csL, c) /\
      (forall k, k ∈ ksL -> cle k x) /\ (forall k, k ∈ ksR -> cle x k) /\
      (StronglySorted clt ks -> forall k, k ∈ ksR -> clt x k) /\
      (x ∈ ks -> last ksL = Some x).
  Proof.
    intros Hlen Hs. pose proof (binary_search_spec _ _ (sorted_mono x ks Hs)) as Hbs.
    unfold choose_bs. cbn [in_keys in_children].
    set (r := binary_search (fun k => cmp k x) ks) in *.
    assert (Hi : exists i, bs_child r = i /\ i <= length ks /\
      (forall j a, j < i -> ks !! j = Some a -> cle a x) /\
      (forall j a, i <= j -> ks !! j = Some a -> cle x a) /\
      (StronglySorted clt ks -> forall j a, i <= j -> ks !! j = Some a -> clt x a) /\
      (x ∈ ks -> exists j, i = S j /\ ks !! j = Some x)).
    { destruct r as [i|i]; cbn [bs_child].
      - destruct Hbs as (a & Ha & Ea). apply (co_eq _ Hc) in Ea as ->.
        exists (S i). split; [reflexivity|]. split; [apply lookup_lt_Some in Ha; lia|]. split; [|split; [|split]].
        + intros j b Hj Hb. destruct (Nat.eq_dec j i) as [->|Hne].
          * rewrite Ha in Hb. injection Hb as ->. apply cle_cases. auto.
          * eapply ssorted_lookup; [exact Hs| |exact Hb|exact Ha]. lia.
        + intros j b Hj Hb. eapply ssorted_lookup; [exact Hs| |exact Ha|exact Hb]. lia.
        + intros Hst j b Hj Hb. eapply ssorted_lookup; [exact Hst| |exact Ha|exact Hb]. lia.
        + intros _. eauto.
      - destruct Hbs as (Hle & Hlt & Hgt). exists i. split; [reflexivity|]. split; [exact Hle|]. split; [|split; [|split]].
        + intros j a Hj Ha. apply clt_cle. exact (Hlt j a Hj Ha).
        + intros j a Hj Ha. apply clt_cle. apply cgt_clt. exact (Hgt j a Hj Ha).
        + intros _ j a Hj Ha. apply cgt_clt. exact (Hgt j a Hj Ha).
        + intros Hx. exfalso. apply elem_of_list_lookup_1 in Hx as [j Hj].
          destruct (Nat.lt_ge_cases j i) as [H|H].
          * apply (clt_irrefl x), (Hlt j x H Hj).
          * apply (clt_irrefl x), cgt_clt, (Hgt j x H Hj). }
    destruct Hi as (i & -> & Hle & HL & HR & HRs & HLx).
    assert (i < length cs) as Hic by lia. apply lookup_lt_is_Some in Hic as [c Hcs]. rewrite Hcs.
    exists (take i ks), (drop i ks), (take i cs), c, (drop (S i) cs).
    split; [symmetry; apply take_drop|]. split; [symmetry; now apply take_drop_middle|].
    rewrite !take_length. split; [lia|].
    rewrite Nat.min_l by lia. split; [reflexivity|].
    assert (HRin : forall k, k ∈ drop i ks -> exists j, i <= j /\ ks !! j = Some k).
    { intros k Hk. apply elem_of_list_lookup_1 in Hk as [j Hj]. rewrite lookup_drop in Hj. exists (i + j). split; [lia|exact Hj]. }
    split; [|split; [|split]].
    - intros k Hk. apply elem_of_take in Hk as (j & Hj & Hji). eapply HL; [exact Hji|exact Hj].
    - intros k Hk. apply HRin in Hk as (j & Hj & Hjk). eapply HR; eassumption.
    - intros Hst k Hk. apply HRin in Hk as (j & Hj & Hjk). eapply HRs; eassumption.
    - intros Hx. destruct (HLx Hx) as (j & -> & Hj). rewrite (take_S_r _ _ _ Hj). apply last_snoc.
  Qed.
End order.
