(** The depth-first iterators visit every entry in range, in order. *)
From Verif Require Export LookupProofs.
Local Open Scope N_scope.

(** ** Running the stack machine *)
Section runs.
  Context {X : Type} (step : item -> res (list X * list item)).
  (** [runs st out st' m]: from stack [st], [m] turns emit [out] and leave [st']. *)
  Inductive runs : list item -> list X -> list item -> nat -> Prop :=
  | runs_nil st : runs st [] st 0
  | runs_step it st out push l st' m :
      step it = Ok (out, push) -> runs (push ++ st) l st' m -> runs (it :: st) (out ++ l) st' (S m).
  Lemma runs_trans st l1 st1 m1 l2 st2 m2 :
    runs st l1 st1 m1 -> runs st1 l2 st2 m2 -> runs st (l1 ++ l2) st2 (m1 + m2).
  Proof.
    induction 1 as [|it st out push l st' m Hs Hr IH]; intros H2; [exact H2|].
    rewrite <- app_assoc. cbn [Nat.add]. econstructor; [exact Hs|]. auto.
  Qed.
  Lemma runs_one it st out push : step it = Ok (out, push) -> runs (it :: st) out (push ++ st) 1.
  Proof. intros H. rewrite <- (app_nil_r out). econstructor; [exact H|constructor]. Qed.
  Lemma runs_eq st l l' st' m m' : runs st l st' m -> l = l' -> m = m' -> runs st l' st' m'.
  Proof. now intros H -> ->. Qed.
End runs.

Definition dir {A} (bw : bool) (l : list A) : list A := if bw then rev l else l.
Lemma dir_app {A} bw (a b : list A) : dir bw (a ++ b) = if bw then dir bw b ++ dir bw a else dir bw a ++ dir bw b.
Proof. destruct bw; [apply rev_app_distr|reflexivity]. Qed.
Lemma elem_of_dir {A} bw (l : list A) x : x ∈ dir bw l <-> x ∈ l.
Proof. destruct bw; [|tauto]. cbn. rewrite !elem_of_list_In. symmetry. apply in_rev. Qed.

(** The keys in range of the iterator. *)
Definition kept (start : option N) (bw : bool) (k : N) : bool :=
  match start with None => true | Some f => if bw then k <=? f else f <=? k end.

Lemma filter_all_true {A} (p : A -> bool) l : (forall x, x ∈ l -> p x = true) -> List.filter p l = l.
Proof.
  induction l as [|x l IH]; intros H; [reflexivity|]. cbn [List.filter]. rewrite (H x ltac:(now left)).
  f_equal. apply IH. intros y Hy. apply H. now right.
Qed.
Lemma filter_all_false {A} (p : A -> bool) l : (forall x, x ∈ l -> p x = false) -> List.filter p l = [].
Proof.
  induction l as [|x l IH]; intros H; [reflexivity|]. cbn [List.filter]. rewrite (H x ltac:(now left)).
  apply IH. intros y Hy. apply H. now right.
Qed.
Lemma filter_drop_eq {A} (p : A -> bool) i l :
  (forall x, x ∈ take i l -> p x = false) -> (forall x, x ∈ drop i l -> p x = true) -> List.filter p l = drop i l.
Proof.
  intros H1 H2. rewrite <- (take_drop i l) at 1. rewrite List.filter_app, (filter_all_false _ _ H1), (filter_all_true _ _ H2). reflexivity.
Qed.
Lemma filter_take_eq {A} (p : A -> bool) i l :
  (forall x, x ∈ take i l -> p x = true) -> (forall x, x ∈ drop i l -> p x = false) -> List.filter p l = take i l.
Proof.
  intros H1 H2. rewrite <- (take_drop i l) at 1. rewrite List.filter_app, (filter_all_true _ _ H1), (filter_all_false _ _ H2). apply app_nil_r.
Qed.
Lemma filter_elem {A} (p : A -> bool) l x : x ∈ List.filter p l <-> x ∈ l /\ p x = true.
Proof. rewrite elem_of_list_In, filter_In, elem_of_list_In. tauto. Qed.

(** Total weight of a list of pages. *)
Definition wsum (wt : N -> nat) (P : list N) : nat := foldr (fun p a => wt p + a)%nat 0%nat P.
Lemma wsum_app wt a b : wsum wt (a ++ b) = (wsum wt a + wsum wt b)%nat.
Proof. induction a as [|x a IH]; [reflexivity|]. cbn [app wsum foldr]. change (foldr _ _ (a ++ b)) with (wsum wt (a ++ b)). change (foldr _ _ a) with (wsum wt a). rewrite IH. lia. Qed.
Lemma wsum_perm wt a b : a ≡ₚ b -> wsum wt a = wsum wt b.
Proof. induction 1; cbn [wsum foldr]; unfold wsum in *; try lia. Qed.

Lemma sep_ok_suffix {K E} (ekey : E -> K) a b : sep_ok ekey (a ++ b) -> sep_ok ekey b.
Proof. induction a as [|[e|k] a IH]; cbn [app sep_ok]; [auto|exact IH|intros [_ H]; auto]. Qed.
Lemma sep_ok_prefix {K E} (ekey : E -> K) a b :
  b = [] \/ (exists k b', b = TS k :: b') -> sep_ok ekey (a ++ b) -> sep_ok ekey a.
Proof.
  intros Hb. induction a as [|[e|k] a IH]; cbn [app sep_ok]; [auto|exact IH|intros [H1 H2]].
  split; [|auto]. destruct a as [|[e'|k'] a]; cbn [app] in H1 |- *; auto.
  destruct Hb as [-> | (k' & b' & ->)]; destruct H1.
Qed.

Lemma lforest_snoc_inv {K E} (ops : tree_ops K) (lr : (N -> option node) -> node -> list N -> list E -> Prop) get h ks csL c P ts :
  lforest ops lr get h ks (csL ++ [c]) P ts ->
  exists ks' k P1 Pc pre tc, ks = ks' ++ [k] /\ P = P1 ++ Pc /\ ts = pre ++ tc ++ [TS k] /\
    lforest ops lr get h ks' csL P1 pre /\ shape ops lr get h c Pc tc.
Proof.
  revert ks P ts. induction csL as [|c0 csL IH]; intros ks P ts H; cbn [app] in H;
    inversion H as [|k0 ks0 ? ? P0 t0 P0' t0' Hs Hl]; subst.
  - inversion Hl; subst. exists [], k0, [], P0, [], t0. rewrite app_nil_r. repeat split; auto; constructor.
  - destruct (IH _ _ _ Hl) as (ks' & k & P1 & Pc & pre & tc & -> & -> & -> & H1 & H2).
    exists (k0 :: ks'), k, (P0 ++ P1), Pc, (t0 ++ TS k0 :: pre), tc. split; [reflexivity|]. split; [now rewrite app_assoc|].
    split; [lassoc|]. split; [|exact H2]. constructor; auto.
Qed.

(** Pages among [A], no more of them than [A] has. *)
Definition within (A P : list N) : Prop := P ⊆ A /\ (length P <= length A)%nat.
Ltac inA := unfold within in *; split; [set_solver|repeat match goal with H : _ /\ _ |- _ => destruct H end; rewrite ?app_length in *; cbn [length] in *; rewrite ?app_length in *; lia].

(** ** Depth-first order *)
Section dfs.
  Context {E : Type} (ops : tree_ops N) (lr : (N -> option node) -> node -> list N -> list E -> Prop) (ekey : E -> N).
  Context (get : N -> option node) (start : option N) (bw : bool) (step : item -> res (list E * list item)).
  Context (A : list N) (wt : N -> nat).
  Notation inA := (within A).
  (** [good]: what the entries of a leaf satisfy. *)
  Context (good : list E -> Prop) (good_app : forall a b, good (a ++ b) -> good a /\ good b).
  Notation shape := (shape ops lr get).
  Context (Hfirst : forall p n nd c, p ∈ A -> get p = Some n -> t_int ops n = Some nd -> in_keys nd <> [] ->
    in_children nd !! first_child start bw nd = Some c ->
    step (p, None) = Ok ([], push_children bw p nd (first_child start bw nd) c)).
  Context (Hagain : forall p n nd c i, p ∈ A -> get p = Some n -> t_int ops n = Some nd ->
    in_children nd !! i = Some c -> step (p, Some i) = Ok ([], push_children bw p nd i c)).
  Context (Hwt : forall p n nd, p ∈ A -> get p = Some n -> t_int ops n = Some nd -> (length (in_children nd) <= wt p)%nat).
  Context (Hleaf : forall p n P0 es, inA (p :: P0) -> get p = Some n -> t_leaf ops n = true -> lr get n P0 es ->
    good es -> StronglySorted N.le (map ekey es) ->
    exists m, (m <= wt p)%nat /\ forall st, runs step ((p, None) :: st) (dir bw (List.filter (fun e => kept start bw (ekey e)) es)) st m).

  Notation kp := (fun e => kept start bw (ekey e)).
  Notation sel ts := (dir bw (List.filter kp (toks_es ts))).
  Notation wsort := (wsorted N.compare ekey).
  Notation sep := (sep_ok ekey).

  (** What a run over the tokens [ts] emits. *)
  Definition emits (ts : list (tok N E)) (out : list E) : Prop :=
    out `sublist_of` sel ts /\ forall e, e ∈ toks_es ts -> kp e = true -> exists y, y ∈ out /\ ekey y = ekey e.

  Lemma emits_app a b oa ob : emits a oa -> emits b ob -> emits (a ++ b) (if bw then ob ++ oa else oa ++ ob).
  Proof.
    intros [S1 C1] [S2 C2]. split.
    - rewrite toks_es_app, List.filter_app, dir_app. destruct bw; now apply sublist_app.
    - intros e He Hk. rewrite toks_es_app in He. apply elem_of_app in He as [He|He].
      + destruct (C1 e He Hk) as (y & Hy & Ey). exists y. split; [|exact Ey]. destruct bw; set_solver.
      + destruct (C2 e He Hk) as (y & Hy & Ey). exists y. split; [|exact Ey]. destruct bw; set_solver.
  Qed.
  Lemma emits_TS k out ts : emits ts out -> emits (TS k :: ts) out.
  Proof. auto. Qed.
  Lemma emits_snoc_TS k out ts : emits ts out -> emits (ts ++ [TS k]) out.
  Proof. intros H. unfold emits. rewrite toks_es_app. cbn [toks_es omap list_omap]. now rewrite app_nil_r. Qed.

  Definition dfs_at (h : nat) : Prop := forall p P ts,
    shape h p P ts -> inA P -> good (toks_es ts) -> wsort ts -> sep ts ->
    exists out m, (forall st, runs step ((p, None) :: st) out st m) /\ (m <= wsum wt P)%nat /\ emits ts out.

  Lemma dfs_fwd h p n ks : dfs_at h -> bw = false -> p ∈ A -> get p = Some n ->
    forall csR csL ksR P ts, t_int ops n = Some (INode ks (csL ++ csR)) ->
    rforest ops lr get h ksR csR P ts -> inA P -> good (toks_es ts) -> wsort ts -> sep ts ->
    exists out m, (forall st, runs step ((match csR with [] => [] | _ => [(p, Some (length csL))] end) ++ st) out st m) /\
      (m <= length csR + wsum wt P)%nat /\ emits ts out.
  Proof.
    intros IH Hbw HpA Hg. induction csR as [|c csR IHc]; intros csL ksR P ts Hi Hr HP Hgd Hw Hsep.
    - inversion Hr; subst. exists [], 0%nat. split; [intros; constructor|]. split; [cbn; lia|].
      split; [unfold dir; rewrite Hbw; constructor|]. intros e He. inversion He.
    - inversion Hr as [|? k ks' ? ? Pc tc P' ts' Hsc Hrest]; subst.
      cbn [toks_es omap list_omap] in Hgd. change (good (toks_es (tc ++ ts'))) in Hgd. rewrite toks_es_app in Hgd. apply good_app in Hgd as [G1 G2].
      inversion Hw as [|? ? Hw' _]; subst. apply ss_app in Hw' as (W1 & W2 & _).
      cbn [sep_ok] in Hsep. destruct Hsep as [_ Hsep].
      pose proof (sep_ok_suffix _ _ _ Hsep) as Sp2.
      assert (Sp1 : sep tc).
      { eapply sep_ok_prefix; [|exact Hsep]. destruct (rforest_post _ _ _ _ _ _ _ _ Hrest) as [[_ ->]|(? & ? & ? & _ & ->)]; eauto. }
      destruct (IH c Pc tc Hsc ltac:(inA) G1 W1 Sp1) as (o1 & m1 & R1 & M1 & E1).
      destruct (IHc (csL ++ [c]) ks' P' ts') as (o2 & m2 & R2 & M2 & E2); auto.
      { rewrite <- app_assoc. exact Hi. }
      { inA. }
      exists (o1 ++ o2), (S (m1 + m2)). split; [|split].
      + intros st. cbn [app]. apply (runs_step step _ _ [] (push_children bw p (INode ks (csL ++ c :: csR)) (length csL) c)).
        * eapply Hagain; [exact HpA|exact Hg|exact Hi|]. cbn [in_children]. now apply list_lookup_middle.
        * unfold push_children. rewrite Hbw. cbn [in_children app].
          eapply runs_trans; [apply R1|].
          replace (if (S (length csL) <? length (csL ++ c :: csR))%nat then [(p, Some (S (length csL)))] else [])
            with (match csR with [] => [] | _ => [(p, Some (length (csL ++ [c])))] end); [apply R2|].
          rewrite !app_length. cbn [length]. destruct csR as [|c2 csR]; cbn [length].
          -- now rewrite (proj2 (Nat.ltb_ge _ _)) by lia.
          -- rewrite (proj2 (Nat.ltb_lt _ _)) by lia. do 3 f_equal. lia.
      + rewrite wsum_app. cbn [length]. lia.
      + apply emits_TS. pose proof (emits_app _ _ _ _ E1 E2) as H. now rewrite Hbw in H.
  Qed.

  Lemma dfs_bwd h p n ks : dfs_at h -> bw = true -> p ∈ A -> get p = Some n ->
    forall csL csR ksL P ts X, t_int ops n = Some (INode ks (csL ++ csR)) ->
    lforest ops lr get h ksL csL P ts -> inA P -> good (toks_es ts) -> wsort ts -> sep (ts ++ X) ->
    exists out m, (forall st, runs step ((match length csL with O => [] | S i => [(p, Some i)] end) ++ st) out st m) /\
      (m <= length csL + wsum wt P)%nat /\ emits ts out.
  Proof.
    intros IH Hbw HpA Hg. induction csL as [|c csL IHc] using rev_ind; intros csR ksL P ts X Hi Hr HP Hgd Hw Hsep.
    - inversion Hr; subst. exists [], 0%nat. split; [intros; constructor|]. split; [cbn; lia|].
      split; [unfold dir; rewrite Hbw; constructor|]. intros e He. inversion He.
    - apply lforest_snoc_inv in Hr as (ks' & k & P1 & Pc & pre & tc & -> & -> & -> & Hrest & Hsc).
      rewrite !toks_es_app in Hgd. apply good_app in Hgd as [G1 G2]. apply good_app in G2 as [G2 _].
      apply ss_app in Hw as (W1 & W2 & _). apply ss_app in W2 as (W2 & _ & _).
      rewrite <- !app_assoc in Hsep. cbn [app] in Hsep.
      pose proof (sep_ok_suffix _ _ _ Hsep) as Sp2.
      assert (Sp1 : sep tc) by (eapply sep_ok_prefix; [|exact Sp2]; eauto).
      destruct (IH c Pc tc Hsc ltac:(inA) G2 W2 Sp1) as (o1 & m1 & R1 & M1 & E1).
      destruct (IHc (c :: csR) ks' P1 pre _ ltac:(now rewrite <- app_assoc in Hi) Hrest ltac:(inA) G1 W1 Hsep) as (o2 & m2 & R2 & M2 & E2).
      exists (o1 ++ o2), (S (m1 + m2)). split; [|split].
      + intros st. rewrite app_length. cbn [length]. rewrite Nat.add_1_r. cbn [app].
        apply (runs_step step _ _ [] (push_children bw p (INode ks ((csL ++ [c]) ++ csR)) (length csL) c)).
        * eapply Hagain; [exact HpA|exact Hg|exact Hi|]. cbn [in_children]. rewrite <- app_assoc. now apply list_lookup_middle.
        * unfold push_children. rewrite Hbw. cbn [in_children app]. eapply runs_trans; [apply R1|]. apply R2.
      + rewrite wsum_app, app_length. cbn [length]. lia.
      + pose proof (emits_app _ _ _ _ E2 (emits_snoc_TS k _ _ E1)) as H. now rewrite Hbw in H.
  Qed.

  Lemma kept_eq x y : ekey x = ekey y -> kp x = kp y.
  Proof. intros H. cbn. now rewrite H. Qed.

  (** The child taken on the first visit, and why the children skipped hold nothing in range that the
      child does not show. *)
  Lemma first_child_ok h ks cs P ts :
    forest ops lr get h ks cs P ts -> ks <> [] -> wsort ts -> sep ts ->
    exists csL c csR ksL ksR PL Pc PR pre tc post,
      cs = csL ++ c :: csR /\ ks = ksL ++ ksR /\ P = PL ++ Pc ++ PR /\ ts = pre ++ tc ++ post /\
      first_child start bw (INode ks cs) = length csL /\
      lforest ops lr get h ksL csL PL pre /\ shape h c Pc tc /\ rforest ops lr get h ksR csR PR post /\
      (forall e, e ∈ toks_es (if bw then post else pre) -> kp e = true -> exists y, y ∈ toks_es tc /\ ekey y = ekey e).
  Proof.
    intros Hf Hne Hw Hsep. pose proof (forest_length _ _ _ _ _ _ _ _ Hf) as Elen.
    unfold first_child, kept. destruct start as [f|] eqn:Est.
    - assert (Hks : StronglySorted (cle N.compare) ks).
      { eapply ssorted_sublist; [|apply (wsorted_ks N.compare ekey); exact Hw]. eapply forest_ks. exact Hf. }
      destruct (choose_bs_weak N.compare N_cmp_ok f Panic ks cs Elen Hks) as (ksL & ksR & csL & c & csR & -> & -> & EL & Ech & HL & HR & _ & Hx).
      destruct (forest_unplug _ _ _ _ _ _ _ _ _ _ _ Hf EL) as (PL & Pc & PR & pre & tc & post & -> & -> & HfL & Hsc & HfR).
      apply choose_bs_inv in Ech as [Ei _]. cbn [in_keys in_children] in Ei |- *.
      exists csL, c, csR, ksL, ksR, PL, Pc, PR, pre, tc, post. repeat (split; [first [reflexivity|assumption|symmetry; exact Ei]|]).
      assert (Htc : forall pre' k, pre = pre' ++ [TS k] -> exists y, y ∈ toks_es tc /\ ekey y = k).
      { intros pre' k ->. rewrite <- app_assoc in Hsep. apply sep_ok_cut2 in Hsep as (y & r & Er & Ey).
        exists y. split; [|exact Ey]. destruct tc as [|t tc].
        - cbn [app] in Er. destruct (rforest_post _ _ _ _ _ _ _ _ HfR) as [[_ ->]|(? & ? & ? & _ & ->)]; discriminate.
        - cbn [app] in Er. injection Er as -> _. now left. }
      intros e He Hk. apply elem_toks_es in He. destruct bw.
      + apply N.leb_le in Hk.
        destruct (rforest_post _ _ _ _ _ _ _ _ HfR) as [[-> ->]|(ks' & k & post' & -> & ->)]; [inversion He|].
        apply elem_of_cons in He as [He|He]; [discriminate|].
        apply ss_app in Hw as (_ & Hw & _). apply ss_app in Hw as (_ & Hw & _).
        inversion Hw as [|? ? _ Hfa]; subst. rewrite Forall_forall in Hfa. specialize (Hfa _ He). cbn in Hfa.
        specialize (HR k ltac:(now left)).
        assert (k = f) as -> by (unfold cle in *; rewrite N.compare_gt_iff in *; lia).
        assert (ekey e = f) as -> by (unfold cle in *; rewrite N.compare_gt_iff in *; lia).
        specialize (Hx ltac:(set_solver)).
        destruct (lforest_pre _ _ _ _ _ _ _ _ HfL) as [[-> ->]|(ks2 & k2 & pre' & -> & Ep)]; [discriminate|].
        rewrite last_snoc in Hx. injection Hx as ->. eapply Htc. exact Ep.
      + apply N.leb_le in Hk.
        destruct (lforest_pre _ _ _ _ _ _ _ _ HfL) as [[-> ->]|(ks' & k & pre' & -> & Ep)]; [inversion He|].
        pose proof (HL k ltac:(set_solver)) as Hkf. rewrite Ep in He, Hw.
        apply elem_of_app in He as [He|He]; [|apply elem_of_list_singleton in He; discriminate].
        apply ss_app in Hw as (Hw & _ & _). apply ss_app in Hw as (_ & _ & Hw).
        specialize (Hw _ (TS k) He ltac:(now left)). cbn in Hw.
        assert (ekey e = k) as -> by (unfold cle in *; rewrite N.compare_gt_iff in *; lia).
        eapply Htc. exact Ep.
    - destruct bw eqn:Ebw.
      + destruct cs as [|c csL _] using rev_ind; [discriminate|]. rewrite app_length in Elen. cbn [length] in Elen.
        rewrite <- (app_nil_r ks) in Hf.
        destruct (forest_unplug _ _ _ _ ks [] csL c [] _ _ Hf ltac:(lia)) as (PL & Pc & PR & pre & tc & post & -> & -> & HfL & Hsc & HfR).
        exists csL, c, [], ks, [], PL, Pc, PR, pre, tc, post. cbn [in_children]. rewrite app_length, app_nil_r. cbn [length].
        repeat (split; [first [reflexivity|assumption|lia]|]).
        inversion HfR; subst. intros e He. inversion He.
      + destruct cs as [|c csR]; [discriminate|].
        destruct (forest_unplug _ _ _ _ [] ks [] c csR _ _ Hf eq_refl) as (PL & Pc & PR & pre & tc & post & -> & -> & HfL & Hsc & HfR).
        exists [], c, csR, [], ks, PL, Pc, PR, pre, tc, post.
        repeat (split; [first [reflexivity|assumption]|]).
        inversion HfL; subst. intros e He. inversion He.
  Qed.

  Lemma dfs_ok h : dfs_at h.
  Proof.
    induction h as [|h IH]; intros p P ts Hs HP Hgd Hw Hsep.
    1, 2: destruct (shape_int_forest _ _ _ _ _ _ _ Hs) as [(n & P0 & es & Hg & Hl & -> & -> & Hlr)|(h' & n & ks & cs & P0 & Eh & Hg & Hl & Hi & Hne & -> & Hf)].
    2: discriminate.
    1, 2: rewrite toks_es_map in Hgd; pose proof (wsorted_es N.compare ekey _ Hw) as Hsrt; rewrite toks_es_map in Hsrt;
      destruct (Hleaf p n P0 es HP Hg Hl Hlr Hgd) as (m & Hm & Hr);
      [eapply ssorted_impl; [|exact Hsrt]; unfold cle; intros a b; rewrite N.compare_gt_iff; lia|];
      eexists _, m; split; [exact Hr|]; split; [cbn; unfold wsum; lia|]; unfold emits; rewrite toks_es_map; split; [reflexivity|];
      intros e He Hk; exists e; split; [|reflexivity]; apply elem_of_dir, filter_elem; auto.
    injection Eh as <-.
    destruct (first_child_ok h ks cs P0 ts Hf Hne Hw Hsep)
      as (csL & c & csR & ksL & ksR & PL & Pc & PR & pre & tc & post & -> & -> & -> & -> & Efc & HfL & Hsc & HfR & Hskip).
    assert (HpA : p ∈ A) by (apply (proj1 HP); now left).
    rewrite !toks_es_app in Hgd. apply good_app in Hgd as [G1 G2]. apply good_app in G2 as [G2 G3].
    pose proof Hw as Hw0. apply ss_app in Hw0 as (W1 & W2 & _). apply ss_app in W2 as (W2 & W3 & _).
    pose proof (sep_ok_suffix _ _ _ Hsep) as Sp2. pose proof (sep_ok_suffix _ _ _ Sp2) as Sp3.
    assert (Sp1 : sep tc).
    { eapply sep_ok_prefix; [|exact Sp2]. destruct (rforest_post _ _ _ _ _ _ _ _ HfR) as [[_ ->]|(? & ? & ? & _ & ->)]; eauto. }
    destruct (IH c Pc tc Hsc ltac:(inA) G2 W2 Sp1) as (o1 & m1 & R1 & M1 & E1).
    pose proof (Hwt _ _ _ HpA Hg Hi) as Hwp. cbn [in_children] in Hwp. rewrite app_length in Hwp. cbn [length] in Hwp.
    assert (Hstep : step (p, None) = Ok ([], push_children bw p (INode (ksL ++ ksR) (csL ++ c :: csR)) (length csL) c)).
    { rewrite <- Efc. eapply Hfirst; [exact HpA|exact Hg|exact Hi|exact Hne|]. rewrite Efc. cbn [in_children]. now apply list_lookup_middle. }
    assert (Hcov : forall e, e ∈ toks_es (if bw then post else pre) -> kp e = true -> exists y, y ∈ o1 /\ ekey y = ekey e).
    { intros e He Hk. destruct (Hskip e He Hk) as (y & Hy & Ey). destruct E1 as [_ C1].
      destruct (C1 y Hy) as (z & Hz & Ez); [rewrite (kept_eq _ _ Ey); exact Hk|]. exists z. split; [exact Hz|congruence]. }
    assert (bw = true \/ bw = false) as [Ebw|Ebw] by (destruct bw; auto).
    - destruct (dfs_bwd h p n (ksL ++ ksR) IH Ebw HpA Hg csL (c :: csR) ksL PL pre _ Hi HfL ltac:(inA) G1 W1 Hsep)
        as (o2 & m2 & R2 & M2 & E2).
      exists (o1 ++ o2), (S (m1 + m2)). split; [|split].
      + intros st. apply (runs_step step _ _ [] _ _ _ _ Hstep). unfold push_children. rewrite Ebw. cbn [app].
        eapply runs_trans; [apply R1|]. apply R2.
      + cbn [wsum foldr]. fold (wsum wt (PL ++ Pc ++ PR)). rewrite !wsum_app. lia.
      + destruct E1 as [S1 C1], E2 as [S2 C2]. unfold emits in *. rewrite Ebw in *. split.
        * rewrite !toks_es_app, !List.filter_app. unfold dir in *. rewrite !rev_app_distr, <- app_assoc.
          apply sublist_inserts_l. now apply sublist_app.
        * intros e He Hk. rewrite !toks_es_app, !elem_of_app in He. destruct He as [He|[He|He]].
          -- destruct (C2 e He Hk) as (y & Hy & Ey). exists y. split; [set_solver|exact Ey].
          -- destruct (C1 e He Hk) as (y & Hy & Ey). exists y. split; [set_solver|exact Ey].
          -- destruct (Hcov e He Hk) as (y & Hy & Ey). exists y. split; [set_solver|exact Ey].
    - destruct (dfs_fwd h p n (ksL ++ ksR) IH Ebw HpA Hg csR (csL ++ [c]) ksR PR post ltac:(now rewrite <- app_assoc) HfR ltac:(inA) G3 W3 Sp3)
        as (o2 & m2 & R2 & M2 & E2).
      exists (o1 ++ o2), (S (m1 + m2)). split; [|split].
      + intros st. apply (runs_step step _ _ [] _ _ _ _ Hstep). unfold push_children. rewrite Ebw. cbn [app in_children].
        eapply runs_trans; [apply R1|].
        replace (if (S (length csL) <? length (csL ++ c :: csR))%nat then [(p, Some (S (length csL)))] else [])
          with (match csR with [] => [] | _ => [(p, Some (length (csL ++ [c])))] end); [apply R2|].
        rewrite !app_length. cbn [length]. destruct csR as [|c2 csR]; cbn [length].
        * now rewrite (proj2 (Nat.ltb_ge _ _)) by lia.
        * rewrite (proj2 (Nat.ltb_lt _ _)) by lia. do 3 f_equal. lia.
      + cbn [wsum foldr]. fold (wsum wt (PL ++ Pc ++ PR)). rewrite !wsum_app. lia.
      + destruct E1 as [S1 C1], E2 as [S2 C2]. unfold emits in *. rewrite Ebw in *. split.
        * rewrite !toks_es_app, !List.filter_app. unfold dir in *.
          apply sublist_inserts_l. now apply sublist_app.
        * intros e He Hk. rewrite !toks_es_app, !elem_of_app in He. destruct He as [He|[He|He]].
          -- destruct (Hcov e He Hk) as (y & Hy & Ey). exists y. split; [set_solver|exact Ey].
          -- destruct (C1 e He Hk) as (y & Hy & Ey). exists y. split; [set_solver|exact Ey].
          -- destruct (C2 e He Hk) as (y & Hy & Ey). exists y. split; [set_solver|exact Ey].
  Qed.
End dfs.
