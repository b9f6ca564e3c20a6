(** Removing an empty leaf from a copy-on-write tree. *)
From Verif Require Export TsnProofs.
Local Open Scope N_scope.

Lemma position_split x l : x ∈ l -> exists l1 l2, l = l1 ++ x :: l2 /\ x ∉ l1 /\ position x l = Some (length l1).
Proof.
  induction l as [|y l IH]; intros H; [inversion H|]. cbn [position].
  destruct (N.eqb_spec y x) as [->|Hne].
  - exists [], l. split; [reflexivity|]. split; [apply not_elem_of_nil|reflexivity].
  - apply elem_of_cons in H as [->|H]; [congruence|]. destruct (IH H) as (l1 & l2 & -> & Hn & ->).
    exists (y :: l1), l2. split; [reflexivity|]. split; [|reflexivity]. rewrite not_elem_of_cons. split; [congruence|exact Hn].
Qed.
Lemma vec_remove_app {A} (l1 l2 : list A) x : vec_remove (length l1) (l1 ++ x :: l2) = l1 ++ l2.
Proof.
  unfold vec_remove. rewrite take_app. f_equal. change (x :: l2) with ([x] ++ l2). rewrite app_assoc.
  apply drop_app_alt. rewrite app_length. cbn. lia.
Qed.

Lemma choose_lin_law x (ks : list N) cs :
  length cs = S (length ks) -> StronglySorted (clt N.compare) ks ->
  exists ksL ksR csL c csR, ks = ksL ++ ksR /\ cs = csL ++ c :: csR /\ length ksL = length csL /\
    choose_lin x (INode ks cs) = Ok (length csL, c) /\ (False -> csR = []) /\
    (forall k, last ksL = Some k -> cle N.compare k x) /\ (forall k, head ksR = Some k -> clt N.compare x k).
Proof.
  intros Hl _.
  assert (H : exists ksL ksR, ks = ksL ++ ksR /\ lin_idx x ks = length ksL /\ (forall k, k ∈ ksL -> k <= x) /\ (forall k, head ksR = Some k -> x < k)).
  { clear Hl. induction ks as [|k ks IH]; cbn [lin_idx].
    - exists [], []. split; [reflexivity|]. split; [reflexivity|]. split; [intros k Hk; inversion Hk|discriminate].
    - destruct (N.leb_spec k x) as [Hle|Hgt].
      + destruct IH as (ksL & ksR & -> & -> & H1 & H2). exists (k :: ksL), ksR. split; [reflexivity|]. split; [reflexivity|].
        split; [|exact H2]. intros k' Hk. apply elem_of_cons in Hk as [->|Hk]; auto.
      + exists [], (k :: ks). split; [reflexivity|]. split; [reflexivity|]. split; [intros k' Hk; inversion Hk|].
        intros k' [= <-]. exact Hgt. }
  destruct H as (ksL & ksR & -> & Ei & H1 & H2). rewrite app_length in Hl.
  assert (exists c, cs !! length ksL = Some c) as [c Hc]. { apply lookup_lt_is_Some. lia. }
  exists ksL, ksR, (take (length ksL) cs), c, (drop (S (length ksL)) cs).
  assert (length (take (length ksL) cs) = length ksL) as El by (rewrite take_length; lia).
  split; [reflexivity|]. split; [symmetry; now apply take_drop_middle|]. split; [now rewrite El|]. split; [|split; [tauto|split]].
  - unfold choose_lin. cbn [in_keys in_children]. rewrite Ei, Hc, El. reflexivity.
  - intros k Hk. apply cleN. apply H1. now apply last_Some_elem_of in Hk.
  - intros k Hk. apply cltN. now apply H2.
Qed.

Section laws.
  Context (kw : nat) (ps : N) (Hps : ps_ok ps).
  Lemma fl_rm_laws tsn : ops_laws (fl_rm_ops tsn) kw ps False (fun _ => True).
  Proof.
    constructor; cbn [fl_rm_ops t_int t_mk t_leaf t_repl t_ins t_split]; auto.
    - intros. apply repl_at_ok; auto.
    - intros. apply ins_at_ok; auto.
    - arity; [|now apply split_keys_half_ok].
      unfold page_size_of, node_size, fl_int_size, nlen, PAGE_HEADER_SIZE in Hsz. cbn [in_keys in_children] in Hsz.
      unfold ps_ok in Hps. lia.
  Qed.
  Lemma tsn_rm_laws x : ops_laws (tsn_rm_ops x) kw ps False (fun _ => True).
  Proof.
    constructor; cbn [tsn_rm_ops t_int t_mk t_leaf t_repl t_ins t_split]; auto.
    - intros. unfold repl_set. cbn [in_keys in_children].
      rewrite list_lookup_middle by reflexivity. now rewrite list_insert_mid.
    - intros. apply ins_at_ok; auto.
    - arity; [|now apply split_keys_half_ok].
      unfold page_size_of, node_size, fl_int_size, nlen, PAGE_HEADER_SIZE in Hsz. cbn [in_keys in_children] in Hsz.
      unfold ps_ok in Hps. lia.
  Qed.
End laws.

(** Without a size check nothing is split. *)
Lemma propagate_none {K} (ops : tree_ops K) kw ps st : t_check_always ops = false ->
  forall ri w ri' si' w', propagate ops kw ps st ri None w = (Ok (ri', si'), w') -> si' = None.
Proof.
  intros Hca. induction st as [|[p i] st IH]; intros ri w ri' si' w'; cbn [propagate].
  { intros [= _ <- _]. reflexivity. }
  destruct (t_cow ops) eqn:Ecow; cbn [negb andb]; [|apply IH].
  unfold wbind at 1. destruct (get_dirty_page_id p w) as [[dp|e] w1]; [|discriminate].
  unfold wbind at 1. destruct (get_mut_dirty dp w1) as [[n|e] w2]; [|discriminate].
  destruct (t_int ops n) as [nd|]; [|discriminate].
  unfold wbind at 1, lift at 1. destruct (match ri with Some (old, new) => t_repl ops nd i old new | None => Ok nd end) as [nd1|e]; [|discriminate].
  unfold wbind at 1. cbn [put_dirty]. rewrite Hca. cbn [orb]. rewrite andb_false_r. apply IH.
Qed.

Section remove.
  Context {E : Type} (ops : tree_ops N) (lr : (N -> option node) -> node -> list N -> list E -> Prop).
  Context (lr_frame : forall get get' n P es, lr get n P es -> (forall q, q ∈ P -> get' q = get q) -> lr get' n P es).
  Notation tok := (tok N E).

  Lemma lforest_snoc_inv get h ks cs P pre :
    lforest ops lr get h ks cs P pre ->
    (ks = [] /\ cs = [] /\ P = [] /\ pre = []) \/
    exists ks' k cs' c P' Pc pre' tc, ks = ks' ++ [k] /\ cs = cs' ++ [c] /\ P = P' ++ Pc /\ pre = pre' ++ tc ++ [TS k] /\
      lforest ops lr get h ks' cs' P' pre' /\ shape ops lr get h c Pc tc.
  Proof using Type.
    clear lr_frame. induction 1 as [|k ks c cs P ts P' ts' Hs HL IH]; [auto|]. right.
    destruct IH as [(-> & -> & -> & ->)|(ks' & k' & cs' & c' & P0 & Pc & pre' & tc & -> & -> & -> & -> & HL' & Hs')].
    - exists [], k, [], c, [], P, [], ts. rewrite app_nil_r. split; [reflexivity|]. split; [reflexivity|]. split; [reflexivity|].
      split; [reflexivity|]. split; [constructor|exact Hs].
    - exists (k :: ks'), k', (c :: cs'), c', (P ++ P0), Pc, (ts ++ TS k :: pre'), tc.
      split; [reflexivity|]. split; [reflexivity|]. split; [now rewrite app_assoc|]. split; [lassoc|]. split; [now constructor|exact Hs'].
  Qed.

  Lemma forest_remove get h ksL ksR csL c csR PL PR pre post :
    lforest ops lr get h ksL csL PL pre -> rforest ops lr get h ksR csR PR post -> ksL ++ ksR <> [] ->
    exists ks' cs' X, remove_child (INode (ksL ++ ksR) (csL ++ c :: csR)) (length csL) = Ok (INode ks' cs') /\
      forest ops lr get h ks' cs' (PL ++ PR) X /\ X `sublist_of` pre ++ post /\ toks_es X = toks_es (pre ++ post).
  Proof using Type.
    clear lr_frame. intros HL HR Hne. unfold remove_child. cbn [in_keys in_children].
    rewrite list_lookup_middle by reflexivity. rewrite vec_remove_app.
    destruct (lforest_snoc_inv _ _ _ _ _ _ HL) as [(-> & -> & -> & ->)|(ks' & k & cs' & c1 & P' & Pc & pre' & tc & -> & -> & -> & -> & HL' & Hs')].
    - inversion HR as [|? k ks c1 cs P1 t1 P2 t2 Hs1 HR1]; subst; [now destruct Hne|]. cbn [length Nat.pred app] in *.
      exists ks, (c1 :: cs), (t1 ++ t2). split; [reflexivity|]. split; [do 6 eexists; repeat split; eassumption|]. split.
      + apply sublist_cons. reflexivity.
      + reflexivity.
    - rewrite app_length. cbn [length]. replace (Nat.pred (length cs' + 1)) with (length ks').
      2:{ apply lforest_length in HL'. lia. }
      rewrite <- (app_assoc ks'). cbn [app]. rewrite vec_remove_app. rewrite <- (app_assoc cs'). cbn [app].
      exists (ks' ++ ksR), (cs' ++ c1 :: csR), (pre' ++ tc ++ post). split; [reflexivity|]. split; [|split].
      + rewrite <- app_assoc. apply forest_plug; assumption.
      + rewrite <- !app_assoc. apply sublist_app; [reflexivity|]. apply sublist_app; [reflexivity|]. cbn [app]. now apply sublist_cons.
      + rewrite <- !app_assoc, !toks_es_app. reflexivity.
  Qed.
  Lemma forest_single get h cs P ts : forest ops lr get h [] cs P ts -> exists c, cs = [c] /\ shape ops lr get h c P ts.
  Proof using Type.
    intros (c & cs' & P1 & P2 & t1 & t2 & -> & -> & -> & Hs & Hr). inversion Hr; subst. exists c. split; [reflexivity|].
    now rewrite !app_nil_r.
  Qed.

  Context (rd : snapshot) (kw : nat) (ps : N) (laws : ops_laws ops kw ps False (fun _ => True)).
  Context (Hcow : t_cow ops = true) (Hca : t_check_always ops = false).

  Lemma remove_up_ok w hl leaf p i st root hr P pre post Q :
    path ops lr (vget rd w) False hl leaf ((p, i) :: st) root hr P pre post ->
    pool_ok w (P ++ Q) -> coh rd w -> stack_ok ops w ((p, i) :: st) ->
    exists dp w1 n ks cs ks' cs' w2 w3 root1 P' X,
      get_dirty_page_id p w = (Ok dp, w1) /\ w_dirty w1 !! dp = Some n /\ t_int ops n = Some (INode ks cs) /\
      (exists csL csR, cs = csL ++ leaf :: csR /\ i = length csL) /\
      remove_child (INode ks cs) i = Ok (INode ks' cs') /\
      put_dirty dp (t_mk ops (INode ks' cs')) w1 = (Ok tt, w2) /\
      X `sublist_of` pre ++ post /\ toks_es X = toks_es (pre ++ post) /\
      shape ops lr (vget rd w3) hr root1 P' X /\
      ((exists c', ks' = [] /\ cs' = [c'] /\ propagate ops kw ps st (Some (p, c')) None w2 = (Ok (info root root1, None), w3) /\
          acc rd P w (P' ++ [dp]) w3) \/
       (ks' <> [] /\ (exists c1 c2 cs'', cs' = c1 :: c2 :: cs'') /\ propagate ops kw ps st (info p dp) None w2 = (Ok (info root root1, None), w3) /\
          acc rd P w P' w3)).
  Proof.
    intros Hp Hpool Hc Hst.
    inversion Hp as [|? ? ? n ksL csL ksR csR PL PR pre1 post1 ? ? ? P0 pre0 post0 Hg Hl Hi Hkne Hrm HL HR Hp0]; subst.
    inversion Hst as [|? ? [Hld _] Hst']; subst. cbn [fst] in Hld.
    assert (Hpool1 : pool_ok w (p :: (PL ++ PR ++ P0) ++ Q)) by exact Hpool.
    destruct (cow_ok rd w p n _ Hc Hld Hg Hpool1) as (dp & w1 & E1 & A1 & D1).
    destruct (forest_remove _ _ ksL ksR csL leaf csR PL PR pre1 post1 HL HR Hkne) as (ks' & cs' & X & Er & Hf & HX & HXe).
    destruct (put_dirty_ok rd w1 dp (t_mk ops (INode ks' cs')) _ D1) as (w2 & E2 & A2 & D2).
    assert (A12 : acc rd [p] w [dp] w2) by (eapply acc_trans; eassumption).
    change (p :: (PL ++ PR ++ P0) ++ Q) with ([p] ++ ((PL ++ PR ++ P0) ++ Q)) in Hpool1.
    pose proof (acc_pool' rd _ _ _ _ _ A12 Hpool1) as Hpool2.
    assert (Hview : forall q, q ∈ PL ++ PR ++ P0 -> vget rd w2 q = vget rd w q).
    { intros q Hq. eapply acc_view; [exact A12|exact Hpool1|set_solver]. }
    assert (Hf2 : forest ops lr (vget rd w2) hl ks' cs' (PL ++ PR) X).
    { destruct Hf as (c & cs1 & P1 & P2 & t1 & t2 & -> & EP & -> & Hs & Hr). exists c, cs1, P1, P2, t1, t2.
      split; [reflexivity|]. split; [exact EP|]. split; [reflexivity|].
      assert (HPP : forall q, q ∈ P1 ++ P2 -> vget rd w2 q = vget rd w q) by (intros q Hq; apply Hview; rewrite app_assoc, EP; set_solver).
      split; [eapply shape_frame|eapply rforest_frame]; try eassumption; intros q Hq; apply HPP; set_solver. }
    assert (Hp2 : path ops lr (vget rd w2) False (S hl) p st root hr P0 pre0 post0).
    { eapply path_frame; [exact lr_frame|exact Hp0|]. intros q Hq. apply Hview. set_solver. }
    assert (Hst2 : stack_ok ops w2 st).
    { assert (Hin : Forall (fun x => x.1 ∈ P0) st) by (eapply path_stack; [exact lr_frame|exact Hp0]). unfold stack_ok in *. rewrite Forall_forall in Hst', Hin |- *.
      intros x Hx. destruct (Hst' x Hx) as [H1 H2]. specialize (Hin x Hx). split; [|rewrite Hcow; discriminate].
      eapply acc_loaded'; [exact A12|exact Hpool1|set_solver|exact H1]. }
    assert (Hc2 : coh rd w2) by (eapply acc_coh'; eassumption).
    assert (HXX : pre0 ++ X ++ post0 `sublist_of` (pre0 ++ pre1) ++ post1 ++ post0).
    { replace ((pre0 ++ pre1) ++ post1 ++ post0) with (pre0 ++ (pre1 ++ post1) ++ post0) by lassoc.
      apply sublist_app; [reflexivity|]. now apply sublist_app. }
    assert (HXXe : toks_es (pre0 ++ X ++ post0) = toks_es ((pre0 ++ pre1) ++ post1 ++ post0)).
    { rewrite !toks_es_app, HXe, !toks_es_app. now rewrite <- !app_assoc. }
    destruct (list_eq_nil_dec ks') as [->|Hks].
    - destruct (forest_single _ _ _ _ _ Hf2) as (c' & -> & Hs2).
      assert (p <> c') as Hne.
      { intros ->. destruct (shape_head _ _ _ _ _ _ _ Hs2) as [P1 EP].
        pose proof (po_nodup _ _ Hpool) as Hnd. apply NoDup_app in Hnd as (Hnd & _ & _).
        apply NoDup_cons in Hnd as [Hnd _]. apply Hnd. rewrite app_assoc, EP. set_solver. }
      edestruct (propagate_ok ops lr lr_frame rd kw ps False (fun _ => True) laws st (S hl) p c' root hr P0 pre0 post0 w2 None (PL ++ PR) X ([dp] ++ Q))
        as (w3 & root1 & si' & P' & E3 & A3 & _ & Hh3).
      { exact Hp2. }
      { cbn [hole]. eapply shape_mono; [|exact Hs2]. lia. }
      { eapply pool_ok_perm; [|exact Hpool2]. solve_Permutation. }
      { exact Hc2. }
      { exact Hst2. }
      { rewrite Hcow. discriminate. }
      { apply Forall_true. auto. }
      pose proof (propagate_none ops kw ps st Hca _ _ _ _ _ E3) as ->. cbn [hole] in Hh3.
      rewrite info_diff in E3 by exact Hne.
      exists dp, w1, n, (ksL ++ ksR), (csL ++ leaf :: csR), [], [c'], w2, w3, root1, P', (pre0 ++ X ++ post0).
      split; [exact E1|]. split; [exact D1|]. split; [exact Hi|]. split; [eauto|]. split; [exact Er|]. split; [exact E2|].
      split; [exact HXX|]. split; [exact HXXe|]. split; [exact Hh3|]. left. exists c'. split; [reflexivity|]. split; [reflexivity|]. split; [exact E3|].
      apply (acc_perm_l rd ([p] ++ (PL ++ PR ++ P0))); [reflexivity|].
      eapply acc_trans; [apply acc_frame_r; exact A12|].
      apply (acc_perm_l rd ((P0 ++ PL ++ PR) ++ [dp])); [solve_Permutation|]. apply acc_frame_r. exact A3.
    - edestruct (propagate_ok ops lr lr_frame rd kw ps False (fun _ => True) laws st (S hl) p dp root hr P0 pre0 post0 w2 None (dp :: PL ++ PR) X Q)
        as (w3 & root1 & si' & P' & E3 & A3 & _ & Hh3).
      { exact Hp2. }
      { cbn [hole]. eapply forest_shape; [|apply (l_leaf_mk _ _ _ _ _ laws)|apply (l_int_mk _ _ _ _ _ laws)|exact Hks|exact Hf2].
        apply dirty_vget. rewrite D2. apply lookup_insert. }
      { eapply pool_ok_perm; [|exact Hpool2]. solve_Permutation. }
      { exact Hc2. }
      { exact Hst2. }
      { rewrite Hcow. discriminate. }
      { apply Forall_true. auto. }
      pose proof (propagate_none ops kw ps st Hca _ _ _ _ _ E3) as ->. cbn [hole] in Hh3.
      exists dp, w1, n, (ksL ++ ksR), (csL ++ leaf :: csR), ks', cs', w2, w3, root1, P', (pre0 ++ X ++ post0).
      split; [exact E1|]. split; [exact D1|]. split; [exact Hi|]. split; [eauto|]. split; [exact Er|]. split; [exact E2|].
      split; [exact HXX|]. split; [exact HXXe|]. split; [exact Hh3|]. right. split; [exact Hks|].
      split; [|split; [exact E3|]].
      + pose proof (forest_length _ _ _ _ _ _ _ _ Hf2) as El. destruct ks' as [|k0 ks0]; [congruence|]. destruct cs' as [|c1 [|c2 cs'']]; try discriminate El. eauto.
      + apply (acc_perm_l rd ([p] ++ (PL ++ PR ++ P0))); [reflexivity|].
        eapply acc_trans; [apply acc_frame_r; exact A12|].
        eapply acc_perm_l; [|exact A3]. solve_Permutation.
  Qed.

  (** Nothing to remove. *)
  Lemma keep_up_ok w hl leaf dl st root hr P pre post Q Pl tc :
    path ops lr (vget rd w) False hl leaf st root hr P pre post ->
    shape ops lr (vget rd w) hl dl Pl tc ->
    pool_ok w (P ++ Pl ++ Q) -> coh rd w -> stack_ok ops w st ->
    exists w' root1 P', propagate ops kw ps st (info leaf dl) None w = (Ok (info root root1, None), w') /\
      acc rd (P ++ Pl) w P' w' /\ shape ops lr (vget rd w') hr root1 P' (pre ++ tc ++ post).
  Proof.
    intros Hp Hs Hpool Hc Hst.
    edestruct (propagate_ok ops lr lr_frame rd kw ps False (fun _ => True) laws st hl leaf dl root hr P pre post w None Pl tc Q)
      as (w3 & root1 & si' & P' & E3 & A3 & _ & Hh3); try eassumption.
    { rewrite Hcow. discriminate. }
    { apply Forall_true. auto. }
    pose proof (propagate_none ops kw ps st Hca _ _ _ _ _ E3) as ->. cbn [hole] in Hh3.
    exists w3, root1, P'. auto.
  Qed.
End remove.

Section tsn_remove.
  Context (rd : snapshot) (kw : nat) (ps : N) (Hps : ps_ok ps).

  Lemma tsn_remove_ok w P Q root ids x :
    coh rd w -> pool_ok w (P ++ Q) -> tsntree (vget rd w) root P ids -> x ∈ ids -> loaded w root ->
    exists w' r rem P', tsn_remove rd kw ps root x w = (Ok (r, rem), w') /\ acc rd P w (P' ++ rem) w' /\
      match r with
      | None => P' = [] /\ ids = [x]
      | Some r' => exists ids', tsntree (vget rd w') r' P' ids' /\ ids ≡ₚ x :: ids'
      end.
  Proof.
    intros Hc Hp Ht Hx Hld. destruct (tsntree_head _ _ _ _ Ht) as [P1 ->].
    assert (exists n, vget rd w root = Some n) as [n Hn].
    { destruct Ht as (h & ts & Hs & _). inversion Hs; eauto. }
    destruct (cow_ok rd w root n (P1 ++ Q) Hc Hld Hn Hp) as (dr & w1 & E1 & A1 & D1).
    pose proof (acc_pool' rd _ _ _ _ _ A1 Hp) as Hp1.
    pose proof (acc_coh' rd _ _ _ _ A1 Hc) as Hc1.
    unfold tsn_remove. unfold wbind at 1. rewrite E1.
    unfold wbind at 1. unfold get_mut_dirty at 1. rewrite D1.
    destruct Ht as (h & ts & Hs & Ees & Hsrt).
    destruct (shape_int_forest _ _ _ _ _ _ _ Hs) as [(n' & Pl & es & Hg & Hl & EP & Ets & Hr)|(h' & n' & ks & cs & P0 & Eh & Hg & Hl & Hi & Hkne & EP & Hfo)];
      injection EP as EP; rewrite Hn in Hg; injection Hg as <-.
    - destruct Hr as [-> ->]. subst P1. subst ts. rewrite toks_es_map in Ees. subst es.
      destruct (position_split x ids Hx) as (l1 & l2 & -> & Hx1 & Epos). rewrite Epos. cbv zeta. rewrite vec_remove_app.
      destruct (put_dirty_ok rd w1 dr (NTsnLeaf (l1 ++ l2)) _ D1) as (w2 & E2 & A2 & D2).
      unfold wbind at 1. rewrite E2.
      assert (A12 : acc rd [root] w [dr] w2) by (eapply acc_trans; eassumption).
      destruct (is_nil (l1 ++ l2)) eqn:En.
      + destruct (l1 ++ l2) eqn:El; [|discriminate]. apply app_nil in El as [-> ->].
        exists w2, None, [dr], []. split; [reflexivity|]. split; [exact A12|]. auto.
      + exists w2, (Some dr), [], [dr]. split; [reflexivity|]. split; [exact A12|].
        exists (l1 ++ l2). split; [|solve_Permutation].
        exists 0%nat, (map TE (l1 ++ l2)). split; [|split].
        * eapply sh_leaf; [apply dirty_vget; rewrite D2; apply lookup_insert|reflexivity|split; reflexivity].
        * apply toks_es_map.
        * apply (ssorted_sublist _ _ (map TE (l1 ++ x :: l2))); [|exact Hsrt]. rewrite !map_app. apply sublist_app; [reflexivity|].
          cbn [map]. now apply sublist_cons.
    - destruct n; try discriminate Hl; try discriminate Hi. cbn [tsn_ops t_int] in Hi. injection Hi as ->.
      subst P1 h.
      assert (Hs1 : shape (tsn_rm_ops x) tsnleaf (vget rd w1) (S h') dr (dr :: P0) ts).
      { eapply shape_ops with (o1 := tsn_ops 0); [reflexivity|reflexivity|].
        eapply forest_shape; [apply dirty_vget; exact D1|reflexivity|reflexivity|exact Hkne|].
        assert (HPP : forall q, q ∈ P0 -> vget rd w1 q = vget rd w q).
        { intros q Hq. eapply acc_view; [exact A1|exact Hp|set_solver]. }
        destruct Hfo as (c & cs1 & PP1 & PP2 & t1 & t2 & -> & EP & -> & Hs' & Hr'). exists c, cs1, PP1, PP2, t1, t2.
        split; [reflexivity|]. split; [exact EP|]. split; [reflexivity|]. subst P0.
        split; [eapply shape_frame|eapply rforest_frame]; try eassumption; try apply tsnleaf_frame; intros q Hq; apply HPP; set_solver. }
      unfold wbind at 1. unfold gets at 1.
      assert (Hp1' : pool_ok w1 ((dr :: P0) ++ Q)) by exact Hp1. clear Hp1. rename Hp1' into Hp1.
      destruct (pool_height _ _ _ _ _ _ _ _ _ Hp1 Hs1) as (h0 & Hh & Hs0). clear Hs Hs1.
      edestruct (descend_ok (tsn_rm_ops x) tsnleaf tsnleaf_frame rd kw ps False (fun _ => True) (tsn_rm_laws kw ps Hps x)
        (StronglySorted (clt N.compare)) (fun k => cle N.compare k x) (fun k => clt N.compare x k)
        (fun ks ks' H1 H2 => ssorted_sublist _ ks ks' H1 H2)
        (fun ks cs Hl Hk => choose_lin_law x ks cs Hl Hk)
        _ h0 dr w1 [] dr h0 [] [] [] (dr :: P0) ts Hh)
        as (w2 & leaf & st & Pp & pre & post & n & Pl & es & E2 & S2 & C2 & [hl Hpath] & Hn2 & Hleaf & Hlr & Hld2 & Hst & _ & Etk & EP & Hpre & Hpost).
      { constructor. }
      { exact Hs0. }
      { exact Hc1. }
      { constructor. }
      { left; reflexivity. }
      { left; reflexivity. }
      { rewrite app_nil_r. cbn [app]. exact (tsorted_ks N.compare (@id N) ts Hsrt). }
      { discriminate. }
      cbn [app] in Etk. rewrite app_nil_r in Etk. cbn [app] in EP.
      destruct Hlr as [-> ->].
      unfold wbind at 1. rewrite E2.
      pose proof (sim_acc rd (dr :: P0) w1 w2 S2 C2) as A2.
      assert (Hp2 : pool_ok w2 ([leaf] ++ Pp ++ Q)).
      { eapply pool_ok_perm; [|eapply acc_pool'; [exact A2|exact Hp1]]. rewrite <- EP. solve_Permutation. }
      destruct (cow_ok rd w2 leaf (NTsnLeaf es) (Pp ++ Q) C2 Hld2 Hn2 Hp2) as (dl & w3 & E3 & A3 & D3).
      unfold wbind at 1. rewrite E3.
      unfold wbind at 1. unfold get_mut_dirty at 1. rewrite D3.
      rewrite <- Etk in Hsrt.
      destruct (search_split N.compare N_cmp_ok id x pre es post Hsrt Hpre Hpost) as (Hpre' & Hpost' & Hes).
      assert (Hxe : x ∈ es).
      { rewrite <- Ees, <- Etk, !toks_es_app, toks_es_map in Hx. rewrite !elem_of_app in Hx. destruct Hx as [Hx|[Hx|Hx]]; [exfalso|exact Hx|exfalso].
        - specialize (Hpre' _ (proj1 (elem_toks_es _ _) Hx)). cbn in Hpre'. apply (proj1 (cltN _ _)) in Hpre'. exact (N.lt_irrefl _ Hpre').
        - specialize (Hpost' _ (proj1 (elem_toks_es _ _) Hx)). cbn in Hpost'. apply (proj1 (cltN _ _)) in Hpost'. exact (N.lt_irrefl _ Hpost'). }
      destruct (position_split x es Hxe) as (l1 & l2 & -> & Hx1 & Epos). rewrite Epos. cbv zeta. rewrite vec_remove_app.
      destruct (put_dirty_ok rd w3 dl (NTsnLeaf (l1 ++ l2)) _ D3) as (w4 & E4 & A4 & D4).
      unfold wbind at 1. rewrite E4.
      assert (A34 : acc rd [leaf] w2 [dl] w4) by (eapply acc_trans; eassumption).
      pose proof (acc_pool' rd _ _ _ _ _ A34 Hp2) as Hp4.
      pose proof (acc_coh' rd _ _ _ _ A34 C2) as Hc4.
      assert (Hpath4 : path (tsn_rm_ops x) tsnleaf (vget rd w4) False hl leaf st dr h0 Pp pre post).
      { eapply path_frame; [apply tsnleaf_frame|exact Hpath|]. intros q Hq. eapply acc_view; [exact A34|exact Hp2|set_solver]. }
      assert (Hst4 : stack_ok (tsn_rm_ops x) w4 st).
      { assert (Hin : Forall (fun x => x.1 ∈ Pp) st) by (eapply path_stack; [apply tsnleaf_frame|exact Hpath]).
        unfold stack_ok in *. rewrite Forall_forall in Hst, Hin |- *.
        intros y Hy. destruct (Hst y Hy) as [H1 H2]. specialize (Hin y Hy). split; [|discriminate].
        eapply acc_loaded'; [exact A34|exact Hp2|set_solver|exact H1]. }
      assert (Aall : acc rd (root :: P0) w (dl :: Pp) w4).
      { eapply acc_trans; [apply (acc_frame_r rd P0 [root] w [dr] w1); exact A1|].
        eapply acc_trans; [exact A2|]. eapply acc_perm_l; [exact EP|].
        apply (acc_perm_l rd ([leaf] ++ Pp)); [solve_Permutation|]. apply (acc_frame_r rd Pp [leaf] w2 [dl] w4). exact A34. }
      assert (Hids : ids = toks_es pre ++ (l1 ++ x :: l2) ++ toks_es post).
      { rewrite <- Ees, <- Etk, !toks_es_app, toks_es_map. reflexivity. }
      unfold tsn_remove_up.
      destruct (is_nil (l1 ++ l2)) eqn:En.
      + destruct (l1 ++ l2) eqn:El; [|discriminate]. apply app_nil in El as [-> ->]. cbn [app] in *.
        destruct st as [|[p i] st].
        { exfalso. inversion Hpath; subst. assert (Some (NTsnLeaf [x]) = Some (NTsnInt (INode ks cs))); [|congruence].
          rewrite <- Hn2, <- (dirty_vget rd w1 _ _ D1). now apply sim_view. }
        destruct (remove_up_ok (tsn_rm_ops x) tsnleaf tsnleaf_frame rd kw ps (tsn_rm_laws kw ps Hps x) eq_refl eq_refl
          w4 hl leaf p i st dr h0 Pp pre post (dl :: Q) Hpath4)
          as (dp & w5 & nn & ks0 & cs0 & ks1 & cs1 & w6 & w7 & root1 & P' & X & E5 & D5 & Ei & _ & Er & E6 & HX & HXe & HsX & Hcase).
        { eapply pool_ok_perm; [|exact Hp4]. solve_Permutation. }
        { exact Hc4. }
        { exact Hst4. }
        unfold wbind at 1. unfold wbind at 1. rewrite E5.
        unfold wbind at 1. unfold get_mut_dirty at 1. rewrite D5.
        destruct nn; try discriminate Ei. cbn [tsn_rm_ops t_int] in Ei. injection Ei as ->.
        unfold wbind at 1. unfold lift at 1. rewrite Er.
        cbn [tsn_rm_ops t_mk] in E6. unfold wbind at 1. rewrite E6. cbn [in_children].
        assert (HX' : tsorted N.compare id X).
        { eapply (ssorted_sublist _ X); [|exact Hsrt]. etransitivity; [exact HX|]. apply sublist_app; [reflexivity|]. now apply sublist_inserts_l. }
        assert (Htree : tsntree (vget rd w7) root1 P' (toks_es (pre ++ post)) /\ ids ≡ₚ x :: toks_es (pre ++ post)).
        { split.
          - exists h0, X. split; [eapply shape_ops; [| |exact HsX]; reflexivity|]. auto.
          - rewrite Hids, toks_es_app. solve_Permutation. }
        destruct Hcase as [(c' & -> & -> & E7 & A7)|(Hks & (c1 & c2 & cs2 & ->) & E7 & A7)].
        * unfold wbind at 1. rewrite E7.
          exists w7, (Some root1), [dl; dp], P'. split.
          { unfold ret. repeat f_equal. unfold info. destruct (N.eqb_spec dr root1); congruence. }
          split; [|eauto].
          eapply acc_trans; [exact Aall|]. apply (acc_perm_l rd (Pp ++ [dl])); [solve_Permutation|].
          apply (acc_perm_r rd _ _ ((P' ++ [dp]) ++ [dl])); [solve_Permutation|]. apply acc_frame_r. exact A7.
        * unfold wbind at 1. rewrite E7.
          exists w7, (Some root1), [dl], P'. split.
          { unfold ret. repeat f_equal. unfold info. destruct (N.eqb_spec dr root1); congruence. }
          split; [|eauto].
          eapply acc_trans; [exact Aall|]. apply (acc_perm_l rd (Pp ++ [dl])); [solve_Permutation|]. apply acc_frame_r. exact A7.
      + destruct (keep_up_ok (tsn_rm_ops x) tsnleaf tsnleaf_frame rd kw ps (tsn_rm_laws kw ps Hps x) eq_refl eq_refl
          w4 hl leaf dl st dr h0 Pp pre post Q [dl] (map TE (l1 ++ l2)) Hpath4) as (w5 & root1 & P' & E5 & A5 & HsX).
        { eapply sh_leaf; [apply dirty_vget; rewrite D4; apply lookup_insert|reflexivity|split; reflexivity]. }
        { eapply pool_ok_perm; [|exact Hp4]. solve_Permutation. }
        { exact Hc4. }
        { exact Hst4. }
        unfold wbind at 1. unfold wbind at 1. rewrite E5.
        exists w5, (Some root1), [], P'. split.
        { unfold ret. repeat f_equal. unfold info. destruct (N.eqb_spec dr root1); congruence. }
        split.
        { rewrite app_nil_r. eapply acc_trans; [exact Aall|]. eapply acc_perm_l; [|exact A5]. solve_Permutation. }
        exists (toks_es (pre ++ map TE (l1 ++ l2) ++ post)). split.
        * exists h0, (pre ++ map TE (l1 ++ l2) ++ post). split; [eapply shape_ops; [| |exact HsX]; reflexivity|]. split; [reflexivity|].
          eapply ssorted_sublist; [|exact Hsrt]. apply sublist_app; [reflexivity|]. apply sublist_app; [|reflexivity].
          rewrite !map_app. apply sublist_app; [reflexivity|]. now apply sublist_cons.
        * rewrite Hids, !toks_es_app, toks_es_map. solve_Permutation.
  Qed.
End tsn_remove.
