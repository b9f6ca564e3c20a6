(** Shape of the copy-on-write trees, and correctness of the shared descent and walk-up loops. *)
From Verif Require Export Store.
Local Open Scope N_scope.

Ltac lassoc := repeat first [rewrite <- app_assoc | progress cbn [app]]; rewrite ?app_nil_r; reflexivity.

(** In-order content of a tree: leaf entries and separator keys. *)
Inductive tok (K E : Type) := TE (e : E) | TS (k : K).
Arguments TE {K E} _. Arguments TS {K E} _.

Definition toks_es {K E} (ts : list (tok K E)) : list E :=
  omap (fun t => match t with TE e => Some e | TS _ => None end) ts.
Definition toks_ks {K E} (ts : list (tok K E)) : list K :=
  omap (fun t => match t with TE _ => None | TS k => Some k end) ts.

Section shape.
  Context {K E : Type} (ops : tree_ops K).
  (** [leafrep get n P es]: the leaf node [n] holds the entries [es]; [P] are the pages it refers to. *)
  Context (leafrep : (N -> option node) -> node -> list N -> list E -> Prop).
  Notation tok := (tok K E).

  (** [h] bounds the height (the free list trees are not balanced). *)
  Inductive shape (get : N -> option node) : nat -> N -> list N -> list tok -> Prop :=
  | sh_leaf p n P es h :
      get p = Some n -> t_leaf ops n = true -> leafrep get n P es ->
      shape get h p (p :: P) (map TE es)
  | sh_int h p n ks c cs P ts P' ts' :
      get p = Some n -> t_leaf ops n = false -> t_int ops n = Some (INode ks (c :: cs)) -> ks <> [] ->
      shape get h c P ts -> rforest get h ks cs P' ts' ->
      shape get (S h) p (p :: P ++ P') (ts ++ ts')
  with rforest (get : N -> option node) : nat -> list K -> list N -> list N -> list tok -> Prop :=
  | rf_nil h : rforest get h [] [] [] []
  | rf_cons h k ks c cs P ts P' ts' :
      shape get h c P ts -> rforest get h ks cs P' ts' ->
      rforest get h (k :: ks) (c :: cs) (P ++ P') (TS k :: ts ++ ts').

  Scheme shape_mut := Induction for shape Sort Prop
    with rforest_mut := Induction for rforest Sort Prop.
  Combined Scheme shape_rforest_ind from shape_mut, rforest_mut.

  (** Left siblings, each followed by its separator. *)
  Inductive lforest (get : N -> option node) (h : nat) : list K -> list N -> list N -> list tok -> Prop :=
  | lf_nil : lforest get h [] [] [] []
  | lf_cons k ks c cs P ts P' ts' :
      shape get h c P ts -> lforest get h ks cs P' ts' ->
      lforest get h (k :: ks) (c :: cs) (P ++ P') (ts ++ TS k :: ts').

  Context (leafrep_frame : forall get get' n P es,
    leafrep get n P es -> (forall q, q ∈ P -> get' q = get q) -> leafrep get' n P es).

  Lemma shape_frame_mut get get' :
    (forall h p P ts, shape get h p P ts -> (forall q, q ∈ P -> get' q = get q) -> shape get' h p P ts) /\
    (forall h ks cs P ts, rforest get h ks cs P ts -> (forall q, q ∈ P -> get' q = get q) -> rforest get' h ks cs P ts).
  Proof.
    apply (shape_rforest_ind get
      (fun h p P ts _ => (forall q, q ∈ P -> get' q = get q) -> shape get' h p P ts)
      (fun h ks cs P ts _ => (forall q, q ∈ P -> get' q = get q) -> rforest get' h ks cs P ts)).
    - intros p n P es h Hg Hl Hr Hq. econstructor; [|exact Hl|].
      + rewrite Hq by set_solver. exact Hg.
      + eapply leafrep_frame; [exact Hr|]. set_solver.
    - intros h p n ks c cs P ts P' ts' Hg Hl Hi Hne _ IH1 _ IH2 Hq. econstructor; [|exact Hl|exact Hi|exact Hne| |].
      + rewrite Hq by set_solver. exact Hg.
      + apply IH1. set_solver.
      + apply IH2. set_solver.
    - intros. constructor.
    - intros h k ks c cs P ts P' ts' _ IH1 _ IH2 Hq. constructor; [apply IH1|apply IH2]; set_solver.
  Qed.
  Lemma shape_frame get get' h p P ts :
    shape get h p P ts -> (forall q, q ∈ P -> get' q = get q) -> shape get' h p P ts.
  Proof. apply (proj1 (shape_frame_mut get get')). Qed.
  Lemma rforest_frame get get' h ks cs P ts :
    rforest get h ks cs P ts -> (forall q, q ∈ P -> get' q = get q) -> rforest get' h ks cs P ts.
  Proof. apply (proj2 (shape_frame_mut get get')). Qed.
  Lemma lforest_frame get get' h ks cs P ts :
    lforest get h ks cs P ts -> (forall q, q ∈ P -> get' q = get q) -> lforest get' h ks cs P ts.
  Proof.
    induction 1 as [|k ks c cs P ts P' ts' H1 H2 IH]; intros Hq; constructor.
    - eapply shape_frame; [exact H1|set_solver].
    - apply IH. set_solver.
  Qed.

  Lemma shape_mono_mut get :
    (forall h p P ts, shape get h p P ts -> shape get (S h) p P ts) /\
    (forall h ks cs P ts, rforest get h ks cs P ts -> rforest get (S h) ks cs P ts).
  Proof.
    apply (shape_rforest_ind get
      (fun h p P ts _ => shape get (S h) p P ts)
      (fun h ks cs P ts _ => rforest get (S h) ks cs P ts)); intros; econstructor; eassumption.
  Qed.
  Lemma shape_mono get h h' p P ts : (h <= h')%nat -> shape get h p P ts -> shape get h' p P ts.
  Proof. induction 1; auto. intros H'. now apply (proj1 (shape_mono_mut get)), IHle. Qed.

  Lemma rforest_length get h ks cs P ts : rforest get h ks cs P ts -> length ks = length cs.
  Proof. revert ks P ts. induction cs as [|c cs IH]; intros ks P ts; inversion 1; subst; cbn; auto. f_equal. eauto. Qed.
  Lemma lforest_length get h ks cs P ts : lforest get h ks cs P ts -> length ks = length cs.
  Proof. induction 1; cbn; auto. Qed.

  Lemma shape_head get h p P ts : shape get h p P ts -> exists P', P = p :: P'.
  Proof. inversion 1; eauto. Qed.

  Lemma rforest_app get h ks cs P ts ks' cs' P' ts' :
    rforest get h ks cs P ts -> rforest get h ks' cs' P' ts' ->
    rforest get h (ks ++ ks') (cs ++ cs') (P ++ P') (ts ++ ts').
  Proof.
    intros H H'. revert ks P ts H. induction cs as [|c cs IH]; intros ks P ts H.
    - inversion H; subst. exact H'.
    - inversion H; subst. cbn [app]. rewrite <- !app_assoc. constructor; auto.
  Qed.
  Lemma rforest_app_inv get h ks ks' cs cs' P ts :
    rforest get h (ks ++ ks') (cs ++ cs') P ts -> length ks = length cs ->
    exists P1 P2 t1 t2, P = P1 ++ P2 /\ ts = t1 ++ t2 /\ rforest get h ks cs P1 t1 /\ rforest get h ks' cs' P2 t2.
  Proof.
    revert cs P ts. induction ks as [|k ks IH]; intros [|c cs] P ts H HL; try discriminate HL.
    - exists [], P, [], ts. repeat split; auto. constructor.
    - cbn [app] in H. inversion H as [|? ? ? ? ? P0 t0 P0' t0' Hs Hr]; subst.
      apply IH in Hr as (P1 & P2 & t1 & t2 & -> & -> & H1 & H2); [|cbn in HL; lia].
      exists (P0 ++ P1), P2, (TS k :: t0 ++ t1), t2.
      repeat split; auto; [apply app_assoc|cbn [app]; now rewrite <- app_assoc|]. constructor; auto.
  Qed.

  (** A nonempty alternation of children and keys. *)
  Definition forest get h (ks : list K) (cs : list N) (P : list N) (ts : list tok) : Prop :=
    exists c cs' P1 P2 t1 t2, cs = c :: cs' /\ P = P1 ++ P2 /\ ts = t1 ++ t2 /\
      shape get h c P1 t1 /\ rforest get h ks cs' P2 t2.

  Lemma forest_length get h ks cs P ts : forest get h ks cs P ts -> length cs = S (length ks).
  Proof.
    intros (c & cs' & P1 & P2 & t1 & t2 & -> & -> & -> & _ & H). apply rforest_length in H. cbn. lia.
  Qed.

  Lemma shape_int_forest get h p P ts :
    shape get h p P ts ->
    (exists n P0 es, get p = Some n /\ t_leaf ops n = true /\ P = p :: P0 /\ ts = map TE es /\ leafrep get n P0 es) \/
    (exists h' n ks cs P0, h = S h' /\ get p = Some n /\ t_leaf ops n = false /\ t_int ops n = Some (INode ks cs) /\
      ks <> [] /\ P = p :: P0 /\ forest get h' ks cs P0 ts).
  Proof.
    inversion 1; subst; [left; eauto 10|right]. do 5 eexists. do 6 (split; [eassumption || reflexivity|]).
    do 6 eexists. repeat split; eassumption.
  Qed.
  Lemma forest_shape get h p n ks cs P ts :
    get p = Some n -> t_leaf ops n = false -> t_int ops n = Some (INode ks cs) -> ks <> [] ->
    forest get h ks cs P ts -> shape get (S h) p (p :: P) ts.
  Proof.
    intros H1 H2 H3 H4 (c & cs' & P1 & P2 & t1 & t2 & -> & -> & -> & Hs & Hr). econstructor; eassumption.
  Qed.

  Lemma forest_unplug get h ksL ksR csL c csR P ts :
    forest get h (ksL ++ ksR) (csL ++ c :: csR) P ts -> length ksL = length csL ->
    exists PL Pc PR pre tc post, P = PL ++ Pc ++ PR /\ ts = pre ++ tc ++ post /\
      lforest get h ksL csL PL pre /\ shape get h c Pc tc /\ rforest get h ksR csR PR post.
  Proof using K E leafrep ops.
    clear leafrep_frame.
    revert ksL P ts. induction csL as [|c0 csL IH]; intros [|k ksL] P ts H HL; try discriminate HL.
    - destruct H as (c' & cs' & P1 & P2 & t1 & t2 & Ec & -> & -> & Hs & Hr). cbn [app] in Ec, Hr. injection Ec as <- <-.
      exists [], P1, P2, [], t1, t2. cbn [app]. repeat split; auto. constructor.
    - destruct H as (c' & cs' & P1 & P2 & t1 & t2 & Ec & -> & -> & Hs & Hr). cbn [app] in Ec, Hr. injection Ec as <- <-.
      assert (exists c1 cs1, csL ++ c :: csR = c1 :: cs1) as (c1 & cs1 & E1).
      { destruct csL; cbn; eauto. }
      rewrite E1 in Hr. inversion Hr as [|? ? ? ? ? P0 t0 P0' t0' Hs' Hr']; subst.
      destruct (IH ksL (P0 ++ P0') (t0 ++ t0')) as (PL & Pc & PR & pre & tc & post & HP & Ht & HL' & Hc & HR).
      { exists c1, cs1, P0, P0', t0, t0'. auto. }
      { cbn in HL. lia. }
      exists (P1 ++ PL), Pc, PR, (t1 ++ TS k :: pre), tc, post. rewrite HP, Ht.
      repeat split; auto.
      + now rewrite <- app_assoc.
      + rewrite <- app_assoc. reflexivity.
      + constructor; auto.
  Qed.
  Lemma forest_plug get h ksL ksR csL c csR PL Pc PR pre tc post :
    lforest get h ksL csL PL pre -> shape get h c Pc tc -> rforest get h ksR csR PR post ->
    forest get h (ksL ++ ksR) (csL ++ c :: csR) (PL ++ Pc ++ PR) (pre ++ tc ++ post).
  Proof.
    intros HL Hc HR. induction HL as [|k ks c0 cs P ts P' ts' Hs HL IH].
    - cbn [app]. do 6 eexists. repeat split; eassumption.
    - destruct IH as (c' & cs' & P1 & P2 & t1 & t2 & Ec & EP & Et & Hs' & Hr).
      cbn [app]. rewrite Ec. rewrite <- !app_assoc. cbn [app]. rewrite EP, Et.
      exists c0, (c' :: cs'), P, (P1 ++ P2), ts, (TS k :: t1 ++ t2). repeat split; auto. constructor; auto.
  Qed.
  Lemma lforest_snoc get h ksL csL PL pre k c Pc tc :
    lforest get h ksL csL PL pre -> shape get h c Pc tc ->
    lforest get h (ksL ++ [k]) (csL ++ [c]) (PL ++ Pc) (pre ++ tc ++ [TS k]).
  Proof.
    intros HL Hc. induction HL as [|k0 ks c0 cs P ts P' ts' Hs HL IH].
    - cbn [app]. rewrite <- (app_nil_r Pc). constructor; [exact Hc|constructor].
    - cbn [app]. rewrite <- !app_assoc. cbn [app]. constructor; auto.
  Qed.

  (** Splitting a node. *)
  Lemma forest_split get h ksL k ksR csL csR P ts :
    forest get h (ksL ++ k :: ksR) (csL ++ csR) P ts -> length csL = S (length ksL) ->
    exists P1 P2 t1 t2, P = P1 ++ P2 /\ ts = t1 ++ TS k :: t2 /\
      forest get h ksL csL P1 t1 /\ forest get h ksR csR P2 t2.
  Proof.
    intros (c & cs' & P1 & P2 & t1 & t2 & Ec & -> & -> & Hs & Hr) HL.
    destruct csL as [|c0 csL]; [discriminate HL|]. cbn [app] in Ec. injection Ec as <- <-.
    apply rforest_app_inv in Hr as (Q1 & Q2 & u1 & u2 & -> & -> & H1 & H2); [|cbn in HL; lia].
    inversion H2; subst. do 4 eexists. split; [|split; [|split]].
    - apply app_assoc.
    - rewrite app_assoc. reflexivity.
    - do 6 eexists. repeat split; eassumption.
    - do 6 eexists. repeat split; eassumption.
  Qed.

  (** Separators of a node, in order, are tokens of the tree. *)
  Lemma rforest_ks get h ks cs P ts : rforest get h ks cs P ts -> ks `sublist_of` toks_ks ts.
  Proof.
    revert ks P ts. induction cs as [|c cs IH]; intros ks P ts; inversion 1 as [|? ? ? ? ? P0 t0 P0' t0' Hs Hr]; subst.
    - reflexivity.
    - unfold toks_ks. cbn [omap list_omap]. apply sublist_skip. rewrite omap_app.
      etransitivity; [eapply IH; exact Hr|]. apply sublist_inserts_l. reflexivity.
  Qed.
  Lemma forest_ks get h ks cs P ts : forest get h ks cs P ts -> ks `sublist_of` toks_ks ts.
  Proof.
    intros (c & cs' & P1 & P2 & t1 & t2 & -> & -> & -> & Hs & Hr). apply rforest_ks in Hr.
    unfold toks_ks in *. rewrite omap_app. now apply sublist_inserts_l.
  Qed.

  (** ** Paths from the root to a hole *)
  Inductive path (get : N -> option node) (rm : Prop) :
    nat -> N -> list (N * nat) -> N -> nat -> list N -> list tok -> list tok -> Prop :=
  | pa_nil h c : path get rm h c [] c h [] [] []
  | pa_cons h c p n ksL csL ksR csR PL PR pre post st root hr P pre' post' :
      get p = Some n -> t_leaf ops n = false ->
      t_int ops n = Some (INode (ksL ++ ksR) (csL ++ c :: csR)) -> ksL ++ ksR <> [] ->
      (rm -> csR = []) ->
      lforest get h ksL csL PL pre -> rforest get h ksR csR PR post ->
      path get rm (S h) p st root hr P pre' post' ->
      path get rm h c ((p, length csL) :: st) root hr (p :: PL ++ PR ++ P) (pre' ++ pre) (post ++ post').

  Lemma path_frame get get' rm h c st root hr P pre post :
    path get rm h c st root hr P pre post -> (forall q, q ∈ P -> get' q = get q) ->
    path get' rm h c st root hr P pre post.
  Proof.
    induction 1 as [|h c p n ksL csL ksR csR PL PR pre post st root hr P pre' post' Hg Hl Hi Hkne Hrm HL HR Hp IH]; intros Hq.
    - constructor.
    - econstructor; [rewrite Hq by set_solver; exact Hg|exact Hl|exact Hi|exact Hkne|exact Hrm| | |].
      + eapply lforest_frame; [exact HL|]. set_solver.
      + eapply rforest_frame; [exact HR|]. set_solver.
      + apply IH. set_solver.
  Qed.

  Lemma path_plug get rm h c st root hr P pre post Pc tc :
    path get rm h c st root hr P pre post -> shape get h c Pc tc ->
    exists P', shape get hr root P' (pre ++ tc ++ post) /\ P' ≡ₚ P ++ Pc.
  Proof.
    intros Hp. revert Pc tc.
    induction Hp as [h c|h c p n ksL csL ksR csR PL PR pre post st root hr P pre' post' Hg Hl Hi Hkne Hrm HL HR Hp IH];
      intros Pc tc Hc.
    - exists Pc. cbn [app]. rewrite app_nil_r. split; [exact Hc|reflexivity].
    - pose proof (forest_plug _ _ _ _ _ _ _ _ _ _ _ _ _ HL Hc HR) as Hf.
      pose proof (forest_shape _ _ _ _ _ _ _ _ Hg Hl Hi Hkne Hf) as Hs.
      destruct (IH _ _ Hs) as (P' & HP' & Hperm). exists P'. split.
      + match type of HP' with shape _ _ _ _ ?t => replace ((pre' ++ pre) ++ tc ++ post ++ post') with t by lassoc end.
        exact HP'.
      + rewrite Hperm. solve_Permutation.
  Qed.

  Lemma path_stack get rm h c st root hr P pre post :
    path get rm h c st root hr P pre post -> Forall (fun x => x.1 ∈ P) st.
  Proof.
    induction 1 as [|h c p n ksL csL ksR csR PL PR pre post st root hr P pre' post' Hg Hl Hi Hkne Hrm HL HR Hp IH].
    - constructor.
    - constructor; [cbn; set_solver|]. eapply Forall_impl; [exact IH|]. cbn. intros x Hx. set_solver.
  Qed.

  (** ** The walk back up *)
  Context (rd : snapshot) (kw : nat) (ps : N) (rm : Prop) (kok : K -> Prop).

  Record ops_laws : Prop := {
    l_int_mk : forall nd, t_int ops (t_mk ops nd) = Some nd;
    l_leaf_mk : forall nd, t_leaf ops (t_mk ops nd) = false;
    l_repl : forall ksL ksR csL c csR c', length ksL = length csL -> length ksR = length csR -> (rm -> csR = []) ->
      t_repl ops (INode (ksL ++ ksR) (csL ++ c :: csR)) (length csL) c c' = Ok (INode (ksL ++ ksR) (csL ++ c' :: csR));
    l_ins : forall ksL ksR csL c csR k q, length ksL = length csL -> length ksR = length csR -> (rm -> csR = []) ->
      t_ins ops (INode (ksL ++ ksR) (csL ++ c :: csR)) (length csL) k q
      = INode (ksL ++ k :: ksR) (csL ++ c :: q :: csR);
    l_split : forall ks cs, length cs = S (length ks) -> Forall kok ks ->
      ps < page_size_of kw (t_mk ops (INode ks cs)) ->
      (3 <= length ks)%nat /\
      exists ksL k ksR csL csR, t_split ops (INode ks cs) = Ok (INode ksL csL, k, INode ksR csR) /\
        ks = ksL ++ k :: ksR /\ cs = csL ++ csR /\ length csL = S (length ksL) /\ ksL <> [] /\ ksR <> [] }.

  Definition hole get h (c : N) (sinfo : option (K * N)) (Pc : list N) (tc : list tok) : Prop :=
    match sinfo with
    | None => shape get h c Pc tc
    | Some (k, q) => exists P1 P2 t1 t2, Pc = P1 ++ P2 /\ tc = t1 ++ TS k :: t2 /\
                       shape get h c P1 t1 /\ shape get h q P2 t2
    end.

  Lemma hole_frame get get' h c si Pc tc :
    hole get h c si Pc tc -> (forall q, q ∈ Pc -> get' q = get q) -> hole get' h c si Pc tc.
  Proof.
    destruct si as [[k q]|]; cbn.
    - intros (P1 & P2 & t1 & t2 & -> & -> & H1 & H2) Hq. do 4 eexists. repeat split.
      + eapply shape_frame; [exact H1|set_solver].
      + eapply shape_frame; [exact H2|set_solver].
    - intros H Hq. eapply shape_frame; eassumption.
  Qed.

  Lemma hole_mono get h h' c si Pc tc : (h <= h')%nat -> hole get h c si Pc tc -> hole get h' c si Pc tc.
  Proof.
    intros Hle. destruct si as [[k q]|]; cbn.
    - intros (P1 & P2 & t1 & t2 & -> & -> & H1 & H2). do 4 eexists. repeat split; eapply shape_mono; eassumption.
    - now apply shape_mono.
  Qed.

  Lemma info_same c : info c c = None.
  Proof. unfold info. now rewrite N.eqb_refl. Qed.
  Lemma info_diff c c' : c <> c' -> info c c' = Some (c, c').
  Proof. unfold info. intros H. now rewrite (proj2 (N.eqb_neq c c') H). Qed.

  Context (laws : ops_laws).

  (** The parent's content after the replacement and insertion. *)
  Lemma node_update get h ksL ksR csL c0 c csR si PL Pc PR pre tc post :
    lforest get h ksL csL PL pre -> rforest get h ksR csR PR post -> (rm -> csR = []) -> ksL ++ ksR <> [] ->
    hole get h c si Pc tc ->
    exists nd1 ks cs,
      match info c0 c with
      | Some (old, new) => t_repl ops (INode (ksL ++ ksR) (csL ++ c0 :: csR)) (length csL) old new
      | None => Ok (INode (ksL ++ ksR) (csL ++ c0 :: csR))
      end = Ok nd1 /\
      match si with Some (k, q) => t_ins ops nd1 (length csL) k q | None => nd1 end = INode ks cs /\
      ks <> [] /\ forest get h ks cs (PL ++ Pc ++ PR) (pre ++ tc ++ post).
  Proof.
    intros HL HR Hrm Hkne Hh.
    pose proof (lforest_length _ _ _ _ _ _ HL) as EL. pose proof (rforest_length _ _ _ _ _ _ HR) as ER.
    exists (INode (ksL ++ ksR) (csL ++ c :: csR)).
    destruct si as [[k q]|]; cbn [hole] in Hh.
    - destruct Hh as (P1 & P2 & t1 & t2 & -> & -> & H1 & H2).
      exists (ksL ++ k :: ksR), (csL ++ c :: q :: csR). split; [|split; [|split; [now destruct ksL|]]].
      + destruct (decide (c0 = c)) as [->|Hne]; [now rewrite info_same|]. rewrite info_diff by exact Hne.
        now apply (l_repl laws).
      + now apply (l_ins laws).
      + pose proof (forest_plug get h ksL (k :: ksR) csL c (q :: csR) PL P1 (P2 ++ PR) pre t1 (TS k :: t2 ++ post) HL H1
          (rf_cons _ _ _ _ _ _ _ _ _ _ H2 HR)) as H.
        replace (PL ++ (P1 ++ P2) ++ PR) with (PL ++ P1 ++ P2 ++ PR) by lassoc.
        replace (pre ++ (t1 ++ TS k :: t2) ++ post) with (pre ++ t1 ++ TS k :: t2 ++ post) by lassoc. exact H.
    - exists (ksL ++ ksR), (csL ++ c :: csR). split; [|split; [reflexivity|split; [exact Hkne|]]].
      + destruct (decide (c0 = c)) as [->|Hne]; [now rewrite info_same|]. rewrite info_diff by exact Hne.
        now apply (l_repl laws).
      + now apply forest_plug.
  Qed.

  Definition stack_ok w (st : list (N * nat)) : Prop :=
    Forall (fun x => loaded w x.1 /\ (t_cow ops = false -> is_Some (w_dirty w !! x.1))) st.

  Lemma propagate_ok : forall st h c0 c root hr P pre post w si Pc tc Q,
    path (vget rd w) rm h c0 st root hr P pre post ->
    hole (vget rd w) h c si Pc tc ->
    pool_ok w (P ++ Pc ++ Q) -> coh rd w -> stack_ok w st ->
    (t_cow ops = false -> c0 = c) ->
    Forall kok (toks_ks (pre ++ tc ++ post)) ->
    exists w' root1 si' P',
      propagate ops kw ps st (info c0 c) si w = (Ok (info root root1, si'), w') /\
      acc rd (P ++ Pc) w P' w' /\ (t_cow ops = false -> root = root1) /\
      hole (vget rd w') hr root1 si' P' (pre ++ tc ++ post).
  Proof.
    induction st as [|[p i] st IH]; intros h c0 c root hr P pre post w si Pc tc Q Hp Hh Hpool Hcoh Hst Hcow Hkok.
    { inversion Hp; subst. exists w, c, si, Pc. cbn [propagate app]. rewrite app_nil_r.
      split; [reflexivity|]. split; [apply acc_refl|]. split; [exact Hcow|exact Hh]. }
    inversion Hp as [|? ? ? n ksL csL ksR csR PL PR pre1 post1 ? ? ? P0 pre0 post0 Hg Hl Hi Hkne Hrm HL HR Hp0]; subst.
    apply Forall_cons in Hst as [[Hload Hd] Hst]. cbn [fst] in Hload, Hd.
    assert (Eperm : (p :: PL ++ PR ++ P0) ++ Pc ++ Q ≡ₚ [p] ++ (PL ++ Pc ++ PR) ++ P0 ++ Q) by solve_Permutation.
    pose proof (pool_ok_perm _ _ _ Eperm Hpool) as Hpool1.
    assert (Etoks : (pre0 ++ pre1) ++ tc ++ post1 ++ post0 = pre0 ++ (pre1 ++ tc ++ post1) ++ post0) by lassoc.
    rewrite Etoks in Hkok |- *.
    (* assembling the rest of the walk *)
    assert (Hrest : forall dp w4 si4 Pn,
      acc rd [p] w Pn w4 ->
      (t_cow ops = false -> p = dp) ->
      (exists Pc4, hole (vget rd w4) (S h) dp si4 Pc4 (pre1 ++ tc ++ post1) /\ Pc4 ≡ₚ Pn ++ (PL ++ Pc ++ PR)) ->
      exists w' root1 si' P',
        propagate ops kw ps st (info p dp) si4 w4 = (Ok (info root root1, si'), w') /\
        acc rd ((p :: PL ++ PR ++ P0) ++ Pc) w P' w' /\ (t_cow ops = false -> root = root1) /\
        hole (vget rd w') hr root1 si' P' (pre0 ++ (pre1 ++ tc ++ post1) ++ post0)).
    { intros dp w4 si4 Pn Hacc Hdp (Pc4 & Hh4 & Ep4).
      pose proof (acc_pool' rd _ _ _ _ _ Hacc Hpool1) as Hpool4.
      edestruct (IH (S h) p dp root hr P0 pre0 post0 w4 si4 Pc4 (pre1 ++ tc ++ post1) Q) as (w' & root1 & si' & P' & EE & Ha & Hr1 & Hh').
      - eapply path_frame; [exact Hp0|]. intros q Hq. eapply acc_view; [exact Hacc|exact Hpool1|]. set_solver.
      - exact Hh4.
      - eapply pool_ok_perm; [|exact Hpool4]. rewrite Ep4. solve_Permutation.
      - eapply acc_coh'; eassumption.
      - pose proof (path_stack _ _ _ _ _ _ _ _ _ _ Hp0) as Hin. unfold stack_ok in Hst |- *.
        rewrite Forall_forall in Hst, Hin |- *. intros x Hx. destruct (Hst x Hx) as [H1 H2]. specialize (Hin x Hx). split.
        + eapply acc_loaded'; [exact Hacc|exact Hpool1|set_solver|exact H1].
        + intros Hc. eapply acc_keep'; [exact Hacc|exact Hpool1|set_solver|exact (H2 Hc)].
      - exact Hdp.
      - exact Hkok.
      - exists w', root1, si', P'. split; [exact EE|]. split; [|split; [exact Hr1|exact Hh']].
        eapply acc_trans; [|exact Ha].
        apply (acc_perm_l rd ([p] ++ (PL ++ Pc ++ PR) ++ P0)); [solve_Permutation|].
        apply (acc_perm_r rd _ _ (Pn ++ (PL ++ Pc ++ PR) ++ P0)); [rewrite Ep4; solve_Permutation|].
        now apply acc_frame_r. }
    cbn [propagate].
    destruct (negb (t_cow ops) && match si with Some _ => false | None => true end) eqn:Eskip.
    { apply andb_true_iff in Eskip as [Ec Es]. apply negb_true_iff in Ec. destruct si as [|]; [discriminate|].
      rewrite (Hcow Ec) in *. cbn [hole] in Hh.
      rewrite <- (info_same p). apply (Hrest p w None [p]); [apply acc_refl|auto|].
      exists (p :: PL ++ Pc ++ PR). split; [|reflexivity]. cbn [hole].
      eapply forest_shape; [exact Hg|exact Hl|exact Hi|exact Hkne|]. now apply forest_plug. }
    clear Eskip.
    assert (exists dp w1, (if t_cow ops then get_dirty_page_id p else ret p) w = (Ok dp, w1) /\
              acc rd [p] w [dp] w1 /\ w_dirty w1 !! dp = Some n /\ (t_cow ops = false -> p = dp))
      as (dp & w1 & E1 & A1 & D1 & Hdp).
    { destruct (t_cow ops) eqn:Ec.
      - destruct (cow_ok rd w p n _ Hcoh Hload Hg Hpool1) as (dp & w1 & E1 & A1 & D1).
        exists dp, w1. repeat split; auto. discriminate.
      - exists p, w. split; [reflexivity|]. split; [apply acc_refl|]. split; [|auto].
        destruct (Hd eq_refl) as [m Hm]. unfold vget in Hg. rewrite Hm in Hg. congruence. }
    unfold wbind at 1. rewrite E1.
    unfold wbind at 1. unfold get_mut_dirty. rewrite D1, Hi.
    pose proof (acc_pool' rd _ _ _ _ _ A1 Hpool1) as Hpool2.
    assert (HL1 : lforest (vget rd w1) h ksL csL PL pre1).
    { eapply lforest_frame; [exact HL|]. intros q Hq. eapply acc_view; [exact A1|exact Hpool1|]. set_solver. }
    assert (HR1 : rforest (vget rd w1) h ksR csR PR post1).
    { eapply rforest_frame; [exact HR|]. intros q Hq. eapply acc_view; [exact A1|exact Hpool1|]. set_solver. }
    assert (Hh1 : hole (vget rd w1) h c si Pc tc).
    { eapply hole_frame; [exact Hh|]. intros q Hq. eapply acc_view; [exact A1|exact Hpool1|]. set_solver. }
    destruct (node_update _ h ksL ksR csL c0 c csR si PL Pc PR pre1 tc post1 HL1 HR1 Hrm Hkne Hh1) as (nd1 & ks & cs & En1 & En2 & Hksne & Hf1).
    unfold wbind at 1. unfold lift at 1. rewrite En1.
    cbv zeta. rewrite En2.
    destruct (put_dirty_ok rd w1 dp (t_mk ops (INode ks cs)) n D1) as (w2 & E2 & A2 & D2).
    unfold wbind at 1. rewrite E2.
    pose proof (acc_trans rd _ _ _ _ _ _ A1 A2) as A12.
    pose proof (acc_pool' rd _ _ _ _ _ A2 Hpool2) as Hpool3.
    assert (Hf2 : forest (vget rd w2) h ks cs (PL ++ Pc ++ PR) (pre1 ++ tc ++ post1)).
    { destruct Hf1 as (c' & cs' & P1 & P2 & t1 & t2 & Ec & EP & Et & Hs & Hr).
      exists c', cs', P1, P2, t1, t2. repeat split; auto.
      - eapply shape_frame; [exact Hs|]. intros q Hq. eapply acc_view; [exact A2|exact Hpool2|]. rewrite EP. set_solver.
      - eapply rforest_frame; [exact Hr|]. intros q Hq. eapply acc_view; [exact A2|exact Hpool2|]. rewrite EP. set_solver. }
    assert (D2' : w_dirty w2 !! dp = Some (t_mk ops (INode ks cs))) by (rewrite D2; apply lookup_insert).
    destruct ((ps <? page_size_of kw (t_mk ops (INode ks cs))) &&
              (t_check_always ops || match si with Some _ => true | None => false end)) eqn:Esz.
    - (* split *)
      apply andb_true_iff in Esz as [Esz _]. apply N.ltb_lt in Esz.
      pose proof (forest_length _ _ _ _ _ _ Hf2) as Elen.
      destruct (l_split laws ks cs Elen) as (H3 & kL & k & kR & cL & cR & Esp & -> & -> & ElenL & HneL & HneR).
      { rewrite Forall_forall in Hkok |- *. intros k Hk. apply Hkok.
        pose proof (forest_ks _ _ _ _ _ _ Hf2) as Hsub. unfold toks_ks in *.
        rewrite (omap_app _ pre0), (omap_app _ (pre1 ++ tc ++ post1)).
        apply elem_of_app. right. apply elem_of_app. left.
        eapply elem_of_submseteq; [exact Hk|apply sublist_submseteq; exact Hsub]. }
      { exact Esz. }
      replace (t_arity_check ops && ((nlen (in_keys (INode (kL ++ k :: kR) (cL ++ cR))) <? 3)
          || (nlen (in_children (INode (kL ++ k :: kR) (cL ++ cR))) <? 4))) with false.
      2: { symmetry. apply andb_false_iff. right. cbn [in_keys in_children]. unfold nlen. apply orb_false_iff.
           split; apply N.ltb_ge; lia. }
      unfold wbind at 1. unfold lift. rewrite Esp.
      destruct (put_dirty_ok rd w2 dp (t_mk ops (INode kL cL)) _ D2') as (w3 & E3 & A3 & D3).
      unfold wbind at 1. rewrite E3.
      pose proof (acc_trans rd _ _ _ _ _ _ A12 A3) as A13.
      pose proof (acc_pool' rd _ _ _ _ _ A3 Hpool3) as Hpool4.
      destruct (alloc_ok rd w3 _ Hpool4) as (q & w3' & E4 & HqP & Hqf & Hq2 & Hins).
      destruct (Hins (t_mk ops (INode kR cR))) as (w4 & E5 & A4 & D4).
      unfold wbind at 1. rewrite E4. unfold wbind at 1. rewrite E5.
      apply (Hrest dp w4 (Some (k, q)) [dp; q]).
      { eapply acc_trans; [exact A13|]. apply (acc_frame_l rd [dp] [] w3 [q] w4 A4). }
      { exact Hdp. }
      assert (Hf4 : forest (vget rd w4) h (kL ++ k :: kR) (cL ++ cR) (PL ++ Pc ++ PR) (pre1 ++ tc ++ post1)).
      { destruct Hf2 as (c' & cs' & P1 & P2 & t1 & t2 & Ec & EP & Et & Hs & Hr).
        exists c', cs', P1, P2, t1, t2. 
        assert (Hv : forall x, x ∈ PL ++ Pc ++ PR -> vget rd w4 x = vget rd w2 x).
        { intros x Hx. transitivity (vget rd w3 x).
          - eapply acc_view; [exact A4|exact Hpool4|]. set_solver.
          - eapply acc_view; [exact A3|exact Hpool3|]. set_solver. }
        repeat split; auto.
        - eapply shape_frame; [exact Hs|]. intros x Hx. apply Hv. rewrite EP. set_solver.
        - eapply rforest_frame; [exact Hr|]. intros x Hx. apply Hv. rewrite EP. set_solver. }
      destruct (forest_split _ _ _ _ _ _ _ _ _ Hf4 ElenL) as (P1 & P2 & t1 & t2 & EP & Et & HfL & HfR).
      exists ((dp :: P1) ++ (q :: P2)). split; [|rewrite EP; solve_Permutation].
      cbn [hole]. exists (dp :: P1), (q :: P2), t1, t2. split; [reflexivity|]. split; [exact Et|].
      assert (q <> dp) as Hne by set_solver.
      split.
      + eapply forest_shape; [|apply (l_leaf_mk laws)|apply (l_int_mk laws)|exact HneL|exact HfL].
        apply dirty_vget. rewrite D4, lookup_insert_ne, D3, lookup_insert by exact Hne. reflexivity.
      + eapply forest_shape; [|apply (l_leaf_mk laws)|apply (l_int_mk laws)|exact HneR|exact HfR].
        apply dirty_vget. rewrite D4, lookup_insert. reflexivity.
    - apply (Hrest dp w2 None [dp]); [exact A12|exact Hdp|].
      exists (dp :: PL ++ Pc ++ PR). split; [|reflexivity]. cbn [hole].
      eapply forest_shape; [|apply (l_leaf_mk laws)|apply (l_int_mk laws)|exact Hksne|exact Hf2].
      apply dirty_vget. exact D2'.
  Qed.

  (** Replacement of the root, growth by one level. *)
  Lemma finish_ok root root1 h si P ts w Q :
    hole (vget rd w) h root1 si P ts -> pool_ok w (P ++ Q) ->
    exists w' root' h' P',
      finish ops root (info root root1) si w = (Ok root', w') /\
      acc rd P w P' w' /\ shape (vget rd w') h' root' P' ts.
  Proof.
    intros Hh Hpool. unfold finish.
    assert (EE : (match info root root1 with
                 | Some (old, new) => if root =? old then ret new else fail ERootIdMismatch
                 | None => ret root end) w = (Ok root1, w)).
    { destruct (decide (root = root1)) as [->|Hne]; [now rewrite info_same|].
      rewrite info_diff by exact Hne. now rewrite N.eqb_refl. }
    unfold wbind at 1. rewrite EE. clear EE. destruct si as [[k r]|]; cbn [hole] in Hh.
    - destruct Hh as (P1 & P2 & t1 & t2 & -> & -> & H1 & H2).
      destruct (alloc_ok rd w _ Hpool) as (q & w1 & E1 & HqP & Hqf & Hq2 & Hins).
      destruct (Hins (t_mk ops (INode [k] [root1; r]))) as (w2 & E2 & A2 & D2).
      unfold wbind at 1. rewrite E1. unfold wbind at 1. rewrite E2.
      exists w2, q, (S h), (q :: P1 ++ P2). split; [reflexivity|]. split.
      + apply (acc_frame_r rd (P1 ++ P2) [] w [q] w2 A2).
      + assert (Hv : forall x, x ∈ P1 ++ P2 -> vget rd w2 x = vget rd w x).
        { intros x Hx. eapply acc_view; [exact A2|exact Hpool|]. set_solver. }
        apply (sh_int _ h q (t_mk ops (INode [k] [root1; r])) [k] root1 [r]); [|apply (l_leaf_mk laws)|apply (l_int_mk laws)|discriminate| |].
        * apply dirty_vget. rewrite D2, lookup_insert. reflexivity.
        * eapply shape_frame; [exact H1|]. intros x Hx. apply Hv. set_solver.
        * rewrite <- (app_nil_r P2), <- (app_nil_r t2). constructor; [|constructor].
          eapply shape_frame; [exact H2|]. intros x Hx. apply Hv. set_solver.
    - exists w, root1, h, P. split; [reflexivity|]. split; [apply acc_refl|exact Hh].
  Qed.

  (** From the update of a leaf to the new root. *)
  Lemma tree_close {hl} w1 leaf st root hr Pp pre post Pl Q dl w2 w4 si Pc tc :
    coh rd w1 -> path (vget rd w1) rm hl leaf st root hr Pp pre post -> stack_ok w1 st ->
    pool_ok w1 ([leaf] ++ Pl ++ Pp ++ Q) ->
    acc rd [leaf] w1 [dl] w2 -> (t_cow ops = false -> leaf = dl) ->
    acc rd ([dl] ++ Pl) w2 Pc w4 -> hole (vget rd w4) 0 dl si Pc tc ->
    Forall kok (toks_ks (pre ++ tc ++ post)) ->
    exists w5 ri si' w6 root' h' P6,
      propagate ops kw ps st (info leaf dl) si w4 = (Ok (ri, si'), w5) /\
      finish ops root ri si' w5 = (Ok root', w6) /\
      acc rd (leaf :: Pl ++ Pp) w1 P6 w6 /\ shape (vget rd w6) h' root' P6 (pre ++ tc ++ post).
  Proof.
    intros Hc Hpath Hst Hp1 A2 Hcow A4 Hhole Hkok.
    pose proof (acc_pool' rd _ _ _ _ _ A2 Hp1) as Hp2.
    assert (Hp2' : pool_ok w2 (([dl] ++ Pl) ++ Pp ++ Q)) by (eapply pool_ok_perm; [|exact Hp2]; solve_Permutation).
    pose proof (acc_pool' rd _ _ _ _ _ A4 Hp2') as Hp4.
    pose proof (path_stack _ _ _ _ _ _ _ _ _ _ Hpath) as Hin.
    edestruct (propagate_ok st hl leaf dl root hr Pp pre post w4 si Pc tc Q) as (w5 & root1 & si' & P5 & E5 & A5 & _ & Hh5).
    { eapply path_frame; [exact Hpath|]. intros q Hq. transitivity (vget rd w2 q).
      - eapply acc_view; [exact A4|exact Hp2'|]. set_solver.
      - eapply acc_view; [exact A2|exact Hp1|]. set_solver. }
    { eapply hole_mono; [|exact Hhole]. lia. }
    { eapply pool_ok_perm; [|exact Hp4]. solve_Permutation. }
    { eapply acc_coh'; [exact A4|]. eapply acc_coh'; [exact A2|exact Hc]. }
    { unfold stack_ok in *. rewrite Forall_forall in Hst, Hin |- *. intros x Hx. destruct (Hst x Hx) as [Hl Hd]. specialize (Hin x Hx).
      split.
      - eapply acc_loaded'; [exact A4|exact Hp2'|set_solver|].
        eapply acc_loaded'; [exact A2|exact Hp1|set_solver|exact Hl].
      - intros Hcf. eapply acc_keep'; [exact A4|exact Hp2'|set_solver|].
        eapply acc_keep'; [exact A2|exact Hp1|set_solver|exact (Hd Hcf)]. }
    { exact Hcow. }
    { exact Hkok. }
    assert (Hp5 : pool_ok w5 (P5 ++ Q)).
    { eapply acc_pool'; [exact A5|]. eapply pool_ok_perm; [|exact Hp4]. solve_Permutation. }
    destruct (finish_ok root root1 hr si' P5 _ w5 Q Hh5 Hp5) as (w6 & root' & h' & P6 & E6 & A6 & Hs6).
    exists w5, (info root root1), si', w6, root', h', P6. split; [exact E5|]. split; [exact E6|]. split; [|exact Hs6].
    apply (acc_perm_l rd ([leaf] ++ (Pl ++ Pp))); [reflexivity|].
    eapply acc_trans; [apply (acc_frame_r rd (Pl ++ Pp)); exact A2|].
    apply (acc_perm_l rd (([dl] ++ Pl) ++ Pp)); [solve_Permutation|].
    eapply acc_trans; [apply acc_frame_r; exact A4|].
    eapply acc_trans; [|exact A6]. eapply acc_perm_l; [|exact A5]. solve_Permutation.
  Qed.

  (** ** The descent *)
  Context (sk : list K -> Prop) (okL okR : K -> Prop).
  Context (sk_sub : forall ks ks', ks `sublist_of` ks' -> sk ks' -> sk ks).
  Context (choose_law : forall ks cs, length cs = S (length ks) -> sk ks ->
    exists ksL ksR csL c csR, ks = ksL ++ ksR /\ cs = csL ++ c :: csR /\ length ksL = length csL /\
      t_choose ops (INode ks cs) = Ok (length csL, c) /\ (rm -> csR = []) /\
      (forall k, last ksL = Some k -> okL k) /\ (forall k, head ksR = Some k -> okR k)).

  Definition pre_ok (pre : list tok) : Prop := pre = [] \/ exists pre' k, pre = pre' ++ [TS k] /\ okL k.
  Definition post_ok (post : list tok) : Prop := post = [] \/ exists post' k, post = TS k :: post' /\ okR k.

  Lemma lforest_pre get h ks cs P pre :
    lforest get h ks cs P pre ->
    (ks = [] /\ pre = []) \/ exists ks' k pre', ks = ks' ++ [k] /\ pre = pre' ++ [TS k].
  Proof.
    induction 1 as [|k ks c cs P ts P' ts' Hs HL IH]; [auto|]. right.
    destruct IH as [[-> ->]|(ks' & k' & pre' & -> & ->)].
    - exists [], k, ts. auto.
    - exists (k :: ks'), k', (ts ++ TS k :: pre'). split; [reflexivity|]. lassoc.
  Qed.
  Lemma rforest_post get h ks cs P post :
    rforest get h ks cs P post ->
    (ks = [] /\ post = []) \/ exists ks' k post', ks = k :: ks' /\ post = TS k :: post'.
  Proof. inversion 1; subst; [auto|]. right. eauto. Qed.

  Lemma descend_ok : forall fuel h p w st root hr P pre post Pc tc,
    (h < fuel)%nat ->
    path (vget rd w) rm h p st root hr P pre post ->
    shape (vget rd w) h p Pc tc ->
    coh rd w -> stack_ok w st -> pre_ok pre -> post_ok post -> sk (toks_ks (pre ++ tc ++ post)) ->
    (t_cow ops = false -> forall q, q ∈ Pc -> is_Some (w_dirty w !! q)) ->
    exists w' leaf st' P' pre' post' n Pl es,
      descend ops rd fuel p st w = (Ok (leaf, st'), w') /\ sim w w' /\ coh rd w' /\
      (exists hl, path (vget rd w') rm hl leaf st' root hr P' pre' post') /\
      vget rd w' leaf = Some n /\ t_leaf ops n = true /\ leafrep (vget rd w') n Pl es /\
      loaded w' leaf /\ stack_ok w' st' /\
      (t_cow ops = false -> forall q, q ∈ leaf :: Pl -> is_Some (w_dirty w' !! q)) /\
      pre' ++ map TE es ++ post' = pre ++ tc ++ post /\ P' ++ leaf :: Pl ≡ₚ P ++ Pc /\
      pre_ok pre' /\ post_ok post'.
  Proof.
    induction fuel as [|fuel IH]; intros h p w st root hr P pre post Pc tc Hf Hp Hs Hc Hst Hpre Hpost Hsk Hdirty; [lia|].
    assert (exists n, vget rd w p = Some n) as [n Hn] by (inversion Hs; eauto).
    destruct (get_page_ref_ok rd w p n Hc Hn) as (w1 & E1 & S1 & C1 & L1).
    assert (Hv : forall q, vget rd w1 q = vget rd w q) by (intros q; apply sim_view; exact S1).
    assert (Hst1 : stack_ok w1 st).
    { unfold stack_ok in *. rewrite Forall_forall in Hst |- *. intros x Hx. destruct (Hst x Hx) as [H1 H2]. split.
      - eapply sim_loaded; eassumption.
      - intros Hcf. destruct S1 as [-> _]. apply (H2 Hcf). }
    assert (Hdirty1 : t_cow ops = false -> forall q, q ∈ Pc -> is_Some (w_dirty w1 !! q)).
    { intros Hcf q Hq. destruct S1 as [-> _]. now apply Hdirty. }
    assert (Hp1 : path (vget rd w1) rm h p st root hr P pre post) by (eapply path_frame; [exact Hp|auto]).
    assert (Hs1 : shape (vget rd w1) h p Pc tc) by (eapply shape_frame; [exact Hs|auto]).
    cbn [descend]. unfold wbind at 1. rewrite E1.
    rewrite <- Hv in Hn.
    destruct (shape_int_forest _ _ _ _ _ Hs1) as [(n' & Pl & es & Hg & Hl & -> & -> & Hr)|(h' & n' & ks & cs & P0 & -> & Hg & Hl & Hi & Hkne & -> & Hfo)].
    - rewrite Hn in Hg. injection Hg as <-. rewrite Hl.
      exists w1, p, st, P, pre, post, n, Pl, es. repeat split; try assumption; try reflexivity; try (now apply S1). now exists h.
    -
      rewrite Hn in Hg. injection Hg as <-. rewrite Hl, Hi.
      pose proof (forest_length _ _ _ _ _ _ Hfo) as Elen.
      destruct (choose_law ks cs Elen) as (ksL & ksR & csL & c & csR & -> & -> & EL & Ech & Hrm & HkL & HkR).
      { eapply sk_sub; [|exact Hsk]. etransitivity; [eapply forest_ks; exact Hfo|]. unfold toks_ks.
        rewrite !omap_app. apply sublist_inserts_l, sublist_inserts_r. reflexivity. }
      unfold wbind at 1. unfold lift. rewrite Ech.
      destruct (forest_unplug _ _ _ _ _ _ _ _ _ Hfo EL) as (PL & Pn & PR & pre1 & t1 & post1 & -> & -> & HL & Hsc & HR).
      destruct (IH h' c w1 ((p, length csL) :: st) root hr (p :: PL ++ PR ++ P) (pre ++ pre1) (post1 ++ post) Pn t1)
        as (w2 & leaf & st' & P' & pre' & post' & nl & Pl & es & E2 & S2 & C2 & Hp2 & Hnl & Hll & Hlr & Hld & Hst2 & Hd2 & Etk & EP & Hpre2 & Hpost2).
      + lia.
      + econstructor; eassumption.
      + exact Hsc.
      + exact C1.
      + constructor; [|exact Hst1]. split; [exact L1|]. intros Hcf. apply (Hdirty1 Hcf). set_solver.
      + destruct (lforest_pre _ _ _ _ _ _ HL) as [[-> ->]|(ks' & k & pre'' & -> & ->)].
        * rewrite app_nil_r. exact Hpre.
        * right. exists (pre ++ pre''), k. split; [lassoc|]. apply HkL. apply last_snoc.
      + destruct (rforest_post _ _ _ _ _ _ HR) as [[-> ->]|(ks' & k & post'' & -> & ->)].
        * exact Hpost.
        * right. exists (post'' ++ post), k. split; [reflexivity|]. apply HkR. reflexivity.
      + replace ((pre ++ pre1) ++ t1 ++ post1 ++ post) with (pre ++ (pre1 ++ t1 ++ post1) ++ post) by lassoc. exact Hsk.
      + intros Hcf q Hq. apply (Hdirty1 Hcf). set_solver.
      + exists w2, leaf, st', P', pre', post', nl, Pl, es. split; [exact E2|].
        split; [eapply sim_trans; eassumption|]. split; [exact C2|]. split; [exact Hp2|]. split; [exact Hnl|].
        split; [exact Hll|]. split; [exact Hlr|]. split; [exact Hld|]. split; [exact Hst2|]. split; [exact Hd2|].
        split; [rewrite Etk; lassoc|]. split; [rewrite EP; solve_Permutation|]. auto.
  Qed.

  Lemma shape_height get h p P ts : shape get h p P ts -> exists h', (h' < length P)%nat /\ shape get h' p P ts.
  Proof using K E leafrep ops.
    clear. revert h p P ts.
    assert (H : (forall h p P ts, shape get h p P ts -> forall m, (length P <= S m)%nat -> shape get m p P ts) /\
                (forall h ks cs P ts, rforest get h ks cs P ts -> forall m, (length P <= S m)%nat -> rforest get m ks cs P ts)).
    { apply (shape_rforest_ind get
        (fun h p P ts _ => forall m, (length P <= S m)%nat -> shape get m p P ts)
        (fun h ks cs P ts _ => forall m, (length P <= S m)%nat -> rforest get m ks cs P ts)).
      - intros. now econstructor; [eassumption..|].
      - intros h p n ks c cs P ts P' ts' Hg Hl Hi Hne Hs IH1 Hr IH2 m Hm. cbn [length] in Hm. rewrite app_length in Hm.
        destruct (shape_head _ _ _ _ _ Hs) as [P0 ->]. cbn [length] in Hm.
        destruct m as [|m]; [lia|]. econstructor; [exact Hg|exact Hl|exact Hi|exact Hne|apply IH1|apply IH2]; cbn [length]; lia.
      - intros. constructor.
      - intros h k ks c cs P ts P' ts' Hs IH1 Hr IH2 m Hm. rewrite app_length in Hm.
        constructor; [apply IH1|apply IH2]; lia. }
    intros h p P ts Hs. destruct (shape_head _ _ _ _ _ Hs) as [P0 HP]. exists (length P0).
    split; [rewrite HP; cbn; lia|]. apply (proj1 H h); [exact Hs|]. rewrite HP. cbn. lia.
  Qed.
End shape.

Lemma seqN_bound (l : list N) (m : N) : NoDup l -> (forall q, q ∈ l -> q < m) -> (length l <= N.to_nat m)%nat.
Proof.
  intros Hnd Hlt.
  assert (length l <= length (seqN 0 (N.to_nat m)))%nat as H.
  { apply submseteq_length. apply NoDup_submseteq; [exact Hnd|].
    intros x Hx. apply elem_of_seqN. specialize (Hlt x Hx). lia. }
  assert (forall a n, length (seqN a n) = n) as Hl.
  { intros a n. revert a. induction n as [|n IH]; intros a; cbn; auto. }
  rewrite Hl in H. exact H.
Qed.
Lemma pool_height w P Q {K E} ops lr get h p (ts : list (tok K E)) :
  pool_ok w (P ++ Q) -> shape ops lr get h p P ts ->
  exists h', (h' < S (N.to_nat (w_next_page w)))%nat /\ shape ops lr get h' p P ts.
Proof.
  intros [H1 H2 _ _ _ _ _] Hs. apply shape_height in Hs as (h' & Hh & Hs). exists h'. split; [|exact Hs].
  apply NoDup_app in H1 as (H1 & _ & _). apply NoDup_app in H1 as (H1 & _ & _).
  assert (length P <= N.to_nat (w_next_page w))%nat; [|lia].
  apply seqN_bound; [exact H1|]. intros q Hq. apply H2. set_solver.
Qed.
