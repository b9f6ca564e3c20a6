(** Ordered content of the search trees. *)
From Verif Require Export TreeLaws.
Local Open Scope N_scope.

(** ** Sorted lists *)
Lemma ss_app {A} (R : A -> A -> Prop) l1 l2 :
  StronglySorted R (l1 ++ l2) <->
  StronglySorted R l1 /\ StronglySorted R l2 /\ (forall a b, a ∈ l1 -> b ∈ l2 -> R a b).
Proof.
  induction l1 as [|x l1 IH]; cbn [app].
  - split; [intros H; split; [constructor|split; [exact H|]]; intros a b Ha; inversion Ha|now intros (_ & H & _)].
  - split.
    + intros H. inversion H as [|? ? Hs Hf]; subst. apply IH in Hs as (H1 & H2 & H3).
      rewrite Forall_app in Hf. destruct Hf as [F1 F2]. split; [now constructor|]. split; [exact H2|].
      intros a b Ha Hb. apply elem_of_cons in Ha as [->|Ha]; [|now apply H3]. rewrite Forall_forall in F2. now apply F2.
    + intros (H1 & H2 & H3). inversion H1 as [|? ? Hs Hf]; subst. constructor.
      * apply IH. split; [exact Hs|]. split; [exact H2|]. intros a b Ha Hb. apply H3; [now right|exact Hb].
      * rewrite Forall_app. split; [exact Hf|]. apply Forall_forall. intros b Hb. apply H3; [now left|exact Hb].
Qed.
Lemma ss_map {A B} (R : A -> A -> Prop) (R' : B -> B -> Prop) (f : A -> B) l :
  (forall a b, R a b -> R' (f a) (f b)) -> StronglySorted R l -> StronglySorted R' (map f l).
Proof.
  intros HR. induction 1 as [|x l Hs IH Hf]; cbn [map]; constructor; auto.
  apply Forall_map. eapply Forall_impl; [exact Hf|]. intros y. apply HR.
Qed.
Lemma ss_omap {A B} (R : A -> A -> Prop) (R' : B -> B -> Prop) (f : A -> option B) l :
  (forall a b x y, R a b -> f a = Some x -> f b = Some y -> R' x y) -> StronglySorted R l -> StronglySorted R' (omap f l).
Proof.
  intros HR. induction 1 as [|x l Hs IH Hf]; cbn [omap list_omap]; [constructor|].
  destruct (f x) as [y|] eqn:Ef; [|exact IH]. constructor; [exact IH|]. rewrite Forall_forall in Hf; apply Forall_forall.
  intros z Hz. apply elem_of_list_omap in Hz as (b & Hb & Eb). eapply HR; [apply Hf; exact Hb|exact Ef|exact Eb].
Qed.
Lemma ss_impl_in {A} (R R' : A -> A -> Prop) l : (forall a b, a ∈ l -> b ∈ l -> R a b -> R' a b) -> StronglySorted R l -> StronglySorted R' l.
Proof.
  intros HR H. induction H as [|x l Hs IH Hf]; constructor.
  - apply IH. intros a b Ha Hb. apply HR; now right.
  - rewrite Forall_forall in Hf; apply Forall_forall. intros y Hy. apply HR; [now left|now right|now apply Hf].
Qed.

Lemma toks_es_app {K E} (a b : list (tok K E)) : toks_es (a ++ b) = toks_es a ++ toks_es b.
Proof. apply omap_app. Qed.
Lemma toks_ks_app {K E} (a b : list (tok K E)) : toks_ks (a ++ b) = toks_ks a ++ toks_ks b.
Proof. apply omap_app. Qed.
Lemma toks_es_map {K E} (l : list E) : toks_es (map (TE (K:=K)) l) = l.
Proof. induction l as [|x l IH]; [reflexivity|]. cbn. f_equal. exact IH. Qed.
Lemma toks_ks_map {K E} (l : list E) : toks_ks (map (TE (K:=K)) l) = [].
Proof. induction l as [|x l IH]; [reflexivity|]. cbn. exact IH. Qed.
Lemma elem_toks_es {K E} (ts : list (tok K E)) e : e ∈ toks_es ts <-> TE e ∈ ts.
Proof.
  unfold toks_es. rewrite elem_of_list_omap. split.
  - intros ([e'|k] & Hx & [= <-]). exact Hx.
  - intros H. eauto.
Qed.
Lemma elem_toks_ks {K E} (ts : list (tok K E)) k : k ∈ toks_ks ts <-> TS k ∈ ts.
Proof.
  unfold toks_ks. rewrite elem_of_list_omap. split.
  - intros ([e'|k'] & Hx & [= <-]). exact Hx.
  - intros H. eauto.
Qed.

(** ** Association lists *)
Section alookup.
  Context {K V : Type} `{EqDecision K}.
  Fixpoint alookup (x : K) (l : list (K * V)) : option V :=
    match l with
    | [] => None
    | (k, v) :: l' => if decide (k = x) then Some v else alookup x l'
    end.
  Lemma alookup_app x l1 l2 : alookup x (l1 ++ l2) = match alookup x l1 with Some v => Some v | None => alookup x l2 end.
  Proof. induction l1 as [|[k v] l1 IH]; cbn [alookup app]; [reflexivity|]. destruct (decide (k = x)); auto. Qed.
  Lemma alookup_notin x l : x ∉ map fst l -> alookup x l = None.
  Proof.
    induction l as [|[k v] l IH]; cbn [alookup map fst]; [reflexivity|]. intros H. rewrite not_elem_of_cons in H. destruct H as [H1 H2].
    rewrite decide_False by congruence. auto.
  Qed.
  Lemma alookup_in x l v : alookup x l = Some v -> (x, v) ∈ l.
  Proof.
    induction l as [|[k v'] l IH]; cbn [alookup]; [discriminate|]. destruct (decide (k = x)) as [->|].
    - intros [= ->]. now left.
    - intros H. right. auto.
  Qed.
  Lemma alookup_mid x l1 v l2 : x ∉ map fst l1 -> alookup x (l1 ++ (x, v) :: l2) = Some v.
  Proof. intros H. rewrite alookup_app, (alookup_notin _ _ H). cbn. now rewrite decide_True. Qed.
  Lemma alookup_other x y l1 v l2 : x <> y -> alookup x (l1 ++ (y, v) :: l2) = alookup x (l1 ++ l2).
  Proof. intros H. rewrite !alookup_app. cbn. rewrite decide_False by congruence. reflexivity. Qed.
End alookup.

Section ordered.
  Context {K E : Type} (cmp : K -> K -> comparison) (Hc : cmp_ok cmp) (ekey : E -> K).
  Notation clt := (clt cmp).
  Notation cle := (cle cmp).
  Definition tk (t : tok K E) : K := match t with TE e => ekey e | TS k => k end.
  (** Entries and separators increase; only a separator may equal the entry after it. *)
  Definition tord (a b : tok K E) : Prop :=
    match a, b with TS k, TE e => cle k (ekey e) | _, _ => clt (tk a) (tk b) end.
  Definition tsorted (ts : list (tok K E)) : Prop := StronglySorted tord ts.
  (** Weak order, with repeated entries. *)
  Definition wsorted (ts : list (tok K E)) : Prop := StronglySorted (fun a b => cle (tk a) (tk b)) ts.
  (** Every separator is the key of the entry after it. *)
  Fixpoint sep_ok (ts : list (tok K E)) : Prop :=
    match ts with
    | [] => True
    | TE _ :: ts' => sep_ok ts'
    | TS k :: ts' => match ts' with TE e :: _ => ekey e = k | _ => False end /\ sep_ok ts'
    end.

  Lemma tord_cle a b : tord a b -> cle (tk a) (tk b).
  Proof. destruct a, b; cbn; intros H; try exact H; now apply clt_cle. Qed.
  Lemma tord_trans a b c : tord a b -> tord b c -> tord a c.
  Proof.
    destruct a, b, c; cbn; intros H1 H2;
      eauto using clt_cle_trans, cle_clt_trans, cle_trans, clt_cle, (co_trans _ Hc); try (eapply (co_trans _ Hc); eassumption).
  Qed.
  Lemma tsorted_wsorted ts : tsorted ts -> wsorted ts.
  Proof. apply ss_impl_in. intros a b _ _. apply tord_cle. Qed.
  Lemma tsorted_es ts : tsorted ts -> StronglySorted clt (map ekey (toks_es ts)).
  Proof.
    intros H. apply (ss_map (fun a b => clt (ekey a) (ekey b)) _ ekey); [auto|].
    eapply ss_omap; [|exact H]. intros [a|a] [b|b] x y Hab [= <-] [= <-]. exact Hab.
  Qed.
  Lemma tsorted_ks ts : tsorted ts -> StronglySorted clt (toks_ks ts).
  Proof. intros H. eapply ss_omap; [|exact H]. intros [a|a] [b|b] x y Hab [= <-] [= <-]. exact Hab. Qed.
  Lemma wsorted_es ts : wsorted ts -> StronglySorted cle (map ekey (toks_es ts)).
  Proof.
    intros H. apply (ss_map (fun a b => cle (ekey a) (ekey b)) _ ekey); [auto|].
    eapply ss_omap; [|exact H]. intros [a|a] [b|b] x y Hab [= <-] [= <-]. exact Hab.
  Qed.
  Lemma wsorted_ks ts : wsorted ts -> StronglySorted cle (toks_ks ts).
  Proof. intros H. eapply ss_omap; [|exact H]. intros [a|a] [b|b] x y Hab [= <-] [= <-]. exact Hab. Qed.

  (** ** Where the descent ends *)
  Lemma search_split x pre es post :
    tsorted (pre ++ map TE es ++ post) ->
    pre_ok (E:=E) (fun k => cle k x) pre -> post_ok (E:=E) (fun k => clt x k) post ->
    (forall t, t ∈ pre -> match t with TE e => clt (ekey e) x | TS k => cle k x end) /\
    (forall t, t ∈ post -> clt x (tk t)) /\
    StronglySorted clt (map ekey es).
  Proof.
    intros Hs Hpre Hpost. apply ss_app in Hs as (S1 & S2 & S3). apply ss_app in S2 as (S2 & S4 & S5).
    split; [|split].
    - intros t Ht. destruct Hpre as [-> | (pre' & k & -> & Hk)]; [inversion Ht|].
      apply ss_app in S1 as (_ & _ & S1). rewrite elem_of_app in Ht. destruct Ht as [Ht|Ht].
      + specialize (S1 t (TS k) Ht ltac:(now left)). destruct t as [e|k']; cbn in S1.
        * eapply clt_cle_trans; eassumption.
        * apply clt_cle. eapply clt_cle_trans; eassumption.
      + apply elem_of_list_singleton in Ht. subst t. exact Hk.
    - intros t Ht. destruct Hpost as [-> | (post' & k & -> & Hk)]; [inversion Ht|].
      apply elem_of_cons in Ht as [->|Ht]; [exact Hk|].
      inversion S4 as [|? ? _ Hf]; subst. rewrite Forall_forall in Hf. specialize (Hf t Ht).
      eapply clt_cle_trans; [exact Hc|exact Hk|]. exact (tord_cle _ _ Hf).
    - apply tsorted_es in S2. now rewrite toks_es_map in S2.
  Qed.

  (** Replacing the entries of that leaf. *)
  Lemma tsorted_update x pre es es' post :
    tsorted (pre ++ map TE es ++ post) ->
    (forall t, t ∈ pre -> match t with TE e => clt (ekey e) x | TS k => cle k x end) ->
    (forall t, t ∈ post -> clt x (tk t)) ->
    StronglySorted clt (map ekey es') ->
    (forall e, e ∈ es' -> ekey e = x \/ exists e', e' ∈ es /\ ekey e' = ekey e) ->
    tsorted (pre ++ map TE es' ++ post).
  Proof.
    intros Hs Hpre Hpost Hes Hold. apply ss_app in Hs as (S1 & S2 & S3). apply ss_app in S2 as (S2 & S4 & S5).
    assert (Hpt : forall t e', t ∈ pre -> e' ∈ es' -> tord t (TE e')).
    { intros t e' Ht He'. destruct (Hold e' He') as [Ex|(e0 & He0 & Ek)].
      - specialize (Hpre t Ht). destruct t; cbn; rewrite Ex; exact Hpre.
      - specialize (S3 t (TE e0) Ht ltac:(set_solver)). destruct t; cbn in *; rewrite <- Ek; exact S3. }
    apply ss_app. split; [exact S1|]. split; [apply ss_app; split; [|split; [exact S4|]]|].
    - clear -Hes. induction es' as [|e es' IH]; cbn [map] in *; [constructor|].
      inversion Hes as [|? ? Hs Hf]; subst. constructor; [auto|]. apply Forall_map. rewrite Forall_map in Hf.
      eapply Forall_impl; [exact Hf|]. auto.
    - intros a b Ha Hb. apply elem_of_list_fmap in Ha as (e' & -> & He').
      destruct (Hold e' He') as [Ex|(e0 & He0 & Ek)].
      + specialize (Hpost b Hb). cbn. rewrite Ex. exact Hpost.
      + specialize (S5 (TE e0) b ltac:(set_solver) Hb). cbn in *. rewrite <- Ek. exact S5.
    - intros a b Ha Hb. apply elem_of_app in Hb as [Hb|Hb]; [|apply S3; set_solver].
      apply elem_of_list_fmap in Hb as (e' & -> & He'). now apply Hpt.
  Qed.
  (** A separator between two entries. *)
  Lemma tsorted_sep l e1 e2 r : tsorted (l ++ TE e1 :: TE e2 :: r) -> tsorted (l ++ TE e1 :: TS (ekey e2) :: TE e2 :: r).
  Proof.
    intros H. apply ss_app in H as (S1 & S2 & S3). inversion S2 as [|? ? S4 F4]; subst. inversion S4 as [|? ? S5 F5]; subst.
    rewrite Forall_cons in F4. destruct F4 as [F41 F42].
    apply ss_app. split; [exact S1|]. split.
    - constructor; [constructor; [exact S4|]|].
      + constructor; [cbn; apply (cle_cases _ Hc); auto|]. eapply Forall_impl; [exact F5|].
        intros [e|k] H; cbn in *; [now apply clt_cle|exact H].
      + constructor; [exact F41|]. constructor; [exact F41|exact F42].
    - intros a b Ha Hb. apply elem_of_cons in Hb as [->|Hb]; [apply S3; set_solver|].
      apply elem_of_cons in Hb as [->|Hb]; [|apply S3; set_solver].
      pose proof (S3 a (TE e1) Ha ltac:(set_solver)) as H1. cbn in F41 |- *.
      destruct a; cbn in H1 |- *; [eapply (co_trans _ Hc); eassumption|eapply cle_clt_trans; eassumption].
  Qed.

  (** [slice::binary_search] in a leaf. *)
  Lemma bs_leaf x (ks : list K) :
    StronglySorted clt ks ->
    match binary_search (fun k => cmp k x) ks with
    | inl i => ks !! i = Some x
    | inr i => (i <= length ks)%nat /\ (forall k, k ∈ take i ks -> clt k x) /\ (forall k, k ∈ drop i ks -> clt x k)
    end.
  Proof.
    intros Hs. assert (Hs' : StronglySorted cle ks) by (eapply ss_impl_in; [|exact Hs]; intros; now apply clt_cle).
    pose proof (binary_search_spec _ _ (sorted_mono cmp Hc x ks Hs')) as H.
    destruct (binary_search (fun k => cmp k x) ks) as [i|i].
    - destruct H as (a & Ha & Ea). apply (co_eq _ Hc) in Ea. now subst a.
    - destruct H as (Hi & Hlt & Hgt). split; [exact Hi|]. split; intros k Hk.
      + apply elem_of_list_lookup in Hk as [j Hj]. apply lookup_take_Some in Hj as [Hj Hji]. eapply Hlt; eassumption.
      + apply elem_of_list_lookup in Hk as [j Hj]. rewrite lookup_drop in Hj. apply cgt_clt; [exact Hc|].
        eapply Hgt; [|exact Hj]. lia.
  Qed.

  Lemma bs_choose_law x e (ks : list K) cs :
    length cs = S (length ks) -> StronglySorted clt ks ->
    exists ksL ksR csL c csR, ks = ksL ++ ksR /\ cs = csL ++ c :: csR /\ length ksL = length csL /\
      choose_bs (binary_search (fun k => cmp k x)) e (INode ks cs) = Ok (length csL, c) /\ (False -> csR = []) /\
      (forall k, last ksL = Some k -> cle k x) /\ (forall k, head ksR = Some k -> clt x k).
  Proof.
    intros Hl Hs. assert (Hs' : StronglySorted cle ks) by (eapply ss_impl_in; [|exact Hs]; intros; now apply clt_cle).
    destruct (choose_bs_weak cmp Hc x e ks cs Hl Hs') as (ksL & ksR & csL & c & csR & -> & -> & EL & Ech & HL & HR & HR' & _).
    exists ksL, ksR, csL, c, csR. repeat split; auto; [tauto| |].
    - intros k Hk. apply HL. apply last_Some_elem_of in Hk. exact Hk.
    - intros k Hk. apply HR'; [exact Hs|]. apply head_Some_elem_of in Hk. exact Hk.
  Qed.
  Lemma bs_choose_law_weak x e (ks : list K) cs :
    length cs = S (length ks) -> StronglySorted cle ks ->
    exists ksL ksR csL c csR, ks = ksL ++ ksR /\ cs = csL ++ c :: csR /\ length ksL = length csL /\
      choose_bs (binary_search (fun k => cmp k x)) e (INode ks cs) = Ok (length csL, c) /\ (False -> csR = []) /\
      (forall k, last ksL = Some k -> cle k x) /\ (forall k, head ksR = Some k -> cle x k).
  Proof.
    intros Hl Hs'.
    destruct (choose_bs_weak cmp Hc x e ks cs Hl Hs') as (ksL & ksR & csL & c & csR & -> & -> & EL & Ech & HL & HR & HR' & _).
    exists ksL, ksR, csL, c, csR. repeat split; auto; [tauto| |].
    - intros k Hk. apply HL. apply last_Some_elem_of in Hk. exact Hk.
    - intros k Hk. apply HR. apply head_Some_elem_of in Hk. exact Hk.
  Qed.

  (** ** Separators *)
  Lemma sep_ok_mid l e r : sep_ok (l ++ TE e :: r) <-> sep_ok (l ++ [TE e]) /\ sep_ok r.
  Proof.
    induction l as [|[a|k] l IH]; cbn [app sep_ok]; [tauto|exact IH|].
    rewrite IH. destruct l as [|[b|k'] l]; cbn [app]; tauto.
  Qed.
  Lemma sep_ok_cut l r : sep_ok (l ++ TS r :: []) -> False.
  Proof. induction l as [|[a|k] l IH]; cbn [app sep_ok]; [tauto|exact IH|intros [_ H]; auto]. Qed.
  Lemma sep_ok_cut2 l k r : sep_ok (l ++ TS k :: r) -> exists e r', r = TE e :: r' /\ ekey e = k.
  Proof.
    induction l as [|[a|k'] l IH]; cbn [app sep_ok]; [|exact IH|intros [_ H]; auto].
    intros [H _]. destruct r as [|[e|?] r']; try tauto. eauto.
  Qed.
  (** Inserting after the entries of a leaf. *)
  Lemma sep_ok_insert okL pre es X post :
    pre_ok (E:=E) okL pre -> (post = [] \/ exists k p', post = TS k :: p') ->
    sep_ok (pre ++ map TE es ++ post) -> sep_ok X ->
    (exists e X', X = X' ++ [TE e]) ->
    sep_ok (pre ++ map TE es ++ X ++ post).
  Proof.
    intros Hpre Hpost H HX (e & X' & ->).
    destruct (list_eq_nil_dec es) as [->|Hne].
    - cbn [map app] in *. destruct Hpre as [-> | (pre' & k & -> & _)].
      + cbn [app] in *. rewrite <- app_assoc. cbn [app]. apply sep_ok_mid. auto.
      + rewrite <- app_assoc in H. apply sep_ok_cut2 in H as (e' & r' & -> & _).
        destruct Hpost as [|(? & ? & ?)]; discriminate.
    - destruct (exists_last Hne) as (es' & e' & ->). rewrite map_app in *. cbn [map] in *.
      rewrite <- !app_assoc in *. cbn [app] in *. rewrite app_assoc in H |- *.
      apply sep_ok_mid in H as [H1 H2]. apply sep_ok_mid. split; [exact H1|].
      apply sep_ok_mid. split; [exact HX|exact H2].
  Qed.
End ordered.

(** Lists of values, each with the pages it owns. *)
Section listrep.
  Context {V A : Type} (rep : (N -> option node) -> V -> list N -> A -> Prop).
  Inductive listrep (get : N -> option node) : list V -> list N -> list A -> Prop :=
  | lr_nil : listrep get [] [] []
  | lr_cons v vs P P' a l : rep get v P a -> listrep get vs P' l -> listrep get (v :: vs) (P ++ P') (a :: l).
  Lemma listrep_app get vs1 vs2 P1 P2 l1 l2 :
    listrep get vs1 P1 l1 -> listrep get vs2 P2 l2 -> listrep get (vs1 ++ vs2) (P1 ++ P2) (l1 ++ l2).
  Proof. induction 1; intros H2; cbn [app]; [exact H2|]. rewrite <- app_assoc. constructor; auto. Qed.
  Lemma listrep_split get vs P l1 l2 :
    listrep get vs P (l1 ++ l2) ->
    exists vs1 vs2 P1 P2, vs = vs1 ++ vs2 /\ P = P1 ++ P2 /\ length vs1 = length l1 /\
      listrep get vs1 P1 l1 /\ listrep get vs2 P2 l2.
  Proof.
    revert vs P. induction l1 as [|a l1 IH]; intros vs P H; cbn [app] in H.
    - exists [], vs, [], P. repeat split; auto. constructor.
    - inversion H as [|v vs' P1 P2 ? ? Hv Hvs]; subst.
      destruct (IH _ _ Hvs) as (vs1 & vs2 & Pa & Pb & -> & -> & EL & H1 & H2).
      exists (v :: vs1), vs2, (P1 ++ Pa), Pb. cbn [app length]. rewrite <- app_assoc. repeat split; auto. now constructor.
  Qed.
  Lemma listrep_length get vs P l : listrep get vs P l -> length vs = length l.
  Proof. induction 1; cbn; auto. Qed.
  Lemma listrep_frame get get' vs P l :
    (forall v P a, rep get v P a -> (forall q, q ∈ P -> get' q = get q) -> rep get' v P a) ->
    listrep get vs P l -> (forall q, q ∈ P -> get' q = get q) -> listrep get' vs P l.
  Proof.
    intros Hr. induction 1 as [|v vs P P' a l Hv Hvs IH]; intros Hq; constructor.
    - eapply Hr; [exact Hv|]. set_solver.
    - apply IH. set_solver.
  Qed.
  Lemma listrep_lookup get vs P l i v : listrep get vs P l -> vs !! i = Some v ->
    exists Pv a, l !! i = Some a /\ rep get v Pv a /\ Pv `sublist_of` P.
  Proof.
    intros H. revert i. induction H as [|v' vs P P' a l Hv Hvs IH]; intros i Hi; [now rewrite lookup_nil in Hi|].
    destruct i as [|i]; cbn in Hi.
    - injection Hi as ->. exists P, a. repeat split; auto. now apply sublist_inserts_r.
    - destruct (IH i Hi) as (Pv & a' & Ha & Hr & Hsub). exists Pv, a'. repeat split; auto. now apply sublist_inserts_l.
  Qed.
  Lemma listrep_lookup' get vs P l i a : listrep get vs P l -> l !! i = Some a ->
    exists Pv v, vs !! i = Some v /\ rep get v Pv a /\ Pv `sublist_of` P.
  Proof.
    intros H Hi. assert (is_Some (vs !! i)) as [v Hv].
    { apply lookup_lt_is_Some. rewrite (listrep_length _ _ _ _ H). apply lookup_lt_is_Some. eauto. }
    destruct (listrep_lookup _ _ _ _ _ _ H Hv) as (Pv & a' & Ha & Hr & Hs). exists Pv, v.
    assert (a' = a) by congruence. subst a'. auto.
  Qed.
End listrep.
