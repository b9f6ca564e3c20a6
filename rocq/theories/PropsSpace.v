(** Property C91: the file grows only when no page can be used again.

    Which pages are free, and since which transaction, is read off the file with [recorded], which only knows the file
    format (free_lists_tree_nodes.rs:7-16, FreeListLeafNode, FreeListLeafValue, FreeListTsnLeafNode). *)
From Verif Require Import Walk WalkProofs Mvcc MvccProofs SpecProofs StoreProofs FreeListProofs TsnProofs Thrift Exec PropsStore PropsPages.
Local Open Scope N_scope.

(** [listed get p q]: the tree of page ids rooted at [p] lists [q]. *)
Inductive listed (get : N -> option node) : N -> N -> Prop :=
  | listed_leaf p ids q : get p = Some (NTsnLeaf ids) -> q ∈ ids -> listed get p q
  | listed_int p i c q : get p = Some (NTsnInt i) -> c ∈ in_children i -> listed get c q -> listed get p q.
(** [recorded get p q t]: the free list rooted at [p] says that page [q] is free, and was put there by transaction [t]. *)
Inductive recorded (get : N -> option node) : N -> N -> N -> Prop :=
  | recorded_here p l k t v q : get p = Some (NFreeLeaf l) -> fl_keys l !! k = Some t -> fl_values l !! k = Some v ->
      q ∈ fv_page_ids v -> recorded get p q t
  | recorded_tree p l k t v q : get p = Some (NFreeLeaf l) -> fl_keys l !! k = Some t -> fl_values l !! k = Some v ->
      fv_root v <> 0 -> listed get (fv_root v) q -> recorded get p q t
  | recorded_int p i c q t : get p = Some (NFreeInt i) -> c ∈ in_children i -> recorded get c q t -> recorded get p q t.

Section tree.
  Context {K E : Type} (ops : tree_ops K) (leafrep : (N -> option node) -> node -> list N -> list E -> Prop).
  Context (get : N -> option node) (R : N -> Prop) (g : E -> Prop).
  Context (Hleaf : forall p n P es, get p = Some n -> t_leaf ops n = true -> leafrep get n P es -> R p <-> exists e, e ∈ es /\ g e).
  Context (Hint : forall p n ks cs, get p = Some n -> t_leaf ops n = false -> t_int ops n = Some (INode ks cs) -> R p <-> exists c, c ∈ cs /\ R c).
  Lemma toks_app (a b : list (tok K E)) : toks_es (a ++ b) = toks_es a ++ toks_es b.
  Proof. apply omap_app. Qed.
  Lemma toks_map (es : list E) : toks_es (map (TE (K := K)) es) = es.
  Proof. induction es as [|e es IH]; [reflexivity|]. cbn. f_equal. exact IH. Qed.
  Lemma tree_says : 
    (forall h p P ts, shape ops leafrep get h p P ts -> R p <-> exists e, e ∈ toks_es ts /\ g e) /\
    (forall h ks cs P ts, rforest ops leafrep get h ks cs P ts -> (exists c, c ∈ cs /\ R c) <-> exists e, e ∈ toks_es ts /\ g e).
  Proof.
    apply (shape_rforest_ind ops leafrep get
      (fun h p P ts _ => R p <-> exists e, e ∈ toks_es ts /\ g e)
      (fun h ks cs P ts _ => (exists c, c ∈ cs /\ R c) <-> exists e, e ∈ toks_es ts /\ g e)).
    - intros p n P es h Hg Hl Hr. rewrite toks_map. eapply Hleaf; eassumption.
    - intros h p n ks c cs P ts P' ts' Hg Hl Hi _ _ IH1 _ IH2. rewrite (Hint p n ks (c :: cs) Hg Hl Hi), toks_app. split.
      + intros (x & Hx & HR). apply elem_of_cons in Hx as [->|Hx].
        * apply IH1 in HR as (e & He & Hge). exists e. split; [apply elem_of_app; now left|exact Hge].
        * destruct (proj1 IH2 (ex_intro _ x (conj Hx HR))) as (e & He & Hge). exists e. split; [apply elem_of_app; now right|exact Hge].
      + intros (e & He & Hge). apply elem_of_app in He as [He|He].
        * exists c. split; [apply elem_of_cons; now left|]. apply IH1. eauto.
        * destruct (proj2 IH2 (ex_intro _ e (conj He Hge))) as (x & Hx & HR). exists x. split; [apply elem_of_cons; now right|exact HR].
    - intros h. split; [intros (c & Hc & _)|intros (e & He & _)]; [inversion Hc|inversion He].
    - intros h k ks c cs P ts P' ts' _ IH1 _ IH2. change (TS k :: ts ++ ts') with ([TS k] ++ (ts ++ ts')). rewrite !toks_app.
      change (toks_es [TS k]) with (@nil E). cbn [app]. split.
      + intros (x & Hx & HR). apply elem_of_cons in Hx as [->|Hx].
        * apply IH1 in HR as (e & He & Hge). exists e. split; [apply elem_of_app; now left|exact Hge].
        * destruct (proj1 IH2 (ex_intro _ x (conj Hx HR))) as (e & He & Hge). exists e. split; [apply elem_of_app; now right|exact Hge].
      + intros (e & He & Hge). apply elem_of_app in He as [He|He].
        * exists c. split; [apply elem_of_cons; now left|]. apply IH1. eauto.
        * destruct (proj2 IH2 (ex_intro _ e (conj He Hge))) as (x & Hx & HR). exists x. split; [apply elem_of_cons; now right|exact HR].
  Qed.
End tree.

Lemma tsntree_listed get root P ids q : tsntree get root P ids -> listed get root q <-> q ∈ ids.
Proof.
  intros (h & ts & Hs & Ht & _).
  destruct (tree_says (tsn_ops 0) tsnleaf get (fun p => listed get p q) (fun x => x = q)) as [H _].
  - intros p n P' es Hg _ [-> ->]. split.
    + intros Hl. inversion Hl as [? ids' ? Hg' Hq|? i c ? Hg']; subst; [|congruence]. assert (ids' = es) as -> by congruence. eauto.
    + intros (e & He & ->). eapply listed_leaf; eassumption.
  - intros p n ks cs Hg Hl Hi. destruct n as [| | | | | | | | | | | [ks' cs']| |]; cbn in Hl, Hi; try discriminate. injection Hi as -> ->. split.
    + intros Hq. inversion Hq as [? ids' ? Hg' Hq'|? i c ? Hg' Hc Hq']; subst; [congruence|]. assert (i = INode ks cs) as -> by congruence. eauto.
    + intros (c & Hc & Hq). eapply listed_int; eassumption.
  - rewrite (H _ _ _ _ Hs), Ht. split; [intros (e & He & <-); exact He|eauto].
Qed.
Lemma map_at {A B} (f : A -> B) l k : map f l !! k = f <$> l !! k.
Proof. apply list_lookup_fmap. Qed.
Lemma listrep_at (get : N -> option node) vs P (l : list (list N * list N)) k v : listrep flval get vs P l -> vs !! k = Some v ->
  exists a Pv, l !! k = Some a /\ flval get v Pv a.
Proof.
  intros H. revert k. induction H as [|v' vs P P' a l H1 H2 IH]; intros k Hk; [destruct k; discriminate|].
  destruct k as [|k]; [injection Hk as ->; cbn; eauto|]. exact (IH k Hk).
Qed.
Lemma listrep_len (get : N -> option node) vs P (l : list (list N * list N)) : listrep flval get vs P l -> length vs = length l.
Proof. induction 1 as [|v vs P P' a l H1 H2 IH]; cbn; congruence. Qed.
Lemma flrep_recorded get tsn root P es q t : flrep get tsn root P es -> recorded get root q t <-> (q, t) ∈ pairs es.
Proof.
  intros (h & ts & Hs & Ht & _).
  destruct (tree_says fl_ops flleaf get (fun p => recorded get p q t) (fun e => e.1 = t /\ q ∈ e.2.1)) as [H _].
  - intros p n P' es' Hg _ (vs & -> & Hv). split.
    + intros Hr. inversion Hr as [? l k ? v ? Hg' Hk Hvk Hq|? l k ? v ? Hg' Hk Hvk Hnz Hq|? i ? ? ? Hg']; subst; try congruence.
      all: assert (l = FlLeaf (map fst es') vs) as -> by congruence; cbn [fl_keys fl_values] in Hk, Hvk.
      all: destruct (listrep_at _ _ _ _ _ _ Hv Hvk) as (a & Pv & Ha & Hf); rewrite map_at in Ha; rewrite map_at in Hk.
      all: destruct (es' !! k) as [e|] eqn:Ee; [|discriminate]; injection Ha as <-; injection Hk as <-.
      all: exists e; split; [eapply elem_of_list_lookup_2; exact Ee|]; split; [reflexivity|].
      * destruct Hf as [_ [(_ & _ & <-)|(_ & E0 & _)]]; [exact Hq|]. rewrite E0 in Hq. inversion Hq.
      * destruct Hf as [_ [(E0 & _)|(_ & _ & Htr)]]; [contradiction|]. now apply (tsntree_listed _ _ _ _ _ Htr).
    + intros (e & He & <- & Hq). apply elem_of_list_lookup in He as (k & Hk).
      destruct (lookup_lt_is_Some_2 vs k) as (v & Hvk).
      { rewrite (listrep_len _ _ _ _ Hv), map_length. eapply lookup_lt_Some; exact Hk. }
      destruct (listrep_at _ _ _ _ _ _ Hv Hvk) as (a & Pv & Ha & Hf). rewrite map_at, Hk in Ha. injection Ha as <-.
      assert (fl_keys (FlLeaf (map fst es') vs) !! k = Some e.1) as Hkk by (cbn [fl_keys]; now rewrite map_at, Hk).
      destruct Hf as [_ [(_ & _ & E0)|(Hnz & _ & Htr)]].
      * eapply recorded_here; [exact Hg|exact Hkk|exact Hvk|]. now rewrite E0.
      * eapply recorded_tree; [exact Hg|exact Hkk|exact Hvk|exact Hnz|]. now apply (tsntree_listed _ _ _ _ _ Htr).
  - intros p n ks cs Hg Hl Hi. destruct n as [| |[ks' cs']| | | | | | | | | | |]; cbn in Hl, Hi; try discriminate. injection Hi as -> ->. split.
    + intros Hq. inversion Hq as [? l k ? v ? Hg'|? l k ? v ? Hg'|? i c ? ? Hg' Hc Hq']; subst; try congruence.
      assert (i = INode ks cs) as -> by congruence. eauto.
    + intros (c & Hc & Hq). eapply recorded_int; eassumption.
  - rewrite (H _ _ _ _ Hs), Ht, pairs_in. split.
    + intros ([t' [ids Pv]] & He & <- & Hq). cbn in *. eauto.
    + intros (ids & Pv & He & Hq). exists (t, (ids, Pv)). auto.
Qed.

(** The smallest registered tsn is that of a reader. *)
Lemma min_in (l : list N) a : foldr (fun t acc => Some (match acc with Some a => N.min t a | None => t end)) None l = Some a -> a ∈ l.
Proof.
  revert a. induction l as [|x l IH]; intros a; cbn [foldr]; [discriminate|]. destruct (foldr _ None l) as [b|].
  - intros [= <-]. destruct (N.min_spec x b) as [[_ ->]|[_ ->]]; [now left|]. right. now apply IH.
  - intros [= <-]. now left.
Qed.
Lemma reg_min_in regs m a : reg_ok regs m -> reg_min regs = Some a -> exists i r, m !! i = Some r /\ reg_of r = Some a.
Proof.
  intros H Ha. unfold reg_min in Ha. apply min_in in Ha. apply elem_of_list_fmap in Ha as ([a' n] & -> & Ha).
  apply elem_of_map_to_list in Ha. cbn. rewrite H in Ha. destruct (Nat.eqb_spec (cnt m a') 0) as [|Hn]; [discriminate|].
  unfold cnt in Hn. destruct (map_choose (filter (fun x => reg_of x.2 = Some a') m)) as (i & r & Hi).
  { intros E. apply Hn. rewrite E. apply map_size_empty. }
  apply map_filter_lookup_Some in Hi as [Hi Hr]. eauto.
Qed.

Section props.
  Context (ps : N) (hash : bytes -> bytes) (order : list bytes -> list bytes) (ford : gset N -> list N) (caching : bool).
  Context (Hps : ps_ok ps) (Hps32 : ps < U32) (Hord : forall l t, t ∈ order l <-> t ∈ l) (Hford : forall s, ford s ≡ₚ elements s).
  Notation step := (step 16 ps hash order ford caching).
  Notation steps := (steps 16 ps hash order ford caching).
  Notation run := (run ps hash order ford caching).

  (** What happens while a transaction goes on. *)
  Definition within (l : label) : Prop :=
    match l with LCommit _ _ | LAbort _ | LUnsure _ | LCrash _ | LKill _ | LOpen => False | _ => True end.
  (** From [y0] to [y1] a write transaction begins. *)
  Definition begins (y0 y1 : sys) : Prop :=
    step y0 LTau y1 /\ exists p0 p1, y_proc y0 = Some p0 /\ p_writer p0 = WIdle /\ y_proc y1 = Some p1 /\ busy (p_writer p1).

  (** What the transaction has done so far. *)
  Inductive reach (rd : snapshot) (w0 : writer) : writer -> Prop :=
    | reach_nil : reach rd w0 w0
    | reach_snoc w r a w' : reach rd w0 w -> req_wf w r ->
        process_append_request rd 16 ps hash order (false, false) (rq_events r) (rq_cond r) (rq_trk r) w = (a, w') -> reach rd w0 w'.
  Definition progress (rd : snapshot) (w0 : writer) (x : wphase) : Prop :=
    match x with
    | WBusy rd' w _ _ => rd' = rd /\ reach rd w0 w
    | WPages w' _ _ _ | WHeader w' _ _ | WSync w' _ _ => exists w, reach rd w0 w /\ process_freed_page_ids rd 16 ps ford w = (Ok tt, w')
    | WIdle | WBroken => False
    end.
  Record since (tr : list label) (y : sys) (p : proc) (tr0 : list label) (y0 : sys) (p0 : proc) (w0 : writer) (tr1 : list label) : Prop := {
    si_run : run tr0 y0;
    si_proc : y_proc y0 = Some p0;
    si_idle : p_writer p0 = WIdle;
    si_begin : mvcc_writer (fetch 16 (p_cache p0) (y_disk y0)) (reg_min (p_regs p0)) (latest p0).2 = (Ok tt, w0);
    si_tr : tr = tr0 ++ LTau :: tr1;
    si_steps : steps (Sys (y_disk y0) (Some (set_writer (WBusy (fetch 16 (p_cache p0) (y_disk y0)) w0 [] []) p0))) tr1 y;
    si_within : Forall within tr1;
    si_latest : latest p = latest p0;
    si_kept : forall P F, walks (on_disk (y_disk y0)) (refs (NHeader (latest p0).2)) P F -> forall q, q ∈ P -> on_disk (y_disk y) q = on_disk (y_disk y0) q;
    si_prog : progress (fetch 16 (p_cache p0) (y_disk y0)) w0 (p_writer p) }.

  Lemma since_step tr y p tr0 y0 p0 w0 tr1 l y' p' : run tr y -> y_proc y = Some p -> since tr y p tr0 y0 p0 w0 tr1 -> step y l y' -> y_proc y' = Some p' ->
    within l -> latest p' = latest p -> progress (fetch 16 (p_cache p0) (y_disk y0)) w0 (p_writer p') -> since (tr ++ [l]) y' p' tr0 y0 p0 w0 (tr1 ++ [l]).
  Proof.
    intros Hr Hp H Hst Hp' Hw Hl Hpr. destruct H as [S1 S2 S3 S4 S5 S6 S7 S8 S9 S10]. constructor; auto.
    - rewrite S5. rewrite <- app_assoc. reflexivity.
    - econstructor; eassumption.
    - apply Forall_app. split; [exact S7|]. constructor; [exact Hw|constructor].
    - congruence.
    - intros P F HW q Hq. rewrite <- (S9 P F HW q Hq).
      assert (HW' : walks (on_disk (y_disk y)) (refs (NHeader (latest p).2)) P F) by (rewrite S8; eapply walks_frame; [exact HW|intros x Hx; eapply S9; eassumption]).
      refine (proj1 (pages_in_use_kept ps hash order ford caching Hps Hps32 Hord Hford tr y p (latest p).2 P F l y' Hr Hp _ HW' Hst q Hq)). now left.
  Qed.

  Lemma open_idle d d' p : open_db 16 ps d = Ok (d', p) -> p_writer p = WIdle.
  Proof.
    unfold open_db. intros E. repeat (match type of E with (rbind ?x _ = _) => destruct x; cbn [rbind] in E; [|discriminate] | (let '(_, _) := ?x in _) = _ => destruct x | match ?x with _ => _ end = _ => destruct x; try discriminate end).
    all: injection E as _ <-; reflexivity.
  Qed.
  Lemma run_since tr y : run tr y -> forall p, y_proc y = Some p -> busy (p_writer p) -> exists tr0 y0 p0 w0 tr1, since tr y p tr0 y0 p0 w0 tr1.
  Proof.
    intros H. unfold StoreProofs.run in H. remember (init_sys 16 ps) as yi eqn:Ei. induction H as [y|yi tr y l y' H IH Hst]; intros p' Hp' Hb.
    { subst. cbn in Hp'. injection Hp' as <-. destruct Hb. }
    subst yi. specialize (IH eq_refl). fold (StoreProofs.run ps hash order ford caching tr y) in H.
    destruct y as [d pp]. destruct pp as [p|].
    2:{ inversion Hst as [| |? ? Hd| |? ? ? Ho]; subst; cbn in Hp'; [discriminate|]. injection Hp' as <-. rewrite (open_idle _ _ _ Ho) in Hb. destruct Hb. }
    inversion Hst as [? ? ? d' p1 Hp1| | | |]; subst; cbn in Hp'; try discriminate. injection Hp' as ->.
    specialize (IH p eq_refl). cbn [y_proc] in *.
    assert (Hsame : within l -> p_writer p' = p_writer p -> latest p' = latest p -> exists tr0 y0 p0 w0 tr1, since (tr ++ [l]) (Sys d' (Some p')) p' tr0 y0 p0 w0 tr1).
    { intros Hw Ew El. rewrite Ew in Hb. destruct (IH Hb) as (tr0 & y0 & p0 & w0 & tr1 & HS). exists tr0, y0, p0, w0, (tr1 ++ [l]).
      eapply since_step; [exact H|reflexivity|exact HS|exact Hst|reflexivity|exact Hw|exact El|]. rewrite Ew. exact (si_prog _ _ _ _ _ _ _ _ HS). }
    assert (Hnext : within l -> busy (p_writer p) -> latest p' = latest p -> (forall rd w0, progress rd w0 (p_writer p) -> progress rd w0 (p_writer p')) ->
      exists tr0 y0 p0 w0 tr1, since (tr ++ [l]) (Sys d' (Some p')) p' tr0 y0 p0 w0 tr1).
    { intros Hw Hb0 El Hpr. destruct (IH Hb0) as (tr0 & y0 & p0 & w0 & tr1 & HS). exists tr0, y0, p0, w0, (tr1 ++ [l]).
      eapply since_step; [exact H|reflexivity|exact HS|exact Hst|reflexivity|exact Hw|exact El|]. apply Hpr. exact (si_prog _ _ _ _ _ _ _ _ HS). }
    clear IH. inversion Hp1 as
      [? ? q n Hca Hq Hf|? ? q|? ? i Hi|? ? i Hi|? ? i a Hi|? ? i a Hi|? ? i a Hi|? ? i a b Hi Ht|? ? i a b Hi Ht|? ? i a Hi
      |? ? i a q start bw limit force Hi|? ? i a Hi|? ? i a src Hi
      |? ? w Hx E|? ? rd w done ans r a w' Hx Hwf E Hab|? ? rd w done ans r Hx|? ? rd w done ans w' todo Hx E Htodo Hs1 Hs2
      |? ? w q n b todo done ans Hx E|? ? w q n b todo done ans ? Hx Hd|? ? w done ans Hx|? ? w done ans ? Hx Hd
      |? ? w done ans b Hx E|? ? w done ans b ? Hx E Hd|? ? w done ans Hx|? ? w done ans ? Hx Hd]; subst.
    1-13: apply Hsame; [exact I|reflexivity|reflexivity].
    - (* begin *) exists tr, (Sys d' (Some p)), p, w, []. constructor; auto; try reflexivity; [apply steps_nil|cbn; split; [reflexivity|constructor]].
    - apply Hnext; [exact I|rewrite Hx; exact I|reflexivity|]. rewrite Hx. cbn. intros rd0 w0 [-> Hre]. split; [reflexivity|]. econstructor; eassumption.
    - destruct Hb.
    - apply Hnext; [exact I|rewrite Hx; exact I|reflexivity|]. rewrite Hx. cbn. intros rd0 w0 [-> Hre]. eauto.
    - apply Hnext; [exact I|rewrite Hx; exact I|reflexivity|]. rewrite Hx. cbn. auto.
    - destruct Hb.
    - apply Hnext; [exact I|rewrite Hx; exact I|destruct caching; reflexivity|]. rewrite Hx. cbn. auto.
    - destruct Hb.
    - apply Hnext; [exact I|rewrite Hx; exact I|reflexivity|]. rewrite Hx. cbn. auto.
    - destruct Hb.
    - exfalso. unfold pin_header in Hb. destruct (_ =? 0); destruct Hb.
    - destruct Hb.
  Qed.

  (** What the transaction leaves: the free list it writes. *)
  Lemma reach_tinv rd sn sm w0 w PE PT PK s : reach rd w0 w -> tinv 16 ps hash rd sn sm w0 PE PT PK s ->
    spends w0 w /\ exists PE' PT' PK' s', tinv 16 ps hash rd sn sm w PE' PT' PK' s'.
  Proof.
    intros H Ht. induction H as [|w r a w' H [Hs (PE' & PT' & PK' & s' & IH)] Hwf E]; [split; [now apply spends_same|eauto 10]|].
    destruct (request_step 16 ps hash order ford Hps ltac:(lia) Hord Hford rd sn sm w PE' PT' PK' s' r IH Hwf) as (w1 & PE1 & PT1 & PK1 & E1 & Ht').
    rewrite E in E1. injection E1 as -> ->. split; [|eauto 10]. eapply spends_trans; [exact Hs|].
    pose proof (th_request 16 ps rd hash order (false, false) (rq_events r) (rq_cond r) (rq_trk r) w) as Hth. rewrite E in Hth. exact Hth.
  Qed.
  Lemma commit_list rd sn sm w w' PE PT PK s : tinv 16 ps hash rd sn sm w PE PT PK s -> process_freed_page_ids rd 16 ps ford w = (Ok tt, w') ->
    exists PF' es' fs, flrep (vget rd w') (w_tsn w') (w_free_root w') PF' es' /\ w_tsn w' = h_tsn (sn_hdr sn) + 1 /\
      pairs es' ≡ₚ map (fun x => (x, w_tsn w')) fs ++ kept_pairs sn sm ++ w_reusable w' /\
      (forall q, q ∈ PF' -> is_Some (w_dirty w' !! q) \/ q ∈ sn_live sn).
  Proof.
    intros [_ H2 H3 _ _] E.
    destruct (process_freed_ok rd 16 ps Hps (T sn sm) (Txn.fresh sn sm) (fun q => q ∈ sn_live sn) ford Hford w _ _ _ _ H2)
      as (w1 & PF' & es' & fs & E1 & P & K & Hru & Hfr).
    assert (w1 = w') as -> by congruence. destruct K as [_ K2 _ _ _ _]. exists PF', es', fs.
    split; [exact (pi_fl _ _ _ _ _ _ _ _ _ _ P)|]. split; [congruence|]. split.
    - rewrite (pi_pairs _ _ _ _ _ _ _ _ _ _ P), Hru, app_nil_r, K2. now rewrite app_assoc.
    - intros q Hq. apply (pi_src _ _ _ _ _ _ _ _ _ _ P). apply elem_of_app. now left.
  Qed.

  Theorem file_grows_only_when_needed tr y reqs ans y' p p' : run tr y -> step y (LCommit reqs ans) y' -> y_proc y = Some p -> y_proc y' = Some p' ->
    h_next_page (latest p).2 < h_next_page (latest p').2 ->
    exists tr0 y0 y1 p0 tr1, run tr0 y0 /\ y_proc y0 = Some p0 /\ begins y0 y1 /\ steps y1 tr1 y /\ Forall within tr1 /\ tr = tr0 ++ LTau :: tr1 /\
      forall q t, recorded (on_disk (y_disk y')) (h_free_root (latest p').2) q t ->
        t = h_tsn (latest p').2 \/ exists i r m, p_readers p0 !! i = Some r /\ reg_of r = Some m /\ m < t.
  Proof.
    intros Hr Hst Hp Hp' Hlt. destruct y as [d pp]. cbn in Hp. subst pp.
    inversion Hst as [? ? ? d' p1 Hp1| | | |]; subst. cbn in Hp'. injection Hp' as ->.
    inversion Hp1 as [| | | | | | | | | | | | | | | | | | | | | | |? ? w' ? ? Hx|]; subst.
    destruct (run_since _ _ Hr p eq_refl ltac:(rewrite Hx; exact I)) as (tr0 & y0 & p0 & w0 & tr1 & [S1 S2 S3 S4 S5 S6 S7 S8 S9 S10]).
    rewrite Hx in S10. cbn [progress] in S10. destruct S10 as (w & Hre & Epf).
    set (rd := fetch 16 (p_cache p0) (y_disk y0)) in *. set (sm := reg_min (p_regs p0)) in *.
    exists tr0, y0, (Sys (y_disk y0) (Some (set_writer (WBusy rd w0 [] []) p0))), p0, tr1.
    split; [exact S1|]. split; [exact S2|]. split.
    { split; [|exists p0; eexists; split; [exact S2|]; split; [exact S3|]; split; [reflexivity|exact I]].
      destruct y0 as [d0 pp]. cbn in S2. subst pp. constructor. now apply S_begin. }
    split; [exact S6|]. split; [exact S7|]. split; [exact S5|].
    (* the state it began from *)
    destruct (run_inv ps hash order ford caching Hps Hps32 Hord Hford _ _ S1) as (sy0 & _ & Hi0 & _). unfold inv in Hi0. rewrite S2 in Hi0. destruct Hi0 as (g0 & Hi0).
    pose proof (u_held _ _ _ _ _ _ _ _ Hi0) as Hh0. pose proof (u_cur _ _ _ _ _ _ _ _ Hi0) as Hc0. set (G0 := gh_cur g0) in *.
    assert (Hrd : forall q, q ∈ g_live G0 -> rget rd q = g_get G0 q) by (intros q Hq; unfold rd; eapply held_rget; try eassumption; lia).
    assert (Hok : snap_ok 16 ps hash (rget rd) (g_sn G0)) by (eapply snap_frame; [exact (proj1 Hh0)|exact Hrd]).
    destruct (begin_ok 16 ps hash order ltac:(lia) Hord rd (g_sn G0) sm Hok) as (w0' & E' & Ht).
    pose proof (u_latest _ _ _ _ _ _ _ _ Hi0) as Hlat0. fold G0 in Hlat0. rewrite Hlat0 in S4. assert (w0' = w0) as -> by congruence. clear E'.
    destruct (reach_tinv _ _ _ _ _ _ _ _ _ Hre Ht) as (Hsp & PE & PT & PK & s & Htw).
    destruct (commit_list _ _ _ _ _ _ _ _ _ Htw Epf) as (PF' & es' & fs & Hfl & Htsn & Hpairs & Hsrc).
    assert (Hsp' : spends w0 w').
    { eapply spends_trans; [exact Hsp|]. pose proof (th_process 16 ps rd ford w) as Hth. rewrite Epf in Hth. exact Hth. }
    assert (Hnp : w_next_page w0 = h_next_page (g_hdr G0)).
    { pose proof (st_find rd sm (new_writer (g_hdr G0))) as Hst0. unfold mvcc_writer in S4. rewrite S4 in Hst0. exact Hst0. }
    (* the state before the commit is done *)
    destruct (run_inv ps hash order ford caching Hps Hps32 Hord Hford _ _ Hr) as (sy & _ & Hi & _). unfold inv in Hi. cbn [y_proc y_disk] in Hi. destruct Hi as (g & Hi).
    pose proof (u_writer _ _ _ _ _ _ _ _ Hi) as Hw. rewrite Hx in Hw. destruct Hw as (Hn & Hg & _). pose proof (u_cur _ _ _ _ _ _ _ _ Hi) as Hc.
    pose proof Hn as (N1 & _ & _ & N4 & _). pose proof (u_latest _ _ _ _ _ _ _ _ Hi) as Hlat. assert (h_tsn (p_pin0 p).2 <= h_tsn (latest p).2 /\ h_tsn (p_pin1 p).2 <= h_tsn (latest p).2) as [Hl0 Hl1] by (unfold latest, latest_of; destruct (N.ltb_spec (h_tsn (p_pin0 p).2) (h_tsn (p_pin1 p).2)); lia).
    set (a := (other_slot (latest p).1, next_header (h_schema (latest p).2) w')) in *.
    assert (Hta : h_tsn a.2 = h_tsn (latest p).2 + 1) by (unfold a; cbn; rewrite Htsn, S8, Hlat0; reflexivity).
    assert (Hlat' : latest (pin_header a (set_writer WIdle p)) = a).
    { unfold pin_header, latest, latest_of. destruct (N.eqb_spec a.1 0) as [E0|E0]; cbn [p_pin0 p_pin1 set_writer].
      - destruct (N.ltb_spec (h_tsn a.2) (h_tsn (p_pin1 p).2)) as [Hlt'|Hlt']; [lia|reflexivity].
      - destruct (N.ltb_spec (h_tsn (p_pin0 p).2) (h_tsn a.2)) as [Hlt'|Hlt']; [reflexivity|lia]. }
    rewrite Hlat' in *. 
    assert (Hempty : w_reusable w' = []).
    { destruct Hsp' as [_ [E0|[E0 _]]]; [|exact E0]. exfalso. unfold a in Hlt. cbn in Hlt. rewrite E0, Hnp, S8, Hlat0 in Hlt. lia. }
    assert (Hdisk : flrep (on_disk (d_synced d)) (w_tsn w') (w_free_root w') PF' es').
    { eapply flrep_frame; [exact Hfl|]. intros q Hq. unfold on_disk. change (d_cur (d_synced d) q) with (d_cur d q). unfold vget. destruct (w_dirty w' !! q) as [n|] eqn:Ed.
      - destruct (Hg q n Ed) as [Hgd _]. now rewrite (Hgd _ (Hc q)).
      - destruct (Hsrc q Hq) as [[? ?]|Hl]; [congruence|]. change (match rd q with Ok n => Some n | Err _ => None end) with (rget rd q). rewrite (Hrd q Hl).
        destruct (held_walks ps hash _ _ _ Hc0 Hh0) as (P & F & HW & -> & _). fold G0 in HW. rewrite <- Hlat0 in HW.
        pose proof (S9 _ _ HW q Hl) as Ek. cbn [y_disk] in Ek. unfold on_disk in Ek. rewrite Ek.
        destruct (proj2 Hh0 q Hl) as (n & Hgn & Hgd & _). now rewrite (Hgd _ (Hc0 q)), Hgn. }
    cbn [y_disk]. intros q t Hrec. change (h_free_root a.2) with (w_free_root w') in Hrec. apply (flrep_recorded _ _ _ _ _ _ _ Hdisk) in Hrec.
    rewrite Hpairs, Hempty, app_nil_r in Hrec. apply elem_of_app in Hrec as [Hrec|Hrec].
    - left. apply elem_of_list_In, in_map_iff in Hrec as (x & [= _ <-] & _). reflexivity.
    - right. unfold kept_pairs in Hrec. apply pairs_in in Hrec as (ids & Pv & He & _). apply elem_of_list_filter in He as [Ho _]. cbn in Ho.
      unfold old_enough in Ho. destruct sm as [m|] eqn:Em; [|exfalso; apply Ho; exact I].
      destruct (reg_min_in _ _ _ (u_regs _ _ _ _ _ _ _ _ Hi0) Em) as (i & r & Hir & Hrr). exists i, r, m. split; [exact Hir|]. split; [exact Hrr|]. lia.
  Qed.

  (** [recorded] and the walk of C15 find the same free pages; none is marked with a transaction that is still to come. *)
  Theorem free_pages_recorded tr y p h P F q : run tr y -> y_proc y = Some p -> in_use p h -> walks (on_disk (y_disk y)) (refs (NHeader h)) P F ->
    (q ∈ F <-> exists t, recorded (on_disk (y_disk y)) (h_free_root h) q t) /\
    forall t, recorded (on_disk (y_disk y)) (h_free_root h) q t -> t <= h_tsn h.
  Proof.
    intros Hr Hp Hu Hw. destruct (run_in_use ps hash order ford caching Hps Hps32 Hord Hford tr y p h Hr Hp Hu) as (g & sy & G & Hi & <- & Hh & _).
    pose proof (u_cur _ _ _ _ _ _ _ _ Hi) as Hc. destruct (held_walks ps hash _ _ _ Hc Hh) as (P' & F' & Hw' & EP & EF).
    destruct (walks_unique _ _ _ _ _ _ Hw Hw') as [-> ->]. clear Hw'.
    assert (Hfl : flrep (on_disk (y_disk y)) (g_tsn G) (h_free_root (g_hdr G)) (sn_PF (g_sn G)) (sn_es (g_sn G))).
    { eapply flrep_frame; [exact (so_fl _ _ _ _ _ (proj1 Hh))|]. intros x Hx. destruct (proj2 Hh x) as (n & Hn & Hg & _).
      - unfold sn_live. apply elem_of_app. now left.
      - unfold on_disk. now rewrite (Hg _ (Hc x)), Hn. }
    split.
    - rewrite EF. split.
      + intros Hq. apply elem_of_list_fmap in Hq as ([q' t] & -> & Hq). exists t. now apply (flrep_recorded _ _ _ _ _ _ _ Hfl).
      + intros (t & Ht). apply (flrep_recorded _ _ _ _ _ _ _ Hfl) in Ht. apply elem_of_list_fmap. now exists (q, t).
    - intros t Ht. apply (flrep_recorded _ _ _ _ _ _ _ Hfl) in Ht. eapply snap_le; [exact (proj1 Hh)|exact Ht].
  Qed.

  (** Without readers. *)
  Definition no_call (l : label) : Prop := match l with LCall _ => False | _ => True end.
  Lemma run_no_readers tr y p : run tr y -> Forall no_call tr -> y_proc y = Some p -> p_readers p = ∅.
  Proof.
    intros H. unfold StoreProofs.run in H. remember (init_sys 16 ps) as yi eqn:Ei. revert p. induction H as [y|yi tr y l y' H IH Hst]; intros p' Hn Hp'.
    { subst. cbn in Hp'. now injection Hp' as <-. }
    apply Forall_app in Hn as [Hn Hl]. inversion Hl as [|? ? Hl' _]; subst. specialize (IH eq_refl).
    inversion Hst as [d p l0 d' p1 Hp1| | | |d d' p1 Ho]; subst; cbn in Hp'; try discriminate; injection Hp' as ->.
    - specialize (IH p Hn eq_refl). inversion Hp1; subst; cbn in *; try assumption; try contradiction.
      all: try (rewrite IH in *; match goal with H : ∅ !! _ = Some _ |- _ => rewrite lookup_empty in H; discriminate H end).
      + destruct caching; exact IH.
      + unfold pin_header. destruct (_ =? 0); exact IH.
    - unfold open_db in Ho. repeat (match type of Ho with (rbind ?x _ = _) => destruct x; cbn [rbind] in Ho; [|discriminate] | (let '(_, _) := ?x in _) = _ => destruct x | match ?x with _ => _ end = _ => destruct x; try discriminate end).
      all: injection Ho as _ <-; reflexivity.
  Qed.
  Corollary file_grows_without_readers tr y reqs ans y' p p' : run tr y -> Forall no_call tr -> step y (LCommit reqs ans) y' -> y_proc y = Some p -> y_proc y' = Some p' ->
    h_next_page (latest p).2 < h_next_page (latest p').2 ->
    forall q t, recorded (on_disk (y_disk y')) (h_free_root (latest p').2) q t -> t = h_tsn (latest p').2.
  Proof.
    intros Hr Hn Hst Hp Hp' Hlt. destruct (file_grows_only_when_needed tr y reqs ans y' p p' Hr Hst Hp Hp' Hlt) as (tr0 & y0 & y1 & p0 & tr1 & R0 & P0 & _ & _ & _ & -> & H).
    intros q t Hq. destruct (H q t Hq) as [Ht|(i & r & m & Hi & _)]; [exact Ht|]. apply Forall_app in Hn as [Hn _].
    rewrite (run_no_readers _ _ _ R0 Hn P0), lookup_empty in Hi. discriminate.
  Qed.
End props.

(** Beside them, an execution: a reader of transaction 1 is open while transaction 3 commits.  The file grows although
    page 5 is free; it was put on the free list by transaction 2. *)
Definition x_script91 := x_batch [xr1; xr2] 3 ++ [ADone] ++ x_reader 0 ++ x_batch [xr3; xr4; xr5] 6 ++ [ADone] ++ x_batch [xr6] 4.
Notation x_exec1 := (exec1 16 1024 x_hash (fun l => l) x_ford true).
Definition y_says (y : sys) (np tsn q t : N) : bool := match y_proc y with
  | Some p => (h_next_page (latest p).2 =? np) && (h_tsn (latest p).2 =? tsn) &&
    match on_disk (y_disk y) (h_free_root (latest p).2) with
    | Some (NFreeLeaf l) => match fl_keys l, fl_values l with k :: _, v :: _ => (k =? t) && bool_decide (q ∈ fv_page_ids v) | _, _ => false end
    | _ => false end
  | None => false end.
Lemma y_says_inv y np tsn q t : y_says y np tsn q t = true -> exists p, y_proc y = Some p /\ h_next_page (latest p).2 = np /\ h_tsn (latest p).2 = tsn /\
  recorded (on_disk (y_disk y)) (h_free_root (latest p).2) q t.
Proof.
  unfold y_says. destruct (y_proc y) as [p|]; [|discriminate]. destruct (on_disk _ _) as [[]|] eqn:E; rewrite ?andb_false_r; try discriminate.
  destruct (fl_keys n) as [|k ks] eqn:Ek; rewrite ?andb_false_r; try discriminate. destruct (fl_values n) as [|v vs] eqn:Ev; rewrite ?andb_false_r; try discriminate.
  rewrite !andb_true_iff, !N.eqb_eq, bool_decide_eq_true. intros ((H1 & H2) & -> & H3). exists p. split; [reflexivity|]. split; [exact H1|]. split; [exact H2|].
  eapply (recorded_here _ _ _ 0%nat); [exact E|now rewrite Ek|now rewrite Ev|exact H3].
Qed.
Definition x_p91 (y : sys) : bool := y_says y 11 2 5 2 &&
  match x_exec1 y ADone with Some (LCommit [_] [Ok _], y') => y_says y' 15 3 5 2 | _ => false end.
Lemma x_p91_found : exists tr y, x_run tr y /\ x_p91 y = true.
Proof. apply (x_found x_script91). vm_compute. reflexivity. Qed.
Example x_grows : exists tr y reqs ans y' p p', x_run tr y /\ x_step y (LCommit reqs ans) y' /\ y_proc y = Some p /\ y_proc y' = Some p' /\
  h_next_page (latest p).2 = 11 /\ h_next_page (latest p').2 = 15 /\ h_tsn (latest p').2 = 3 /\
  recorded (on_disk (y_disk y)) (h_free_root (latest p).2) 5 2 /\ recorded (on_disk (y_disk y')) (h_free_root (latest p').2) 5 2 /\
  exists tr0 y0 p0 i r m, x_run tr0 y0 /\ y_proc y0 = Some p0 /\ p_readers p0 !! i = Some r /\ reg_of r = Some m /\ m < 2.
Proof.
  destruct x_p91_found as (tr & y & H & HP). unfold x_p91 in HP. apply andb_prop in HP as [H1 H2].
  destruct (x_exec1 y ADone) as [[l y']|] eqn:E; [|discriminate]. destruct l as [|reqs ans| | | | | | | | | | |]; try discriminate.
  assert (y_says y' 15 3 5 2 = true) as H3. { destruct reqs as [|? []]; try discriminate. destruct ans as [|[] []]; try discriminate. exact H2. }
  clear H2. apply (exec1_ok _ _ _ _ _ _ _ _ _ _ (run_cur 1024 x_hash (fun l => l) x_ford true x_ps x_ps32 x_ord x_ford_ok _ _ H)) in E.
  apply y_says_inv in H1 as (p & Hp & Hn & Ht & Hq). apply y_says_inv in H3 as (p' & Hp' & Hn' & Ht' & Hq').
  exists tr, y, reqs, ans, y', p, p'. do 9 (split; [assumption|]).
  destruct (file_grows_only_when_needed 1024 x_hash (fun l => l) x_ford true x_ps x_ps32 x_ord x_ford_ok tr y reqs ans y' p p' H E Hp Hp' ltac:(lia))
    as (tr0 & y0 & y1 & p0 & tr1 & R0 & P0 & _ & _ & _ & _ & Hall).
  destruct (Hall 5 2 Hq') as [?|(i & r & m & Hi)]; [lia|]. exists tr0, y0, p0, i, r, m. split; [exact R0|]. split; [exact P0|exact Hi].
Qed.

Print Assumptions file_grows_only_when_needed.
Print Assumptions free_pages_recorded.
Print Assumptions file_grows_without_readers.
