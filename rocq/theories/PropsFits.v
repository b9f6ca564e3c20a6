(** Property C84: which pages of a commit can be too long for a page. *)
From Verif Require Import Exec PropsPage PropsStore PropsFindings PropsLegacy PropsPipeline PropsPipelined.
From Verif Require Import EventsProofs TrackingProofs FreeListProofs MvccProofs StoreProofs PageProofs Fits.
Local Open Scope N_scope.

(** The pages of the two trees that are not checked properly (C29, C30). *)
Definition unchecked (n : node) : bool := match n with NTagsLeaf _ | NTrkLeaf _ | NTrkInt _ => true | _ => false end.
(** Nothing stored has a tag, and no position of another source is recorded. *)
Definition plain (s : spec_state) : Prop := Forall (fun e => er_tags e.2 = []) (s_hist s) /\ forall x, s_track s x = None.

(** ** The kinds of the pages of a tree *)
Section kinds.
  Context {K E : Type} (ops : tree_ops K) (leafrep : (N -> option node) -> node -> list N -> list E -> Prop).
  Context (get : N -> option node) (Ok : E -> Prop) (Pn : node -> Prop).
  Context (Hleaf : forall n P es, t_leaf ops n = true -> leafrep get n P es -> Forall Ok es -> Pn n /\ forall q m, q ∈ P -> get q = Some m -> Pn m).
  Context (Hint : forall n nd, t_int ops n = Some nd -> Pn n).
  Lemma shape_pages h p P ts : shape ops leafrep get h p P ts -> Forall Ok (toks_es ts) -> forall q m, q ∈ P -> get q = Some m -> Pn m.
  Proof.
    revert h p P ts. enough (H : (forall h p P ts, shape ops leafrep get h p P ts -> Forall Ok (toks_es ts) -> forall q m, q ∈ P -> get q = Some m -> Pn m) /\
      (forall h ks cs P ts, rforest ops leafrep get h ks cs P ts -> Forall Ok (toks_es ts) -> forall q m, q ∈ P -> get q = Some m -> Pn m)) by exact (proj1 H).
    apply shape_rforest_ind.
    - intros p n P es h Hg Hl Hr Ho q m Hq Hm. rewrite toks_es_map in Ho. destruct (Hleaf n P es Hl Hr Ho) as [H1 H2].
      apply elem_of_cons in Hq as [->|Hq]; [congruence|eauto].
    - intros h p n ks c cs P ts P' ts' Hg Hl Hi Hk _ IH1 _ IH2 Ho q m Hq Hm. rewrite toks_es_app, Forall_app in Ho. destruct Ho as [O1 O2].
      apply elem_of_cons in Hq as [->|Hq]; [assert (m = n) as -> by congruence; eapply Hint; exact Hi|]. apply elem_of_app in Hq as [Hq|Hq]; eauto.
    - intros h _ q m Hq. inversion Hq.
    - intros h k ks c cs P ts P' ts' _ IH1 _ IH2 Ho q m Hq Hm. change (TS k :: ts ++ ts') with ([TS k] ++ ts ++ ts') in Ho. rewrite !toks_es_app, !Forall_app in Ho.
      destruct Ho as (_ & O1 & O2). apply elem_of_app in Hq as [Hq|Hq]; eauto.
  Qed.
End kinds.
Lemma listrep_all {V A} (R : (N -> option node) -> V -> list N -> A -> Prop) get (Pn : node -> Prop) vs P l :
  listrep R get vs P l -> (forall v P a, R get v P a -> forall q m, q ∈ P -> get q = Some m -> Pn m) -> forall q m, q ∈ P -> get q = Some m -> Pn m.
Proof. intros H HR. induction H as [|v vs P P' a l H1 H2 IH]; intros q m Hq Hm; [inversion Hq|]. apply elem_of_app in Hq as [Hq|Hq]; eauto. Qed.

Definition checked (n : node) : Prop := unchecked n = false.
Lemma chain_checked get p P d : chain get p P d -> forall q m, q ∈ P -> get q = Some m -> checked m.
Proof. induction 1 as [|p next d P rest Hp Hg Hc IH]; intros q m Hq Hm; [inversion Hq|]. apply elem_of_cons in Hq as [->|Hq]; [|eauto]. now assert (m = NEvOverflow (EvOverflow next d)) as -> by congruence. Qed.
Lemma ev_checked get h r P ts : shape ev_ops evleaf get h r P ts -> forall q m, q ∈ P -> get q = Some m -> checked m.
Proof.
  intros H. refine (shape_pages ev_ops evleaf get (fun _ => True) checked _ _ h r P ts H _).
  - intros n P0 es _ (vs & -> & Hv) _. split; [reflexivity|]. revert Hv. generalize (map snd es). intros l Hv. induction Hv as [|v vs P1 P' a l H1 H2 IH]; intros q m Hq Hm; [inversion Hq|].
    apply elem_of_app in Hq as [Hq|Hq]; [|eauto]. destruct v as [r'|ty dl tags root uuid ml trk]; [destruct H1 as [_ ->]; inversion Hq|].
    destruct H1 as (_ & _ & _ & _ & _ & H1). exact (chain_checked _ _ _ _ H1 _ _ Hq Hm).
  - intros n nd Hi. destruct n; try discriminate Hi; reflexivity.
  - now apply Forall_true.
Qed.
Lemma fl_checked get tsn r P es : flrep get tsn r P es -> forall q m, q ∈ P -> get q = Some m -> checked m.
Proof.
  intros (h & ts & H & _). refine (shape_pages fl_ops flleaf get (fun _ => True) checked _ _ h r P ts H _); [| |now apply Forall_true].
  - intros n P0 es0 _ (vs & -> & Hv) _. split; [reflexivity|]. eapply listrep_all; [exact Hv|]. intros v P1 a [-> [(_ & -> & _)|(_ & _ & h1 & ts1 & Hs & _)]]; [intros q m Hq; inversion Hq|].
    refine (shape_pages (tsn_ops 0) tsnleaf get (fun _ => True) checked _ _ h1 _ _ ts1 Hs _); [| |now apply Forall_true].
    + intros n P2 es2 _ [-> ->] _. split; [reflexivity|]. intros q m Hq. inversion Hq.
    + intros n nd Hi. destruct n; try discriminate Hi; reflexivity.
  - intros n nd Hi. destruct n; try discriminate Hi; reflexivity.
Qed.
Lemma tags_nonempty kw ps get h r P ts : shape (tags_ops []) (tagsleaf kw ps) get h r P ts -> Forall (fun e => e.2 <> []) (toks_es ts).
Proof.
  revert h r P ts. enough (H : (forall h p P ts, shape (tags_ops []) (tagsleaf kw ps) get h p P ts -> Forall (fun e => e.2 <> []) (toks_es ts)) /\
    (forall h ks cs P ts, rforest (tags_ops []) (tagsleaf kw ps) get h ks cs P ts -> Forall (fun e => e.2 <> []) (toks_es ts))) by exact (proj1 H).
  apply shape_rforest_ind.
  - intros p n P es h _ _ (vs & _ & Hv). rewrite toks_es_map. enough (H : Forall (fun l => l <> []) (map snd es)) by (rewrite Forall_map in H; exact H).
    revert Hv. generalize (map snd es). intros l Hv. induction Hv as [|v vs P1 P' a l H1 H2 IH]; constructor; [exact (proj2 (proj1 H1))|exact IH].
  - intros. rewrite toks_es_app, Forall_app. auto.
  - intros. constructor.
  - intros h k ks c cs P ts P' ts' _ IH1 _ IH2. change (TS k :: ts ++ ts') with ([TS k] ++ ts ++ ts'). rewrite !toks_es_app, !Forall_app. split; [constructor|auto].
Qed.
(** Without tags the leaves of the tag index are empty. *)
Lemma tags_plain kw ps hash get h r P ts hist : shape (tags_ops []) (tagsleaf kw ps) get h r P ts -> tags_sorted ts -> indexed hash (toks_es ts) hist ->
  Forall (fun e => er_tags e.2 = []) hist -> forall q m, q ∈ P -> get q = Some m -> checked m \/ m = NTagsLeaf (TagsLeaf [] []).
Proof.
  intros H Hsrt Hi Hn. pose proof (tags_nonempty _ _ _ _ _ _ _ H) as Hne. assert (toks_es ts = []) as He.
  { destruct (toks_es ts) as [|[t l] es]; [reflexivity|exfalso]. apply Forall_inv in Hne. cbn in Hne. destruct l as [|p l]; [contradiction|].
    destruct (proj1 (Hi t p)) as (rr & t' & Hin & Ht & _).
    - unfold idx. cbn [alookup]. rewrite decide_True by reflexivity. cbn. now left.
    - rewrite Forall_forall in Hn. specialize (Hn _ Hin). cbn in Hn. rewrite Hn in Ht. inversion Ht. }
  refine (shape_pages (tags_ops []) (tagsleaf kw ps) get (fun _ => False) (fun m => checked m \/ m = NTagsLeaf (TagsLeaf [] [])) _ _ h r P ts H _).
  - intros n P0 es _ (vs & -> & Hv) Hf. destruct es as [|e es]; [|apply Forall_inv in Hf; destruct Hf]. cbn in Hv. inversion Hv; subst. split; [now right|]. intros q m Hq. inversion Hq.
  - intros n nd Hnd. left. destruct n; try discriminate Hnd; reflexivity.
  - rewrite He. constructor.
Qed.

(** ** The pages of a state *)
Section pages.
  Context (kw : nat) (ps : N) (hash : bytes -> bytes) (Hps : ps_ok ps) (Hkw : (kw <= 16)%nat).
  Lemma fit_ser n : fit kw ps n -> storable kw n -> unchecked n = false -> exists b, page_ser kw ps n = Ok b.
  Proof.
    intros Hf Hs Hu. apply page_size_safe; [exact Hkw|exact (proj1 Hs)|]. destruct n as [hd| | | | | | | | | | | | |]; try discriminate Hu; try exact Hf; try exact (proj2 Hf).
    unfold page_size_of, PAGE_HEADER_SIZE. cbn [node_size]. assert (header_size hd <= 62) by (unfold header_size; destruct (_ =? _); lia). unfold ps_ok in Hps. lia.
  Qed.
  (** A page of a state whose state of the specification is plain. *)
  Lemma plain_ser get sn : snap_ok kw ps hash get sn -> plain (sn_st sn) -> forall q n, q ∈ sn_live sn -> get q = Some n -> storable kw n -> exists b, page_ser kw ps n = Ok b.
  Proof.
    intros Hok [Hp1 Hp2] q n Hq Hn Hs. pose proof (so_fit _ _ _ _ _ Hok q n Hq Hn) as Hf. destruct (so_hist _ _ _ _ _ Hok) as [(h1 & ts1 & S1 & _) (h2 & ts2 & S2 & Hs2 & Hi2)].
    unfold sn_live in Hq. rewrite !elem_of_app in Hq. destruct Hq as [Hq|[Hq|[Hq|Hq]]].
    - apply fit_ser; auto. exact (fl_checked _ _ _ _ _ (so_fl _ _ _ _ _ Hok) q n Hq Hn).
    - apply fit_ser; auto. exact (ev_checked _ _ _ _ _ S1 q n Hq Hn).
    - destruct (tags_plain _ _ _ _ _ _ _ _ _ S2 Hs2 Hi2 Hp1 q n Hq Hn) as [Hc | ->]; [now apply fit_ser|].
      apply page_size_safe; [exact Hkw|exact (proj1 Hs)|]. unfold ps_ok in Hps. assert (page_size_of kw (NTagsLeaf (TagsLeaf [] [])) = 11) as -> by reflexivity. lia.
    - destruct (so_trk _ _ _ _ _ Hok) as (es & [(_ & E & _)|(_ & h & ts & _ & _ & _ & _ & _ & Hne)] & Ht); [rewrite E in Hq; inversion Hq|].
      destruct es as [|[k v] es]; [contradiction|]. specialize (Ht k). rewrite Hp2 in Ht. cbn [alookup] in Ht. rewrite decide_True in Ht by reflexivity. discriminate.
  Qed.
End pages.

(** ** The writer thread without pipelining *)
Section blocking.
  Context (kw : nat) (ps : N) (hash : bytes -> bytes) (order : list bytes -> list bytes) (ford : gset N -> list N) (caching : bool).
  Context (Hps : ps_ok ps) (Hps32 : ps < U32) (Hkw : (kw <= 16)%nat).
  Context (Hord : forall l t, t ∈ order l <-> t ∈ l) (Hford : forall s, ford s ≡ₚ elements s).
  Notation uinv := (uinv kw ps hash caching).
  Notation steps := (steps kw ps hash order ford caching).

  Lemma next_fit d p g sy w todo done ans : uinv d p g sy -> p_writer p = WPages w todo done ans ->
    (forall q n, (q, n) ∈ todo -> unchecked n = false -> exists b, page_ser kw ps n = Ok b) /\
    (plain (spec_batch ps (g_st (gh_cur g)) done).2 -> forall q n, (q, n) ∈ todo -> exists b, page_ser kw ps n = Ok b) /\
    exists b, page_ser kw ps (NHeader (next_header (h_schema (latest p).2) w)) = Ok b.
  Proof.
    intros H Hx. pose proof (u_writer _ _ _ _ _ _ _ _ H) as Hw. rewrite Hx in Hw. destruct Hw as ((N1 & N2 & N3 & N4 & N5 & N6 & N7 & N8 & N9 & N10 & N11) & Hto & _).
    split; [|split].
    - intros q n Hq Hu. apply Hto in Hq. destruct (N10 q n Hq) as [Hg Hs]. apply fit_ser; auto. eapply (so_fit _ _ _ _ _ N3); [|exact Hg]. apply N6. eauto.
    - intros Hp q n Hq. apply Hto in Hq. destruct (N10 q n Hq) as [Hg Hs]. rewrite N2 in Hp. eapply plain_ser; [exact Hps|exact Hkw|exact N3|exact Hp| |exact Hg|exact Hs]. apply N6. eauto.
    - rewrite N1 in N5. rewrite (u_latest _ _ _ _ _ _ _ _ H). apply fit_ser; auto. exact I.
  Qed.
  (** When every page fits, nothing but a failing disk, a crash or a cancelled request keeps the commit from being made. *)
  Lemma pages_complete : forall todo d p w done ans, p_writer p = WPages w todo done ans -> Forall (fun e => exists b, page_ser kw ps e.2 = Ok b) todo ->
    exists d' p', steps (Sys d (Some p)) (replicate (length todo) LTau) (Sys d' (Some p')) /\ p_writer p' = WPages w [] done ans /\ latest p' = latest p.
  Proof.
    induction todo as [|[q n] todo IH]; intros d p w done ans Hx Hf; cbn [length replicate].
    { exists d, p. split; [constructor|auto]. }
    apply Forall_cons in Hf as [[b Hb] Hf]. cbn in Hb.
    destruct (IH (d_write kw q b d) (set_writer (WPages w todo done ans) p) w done ans eq_refl Hf) as (d' & p' & Hs & Hx' & Hl). exists d', p'. split; [|auto].
    assert (H1 : Mvcc.step kw ps hash order ford caching (Sys d (Some p)) LTau (Sys (d_write kw q b d) (Some (set_writer (WPages w todo done ans) p)))).
    { constructor. eapply S_page; eassumption. }
    clear - Hs H1. change (LTau :: replicate (length todo) LTau) with ([LTau] ++ replicate (length todo) LTau). revert Hs H1. generalize (Sys d (Some p)), (Sys (d_write kw q b d) (Some (set_writer (WPages w todo done ans) p))), (Sys d' (Some p')), (replicate (length todo) LTau).
    intros y0 y1 y2 tr Hs H1. induction Hs as [y|y tr y' l y'' Hs IH Hl]; [exact (steps_snoc _ _ _ _ _ _ y0 [] y0 LTau y (steps_nil _ _ _ _ _ _ y0) H1)|].
    rewrite app_assoc. econstructor; [now apply IH|exact Hl].
  Qed.
  Lemma commit_complete d p w todo done ans b : p_writer p = WPages w todo done ans -> Forall (fun e => exists b, page_ser kw ps e.2 = Ok b) todo ->
    page_ser kw ps (NHeader (next_header (h_schema (latest p).2) w)) = Ok b ->
    exists y, steps (Sys d (Some p)) (replicate (length todo) LTau ++ [LTau; LTau; LCommit done ans]) y.
  Proof.
    intros Hx Hf Hb. destruct (pages_complete todo d p w done ans Hx Hf) as (d1 & p1 & Hs & Hx1 & Hl).
    set (p2 := set_writer (WHeader w done ans) (if caching then set_cache (w_dirty w ∪ p_cache p1) p1 else p1)).
    assert (H2 : Mvcc.step kw ps hash order ford caching (Sys d1 (Some p1)) LTau (Sys (d_synced d1) (Some p2))) by (constructor; now apply S_sync).
    assert (Hl2 : latest p2 = latest p) by (rewrite <- Hl; unfold p2; destruct caching; reflexivity).
    set (p3 := set_writer (WSync w done ans) p2).
    assert (H3 : Mvcc.step kw ps hash order ford caching (Sys (d_synced d1) (Some p2)) LTau (Sys (d_write kw (other_slot (latest p2).1) b (d_synced d1)) (Some p3))).
    { constructor. eapply S_header; [reflexivity|]. now rewrite Hl2. }
    eexists. change ([LTau; LTau; LCommit done ans]) with ([LTau] ++ [LTau] ++ [LCommit done ans]). rewrite !app_assoc.
    econstructor; [econstructor; [econstructor; [exact Hs|exact H2]|exact H3]|]. constructor. now apply S_done.
  Qed.
End blocking.

Section props.
  Context (ps : N) (hash : bytes -> bytes) (order : list bytes -> list bytes) (ford : gset N -> list N) (caching : bool).
  Context (Hps : ps_ok ps) (Hps32 : ps < U32) (Hord : forall l t, t ∈ order l <-> t ∈ l) (Hford : forall s, ford s ≡ₚ elements s).
  Notation run tr y := (steps 16 ps hash order ford caching (init_sys 16 ps) tr y).

  (** Every page that a commit writes fits a page, unless it is a leaf of the tag index or a page of the tracking tree. *)
  Theorem commit_pages_fit tr y p w todo done ans q n : run tr y -> y_proc y = Some p -> p_writer p = WPages w todo done ans -> (q, n) ∈ todo -> unchecked n = false ->
    exists b, page_ser 16 ps n = Ok b /\ nlen b = ps.
  Proof.
    intros H Hp Hx Hq Hu. destruct (refines ps hash order ford caching Hps Hps32 Hord Hford tr y H) as (sy & _ & Hi). unfold inv in Hi. rewrite Hp in Hi. destruct Hi as (g & Hi).
    destruct (proj1 (next_fit 16 ps hash caching Hps ltac:(lia) _ _ _ _ _ _ _ _ Hi Hx) q n Hq Hu) as [b Hb]. exists b. split; [exact Hb|]. destruct (page_ser_layout _ _ _ _ Hb) as (? & _ & _ & _ & Hl). exact Hl.
  Qed.
  (** As long as nothing stored has a tag and no positions are recorded, no request can make a commit fail. *)
  Theorem plain_commit_possible tr y st p w todo done ans : run tr y -> shows hash order y st -> y_proc y = Some p -> p_writer p = WPages w todo done ans ->
    plain (spec_batch ps st done).2 ->
    (forall q n, (q, n) ∈ todo -> exists b, page_ser 16 ps n = Ok b) /\
    exists y', steps 16 ps hash order ford caching y (replicate (length todo) LTau ++ [LTau; LTau; LCommit done ans]) y'.
  Proof.
    intros H Hs Hp Hx Hpl. destruct (refines ps hash order ford caching Hps Hps32 Hord Hford tr y H) as (sy & _ & Hi).
    pose proof (inv_shows_eqv ps hash order ford caching Hps Hps32 Hord Hford _ _ _ Hi Hs) as He. unfold inv in Hi. rewrite Hp in Hi. destruct Hi as (g & Hi).
    destruct (next_fit 16 ps hash caching Hps ltac:(lia) _ _ _ _ _ _ _ _ Hi Hx) as (_ & Hf & b & Hb).
    assert (Hf' : forall q n, (q, n) ∈ todo -> exists b, page_ser 16 ps n = Ok b).
    { apply Hf. rewrite (u_spec _ _ _ _ _ _ _ _ Hi) in He. destruct (batch_eqv ps _ _ done He) as [_ [E1 E2]]. destruct Hpl as [P1 P2]. split; [rewrite <- E1; exact P1|]. intros x. rewrite <- E2. apply P2. }
    split; [exact Hf'|]. destruct y as [d p0]. cbn in Hp. subst p0. eapply commit_complete; [exact Hx| |exact Hb]. apply Forall_forall. intros [q n] Hq. eauto.
  Qed.
End props.

(** A file of the schema before the current one. *)
Theorem legacy_commit_pages_fit ps hash order ford caching f tr y p w todo done ans q n :
  ps_ok ps -> ps < U32 -> (forall l (t : bytes), t ∈ order l <-> t ∈ l) -> (forall s : gset N, ford s ≡ₚ elements s) ->
  legacy_file f -> steps 8 ps hash order ford caching (at_rest f) tr y -> y_proc y = Some p -> p_writer p = WPages w todo done ans -> (q, n) ∈ todo -> unchecked n = false ->
  exists b, page_ser 8 ps n = Ok b.
Proof.
  intros Hps Hps32 Hord Hford Hf H Hp Hx Hq Hu. destruct (legacy_sim ps hash order ford caching Hps Hps32 Hord Hford f tr y Hf H) as (sy & _ & Hi). unfold inv in Hi. rewrite Hp in Hi. destruct Hi as (g & Hi).
  exact (proj1 (next_fit 8 ps hash caching Hps ltac:(lia) _ _ _ _ _ _ _ _ Hi Hx) q n Hq Hu).
Qed.

(** ** The pipelining writer thread *)
Section pipelined.
  Context (hash : bytes -> bytes) (order : list bytes -> list bytes) (ford : gset N -> list N) (caching : bool).
  Context (Hord : forall l t, t ∈ order l <-> t ∈ l) (Hford : forall s, ford s ≡ₚ elements s).
  Notation mrun := (mrun hash order ford caching (healthy 16)).

  Lemma prepare_all kw l : Forall (fun e => exists b, page_ser kw dps e.2 = Ok b) l -> exists pages, prepare_pages kw l = Ok pages.
  Proof. induction 1 as [|[q n] l [b Hb] _ [pg IH]]; cbn; [eauto|]. cbn in Hb. rewrite Hb. cbn [rbind]. rewrite IH. cbn [rbind]. eauto. Qed.
  Lemma built_next er d p pi sy done ans w todo : minv 16 dps hash caching er (MP (PSys d p pi)) sy -> l_phase pi = PBuilt done ans None -> l_fly pi = None ->
    process_freed_page_ids (Pipeline.snap 16 d p pi) 16 dps ford (l_w pi) = (Ok tt, w) -> todo ≡ₚ map_to_list (w_dirty w) ->
    Forall (fun e => storable 16 e.2) todo -> storable 16 (NHeader (next_header (h_schema (l_header pi).2) w)) ->
    (forall q n, (q, n) ∈ todo -> unchecked n = false -> exists b, page_ser 16 dps n = Ok b) /\
    (plain (spec_batch dps (sp_cur sy) done).2 -> forall q n, (q, n) ∈ todo -> exists b, page_ser 16 dps n = Ok b) /\
    exists b, page_ser 16 dps (NHeader (next_header (h_schema (l_header pi).2) w)) = Ok b.
  Proof.
    intros H Hph Hfl E Hto Hs1 Hs2. cbn [minv s_disk s_proc s_pipe] in H. destruct H as [(g & [H|(f & db & w0 & todo0 & H)])|[(f & Hf & _) _]]; [|pose proof (b_fly _ _ _ _ _ _ _ _ _ _ _ _ _ H); congruence|congruence].
    pose proof (a_header _ _ _ _ _ _ _ _ _ H) as Hh. pose proof (a_u _ _ _ _ _ _ _ _ _ H) as Hu. unfold awriter in Hu. rewrite Hph, (view_snap 16 er) in Hu.
    rewrite Hh in *. destruct (commit_begin 16 dps hash order ford caching dps_ok ltac:(lia) Hord Hford d _ g sy _ _ _ _ w todo Hu eq_refl E Hto Hs1 Hs2) as (g' & Hu').
    destruct (next_fit 16 dps hash caching dps_ok ltac:(lia) _ _ _ _ w todo done ans Hu' eq_refl) as (F1 & F2 & F3). split; [exact F1|]. split; [|exact F3].
    rewrite <- (u_spec _ _ _ _ _ _ _ _ Hu') in F2. exact F2.
  Qed.

  Theorem pipelined_commit_pages_fit tr d p pi done ans w todo q n : mrun tr (MP (PSys d p pi)) -> l_phase pi = PBuilt done ans None -> l_fly pi = None ->
    process_freed_page_ids (Pipeline.snap 16 d p pi) 16 dps ford (l_w pi) = (Ok tt, w) -> todo ≡ₚ map_to_list (w_dirty w) ->
    Forall (fun e => storable 16 e.2) todo -> storable 16 (NHeader (next_header (h_schema (l_header pi).2) w)) ->
    (q, n) ∈ todo -> unchecked n = false -> exists b, page_ser 16 dps n = Ok b.
  Proof.
    intros H Hph Hfl E Hto Hs1 Hs2 Hq Hu. destruct (mrun_inv hash order ford caching Hord Hford true tr _ H) as (sy & _ & Hi & _).
    exact (proj1 (built_next true d p pi sy done ans w todo Hi Hph Hfl E Hto Hs1 Hs2) q n Hq Hu).
  Qed.
  Theorem pipelined_plain_commit_possible tr d p pi st done ans w todo : mrun tr (MP (PSys d p pi)) -> mshows hash order (MP (PSys d p pi)) st ->
    l_phase pi = PBuilt done ans None -> l_fly pi = None ->
    process_freed_page_ids (Pipeline.snap 16 d p pi) 16 dps ford (l_w pi) = (Ok tt, w) -> todo ≡ₚ map_to_list (w_dirty w) ->
    Forall (fun e => storable 16 e.2) todo -> storable 16 (NHeader (next_header (h_schema (l_header pi).2) w)) ->
    plain (spec_batch dps st done).2 -> exists r, prepare_commit 16 dps ford (Pipeline.snap 16 d p pi) todo pi = Ok r.
  Proof.
    intros H Hsh Hph Hfl E Hto Hs1 Hs2 Hpl. destruct (mrun_inv hash order ford caching Hord Hford true tr _ H) as (sy & _ & Hi & _).
    destruct (built_next true d p pi sy done ans w todo Hi Hph Hfl E Hto Hs1 Hs2) as (_ & F & b & Hb).
    destruct (prepare_all 16 todo) as [pages Hpg].
    { apply Forall_forall. intros [q n] Hq. eapply F; [|exact Hq].
      pose proof (minv_eqv hash order ford caching Hord Hford true _ sy st Hi Hsh) as He. destruct (batch_eqv dps _ _ done He) as [_ [E1 E2]]. destruct Hpl as [P1 P2]. split; [rewrite <- E1; exact P1|]. intros x. rewrite <- E2. apply P2. }
    unfold prepare_commit. rewrite E, Hb. cbn [rbind]. rewrite Hpg. cbn [rbind]. eauto.
  Qed.
End pipelined.

(** ** Examples *)
Lemma f_start : shows f_hash (fun l => l) (init_sys 16 4096) spec_empty.
Proof. apply (inv_shows 4096 f_hash (fun l => l) x_ford true f_ps f_ps32 x_ord x_ford_ok _ spec_init); [exact (init_inv 4096 f_hash (fun l => l) x_ford true f_ps f_ps32 x_ord x_ford_ok)|now eexists]. Qed.
Lemma f_pages s rs (P : list (N * node) -> bool) : match f_exec s with Some (tr, Sys _ (Some p)) =>
    match p_writer p with WPages w todo done _ => bool_decide (done = rs) && forallb (fun l => match l with LTau => true | _ => false end) tr && P todo | _ => false end | _ => false end = true ->
  exists tr y p w todo ans, f_run tr y /\ shows f_hash (fun l => l) y spec_empty /\ y_proc y = Some p /\ p_writer p = WPages w todo rs ans /\ P todo = true.
Proof.
  intros H. destruct (f_exec s) as [[tr [d [p|]]]|] eqn:E; try discriminate.
  destruct (p_writer p) as [| |w todo done ans| | |] eqn:Ew; try discriminate. apply andb_prop in H as [H H3]. apply andb_prop in H as [H1 H2]. apply bool_decide_eq_true in H1 as ->.
  destruct (f_runs s tr) as (y & Hr & Ey); [now rewrite E|]. assert (y = Sys d (Some p)) as -> by congruence.
  exists tr, (Sys d (Some p)), p, w, todo, ans. split; [exact Hr|]. split; [|auto].
  refine (run_calm 4096 f_hash (fun l => l) x_ford true f_ps f_ps32 x_ord x_ford_ok [] _ _ tr _ (steps_nil _ _ _ _ _ _ _) f_start Hr _).
  apply Forall_forall. intros l Hl. rewrite forallb_forall in H2. apply elem_of_list_In, H2 in Hl. destruct l; try discriminate; exact I.
Qed.
(** The commit of C29: a leaf of the tag index is too long, and beside it there are pages of the tree of events that are full to the last byte. *)
Example fits_beside : exists tr y p w todo ans q n q' n', f_run tr y /\ y_proc y = Some p /\ p_writer p = WPages w todo [f_split] ans /\
  (q, n) ∈ todo /\ unchecked n = true /\ (forall b, page_ser 16 4096 n <> Ok b) /\
  (q', n') ∈ todo /\ unchecked n' = false /\ page_size_of 16 n' = 4096 /\ exists b, page_ser 16 4096 n' = Ok b /\ nlen b = 4096.
Proof.
  destruct (f_pages [ABegin; ARequest f_split; ACommit] [f_split] (fun todo => existsb (fun e => unchecked e.2 && negb (is_ok (page_ser 16 4096 e.2))) todo && existsb (fun e => negb (unchecked e.2) && (page_size_of 16 e.2 =? 4096)) todo))
    as (tr & y & p & w & todo & ans & Hr & _ & Hy & Hw & HP); [vm_compute; reflexivity|].
  apply andb_prop in HP as [H1 H2]. apply existsb_exists in H1 as ([q n] & Hq & H1). apply existsb_exists in H2 as ([q' n'] & Hq' & H2). cbn [snd] in H1, H2.
  apply andb_prop in H1 as [U1 H1]. apply andb_prop in H2 as [U2 H2]. apply N.eqb_eq in H2. apply negb_true_iff in U2.
  exists tr, y, p, w, todo, ans, q, n, q', n'. split; [exact Hr|]. split; [exact Hy|]. split; [exact Hw|]. split; [now apply elem_of_list_In|]. split; [exact U1|].
  split; [intros b Eb; rewrite Eb in H1; discriminate|]. split; [now apply elem_of_list_In|]. split; [exact U2|]. split; [exact H2|].
  eapply (commit_pages_fit 4096 f_hash (fun l => l) x_ford true f_ps f_ps32 x_ord x_ford_ok); [exact Hr|exact Hy|exact Hw| |exact U2]. apply elem_of_list_In. exact Hq'.
Qed.
(** A request without tags: 60 events, and one of 9000 bytes; three leaves and overflow pages are written and the commit goes through. *)
Definition f_p1 := NE [1] (replicate 100 7) [] None [].
Definition f_p2 := NE [2] (replicate 90 8 ++ replicate 90 8 ++ concat (replicate 90 (replicate 98 9))) [] None [].
Definition f_plain := Req (replicate 60 f_p1 ++ [f_p2]) None None.
Example plain_commits : exists tr y p w todo ans y', f_run tr y /\ y_proc y = Some p /\ p_writer p = WPages w todo [f_plain] ans /\ length todo = 7%nat /\
  Mvcc.steps 16 4096 f_hash (fun l => l) x_ford true y (replicate 7 LTau ++ [LTau; LTau; LCommit [f_plain] ans]) y'.
Proof.
  destruct (f_pages [ABegin; ARequest f_plain; ACommit] [f_plain] (fun todo => (length todo =? 7)%nat)) as (tr & y & p & w & todo & ans & Hr & Hs & Hy & Hw & HP); [vm_compute; reflexivity|]. apply Nat.eqb_eq in HP.
  destruct (plain_commit_possible 4096 f_hash (fun l => l) x_ford true f_ps f_ps32 x_ord x_ford_ok tr y spec_empty p w todo [f_plain] ans Hr Hs Hy Hw) as (_ & y' & H').
  - assert (H : forallb (fun e => bool_decide (er_tags e.2 = [])) (s_hist (spec_batch 4096 spec_empty [f_plain]).2) = true) by (vm_compute; reflexivity).
    split; [|reflexivity]. apply Forall_forall. intros e He. rewrite forallb_forall in H. apply elem_of_list_In, H, bool_decide_eq_true in He. exact He.
  - exists tr, y, p, w, todo, ans, y'. rewrite HP in H'. auto.
Qed.

(** The same request with the pipelining writer, ready to be dispatched. *)
Definition f_ready (s : psys) : bool := match s with PSys d p pi =>
  match l_phase pi, l_fly pi, process_freed_page_ids (Pipeline.snap 16 d p pi) 16 dps x_ford (l_w pi) with
  | PBuilt done ans None, None, (Ok _, w) => let todo := map_to_list (w_dirty w) in bool_decide (done = [f_plain]) && (length todo =? 7)%nat && existsb (fun e => negb (unchecked e.2)) todo &&
    bool_decide (Forall (fun e => storable 16 e.2) todo /\ storable 16 (NHeader (next_header (h_schema (l_header pi).2) w)))
  | _, _, _ => false end end.
Example pipelined_plain_commits c : exists tr d p pi ans w todo r, mrun f_hash (fun l => l) x_ford c (healthy 16) tr (MP (PSys d p pi)) /\ l_phase pi = PBuilt [f_plain] ans None /\ length todo = 7%nat /\
  process_freed_page_ids (Pipeline.snap 16 d p pi) 16 dps x_ford (l_w pi) = (Ok tt, w) /\ todo ≡ₚ map_to_list (w_dirty w) /\ prepare_commit 16 dps x_ford (Pipeline.snap 16 d p pi) todo pi = Ok r /\
  exists q n b, (q, n) ∈ todo /\ unchecked n = false /\ page_ser 16 dps n = Ok b.
Proof.
  destruct (p_found c (b_batch f_plain) (fun s tr => f_ready s && forallb (fun l => match l with LTau => true | _ => false end) tr)) as ([d p pi] & tr & H & HP); [destruct c; vm_compute; reflexivity|].
  apply andb_prop in HP as [HP HL]. cbn [f_ready] in HP. destruct (l_phase pi) as [|done ans|done ans [e|]] eqn:Eph; try discriminate. destruct (l_fly pi) eqn:Efl; [discriminate|].
  destruct (process_freed_page_ids (Pipeline.snap 16 d p pi) 16 dps x_ford (l_w pi)) as [[[]|] w] eqn:Ef; [|discriminate]. cbv zeta in HP.
  apply andb_prop in HP as [HP Hs]. apply andb_prop in HP as [HP Hx]. apply andb_prop in HP as [Hd Hn]. apply bool_decide_eq_true in Hd as ->. apply bool_decide_eq_true in Hs as [Hs1 Hs2]. apply Nat.eqb_eq in Hn.
  apply existsb_exists in Hx as ([q n] & Hq & Hu). cbn in Hu. apply negb_true_iff in Hu. apply elem_of_list_In in Hq.
  assert (Hm : mrun f_hash (fun l => l) x_ford c (healthy 16) tr (MP (PSys d p pi))).
  { right. clear -H. remember (MP (PSys d p pi)) as ss. clear Heqss. induction H; [constructor|]. econstructor; [eassumption|eassumption|apply H1]. }
  assert (Hsh : mshows f_hash (fun l => l) (MP (PSys d p pi)) spec_empty).
  { destruct (pipelined_linearizable f_hash (fun l => l) x_ford c x_ord x_ford_ok _ _ Hm) as (L & HLn & Hsh); [now eexists|]. assert (L = []) as ->; [|exact Hsh].
    clear -HLn HL. induction HLn as [|t0 L0 reqs an H0 IH E|t0 L0 l H0 IH Hc|t0 L0 l reqs extra H0 IH Hl Hx]; [reflexivity| | |]; rewrite forallb_app in HL; apply andb_prop in HL as [HL1 HL2]; [discriminate|now apply IH|destruct Hl as [-> | ->]; discriminate]. }
  destruct (pipelined_plain_commit_possible f_hash (fun l => l) x_ford c x_ord x_ford_ok tr d p pi spec_empty [f_plain] ans w (map_to_list (w_dirty w)) Hm Hsh Eph Efl Ef ltac:(reflexivity) Hs1 Hs2) as (r & Hr).
  { assert (H0 : forallb (fun e => bool_decide (er_tags e.2 = [])) (s_hist (spec_batch 4096 spec_empty [f_plain]).2) = true) by (vm_compute; reflexivity).
    split; [|reflexivity]. apply Forall_forall. intros e He. rewrite forallb_forall in H0. apply elem_of_list_In, H0, bool_decide_eq_true in He. exact He. }
  destruct (pipelined_commit_pages_fit f_hash (fun l => l) x_ford c x_ord x_ford_ok tr d p pi [f_plain] ans w (map_to_list (w_dirty w)) q n Hm Eph Efl Ef ltac:(reflexivity) Hs1 Hs2 Hq Hu) as (b & Hb).
  exists tr, d, p, pi, ans, w, (map_to_list (w_dirty w)), r. do 4 (split; [first [assumption|reflexivity]|]). split; [reflexivity|]. split; [exact Hr|]. exists q, n, b. auto.
Qed.

Print Assumptions commit_pages_fit.
Print Assumptions plain_commit_possible.
Print Assumptions legacy_commit_pages_fit.
Print Assumptions pipelined_commit_pages_fit.
Print Assumptions pipelined_plain_commit_possible.
