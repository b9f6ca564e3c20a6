(** C56-C58: what holds of the pipelining writer thread (Pipeline.v, PipelineSys.v), with pages of the default size.

    The theorems assume of every step that it is [healthy] (no write or sync of a header fails, after a batch was given up the writer
    can be made anew, and a commit whose pages could not be written has not overwritten pages that are in the cache), and those about readers that it is [undisturbed] (no reader registers while a batch is being built on one
    that is still being written).  Without these conditions they are false: see PropsPipeline.v. *)
From Verif Require Import Exec PropsStore PropsFindings PropsCrash PropsPipeline.
From Verif Require Import MvccProofs SpecProofs StoreProofs.
From Verif Require Export PipelineRefine.
Local Open Scope N_scope.

Notation dps := DEFAULT_PAGE_SIZE.
Lemma dps_ok : ps_ok dps. Proof. unfold ps_ok, DEFAULT_PAGE_SIZE. lia. Qed.
Lemma dps32 : dps < U32. Proof. reflexivity. Qed.

Section props.
  Context (hash : bytes -> bytes) (order : list bytes -> list bytes) (ford : gset N -> list N) (caching : bool).
  Context (Hord : forall l t, t ∈ order l <-> t ∈ l) (Hford : forall s, ford s ≡ₚ elements s).
  Notation mstep := (mstep 16 dps hash order ford caching).
  Notation msteps := (msteps 16 dps hash order ford caching).
  Notation shows := (shows hash order).
  Notation healthy := (healthy 16).
  Notation minv := (minv 16 dps hash caching).

  (** The disk and the process, if it is up. *)
  Definition msys_of (s : msys) : sys :=
    match s with MB y => y | MOpen d p => Sys d (Some p) | MP s => Sys (s_disk s) (Some (s_proc s)) end.
  Definition mshows (s : msys) : spec_state -> Prop := shows (msys_of s).
  Definition mup (s : msys) : Prop := up (msys_of s).
  (** [tr] leads from a new database to [s]; each step meets [C]. *)
  Definition mrun (C : msys -> msys -> Prop) (tr : list label) (s : msys) : Prop :=
    msteps C (MB (init_sys 16 dps)) tr s \/ msteps C (pipelined_new dps) tr s.
  Definition fine (s s' : msys) : Prop := healthy s s' /\ undisturbed s s'.

  (** *** Simulation *)
  Lemma held_shows d p G sy : cur_ok d -> held 16 dps hash d (p_cache p) G -> (latest p).2 = g_hdr G -> h_next_pos (g_hdr G) = 1 + nlen (s_hist (g_st G)) ->
    sp_cur sy = g_st G -> shows (Sys d (Some p)) (sp_cur sy).
  Proof.
    intros Hc Hh Hl Hp Hs. exists p. split; [reflexivity|]. cbn [y_disk]. rewrite Hl, Hs.
    split; [intros; eapply held_response; try eassumption; try lia; try exact dps_ok; exact dps32|].
    split; [intros; eapply held_track; try eassumption; try lia; try exact dps_ok; exact dps32|]. apply (pos_head 16 dps dps32 ltac:(lia)). exact Hp.
  Qed.
  Lemma minv_shows er s sy : minv er s sy -> mup s -> mshows s (sp_cur sy).
  Proof.
    assert (Ht : forall d p pi, thread_inv 16 dps hash caching d (view er p) pi sy -> shows (Sys d (Some p)) (sp_cur sy)).
    { intros d p pi (g & [H|(f & db & w & todo & H)]).
      - pose proof (a_u _ _ _ _ _ _ _ _ _ H) as Hu. apply (held_shows d p (gh_cur g)).
        + exact (u_cur _ _ _ _ _ _ _ _ Hu).
        + rewrite <- (view_cache er p). exact (u_held _ _ _ _ _ _ _ _ Hu).
        + rewrite <- (view_latest er p). exact (u_latest _ _ _ _ _ _ _ _ Hu).
        + exact (u_pos _ _ _ _ _ _ _ _ Hu _ (u_in _ _ _ _ _ _ _ _ Hu)).
        + exact (u_spec _ _ _ _ _ _ _ _ Hu).
      - pose proof (b_u _ _ _ _ _ _ _ _ _ _ _ _ _ H) as Hu. apply (held_shows d p (gh_cur g)).
        + exact (fly_cur_ok _ _ _ _ _ _ _ _ _ _ _ _ _ H).
        + rewrite <- (view_cache er p). eapply (fly_held 16 dps hash caching dps32 ltac:(lia)); [exact H|]. apply prot_cur. exact (u_held _ _ _ _ _ _ _ _ Hu).
        + rewrite <- (view_latest er p). exact (u_latest _ _ _ _ _ _ _ _ Hu).
        + exact (u_pos _ _ _ _ _ _ _ _ Hu _ (u_in _ _ _ _ _ _ _ _ Hu)).
        + exact (u_spec _ _ _ _ _ _ _ _ Hu). }
    destruct s as [y|d p|[d p pi]]; cbn; intros H Hu.
    - destruct H as (sy0 & H & ->). replace (sp_cur (view_sys er sy0)) with (sp_cur sy0) by (unfold view_sys; now destruct er).
      exact (inv_shows dps hash order ford caching dps_ok dps32 Hord Hford _ _ H Hu).
    - exact (Ht _ _ _ H).
    - destruct H as [H|[_ H]]; exact (Ht _ _ _ H).
  Qed.
  Lemma minv_cur er d p pi sy : minv er (MP (PSys d p pi)) sy -> cur_ok d.
  Proof. exact (run_cur 16 dps hash caching er d p pi sy). Qed.
  Lemma minv_eqv er s sy st : minv er s sy -> mshows s st -> eqv st (sp_cur sy).
  Proof.
    intros H Hs. apply (shows_unique hash order (msys_of s)); [exact Hs|]. apply (minv_shows er); [exact H|]. destruct Hs as (p & Hp & _). now exists p.
  Qed.
  Definition cond (er : bool) : msys -> msys -> Prop := if er then healthy else fine.
  Lemma msim_step er s sy l s' : minv er s sy -> mstep s l s' -> cond er s s' -> exists sy', spec_step dps sy (view_label er l) sy' /\ minv er s' sy'.
  Proof.
    intros H Hst Hc. eapply (mstep_inv 16 dps hash order ford caching dps_ok dps32 ltac:(lia) Hord Hford er); [exact H|exact Hst| |].
    - destruct er; [exact Hc|exact (proj1 Hc)].
    - intros ->. exact (proj2 Hc).
  Qed.
  Lemma msim_steps er s sy tr s' : minv er s sy -> msteps (cond er) s tr s' -> exists sy', spec_steps dps sy (map (view_label er) tr) sy' /\ minv er s' sy'.
  Proof.
    intros H Hst. induction Hst as [s|s tr s' l s'' Hst IH Hl Hc].
    - exists sy. split; [constructor|exact H].
    - destruct (IH H) as (sy' & Hs & H'). destruct (msim_step _ _ _ _ _ H' Hl Hc) as (sy'' & Hs' & H''). exists sy''. rewrite map_app. split; [econstructor; eassumption|exact H''].
  Qed.
  Lemma mrun_inv er tr s : mrun (cond er) tr s -> exists sy, spec_steps dps spec_init (map (view_label er) tr) sy /\ minv er s sy /\ sp_good sy.
  Proof.
    intros H. assert (Hi : minv er (MB (init_sys 16 dps)) spec_init /\ minv er (pipelined_new dps) spec_init).
    { pose proof (init_inv dps hash order ford caching dps_ok dps32 Hord Hford) as Hi. split.
      - exists spec_init. split; [exact Hi|]. unfold view_sys. now destruct er.
      - destruct Hi as (g & Hi). cbn. rewrite erase_readers by reflexivity. eapply ti_resting; [exact Hi|reflexivity|]. cbn. intros q n _ E. rewrite lookup_empty in E. discriminate. }
    assert (exists sy, spec_steps dps spec_init (map (view_label er) tr) sy /\ minv er s sy) as (sy & Hs & H').
    { destruct H as [H|H]; (eapply msim_steps; [|exact H]; apply Hi). }
    exists sy. split; [exact Hs|]. split; [exact H'|]. exact (proj1 (spec_steps_good _ _ _ _ spec_init_good Hs)).
  Qed.
  Lemma mrun_snoc C tr s l s' : mrun C tr s -> mstep s l s' -> C s s' -> mrun C (tr ++ [l]) s'.
  Proof. intros [H|H] Hl Hc; [left|right]; econstructor; eassumption. Qed.
  Lemma msteps_app C s tr s' tr' s'' : msteps C s tr s' -> msteps C s' tr' s'' -> msteps C s (tr ++ tr') s''.
  Proof. intros H H'. induction H' as [s'|s' tr' s1 l s2 H' IH Hl Hc]; [now rewrite app_nil_r|]. rewrite app_assoc. econstructor; [now apply IH|exact Hl|exact Hc]. Qed.
  Lemma mstep_up s l s' : mstep s l s' -> match l with LCrash _ | LKill _ => False | _ => True end -> mup s'.
  Proof.
    intros H Hl. destruct H as [y l y' Hy|d d' p Ho|d p l p' Hp Hx Hx'|d p s Hs|s l s' Hs|d p d' Hd|d p Hd|d p pi d' Hd|d p pi Hd]; try contradiction; try (now eexists).
    - unfold mup. cbn. destruct Hy; try contradiction; now eexists.
  Qed.
  Lemma view_commit er reqs ans : view_label er (LCommit reqs ans) = LCommit reqs ans. Proof. unfold view_label. now destruct er. Qed.

  (** ** C56: appends *)
  (** Positions without gaps; what is stored stays. *)
  Theorem pipelined_gapless tr s : mrun healthy tr s -> mup s -> exists st, mshows s st /\ map fst (s_hist st) = seqN 1 (length (s_hist st)).
  Proof.
    intros H Hu. destruct (mrun_inv true tr s H) as (sy & _ & Hi & Hg). exists (sp_cur sy). split; [exact (minv_shows _ _ _ Hi Hu)|]. exact (proj1 Hg).
  Qed.
  Theorem pipelined_permanent tr s st tr' s' st' : mrun healthy tr s -> mshows s st -> msteps healthy s tr' s' -> mshows s' st' ->
    (exists new, s_hist st' = s_hist st ++ new) /\ forall src t, s_track st src = Some t -> exists t', s_track st' src = Some t' /\ t <= t'.
  Proof.
    intros H Hs H' Hs'. destruct (mrun_inv true tr s H) as (sy & _ & Hi & Hg). destruct (msim_steps true _ _ _ _ Hi H') as (sy' & Hst & Hi').
    destruct (spec_steps_good _ _ _ _ Hg Hst) as [_ He]. eapply extends_eqv; [| |exact He]; symmetry; eapply minv_eqv; eassumption.
  Qed.
  (** A batch is answered, and changes what is stored, as if its requests came one after the other after those of all earlier batches. *)
  Theorem pipelined_commit tr s st reqs ans s' : mrun healthy tr s -> mshows s st -> mstep s (LCommit reqs ans) s' -> healthy s s' ->
    exists st', spec_batch dps st reqs = (ans, st') /\ mshows s' st'.
  Proof.
    intros H Hs Hst Hc. destruct (mrun_inv true tr s H) as (sy & _ & Hi & Hg). destruct (msim_step true _ _ _ _ Hi Hst Hc) as (sy' & Hss & Hi').
    pose proof (minv_eqv _ _ _ _ Hi Hs) as He. destruct (batch_eqv dps _ _ reqs He) as [E1 E2]. cbn in Hss.
    inversion Hss as [|s0 calls open reqs0 ans0 s1 Hb| | | | | | | | | | |]; subst. cbn in E1, E2. rewrite Hb in E1, E2. cbn in E1, E2.
    exists (spec_batch dps st reqs).2. split; [rewrite <- E1; now destruct (spec_batch dps st reqs)|].
    eapply shows_eqv; [|symmetry; exact E2]. exact (minv_shows _ _ _ Hi' (mstep_up _ _ _ Hst I)).
  Qed.
  Lemma lin_erase tr L : lin dps (map (view_label true) tr) L -> lin dps tr L.
  Proof.
    assert (Hu : forall r tr, LUnsure r ∈ map (view_label true) tr -> LUnsure r ∈ tr).
    { intros r tr'. rewrite elem_of_list_fmap. intros (l & El & Hl). destruct l; cbn in El; try discriminate. now injection El as ->. }
    intros H. remember (map (view_label true) tr) as t0 eqn:Et. revert tr Et. induction H as [|t1 L reqs ans H IH E|t1 L l0 H IH Hc|t1 L l0 reqs extra H IH Hl Hx]; intros tr Et.
    - destruct tr; [constructor|discriminate].
    - symmetry in Et. apply map_eq_app in Et as (tr1 & tr2 & -> & <- & E2). destruct tr2 as [|l [|]]; try discriminate. cbn [map] in E2. injection E2 as E2.
      destruct l; cbn in E2; try discriminate. injection E2 as -> ->. apply lin_commit; auto.
    - symmetry in Et. apply map_eq_app in Et as (tr1 & tr2 & -> & <- & E2). destruct tr2 as [|l [|]]; try discriminate. cbn [map] in E2. injection E2 as E2.
      apply lin_calm; [auto|]. subst l0. destruct l; cbn in Hc |- *; auto.
    - symmetry in Et. apply map_eq_app in Et as (tr1 & tr2 & -> & <- & E2). destruct tr2 as [|l [|]]; try discriminate. cbn [map] in E2. injection E2 as E2.
      eapply (lin_crash dps _ _ l reqs); [auto| |].
      + subst l0. destruct l; cbn in Hl; destruct Hl as [Hl|Hl]; try discriminate; auto.
      + destruct Hx as [Hx|[Hx|Hx]]; auto.
  Qed.
  (** Requests take effect in one order, that of the commits; each is answered as this order says; crashes add at most a batch whose commit
      was being written, at the end. *)
  Theorem pipelined_linearizable tr s : mrun healthy tr s -> mup s -> exists L, lin dps tr L /\ mshows s (spec_batch dps spec_empty L).2.
  Proof.
    intros H Hu. destruct (mrun_inv true tr s H) as (sy & Hs & Hi & _). destruct (spec_lin dps order ford dps_ok dps32 Hord Hford _ _ Hs) as (L & HL & Hc). exists L. split; [now apply lin_erase|].
    rewrite <- Hc. exact (minv_shows _ _ _ Hi Hu).
  Qed.
  (** A batch given up leaves nothing behind. *)
  Theorem pipelined_abort tr s st reqs s' : mrun healthy tr s -> mshows s st -> mstep s (LAbort reqs) s' -> healthy s s' -> mshows s' st.
  Proof.
    intros H Hs Hst Hc. destruct (mrun_inv true tr s H) as (sy & _ & Hi & _). destruct (msim_step true _ _ _ _ Hi Hst Hc) as (sy' & Hss & Hi').
    pose proof (minv_eqv _ _ _ _ Hi Hs) as He. cbn in Hss. pose proof (minv_shows _ _ _ Hi' (mstep_up _ _ _ Hst I)) as Hsh. inversion Hss; subst.
    eapply shows_eqv; [exact Hsh|now symmetry].
  Qed.

  (** ** C57: crashes *)
  (** After a crash, or the end of the process, the database can be opened for either thread, and shows what it showed before, or also the
      batch whose commit was being written. *)
  Theorem pipelined_crash tr s st l reqs s1 : mrun healthy tr s -> mshows s st -> (l = LCrash reqs \/ l = LKill reqs) -> mstep s l s1 ->
    exists d d' p, s1 = MB (Sys d None) /\ open_db 16 dps d = Ok (d', p) /\
      mstep s1 LOpen (MB (Sys d' (Some p))) /\ mstep s1 LOpen (MOpen d' p) /\
      exists st', shows (Sys d' (Some p)) st' /\ (st' = st \/ st' = (spec_batch dps st reqs).2 \/ exists r0, LUnsure r0 ∈ tr /\ st' = (spec_batch dps st r0).2).
  Proof.
    intros H Hs Hl Hst. destruct (mrun_inv true tr s H) as (sy & Hss & Hi & _). pose proof (minv_eqv _ _ _ _ Hi Hs) as He.
    assert (exists d, s1 = MB (Sys d None)) as (d & ->).
    { destruct Hst as [y l y' Hy|d d' p Ho|d p l p' Hp Hx Hx'|d p s Hs0|s l s' Hs0|d p d' Hd|d p Hd|d p pi d' Hd|d p pi Hd]; try (now eexists).
      - destruct Hy as [d p l d' p' Hp| | | |]; try (now eexists); [|destruct Hl; discriminate]. exfalso. destruct Hp; destruct Hl; discriminate.
      - destruct Hl; discriminate.
      - exfalso. destruct Hp; destruct Hl; discriminate.
      - destruct Hl; discriminate.
      - exfalso. destruct Hs0 as [? ? ? ? ? Hp| | | | | | | |? ? ? ? [] ? ? ? ? ?| | | | | | | | | | |]; try (destruct Hl; discriminate). destruct Hp; destruct Hl; discriminate. }
    destruct (msim_step true _ _ _ _ Hi Hst) as (sy1 & Hs1 & Hi1); [destruct s as [|?|[]]; exact I|].
    assert (exists st1, survives dps sy reqs st1 /\ sy1 = SSys st1 None false ∅ ∅) as (st1 & Hsv & ->).
    { destruct Hl as [-> | ->]; cbn in Hs1; inversion Hs1; subst; eauto. }
    destruct Hi1 as (sy0 & Hi1 & E1). cbn in Hi1. destruct Hi1 as (G & HG).
    destruct (open_ok 16 dps hash order ford caching dps_ok dps32 ltac:(lia) Hord Hford _ _ _ HG) as (d' & p & Eo & Hu).
    exists d, d', p. split; [reflexivity|]. split; [exact Eo|]. split; [apply M_blocking; now constructor|]. split; [now constructor|].
    assert (Eg : g_st G = st1) by (pose proof (dn_spec _ _ _ _ _ _ HG) as ->; cbn in E1; unfold erase_sys in E1; cbn in E1; congruence).
    pose proof (inv_shows dps hash order ford caching dps_ok dps32 Hord Hford (Sys d' (Some p)) _ (ex_intro _ _ Hu) ltac:(now eexists)) as Hsh. cbn in Hsh. rewrite Eg in Hsh.
    destruct Hsv as [->|[Ha| ->]].
    - exists st. split; [eapply shows_eqv; [exact Hsh|now symmetry]|now left].
    - destruct (alt_unsure dps order ford dps_ok dps32 Hord Hford _ _ _ Hss Ha) as (r0 & Hr & ->). exists (spec_batch dps st r0).2. split; [eapply shows_eqv; [exact Hsh|]; symmetry; apply batch_eqv, He|].
      right. right. exists r0. split; [|reflexivity]. apply elem_of_list_fmap in Hr as (l0 & El & Hl0). destruct l0; cbn in El; try discriminate. now injection El as ->.
    - exists (spec_batch dps st reqs).2. split; [|auto]. eapply shows_eqv; [exact Hsh|]. symmetry. apply batch_eqv, He.
  Qed.
  (** A batch that was answered survives: see [pipelined_permanent], whose [tr'] may contain crashes and openings. *)

  (** ** C58: readers *)
  Lemma view_false l : view_label false l = l. Proof. reflexivity. Qed.
  Lemma mwindow s0 sy0 i s1 t2 s2 : minv false s0 sy0 -> mstep s0 (LCall i) s1 -> fine s0 s1 -> msteps fine s1 t2 s2 -> Forall (quiet i) t2 ->
    exists sy2 l, minv false s2 sy2 /\ sp_calls sy2 !! i = Some l /\
      forall st, st ∈ l -> exists ta tb sa, t2 = ta ++ tb /\ msteps fine s1 ta sa /\ msteps fine sa tb s2 /\ mshows sa st.
  Proof.
    intros Hi H1 Hc1 H2. revert H1 Hc1. induction H2 as [s1|s1 tr s2 l s3 H2 IH Hst Hc]; intros H1 Hc1 Hq.
    - destruct (msim_step false _ _ _ _ Hi H1 Hc1) as (sy1 & Hs & Hi1). exists sy1. rewrite view_false in Hs. inversion Hs as [| | | | | | |s a calls open i0 Hcl Ho| | | | |]; subst. cbn.
      exists [s]. rewrite lookup_insert. split; [exact Hi1|]. split; [reflexivity|]. intros s' Hs'. apply elem_of_list_singleton in Hs' as ->.
      exists [], [], s1. split; [reflexivity|]. split; [constructor|]. split; [constructor|]. exact (minv_shows _ _ _ Hi1 (mstep_up _ _ _ H1 I)).
    - apply Forall_app in Hq as [Hq Hql]. inversion Hql as [|? ? Hql1 _]; subst. destruct (IH H1 Hc1 Hq) as (sy2 & ls & Hi2 & Hcl & Hw).
      destruct (msim_step false _ _ _ _ Hi2 Hst Hc) as (sy3 & Hs & Hi3). rewrite view_false in Hs. exists sy3.
      assert (Hold : forall s, s ∈ ls -> exists ta tb ya, tr ++ [l] = ta ++ tb /\ msteps fine s1 ta ya /\ msteps fine ya tb s3 /\ mshows ya s).
      { intros s Hs'. destruct (Hw s Hs') as (ta & tb & ya & -> & Ha & Hb & Hsh). exists ta, (tb ++ [l]), ya. split; [now rewrite app_assoc|]. split; [exact Ha|].
        split; [econstructor; eassumption|exact Hsh]. }
      inversion Hs; subst; cbn in Hcl, Hql1 |- *; try contradiction; try (exists ls; now auto).
      + rewrite lookup_fmap, Hcl. cbn. eexists. split; [exact Hi3|]. split; [reflexivity|]. intros st0 Hs0. apply elem_of_cons in Hs0 as [->|Hs0]; [|auto].
        exists (tr ++ [LCommit reqs ans]), [], s3. rewrite app_nil_r. split; [reflexivity|]. split; [econstructor; eassumption|]. split; [constructor|].
        exact (minv_shows _ _ _ Hi3 (mstep_up _ _ _ Hst I)).
      + rewrite lookup_insert_ne by congruence. exists ls. auto.
      + rewrite lookup_delete_ne by congruence. exists ls. auto.
      + rewrite lookup_delete_ne by congruence. exists ls. auto.
  Qed.
  Lemma mopened y sy i s t y' : minv false y sy -> sp_open sy !! i = Some s -> msteps fine y t y' -> Forall (quiet i) t ->
    exists sy', minv false y' sy' /\ sp_open sy' !! i = Some s /\
      (forall q start bw limit r, LRead i q start bw limit r ∈ t ->
         r = Ok (spec_read (s_hist s) q start bw limit, spec_read_head s limit (spec_read (s_hist s) q start bw limit))) /\
      (forall src r, LTrack i src r ∈ t -> r = Ok (s_track s src)).
  Proof.
    intros Hi Ho H2. revert H2. induction 1 as [y|y tr y2 l y3 H2 IH Hst Hc]; intros Hq.
    - exists sy. split; [exact Hi|]. split; [exact Ho|]. split; intros *; rewrite elem_of_nil; contradiction.
    - apply Forall_app in Hq as [Hq Hql]. inversion Hql as [|? ? Hql1 _]; subst. destruct (IH Hi Hq) as (sy2 & Hi2 & Ho2 & Hr & Ht).
      destruct (msim_step false _ _ _ _ Hi2 Hst Hc) as (sy3 & Hs & Hi3). rewrite view_false in Hs. exists sy3. split; [exact Hi3|].
      assert (Hl : (forall q start bw limit r, l = LRead i q start bw limit r ->
           r = Ok (spec_read (s_hist s) q start bw limit, spec_read_head s limit (spec_read (s_hist s) q start bw limit))) /\
         (forall src r, l = LTrack i src r -> r = Ok (s_track s src))).
      { split; intros; subst; inversion Hs; subst; assert (s0 = s) as -> by congruence; reflexivity. }
      destruct Hl as [Hl1 Hl2]. split.
      { inversion Hs; subst; cbn in Ho2, Hql1 |- *; try contradiction; try exact Ho2.
        - now rewrite lookup_insert_ne by congruence.
        - now rewrite lookup_delete_ne by congruence. }
      split.
      + intros q start bw limit r Hin. apply elem_of_app in Hin as [Hin|Hin]; [now apply Hr|]. apply elem_of_list_singleton in Hin. apply Hl1. now symmetry.
      + intros src r Hin. apply elem_of_app in Hin as [Hin|Hin]; [now apply Ht|]. apply elem_of_list_singleton in Hin. apply Hl2. now symmetry.
  Qed.
  (** A reader shows one state, that of some moment between its being asked for and its being provided, for as long as it is open. *)
  Theorem pipelined_isolation t1 s0 i s1 t2 s2 s3 t3 s4 : mrun fine t1 s0 -> mstep s0 (LCall i) s1 -> fine s0 s1 ->
    msteps fine s1 t2 s2 -> Forall (quiet i) t2 -> mstep s2 (LReady i) s3 -> fine s2 s3 -> msteps fine s3 t3 s4 -> Forall (quiet i) t3 ->
    exists st ta tb sa, t2 = ta ++ tb /\ msteps fine s1 ta sa /\ msteps fine sa tb s2 /\ mshows sa st /\
      (forall q start bw limit r, LRead i q start bw limit r ∈ t3 ->
         r = Ok (spec_read (s_hist st) q start bw limit, spec_read_head st limit (spec_read (s_hist st) q start bw limit))) /\
      (forall src r, LTrack i src r ∈ t3 -> r = Ok (s_track st src)).
  Proof.
    intros H H1 C1 H2 Hq2 H3 C3 H4 Hq3. destruct (mrun_inv false _ _ H) as (sy0 & _ & Hi0 & _).
    destruct (mwindow _ _ _ _ _ _ Hi0 H1 C1 H2 Hq2) as (sy2 & l & Hi2 & Hl & Hw).
    destruct (msim_step false _ _ _ _ Hi2 H3 C3) as (sy3 & Hs3 & Hi3). rewrite view_false in Hs3. inversion Hs3; subst. cbn in Hl.
    match goal with H : _ !! i = Some ?l', H' : ?s ∈ ?l' |- _ => assert (l' = l) as -> by congruence; destruct (Hw s H') as (ta & tb & ya & Et & Ha & Hb & Hsh) end.
    match type of Hsh with mshows _ ?s => destruct (mopened _ _ i s _ _ Hi3 (lookup_insert _ _ _) H4 Hq3) as (sy4 & _ & _ & Hr & Ht); exists s end.
    exists ta, tb, ya. auto 10.
  Qed.
  Theorem pipelined_head t1 s0 i s1 t2 s2 r s3 : mrun fine t1 s0 -> mstep s0 (LCall i) s1 -> fine s0 s1 ->
    msteps fine s1 t2 s2 -> Forall (quiet i) t2 -> mstep s2 (LHead i r) s3 -> fine s2 s3 ->
    exists st ta tb sa, t2 = ta ++ tb /\ msteps fine s1 ta sa /\ msteps fine sa tb s2 /\ mshows sa st /\ r = spec_head st.
  Proof.
    intros H H1 C1 H2 Hq2 H3 C3. destruct (mrun_inv false _ _ H) as (sy0 & _ & Hi0 & _).
    destruct (mwindow _ _ _ _ _ _ Hi0 H1 C1 H2 Hq2) as (sy2 & l & Hi2 & Hl & Hw).
    destruct (msim_step false _ _ _ _ Hi2 H3 C3) as (sy3 & Hs3 & Hi3). rewrite view_false in Hs3. inversion Hs3; subst. cbn in Hl.
    match goal with H : _ !! i = Some ?l', H' : ?s ∈ ?l' |- _ => assert (l' = l) as -> by congruence; destruct (Hw s H') as (ta & tb & ya & Et & Ha & Hb & Hsh); exists s end.
    exists ta, tb, ya. auto 10.
  Qed.
End props.

(** ** Examples *)
(** Each step is checked. *)
Definition kept (p p' : proc) : bool :=
  forallb (fun e => match e.2, p_readers p' !! e.1 with
    | RSeen a, Some (RReg _) => match reg_min (p_regs p) with Some t => t <=? h_tsn a.2 | None => false end
    | _, _ => true end) (map_to_list (p_readers p)).
Definition fine_act (s : psys) (a : pact) (s' : psys) : bool :=
  match l_fly (s_pipe s') with Some f => match y_io f with IFailed true => false | _ => true end | None => true end &&
  match a with BPageFails => match map_to_list (p_cache (s_proc s)) with [] => true | _ => false end | BAbort [] | BFailed => is_ok (mvcc_writer (fetch 16 (p_cache (s_proc s)) (s_disk s)) (reg_min (p_regs (s_proc s))) (latest (s_proc s)).2).1 | BAbort _ => false | _ => true end &&
  match l_fly (s_pipe s), l_phase (s_pipe s) with None, _ | _, PFetch => true | _, _ => kept (s_proc s) (s_proc s') end.
Notation p_exec c := (lexec 16 4096 f_hash (fun l => l) x_ford c).
Fixpoint p_run (c : bool) (s : psys) (tr : list label) (acts : list pact) : option (psys * list label) :=
  match acts with
  | [] => Some (s, tr)
  | a :: acts' => match p_exec c s a with Some (l, s') => if fine_act s a s' then p_run c s' (tr ++ [l]) acts' else None | None => None end
  end.
Notation p_msteps c := (msteps 16 4096 f_hash (fun l => l) x_ford c fine).
Lemma fine_act_ok c s a l s' : p_exec c s a = Some (l, s') -> fine_act s a s' = true -> fine (MP s) (MP s').
Proof.
  unfold fine_act. intros E H. apply andb_prop in H as [H H3]. apply andb_prop in H as [H1 H2]. destruct s as [d p pi], s' as [d' p' pi']. cbn [s_disk s_proc s_pipe] in *. split.
  - split.
    + intros f Ef Hf. rewrite Ef, Hf in H1. discriminate.
    + split.
      * intros f f' Ef Ef' Hn Hy q n _ Hq. destruct (map_to_list (p_cache p)) eqn:Em; [apply map_to_list_empty_iff in Em; rewrite Em, lookup_empty in Hq; discriminate|]. exfalso. clear Em Hq H3.
        destruct a; cbn [lexec] in E; rewrite ?Ef in E; try discriminate H2; clear H2;
          repeat match type of E with context [match ?x with _ => _ end] => destruct x eqn:?; try discriminate end; injection E as <- <- <- <-; cbn in Ef'; first [congruence|rewrite (proj2 (rollback_phase _ _ _)) in Ef'; discriminate|injection Ef' as <-; cbn in Hy; congruence].
      * intros Hg Hp' Hf'. unfold gives_up in Hg. destruct a; cbn [lexec] in E.
        all: try (exfalso; clear H1 H2 H3; repeat match type of E with context [match ?x with _ => _ end] => destruct x eqn:?; try discriminate end; injection E as <- <- <- <-; cbn in Hf', Hp'; rewrite ?Hp', ?Hf' in *; first [contradiction|congruence]).
        -- destruct bad; [|discriminate H2]. destruct (l_phase pi) as [| |done ans [e0|]] eqn:Ep; try discriminate. destruct (l_fly pi) eqn:Ef; [discriminate|].
           injection E as <- <- <- <-. unfold rollback. change (without [] (fetch 16 (p_cache p) d)) with (fetch 16 (p_cache p) d). destruct (mvcc_writer _ _ _) as [[[]|] w]; [split; reflexivity|discriminate H2].
        -- destruct (l_fly pi) as [f|] eqn:Ef; [|destruct (l_phase pi); discriminate]. rewrite Hg in E. destruct (l_phase pi); try discriminate; injection E as <- <- <- <-;
             (unfold rollback; destruct (mvcc_writer _ _ _) as [[[]|] w]; [split; reflexivity|discriminate H2]).
  - cbn. intros Hf Hp i a0 Hi Hi'. destruct (l_fly pi); [|congruence]. assert (Hk : kept p p' = true) by (destruct (l_phase pi); [congruence|exact H3|exact H3]).
    unfold kept in Hk. rewrite forallb_forall in Hk. specialize (Hk (i, RSeen a0)). cbn [fst snd] in Hk. rewrite Hi' in Hk.
    destruct (reg_min (p_regs p)) as [t|]; [exists t; split; [reflexivity|apply N.leb_le, Hk]|exfalso; discriminate Hk; apply elem_of_list_In, elem_of_map_to_list, Hi].
    apply elem_of_list_In, elem_of_map_to_list, Hi.
Qed.
Lemma p_run_ok c s0 s tr acts s' tr' : p_msteps c s0 tr (MP s) -> p_run c s tr acts = Some (s', tr') -> p_msteps c s0 tr' (MP s').
Proof.
  revert s tr. induction acts as [|a acts IH]; intros s tr H E; cbn [p_run] in E; [injection E as <- <-; exact H|].
  destruct (p_exec c s a) as [[l s1]|] eqn:Ea; [|discriminate]. destruct (fine_act s a s1) eqn:Ef; [|discriminate]. eapply IH; [|exact E].
  econstructor; [exact H| |exact (fine_act_ok _ _ _ _ _ Ea Ef)]. apply M_pipe. exact (lexec_ok _ _ _ _ _ _ _ _ _ _ Ea).
Qed.
Lemma p_found c acts (P : psys -> list label -> bool) : match p_run c b_init [LTau] acts with Some (s, tr) => P s tr | None => false end = true ->
  exists s tr, p_msteps c (pipelined_new dps) tr (MP s) /\ P s tr = true.
Proof.
  destruct (p_run c b_init [LTau] acts) as [[s tr]|] eqn:E; [|discriminate]. intros HP. exists s, tr. split; [|exact HP]. eapply p_run_ok; [|exact E].
  change [LTau] with ([] ++ [LTau]). econstructor; [constructor| |split; exact I]. apply M_start. exact b_starts.
Qed.
(** Batch 3 is built while batch 2 is being written; between them a reader is opened, which goes on showing the state after batch 1. *)
Definition p_overlap : list pact :=
  b_batch f_one ++ [BDispatch] ++ PropsPipeline.b_io 3 ++ b_ack ++ b_batch f_one ++ [BDispatch] ++ b_open 7 ++ [b_read 7] ++ b_batch f_one ++
  PropsPipeline.b_io 3 ++ b_ack ++ [BDispatch] ++ PropsPipeline.b_io 3 ++ b_ack ++ [b_read 7].
Definition p_commits (l : label) : option (list (res N)) := match l with LCommit _ a => Some a | _ => None end.
Definition is_call7 (l : label) : bool := match l with LCall 7 => true | _ => false end.
Definition is_ready7 (l : label) : bool := match l with LReady 7 => true | _ => false end.
Definition quiet7 (l : label) : bool :=
  match l with LReady j | LClose j | LCall j | LHead j _ => negb (j =? 7)%nat | LCrash _ | LKill _ | LOpen => false | _ => true end.
(** The parts of a trace before, between and after. *)
Definition p_parts (tr : list label) : option (list label * list label * list label) :=
  match list_find (fun l => is_call7 l = true) tr, list_find (fun l => is_ready7 l = true) tr with
  | Some (i, _), Some (j, _) => if (i <? j)%nat then Some (take i tr, take (j - S i) (drop (S i) tr), drop (S j) tr) else None
  | _, _ => None end.
Lemma p_parts_ok tr t1 t2 t3 : p_parts tr = Some (t1, t2, t3) -> tr = t1 ++ [LCall 7] ++ t2 ++ [LReady 7] ++ t3.
Proof.
  unfold p_parts. destruct (list_find _ tr) as [[i a]|] eqn:Ei; [|discriminate]. destruct (list_find (fun l => is_ready7 l = true) tr) as [[j b]|] eqn:Ej; [|discriminate].
  destruct (i <? j)%nat eqn:Eij; [|discriminate]. apply Nat.ltb_lt in Eij. intros [= <- <- <-]. apply list_find_Some in Ei as (Ei & Ha & _). apply list_find_Some in Ej as (Ej & Hb & _).
  assert (a = LCall 7) as -> by (destruct a; try discriminate; repeat (destruct i0; try discriminate); reflexivity).
  assert (b = LReady 7) as -> by (destruct b; try discriminate; repeat (destruct i0; try discriminate); reflexivity).
  rewrite <- (take_drop_middle tr i _ Ei) at 1. f_equal. cbn. f_equal.
  assert (Ej' : drop (S i) tr !! (j - S i)%nat = Some (LReady 7)) by (rewrite lookup_drop, <- Ej; f_equal; lia).
  rewrite <- (take_drop_middle _ _ _ Ej') at 1. f_equal. f_equal. rewrite drop_drop. f_equal. lia.
Qed.
Lemma quiet7_ok tr : forallb quiet7 tr = true -> Forall (quiet 7) tr.
Proof.
  intros H. apply Forall_forall. intros l Hl. rewrite forallb_forall in H. specialize (H l (proj1 (elem_of_list_In _ _) Hl)). destruct l; cbn in H |- *; try exact I; try discriminate; (apply negb_true_iff in H; now apply Nat.eqb_neq in H).
Qed.
Lemma msteps_split ps hash order ford c C s tr1 tr2 s' : msteps 16 ps hash order ford c C s (tr1 ++ tr2) s' -> exists sm, msteps 16 ps hash order ford c C s tr1 sm /\ msteps 16 ps hash order ford c C sm tr2 s'.
Proof.
  revert s'. induction tr2 as [|l tr2 IH] using rev_ind; intros s' H.
  - rewrite app_nil_r in H. exists s'. split; [exact H|constructor].
  - rewrite app_assoc in H. remember ((tr1 ++ tr2) ++ [l]) as t eqn:Et. destruct H as [|s t sm l0 s1 H1 H2 H3]; [destruct (tr1 ++ tr2); discriminate|].
    apply app_inj_tail in Et as [-> ->]. destruct (IH _ H1) as (sx & Hx & Hy). exists sx. split; [exact Hx|]. econstructor; eassumption.
Qed.
Lemma msteps_one ps hash order ford c C s l s' : msteps 16 ps hash order ford c C s [l] s' -> mstep 16 ps hash order ford c s l s' /\ C s s'.
Proof.
  assert (Hn : forall t s0 s1, msteps 16 ps hash order ford c C s0 t s1 -> t = [] -> s1 = s0) by (intros t s0 s1 [|s2 t' s3 l' s4 _ _ _]; [reflexivity|destruct t'; discriminate]).
  assert (G : forall t, msteps 16 ps hash order ford c C s t s' -> t = [l] -> mstep 16 ps hash order ford c s l s' /\ C s s').
  { intros t [|s2 t' s3 l' s4 H1 H2 H3] E; [discriminate|]. change [l] with ([] ++ [l]) in E. apply app_inj_tail in E as [-> ->]. now rewrite (Hn _ _ _ H1 eq_refl) in *. }
  intros H. now apply (G [l]).
Qed.
(** C56, C58: with both caching and without, the trace of this execution, and its parts as in [pipelined_isolation]. *)
Definition p_sees (tr : list label) : bool :=
  bool_decide (omap p_commits tr = [[Ok 1]; [Ok 2]; [Ok 3]]) && bool_decide (omap b_told tr = [None; Some (Ok ([1], Some 1)); Some (Ok ([1], Some 1))]) &&
  match p_parts tr with Some (_, t2, t3) => forallb quiet7 t2 && forallb quiet7 t3 | None => false end.
Example pipelined_overlap_example c : exists t1 s0 s1 t2 s2 s3 t3 s4, p_msteps c (pipelined_new dps) t1 s0 /\ mstep 16 dps f_hash (fun l => l) x_ford c s0 (LCall 7) s1 /\ fine s0 s1 /\
  p_msteps c s1 t2 s2 /\ Forall (quiet 7) t2 /\ mstep 16 dps f_hash (fun l => l) x_ford c s2 (LReady 7) s3 /\ fine s2 s3 /\ p_msteps c s3 t3 s4 /\ Forall (quiet 7) t3 /\
  omap p_commits (t1 ++ t2 ++ t3) = [[Ok 1]; [Ok 2]; [Ok 3]] /\ omap b_told t3 = [Some (Ok ([1], Some 1)); Some (Ok ([1], Some 1))].
Proof.
  destruct (p_found c p_overlap (fun _ tr => p_sees tr)) as (s & tr & H & HP); [destruct c; vm_compute; reflexivity|].
  unfold p_sees in HP. apply andb_prop in HP as [HP HP3]. apply andb_prop in HP as [HP1 HP2]. apply bool_decide_eq_true in HP1. apply bool_decide_eq_true in HP2.
  destruct (p_parts tr) as [[[t1 t2] t3]|] eqn:E; [|discriminate]. apply andb_prop in HP3 as [Hq2 Hq3]. apply quiet7_ok in Hq2. apply quiet7_ok in Hq3. apply p_parts_ok in E. subst tr.
  apply msteps_split in H as (s0 & H1 & H). apply msteps_split in H as (s1 & Hc & H). apply msteps_one in Hc as [Hc Hf]. apply msteps_split in H as (s2 & H2 & H).
  apply msteps_split in H as (s3 & Hr & H3). apply msteps_one in Hr as [Hr Hf']. exists t1, s0, s1, t2, s2, s3, t3, (MP s). do 9 (split; [eassumption|]). split.
  - rewrite !omap_app in HP1. cbn in HP1. rewrite !omap_app. exact HP1.
  - rewrite !omap_app in HP2. cbn in HP2.
    assert (Hn : forall t, Forall (quiet 7) t -> Forall (fun x => x <> None) (omap b_told t)).
    { intros t Ht. induction Ht as [|l t Hl Ht IH]; [constructor|]. cbn. destruct (b_told l) as [x|] eqn:Ex; [|exact IH]. constructor; [|exact IH].
      intros ->. destruct l; cbn in Ex; try discriminate; repeat (case_match; try discriminate); subst; now apply Hl. }
    destruct (omap b_told t1) as [|x1 [|x2 [|x3 [|]]]]; cbn in HP2; try discriminate.
    + pose proof (Hn _ Hq2) as Hn2. destruct (omap b_told t2) as [|y l]; cbn in HP2; [now injection HP2|]. exfalso. inversion Hn2; subst. congruence.
    + exfalso. apply (f_equal tail) in HP2. cbn in HP2. assert (Hin : None ∈ [Some (Ok ([1], Some 1)); Some (Ok ([1], Some 1))]) by (rewrite <- HP2; apply elem_of_app; right; left).
      repeat (apply elem_of_cons in Hin as [Hin|Hin]; [discriminate|]). now apply elem_of_nil in Hin.
    + exfalso. apply (f_equal (drop 2)) in HP2. cbn in HP2. assert (Hin : None ∈ [Some (Ok ([1], Some 1))]) by (rewrite <- HP2; apply elem_of_app; right; left).
      repeat (apply elem_of_cons in Hin as [Hin|Hin]; [discriminate|]). now apply elem_of_nil in Hin.
    + exfalso. apply (f_equal (drop 3)) in HP2. cbn in HP2. now destruct (omap b_told t2).
Qed.

(** C57: batch 3 is complete, batch 2 being written; the machine crashes after the header of batch 2 was written and before it was synced. *)
Definition p_before_crash : list pact :=
  b_batch f_one ++ [BDispatch] ++ PropsPipeline.b_io 3 ++ b_ack ++ b_batch f_one ++ [BDispatch] ++ b_batch f_one ++ replicate 3 BPage ++ [BSync; BHeader].
Definition p_first : spec_state := (spec_batch dps spec_empty [f_one]).2.
Example pipelined_crash_example c : exists tr s s1, p_msteps c (pipelined_new dps) tr s /\ mshows f_hash (fun l => l) s p_first /\ mstep 16 dps f_hash (fun l => l) x_ford c s (LCrash [f_one]) s1.
Proof.
  destruct (p_found c p_before_crash (fun s tr => bool_decide (pipe_in_flight (s_pipe s) = [f_one]) && bool_decide (omap (fun l => match l with LCommit r a => Some (r, a) | _ => None end) tr = [([f_one], [Ok 1])]) &&
     forallb (fun l => match l with LTau | LCommit _ _ => true | _ => false end) tr)) as (s & tr & H & HP); [destruct c; vm_compute; reflexivity|].
  apply andb_prop in HP as [HP HP3]. apply andb_prop in HP as [HP1 HP2]. apply bool_decide_eq_true in HP1. apply bool_decide_eq_true in HP2.
  assert (Hm : mrun f_hash (fun l => l) x_ford c (healthy 16) tr (MP s)).
  { right. clear -H. remember (MP s) as ss. clear Heqss. induction H; [constructor|]. econstructor; [eassumption|eassumption|apply H1]. }
  destruct s as [d p pi]. cbn [s_pipe] in HP1.
  destruct (mrun_inv f_hash (fun l => l) x_ford c x_ord x_ford_ok true _ _ Hm) as (sy & Hs & Hi & _).
  assert (Hcur : cur_ok d) by (eapply minv_cur, Hi).
  exists tr, (MP (PSys d p pi)), (MB (Sys (settled d) None)). split; [exact H|]. split.
  - destruct (pipelined_linearizable f_hash (fun l => l) x_ford c x_ord x_ford_ok _ _ Hm) as (L & HL & Hsh); [now eexists|].
    assert (L = [f_one]) as ->; [|exact Hsh]. clear -HL HP2 HP3. revert HP2 HP3. set (X := [([f_one], [Ok 1])]) in *.
    assert (G : forall L tr, lin dps tr L -> forallb (fun l => match l with LTau | LCommit _ _ => true | _ => false end) tr = true ->
        L = concat (map fst (omap (fun l => match l with LCommit r a => Some (r, a) | _ => None end) tr))).
    { intros L0 tr0 HL0. induction HL0 as [|t0 L0 reqs ans H0 IH E|t0 L0 l H0 IH Hc|t0 L0 l reqs extra H0 IH Hl Hx]; [reflexivity| | |]; rewrite forallb_app; intros Hf; apply andb_prop in Hf as [Hf Hfl].
      - rewrite omap_app, map_app, concat_app, <- (IH Hf). cbn. now rewrite app_nil_r.
      - rewrite omap_app, map_app, concat_app, <- (IH Hf). destruct l; try discriminate Hfl; cbn in Hc; [now rewrite app_nil_r|]. now destruct Hc as [Hc|Hc]; [destruct Hc|discriminate].
      - destruct Hl as [-> | ->]; discriminate. }
    intros E Hf. rewrite (G _ _ HL Hf), E. reflexivity.
  - rewrite <- HP1. apply M_crash, crash_settled, Hcur.
Qed.

(** C56: a batch is given up, as one of its requests is cancelled; the writer is made anew.  The next batch is stored alone. *)
Example pipelined_abort_example c : exists tr s, p_msteps c (pipelined_new dps) tr s /\
  omap (fun l => match l with LAbort rs => Some (inl rs) | LCommit rs a => Some (inr (rs, a)) | _ => None end) tr = [inl [f_one; b_cancelled]; inr ([b_second], [Ok 1])] /\
  omap (fun l => match l with LRead 7 [] None false None (Ok (evs, _)) => Some (map (fun e => er_type e.2) evs) | _ => None end) tr = [[[3]]].
Proof.
  destruct (p_found c ([BBegin; BReq f_one; BCancel b_cancelled; BAbort []] ++ b_batch b_second ++ [BDispatch] ++ PropsPipeline.b_io 2 ++ b_ack ++ b_open 7 ++ [b_read 7]) (fun _ tr =>
    bool_decide (omap (fun l => match l with LAbort rs => Some (inl rs) | LCommit rs a => Some (inr (rs, a)) | _ => None end) tr = [inl [f_one; b_cancelled]; inr ([b_second], [Ok 1])] /\
      omap (fun l => match l with LRead 7 [] None false None (Ok (evs, _)) => Some (map (fun e => er_type e.2) evs) | _ => None end) tr = [[[3]]])))
    as (s & tr & H & HP); [destruct c; vm_compute; reflexivity|]. exists tr, (MP s). split; [exact H|]. now apply bool_decide_eq_true in HP.
Qed.

(** C56: batch 1 is stored; a page of batch 2 cannot be written while batch 3 is being built.  Both are given up, and the next batch is stored
    after batch 1. *)
Example pipelined_failure_example : exists tr s, p_msteps false (pipelined_new dps) tr s /\
  omap (fun l => match l with LAbort rs => Some (inl rs) | LCommit rs a => Some (inr (rs, a)) | _ => None end) tr = [inr ([f_one], [Ok 1]); inl [f_one; f_one]; inr ([b_second], [Ok 2])] /\
  omap (fun l => match l with LRead 7 [] None false None (Ok (evs, _)) => Some (map (fun e => (e.1, er_type e.2)) evs) | _ => None end) tr = [[(1, [1]); (2, [3])]].
Proof.
  destruct (p_found false (b_batch f_one ++ [BDispatch] ++ PropsPipeline.b_io 3 ++ b_ack ++ b_batch f_one ++ [BDispatch; BPage; BBegin; BReq f_one; BPageFails; BBuilt; BFailed] ++
    b_batch b_second ++ [BDispatch] ++ PropsPipeline.b_io 2 ++ b_ack ++ b_open 7 ++ [b_read 7]) (fun _ tr =>
    bool_decide (omap (fun l => match l with LAbort rs => Some (inl rs) | LCommit rs a => Some (inr (rs, a)) | _ => None end) tr = [inr ([f_one], [Ok 1]); inl [f_one; f_one]; inr ([b_second], [Ok 2])] /\
      omap (fun l => match l with LRead 7 [] None false None (Ok (evs, _)) => Some (map (fun e => (e.1, er_type e.2)) evs) | _ => None end) tr = [[(1, [1]); (2, [3])]])))
    as (s & tr & H & HP); [vm_compute; reflexivity|]. exists tr, (MP s). split; [exact H|]. now apply bool_decide_eq_true in HP.
Qed.

(** ** C66: going on after the header page was not synced *)
Lemma lstep_cur ps hash order ford c s l s' : lstep 16 ps hash order ford c s l s' -> cur_ok (s_disk s) -> cur_ok (s_disk s').
Proof.
  intros H Hc. destruct H; cbn in *; auto using w_write_cur.
  all: try match goal with Hx : _ = _ \/ d_spoilt _ _ _ _ _ |- _ => destruct Hx as [->|Hx]; [exact Hc|] end; try (eapply w_spoilt_cur; eassumption).
  all: try (intros i; cbn; destruct (d_wr d i); [reflexivity|apply Hc]).
  all: match goal with Hx : d_unsynced _ _ |- _ => destruct Hx as (f' & Hf & ->); intros i; cbn; specialize (Hf i); destruct (d_wr d i); [exact Hf|rewrite Hf; apply Hc] end.
Qed.
Lemma lsteps_cur ps hash order ford c s tr s' : lsteps 16 ps hash order ford c s tr s' -> cur_ok (s_disk s) -> cur_ok (s_disk s').
Proof. induction 1; intros Hc; [exact Hc|]. eapply lstep_cur; eauto. Qed.
Notation u_steps c := (msteps 16 4096 f_hash (fun l => l) x_ford c (fun _ _ => True)).
Lemma lsteps_msteps c tr s : b_steps c tr s -> u_steps c (pipelined_new dps) (LTau :: tr) (MP s).
Proof.
  intros H. remember b_init as s0 eqn:E. induction H as [s|s tr s' l s'' H IH Hl].
  - change [LTau] with ([] ++ [LTau]). econstructor; [constructor| |exact I]. subst. apply M_start. exact b_starts.
  - change (LTau :: tr ++ [l]) with ((LTau :: tr) ++ [l]). econstructor; [now apply IH|now apply M_pipe|exact I].
Qed.
(** The sync of the header of a commit fails. *)
Definition unsync (s : psys) : option psys :=
  match l_fly (s_pipe s) with
  | Some f => match y_io f with ISync => Some (PSys (dropped (s_disk s)) (s_proc s) (set_fly (Some (set_io (IFailed true) f)) (s_pipe s))) | _ => None end
  | None => None
  end.
Lemma unsync_ok c tr s s' : b_steps c tr s -> unsync s = Some s' -> b_steps c (tr ++ [LTau]) s'.
Proof.
  intros H E. econstructor; [exact H|]. assert (Hc : cur_ok (s_disk s)) by (eapply lsteps_cur; [exact H|]; exact (init_cur 4096)). destruct s as [d p pi]. unfold unsync in E. cbn in E, Hc.
  destruct (l_fly pi) as [f|] eqn:Ef; [|discriminate]. destruct (y_io f) eqn:Ey; try discriminate. injection E as <-. eapply L_done_fails; [exact Ef|exact Ey|]. now apply sync_dropped.
Qed.
(** [acts]; then the sync fails; then [acts']. *)
Definition u_run (c : bool) (acts acts' : list pact) : option (psys * list label) :=
  match b_run c acts with
  | Some (s, tr) => match unsync s with Some s' => lrun 16 4096 f_hash (fun l => l) x_ford c s' (tr ++ [LTau]) acts' | None => None end
  | None => None
  end.
Lemma u_found c acts acts' (P : psys -> list label -> bool) : match u_run c acts acts' with Some (s, tr) => P s tr | None => false end = true ->
  exists s tr, u_steps c (pipelined_new dps) (LTau :: tr) (MP s) /\ mstep 16 4096 f_hash (fun l => l) x_ford c (MP s) (LCrash (pipe_in_flight (s_pipe s))) (MB (Sys (settled (s_disk s)) None)) /\ P s tr = true.
Proof.
  unfold u_run. destruct (b_run c acts) as [[s1 tr1]|] eqn:E1; [|discriminate]. apply lrun_ok with (s0 := b_init) in E1; [|apply lsteps_nil]. destruct (unsync s1) as [s2|] eqn:E2; [|discriminate].
  apply (unsync_ok _ _ _ _ E1) in E2. destruct (lrun _ _ _ _ _ _ s2 _ acts') as [[s tr]|] eqn:E3; [|discriminate]. intros HP. exists s, tr. apply lrun_ok with (s0 := b_init) in E3; [|exact E2].
  split; [now apply lsteps_msteps|]. split; [|exact HP]. assert (Hc : cur_ok (s_disk s)) by (eapply lsteps_cur; [exact E3|]; exact (init_cur 4096)). destruct s as [d p pi]. apply M_crash, crash_settled, Hc.
Qed.
Definition told_of (tr : list label) : list (list request * bool) := omap (fun l => match l with LCommit r _ => Some (r, true) | LAbort r | LUnsure r => Some (r, false) | _ => None end) tr.
(** The only request is answered with an error; the machine crashes; when the file is opened the event is there. *)
Theorem pipelined_failed_commit_no_trace_refuted c : exists tr s d d' p, u_steps c (pipelined_new dps) tr s /\ told_of tr = [([f_one], false)] /\
  mstep 16 4096 f_hash (fun l => l) x_ford c s (LCrash []) (MB (Sys d None)) /\ open_db 16 4096 d = Ok (d', p) /\
  umadb_read f_hash (fun l => l) (fetch 16 (p_cache p) d') (latest p).2 [] None false None false = Ok ([(1, to_record None (NE [1] [] [[97]] None []))], Some 1).
Proof.
  destruct (u_found c (b_batch f_one ++ [BDispatch; BPage; BPage; BPage; BSync; BHeader]) [BFailed] (fun s tr =>
    bool_decide (told_of tr = [([f_one], false)] /\ pipe_in_flight (s_pipe s) = []) &&
    match open_db 16 4096 (settled (s_disk s)) with
    | Ok (d', p) => bool_decide (umadb_read f_hash (fun l => l) (fetch 16 (p_cache p) d') (latest p).2 [] None false None false = Ok ([(1, to_record None (NE [1] [] [[97]] None []))], Some 1))
    | Err _ => false end)) as (s & tr & H & Hm & HP); [destruct c; vm_compute; reflexivity|]. apply andb_prop in HP as [H1 H2]. apply bool_decide_eq_true in H1 as [H1 H3].
  destruct (open_db 16 4096 (settled (s_disk s))) as [[d' p]|] eqn:Eo; [|discriminate]. apply bool_decide_eq_true in H2. rewrite H3 in Hm.
  exists (LTau :: tr), (MP s), (settled (s_disk s)), d', p. auto 10.
Qed.
(** One request is answered with success; that of the next commit is not; the thread goes on with a third, which reuses the page numbers of the
    second.  After a crash the file cannot be opened. *)
Theorem pipelined_failed_sync_harmless_refuted c : exists tr s d, u_steps c (pipelined_new dps) tr s /\ told_of tr = [([f_one], true); ([f_one], false)] /\
  mstep 16 4096 f_hash (fun l => l) x_ford c s (LCrash []) (MB (Sys d None)) /\ forall d' p, open_db 16 4096 d <> Ok (d', p).
Proof.
  destruct (u_found c (b_batch f_one ++ [BDispatch] ++ PropsPipeline.b_io 3 ++ b_ack ++ b_batch f_one ++ [BDispatch; BPage; BPage; BPage; BSync; BHeader]) ([BFailed] ++ b_batch f_plain ++ [BDispatch; BPage; BPage]) (fun s tr =>
    bool_decide (told_of tr = [([f_one], true); ([f_one], false)] /\ pipe_in_flight (s_pipe s) = []) &&
    negb (is_ok (open_db 16 4096 (settled (s_disk s)))))) as (s & tr & H & Hm & HP); [destruct c; vm_compute; reflexivity|]. apply andb_prop in HP as [H1 H2]. apply bool_decide_eq_true in H1 as [H1 H3].
  rewrite H3 in Hm. exists (LTau :: tr), (MP s), (settled (s_disk s)). split; [exact H|]. split; [exact H1|]. split; [exact Hm|]. intros d' p E. rewrite E in H2. discriminate.
Qed.

Print Assumptions pipelined_gapless.
Print Assumptions pipelined_permanent.
Print Assumptions pipelined_commit.
Print Assumptions pipelined_linearizable.
Print Assumptions pipelined_abort.
Print Assumptions pipelined_crash.
Print Assumptions pipelined_isolation.
Print Assumptions pipelined_head.
Print Assumptions pipelined_overlap_example.
Print Assumptions pipelined_crash_example.
Print Assumptions pipelined_failure_example.
Print Assumptions pipelined_failed_commit_no_trace_refuted.
Print Assumptions pipelined_failed_sync_harmless_refuted.
