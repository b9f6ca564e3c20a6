(** Properties C82 (continued) and C83: reads page by page with the pipelining writer thread. *)
From Verif Require Import Walk Mvcc MvccProofs SpecSys SpecProofs StoreProofs Exec PropsStore PropsPages PropsFindings PropsCrash PropsPipeline PropsPipelined.
From Verif Require Import PageReads PageReadsProofs PageReadsRefine PropsPageReads.
Local Open Scope N_scope.

Section props.
  Context (hash : bytes -> bytes) (order : list bytes -> list bytes) (ford : gset N -> list N) (caching : bool).
  Context (Hord : forall l t, t ∈ order l <-> t ∈ l) (Hford : forall s, ford s ≡ₚ elements s).
  Notation mstep := (mstep 16 dps hash order ford caching).
  Notation msteps := (msteps 16 dps hash order ford caching).
  Notation lstep := (lstep 16 dps hash order ford caching).
  Notation held := (held 16 dps hash).
  Notation thread_inv := (thread_inv 16 dps hash caching).
  Notation minv := (minv 16 dps hash caching false).
  Notation run_inv := (PipelineRefine.run_inv 16 dps hash caching false).

  (** The pages of [G] are there and the commit being written does not touch them. *)
  Definition safe (d : disk) (p : proc) (pi : pipe) (G : psnap) : Prop :=
    held d (p_cache p) G /\
    (forall f pages q b, l_fly pi = Some f -> y_io f = IPages pages -> (q, b) ∈ pages -> q ∉ g_live G) /\
    (forall f, l_fly pi = Some f -> y_io f = IHeader -> (y_header f).1 < 2).
  Lemma fly_safe f db w todo d p pi g sy G : fly_inv 16 dps hash caching f db w todo d p pi g sy ->
    prot 16 dps hash db (fcache caching f (p_cache p)) g (fphase f w todo) G -> safe d p pi G.
  Proof.
    intros H Hp. split; [eapply (fly_held 16 dps hash caching dps32 ltac:(lia)); eassumption|]. pose proof (b_fly _ _ _ _ _ _ _ _ _ _ _ _ _ H) as Hf. split.
    - intros f' pages q b Hf' Hio Hin Hq. assert (f' = f) as -> by congruence. destruct Hp as [_ Hp]. destruct (Hp q Hq) as [_ Hfr]. unfold fphase in Hfr; rewrite Hio in Hfr. apply (Hfr I).
      pose proof (b_pages _ _ _ _ _ _ _ _ _ _ _ _ _ H _ Hio) as Hpg. pose proof (b_u _ _ _ _ _ _ _ _ _ _ _ _ _ H) as Hu. unfold fphase in Hu; rewrite Hio in Hu.
      pose proof (u_writer _ _ _ _ _ _ _ _ Hu) as (_ & Hto & _). apply elem_of_list_lookup in Hin as [j Hj].
      destruct (Forall2_lookup_r _ _ _ _ _ Hpg Hj) as ([q' n] & Hj' & E & _). cbn in E. subst q'.
      eapply (fly_fresh 16 dps hash caching dps32 ltac:(lia)); [exact H|]. exists n. apply Hto. apply elem_of_list_lookup. now exists j.
    - intros f' Hf' Hio. assert (f' = f) as -> by congruence. rewrite (b_hdr _ _ _ _ _ _ _ _ _ _ _ _ _ H). cbn. unfold other_slot. case_match; lia.
  Qed.
  Lemma idle_safe d p pi G : held d (p_cache p) G -> l_fly pi = None -> safe d p pi G.
  Proof. intros H Hf. split; [exact H|]. split; [intros f pages q b E|intros f E]; congruence. Qed.
  Lemma ti_safe d p pi sy : thread_inv d p pi sy -> p_writer p = WIdle /\ (forall f, l_fly pi = Some f -> forall b, y_io f <> IFailed b) /\
    (exists G, g_hdr G = (latest p).2 /\ safe d p pi G) /\
    forall i a, p_readers p !! i = Some (ROpen a) -> exists G, g_hdr G = a.2 /\ sp_open sy !! i = Some (g_st G) /\ safe d p pi G.
  Proof.
    intros (g & [H|(f & db & w & todo & H)]).
    - pose proof (a_u _ _ _ _ _ _ _ _ _ H) as Hu. pose proof (a_fly _ _ _ _ _ _ _ _ _ H) as Hf. split; [exact (a_x _ _ _ _ _ _ _ _ _ H)|]. split; [congruence|]. split.
      + exists (gh_cur g). split; [symmetry; exact (u_latest _ _ _ _ _ _ _ _ Hu)|]. apply idle_safe; [exact (u_held _ _ _ _ _ _ _ _ Hu)|exact Hf].
      + intros i a Hi. pose proof (u_readers _ _ _ _ _ _ _ _ Hu i) as Hr. unfold rinv in Hr. cbn in Hr. rewrite Hi in Hr.
        destruct Hr as (_ & G & _ & Hh & Ho & Hp & _). exists G. split; [exact Hh|]. split; [exact Ho|]. now apply idle_safe.
    - pose proof (b_u _ _ _ _ _ _ _ _ _ _ _ _ _ H) as Hu. split; [exact (b_x _ _ _ _ _ _ _ _ _ _ _ _ _ H)|]. split.
      { intros f' E. rewrite (b_fly _ _ _ _ _ _ _ _ _ _ _ _ _ H) in E. injection E as <-. exact (b_io _ _ _ _ _ _ _ _ _ _ _ _ _ H). }
      split.
      + exists (gh_cur g). split; [symmetry; exact (u_latest _ _ _ _ _ _ _ _ Hu)|]. eapply fly_safe; [exact H|]. apply prot_cur. exact (u_held _ _ _ _ _ _ _ _ Hu).
      + intros i a Hi. pose proof (u_readers _ _ _ _ _ _ _ _ Hu i) as Hr. unfold rinv in Hr. cbn in Hr. rewrite Hi in Hr.
        destruct Hr as (_ & G & _ & Hh & Ho & Hp). exists G. split; [exact Hh|]. split; [exact Ho|]. eapply fly_safe; eassumption.
  Qed.
  Lemma run_safe d p pi sy : run_inv d p pi sy -> p_writer p = WIdle /\ (forall f, l_fly pi = Some f -> y_io f <> IFailed true) /\
    (exists G, g_hdr G = (latest p).2 /\ safe d p pi G) /\
    forall i a, p_readers p !! i = Some (ROpen a) -> exists G, g_hdr G = a.2 /\ sp_open sy !! i = Some (g_st G) /\ safe d p pi G.
  Proof.
    intros [H|[(f & Ef & Eio) H]].
    - destruct (ti_safe _ _ _ _ H) as (H1 & H2 & H3 & H4). split; [exact H1|]. split; [intros f E; exact (H2 f E true)|]. split; [exact H3|exact H4].
    - destruct (ti_safe _ _ _ _ H) as (H1 & H2 & (G & H3 & [H3' _]) & H4). split; [exact H1|]. split; [congruence|]. split.
      + exists G. split; [exact H3|]. split; [exact H3'|]. split; [intros f0 pages q b E1 E2|intros f0 E1 E2]; congruence.
      + intros i a Hi. destruct (H4 i a Hi) as (G' & E1 & E2 & [E3 _]). exists G'. split; [exact E1|]. split; [exact E2|]. split; [exact E3|].
        split; [intros f0 pages q b E4 E5|intros f0 E4 E5]; congruence.
  Qed.
  (** No step of the thread, or of the I/O thread, changes them. *)
  Lemma lstep_safe s l s' G : lstep s l s' -> healthy 16 (MP s) (MP s') -> cur_ok (s_disk s) -> safe (s_disk s) (s_proc s) (s_pipe s) G ->
    forall q, q ∈ g_live G -> on_disk (s_disk s') q = on_disk (s_disk s) q.
  Proof.
    intros Hst Hh Hc [Hheld [Hpg Hhd]] q Hin. pose proof (lstep_cur _ _ _ _ _ _ _ _ Hst Hc) as Hc'.
    assert (2 <= q) as H2 by (apply (snap_range _ _ _ _ _ q (proj1 Hheld)); apply elem_of_app; now left).
    destruct (proj2 Hheld q Hin) as (n & Hn & Hgd & _).
    enough (forall c, d_dur (s_disk s') q c -> d_dur (s_disk s) q c) as Hd.
    { unfold on_disk. now rewrite (Hgd _ (Hc q)), (Hgd _ (Hd _ (Hc' q))). }
    clear Hc'. destruct Hst; cbn [s_disk s_proc s_pipe] in *; auto.
    - intros c. apply write_dur. intros ->. eapply Hpg; [eassumption|eassumption|now left|exact Hin].
    - match goal with H : _ \/ _ |- _ => destruct H as [->|Hsp]; [auto|] end. destruct (spoilt_ok _ _ _ _ _ Hc Hsp) as [_ Hd1]. intros c. apply Hd1.
      intros ->. eapply Hpg; [eassumption|eassumption|now left|exact Hin].
    - intros c. now apply synced_dur.
    - match goal with H : d_unsynced _ _ |- _ => destruct (unsynced_ok _ _ Hc H) as [_ Hd1] end. intros c. apply Hd1.
    - intros c. apply write_dur. pose proof (Hhd f ltac:(assumption) ltac:(assumption)). lia.
    - exfalso. apply (proj1 Hh _ eq_refl). reflexivity.
    - intros c. now apply synced_dur.
    - exfalso. apply (proj1 Hh _ eq_refl). reflexivity.
  Qed.
  (** *** What the argument of PageReadsRefine.v needs *)
  Lemma mv_b y sy : minv (MB y) sy -> inv 16 dps hash caching y sy.
  Proof. intros (sy0 & H & ->). exact H. Qed.
  (** Readers of a state: their pages, and those of the last commit. *)
  Definition msafe (s : msys) (p : proc) (d : disk) (G : psnap) : Prop :=
    match s with
    | MB _ => exists g sy, uinv 16 dps hash caching d p g sy /\ held d (p_cache p) G /\ (busy (p_writer p) -> forall q, q ∈ g_live G -> ~ Txn.fresh (g_sn (gh_cur g)) (gh_sm g) q)
    | MOpen _ _ => held d (p_cache p) G
    | MP s => safe d p (s_pipe s) G
    end.
  Lemma msafe_held s p d G : msafe s p d G -> held d (p_cache p) G.
  Proof. destruct s as [y|d' p'|s]; cbn; [intros (g & sy & _ & H & _); exact H|auto|intros [H _]; exact H]. Qed.
  Lemma m_cur s sy d p : minv s sy -> msys_view s = Some (d, p) -> cur_ok d.
  Proof.
    destruct s as [y|d0 p0|s]; cbn [msys_view]; intros H Hv.
    - apply mv_b in H. apply view_proc in Hv as [<- Hp]. unfold inv in H. rewrite Hp in H. destruct H as (g & Hu). exact (u_cur _ _ _ _ _ _ _ _ Hu).
    - injection Hv as <- <-. exact (ti_cur _ _ _ _ _ _ _ _ H).
    - injection Hv as <- <-. exact (run_cur 16 dps hash caching false _ _ _ _ H).
  Qed.
  Lemma m_reader s sy d p i a : minv s sy -> msys_view s = Some (d, p) -> p_readers p !! i = Some (ROpen a) ->
    exists G, g_hdr G = a.2 /\ sp_open sy !! i = Some (g_st G) /\ msafe s p d G.
  Proof.
    destruct s as [y|d0 p0|s]; cbn [msys_view msafe]; intros H Hv Ha.
    - apply mv_b in H. apply view_proc in Hv as [<- Hp]. unfold inv in H. rewrite Hp in H. destruct H as (g & Hu).
      pose proof (u_readers _ _ _ _ _ _ _ _ Hu i) as Hr. unfold rinv in Hr. rewrite Ha in Hr. destruct Hr as (_ & G & _ & Hg & Ho & Hh & Hf).
      exists G. split; [exact Hg|]. split; [exact Ho|]. exists g, sy. split; [exact Hu|]. split; [exact Hh|]. intros Hb q Hq. exact (proj2 (Hf q Hq) Hb).
    - injection Hv as <- <-. destruct (ti_safe _ _ _ _ H) as (_ & _ & _ & H4). destruct (H4 i a Ha) as (G & E1 & E2 & [E3 _]). eauto.
    - injection Hv as <- <-. destruct (run_safe _ _ _ _ H) as (_ & _ & _ & H4). exact (H4 i a Ha).
  Qed.
  Lemma m_committed s sy d p : minv s sy -> msys_view s = Some (d, p) -> exists G, g_hdr G = (latest p).2 /\ msafe s p d G.
  Proof.
    destruct s as [y|d0 p0|s]; cbn [msys_view msafe]; intros H Hv.
    - apply mv_b in H. apply view_proc in Hv as [<- Hp]. unfold inv in H. rewrite Hp in H. destruct H as (g & Hu).
      exists (gh_cur g). split; [symmetry; exact (u_latest _ _ _ _ _ _ _ _ Hu)|]. exists g, sy. split; [exact Hu|]. split; [exact (u_held _ _ _ _ _ _ _ _ Hu)|].
      intros Hb q Hq. exact (proj2 (proj2 (prot_cur _ _ _ _ _ _ _ (u_held _ _ _ _ _ _ _ _ Hu)) q Hq) Hb).
    - injection Hv as <- <-. destruct (ti_safe _ _ _ _ H) as (_ & _ & (G & E1 & [E2 _]) & _). eauto.
    - injection Hv as <- <-. destruct (run_safe _ _ _ _ H) as (_ & _ & H3 & _). exact H3.
  Qed.
  Lemma m_same_pages s sy l s' d p d' p' G : minv s sy -> mstep s l s' -> fine s s' -> msys_view s = Some (d, p) -> msys_view s' = Some (d', p') ->
    msafe s p d G -> forall q, q ∈ g_live G -> on_disk d' q = on_disk d q.
  Proof.
    intros H Hst [Hh _] Hv Hv' Hs q Hq. pose proof (m_cur _ _ _ _ H Hv) as Hc. destruct Hst; cbn [msys_view msafe] in *; try discriminate.
    - apply view_proc in Hv as [<- Hp]. apply view_proc in Hv' as [<- Hp']. destruct Hs as (g & sy0 & Hu & Hheld & Hf). destruct y as [d p0]. cbn in Hp. subst p0. cbn in *.
      destruct (uinv_kept dps hash order ford caching dps32 _ _ _ _ G _ _ Hu Hheld Hf ltac:(eassumption) q Hq) as [Hc' Hd].
      destruct (proj2 Hheld q Hq) as (n & Hn & Hgd & _). unfold on_disk. now rewrite (Hgd _ (Hc q)), (Hgd _ (Hd _ (Hc' q))).
    - congruence.
    - injection Hv as <- <-. match goal with H : starts _ _ _ _ |- _ => destruct H as (_ & w & _ & ->) end. cbn in Hv'. congruence.
    - injection Hv as <- <-. injection Hv' as <- <-. eapply lstep_safe; eassumption.
  Qed.

  Lemma m_step s sy l s' : minv s sy -> mstep s l s' -> fine s s' -> exists sy', spec_step dps sy l sy' /\ minv s' sy'.
  Proof. intros H1 H2 H3. exact (msim_step hash order ford caching Hord Hford false s sy l s' H1 H2 H3). Qed.
  Lemma m_open s sy d p i a : minv s sy -> msys_view s = Some (d, p) -> p_readers p !! i = Some (ROpen a) ->
    exists st P F, sp_open sy !! i = Some st /\ walks (on_disk d) (refs (NHeader a.2)) P F /\ sound_pages d (p_cache p) P /\
      reads_as hash order (fetch 16 (p_cache p) d) a.2 st.
  Proof.
    intros H Hv Ha. destruct (m_reader _ _ _ _ _ _ H Hv Ha) as (G & Hg & Ho & Hs).
    destruct (held_open dps hash order ford dps_ok dps32 Hord Hford d (p_cache p) G) as (P & F & H1 & H2 & H3); [exact (m_cur _ _ _ _ H Hv)|exact (msafe_held _ _ _ _ Hs)|].
    rewrite Hg in H1, H3. exists (g_st G), P, F. auto.
  Qed.
  Lemma m_latest s sy d p : minv s sy -> msys_view s = Some (d, p) -> exists P F, walks (on_disk d) (refs (NHeader (latest p).2)) P F /\ sound_pages d (p_cache p) P.
  Proof.
    intros H Hv. destruct (m_committed _ _ _ _ H Hv) as (G & Hg & Hs).
    destruct (held_open dps hash order ford dps_ok dps32 Hord Hford d (p_cache p) G) as (P & F & H1 & H2 & H3); [exact (m_cur _ _ _ _ H Hv)|exact (msafe_held _ _ _ _ Hs)|].
    rewrite <- Hg. eauto.
  Qed.
  Lemma m_pages s sy l s' d p d' p' G : minv s sy -> mstep s l s' -> fine s s' -> msys_view s = Some (d, p) -> msys_view s' = Some (d', p') ->
    msafe s p d G -> forall P F, walks (on_disk d) (refs (NHeader (g_hdr G))) P F -> forall q, q ∈ P -> on_disk d' q = on_disk d q.
  Proof.
    intros H Hst Hf Hv Hv' Hs P F Hw q Hq. destruct (held_walks dps hash _ _ _ (m_cur _ _ _ _ H Hv) (msafe_held _ _ _ _ Hs)) as (P' & F' & Hw' & E & _).
    destruct (walks_unique _ _ _ _ _ _ Hw Hw') as [-> ->]. subst. eapply m_same_pages; eassumption.
  Qed.
  Lemma pstep_readers d p l d' p' i a : pstep 16 dps hash order ford caching d p l d' p' -> p_readers p !! i = Some (ROpen a) -> l <> LClose i ->
    stays i l /\ p_readers p' !! i = Some (ROpen a).
  Proof.
    intros Hst Ha Hl. inversion Hst; subst; cbn [stays]; try (split; [exact I|exact Ha]); try (split; [exact I|]; cbn; destruct caching; exact Ha);
      try (match goal with H : p_readers p !! ?j = _ |- _ => destruct (decide (j = i)) as [->|Hne]; [try congruence|split; [try exact I; exact Hne|cbn; rewrite ?lookup_insert_ne, ?lookup_delete_ne by congruence; exact Ha]] end).
    all: try (split; [exact I|]; unfold pin_header; destruct (_ =? 0); exact Ha).
  Qed.
  Lemma m_readers s l s' d p d' p' i a : mstep s l s' -> msys_view s = Some (d, p) -> msys_view s' = Some (d', p') ->
    p_readers p !! i = Some (ROpen a) -> l <> LClose i -> stays i l /\ p_readers p' !! i = Some (ROpen a).
  Proof.
    intros Hst Hv Hv' Ha Hl. destruct Hst as [y l y' Hy|? ? ? Ho|d0 p0 l p1 Hp Hx Hx'|d0 p0 s Hs|s l s' Hs|? ? ? Hd|? ? Hd|? ? ? ? Hd|? ? ? Hd]; cbn [msys_view] in *; try discriminate.
    - apply view_proc in Hv as [<- Hp]. apply view_proc in Hv' as [<- Hp'].
      inversion Hy as [d0 p0 l0 d1 p1 Hps'|? ? ? Hcr|? ? Hcr|? ? Hse|? ? ? Hop]; subst; cbn in Hp, Hp'; try discriminate.
      injection Hp as ->. injection Hp' as ->. eapply pstep_readers; eassumption.
    - injection Hv as -> ->. injection Hv' as <- <-. eapply pstep_readers; eassumption.
    - injection Hv as -> ->. destruct Hs as (_ & w & _ & ->). cbn in Hv'. injection Hv' as <- <-. split; [exact I|exact Ha].
    - injection Hv as <- <-. injection Hv' as <- <-. destruct Hs; cbn [s_proc s_disk] in *; try (split; [exact I|exact Ha]).
      + eapply pstep_readers; eassumption.
      + split; [exact I|]. destruct caching; exact Ha.
      + split; [exact I|]. unfold pin_header; destruct (_ =? 0); exact Ha.
      + destruct hdr; split; (exact I || exact Ha).
  Qed.
  Lemma m_kept s sy l s' d p d' p' i a : minv s sy -> mstep s l s' -> fine s s' -> msys_view s = Some (d, p) -> msys_view s' = Some (d', p') ->
    p_readers p !! i = Some (ROpen a) -> l <> LClose i -> stays i l /\ p_readers p' !! i = Some (ROpen a) /\
    forall P F, walks (on_disk d) (refs (NHeader a.2)) P F -> forall q, q ∈ P -> on_disk d' q = on_disk d q.
  Proof.
    intros H Hst Hf Hv Hv' Ha Hl. destruct (m_readers _ _ _ _ _ _ _ _ _ Hst Hv Hv' Ha Hl) as [H1 H2]. split; [exact H1|]. split; [exact H2|].
    destruct (m_reader _ _ _ _ _ _ H Hv Ha) as (G & <- & _ & Hs). eapply m_pages; eassumption.
  Qed.
  Lemma pstep_latest d p l d' p' : pstep 16 dps hash order ford caching d p l d' p' -> p_writer p = WIdle -> p_writer p' = WIdle -> latest p' = latest p.
  Proof. intros Hp Hx Hx'. destruct Hp; try reflexivity; try congruence; cbn in Hx'; try discriminate. Qed.
  Lemma m_lkept s sy l s' d p d' p' : minv s sy -> mstep s l s' -> fine s s' -> msys_others s s' -> msys_view s = Some (d, p) -> msys_view s' = Some (d', p') ->
    latest p' = latest p /\ forall P F, walks (on_disk d) (refs (NHeader (latest p).2)) P F -> forall q, q ∈ P -> on_disk d' q = on_disk d q.
  Proof.
    intros H Hst Hf Ho Hv Hv'. split.
    - destruct Hst as [y l y' Hy|? ? ? Hop|d0 p0 l p1 Hp Hx Hx'|d0 p0 s Hs|s l s' Hs|? ? ? Hd|? ? Hd|? ? ? ? Hd|? ? ? Hd]; cbn [msys_view msys_others] in *; try discriminate; try contradiction.
      + exact (proj1 (step_lkept dps hash order ford caching dps32 Hord _ _ _ _ _ _ _ Hy Ho Hv Hv')).
      + injection Hv as -> ->. injection Hv' as <- <-. eapply pstep_latest; eassumption.
      + injection Hv as <- <-. injection Hv' as <- <-. destruct Hs; cbn [s_proc s_pipe] in *; try reflexivity.
        * eapply pstep_latest; eassumption.
        * destruct caching; reflexivity.
        * destruct Ho as [_ Ho]. rewrite H1 in Ho. cbn in Ho. contradiction.
    - destruct (m_committed _ _ _ _ H Hv) as (G & <- & Hs). eapply m_pages; eassumption.
  Qed.
  Lemma m_still s sy d p p' : minv (MP (PSys d p s)) sy -> p_readers p' = p_readers p -> fine (MP (PSys d p s)) (MP (PSys d p' s)).
  Proof.
    intros H Hr. destruct (run_safe _ _ _ _ H) as (_ & Hio & _). cbn in Hio. split.
    - split; [exact Hio|]. split; [intros f f' E1 E2; congruence|]. intros Hg H1 H2. exfalso. unfold gives_up in Hg. now rewrite H1, H2 in Hg.
    - intros _ _ i a E1 E2. rewrite Hr in E2. congruence.
  Qed.
  Lemma m_idle s sy d p : minv s sy -> msys_view s = Some (d, p) -> match s with MB _ => True | _ => p_writer p = WIdle end.
  Proof.
    destruct s as [y|d0 p0|s]; cbn [msys_view]; intros H Hv; [exact I| |]; injection Hv as <- <-.
    - exact (proj1 (ti_safe _ _ _ _ H)).
    - exact (proj1 (run_safe _ _ _ _ H)).
  Qed.
  (** Steps that leave the writer and the disk alone. *)
  Lemma m_side s sy d p l p' : minv s sy -> msys_view s = Some (d, p) -> pstep 16 dps hash order ford caching d p l d p' ->
    p_writer p' = p_writer p -> p_readers p' = p_readers p ->
    let s' := match s with MB _ => MB (Sys d (Some p')) | MOpen _ _ => MOpen d p' | MP s => MP (PSys d p' (s_pipe s)) end in mstep s l s' /\ fine s s'.
  Proof.
    intros H Hv Hst Hw Hr s'. pose proof (m_idle _ _ _ _ H Hv) as Hi. subst s'. destruct s as [y|d0 p0|[d0 p0 pi]]; cbn [msys_view s_disk s_proc s_pipe] in *.
    - apply view_proc in Hv as [<- Hp]. destruct y as [d p0]. cbn in Hp. subst p0. split; [|split; exact I]. apply M_blocking. now constructor.
    - injection Hv as -> ->. split; [|split; exact I]. apply M_read; [exact Hst|exact Hi|congruence].
    - injection Hv as -> ->. split; [|eapply m_still; eassumption]. apply M_pipe. apply L_other; [exact Hst|exact Hi|congruence].
  Qed.
  Lemma m_self s d p : msys_view s = Some (d, p) -> s = match s with MB _ => MB (Sys d (Some p)) | MOpen _ _ => MOpen d p | MP s => MP (PSys d p (s_pipe s)) end.
  Proof.
    destruct s as [y|d0 p0|[d0 p0 pi]]; cbn; intros Hv; [|congruence|congruence]. apply view_proc in Hv as [<- Hp]. destruct y. cbn in *. now subst.
  Qed.
  Lemma m_load s sy d p q n : minv s sy -> msys_view s = Some (d, p) -> caching = true -> 2 <= q -> fetch 16 (p_cache p) d q = Ok n ->
    let s' := msys_put (<[q := n]> (p_cache p)) s in
    mstep s LTau s' /\ fine s s' /\ msys_view s' = Some (d, set_cache (<[q := n]> (p_cache p)) p).
  Proof.
    intros H Hv Hc Hq Hf s'. destruct (m_side s sy d p LTau (set_cache (<[q := n]> (p_cache p)) p) H Hv ltac:(now apply S_load) eq_refl eq_refl) as [H1 H2].
    assert (s' = match s with MB _ => MB (Sys d (Some (set_cache (<[q := n]> (p_cache p)) p))) | MOpen _ _ => MOpen d (set_cache (<[q := n]> (p_cache p)) p)
      | MP s => MP (PSys d (set_cache (<[q := n]> (p_cache p)) p) (s_pipe s)) end) as ->.
    { subst s'. rewrite (m_self s d p Hv) at 1. destruct s; reflexivity. }
    split; [exact H1|]. split; [exact H2|]. destruct s; reflexivity.
  Qed.
  Lemma m_same s sy d p : minv s sy -> msys_view s = Some (d, p) -> mstep s LTau s /\ fine s s.
  Proof.
    intros H Hv. assert (pstep 16 dps hash order ford caching d p LTau d p) as Hs.
    { destruct (evict_nothing (p_cache p)) as [q Hq]. pose proof (S_evict 16 dps hash order ford caching d p q) as He. now rewrite Hq, set_cache_same in He. }
    pose proof (m_side s sy d p LTau p H Hv Hs eq_refl eq_refl) as Hm. cbv zeta in Hm. rewrite <- (m_self s d p Hv) in Hm. exact Hm.
  Qed.
  Lemma m_read s sy d p i a l : minv s sy -> msys_view s = Some (d, p) -> p_readers p !! i = Some (ROpen a) ->
    asks hash order (fetch 16 (p_cache p) d) i a.2 l -> mstep s l s /\ fine s s.
  Proof.
    intros H Hv Ha Hl. assert (pstep 16 dps hash order ford caching d p l d p) as Hs.
    { destruct Hl as [(q & start & bw & limit & force & ->)|(src & ->)]; [now apply S_read|now apply S_track]. }
    pose proof (m_side s sy d p l p H Hv Hs eq_refl eq_refl) as Hm. cbv zeta in Hm. rewrite <- (m_self s d p Hv) in Hm. exact Hm.
  Qed.

  (** ** C82 with the pipelining writer thread *)
  Notation xstep := (xstep 16 hash order caching mstep msys_view msys_put msys_others).
  Notation xsteps := (xsteps 16 hash order caching mstep msys_view msys_put msys_others).
  Notation mrun := (mrun hash order ford caching).
  Definition mxrun (C : msys -> msys -> Prop) (tr : list label) (x : xsys) : Prop :=
    xsteps C (XSys (MB (init_sys 16 dps)) ∅ None) tr x \/ xsteps C (XSys (pipelined_new dps) ∅ None) tr x.
  Notation mxinv := (xinv caching msys_view minv).

  Lemma mxrun_inv tr x : mxrun fine tr x -> mrun fine tr (x_sys x) /\ exists sy, spec_steps dps spec_init tr sy /\ mxinv x sy.
  Proof.
    assert (forall s0, mrun fine [] s0 -> minv s0 spec_init -> xsteps fine (XSys s0 ∅ None) tr x ->
      mrun fine tr (x_sys x) /\ exists sy, spec_steps dps spec_init tr sy /\ mxinv x sy) as Hg.
    { intros s0 Hr Hi H. eapply (xsteps_refine dps hash order caching mstep msys_view msys_put msys_others fine minv m_step m_open m_kept m_load m_same m_read m_latest m_lkept (mrun fine)).
      - intros t s l s' H1 H2 H3. eapply mrun_snoc; eassumption.
      - exact Hr.
      - exact Hi.
      - exact H. }
    pose proof (init_inv dps hash order ford caching dps_ok dps32 Hord Hford) as Hi.
    intros [H|H]; (eapply Hg; [| |exact H]).
    - left. constructor.
    - exists spec_init. split; [exact Hi|reflexivity].
    - right. constructor.
    - destruct Hi as (g & Hi). cbn. eapply ti_resting; [exact Hi|reflexivity|]. cbn. intros q n _ E. rewrite lookup_empty in E. discriminate.
  Qed.
  Theorem pipelined_spread_reads_refine tr x : mxrun fine tr x -> mrun fine tr (x_sys x).
  Proof. intros H. exact (proj1 (mxrun_inv tr x H)). Qed.
  (** A reader answers as of the moment it was opened, also in an answer during which something happens. *)
  Theorem pipelined_spread_isolated t1 i t2 t3 x : mxrun fine (t1 ++ [LCall i] ++ t2 ++ [LReady i] ++ t3) x -> Forall (quiet i) t2 -> Forall (quiet i) t3 ->
    exists st ta tb s, t2 = ta ++ tb /\ mrun fine (t1 ++ [LCall i] ++ ta) s /\ mshows hash order s st /\
      (forall q start bw limit r, LRead i q start bw limit r ∈ t3 ->
         r = Ok (spec_read (s_hist st) q start bw limit, spec_read_head st limit (spec_read (s_hist st) q start bw limit))) /\
      (forall src r, LTrack i src r ∈ t3 -> r = Ok (s_track st src)).
  Proof.
    intros H Q2 Q3. apply pipelined_spread_reads_refine in H.
    assert (exists s0 s1 s2 s3, mrun fine t1 s0 /\ (mstep s0 (LCall i) s1 /\ fine s0 s1) /\ msteps fine s1 t2 s2 /\ (mstep s2 (LReady i) s3 /\ fine s2 s3) /\ msteps fine s3 t3 (x_sys x))
      as (s0 & s1 & s2 & s3 & H0 & [H1 C1] & H2 & [H3 C3] & H4).
    { destruct H as [H|H]; apply msteps_split in H as (s0 & H0 & H); apply msteps_split in H as (s1 & H1 & H); apply msteps_split in H as (s2 & H2 & H);
        apply msteps_split in H as (s3 & H3 & H); apply msteps_one in H1; apply msteps_one in H3; exists s0, s1, s2, s3; (split; [|auto]); [left|right]; exact H0. }
    destruct (pipelined_isolation hash order ford caching Hord Hford _ _ _ _ _ _ _ _ _ H0 H1 C1 H2 Q2 H3 C3 H4 Q3) as (st & ta & tb & sa & E & Ha & Hb & Hs & R1 & R2).
    exists st, ta, tb, sa. split; [exact E|]. split; [|auto].
    pose proof (mrun_snoc hash order ford caching fine _ _ _ _ H0 H1 C1) as Hm. rewrite app_assoc.
    destruct Hm as [Hm|Hm]; [left|right]; eapply msteps_app; eassumption.
  Qed.
  Theorem pipelined_spread_read_begins C tr x d p i a q start bw limit force : mxrun C tr x -> msys_view (x_sys x) = Some (d, p) -> p_readers p !! i = Some (ROpen a) ->
    x_tasks x !! i = None -> C (x_sys x) (x_sys x) -> let rd := fetch 16 (p_cache p) d in
    mxrun C (tr ++ [LTau]) (XSys (x_sys x) (<[i := Running (read_call hash order rd i a.2 q start bw limit force)]> (x_tasks x)) (x_load x)) /\
    forall src, mxrun C (tr ++ [LTau]) (XSys (x_sys x) (<[i := Running (track_call i a.2 src)]> (x_tasks x)) (x_load x)).
  Proof.
    intros H Hv Ha Hn Hc rd. destruct x as [s T W]. cbn in *. split.
    - assert (xstep (XSys s T W) LTau (XSys s (<[i := Running (read_call hash order rd i a.2 q start bw limit force)]> T) W)) as Hx.
      { destruct (read_call_ok hash order rd i a.2 q start bw limit force) as [H1 H2].
        eapply X_begin; [exact Hv|exact Ha|exact Hn|exact H1|]. fold rd. rewrite H2. left. now exists q, start, bw, limit, force. }
      destruct H as [H|H]; [left|right]; (econstructor; [exact H|exact Hx|exact Hc]).
    - intros src. assert (xstep (XSys s T W) LTau (XSys s (<[i := Running (track_call i a.2 src)]> T) W)) as Hx.
      { destruct (track_call_ok rd i a.2 src) as [H1 H2]. eapply X_begin; [exact Hv|exact Ha|exact Hn|exact H1|]. fold rd. rewrite H2. right. now exists src. }
      destruct H as [H|H]; [left|right]; (econstructor; [exact H|exact Hx|exact Hc]).
  Qed.
  Theorem pipelined_spread_read_ends tr x i t : mxrun fine tr x -> x_tasks x !! i = Some (Running t) ->
    exists n l x', xsteps fine x (replicate n LTau ++ [l]) x' /\ answer l = true /\ x_tasks x' !! i = None /\
      forall (Q : label -> Prop) (K : N -> Prop), follows (fun _ => Q) K t -> Q l.
  Proof.
    intros H Ht. destruct (mxrun_inv _ _ H) as (_ & sy & _ & Hx). destruct x as [s T W].
    destruct (task_ends dps hash order caching mstep msys_view msys_put msys_others fine minv m_step m_open m_kept m_load m_same m_read m_latest m_lkept t s T W sy i Hx Ht)
      as (n & l & s' & T' & H1 & H2 & H3 & H4).
    exists n, l. eexists. split; [exact H1|]. auto.
  Qed.
End props.

(** ** Running the whole, with a page cache: a list of chosen steps is executed *)
(** [YBegin i]: reader [i] begins to read everything; [YMiss i]: it has read the page it asked for from the file; [YLoaded i]: it puts it into the
    cache; [YHit i]: it found it there; [YEnd i]: it answers; [YAll i]: a read of everything in no time; [YCrash], [YOpen]: the machine crashes, with all writes done, and the
    database is opened. *)
Inductive xact := YP (a : pact) | YBegin (i : nat) | YMiss (i : nat) | YLoaded (i : nat) | YHit (i : nat) | YEnd (i : nat) | YAll (i : nat) | YCrash | YOpen | YReader (a : act).
(** The step is healthy and, unless [er], leaves the readers undisturbed. *)
Definition cond_act (er : bool) (s : psys) (a : pact) (s' : psys) : bool :=
  match l_fly (s_pipe s') with Some f => match y_io f with IFailed _ => false | _ => true end | None => true end &&
  match a with
  | BAbort [] => is_ok (mvcc_writer (fetch 16 (p_cache (s_proc s)) (s_disk s)) (reg_min (p_regs (s_proc s))) (latest (s_proc s)).2).1
  | BPageFails | BAbort _ | BFailed => false | _ => true end &&
  (er || match l_fly (s_pipe s), l_phase (s_pipe s) with None, _ | _, PFetch => true | _, _ => kept (s_proc s) (s_proc s') end).
Definition sound_io (s : msys) : bool := match s with MP s => match l_fly (s_pipe s) with Some f => match y_io f with IFailed _ => false | _ => true end | None => true end | _ => true end.
Notation y_all rd i h := (read_call f_hash (fun l : list bytes => l) rd i h [] None false None false).
Definition xexec (er : bool) (x : @xsys msys) (a : xact) : option (list label * @xsys msys) :=
  let '(XSys s T W) := x in
  if match W with None => sound_io s | Some _ => false end then
  match a with
  | YP a => match s with MP s => match p_exec true s a with
      | Some (l, s') => if negb (answer l) && cond_act er s a s' && match l with LClose i => match T !! i with None => true | _ => false end | _ => true end then Some ([l], XSys (MP s') T None) else None
      | None => None end | _ => None end
  | YBegin i => match msys_view s with Some (d, p) => match p_readers p !! i, T !! i with
      | Some (ROpen a), None => Some ([LTau], XSys s (<[i := Running (y_all (fetch 16 (p_cache p) d) i a.2)]> T) None) | _, _ => None end | None => None end
  | YMiss i => match msys_view s, T !! i with
      | Some (d, p), Some (Running (Ask q k)) => match p_cache p !! q, dec 16 (d_cur d q) with
        | None, Ok n => if 2 <=? q then Some ([LTau], XSys s (<[i := Loading q n k]> T) None) else None | _, _ => None end
      | _, _ => None end
  | YLoaded i => match msys_view s, T !! i with
      | Some (d, p), Some (Loading q n k) => Some ([LTau], XSys (msys_put (<[q := n]> (p_cache p)) s) (<[i := Running (k (Ok n))]> T) None)
      | _, _ => None end
  | YHit i => match msys_view s, T !! i with
      | Some (d, p), Some (Running (Ask q k)) => match p_cache p !! q with
        | Some n => if 2 <=? q then Some ([LTau], XSys s (<[i := Running (k (Ok n))]> T) None) else None | None => None end
      | _, _ => None end
  | YEnd i => match T !! i with Some (Running (Ret l)) => Some ([l], XSys s (delete i T) None) | _ => None end
  | YAll i => match msys_view s with Some (d, p) => match p_readers p !! i, T !! i with
      | Some (ROpen a), None => Some ([LTau; LRead i [] None false None (umadb_read f_hash (fun l => l) (fetch 16 (p_cache p) d) a.2 [] None false None false)], XSys s T None) | _, _ => None end | None => None end
  | YCrash => match s with MP (PSys d p pi) => Some ([LCrash (pipe_in_flight pi)], XSys (MB (Sys (settled d) None)) ∅ None) | _ => None end
  | YOpen => match s with MB (Sys d None) => match open_db 16 dps d with Ok (d', p) => Some ([LOpen], XSys (MOpen d' p) T None) | Err _ => None end | _ => None end
  | YReader a => match s with MOpen d p => match p_writer p with WIdle => if reader_act a then match pexec 16 dps f_hash (fun l => l) x_ford true d p a with
      | Some (l, _, p') => if negb (answer l) && match l with LClose i => match T !! i with None => true | _ => false end | _ => true end then Some ([l], XSys (MOpen d p') T None) else None
      | None => None end else None | _ => None end | _ => None end
  end
  else None.
Fixpoint xexecs (er : bool) (x : @xsys msys) (tr : list label) (acts : list xact) : option (@xsys msys * list label) :=
  match acts with
  | [] => Some (x, tr)
  | a :: acts' => match xexec er x a with Some (l, x') => xexecs er x' (tr ++ l) acts' | None => None end
  end.
Notation y_xsteps er := (xsteps 16 f_hash (fun l => l) true (mstep 16 dps f_hash (fun l => l) x_ford true) msys_view msys_put msys_others (cond er)).
Notation y_xstep := (xstep 16 f_hash (fun l => l) true (mstep 16 dps f_hash (fun l => l) x_ford true) msys_view msys_put msys_others).
Notation y_mxrun := (mxrun f_hash (fun l => l) x_ford true).
Lemma sound_io_ok er s c : sound_io s = true -> cond er s (msys_put c s) /\ cond er s s.
Proof.
  intros H. enough ((healthy 16 s (msys_put c s) /\ healthy 16 s s) /\ undisturbed s (msys_put c s) /\ undisturbed s s) as [[H1 H2] [H3 H4]] by (destruct er; [exact (conj H1 H2)|exact (conj (conj H1 H3) (conj H2 H4))]).
  destruct s as [y|d p|[d p pi]]; cbn; [auto|auto|]. cbn in H.
  assert (forall f, l_fly pi = Some f -> y_io f <> IFailed true) as H1 by (intros f E1 E2; rewrite E1, E2 in H; discriminate).
  assert (forall p', (gives_up pi -> l_phase pi = PFetch -> l_fly pi = None -> mvcc_writer (fetch 16 (p_cache p) d) (reg_min (p_regs p)) (latest p).2 = (Ok tt, l_w pi) /\ l_header pi = latest p' )) as H2.
  { intros p' Hg E1 E2. exfalso. unfold gives_up in Hg. now rewrite E1, E2 in Hg. }
  split; [split; (split; [exact H1|split; [intros f f' E1 E2; congruence|apply H2]])|]. split; intros _ _ i a E1 E2; congruence.
Qed.
Lemma cond_act_ok er s a l s' : p_exec true s a = Some (l, s') -> sound_io (MP s) = true -> cond_act er s a s' = true -> cond er (MP s) (MP s').
Proof.
  unfold cond_act. intros E H0 H. apply andb_prop in H as [H H3]. apply andb_prop in H as [H1 H2]. destruct s as [d p pi], s' as [d' p' pi']. cbn [s_disk s_proc s_pipe sound_io] in *.
  enough (healthy 16 (MP (PSys d p pi)) (MP (PSys d' p' pi')) /\ (er = false -> undisturbed (MP (PSys d p pi)) (MP (PSys d' p' pi')))) as [Hh Hu] by (destruct er; [exact Hh|exact (conj Hh (Hu eq_refl))]).
  split; [split; [|split]|].
  - intros f E1 E2. rewrite E1, E2 in H1. discriminate.
  - intros f f' _ E1 _ E2. rewrite E1, E2 in H1. discriminate.
  - intros Hg E1 E2. unfold gives_up in Hg. destruct (l_fly pi) as [f|] eqn:Ef; [rewrite Hg in H0; discriminate|].
    destruct (l_phase pi) as [| |done ans eo] eqn:Ep; try contradiction. destruct a; cbn [lexec] in E; try discriminate H2; rewrite ?Ep, ?Ef in E; try discriminate E.
    all: try (exfalso; clear H3; repeat match type of E with context [match ?x with _ => _ end] => destruct x eqn:?; try discriminate end; injection E as <- <- <- <-; cbn in E1, E2; congruence).
    destruct bad; [|discriminate H2]. destruct eo as [e0|]; [|discriminate]. injection E as <- <- <- <-. unfold rollback.
    change (without [] (fetch 16 (p_cache p) d)) with (fetch 16 (p_cache p) d). destruct (mvcc_writer _ _ _) as [[[]|] w]; [split; reflexivity|discriminate H2].
  - intros ->. cbn [orb] in H3. cbn. intros Hf Hp i a0 Hi Hi'. destruct (l_fly pi); [|congruence]. assert (Hk : kept p p' = true) by (destruct (l_phase pi); [congruence|exact H3|exact H3]).
    unfold kept in Hk. rewrite forallb_forall in Hk. specialize (Hk (i, RSeen a0)). cbn [fst snd] in Hk. rewrite Hi' in Hk.
    destruct (reg_min (p_regs p)) as [t|]; [exists t; split; [reflexivity|apply N.leb_le, Hk]|exfalso; discriminate Hk; apply elem_of_list_In, elem_of_map_to_list, Hi].
    apply elem_of_list_In, elem_of_map_to_list, Hi.
Qed.
Lemma y_sys s l s' (T : gmap nat task) : mstep 16 dps f_hash (fun l => l) x_ford true s l s' -> answer l = false ->
  (forall i, is_Some (T !! i) -> l <> LClose i) -> is_Some (msys_view s') -> y_xstep (XSys s T None) l (XSys s' T None).
Proof.
  intros H1 H2 H3 [v Hv]. pose proof (X_sys 16 f_hash (fun l => l) true (mstep 16 dps f_hash (fun l => l) x_ford true) msys_view msys_put msys_others s l s' T None H1 H2 H3 ltac:(intros [? ?]; discriminate)) as H.
  now rewrite Hv in H.
Qed.
Lemma y_close (T : gmap nat task) l : match l with LClose i => match T !! i with None => true | _ => false end | _ => true end = true -> forall i, is_Some (T !! i) -> l <> LClose i.
Proof. intros H i [u Hu] ->. now rewrite Hu in H. Qed.
Definition m_disk (s : msys) : disk := match s with MB y => y_disk y | MOpen d _ => d | MP s => s_disk s end.
Lemma xexec_ok er x a l x' : cur_ok (m_disk (x_sys x)) -> xexec er x a = Some (l, x') -> y_xsteps er x l x' /\ cur_ok (m_disk (x_sys x')).
Proof.
  destruct x as [s T W]. cbn [x_sys]. intros Hc E. unfold xexec in E. destruct W; [discriminate|]. destruct (sound_io s) eqn:Hio; [|discriminate].
  destruct a.
  - destruct s as [y|d p|s]; try discriminate. destruct (p_exec true s a) as [[l0 s']|] eqn:Ea; [|discriminate].
    destruct (_ && _ && _) eqn:Eb; [|discriminate]. apply andb_prop in Eb as [Eb E3]. apply andb_prop in Eb as [E1 E2]. apply negb_true_iff in E1.
    injection E as <- <-. pose proof (lexec_ok _ _ _ _ _ _ _ _ _ _ Ea) as Hl. split; [|exact (lstep_cur _ _ _ _ _ _ _ _ Hl Hc)].
    apply xsteps_one; [|exact (cond_act_ok _ _ _ _ _ Ea Hio E2)]. apply y_sys; [now apply M_pipe|exact E1|now apply y_close|now eexists].
  - destruct (msys_view s) as [[d p]|] eqn:Hv; [|discriminate]. destruct (p_readers p !! i) as [[| | | | |a]|] eqn:Ha; try discriminate. destruct (T !! i) eqn:HT; [discriminate|]. injection E as <- <-.
    split; [|exact Hc]. apply xsteps_one; [|exact (proj2 (sound_io_ok er s ∅ Hio))].
    destruct (read_call_ok f_hash (fun l => l) (fetch 16 (p_cache p) d) i a.2 [] None false None false) as [H1 H2].
    eapply X_begin; [exact Hv|exact Ha|exact HT|exact H1|]. rewrite H2. left. now exists [], None, false, None, false.
  - destruct (msys_view s) as [[d p]|] eqn:Hv; [|discriminate]. destruct (T !! i) as [[[?|q k]|]|] eqn:HT; try discriminate.
    destruct (p_cache p !! q) eqn:Hq; [discriminate|]. destruct (dec 16 (d_cur d q)) as [n|] eqn:Hd; [|discriminate]. destruct (2 <=? q) eqn:H2; [|discriminate]. apply N.leb_le in H2. injection E as <- <-.
    split; [|exact Hc]. apply xsteps_one; [|exact (proj2 (sound_io_ok er s ∅ Hio))]. eapply X_miss; eauto.
  - destruct (msys_view s) as [[d p]|] eqn:Hv; [|discriminate]. destruct (T !! i) as [[|q n k]|] eqn:HT; try discriminate. injection E as <- <-.
    split; [|destruct s as [[? ?]|? ?|[? ? ?]]; exact Hc]. apply xsteps_one; [|exact (proj1 (sound_io_ok er s _ Hio))]. eapply X_loaded; eauto.
  - destruct (msys_view s) as [[d p]|] eqn:Hv; [|discriminate]. destruct (T !! i) as [[[?|q k]|]|] eqn:HT; try discriminate.
    destruct (p_cache p !! q) as [n|] eqn:Hq; [|discriminate]. destruct (2 <=? q) eqn:H2; [|discriminate]. apply N.leb_le in H2. injection E as <- <-.
    split; [|exact Hc]. apply xsteps_one; [|exact (proj2 (sound_io_ok er s ∅ Hio))]. eapply X_hit; eauto.
  - destruct (T !! i) as [[[l0|]|]|] eqn:HT; try discriminate. injection E as <- <-. split; [|exact Hc]. apply xsteps_one; [|exact (proj2 (sound_io_ok er s ∅ Hio))]. now apply X_end.
  - destruct (msys_view s) as [[d p]|] eqn:Hv; [|discriminate]. destruct (p_readers p !! i) as [[| | | | |a]|] eqn:Ha; try discriminate. destruct (T !! i) eqn:HT; [discriminate|]. injection E as <- <-.
    split; [|exact Hc]. set (lb := LRead i [] None false None _). assert (y_xsteps er (XSys s T None) [LTau] (XSys s (<[i := Running (Ret lb)]> T) None)) as HA; [|change [LTau; lb] with ([LTau] ++ [lb]); eapply xsteps_app; [exact HA|]].
    + apply xsteps_one; [|exact (proj2 (sound_io_ok er s ∅ Hio))]. eapply X_begin; [exact Hv|exact Ha|exact HT|exact I|]. left. now exists [], None, false, None, false.
    + apply xsteps_one; [|exact (proj2 (sound_io_ok er s ∅ Hio))]. pose proof (X_end 16 f_hash (fun l => l) true (mstep 16 dps f_hash (fun l => l) x_ford true) msys_view msys_put msys_others s (<[i := Running (Ret lb)]> T) None i lb (lookup_insert _ _ _)) as H.
      rewrite delete_insert in H by exact HT. exact H.
  - destruct s as [y|d p|[d p pi]]; try discriminate. injection E as <- <-. split; [|intros q; reflexivity]. apply xsteps_one; [|destruct er; [exact I|split; exact I]].
    apply (X_sys 16 f_hash (fun l => l) true (mstep 16 dps f_hash (fun l => l) x_ford true) msys_view msys_put msys_others (MP (PSys d p pi)) _ (MB (Sys (settled d) None)) T None);
      [apply M_crash, crash_settled, Hc|reflexivity|intros; discriminate|intros [? ?]; discriminate].
  - destruct s as [[d [p|]]| |]; try discriminate. destruct (open_db 16 dps d) as [[d' p]|] eqn:Ho; [|discriminate]. injection E as <- <-. split.
    + apply xsteps_one; [|destruct er; [exact I|split; exact I]]. apply y_sys; [now apply M_open|reflexivity|intros; discriminate|now eexists].
    + cbn in *. unfold open_db in Ho. destruct (read_headers _ _) as [[[n0 n1] fx]|]; [|discriminate]. cbn [rbind] in Ho.
      destruct (match fx with Some _ => _ | None => _ end) as [d1|] eqn:Ed in Ho; [|discriminate]. cbn [rbind] in Ho.
      destruct (as_header n0.2); [|discriminate]. cbn [rbind] in Ho. destruct (as_header n1.2); [|discriminate]. cbn [rbind] in Ho. destruct (check_roots _ _ _); [|discriminate].
      injection Ho as <- _. destruct fx as [[q n]|]; [|injection Ed as <-; exact Hc]. destruct (page_ser _ _ _); [|discriminate]. injection Ed as <-. now apply write_cur.
  - destruct s as [y|d p|s]; try discriminate. destruct (p_writer p) eqn:Ew; try discriminate. destruct (reader_act a) eqn:Ea; [|discriminate].
    destruct (pexec _ _ _ _ _ _ d p a) as [[[l0 d0] p0]|] eqn:Ep; [|discriminate]. destruct (_ && _) eqn:Eb; [|discriminate]. apply andb_prop in Eb as [E1 E3]. apply negb_true_iff in E1.
    injection E as <- <-. destruct (reader_pstep _ _ _ _ _ _ _ _ _ _ _ _ Ea Ep) as [-> Ew']. apply pexec_ok in Ep. split; [|exact Hc].
    apply xsteps_one; [|destruct er; [exact I|split; exact I]]. apply y_sys; [apply M_read; congruence|exact E1|now apply y_close|now eexists].
Qed.
Lemma xexecs_ok er x0 x tr acts x' tr' : cur_ok (m_disk (x_sys x)) -> y_xsteps er x0 tr x -> xexecs er x tr acts = Some (x', tr') -> y_xsteps er x0 tr' x'.
Proof.
  revert x tr. induction acts as [|a acts IH]; cbn [xexecs]; intros x tr Hc H E; [now injection E as <- <-|]. destruct (xexec er x a) as [[l x1]|] eqn:Ea; [|discriminate].
  destruct (xexec_ok _ _ _ _ _ Hc Ea) as [H1 Hc1]. eapply IH; [exact Hc1| |exact E]. eapply xsteps_app; eassumption.
Qed.
Lemma y_found er acts (P : @xsys msys -> list label -> bool) : match xexecs er (XSys (MP b_init) ∅ None) [LTau] acts with Some (x, tr) => P x tr | None => false end = true ->
  exists x tr, y_mxrun (cond er) tr x /\ P x tr = true.
Proof.
  destruct (xexecs _ _ _ acts) as [[x tr]|] eqn:E; [|discriminate]. intros HP. exists x, tr. split; [|exact HP]. right. eapply xexecs_ok; [| |exact E].
  - intros q. reflexivity.
  - apply xsteps_one; [|destruct er; [exact I|split; exact I]]. apply y_sys; [apply M_start; exact b_starts|reflexivity|intros i [? Hi]; now rewrite lookup_empty in Hi|now eexists].
Qed.

(** ** C83 *)
(** As in [b_race] (C14), batch 3 begins while batch 2 is being written and no reader is registered: it may use the pages of the state after batch
    1, which is the last one acknowledged.  A reader opens and gets that state; the root of its events, page 6, is not in the cache, so it is read from
    the file.  Batch 3 writes another page 6; batches 2 and 3 are acknowledged.  Only now does the reader get round to putting the page it read
    into the cache. *)
Definition y_race : list xact :=
  map YP (b_batch f_one ++ [BDispatch] ++ PropsPipeline.b_io 3 ++ b_ack ++ b_batch f_one ++ [BDispatch; BBegin] ++ PropsPipeline.b_open 7 ++ [BOther (AEvict 6)]) ++ [YBegin 7; YMiss 7] ++
  map YP ([BReq f_one; BBuilt] ++ PropsPipeline.b_io 3 ++ b_ack ++ [BDispatch] ++ PropsPipeline.b_io 3 ++ b_ack) ++ [YLoaded 7].
(** From then on the others are shown that page.  A reader opened later sees the first event only.  A request is cancelled and its batch given up, so
    the thread begins anew from the pages; batch 4 is built on that page, and what it stores replaces events 2 and 3, in the file as well. *)
Definition y_poison : list xact := y_race ++ map YP (PropsPipeline.b_open 8) ++ [YAll 8] ++ map YP ([BBegin; BCancel b_cancelled; BAbort []] ++ b_batch f_one ++ [BDispatch] ++ PropsPipeline.b_io 3 ++ b_ack) ++
  [YCrash; YOpen] ++ map YReader [ACall 9; AObs 9; ASeen 9; AReg 9; AChk 9; AReady 9] ++ [YAll 9].
Definition y_told (l : label) : option (nat * res (list N * option N)) :=
  match l with
  | LRead i [] None false None r => Some (i, match r with Ok (evs, h) => Ok (map fst evs, h) | Err e => Err e end)
  | _ => None end.
Theorem pipelined_poisoned_cache_refuted : exists tr x, y_mxrun (healthy 16) tr x /\
  omap p_commits tr = [[Ok 1]; [Ok 2]; [Ok 3]; [Ok 4]] /\ omap y_told tr = [(8%nat, Ok ([1], Some 3)); (9%nat, Ok ([1; 4], Some 4))].
Proof.
  destruct (y_found true y_poison (fun _ tr => bool_decide (omap p_commits tr = [[Ok 1]; [Ok 2]; [Ok 3]; [Ok 4]] /\ omap y_told tr = [(8%nat, Ok ([1], Some 3)); (9%nat, Ok ([1; 4], Some 4))])))
    as (x & tr & H & HP); [vm_compute; reflexivity|]. exists tr, x. split; [exact H|]. now apply bool_decide_eq_true in HP.
Qed.
(** Had no reader been let in at that time, nothing of the kind could happen (C82).  A reader opened before batch 3 begins: the same course of
    events is harmless, and the reader answers with what it opened. *)
Definition y_calm : list xact :=
  map YP (b_batch f_one ++ [BDispatch] ++ PropsPipeline.b_io 3 ++ b_ack ++ b_batch f_one ++ [BDispatch] ++ PropsPipeline.b_open 7 ++ [BOther (AEvict 6)]) ++ [YBegin 7; YMiss 7] ++
  map YP (b_batch f_one ++ PropsPipeline.b_io 3 ++ b_ack ++ [BDispatch] ++ PropsPipeline.b_io 3 ++ b_ack) ++ [YLoaded 7; YEnd 7] ++ map YP (PropsPipeline.b_open 8) ++ [YAll 8].
Example pipelined_spread_example : exists tr x, y_mxrun fine tr x /\ omap p_commits tr = [[Ok 1]; [Ok 2]; [Ok 3]] /\
  omap y_told tr = [(7%nat, Ok ([1], Some 1)); (8%nat, Ok ([1; 2; 3], Some 3))].
Proof.
  destruct (y_found false y_calm (fun _ tr => bool_decide (omap p_commits tr = [[Ok 1]; [Ok 2]; [Ok 3]] /\ omap y_told tr = [(7%nat, Ok ([1], Some 1)); (8%nat, Ok ([1; 2; 3], Some 3))])))
    as (x & tr & H & HP); [vm_compute; reflexivity|]. exists tr, x. split; [exact H|]. now apply bool_decide_eq_true in HP.
Qed.
Print Assumptions pipelined_spread_reads_refine.
Print Assumptions pipelined_spread_isolated.
Print Assumptions pipelined_spread_read_begins.
Print Assumptions pipelined_spread_read_ends.
Print Assumptions pipelined_poisoned_cache_refuted.
