(** The steps of the pipelining writer thread keep the invariant. *)
From Verif Require Export PipelineProofs.
From Verif Require Import EventsProofs TrackingProofs ReadProofs PageProofs CodecProofs FreeListProofs StoreProofs.
Local Open Scope N_scope.

Section psteps.
  Context (kw : nat) (ps : N) (hash : bytes -> bytes) (order : list bytes -> list bytes) (ford : gset N -> list N) (caching : bool).
  Context (Hps : ps_ok ps) (Hps32 : ps < U32) (Hkw : (kw <= 16)%nat)
    (Hord : forall l t, t ∈ order l <-> t ∈ l) (Hford : forall s, ford s ≡ₚ elements s).
  Notation snap_ok := (snap_ok kw ps hash).
  Notation dec := (dec kw).
  Notation tinv := (tinv kw ps hash).
  Notation uinv := (uinv kw ps hash caching).
  Notation fetch := (fetch kw).
  Notation snap := (Pipeline.snap kw).
  Notation pgood := (pgood kw).
  Notation nextok := (nextok kw ps hash).
  Notation idle_inv := (idle_inv kw ps hash caching).
  Notation fly_inv := (fly_inv kw ps hash caching).
  Notation thread_inv := (thread_inv kw ps hash caching).
  Notation ready := (ready kw).
  Notation awriter := (awriter kw).
  Notation fcache := (fcache caching).
  Notation uheld H := (u_held _ _ _ _ _ _ _ _ H).
  Notation ucur H := (u_cur _ _ _ _ _ _ _ _ H).

  Lemma up_idle d p pi g sy : idle_inv d p pi g sy -> sp_up sy = true.
  Proof. intros H. exact (u_up _ _ _ _ _ _ _ _ (a_u _ _ _ _ _ _ _ _ _ H)). Qed.
  Lemma up_fly f db w todo d p pi g sy : fly_inv f db w todo d p pi g sy -> sp_up sy = true.
  Proof. intros H. exact (u_up _ _ _ _ _ _ _ _ (b_u _ _ _ _ _ _ _ _ _ _ _ _ _ H)). Qed.

  (** *** The batch *)
  Lemma ti_begin d p pi sy sm w : thread_inv d p pi sy -> l_phase pi = PFetch -> sm_ok p sm ->
    find_reusable_page_ids (snap d p pi) sm (l_w pi) = (Ok tt, w) -> thread_inv d p (set_phase (PBuild [] []) (set_pw w pi)) sy.
  Proof.
    intros (g0 & [H|(f & db & w0 & todo & H)]) Hph Hsm E.
    - pose proof (a_u _ _ _ _ _ _ _ _ _ H) as Hu. unfold PipelineProofs.awriter in Hu. rewrite Hph in Hu.
      destruct (a_ready _ _ _ _ _ _ _ _ _ H Hph) as [Hb Hc]. rewrite (a_header _ _ _ _ _ _ _ _ _ H) in Hb.
      assert (Hl : (latest p).2 = g_hdr (gh_cur g0)) by exact (u_latest _ _ _ _ _ _ _ _ Hu).
      pose proof (idle_snap_ok kw ps hash order ford caching Hps Hps32 Hkw Hord Hford _ _ _ _ _ H) as Hok.
      rewrite Hl in Hb. destruct (begin_gen kw ps hash order Hkw Hord _ _ sm _ Hok Hb Hc) as (w' & E' & Ht). assert (w' = w) as -> by congruence.
      assert (exists g', uinv d (set_writer (WBusy (snap d p pi) w [] []) (set_writer WIdle p)) g' sy) as (g' & Hu').
      { eapply (uinv_busy kw ps hash order caching Hps32 Hkw Hord); [exact Hu|reflexivity| |exact Ht|reflexivity|exact Hsm]. intros q Hq. eapply (idle_rget kw ps hash order ford caching Hps Hps32 Hkw Hord Hford); eassumption. }
      exists g'. left. destruct H. constructor; auto. discriminate.
    - pose proof (b_phase _ _ _ _ _ _ _ _ _ _ _ _ _ H) as Hp. rewrite Hph in Hp. destruct Hp as [Hb Hc].
      pose proof (fly_next kw ps hash caching _ _ _ _ _ _ _ _ _ H) as (N1 & _).
      pose proof (fly_snap kw ps hash order ford caching Hps Hps32 Hkw Hord Hford _ _ _ _ _ _ _ _ _ H) as Hok.
      assert (Hl : (latest p).2 = g_hdr (gh_cur g0)) by exact (u_latest _ _ _ _ _ _ _ _ (b_u _ _ _ _ _ _ _ _ _ _ _ _ _ H)).
      rewrite (b_lhdr _ _ _ _ _ _ _ _ _ _ _ _ _ H), (b_hdr _ _ _ _ _ _ _ _ _ _ _ _ _ H) in Hb. cbn in Hb. rewrite Hl, <- N1 in Hb.
      destruct (begin_gen kw ps hash order Hkw Hord _ _ sm _ Hok Hb Hc) as (w' & E' & Ht). assert (w' = w) as -> by congruence.
      exists g0. right. exists f, db, w0, todo. destruct H. constructor; auto. cbn. exists sm, (sn_PE (g_sn (gh_next g0))), (sn_PT (g_sn (gh_next g0))), (sn_PK (g_sn (gh_next g0))), (g_st (gh_next g0)). split; [exact Ht|]. split; [reflexivity|exact Hsm].
  Qed.
  Lemma ti_begin_fails d p pi sy rd sm e w : thread_inv d p pi sy -> l_phase pi = PFetch -> ailing (snap d p pi) rd ->
    find_reusable_page_ids rd sm (l_w pi) = (Err e, w) -> thread_inv d p (set_pw w pi) sy.
  Proof.
    intros (g & H) Hph Ha E.
    assert (Hr : ready d p pi -> ready d p (set_pw w pi)).
    { intros [H1 H2]. split; [cbn; rewrite (bare_find _ _ _ _ _ E); exact H1|]. exact (coh_find _ _ _ _ _ _ Ha H2 E). }
    exists g. destruct H as [H|(f & db & w0 & todo & H)].
    - left. destruct H. constructor; auto. unfold PipelineProofs.awriter in *. cbn. rewrite Hph in *. exact a_u.
    - right. exists f, db, w0, todo. destruct H. constructor; auto. cbn. rewrite Hph in *. auto.
  Qed.
  Lemma ti_request d p pi sy done ans r a w : thread_inv d p pi sy -> l_phase pi = PBuild done ans -> req_wf (l_w pi) r ->
    process_append_request (snap d p pi) kw ps hash order (false, false) (rq_events r) (rq_cond r) (rq_trk r) (l_w pi) = (a, w) ->
    thread_inv d p (set_phase (PBuild (done ++ [r]) (ans ++ [a])) (set_pw w pi)) sy.
  Proof.
    intros (g & H) Hph Hwf E. exists g. destruct H as [H|(f & db & w0 & todo & H)].
    - left. pose proof (a_u _ _ _ _ _ _ _ _ _ H) as Hu. unfold PipelineProofs.awriter in Hu. rewrite Hph in Hu. pose proof (u_writer _ _ _ _ _ _ _ _ Hu) as Hw. cbn in Hw.
      destruct Hw as (Hrd & PE & PT & PK & s & Ht & Hb).
      destruct (request_step kw ps hash order ford Hps Hkw Hord Hford _ _ _ _ PE PT PK s r Ht Hwf) as (w1 & PE' & PT' & PK' & E1 & Ht').
      rewrite E in E1. injection E1 as -> ->.
      assert (Hu' : uinv d (set_writer (WBusy (snap d p pi) w1 (done ++ [r]) (ans ++ [(spec_append ps s (rq_events r) (rq_cond r) (rq_trk r)).1])) p) g sy).
      { rewrite <- (g_eta g). match goal with |- uinv d (set_writer ?x p) _ _ => change (set_writer x p) with (set_writer x (set_writer (WBusy (snap d p pi) (l_w pi) done ans) p)) end.
        apply quiet_step; [exact Hu|exact I|exact I|reflexivity|reflexivity|]. cbn. split; [exact Hrd|].
        exists PE', PT', PK', (spec_append ps s (rq_events r) (rq_cond r) (rq_trk r)).2. split; [exact Ht'|]. rewrite spec_batch_snoc, Hb. reflexivity. }
      destruct H. constructor; auto. discriminate.
    - right. exists f, db, w0, todo. pose proof (b_phase _ _ _ _ _ _ _ _ _ _ _ _ _ H) as Hp. rewrite Hph in Hp. destruct Hp as (sm & PE & PT & PK & s & Ht & Hb & Hsm).
      destruct (request_step kw ps hash order ford Hps Hkw Hord Hford _ _ _ _ PE PT PK s r Ht Hwf) as (w1 & PE' & PT' & PK' & E1 & Ht').
      rewrite E in E1. injection E1 as -> ->. destruct H. constructor; auto. cbn. exists sm, PE', PT', PK', (spec_append ps s (rq_events r) (rq_cond r) (rq_trk r)).2.
      split; [exact Ht'|]. split; [|exact Hsm]. rewrite spec_batch_snoc, Hb. reflexivity.
  Qed.
  Lemma ti_built d p pi sy done ans : thread_inv d p pi sy -> l_phase pi = PBuild done ans -> thread_inv d p (set_phase (PBuilt done ans None) pi) sy.
  Proof.
    intros (g & H) Hph. exists g. destruct H as [H|(f & db & w0 & todo & H)].
    - left. destruct H. constructor; auto; [|discriminate]. unfold PipelineProofs.awriter in *. rewrite Hph in a_u. exact a_u.
    - right. exists f, db, w0, todo. destruct H. constructor; auto. cbn. now rewrite Hph in b_phase.
  Qed.
  Lemma ti_fails d p pi sy done ans done' ans' e w : thread_inv d p pi sy -> l_phase pi = PBuild done ans ->
    thread_inv d p (set_phase (PBuilt done' ans' (Some e)) (set_pw w pi)) sy.
  Proof.
    intros (g & H) Hph. exists g. destruct H as [H|(f & db & w0 & todo & H)].
    - left. destruct H. constructor; auto; [|discriminate]. unfold PipelineProofs.awriter in a_u |- *. rewrite Hph in a_u. cbn.
      exact (uinv_idle kw ps hash caching Hps32 Hkw d _ g sy a_u I eq_refl).
    - right. exists f, db, w0, todo. destruct H. constructor; auto. cbn. exact I.
  Qed.

  (** *** The end of a batch without a commit *)
  Lemma set_idle p : p_writer p = WIdle -> set_writer WIdle p = p.
  Proof. intros H. destruct p. cbn in H. now subst. Qed.
  Lemma idle_base d p pi g sy : idle_inv d p pi g sy -> uinv d p g sy.
  Proof.
    intros H. pose proof (a_u _ _ _ _ _ _ _ _ _ H) as Hu. pose proof (a_x _ _ _ _ _ _ _ _ _ H) as Hx. rewrite <- (set_idle p Hx).
    unfold PipelineProofs.awriter in Hu. destruct (l_phase pi) as [|done ans|done ans [e|]]; auto; exact (uinv_idle kw ps hash caching Hps32 Hkw d _ g sy Hu I eq_refl).
  Qed.
  Lemma ti_fresh d p sy g sm w : uinv d p g sy -> p_writer p = WIdle -> (forall q n, 2 <= q -> p_cache p !! q = Some n -> dec (d_cur d q) = Ok n) ->
    mvcc_writer (fetch (p_cache p) d) sm (latest p).2 = (Ok tt, w) -> thread_inv d p (Pipe w (latest p) ∅ PFetch None) sy.
  Proof.
    intros H Hx Hc E. exists g. left. constructor; auto.
    - unfold PipelineProofs.awriter. cbn. now rewrite set_idle.
    - intros q n Hq. cbn in Hq. rewrite lookup_empty in Hq. discriminate.
    - intros _. split; [cbn; rewrite (bare_find _ _ _ _ _ E); reflexivity|].
      eapply (coh_find _ (fetch (p_cache p) d)); [| |exact E].
      + intros q. left. unfold Pipeline.snap, wet_read. cbn. now rewrite lookup_empty.
      + intros q n Hq. cbn in Hq. rewrite lookup_empty in Hq. discriminate.
  Qed.
  Lemma idle_rollback d p pi g sy sm w : idle_inv d p pi g sy -> mvcc_writer (fetch (p_cache p) d) sm (latest p).2 = (Ok tt, w) ->
    thread_inv d p (Pipe w (latest p) ∅ PFetch None) sy.
  Proof.
    intros H E. eapply ti_fresh; [eapply idle_base; exact H|exact (a_x _ _ _ _ _ _ _ _ _ H)|exact (a_coh _ _ _ _ _ _ _ _ _ H)|exact E].
  Qed.

  (** *** A commit is dispatched *)
  Lemma prepare_forall todo pages : prepare_pages kw todo = Ok pages -> Forall2 (fun e x => e.1 = x.1 /\ page_ser kw DEFAULT_PAGE_SIZE e.2 = Ok x.2) todo pages.
  Proof.
    revert pages. induction todo as [|[q n] todo IH]; intros pages E; cbn in E; [injection E as <-; constructor|].
    destruct (page_ser kw DEFAULT_PAGE_SIZE n) as [b|] eqn:Eb; [|discriminate]. cbn in E. destruct (prepare_pages kw todo) as [r|]; [|discriminate]. cbn in E. injection E as <-.
    constructor; [auto|]. now apply IH.
  Qed.
  Lemma ti_dispatch d p pi sy done ans todo hp hb pages w : thread_inv d p pi sy -> l_phase pi = PBuilt done ans None -> l_fly pi = None ->
    prepare_commit kw ps ford (snap d p pi) todo pi = Ok (hp, hb, pages, w) -> todo ≡ₚ map_to_list (w_dirty w) ->
    Forall (fun e => storable kw e.2) todo -> storable kw (NHeader hp.2) ->
    thread_inv d p (Pipe (advance w) hp (w_dirty w) PFetch (Some (Fly (IPages pages) hp hb (w_dirty w) done ans))) sy.
  Proof.
    intros (g & H) Hph Hfl E Hto Hs1 Hs2. destruct H as [H|(f & db & w0 & todo0 & H)]; [|pose proof (b_fly _ _ _ _ _ _ _ _ _ _ _ _ _ H); congruence].
    unfold prepare_commit in E. destruct (process_freed_page_ids (snap d p pi) kw ps ford (l_w pi)) as [[[]|] w1] eqn:Ep; [|discriminate].
    destruct (page_ser kw ps (NHeader (next_header (h_schema (l_header pi).2) w1))) as [hb'|] eqn:Eh; [|discriminate]. cbn [rbind] in E.
    destruct (prepare_pages kw todo) as [pg|] eqn:Epg; [|discriminate]. cbn [rbind] in E. apply (f_equal (fun x => match x with Ok y => y | Err _ => (hp, hb, pages, w) end)) in E. cbn in E.
    assert (hp = (other_slot (l_header pi).1, next_header (h_schema (l_header pi).2) w1) /\ hb = hb' /\ pages = pg /\ w = w1) as (-> & -> & -> & ->).
    { pose proof (f_equal (fun x => x.1.1.1) E). pose proof (f_equal (fun x => x.1.1.2) E). pose proof (f_equal (fun x => x.1.2) E). pose proof (f_equal (fun x => x.2) E). cbn in *. auto. }
    clear E. rewrite (a_header _ _ _ _ _ _ _ _ _ H) in *. cbn [snd] in Hs2.
    pose proof (a_u _ _ _ _ _ _ _ _ _ H) as Hu. unfold PipelineProofs.awriter in Hu. rewrite Hph in Hu.
    pose proof (u_writer _ _ _ _ _ _ _ _ Hu) as Hw. cbn in Hw. destruct Hw as (Hrd & PE & PT & PK & s & Ht & Hb).
    destruct (commit_begin kw ps hash order ford caching Hps Hkw Hord Hford d _ g sy _ _ _ _ w1 todo Hu eq_refl Ep Hto Hs1 Hs2) as (g' & Hu').
    exists g'. right. exists (Fly (IPages pg) (other_slot (latest p).1, next_header (h_schema (latest p).2) w1) hb' (w_dirty w1) done ans), d, w1, todo. constructor.
    - unfold fphase, PipelineProofs.fcache. cbn. exact Hu'.
    - exact (a_x _ _ _ _ _ _ _ _ _ H).
    - reflexivity.
    - reflexivity.
    - discriminate.
    - reflexivity.
    - reflexivity.
    - reflexivity.
    - reflexivity.
    - exact Eh.
    - intros pages0 [= <-]. now apply prepare_forall.
    - intros q n Hq _. now apply (a_coh _ _ _ _ _ _ _ _ _ H).
    - cbn. split; cbn.
      + eapply commit_bare; [exact Hps|exact Hford|exact Ht|exact Ep].
      + intros q n Hq. cbn in Hq. rewrite lookup_empty in Hq. discriminate.
  Qed.

  (** *** The I/O thread *)
  Lemma phase_ext d p pi d' p' f' g : (forall q, snap d' p' pi q = snap d p pi q) -> (forall sm, sm_ok p sm -> sm_ok p' sm) ->
    match l_phase pi with
      | PFetch => ready d p pi
      | PBuild done ans | PBuilt done ans None => exists sm PE PT PK s, tinv (snap d p pi) (g_sn (gh_next g)) sm (l_w pi) PE PT PK s /\
          spec_batch ps (g_st (gh_next g)) done = (ans, s) /\ sm_ok p sm
      | PBuilt _ _ (Some _) => True
      end ->
    match l_phase pi with
      | PFetch => ready d' p' (set_fly f' pi)
      | PBuild done ans | PBuilt done ans None => exists sm PE PT PK s, tinv (snap d' p' (set_fly f' pi)) (g_sn (gh_next g)) sm (l_w pi) PE PT PK s /\
          spec_batch ps (g_st (gh_next g)) done = (ans, s) /\ sm_ok p' sm
      | PBuilt _ _ (Some _) => True
      end.
  Proof.
    intros He Hsm H. change (snap d' p' (set_fly f' pi)) with (snap d' p' pi).
    destruct (l_phase pi) as [|done ans|done ans [e|]]; [| |exact I|].
    - eapply ready_ext; [reflexivity|reflexivity| |exact H]. exact He.
    - destruct H as (sm & PE & PT & PK & s & Ht & Hb & Hs). exists sm, PE, PT, PK, s. split; [eapply tinv_ext; [exact He|exact Ht]|]. auto.
    - destruct H as (sm & PE & PT & PK & s & Ht & Hb & Hs). exists sm, PE, PT, PK, s. split; [eapply tinv_ext; [exact He|exact Ht]|]. auto.
  Qed.
  (** A step of the I/O thread writes no page outside the commit. *)
  Lemma io_step d p pi d' db' w todo' g sy f io' db todo : fly_inv f db w todo d p pi g sy ->
    uinv db' (set_writer (fphase (set_io io' f) w todo') (set_cache (fcache (set_io io' f) (p_cache p)) p)) g sy ->
    d' = fdisk (set_io io' f) db' -> (forall b, io' <> IFailed b) -> io' <> ICached -> y_io f <> ICached ->
    (forall pages, io' = IPages pages -> Forall2 (fun e x => e.1 = x.1 /\ page_ser kw DEFAULT_PAGE_SIZE e.2 = Ok x.2) todo' pages) ->
    (forall q, 2 <= q -> w_dirty w !! q = None -> d_cur d' q = d_cur d q) ->
    thread_inv d' p (set_fly (Some (set_io io' f)) pi) sy.
  Proof.
    intros H Hu Hd Hf1 Hf2 Hf3 Hpg Hc. exists g. right. exists (set_io io' f), db', w, todo'.
    assert (Hs : forall q, snap d' p pi q = snap d p pi q).
    { apply snap_eq; [reflexivity|]. intros q Hq Hw. rewrite (b_lwet _ _ _ _ _ _ _ _ _ _ _ _ _ H) in Hw. unfold Mvcc.fetch. rewrite (Hc q Hq Hw). reflexivity. }
    destruct H. constructor; auto.
    - intros q n Hq [Hw|Hw]; [|now destruct Hf2]. rewrite (Hc q Hq Hw). auto.
    - exact (phase_ext d p pi d' p (Some (set_io io' f)) g Hs (fun _ h => h) b_phase).
  Qed.
  Lemma ti_page d p pi sy f q b todo : thread_inv d p pi sy -> ps = DEFAULT_PAGE_SIZE -> l_fly pi = Some f -> y_io f = IPages ((q, b) :: todo) ->
    thread_inv (d_write kw q b d) p (set_fly (Some (set_io (IPages todo) f)) pi) sy.
  Proof.
    intros (g & H) Ep Hf Hio. destruct H as [H|(f' & db & w & todo0 & H)]; [pose proof (a_fly _ _ _ _ _ _ _ _ _ H); congruence|].
    pose proof (b_fly _ _ _ _ _ _ _ _ _ _ _ _ _ H) as Hf'. assert (f' = f) as -> by congruence.
    pose proof (b_pages _ _ _ _ _ _ _ _ _ _ _ _ _ H _ Hio) as Hpg. inversion Hpg as [|[q' n] x todo1 pages [E1 E2] Hpg1]; subst x todo0 pages. cbn in E1, E2. subst q'.
    pose proof (b_u _ _ _ _ _ _ _ _ _ _ _ _ _ H) as Hu. unfold fphase, PipelineProofs.fcache in Hu. rewrite Hio in Hu.
    assert (Ed : d = db) by (rewrite (b_disk _ _ _ _ _ _ _ _ _ _ _ _ _ H); unfold fdisk; now rewrite Hio). subst db.
    pose proof (u_writer _ _ _ _ _ _ _ _ Hu) as (_ & Hto & _). pose proof (Hto q n ltac:(set_solver)) as Hq.
    rewrite <- Ep in E2.
    pose proof (page_step kw ps hash order ford caching Hps Hps32 Hkw Hord Hford _ _ _ _ _ _ _ _ _ _ _ Hu eq_refl E2) as Hu'.
    eapply io_step; [exact H| | | | | | |].
    - exact Hu'.
    - reflexivity.
    - discriminate.
    - discriminate.
    - rewrite Hio. discriminate.
    - intros pages [= <-]. exact Hpg1.
    - intros x _ Hx. cbn. destruct (N.eqb_spec x q) as [->|]; [congruence|reflexivity].
  Qed.
  Lemma ti_sync d p pi sy f : thread_inv d p pi sy -> l_fly pi = Some f -> y_io f = IPages [] ->
    thread_inv (d_synced d) p (set_fly (Some (set_io IHeader f)) pi) sy.
  Proof.
    intros (g & H) Hf Hio. destruct H as [H|(f' & db & w & todo0 & H)]; [pose proof (a_fly _ _ _ _ _ _ _ _ _ H); congruence|].
    pose proof (b_fly _ _ _ _ _ _ _ _ _ _ _ _ _ H) as Hf'. assert (f' = f) as -> by congruence.
    pose proof (b_pages _ _ _ _ _ _ _ _ _ _ _ _ _ H _ Hio) as Hpg. inversion Hpg; subst todo0.
    pose proof (b_u _ _ _ _ _ _ _ _ _ _ _ _ _ H) as Hu. unfold fphase, PipelineProofs.fcache in Hu. rewrite Hio in Hu.
    assert (Ed : d = db) by (rewrite (b_disk _ _ _ _ _ _ _ _ _ _ _ _ _ H); unfold fdisk; now rewrite Hio). subst db.
    pose proof (sync_step kw ps hash caching Hps32 Hkw _ _ _ _ _ _ _ Hu eq_refl) as Hu'.
    eapply io_step with (db' := d_synced d) (todo' := []); [exact H| | | | | | |].
    - unfold fphase, PipelineProofs.fcache. cbn. rewrite (b_wet _ _ _ _ _ _ _ _ _ _ _ _ _ H). destruct caching; [exact Hu'|]. exact Hu'.
    - reflexivity.
    - discriminate.
    - discriminate.
    - rewrite Hio. discriminate.
    - discriminate.
    - reflexivity.
  Qed.
  Lemma ti_header d p pi sy f : thread_inv d p pi sy -> l_fly pi = Some f -> y_io f = IHeader ->
    thread_inv (d_write kw (y_header f).1 (y_bytes f) d) p (set_fly (Some (set_io ISync f)) pi) sy.
  Proof.
    intros (g & H) Hf Hio. destruct H as [H|(f' & db & w & todo0 & H)]; [pose proof (a_fly _ _ _ _ _ _ _ _ _ H); congruence|].
    pose proof (b_fly _ _ _ _ _ _ _ _ _ _ _ _ _ H) as Hf'. assert (f' = f) as -> by congruence.
    pose proof (b_u _ _ _ _ _ _ _ _ _ _ _ _ _ H) as Hu. unfold fphase, PipelineProofs.fcache in Hu. rewrite Hio in Hu.
    assert (Ed : d = db) by (rewrite (b_disk _ _ _ _ _ _ _ _ _ _ _ _ _ H); unfold fdisk; now rewrite Hio). subst db.
    pose proof (b_bytes _ _ _ _ _ _ _ _ _ _ _ _ _ H) as Hb. pose proof (b_hdr _ _ _ _ _ _ _ _ _ _ _ _ _ H) as Hh. rewrite Hh in Hb. cbn [snd] in Hb.
    pose proof (header_write kw ps hash order ford caching Hps Hps32 Hkw Hord Hford _ _ _ _ _ _ _ (y_bytes f) Hu eq_refl Hb) as Hu'.
    eapply io_step with (db' := d_write kw (y_header f).1 (y_bytes f) d) (todo' := []); [exact H| | | | | | |].
    - unfold fphase, PipelineProofs.fcache. cbn. rewrite Hh. exact Hu'.
    - reflexivity.
    - discriminate.
    - discriminate.
    - rewrite Hio. discriminate.
    - discriminate.
    - intros q Hq _. rewrite Hh. cbn. assert (other_slot (latest p).1 < 2) by (unfold other_slot; destruct (_ =? 0); lia). destruct (N.eqb_spec q (other_slot (latest p).1)); [lia|reflexivity].
  Qed.
  Lemma ti_done d p pi sy f : thread_inv d p pi sy -> l_fly pi = Some f -> y_io f = ISync ->
    thread_inv (d_synced d) p (set_fly (Some (set_io IDone f)) pi) sy.
  Proof.
    intros (g & H) Hf Hio. destruct H as [H|(f' & db & w & todo0 & H)]; [pose proof (a_fly _ _ _ _ _ _ _ _ _ H); congruence|].
    pose proof (b_fly _ _ _ _ _ _ _ _ _ _ _ _ _ H) as Hf'. assert (f' = f) as -> by congruence.
    pose proof (b_u _ _ _ _ _ _ _ _ _ _ _ _ _ H) as Hu. unfold fphase, PipelineProofs.fcache in Hu. rewrite Hio in Hu.
    assert (Ed : d = db) by (rewrite (b_disk _ _ _ _ _ _ _ _ _ _ _ _ _ H); unfold fdisk; now rewrite Hio). subst db.
    eapply io_step with (db' := d) (todo' := []); [exact H| | | | | | |].
    - exact Hu.
    - reflexivity.
    - discriminate.
    - discriminate.
    - rewrite Hio. discriminate.
    - discriminate.
    - reflexivity.
  Qed.

  (** *** The commit is acknowledged *)
  Lemma ti_cached d p pi sy f : thread_inv d p pi sy -> l_fly pi = Some f -> y_io f = IDone ->
    thread_inv d (if caching then set_cache (y_wet f ∪ p_cache p) p else p) (set_fly (Some (set_io ICached f)) pi) sy.
  Proof.
    intros (g & H) Hf Hio. destruct H as [H|(f' & db & w & todo0 & H)]; [pose proof (a_fly _ _ _ _ _ _ _ _ _ H); congruence|].
    pose proof (b_fly _ _ _ _ _ _ _ _ _ _ _ _ _ H) as Hf'. assert (f' = f) as -> by congruence.
    pose proof (b_u _ _ _ _ _ _ _ _ _ _ _ _ _ H) as Hu. unfold fphase, PipelineProofs.fcache in Hu. rewrite Hio in Hu.
    pose proof (u_writer _ _ _ _ _ _ _ _ Hu) as (_ & Hg & _). pose proof (u_nocache _ _ _ _ _ _ _ _ Hu) as Hnc. cbn in Hnc.
    assert (Ed : d = d_synced db) by (rewrite (b_disk _ _ _ _ _ _ _ _ _ _ _ _ _ H); unfold fdisk; now rewrite Hio).
    set (p' := if caching then set_cache (y_wet f ∪ p_cache p) p else p).
    assert (Hp' : p' = set_cache (if caching then y_wet f ∪ p_cache p else p_cache p) p) by (unfold p'; destruct caching; [reflexivity|now rewrite set_cache_id]).
    assert (Hs : forall q, snap d p' pi q = snap d p pi q).
    { apply snap_eq; [reflexivity|]. intros q Hq Hw. rewrite (b_lwet _ _ _ _ _ _ _ _ _ _ _ _ _ H), <- (b_wet _ _ _ _ _ _ _ _ _ _ _ _ _ H) in Hw. unfold Mvcc.fetch. rewrite Hp'. cbn.
      destruct caching; [now rewrite lookup_union_r|reflexivity]. }
    exists g. right. exists (set_io ICached f), db, w, todo0. destruct H. constructor; auto.
    - unfold fphase, PipelineProofs.fcache. cbn. rewrite Hp'. cbn. destruct caching; [|exact Hu]. rewrite (assoc_L (∪)), (idemp_L (∪)). exact Hu.
    - rewrite Hp'. exact b_x.
    - rewrite Hp'. exact b_hdr.
    - discriminate.
    - intros q n Hq _ Hn. rewrite Hp' in Hn. cbn in Hn. destruct (w_dirty w !! q) as [m|] eqn:Ew.
      + destruct caching; [|rewrite Hnc in Hn by reflexivity; rewrite lookup_empty in Hn; discriminate].
        rewrite b_wet, (lookup_union_Some_l _ _ _ _ Ew) in Hn. injection Hn as ->. rewrite Ed. cbn. apply (proj1 (Hg q n Ew)). exact (ucur Hu q).
      + apply b_coh; auto. destruct caching; [|exact Hn]. rewrite b_wet, lookup_union_r in Hn by exact Ew. exact Hn.
    - refine (phase_ext d p pi d p' (Some (set_io ICached f)) g Hs _ b_phase). rewrite Hp'. auto.
  Qed.

  Lemma latest_pin a p : h_tsn (latest p).2 < h_tsn a.2 -> latest (pin_header a p) = a.
  Proof.
    intros H. assert (h_tsn (p_pin0 p).2 <= h_tsn (latest p).2 /\ h_tsn (p_pin1 p).2 <= h_tsn (latest p).2) as [H0 H1].
    { unfold latest, latest_of. destruct (N.ltb_spec (h_tsn (p_pin0 p).2) (h_tsn (p_pin1 p).2)); lia. }
    unfold pin_header, latest, latest_of. destruct (a.1 =? 0); cbn [p_pin0 p_pin1].
    - destruct (N.ltb_spec (h_tsn a.2) (h_tsn (p_pin1 p).2)); [lia|reflexivity].
    - destruct (N.ltb_spec (h_tsn (p_pin0 p).2) (h_tsn a.2)); [reflexivity|lia].
  Qed.
  Lemma pin_fields a p : p_cache (pin_header a p) = p_cache p /\ p_regs (pin_header a p) = p_regs p /\ p_readers (pin_header a p) = p_readers p /\ p_writer (pin_header a p) = p_writer p.
  Proof. unfold pin_header. destruct (a.1 =? 0); auto. Qed.
  Lemma ti_acked d p pi sy f : thread_inv d p pi sy -> match l_phase pi with PBuild _ _ => False | _ => True end -> l_fly pi = Some f -> y_io f = ICached ->
    exists sy', spec_step ps sy (LCommit (y_done f) (y_ans f)) sy' /\ thread_inv d (pin_header (y_header f) p) (set_fly None pi) sy'.
  Proof.
    intros (g & H) Hph Hf Hio. destruct H as [H|(f' & db & w & todo0 & H)]; [pose proof (a_fly _ _ _ _ _ _ _ _ _ H); congruence|].
    pose proof (b_fly _ _ _ _ _ _ _ _ _ _ _ _ _ H) as Hf'. assert (f' = f) as -> by congruence.
    pose proof (b_u _ _ _ _ _ _ _ _ _ _ _ _ _ H) as Hu. unfold fphase in Hu. rewrite Hio in Hu.
    assert (Ed : d = d_synced db) by (rewrite (b_disk _ _ _ _ _ _ _ _ _ _ _ _ _ H); unfold fdisk; now rewrite Hio).
    pose proof (u_writer _ _ _ _ _ _ _ _ Hu) as (Hn & Hg & _).
    pose proof Hn as (N1 & N2 & N3 & N4 & N5 & N6 & N7 & N8 & N9 & N10 & N11).
    pose proof (b_x _ _ _ _ _ _ _ _ _ _ _ _ _ H) as Hx.
    destruct (done_step kw ps hash order ford caching Hps Hps32 Hkw Hord Hford _ _ _ _ _ _ _ Hu eq_refl) as (g' & sy' & Eg & Hs & Hu').
    exists sy'. split; [exact Hs|]. rewrite <- Ed in Hu'.
    set (p' := pin_header (y_header f) p). destruct (pin_fields (y_header f) p) as (Ep1 & Ep2 & Ep3 & Ep4). fold p' in Ep1, Ep2, Ep3, Ep4.
    assert (Hcd : cur_ok d) by (rewrite Ed; apply synced_cur, (ucur Hu)).
    assert (Hup : uinv d p' g' sy').
    { assert (Ep : p' = set_cache (p_cache p) (pin_header (y_header f) (set_writer WIdle (set_writer (WSync w (y_done f) (y_ans f)) (set_cache (fcache f (p_cache p)) p))))).
      { unfold p', pin_header. cbn. rewrite Hx. destruct ((y_header f).1 =? 0); reflexivity. }
      rewrite Ep. apply (cache_step kw ps hash order ford caching Hps Hps32 Hkw Hord Hford).
      - rewrite (b_hdr _ _ _ _ _ _ _ _ _ _ _ _ _ H). exact Hu'.
      - pose proof (u_nocache _ _ _ _ _ _ _ _ Hu) as Hnc. cbn in Hnc. unfold PipelineProofs.fcache in Hnc. rewrite Hio in Hnc. intros E. specialize (Hnc E). now rewrite E in Hnc.
      - intros q n Hq [Hp _]. apply pgood_coh; [exact Hcd| |exact Hp]. intros m Hm. apply (b_coh _ _ _ _ _ _ _ _ _ _ _ _ _ H); auto. }
    assert (Hlat : (latest p).2 = g_hdr (gh_cur g)) by exact (u_latest _ _ _ _ _ _ _ _ Hu).
    assert (Hl' : latest p' = y_header f).
    { apply latest_pin. rewrite (b_hdr _ _ _ _ _ _ _ _ _ _ _ _ _ H). cbn [snd]. rewrite Hlat, <- N1. lia. }
    assert (Hsn : forall q, snap d p' (set_fly None pi) q = snap d p pi q).
    { intros q. unfold Pipeline.snap. now rewrite Ep1. }
    assert (exists g'', uinv d (set_writer (awriter d p' (set_fly None pi)) p') g'' sy') as (g'' & Hu'').
    { unfold PipelineProofs.awriter. cbn [l_phase set_fly]. pose proof (b_phase _ _ _ _ _ _ _ _ _ _ _ _ _ H) as Hp. destruct (l_phase pi) as [|done ans|done ans [e|]].
      - exists g'. rewrite set_idle; [exact Hup|congruence].
      - destruct Hph.
      - exists g'. rewrite set_idle; [exact Hup|congruence].
      - destruct Hp as (sm & PE & PT & PK & s & Ht & Hb & Hsm). eapply (uinv_busy kw ps hash order caching Hps32 Hkw Hord); [exact Hup|congruence| | | |].
        + intros q Hq. rewrite Eg in *. unfold rget. rewrite Hsn. eapply (fly_rget kw ps hash order ford caching Hps Hps32 Hkw Hord Hford); eassumption.
        + rewrite Eg. eapply tinv_ext; [exact Hsn|exact Ht].
        + rewrite Eg. exact Hb.
        + unfold sm_ok. rewrite Ep3. exact Hsm. }
    exists g''. left. constructor.
    - exact Hu''.
    - congruence.
    - reflexivity.
    - cbn. rewrite (b_lhdr _ _ _ _ _ _ _ _ _ _ _ _ _ H). now rewrite Hl'.
    - rewrite Ep1. intros q n Hq. apply (b_coh _ _ _ _ _ _ _ _ _ _ _ _ _ H); auto.
    - cbn. rewrite (b_lwet _ _ _ _ _ _ _ _ _ _ _ _ _ H). intros q n Hq. split; [eapply (fly_fresh kw ps hash caching Hps32 Hkw); [exact H|eauto]|].
      rewrite Ed. cbn. apply (proj1 (Hg q n Hq)). exact (ucur Hu q).
    - cbn [l_phase set_fly]. intros Hfe. pose proof (b_phase _ _ _ _ _ _ _ _ _ _ _ _ _ H) as Hp. rewrite Hfe in Hp. eapply ready_ext; [reflexivity|reflexivity|exact Hsn|exact Hp].
  Qed.
End psteps.
