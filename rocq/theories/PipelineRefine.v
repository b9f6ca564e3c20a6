(** The whole with the pipelining writer thread does what SpecSys.v says. *)
From Verif Require Export PipelineSys PipelineSteps.
From Verif Require Import EventsProofs TrackingProofs ReadProofs PageProofs CodecProofs FreeListProofs StoreProofs.
Local Open Scope N_scope.

(** ** Readers *)
Definition rstep (p : proc) (i : nat) (l : label) (p' : proc) : Prop :=
  (p_readers p !! i = None /\ l = LCall i /\ p' = set_reader i RCall p) \/
  (p_readers p !! i = Some RCall /\ l = LTau /\ p' = set_reader i (RObs (p_pin0 p)) p) \/
  (exists a, p_readers p !! i = Some (RObs a) /\ l = LTau /\ p' = set_reader i (RSeen (latest_of a (p_pin1 p))) p) \/
  (exists a, p_readers p !! i = Some (RSeen a) /\ l = LTau /\ p' = set_regs (reg_register (h_tsn a.2) (p_regs p)) (set_reader i (RReg a) p)) \/
  (exists a, p_readers p !! i = Some (RReg a) /\ l = LTau /\ p' = set_reader i (RChk a (p_pin0 p)) p) \/
  (exists a b, p_readers p !! i = Some (RChk a b) /\ h_tsn (latest_of b (p_pin1 p)).2 = h_tsn a.2 /\ l = LReady i /\ p' = set_reader i (ROpen a) p) \/
  (exists a b, p_readers p !! i = Some (RChk a b) /\ l = LTau /\ p' = set_regs (reg_unregister (h_tsn a.2) (p_regs p)) (set_reader i RCall p)) \/
  (exists a, p_readers p !! i = Some (ROpen a) /\ l = LClose i /\ p' = set_regs (reg_unregister (h_tsn a.2) (p_regs p)) (set_readers (delete i (p_readers p)) p)).
Lemma rstep_map x c p i l p' : rstep p i l p' -> rstep (set_writer x (set_cache c p)) i l (set_writer x (set_cache c p')).
Proof.
  intros [(E & -> & ->)|[(E & -> & ->)|[(a & E & -> & ->)|[(a & E & -> & ->)|[(a & E & -> & ->)|[(a & b & E & Ht & -> & ->)|[(a & b & E & -> & ->)|(a & E & -> & ->)]]]]]]].
  - left. auto.
  - right; left. auto.
  - do 2 right; left. exists a. auto.
  - do 3 right; left. exists a. auto.
  - do 4 right; left. exists a. auto.
  - do 5 right; left. exists a, b. auto.
  - do 6 right; left. exists a, b. auto.
  - do 7 right. exists a. auto.
Qed.
(** What a step of a reader leaves alone. *)
Definition same_rest (p p' : proc) : Prop :=
  p_cache p' = p_cache p /\ p_pin0 p' = p_pin0 p /\ p_pin1 p' = p_pin1 p /\ p_writer p' = p_writer p.
Lemma rstep_rest p i l p' : rstep p i l p' -> same_rest p p'.
Proof.
  intros [(E & -> & ->)|[(E & -> & ->)|[(a & E & -> & ->)|[(a & E & -> & ->)|[(a & E & -> & ->)|[(a & b & E & Ht & -> & ->)|[(a & b & E & -> & ->)|(a & E & -> & ->)]]]]]]]; repeat split.
Qed.
Lemma reg_min_in regs m u : reg_ok regs m -> reg_min regs = Some u -> exists i r, m !! i = Some r /\ reg_of r = Some u.
Proof.
  intros Hr Hm. assert (u ∈ map fst (map_to_list regs)) as Hin.
  { unfold reg_min in Hm. revert u Hm. induction (map fst (map_to_list regs)) as [|t ts IH]; intros u Hm; cbn in Hm; [discriminate|].
    destruct (foldr _ None ts) as [a|] eqn:E; injection Hm as <-; [|set_solver]. specialize (IH a eq_refl).
    destruct (N.min_spec t a) as [[_ ->]|[_ ->]]; set_solver. }
  apply elem_of_list_fmap in Hin as ([u' k] & -> & Hin). apply elem_of_map_to_list in Hin. cbn. specialize (Hr u'). rewrite Hin in Hr.
  destruct (Nat.eqb_spec (cnt m u') 0) as [_|Hc]; [discriminate|]. unfold cnt in Hc.
  destruct (map_choose (filter (fun x : nat * rphase => reg_of x.2 = Some u') m)) as (i & r & Hi); [intros E; rewrite E, map_size_empty in Hc; congruence|].
  apply map_filter_lookup_Some in Hi as [Hi Hf]. eauto.
Qed.
Lemma sm_sub p p' sm : (forall i r t, p_readers p' !! i = Some r -> reg_of r = Some t -> exists j r', p_readers p !! j = Some r' /\ reg_of r' = Some t) -> sm_ok p sm -> sm_ok p' sm.
Proof. intros H Hs i r t Hi Hr. destruct (H i r t Hi Hr) as (j & r' & Hj & Hr'). exact (Hs j r' t Hj Hr'). Qed.
(** A registration is harmless if an older one is there. *)
Lemma rstep_sm p i l p' sm : rstep p i l p' -> reg_ok (p_regs p) (p_readers p) ->
  (forall i a, p_readers p !! i = Some (RSeen a) -> p_readers p' !! i = Some (RReg a) -> exists t, reg_min (p_regs p) = Some t /\ t <= h_tsn a.2) ->
  sm_ok p sm -> sm_ok p' sm.
Proof.
  intros Hst Hreg Hc Hsm.
  assert (Hins : forall r0 r, p_readers p !! i = r0 -> (forall t, reg_of r = Some t -> exists r1, r0 = Some r1 /\ reg_of r1 = Some t) ->
    forall p', p_readers p' = <[i := r]> (p_readers p) -> sm_ok p' sm).
  { intros r0 r E Hr q Eq. eapply sm_sub; [|exact Hsm]. intros j x t Hj Ht. rewrite Eq in Hj. destruct (decide (j = i)) as [->|Hne].
    - rewrite lookup_insert in Hj. injection Hj as <-. destruct (Hr t Ht) as (r1 & -> & Hr1). eauto.
    - rewrite lookup_insert_ne in Hj by congruence. eauto. }
  destruct Hst as [(E & -> & ->)|[(E & -> & ->)|[(a & E & -> & ->)|[(a & E & -> & ->)|[(a & E & -> & ->)|[(a & b & E & Ht & -> & ->)|[(a & b & E & -> & ->)|(a & E & -> & ->)]]]]]]].
  - eapply Hins; [exact E| |reflexivity]. intros t Ht; discriminate.
  - eapply Hins; [exact E| |reflexivity]. intros t Ht; discriminate.
  - eapply Hins; [exact E| |reflexivity]. intros t Ht; discriminate.
  - intros j r t Hj Hr. cbn in Hj. destruct (decide (j = i)) as [->|Hne].
    + rewrite lookup_insert in Hj. injection Hj as <-. cbn in Hr. injection Hr as <-.
      destruct (Hc i a E) as (t & Hm & Hle); [cbn; apply lookup_insert|]. destruct (reg_min_in _ _ _ Hreg Hm) as (k & r & Hk & Hr).
      destruct (Hsm k r t Hk Hr) as (b & Hb & Hle'). exists b. split; [exact Hb|lia].
    + rewrite lookup_insert_ne in Hj by congruence. exact (Hsm j r t Hj Hr).
  - eapply Hins; [exact E| |reflexivity]. intros t Ht. eexists. split; [reflexivity|exact Ht].
  - eapply Hins; [exact E| |reflexivity]. intros t Ht'. eexists. split; [reflexivity|exact Ht'].
  - eapply Hins; [exact E| |reflexivity]. intros t Ht; discriminate.
  - eapply sm_sub; [|exact Hsm]. intros j x t Hj Ht. cbn in Hj. apply lookup_delete_Some in Hj as [_ Hj]. eauto.
Qed.

(** ** The steps of readers and of the cache *)
Section refine.
  Context (kw : nat) (ps : N) (hash : bytes -> bytes) (order : list bytes -> list bytes) (ford : gset N -> list N) (caching : bool).
  Context (Hps : ps_ok ps) (Hps32 : ps < U32) (Hkw : (kw <= 16)%nat)
    (Hord : forall l t, t ∈ order l <-> t ∈ l) (Hford : forall s, ford s ≡ₚ elements s).
  Notation snap_ok := (snap_ok kw ps hash).
  Notation dec := (dec kw).
  Notation tinv := (tinv kw ps hash).
  Notation uinv := (uinv kw ps hash caching).
  Notation fetch := (fetch kw).
  Notation snap := (Pipeline.snap kw).
  Notation pgood := (pgood kw).
  Notation idle_inv := (idle_inv kw ps hash caching).
  Notation fly_inv := (fly_inv kw ps hash caching).
  Notation thread_inv := (thread_inv kw ps hash caching).
  Notation ready := (ready kw).
  Notation awriter := (awriter kw).
  Notation fcache := (fcache caching).
  Notation ucur H := (u_cur _ _ _ _ _ _ _ _ H).

  (** *** The cache *)
  Definition loads (d : disk) (c c' : gmap N node) : Prop :=
    (exists q n, caching = true /\ 2 <= q /\ fetch c d q = Ok n /\ c' = <[q := n]> c) \/ exists q, c' = delete q c.
  Lemma loads_coh (Q : N -> Prop) d c c' : loads d c c' -> (forall q n, 2 <= q -> Q q -> c !! q = Some n -> dec (d_cur d q) = Ok n) ->
    forall q n, 2 <= q -> Q q -> c' !! q = Some n -> dec (d_cur d q) = Ok n.
  Proof.
    intros [(x & m & _ & Hx & Hf & ->)|(x & ->)] Hc q n Hq HQ E.
    - apply lookup_insert_Some in E as [[-> ->]|[_ E]]; [|eauto]. rewrite fetch_disk in Hf; auto.
    - apply lookup_delete_Some in E as [_ E]. eauto.
  Qed.
  Lemma loads_good d c c' q n : cur_ok d -> loads d c c' -> 2 <= q -> pgood d c q n -> pgood d c' q n.
  Proof. intros Hc [(x & m & _ & Hx & Hf & ->)|(x & ->)] Hq Hg; [eapply pgood_load; eassumption|now apply pgood_evict]. Qed.
  Lemma loads_none d c c' : loads d c c' -> caching = false -> c = ∅ -> c' = ∅.
  Proof. intros [(x & m & E & _)|(x & ->)] Hc ->; [congruence|apply delete_empty]. Qed.
  Lemma ti_cache d p pi sy c' : thread_inv d p pi sy -> loads d (p_cache p) c' -> thread_inv d (set_cache c' p) pi sy.
  Proof.
    intros (g & [H|(f & db & w & todo & H)]) Hl.
    - exists g. left. destruct H as [Hu Hx Hf Hh Hc Hw Hr].
      assert (Hs : forall q, snap d (set_cache c' p) pi q = snap d p pi q).
      { apply snap_eq; [reflexivity|]. intros q Hq _. rewrite !fetch_disk; auto. cbn. intros n. apply (loads_coh (fun _ => True) d _ _ Hl); auto. }
      assert (Hu' : uinv d (set_writer (awriter d p pi) (set_cache c' p)) g sy).
      { apply (cache_step kw ps hash order ford caching Hps Hps32 Hkw Hord Hford d _ g sy c' Hu).
        - intros E. eapply loads_none; [exact Hl|exact E|]. exact (u_nocache _ _ _ _ _ _ _ _ Hu E).
        - intros q n Hq. apply loads_good; [exact (ucur Hu)|exact Hl|exact Hq]. }
      constructor; auto.
      + eapply awriter_ext; [|exact Hu']. exact Hs.
      + intros q n Hq. apply (loads_coh (fun _ => True) d _ _ Hl); auto.
      + intros E. eapply ready_ext; [reflexivity|reflexivity|exact Hs|auto].
    - exists g. right. exists f, db, w, todo. pose proof (b_u _ _ _ _ _ _ _ _ _ _ _ _ _ H) as Hu. pose proof (fly_cur_ok _ _ _ _ _ _ _ _ _ _ _ _ _ H) as Hcd.
      pose proof (loads_coh (fun q => w_dirty w !! q = None \/ y_io f = ICached) d _ _ Hl (b_coh _ _ _ _ _ _ _ _ _ _ _ _ _ H)) as Hc'.
      assert (Hs : forall q, snap d (set_cache c' p) pi q = snap d p pi q).
      { apply snap_eq; [reflexivity|]. intros q Hq Hw. rewrite (b_lwet _ _ _ _ _ _ _ _ _ _ _ _ _ H) in Hw. 
        rewrite (fetch_disk kw d (p_cache p)); [|exact Hq|intros n; apply (b_coh _ _ _ _ _ _ _ _ _ _ _ _ _ H); auto].
        apply fetch_disk; [exact Hq|]. cbn. intros n. apply Hc'; auto. }
      assert (Hu' : uinv db (set_writer (fphase f w todo) (set_cache (fcache f c') (set_cache c' p))) g sy).
      { change (set_writer (fphase f w todo) (set_cache (fcache f c') (set_cache c' p))) with
          (set_cache (fcache f c') (set_writer (fphase f w todo) (set_cache (fcache f (p_cache p)) p))).
        apply (cache_step kw ps hash order ford caching Hps Hps32 Hkw Hord Hford); [exact Hu| |].
        - intros E. pose proof (u_nocache _ _ _ _ _ _ _ _ Hu E) as E'. cbn in E'. unfold PipelineProofs.fcache in *. rewrite E in *.
          assert (p_cache p = ∅) as E2 by (destruct (y_io f); exact E'). rewrite (loads_none _ _ _ Hl E E2). destruct (y_io f); reflexivity.
        - cbn [p_cache set_writer set_cache]. intros q n Hq Hg. destruct (w_dirty w !! q) as [m|] eqn:Ew.
          + assert (Hwet : y_wet f !! q = Some m) by (rewrite (b_wet _ _ _ _ _ _ _ _ _ _ _ _ _ H); exact Ew).
            assert (Hd : match y_io f with IPages _ => d = db | _ => True end) by (pose proof (b_disk _ _ _ _ _ _ _ _ _ _ _ _ _ H) as Hd; unfold fdisk in Hd; destruct (y_io f); auto).
            unfold PipelineProofs.fcache in *. assert (Hcase : (exists t, y_io f = IPages t) \/ (match y_io f with IPages _ => false | _ => true end = true)) by (destruct (y_io f); eauto).
            destruct Hcase as [(t & Et)|Et].
            * rewrite Et in *. subst db. apply (loads_good d (p_cache p)); auto.
            * assert (Ec : forall c, (match y_io f with IPages _ => c | _ => if caching then y_wet f ∪ c else c end) = if caching then y_wet f ∪ c else c) by (intros c; destruct (y_io f); auto; discriminate).
              rewrite !Ec in *. destruct caching eqn:Ecc.
              -- destruct Hg as [Hg1 Hg2]. split; [exact Hg1|]. rewrite (lookup_union_Some_l _ _ _ _ Hwet). rewrite (lookup_union_Some_l _ _ _ _ Hwet) in Hg2. exact Hg2.
              -- destruct Hl as [(x & y & Hf & _)|(x & ->)]; [congruence|]. now apply pgood_evict.
          + pose proof (fly_pgood _ _ _ _ _ _ _ _ _ _ _ _ _ _ _ H Ew Hg) as Hg'. apply (loads_good d _ c' q n Hcd Hl Hq) in Hg' as [_ Hg2].
            split; [exact (proj1 Hg)|]. rewrite fcache_out; [exact Hg2|]. rewrite (b_wet _ _ _ _ _ _ _ _ _ _ _ _ _ H). exact Ew. }
      destruct H. constructor; auto.
      pose proof (phase_ext kw ps hash d p pi d (set_cache c' p) (l_fly pi) g Hs (fun _ h => h) b_phase) as X.
      destruct pi; exact X.
  Qed.

  (** *** Readers *)
  Lemma ti_reader d p pi sy l p' : thread_inv d p pi sy -> same_rest p p' ->
    (reg_ok (p_regs p) (p_readers p) -> l_fly pi <> None -> l_phase pi <> PFetch -> forall sm, sm_ok p sm -> sm_ok p' sm) ->
    (forall D x c g, uinv D (set_writer x (set_cache c p)) g sy -> exists sy', spec_step ps sy l sy' /\ uinv D (set_writer x (set_cache c p')) g sy') ->
    exists sy', spec_step ps sy l sy' /\ thread_inv d p' pi sy'.
  Proof.
    intros (g & [H|(f & db & w & todo & H)]) (R1 & R2 & R3 & R4) Hsm Hst.
    - destruct H as [Hu Hx Hf Hh Hc Hw Hr]. destruct (Hst d (awriter d p pi) (p_cache p) g) as (sy' & Hs & Hu'); [exact Hu|].
      exists sy'. split; [exact Hs|]. exists g. left.
      assert (Hsn : forall q, snap d p' pi q = snap d p pi q) by (intros q; unfold Pipeline.snap; now rewrite R1).
      constructor; auto.
      + eapply awriter_ext; [exact Hsn|]. rewrite <- R1 in Hu'. exact Hu'.
      + congruence.
      + unfold latest. rewrite R2, R3. exact Hh.
      + rewrite R1. exact Hc.
      + intros E. eapply ready_ext; [reflexivity|reflexivity|exact Hsn|auto].
    - pose proof (b_u _ _ _ _ _ _ _ _ _ _ _ _ _ H) as Hu. destruct (Hst db (fphase f w todo) (fcache f (p_cache p)) g Hu) as (sy' & Hs & Hu').
      exists sy'. split; [exact Hs|]. exists g. right. exists f, db, w, todo.
      assert (Hsn : forall q, snap d p' pi q = snap d p pi q) by (intros q; unfold Pipeline.snap; now rewrite R1).
      pose proof (u_regs _ _ _ _ _ _ _ _ Hu) as Hreg. cbn in Hreg. pose proof (b_fly _ _ _ _ _ _ _ _ _ _ _ _ _ H) as Hfl. specialize (Hsm Hreg ltac:(congruence)).
      assert (Hlat : latest p' = latest p) by (unfold latest; now rewrite R2, R3).
      destruct H. constructor; auto.
      + rewrite R1. exact Hu'.
      + congruence.
      + rewrite Hlat. exact b_hdr.
      + rewrite R1. exact b_coh.
      + assert (l_phase pi = PFetch \/ l_phase pi <> PFetch) as [E|E] by (destruct (l_phase pi); [now left|now right|now right]).
        * rewrite E in *. eapply ready_ext; [reflexivity|reflexivity|exact Hsn|exact b_phase].
        * pose proof (phase_ext kw ps hash d p pi d p' (l_fly pi) g Hsn (Hsm E) b_phase) as X. destruct pi; exact X.
  Qed.
  (** An open reader reads its version. *)
  Lemma ti_open d p pi sy i a : thread_inv d p pi sy -> p_readers p !! i = Some (ROpen a) ->
    cur_ok d /\ exists G, g_hdr G = a.2 /\ sp_open sy !! i = Some (g_st G) /\ held kw ps hash d (p_cache p) G.
  Proof.
    intros (g & [H|(f & db & w & todo & H)]) Hi.
    - pose proof (a_u _ _ _ _ _ _ _ _ _ H) as Hu. split; [exact (ucur Hu)|]. pose proof (u_readers _ _ _ _ _ _ _ _ Hu i) as Hr. unfold rinv in Hr. cbn in Hr. rewrite Hi in Hr.
      destruct Hr as (_ & G & _ & Hh & Ho & Hp & _). eauto.
    - pose proof (b_u _ _ _ _ _ _ _ _ _ _ _ _ _ H) as Hu. split; [exact (fly_cur_ok _ _ _ _ _ _ _ _ _ _ _ _ _ H)|]. pose proof (u_readers _ _ _ _ _ _ _ _ Hu i) as Hr. unfold rinv in Hr. cbn in Hr. rewrite Hi in Hr.
      destruct Hr as (_ & G & _ & Hh & Ho & Hp). exists G. split; [exact Hh|]. split; [exact Ho|]. eapply (fly_held kw ps hash caching Hps32 Hkw); eassumption.
  Qed.
  Lemma ti_rstep d p pi sy i l p' : thread_inv d p pi sy -> rstep p i l p' ->
    (l_fly pi <> None -> l_phase pi <> PFetch -> forall i a, p_readers p !! i = Some (RSeen a) -> p_readers p' !! i = Some (RReg a) ->
      exists t, reg_min (p_regs p) = Some t /\ t <= h_tsn a.2) ->
    exists sy', spec_step ps sy l sy' /\ thread_inv d p' pi sy'.
  Proof.
    intros H Hst Hc. eapply ti_reader; [exact H|eapply rstep_rest; exact Hst| |].
    - intros Hreg Hf Hp sm. eapply rstep_sm; [exact Hst|exact Hreg|exact (Hc Hf Hp)].
    - intros D x c g Hu. eapply (pstep_readers kw ps hash order ford caching Hps Hps32 Hkw Hord Hford); [exact Hu|]. apply (rstep_map x c p i l p' Hst).
  Qed.

  (** *** With or without the readers *)
  Context (er : bool).
  (** [er]: what readers do is disregarded. *)
  Definition erase (p : proc) : proc := Proc (p_pin0 p) (p_pin1 p) (p_cache p) ∅ ∅ WIdle.
  Definition view (p : proc) : proc := if er then erase p else p.
  Definition erase_label (l : label) : label :=
    match l with LCall _ | LReady _ | LClose _ | LRead _ _ _ _ _ _ | LHead _ _ | LTrack _ _ _ => LTau | _ => l end.
  Definition view_label (l : label) : label := if er then erase_label l else l.
  Definition erase_sys (sy : spec_sys) : spec_sys := SSys (sp_cur sy) (sp_alt sy) (sp_up sy) ∅ ∅.
  Definition view_sys (sy : spec_sys) : spec_sys := if er then erase_sys sy else sy.
  Lemma erase_spec sy l sy' : spec_step ps sy l sy' -> spec_step ps (erase_sys sy) (erase_label l) (erase_sys sy').
  Proof.
    intros H. destruct H; cbn; try (now constructor).
    - unfold erase_sys. cbn. replace (∅ : gmap nat (list spec_state)) with (cons s' <$> (∅ : gmap nat (list spec_state))) at 2 by apply fmap_empty. now constructor.
  Qed.
  Lemma view_spec sy l sy' : spec_step ps sy l sy' -> spec_step ps (view_sys sy) (view_label l) (view_sys sy').
  Proof. unfold view_sys, view_label. destruct er; [apply erase_spec|auto]. Qed.
  Lemma view_tau : view_label LTau = LTau. Proof. unfold view_label. now destruct er. Qed.
  Lemma view_pin a p : view (pin_header a p) = pin_header a (view p).
  Proof. unfold view, pin_header. destruct er, (a.1 =? 0); reflexivity. Qed.
  Lemma view_set_cache c p : view (set_cache c p) = set_cache c (view p).
  Proof. unfold view. now destruct er. Qed.
  Lemma view_cache p : p_cache (view p) = p_cache p. Proof. unfold view. now destruct er. Qed.
  Lemma view_latest p : latest (view p) = latest p. Proof. unfold view. now destruct er. Qed.
  Lemma view_snap d p pi : snap d (view p) pi = snap d p pi. Proof. unfold Pipeline.snap. now rewrite view_cache. Qed.
  Lemma ti_regs d p pi sy : thread_inv d p pi sy -> reg_ok (p_regs p) (p_readers p).
  Proof.
    intros (g & [H|(f & db & w & todo & H)]); [exact (u_regs _ _ _ _ _ _ _ _ (a_u _ _ _ _ _ _ _ _ _ H))|exact (u_regs _ _ _ _ _ _ _ _ (b_u _ _ _ _ _ _ _ _ _ _ _ _ _ H))].
  Qed.
  Lemma view_sm d p pi sy : thread_inv d (view p) pi sy -> sm_ok (view p) (reg_min (p_regs p)).
  Proof.
    intros H. apply ti_regs in H. unfold view in *. destruct er.
    - intros i r t Hi. cbn in Hi. rewrite lookup_empty in Hi. discriminate.
    - intros i r t Hi Hr. eapply reg_min_le; eassumption.
  Qed.
  Lemma ti_up d p pi sy : thread_inv d p pi sy -> sp_up sy = true.
  Proof. intros (g & [H|(f & db & w & todo & H)]); [eapply up_idle|eapply up_fly]; eassumption. Qed.
  Notation keeps sy l d p pi := (exists sy', spec_step ps sy (view_label l) sy' /\ thread_inv d (view p) pi sy') (only parsing).
  Lemma keeps_tau sy d p pi : thread_inv d (view p) pi sy -> keeps sy LTau d p pi.
  Proof. intros H. exists sy. split; [rewrite view_tau; constructor|exact H]. Qed.
  Lemma keeps_abort sy d p pi reqs : sp_up sy = true -> thread_inv d (view p) pi sy -> keeps sy (LAbort reqs) d p pi.
  Proof. intros Hu H. exists sy. split; [|exact H]. unfold view_label. destruct er; now apply spec_abort. Qed.

  Lemma keeps_other sy d p pi l p' : thread_inv d (view p) pi sy -> pstep kw ps hash order ford caching d p l d p' -> p_writer p = WIdle -> p_writer p' = WIdle ->
    (er = false -> l_fly pi <> None -> l_phase pi <> PFetch -> forall i a, p_readers p !! i = Some (RSeen a) -> p_readers p' !! i = Some (RReg a) ->
      exists t, reg_min (p_regs p) = Some t /\ t <= h_tsn a.2) ->
    keeps sy l d p' pi.
  Proof.
    intros H Hst Hx Hx' Hc.
    assert (Hrs : forall i, rstep p i l p' -> keeps sy l d p' pi).
    { intros i Hr. unfold view, view_label in *. destruct er.
      - exists sy. destruct (rstep_rest _ _ _ _ Hr) as (R1 & R2 & R3 & R4). split; [|unfold erase in *; rewrite R1, R2, R3; exact H].
        destruct Hr as [(E & -> & ->)|[(E & -> & ->)|[(a & E & -> & ->)|[(a & E & -> & ->)|[(a & E & -> & ->)|[(a & b & E & Ht & -> & ->)|[(a & b & E & -> & ->)|(a & E & -> & ->)]]]]]]]; constructor.
      - eapply ti_rstep; [exact H|exact Hr|exact (Hc eq_refl)]. }
    assert (Hld : forall c', loads d (p_cache p) c' -> l = LTau -> keeps sy l d (set_cache c' p) pi).
    { intros c' Hl ->. apply keeps_tau. rewrite view_set_cache. apply ti_cache; [exact H|]. rewrite view_cache. exact Hl. }
    destruct Hst as
      [d p q n Hca Hq Hf|d p q|d p i Hi|d p i Hi|d p i a Hi|d p i a Hi|d p i a Hi|d p i a b Hi Ht|d p i a b Hi Ht|d p i a Hi
      |d p i a q start bw limit force Hi|d p i a Hi|d p i a src Hi
      |d p w Hx0 E|d p rd w done ans r a w' Hx0 Hwf E Hab|d p rd w done ans r Hx0|d p rd w done ans w' todo Hx0 E Htodo Hs1 Hs2
      |d p w q n b todo done ans Hx0 E|d p w q n b todo done ans d' Hx0 Hd|d p w done ans Hx0|d p w done ans d' Hx0 Hd
      |d p w done ans b Hx0 E|d p w done ans b d' Hx0 E Hd|d p w done ans Hx0|d p w done ans d' Hx0 Hd]; try congruence; try (cbn in Hx'; discriminate).
    - apply Hld; [|reflexivity]. left. eauto 10.
    - apply Hld; [|reflexivity]. right. eauto.
    - apply (Hrs i). left. auto.
    - apply (Hrs i). right; left. auto.
    - apply (Hrs i). do 2 right; left. eauto.
    - apply (Hrs i). do 3 right; left. eauto.
    - apply (Hrs i). do 4 right; left. eauto.
    - apply (Hrs i). do 5 right; left. eauto 10.
    - apply (Hrs i). do 6 right; left. eauto 10.
    - apply (Hrs i). do 7 right. eauto.
    - exists sy. split; [|exact H]. unfold view, view_label in *. destruct er; [constructor|].
      destruct (ti_open _ _ _ _ _ _ H Hi) as (Hcd & G & Hh & Ho & Hp). rewrite <- Hh.
      rewrite (held_response kw ps hash order ford Hps Hps32 Hkw Hord Hford d (p_cache p) G q start bw limit force Hcd Hp). apply SS_read, Ho.
    - unfold view, view_label in *. destruct er; [exists sy; split; [constructor|exact H]|].
      eapply ti_reader; [exact H|repeat split| |].
      + intros _ _ _ sm. apply sm_sub. cbn. intros j r t Hj Hr. apply lookup_delete_Some in Hj as [_ Hj]. eauto.
      + intros D x c g Hu. exact (head_step kw ps hash caching Hps32 Hkw D (set_writer x (set_cache c p)) g sy i a Hu Hi).
    - exists sy. split; [|exact H]. unfold view, view_label in *. destruct er; [constructor|].
      destruct (ti_open _ _ _ _ _ _ H Hi) as (Hcd & G & Hh & Ho & Hp). rewrite <- Hh.
      rewrite (held_track kw ps hash order ford Hps Hps32 Hkw Hord Hford d (p_cache p) G src Hcd Hp). apply SS_track, Ho.
  Qed.

  (** *** The thread *)
  Lemma rolled rd p pi : (match mvcc_writer rd (reg_min (p_regs p)) (latest p).2 with (Ok tt, w) => rollback rd p pi = Pipe w (latest p) ∅ PFetch None | _ => rollback rd p pi = Pipe (l_w pi) (l_header pi) ∅ PFetch None end).
  Proof. unfold rollback. destruct (mvcc_writer rd (reg_min (p_regs p)) (latest p).2) as [[[]|e] w]; reflexivity. Qed.
  Lemma rollback_phase rd p pi : l_phase (rollback rd p pi) = PFetch /\ l_fly (rollback rd p pi) = None.
  Proof. unfold rollback. destruct (mvcc_writer rd (reg_min (p_regs p)) (latest p).2) as [[[]|e] w]; auto. Qed.
  Lemma keeps_rollback sy d p pi pi' reqs rd : thread_inv d (view p) pi sy -> l_fly pi = None ->
    mvcc_writer (fetch (p_cache p) d) (reg_min (p_regs p)) (latest p).2 = (Ok tt, l_w (rollback rd p pi')) -> l_header (rollback rd p pi') = latest p ->
    keeps sy (LAbort reqs) d p (rollback rd p pi').
  Proof.
    intros H Hf E Eh. apply keeps_abort; [exact (ti_up _ _ _ _ H)|]. destruct H as (g & [H|(f & db & w & todo & H)]); [|pose proof (b_fly _ _ _ _ _ _ _ _ _ _ _ _ _ H); congruence].
    assert (Er : rollback rd p pi' = Pipe (l_w (rollback rd p pi')) (latest p) ∅ PFetch None).
    { pose proof (rolled rd p pi') as Hr. destruct (mvcc_writer rd (reg_min (p_regs p)) (latest p).2) as [[[]|e] w]; rewrite Hr in *; [reflexivity|]. cbn in *. congruence. }
    rewrite Er, <- (view_latest p). eapply (idle_rollback kw ps hash caching Hps32 Hkw); [exact H|]. rewrite view_cache, view_latest. exact E.
  Qed.
  (** *** A commit whose pages could not be written *)
  Definition resting (p : proc) : pipe := Pipe (new_writer (latest p).2) (latest p) ∅ PFetch None.
  Definition failed (pi : pipe) : Prop := exists f, l_fly pi = Some f /\ y_io f = IFailed false.
  (** Until the thread takes note nothing it does matters. *)
  Definition run_inv (d : disk) (p : proc) (pi : pipe) (sy : spec_sys) : Prop :=
    thread_inv d (view p) pi sy \/ failed pi /\ thread_inv d (view p) (resting p) sy.
  Lemma ti_resting d p g sy : uinv d p g sy -> p_writer p = WIdle -> (forall q n, 2 <= q -> p_cache p !! q = Some n -> dec (d_cur d q) = Ok n) -> thread_inv d p (resting p) sy.
  Proof.
    intros H Hx Hc. exists g. left. constructor; auto.
    - unfold PipelineProofs.awriter. cbn. now rewrite set_idle.
    - intros q n E. cbn in E. rewrite lookup_empty in E. discriminate.
    - intros _. split; [reflexivity|]. intros q n E. cbn in E. rewrite lookup_empty in E. discriminate.
  Qed.
  Lemma ti_failed d p pi sy f todo d' : thread_inv d p pi sy -> l_fly pi = Some f -> y_io f = IPages todo ->
    (d' = d \/ (exists q b todo', todo = (q, b) :: todo' /\ d_spoilt kw q b d d') \/ d_unsynced d d') ->
    (forall q n, 2 <= q -> p_cache p !! q = Some n -> dec (d_cur d' q) = Ok n) -> thread_inv d' p (resting p) sy.
  Proof.
    intros (g & [H|(f' & db & w & todo0 & H)]) Hf Hio Hd Hc; [pose proof (a_fly _ _ _ _ _ _ _ _ _ H); congruence|].
    pose proof (b_fly _ _ _ _ _ _ _ _ _ _ _ _ _ H) as Hf'. assert (f' = f) as -> by congruence.
    pose proof (b_u _ _ _ _ _ _ _ _ _ _ _ _ _ H) as Hu. unfold fphase, PipelineProofs.fcache in Hu. rewrite Hio in Hu. rewrite set_cache_id in Hu.
    assert (Ed : d = db) by (rewrite (b_disk _ _ _ _ _ _ _ _ _ _ _ _ _ H); unfold fdisk; now rewrite Hio). subst db.
    assert (Hx : cur_ok d' /\ forall q b, ~ Txn.fresh (g_sn (gh_cur g)) (gh_sm g) q -> d_dur d' q b -> d_dur d q b).
    { destruct Hd as [->|[(q & b & todo' & -> & Hd)|Hd]].
      - split; [exact (ucur Hu)|auto].
      - destruct (spoilt_ok kw _ _ _ _ (ucur Hu) Hd) as [H1 H2]. split; [exact H1|]. intros x c Hx. apply H2. intros ->. apply Hx.
        pose proof (b_pages _ _ _ _ _ _ _ _ _ _ _ _ _ H _ Hio) as Hpg. inversion Hpg as [|[q' n] x todo1 pages [E1 E2] Hpg1]; subst x todo0 pages. cbn in E1. subst q'.
        pose proof (u_writer _ _ _ _ _ _ _ _ Hu) as (_ & Hto & _). pose proof (Hto q n ltac:(set_solver)) as Hq.
        apply (fly_fresh kw ps hash caching Hps32 Hkw _ _ _ _ _ _ _ _ _ q H). eauto.
      - destruct (unsynced_ok _ _ (ucur Hu) Hd) as [H1 H2]. split; [exact H1|]. intros x c _. apply H2. }
    destruct Hx as [Hcd Hdd]. destruct (abort_step kw ps hash caching Hps32 Hkw _ _ _ _ d' [] Hu Hcd I eq_refl Hdd) as (sy' & Hs & Hu').
    inversion Hs; subst sy'. pose proof (b_x _ _ _ _ _ _ _ _ _ _ _ _ _ H) as Hx.
    match type of Hu' with uinv _ ?a _ _ => assert (Ep : a = p) by (destruct p; cbn in Hx; subst; reflexivity) end. rewrite Ep in Hu'.
    eapply ti_resting; eassumption.
  Qed.
  Lemma resting_view p : resting (view p) = resting p. Proof. unfold resting. now rewrite view_latest. Qed.
  Lemma resting_other d p l p' : pstep kw ps hash order ford caching d p l d p' -> p_writer p = WIdle -> p_writer p' = WIdle -> resting p' = resting p.
  Proof. intros Hp Hx Hx'. unfold resting. assert (latest p' = latest p) as ->; [|reflexivity]. destruct Hp; try reflexivity; try congruence; cbn in Hx'; try discriminate. Qed.
  Lemma keeps_failed sy s l s' : failed (s_pipe s) -> thread_inv (s_disk s) (view (s_proc s)) (resting (s_proc s)) sy -> lstep kw ps hash order ford caching s l s' ->
    healthy kw (MP s) (MP s') -> exists sy', spec_step ps sy (view_label l) sy' /\ run_inv (s_disk s') (s_proc s') (s_pipe s') sy'.
  Proof.
    intros (f0 & Ef & Eio) H Hst Hh. destruct Hst as
      [d p pi l p' Hp Hx Hx'|d p pi w Hph E|d p pi rd r e w Hph Hrd E|d p pi done ans r a w Hph Hwf E Hab|d p pi rd flags done ans r e w Hph Hrd E Hab|d p pi done ans Hph Hne
      |d p pi f Hph Hf Hio|d p pi f Hph Hf Hio|d p pi f hdr rd Hf Hio Hrd Hph|d p pi done ans e rd Hph Hf Hrd|d p pi done ans todo hp hb pages w Hph Hf E Htodo Hs1 Hs2
      |d p pi done ans rd todo e rd' Hph Hf Hrd E Hrd'|d p pi f q b todo Hps' Hf Hio|d p pi f q b todo d' Hps' Hf Hio Hd|d p pi f Hf Hio|d p pi f d' Hf Hio Hd
      |d p pi f Hf Hio|d p pi f d' Hf Hio Hd|d p pi f Hf Hio|d p pi f d' Hf Hio Hd]; cbn [s_disk s_proc s_pipe] in *.
    all: try congruence.
    all: try (exists sy; split; [rewrite view_tau; constructor|]; right; split; [exists f0; auto|exact H]; fail).
    - destruct (keeps_other sy d p (resting p) l p') as (sy' & Hs & H'); [exact H|exact Hp|exact Hx|exact Hx'|intros _ X; now destruct X|].
      exists sy'. split; [exact Hs|]. right. split; [exists f0; auto|]. rewrite (resting_other _ _ _ _ Hp Hx Hx'). exact H'.
    - destruct (keeps_abort sy d p (resting p) [r] (ti_up _ _ _ _ H) H) as (sy' & Hs & H'). exists sy'. split; [exact Hs|]. right. split; [exists f0; auto|exact H'].
    - assert (f = f0) as -> by congruence. assert (hdr = false) as -> by congruence. destruct Hh as (_ & _ & Hh). destruct (rollback_phase rd p pi) as [Er1 Er2].
      destruct (Hh ltac:(unfold gives_up; rewrite Ef; exact Eio) Er1 Er2) as [E1 E2]. destruct (keeps_rollback sy d p (resting p) pi (y_done f0 ++ match l_phase pi with PBuilt done _ _ => done | _ => [] end) rd H eq_refl E1 E2) as (sy' & Hs & H').
      exists sy'. split; [exact Hs|]. now left.
  Qed.
  Lemma keeps_step sy s l s' : thread_inv (s_disk s) (view (s_proc s)) (s_pipe s) sy -> lstep kw ps hash order ford caching s l s' ->
    healthy kw (MP s) (MP s') -> (er = false -> undisturbed (MP s) (MP s')) -> exists sy', spec_step ps sy (view_label l) sy' /\ run_inv (s_disk s') (s_proc s') (s_pipe s') sy'.
  Proof.
    intros H Hst Hh Hc. assert (Hl : keeps sy l (s_disk s') (s_proc s') (s_pipe s') -> exists sy', spec_step ps sy (view_label l) sy' /\ run_inv (s_disk s') (s_proc s') (s_pipe s') sy').
    { intros (sy' & Hs & H'). exists sy'. split; [exact Hs|now left]. }
    destruct Hst as
      [d p pi l p' Hp Hx Hx'|d p pi w Hph E|d p pi rd r e w Hph Hrd E|d p pi done ans r a w Hph Hwf E Hab|d p pi rd flags done ans r e w Hph Hrd E Hab|d p pi done ans Hph Hne
      |d p pi f Hph Hf Hio|d p pi f Hph Hf Hio|d p pi f hdr rd Hf Hio Hrd Hph|d p pi done ans e rd Hph Hf Hrd|d p pi done ans todo hp hb pages w Hph Hf E Htodo Hs1 Hs2
      |d p pi done ans rd todo e rd' Hph Hf Hrd E Hrd'|d p pi f q b todo Hps' Hf Hio|d p pi f q b todo d' Hps' Hf Hio Hd|d p pi f Hf Hio|d p pi f d' Hf Hio Hd
      |d p pi f Hf Hio|d p pi f d' Hf Hio Hd|d p pi f Hf Hio|d p pi f d' Hf Hio Hd]; cbn [s_disk s_proc s_pipe] in *.
    all: try (destruct Hh as [Hh _]; specialize (Hh _ eq_refl); cbn in Hh; congruence).
    all: try match goal with H : context [IFailed] |- _ => fail 1 | |- context [IFailed] => fail 1 | _ => apply Hl; clear Hl end.
    - eapply keeps_other; [exact H|exact Hp|exact Hx|exact Hx'|]. intros E. exact (Hc E).
    - apply keeps_tau. eapply (ti_begin kw ps hash order ford caching Hps Hps32 Hkw Hord Hford); [exact H|exact Hph|eapply view_sm; exact H|]. rewrite view_snap. exact E.
    - apply keeps_abort; [exact (ti_up _ _ _ _ H)|]. eapply ti_begin_fails; [exact H|exact Hph| |exact E]. rewrite view_snap. exact Hrd.
    - apply keeps_tau. eapply (ti_request kw ps hash order ford caching Hps Hkw Hord Hford); [exact H|exact Hph|exact Hwf|]. rewrite view_snap. exact E.
    - apply keeps_tau. eapply (ti_fails kw ps hash caching Hps32 Hkw); [exact H|exact Hph].
    - apply keeps_tau. eapply ti_built; [exact H|exact Hph].
    - apply keeps_tau. pose proof (ti_cached kw ps hash caching _ _ _ _ _ H Hf Hio) as X. rewrite view_cache in X. destruct caching; [rewrite view_set_cache|]; exact X.
    - destruct (ti_acked kw ps hash order ford caching Hps Hps32 Hkw Hord Hford _ _ _ _ _ H Hph Hf Hio) as (sy' & Hs & H'). exists sy'. rewrite view_pin.
      split; [unfold view_label; destruct er; exact Hs|exact H'].
    - exfalso. destruct H as (g & [H|(f' & db & w & todo & H)]); [pose proof (a_fly _ _ _ _ _ _ _ _ _ H); congruence|].
      pose proof (b_fly _ _ _ _ _ _ _ _ _ _ _ _ _ H). pose proof (b_io _ _ _ _ _ _ _ _ _ _ _ _ _ H). congruence.
    - destruct Hh as (_ & _ & Hh). destruct (rollback_phase rd p pi) as [Er1 Er2]. destruct (Hh ltac:(unfold gives_up; rewrite Hf, Hph; exact I) Er1 Er2) as [E1 E2]. exact (keeps_rollback sy d p pi pi done rd H Hf E1 E2).
    - apply keeps_tau. eapply (ti_dispatch kw ps hash order ford caching Hps Hkw Hord Hford); [exact H|exact Hph|exact Hf| |exact Htodo|exact Hs1|exact Hs2]. rewrite view_snap. exact E.
    - destruct Hh as (_ & _ & Hh). destruct (rollback_phase rd' p pi) as [Er1 Er2]. destruct (Hh ltac:(unfold gives_up; rewrite Hf, Hph; exact I) Er1 Er2) as [E1 E2]. exact (keeps_rollback sy d p pi pi done rd' H Hf E1 E2).
    - apply keeps_tau. eapply (ti_page kw ps hash order ford caching Hps Hps32 Hkw Hord Hford); eassumption.
    - exists sy. split; [rewrite view_tau; constructor|]. right. split; [eexists; split; reflexivity|]. rewrite <- resting_view. eapply ti_failed; [exact H|exact Hf|exact Hio|destruct Hd as [->|Hd]; eauto 10|].
      rewrite view_cache. destruct Hh as (_ & Hh & _). eapply Hh; [exact Hf|reflexivity|congruence|reflexivity].
    - apply keeps_tau. eapply (ti_sync kw ps hash caching Hps32 Hkw); eassumption.
    - exists sy. split; [rewrite view_tau; constructor|]. right. split; [eexists; split; reflexivity|]. rewrite <- resting_view. eapply ti_failed; [exact H|exact Hf|exact Hio|eauto 10|].
      rewrite view_cache. destruct Hh as (_ & Hh & _). eapply Hh; [exact Hf|reflexivity|congruence|reflexivity].
    - apply keeps_tau. eapply (ti_header kw ps hash order ford caching Hps Hps32 Hkw Hord Hford); eassumption.
    - apply keeps_tau. eapply ti_done; eassumption.
  Qed.
  (** *** Crashes *)
  Lemma ti_end d p pi sy d' : thread_inv d p pi sy -> (forall q b, d_dur d' q b -> d_dur d q b) -> cur_ok d' -> d_settled d' ->
    exists G, survives ps sy (pipe_in_flight pi) (g_st G) /\ dinv kw ps hash d' G (SSys (g_st G) None false ∅ ∅).
  Proof.
    intros (g & [H|(f & db & w & todo & H)]) Hd Hc Hs.
    - destruct (end_step kw ps hash order ford caching Hps Hps32 Hkw Hord Hford _ _ _ _ d' (a_u _ _ _ _ _ _ _ _ _ H) Hd Hc Hs) as (G & Hsv & Hdn).
      exists G. split; [|exact Hdn]. unfold pipe_in_flight. rewrite (a_fly _ _ _ _ _ _ _ _ _ H). cbn in Hsv. unfold PipelineProofs.awriter in Hsv.
      destruct (l_phase pi) as [|done ans|done ans [e|]]; exact Hsv.
    - pose proof (b_u _ _ _ _ _ _ _ _ _ _ _ _ _ H) as Hu.
      destruct (end_step kw ps hash order ford caching Hps Hps32 Hkw Hord Hford _ _ _ _ d' Hu) as (G & Hsv & Hdn); auto.
      { intros q b Hb. apply Hd in Hb. rewrite (b_disk _ _ _ _ _ _ _ _ _ _ _ _ _ H) in Hb. eapply fdisk_dur; [exact (ucur Hu)|exact Hb]. }
      exists G. split; [|exact Hdn]. unfold pipe_in_flight. rewrite (b_fly _ _ _ _ _ _ _ _ _ _ _ _ _ H). cbn in Hsv. unfold fphase in Hsv.
      pose proof (b_io _ _ _ _ _ _ _ _ _ _ _ _ _ H) as Hnf. destruct (y_io f); try exact Hsv. now destruct (Hnf hdr).
  Qed.
  Lemma ti_cur d p pi sy : thread_inv d p pi sy -> cur_ok d.
  Proof. intros (g & [H|(f & db & w & todo & H)]); [exact (ucur (a_u _ _ _ _ _ _ _ _ _ H))|exact (fly_cur_ok _ _ _ _ _ _ _ _ _ _ _ _ _ H)]. Qed.
  Lemma run_cur d p pi sy : run_inv d p pi sy -> cur_ok d.
  Proof. intros [H|[_ H]]; exact (ti_cur _ _ _ _ H). Qed.
  Lemma run_end d p pi sy d' : run_inv d p pi sy -> (forall q b, d_dur d' q b -> d_dur d q b) -> cur_ok d' -> d_settled d' ->
    exists G, survives ps sy (pipe_in_flight pi) (g_st G) /\ dinv kw ps hash d' G (SSys (g_st G) None false ∅ ∅).
  Proof.
    intros [H|[(f & Ef & Eio) H]] H1 H2 H3; [exact (ti_end _ _ _ _ _ H H1 H2 H3)|]. unfold pipe_in_flight. rewrite Ef, Eio.
    exact (ti_end _ _ _ _ _ H H1 H2 H3).
  Qed.
  (** *** The whole *)
  Definition minv (s : msys) (sy : spec_sys) : Prop :=
    match s with
    | MB y => exists sy0, inv kw ps hash caching y sy0 /\ sy = view_sys sy0
    | MOpen d p => thread_inv d (view p) (resting p) sy
    | MP s => run_inv (s_disk s) (s_proc s) (s_pipe s) sy
    end.
  Lemma erase_readers p : p_readers p = ∅ -> p_regs p = ∅ -> p_writer p = WIdle -> view p = p.
  Proof. unfold view, erase. destruct er; [|reflexivity]. intros H1 H2 H3. destruct p. cbn in *. now rewrite H1, H2, H3. Qed.
  Lemma open_proc d d' p : open_db kw ps d = Ok (d', p) -> p_cache p = ∅ /\ p_readers p = ∅ /\ p_regs p = ∅ /\ p_writer p = WIdle.
  Proof.
    unfold open_db. intros E. repeat (match type of E with (rbind ?x _ = _) => destruct x; cbn [rbind] in E; [|discriminate] | (let '(_, _) := ?x in _) = _ => destruct x | match ?x with _ => _ end = _ => destruct x; try discriminate end).
    all: injection E as <- <-; auto.
  Qed.
  Lemma mstep_inv s sy l s' : minv s sy -> mstep kw ps hash order ford caching s l s' -> healthy kw s s' -> (er = false -> undisturbed s s') ->
    exists sy', spec_step ps sy (view_label l) sy' /\ minv s' sy'.
  Proof.
    intros H Hst Hh Hc. destruct Hst as [y l y' Hy|d d' p Ho|d p l p' Hp Hx Hx'|d p s Hs|s l s' Hl|d p d' Hd|d p Hd|d p pi d' Hd|d p pi Hd].
    - destruct H as (sy0 & H & ->). destruct (step_inv kw ps hash order ford caching Hps Hps32 Hkw Hord Hford _ _ _ _ H Hy) as (sy' & Hs & Hi).
      exists (view_sys sy'). split; [now apply view_spec|]. exists sy'. auto.
    - destruct H as (sy0 & H & ->). cbn in H. destruct H as (G & H). destruct (open_ok kw ps hash order ford caching Hps Hps32 Hkw Hord Hford _ _ _ H) as (d1 & p1 & Eo & Hu).
      rewrite Ho in Eo. injection Eo as <- <-. pose proof (dn_spec _ _ _ _ _ _ H) as ->. exists (SSys (g_st G) None true ∅ ∅). split.
      + unfold view_label, view_sys. destruct er; apply SS_open.
      + destruct (open_proc _ _ _ Ho) as (E1 & E2 & E3 & E4). cbn. rewrite erase_readers by assumption. eapply ti_resting; eauto. rewrite E1. intros q n _ E. rewrite lookup_empty in E. discriminate.
    - destruct (keeps_other sy d p (resting p) l p') as (sy' & Hs & H'); [exact H|exact Hp|exact Hx|exact Hx'|intros _ X; now destruct X|].
      exists sy'. split; [exact Hs|]. cbn. rewrite (resting_other _ _ _ _ Hp Hx Hx'). exact H'.
    - destruct Hs as (Hx & w & E & ->). exists sy. split; [rewrite view_tau; constructor|]. cbn [minv s_disk s_proc s_pipe]. cbn in H.
      destruct H as (g & [H|(f & db & w0 & todo & H)]); [|pose proof (b_fly _ _ _ _ _ _ _ _ _ _ _ _ _ H); discriminate].
      left. rewrite <- (view_latest p). eapply (idle_rollback kw ps hash caching Hps32 Hkw); [exact H|]. rewrite view_cache, view_latest. exact E.
    - destruct H as [H|[Hf H]]; [exact (keeps_step sy s l s' H Hl Hh Hc)|exact (keeps_failed sy s l s' Hf H Hl Hh)].
    - cbn in H. destruct (crashed_ok _ _ Hd) as (H1 & H2 & H3). destruct (ti_end _ _ _ _ _ H H1 H2 H3) as (G & Hsv & Hdn).
      exists (SSys (g_st G) None false ∅ ∅). split; [unfold view_label; destruct er; apply SS_crash; exact Hsv|]. exists (SSys (g_st G) None false ∅ ∅).
      split; [exists G; exact Hdn|]. unfold view_sys. now destruct er.
    - cbn in H. assert (Hcd : cur_ok d) by exact (ti_cur _ _ _ _ H).
      destruct (ti_end _ _ _ _ d H ltac:(auto) Hcd Hd) as (G & Hsv & Hdn).
      exists (SSys (g_st G) None false ∅ ∅). split; [unfold view_label; destruct er; apply SS_kill; exact Hsv|]. exists (SSys (g_st G) None false ∅ ∅).
      split; [exists G; exact Hdn|]. unfold view_sys. now destruct er.
    - cbn in H. destruct (crashed_ok _ _ Hd) as (H1 & H2 & H3). destruct (run_end _ _ _ _ _ H H1 H2 H3) as (G & Hsv & Hdn).
      exists (SSys (g_st G) None false ∅ ∅). split; [unfold view_label; destruct er; apply SS_crash; exact Hsv|]. exists (SSys (g_st G) None false ∅ ∅).
      split; [exists G; exact Hdn|]. unfold view_sys. now destruct er.
    - cbn in H. assert (Hcd : cur_ok d) by exact (run_cur _ _ _ _ H).
      destruct (run_end _ _ _ _ d H ltac:(auto) Hcd Hd) as (G & Hsv & Hdn).
      exists (SSys (g_st G) None false ∅ ∅). split; [unfold view_label; destruct er; apply SS_kill; exact Hsv|]. exists (SSys (g_st G) None false ∅ ∅).
      split; [exists G; exact Hdn|]. unfold view_sys. now destruct er.
  Qed.
End refine.
