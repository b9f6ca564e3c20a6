(** From the transition system to what can be observed of the store. *)
From Verif Require Export MvccProofs SpecProofs.
From Verif Require Import PropsPage.
Local Open Scope N_scope.

(** ** States that cannot be told apart *)
Definition eqv (s s' : spec_state) : Prop := s_hist s = s_hist s' /\ forall x, s_track s x = s_track s' x.
Global Instance eqv_equiv : Equivalence eqv.
Proof.
  split; [intros s; split; reflexivity|intros s s' [H1 H2]; split; [now symmetry|intros x; now symmetry]|].
  intros s1 s2 s3 [H1 H2] [H3 H4]. split; [congruence|intros x; now rewrite H2].
Qed.
Lemma append_eqv ps s s' evs cond trk : eqv s s' ->
  (spec_append ps s evs cond trk).1 = (spec_append ps s' evs cond trk).1 /\ eqv (spec_append ps s evs cond trk).2 (spec_append ps s' evs cond trk).2.
Proof.
  intros [H1 H2]. unfold spec_append. rewrite <- H1.
  assert (Ht : match spec_track (s_track s) trk, spec_track (s_track s') trk with
               | Ok t, Ok t' => forall x, t x = t' x | Err e, Err e' => e = e' | _, _ => False end).
  { unfold spec_track. destruct trk as [[src pos]|]; [|exact H2]. destruct (255 <? nlen src); [reflexivity|]. rewrite <- H2.
    destruct (s_track s src) as [e|]; [destruct (pos <=? e); [reflexivity|]|]; intros x; destruct (decide (x = src)); auto. }
  set (rs := map (to_record trk) evs).
  assert (Hacc : let f s0 := (if decide (Forall (event_ok ps) rs) then
      match spec_track (s_track s0) trk with
      | Err e => (Err e, s0)
      | Ok t => (Ok (last_pos (number (1 + nlen (s_hist s)) rs)), SState (s_hist s ++ number (1 + nlen (s_hist s)) rs) t)
      end else (Err EInvalidArgument, s0)) in (f s).1 = (f s').1 /\ eqv (f s).2 (f s').2).
  { cbn zeta. destruct (decide _); [|split; [reflexivity|split; assumption]].
    destruct (spec_track (s_track s) trk), (spec_track (s_track s') trk); try contradiction; cbn; (split; [congruence|]).
    - split; [reflexivity|exact Ht].
    - split; assumption. }
  destruct cond as [c|]; [|exact Hacc]. destruct (events_after (s_hist s) c 1); [exact Hacc|].
  destruct (decide (is_retry (s_hist s) evs c)); cbn; (split; [reflexivity|]); split; assumption.
Qed.
Lemma batch_eqv ps s s' rs : eqv s s' -> (spec_batch ps s rs).1 = (spec_batch ps s' rs).1 /\ eqv (spec_batch ps s rs).2 (spec_batch ps s' rs).2.
Proof.
  revert s s'. induction rs as [|r rs IH]; intros s s' H; [split; [reflexivity|exact H]|]. cbn.
  destruct (append_eqv ps s s' (rq_events r) (rq_cond r) (rq_trk r) H) as [H1 H2]. destruct (IH _ _ H2) as [H3 H4]. split; [congruence|exact H4].
Qed.

Section store.
  Context (ps : N) (hash : bytes -> bytes) (order : list bytes -> list bytes) (ford : gset N -> list N) (caching : bool).
  Context (Hps : ps_ok ps) (Hps32 : ps < U32) (Hord : forall l t, t ∈ order l <-> t ∈ l) (Hford : forall s, ford s ≡ₚ elements s).
  Notation step := (step 16 ps hash order ford caching).
  Notation steps := (steps 16 ps hash order ford caching).
  Notation inv := (inv 16 ps hash caching).

  (** ** Runs *)
  Definition run (tr : list label) (y : sys) : Prop := steps (init_sys 16 ps) tr y.

  (** What a reader opened now would return, in answer to any question. *)
  Definition shows (y : sys) (s : spec_state) : Prop :=
    exists p, y_proc y = Some p /\ let h := (latest p).2 in let rd := fetch 16 (p_cache p) (y_disk y) in
      (forall q start bw limit force, umadb_read hash order rd h q start bw limit force =
         Ok (spec_read (s_hist s) q start bw limit, spec_read_head s limit (spec_read (s_hist s) q start bw limit))) /\
      (forall src, get_tracking_info (N.to_nat (h_next_page h)) rd (h_tracking_root h) src = Ok (s_track s src)) /\
      header_head h = spec_head s.
  Definition up (y : sys) : Prop := exists p, y_proc y = Some p.

  Lemma read_all h : spec_read h [] None false None = h.
  Proof.
    unfold spec_read. cbn [cut]. induction h as [|e h IH]; [reflexivity|]. rewrite filter_cons, decide_True; [now f_equal|]. split; [exact I|now left].
  Qed.
  Lemma shows_unique y s s' : shows y s -> shows y s' -> eqv s s'.
  Proof.
    intros (p & Hp & H1 & H2 & _) (p' & Hp' & H1' & H2' & _). assert (p' = p) as -> by congruence. split.
    - specialize (H1 [] None false None false). rewrite H1' in H1. rewrite !read_all in H1. congruence.
    - intros x. specialize (H2 x). rewrite H2' in H2. congruence.
  Qed.
  Lemma shows_eqv y s s' : shows y s -> eqv s s' -> shows y s'.
  Proof.
    intros (p & Hp & H1 & H2 & H3) [E1 E2]. exists p. split; [exact Hp|]. cbn. unfold spec_read_head, spec_head in *. rewrite <- E1. split; [exact H1|]. split; [|exact H3].
    intros src. rewrite <- E2. apply H2.
  Qed.
  Lemma inv_shows y sy : inv y sy -> up y -> shows y (sp_cur sy).
  Proof.
    intros H (p & Hp). unfold inv in H. rewrite Hp in H. destruct H as (g & H). exists p. split; [exact Hp|].
    rewrite (u_latest _ _ _ _ _ _ _ _ H), (u_spec _ _ _ _ _ _ _ _ H). pose proof (u_held _ _ _ _ _ _ _ _ H) as Hh. pose proof (u_cur _ _ _ _ _ _ _ _ H) as Hc.
    split; [intros; eapply held_response; try eassumption; lia|]. split; [intros; eapply held_track; try eassumption; lia|].
    apply (pos_head 16 ps Hps32 ltac:(lia)). apply (u_pos _ _ _ _ _ _ _ _ H), (u_in _ _ _ _ _ _ _ _ H).
  Qed.
  Lemma inv_shows_eqv y sy s : inv y sy -> shows y s -> eqv s (sp_cur sy).
  Proof. intros H Hs. apply (shows_unique y); [exact Hs|]. apply inv_shows; [exact H|]. destruct Hs as (p & Hp & _). now exists p. Qed.

  Lemma sim_step y sy l y' : inv y sy -> step y l y' -> exists sy', spec_step ps sy l sy' /\ inv y' sy'.
  Proof. intros. eapply step_inv; try eassumption. lia. Qed.
  Lemma sim_steps y sy tr y' : inv y sy -> steps y tr y' -> exists sy', spec_steps ps sy tr sy' /\ inv y' sy'.
  Proof.
    intros Hi H. induction H as [y|y tr y' l y'' H IH Hst].
    - exists sy. split; [constructor|exact Hi].
    - destruct (IH Hi) as (sy' & Hs & Hi'). destruct (sim_step y' sy' l y'' Hi' Hst) as (sy'' & Hs' & Hi''). exists sy''. split; [econstructor; eassumption|exact Hi''].
  Qed.
  Lemma run_inv tr y : run tr y -> exists sy, spec_steps ps spec_init tr sy /\ inv y sy /\ sp_good sy.
  Proof.
    intros H. destruct (sim_steps _ spec_init tr y (init_inv ps hash order ford caching Hps Hps32 Hord Hford) H) as (sy & Hs & Hi). exists sy. split; [exact Hs|]. split; [exact Hi|].
    exact (proj1 (spec_steps_good _ _ _ _ spec_init_good Hs)).
  Qed.
  Lemma run_app t1 t2 y y' : run t1 y -> steps y t2 y' -> run (t1 ++ t2) y'.
  Proof.
    intros H1 H2. induction H2 as [y|y tr y' l y'' H IH Hst]; [now rewrite app_nil_r|]. rewrite app_assoc. econstructor; [|exact Hst]. apply IH, H1.
  Qed.
  Lemma run_step tr y l y' : run tr y -> step y l y' -> run (tr ++ [l]) y'.
  Proof. intros H1 H2. econstructor; eassumption. Qed.
  Lemma steps_snoc_inv y tr l y' : steps y (tr ++ [l]) y' -> exists ym, steps y tr ym /\ step ym l y'.
  Proof.
    intros H. remember (tr ++ [l]) as t eqn:E. destruct H as [y|y t0 ym l0 y' H1 H2]; [now destruct tr|]. apply app_inj_tail in E as [-> ->]. eauto.
  Qed.
  Lemma steps_nil_inv y y' : steps y [] y' -> y' = y.
  Proof. intros H. remember (@nil label) as t eqn:E. destruct H as [y|y t0 ym l0 y' H1 H2]; [reflexivity|]. now destruct t0. Qed.
  Lemma steps_app_inv y t1 t2 y' : steps y (t1 ++ t2) y' -> exists ym, steps y t1 ym /\ steps ym t2 y'.
  Proof.
    revert y'. induction t2 as [|l t2 IH] using rev_ind; intros y'.
    - rewrite app_nil_r. intros H. exists y'. split; [exact H|constructor].
    - rewrite app_assoc. intros H. apply steps_snoc_inv in H as (y1 & H1 & H2). apply IH in H1 as (ym & H1 & H3). exists ym. split; [exact H1|]. econstructor; eassumption.
  Qed.

  Lemma run_at tr1 l tr2 y : run (tr1 ++ l :: tr2) y -> exists y1 y2, run tr1 y1 /\ step y1 l y2 /\ steps y2 tr2 y.
  Proof.
    intros H. change (l :: tr2) with ([l] ++ tr2) in H. rewrite app_assoc in H. apply steps_app_inv in H as (y2 & H1 & H2).
    apply steps_snoc_inv in H1 as (y1 & H1 & H3). eauto.
  Qed.
  Lemma step_up y l y' : step y l y' -> match l with LCrash _ | LKill _ | LOpen => False | _ => True end -> up y.
  Proof. intros H Hl. inversion H; subst; try contradiction; now eexists. Qed.

  (** ** Between two moments *)
  Lemma run_up tr y : run tr y -> up y -> exists s, shows y s /\ gapless (s_hist s).
  Proof. intros H Hu. destruct (run_inv _ _ H) as (sy & _ & Hi & Hg). exists (sp_cur sy). split; [now apply inv_shows|exact (proj1 Hg)]. Qed.
  Lemma run_shows tr y s : run tr y -> shows y s -> gapless (s_hist s).
  Proof.
    intros H Hs. destruct (run_inv _ _ H) as (sy & _ & Hi & Hg). pose proof (inv_shows_eqv _ _ _ Hi Hs) as [E _]. rewrite E. exact (proj1 Hg).
  Qed.
  Lemma extends_eqv s1 s1' s2 s2' : eqv s1 s1' -> eqv s2 s2' -> extends s1 s2 -> extends s1' s2'.
  Proof.
    intros [E1 E2] [E3 E4] [H1 H2]. split; [now rewrite <- E1, <- E3|]. intros x t. rewrite <- E2, <- E4. apply H2.
  Qed.
  Lemma run_extends tr y s tr' y' s' : run tr y -> shows y s -> steps y tr' y' -> shows y' s' -> extends s s'.
  Proof.
    intros H Hs H' Hs'. destruct (run_inv _ _ H) as (sy & _ & Hi & Hg). destruct (sim_steps _ _ _ _ Hi H') as (sy' & Hst & Hi').
    destruct (spec_steps_good _ _ _ _ Hg Hst) as [_ He]. eapply extends_eqv; [| |exact He]; symmetry; eapply inv_shows_eqv; eassumption.
  Qed.
  (** A commit. *)
  Lemma run_commit tr y s reqs ans y' : run tr y -> shows y s -> step y (LCommit reqs ans) y' ->
    exists s', spec_batch ps s reqs = (ans, s') /\ shows y' s'.
  Proof.
    intros H Hs Hst. destruct (run_inv _ _ H) as (sy & _ & Hi & Hg). destruct (sim_step _ _ _ _ Hi Hst) as (sy' & Hss & Hi').
    pose proof (inv_shows_eqv _ _ _ Hi Hs) as He. destruct (batch_eqv ps _ _ reqs He) as [E1 E2].
    inversion Hss as [|s0 calls open reqs0 ans0 s1 Hb| | | | | | | | | | |]; subst. cbn in E1, E2. rewrite Hb in E1, E2. cbn in E1, E2.
    exists (spec_batch ps s reqs).2. split; [rewrite <- E1; now destruct (spec_batch ps s reqs)|].
    eapply shows_eqv; [|symmetry; exact E2]. assert (up y') as Hu. { inversion Hst; subst; now eexists. }
    exact (inv_shows _ _ Hi' Hu).
  Qed.
  (** One request of a commit. *)
  Lemma run_commit_split tr y s r1 r r2 ans y' : run tr y -> shows y s -> step y (LCommit (r1 ++ r :: r2) ans) y' ->
    exists a1 s1 a s2 a2 s3, ans = a1 ++ a :: a2 /\ ans !! length r1 = Some a /\ spec_batch ps s r1 = (a1, s1) /\
      spec_append ps s1 (rq_events r) (rq_cond r) (rq_trk r) = (a, s2) /\ spec_batch ps s2 r2 = (a2, s3) /\ shows y' s3.
  Proof.
    intros H Hs Hst. destruct (run_commit _ _ _ _ _ _ H Hs Hst) as (s' & Hb & Hs'). rewrite batch_app in Hb. cbn [spec_batch] in Hb.
    destruct (spec_batch ps s r1) as [a1 s1] eqn:E1. cbn [fst snd] in Hb. destruct (spec_append ps s1 (rq_events r) (rq_cond r) (rq_trk r)) as [a s2] eqn:E2. cbn [fst snd] in Hb.
    destruct (spec_batch ps s2 r2) as [a2 s3] eqn:E3. cbn [fst snd] in Hb. injection Hb as <- <-.
    exists a1, s1, a, s2, a2, s3. split; [reflexivity|]. split; [|auto]. pose proof (batch_length ps s r1) as Hl. rewrite E1 in Hl. cbn in Hl.
    rewrite <- Hl. now rewrite list_lookup_middle.
  Qed.

  (** ** Readers *)
  (** The states reader [i] may be given were committed at some moment since it was asked for. *)
  Lemma window y0 sy0 i y1 t2 y2 : inv y0 sy0 -> step y0 (LCall i) y1 -> steps y1 t2 y2 -> Forall (quiet i) t2 ->
    exists sy2 l, inv y2 sy2 /\ sp_calls sy2 !! i = Some l /\
      forall s, s ∈ l -> exists ta tb ya, t2 = ta ++ tb /\ steps y1 ta ya /\ steps ya tb y2 /\ shows ya s.
  Proof.
    intros Hi H1 H2. revert H2. induction 1 as [y1|y1 tr y2 l y3 H2 IH Hst]; intros Hq.
    - destruct (sim_step _ _ _ _ Hi H1) as (sy1 & Hs & Hi1). exists sy1. inversion Hs as [| | | | | | |s a calls open i0 Hc Ho| | | | |]; subst. cbn.
      exists [s]. rewrite lookup_insert. split; [exact Hi1|]. split; [reflexivity|]. intros s' Hs'. apply elem_of_list_singleton in Hs' as ->.
      exists [], [], y1. split; [reflexivity|]. split; [constructor|]. split; [constructor|]. apply (inv_shows _ _ Hi1).
      inversion H1; subst; now eexists.
    - apply Forall_app in Hq as [Hq Hql]. inversion Hql as [|? ? Hql1 _]; subst. destruct (IH H1 Hq) as (sy2 & ls & Hi2 & Hc & Hw).
      destruct (sim_step _ _ _ _ Hi2 Hst) as (sy3 & Hs & Hi3). exists sy3.
      assert (Hold : forall s, s ∈ ls -> exists ta tb ya, tr ++ [l] = ta ++ tb /\ steps y1 ta ya /\ steps ya tb y3 /\ shows ya s).
      { intros s Hs'. destruct (Hw s Hs') as (ta & tb & ya & -> & Ha & Hb & Hsh). exists ta, (tb ++ [l]), ya. split; [now rewrite app_assoc|]. split; [exact Ha|].
        split; [econstructor; eassumption|exact Hsh]. }
      inversion Hs; subst; cbn in Hc, Hql1 |- *; try contradiction; try (exists ls; now auto).
      + rewrite lookup_fmap, Hc. cbn. eexists. split; [exact Hi3|]. split; [reflexivity|]. intros s0 Hs0. apply elem_of_cons in Hs0 as [->|Hs0]; [|auto].
        exists (tr ++ [LCommit reqs ans]), [], y3. rewrite app_nil_r. split; [reflexivity|]. split; [econstructor; eassumption|]. split; [constructor|].
        apply (inv_shows _ _ Hi3). inversion Hst; subst; now eexists.
      + rewrite lookup_insert_ne by congruence. exists ls. auto.
      + rewrite lookup_delete_ne by congruence. exists ls. auto.
      + rewrite lookup_delete_ne by congruence. exists ls. auto.
  Qed.
  Lemma opened_stays y sy i s t y' : inv y sy -> sp_open sy !! i = Some s -> steps y t y' -> Forall (quiet i) t ->
    exists sy', inv y' sy' /\ sp_open sy' !! i = Some s /\
      (forall q start bw limit r, LRead i q start bw limit r ∈ t ->
         r = Ok (spec_read (s_hist s) q start bw limit, spec_read_head s limit (spec_read (s_hist s) q start bw limit))) /\
      (forall src r, LTrack i src r ∈ t -> r = Ok (s_track s src)).
  Proof.
    intros Hi Ho H2. revert H2. induction 1 as [y|y tr y2 l y3 H2 IH Hst]; intros Hq.
    - exists sy. split; [exact Hi|]. split; [exact Ho|]. split; intros *; rewrite elem_of_nil; contradiction.
    - apply Forall_app in Hq as [Hq Hql]. inversion Hql as [|? ? Hql1 _]; subst. destruct (IH Hi Hq) as (sy2 & Hi2 & Ho2 & Hr & Ht).
      destruct (sim_step _ _ _ _ Hi2 Hst) as (sy3 & Hs & Hi3). exists sy3. split; [exact Hi3|].
      assert (Hl : (forall q start bw limit r, l = LRead i q start bw limit r ->
           r = Ok (spec_read (s_hist s) q start bw limit, spec_read_head s limit (spec_read (s_hist s) q start bw limit))) /\
         (forall src r, l = LTrack i src r -> r = Ok (s_track s src))).
      { split; intros; subst; inversion Hs; subst; assert (s0 = s) as -> by congruence; reflexivity. }
      destruct Hl as [Hl1 Hl2]. split.
      { inversion Hs; subst; cbn in Ho2, Hql1 |- *; try contradiction; try exact Ho2.
        - now rewrite lookup_insert_ne by congruence.
        - now rewrite lookup_delete_ne by congruence. }
      split.
      + intros q start bw limit r Hin. apply elem_of_app in Hin as [Hin|Hin]; [now apply Hr|]. apply elem_of_list_singleton in Hin. apply Hl1. now symmetry.
      + intros src r Hin. apply elem_of_app in Hin as [Hin|Hin]; [now apply Ht|]. apply elem_of_list_singleton in Hin. apply Hl2. now symmetry.
  Qed.

  (** ** Ends and new beginnings *)
  Lemma alt_unsure tr sy a : spec_steps ps spec_init tr sy -> sp_alt sy = Some a -> exists r0, LUnsure r0 ∈ tr /\ a = (spec_batch ps (sp_cur sy) r0).2.
  Proof.
    intros H. remember spec_init as y0 eqn:E0. revert a. induction H as [y|y tr y' l y'' H IH Hst]; intros a Ha; subst; [discriminate|].
    assert (Hkeep : sp_alt y' = Some a -> sp_cur y'' = sp_cur y' -> exists r0, LUnsure r0 ∈ tr ++ [l] /\ a = (spec_batch ps (sp_cur y'') r0).2).
    { intros Ha' Hc. destruct (IH eq_refl a Ha') as (r0 & Hr & ->). exists r0. split; [apply elem_of_app; now left|now rewrite Hc]. }
    inversion Hst; subst; cbn in Ha, Hkeep |- *; try discriminate; auto.
    injection Ha as <-. exists reqs. split; [apply elem_of_app; right; set_solver|reflexivity].
  Qed.
  Lemma crashes sy tr sy' : spec_steps ps sy tr sy' -> Forall (fun l => exists r, l = LCrash r) tr -> sp_up sy = false -> sp_alt sy = None ->
    sp_up sy' = false /\ sp_alt sy' = None.
  Proof.
    intros H. induction H as [y|y tr y' l y'' H IH Hst]; intros Hf Hu Ha; [auto|]. apply Forall_app in Hf as [Hf Hl].
    inversion Hl as [|? ? (r & ->) _]; subst. inversion Hst; subst. auto.
  Qed.
  (** While the database is down, further crashes change nothing. *)
  Lemma down_crashes y sy tr y' : inv y sy -> steps y tr y' -> y_proc y = None -> Forall (fun l => exists r, l = LCrash r) tr -> inv y' sy /\ y_proc y' = None.
  Proof.
    intros Hi H. revert H. induction 1 as [y|y tr y' l y'' H IH Hst]; intros Hd Hf; [auto|]. apply Forall_app in Hf as [Hf Hl].
    inversion Hl as [|? ? (r & ->) _]; subst. destruct (IH Hi Hd Hf) as [Hi' Hd']. inversion Hst as [| |d d' Hc| |]; subst; [inversion H0|discriminate|].
    split; [|reflexivity]. destruct Hi' as (G & Hdn). cbn [y_disk] in Hdn. destruct (crashed_ok _ _ Hc) as (Hd1 & Hd2 & Hd3).
    destruct Hdn as [Hc0 Hst0 (hid & Hsl) Hh Hheld ->]. exists G. constructor; [exact Hd2|exact Hd3| |exact Hh| |reflexivity].
    - exists hid. eapply slots_sub; try eassumption; try lia; eauto.
    - eapply held_sub; try eassumption; try lia; eauto.
  Qed.
  Lemma run_restart tr y s l reqs y1 tr1 y2 y3 : run tr y -> shows y s -> (l = LCrash reqs \/ l = LKill reqs) -> step y l y1 ->
    steps y1 tr1 y2 -> Forall (fun l => exists r, l = LCrash r) tr1 -> step y2 LOpen y3 ->
    exists s', shows y3 s' /\ (s' = s \/ s' = (spec_batch ps s reqs).2 \/ exists r0, LUnsure r0 ∈ tr /\ s' = (spec_batch ps s r0).2).
  Proof.
    intros H Hs Hl Hst Hc Hf Ho. destruct (run_inv _ _ H) as (sy & Hss & Hi & Hg). pose proof (inv_shows_eqv _ _ _ Hi Hs) as He.
    destruct (sim_step _ _ _ _ Hi Hst) as (sy1 & Hs1 & Hi1).
    assert (exists s1, survives ps sy reqs s1 /\ sy1 = SSys s1 None false ∅ ∅ /\ y_proc y1 = None) as (s1 & Hsv & -> & Hd).
    { assert (y_proc y1 = None) as Hd. { destruct Hl as [-> | ->]; inversion Hst; subst; try reflexivity; match goal with H : pstep _ _ _ _ _ _ _ _ _ _ _ |- _ => inversion H end. }
      destruct Hl as [-> | ->]; inversion Hs1; subst; eauto. }
    destruct (down_crashes _ _ _ _ Hi1 Hc Hd Hf) as [Hi2 Hd2]. destruct (sim_step _ _ _ _ Hi2 Ho) as (sy3 & Hs3 & Hi3). inversion Hs3; subst.
    assert (up y3) as Hu. { inversion Ho; subst; [match goal with H : pstep _ _ _ _ _ _ _ _ _ _ _ |- _ => inversion H end|now eexists]. }
    pose proof (inv_shows _ _ Hi3 Hu) as Hsh. cbn in Hsh.
    destruct Hsv as [->|[Ha| ->]].
    - exists s. split; [eapply shows_eqv; [exact Hsh|now symmetry]|now left].
    - destruct (alt_unsure _ _ _ Hss Ha) as (r0 & Hr & ->). exists (spec_batch ps s r0).2. split; [|eauto].
      eapply shows_eqv; [exact Hsh|]. symmetry. apply batch_eqv, He.
    - exists (spec_batch ps s reqs).2. split; [|auto]. eapply shows_eqv; [exact Hsh|]. symmetry. apply batch_eqv, He.
  Qed.
  Lemma run_open tr y : run tr y -> y_proc y = None -> exists d' p, open_db 16 ps (y_disk y) = Ok (d', p).
  Proof.
    intros H Hd. destruct (run_inv _ _ H) as (sy & _ & Hi & _). unfold inv in Hi. rewrite Hd in Hi. destruct Hi as (G & Hi).
    destruct (open_ok 16 ps hash order ford caching Hps Hps32 ltac:(lia) Hord Hford _ _ _ Hi) as (d' & p & E & _). eauto.
  Qed.
  Lemma run_idle tr y : run tr y -> forall p, y_proc y = Some p -> p_writer p = WIdle ->
    exists w, mvcc_writer (fetch 16 (p_cache p) (y_disk y)) (reg_min (p_regs p)) (latest p).2 = (Ok tt, w).
  Proof.
    intros H p Hp Hx. destruct (run_inv _ _ H) as (sy & _ & Hi & _). unfold inv in Hi. rewrite Hp in Hi. destruct Hi as (g & Hi).
    pose proof (u_held _ _ _ _ _ _ _ _ Hi) as Hh. pose proof (u_cur _ _ _ _ _ _ _ _ Hi) as Hc. rewrite (u_latest _ _ _ _ _ _ _ _ Hi).
    destruct (begin_ok 16 ps hash order ltac:(lia) Hord (fetch 16 (p_cache p) (y_disk y)) (g_sn (gh_cur g)) (reg_min (p_regs p))) as (w & E & _); [|eauto].
    eapply snap_frame; [exact (proj1 Hh)|]. intros q Hq. eapply held_rget; try eassumption. lia.
  Qed.
  (** Everything but a commit and a restart leaves what is shown as it is. *)
  Definition calm (l : label) : Prop := match l with LCommit _ _ | LCrash _ | LKill _ | LOpen => False | _ => True end.
  Lemma run_calm tr y s tr' y' : run tr y -> shows y s -> steps y tr' y' -> Forall calm tr' -> shows y' s.
  Proof.
    intros H Hs Hst. revert H Hs. induction Hst as [y|y tr' y' l y'' H1 IH H2]; intros H Hs Hc; [exact Hs|].
    apply Forall_app in Hc as [Hc Hl]. inversion Hl as [|? ? Hl1 _]; subst. specialize (IH H Hs Hc). pose proof (run_app _ _ _ _ H H1) as H'.
    destruct (run_inv _ _ H') as (sy & _ & Hi & _). pose proof (inv_shows_eqv _ _ _ Hi IH) as He.
    destruct (sim_step _ _ _ _ Hi H2) as (sy' & Hss & Hi'). assert (up y'') as Hu by (inversion H2; subst; try contradiction; now eexists).
    pose proof (inv_shows _ _ Hi' Hu) as Hsh. inversion Hss; subst; try contradiction; (eapply shows_eqv; [exact Hsh|now symmetry]).
  Qed.
  (** An aborted batch. *)
  Lemma run_abort tr y s reqs y' : run tr y -> shows y s -> step y (LAbort reqs) y' -> shows y' s.
  Proof.
    intros H Hs Hst. destruct (run_inv _ _ H) as (sy & _ & Hi & _). pose proof (inv_shows_eqv _ _ _ Hi Hs) as He.
    destruct (sim_step _ _ _ _ Hi Hst) as (sy' & Hss & Hi'). assert (up y') as Hu by (inversion Hst; subst; now eexists).
    pose proof (inv_shows _ _ Hi' Hu) as Hsh. inversion Hss; subst. eapply shows_eqv; [exact Hsh|now symmetry].
  Qed.

  (** Any well-formed request can be processed, and is answered without giving up the transaction. *)
  Lemma run_request tr y p rd w done ans r : run tr y -> y_proc y = Some p -> p_writer p = WBusy rd w done ans -> req_wf w r ->
    exists a w', process_append_request rd 16 ps hash order (false, false) (rq_events r) (rq_cond r) (rq_trk r) w = (a, w') /\
      (forall e, a = Err e -> is_abort e = false).
  Proof.
    intros H Hp Hx Hwf. destruct (run_inv _ _ H) as (sy & _ & Hi & _). unfold inv in Hi. rewrite Hp in Hi. destruct Hi as (g & Hi).
    pose proof (u_writer _ _ _ _ _ _ _ _ Hi) as Hw. rewrite Hx in Hw. cbn in Hw. destruct Hw as (_ & PE & PT & PK & s & Ht & _).
    destruct (request_step 16 ps hash order ford Hps ltac:(lia) Hord Hford _ _ _ _ _ _ _ _ _ Ht Hwf) as (w' & _ & _ & _ & E & _).
    exists (spec_append ps s (rq_events r) (rq_cond r) (rq_trk r)).1, w'. split; [exact E|]. intros e He.
    destruct (spec_append ps s (rq_events r) (rq_cond r) (rq_trk r)) as [a s2] eqn:B. cbn in He. subst a.
    destruct (append_cases _ _ _ _ _ _ _ B) as [(t & _ & _ & _ & X & _)|[[_ (c & _ & _ & _ & X)]|[_ [(c & _ & _ & _ & X)|[_ [[_ X]|(e' & _ & Ht' & X)]]]]]]; try discriminate;
      injection X as ->; try reflexivity. unfold spec_track in Ht'. destruct (rq_trk r) as [[src pos]|]; [|discriminate].
    destruct (255 <? nlen src); [now injection Ht' as <-|]. destruct (s_track s src); [destruct (_ <=? _); [now injection Ht' as <-|discriminate]|discriminate].
  Qed.
  Lemma run_free tr y p rd w done ans : run tr y -> y_proc y = Some p -> p_writer p = WBusy rd w done ans ->
    exists w', process_freed_page_ids rd 16 ps ford w = (Ok tt, w').
  Proof.
    intros H Hp Hx. destruct (run_inv _ _ H) as (sy & _ & Hi & _). unfold inv in Hi. rewrite Hp in Hi. destruct Hi as (g & Hi).
    pose proof (u_writer _ _ _ _ _ _ _ _ Hi) as Hw. rewrite Hx in Hw. cbn in Hw. destruct Hw as (Hrd & PE & PT & PK & s & Ht & _).
    pose proof (u_held _ _ _ _ _ _ _ _ Hi) as Hh.
    destruct (commit_ok 16 ps hash order ford Hps ltac:(lia) Hord Hford rd (g_sn (gh_cur g)) (gh_sm g) w PE PT PK s 1) as (w' & sn' & E & _); [|exact Ht|eauto].
    eapply snap_frame; [exact (proj1 Hh)|]. intros q Hq. apply Hrd, Hq.
  Qed.

  (** ** The order in which requests take effect *)
  (** [L]: the requests that took effect, in order.  Each committed batch is among them, in the order of the commits,
      and was answered accordingly; a crash may add a batch whose commit had been asked for. *)
  Inductive lin : list label -> list request -> Prop :=
    | lin_nil : lin [] []
    | lin_commit tr L reqs ans : lin tr L -> (spec_batch ps (spec_batch ps spec_empty L).2 reqs).1 = ans -> lin (tr ++ [LCommit reqs ans]) (L ++ reqs)
    | lin_calm tr L l : lin tr L -> calm l \/ l = LOpen -> lin (tr ++ [l]) L
    | lin_crash tr L l reqs extra : lin tr L -> l = LCrash reqs \/ l = LKill reqs -> extra = [] \/ extra = reqs \/ LUnsure extra ∈ tr -> lin (tr ++ [l]) (L ++ extra).
  Lemma spec_lin tr sy : spec_steps ps spec_init tr sy -> exists L, lin tr L /\ sp_cur sy = (spec_batch ps spec_empty L).2.
  Proof.
    intros H. remember spec_init as y0 eqn:E0. induction H as [y|y tr y' l y'' H IH Hst]; [subst; exists []; split; [constructor|reflexivity]|].
    destruct (IH E0) as (L & HL & Hc). subst y.
    assert (Hsame : calm l \/ l = LOpen -> sp_cur y'' = sp_cur y' -> exists L', lin (tr ++ [l]) L' /\ sp_cur y'' = (spec_batch ps spec_empty L').2).
    { intros Hl E. exists L. split; [now apply lin_calm|congruence]. }
    assert (Hsv : forall reqs s', survives ps y' reqs s' -> (l = LCrash reqs \/ l = LKill reqs) -> sp_cur y'' = s' ->
        exists L', lin (tr ++ [l]) L' /\ sp_cur y'' = (spec_batch ps spec_empty L').2).
    { intros reqs s' Hs Hl E. rewrite E. destruct Hs as [->|[Ha| ->]].
      - exists (L ++ []). split; [eapply lin_crash; [exact HL|exact Hl|now left]|]. now rewrite app_nil_r.
      - destruct (alt_unsure _ _ _ H Ha) as (r0 & Hr & ->). exists (L ++ r0). split; [eapply lin_crash; [exact HL|exact Hl|auto]|]. rewrite batch_app, Hc. reflexivity.
      - exists (L ++ reqs). split; [eapply lin_crash; [exact HL|exact Hl|auto]|]. rewrite batch_app, Hc. reflexivity. }
    inversion Hst; subst; cbn [sp_cur] in *; try (apply Hsame; [cbn; auto|reflexivity]).
    - exists (L ++ reqs). match goal with H : spec_batch ps _ _ = _ |- _ => pose proof H as Hb end. split; [apply lin_commit; [exact HL|]; now rewrite <- Hc, Hb|]. rewrite batch_app, <- Hc, Hb. reflexivity.
    - eapply Hsv; [eassumption|auto|reflexivity].
    - eapply Hsv; [eassumption|auto|reflexivity].
  Qed.
  Lemma run_lin tr y : run tr y -> up y -> exists L, lin tr L /\ shows y (spec_batch ps spec_empty L).2.
  Proof.
    intros H Hu. destruct (run_inv _ _ H) as (sy & Hs & Hi & _). destruct (spec_lin _ _ Hs) as (L & HL & Hc). exists L. split; [exact HL|].
    rewrite <- Hc. now apply inv_shows.
  Qed.
End store.
