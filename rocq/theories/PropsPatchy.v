(** Properties C85 and C86: pages that cannot be read.  Every page a reader, or the writer judging a condition, asks for may fail to
    be read, each time anew (Patchy.v); what readers are answered then (C85), and what the store becomes (C86). *)
From Verif Require Import PatchyRefine Exec PropsStore PropsFindings.
Local Open Scope N_scope.

(** ** About the specification *)
Lemma lax_append_extends ps s r a s' : lax_append ps s r a s' -> extends s s'.
Proof.
  intros [H|(c & _ & _ & _ & [H|[(-> & _)|(-> & _)]])]; try apply extends_refl.
  - pose proof (append_extends ps s (rq_events r) (rq_cond r) (rq_trk r)) as He. now rewrite H in He.
  - pose proof (append_extends ps s (rq_events r) None (rq_trk r)) as He. now rewrite H in He.
Qed.
Lemma lax_append_gapless ps s r a s' : lax_append ps s r a s' -> gapless (s_hist s) -> gapless (s_hist s').
Proof.
  intros [H|(c & _ & _ & _ & [H|[(-> & _)|(-> & _)]])] Hg; try exact Hg.
  - pose proof (append_gapless ps s (rq_events r) (rq_cond r) (rq_trk r) Hg) as He. now rewrite H in He.
  - pose proof (append_gapless ps s (rq_events r) None (rq_trk r) Hg) as He. now rewrite H in He.
Qed.
Lemma lax_batch_extends ps s reqs ans s' : lax_batch ps s reqs ans s' -> extends s s'.
Proof. induction 1 as [|s r a s1 reqs ans s2 H1 H IH]; [apply extends_refl|]. eapply extends_trans; [eapply lax_append_extends, H1|exact IH]. Qed.
Lemma lax_batch_gapless ps s reqs ans s' : lax_batch ps s reqs ans s' -> gapless (s_hist s) -> gapless (s_hist s').
Proof. induction 1 as [|s r a s1 reqs ans s2 H1 H IH]; [auto|]. intros Hg. apply IH. eapply lax_append_gapless; eassumption. Qed.
Lemma lax_step_good ps y l y' : sp_good y -> lax_step ps y l y' -> sp_good y' /\ extends (sp_cur y) (sp_cur y').
Proof.
  intros Hg H. pose proof Hg as (G1 & G2 & G3 & G4).
  assert (Hsv : forall s, gapless (s_hist s) -> sp_good (SSys s None false ∅ ∅)).
  { intros s Hs. split; [exact Hs|]. split; [discriminate|]. split; intros i; [intros l0 s0|intros s0]; cbn; rewrite lookup_empty; discriminate. }
  destruct H as [y l y' H|s calls open reqs ans s' H|s calls open reqs ans s' H|y reqs ans s' H|y reqs ans s' H|y i s0 q start bw limit r H Hr|y i s0 src r H Hr];
    try (split; [exact Hg|apply extends_refl]).
  - eapply spec_step_good; eassumption.
  - cbn in G1, G2, G3, G4 |- *. pose proof (lax_batch_gapless _ _ _ _ _ H G1) as Hg'. split; [|eapply lax_batch_extends, H].
    split; [exact Hg'|]. split; [discriminate|]. split; [|exact G4]. intros i l s0. cbn [sp_calls]. rewrite lookup_fmap.
    destruct (calls !! i) as [l0|] eqn:E; [|discriminate]. cbn. intros [= <-] Hs. apply elem_of_cons in Hs as [->|Hs]; [exact Hg'|eauto].
  - cbn in G1, G2, G3, G4 |- *. split; [|apply extends_refl]. split; [exact G1|]. split; [|split; assumption]. cbn. intros a [= <-].
    split; [eapply lax_batch_extends, H|eapply lax_batch_gapless; eassumption].
  - split; [apply Hsv; eapply lax_batch_gapless; eassumption|eapply lax_batch_extends, H].
  - split; [apply Hsv; eapply lax_batch_gapless; eassumption|eapply lax_batch_extends, H].
Qed.
Lemma lax_steps_good ps y tr y' : sp_good y -> lax_steps ps y tr y' -> sp_good y' /\ extends (sp_cur y) (sp_cur y').
Proof.
  intros Hg H. induction H as [y|y tr y' l y'' H IH Hst]; [split; [exact Hg|apply extends_refl]|].
  destruct (IH Hg) as [Hg' He]. destruct (lax_step_good _ _ _ _ Hg' Hst) as [Hg'' He']. split; [exact Hg''|]. eapply extends_trans; eauto.
Qed.
(** A request without condition, or with one a scan answers, is never misjudged. *)
Definition by_scan (r : request) : Prop := forall c, rq_cond r = Some c -> ~ by_tags (ac_query c).
Lemma lax_exact ps s reqs ans s' : lax_batch ps s reqs ans s' -> Forall by_scan reqs -> spec_batch ps s reqs = (ans, s').
Proof.
  induction 1 as [|s r a s1 reqs ans s2 H1 H IH]; intros Hf; [reflexivity|]. apply Forall_cons in Hf as [Hr Hf].
  destruct H1 as [H1|(c & Hc & Hb & _)]; [|destruct (Hr c Hc Hb)]. cbn [spec_batch]. cbv zeta. rewrite H1. cbn [fst snd]. now rewrite (IH Hf).
Qed.
Lemma spec_lax ps s reqs : lax_batch ps s reqs (spec_batch ps s reqs).1 (spec_batch ps s reqs).2.
Proof.
  revert s. induction reqs as [|r reqs IH]; intros s; [constructor|]. cbn [spec_batch]. cbv zeta. cbn [fst snd]. econstructor; [|apply IH].
  left. apply surjective_pairing.
Qed.

Section props.
  Context (ps : N) (hash : bytes -> bytes) (order : list bytes -> list bytes) (ford : gset N -> list N) (caching : bool).
  Context (Hps : ps_ok ps) (Hps32 : ps < U32) (Hord : forall l t, t ∈ order l <-> t ∈ l) (Hford : forall s, ford s ≡ₚ elements s).
  Notation qstep := (qstep 16 ps hash order ford caching).
  Notation qsteps := (qsteps 16 ps hash order ford caching).
  Notation inv := (inv 16 ps hash caching).
  Notation lax_inv := (lax_inv ps hash caching).
  Notation shows := (shows hash order).
  Definition qrun (tr : list label) (y : sys) : Prop := qsteps (init_sys 16 ps) tr y.

  (** Everything that happens without failures can happen here. *)
  Theorem patchy_includes tr y : run ps hash order ford caching tr y -> qrun tr y.
  Proof.
    unfold qrun, run. generalize (init_sys 16 ps). intros y0 H. induction H as [|y0 tr y1 l y2 H IH Hs]; [constructor|].
    econstructor; [exact IH|now constructor].
  Qed.
  Lemma lax_inv_shows y sy : lax_inv y sy -> up y -> shows y (sp_cur sy).
  Proof.
    intros (b & Hi & _) [p Hp]. destruct y as [d o]. cbn in Hp. subst o.
    destruct (inv_shows ps hash order ford caching Hps Hps32 Hord Hford _ _ Hi ltac:(now eexists)) as (p' & Hp' & H). cbn in Hp'. injection Hp' as <-.
    exists p. split; [reflexivity|exact H].
  Qed.
  Lemma lax_inv_eqv y sy s : lax_inv y sy -> shows y s -> eqv s (sp_cur sy).
  Proof. intros H Hs. apply (shows_unique hash order y); [exact Hs|]. apply lax_inv_shows; [exact H|]. destruct Hs as (p & Hp & _). now exists p. Qed.
  Lemma qrun_inv tr y : qrun tr y -> exists sy, lax_steps ps spec_init tr sy /\ lax_inv y sy /\ sp_good sy.
  Proof.
    intros H. assert (lax_inv (init_sys 16 ps) spec_init) as Hi.
    { exists ([], []). split; [|cbn; discriminate]. exact (init_inv ps hash order ford caching Hps Hps32 Hord Hford). }
    destruct (sim_lax_steps ps hash order ford caching Hps Hps32 Hord Hford _ _ _ _ Hi H) as (sy & H1 & H2).
    exists sy. split; [exact H1|]. split; [exact H2|]. exact (proj1 (lax_steps_good _ _ _ _ spec_init_good H1)).
  Qed.

  (** ** The refinement *)
  Theorem patchy_refines tr y : qrun tr y -> exists sy, lax_steps ps spec_init tr sy /\ (up y -> shows y (sp_cur sy)).
  Proof. intros H. destruct (qrun_inv _ _ H) as (sy & H1 & H2 & _). exists sy. split; [exact H1|]. intros Hu. now apply lax_inv_shows. Qed.


  (** The requests the writer answers when it can read what it asks for are among those of [processed]. *)
  Theorem processed_ordinary tr d p rd w done ans r a w' : qrun tr (Sys d (Some p)) -> p_writer p = WBusy rd w done ans ->
    process_append_request rd 16 ps hash order (false, false) (rq_events r) (rq_cond r) (rq_trk r) w = (a, w') ->
    processed 16 ps hash order rd r w a w'.
  Proof.
    intros H Hx E. destruct (qrun_inv _ _ H) as (sy & _ & (b & (g & Hi) & _) & _). pose proof (u_writer _ _ _ _ _ _ _ _ Hi) as Hw.
    cbn [y_proc swap_sys fmap option_fmap option_map swap p_writer set_writer] in Hw. rewrite Hx in Hw. destruct Hw as (_ & PE & PT & PK & s & Ht & _).
    pose proof (ti_db _ _ _ _ _ _ _ _ _ _ _ Ht) as Hdb.
    assert (Hr : forall q start limit, read_patchy hash order rd w q start limit (Ok (spec_read (s_hist s) q start false (Some limit)))).
    { intros q start limit. pose proof (read_dirty_ok rd 16 ps hash order Hps ltac:(lia) Hord _ _ _ _ _ _ q start limit Hdb) as Hd.
      unfold read_dirty, with_cancel in Hd. apply pair_equal_spec in Hd as [Hd _]. rewrite <- Hd. unfold read_patchy. rewrite <- read_conditional_once. apply may_once. }
    assert (Hd : forall q start limit, read_dirty rd hash order false q start limit w = (Ok (spec_read (s_hist s) q start false (Some limit)), w)).
    { intros. eapply (read_dirty_ok rd 16 ps hash order Hps ltac:(lia) Hord); exact Hdb. }
    assert (exists early, judged hash order rd w (rq_events r) (rq_cond r) early /\
      check_condition rd hash order (false, false) (rq_events r) (rq_cond r) w = (early, w)) as (early & Hj & He).
    { unfold judged, check_condition. destruct (rq_cond r) as [c|]; [|now exists (Ok None)]. cbn [fst snd]. unfold wbind at 1. rewrite Hd.
      set (from := match ac_after c with Some a => Some ((a + 1) mod U64) | None => None end).
      destruct (spec_read (s_hist s) (ac_query c) from false (Some 1)) as [|e l] eqn:E1.
      { exists (Ok None). split; [|reflexivity]. exists []. split; [|reflexivity]. rewrite <- E1. apply Hr. }
      assert (Hf : read_patchy hash order rd w (ac_query c) from 1 (Ok (e :: l))) by (rewrite <- E1; apply Hr).
      unfold is_request_idempotent. destruct (forallb _ (rq_events r) && _) eqn:Eid.
      - exists (verdict (rq_events r) (spec_read (s_hist s) (ac_query c) from false (Some (nlen (rq_events r))))). split.
        { exists (e :: l). split; [exact Hf|]. eexists. split; [apply Hr|reflexivity]. }
        unfold wbind. rewrite Hd. unfold verdict. destruct (_ =? _); [|reflexivity]. destruct (last _) as [e'|]; [|reflexivity]. destruct (decide _); reflexivity.
      - exists (Err EIntegrity). split; [|reflexivity]. exists (e :: l). split; [exact Hf|reflexivity]. }
    exists early. split; [exact Hj|]. rewrite <- E. unfold process_append_request. unfold wbind at 1. rewrite He. destruct early as [[p0|]|e]; reflexivity.
  Qed.

  (** ** C85: readers *)
  (** The events a reader is given are events of the state it shows that match, each once and in order; all of them, up to the limit,
      if the query is not only by tags. *)
  Theorem patchy_reads_true tr y i q start bw limit evs hd y' : qrun tr y -> qstep y (LRead i q start bw limit (Ok (evs, hd))) y' ->
    exists sy s, lax_steps ps spec_init tr sy /\ sp_open sy !! i = Some s /\ gapless (s_hist s) /\
      evs `sublist_of` spec_read (s_hist s) q start bw None /\ match limit with Some k => nlen evs <= k | None => True end /\
      hd = spec_read_head s limit evs /\ (~ by_tags q -> evs = spec_read (s_hist s) q start bw limit).
  Proof.
    intros H Hs. destruct (qrun_inv _ _ H) as (sy & H1 & H2 & Hg). destruct (sim_lax ps hash order ford caching Hps Hps32 Hord Hford _ _ _ _ H2 Hs) as (sy' & Hl & _).
    assert (exists s, sp_open sy !! i = Some s /\ patchy_read s q start bw limit (Ok (evs, hd))) as (s & Ho & Hr).
    { inversion Hl as [? ? ? Hsp| | | | |y0 i0 s0 ? ? ? ? ? Ho Hr|]; subst; [|eauto]. inversion Hsp; subst. eexists. split; [eassumption|]. right. eexists. split; [reflexivity|now left]. }
    exists sy, s. split; [exact H1|]. split; [exact Ho|]. split; [exact (proj2 (proj2 (proj2 Hg)) i s Ho)|].
    destruct Hr as [(e & X)|(evs' & E & Hp)]; [discriminate X|]. injection E as <- ->. split; [|split; [|split; [reflexivity|]]].
    - destruct Hp as [->|(_ & Hp & _)]; [|exact Hp]. rewrite !spec_read_eq. apply cut_sublist.
    - destruct Hp as [->|(_ & _ & Hp)]; [|exact Hp]. rewrite spec_read_eq. apply cut_within.
    - intros Hb. destruct Hp as [->|(X & _)]; [reflexivity|contradiction].
  Qed.
  Theorem patchy_tracking_true tr y i src r y' : qrun tr y -> qstep y (LTrack i src (Ok r)) y' ->
    exists sy s, lax_steps ps spec_init tr sy /\ sp_open sy !! i = Some s /\ r = s_track s src.
  Proof.
    intros H Hs. destruct (qrun_inv _ _ H) as (sy & H1 & H2 & Hg). destruct (sim_lax ps hash order ford caching Hps Hps32 Hord Hford _ _ _ _ H2 Hs) as (sy' & Hl & _).
    exists sy. inversion Hl as [? ? ? Hsp| | | | | |y0 i0 s0 ? ? Ho Hr]; subst.
    - inversion Hsp; subst. eauto.
    - exists s0. split; [exact H1|]. split; [exact Ho|]. destruct Hr as [(e & X)|X]; congruence.
  Qed.

  (** ** C86: the store *)
  Theorem patchy_commit tr y reqs ans y' : qrun tr y -> qstep y (LCommit reqs ans) y' ->
    exists s s', shows y s /\ lax_batch ps s reqs ans s' /\ shows y' s'.
  Proof.
    intros H Hs. destruct (qrun_inv _ _ H) as (sy & H1 & H2 & Hg). destruct (sim_lax ps hash order ford caching Hps Hps32 Hord Hford _ _ _ _ H2 Hs) as (sy' & Hl & Hi').
    assert (up y /\ up y') as [Hu Hu'] by (inversion Hs as [? ? ? Hst| | |]; subst; inversion Hst; subst; split; now eexists).
    exists (sp_cur sy), (sp_cur sy'). split; [now apply lax_inv_shows|]. split; [|now apply lax_inv_shows].
    inversion Hl as [? ? ? Hsp|s0 calls op ? ? ? Hb| | | | |]; subst; [|exact Hb]. inversion Hsp as [|? ? ? ? ? ? Hb| | | | | | | | | | |]; subst. cbn.
    pose proof (spec_lax ps s reqs) as X. now rewrite Hb in X.
  Qed.
  Theorem patchy_commit_exact tr y reqs ans y' : qrun tr y -> qstep y (LCommit reqs ans) y' -> Forall by_scan reqs ->
    exists s s', shows y s /\ spec_batch ps s reqs = (ans, s') /\ shows y' s'.
  Proof. intros H Hs Hf. destruct (patchy_commit _ _ _ _ _ H Hs) as (s & s' & H1 & H2 & H3). exists s, s'. split; [exact H1|]. split; [now apply lax_exact|exact H3]. Qed.
  (** Nothing that was stored is lost, altered or moved, whatever could not be read, and over any crashes. *)
  Theorem patchy_keeps tr y s tr' y' s' : qrun tr y -> shows y s -> qsteps y tr' y' -> shows y' s' ->
    extends s s' /\ gapless (s_hist s').
  Proof.
    intros H Hs H' Hs'. destruct (qrun_inv _ _ H) as (sy & _ & Hi & Hg). destruct (sim_lax_steps ps hash order ford caching Hps Hps32 Hord Hford _ _ _ _ Hi H') as (sy' & Hst & Hi').
    destruct (lax_steps_good _ _ _ _ Hg Hst) as [Hg' He]. pose proof (lax_inv_eqv _ _ _ Hi Hs) as E1. pose proof (lax_inv_eqv _ _ _ Hi' Hs') as E2. split.
    - eapply extends_eqv; [symmetry; exact E1|symmetry; exact E2|exact He].
    - destruct E2 as [-> _]. exact (proj1 Hg').
  Qed.

  (** ** To run an execution *)
  Lemma qsteps_app y t1 y1 t2 y2 : qsteps y t1 y1 -> qsteps y1 t2 y2 -> qsteps y (t1 ++ t2) y2.
  Proof. intros H1 H2. induction H2 as [|y1 t2 y2 l y3 H2 IH Hs]; [now rewrite app_nil_r|]. rewrite app_assoc. econstructor; [now apply IH|exact Hs]. Qed.
  Lemma qexec_ok s : forall tr0 y tr y', qrun tr0 y -> exec 16 ps hash order ford caching y s = Some (tr, y') -> qrun (tr0 ++ tr) y'.
  Proof.
    induction s as [|a s IH]; intros tr0 y tr y' H; cbn [exec]; [intros [= <- <-]; now rewrite app_nil_r|].
    destruct (exec1 _ _ _ _ _ _ y a) as [[l y1]|] eqn:E1; [|discriminate]. destruct (exec _ _ _ _ _ _ y1 s) as [[tr1 y2]|] eqn:E2; [|discriminate]. intros [= <- <-].
    replace (tr0 ++ l :: tr1) with ((tr0 ++ [l]) ++ tr1) by (now rewrite <- app_assoc). apply (IH _ y1); [|exact E2]. econstructor; [exact H|]. constructor.
    eapply exec1_ok; [|exact E1]. intros p Hp. destruct (qrun_inv _ _ H) as (sy & _ & (b & Hi & _) & _). destruct y as [d o]. cbn in Hp. subst o.
    destruct Hi as (g & Hi). exact (u_cur _ _ _ _ _ _ _ _ Hi).
  Qed.
End props.

(** ** Concrete case *)
(** What a program results in when the [i]th page it asks for cannot be read, for each [i] with [cs !! i = Some true]. *)
Fixpoint pick {A} (cs : list bool) (rd : snapshot) (t : prog A) : A :=
  match t with Ret b => b | Ask q k => match cs with true :: cs' => pick cs' rd (k (Err EIo)) | false :: cs' => pick cs' rd (k (rd q)) | [] => pick [] rd (k (rd q)) end end.
Lemma pick_may {A} rd (t : prog A) : forall cs, may rd t (pick cs rd t).
Proof. induction t as [a|q k IH]; intros cs; cbn; [reflexivity|]. destruct cs as [|[|] cs]; [left; apply IH|right; exists EIo; apply IH|left; apply IH]. Qed.

Notation q_run := (qrun 4096 f_hash (fun l => l) x_ford true).
Definition q_two := Req [NE [1] [] [[97]] None []; NE [1] [2] [[98]] None []] None None.
Definition q_ab : query := [QItem [] [[97]]; QItem [] [[98]]].
Definition q_cond := Req [NE [1] [] [] None []] (Some (ACond f_query None)) None.
Definition q_ev2 : seq_event := (2, to_record None (NE [1] [2] [[98]] None [])).
(** A read of the events with either tag, the page with the root of the tag index not being readable at first; then a request on
    condition that there is no event with the first tag, judged without that page. *)
Definition q_mid (y : sys) : option (res (list seq_event * option N) * res N * sys) :=
  match y with
  | Sys d (Some p) =>
    match p_writer p, p_readers p !! 0%nat with
    | WBusy rd w [] [], Some (ROpen h) =>
      let pg := page_at rd (w_dirty w) in let np := N.to_nat (w_next_page w) in let fd := fetch 16 (p_cache p) d in
      match pick [true] pg (read_conditional_prog (scan_fuel pg np) np f_hash (fun l => l) (w_events_root w) (w_tags_root w) f_query None false (Some 1) false),
            process_append_request rd 16 4096 f_hash (fun l => l) (false, false) (rq_events q_cond) None (rq_trk q_cond) w with
      | Ok [], (Ok a, w') =>
        if decide (req_wf' w q_cond)
        then Some (pick [true] fd (read_prog (scan_fuel fd (N.to_nat (h_next_page h.2))) f_hash (fun l => l) h.2 q_ab None false None false), Ok a,
                   Sys d (Some (set_writer (WBusy rd w' [q_cond] [Ok a]) p)))
        else None
      | _, _ => None
      end
    | _, _ => None
    end
  | _ => None
  end.
Definition q_exec (s1 s2 : list act) :=
  match f_exec s1 with
  | Some (t1, y1) =>
    match q_mid y1 with
    | Some (r, a, y2) => match exec 16 4096 f_hash (fun l => l) x_ford true y2 s2 with Some (t2, _) => Some (t1, r, a, t2) | None => None end
    | None => None
    end
  | None => None
  end.
Lemma q_exec_ok s1 s2 t1 r a t2 : q_exec s1 s2 = Some (t1, r, a, t2) -> exists y, q_run (((t1 ++ [LRead 0 q_ab None false None r]) ++ [LTau]) ++ t2) y.
Proof.
  unfold q_exec. destruct (f_exec s1) as [[t1' y1]|] eqn:E1; [|discriminate]. destruct (q_mid y1) as [[[r' a'] y2]|] eqn:E2; [|discriminate].
  destruct (exec _ _ _ _ _ _ y2 s2) as [[t2' y3]|] eqn:E3; [|discriminate]. intros [= -> -> -> ->]. exists y3.
  destruct (f_runs s1 t1) as (y1' & H1 & E1'); [now rewrite E1|]. assert (y1' = y1) as -> by congruence. clear E1 E1'.
  apply (patchy_includes 4096 f_hash (fun l => l) x_ford true) in H1.
  destruct y1 as [d [p|]]; [|discriminate E2]. cbn [q_mid] in E2.
  destruct (p_writer p) as [|rd w done ans| | | |] eqn:Hw; try discriminate E2. destruct done; [|discriminate E2]. destruct ans; [|discriminate E2].
  destruct (p_readers p !! 0%nat) as [ph|] eqn:Hr; [|discriminate E2]. destruct ph as [| | | | |h]; try discriminate E2. cbv zeta in E2.
  destruct (pick [true] _ (read_conditional_prog _ _ _ _ _ _ _ _ _ _ _)) as [found|] eqn:Ep; [|discriminate E2]. destruct found; [|discriminate E2].
  destruct (process_append_request _ _ _ _ _ _ _ _ _ w) as [[a0|] w'] eqn:Epr; [|discriminate E2].
  destruct (decide _) as [Hwf|]; [|discriminate E2]. injection E2 as Er <- <-.
  eapply (qexec_ok 4096 f_hash (fun l => l) x_ford true f_ps f_ps32 x_ord x_ford_ok s2); [|exact E3].
  econstructor; [econstructor; [exact H1|]|].
  - rewrite <- Er. eapply Q_read; [exact Hr|]. apply pick_may.
  - eapply (Q_request _ _ _ _ _ _ _ _ rd w [] [] q_cond (Ok a0) w'); [exact Hw|apply req_wf'_ok; exact Hwf| |exact I].
    exists (Ok None). split; [|now rewrite Epr]. exists []. split; [|reflexivity]. rewrite <- Ep. apply pick_may.
Qed.
(** Two events are stored.  A reader asks for events with either tag and gets the second only.  A request on condition that there be
    no event with the first tag is accepted and committed. *)
Example q_happens : exists t1 t2 y, q_run (((t1 ++ [LRead 0 q_ab None false None (Ok ([q_ev2], Some 2))]) ++ [LTau]) ++ t2) y /\
  LCommit [q_two] [Ok 2] ∈ t1 /\ LCommit [q_cond] [Ok 3] ∈ t2 /\ (spec_batch 4096 spec_empty [q_two; q_cond]).1 = [Ok 2; Err EIntegrity].
Proof.
  exists (replicate 8 LTau ++ LCommit [q_two] [Ok 2] :: LCall 0 :: replicate 4 LTau ++ [LReady 0; LTau]), (replicate 5 LTau ++ [LCommit [q_cond] [Ok 3]]).
  destruct (q_exec_ok (x_batch [q_two] 3 ++ [ADone] ++ x_reader 0 ++ [ABegin]) (ACommit :: replicate 2 APage ++ [ASync; AHeader; ADone])
    (replicate 8 LTau ++ LCommit [q_two] [Ok 2] :: LCall 0 :: replicate 4 LTau ++ [LReady 0; LTau]) (Ok ([q_ev2], Some 2)) (Ok 3)
    (replicate 5 LTau ++ [LCommit [q_cond] [Ok 3]])) as (y & H); [vm_compute; reflexivity|].
  exists y. split; [exact H|]. split; [set_solver|]. split; [set_solver|]. vm_compute. reflexivity.
Qed.

Print Assumptions patchy_refines.
Print Assumptions patchy_includes.
Print Assumptions processed_ordinary.
Print Assumptions patchy_reads_true.
Print Assumptions patchy_tracking_true.
Print Assumptions patchy_commit.
Print Assumptions patchy_commit_exact.
Print Assumptions patchy_keeps.
