(** Facts about the specification alone: what Spec.v and SpecSys.v promise. *)
From Verif Require Export Store SpecSys.
Local Open Scope N_scope.

(** ** Histories *)
(** The events are at positions 1, 2, 3, … *)
Definition gapless (h : list seq_event) : Prop := map fst h = seqN 1 (length h).

Lemma number_fst p rs : map fst (number p rs) = seqN p (length rs).
Proof. revert p. induction rs as [|r rs IH]; intros p; [reflexivity|]. cbn. now rewrite IH. Qed.
Lemma number_snd p rs : map snd (number p rs) = rs.
Proof. revert p. induction rs as [|r rs IH]; intros p; [reflexivity|]. cbn. now rewrite IH. Qed.
Lemma number_length p rs : length (number p rs) = length rs.
Proof. revert p. induction rs as [|r rs IH]; intros p; [reflexivity|]. cbn. now rewrite IH. Qed.
Lemma number_lookup p rs i r : rs !! i = Some r -> number p rs !! i = Some (p + N.of_nat i, r).
Proof.
  revert p i. induction rs as [|x rs IH]; intros p i H; [discriminate|]. destruct i as [|i]; cbn in *; [injection H as ->; now rewrite N.add_0_r|].
  rewrite (IH _ _ H). now replace (p + 1 + N.of_nat i) with (p + N.of_nat (S i)) by lia.
Qed.
Lemma seqN_app a m n : seqN a (m + n) = seqN a m ++ seqN (a + N.of_nat m) n.
Proof.
  revert a. induction m as [|m IH]; intros a; cbn [seqN plus app]; [now rewrite N.add_0_r|]. rewrite IH. now replace (a + 1 + N.of_nat m) with (a + N.of_nat (S m)) by lia.
Qed.
Lemma gapless_app h rs : gapless h -> gapless (h ++ number (1 + nlen h) rs).
Proof.
  unfold gapless. intros H. rewrite map_app, H, number_fst, app_length, number_length, seqN_app. reflexivity.
Qed.
Lemma gapless_pos h e : gapless h -> e ∈ h -> 1 <= e.1 <= nlen h.
Proof.
  intros H He. assert (e.1 ∈ map fst h) as Hi by (apply elem_of_list_fmap; eauto). rewrite H, elem_of_seqN in Hi. unfold nlen. lia.
Qed.
Lemma head_last s : gapless (s_hist s) -> spec_head s = (fst <$> last (s_hist s)).
Proof.
  unfold gapless, spec_head. intros H. destruct (s_hist s) as [|e l] eqn:E; [reflexivity|]. assert (e :: l <> []) as Hne by discriminate.
  destruct (exists_last Hne) as (l' & x & El). rewrite El in *. rewrite last_snoc. cbn.
  rewrite map_app, app_length, seqN_app in H. cbn [map length seqN] in H. apply app_inj_tail in H as [_ H]. destruct (l' ++ [x]) eqn:E'; [discriminate|]. rewrite <- E'.
  f_equal. rewrite H. unfold nlen. rewrite app_length. cbn. lia.
Qed.
Lemma last_number p rs : rs <> [] -> last_pos (number p rs) = p + nlen rs - 1.
Proof.
  intros Hne. destruct (exists_last Hne) as (rs' & r & ->). clear Hne.
  assert (number p (rs' ++ [r]) = number p rs' ++ [(p + nlen rs', r)]) as ->.
  { revert p. induction rs' as [|x rs' IH]; intros p; [cbn; now rewrite N.add_0_r|]. cbn [app number]. rewrite IH. unfold nlen. cbn [length]. now replace (p + 1 + N.of_nat (length rs')) with (p + N.of_nat (S (length rs'))) by lia. }
  unfold last_pos. rewrite last_snoc. cbn. rewrite nlen_app. change (nlen [r]) with 1. lia.
Qed.

(** ** Reads *)
Lemma read_elem h q start bw e : e ∈ spec_read h q start bw None <-> e ∈ h /\ Spec.in_range start bw e.1 /\ q_matches q e.2.
Proof.
  unfold spec_read. cbn [cut]. destruct bw.
  - rewrite elem_of_list_In, <- in_rev, <- elem_of_list_In. rewrite elem_of_list_filter. tauto.
  - rewrite elem_of_list_filter. tauto.
Qed.
Lemma read_limit h q start bw k : spec_read h q start bw (Some k) = take (N.to_nat k) (spec_read h q start bw None).
Proof. reflexivity. Qed.
(** In order of position, or against it. *)
Lemma read_sorted h q start limit : gapless h ->
  StronglySorted N.lt (map fst (spec_read h q start false limit)) /\ StronglySorted (fun a b => b < a) (map fst (spec_read h q start true limit)).
Proof.
  intros Hg. assert (Hs : forall a n, StronglySorted N.lt (seqN a n)).
  { intros a n. revert a. induction n as [|n IH]; intros a; cbn; constructor; [apply IH|]. rewrite Forall_forall. intros x. rewrite elem_of_seqN. lia. }
  assert (Hf : forall h0 (P : seq_event -> Prop) `{forall x, Decision (P x)}, StronglySorted N.lt (map fst h0) -> StronglySorted N.lt (map fst (filter P h0))).
  { intros h0 P HP. induction h0 as [|e h0 IH]; intros Hss; [constructor|]. inversion Hss as [|? ? Hss1 Hall]; subst. rewrite filter_cons.
    destruct (decide (P e)); [|auto]. cbn. constructor; [auto|]. rewrite Forall_forall in Hall |- *. intros x Hx. apply Hall.
    apply elem_of_list_fmap in Hx as (y & -> & Hy). apply elem_of_list_filter in Hy as [_ Hy]. apply elem_of_list_fmap. eauto. }
  assert (Ht : forall (R : N -> N -> Prop) n l, StronglySorted R l -> StronglySorted R (take n l)).
  { intros R n l. revert n. induction l as [|x l IH]; intros n H; destruct n; cbn; try constructor.
    - inversion H; subst. auto.
    - inversion H as [|? ? _ Hall]; subst. rewrite Forall_forall in Hall |- *. intros y Hy. apply Hall. eapply elem_of_list_lookup in Hy as (i & Hi).
      apply lookup_take_Some in Hi as [Hi _]. eapply elem_of_list_lookup_2. exact Hi. }
  assert (Hr : forall l, StronglySorted N.lt l -> StronglySorted (fun a b => b < a) (rev l)).
  { induction l as [|x l IH]; intros H; [constructor|]. inversion H as [|? ? H1 Hall]; subst. cbn. specialize (IH H1). revert IH.
    assert (Hall' : Forall (fun y => x < y) (rev l)) by (rewrite Forall_forall in Hall |- *; intros y Hy; apply Hall; rewrite elem_of_list_In in Hy |- *; now apply in_rev).
    revert Hall'. generalize (rev l). clear. induction l as [|y l IH]; intros Ha Hs; [repeat constructor|]. inversion Hs; subst. inversion Ha; subst. cbn.
    constructor; [auto|]. apply Forall_app. split; [assumption|]. constructor; [assumption|constructor]. }
  unfold spec_read. split.
  - assert (StronglySorted N.lt (map fst (filter (fun e => Spec.in_range start false e.1 /\ q_matches q e.2) h))) as H by (apply Hf; rewrite Hg; apply Hs).
    destruct limit; cbn [cut]; [|exact H]. rewrite <- firstn_map. apply Ht, H.
  - assert (StronglySorted N.lt (map fst (filter (fun e => Spec.in_range start true e.1 /\ q_matches q e.2) h))) as H by (apply Hf; rewrite Hg; apply Hs).
    apply Hr in H. rewrite <- map_rev in H. destruct limit; cbn [cut]; [|exact H]. rewrite <- firstn_map. apply Ht, H.
Qed.

(** ** One append *)
(** [h'] has the events of [h], and the tracked positions are no lower. *)
Definition extends (s s' : spec_state) : Prop :=
  s_hist s `prefix_of` s_hist s' /\ forall x t, s_track s x = Some t -> exists t', s_track s' x = Some t' /\ t <= t'.
Lemma extends_refl s : extends s s.
Proof. split; [reflexivity|]. intros x t H. exists t. split; [exact H|lia]. Qed.
Lemma extends_trans s1 s2 s3 : extends s1 s2 -> extends s2 s3 -> extends s1 s3.
Proof.
  intros [H1 H2] [H3 H4]. split; [now transitivity (s_hist s2)|]. intros x t Ht. destruct (H2 x t Ht) as (t' & Ht' & Hle).
  destruct (H4 x t' Ht') as (t'' & Ht'' & Hle'). exists t''. split; [exact Ht''|lia].
Qed.

Lemma track_extends t trk t' : spec_track t trk = Ok t' -> forall x v, t x = Some v -> exists v', t' x = Some v' /\ v <= v'.
Proof.
  unfold spec_track. destruct trk as [[src pos]|]; [|intros [= <-]; intros x v H; exists v; split; [exact H|lia]].
  destruct (255 <? nlen src); [discriminate|]. destruct (t src) as [e|] eqn:E.
  - destruct (N.leb_spec pos e) as [|Hlt]; [discriminate|]. intros [= <-] x v Hx. destruct (decide (x = src)) as [->|]; [|exists v; split; [exact Hx|lia]].
    exists pos. split; [reflexivity|]. assert (e = v) as -> by congruence. lia.
  - intros [= <-] x v Hx. destruct (decide (x = src)) as [->|]; [congruence|exists v; split; [exact Hx|lia]].
Qed.

(** The three outcomes: new events, a repeated request, an error. *)
Lemma append_cases ps s evs cond trk a s' : spec_append ps s evs cond trk = (a, s') ->
  (exists t, spec_track (s_track s) trk = Ok t /\ Forall (event_ok ps) (map (to_record trk) evs) /\
     (forall c, cond = Some c -> events_after (s_hist s) c 1 = []) /\
     a = Ok (last_pos (number (1 + nlen (s_hist s)) (map (to_record trk) evs))) /\
     s' = SState (s_hist s ++ number (1 + nlen (s_hist s)) (map (to_record trk) evs)) t) \/
  (s' = s /\ exists c, cond = Some c /\ events_after (s_hist s) c 1 <> [] /\ is_retry (s_hist s) evs c /\
     a = Ok (last_pos (events_after (s_hist s) c (nlen evs)))) \/
  (s' = s /\ ((exists c, cond = Some c /\ events_after (s_hist s) c 1 <> [] /\ ~ is_retry (s_hist s) evs c /\ a = Err EIntegrity) \/
     ((forall c, cond = Some c -> events_after (s_hist s) c 1 = []) /\
       ((~ Forall (event_ok ps) (map (to_record trk) evs) /\ a = Err EInvalidArgument) \/
        (exists e, Forall (event_ok ps) (map (to_record trk) evs) /\ spec_track (s_track s) trk = Err e /\ a = Err e))))).
Proof.
  unfold spec_append. intros H.
  assert (Hacc : (if decide (Forall (event_ok ps) (map (to_record trk) evs)) then
      match spec_track (s_track s) trk with
      | Ok t => (Ok (last_pos (number (1 + nlen (s_hist s)) (map (to_record trk) evs))),
           SState (s_hist s ++ number (1 + nlen (s_hist s)) (map (to_record trk) evs)) t)
      | Err e => (Err e, s) end else (Err EInvalidArgument, s)) = (a, s') -> (forall c, cond = Some c -> events_after (s_hist s) c 1 = []) ->
    (exists t, spec_track (s_track s) trk = Ok t /\ Forall (event_ok ps) (map (to_record trk) evs) /\
     (forall c, cond = Some c -> events_after (s_hist s) c 1 = []) /\
     a = Ok (last_pos (number (1 + nlen (s_hist s)) (map (to_record trk) evs))) /\
     s' = SState (s_hist s ++ number (1 + nlen (s_hist s)) (map (to_record trk) evs)) t) \/
    (s' = s /\ ((forall c, cond = Some c -> events_after (s_hist s) c 1 = []) /\
       ((~ Forall (event_ok ps) (map (to_record trk) evs) /\ a = Err EInvalidArgument) \/
        (exists e, Forall (event_ok ps) (map (to_record trk) evs) /\ spec_track (s_track s) trk = Err e /\ a = Err e))))).
  { intros E Hc. destruct (decide _) as [Hok|Hok].
    - destruct (spec_track (s_track s) trk) as [t|e] eqn:Et.
      + left. exists t. inversion E; subst; auto 10.
      + right. inversion E; subst. split; [reflexivity|]. split; [exact Hc|]. right. exists e. auto.
    - right. inversion E; subst. split; [reflexivity|]. split; [exact Hc|]. left. auto. }
  destruct cond as [c|].
  - destruct (events_after (s_hist s) c 1) as [|e0 l0] eqn:Ee.
    + destruct Hacc as [Ha|[Hs Ha]]; [exact H|intros c' [= <-]; exact Ee|left; exact Ha|right; right; split; [exact Hs|right; exact Ha]].
    + destruct (decide (is_retry (s_hist s) evs c)) as [Hr|Hr]; inversion H; subst.
      * right. left. split; [reflexivity|]. exists c. rewrite Ee. split; [reflexivity|]. split; [congruence|]. auto.
      * right. right. split; [reflexivity|]. left. exists c. rewrite Ee. split; [reflexivity|]. split; [congruence|]. auto.
  - destruct Hacc as [Ha|[Hs Ha]]; [exact H|discriminate|left; exact Ha|right; right; split; [exact Hs|right; exact Ha]].
Qed.

Lemma append_extends ps s evs cond trk : extends s (spec_append ps s evs cond trk).2.
Proof.
  destruct (spec_append ps s evs cond trk) as [a s'] eqn:E. cbn.
  destruct (append_cases _ _ _ _ _ _ _ E) as [(t & Ht & _ & _ & _ & ->)|[[-> _]|[-> _]]]; [|apply extends_refl|apply extends_refl].
  split; [now exists (number (1 + nlen (s_hist s)) (map (to_record trk) evs))|]. intros x v Hx. exact (track_extends _ _ _ Ht x v Hx).
Qed.
Lemma append_gapless ps s evs cond trk : gapless (s_hist s) -> gapless (s_hist (spec_append ps s evs cond trk).2).
Proof.
  intros Hg. destruct (spec_append ps s evs cond trk) as [a s'] eqn:E. cbn.
  destruct (append_cases _ _ _ _ _ _ _ E) as [(t & Ht & _ & _ & _ & ->)|[[-> _]|[-> _]]]; [now apply gapless_app|exact Hg|exact Hg].
Qed.

(** ** Conditions *)
(** An event the condition is about. *)
Definition conflicts (c : append_condition) (e : seq_event) : Prop :=
  match ac_after c with Some a => a < e.1 | None => True end /\ q_matches (ac_query c) e.2.
Global Instance conflicts_dec c e : Decision (conflicts c e).
Proof. unfold conflicts. destruct (ac_after c); apply _. Defined.
Lemma events_after_filter h c k : events_after h c k = take (N.to_nat k) (filter (conflicts c) h).
Proof.
  unfold events_after, spec_read. cbn [cut]. f_equal. apply list_filter_iff. intros e. unfold conflicts, Spec.in_range.
  destruct (ac_after c); [|tauto]. assert (n + 1 <= e.1 <-> n < e.1) by lia. tauto.
Qed.
Lemma conflict_iff h c : events_after h c 1 <> [] <-> exists e, e ∈ h /\ conflicts c e.
Proof.
  rewrite events_after_filter. change (N.to_nat 1) with 1%nat. split.
  - destruct (filter (conflicts c) h) as [|e l] eqn:E; [contradiction|]. intros _. exists e.
    assert (e ∈ filter (conflicts c) h) as He by (rewrite E; set_solver). apply elem_of_list_filter in He. tauto.
  - intros (e & He & Hc). assert (e ∈ filter (conflicts c) h) as Hf by (apply elem_of_list_filter; auto).
    destruct (filter (conflicts c) h); [inversion Hf|discriminate].
Qed.
Lemma no_conflict_iff h c : events_after h c 1 = [] <-> forall e, e ∈ h -> ~ conflicts c e.
Proof.
  pose proof (conflict_iff h c) as H. destruct (events_after h c 1) as [|x l] eqn:E.
  - split; [|reflexivity]. intros _ e He Hc. apply (proj2 H); [eauto|reflexivity].
  - split; [discriminate|]. intros Hn. destruct (proj1 H) as (e & He & Hc); [discriminate|]. exfalso. exact (Hn e He Hc).
Qed.

(** ** Retries *)
Lemma retry_stable h h' evs c : is_retry h evs c -> is_retry (h ++ h') evs c /\ events_after (h ++ h') c (nlen evs) = events_after h c (nlen evs).
Proof.
  intros (H1 & H2 & H3). assert (Hev : events_after (h ++ h') c (nlen evs) = events_after h c (nlen evs)).
  { rewrite !events_after_filter in *. rewrite filter_app. apply (f_equal length) in H3. rewrite !map_length, take_length in H3.
    rewrite take_app_le; [reflexivity|]. unfold nlen in *. lia. }
  split; [|exact Hev]. split; [exact H1|]. split; [exact H2|]. now rewrite Hev.
Qed.
(** A request just accepted counts as repeated from then on. *)
Lemma accepted_retry h evs c trk : evs <> [] -> Forall (fun e => is_Some (ne_uuid e)) evs ->
  events_after h c 1 = [] -> Forall (fun e => conflicts c e) (number (1 + nlen h) (map (to_record trk) evs)) ->
  is_retry (h ++ number (1 + nlen h) (map (to_record trk) evs)) evs c /\
  events_after (h ++ number (1 + nlen h) (map (to_record trk) evs)) c (nlen evs) = number (1 + nlen h) (map (to_record trk) evs).
Proof.
  intros Hne Hu Hn Hc. set (new := number (1 + nlen h) (map (to_record trk) evs)) in *.
  assert (Hev : events_after (h ++ new) c (nlen evs) = new).
  { rewrite events_after_filter, filter_app. rewrite no_conflict_iff in Hn.
    assert (filter (conflicts c) h = []) as ->.
    { destruct (filter (conflicts c) h) as [|x l] eqn:E; [reflexivity|]. exfalso. assert (x ∈ filter (conflicts c) h) as Hx by (rewrite E; set_solver).
      apply elem_of_list_filter in Hx as [Hx1 Hx2]. exact (Hn x Hx2 Hx1). }
    cbn [app]. assert (filter (conflicts c) new = new) as ->.
    { revert Hc. clear. induction new as [|x l IH]; intros H; [reflexivity|]. inversion H; subst. rewrite filter_cons, decide_True by assumption. f_equal. auto. }
    rewrite take_ge; [reflexivity|]. unfold new. rewrite number_length, map_length. unfold nlen. lia. }
  split; [|exact Hev]. split; [exact Hne|]. split; [exact Hu|]. rewrite Hev. unfold new.
  generalize (1 + nlen h). clear. induction evs as [|e evs IH]; intros p; [reflexivity|]. cbn. f_equal. apply IH.
Qed.
Lemma retry_conflict h evs c : is_retry h evs c -> events_after h c 1 <> [].
Proof.
  intros (H1 & _ & H3). rewrite !events_after_filter in *. destruct (filter (conflicts c) h); [|discriminate].
  rewrite take_nil in H3. destruct evs; [contradiction|discriminate].
Qed.

(** ** Batches *)
Lemma batch_app ps s r1 r2 :
  spec_batch ps s (r1 ++ r2) =
    ((spec_batch ps s r1).1 ++ (spec_batch ps (spec_batch ps s r1).2 r2).1, (spec_batch ps (spec_batch ps s r1).2 r2).2).
Proof.
  revert s. induction r1 as [|r r1 IH]; intros s; cbn [app spec_batch]; [cbn; now destruct (spec_batch ps s r2)|]. rewrite IH. reflexivity.
Qed.
Lemma batch_length ps s rs : length (spec_batch ps s rs).1 = length rs.
Proof. revert s. induction rs as [|r rs IH]; intros s; [reflexivity|]. cbn. now rewrite IH. Qed.
Lemma batch_extends ps s rs : extends s (spec_batch ps s rs).2.
Proof.
  revert s. induction rs as [|r rs IH]; intros s; [apply extends_refl|]. cbn. eapply extends_trans; [apply append_extends|apply IH].
Qed.
Lemma batch_gapless ps s rs : gapless (s_hist s) -> gapless (s_hist (spec_batch ps s rs).2).
Proof. revert s. induction rs as [|r rs IH]; intros s H; [exact H|]. cbn. apply IH, append_gapless, H. Qed.

(** ** Runs *)
Definition sp_good (y : spec_sys) : Prop :=
  gapless (s_hist (sp_cur y)) /\ (forall a, sp_alt y = Some a -> extends (sp_cur y) a /\ gapless (s_hist a)) /\
  (forall i l s, sp_calls y !! i = Some l -> s ∈ l -> gapless (s_hist s)) /\
  (forall i s, sp_open y !! i = Some s -> gapless (s_hist s)).
Lemma spec_step_good ps y l y' : sp_good y -> spec_step ps y l y' -> sp_good y' /\ extends (sp_cur y) (sp_cur y').
Proof.
  intros (G1 & G2 & G3 & G4) H.
  assert (Hsv : forall reqs s, survives ps y reqs s -> sp_good (SSys s None false ∅ ∅) /\ extends (sp_cur y) s).
  { intros reqs s Hs. assert (gapless (s_hist s) /\ extends (sp_cur y) s) as [Hg He].
    { destruct Hs as [->|[Hs| ->]]; [split; [exact G1|apply extends_refl]|destruct (G2 s Hs); auto|split; [apply batch_gapless, G1|apply batch_extends]]. }
    split; [|exact He]. split; [exact Hg|]. split; [discriminate|]. split; intros i; [intros l0 s0|intros s0]; cbn; rewrite lookup_empty; discriminate. }
  destruct H as [y|s calls open reqs ans s' H|s a calls open reqs|s calls open reqs|y reqs s' H|y reqs s' H|s|s a calls open i H1 H2
    |s a calls open i l s0 H1 H2|s a calls open i s0 H|y i s0 q start bw limit H evs|s a calls open i l s0 H1 H2|y i s0 src H];
    try (split; [split; [exact G1|split; [exact G2|split; [exact G3|exact G4]]]|apply extends_refl]); cbn in G1, G2, G3, G4, Hsv |- *.
  - pose proof (batch_extends ps s reqs) as He. pose proof (batch_gapless ps s reqs G1) as Hg. rewrite H in He, Hg. cbn in He, Hg.
    split; [|exact He]. split; [exact Hg|]. split; [discriminate|]. split; [|exact G4]. intros i l s0. cbn [sp_calls]. rewrite lookup_fmap.
    destruct (calls !! i) as [l0|] eqn:E; [|discriminate]. cbn. intros [= <-] Hs. apply elem_of_cons in Hs as [->|Hs]; [exact Hg|eauto].
  - split; [|apply extends_refl]. split; [exact G1|]. split; [|split; assumption]. cbn. intros a [= <-]. split; [apply batch_extends|apply batch_gapless, G1].
  - exact (Hsv _ _ H).
  - exact (Hsv _ _ H).
  - split; [|apply extends_refl]. split; [exact G1|]; split; [exact G2|]; split; [|exact G4]. cbn. intros j l s0. destruct (decide (j = i)) as [->|Hne].
    + rewrite lookup_insert. intros [= <-] Hs. apply elem_of_list_singleton in Hs as ->. exact G1.
    + rewrite lookup_insert_ne by congruence. apply G3.
  - split; [|apply extends_refl]. split; [exact G1|]; split; [exact G2|]; split; [try exact G3|try exact G4]; cbn.
    + intros j l0 s1. destruct (decide (j = i)) as [->|Hne]; [rewrite lookup_delete; discriminate|rewrite lookup_delete_ne by congruence; apply G3].
    + intros j s1. destruct (decide (j = i)) as [->|Hne]; [rewrite lookup_insert; intros [= <-]; eapply G3; eassumption|rewrite lookup_insert_ne by congruence; apply G4].
  - split; [|apply extends_refl]. split; [exact G1|]; split; [exact G2|]; split; [try exact G3|try exact G4]; cbn.
    intros j s1. destruct (decide (j = i)) as [->|Hne]; [rewrite lookup_delete; discriminate|rewrite lookup_delete_ne by congruence; apply G4].
  - split; [|apply extends_refl]. split; [exact G1|]; split; [exact G2|]; split; [try exact G3|try exact G4]; cbn.
    intros j l0 s1. destruct (decide (j = i)) as [->|Hne]; [rewrite lookup_delete; discriminate|rewrite lookup_delete_ne by congruence; apply G3].
Qed.
Lemma spec_steps_good ps y tr y' : sp_good y -> spec_steps ps y tr y' -> sp_good y' /\ extends (sp_cur y) (sp_cur y').
Proof.
  intros Hg H. induction H as [y|y tr y' l y'' H IH Hst]; [split; [exact Hg|apply extends_refl]|].
  destruct (IH Hg) as [Hg' He]. destruct (spec_step_good _ _ _ _ Hg' Hst) as [Hg'' He']. split; [exact Hg''|]. eapply extends_trans; eauto.
Qed.
Lemma spec_init_good : sp_good spec_init.
Proof. split; [reflexivity|]. split; [discriminate|]. split; [intros i l s0|intros i s0]; cbn; rewrite lookup_empty; discriminate. Qed.

Lemma spec_steps_snoc_inv ps y tr l y' : spec_steps ps y (tr ++ [l]) y' -> exists ym, spec_steps ps y tr ym /\ spec_step ps ym l y'.
Proof.
  intros H. remember (tr ++ [l]) as t eqn:E. destruct H as [y|y t0 ym l0 y' H1 H2]; [now destruct tr|].
  apply app_inj_tail in E as [-> ->]. eauto.
Qed.
Lemma spec_steps_nil_inv ps y y' : spec_steps ps y [] y' -> y' = y.
Proof. intros H. remember (@nil label) as t eqn:E. destruct H as [y|y t0 ym l0 y' H1 H2]; [reflexivity|]. now destruct t0. Qed.
Lemma spec_steps_app ps y t1 t2 y' : spec_steps ps y (t1 ++ t2) y' <-> exists ym, spec_steps ps y t1 ym /\ spec_steps ps ym t2 y'.
Proof.
  revert y'. induction t2 as [|l t2 IH] using rev_ind; intros y'.
  - rewrite app_nil_r. split; [intros H; exists y'; split; [exact H|constructor]|]. intros (ym & H & H2). now apply spec_steps_nil_inv in H2 as ->.
  - rewrite app_assoc. split.
    + intros H. apply spec_steps_snoc_inv in H as (y1 & H1 & H2). apply IH in H1 as (ym & H1 & H3). exists ym. split; [exact H1|]. econstructor; eassumption.
    + intros (ym & H1 & H2). apply spec_steps_snoc_inv in H2 as (y1 & H3 & H4). econstructor; [|exact H4]. apply IH. eauto.
Qed.

(** The states shown while reader [i] is being provided are those committed in between. *)
Definition quiet (i : nat) (l : label) : Prop :=
  match l with LReady j | LClose j | LCall j | LHead j _ => j <> i | LCrash _ | LKill _ | LOpen => False | _ => True end.
