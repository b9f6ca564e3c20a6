(** What clients of one server see of each other's calls: C92 (what was acknowledged is read), C93 (a decision based on a
    read is protected by the append condition). *)
From Verif Require Import Exec PropsStore PropsFindings PropsCrash ServerLive ServerExec PropsServer Wire ClientProofs PropsWire PropsClient.
Local Open Scope N_scope.

(** ** Spec *)
(** [new] are the stored events which an answer [p] to the request [r] stands for: its own, which end at position [p]; or,
    when the request repeats an earlier one, those with its ids. *)
Definition own_events (r : request) (p : N) (new : list seq_event) : Prop :=
  (map fst new = seqN (p + 1 - nlen (rq_events r)) (length (rq_events r)) /\ map snd new = map (to_record (rq_trk r)) (rq_events r)) \/
  (is_Some (rq_cond r) /\ Forall (fun e => is_Some (ne_uuid e)) (rq_events r) /\ map (fun e => er_uuid e.2) new = map ne_uuid (rq_events r) /\ fst <$> last new = Some p).

Section answers.
  Context (ps : N).
  Lemma commit_at tr r p : (r, Ok p) ∈ commits tr -> exists t1 r1 r2 ans t2, tr = t1 ++ LCommit (r1 ++ r :: r2) ans :: t2 /\ ans !! length r1 = Some (Ok p).
  Proof.
    induction tr as [|l tr IH]; unfold commits; cbn [map concat]; intros H; [now apply elem_of_nil in H|]. apply elem_of_app in H as [H|H].
    - destruct l; try (now apply elem_of_nil in H). apply elem_of_list_lookup in H as (i & Hi). apply lookup_zip_with_Some in Hi as (r' & a & E & H1 & H2). injection E as <- <-.
      exists [], (take i reqs), (drop (S i) reqs), ans, tr. cbn [app]. rewrite take_drop_middle by exact H1. split; [reflexivity|].
      rewrite take_length_le; [exact H2|]. apply lookup_lt_Some in H1. lia.
    - destruct (IH H) as (t1 & r1 & r2 & ans & t2 & -> & Ha). exists (l :: t1), r1, r2, ans, t2. split; [reflexivity|exact Ha].
  Qed.
  Lemma own_of_append sa r p sb : spec_append ps sa (rq_events r) (rq_cond r) (rq_trk r) = (Ok p, sb) -> rq_events r <> [] ->
    exists new, own_events r p new /\ forall e, e ∈ new -> e ∈ s_hist sb.
  Proof.
    intros B Hne. destruct (append_cases _ _ _ _ _ _ _ B) as [(t & Ht & Hok & Hca & Hp & Es)|[[-> (c & Hc & Hca & Hret & Hp)]|[_ Herr]]].
    - exists (number (1 + nlen (s_hist sa)) (map (to_record (rq_trk r)) (rq_events r))). split.
      + left. rewrite number_fst, number_snd, map_length. split; [|reflexivity]. rewrite last_number in Hp by (now destruct (rq_events r)). injection Hp as ->. f_equal.
        unfold nlen. rewrite map_length. assert (0 < length (rq_events r))%nat by (destruct (rq_events r); [contradiction|cbn; lia]). lia.
      + intros e He. rewrite Es. cbn [s_hist]. apply elem_of_app. now right.
    - exists (events_after (s_hist sa) c (nlen (rq_events r))). split.
      + right. destruct Hret as (_ & Hids & Hmap). split; [now rewrite Hc|]. split; [exact Hids|]. split; [exact Hmap|]. injection Hp as ->. unfold last_pos.
        destruct (last (events_after (s_hist sa) c (nlen (rq_events r)))) as [e|] eqn:El; [reflexivity|]. exfalso. apply last_None in El. rewrite El in Hmap. destruct (rq_events r); [contradiction|discriminate Hmap].
      + intros e He. unfold events_after in He. now apply read_in in He.
    - exfalso. destruct Herr as [(c & _ & _ & _ & X)|[_ [[_ X]|(e & _ & _ & X)]]]; discriminate.
  Qed.
  Lemma read_or_full h q start bw limit e : e ∈ h -> Spec.in_range start bw e.1 -> q_matches q e.2 ->
    e ∈ spec_read h q start bw limit \/ limit = Some (nlen (spec_read h q start bw limit)).
  Proof.
    intros H1 H2 H3. assert (H : e ∈ spec_read h q start bw None) by (now apply read_elem). destruct limit as [n|]; [|now left]. rewrite SpecProofs.read_limit.
    destruct (Nat.le_gt_cases (length (spec_read h q start bw None)) (N.to_nat n)) as [Hl|Hl]; [left; now rewrite take_ge|right].
    unfold nlen. rewrite take_length_le by lia. now rewrite N2Nat.id.
  Qed.
  (** What a client's program gets: its library, either kind, collects what has arrived. *)
  Definition collected (rr : rread) (evs : list seq_event) (hd : option N) : Prop :=
    let stream := map (fun o => arrives (response_to_pb o)) (rr_out rr) in
    (collect_with_head (new_eng stream)).1 = Ok (evs, hd) \/ (ar_collect_with_head (new_ar stream)).1 = Ok (evs, hd).
  Lemma read_complete s h' q start limit c : gapless (s_hist s ++ h') -> ac_query c = q ->
    let evs := spec_read (s_hist s) q start false limit in ac_after c = spec_read_head s limit evs ->
    (forall e, e ∈ s_hist s ++ h' -> ~ conflicts c e) ->
    evs = filter (fun e => Spec.in_range start false e.1 /\ q_matches q e.2) (s_hist s ++ h').
  Proof.
    intros Hg Hq evs Haf Hno. destruct (gapless_suffix _ _ Hg) as [Hg1 Hsuf]. rewrite filter_app.
    assert (Hle : forall a, ac_after c = Some a -> a <= nlen (s_hist s)).
    { intros a Ea. rewrite Haf in Ea. unfold spec_read_head, spec_head in Ea. destruct limit as [n|].
      - destruct (last evs) as [e|] eqn:El; [|discriminate]. injection Ea as <-. apply last_elem in El as (l & El). assert (He : e ∈ s_hist s) by (apply (read_in _ q start false (Some n)); fold evs; rewrite El; apply elem_of_app; right; left).
        pose proof (gapless_pos _ _ Hg1 He). lia.
      - destruct (s_hist s) as [|e0 l0]; [discriminate|]. apply Some_inj in Ea. rewrite Ea. reflexivity. }
    rewrite (filter_none _ h'), app_nil_r.
    2: { apply Forall_forall. intros e He [_ Hm]. apply (Hno e); [apply elem_of_app; now right|]. split; [|now rewrite Hq]. destruct (ac_after c) as [a|] eqn:Ea; [|exact I]. specialize (Hle _ eq_refl). specialize (Hsuf e He). lia. }
    destruct limit as [n|]; [|reflexivity]. subst evs. rewrite SpecProofs.read_limit in *. change (filter _ (s_hist s)) with (spec_read (s_hist s) q start false None).
    set (all := spec_read (s_hist s) q start false None) in *. destruct (drop (N.to_nat n) all) as [|y r] eqn:Ed.
    - apply take_ge. apply (f_equal length) in Ed. rewrite drop_length in Ed. cbn [length] in Ed. lia.
    - exfalso. pose proof (take_drop (N.to_nat n) all) as Ea. rewrite Ed in Ea. assert (Hy : y ∈ all) by (rewrite <- Ea; apply elem_of_app; right; left).
      unfold all in Hy. apply read_elem in Hy as (Hy & _ & Hm). apply (Hno y); [apply elem_of_app; now left|]. split; [|now rewrite Hq]. rewrite Haf. cbn [spec_read_head].
      destruct (last (take (N.to_nat n) all)) as [x|] eqn:El; [|exact I]. cbn. apply (read_order (s_hist s) q start false (take (N.to_nat n) all) (y :: r) Hg1 (eq_sym Ea) x y); [|left].
      apply last_elem in El as (l & ->). apply elem_of_app. right. left.
  Qed.
  (** An append, in the state [sa], on condition that nothing was added to what was read in an earlier state [s]. *)
  Lemma decision_of s sa sb st r p c q start limit evs hd : gapless (s_hist sa) -> extends s sa -> extends sb st ->
    spec_append ps sa (rq_events r) (rq_cond r) (rq_trk r) = (Ok p, sb) -> rq_events r <> [] -> rq_cond r = Some c -> ac_query c = q -> ac_after c = hd ->
    evs = spec_read (s_hist s) q start false limit -> hd = spec_read_head s limit evs ->
    (exists before later, s_hist st = before ++ number (nlen before + 1) (map (to_record (rq_trk r)) (rq_events r)) ++ later /\ p = nlen before + nlen (rq_events r) /\
      evs = filter (fun e => Spec.in_range start false e.1 /\ q_matches q e.2) before) \/
    (Forall (fun e => is_Some (ne_uuid e)) (rq_events r) /\ exists new, map (fun e => er_uuid e.2) new = map ne_uuid (rq_events r) /\ fst <$> last new = Some p /\
      forall e, e ∈ new -> e ∈ s_hist st /\ match hd with Some a => a < e.1 | None => True end /\ q_matches q e.2).
  Proof.
    intros Hga Ext Eb B Hne Hc Hq Haf Eevs Ehd.
    destruct (extends_hist _ _ Ext) as (h' & Esa). destruct (extends_hist _ _ Eb) as (later & Est).
    destruct (append_cases _ _ _ _ _ _ _ B) as [(t & Ht & Hok & Hca & Hp & Es)|[[-> (c' & Hc' & Hca & Hret & Hp)]|[_ Herr]]].
    - left. exists (s_hist sa), later. rewrite Est, Es. cbn [s_hist]. rewrite <- app_assoc, N.add_comm. split; [reflexivity|]. split.
      + rewrite last_number in Hp by (now destruct (rq_events r)). injection Hp as ->. unfold nlen. rewrite map_length. assert (0 < length (rq_events r))%nat by (destruct (rq_events r); [contradiction|cbn; lia]). lia.
      + rewrite Eevs, Esa. apply (read_complete s h' _ _ _ c); [now rewrite <- Esa|exact Hq|now rewrite Haf, Ehd, Eevs|]. rewrite <- Esa. apply no_conflict_iff, Hca, Hc.
    - right. assert (c' = c) as -> by congruence. destruct Hret as (_ & Hids & Hmap). split; [exact Hids|]. exists (events_after (s_hist sa) c (nlen (rq_events r))).
      split; [exact Hmap|]. split.
      + injection Hp as ->. unfold last_pos. destruct (last (events_after (s_hist sa) c (nlen (rq_events r)))) as [e|] eqn:El; [reflexivity|]. exfalso. apply last_None in El. rewrite El in Hmap. destruct (rq_events r); [contradiction|discriminate Hmap].
      + intros e He. rewrite events_after_filter in He. apply elem_of_take in He as (i & Hi & _). apply elem_of_list_lookup_2, elem_of_list_filter in Hi as [[Hi1 Hi2] Hi].
        rewrite Haf in Hi1. rewrite Hq in Hi2. rewrite Est. split; [apply elem_of_app; now left|auto].
    - exfalso. destruct Herr as [(c' & _ & _ & _ & X)|[_ [[_ X]|(e & _ & _ & X)]]]; discriminate.
  Qed.
End answers.

Section remote_clients.
  Context (ps : N) (hash : bytes -> bytes) (order : list bytes -> list bytes) (ford : gset N -> list N) (caching : bool) (max_events : N).
  Context (Hps : ps_ok ps) (Hps32 : ps < U32) (Hord : forall l t, t ∈ order l <-> t ∈ l) (Hford : forall s, ford s ≡ₚ elements s).
  Notation sstep := (sstep 16 ps hash order ford caching max_events).
  Notation serves := (serves 16 ps hash order ford caching max_events).
  Notation shows := (shows hash order).
  Notation run := (run ps hash order ford caching).
  Notation steps := (steps 16 ps hash order ford caching).
  Notation accounts := accounts.
  Context (tr0 : list label) (d : disk) (p0 : proc) (h0 : option N) (Hrun : run tr0 (Sys d (Some p0))) (Hidle : p_writer p0 = WIdle).

  (** The server goes on from [w] to [v]. *)
  Inductive leads (w : srv) : srv -> list label -> Prop :=
    | leads_here : leads w w []
    | leads_step v tr ol v' : leads w v tr -> sstep v ol v' -> leads w v' (tr ++ match ol with Some l => [l] | None => [] end).

  Lemma leads_serves w ws trw v tr : serves d p0 h0 (w :: ws) trw -> leads w v tr ->
    exists us, serves d p0 h0 (us ++ w :: ws) (trw ++ tr) /\ (exists us', us ++ w :: ws = v :: us') /\ forall u, u ∈ us -> exists tr1, leads w u tr1.
  Proof.
    intros H. induction 1 as [|v tr ol v' H1 IH Hst].
    - exists []. rewrite app_nil_r. split; [exact H|]. split; [eexists; reflexivity|]. intros u Hu. now apply elem_of_nil in Hu.
    - destruct IH as (us & H2 & (us' & E) & H3). exists (v' :: us). cbn [app]. rewrite E in H2 |- *. split; [rewrite app_assoc; econstructor; eassumption|].
      split; [eexists; reflexivity|]. intros u Hu. apply elem_of_cons in Hu as [->|Hu]; [|now apply H3]. eexists. econstructor; eassumption.
  Qed.
  Lemma leads_start v vs tr : serves d p0 h0 (v :: vs) tr -> leads (new_srv d p0 h0) v tr.
  Proof.
    intros H. remember (v :: vs) as l eqn:El. revert v vs El. induction H as [|v vs tr ol v' H IH Hst]; intros u us El.
    - injection El as <- <-. constructor.
    - injection El as <- <-. econstructor; [|exact Hst]. exact (IH _ _ eq_refl).
  Qed.
  Lemma steps_app_r y t1 y1 t2 y2 : steps y t1 y1 -> steps y1 t2 y2 -> steps y (t1 ++ t2) y2.
  Proof. intros H1 H2. induction H2 as [y1|y1 tr y' l y'' H IH Hst]; [now rewrite app_nil_r|]. rewrite app_assoc. econstructor; [|exact Hst]. exact (IH H1). Qed.
  Lemma leads_steps w v tr : leads w v tr -> steps (v_sys w) tr (v_sys v).
  Proof.
    induction 1 as [|v tr ol v' H1 IH Hst]; [apply steps_nil|]. apply (sstep_db ps hash order ford caching max_events) in Hst. destruct ol as [l|].
    - econstructor; [exact IH|]. now constructor.
    - destruct Hst as [E1 E2]. rewrite app_nil_r. unfold v_sys. rewrite E1, E2. exact IH.
  Qed.
  Lemma leads_accounts w v trw tr P : accounts w trw P -> leads w v tr -> exists P', accounts v (trw ++ tr) (P ++ P').
  Proof.
    intros H0. induction 1 as [|v tr ol v' H1 IH Hst].
    - exists []. now rewrite !app_nil_r.
    - destruct IH as (P' & HP). destruct (accounts_step ps hash order ford caching max_events _ _ _ _ _ Hst HP) as (P2 & HP2). exists (P' ++ P2). now rewrite !app_assoc.
  Qed.
  Lemma serves_run' v vs tr : serves d p0 h0 (v :: vs) tr -> run (tr0 ++ tr) (v_sys v).
  Proof. intros H. eapply serves_run; eassumption. Qed.
  Lemma shown v vs tr : serves d p0 h0 (v :: vs) tr -> exists s, shows (v_sys v) s /\ gapless (s_hist s).
  Proof. intros H. apply (run_up ps hash order ford caching Hps Hps32 Hord Hford _ _ (serves_run' _ _ _ H)). now eexists. Qed.
  Lemma leads_extends w ws trw v tr s s' : serves d p0 h0 (w :: ws) trw -> leads w v tr -> shows (v_sys w) s -> shows (v_sys v) s' -> extends s s'.
  Proof.
    intros H Hl Hs Hs'. exact (run_extends ps hash order ford caching Hps Hps32 Hord Hford _ _ _ _ _ _ (serves_run' _ _ _ H) Hs (leads_steps _ _ _ Hl) Hs').
  Qed.

  (** A request put into the queue after [w] and answered with a position was committed after [w]. *)
  Lemma committed_in w ws trw v tr id r p : serves d p0 h0 (w :: ws) trw -> leads w v tr -> (id, r) ∈ v_seen v -> (id, Ok p) ∈ v_sent v ->
    id ∉ map fst (v_seen w) -> (r, Ok p) ∈ commits tr.
  Proof.
    intros H Hl Hin Hout Hnew. destruct (serves_accounts ps hash order ford caching max_events _ _ _ _ _ _ Hidle H) as (P & HP).
    destruct (leads_accounts _ _ _ _ _ HP Hl) as (P' & A1 & A2 & A3 & A4 & A5 & _). destruct HP as (B1 & _ & B3 & _).
    assert (Ho : (id, Ok p) ∈ map f_out (P ++ P')) by (rewrite A2; apply elem_of_app; now left).
    apply elem_of_list_fmap in Ho as (f & Ef & Hf). injection Ef as E1 E2.
    assert (Hreq : f_req f = r).
    { assert (Hi : (id, f_req f) ∈ v_seen v). { rewrite <- A1. apply elem_of_app. left. apply elem_of_list_fmap. exists f. split; [|exact Hf]. unfold f_in. now rewrite <- E1. }
      clear -A5 Hi Hin. induction (v_seen v) as [|[i q] l IH]; [now apply elem_of_nil in Hin|]. cbn [map fst] in A5. apply NoDup_cons in A5 as [Hn Hd].
      assert (Hno : forall y, (i, y) ∈ l -> False) by (intros y Hy; apply Hn; apply elem_of_list_fmap; exists (i, y); auto).
      apply elem_of_cons in Hi as [Ei|Hi], Hin as [En|Hin].
      - congruence.
      - injection Ei as -> _. now apply Hno in Hin.
      - injection En as -> _. now apply Hno in Hi.
      - now apply IH. }
    assert (Hdone : f_done f = true).
    { destruct (f_done f) eqn:Ed; [reflexivity|]. destruct (proj1 (Forall_forall _ _) A4 f Hf Ed) as (e & He). congruence. }
    assert (HP' : f ∈ P').
    { apply elem_of_app in Hf as [Hf|Hf]; [|exact Hf]. exfalso. apply Hnew. rewrite <- B1, map_app. apply elem_of_app. left. rewrite map_map. apply elem_of_list_fmap. exists f. split; [exact E1|exact Hf]. }
    rewrite filter_app, map_app, B3, commits_app in A3. apply app_inv_head in A3. rewrite <- A3. apply elem_of_list_fmap. exists f. split; [unfold f_com; congruence|].
    apply elem_of_list_filter. split; assumption.
  Qed.
  (** Such a request was judged in a state between the two. *)
  Lemma appended w ws trw v tr id r p s s' : serves d p0 h0 (w :: ws) trw -> leads w v tr -> (id, r) ∈ v_seen v -> (id, Ok p) ∈ v_sent v ->
    id ∉ map fst (v_seen w) -> shows (v_sys w) s -> shows (v_sys v) s' ->
    exists sa sb, extends s sa /\ spec_append ps sa (rq_events r) (rq_cond r) (rq_trk r) = (Ok p, sb) /\ extends sb s' /\ gapless (s_hist sa).
  Proof.
    intros H Hl Hin Hout Hnew Hs Hs'. destruct (commit_at _ _ _ (committed_in _ _ _ _ _ _ _ _ H Hl Hin Hout Hnew)) as (t1 & r1 & r2 & ans & t2 & -> & Ha).
    pose proof (leads_steps _ _ _ Hl) as Hst. replace (t1 ++ LCommit (r1 ++ r :: r2) ans :: t2) with ((t1 ++ [LCommit (r1 ++ r :: r2) ans]) ++ t2) in Hst by (now rewrite <- app_assoc).
    apply (steps_app_inv ps hash order ford caching) in Hst as (y2 & Hst & Hst2). apply (steps_snoc_inv ps hash order ford caching) in Hst as (y1 & Hst1 & Hc).
    pose proof (serves_run' _ _ _ H) as Hr. pose proof (run_app ps hash order ford caching _ _ _ _ Hr Hst1) as Hr1.
    assert (Hup : up y1). { inversion Hc; subst; eexists; reflexivity. }
    destruct (run_up ps hash order ford caching Hps Hps32 Hord Hford _ _ Hr1 Hup) as (s1 & Hs1 & Hg1).
    destruct (run_commit_split ps hash order ford caching Hps Hps32 Hord Hford _ _ _ _ _ _ _ _ Hr1 Hs1 Hc) as (a1 & sa & a & sb & a2 & s3 & Ean & Ha' & B1 & B & B2 & Hsh).
    assert (a = Ok p) as -> by congruence. pose proof (batch_extends ps s1 r1) as E1. pose proof (batch_gapless ps s1 r1 Hg1) as G1. rewrite B1 in E1, G1. cbn in E1, G1. pose proof (batch_extends ps sb r2) as E2. rewrite B2 in E2. cbn in E2.
    exists sa, sb. split; [|split; [exact B|split; [|exact G1]]].
    - eapply extends_trans; [|exact E1]. exact (run_extends ps hash order ford caching Hps Hps32 Hord Hford _ _ _ _ _ _ Hr Hs Hst1 Hs1).
    - eapply extends_trans; [exact E2|]. exact (run_extends ps hash order ford caching Hps Hps32 Hord Hford _ _ _ _ _ _ (run_step _ _ _ _ _ _ _ _ _ Hr1 Hc) Hsh Hst2 Hs').
  Qed.

  (** What task [k] saw is no older than any state of the server in which there was no such task. *)
  Lemma seen_later w ws trw v tr k us s sw : serves d p0 h0 (w :: ws) trw -> leads w v tr -> v_rpcs w !! k = None -> shows (v_sys w) sw ->
    serves d p0 h0 (us ++ w :: ws) (trw ++ tr) -> (forall u, u ∈ us -> exists tr1, leads w u tr1) ->
    (exists u y, u ∈ us ++ w :: ws /\ v_rpcs u !! k = Some y /\ unsent y /\ shows (v_sys u) s) -> extends sw s.
  Proof.
    intros H Hl Hk Hsw Hu Hus (u & y & Hin & Hy & _ & Hs). apply elem_of_app in Hin as [Hin|Hin].
    - destruct (Hus u Hin) as (tr1 & Hl1). exact (leads_extends _ _ _ _ _ _ _ H Hl1 Hsw Hs).
    - destruct (serves_asked ps hash order ford caching max_events _ _ _ _ _ _ _ _ _ H Hin Hy) as (x' & E & _). congruence.
  Qed.

  Lemma past_extends v vs tr u s sv : serves d p0 h0 (v :: vs) tr -> u ∈ v :: vs -> shows (v_sys u) s -> shows (v_sys v) sv -> extends s sv.
  Proof.
    intros H. remember (v :: vs) as l eqn:El. revert v vs sv El. induction H as [|v vs tr ol v' H IH Hst]; intros x xs sv El Hin Hs Hsv.
    - injection El as <- <-. apply elem_of_list_singleton in Hin as ->. exact (leads_extends _ _ _ _ _ _ _ (serves_start 16 ps hash order ford caching max_events d p0 h0) (leads_here _) Hs Hsv).
    - injection El as <- <-. apply elem_of_cons in Hin as [->|Hin].
      + exact (leads_extends _ _ _ _ _ _ _ (serves_step 16 ps hash order ford caching max_events _ _ _ _ _ _ _ _ H Hst) (leads_here _) Hs Hsv).
      + destruct (shown _ _ _ H) as (sm & Hsm & _). eapply extends_trans; [exact (IH _ _ _ eq_refl Hin Hs Hsm)|].
        exact (leads_extends _ _ _ _ _ _ _ H (leads_step _ _ _ _ _ (leads_here _) Hst) Hsm Hsv).
  Qed.
  (** What an answer says is stored. *)
  Lemma acked_stored w ws trw id r p : serves d p0 h0 (w :: ws) trw -> (id, r) ∈ v_seen w -> (id, Ok p) ∈ v_sent w -> rq_events r <> [] ->
    exists sw, shows (v_sys w) sw /\ exists new, own_events r p new /\ forall e, e ∈ new -> e ∈ s_hist sw.
  Proof.
    intros H Hin Hout Hne. destruct (shown _ _ _ H) as (sw & Hsw & _). exists sw. split; [exact Hsw|].
    destruct (shown _ _ _ (serves_start 16 ps hash order ford caching max_events d p0 h0)) as (s0 & Hs0 & _).
    destruct (appended _ _ _ _ _ _ _ _ _ _ (serves_start 16 ps hash order ford caching max_events d p0 h0) (leads_start _ _ _ H) Hin Hout (not_elem_of_nil _) Hs0 Hsw) as (sa & sb & _ & B & Eb & _).
    destruct (own_of_append ps _ _ _ _ B Hne) as (new & Hown & Hnew). exists new. split; [exact Hown|]. intros e He.
    destruct (extends_hist _ _ Eb) as (h' & ->). apply elem_of_app. left. now apply Hnew.
  Qed.

  (** ** C92 *)
  (** An append was answered with a position; afterwards a client asks for events.  When its read has ended, each of the
      appended events it asked for is among those it was sent, or it was sent as many events as it wanted at most. *)
  Theorem acknowledged_read w ws trw v tr id r p k rr : serves d p0 h0 (w :: ws) trw -> (id, r) ∈ v_seen w -> (id, Ok p) ∈ v_sent w -> rq_events r <> [] ->
    v_rpcs w !! k = None -> leads w v tr -> v_rpcs v !! k = Some (QRd rr QEnd) -> k ∉ v_lost v ->
    exists new, own_events r p new /\ forall e, e ∈ new -> Spec.in_range (rr_start rr) (rr_bw rr) e.1 -> q_matches (rr_q rr) e.2 ->
      e ∈ concat (map fst (rr_out rr)) \/ rr_limit rr = Some (nlen (concat (map fst (rr_out rr)))).
  Proof.
    intros H Hin Hout Hne Hk Hl Hrd Hlost. destruct (acked_stored _ _ _ _ _ _ H Hin Hout Hne) as (sw & Hsw & new & Hown & Hnew). exists new. split; [exact Hown|].
    destruct (leads_serves _ _ _ _ _ H Hl) as (us & Hus & (us' & E) & Hbetween). rewrite E in Hus.
    destruct (remote_read_snapshot ps hash order ford caching max_events Hps Hps32 Hord Hford tr0 d p0 h0 Hrun _ _ _ _ _ _ Hus Hrd Hlost) as (_ & s & Hseen & _ & Hend & _).
    destruct (Hend eq_refl) as [-> _]. rewrite <- E in Hus, Hseen. pose proof (seen_later _ _ _ _ _ _ _ _ _ H Hl Hk Hsw Hus Hbetween Hseen) as Hext.
    intros e He Hr Hq. apply read_or_full; [|exact Hr|exact Hq]. destruct (extends_hist _ _ Hext) as (h' & ->). apply elem_of_app. left. now apply Hnew.
  Qed.
  (** The same for what the other client's program gets. *)
  Definition text_stored (v : srv) : Prop := forall s, shows (v_sys v) s -> Forall stored_text (s_hist s).
  Lemma collected_is v vs tr k rr evs hd : serves d p0 h0 (v :: vs) tr -> v_rpcs v !! k = Some (QRd rr QEnd) -> k ∉ v_lost v ->
    text_stored v -> Forall fits (rr_out rr) -> collected rr evs hd ->
    exists s, (exists u y, u ∈ v :: vs /\ v_rpcs u !! k = Some y /\ unsent y /\ shows (v_sys u) s) /\
      (exists sv, shows (v_sys v) sv /\ extends s sv) /\
      evs = spec_read (s_hist s) (rr_q rr) (rr_start rr) (rr_bw rr) (rr_limit rr) /\ hd = spec_read_head s (rr_limit rr) evs.
  Proof.
    intros H Hrd Hlost Htext Hfits Hcol. destruct (remote_collect ps hash order ford caching max_events Hps Hps32 Hord Hford tr0 d p0 h0 Hrun _ _ _ _ _ H Hrd Hlost) as (s & Hseen & Hc).
    assert (Hv : exists sv, shows (v_sys v) sv /\ extends s sv).
    { destruct Hseen as (u & y & Hin & _ & _ & Hs). destruct (shown _ _ _ H) as (sv & Hsv & _). exists sv. split; [exact Hsv|]. exact (past_extends _ _ _ _ _ _ H Hin Hs Hsv). }
    exists s. split; [exact Hseen|]. split; [exact Hv|]. destruct Hv as (sv & Hsv & He).
    assert (Ht : Forall stored_text (s_hist s)). { destruct (extends_hist _ _ He) as (h' & E). pose proof (Htext _ Hsv) as Ht. rewrite E in Ht. now apply Forall_app in Ht. }
    destruct (Hc Ht Hfits) as [E1 E2]. destruct Hcol as [Hcol|Hcol]; cbn zeta in Hcol; rewrite ?E1, ?E2 in Hcol; injection Hcol as <- <-; auto.
  Qed.
  Theorem acknowledged_collected w ws trw v tr id r p k rr evs hd : serves d p0 h0 (w :: ws) trw -> (id, r) ∈ v_seen w -> (id, Ok p) ∈ v_sent w -> rq_events r <> [] ->
    v_rpcs w !! k = None -> leads w v tr -> v_rpcs v !! k = Some (QRd rr QEnd) -> k ∉ v_lost v ->
    text_stored v -> Forall fits (rr_out rr) -> collected rr evs hd ->
    exists new, own_events r p new /\ forall e, e ∈ new -> Spec.in_range (rr_start rr) (rr_bw rr) e.1 -> q_matches (rr_q rr) e.2 ->
      e ∈ evs \/ rr_limit rr = Some (nlen evs).
  Proof.
    intros H Hin Hout Hne Hk Hl Hrd Hlost Htext Hfits Hcol. destruct (acked_stored _ _ _ _ _ _ H Hin Hout Hne) as (sw & Hsw & new & Hown & Hnew).
    exists new. split; [exact Hown|]. destruct (leads_serves _ _ _ _ _ H Hl) as (us & Hus & (us' & E) & Hbetween). rewrite E in Hus.
    destruct (collected_is _ _ _ _ _ _ _ Hus Hrd Hlost Htext Hfits Hcol) as (s & Hseen & _ & -> & _). rewrite <- E in Hus, Hseen.
    pose proof (seen_later _ _ _ _ _ _ _ _ _ H Hl Hk Hsw Hus Hbetween Hseen) as Hext.
    intros e He Hr Hq. apply read_or_full; [|exact Hr|exact Hq]. destruct (extends_hist _ _ Hext) as (h' & ->). apply elem_of_app. left. now apply Hnew.
  Qed.
  (** Reads do not go back in time: what a read was sent, at whatever stage it is, a read that begins later is sent as well. *)
  Theorem later_read_has_more w ws trw v tr k1 r1 x1 k2 r2 : serves d p0 h0 (w :: ws) trw -> v_rpcs w !! k1 = Some (QRd r1 x1) -> k1 ∉ v_lost w ->
    v_rpcs w !! k2 = None -> leads w v tr -> v_rpcs v !! k2 = Some (QRd r2 QEnd) -> k2 ∉ v_lost v ->
    forall e, e ∈ concat (map fst (rr_out r1)) -> Spec.in_range (rr_start r2) (rr_bw r2) e.1 -> q_matches (rr_q r2) e.2 ->
      e ∈ concat (map fst (rr_out r2)) \/ rr_limit r2 = Some (nlen (concat (map fst (rr_out r2)))).
  Proof.
    intros H Hk1 Hlost1 Hk2 Hl Hrd Hlost2 e He Hr Hq. destruct (shown _ _ _ H) as (sw & Hsw & _).
    destruct (remote_read_snapshot ps hash order ford caching max_events Hps Hps32 Hord Hford tr0 d p0 h0 Hrun _ _ _ _ _ _ H Hk1 Hlost1) as (_ & s1 & Hseen1 & Hpre & _).
    destruct (leads_serves _ _ _ _ _ H Hl) as (us & Hus & (us' & E) & Hbetween). rewrite E in Hus.
    destruct (remote_read_snapshot ps hash order ford caching max_events Hps Hps32 Hord Hford tr0 d p0 h0 Hrun _ _ _ _ _ _ Hus Hrd Hlost2) as (_ & s & Hseen & _ & Hend & _).
    destruct (Hend eq_refl) as [-> _]. rewrite <- E in Hus, Hseen. pose proof (seen_later _ _ _ _ _ _ _ _ _ H Hl Hk2 Hsw Hus Hbetween Hseen) as Hext.
    assert (Hext1 : extends s1 sw) by (destruct Hseen1 as (u & y & Hin & _ & _ & Hs1); exact (past_extends _ _ _ _ _ _ H Hin Hs1 Hsw)).
    apply read_or_full; [|exact Hr|exact Hq]. destruct (extends_hist _ _ (extends_trans _ _ _ Hext1 Hext)) as (h' & ->). apply elem_of_app. left.
    apply (read_in _ (rr_q r1) (rr_start r1) (rr_bw r1) (rr_limit r1)). destruct Hpre as (l & ->). apply elem_of_app. now left.
  Qed.
  (** A subscription that was never cut off, waits and has nothing to be notified of: it has delivered each event that was
      acknowledged, whenever, if it asked for it. *)
  Theorem acknowledged_delivered w ws trw v tr id r p k su : serves d p0 h0 (w :: ws) trw -> (id, r) ∈ v_seen w -> (id, Ok p) ∈ v_sent w -> rq_events r <> [] ->
    leads w v tr -> v_rpcs v !! k = Some (QSub su QWait) -> k ∉ v_lost v -> v_ver v = su_seen su -> (forall todo hd, v_thread v <> TReply todo (Some hd)) ->
    exists new, own_events r p new /\ forall e, e ∈ new -> (match su_after su with Some a => a < e.1 | None => True end) -> q_matches (su_q su) e.2 ->
      e ∈ concat (su_out su).
  Proof.
    intros H Hin Hout Hne Hl Hk Hlost Hver Hth. destruct (acked_stored _ _ _ _ _ _ H Hin Hout Hne) as (sw & Hsw & new & Hown & Hnew). exists new. split; [exact Hown|].
    destruct (leads_serves _ _ _ _ _ H Hl) as (us & Hus & (us' & E) & _). rewrite E in Hus. destruct (shown _ _ _ Hus) as (s & Hs & _).
    intros e He Haf Hq. pose proof (subscription_notified ps hash order ford caching max_events Hps Hps32 Hord Hford tr0 d p0 h0 Hrun _ _ _ _ _ _ Hus Hk Hlost Hs) as Hn.
    match type of Hn with ?a <> ?b -> _ => destruct (decide (a = b)) as [Eq|Eq] end.
    - rewrite Eq. apply elem_of_list_filter. split; [split; assumption|]. destruct (extends_hist _ _ (leads_extends _ _ _ _ _ _ _ H Hl Hsw Hs)) as (h' & ->). apply elem_of_app. left. now apply Hnew.
    - exfalso. destruct (Hn Eq) as [Hv|(todo & hd & Ht)]; [contradiction|]. exact (Hth _ _ Ht).
  Qed.

  (** ** C93 *)
  (** A client has read, forwards and to the end, and got the events [evs] and the head [hd].  Thereupon it (or another
      client) sends an append on condition that nothing that matches the same query was stored after [hd], and gets a
      position.  Then [evs] are all the events, of those asked for, which were stored when the append took effect: the
      decision was based on what it says.  The other case is that the append repeats one that has taken effect since: events
      with its ids, after [hd] and matching. *)
  Theorem decision_protected w ws trw v tr k rr evs hd id r p c st : serves d p0 h0 (w :: ws) trw -> v_rpcs w !! k = Some (QRd rr QEnd) -> k ∉ v_lost w -> rr_bw rr = false ->
    text_stored w -> Forall fits (rr_out rr) -> collected rr evs hd ->
    id ∉ map fst (v_seen w) -> leads w v tr -> (id, r) ∈ v_seen v -> (id, Ok p) ∈ v_sent v -> rq_events r <> [] ->
    rq_cond r = Some c -> ac_query c = rr_q rr -> ac_after c = hd -> shows (v_sys v) st ->
    (exists before later, s_hist st = before ++ number (nlen before + 1) (map (to_record (rq_trk r)) (rq_events r)) ++ later /\ p = nlen before + nlen (rq_events r) /\
      evs = filter (fun e => Spec.in_range (rr_start rr) false e.1 /\ q_matches (rr_q rr) e.2) before) \/
    (Forall (fun e => is_Some (ne_uuid e)) (rq_events r) /\ exists new, map (fun e => er_uuid e.2) new = map ne_uuid (rq_events r) /\ fst <$> last new = Some p /\
      forall e, e ∈ new -> e ∈ s_hist st /\ match hd with Some a => a < e.1 | None => True end /\ q_matches (rr_q rr) e.2).
  Proof.
    intros H Hrd Hlost Hbw Htext Hfits Hcol Hid Hl Hin Hout Hne Hc Hq Haf Hst.
    destruct (collected_is _ _ _ _ _ _ _ H Hrd Hlost Htext Hfits Hcol) as (s & _ & (sw & Hsw & Hext) & Eevs & Ehd). rewrite Hbw in Eevs.
    destruct (appended _ _ _ _ _ _ _ _ _ _ H Hl Hin Hout Hid Hsw Hst) as (sa & sb & Ea & B & Eb & Hga).
    exact (decision_of ps _ _ _ _ _ _ _ _ _ _ _ _ Hga (extends_trans _ _ _ Hext Ea) Eb B Hne Hc Hq Haf Eevs Ehd).
  Qed.
  Lemma past_leads v vs tr w : serves d p0 h0 (v :: vs) tr -> w ∈ v :: vs -> exists ws trw tr', serves d p0 h0 (w :: ws) trw /\ leads w v tr'.
  Proof.
    intros H. remember (v :: vs) as l eqn:El. revert v vs El. induction H as [|v vs tr ol v' H IH Hst]; intros x xs El Hin.
    - injection El as <- <-. apply elem_of_list_singleton in Hin as ->. exists [], [], []. split; constructor.
    - injection El as <- <-. apply elem_of_cons in Hin as [->|Hin].
      + exists (v :: vs). eexists _, []. split; [econstructor; eassumption|constructor].
      + destruct (IH _ _ eq_refl Hin) as (ws & trw & tr' & H1 & H2). exists ws, trw. eexists. split; [exact H1|econstructor; eassumption].
  Qed.
End remote_clients.
Print Assumptions acknowledged_read.
Print Assumptions acknowledged_collected.
Print Assumptions acknowledged_delivered.
Print Assumptions later_read_has_more.
Print Assumptions decision_protected.

(** ** Two clients at work *)
(** Three events are stored.  Client 7 reads all of them and then appends, on condition that nothing has been stored since, with
    success; client 8 reads after that.  A second append on the same condition is refused. *)
Definition g_cond (id : option bytes) : request := Req [NE [4] [] [[97]] id []] (Some (ACond [] (Some 3))) None.
Definition g_script : list sact := [VArrive 0 e_three] ++ e_batch 3 ++ [VSubscribe 9 f_query (Some 1) None; VRead 7 [] None false None None] ++ e_round 7 ++ e_round 9 ++
  [VArrive 1 (g_cond None); VArrive 2 (g_cond None)] ++ replicate 16 VThread ++ [VRead 8 f_query None false None None] ++ e_round 8 ++ e_round 9 ++ e_round 9.
Definition g_text (e : seq_event) : bool :=
  (e.1 <? U64) && utf8_ok (er_type e.2) && forallb utf8_ok (er_tags e.2) && match er_uuid e.2, er_meta e.2, er_tracking e.2 with None, [], None => true | _, _, _ => false end.
Definition g_stored (w : srv) : bool :=
  match umadb_read f_hash (fun l => l) (fetch 16 (p_cache (v_proc w)) (v_disk w)) (latest (v_proc w)).2 [] None false None false with
  | Ok (l, _) => forallb g_text l | _ => false end.
Lemma g_stored_ok w : g_stored w = true -> text_stored f_hash (fun l => l) w.
Proof.
  unfold g_stored. intros H s (p & Ep & Hr & _). injection Ep as <-. rewrite Hr in H. clear Hr. rewrite read_all in H. rewrite forallb_forall in H. apply Forall_forall. intros e He.
  apply elem_of_list_In, H in He. unfold g_text in He. repeat apply andb_prop in He as [He ?]. destruct (er_uuid e.2) eqn:E1, (er_meta e.2) eqn:E2, (er_tracking e.2) eqn:E3; try discriminate.
  split; [now apply N.ltb_lt|]. split; [|now rewrite E3]. split; [assumption|]. cbn [ne_tags ne_uuid ne_meta]. rewrite E1, E2. split; [|split; [now intros ? [=]|constructor]].
  apply Forall_forall. intros t Ht. match goal with H : forallb utf8_ok _ = true |- _ => rewrite forallb_forall in H; apply H end. now apply elem_of_list_In.
Qed.
Definition g_first (w : srv) : bool :=
  match v_rpcs w !! 7%nat, v_seen w, v_lost w with
  | Some (QRd r QEnd), [(0%nat, _)], [] =>
      negb (rr_bw r) && match rr_q r with [] => true | _ => false end && forallb (fun o => nlen (put_fields (fields_response (response_to_pb o))) <=? MAX_RECV) (rr_out r) &&
      match (collect_with_head (new_eng (map (fun o => arrives (response_to_pb o)) (rr_out r)))).1 with Ok (l, hd) => bool_decide (map fst l = [1; 2; 3]) && bool_decide (hd = Some 3) | Err _ => false end &&
      g_stored w
  | _, _, _ => false end.
Definition g_answered (w : srv) : bool :=
  match v_sent w, v_seen w with
  | [_; (i, Ok n); (j, Err e)], [_; (k, Req (_ :: _) (Some (ACond [] (Some m))) _); _] =>
      Nat.eqb i 1 && (n =? 4) && Nat.eqb j 2 && match e with EIntegrity => true | _ => false end && Nat.eqb k 1 && (m =? 3)
  | _, _ => false end.
Lemma g_answered_ok w : g_answered w = true -> exists r, (1%nat, r) ∈ v_seen w /\ (1%nat, Ok 4) ∈ v_sent w /\ (2%nat, Err EIntegrity) ∈ v_sent w /\ rq_events r <> [] /\ rq_cond r = Some (ACond [] (Some 3)).
Proof.
  unfold g_answered. intros H. destruct (v_sent w) as [|a0 [|[i [n|]] [|[j [|e]] [|]]]]; try discriminate H.
  destruct (v_seen w) as [|b0 [|[k [[|e0 es] [[[|] [m|]]|] t]] [|b2 [|]]]]; try discriminate H.
  apply andb_prop in H as [H H6]. apply andb_prop in H as [H H5]. apply andb_prop in H as [H H4]. apply andb_prop in H as [H H3]. apply andb_prop in H as [H1 H2].
  apply Nat.eqb_eq in H1, H3, H5. apply N.eqb_eq in H2, H6. subst. destruct e; try discriminate H4. eexists. split; [right; left|]. split; [right; left|]. split; [right; right; left|]. split; [discriminate|reflexivity].
Qed.
Definition g_second (v : srv) : bool :=
  match v_rpcs v !! 8%nat, v_rpcs v !! 9%nat, v_lost v, v_thread v with
  | Some (QRd r QEnd), Some (QSub su QWait), [], TWait =>
      bool_decide (map fst (concat (map fst (rr_out r))) = [1; 3; 4]) && bool_decide (map fst (concat (su_out su)) = [3; 4]) && Nat.eqb (v_ver v) (su_seen su) && bool_decide (rr_limit r = None)
  | _, _, _, _ => false end.
Notation g_leads := (leads 4096 f_hash (fun l => l) x_ford true 1000).
Example remote_clients_example : exists w1 ws1 tr1 w2 ws2 tr2 v tr12 tr2v r r' r7 r8 su evs,
  e_serves (w1 :: ws1) tr1 /\ e_serves (w2 :: ws2) tr2 /\ g_leads w1 v tr12 /\ g_leads w2 v tr2v /\
  (* read, then append on condition *)
  v_rpcs w1 !! 7%nat = Some (QRd r7 QEnd) /\ 7%nat ∉ v_lost w1 /\ rr_bw r7 = false /\ rr_q r7 = [] /\ text_stored f_hash (fun l => l) w1 /\ Forall fits (rr_out r7) /\
  collected r7 evs (Some 3) /\ map fst evs = [1; 2; 3] /\ 1%nat ∉ map fst (v_seen w1) /\
  (1%nat, r) ∈ v_seen v /\ (1%nat, Ok 4) ∈ v_sent v /\ (2%nat, Err EIntegrity) ∈ v_sent v /\ rq_events r <> [] /\ rq_cond r = Some (ACond [] (Some 3)) /\
  (* read after that *)
  (1%nat, r') ∈ v_seen w2 /\ (1%nat, Ok 4) ∈ v_sent w2 /\ rq_events r' <> [] /\ v_rpcs w2 !! 8%nat = None /\ v_rpcs v !! 8%nat = Some (QRd r8 QEnd) /\ 8%nat ∉ v_lost v /\
  map fst (concat (map fst (rr_out r8))) = [1; 3; 4] /\ rr_limit r8 = None /\
  (* a subscription *)
  v_rpcs v !! 9%nat = Some (QSub su QWait) /\ 9%nat ∉ v_lost v /\ v_ver v = su_seen su /\ (forall todo hd, v_thread v <> TReply todo (Some hd)) /\ map fst (concat (su_out su)) = [3; 4].
Proof.
  destruct (e_found g_script (fun v vs => match (v :: vs) !! 46%nat, (v :: vs) !! 28%nat with
    | Some w1, Some w2 => g_first w1 && g_answered w2 && match v_rpcs w2 !! 8%nat with None => true | _ => false end && g_answered v && g_second v
    | _, _ => false end)) as (v & vs & tr & H & HP); [vm_compute; reflexivity|].
  destruct ((v :: vs) !! 46%nat) as [w1|] eqn:E1; [|discriminate HP]. destruct ((v :: vs) !! 28%nat) as [w2|] eqn:E2; [|discriminate HP].
  apply elem_of_list_lookup_2 in E1, E2. apply andb_prop in HP as [HP P5]. apply andb_prop in HP as [HP P4]. apply andb_prop in HP as [HP P3]. apply andb_prop in HP as [P1 P2].
  destruct (past_leads _ _ _ _ _ _ _ _ _ _ _ _ _ H E1) as (ws1 & tr1 & tr12 & S1 & L1). destruct (past_leads _ _ _ _ _ _ _ _ _ _ _ _ _ H E2) as (ws2 & tr2 & tr2v & S2 & L2).
  clear H E1 E2. destruct (g_answered_ok _ P2) as (r' & A1 & A2 & _ & A4 & _). destruct (g_answered_ok _ P4) as (r & B1 & B2 & B3 & B4 & B5). clear P2 P4.
  unfold g_second in P5. destruct (v_rpcs v !! 8%nat) as [[r8 []|]|] eqn:E8; try discriminate P5. destruct (v_rpcs v !! 9%nat) as [[|su []]|] eqn:E9; try discriminate P5.
  destruct (v_lost v) eqn:El; [|discriminate P5]. destruct (v_thread v) eqn:Et; try discriminate P5.
  apply andb_prop in P5 as [P5 Q4]. apply andb_prop in P5 as [P5 Q3]. apply andb_prop in P5 as [Q1 Q2]. apply bool_decide_eq_true in Q1. apply bool_decide_eq_true in Q2. apply Nat.eqb_eq in Q3. apply bool_decide_eq_true in Q4.
  unfold g_first in P1. destruct (v_rpcs w1 !! 7%nat) as [[r7 []|]|] eqn:E7; try discriminate P1. destruct (v_seen w1) as [|[[|] ?] [|]] eqn:Es; try discriminate P1. destruct (v_lost w1) eqn:El1; [|discriminate P1].
  apply andb_prop in P1 as [P1 R5]. apply andb_prop in P1 as [P1 R4]. apply andb_prop in P1 as [P1 R3]. apply andb_prop in P1 as [R1 R2]. apply negb_true_iff in R1. apply g_stored_ok in R5.
  destruct (collect_with_head _).1 as [[evs hd]|] eqn:Ec; [|discriminate R4]. apply andb_prop in R4 as [R4 R6]. apply bool_decide_eq_true in R4. apply bool_decide_eq_true in R6. subst hd.
  exists w1, ws1, tr1, w2, ws2, tr2, v, tr12, tr2v, r, r', r7, r8, su, evs. rewrite El, Et, El1.
  split; [exact S1|]. split; [exact S2|]. split; [exact L1|]. split; [exact L2|]. split; [exact E7|]. split; [apply not_elem_of_nil|]. split; [exact R1|]. split; [now destruct (rr_q r7)|].
  split; [exact R5|]. split. { apply Forall_forall. intros o Ho. rewrite forallb_forall in R3. apply elem_of_list_In in Ho. apply R3, N.leb_le in Ho. exact Ho. }
  split; [left; exact Ec|]. split; [exact R4|]. split. { rewrite Es. cbn. intros X. apply elem_of_list_singleton in X. discriminate X. }
  split; [exact B1|]. split; [exact B2|]. split; [exact B3|]. split; [exact B4|]. split; [exact B5|].
  split; [exact A1|]. split; [exact A2|]. split; [exact A4|]. split; [now destruct (v_rpcs w2 !! 8%nat)|]. split; [exact E8|]. split; [apply not_elem_of_nil|].
  split; [exact Q1|]. split; [exact Q4|]. split; [exact E9|]. split; [apply not_elem_of_nil|]. split; [exact Q3|]. split; [discriminate|exact Q2].
Qed.
