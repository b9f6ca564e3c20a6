(** Remote reads, subscriptions and appends of the clients of a server with the pipelining writer thread (PipelineRemote.v): C94-C96. *)
From Verif Require Import Exec PropsStore PropsFindings PropsCrash PropsPipeline PropsPipelined PropsPipelinedServer.
From Verif Require Import MvccProofs SpecProofs StoreProofs ServerExec PropsServer Wire ClientProofs PropsWire PropsClient PropsRemote PipelineTasks.
Local Open Scope N_scope.

Section remote_pipelined.
  Context (hash : bytes -> bytes) (order : list bytes -> list bytes) (ford : gset N -> list N) (caching : bool) (max_events : N).
  Context (Hord : forall l t, t ∈ order l <-> t ∈ l) (Hford : forall s, ford s ≡ₚ elements s).
  Notation wstep := (wstep 16 dps hash order ford caching max_events).
  Notation wserves := (wserves 16 dps hash order ford caching max_events).
  Notation zserves := (zserves 16 dps hash order ford caching max_events).
  Notation mrun := (mrun hash order ford caching).
  Notation msteps := (msteps 16 dps hash order ford caching).
  Notation mshows := (mshows hash order).
  Notation healthy := (healthy 16).
  (** The thread has just been started, on a database that came about in any way (created, written to with either thread,
      crashed, opened again). *)
  Context (tr0 : list label) (s0 : psys) (h0 : option N) (Hrun : mrun fine tr0 (MP s0)).
  (** The database of a server. *)
  Definition w_sys (v : wsrv) : msys := MP (z_sys (w_z v)).
  (** [vs]: the states of the server so far, latest first; no step is one of those excluded in C56 and C57. *)
  Definition going (vs : list wsrv) (tr : list label) : Prop := wserves s0 h0 vs tr /\ w_all fine vs.
  Lemma fine_healthy a b : fine a b -> healthy a b. Proof. exact (@proj1 _ _). Qed.
  Lemma seen_views k vs s : seen_by hash order k (map w_view vs) s <-> exists w y, w ∈ vs /\ w_rpcs w !! k = Some y /\ unsent y /\ mshows (w_sys w) s.
  Proof.
    split.
    - intros (u & y & Hin & H). apply elem_of_list_fmap in Hin as (w & -> & Hin). exists w, y. split; [exact Hin|exact H].
    - intros (w & y & Hin & H). exists (w_view w), y. split; [|exact H]. apply elem_of_list_fmap. now exists w.
  Qed.

  (** ** C94: remote reads *)
  (** At any time during a remote read there is one state [s] of the store, committed between the arrival of the request and the
      first response, such that the events sent are the beginning of the answer to the request in [s], and all of it when the
      stream has ended.  The heads sent along are those of [s] (or, under a limit, the last event of each response).  The stream
      fails only if a page could not be read for it, and then with an error of corruption. *)
  Theorem pipelined_remote_read v vs tr k r x : going (v :: vs) tr -> w_rpcs v !! k = Some (QRd r x) -> k ∉ w_lost v ->
    (forall e, x = QFail e -> k ∈ w_unread v /\ e = ECorruption) /\
    exists s, (exists w y, w ∈ v :: vs /\ w_rpcs w !! k = Some y /\ unsent y /\ mshows (w_sys w) s) /\
      let answer := spec_read (s_hist s) (rr_q r) (rr_start r) (rr_bw r) (rr_limit r) in
      concat (map fst (rr_out r)) `prefix_of` answer /\
      (x = QEnd -> concat (map fst (rr_out r)) = answer /\ (rr_limit r <> Some 0 -> rr_out r <> [])) /\
      Forall (fun o => o.2 = (match rr_limit r with None => spec_head s | Some _ => fst <$> last o.1 end) /\ nlen o.1 <= rr_batch r) (rr_out r).
  Proof.
    intros [H Ha] Hk Hlost. destruct (wserves_inv hash order ford caching max_events Hord Hford _ _ _ _ _ _ Hrun H Ha) as (sy & Hi & Hg & Hsub & HR).
    pose proof (HR _ _ Hk Hlost) as Hr. cbn [rpc_inv] in Hr. destruct Hr as (Hwf & Hx & Hr). destruct (rr_head r) as [hd|].
    - destruct Hr as (s & Hs & Hgl & Hext & Ehd & Hheads & Hout & Hread & Hmore & Hph). split.
      { intros e ->. exact Hph. }
      exists s. split; [now apply seen_views in Hs|]. cbn zeta. split; [|split].
      + rewrite Hread. unfold rr_sent. eexists. reflexivity.
      + intros ->. rewrite Hread, app_nil_r. split; [reflexivity|]. intros _. exact Hout.
      + destruct Hheads as [Hh _]. eapply Forall_impl; [exact Hh|]. intros o [E1 E2]. split; [|exact E2]. rewrite E1. unfold spec_head, hist_head. destruct (rr_limit r), (s_hist s); reflexivity.
    - destruct Hr as (Ho & Hn & Hl & Hend & Hph). split; [intros e ->; exact Hph|]. exists (sp_cur sy). split.
      + exists v, (QRd r x). split; [left|]. split; [exact Hk|]. split; [exact Ho|]. apply (minv_shows hash order ford caching Hord Hford false _ _ Hi). now eexists.
      + rewrite Ho. cbn zeta. split; [apply prefix_nil|]. split; [|constructor]. intros E. rewrite (Hend E). split; [reflexivity|]. intros Hc. contradiction.
  Qed.
  (** No response is empty, unless it is the only one. *)
  Theorem pipelined_remote_batches v vs tr k r x : going (v :: vs) tr -> w_rpcs v !! k = Some (QRd r x) -> k ∉ w_lost v ->
    Forall (fun o => o.1 <> []) (rr_out r) \/ exists hd, rr_out r = [([], hd)].
  Proof.
    intros [H Ha] Hk Hlost. destruct (wserves_inv hash order ford caching max_events Hord Hford _ _ _ _ _ _ Hrun H Ha) as (sy & Hi & Hg & Hsub & HR).
    pose proof (HR _ _ Hk Hlost) as Hr. cbn [rpc_inv] in Hr. destruct Hr as (Hwf & Hx & Hr). destruct (rr_head r) as [hd|].
    - destruct Hr as (s & Hs & Hgl & Hext & Ehd & [_ Hheads] & _). destruct Hheads as [Hh|Hh]; [now left|right; eauto].
    - destruct Hr as (Ho & _). rewrite Ho. left. constructor.
  Qed.
  (** The request a task works on stays what the client sent. *)
  Lemma wstep_asked v ol v' k x : wstep v ol v' -> w_rpcs v !! k = Some x -> exists x', w_rpcs v' !! k = Some x' /\ asked x' = asked x /\ is_read x' = is_read x.
  Proof.
    intros H Hk. destruct H as [v ol z H _ _|v h next H|v ol u H Hg Hq Hd Hi Hi'].
    - exists x. auto.
    - destruct (notify_same (w_set_z (z_publish (Some h) (z_set_thread next (w_z v))) v)) as (_ & -> & _). exists x. auto.
    - exact (sstep_asked dps hash order ford caching max_events _ _ _ _ _ H Hk).
  Qed.
  Theorem pipelined_remote_request v vs tr w k x : wserves s0 h0 (v :: vs) tr -> w ∈ v :: vs -> w_rpcs w !! k = Some x ->
    exists x', w_rpcs v !! k = Some x' /\ asked x' = asked x /\ is_read x' = is_read x.
  Proof.
    intros H. remember (v :: vs) as l eqn:El. revert v vs El. induction H as [|v vs tr ol v' H IH Hst]; intros u us El Hw Hx.
    - injection El as <- <-. apply elem_of_list_singleton in Hw as ->. eauto.
    - injection El as <- <-. apply elem_of_cons in Hw as [->|Hw]; [eauto|]. destruct (IH _ _ eq_refl Hw Hx) as (x1 & H1 & H2 & H3).
      destruct (wstep_asked _ _ _ _ _ Hst H1) as (x2 & H4 & H5 & H6). exists x2. repeat split; congruence.
  Qed.
  (** The threads do what they do without the tasks, so that C56-C66 hold of them. *)
  Theorem pipelined_tasks_apart v vs tr : going (v :: vs) tr -> exists zs, zserves s0 h0 (w_z v :: zs) tr /\ z_all fine (w_z v :: zs).
  Proof. intros [H Ha]. exact (wserves_z hash order ford caching max_events _ _ _ _ _ _ H Ha). Qed.

  (** ** C95: subscriptions *)
  Theorem pipelined_subscription_exact v vs tr k s x st : going (v :: vs) tr -> w_rpcs v !! k = Some (QSub s x) -> k ∉ w_lost v -> mshows (w_sys v) st ->
    (forall e, x = QFail e -> k ∈ w_unread v /\ e = ECorruption) /\ (x = QEnd -> su_after s = Some (U64 - 1)) /\
    concat (su_out s) `prefix_of` filter (fun e => (match su_after s with Some a => a < e.1 | None => True end) /\ q_matches (su_q s) e.2) (s_hist st).
  Proof.
    intros [H Ha] Hk Hlost Hs. destruct (wserves_inv hash order ford caching max_events Hord Hford _ _ _ _ _ _ Hrun H Ha) as (sy & Hi & Hg & Hsub & HR).
    pose proof (HR _ _ Hk Hlost) as Hr. cbn [rpc_inv] in Hr. destruct Hr as [(H1 & H2 & ->)|(_ & _ & Hgood & Hne & Hph & _)].
    - split; [discriminate|]. split; [auto|]. rewrite H1. apply prefix_nil.
    - split; [intros e ->; exact Hph|]. split; [intros; contradiction|].
      destruct (minv_eqv hash order ford caching Hord Hford false _ _ _ Hi Hs) as [Eh _]. rewrite Eh. destruct Hgood as [Hgood _].
      assert (E : spec_read (s_hist (sp_cur sy)) (su_q s) (sub_from (su_after s)) false None =
        filter (fun e => (match su_after s with Some a => a < e.1 | None => True end) /\ q_matches (su_q s) e.2) (s_hist (sp_cur sy))).
      { unfold spec_read. cbn [cut]. apply list_filter_iff. intros e. unfold Spec.in_range, sub_from. destruct (su_after s); [|tauto]. rewrite <- N.le_succ_l. replace (N.succ n) with (n + 1) by lia. tauto. }
      rewrite <- E, Hgood. eexists. reflexivity.
  Qed.
  Theorem pipelined_subscription_batches v vs tr k s x : wserves s0 h0 (v :: vs) tr -> w_rpcs v !! k = Some (QSub s x) -> Forall (fun b => b <> []) (su_out s).
  Proof.
    intros H. remember (v :: vs) as l eqn:El. revert v vs k s x El. induction H as [|v vs tr ol v' H IH Hst]; intros u us k s x El Hk; injection El as <- <-; [discriminate Hk|].
    assert (IH2 : forall k s x, w_rpcs v !! k = Some (QSub s x) -> Forall (fun b => b <> []) (su_out s)) by (intros ? ? ? H'; exact (IH _ _ _ _ _ eq_refl H')).
    destruct Hst as [v ol z Hz _ _|v h next Hz|v ol u Hz Hg Hq Hd Hi Hi'].
    - exact (IH2 _ _ _ Hk).
    - destruct (notify_same (w_set_z (z_publish (Some h) (z_set_thread next (w_z v))) v)) as (_ & E & _). rewrite E in Hk. exact (IH2 _ _ _ Hk).
    - exact (sstep_batches dps hash order ford caching max_events _ _ _ Hz IH2 _ _ _ Hk).
  Qed.
  (** A subscriber that waits and has not been sent everything will be notified: the watched head has changed since it looked,
      or the writer thread is about to change it. *)
  Theorem pipelined_subscription_notified v vs tr k s st : going (v :: vs) tr -> w_rpcs v !! k = Some (QSub s QWait) -> k ∉ w_lost v -> mshows (w_sys v) st ->
    concat (su_out s) <> filter (fun e => (match su_after s with Some a => a < e.1 | None => True end) /\ q_matches (su_q s) e.2) (s_hist st) ->
    w_ver v <> su_seen s \/ exists todo hd next, z_thread (w_z v) = ZSend todo (Some hd) next.
  Proof.
    intros [H Ha] Hk Hlost Hs Hne. destruct (wserves_inv hash order ford caching max_events Hord Hford _ _ _ _ _ _ Hrun H Ha) as (sy & Hi & Hg & Hsub & HR).
    pose proof (HR _ _ Hk Hlost) as Hr. cbn [rpc_inv] in Hr. destruct Hr as [(_ & _ & Hx)|(_ & _ & Hgood & _ & _ & Hw)]; [discriminate|].
    destruct (decide (w_ver v = su_seen s)) as [Ev|Ev]; [right|now left]. destruct (publishing (w_view v)) eqn:Ep.
    - rewrite view_publishing in Ep. unfold z_publishing in Ep. destruct (z_thread (w_z v)) as [| | | | | | |todo [hd|] next|]; try discriminate. eauto.
    - exfalso. apply Hne. specialize (Hw eq_refl (conj (eq_sym Ev) Ep)).
      destruct (minv_eqv hash order ford caching Hord Hford false _ _ _ Hi Hs) as [Eh _]. rewrite Eh. destruct Hgood as [Hgood _]. rewrite Hw, app_nil_r in Hgood.
      unfold su_sent in Hgood. rewrite <- Hgood. unfold spec_read. cbn [cut]. apply list_filter_iff. intros e. unfold Spec.in_range, sub_from. destruct (su_after s); [|tauto].
      rewrite <- N.le_succ_l. replace (N.succ n) with (n + 1) by lia. tauto.
  Qed.

  (** ** The clients' programs *)
  Lemma going_back v vs tr w : going (v :: vs) tr -> w ∈ v :: vs -> exists ws tr', going (w :: ws) tr'.
  Proof.
    revert v tr. induction vs as [|u vs IH]; intros v tr H Hw.
    - apply elem_of_list_singleton in Hw as ->. eauto.
    - apply elem_of_cons in Hw as [->|Hw]; [eauto|]. destruct H as [H Ha]. inversion H; subst. destruct Ha as [_ Ha]. eapply IH; [split; eassumption|exact Hw].
  Qed.
  Lemma going_run v vs tr : going (v :: vs) tr -> mrun fine (tr0 ++ tr) (w_sys v).
  Proof.
    intros H. destruct (pipelined_tasks_apart _ _ _ H) as (zs & Hz & Ha). exact (zserves_mrun hash order ford caching max_events fine s0 h0 _ _ _ _ Hrun Hz Ha).
  Qed.
  Lemma going_healthy v vs tr : going (v :: vs) tr -> mrun healthy (tr0 ++ tr) (w_sys v).
  Proof. intros H. exact (mrun_weaken hash order ford caching fine healthy _ _ fine_healthy (going_run _ _ _ H)). Qed.
  Lemma going_shown v vs tr : going (v :: vs) tr -> exists s, mshows (w_sys v) s /\ gapless (s_hist s).
  Proof. intros H. apply (pipelined_gapless hash order ford caching Hord Hford _ _ (going_healthy _ _ _ H)). now eexists. Qed.
  Lemma going_gapless v vs tr w s : going (v :: vs) tr -> w ∈ v :: vs -> mshows (w_sys w) s -> gapless (s_hist s).
  Proof.
    intros H Hw Hs. destruct (going_back _ _ _ _ H Hw) as (ws & tr' & H'). destruct (going_shown _ _ _ H') as (s' & Hs' & Hg).
    destruct (shows_unique hash order (msys_of (w_sys w)) s' s Hs' Hs) as [E _]. now rewrite E in Hg.
  Qed.
  Theorem pipelined_remote_collect v vs tr k r : going (v :: vs) tr -> w_rpcs v !! k = Some (QRd r QEnd) -> k ∉ w_lost v ->
    exists s, (exists w y, w ∈ v :: vs /\ w_rpcs w !! k = Some y /\ unsent y /\ mshows (w_sys w) s) /\
      (Forall stored_text (s_hist s) -> Forall fits (rr_out r) ->
       let stream := map (fun o => arrives (response_to_pb o)) (rr_out r) in
       let answer := spec_read (s_hist s) (rr_q r) (rr_start r) (rr_bw r) (rr_limit r) in
       let result := Ok (answer, spec_read_head s (rr_limit r) answer) in
       (collect_with_head (new_eng stream)).1 = result /\ (ar_collect_with_head (new_ar stream)).1 = result).
  Proof.
    intros H Hk Hlost. destruct (pipelined_remote_read _ _ _ _ _ _ H Hk Hlost) as (_ & s & Hseen & _ & Hend & Hheads). destruct (Hend eq_refl) as [Hall Hne].
    exists s. split; [exact Hseen|]. intros Htext Hfits. apply collect_answer; try assumption.
    - destruct Hseen as (w & y & Hw & _ & _ & Hsh). exact (going_gapless _ _ _ _ _ H Hw Hsh).
    - exact (pipelined_remote_batches _ _ _ _ _ _ H Hk Hlost).
  Qed.
  Theorem pipelined_subscription_delivered v vs tr k s x st cs : going (v :: vs) tr -> w_rpcs v !! k = Some (QSub s x) -> k ∉ w_lost v -> mshows (w_sys v) st ->
    Forall stored_text (s_hist st) -> Forall (fun b => fits (b, None)) (su_out s) ->
    let stream := map (fun b => arrives (response_to_pb (b, None))) (su_out s) in
    let wanted := filter (fun e => (match su_after s with Some a => a < e.1 | None => True end) /\ q_matches (su_q s) e.2) (s_hist st) in
    concat (map brings (calls sync_call cs (new_eng stream)).1) `prefix_of` wanted /\ concat (map brings (calls async_call cs (new_ar stream)).1) `prefix_of` wanted.
  Proof.
    intros H Hk Hlost Hs Ht Hf. destruct (pipelined_subscription_exact _ _ _ _ _ _ _ H Hk Hlost Hs) as (_ & _ & Hp).
    exact (deliver_prefix s st cs Hp (pipelined_subscription_batches _ _ _ _ _ _ (proj1 H) Hk) Ht Hf).
  Qed.

  (** ** C96: clients among each other *)
  Context (Hp : l_phase (s_pipe s0) = PFetch) (Hf : l_fly (s_pipe s0) = None).
  (** The server goes on from [w] to [v]. *)
  Inductive w_leads (w : wsrv) : wsrv -> list label -> Prop :=
    | w_leads_here : w_leads w w []
    | w_leads_step v tr ol v' : w_leads w v tr -> wstep v ol v' -> fine (w_sys v) (w_sys v') -> w_leads w v' (tr ++ match ol with Some l => [l] | None => [] end).
  Lemma w_leads_going w ws trw v tr : going (w :: ws) trw -> w_leads w v tr ->
    exists us, going (us ++ w :: ws) (trw ++ tr) /\ (exists us', us ++ w :: ws = v :: us') /\ forall u, u ∈ us -> exists tr1, w_leads w u tr1.
  Proof.
    intros H. induction 1 as [|v tr ol v' H1 IH Hst Hc].
    - exists []. rewrite app_nil_r. split; [exact H|]. split; [eexists; reflexivity|]. intros u Hu. now apply elem_of_nil in Hu.
    - destruct IH as (us & H2 & (us' & E) & H3). exists (v' :: us). cbn [app]. rewrite E in H2 |- *. destruct H2 as [H2 Ha].
      split; [split; [rewrite app_assoc; econstructor; eassumption|split; [exact Hc|exact Ha]]|].
      split; [eexists; reflexivity|]. intros u Hu. apply elem_of_cons in Hu as [->|Hu]; [|now apply H3]. eexists. econstructor; eassumption.
  Qed.
  Lemma going_here : going [w_init s0 h0] []. Proof. split; [constructor|exact I]. Qed.
  Lemma w_leads_start v vs tr : going (v :: vs) tr -> w_leads (w_init s0 h0) v tr.
  Proof.
    intros [H Ha]. remember (v :: vs) as l eqn:El. revert v vs El Ha. induction H as [|v vs tr ol v' H IH Hst]; intros u us El Ha.
    - injection El as <- <-. constructor.
    - injection El as <- <-. destruct Ha as [Hc Ha]. econstructor; [|exact Hst|exact Hc]. exact (IH _ _ eq_refl Ha).
  Qed.
  Lemma w_leads_steps w v tr : w_leads w v tr -> msteps fine (w_sys w) tr (w_sys v).
  Proof.
    induction 1 as [|v tr ol v' H1 IH Hst Hc]; [constructor|]. apply (wstep_mstep hash order ford caching max_events) in Hst. destruct ol as [l|].
    - econstructor; [exact IH|exact Hst|exact Hc].
    - rewrite app_nil_r. unfold w_sys. rewrite Hst. exact IH.
  Qed.
  Lemma msteps_healthy y0 t y1 : msteps fine y0 t y1 -> msteps healthy y0 t y1.
  Proof. induction 1; [constructor|]. econstructor; eauto using fine_healthy. Qed.
  Lemma run_extends_m tr y t y' s s' : mrun healthy tr y -> msteps fine y t y' -> mshows y s -> mshows y' s' -> extends s s'.
  Proof. intros H Ht Hs Hs'. exact (pipelined_permanent hash order ford caching Hord Hford _ _ _ _ _ _ H Hs (msteps_healthy _ _ _ Ht) Hs'). Qed.
  Lemma w_leads_extends w ws trw v tr s s' : going (w :: ws) trw -> w_leads w v tr -> mshows (w_sys w) s -> mshows (w_sys v) s' -> extends s s'.
  Proof. intros H Hl. exact (run_extends_m _ _ _ _ _ _ (going_healthy _ _ _ H) (w_leads_steps _ _ _ Hl)). Qed.
  Lemma w_leads_accounts w v trw tr P : z_accounts (w_z w) trw P -> w_leads w v tr -> exists P', z_accounts (w_z v) (trw ++ tr) (P ++ P').
  Proof.
    intros H0. induction 1 as [|v tr ol v' H1 IH Hst _].
    - exists []. now rewrite !app_nil_r.
    - destruct IH as (P' & HP). destruct (wstep_z hash order ford caching max_events _ _ _ Hst) as [Hz|[-> E]].
      + destruct (zaccounts_step dps hash order ford caching max_events _ _ _ _ _ Hz HP) as (P2 & HP2). exists (P' ++ P2). now rewrite !app_assoc.
      + exists P'. now rewrite E, app_nil_r.
  Qed.
  (** A request put into the queue after [w] and answered with a position was committed after [w]. *)
  Lemma w_committed_in w ws trw v tr id r p : going (w :: ws) trw -> w_leads w v tr -> (id, r) ∈ z_seen (w_z v) -> (id, Ok p) ∈ z_sent (w_z v) ->
    id ∉ map fst (z_seen (w_z w)) -> (r, Ok p) ∈ commits tr.
  Proof.
    intros H Hl Hin Hout Hnew. destruct (pipelined_tasks_apart _ _ _ H) as (zs & Hz & _).
    destruct (zserves_accounts dps hash order ford caching max_events _ _ _ _ _ Hp Hf Hz) as (P & HP).
    destruct (w_leads_accounts _ _ _ _ _ HP Hl) as (P' & A1 & _ & A2 & A3 & A4 & A5 & _). destruct HP as (B1 & _ & _ & B3 & _).
    assert (Ho : (id, Ok p) ∈ map f_out (P ++ P')) by (rewrite A2; apply elem_of_app; now left).
    apply elem_of_list_fmap in Ho as (f & Ef & Hf'). injection Ef as E1 E2.
    assert (Hreq : f_req f = r).
    { assert (Hi : (id, f_req f) ∈ z_seen (w_z v)). { rewrite <- A1. apply elem_of_app. left. apply elem_of_list_fmap. exists f. split; [|exact Hf']. unfold f_in. now rewrite <- E1. }
      clear -A5 Hi Hin. induction (z_seen (w_z v)) as [|[i q] l IH]; [now apply elem_of_nil in Hin|]. cbn [map fst] in A5. apply NoDup_cons in A5 as [Hn Hd].
      assert (Hno : forall y, (i, y) ∈ l -> False) by (intros y Hy; apply Hn; apply elem_of_list_fmap; exists (i, y); auto).
      apply elem_of_cons in Hi as [Ei|Hi], Hin as [En|Hin].
      - congruence.
      - injection Ei as -> _. now apply Hno in Hin.
      - injection En as -> _. now apply Hno in Hi.
      - now apply IH. }
    assert (Hdone : f_done f = true).
    { destruct (f_done f) eqn:Ed; [reflexivity|]. destruct (proj1 (Forall_forall _ _) A4 f Hf' Ed) as (e & He). congruence. }
    assert (HP' : f ∈ P').
    { apply elem_of_app in Hf' as [Hx|Hx]; [|exact Hx]. exfalso. apply Hnew. rewrite <- B1, map_app. apply elem_of_app. left. rewrite map_map. apply elem_of_list_fmap. exists f. split; [exact E1|exact Hx]. }
    rewrite filter_app, map_app, B3, commits_app in A3. apply app_inv_head in A3. rewrite <- A3. apply elem_of_list_fmap. exists f. split; [unfold f_com; congruence|].
    apply elem_of_list_filter. split; assumption.
  Qed.
  Lemma msteps_app_inv C y t1 t2 y' : msteps C y (t1 ++ t2) y' -> exists ym, msteps C y t1 ym /\ msteps C ym t2 y'.
  Proof.
    intros H. remember (t1 ++ t2) as t eqn:Et. revert t2 Et. induction H as [y|y t ym l y' H IH Hl Hc]; intros t2 Et.
    - symmetry in Et. apply app_eq_nil in Et as [-> ->]. exists y. split; constructor.
    - destruct t2 as [|l2 t2 _] using rev_ind.
      + rewrite app_nil_r in Et. subst t1. exists y'. split; [econstructor; eassumption|constructor].
      + rewrite app_assoc in Et. apply app_inj_tail in Et as [-> <-]. destruct (IH _ eq_refl) as (yn & H1 & H2). exists yn. split; [exact H1|econstructor; eassumption].
  Qed.
  Lemma msteps_last C y t l y' : msteps C y (t ++ [l]) y' -> exists ym, msteps C y t ym /\ mstep 16 dps hash order ford caching ym l y' /\ C ym y'.
  Proof. intros H. inversion H as [|? t0 ym l0 ? H1 H2 H3 E1 E2]; [destruct t; discriminate|]. apply app_inj_tail in E2 as [-> ->]. eauto. Qed.
  Lemma mrun_app C tr y t y' : mrun C tr y -> msteps C y t y' -> mrun C (tr ++ t) y'.
  Proof. intros [H|H] Ht; [left|right]; exact (msteps_app hash order ford caching _ _ _ _ _ _ H Ht). Qed.
  (** Such a request was judged in a state between the two. *)
  Lemma w_appended w ws trw v tr id r p s s' : going (w :: ws) trw -> w_leads w v tr -> (id, r) ∈ z_seen (w_z v) -> (id, Ok p) ∈ z_sent (w_z v) ->
    id ∉ map fst (z_seen (w_z w)) -> mshows (w_sys w) s -> mshows (w_sys v) s' ->
    exists sa sb, extends s sa /\ spec_append dps sa (rq_events r) (rq_cond r) (rq_trk r) = (Ok p, sb) /\ extends sb s' /\ gapless (s_hist sa).
  Proof.
    intros H Hl Hin Hout Hnew Hs Hs'. destruct (commit_at _ _ _ (w_committed_in _ _ _ _ _ _ _ _ H Hl Hin Hout Hnew)) as (t1 & r1 & r2 & ans & t2 & -> & Ha).
    pose proof (w_leads_steps _ _ _ Hl) as Hst. replace (t1 ++ LCommit (r1 ++ r :: r2) ans :: t2) with ((t1 ++ [LCommit (r1 ++ r :: r2) ans]) ++ t2) in Hst by (now rewrite <- app_assoc).
    apply msteps_app_inv in Hst as (y2 & Hst & Hst2). apply msteps_last in Hst as (y1 & Hst1 & Hc & Hfine).
    pose proof (going_healthy _ _ _ H) as Hr. pose proof (mrun_app _ _ _ _ _ Hr (msteps_healthy _ _ _ Hst1)) as Hr1.
    assert (Hup : mup y1).
    { inversion Hc as [? ? ? Hy| | | |? ? ? Hls| | | |]; subst; try (now eexists). inversion Hy; subst; eexists; reflexivity. }
    destruct (pipelined_gapless hash order ford caching Hord Hford _ _ Hr1 Hup) as (s1 & Hs1 & Hg1).
    destruct (pipelined_commit hash order ford caching Hord Hford _ _ _ _ _ _ Hr1 Hs1 Hc (fine_healthy _ _ Hfine)) as (s3 & Hb & Hsh).
    rewrite batch_app in Hb. cbn [spec_batch] in Hb. pose proof (batch_length dps s1 r1) as Hlen. pose proof (batch_extends dps s1 r1) as E1. pose proof (batch_gapless dps s1 r1 Hg1) as G1.
    destruct (spec_batch dps s1 r1) as [a1 sa] eqn:B1. cbn [fst snd] in *. destruct (spec_append dps sa (rq_events r) (rq_cond r) (rq_trk r)) as [a sb] eqn:B. cbn [fst snd] in Hb.
    pose proof (batch_extends dps sb r2) as E2. destruct (spec_batch dps sb r2) as [a2 s4] eqn:B2. cbn [fst snd] in *. injection Hb as <- <-.
    assert (a = Ok p) as ->. { rewrite <- Hlen in Ha. rewrite list_lookup_middle in Ha by reflexivity. congruence. }
    exists sa, sb. split; [|split; [exact B|split; [|exact G1]]].
    - eapply extends_trans; [|exact E1]. exact (run_extends_m _ _ _ _ _ _ Hr Hst1 Hs Hs1).
    - eapply extends_trans; [exact E2|]. refine (run_extends_m _ _ _ _ _ _ (mrun_snoc hash order ford caching _ _ _ _ _ Hr1 Hc (fine_healthy _ _ Hfine)) Hst2 Hsh Hs').
  Qed.
  Lemma w_seen_later w ws trw v tr k us s sw : going (w :: ws) trw -> w_leads w v tr -> w_rpcs w !! k = None -> mshows (w_sys w) sw ->
    (forall u, u ∈ us -> exists tr1, w_leads w u tr1) ->
    (exists u y, u ∈ us ++ w :: ws /\ w_rpcs u !! k = Some y /\ unsent y /\ mshows (w_sys u) s) -> extends sw s.
  Proof.
    intros H Hl Hk Hsw Hus (u & y & Hin & Hy & _ & Hs). apply elem_of_app in Hin as [Hin|Hin].
    - destruct (Hus u Hin) as (tr1 & Hl1). exact (w_leads_extends _ _ _ _ _ _ _ H Hl1 Hsw Hs).
    - destruct (pipelined_remote_request _ _ _ _ _ _ (proj1 H) Hin Hy) as (x' & E & _). congruence.
  Qed.
  Lemma w_past_leads v vs tr w : going (v :: vs) tr -> w ∈ v :: vs -> exists ws trw tr', going (w :: ws) trw /\ w_leads w v tr'.
  Proof.
    intros [H Ha]. remember (v :: vs) as l eqn:El. revert v vs El Ha. induction H as [|v vs tr ol v' H IH Hst]; intros x xs El Ha Hin.
    - injection El as <- <-. apply elem_of_list_singleton in Hin as ->. exists [], [], []. split; [exact going_here|constructor].
    - injection El as <- <-. pose proof Ha as [Hc Ha']. apply elem_of_cons in Hin as [->|Hin].
      + exists (v :: vs). eexists _, []. split; [split; [econstructor; eassumption|exact Ha]|constructor].
      + destruct (IH _ _ eq_refl Ha' Hin) as (ws & trw & tr' & H1 & H2). exists ws, trw. eexists. split; [exact H1|econstructor; eassumption].
  Qed.
  Lemma w_past_extends v vs tr u s sv : going (v :: vs) tr -> u ∈ v :: vs -> mshows (w_sys u) s -> mshows (w_sys v) sv -> extends s sv.
  Proof. intros H Hin. destruct (w_past_leads _ _ _ _ H Hin) as (ws & trw & tr' & H1 & H2). exact (w_leads_extends _ _ _ _ _ _ _ H1 H2). Qed.
  (** What an answer says is stored. *)
  Lemma w_acked_stored w ws trw id r p : going (w :: ws) trw -> (id, r) ∈ z_seen (w_z w) -> (id, Ok p) ∈ z_sent (w_z w) -> rq_events r <> [] ->
    exists sw, mshows (w_sys w) sw /\ exists new, own_events r p new /\ forall e, e ∈ new -> e ∈ s_hist sw.
  Proof.
    intros H Hin Hout Hne. destruct (going_shown _ _ _ H) as (sw & Hsw & _). exists sw. split; [exact Hsw|].
    destruct (going_shown _ _ _ going_here) as (s1 & Hs1 & _).
    destruct (w_appended _ _ _ _ _ _ _ _ _ _ going_here (w_leads_start _ _ _ H) Hin Hout (not_elem_of_nil _) Hs1 Hsw) as (sa & sb & _ & B & Eb & _).
    destruct (own_of_append dps _ _ _ _ B Hne) as (new & Hown & Hnew). exists new. split; [exact Hown|]. intros e He.
    destruct (extends_hist _ _ Eb) as (h' & ->). apply elem_of_app. left. now apply Hnew.
  Qed.
  (** An append was answered with a position; afterwards a client asks for events.  When its read has ended, each of the
      appended events it asked for is among those it was sent, or it was sent as many events as it wanted at most. *)
  Theorem pipelined_acknowledged_read w ws trw v tr id r p k rr : going (w :: ws) trw -> (id, r) ∈ z_seen (w_z w) -> (id, Ok p) ∈ z_sent (w_z w) -> rq_events r <> [] ->
    w_rpcs w !! k = None -> w_leads w v tr -> w_rpcs v !! k = Some (QRd rr QEnd) -> k ∉ w_lost v ->
    exists new, own_events r p new /\ forall e, e ∈ new -> Spec.in_range (rr_start rr) (rr_bw rr) e.1 -> q_matches (rr_q rr) e.2 ->
      e ∈ concat (map fst (rr_out rr)) \/ rr_limit rr = Some (nlen (concat (map fst (rr_out rr)))).
  Proof.
    intros H Hin Hout Hne Hk Hl Hrd Hlost. destruct (w_acked_stored _ _ _ _ _ _ H Hin Hout Hne) as (sw & Hsw & new & Hown & Hnew). exists new. split; [exact Hown|].
    destruct (w_leads_going _ _ _ _ _ H Hl) as (us & Hus & (us' & E) & Hbetween). rewrite E in Hus.
    destruct (pipelined_remote_read _ _ _ _ _ _ Hus Hrd Hlost) as (_ & s & Hseen & _ & Hend & _).
    destruct (Hend eq_refl) as [-> _]. rewrite <- E in Hseen. pose proof (w_seen_later _ _ _ _ _ _ _ _ _ H Hl Hk Hsw Hbetween Hseen) as Hext.
    intros e He Hr Hq. apply read_or_full; [|exact Hr|exact Hq]. destruct (extends_hist _ _ Hext) as (h' & ->). apply elem_of_app. left. now apply Hnew.
  Qed.
  Definition w_text_stored (v : wsrv) : Prop := forall s, mshows (w_sys v) s -> Forall stored_text (s_hist s).
  Lemma w_collected_is v vs tr k rr evs hd : going (v :: vs) tr -> w_rpcs v !! k = Some (QRd rr QEnd) -> k ∉ w_lost v ->
    w_text_stored v -> Forall fits (rr_out rr) -> collected rr evs hd ->
    exists s, (exists u y, u ∈ v :: vs /\ w_rpcs u !! k = Some y /\ unsent y /\ mshows (w_sys u) s) /\
      (exists sv, mshows (w_sys v) sv /\ extends s sv) /\
      evs = spec_read (s_hist s) (rr_q rr) (rr_start rr) (rr_bw rr) (rr_limit rr) /\ hd = spec_read_head s (rr_limit rr) evs.
  Proof.
    intros H Hrd Hlost Htext Hfits Hcol. destruct (pipelined_remote_collect _ _ _ _ _ H Hrd Hlost) as (s & Hseen & Hc).
    assert (Hv : exists sv, mshows (w_sys v) sv /\ extends s sv).
    { destruct Hseen as (u & y & Hin & _ & _ & Hs). destruct (going_shown _ _ _ H) as (sv & Hsv & _). exists sv. split; [exact Hsv|]. exact (w_past_extends _ _ _ _ _ _ H Hin Hs Hsv). }
    exists s. split; [exact Hseen|]. split; [exact Hv|]. destruct Hv as (sv & Hsv & He).
    assert (Ht : Forall stored_text (s_hist s)). { destruct (extends_hist _ _ He) as (h' & E). pose proof (Htext _ Hsv) as Ht. rewrite E in Ht. now apply Forall_app in Ht. }
    destruct (Hc Ht Hfits) as [E1 E2]. destruct Hcol as [Hcol|Hcol]; cbn zeta in Hcol; rewrite ?E1, ?E2 in Hcol; injection Hcol as <- <-; auto.
  Qed.
  (** The same for what the other client's program gets. *)
  Theorem pipelined_acknowledged_collected w ws trw v tr id r p k rr evs hd : going (w :: ws) trw -> (id, r) ∈ z_seen (w_z w) -> (id, Ok p) ∈ z_sent (w_z w) -> rq_events r <> [] ->
    w_rpcs w !! k = None -> w_leads w v tr -> w_rpcs v !! k = Some (QRd rr QEnd) -> k ∉ w_lost v ->
    w_text_stored v -> Forall fits (rr_out rr) -> collected rr evs hd ->
    exists new, own_events r p new /\ forall e, e ∈ new -> Spec.in_range (rr_start rr) (rr_bw rr) e.1 -> q_matches (rr_q rr) e.2 ->
      e ∈ evs \/ rr_limit rr = Some (nlen evs).
  Proof.
    intros H Hin Hout Hne Hk Hl Hrd Hlost Htext Hfits Hcol. destruct (w_acked_stored _ _ _ _ _ _ H Hin Hout Hne) as (sw & Hsw & new & Hown & Hnew).
    exists new. split; [exact Hown|]. destruct (w_leads_going _ _ _ _ _ H Hl) as (us & Hus & (us' & E) & Hbetween). rewrite E in Hus.
    destruct (w_collected_is _ _ _ _ _ _ _ Hus Hrd Hlost Htext Hfits Hcol) as (s & Hseen & _ & -> & _). rewrite <- E in Hseen.
    pose proof (w_seen_later _ _ _ _ _ _ _ _ _ H Hl Hk Hsw Hbetween Hseen) as Hext.
    intros e He Hr Hq. apply read_or_full; [|exact Hr|exact Hq]. destruct (extends_hist _ _ Hext) as (h' & ->). apply elem_of_app. left. now apply Hnew.
  Qed.
  (** What a read was sent, at whatever stage it is, a read that begins later is sent as well. *)
  Theorem pipelined_later_read_has_more w ws trw v tr k1 r1 x1 k2 r2 : going (w :: ws) trw -> w_rpcs w !! k1 = Some (QRd r1 x1) -> k1 ∉ w_lost w ->
    w_rpcs w !! k2 = None -> w_leads w v tr -> w_rpcs v !! k2 = Some (QRd r2 QEnd) -> k2 ∉ w_lost v ->
    forall e, e ∈ concat (map fst (rr_out r1)) -> Spec.in_range (rr_start r2) (rr_bw r2) e.1 -> q_matches (rr_q r2) e.2 ->
      e ∈ concat (map fst (rr_out r2)) \/ rr_limit r2 = Some (nlen (concat (map fst (rr_out r2)))).
  Proof.
    intros H Hk1 Hlost1 Hk2 Hl Hrd Hlost2 e He Hr Hq. destruct (going_shown _ _ _ H) as (sw & Hsw & _).
    destruct (pipelined_remote_read _ _ _ _ _ _ H Hk1 Hlost1) as (_ & s1 & Hseen1 & Hpre & _).
    destruct (w_leads_going _ _ _ _ _ H Hl) as (us & Hus & (us' & E) & Hbetween). rewrite E in Hus.
    destruct (pipelined_remote_read _ _ _ _ _ _ Hus Hrd Hlost2) as (_ & s & Hseen & _ & Hend & _).
    destruct (Hend eq_refl) as [-> _]. rewrite <- E in Hseen. pose proof (w_seen_later _ _ _ _ _ _ _ _ _ H Hl Hk2 Hsw Hbetween Hseen) as Hext.
    assert (Hext1 : extends s1 sw) by (destruct Hseen1 as (u & y & Hin & _ & _ & Hs1); exact (w_past_extends _ _ _ _ _ _ H Hin Hs1 Hsw)).
    apply read_or_full; [|exact Hr|exact Hq]. destruct (extends_hist _ _ (extends_trans _ _ _ Hext1 Hext)) as (h' & ->). apply elem_of_app. left.
    apply (read_in _ (rr_q r1) (rr_start r1) (rr_bw r1) (rr_limit r1)). destruct Hpre as (l & ->). apply elem_of_app. now left.
  Qed.
  (** A subscription that was never cut off, waits and has nothing to be notified of has delivered each event that was
      acknowledged, whenever, if it asked for it. *)
  Theorem pipelined_acknowledged_delivered w ws trw v tr id r p k su : going (w :: ws) trw -> (id, r) ∈ z_seen (w_z w) -> (id, Ok p) ∈ z_sent (w_z w) -> rq_events r <> [] ->
    w_leads w v tr -> w_rpcs v !! k = Some (QSub su QWait) -> k ∉ w_lost v -> w_ver v = su_seen su -> (forall todo hd next, z_thread (w_z v) <> ZSend todo (Some hd) next) ->
    exists new, own_events r p new /\ forall e, e ∈ new -> (match su_after su with Some a => a < e.1 | None => True end) -> q_matches (su_q su) e.2 ->
      e ∈ concat (su_out su).
  Proof.
    intros H Hin Hout Hne Hl Hk Hlost Hver Hth. destruct (w_acked_stored _ _ _ _ _ _ H Hin Hout Hne) as (sw & Hsw & new & Hown & Hnew). exists new. split; [exact Hown|].
    destruct (w_leads_going _ _ _ _ _ H Hl) as (us & Hus & (us' & E) & _). rewrite E in Hus. destruct (going_shown _ _ _ Hus) as (s & Hs & _).
    intros e He Haf Hq. pose proof (pipelined_subscription_notified _ _ _ _ _ _ Hus Hk Hlost Hs) as Hn.
    match type of Hn with ?a <> ?b -> _ => destruct (decide (a = b)) as [Eq|Eq] end.
    - rewrite Eq. apply elem_of_list_filter. split; [split; assumption|]. destruct (extends_hist _ _ (w_leads_extends _ _ _ _ _ _ _ H Hl Hsw Hs)) as (h' & ->). apply elem_of_app. left. now apply Hnew.
    - exfalso. destruct (Hn Eq) as [Hv|(todo & hd & next & Ht)]; [contradiction|]. exact (Hth _ _ _ Ht).
  Qed.
  (** A client has read, forwards and to the end, and got the events [evs] and the head [hd].  Thereupon it (or another client)
      sends an append on condition that nothing that matches the same query was stored after [hd], and gets a position.  Then
      [evs] are all the events, of those asked for, which were stored when the append took effect.  The other case is that the
      append repeats one that has taken effect since: events with its ids, after [hd] and matching. *)
  Theorem pipelined_decision_protected w ws trw v tr k rr evs hd id r p c st : going (w :: ws) trw -> w_rpcs w !! k = Some (QRd rr QEnd) -> k ∉ w_lost w -> rr_bw rr = false ->
    w_text_stored w -> Forall fits (rr_out rr) -> collected rr evs hd ->
    id ∉ map fst (z_seen (w_z w)) -> w_leads w v tr -> (id, r) ∈ z_seen (w_z v) -> (id, Ok p) ∈ z_sent (w_z v) -> rq_events r <> [] ->
    rq_cond r = Some c -> ac_query c = rr_q rr -> ac_after c = hd -> mshows (w_sys v) st ->
    (exists before later, s_hist st = before ++ number (nlen before + 1) (map (to_record (rq_trk r)) (rq_events r)) ++ later /\ p = nlen before + nlen (rq_events r) /\
      evs = filter (fun e => Spec.in_range (rr_start rr) false e.1 /\ q_matches (rr_q rr) e.2) before) \/
    (Forall (fun e => is_Some (ne_uuid e)) (rq_events r) /\ exists new, map (fun e => er_uuid e.2) new = map ne_uuid (rq_events r) /\ fst <$> last new = Some p /\
      forall e, e ∈ new -> e ∈ s_hist st /\ match hd with Some a => a < e.1 | None => True end /\ q_matches (rr_q rr) e.2).
  Proof.
    intros H Hrd Hlost Hbw Htext Hfits Hcol Hid Hl Hin Hout Hne Hc Hq Haf Hst.
    destruct (w_collected_is _ _ _ _ _ _ _ H Hrd Hlost Htext Hfits Hcol) as (s & _ & (sw & Hsw & Hext) & Eevs & Ehd). rewrite Hbw in Eevs.
    destruct (w_appended _ _ _ _ _ _ _ _ _ _ H Hl Hin Hout Hid Hsw Hst) as (sa & sb & Ea & B & Eb & Hga).
    exact (decision_of dps _ _ _ _ _ _ _ _ _ _ _ _ Hga (extends_trans _ _ _ Hext Ea) Eb B Hne Hc Hq Haf Eevs Ehd).
  Qed.
End remote_pipelined.
Print Assumptions pipelined_remote_read.
Print Assumptions pipelined_remote_batches.
Print Assumptions pipelined_remote_request.
Print Assumptions pipelined_tasks_apart.
Print Assumptions pipelined_remote_collect.
Print Assumptions pipelined_subscription_exact.
Print Assumptions pipelined_subscription_batches.
Print Assumptions pipelined_subscription_notified.
Print Assumptions pipelined_subscription_delivered.
Print Assumptions pipelined_acknowledged_read.
Print Assumptions pipelined_acknowledged_collected.
Print Assumptions pipelined_later_read_has_more.
Print Assumptions pipelined_acknowledged_delivered.
Print Assumptions pipelined_decision_protected.

(** ** Running it *)
Inductive wact := UZ (a : zact) | UT (a : sact).
Section wexec.
  Context (c : bool) (max_events : N).
  Notation wstep := (wstep 16 4096 f_hash (fun l => l) x_ford c max_events).
  Definition of_task (a : sact) : bool := match a with VDb _ | VRead _ _ _ _ _ _ | VSubscribe _ _ _ _ | VTask _ | VBad _ => true | _ => false end.
  Definition is_idle (w : wphase) : bool := match w with WIdle => true | _ => false end.
  Definition wexec (v : wsrv) (a : wact) : option (option label * wsrv) :=
    match a with
    | UZ a => match z_thread (w_z v), a with
      | ZSend [] (Some h) next, XThread => Some (None, w_notify (w_set_z (z_publish (Some h) (z_set_thread next (w_z v))) v))
      | _, _ => match zexec c max_events (w_z v) a with
        | Some (ol, z) => match ol ≫= reader_of with None => Some (ol, w_set_z z v) | _ => None end
        | None => None end
      end
    | UT a => if of_task a && is_idle (p_writer (s_proc (z_sys (w_z v)))) then
        match sexec 16 4096 f_hash (fun l => l) x_ford c max_events (w_tasks v) a with
        | Some (ol, u) => if is_idle (p_writer (v_proc u)) then Some (ol, w_put u v) else None
        | None => None end
      else None
    end.
  Lemma zexec_thread z a ol z' : a <> XThread -> zexec c max_events z a = Some (ol, z') -> z_thread z' = z_thread z.
  Proof.
    destruct a; cbn [zexec]; intros Hn E; try contradiction.
    - repeat (case_match; try discriminate); injection E as <- <-; cbn; congruence.
    - now injection E as <- <-.
    - now injection E as <- <-.
    - repeat (case_match; try discriminate); injection E as <- <-; reflexivity.
    - repeat (case_match; try discriminate); injection E as <- <-; reflexivity.
  Qed.
  Lemma sexec_apart u a ol u' : of_task a = true -> sexec 16 4096 f_hash (fun l => l) x_ford c max_events u a = Some (ol, u') ->
    v_gone u' = v_gone u /\ v_queue u' = v_queue u /\ v_disk u' = v_disk u.
  Proof.
    destruct a as [| | | | |a|k q start bw limit batch|k q after batch|k|k]; try discriminate; intros _ E; cbn [sexec] in E.
    - destruct (on_way a) eqn:Eo; [|discriminate]. destruct a; try discriminate Eo; cbn [pexec] in E; repeat (case_match; try discriminate); simplify_eq; repeat split.
    - repeat (case_match; try discriminate); injection E as <- <-; repeat split.
    - repeat (case_match; try discriminate); injection E as <- <-; repeat split.
    - unfold kexec in E. cbn [pexec] in E. repeat (case_match; try discriminate); simplify_eq; repeat split.
    - repeat (case_match; try discriminate); injection E as <- <-; repeat split.
  Qed.
  Lemma wexec_ok v a ol v' : wexec v a = Some (ol, v') -> wstep v ol v'.
  Proof.
    destruct a as [a|a]; cbn [wexec].
    - assert (Hz : (forall h next, z_thread (w_z v) = ZSend [] (Some h) next -> a <> XThread) ->
        match zexec c max_events (w_z v) a with Some (ol, z) => match ol ≫= reader_of with None => Some (ol, w_set_z z v) | _ => None end | None => None end = Some (ol, v') -> wstep v ol v').
      { intros Hn E. destruct (zexec c max_events (w_z v) a) as [[ol1 z]|] eqn:Ez; [|discriminate]. destruct (ol1 ≫= reader_of) eqn:Er; [discriminate|]. injection E as <- <-.
        apply W_writer; [exact (zexec_ok _ _ _ _ _ _ Ez)| |].
        - intros l i -> Hi. cbn in Er. congruence.
        - intros h next Et. exact (zexec_thread _ _ _ _ (Hn _ _ Et) Ez). }
      intros E. destruct (z_thread (w_z v)) as [| | | | | | |[|x todo] [h|] next|] eqn:Et; try (apply Hz; [intros ? ? [=]|exact E]).
      destruct a; try (apply Hz; [intros ? ? _; discriminate|exact E]). injection E as <- <-. now apply W_publish.
    - destruct (of_task a) eqn:Eo; [|discriminate]. cbn [andb]. destruct (p_writer (s_proc (z_sys (w_z v)))) eqn:Ew; cbn [is_idle]; try discriminate.
      destruct (sexec _ _ _ _ _ _ _ (w_tasks v) a) as [[ol1 u]|] eqn:Es; [|discriminate]. destruct (p_writer (v_proc u)) eqn:Ew'; try discriminate. intros [= <- <-].
      destruct (sexec_apart _ _ _ _ Eo Es) as (E1 & E2 & E3). apply W_task; try assumption. eapply sexec_ok; [|exact Es]. cbn. rewrite Ew. now left.
  Qed.
End wexec.
Notation w_serves c m := (wserves 16 4096 f_hash (fun l => l) x_ford c m b_init None).
Definition w_fine (v v' : wsrv) : bool :=
  z_calm (w_z v) (w_z v') &&
  match l_fly (z_pipe (w_z v)), l_phase (z_pipe (w_z v)) with None, _ | _, PFetch => true | _, _ => PropsPipelined.kept (s_proc (z_sys (w_z v))) (s_proc (z_sys (w_z v'))) end.
Lemma w_fine_ok v v' : w_fine v v' = true -> fine (w_sys v) (w_sys v').
Proof.
  unfold w_fine, z_pipe. intros H. apply andb_prop in H as [H1 H3]. split; [exact (z_calm_ok _ _ H1)|]. clear H1. unfold w_sys. destruct (z_sys (w_z v)) as [d p pi], (z_sys (w_z v')) as [d' p' pi'].
  cbn [s_proc s_pipe] in *. cbn. intros Hf Hp i a0 Hi Hi'. destruct (l_fly pi); [|congruence]. assert (Hk : PropsPipelined.kept p p' = true) by (destruct (l_phase pi); [congruence|exact H3|exact H3]).
  unfold PropsPipelined.kept in Hk. rewrite forallb_forall in Hk. specialize (Hk (i, RSeen a0)). cbn [fst snd] in Hk. rewrite Hi' in Hk.
  destruct (reg_min (p_regs p)) as [t|]; [exists t; split; [reflexivity|apply N.leb_le, Hk]|exfalso; discriminate Hk; apply elem_of_list_In, elem_of_map_to_list, Hi].
  apply elem_of_list_In, elem_of_map_to_list, Hi.
Qed.
Fixpoint w_run (c : bool) (m : N) (v : wsrv) (vs : list wsrv) (tr : list label) (acts : list wact) : option (wsrv * list wsrv * list label) :=
  match acts with
  | [] => Some (v, vs, tr)
  | a :: acts' => match wexec c m v a with
      | Some (ol, v') => if w_fine v v' then w_run c m v' (v :: vs) (tr ++ match ol with Some l => [l] | None => [] end) acts' else None
      | None => None end
  end.
Notation w_going c m := (going f_hash (fun l => l) x_ford c m b_init None).
Lemma w_run_ok c m v vs tr acts v' vs' tr' : w_going c m (v :: vs) tr -> w_run c m v vs tr acts = Some (v', vs', tr') -> w_going c m (v' :: vs') tr'.
Proof.
  revert v vs tr. induction acts as [|a acts IH]; cbn [w_run]; intros v vs tr H E; [injection E as <- <- <-; exact H|].
  destruct (wexec c m v a) as [[ol v1]|] eqn:Ex; [|discriminate]. destruct (w_fine v v1) eqn:Ec; [|discriminate]. eapply IH; [|exact E]. destruct H as [H Ha]. split.
  - econstructor; [exact H|]. exact (wexec_ok _ _ _ _ _ _ Ex).
  - split; [now apply w_fine_ok|exact Ha].
Qed.
Lemma w_found c m acts (P : wsrv -> list wsrv -> bool) :
  match w_run c m (w_init b_init None) [] [] acts with Some (v, vs, tr) => P v vs | None => false end = true ->
  exists v vs tr, w_going c m (v :: vs) tr /\ P v vs = true.
Proof.
  destruct (w_run c m (w_init b_init None) [] [] acts) as [[[v vs] tr]|] eqn:E; [|discriminate]. intros HP. exists v, vs, tr. split; [|exact HP].
  eapply w_run_ok; [|exact E]. split; [constructor|exact I].
Qed.
Lemma w_started c : mrun f_hash (fun l => l) x_ford c fine [LTau] (MP b_init) /\ l_phase (s_pipe b_init) = PFetch /\ l_fly (s_pipe b_init) = None.
Proof.
  split; [|split; reflexivity]. right. change [LTau] with ([] ++ [LTau]). econstructor; [constructor| |split; exact I]. apply M_start. exact b_starts.
Qed.
Definition u_thread (n : nat) : list wact := replicate n (UZ XThread).
Definition u_io (n : nat) : list wact := replicate n (UZ XIo).
Definition u_round (k : nat) : list wact := map UT (e_round k).
(** Three events are stored.  Client 7 reads them and then appends, on condition that nothing has been stored since, with success; a
    second append on the same condition, built while the first is being written, is refused.  Client 6 reads while the first is
    being written, client 8 after it was acknowledged; client 9 has a subscription. *)
Definition u_script : list wact :=
  [UZ (XArrive 0 e_three)] ++ u_thread 5 ++ u_io 6 ++ u_thread 5 ++
  [UT (VSubscribe 9 f_query (Some 1) None); UT (VRead 7 [] None false None None)] ++ u_round 7 ++ u_round 9 ++
  [UZ (XArrive 1 (g_cond None))] ++ u_thread 5 ++ [UZ (XArrive 2 (g_cond None))] ++ u_io 2 ++ [UT (VRead 6 [] None false None None)] ++ u_round 6 ++ u_thread 4 ++ u_io 4 ++ u_thread 4 ++
  u_thread 1 ++ [UT (VRead 8 f_query None false None None)] ++ u_round 8 ++ u_io 3 ++ u_thread 5 ++ u_round 9 ++ u_round 9.
Definition u_stored (w : wsrv) : bool := g_stored (w_tasks w).
Lemma u_stored_ok w : u_stored w = true -> w_text_stored f_hash (fun l => l) w.
Proof. intros H. exact (g_stored_ok _ H). Qed.
Definition u_first (w : wsrv) : bool :=
  match w_rpcs w !! 7%nat, z_seen (w_z w), w_lost w with
  | Some (QRd r QEnd), [(0%nat, _)], [] =>
      negb (rr_bw r) && match rr_q r with [] => true | _ => false end && forallb (fun o => nlen (put_fields (fields_response (response_to_pb o))) <=? MAX_RECV) (rr_out r) &&
      match (collect_with_head (new_eng (map (fun o => arrives (response_to_pb o)) (rr_out r)))).1 with Ok (l, hd) => bool_decide (map fst l = [1; 2; 3]) && bool_decide (hd = Some 3) | Err _ => false end &&
      u_stored w
  | _, _, _ => false end.
(** The answer to the first of the two conditional appends has been sent; [b]: that to the second as well. *)
Definition u_answered (b : bool) (w : wsrv) : bool :=
  match z_sent (w_z w), z_seen (w_z w) with
  | _ :: (i, Ok n) :: more, [_; (k, Req (_ :: _) (Some (ACond [] (Some m))) _); _] =>
      Nat.eqb i 1 && (n =? 4) && Nat.eqb k 1 && (m =? 3) && (negb b || match more with [(2%nat, Err EIntegrity)] => true | _ => false end)
  | _, _ => false end.
Lemma u_answered_ok b w : u_answered b w = true -> exists r, (1%nat, r) ∈ z_seen (w_z w) /\ (1%nat, Ok 4) ∈ z_sent (w_z w) /\ (b = true -> (2%nat, Err EIntegrity) ∈ z_sent (w_z w)) /\
  rq_events r <> [] /\ rq_cond r = Some (ACond [] (Some 3)).
Proof.
  unfold u_answered. intros H. destruct (z_sent (w_z w)) as [|a0 [|[i [n|]] more]]; try discriminate H.
  destruct (z_seen (w_z w)) as [|b0 [|[k [[|e0 es] [[[|] [m|]]|] t]] [|b2 [|]]]]; try discriminate H.
  apply andb_prop in H as [H H5]. apply andb_prop in H as [H H4]. apply andb_prop in H as [H H3]. apply andb_prop in H as [H1 H2].
  apply Nat.eqb_eq in H1, H3. apply N.eqb_eq in H2, H4. subst. eexists. split; [right; left|]. split; [right; left|]. split; [|split; [discriminate|reflexivity]].
  intros ->. cbn [negb orb] in H5. destruct more as [|[[|[|[|]]] [|[]]] [|]]; try discriminate H5. right; right; left.
Qed.
Definition u_second (v : wsrv) : bool :=
  match w_rpcs v !! 6%nat, w_rpcs v !! 8%nat, w_rpcs v !! 9%nat, w_lost v, z_thread (w_z v) with
  | Some (QRd r6 QEnd), Some (QRd r QEnd), Some (QSub su QWait), [], ZFetch =>
      bool_decide (map fst (concat (map fst (rr_out r6))) = [1; 2; 3]) &&
      bool_decide (map fst (concat (map fst (rr_out r))) = [1; 3; 4]) && bool_decide (map fst (concat (su_out su)) = [3; 4]) && Nat.eqb (w_ver v) (su_seen su) && bool_decide (rr_limit r = None)
  | _, _, _, _, _ => false end.
Notation u_leads := (w_leads f_hash (fun l => l) x_ford true 10).
Example pipelined_clients_example : exists w1 ws1 tr1 w2 ws2 tr2 v tr12 tr2v r r' r6 r7 r8 su evs,
  w_going true 10 (w1 :: ws1) tr1 /\ w_going true 10 (w2 :: ws2) tr2 /\ u_leads w1 v tr12 /\ u_leads w2 v tr2v /\
  (* read, then append on condition *)
  w_rpcs w1 !! 7%nat = Some (QRd r7 QEnd) /\ 7%nat ∉ w_lost w1 /\ rr_bw r7 = false /\ rr_q r7 = [] /\ w_text_stored f_hash (fun l => l) w1 /\ Forall fits (rr_out r7) /\
  collected r7 evs (Some 3) /\ map fst evs = [1; 2; 3] /\ 1%nat ∉ map fst (z_seen (w_z w1)) /\
  (1%nat, r) ∈ z_seen (w_z v) /\ (1%nat, Ok 4) ∈ z_sent (w_z v) /\ (2%nat, Err EIntegrity) ∈ z_sent (w_z v) /\ rq_events r <> [] /\ rq_cond r = Some (ACond [] (Some 3)) /\
  (* read after that, and meanwhile *)
  (1%nat, r') ∈ z_seen (w_z w2) /\ (1%nat, Ok 4) ∈ z_sent (w_z w2) /\ rq_events r' <> [] /\ w_rpcs w2 !! 8%nat = None /\ w_rpcs v !! 8%nat = Some (QRd r8 QEnd) /\ 8%nat ∉ w_lost v /\
  map fst (concat (map fst (rr_out r8))) = [1; 3; 4] /\ rr_limit r8 = None /\
  w_rpcs v !! 6%nat = Some (QRd r6 QEnd) /\ map fst (concat (map fst (rr_out r6))) = [1; 2; 3] /\
  (* a subscription *)
  w_rpcs v !! 9%nat = Some (QSub su QWait) /\ 9%nat ∉ w_lost v /\ w_ver v = su_seen su /\ (forall todo hd next, z_thread (w_z v) <> ZSend todo (Some hd) next) /\ map fst (concat (su_out su)) = [3; 4].
Proof.
  destruct (w_found true 10 u_script (fun v vs => match (v :: vs) !! 68%nat, (v :: vs) !! 37%nat with
    | Some w1, Some w2 => u_first w1 && u_answered false w2 && match w_rpcs w2 !! 8%nat with None => true | _ => false end && u_answered true v && u_second v
    | _, _ => false end)) as (v & vs & tr & H & HP); [vm_compute; reflexivity|].
  destruct ((v :: vs) !! 68%nat) as [w1|] eqn:E1; [|discriminate HP]. destruct ((v :: vs) !! 37%nat) as [w2|] eqn:E2; [|discriminate HP].
  apply elem_of_list_lookup_2 in E1, E2. apply andb_prop in HP as [HP P5]. apply andb_prop in HP as [HP P4]. apply andb_prop in HP as [HP P3]. apply andb_prop in HP as [P1 P2].
  destruct (w_past_leads _ _ _ _ _ _ _ _ _ _ _ H E1) as (ws1 & tr1 & tr12 & S1 & L1). destruct (w_past_leads _ _ _ _ _ _ _ _ _ _ _ H E2) as (ws2 & tr2 & tr2v & S2 & L2).
  clear H E1 E2. destruct (u_answered_ok _ _ P2) as (r' & A1 & A2 & _ & A4 & _). destruct (u_answered_ok _ _ P4) as (r & B1 & B2 & B3 & B4 & B5). specialize (B3 eq_refl). clear P2 P4.
  unfold u_second in P5. destruct (w_rpcs v !! 6%nat) as [[r6 []|]|] eqn:E6; try discriminate P5. destruct (w_rpcs v !! 8%nat) as [[r8 []|]|] eqn:E8; try discriminate P5.
  destruct (w_rpcs v !! 9%nat) as [[|su []]|] eqn:E9; try discriminate P5. destruct (w_lost v) eqn:El; [|discriminate P5]. destruct (z_thread (w_z v)) eqn:Et; try discriminate P5.
  apply andb_prop in P5 as [P5 Q4]. apply andb_prop in P5 as [P5 Q3]. apply andb_prop in P5 as [P5 Q2]. apply andb_prop in P5 as [Q0 Q1].
  apply bool_decide_eq_true in Q0. apply bool_decide_eq_true in Q1. apply bool_decide_eq_true in Q2. apply Nat.eqb_eq in Q3. apply bool_decide_eq_true in Q4.
  unfold u_first in P1. destruct (w_rpcs w1 !! 7%nat) as [[r7 []|]|] eqn:E7; try discriminate P1. destruct (z_seen (w_z w1)) as [|[[|] ?] [|]] eqn:Es; try discriminate P1. destruct (w_lost w1) eqn:El1; [|discriminate P1].
  apply andb_prop in P1 as [P1 R5]. apply andb_prop in P1 as [P1 R4]. apply andb_prop in P1 as [P1 R3]. apply andb_prop in P1 as [R1 R2]. apply negb_true_iff in R1. apply u_stored_ok in R5.
  destruct (collect_with_head _).1 as [[evs hd]|] eqn:Ec; [|discriminate R4]. apply andb_prop in R4 as [R4 R6]. apply bool_decide_eq_true in R4. apply bool_decide_eq_true in R6. subst hd.
  exists w1, ws1, tr1, w2, ws2, tr2, v, tr12, tr2v, r, r', r6, r7, r8, su, evs. rewrite El, Et, El1.
  split; [exact S1|]. split; [exact S2|]. split; [exact L1|]. split; [exact L2|]. split; [exact E7|]. split; [apply not_elem_of_nil|]. split; [exact R1|]. split; [now destruct (rr_q r7)|].
  split; [exact R5|]. split. { apply Forall_forall. intros o Ho. rewrite forallb_forall in R3. apply elem_of_list_In in Ho. apply R3, N.leb_le in Ho. exact Ho. }
  split; [left; exact Ec|]. split; [exact R4|]. split. { rewrite Es. cbn. intros X. apply elem_of_list_singleton in X. discriminate X. }
  split; [exact B1|]. split; [exact B2|]. split; [exact B3|]. split; [exact B4|]. split; [exact B5|].
  split; [exact A1|]. split; [exact A2|]. split; [exact A4|]. split; [now destruct (w_rpcs w2 !! 8%nat)|]. split; [exact E8|]. split; [apply not_elem_of_nil|].
  split; [exact Q1|]. split; [exact Q4|]. split; [exact E6|]. split; [exact Q0|]. split; [exact E9|]. split; [apply not_elem_of_nil|]. split; [exact Q3|]. split; [discriminate|exact Q2].
Qed.

(** ** C97: remote reads while batches overlap *)
(** As [w_run], with the conditions of C56 only: nothing is asked of the moments at which readers register. *)
Fixpoint j_run (c : bool) (m : N) (v : wsrv) (vs : list wsrv) (tr : list label) (acts : list wact) : option (wsrv * list wsrv * list label) :=
  match acts with
  | [] => Some (v, vs, tr)
  | a :: acts' => match wexec c m v a with
      | Some (ol, v') => if z_calm (w_z v) (w_z v') then j_run c m v' (v :: vs) (tr ++ match ol with Some l => [l] | None => [] end) acts' else None
      | None => None end
  end.
Lemma j_run_ok c m v vs tr acts v' vs' tr' : w_serves c m (v :: vs) tr /\ w_all (healthy 16) (v :: vs) -> j_run c m v vs tr acts = Some (v', vs', tr') ->
  w_serves c m (v' :: vs') tr' /\ w_all (healthy 16) (v' :: vs').
Proof.
  revert v vs tr. induction acts as [|a acts IH]; cbn [j_run]; intros v vs tr H E; [injection E as <- <- <-; exact H|].
  destruct (wexec c m v a) as [[ol v1]|] eqn:Ex; [|discriminate]. destruct (z_calm (w_z v) (w_z v1)) eqn:Ec; [|discriminate]. eapply IH; [|exact E]. destruct H as [H Ha]. split.
  - econstructor; [exact H|]. exact (wexec_ok _ _ _ _ _ _ Ex).
  - split; [exact (z_calm_ok _ _ Ec)|exact Ha].
Qed.
Lemma j_found c m acts (P : wsrv -> list wsrv -> bool) :
  match j_run c m (w_init b_init None) [] [] acts with Some (v, vs, tr) => P v vs | None => false end = true ->
  exists v vs tr, w_serves c m (v :: vs) tr /\ w_all (healthy 16) (v :: vs) /\ P v vs = true.
Proof.
  destruct (j_run c m (w_init b_init None) [] [] acts) as [[[v vs] tr]|] eqn:E; [|discriminate]. intros HP. exists v, vs, tr. rewrite HP.
  destruct (j_run_ok c m (w_init b_init None) [] [] acts v vs tr) as [H1 H2]; [split; [constructor|exact I]|exact E|auto].
Qed.
(** Event 1 (tag "a") is stored and acknowledged.  Batch 2 (tag "b") is in flight and batch 3 has begun when the read of client 7
    arrives: it asks for the events with tag "a" and gets the state after batch 1.  Batch 3, an event without tags, is written to the page
    that holds the tag index of this state.  The index cannot be read any more, which is taken for its end (C31): the
    client is told that there are no such events, with head 1.  So it appends on condition that none were stored after 1; this
    succeeds.  Client 8, who reads at the end, sees both events. *)
Definition j_req (tags : list bytes) (c : option append_condition) : request := Req [NE [1] [] tags None []] c None.
Definition j_before : list wact :=
  [UZ (XArrive 0 (j_req [[97]] None))] ++ u_thread 5 ++ u_io 6 ++ u_thread 5 ++ [UZ (XArrive 1 (j_req [[98]] None))] ++ u_thread 5 ++ [UZ (XArrive 2 (j_req [] None))] ++ u_thread 2.
Definition j_meanwhile : list wact :=
  UT (VRead 7 f_query None false None None) :: take 7 (u_round 7) ++ u_thread 2 ++ u_io 6 ++ u_thread 5 ++ u_io 5 ++ u_thread 5 ++ drop 7 (u_round 7).
Definition j_after : list wact :=
  [UZ (XArrive 3 (j_req [[97]] (Some (ACond f_query (Some 1)))))] ++ u_thread 5 ++ u_io 6 ++ u_thread 5 ++ [UT (VRead 8 f_query None false None None)] ++ u_round 8.
(** What client [k] was told. *)
Definition j_told (v : wsrv) (k : nat) : option (list N * option N) :=
  match w_rpcs v !! k with
  | Some (QRd r QEnd) => if bool_decide (rr_q r = f_query /\ rr_start r = None /\ rr_bw r = false /\ rr_limit r = None) then
      match (collect_with_head (new_eng (map (fun o => arrives (response_to_pb o)) (rr_out r)))).1 with Ok (l, hd) => Some (map fst l, hd) | Err _ => None end else None
  | _ => None end.
Lemma j_told_ok v k ns hd : j_told v k = Some (ns, hd) -> exists r evs, w_rpcs v !! k = Some (QRd r QEnd) /\ rr_q r = f_query /\ rr_start r = None /\ rr_bw r = false /\
  rr_limit r = None /\ collected r evs hd /\ map fst evs = ns.
Proof.
  unfold j_told. destruct (w_rpcs v !! k) as [[r []|]|]; try discriminate. case_bool_decide as H; [|discriminate]. destruct H as (H1 & H2 & H3 & H4).
  destruct (collect_with_head _).1 as [[l hd']|] eqn:E; [|discriminate]. intros [= <- <-]. exists r, l. split; [reflexivity|]. do 4 (split; [assumption|]). split; [now left|reflexivity].
Qed.
Definition j_is (x y : nat * res N) : bool := match x, y with (i, Ok n), (j, Ok m) => Nat.eqb i j && (n =? m) | _, _ => false end.
Lemma j_is_ok x y : j_is x y = true -> x = y.
Proof. destruct x as [i [n|]], y as [j [m|]]; try discriminate. cbn. intros H. apply andb_prop in H as [H1 H2]. apply Nat.eqb_eq in H1. apply N.eqb_eq in H2. now subst. Qed.
Definition j_check (v w w0 : wsrv) : bool :=
  existsb (j_is (0%nat, Ok 1)) (z_sent (w_z w0)) && bool_decide (w_rpcs w0 !! 7%nat = None) && bool_decide (j_told w 7 = Some ([], Some 1)) &&
  negb (existsb (Nat.eqb 3) (map fst (z_seen (w_z w)))) && existsb (j_is (3%nat, Ok 4)) (z_sent (w_z v)) && bool_decide (j_told v 8 = Some ([1; 4], Some 4)) &&
  bool_decide (w_lost v = []) && bool_decide (w_unread v = []) && existsb (fun x => Nat.eqb 3 x.1 && bool_decide (x.2 = j_req [[97]] (Some (ACond f_query (Some 1))))) (z_seen (w_z v)).
Theorem pipelined_remote_read_refuted c : exists v l1 w l2 w0 l3 tr r7 r8 evs,
  w_serves c 10 (v :: l1 ++ w :: l2 ++ w0 :: l3) tr /\ w_all (healthy 16) (v :: l1 ++ w :: l2 ++ w0 :: l3) /\ w_lost v = [] /\ w_unread v = [] /\
  (* before the request to read, event 1 was acknowledged *)
  (0%nat, Ok 1) ∈ z_sent (w_z w0) /\ w_rpcs w0 !! 7%nat = None /\
  (* client 7 was told that nothing matches *)
  w_rpcs w !! 7%nat = Some (QRd r7 QEnd) /\ rr_q r7 = f_query /\ rr_start r7 = None /\ rr_limit r7 = None /\ collected r7 [] (Some 1) /\
  (* its conditional append succeeds *)
  3%nat ∉ map fst (z_seen (w_z w)) /\ (3%nat, j_req [[97]] (Some (ACond f_query (Some 1)))) ∈ z_seen (w_z v) /\ (3%nat, Ok 4) ∈ z_sent (w_z v) /\
  (* both events are there *)
  w_rpcs v !! 8%nat = Some (QRd r8 QEnd) /\ rr_q r8 = f_query /\ rr_start r8 = None /\ rr_limit r8 = None /\ collected r8 evs (Some 4) /\ map fst evs = [1; 4].
Proof.
  destruct (j_found c 10 (j_before ++ j_meanwhile ++ j_after) (fun v vs => match vs !! 26%nat with
    | Some w => match drop 27 vs !! 35%nat with Some w0 => j_check v w w0 | None => false end
    | None => false end)) as (v & vs & tr & H & Ha & HP); [destruct c; vm_compute; reflexivity|].
  destruct (vs !! 26%nat) as [w|] eqn:E1; [|discriminate HP]. destruct (drop 27 vs !! 35%nat) as [w0|] eqn:E2; [|discriminate HP].
  apply take_drop_middle in E1, E2. rewrite <- E2 in E1. rewrite <- E1 in H, Ha. clear E1 E2. unfold j_check in HP.
  apply andb_prop in HP as [HP P9]. apply andb_prop in HP as [HP P8]. apply andb_prop in HP as [HP P7]. apply andb_prop in HP as [HP P6]. apply andb_prop in HP as [HP P5].
  apply andb_prop in HP as [HP P4]. apply andb_prop in HP as [HP P3]. apply andb_prop in HP as [P1 P2].
  apply existsb_exists in P1 as (x1 & I1 & J1). apply j_is_ok in J1 as <-. apply elem_of_list_In in I1. apply existsb_exists in P5 as (x5 & I5 & J5). apply j_is_ok in J5 as <-. apply elem_of_list_In in I5.
  apply existsb_exists in P9 as ([i r9] & I9 & J9). apply elem_of_list_In in I9. apply andb_prop in J9 as [J9 K9]. apply Nat.eqb_eq in J9. cbn [fst snd] in J9, K9. subst i.
  apply bool_decide_eq_true in P2. apply bool_decide_eq_true in P3. apply bool_decide_eq_true in P6. apply bool_decide_eq_true in P7. apply bool_decide_eq_true in P8. apply bool_decide_eq_true in K9. subst r9.
  apply j_told_ok in P3 as (r7 & e7 & A1 & A2 & A3 & A4 & A5 & A6 & A7). apply map_eq_nil in A7. subst e7. apply j_told_ok in P6 as (r8 & e8 & B1 & B2 & B3 & B4 & B5 & B6 & B7).
  exists v, (take 26 vs), w, (take 35 (drop 27 vs)), w0, (drop 36 (drop 27 vs)), tr, r7, r8, e8.
  split; [exact H|]. split; [exact Ha|]. split; [exact P7|]. split; [exact P8|]. split; [exact I1|]. split; [exact P2|]. split; [exact A1|]. split; [exact A2|]. split; [exact A3|]. split; [exact A5|].
  split; [exact A6|]. split.
  { apply negb_true_iff in P4. intros X. apply elem_of_list_In in X. apply not_true_iff_false in P4. apply P4. apply existsb_exists. exists 3%nat. split; [exact X|reflexivity]. }
  split; [exact I9|]. split; [exact I5|]. split; [exact B1|]. split; [exact B2|]. split; [exact B3|]. split; [exact B5|]. split; [exact B6|exact B7].
Qed.
Print Assumptions pipelined_remote_read_refuted.
