(** Properties of the server: C23-C26 (remote reads, subscriptions, the writer thread), C34, C35 and C42. *)
From Coq Require Import Wellfounded.Lexicographic_Product.
From Verif Require Import Exec PropsStore PropsFindings PropsCrash ServerLive ServerExec Auth.
Local Open Scope N_scope.

Section props_server.
  Context (ps : N) (hash : bytes -> bytes) (order : list bytes -> list bytes) (ford : gset N -> list N) (caching : bool) (max_events : N).
  Context (Hps : ps_ok ps) (Hps32 : ps < U32) (Hord : forall l t, t ∈ order l <-> t ∈ l) (Hford : forall s, ford s ≡ₚ elements s).
  Notation sstep := (sstep 16 ps hash order ford caching max_events).
  Notation serves := (serves 16 ps hash order ford caching max_events).
  Notation shows := (shows hash order).
  Notation run := (run ps hash order ford caching).
  Notation serves_inv := (serves_inv ps hash order ford caching max_events Hps Hps32 Hord Hford).

  (** The server works on a database that came about in any way: created, written to, crashed, opened again. *)
  Context (tr0 : list label) (d : disk) (p : proc) (h : option N) (Hrun : run tr0 (Sys d (Some p))).

  (** ** C23: remote reads *)
  (** At any time during a remote read there is one state [s] of the store, committed between the arrival of the request
      and the first response, such that the events sent are the beginning of the answer to the request in [s], and all of
      it when the stream has ended.  The heads sent along are those of [s] (or, under a limit, the last event of each
      response).  The stream fails only if a page could not be read for it, and then with an error of corruption. *)
  Theorem remote_read_snapshot v vs tr k r x : serves d p h (v :: vs) tr -> v_rpcs v !! k = Some (QRd r x) -> k ∉ v_lost v ->
    (forall e, x = QFail e -> k ∈ v_unread v /\ e = ECorruption) /\
    exists s, (exists w y, w ∈ v :: vs /\ v_rpcs w !! k = Some y /\ unsent y /\ shows (v_sys w) s) /\
      let answer := spec_read (s_hist s) (rr_q r) (rr_start r) (rr_bw r) (rr_limit r) in
      concat (map fst (rr_out r)) `prefix_of` answer /\
      (x = QEnd -> concat (map fst (rr_out r)) = answer /\ (rr_limit r <> Some 0 -> rr_out r <> [])) /\
      Forall (fun o => o.2 = (match rr_limit r with None => spec_head s | Some _ => fst <$> last o.1 end) /\ nlen o.1 <= rr_batch r) (rr_out r).
  Proof.
    intros H Hk Hlost. destruct (serves_inv _ _ _ _ _ _ _ Hrun H) as (sy & Hi & Hg & Hsub & HR). pose proof (HR _ _ Hk Hlost) as Hr. cbn [rpc_inv] in Hr.
    destruct Hr as (Hwf & Hx & Hr). destruct (rr_head r) as [hd|].
    - destruct Hr as (s & Hs & Hgl & Hext & Ehd & Hheads & Hout & Hread & Hmore & Hph). split.
      { intros e ->. exact Hph. }
      exists s. split; [exact Hs|]. cbn zeta. split; [|split].
      + rewrite Hread. unfold rr_sent. eexists. reflexivity.
      + intros ->. rewrite Hread, app_nil_r. split; [reflexivity|]. intros _. exact Hout.
      + destruct Hheads as [Hh _]. eapply Forall_impl; [exact Hh|]. intros o [E1 E2]. split; [|exact E2]. rewrite E1. unfold spec_head, hist_head. destruct (rr_limit r), (s_hist s); reflexivity.
    - destruct Hr as (Ho & Hn & Hl & Hend & Hph). split; [intros e ->; exact Hph|]. exists (sp_cur sy). split.
      + eapply (seen_now ps hash order ford caching Hps Hps32 Hord Hford); [exact Hk|exact Ho|exact Hi].
      + rewrite Ho. cbn zeta. split; [apply prefix_nil|]. split; [|constructor]. intros E. rewrite (Hend E). split; [reflexivity|]. intros Hc. contradiction.
  Qed.
  (** No response is empty, unless it is the only one. *)
  Theorem remote_read_batches v vs tr k r x : serves d p h (v :: vs) tr -> v_rpcs v !! k = Some (QRd r x) -> k ∉ v_lost v ->
    Forall (fun o => o.1 <> []) (rr_out r) \/ exists hd, rr_out r = [([], hd)].
  Proof.
    intros H Hk Hlost. destruct (serves_inv _ _ _ _ _ _ _ Hrun H) as (sy & Hi & Hg & Hsub & HR). pose proof (HR _ _ Hk Hlost) as Hr. cbn [rpc_inv] in Hr.
    destruct Hr as (Hwf & Hx & Hr). destruct (rr_head r) as [hd|].
    - destruct Hr as (s & Hs & Hgl & Hext & Ehd & [_ Hheads] & _). destruct Hheads as [Hh|Hh]; [now left|right; eauto].
    - destruct Hr as (Ho & _). rewrite Ho. left. constructor.
  Qed.
  (** [v_lost] are the tasks a page could not be read for and that were not told so.  That happens only to queries that use
      the index of tags. *)
  Lemma handler_scans rd rd' h0 q start bw limit y : failing rd rd' -> scans q ->
    handler_read hash order rd' h0 q start bw limit = Ok y -> handler_read hash order rd h0 q start bw limit = Ok y.
  Proof.
    intros Hf Hq. pose proof (scan_complete_or_error rd rd' hash order h0 q start bw (Some limit) Hf Hq) as H. unfold umadb_read, handler_read in *.
    destruct (read_conditional rd' _ _ _ _ _ q start bw (Some limit) false) as [evs|e]; [|destruct e; discriminate]. cbn [rbind] in H.
    destruct H as [H|[e H]]; [|discriminate]. destruct (read_conditional rd _ _ _ _ _ q start bw (Some limit) false) as [evs'|e']; [|discriminate]. cbn [rbind] in H.
    assert (evs' = evs) as -> by congruence. exact (fun x => x).
  Qed.
  Theorem scan_not_lost v vs tr k x : serves d p h (v :: vs) tr -> v_rpcs v !! k = Some x -> scans (asked x).1.1.1.1 -> k ∉ v_lost v.
  Proof.
    intros H Hk Hq Hl. assert (E : exists y, v_rpcs v !! k = Some y /\ ~ scans (asked y).1.1.1.1); [|destruct E as (y & Hy & Hn); rewrite Hy in Hk; injection Hk as ->; auto].
    clear x Hk Hq. remember (v :: vs) as l eqn:El. revert v vs El k Hl. induction H as [|v0 vs0 tr' ol v' H IH Hst]; intros v vs [= <- <-] k Hl; [now apply elem_of_nil in Hl|].
    destruct (decide (k ∈ v_lost v0)) as [Hl0|Hl0].
    - destruct (IH _ _ eq_refl _ Hl0) as (y & Hy & Hn). destruct (sstep_asked _ _ _ _ _ _ _ _ _ _ _ Hst Hy) as (y' & Hy' & Ea & _). exists y'. rewrite Ea. auto.
    - destruct Hst; cbn in Hl; try contradiction; [unfold v_publish in Hl; case_match; contradiction|].
      apply elem_of_cons in Hl as [->|Hl]; [|contradiction]. exists (set_phase (QRead (Ok y)) x). cbn [v_rpcs v_set_rpc]. split; [apply lookup_insert|]. intros Hq.
      match goal with Ha : rpc_args x = _, Hn : _ <> Ok y |- _ => apply Hn; eapply handler_scans; [eassumption| |eassumption]; destruct x; cbn in Ha, Hq; congruence end.
  Qed.
  (** What was asked for does not change meanwhile. *)
  Theorem remote_request_kept v vs tr w k x : serves d p h (v :: vs) tr -> w ∈ v :: vs -> v_rpcs w !! k = Some x ->
    exists x', v_rpcs v !! k = Some x' /\ asked x' = asked x /\ is_read x' = is_read x.
  Proof. apply serves_asked. Qed.

  (** ** C24: subscriptions *)
  (** What was delivered is the beginning of the list of all stored events that match and come after the given position:
      none is left out, none comes twice, all are in order.  The stream fails only if a page could not be read for it. *)
  Theorem subscription_exact v vs tr k s x st : serves d p h (v :: vs) tr -> v_rpcs v !! k = Some (QSub s x) -> k ∉ v_lost v -> shows (v_sys v) st ->
    (forall e, x = QFail e -> k ∈ v_unread v /\ e = ECorruption) /\ (x = QEnd -> su_after s = Some (U64 - 1)) /\
    concat (su_out s) `prefix_of` filter (fun e => (match su_after s with Some a => a < e.1 | None => True end) /\ q_matches (su_q s) e.2) (s_hist st).
  Proof.
    intros H Hk Hlost Hs. destruct (serves_inv _ _ _ _ _ _ _ Hrun H) as (sy & Hi & Hg & Hsub & HR). pose proof (HR _ _ Hk Hlost) as Hr. cbn [rpc_inv] in Hr.
    destruct Hr as [(H1 & H2 & ->)|(_ & _ & Hgood & Hne & Hph & _)].
    - split; [discriminate|]. split; [auto|]. rewrite H1. apply prefix_nil.
    - split; [intros e ->; exact Hph|]. split; [intros; contradiction|].
      destruct (inv_shows_eqv ps hash order ford caching Hps Hps32 Hord Hford _ _ _ Hi Hs) as [Eh _]. rewrite Eh. destruct Hgood as [Hgood _].
      assert (E : spec_read (s_hist (sp_cur sy)) (su_q s) (sub_from (su_after s)) false None =
        filter (fun e => (match su_after s with Some a => a < e.1 | None => True end) /\ q_matches (su_q s) e.2) (s_hist (sp_cur sy))).
      { unfold spec_read. cbn [cut]. apply list_filter_iff. intros e. unfold Spec.in_range, sub_from. destruct (su_after s); [|tauto]. rewrite <- N.le_succ_l. replace (N.succ n) with (n + 1) by lia. tauto. }
      rewrite <- E, Hgood. eexists. reflexivity.
  Qed.
  Lemma sstep_batches v0 ol v' : sstep v0 ol v' -> (forall k s x, v_rpcs v0 !! k = Some (QSub s x) -> Forall (fun b => b <> []) (su_out s)) ->
    forall k s x, v_rpcs v' !! k = Some (QSub s x) -> Forall (fun b => b <> []) (su_out s).
  Proof.
    intros Hst IH' k s ph Hk. destruct Hst; cbn in Hk; try (eapply IH'; eassumption).
    { unfold v_publish in Hk. case_match; (eapply IH'; eassumption). }
    all: match type of Hk with <[?k0 := _]> _ !! _ = _ => destruct (decide (k0 = k)) as [->|Hne]; [rewrite lookup_insert in Hk|rewrite lookup_insert_ne in Hk by exact Hne; eapply IH'; eassumption] end.
    all: apply Some_inj in Hk; try discriminate Hk.
    all: try (injection Hk as <- <-; solve [constructor|cbn; eapply IH'; eassumption]).
    all: try (destruct x as [r0 y0|s0 y0]; cbn in Hk; try discriminate Hk; injection Hk as <- <-; cbn; eapply IH'; eassumption).
    destruct x as [r0 y0|s0 y0].
    { destruct ans as [[evs hd]|e]; cbn in Hk; [|discriminate Hk]. destruct (read_iter r0 evs hd) as [? []]; discriminate Hk. }
    assert (Hs0 : Forall (fun b => b <> []) (su_out s0)) by (eapply IH'; eassumption).
    destruct ans as [[evs hd]|e]; cbn in Hk; [|injection Hk as <- <-; exact Hs0]. unfold sub_iter in Hk. destruct (last evs) as [e|] eqn:Ee; [|injection Hk as <- <-; exact Hs0].
    assert (Hn : Forall (fun b => b <> []) (su_out s0 ++ [evs])) by (apply Forall_app; split; [exact Hs0|]; constructor; [intros ->; discriminate Ee|constructor]).
    destruct (e.1 =? U64 - 1); injection Hk as <- <-; exact Hn.
  Qed.
  (** No response is empty. *)
  Theorem subscription_batches v vs tr k s x : serves d p h (v :: vs) tr -> v_rpcs v !! k = Some (QSub s x) -> Forall (fun b => b <> []) (su_out s).
  Proof.
    remember (v :: vs) as l eqn:El. intros H. revert v vs k s x El. induction H as [|v0 vs0 tr0' ol v' H IH Hst]; intros v vs k s ph [= <- <-] Hk; [discriminate Hk|].
    specialize (IH v0 vs0). assert (IH2 : forall k s x, v_rpcs v0 !! k = Some (QSub s x) -> Forall (fun b => b <> []) (su_out s)) by (intros ? ? ? H'; exact (IH _ _ _ eq_refl H')).
    exact (sstep_batches _ _ _ Hst IH2 _ _ _ Hk).
  Qed.
  (** A subscriber that waits although something it has not delivered is stored has been notified, or is about to be. *)
  Theorem subscription_notified v vs tr k s st : serves d p h (v :: vs) tr -> v_rpcs v !! k = Some (QSub s QWait) -> k ∉ v_lost v -> shows (v_sys v) st ->
    concat (su_out s) <> filter (fun e => (match su_after s with Some a => a < e.1 | None => True end) /\ q_matches (su_q s) e.2) (s_hist st) ->
    v_ver v <> su_seen s \/ exists todo hd, v_thread v = TReply todo (Some hd).
  Proof.
    intros H Hk Hlost Hs Hne. destruct (serves_inv _ _ _ _ _ _ _ Hrun H) as (sy & Hi & Hg & Hsub & HR). pose proof (HR _ _ Hk Hlost) as Hr. cbn [rpc_inv] in Hr.
    destruct Hr as [(_ & _ & Hx)|(_ & _ & Hgood & _ & _ & Hw)]; [discriminate|].
    destruct (decide (v_ver v = su_seen s)) as [Ev|Ev]; [right|now left]. destruct (publishing v) eqn:Ep.
    - unfold publishing in Ep. destruct (v_thread v) as [| | | | |todo [hd|]|]; try discriminate. eauto.
    - exfalso. apply Hne. specialize (Hw eq_refl (conj (eq_sym Ev) Ep)).
      destruct (inv_shows_eqv ps hash order ford caching Hps Hps32 Hord Hford _ _ _ Hi Hs) as [Eh _]. rewrite Eh. destruct Hgood as [Hgood _]. rewrite Hw, app_nil_r in Hgood.
      unfold su_sent in Hgood. rewrite <- Hgood. unfold spec_read. cbn [cut]. apply list_filter_iff. intros e. unfold Spec.in_range, sub_from. destruct (su_after s); [|tauto].
      rewrite <- N.le_succ_l. replace (N.succ n) with (n + 1) by lia. tauto.
  Qed.
  (** And it gets on: without anything else being committed, steps of the subscriber's own task, after those with which the
      writer thread notifies it, lead to a state in which everything stored is delivered. *)
  Theorem subscription_catches_up v vs tr k s x st : serves d p h (v :: vs) tr -> v_rpcs v !! k = Some (QSub s x) ->
    (x <> QEnd /\ x <> QGone /\ k ∉ v_unread v) -> k ∉ v_lost v -> shows (v_sys v) st ->
    exists v' s', goes ps hash order ford caching max_events v v' /\ v_rpcs v' !! k = Some (QSub s' QWait) /\ su_q s' = su_q s /\ su_after s' = su_after s /\
      exists st', shows (v_sys v') st' /\ s_hist st' = s_hist st /\
        concat (su_out s') = filter (fun e => (match su_after s with Some a => a < e.1 | None => True end) /\ q_matches (su_q s) e.2) (s_hist st).
  Proof.
    intros H Hk (Hx1 & Hx2 & Hx3) Hlost Hs. destruct (serves_inv _ _ _ _ _ _ _ Hrun H) as (sy & Hok). pose proof Hok as (Hi & _).
    destruct (inv_shows_eqv ps hash order ford caching Hps Hps32 Hord Hford _ _ _ Hi Hs) as [Eh _].
    destruct (delivered ps hash order ford caching max_events Hps Hps32 Hord Hford v (s_hist st) k s x) as (v' & s' & H1 & H2 & H3 & H4 & H5 & H6).
    - split; [exists vs, sy; split; [exact Hok|now symmetry]|]. eapply serves_kinds. exact H.
    - exact Hlost.
    - exact Hk.
    - destruct x as [| | | |[]| | | |]; try contradiction; try exact I.
      + destruct Hok as (_ & _ & _ & HR). destruct (read_answer _ _ _ _ _ _ _ _ (HR _ _ Hk Hlost) eq_refl) as [[y Hy]|[Hy _]]; [discriminate|contradiction].
      + destruct (subscription_exact _ _ _ _ _ _ _ H Hk Hlost Hs) as [Hf _]. exact (Hx3 (proj1 (Hf _ eq_refl))).
    - exists v', s'. split; [exact H1|]. split; [exact H3|]. split; [exact H4|]. split; [exact H5|]. destruct H2 as [(vs' & sy' & (Hi' & _) & Eh') _].
      exists (sp_cur sy'). split; [eapply inv_shows_v; eassumption|]. split; [exact Eh'|]. unfold all_sent, su_sent in H6. rewrite H6, H4, H5. unfold spec_read. cbn [cut]. apply list_filter_iff.
      intros e. unfold Spec.in_range, sub_from. destruct (su_after s); [|tauto]. rewrite <- N.le_succ_l. replace (N.succ n) with (n + 1) by lia. tauto.
  Qed.

  (** ** C77: snapshots are held only while a batch is read *)
  (** A remote read or subscription that waits for its turn, for the client to take a response or for new events, or that has
      ended, failed or been closed, has no reader; one reader at most otherwise. *)
  Theorem remote_holds_no_snapshot v vs tr k x : serves d p h (v :: vs) tr -> v_rpcs v !! k = Some x ->
    match rpc_phase x with QCall | QOpen | QRead _ => False | _ => True end -> p_readers (v_proc v) !! k = None.
  Proof.
    intros H Hk Hx. pose proof (serves_kinds _ _ _ _ _ _ _ _ _ _ _ _ H k x Hk) as E. destruct (p_readers (v_proc v) !! k) as [ph|]; [|reflexivity].
    exfalso. destruct (rpc_phase x); cbn in E; try contradiction; destruct ph; discriminate E.
  Qed.

  (** ** C55: how many requests are committed together *)
  (** The requests taken before the last one had fewer events than the limit. *)
  Notation events_of items := (N.of_nat (length (concat (map (fun x => rq_events (it_req x)) items)))).
  Lemma total_events_spec items : total_events items = events_of items.
  Proof. induction items as [|x items IH]; [reflexivity|]. cbn [total_events foldr map concat]. rewrite app_length. unfold total_events in IH. rewrite IH. unfold nlen. lia. Qed.
  Definition below_limit (t : tphase) : Prop :=
    match t with
    | TProc items _ _ => items = [] \/ events_of items < max_events
    | TDrain items | TCommit items => exists init x, items = init ++ [x] /\ (init = [] \/ events_of init < max_events)
    | _ => True
    end.
  Theorem batch_limited v vs tr : serves d p h (v :: vs) tr -> below_limit (v_thread v).
  Proof.
    remember (v :: vs) as l eqn:El. intros H. revert v vs El. induction H as [|v0 vs0 tr0' ol v' H IH Hst]; intros v vs [= <- <-]; [exact I|].
    specialize (IH _ _ eq_refl). destruct Hst; cbn in *; try exact IH; try exact I; try (now left).
    - rewrite H0 in IH. eauto.
    - rewrite H0 in IH. exact IH.
    - right. rewrite <- total_events_spec. assumption.
    - rewrite H0 in IH. exact IH.
    - rewrite H0 in IH. exact IH.
  Qed.
  (** It is closed only when nothing more is waiting, the limit is reached, or the server is to shut down. *)
  Theorem waiting_joins v ol v' items id r q : sstep v ol v' -> v_thread v = TDrain items -> v_queue v = MAppend id r :: q -> events_of items < max_events ->
    v_thread v' = TDrain items \/ v_thread v' = TProc items id r /\ v_queue v' = q.
  Proof.
    intros Hst Ht Hq Hlt. rewrite <- total_events_spec in Hlt. destruct Hst; cbn; try (left; exact Ht); try congruence.
    - rewrite Ht in H. injection H as ->. lia.
    - rewrite Ht in H. injection H as ->. rewrite Hq in H1. injection H1 as -> -> ->. right. auto.
  Qed.

  (** ** C25, C26: the writer thread *)
  Context (Hidle : p_writer p = WIdle).
  (** At any time each request ever queued is in one place: answered (once), in the hands of the thread, or in the queue; and
      always in the order of arrival. *)
  Theorem answered_once v vs tr : serves d p h (v :: vs) tr ->
    NoDup (map fst (v_seen v)) /\
    map fst (v_sent v) ++ map fst (decided (v_thread v)) ++ map fst (held (v_thread v)) ++ map fst (queued (v_queue v)) = map fst (v_seen v).
  Proof.
    intros H. destruct (serves_accounts ps hash order ford caching max_events _ _ _ _ _ _ Hidle H) as (P & A1 & A2 & _ & _ & A5 & _). split; [exact A5|].
    rewrite <- A1, !map_app, app_assoc. f_equal. rewrite <- map_app, <- A2, !map_map. reflexivity.
  Qed.
  (** The answers are those of the committed batches, in order of arrival; the others are errors, and their requests had no
      effect. *)
  Theorem server_linearizable v vs tr : serves d p h (v :: vs) tr ->
    exists P : list fate,
      map f_in P `prefix_of` v_seen v /\ v_sent v `prefix_of` map f_out P /\
      (forall f, f ∈ P -> f_done f = false -> exists e, f_ans f = Err e) /\
      map f_com (filter (fun f => f_done f = true) P) = commits tr /\
      run (tr0 ++ tr) (v_sys v).
  Proof.
    intros H. destruct (serves_accounts ps hash order ford caching max_events _ _ _ _ _ _ Hidle H) as (P & A1 & A2 & A3 & A4 & _). exists P.
    split; [rewrite <- A1; eexists; reflexivity|]. split; [rewrite A2; eexists; reflexivity|]. split; [now rewrite Forall_forall in A4|]. split; [exact A3|].
    eapply serves_run; eassumption.
  Qed.
  (** The thread is never stuck while there is something to do ... *)
  Theorem writer_never_stuck v vs tr : serves d p h (v :: vs) tr -> v_thread v <> TStop -> (v_thread v = TWait -> v_queue v <> []) ->
    exists ol v', works ps hash order ford caching max_events v ol v'.
  Proof.
    intros H. destruct (serves_accounts ps hash order ford caching max_events _ _ _ _ _ _ Hidle H) as (P & _ & _ & _ & _ & _ & Ht). now apply can_work.
  Qed.
  (** ... and each of its steps leaves less to do, in a well-founded order which steps of others, apart from new messages, do
      not change: it comes to an end, with every request answered. *)
  Theorem writer_finishes v vs tr : serves d p h (v :: vs) tr ->
    (forall ol v', works ps hash order ford caching max_events v ol v' -> less_to_do (left_to_do v') (left_to_do v)) /\
    (forall ol v', sstep v ol v' -> v_queue v' = v_queue v -> v_thread v' = v_thread v -> p_writer (v_proc v') = p_writer (v_proc v) -> left_to_do v' = left_to_do v) /\
    well_founded less_to_do /\
    (v_thread v = TWait -> v_queue v = [] -> map fst (v_sent v) = map fst (v_seen v)).
  Proof.
    intros H. destruct (serves_accounts ps hash order ford caching max_events _ _ _ _ _ _ Hidle H) as (P & A1 & A2 & _ & _ & _ & Ht). split; [|split; [|split]].
    - intros ol v' Hw. eapply works_less; eassumption.
    - intros ol v' _ E1 E2 E3. unfold left_to_do. now rewrite E1, E2, E3.
    - apply wf_slexprod; [apply lt_wf|]. apply wf_slexprod; apply lt_wf.
    - intros E1 E2. rewrite E1, E2 in *. cbn in *. rewrite !app_nil_r in *. rewrite <- A1, <- A2, !map_map. reflexivity.
  Qed.
End props_server.

(** ** C35: the API key *)
Theorem api_key_exact k md : enforce_api_key (Some k) md = Ok tt <-> md_get AUTHORIZATION md = Some (BEARER ++ k) /\ Forall (fun b => visible b = true) k.
Proof.
  unfold enforce_api_key, to_str. assert (Hb : forallb visible (BEARER ++ k) = true <-> Forall (fun b => visible b = true) k).
  { rewrite forallb_app. change (forallb visible BEARER) with true. cbn [andb]. rewrite forallb_forall, Forall_forall. setoid_rewrite elem_of_list_In. reflexivity. }
  destruct (md_get AUTHORIZATION md) as [m|]; [|split; [discriminate|intros [? _]; discriminate]].
  destruct (forallb visible m) eqn:Ev.
  - case_bool_decide as E.
    + subst m. split; [|reflexivity]. intros _. split; [reflexivity|]. now apply Hb.
    + split; [discriminate|]. intros [Hx _]. congruence.
  - split; [discriminate|]. intros [Hx Hk]. apply Hb in Hk. assert (m = BEARER ++ k) by congruence. congruence.
Qed.
(** The same without the lookup: the first header of that name, among all that were sent, is "Bearer" with the key; the key is of printable characters. *)
Theorem api_key_header k md : enforce_api_key (Some k) md = Ok tt <->
  Forall (fun b => 32 <= b <= 126 \/ b = 9) k /\ exists before after, md = before ++ (AUTHORIZATION, BEARER ++ k) :: after /\ forall v, (AUTHORIZATION, v) ∉ before.
Proof.
  rewrite api_key_exact. assert (Hv : Forall (fun b => visible b = true) k <-> Forall (fun b => 32 <= b <= 126 \/ b = 9) k).
  { rewrite !Forall_forall. unfold visible. setoid_rewrite orb_true_iff. setoid_rewrite andb_true_iff. setoid_rewrite N.leb_le. setoid_rewrite N.ltb_lt. setoid_rewrite N.eqb_eq.
    split; intros H x Hx; specialize (H x Hx); lia. }
  rewrite Hv. assert (Hg : md_get AUTHORIZATION md = Some (BEARER ++ k) <-> exists before after, md = before ++ (AUTHORIZATION, BEARER ++ k) :: after /\ forall v, (AUTHORIZATION, v) ∉ before); [|tauto].
  generalize (BEARER ++ k) as w. intros w. induction md as [|[n v] md IH]; cbn [md_get]; [split; [discriminate|intros ([|??] & ? & [=] & _)]|].
  destruct (decide (n = AUTHORIZATION)) as [->|Hn].
  - split; [intros [= ->]; exists [], md; split; [reflexivity|intros v Hv'; inversion Hv']|]. intros (bf & af & E & Hb). destruct bf as [|x bf]; [now injection E as ->|].
    injection E as <- _. exfalso. apply (Hb v). left.
  - rewrite IH. split.
    + intros (bf & af & -> & Hb). exists ((n, v) :: bf), af. split; [reflexivity|]. intros v' Hv'. apply elem_of_cons in Hv' as [E|E]; [congruence|now apply (Hb v')].
    + intros (bf & af & E & Hb). destruct bf as [|x bf]; [injection E as E; congruence|]. injection E as <- ->. exists bf, af. split; [reflexivity|]. intros v' Hv'. apply (Hb v'). now right.
Qed.
(** An operation is performed for nobody else; the rejected request changes nothing. *)
Theorem api_key_enforced {S A} k md (perform : method -> S -> S * res A) m s :
  md_get AUTHORIZATION md <> Some (BEARER ++ k) -> handle_call (Some k) md perform m s = (s, Err EAuth).
Proof.
  intros Hne. unfold handle_call. destruct (enforce_api_key (Some k) md) as [[]|e] eqn:E; [apply api_key_exact in E as [E _]; contradiction|].
  unfold enforce_api_key in E. case_match; congruence.
Qed.
Theorem api_key_admits {S A} k md (perform : method -> S -> S * res A) m s :
  (k = None \/ exists k', k = Some k' /\ md_get AUTHORIZATION md = Some (BEARER ++ k') /\ Forall (fun b => visible b = true) k') ->
  handle_call k md perform m s = perform m s.
Proof.
  intros [->|(k' & -> & H)]; [reflexivity|]. unfold handle_call. apply api_key_exact in H. now rewrite H.
Qed.
Example api_key_example : let k := [107; 49] in let md := [([120], [1]); (AUTHORIZATION, BEARER ++ k)] in
  enforce_api_key (Some k) md = Ok tt /\ enforce_api_key (Some [107]) md = Err EAuth /\ enforce_api_key (Some k) [] = Err EAuth /\
  (* a key with an umlaut admits nobody *)
  enforce_api_key (Some [252]) [(AUTHORIZATION, BEARER ++ [252])] = Err EAuth.
Proof. vm_compute. repeat split. Qed.

(** ** The server at work *)
Notation e_db := (Proc (0, init_header) (1, init_header) ∅ ∅ ∅ WIdle).
Notation e_serves := (serves 16 4096 f_hash (fun l => l) x_ford true 1000 (init_disk 16 4096) e_db None).
Notation e_run s := (srun 16 4096 f_hash (fun l => l) x_ford true 1000 (new_srv (init_disk 16 4096) e_db None) [] [] s).
Lemma e_found s (P : srv -> list srv -> bool) : match e_run s with Some (v, vs, _) => P v vs | None => false end = true -> exists v vs tr, e_serves (v :: vs) tr /\ P v vs = true.
Proof.
  destruct (e_run s) as [[[v vs] tr]|] eqn:E; [|discriminate]. intros HP. exists v, vs, tr. split; [|exact HP].
  eapply srun_ok; [reflexivity|apply serves_start|exact E].
Qed.
Lemma e_found3 s (P : srv -> list srv -> list label -> bool) : match e_run s with Some (v, vs, tr) => P v vs tr | None => false end = true -> exists v vs tr, e_serves (v :: vs) tr /\ P v vs tr = true.
Proof.
  destruct (e_run s) as [[[v vs] tr]|] eqn:E; [|discriminate]. intros HP. exists v, vs, tr. split; [|exact HP].
  eapply srun_ok; [reflexivity|apply serves_start|exact E].
Qed.
Lemma e_start : run 4096 f_hash (fun l => l) x_ford true [] (Sys (init_disk 16 4096) (Some e_db)).
Proof. constructor. Qed.

(** A batch of one request, from the queue to the answer, with [n] pages to write; one round of a task. *)
Definition e_batch (n : nat) : list sact := replicate (10 + n) VThread.
Definition e_round (k : nat) : list sact := [VTask k; VTask k; VDb (AObs k); VDb (ASeen k); VDb (AReg k); VDb (AChk k); VTask k; VTask k; VTask k].
Definition e_three : request := Req [NE [1] [] [[97]] None []; NE [2] [] [[98]] None []; NE [3] [] [[97]] None []] None None.

(** A remote read of two events at a time, of an empty store that has grown before the read and grows again between its
    first and its second batch: the stream ends with the three events of the first commit. *)
Definition e_reading : list sact := [VArrive 0 e_three] ++ e_batch 3 ++ [VRead 7 [] None false None (Some 2)] ++ e_round 7 ++ [VArrive 1 f_one] ++ e_batch 3 ++ e_round 7.
Example remote_read_example : exists v vs tr r, e_serves (v :: vs) tr /\ v_rpcs v !! 7%nat = Some (QRd r QEnd) /\
  map (fun o => (map fst o.1, o.2)) (rr_out r) = [([1; 2], Some 3); ([3], Some 3)] /\ v_sent v = [(0%nat, Ok 3); (1%nat, Ok 4)] /\ rr_q r = [].
Proof.
  destruct (e_found e_reading (fun v _ => match v_rpcs v !! 7%nat with
    | Some (QRd r QEnd) => bool_decide (map (fun o => (map fst o.1, o.2)) (rr_out r) = [([1; 2], Some 3); ([3], Some 3)]) &&
        match v_sent v, rr_q r with [(0%nat, Ok 3); (1%nat, Ok 4)], [] => true | _, _ => false end
    | _ => false end)) as (v & vs & tr & H & HP); [vm_compute; reflexivity|].
  destruct (v_rpcs v !! 7%nat) as [[r []|]|] eqn:Eq; try discriminate. exists v, vs, tr, r. split; [exact H|]. split; [exact Eq|].
  apply andb_prop in HP as [H1 H2]. apply bool_decide_eq_true in H1. split; [exact H1|]. clear -H2. cases. split; reflexivity.
Qed.
(** The theorem applies to it. *)
Example remote_read_applies : exists v vs tr r x, e_serves (v :: vs) tr /\ v_rpcs v !! 7%nat = Some (QRd r x) /\ rr_out r <> [] /\ forall e, x = QFail e -> 7%nat ∈ v_unread v /\ e = ECorruption.
Proof.
  destruct remote_read_example as (v & vs & tr & r & H1 & H2 & H3 & _ & Hq). exists v, vs, tr, r, QEnd. split; [exact H1|]. split; [exact H2|]. split; [intros E; rewrite E in H3; discriminate|].
  refine (proj1 (remote_read_snapshot 4096 f_hash (fun l => l) x_ford true 1000 f_ps f_ps32 x_ord x_ford_ok _ _ _ _ e_start _ _ _ _ _ _ H1 H2 _)).
  eapply scan_not_lost; [exact H1|exact H2|]. left. exact Hq.
Qed.

(** A remote read with tags that ends as if it were complete, without the event that another read of the same store, with the
    same query, has found: the page with the root of the index could not be read. *)
Definition e_losing : list sact := [VArrive 0 f_one] ++ e_batch 3 ++ [VRead 8 f_query None false None None] ++ e_round 8 ++
  [VRead 7 f_query None false None None; VTask 7; VTask 7; VDb (AObs 7); VDb (ASeen 7); VDb (AReg 7); VDb (AChk 7); VTask 7].
Definition e_bad_index (v : srv) (a : N * header) : snapshot := fun i => if i =? h_tags_root a.2 then Err EIo else fetch 16 (p_cache (v_proc v)) (v_disk v) i.
Theorem remote_complete_or_error_refuted : exists v vs tr r r', e_serves (v :: vs) tr /\ v_rpcs v !! 7%nat = Some (QRd r QEnd) /\ v_rpcs v !! 8%nat = Some (QRd r' QEnd) /\
  asked (QRd r QEnd) = asked (QRd r' QEnd) /\ v_sent v = [(0%nat, Ok 1)] /\ rr_out r = [([], Some 1)] /\ map (fun o => (map fst o.1, o.2)) (rr_out r') = [([1], Some 1)].
Proof.
  destruct (e_found e_losing (fun v _ => match v_rpcs v !! 7%nat, v_rpcs v !! 8%nat, p_readers (v_proc v) !! 7%nat with
    | Some (QRd r QOpen), Some (QRd r' QEnd), Some (ROpen a) =>
        let '(q, start, bw, limit) := rpc_args (QRd r QOpen) in
        match handler_read f_hash (fun l => l) (e_bad_index v a) a.2 q start bw limit, handler_read f_hash (fun l => l) (fetch 16 (p_cache (v_proc v)) (v_disk v)) a.2 q start bw limit, read_iter r [] (Some 1) with
        | Ok ([], Some 1), Ok (_ :: _, _), (r1, go) => negb (go && negb (read_exhausted r1)) && bool_decide (asked (QRd r QEnd) = asked (QRd r' QEnd)) && bool_decide (asked (QRd r1 QEnd) = asked (QRd r' QEnd)) &&
            bool_decide (rr_out r1 = [([], Some 1)]) && bool_decide (map (fun o => (map fst o.1, o.2)) (rr_out r') = [([1], Some 1)]) && match v_sent v with [(0%nat, Ok 1)] => true | _ => false end
        | _, _, _ => false end
    | _, _, _ => false end)) as (v & vs & tr & H & HP); [vm_compute; reflexivity|].
  destruct (v_rpcs v !! 7%nat) as [[r []|]|] eqn:E7; try discriminate. destruct (v_rpcs v !! 8%nat) as [[r' []|]|] eqn:E8; try discriminate.
  destruct (p_readers (v_proc v) !! 7%nat) as [[| | | | |a]|] eqn:Er; try discriminate.
  destruct (rpc_args (QRd r QOpen)) as [[[q start] bw] limit] eqn:Ea.
  destruct (handler_read _ _ (e_bad_index v a) _ _ _ _ _) as [[[|] [[|[]]|]]|] eqn:E1; try discriminate.
  destruct (handler_read _ _ (fetch _ _ _) _ _ _ _ _) as [[[|] ?]|] eqn:E2; try discriminate.
  destruct (read_iter r [] (Some 1)) as [r1 go] eqn:E3.
  repeat match goal with Hx : _ && _ = true |- _ => apply andb_prop in Hx as [Hx ?] end.
  set (v1 := v_set_rpc 7 (QRd r (QRead (Ok ([], Some 1)))) (v_lose 7 v)).
  assert (S1 : e_serves (v1 :: v :: vs) (tr ++ [])).
  { refine (serves_step _ _ _ _ _ _ _ _ _ _ _ _ _ None _ H _). eapply (V_lossy _ _ _ _ _ _ _ v 7 (QRd r QOpen) a _ _ _ _ (e_bad_index v a) ([], Some 1)); [exact E7|reflexivity|exact Er|exact Ea| |exact E1|rewrite E2; discriminate].
    intros i. unfold e_bad_index. destruct (i =? _); eauto. }
  assert (Hc : exists d' p', pstep 16 4096 f_hash (fun l => l) x_ford true (v_disk v1) (v_proc v1) (LClose 7) d' p') by (eexists _, _; eapply S_close; exact Er). destruct Hc as (d' & p' & Hc).
  assert (S2 : e_serves (v_set_rpc 7 (rpc_handle (QRd r (QRead (Ok ([], Some 1)))) (Ok ([], Some 1))) (v_set_db d' p' v1) :: v1 :: v :: vs) ((tr ++ []) ++ [LClose 7])).
  { refine (serves_step _ _ _ _ _ _ _ _ _ _ _ _ _ (Some (LClose 7)) _ S1 _). eapply (V_handle _ _ _ _ _ _ _ v1 7 (QRd r (QRead (Ok ([], Some 1))))); [apply lookup_insert|reflexivity|exact Hc]. }
  eexists _, _, _, r1, r'. split; [exact S2|]. unfold v1. cbn [v_rpcs v_set_rpc v_set_db v_lose set_phase rpc_handle v_sent]. rewrite E3.
  match goal with Hx : negb _ = true |- _ => apply negb_true_iff in Hx; rewrite Hx end.
  split; [apply lookup_insert|]. split; [rewrite !lookup_insert_ne by discriminate; exact E8|].
  repeat match goal with Hx : bool_decide _ = true |- _ => apply bool_decide_eq_true in Hx end.
  split; [assumption|]. split; [|split; assumption]. repeat case_match; try discriminate; reflexivity.
Qed.

(** A page cannot be read in the second round: the stream ends with an error after the first batch; another read is not
    concerned, and its reader is gone. *)
Definition e_bad_round (k : nat) : list sact := [VTask k; VTask k; VDb (AObs k); VDb (ASeen k); VDb (AReg k); VDb (AChk k); VTask k; VBad k; VTask k].
Example remote_read_fails : exists v vs tr r, e_serves (v :: vs) tr /\ v_rpcs v !! 7%nat = Some (QRd r (QFail ECorruption)) /\
  map (fun o => (map fst o.1, o.2)) (rr_out r) = [([1; 2], Some 3)] /\ v_unread v = [7%nat] /\
  exists r', v_rpcs v !! 8%nat = Some (QRd r' QEnd) /\ map (fun o => (map fst o.1, o.2)) (rr_out r') = [([1; 2; 3], Some 3)].
Proof.
  destruct (e_found ([VArrive 0 e_three] ++ e_batch 3 ++ [VRead 7 [] None false None (Some 2)] ++ e_round 7 ++ e_bad_round 7 ++ [VRead 8 [] None false None None] ++ e_round 8)
    (fun v _ => match v_rpcs v !! 7%nat, v_rpcs v !! 8%nat with
    | Some (QRd r (QFail ECorruption)), Some (QRd r' QEnd) => bool_decide (map (fun o => (map fst o.1, o.2)) (rr_out r) = [([1; 2], Some 3)]) &&
        bool_decide (map (fun o => (map fst o.1, o.2)) (rr_out r') = [([1; 2; 3], Some 3)]) && bool_decide (v_unread v = [7%nat])
    | _, _ => false end)) as (v & vs & tr & H & HP); [vm_compute; reflexivity|].
  destruct (v_rpcs v !! 7%nat) as [[r [| | | | | | |[]|]|]|] eqn:E1; try discriminate. destruct (v_rpcs v !! 8%nat) as [[r' []|]|] eqn:E2; try discriminate.
  apply andb_prop in HP as [HP H3]. apply andb_prop in HP as [H1 H2]. apply bool_decide_eq_true in H1, H2, H3. eauto 12.
Qed.

(** A subscriber after position 1 to events tagged "a" gets event 3, waits, is notified of the next commit and gets event 4. *)
Definition e_subscribing : list sact :=
  [VArrive 0 e_three] ++ e_batch 3 ++ [VSubscribe 7 [QItem [] [[97]]] (Some 1) None] ++ e_round 7 ++ e_round 7 ++ [VArrive 1 f_one] ++ e_batch 3 ++ [VTask 7] ++ e_round 7.
Example subscription_example : exists v vs tr s, e_serves (v :: vs) tr /\ v_rpcs v !! 7%nat = Some (QSub s QLoop) /\ map (map fst) (su_out s) = [[3]; [4]] /\ (v_ver v = 1)%nat.
Proof.
  destruct (e_found e_subscribing (fun v _ => match v_rpcs v !! 7%nat with
    | Some (QSub s QLoop) => bool_decide (map (map fst) (su_out s) = [[3]; [4]]) && Nat.eqb (v_ver v) 1 | _ => false end)) as (v & vs & tr & H & HP); [vm_compute; reflexivity|].
  destruct (v_rpcs v !! 7%nat) as [[|s []]|] eqn:Eq; try discriminate. exists v, vs, tr, s. split; [exact H|]. split; [exact Eq|]. apply andb_prop in HP as [H1 H2].
  apply bool_decide_eq_true in H1. apply Nat.eqb_eq in H2. auto.
Qed.
(** It waits, with an undelivered event in the store and the notification on its way. *)
Example subscription_waits : exists v vs tr s todo hd, e_serves (v :: vs) tr /\ v_rpcs v !! 7%nat = Some (QSub s QWait) /\ v_thread v = TReply todo (Some hd) /\ v_ver v = su_seen s.
Proof.
  destruct (e_found ([VArrive 0 e_three] ++ e_batch 3 ++ [VSubscribe 7 [QItem [] [[97]]] (Some 1) None] ++ e_round 7 ++ e_round 7 ++ [VArrive 1 f_one] ++ replicate 11 VThread)
    (fun v _ => match v_rpcs v !! 7%nat, v_thread v with Some (QSub s QWait), TReply _ (Some _) => Nat.eqb (v_ver v) (su_seen s) | _, _ => false end)) as (v & vs & tr & H & HP); [vm_compute; reflexivity|].
  destruct (v_rpcs v !! 7%nat) as [[|s []]|] eqn:E1; try discriminate. destruct (v_thread v) as [| | | | |todo [hd|]|] eqn:E2; try discriminate. apply Nat.eqb_eq in HP. eauto 10.
Qed.
(** Three requests in two batches; the second is rejected by its own condition. *)
Definition e_cond : request := Req [NE [1] [] [[97]] None []] (Some (ACond [QItem [] [[97]]] None)) None.
Example answered_example : exists v vs tr, e_serves (v :: vs) tr /\ v_thread v = TWait /\ v_sent v = [(0%nat, Ok 3); (1%nat, Err EIntegrity); (2%nat, Ok 4)] /\ length (commits tr) = 3%nat.
Proof.
  destruct (e_found3 ([VArrive 0 e_three] ++ e_batch 3 ++ [VArrive 1 e_cond; VArrive 2 f_one] ++ replicate 16 VThread)
    (fun v _ tr => match v_thread v, v_sent v with TWait, [(0%nat, Ok 3); (1%nat, Err EIntegrity); (2%nat, Ok 4)] => Nat.eqb (length (commits tr)) 3 | _, _ => false end))
    as (v & vs & tr & H & HP); [vm_compute; reflexivity|].
  exists v, vs, tr. split; [exact H|]. clear H. cases. repeat split. now apply Nat.eqb_eq.
Qed.

(** Two requests are committed together. *)
Example batch_example : exists v vs tr i1 i2, e_serves (v :: vs) tr /\ v_thread v = TCommit [i1; i2] /\ it_id i1 = 1%nat /\ it_id i2 = 2%nat.
Proof.
  destruct (e_found ([VArrive 0 e_three] ++ e_batch 3 ++ [VArrive 1 e_cond; VArrive 2 f_one] ++ replicate 6 VThread)
    (fun v _ => match v_thread v with TCommit [i1; i2] => Nat.eqb (it_id i1) 1 && Nat.eqb (it_id i2) 2 | _ => false end)) as (v & vs & tr & H & HP); [vm_compute; reflexivity|].
  destruct (v_thread v) as [| | | |[|i1 [|i2 [|]]]| |] eqn:E; try discriminate. apply andb_prop in HP as [H1 H2]. apply Nat.eqb_eq in H1. apply Nat.eqb_eq in H2. exists v, vs, tr, i1, i2. auto.
Qed.

(** ** C34: cancellation *)
(** Two clients; the second gives up.  The flag is looked at because its request has a condition.  The first, whose own append had been processed with success, gets an error and its
    events are not stored: the whole batch is abandoned. *)
Theorem cancellation_isolated_refuted : exists v vs tr, e_serves (v :: vs) tr /\
  map fst (v_seen v) = [0%nat; 1%nat] /\ v_gone v = [1%nat] /\ v_sent v = [(0%nat, Err ECancelled); (1%nat, Err ECancelled)] /\ commits tr = [] /\
  exists w, w ∈ vs /\ v_thread w = TProc [(0%nat, e_three, Ok 3)] 1 e_cond.
Proof.
  destruct (e_found3 ([VArrive 0 e_three; VArrive 1 e_cond; VCancel 1] ++ replicate 4 VThread ++ [VGiveUp; VThread; VThread])
    (fun v vs tr => match map fst (v_seen v), v_sent v, v_gone v, commits tr, vs with
       [0%nat; 1%nat], [(0%nat, Err ECancelled); (1%nat, Err ECancelled)], [1%nat], [], _ :: _ :: w :: _ =>
         match v_thread w with TProc [(0%nat, r, Ok 3)] 1 r' => bool_decide (r = e_three /\ r' = e_cond) | _ => false end
     | _, _, _, _, _ => false end)) as (v & vs & tr & H & HP); [vm_compute; reflexivity|].
  exists v, vs, tr. split; [exact H|]. clear H. cases. apply bool_decide_eq_true in HP as [-> ->]. repeat split.
  match goal with Ht : v_thread ?w = _ |- _ => exists w; split; [|exact Ht] end. set_solver.
Qed.

(** ** C42: shutdown *)
(** A request and then a shutdown message arrive; the thread takes the message while it looks for more requests for its
    batch.  The request is answered and everything before the shutdown is done, but the thread waits for more, and a later
    request is processed. *)
Theorem shutdown_honoured_refuted : exists v vs tr, e_serves (v :: vs) tr /\
  v_thread v = TWait /\ v_queue v = [] /\ v_sent v = [(0%nat, Ok 3); (1%nat, Ok 4)] /\
  exists w, w ∈ vs /\ v_queue w = [MAppend 0 e_three; MShutdown] /\ v_sent w = [] /\ map fst (v_seen w) = [0%nat].
Proof.
  destruct (e_found3 ([VArrive 0 e_three; VShutdown] ++ e_batch 3 ++ [VArrive 1 f_one] ++ e_batch 3)
    (fun v vs _ => match v_thread v, v_queue v, v_sent v with
       TWait, [], [(0%nat, Ok 3); (1%nat, Ok 4)] => existsb (fun w => match v_queue w, v_sent w, map fst (v_seen w) with
         [MAppend 0 r; MShutdown], [], [0%nat] => bool_decide (r = e_three) | _, _, _ => false end) vs
     | _, _, _ => false end)) as (v & vs & tr & H & HP); [vm_compute; reflexivity|].
  exists v, vs, tr. split; [exact H|]. clear H. cases. repeat split.
  match goal with He : existsb _ _ = true |- _ => apply existsb_exists in He as (w & Hw & Hp) end. exists w. split; [now apply elem_of_list_In|]. clear -Hp. cases.
  apply bool_decide_eq_true in Hp as ->. repeat split.
Qed.

Print Assumptions remote_read_snapshot.
Print Assumptions scan_not_lost.
Print Assumptions remote_complete_or_error_refuted.
Print Assumptions remote_holds_no_snapshot.
Print Assumptions remote_read_batches.
Print Assumptions subscription_batches.
Print Assumptions remote_request_kept.
Print Assumptions subscription_exact.
Print Assumptions subscription_notified.
Print Assumptions subscription_catches_up.
Print Assumptions batch_limited.
Print Assumptions waiting_joins.
Print Assumptions answered_once.
Print Assumptions server_linearizable.
Print Assumptions writer_never_stuck.
Print Assumptions writer_finishes.
Print Assumptions api_key_exact.
Print Assumptions api_key_header.
Print Assumptions api_key_enforced.
Print Assumptions api_key_admits.
Print Assumptions cancellation_isolated_refuted.
Print Assumptions shutdown_honoured_refuted.
