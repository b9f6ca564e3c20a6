(** Reads and subscriptions that compete for permits come to an end, with either writer thread: C102. *)
From Verif Require Import Exec PropsStore PropsFindings PropsCrash PropsPipeline PropsPipelined PropsPipelinedServer.
From Verif Require Import MvccProofs SpecProofs StoreProofs ServerLive ServerExec PropsServer PropsRemote Permits PropsPermits PipelineTasks PropsPipelinedRemote PropsPipelinedLive PropsPipelinedEase.
Local Open Scope N_scope.

(** ** Whichever the writer thread *)
Section limited.
  Context (ps : N) (hash : bytes -> bytes) (order : list bytes -> list bytes) (ford : gset N -> list N) (caching : bool) (max_events : N) (Hps32 : ps < U32).
  Context (n : nat) (Hn : (0 < n)%nat).
  Notation sstep := (sstep 16 ps hash order ford caching max_events).
  Notation lstep := (Permits.lstep 16 ps hash order ford caching max_events n).
  Notation lgoes := (lgoes ps hash order ford caching max_events n).
  (** [A v H]: a state with history [H] from which the tasks can go on, no more than [n] of them with a permit. *)
  Context (A : srv -> list seq_event -> Prop).
  Context (A_step : forall v ol v' H, lstep v ol v' -> calm_label ol -> aside v v' -> A v H -> A v' H).
  Context (A_kinds : forall v H, A v H -> kinds v).
  Context (A_held : forall v H, A v H -> (holders v <= n)%nat).
  Context (A_rpc : forall v H k x, A v H -> v_rpcs v !! k = Some x -> k ∉ v_lost v -> exists vs sy, rpc_inv hash order vs v sy k x /\ s_hist (sp_cur sy) = H).
  Context (A_scan : forall v H k a q start bw limit, A v H -> p_readers (v_proc v) !! k = Some (ROpen a) ->
    exists y, handler_read hash order (fetch 16 (p_cache (v_proc v)) (v_disk v)) a.2 q start bw limit = Ok y).
  Lemma A_goes v v' H : lgoes v v' -> A v H -> A v' H.
  Proof. intros Hg. induction Hg as [|a b c (ol & H1 & H2 & H3) _ IH]; [auto|]. intros Ha. apply IH. eapply A_step; eassumption. Qed.
  Lemma lgoes_same v v' : lgoes v v' -> v_thread v' = v_thread v /\ v_ver v' = v_ver v /\ v_lost v' = v_lost v.
  Proof. intros H. induction H as [|a b c (ol & _ & _ & H1) _ (IH1 & IH2 & IH3)]; [auto|]. destruct (aside_same _ _ H1) as (E1 & E2 & E3). repeat split; congruence. Qed.
  Lemma lgoes_trans a b c : lgoes a b -> lgoes b c -> lgoes a c.
  Proof. unfold PropsPermits.lgoes. intros. etransitivity; eassumption. Qed.
  Lemma owns_goes j v v' : owns ps hash order ford caching max_events j v v' -> lgoes v v'.
  Proof. apply owns_lgoes. exact Hps32. Qed.

  (** A batch that is being read gets read. *)
  Definition gets_batch (v : srv) (k : nat) (x : rpc) : Prop := exists v' y, lgoes v v' /\ v_rpcs v' !! k = Some (rpc_handle x (Ok y)).
  Lemma batch_first v v' k q x : lgoes v v' -> gets_batch v' k (set_phase q x) -> gets_batch v k x.
  Proof. intros H (v1 & y & H1 & H2). rewrite handle_phase in H2. exists v1, y. split; [eapply lgoes_trans; eassumption|exact H2]. Qed.
  Lemma batch_open v H k x : A v H -> v_rpcs v !! k = Some x -> rpc_phase x = QOpen -> gets_batch v k x.
  Proof.
    intros Ha Hx Hp. destruct (back_open ps hash order ford caching max_events v k x (A_kinds _ _ Ha) Hx Hp) as (v' & a & q & start & bw & limit & E1 & _ & E2 & E3).
    destruct (A_scan v H k a q start bw limit Ha E1) as (y & E). rewrite E in E3. exists v', y. split; [exact (owns_goes _ _ _ E2)|exact E3].
  Qed.
  Lemma batch_call v H k x : A v H -> v_rpcs v !! k = Some x -> rpc_phase x = QCall -> gets_batch v k x.
  Proof.
    intros Ha Hx Hp. destruct (opens_any ps hash order ford caching max_events v k x (A_kinds _ _ Ha) Hx Hp) as (v' & E1 & E2). apply owns_goes in E1.
    eapply batch_first; [exact E1|]. eapply batch_open; [eapply A_goes; eassumption|exact E2|apply set_phase_phase].
  Qed.
  Lemma batch_any v H k x : A v H -> v_rpcs v !! k = Some x -> match rpc_phase x with QBorrow | QCall | QOpen | QRead (Ok _) => True | _ => False end -> gets_batch v k x.
  Proof.
    intros Ha Hx Hp. destruct (rpc_phase x) as [| | | |[y|]| | | |] eqn:E; try contradiction.
    - pose proof (A_kinds _ _ Ha _ _ Hx) as Hkd. rewrite E in Hkd. cbn in Hkd. destruct (p_readers (v_proc v) !! k) as [ph|] eqn:Er; [destruct ph; discriminate|].
      assert (Hst : exists v', sstep v (Some (LCall k)) v' /\ v_rpcs v' = <[k := set_phase QCall x]> (v_rpcs v) /\ aside v v').
      { eexists. split; [eapply V_call; [exact Hx|exact E|eapply S_call; exact Er]|split; [reflexivity|split; reflexivity]]. }
      destruct Hst as (v1 & Hst & Ev & El).
      assert (Ho : own ps hash order ford caching max_events k v v1) by (eapply (own_set _ _ _ _ _ _ v (Some (LCall k))); [exact Hx|unfold holds; now rewrite E|exact I|exact Hst|exact Ev|exact El]).
      assert (Hg : lgoes v v1) by (eapply owns_goes, rtc_once, Ho).
      eapply (batch_first _ v1 _ QCall); [exact Hg|]. eapply batch_call; [eapply A_goes; eassumption|rewrite Ev; apply lookup_insert|apply set_phase_phase].
    - eapply batch_call; eassumption.
    - eapply batch_open; eassumption.
    - destruct (back_read ps hash order ford caching max_events v k x _ (A_kinds _ _ Ha) Hx E) as (v' & K1 & K2). exists v', y. split; [exact (owns_goes _ _ _ K1)|exact K2].
  Qed.
  (** Who wants a batch gets a permit: whoever has one gives it back. *)
  Lemma permitted v H k x : A v H -> v_rpcs v !! k = Some x -> rpc_phase x = QLoop ->
    exists v' y, lgoes v v' /\ v_rpcs v' !! k = Some (rpc_handle (match x with QRd r _ => QRd r QBorrow | QSub s _ => QSub (saw (v_ver v) s) QBorrow end) (Ok y)).
  Proof.
    intros Ha Hx Hp. destruct (free_permit ps hash order ford caching max_events Hps32 n v k x Hn (A_kinds _ _ Ha) (A_held _ _ Ha) Hx Hp) as (v1 & H1 & H2 & H3).
    destruct (lgoes_same _ _ H1) as (_ & Ev & _). rewrite <- Ev. set (x2 := match x with QRd r _ => QRd r QBorrow | QSub s _ => _ end). set (v2 := v_set_rpc k x2 v1).
    assert (Hst : sstep v1 None v2) by (eapply V_permit; eassumption).
    assert (Hg : lgoes v v2). { eapply lgoes_trans; [exact H1|]. apply rtc_once. exists None. split; [split; [exact Hst|intros _; exact H3]|split; [exact I|split; reflexivity]]. }
    destruct (batch_any v2 H k x2 (A_goes _ _ _ Hg Ha)) as (v3 & y & H4 & H5); [apply lookup_insert|unfold x2; destruct x; exact I|].
    exists v3, y. split; [eapply lgoes_trans; eassumption|exact H5].
  Qed.

  (** *** Reads *)
  Lemma limited_read_done H m : forall v k r x, A v H -> k ∉ v_lost v -> v_rpcs v !! k = Some (QRd r x) -> match x with QLoop | QBorrow | QCall | QOpen | QRead (Ok _) => True | _ => False end ->
    (Nat.max 1 (length (spec_read H (rr_q r) (rr_start r) (rr_bw r) (rr_limit r))) - length (rr_out r) < m)%nat ->
    exists v' r', lgoes v v' /\ v_rpcs v' !! k = Some (QRd r' QEnd).
  Proof.
    induction m as [|m IH]; [intros; lia|]. intros v k r x Ha Hlost Hx Hp Hm.
    assert (HB : exists v1 y, lgoes v v1 /\ v_rpcs v1 !! k = Some (rpc_handle (QRd r x) (Ok y))).
    { destruct x; try contradiction; [exact (permitted v H k _ Ha Hx eq_refl)|apply (batch_any v H k _ Ha Hx); exact Hp..]. }
    destruct HB as (v1 & y & Hc & Hx1).
    destruct (handle_read (QRd r x) y eq_refl) as (r1 & q1 & E1 & E2). pose proof (handle_got_on dps dps32 (QRd r x) y) as Hgot. rewrite E1 in Hx1, Hgot. destruct E2 as [-> | ->]; [|exists v1, r1; auto].
    destruct (lgoes_same _ _ Hc) as (_ & _ & L1). pose proof (A_goes _ _ _ Hc Ha) as Ha1. assert (Hlost1 : k ∉ v_lost v1) by (rewrite L1; exact Hlost).
    destruct (lgoes_asked ps hash order ford caching max_events n _ _ _ _ Hc Hx) as (x2 & X1 & X2 & _). rewrite Hx1 in X1. injection X1 as <-. cbn in X2. injection X2 as F1 F2 F3 F4 _.
    destruct (A_rpc _ _ _ _ Ha1 Hx1 Hlost1) as (vs & sy & Hr & HH). apply (inv_bounded hash order) in Hr. rewrite HH in Hr.
    destruct Hgot as [Hgot|[]]. cbn [responses] in Hgot. rewrite F1, F2, F3, F4 in Hr.
    destruct (IH v1 k r1 QLoop Ha1 Hlost1 Hx1 I) as (v2 & r2 & Hc2 & Hx2); [rewrite F1, F2, F3, F4; lia|].
    exists v2, r2. split; [eapply lgoes_trans; eassumption|exact Hx2].
  Qed.

  (** *** Subscriptions *)
  Definition limited_delivers (v : srv) (H : list seq_event) (k : nat) (s : rsub) : Prop :=
    exists v' s', lgoes v v' /\ v_rpcs v' !! k = Some (QSub s' QWait) /\ su_q s' = su_q s /\ su_after s' = su_after s /\ all_sent H s'.
  Lemma sent_most v H k s x : A v H -> k ∉ v_lost v -> v_rpcs v !! k = Some (QSub s x) -> x <> QEnd ->
    (length (su_sent s) <= length (spec_read H (su_q s) (sub_from (su_after s)) false None))%nat.
  Proof.
    intros Ha Hlost Hx Hne. destruct (A_rpc _ _ _ _ Ha Hx Hlost) as (vs & sy & Hr & HH). cbn [rpc_inv] in Hr. destruct Hr as [(_ & _ & Hq)|(_ & _ & Hg & _)]; [contradiction|].
    rewrite HH in *. destruct Hg as [Hg _]. rewrite Hg, app_length. lia.
  Qed.
  (** What becomes of it when a batch has been read. *)
  Lemma handled v H k s q y : A v H -> k ∉ v_lost v -> v_rpcs v !! k = Some (rpc_handle (QSub s q) (Ok y)) ->
    exists s' x', v_rpcs v !! k = Some (QSub s' x') /\ su_seen s' = su_seen s /\ su_q s' = su_q s /\ su_after s' = su_after s /\
      ((x' = QLoop /\ (length (su_sent s) < length (su_sent s'))%nat) \/ (x' = QWait /\ s' = s)).
  Proof.
    intros Ha Hlost Hx. destruct y as [evs hd]. cbn [rpc_handle] in Hx. destruct (A_rpc _ _ _ _ Ha Hx Hlost) as (vs & sy & Hrs & _).
    destruct (sub_iter s evs) as [s' x'] eqn:Ei. exists s', x'. split; [exact Hx|].
    unfold sub_iter in Ei. destruct (last evs) as [e|] eqn:El; [|injection Ei as <- <-; auto 8].
    assert (Hne : (0 < length evs)%nat) by (clear -El; revert El; generalize evs; intros l El; destruct l; [discriminate|cbn; lia]).
    destruct (e.1 =? U64 - 1); injection Ei as <- <-.
    - exfalso. cbn [rpc_inv] in Hrs. destruct Hrs as [(Ho & _)|(_ & _ & _ & Hq & _)]; [|contradiction]. cbn in Ho. now destruct (su_out s).
    - split; [reflexivity|]. split; [reflexivity|]. split; [reflexivity|]. left. split; [reflexivity|]. unfold su_sent. cbn [su_out]. rewrite concat_app, app_length. cbn [concat]. rewrite app_nil_r. apply Nat.lt_add_pos_r. exact Hne.
  Qed.
  Lemma limited_catch_up H m : forall v k s, A v H -> k ∉ v_lost v -> publishing v = false -> v_rpcs v !! k = Some (QSub s QLoop) ->
    (length (spec_read H (su_q s) (sub_from (su_after s)) false None) - length (su_sent s) < m)%nat -> limited_delivers v H k s.
  Proof.
    induction m as [|m IH]; [intros; lia|]. intros v k s Ha Hlost Hp Hx Hm.
    destruct (permitted v H k _ Ha Hx eq_refl) as (v1 & y & Hc & Hx1). pose proof (A_goes _ _ _ Hc Ha) as Ha1. destruct (lgoes_same _ _ Hc) as (T1 & T2 & L1).
    assert (Hlost1 : k ∉ v_lost v1) by (rewrite L1; exact Hlost). assert (Hp1 : publishing v1 = false) by (unfold publishing in *; rewrite T1; exact Hp).
    destruct (handled v1 H k _ _ y Ha1 Hlost1 Hx1) as (s2 & x2 & Hx2 & E1 & E2 & E3 & Hres). cbn in E1, E2, E3.
    destruct Hres as [[-> Hlen]|[-> ->]].
    - assert (Hs : su_sent (saw (v_ver v) s) = su_sent s) by reflexivity. rewrite Hs in Hlen.
      pose proof (sent_most _ _ _ _ _ Ha1 Hlost1 Hx2 ltac:(discriminate)) as Hb. destruct (IH v1 k s2 Ha1 Hlost1 Hp1 Hx2) as (v3 & s3 & Hc3 & Hx3 & F1 & F2 & F3).
      + rewrite E2, E3 in *. lia.
      + exists v3, s3. split; [eapply lgoes_trans; eassumption|]. split; [exact Hx3|]. split; [congruence|]. split; [congruence|exact F3].
    - exists v1. eexists. split; [exact Hc|]. split; [exact Hx2|]. split; [reflexivity|]. split; [reflexivity|].
      eapply waiting_done; [exact A_rpc|exact Ha1|exact Hlost1|exact Hx2| |exact Hp1]. cbn. congruence.
  Qed.
  Lemma limited_deliver v H k s x : A v H -> k ∉ v_lost v -> publishing v = false -> v_rpcs v !! k = Some (QSub s x) ->
    match x with QEnd | QGone | QFail _ | QRead (Err _) => False | _ => True end -> limited_delivers v H k s.
  Proof.
    intros Ha Hlost Hp Hx Hlive.
    assert (Hloop : forall v1 s1, lgoes v v1 -> v_rpcs v1 !! k = Some (QSub s1 QLoop) -> su_q s1 = su_q s -> su_after s1 = su_after s -> limited_delivers v H k s).
    { intros v1 s1 Hc Hx1 E1 E2. destruct (lgoes_same _ _ Hc) as (T1 & T2 & L1).
      destruct (limited_catch_up H _ v1 k s1 (A_goes _ _ _ Hc Ha) ltac:(rewrite L1; exact Hlost) ltac:(unfold publishing in *; rewrite T1; exact Hp) Hx1 (Nat.lt_succ_diag_r _)) as (v2 & s2 & Hc2 & Hx2 & F1 & F2 & F3).
      exists v2, s2. split; [eapply lgoes_trans; eassumption|]. repeat split; congruence. }
    assert (Hwait : forall v1 s1, lgoes v v1 -> v_rpcs v1 !! k = Some (QSub s1 QWait) -> su_q s1 = su_q s -> su_after s1 = su_after s -> limited_delivers v H k s).
    { intros v1 s1 Hc Hx1 E1 E2. destruct (lgoes_same _ _ Hc) as (T1 & T2 & L1). pose proof (A_goes _ _ _ Hc Ha) as Ha1. destruct (decide (su_seen s1 = v_ver v1)) as [Es|Es].
      - exists v1, s1. repeat split; auto. eapply waiting_done; [exact A_rpc|exact Ha1|rewrite L1; exact Hlost|exact Hx1|exact Es|unfold publishing in *; rewrite T1; exact Hp].
      - set (v2 := v_set_rpc k (QSub (saw (v_ver v1) s1) QLoop) v1). assert (Hst : sstep v1 None v2) by (eapply V_wake; [exact Hx1|congruence]).
        assert (Hg : lgoes v1 v2).
        { apply rtc_once. exists None. split; [split; [exact Hst|]|split; [exact I|split; reflexivity]].
          unfold holders, v2. cbn [v_set_rpc v_rpcs]. pose proof (held_set _ _ _ (QSub (saw (v_ver v1) s1) QLoop) Hx1) as E. cbn in E. rewrite E. intros Hlt. now apply Nat.lt_irrefl in Hlt. }
        eapply (Hloop v2); [eapply lgoes_trans; eassumption|cbn; apply lookup_insert|exact E1|exact E2]. }
    assert (Hround : forall x1, match x1 with QBorrow | QCall | QOpen | QRead (Ok _) => True | _ => False end -> v_rpcs v !! k = Some (QSub s x1) -> limited_delivers v H k s).
    { intros x1 Hx1 Hy. destruct (batch_any v H k _ Ha Hy Hx1) as (v1 & y & Hc & Hb). destruct (lgoes_same _ _ Hc) as (_ & _ & L1).
      destruct (handled v1 H k _ _ y (A_goes _ _ _ Hc Ha) ltac:(rewrite L1; exact Hlost) Hb) as (s2 & x2 & Hx2 & E1 & E2 & E3 & [[-> _]|[-> ->]]); [eapply Hloop|eapply Hwait]; eassumption || reflexivity. }
    destruct x as [| | | |[y|]| | | |]; try contradiction.
    - eapply (Hloop v s); [apply rtc_refl|exact Hx|reflexivity|reflexivity].
    - exact (Hround QBorrow I Hx).
    - exact (Hround QCall I Hx).
    - exact (Hround QOpen I Hx).
    - exact (Hround (QRead (Ok y)) I Hx).
    - eapply (Hwait v s); [apply rtc_refl|exact Hx|reflexivity|reflexivity].
  Qed.
End limited.

(** ** The server with the blocking writer thread *)
Section blocking.
  Context (ps : N) (hash : bytes -> bytes) (order : list bytes -> list bytes) (ford : gset N -> list N) (caching : bool) (max_events : N).
  Context (Hps : ps_ok ps) (Hps32 : ps < U32) (Hord : forall l t, t ∈ order l <-> t ∈ l) (Hford : forall s, ford s ≡ₚ elements s).
  Notation sstep := (sstep 16 ps hash order ford caching max_events).
  Notation lstep := (Permits.lstep 16 ps hash order ford caching max_events).
  Notation lserves := (lserves 16 ps hash order ford caching max_events).
  Notation run := (run ps hash order ford caching).
  Notation shows := (shows hash order).
  Notation at_hist := (at_hist ps hash order caching).
  Context (tr0 : list label) (d : disk) (p : proc) (h : option N) (Hrun : run tr0 (Sys d (Some p))).
  (** The thread sends its answers and sets the watched head. *)
  Lemma limited_publishes n v vs tr : lserves n d p h (v :: vs) tr ->
    exists v' vs' tr' l, lserves n d p h (v' :: vs') tr' /\ v' :: vs' = l ++ v :: vs /\ publishing v' = false /\ v_rpcs v' = v_rpcs v /\ v_lost v' = v_lost v /\ v_sys v' = v_sys v.
  Proof.
    intros Hs. destruct (publishing v) eqn:Ep; [|exists v, vs, tr, []; auto 8].
    unfold publishing in Ep. destruct (v_thread v) as [| | | | |todo [hd|]|] eqn:Et; try discriminate. clear Ep. revert v vs tr Hs Et. induction todo as [|[id a] todo IH]; intros v vs tr Hs Et.
    - set (v' := v_set_thread TWait (v_publish hd v)). assert (Hst : sstep v None v') by (eapply V_publish, Et).
      assert (E : v_rpcs v' = v_rpcs v /\ v_lost v' = v_lost v /\ v_sys v' = v_sys v) by (unfold v', v_publish; case_match; repeat split). destruct E as (E1 & E2 & E3).
      exists v', (v :: vs), (tr ++ []), [v']. split; [|auto 8]. apply (lserves_step _ _ _ _ _ _ _ _ _ _ _ v vs tr None v' Hs). split; [exact Hst|]. unfold holders. rewrite E1. intros Hlt. now apply Nat.lt_irrefl in Hlt.
    - set (v1 := v_set_thread (TReply todo (Some hd)) (v_send (id, a) v)). assert (Hst : sstep v None v1) by (eapply V_reply, Et).
      destruct (IH v1 (v :: vs) (tr ++ [])) as (v' & vs' & tr' & l & G1 & G2 & G3 & G4 & G5 & G6).
      + apply (lserves_step _ _ _ _ _ _ _ _ _ _ _ v vs tr None v1 Hs). split; [exact Hst|]. unfold holders, v1. cbn. intros Hlt. now apply Nat.lt_irrefl in Hlt.
      + reflexivity.
      + exists v', vs', tr', (l ++ [v1]). split; [exact G1|]. split; [rewrite G2, <- app_assoc; reflexivity|]. auto.
  Qed.
  (** ** C102 *)
  (** A subscription gets all that it asks for and is committed, however many calls there are and however few permits. *)
  Theorem limited_subscription_catches_up n v vs tr k s x st : (0 < n)%nat -> lserves n d p h (v :: vs) tr -> v_rpcs v !! k = Some (QSub s x) ->
    match x with QEnd | QGone | QFail _ | QRead (Err _) => False | _ => True end -> k ∉ v_lost v -> shows (v_sys v) st ->
    exists v' vs' tr' l s', lserves n d p h (v' :: vs') tr' /\ v' :: vs' = l ++ v :: vs /\ v_rpcs v' !! k = Some (QSub s' QWait) /\ su_q s' = su_q s /\ su_after s' = su_after s /\
      (exists st', shows (v_sys v') st' /\ s_hist st' = s_hist st) /\
      concat (su_out s') = filter (fun e => (match su_after s with Some a => a < e.1 | None => True end) /\ q_matches (su_q s) e.2) (s_hist st).
  Proof.
    intros Hn Hs Hx Hp Hl Hst. destruct (limited_publishes n v vs tr Hs) as (v1 & vs1 & tr1 & l1 & Hs1 & El1 & Hpub & E1 & E2 & E3). rewrite <- E1 in Hx. rewrite <- E2 in Hl. rewrite <- E3 in Hst. clear Hs E1 E2 E3.
    destruct (serves_inv ps hash order ford caching max_events Hps Hps32 Hord Hford _ _ _ _ _ _ _ Hrun (limited_serves ps hash order ford caching max_events _ _ _ _ _ _ Hs1)) as (sy & Hok). pose proof Hok as (Hi & _).
    destruct (inv_shows_eqv ps hash order ford caching Hps Hps32 Hord Hford _ _ _ Hi Hst) as [Eh _].
    set (A := fun u H => exists us tr' l, lserves n d p h (u :: us) tr' /\ u :: us = l ++ v1 :: vs1 /\ at_hist u H).
    assert (A_step : forall u ol u' H, lstep n u ol u' -> calm_label ol -> aside u u' -> A u H -> A u' H).
    { intros u ol u' H H1 H2 _ (us & tr' & l & G1 & G2 & G3). exists (u :: us), (tr' ++ match ol with Some l => [l] | None => [] end), (u' :: l). split; [econstructor; eassumption|].
      split; [cbn [app]; now rewrite <- G2|]. exact (at_step ps hash order ford caching max_events Hps Hps32 Hord Hford _ _ _ _ (proj1 H1) H2 G3). }
    assert (HA : A v1 (s_hist st)).
    { exists vs1, tr1, []. split; [exact Hs1|]. split; [reflexivity|]. split; [|exact (serves_kinds _ _ _ _ _ _ _ _ _ _ _ _ (limited_serves ps hash order ford caching max_events _ _ _ _ _ _ Hs1))].
      exists vs1, sy. split; [exact Hok|]. now rewrite Eh. }
    destruct (limited_deliver ps hash order ford caching max_events Hps32 n Hn A A_step) with (v := v1) (H := s_hist st) (k := k) (s := s) (x := x) as (v' & s' & Hg & Hx' & F1 & F2 & F3); try assumption.
    - intros u H (us & tr' & l & _ & _ & G). exact (proj2 G).
    - intros u H (us & tr' & l & G & _). exact (reads_limited ps hash order ford caching max_events Hps32 _ _ _ _ _ _ _ G).
    - intros u H j y (us & tr' & l & _ & _ & G). exact (at_rpc ps hash order caching u H j y G).
    - intros u H j a q start bw limit (us & tr' & l & _ & _ & G). exact (at_scan ps hash order ford caching Hps Hps32 Hord Hford u H j a q start bw limit G).
    - destruct (A_goes ps hash order ford caching max_events n A A_step _ _ _ Hg HA) as (us & tr' & l & G1 & G2 & [(ws & sy' & (Hi' & _) & HH) _]).
      exists v', us, tr', (l ++ l1), s'. split; [exact G1|]. split; [rewrite G2, El1, app_assoc; reflexivity|]. split; [exact Hx'|]. split; [exact F1|]. split; [exact F2|].
      split; [exists (sp_cur sy'); split; [exact (inv_shows_v ps hash order ford caching Hps Hps32 Hord Hford _ _ Hi')|exact HH]|]. unfold all_sent, su_sent in F3. rewrite F3, F1, F2.
      unfold spec_read. cbn [cut]. apply list_filter_iff. intros e. unfold Spec.in_range, sub_from. destruct (su_after s); [|tauto]. rewrite <- N.le_succ_l. replace (N.succ n0) with (n0 + 1) by lia. tauto.
  Qed.
End blocking.

(** ** The server with the pipelining writer thread *)
(** The semaphore (umadb-server/src/lib.rs:404-419, 515-526, 733-753; see Permits.v): in the states gone through, latest first, a permit was only given while fewer
    than [n] were taken. *)
Fixpoint takes_turns (n : nat) (hs : list (gmap nat rpc)) : Prop :=
  match hs with
  | m' :: (m :: _) as hs' => ((held_by m < held_by m')%nat -> (held_by m < n)%nat) /\ takes_turns n hs'
  | _ => True
  end.
Lemma turns_cons n m' m hs : takes_turns n (m' :: m :: hs) <-> ((held_by m < held_by m')%nat -> (held_by m < n)%nat) /\ takes_turns n (m :: hs).
Proof. reflexivity. Qed.
Lemma turns_same n m hs l : takes_turns n (m :: hs) -> Forall (fun m' => m' = m) l -> takes_turns n (l ++ m :: hs).
Proof.
  intros H Hl. induction Hl as [|m' l -> Hl IH]; [exact H|]. cbn [app]. destruct Hl as [|m' l -> Hl]; cbn [app] in *; (apply turns_cons; split; [intros Hlt; now apply Nat.lt_irrefl in Hlt|exact IH]).
Qed.
Section pipelining.
  Context (hash : bytes -> bytes) (order : list bytes -> list bytes) (ford : gset N -> list N) (caching : bool) (max_events : N).
  Context (Hord : forall l t, t ∈ order l <-> t ∈ l) (Hford : forall s, ford s ≡ₚ elements s).
  Notation lstep := (Permits.lstep 16 dps hash order ford caching max_events).
  Notation wserves := (wserves 16 dps hash order ford caching max_events).
  Notation mrun := (mrun hash order ford caching).
  Notation mshows := (mshows hash order).
  Notation w_ok := (w_ok hash order caching).
  Context (tr0 : list label) (s0 : psys) (h0 : option N) (Hrun : mrun fine tr0 (MP s0)) (Hp : l_phase (s_pipe s0) = PFetch) (Hf : l_fly (s_pipe s0) = None).
  Notation going := (going hash order ford caching max_events s0 h0).
  (** No more batches are read at once than there are permits. *)
  Theorem pipelined_reads_limited n v vs tr : wserves s0 h0 (v :: vs) tr -> takes_turns n (map w_rpcs (v :: vs)) -> (held_by (w_rpcs v) <= n)%nat.
  Proof.
    intros H. remember (v :: vs) as l eqn:El. revert v vs El. induction H as [|v vs tr ol v' H IH Hst]; intros w ws [= <- <-]; [intros _; apply Nat.le_0_l|].
    cbn [map]. rewrite turns_cons. intros [Hn Ht]. specialize (IH _ _ eq_refl Ht). destruct Hst as [v ol z Hz _ _|v hd next Hz|v ol u Hz Hg Hq Hd Hi Hi'].
    - exact IH.
    - destruct (notify_same (w_set_z (z_publish (Some hd) (z_set_thread next (w_z v))) v)) as (_ & -> & _). exact IH.
    - pose proof (sstep_one dps hash order ford caching max_events dps32 _ _ _ Hz) as Ho. unfold holders in Ho. cbn in Ho, Hn |- *. lia.
  Qed.
  Section from.
    Context (n : nat) (v0 : wsrv) (vs0 : list wsrv).
    (** As [eased], and in keeping with the permits. *)
    Definition eased_turns (u : srv) (H : list seq_event) : Prop :=
      exists v vs tr sy l, u = w_tasks v /\ going (v :: vs) tr /\ takes_turns n (map w_rpcs (v :: vs)) /\ v :: vs = l ++ v0 :: vs0 /\ tasks_only v0 v /\ at_ease v /\ w_ok vs v sy /\ s_hist (sp_cur sy) = H.
    Lemma eased_turns_step u ol u' H : lstep n u ol u' -> calm_label ol -> aside u u' -> eased_turns u H -> eased_turns u' H.
    Proof.
      intros [Hst Hn] Hl Hs (v & vs & tr & sy & l & -> & Hg & Ht & El & Ho & He & Hok & HH).
      destruct (eased_one hash order ford caching max_events Hord Hford s0 h0 v0 v vs tr sy ol u' Hst Hl Hs Hg Ho He Hok) as (sy' & G1 & G2 & G3 & G4 & G5 & G6).
      exists (w_put u' v), (v :: vs), (tr ++ match ol with Some l => [l] | None => [] end), sy', (w_put u' v :: l). split; [exact G1|]. split; [exact G2|]. split; [apply turns_cons; split; [exact Hn|exact Ht]|].
      split; [cbn [app]; now rewrite El|]. split; [exact G3|]. split; [exact G4|]. split; [exact G5|]. congruence.
    Qed.
    Lemma eased_turns_eased u H : eased_turns u H -> eased hash order ford caching max_events s0 h0 v0 vs0 u H.
    Proof. intros (v & vs & tr & sy & l & G1 & G2 & _ & G). exists v, vs, tr, sy, l. auto. Qed.
    Lemma eased_turns_held u H : eased_turns u H -> (holders u <= n)%nat.
    Proof. intros (v & vs & tr & sy & l & -> & [Hg _] & Ht & _). exact (pipelined_reads_limited n v vs tr Hg Ht). Qed.
  End from.
  (** The server comes to a point from which the tasks can go on, and none of them has got a permit or given one back. *)
  Lemma limited_ease n v vs tr : going (v :: vs) tr -> takes_turns n (map w_rpcs (v :: vs)) -> room_for (w_z v) ->
    exists v1 vs1 tr1 l1 sy, going (v1 :: vs1) tr1 /\ v1 :: vs1 = l1 ++ v :: vs /\ w_rpcs v1 = w_rpcs v /\ w_lost v1 = w_lost v /\ z_seen (w_z v1) = z_seen (w_z v) /\ w_ok vs1 v1 sy /\
      eased_turns n v1 vs1 (w_tasks v1) (s_hist (sp_cur sy)).
  Proof.
    intros Hg Ht Hr. destruct (pipelined_comes_to_ease hash order ford caching max_events Hord Hford tr0 s0 h0 Hrun Hp Hf v vs tr Hg Hr) as (v1 & vs1 & tr1 & l1 & Hg1 & El1 & He & E1 & E2 & E3 & E4).
    destruct (eased_start hash order ford caching max_events Hord Hford tr0 s0 h0 Hrun _ _ _ Hg1 He) as (sy & Hok & _).
    exists v1, vs1, tr1, l1, sy. split; [exact Hg1|]. split; [exact El1|]. split; [exact E1|]. split; [exact E2|]. split; [exact E3|]. split; [exact Hok|].
    exists v1, vs1, tr1, sy, []. split; [reflexivity|]. split; [exact Hg1|]. split; [|split; [reflexivity|split; [|split; [exact He|split; [exact Hok|reflexivity]]]]].
    - rewrite El1, map_app. cbn [map]. apply turns_same; [exact Ht|]. apply Forall_map. exact E4.
    - unfold tasks_only. split; [|auto]. symmetry. apply zsrv_eta.
  Qed.
  (** A read whose client stays comes to its end with the whole answer, wherever the threads and the other calls are and however few permits there are ... *)
  Theorem pipelined_limited_read_ends n v vs tr k r x : (0 < n)%nat -> going (v :: vs) tr -> takes_turns n (map w_rpcs (v :: vs)) -> room_for (w_z v) -> w_rpcs v !! k = Some (QRd r x) -> k ∉ w_lost v ->
    match x with QLoop | QBorrow | QCall | QOpen | QRead (Ok _) => True | _ => False end ->
    exists v' vs' tr' l r' s, going (v' :: vs') tr' /\ takes_turns n (map w_rpcs (v' :: vs')) /\ v' :: vs' = l ++ v :: vs /\ z_seen (w_z v') = z_seen (w_z v) /\
      w_rpcs v' !! k = Some (QRd r' QEnd) /\ asked (QRd r' QEnd) = asked (QRd r x) /\
      (exists w y, w ∈ v' :: vs' /\ w_rpcs w !! k = Some y /\ unsent y /\ mshows (w_sys w) s) /\
      concat (map fst (rr_out r')) = spec_read (s_hist s) (rr_q r) (rr_start r) (rr_bw r) (rr_limit r).
  Proof.
    intros Hn Hg Ht Hr Hx Hl Hph. destruct (limited_ease n v vs tr Hg Ht Hr) as (v1 & vs1 & tr1 & l1 & sy & Hg1 & El1 & E1 & E2 & E3 & Hok & HA). rewrite <- E1 in Hx. rewrite <- E2 in Hl. clear Hg Ht Hr E1 E2.
    destruct (limited_read_done dps hash order ford caching max_events dps32 n Hn (eased_turns n v1 vs1) (eased_turns_step n v1 vs1)) with (H := s_hist (sp_cur sy)) (v := w_tasks v1) (k := k) (r := r) (x := x)
      (m := S (Nat.max 1 (length (spec_read (s_hist (sp_cur sy)) (rr_q r) (rr_start r) (rr_bw r) (rr_limit r))) - length (rr_out r))) as (u & r' & Hc & Hx'); try assumption.
    - intros u H G. exact (eased_kinds hash order ford caching max_events tr0 s0 h0 Hrun v1 vs1 u H (eased_turns_eased n v1 vs1 u H G)).
    - intros u H G. exact (eased_turns_held n v1 vs1 u H G).
    - intros u H j y G. exact (eased_rpc hash order ford caching max_events s0 h0 v1 vs1 u H j y (eased_turns_eased n v1 vs1 u H G)).
    - intros u H j a q start bw limit G. exact (eased_scan hash order ford caching max_events Hord Hford s0 h0 v1 vs1 u H j a q start bw limit (eased_turns_eased n v1 vs1 u H G)).
    - apply Nat.lt_succ_diag_r.
    - destruct (lgoes_asked dps hash order ford caching max_events n _ _ _ _ Hc Hx) as (x2 & X1 & X2 & _). rewrite Hx' in X1. injection X1 as <-.
      destruct (A_goes dps hash order ford caching max_events n _ (eased_turns_step n v1 vs1) _ _ _ Hc HA) as (v' & vs' & tr' & sy' & l & -> & Hg' & Ht' & El & Ho & _). pose proof Ho as (T & _ & _ & El').
      assert (Hl' : k ∉ w_lost v') by (rewrite El'; exact Hl).
      destruct (pipelined_remote_read hash order ford caching max_events Hord Hford tr0 s0 h0 Hrun _ _ _ _ _ _ Hg' Hx' Hl') as (_ & s & Hs & _ & Hend & _). destruct (Hend eq_refl) as [E _].
      exists v', vs', tr', (l ++ l1), r', s. split; [exact Hg'|]. split; [exact Ht'|]. split; [rewrite El, El1, app_assoc; reflexivity|]. split; [rewrite T; exact E3|]. split; [exact Hx'|]. split; [exact X2|]. split; [exact Hs|].
      rewrite E. cbn in X2. injection X2 as -> -> -> -> _. reflexivity.
  Qed.
  (** ... and a subscription gets all that it asks for and is committed. *)
  Theorem pipelined_limited_subscription_catches_up n v vs tr k s x st : (0 < n)%nat -> going (v :: vs) tr -> takes_turns n (map w_rpcs (v :: vs)) -> room_for (w_z v) ->
    w_rpcs v !! k = Some (QSub s x) -> k ∉ w_lost v -> mshows (w_sys v) st ->
    match x with QEnd | QGone | QFail _ | QRead (Err _) => False | _ => True end ->
    exists v' vs' tr' l s' st', going (v' :: vs') tr' /\ takes_turns n (map w_rpcs (v' :: vs')) /\ v' :: vs' = l ++ v :: vs /\ z_seen (w_z v') = z_seen (w_z v) /\
      w_rpcs v' !! k = Some (QSub s' QWait) /\ mshows (w_sys v') st' /\ extends st st' /\
      concat (su_out s') = filter (fun e => (match su_after s with Some a => a < e.1 | None => True end) /\ q_matches (su_q s) e.2) (s_hist st').
  Proof.
    intros Hn Hg Ht Hr Hx Hl Hst Hph. destruct (limited_ease n v vs tr Hg Ht Hr) as (v1 & vs1 & tr1 & l1 & sy & Hg1 & El1 & E1 & E2 & E3 & Hok & HA). rewrite <- E1 in Hx. rewrite <- E2 in Hl. clear Hg Ht Hr E1 E2.
    destruct (limited_deliver dps hash order ford caching max_events dps32 n Hn (eased_turns n v1 vs1) (eased_turns_step n v1 vs1)) with (H := s_hist (sp_cur sy)) (v := w_tasks v1) (k := k) (s := s) (x := x)
      as (u & s' & Hc & Hx' & F1 & F2 & F3); try assumption.
    - intros u H G. exact (eased_kinds hash order ford caching max_events tr0 s0 h0 Hrun v1 vs1 u H (eased_turns_eased n v1 vs1 u H G)).
    - intros u H G. exact (eased_turns_held n v1 vs1 u H G).
    - intros u H j y G. exact (eased_rpc hash order ford caching max_events s0 h0 v1 vs1 u H j y (eased_turns_eased n v1 vs1 u H G)).
    - intros u H j a q start bw limit G. exact (eased_scan hash order ford caching max_events Hord Hford s0 h0 v1 vs1 u H j a q start bw limit (eased_turns_eased n v1 vs1 u H G)).
    - reflexivity.
    - destruct (A_goes dps hash order ford caching max_events n _ (eased_turns_step n v1 vs1) _ _ _ Hc HA) as (v' & vs' & tr' & sy' & l & -> & Hg' & Ht' & El & (T & _) & _ & (Hi' & _) & HH).
      pose proof (minv_shows hash order ford caching Hord Hford false _ _ Hi' ltac:(now eexists)) as Hst'.
      exists v', vs', tr', (l ++ l1), s', (sp_cur sy'). split; [exact Hg'|]. split; [exact Ht'|]. split; [rewrite El, El1, app_assoc; reflexivity|]. split; [rewrite T; exact E3|]. split; [exact Hx'|]. split; [exact Hst'|].
      split; [eapply (w_past_extends hash order ford caching max_events Hord Hford tr0 s0 h0 Hrun); [exact Hg'| |exact Hst|exact Hst']; rewrite El, El1, app_assoc; apply elem_of_app; right; left|].
      unfold all_sent, su_sent in F3. rewrite F3, F1, F2, HH.
      unfold spec_read. cbn [cut]. apply list_filter_iff. intros e. unfold Spec.in_range, sub_from. destruct (su_after s); [|tauto]. rewrite <- N.le_succ_l. replace (N.succ n0) with (n0 + 1) by lia. tauto.
  Qed.
End pipelining.

Lemma held_turns n hs : Forall (fun m => (held_by m <= n)%nat) hs -> takes_turns n hs.
Proof. intros H. induction H as [|m' hs Hm H IH]; [exact I|]. destruct H as [|m hs Hm' H]; [exact I|]. apply turns_cons. split; [lia|exact IH]. Qed.
(** One permit, which the read of client 8 has.  The subscription of client 9 and the read of client 7 wait for it; with the blocking writer thread ... *)
Definition p_waiting : list sact := [VArrive 0 e_three] ++ e_batch 3 ++ [VSubscribe 9 [] (Some 1) None; VRead 8 [] None false None None; VTask 8].
Example limited_example : exists v vs tr s st v' vs' tr' s', e_limited 1%nat (v :: vs) tr /\ holders v = 1%nat /\ v_rpcs v !! 9%nat = Some (QSub s QLoop) /\ su_out s = [] /\ 9%nat ∉ v_lost v /\
  shows f_hash (fun l => l) (v_sys v) st /\ e_limited 1%nat (v' :: vs') tr' /\ v_rpcs v' !! 9%nat = Some (QSub s' QWait) /\ concat (su_out s') = filter (fun e => 1 < e.1 /\ q_matches [] e.2) (s_hist st).
Proof.
  destruct (e_found p_waiting (fun v vs => forallb (fun v => Nat.leb (holders v) 1) (v :: vs) && Nat.eqb (holders v) 1 && match v_lost v with [] => true | _ => false end &&
    match v_rpcs v !! 9%nat with Some (QSub s QLoop) => match su_out s, su_q s with [], [] => bool_decide (su_after s = Some 1) | _, _ => false end | _ => false end)) as (v & vs & tr & H & HP); [vm_compute; reflexivity|].
  apply andb_prop in HP as [HP P4]. apply andb_prop in HP as [HP P3]. apply andb_prop in HP as [P1 P2]. apply Nat.eqb_eq in P2.
  destruct (v_rpcs v !! 9%nat) as [[|s []]|] eqn:E; try discriminate P4. destruct (su_out s) eqn:Eo; [|discriminate P4]. destruct (su_q s) eqn:Eq; [|discriminate P4]. apply bool_decide_eq_true in P4.
  destruct (v_lost v) eqn:El; [|discriminate P3]. assert (Hk : 9%nat ∉ v_lost v) by (rewrite El; apply not_elem_of_nil).
  assert (Hl : e_limited 1%nat (v :: vs) tr).
  { apply serves_limited; [exact H|]. apply Forall_forall. intros w Hw. rewrite forallb_forall in P1. apply elem_of_list_In in Hw. apply P1 in Hw. now apply Nat.leb_le. }
  destruct (serves_inv 4096 f_hash (fun l => l) x_ford true 1000 f_ps f_ps32 x_ord x_ford_ok _ _ _ _ _ _ _ e_start H) as (sy & Hi & _).
  pose proof (inv_shows_v 4096 f_hash (fun l => l) x_ford true f_ps f_ps32 x_ord x_ford_ok _ _ Hi) as Hst.
  destruct (limited_subscription_catches_up 4096 f_hash (fun l => l) x_ford true 1000 f_ps f_ps32 x_ord x_ford_ok _ _ _ _ e_start 1%nat v _ _ 9%nat s QLoop _ Nat.lt_0_1 Hl E I Hk Hst)
    as (v' & vs' & tr' & l & s' & G1 & _ & G3 & _ & _ & _ & G4). rewrite P4, Eq in G4.
  exists v, vs, tr, s, (sp_cur sy), v', vs', tr', s'. repeat (split; [assumption|]). exact G4.
Qed.
(** ... and with the pipelining one, which has an append to write, one to build and one to fetch. *)
Definition p_script : list wact := k_script ++ [UT (VRead 8 [] None false None None); UT (VTask 8)].
Definition p_check (v : wsrv) (vs : list wsrv) : bool := k_check v vs && forallb (fun m => Nat.leb (held_by m) 1) (map w_rpcs (v :: vs)) && Nat.eqb (held_by (w_rpcs v)) 1.
Example pipelined_limited_example : exists v vs tr r su, w_going true 10 (v :: vs) tr /\ takes_turns 1 (map w_rpcs (v :: vs)) /\ held_by (w_rpcs v) = 1%nat /\ room_for (w_z v) /\
  w_rpcs v !! 7%nat = Some (QRd r QLoop) /\ rr_out r = [] /\ 7%nat ∉ w_lost v /\ w_rpcs v !! 9%nat = Some (QSub su QLoop) /\ su_out su = [] /\ 9%nat ∉ w_lost v /\
  (exists v1 vs1 tr1 r1, w_going true 10 (v1 :: vs1) tr1 /\ takes_turns 1 (map w_rpcs (v1 :: vs1)) /\ w_rpcs v1 !! 7%nat = Some (QRd r1 QEnd)) /\
  exists v2 vs2 tr2 su2, w_going true 10 (v2 :: vs2) tr2 /\ takes_turns 1 (map w_rpcs (v2 :: vs2)) /\ w_rpcs v2 !! 9%nat = Some (QSub su2 QWait).
Proof.
  destruct (w_found true 10 p_script p_check) as (v & vs & tr & H & HP); [vm_compute; reflexivity|].
  unfold p_check in HP. apply andb_prop in HP as [HP P9]. apply andb_prop in HP as [HP P8]. apply Nat.eqb_eq in P9.
  assert (Ht : takes_turns 1 (map w_rpcs (v :: vs))).
  { apply held_turns. apply Forall_forall. intros m Hm. rewrite forallb_forall in P8. apply elem_of_list_In in Hm. apply P8 in Hm. now apply Nat.leb_le. }
  clear P8. unfold k_check in HP. apply andb_prop in HP as [HP _]. apply andb_prop in HP as [P1 P2].
  destruct (w_rpcs v !! 7%nat) as [[r []|]|] eqn:E7; try discriminate P1. destruct (w_rpcs v !! 9%nat) as [[|su []]|] eqn:E9; try discriminate P1. destruct (w_lost v) eqn:El; [|discriminate P1].
  destruct (rr_out r) eqn:Eo; [|discriminate P1]. destruct (su_out su) eqn:Es; [|discriminate P1]. clear P1.
  destruct (z_thread (w_z v)) as [| |[|it [|]] id rq| | | | | |] eqn:Et; try discriminate P2. destruct (l_fly (z_pipe (w_z v))) as [f|] eqn:Ef; [|discriminate P2].
  destruct (map snd (queued (z_queue (w_z v)))) as [|rq' [|]] eqn:Eq; try discriminate P2. apply andb_prop in P2 as [P2 P7]. apply andb_prop in P2 as [P2 P6]. apply andb_prop in P2 as [P4 P5].
  apply N.ltb_lt in P7. apply k_fits_ok in P5, P6.
  assert (Hr : room_for (w_z v)).
  { unfold room_for, to_come. rewrite Et, Eq. cbn [app]. split; [apply Forall_cons_2; [exact P5|apply Forall_cons_2; [exact P6|constructor]]|]. split; [exact P7|]. rewrite Ef. intros f' [= <-] E. rewrite E in P4. discriminate P4. }
  assert (Hl : forall k : nat, k ∉ w_lost v) by (rewrite El; intros k; apply not_elem_of_nil).
  destruct (w_started true) as (S1 & S2 & S3).
  destruct (pipelined_limited_read_ends f_hash (fun l => l) x_ford true 10 x_ord x_ford_ok _ _ _ S1 S2 S3 1 _ _ _ _ _ _ Nat.lt_0_1 H Ht Hr E7 (Hl _) I) as (v1 & vs1 & tr1 & l1 & r1 & s & G1 & T1 & _ & _ & X1 & _).
  destruct (going_shown f_hash (fun l => l) x_ford true 10 x_ord x_ford_ok _ _ _ S1 _ _ _ H) as (st & Hst & _).
  destruct (pipelined_limited_subscription_catches_up f_hash (fun l => l) x_ford true 10 x_ord x_ford_ok _ _ _ S1 S2 S3 1 _ _ _ _ _ _ _ Nat.lt_0_1 H Ht Hr E9 (Hl _) Hst I) as (v2 & vs2 & tr2 & l2 & su2 & st2 & G2 & T2 & _ & _ & X2 & _).
  exists v, vs, tr, r, su. repeat (split; [assumption || apply Hl|]). split; [eauto 10|eauto 10].
Qed.
Print Assumptions limited_subscription_catches_up.
Print Assumptions pipelined_reads_limited.
Print Assumptions pipelined_limited_read_ends.
Print Assumptions pipelined_limited_subscription_catches_up.
