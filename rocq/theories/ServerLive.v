(** Subscriptions get on: from any state, steps of the subscriber's task and of the thread's notification lead to one in
    which everything committed has been delivered. *)
From Verif Require Export ServerQueue.
Local Open Scope N_scope.

Definition kind (x : option rphase) : nat := match x with None => 0 | Some (ROpen _) => 2 | Some _ => 1 end.
Definition phase_kind (x : qphase) : nat := match x with QCall => 1 | QOpen | QRead _ => 2 | _ => 0 end.
Definition label_kind (l : label) (k : nat) (n : nat) : nat :=
  match l with
  | LCall i => if decide (i = k) then 1 else n
  | LReady i => if decide (i = k) then 2 else n
  | LClose i | LHead i _ => if decide (i = k) then 0 else n
  | _ => n
  end.

Section server_live.
  Context (ps : N) (hash : bytes -> bytes) (order : list bytes -> list bytes) (ford : gset N -> list N) (caching : bool) (max_events : N).
  Context (Hps : ps_ok ps) (Hps32 : ps < U32) (Hord : forall l t, t ∈ order l <-> t ∈ l) (Hford : forall s, ford s ≡ₚ elements s).
  Notation pstep := (pstep 16 ps hash order ford caching).
  Notation sstep := (sstep 16 ps hash order ford caching max_events).
  Notation serves := (serves 16 ps hash order ford caching max_events).
  Notation inv := (inv 16 ps hash caching).
  Notation shows := (shows hash order).
  Notation run := (run ps hash order ford caching).

  Lemma pstep_kind d p l d' p' k : pstep d p l d' p' -> kind (p_readers p' !! k) = label_kind l k (kind (p_readers p !! k)).
  Proof.
    intros H. destruct H; cbn; try reflexivity.
    all: try (destruct (decide (i = k)) as [->|Hne]; [rewrite ?lookup_insert, ?lookup_delete|rewrite ?lookup_insert_ne, ?lookup_delete_ne by exact Hne];
      repeat match goal with H : p_readers _ !! _ = _ |- _ => rewrite H; clear H end; reflexivity).
    - destruct caching; reflexivity.
    - unfold pin_header. case_match; reflexivity.
  Qed.
  Definition kinds (v : srv) : Prop := forall k x, v_rpcs v !! k = Some x -> kind (p_readers (v_proc v) !! k) = phase_kind (rpc_phase x).
  Lemma handle_kind x a : phase_kind (rpc_phase (rpc_handle x a)) = 0%nat.
  Proof.
    destruct a as [[evs hd]|e].
    - destruct x as [r y|s y]; cbn [rpc_handle].
      + destruct (read_iter r evs hd) as [r' go]. cbn. case_match; reflexivity.
      + unfold sub_iter. repeat case_match; simplify_eq; reflexivity.
    - destruct x; cbn; destruct e; reflexivity.
  Qed.
  Lemma kinds_step v ol v' : sstep v ol v' -> kinds v -> kinds v'.
  Proof.
    intros H IH k x. specialize (IH k). destruct H; cbn; try (intros Hk; apply IH, Hk).
    all: try match goal with H : pstep _ _ _ _ _ |- _ => rewrite (pstep_kind _ _ _ _ _ k H) end; try (cbn [label_kind]; intros Hk; apply IH, Hk).
    { intros Hk. destruct H1 as [->|[->|[->|[(r & ->)|(s & r & ->)]]]]; cbn; try (destruct (decide (i = k)) as [->|Hne]; [congruence|]); apply IH, Hk. }
    { destruct H0 as [->| ->]; exact (IH x). }
    { unfold v_publish. case_match; exact (IH x). }
    all: destruct (decide (k0 = k)) as [->|Hne]; [rewrite lookup_insert; intros Hk; injection Hk as <-|rewrite lookup_insert_ne by exact Hne; cbn [label_kind]; rewrite ?(decide_False (P := k0 = k)) by exact Hne; exact (IH x)].
    all: cbn [label_kind]; rewrite ?decide_True by reflexivity.
    all: try match goal with |- context [set_phase _ ?x] => destruct x; reflexivity end.
    - rewrite H0. destruct (read_exhausted r); reflexivity.
    - rewrite H0. case_bool_decide; reflexivity.
    - rewrite (IH _ H). destruct x0 as [r y|s y]; cbn in H0 |- *; destruct y; try contradiction; reflexivity.
    - rewrite (IH _ H), H0. destruct x0; reflexivity.
    - rewrite (IH _ H), H0. destruct x0; reflexivity.
    - symmetry. apply handle_kind.
    - rewrite (IH _ H). reflexivity.
    - rewrite (IH _ H), H0. destruct x0; reflexivity.
    - rewrite (IH _ H), H0. destruct x0; reflexivity.
  Qed.
  Lemma serves_kinds d p h v vs tr : serves d p h (v :: vs) tr -> kinds v.
  Proof.
    intros H. remember (v :: vs) as l eqn:El. revert v vs El. induction H as [|v vs tr ol v' H IH Hst]; intros w ws El.
    - injection El as <- <-. intros k x Hk. cbn in Hk. rewrite lookup_empty in Hk. discriminate.
    - injection El as <- <-. eapply kinds_step; [exact Hst|]. eapply IH. reflexivity.
  Qed.

  (** ** Steps that commit nothing *)
  Definition calm_label (ol : option label) : Prop :=
    match ol with None | Some LTau | Some (LCall _) | Some (LReady _) | Some (LClose _) => True | _ => False end.
  Definition goes : srv -> srv -> Prop := rtc (fun v v' => exists ol, sstep v ol v' /\ calm_label ol).
  (** ... and concern a task and its reader only *)
  Definition aside (v v' : srv) : Prop :=
    v' = Srv (v_disk v) (v_proc v') (v_queue v) (v_thread v) (v_sent v) (v_seen v) (v_gone v) (v_ver v) (v_head v) (v_rpcs v') (v_unread v) (v_lost v) /\
    p_writer (v_proc v') = p_writer (v_proc v).
  Definition calm (v v' : srv) : Prop := rtc (fun v v' => exists ol, sstep v ol v' /\ calm_label ol /\ aside v v') v v'.
  Lemma calm_goes v v' : calm v v' -> goes v v'.
  Proof. apply rtc_subrel. intros a b (ol & H1 & H2 & _). eauto. Qed.
  Lemma aside_same v v' : aside v v' -> v_thread v' = v_thread v /\ v_ver v' = v_ver v /\ v_lost v' = v_lost v.
  Proof. intros [-> _]. auto. Qed.
  Lemma calm_same v v' : calm v v' -> v_thread v' = v_thread v /\ v_ver v' = v_ver v /\ v_lost v' = v_lost v.
  Proof. intros H. induction H as [|a b c (ol & _ & _ & H1) _ (IH1 & IH2 & IH3)]; [auto|]. destruct (aside_same _ _ H1) as (E1 & E2 & E3). repeat split; congruence. Qed.
  Lemma calm_one v ol v' : sstep v ol v' -> calm_label ol -> aside v v' -> calm v v'.
  Proof. intros. apply rtc_once. eauto 10. Qed.

  (** The server is in a reachable state with history [H]. *)
  Definition at_hist (v : srv) (H : list seq_event) : Prop :=
    (exists vs sy, srv_ok ps hash order caching vs v sy /\ s_hist (sp_cur sy) = H) /\ kinds v.
  Lemma at_step v ol v' H : sstep v ol v' -> calm_label ol -> at_hist v H -> at_hist v' H.
  Proof.
    intros Hst Hc [(vs & sy & (Hi & Hg & Hsub & HR) & HH) Hk]. split; [|eapply kinds_step; eassumption].
    destruct (sim_sstep ps hash order ford caching max_events Hps Hps32 Hord Hford _ _ _ _ Hst Hi) as (sy' & Hsp & Hi' & _).
    pose proof (proj1 (spec_step_good _ _ _ _ Hg Hsp)) as Hg'. exists (v :: vs), sy'. split.
    - split; [exact Hi'|]. split; [exact Hg'|]. split; [exact (spec_step_sub _ _ _ _ Hsub Hsp)|].
      exact (rpcs_step ps hash order ford caching max_events Hps Hps32 Hord Hford _ _ _ _ _ _ Hst Hi Hg Hg' Hsub Hsp Hi' HR).
    - rewrite <- HH. f_equal. pose proof (spec_cur_same _ _ _ _ Hsp) as Hcur. apply Hcur. destruct ol as [[]|]; cbn in *; try contradiction; exact I.
  Qed.
  Lemma at_goes v v' H : goes v v' -> at_hist v H -> at_hist v' H.
  Proof. intros Hg. induction Hg as [|a b c (ol & H1 & H2) _ IH]; [auto|]. intros Ha. apply IH. eapply at_step; eassumption. Qed.
  Lemma at_calm v v' H : calm v v' -> at_hist v H -> at_hist v' H.
  Proof. intros Hg. apply at_goes, calm_goes, Hg. Qed.

  (** ** A reader is provided *)
  Lemma tau_calm v p' : pstep (v_disk v) (v_proc v) LTau (v_disk v) p' -> p_writer p' = p_writer (v_proc v) -> calm v (v_set_db (v_disk v) p' v).
  Proof. intros H1 H2. eapply calm_one; [eapply V_tau; eassumption|exact I|split; [reflexivity|exact H2]]. Qed.
  Definition gets_ready (v : srv) (k : nat) (x : rpc) : Prop := exists v', calm v v' /\ v_rpcs v' !! k = Some (set_phase QOpen x).
  Lemma ready_first v p' k x : pstep (v_disk v) (v_proc v) LTau (v_disk v) p' -> p_writer p' = p_writer (v_proc v) ->
    gets_ready (v_set_db (v_disk v) p' v) k x -> gets_ready v k x.
  Proof. intros H1 H2 (v' & H3 & H4). exists v'. split; [|exact H4]. unfold calm. etransitivity; [apply tau_calm; eassumption|exact H3]. Qed.
  Lemma ready_chk v k x a b : v_rpcs v !! k = Some x -> rpc_phase x = QCall -> p_readers (v_proc v) !! k = Some (RChk a b) ->
    h_tsn (latest_of b (p_pin1 (v_proc v))).2 = h_tsn a.2 -> gets_ready v k x.
  Proof.
    intros H1 H2 H3 H4. eexists. split; [eapply calm_one; [eapply V_ready; [exact H1|exact H2|eapply S_ready; eassumption]|exact I|split; reflexivity]|].
    cbn. apply lookup_insert.
  Qed.
  Lemma ready_call v k x : v_rpcs v !! k = Some x -> rpc_phase x = QCall -> p_readers (v_proc v) !! k = Some RCall -> gets_ready v k x.
  Proof.
    intros H1 H2 H3.
    eapply ready_first; [eapply (S_obs _ _ _ _ _ _ _ _ k); exact H3|reflexivity|].
    eapply ready_first; [eapply (S_seen _ _ _ _ _ _ _ _ k); cbn; apply lookup_insert|reflexivity|].
    eapply ready_first; [eapply (S_reg _ _ _ _ _ _ _ _ k); cbn; apply lookup_insert|reflexivity|].
    eapply ready_first; [eapply (S_chk _ _ _ _ _ _ _ _ k); cbn; apply lookup_insert|reflexivity|].
    eapply ready_chk; [exact H1|exact H2|cbn; apply lookup_insert|]. reflexivity.
  Qed.
  Lemma ready_chk' v k x a b : v_rpcs v !! k = Some x -> rpc_phase x = QCall -> p_readers (v_proc v) !! k = Some (RChk a b) -> gets_ready v k x.
  Proof.
    intros H1 H2 H3. destruct (decide (h_tsn (latest_of b (p_pin1 (v_proc v))).2 = h_tsn a.2)) as [He|He]; [eapply ready_chk; eassumption|].
    eapply ready_first; [eapply (S_retry _ _ _ _ _ _ _ _ k); eassumption|reflexivity|]. apply ready_call; [exact H1|exact H2|]. cbn. apply lookup_insert.
  Qed.
  Lemma ready v k x : kinds v -> v_rpcs v !! k = Some x -> rpc_phase x = QCall -> gets_ready v k x.
  Proof.
    intros Hk H1 H2. pose proof (Hk _ _ H1) as Hkd. rewrite H2 in Hkd. cbn in Hkd. destruct (p_readers (v_proc v) !! k) as [ph|] eqn:E; [|discriminate].
    destruct ph as [|a|a|a|a b|a]; [now apply ready_call| | | | |discriminate].
    - eapply ready_first; [eapply (S_seen _ _ _ _ _ _ _ _ k); exact E|reflexivity|].
      eapply ready_first; [eapply (S_reg _ _ _ _ _ _ _ _ k); cbn; apply lookup_insert|reflexivity|].
      eapply ready_first; [eapply (S_chk _ _ _ _ _ _ _ _ k); cbn; apply lookup_insert|reflexivity|].
      eapply ready_chk'; [exact H1|exact H2|cbn; apply lookup_insert].
    - eapply ready_first; [eapply (S_reg _ _ _ _ _ _ _ _ k); exact E|reflexivity|].
      eapply ready_first; [eapply (S_chk _ _ _ _ _ _ _ _ k); cbn; apply lookup_insert|reflexivity|].
      eapply ready_chk'; [exact H1|exact H2|cbn; apply lookup_insert].
    - eapply ready_first; [eapply (S_chk _ _ _ _ _ _ _ _ k); exact E|reflexivity|].
      eapply ready_chk'; [exact H1|exact H2|cbn; apply lookup_insert].
    - eapply ready_chk'; eassumption.
  Qed.

  (** ** One round *)
  Section rounds.
  (** [A v H]: a state with history [H] from which the tasks can go on. *)
  Context (A : srv -> list seq_event -> Prop).
  Context (A_step : forall v ol v' H, sstep v ol v' -> calm_label ol -> aside v v' -> A v H -> A v' H).
  Context (A_kinds : forall v H, A v H -> kinds v).
  Context (A_rpc : forall v H k x, A v H -> v_rpcs v !! k = Some x -> k ∉ v_lost v -> exists vs sy, rpc_inv hash order vs v sy k x /\ s_hist (sp_cur sy) = H).
  Context (A_scan : forall v H k a q start bw limit, A v H -> p_readers (v_proc v) !! k = Some (ROpen a) ->
    exists y, handler_read hash order (fetch 16 (p_cache (v_proc v)) (v_disk v)) a.2 q start bw limit = Ok y).
  Lemma A_calm v v' H : calm v v' -> A v H -> A v' H.
  Proof. intros Hg. induction Hg as [|a b c (ol & H1 & H2 & H3) _ IH]; [auto|]. intros Ha. apply IH. eapply A_step; eassumption. Qed.
  (** The task comes back to the head of its loop with more delivered, or finds nothing to deliver. *)
  Definition comes_round (v : srv) (k : nat) (s : rsub) : Prop :=
    exists v' s' x', calm v v' /\ v_rpcs v' !! k = Some (QSub s' x') /\ su_seen s' = su_seen s /\ su_q s' = su_q s /\ su_after s' = su_after s /\
      ((x' = QLoop /\ (length (su_sent s) < length (su_sent s'))%nat) \/ (x' = QWait /\ s' = s)).
  Lemma round_first v v' k s : calm v v' -> comes_round v' k s -> comes_round v k s.
  Proof. intros H (v1 & s1 & x1 & H1 & H2). exists v1, s1, x1. split; [unfold calm; etransitivity; eassumption|exact H2]. Qed.
  Lemma round_read v H k s a : A v H -> k ∉ v_lost v -> v_rpcs v !! k = Some (QSub s (QRead a)) -> (exists y, a = Ok y) -> comes_round v k s.
  Proof.
    intros Ha Hlost Hx [ya Hya]. destruct (A_rpc _ _ _ _ Ha Hx Hlost) as (vs & sy & Hrs & HH). pose proof (A_kinds _ _ Ha _ _ Hx) as Hkd. cbn in Hkd.
    destruct (p_readers (v_proc v) !! k) as [[| | | | |hp]|] eqn:Er; try discriminate Hkd.
    assert (Hst : sstep v (Some (LClose k)) _) by (eapply (V_handle _ _ _ _ _ _ _ v k _ a); [exact Hx|reflexivity|eapply S_close; exact Er]).
    cbn [rpc_inv] in Hrs. destruct Hrs as [(_ & _ & Hq)|(_ & _ & Hgood & _ & Hph & _)]; [discriminate|]. cbn [phase_ok rpc_args] in Hph.
    destruct Hph as (st & _ & _ & [Ea|[_ Ea]]); [|congruence]. rewrite Ea in Hst.
    pose proof (A_step _ _ _ H Hst I ltac:(split; reflexivity) Ha) as Ha'.
    set (evs := spec_read _ _ _ _ _) in *. set (v' := v_set_rpc _ _ _) in *.
    assert (Hx' : v_rpcs v' !! k = Some (rpc_handle (QSub s (QRead a)) (Ok (evs, spec_head st)))) by (unfold v'; cbn [v_set_rpc v_rpcs]; apply lookup_insert).
    destruct (A_rpc _ _ _ _ Ha' Hx' Hlost) as (vs' & sy' & Hrs' & _). assert (Hcalm : calm v v') by (eapply calm_one; [exact Hst|exact I|split; reflexivity]).
    cbn [rpc_handle] in Hx', Hrs'. destruct (sub_iter s evs) as [s' x'] eqn:Ei. exists v', s', x'. split; [exact Hcalm|]. split; [exact Hx'|].
    unfold sub_iter in Ei. destruct (last evs) as [e|] eqn:El; [|injection Ei as <- <-; auto 8].
    assert (Hne : (0 < length evs)%nat) by (clear -El; revert El; generalize evs; intros l El; destruct l; [discriminate|cbn; lia]).
    destruct (e.1 =? U64 - 1); injection Ei as <- <-.
    - exfalso. cbn [rpc_inv] in Hrs'. destruct Hrs' as [(Ho & _)|(_ & _ & _ & Hq & _)]; [|contradiction]. cbn in Ho. now destruct (su_out s).
    - split; [reflexivity|]. split; [reflexivity|]. split; [reflexivity|]. left. split; [reflexivity|]. unfold su_sent. cbn [su_out]. rewrite concat_app, app_length. cbn [concat]. rewrite app_nil_r. apply Nat.lt_add_pos_r. exact Hne.
  Qed.
  Lemma round_open v H k s : A v H -> k ∉ v_lost v -> v_rpcs v !! k = Some (QSub s QOpen) -> comes_round v k s.
  Proof.
    intros Ha Hlost Hx. pose proof (A_kinds _ _ Ha _ _ Hx) as Hkd. cbn in Hkd. destruct (p_readers (v_proc v) !! k) as [[| | | | |hp]|] eqn:Er; try discriminate Hkd.
    assert (Hst : sstep v None _) by (eapply (V_scan _ _ _ _ _ _ _ v k _ hp (su_q s) (su_next s) false (su_batch s)); [exact Hx|reflexivity|exact Er|reflexivity]).
    eapply round_first; [eapply calm_one; [exact Hst|exact I|split; reflexivity]|]. eapply round_read; [eapply A_step; [exact Hst|exact I|split; reflexivity|exact Ha]|exact Hlost|cbn [v_set_rpc v_rpcs]; apply lookup_insert|].
    destruct (A_scan v H k hp (su_q s) (su_next s) false (su_batch s) Ha Er) as (y & E). rewrite E. eauto.
  Qed.
  Lemma round_call v H k s : A v H -> k ∉ v_lost v -> v_rpcs v !! k = Some (QSub s QCall) -> comes_round v k s.
  Proof.
    intros Ha Hlost Hx. destruct (ready v k _ (A_kinds _ _ Ha) Hx eq_refl) as (v' & Hc & Hx'). eapply round_first; [exact Hc|]. destruct (calm_same _ _ Hc) as (_ & _ & El).
    eapply round_open; [eapply A_calm; eassumption|rewrite El; exact Hlost|exact Hx'].
  Qed.
  Lemma round_borrow v H k s : A v H -> k ∉ v_lost v -> v_rpcs v !! k = Some (QSub s QBorrow) -> comes_round v k s.
  Proof.
    intros Ha Hlost Hx. pose proof (A_kinds _ _ Ha _ _ Hx) as Hkd. cbn in Hkd. destruct (p_readers (v_proc v) !! k) as [ph|] eqn:Er; [destruct ph; discriminate|].
    assert (Hst : sstep v (Some (LCall k)) _) by (eapply (V_call _ _ _ _ _ _ _ v k); [exact Hx|reflexivity|eapply S_call; exact Er]).
    eapply round_first; [eapply calm_one; [exact Hst|exact I|split; reflexivity]|]. eapply round_call; [eapply A_step; [exact Hst|exact I|split; reflexivity|exact Ha]|exact Hlost|].
    cbn [v_set_rpc v_rpcs]. apply lookup_insert.
  Qed.

  (** ** Everything is delivered *)
  Definition all_sent (H : list seq_event) (s : rsub) : Prop := su_sent s = spec_read H (su_q s) (sub_from (su_after s)) false None.
  Lemma waiting_done v H k s : A v H -> k ∉ v_lost v -> v_rpcs v !! k = Some (QSub s QWait) -> su_seen s = v_ver v -> publishing v = false -> all_sent H s.
  Proof.
    intros Ha Hlost Hx H1 H2. destruct (A_rpc _ _ _ _ Ha Hx Hlost) as (vs & sy & Hr & HH). cbn [rpc_inv] in Hr. destruct Hr as [(_ & _ & Hq)|(_ & _ & Hg & _ & _ & Hw)]; [discriminate|].
    specialize (Hw eq_refl (conj H1 H2)). rewrite HH in *. unfold all_sent. destruct Hg as [Hg _]. rewrite Hg, Hw, app_nil_r. reflexivity.
  Qed.
  Lemma sent_bound v H k s x : A v H -> k ∉ v_lost v -> v_rpcs v !! k = Some (QSub s x) -> x <> QEnd ->
    (length (su_sent s) <= length (spec_read H (su_q s) (sub_from (su_after s)) false None))%nat.
  Proof.
    intros Ha Hlost Hx Hne. destruct (A_rpc _ _ _ _ Ha Hx Hlost) as (vs & sy & Hr & HH). cbn [rpc_inv] in Hr. destruct Hr as [(_ & _ & Hq)|(_ & _ & Hg & _)]; [contradiction|].
    rewrite HH in *. destruct Hg as [Hg _]. rewrite Hg, app_length. lia.
  Qed.
  Definition delivers (v : srv) (H : list seq_event) (k : nat) (s : rsub) : Prop :=
    exists v' s', calm v v' /\ v_rpcs v' !! k = Some (QSub s' QWait) /\ su_q s' = su_q s /\ su_after s' = su_after s /\ all_sent H s'.
  Lemma catch_up H n : forall v k s, A v H -> k ∉ v_lost v -> publishing v = false -> v_rpcs v !! k = Some (QSub s QLoop) ->
    (length (spec_read H (su_q s) (sub_from (su_after s)) false None) - length (su_sent s) < n)%nat -> delivers v H k s.
  Proof.
    induction n as [|n IH]; [intros; lia|]. intros v k s Ha Hlost Hp Hx Hn.
    assert (Hst : sstep v None _) by (eapply (V_permit _ _ _ _ _ _ _ v k); [exact Hx|reflexivity]). set (v1 := v_set_rpc k (QSub (saw (v_ver v) s) QBorrow) v) in Hst.
    assert (Hc1 : calm v v1) by (eapply calm_one; [exact Hst|exact I|split; reflexivity]).
    assert (Ha1 : A v1 H) by (eapply A_calm; eassumption).
    destruct (round_borrow v1 H k (saw (v_ver v) s) Ha1 Hlost) as (v2 & s2 & x2 & Hc2 & Hx2 & E1 & E2 & E3 & Hres); [unfold v1; cbn; apply lookup_insert|].
    assert (Ha2 : A v2 H) by (eapply A_calm; eassumption). destruct (calm_same _ _ Hc1) as (T1 & T2 & L1), (calm_same _ _ Hc2) as (T3 & T4 & L2).
    assert (Hlost2 : k ∉ v_lost v2) by (rewrite L2, L1; exact Hlost).
    assert (Hp2 : publishing v2 = false) by (unfold publishing in *; rewrite T3, T1; exact Hp). cbn in E1, E2, E3.
    destruct Hres as [[-> Hlen]|[-> ->]].
    - assert (Hs : su_sent (saw (v_ver v) s) = su_sent s) by reflexivity. rewrite Hs in Hlen.
      pose proof (sent_bound _ _ _ _ _ Ha2 Hlost2 Hx2 ltac:(discriminate)) as Hb. destruct (IH v2 k s2 Ha2 Hlost2 Hp2 Hx2) as (v3 & s3 & Hc3 & Hx3 & F1 & F2 & F3).
      + rewrite E2, E3 in *. lia.
      + exists v3, s3. split; [unfold calm; etransitivity; [exact Hc1|]; etransitivity; [exact Hc2|exact Hc3]|]. split; [exact Hx3|]. split; [congruence|]. split; [congruence|exact F3].
    - exists v2. eexists. split; [unfold calm; etransitivity; eassumption|]. split; [exact Hx2|]. split; [reflexivity|]. split; [reflexivity|].
      eapply waiting_done; [exact Ha2|exact Hlost2|exact Hx2| |exact Hp2]. cbn. congruence.
  Qed.
  Lemma deliver v H k s x : A v H -> k ∉ v_lost v -> publishing v = false -> v_rpcs v !! k = Some (QSub s x) ->
    match x with QEnd | QGone | QFail _ | QRead (Err _) => False | _ => True end -> delivers v H k s.
  Proof.
    intros Ha Hlost Hp Hx Hlive.
    assert (Hloop : forall v1 s1, calm v v1 -> v_rpcs v1 !! k = Some (QSub s1 QLoop) -> su_q s1 = su_q s -> su_after s1 = su_after s -> delivers v H k s).
    { intros v1 s1 Hc Hx1 E1 E2. destruct (calm_same _ _ Hc) as (T1 & T2 & L1). destruct (catch_up H _ v1 k s1 (A_calm _ _ _ Hc Ha) ltac:(rewrite L1; exact Hlost) ltac:(unfold publishing in *; rewrite T1; exact Hp) Hx1 (Nat.lt_succ_diag_r _)) as (v2 & s2 & Hc2 & Hx2 & F1 & F2 & F3).
      exists v2, s2. split; [unfold calm; etransitivity; eassumption|]. repeat split; congruence. }
    assert (Hwait : forall v1 s1, calm v v1 -> v_rpcs v1 !! k = Some (QSub s1 QWait) -> su_q s1 = su_q s -> su_after s1 = su_after s -> delivers v H k s).
    { intros v1 s1 Hc Hx1 E1 E2. destruct (calm_same _ _ Hc) as (T1 & T2 & L1). pose proof (A_calm _ _ _ Hc Ha) as Ha1. destruct (decide (su_seen s1 = v_ver v1)) as [Es|Es].
      - exists v1, s1. repeat split; auto. eapply waiting_done; [exact Ha1|rewrite L1; exact Hlost|exact Hx1|exact Es|unfold publishing in *; rewrite T1; exact Hp].
      - assert (Hst : sstep v1 None _) by (eapply (V_wake _ _ _ _ _ _ _ v1 k s1); [exact Hx1|congruence]).
        eapply Hloop; [unfold calm; etransitivity; [exact Hc|]; eapply calm_one; [exact Hst|exact I|split; reflexivity]|cbn; apply lookup_insert|exact E1|exact E2]. }
    assert (Hround : comes_round v k s -> delivers v H k s).
    { intros (v1 & s1 & x1 & Hc & Hx1 & E1 & E2 & E3 & [[-> _]|[-> ->]]); [eapply Hloop|eapply Hwait]; eassumption || reflexivity. }
    destruct x; try contradiction.
    - eapply (Hloop v s); [apply rtc_refl|exact Hx|reflexivity|reflexivity].
    - apply Hround. eapply round_borrow; eassumption.
    - apply Hround. eapply round_call; eassumption.
    - apply Hround. eapply round_open; eassumption.
    - apply Hround. eapply round_read; [eassumption|eassumption|eassumption|]. match goal with |- exists y, ?a = _ => destruct a; [eauto|contradiction] end.
    - eapply (Hwait v s); [apply rtc_refl|exact Hx|reflexivity|reflexivity].
  Qed.
  End rounds.
  Lemma at_aside v ol v' H : sstep v ol v' -> calm_label ol -> aside v v' -> at_hist v H -> at_hist v' H.
  Proof. intros H1 H2 _. exact (at_step v ol v' H H1 H2). Qed.
  Lemma at_kinds v H : at_hist v H -> kinds v.
  Proof. exact (@proj2 _ _). Qed.
  Lemma at_rpc v H k x : at_hist v H -> v_rpcs v !! k = Some x -> k ∉ v_lost v -> exists vs sy, rpc_inv hash order vs v sy k x /\ s_hist (sp_cur sy) = H.
  Proof. intros [(vs & sy & (_ & _ & _ & HR) & HH) _] Hx Hl. exists (v :: vs), sy. auto. Qed.
  Lemma at_scan v H k a q start bw limit : at_hist v H -> p_readers (v_proc v) !! k = Some (ROpen a) ->
    exists y, handler_read hash order (fetch 16 (p_cache (v_proc v)) (v_disk v)) a.2 q start bw limit = Ok y.
  Proof. intros [(vs & sy & (Hi & _) & _) _] Er. destruct (scan_ok ps hash order ford caching Hps Hps32 Hord Hford v sy k a q start bw limit Hi Er) as (s1 & _ & E). rewrite E. eauto. Qed.

  (** The thread sends its answers and sets the watched head. *)
  Lemma publishes v H : at_hist v H -> exists v', goes v v' /\ at_hist v' H /\ publishing v' = false /\ v_rpcs v' = v_rpcs v /\ v_lost v' = v_lost v.
  Proof.
    intros Ha. destruct (publishing v) eqn:Ep; [|exists v; repeat split; auto; [apply rtc_refl|exact (proj1 Ha)|exact (proj2 Ha)]].
    unfold publishing in Ep. destruct (v_thread v) as [| | | | |todo [h|]|] eqn:Et; try discriminate. clear Ep. revert v Ha Et. induction todo as [|[id a] todo IH]; intros v Ha Et.
    - assert (Hst : sstep v None (v_set_thread TWait (v_publish h v))) by (eapply V_publish, Et). eexists. split; [eapply rtc_once; eexists; split; [exact Hst|exact I]|].
      split; [eapply at_step; [exact Hst|exact I|exact Ha]|]. split; [reflexivity|]. unfold v_publish. case_match; split; reflexivity.
    - assert (Hst : sstep v None (v_set_thread (TReply todo (Some h)) (v_send (id, a) v))) by (eapply V_reply, Et).
      destruct (IH (v_set_thread (TReply todo (Some h)) (v_send (id, a) v))) as (v' & H1 & H2 & H3 & H4); [eapply at_step; [exact Hst|exact I|exact Ha]|reflexivity|].
      exists v'. split; [|split; [exact H2|split; [exact H3|exact H4]]]. eapply rtc_l; [|exact H1]. eexists. split; [exact Hst|exact I].
  Qed.
  Lemma delivered v H k s x : at_hist v H -> k ∉ v_lost v -> v_rpcs v !! k = Some (QSub s x) -> match x with QEnd | QGone | QFail _ | QRead (Err _) => False | _ => True end ->
    exists v' s', goes v v' /\ at_hist v' H /\ v_rpcs v' !! k = Some (QSub s' QWait) /\ su_q s' = su_q s /\ su_after s' = su_after s /\ all_sent H s'.
  Proof.
    intros Ha Hlost Hx Hl. destruct (publishes v H Ha) as (v1 & H1 & H2 & H3 & H4 & H5). rewrite <- H4 in Hx. rewrite <- H5 in Hlost.
    destruct (deliver at_hist at_aside at_kinds at_rpc at_scan v1 H k s x H2 Hlost H3 Hx Hl) as (v2 & s2 & Hc & Hx2 & E1 & E2 & E3). exists v2, s2. split; [unfold goes; etransitivity; [exact H1|apply calm_goes, Hc]|].
    split; [eapply at_calm; eassumption|]. auto.
  Qed.
End server_live.
