(** Remote reads and subscriptions next to the pipelining writer thread get on: C99. *)
From Verif Require Import Exec PropsStore PropsFindings PropsCrash PropsPipeline PropsPipelined PropsPipelinedServer.
From Verif Require Import MvccProofs SpecProofs StoreProofs ServerLive ServerExec PropsServer PropsRemote Permits PropsPermits PipelineTasks PropsPipelinedRemote.
Local Open Scope N_scope.

(** ** One more response, whichever the writer thread *)
Lemma inv_bounded hash order vs v sy k r x : rpc_inv hash order vs v sy k (QRd r x) ->
  (length (rr_out r) <= Nat.max 1 (length (spec_read (s_hist (sp_cur sy)) (rr_q r) (rr_start r) (rr_bw r) (rr_limit r))))%nat.
Proof.
  intros Hr. cbn [rpc_inv] in Hr. destruct Hr as (_ & _ & Hr). destruct (rr_head r) as [hd|].
  - destruct Hr as (s & _ & _ & [Hext _] & _ & [_ Hb] & _ & Hread & _). assert (Hb' : Forall (fun o => o.1 <> []) (rr_out r) \/ exists hd, rr_out r = [([], hd)]) by (destruct Hb; eauto). apply batches_bound in Hb'. pose proof (f_equal length Hread) as E. rewrite app_length in E. unfold rr_sent in E.
    pose proof (spec_read_mono _ _ (rr_q r) (rr_start r) (rr_bw r) (rr_limit r) Hext). lia.
  - destruct Hr as (Ho & _). rewrite Ho. cbn. lia.
Qed.
Section reads.
  Context (ps : N) (hash : bytes -> bytes) (order : list bytes -> list bytes) (ford : gset N -> list N) (caching : bool) (max_events : N).
  Notation sstep := (sstep 16 ps hash order ford caching max_events).
  Notation calm := (ServerLive.calm ps hash order ford caching max_events).
  Context (A : srv -> list seq_event -> Prop).
  Context (A_step : forall v ol v' H, sstep v ol v' -> calm_label ol -> aside v v' -> A v H -> A v' H).
  Context (A_kinds : forall v H, A v H -> kinds v).
  Context (A_rpc : forall v H k x, A v H -> v_rpcs v !! k = Some x -> k ∉ v_lost v -> exists vs sy, rpc_inv hash order vs v sy k x /\ s_hist (sp_cur sy) = H).
  Context (A_scan : forall v H k a q start bw limit, A v H -> p_readers (v_proc v) !! k = Some (ROpen a) ->
    exists y, handler_read hash order (fetch 16 (p_cache (v_proc v)) (v_disk v)) a.2 q start bw limit = Ok y).
  Notation A_calm := (A_calm ps hash order ford caching max_events A A_step).
  Definition responds (v : srv) (k : nat) (x : rpc) : Prop :=
    exists v' y, calm v v' /\ v_rpcs v' !! k = Some (rpc_handle x (Ok y)).
  Lemma responds_first v v' k x q : calm v v' -> responds v' k (set_phase q x) -> responds v k x.
  Proof. intros H (v1 & y & H1 & H2). rewrite handle_phase in H2. exists v1, y. split; [unfold ServerLive.calm in *; etransitivity; eassumption|exact H2]. Qed.
  Lemma responds_read v H k x y : A v H -> v_rpcs v !! k = Some x -> rpc_phase x = QRead (Ok y) -> responds v k x.
  Proof.
    intros Ha Hx Hp. pose proof (A_kinds _ _ Ha _ _ Hx) as Hkd. rewrite Hp in Hkd. cbn in Hkd. destruct (p_readers (v_proc v) !! k) as [[| | | | |hp]|] eqn:Er; try discriminate Hkd.
    assert (Hst : sstep v (Some (LClose k)) _) by (eapply (V_handle _ _ _ _ _ _ _ v k x (Ok y)); [exact Hx|exact Hp|eapply S_close; exact Er]).
    eexists _, y. split; [eapply calm_one; [exact Hst|exact I|split; reflexivity]|]. cbn [v_set_rpc v_rpcs]. apply lookup_insert.
  Qed.
  Lemma responds_open v H k x : A v H -> v_rpcs v !! k = Some x -> rpc_phase x = QOpen -> responds v k x.
  Proof.
    intros Ha Hx Hp. pose proof (A_kinds _ _ Ha _ _ Hx) as Hkd. rewrite Hp in Hkd. cbn in Hkd. destruct (p_readers (v_proc v) !! k) as [[| | | | |hp]|] eqn:Er; try discriminate Hkd.
    destruct (rpc_args x) as [[[q start] bw] limit] eqn:Ea. destruct (A_scan v H k hp q start bw limit Ha Er) as (y & Ey).
    assert (Hst : sstep v None _) by (eapply (V_scan _ _ _ _ _ _ _ v k x hp q start bw limit); [exact Hx|exact Hp|exact Er|exact Ea]). rewrite Ey in Hst.
    eapply responds_first; [eapply calm_one; [exact Hst|exact I|split; reflexivity]|]. eapply responds_read; [eapply A_step; [exact Hst|exact I|split; reflexivity|exact Ha]|cbn [v_set_rpc v_rpcs]; apply lookup_insert|apply set_phase_phase].
  Qed.
  Lemma responds_call v H k x : A v H -> v_rpcs v !! k = Some x -> rpc_phase x = QCall -> responds v k x.
  Proof.
    intros Ha Hx Hp. destruct (ready ps hash order ford caching max_events v k _ (A_kinds _ _ Ha) Hx Hp) as (v' & Hc & Hx'). eapply responds_first; [exact Hc|].
    eapply responds_open; [eapply A_calm; eassumption|exact Hx'|apply set_phase_phase].
  Qed.
  Lemma responds_borrow v H k x : A v H -> v_rpcs v !! k = Some x -> rpc_phase x = QBorrow -> responds v k x.
  Proof.
    intros Ha Hx Hp. pose proof (A_kinds _ _ Ha _ _ Hx) as Hkd. rewrite Hp in Hkd. cbn in Hkd. destruct (p_readers (v_proc v) !! k) as [ph|] eqn:Er; [destruct ph; discriminate|].
    assert (Hst : sstep v (Some (LCall k)) _) by (eapply (V_call _ _ _ _ _ _ _ v k); [exact Hx|exact Hp|eapply S_call; exact Er]).
    eapply responds_first; [eapply calm_one; [exact Hst|exact I|split; reflexivity]|]. eapply responds_call; [eapply A_step; [exact Hst|exact I|split; reflexivity|exact Ha]| |apply set_phase_phase].
    cbn [v_set_rpc v_rpcs]. apply lookup_insert.
  Qed.
  Lemma responds_any v H k r x : A v H -> v_rpcs v !! k = Some (QRd r x) -> match x with QLoop | QBorrow | QCall | QOpen | QRead (Ok _) => True | _ => False end ->
    responds v k (QRd r x).
  Proof.
    intros Ha Hx Hp. destruct x as [| | | |[y|]| | | |]; try contradiction.
    - assert (Hst : sstep v None _) by (eapply (V_permit _ _ _ _ _ _ _ v k); [exact Hx|reflexivity]). cbn in Hst.
      eapply (responds_first _ _ _ (QRd r QLoop) QBorrow); [eapply calm_one; [exact Hst|exact I|split; reflexivity]|].
      eapply responds_borrow; [eapply A_step; [exact Hst|exact I|split; reflexivity|exact Ha]|cbn [v_set_rpc v_rpcs]; apply lookup_insert|reflexivity].
    - eapply responds_borrow; [exact Ha|exact Hx|reflexivity].
    - eapply responds_call; [exact Ha|exact Hx|reflexivity].
    - eapply responds_open; [exact Ha|exact Hx|reflexivity].
    - eapply responds_read; [exact Ha|exact Hx|reflexivity].
  Qed.
  Lemma calm_asked v v' k x : calm v v' -> v_rpcs v !! k = Some x -> exists x', v_rpcs v' !! k = Some x' /\ asked x' = asked x /\ is_read x' = is_read x.
  Proof.
    intros H. revert x. induction H as [u|a b c (ol & Hst & _) _ IH]; intros x Hx; [eauto|]. destruct (sstep_asked ps hash order ford caching max_events _ _ _ _ _ Hst Hx) as (x1 & H1 & H2 & H3).
    destruct (IH _ H1) as (x2 & H4 & H5 & H6). exists x2. repeat split; congruence.
  Qed.
  Lemma read_done H m : forall v k r x, A v H -> k ∉ v_lost v -> v_rpcs v !! k = Some (QRd r x) -> match x with QLoop | QBorrow | QCall | QOpen | QRead (Ok _) => True | _ => False end ->
    (Nat.max 1 (length (spec_read H (rr_q r) (rr_start r) (rr_bw r) (rr_limit r))) - length (rr_out r) < m)%nat ->
    exists v' r', calm v v' /\ v_rpcs v' !! k = Some (QRd r' QEnd).
  Proof.
    induction m as [|m IH]; [intros; lia|]. intros v k r x Ha Hlost Hx Hp Hm. destruct (responds_any v H k r x Ha Hx Hp) as (v1 & y & Hc & Hx1).
    destruct (handle_read (QRd r x) y eq_refl) as (r1 & q1 & E1 & E2). pose proof (handle_got_on dps dps32 (QRd r x) y) as Hgot. rewrite E1 in Hx1, Hgot. destruct E2 as [-> | ->]; [|exists v1, r1; auto].
    destruct (calm_same ps hash order ford caching max_events _ _ Hc) as (_ & _ & L1). pose proof (A_calm _ _ _ Hc Ha) as Ha1. assert (Hlost1 : k ∉ v_lost v1) by (rewrite L1; exact Hlost).
    destruct (calm_asked _ _ _ _ Hc Hx) as (x2 & X1 & X2 & _). rewrite Hx1 in X1. injection X1 as <-. cbn in X2. injection X2 as F1 F2 F3 F4 _.
    destruct (A_rpc _ _ _ _ Ha1 Hx1 Hlost1) as (vs & sy & Hr & HH). apply (inv_bounded hash order) in Hr. rewrite HH in Hr.
    destruct Hgot as [Hgot|[]]. cbn [responses] in Hgot. rewrite F1, F2, F3, F4 in Hr.
    destruct (IH v1 k r1 QLoop Ha1 Hlost1 Hx1 I) as (v2 & r2 & Hc2 & Hx2); [rewrite F1, F2, F3, F4; lia|].
    exists v2, r2. split; [unfold ServerLive.calm in *; etransitivity; eassumption|exact Hx2].
  Qed.
End reads.

(** ** The server with the pipelining writer thread *)
Section pipelined_live.
  Context (hash : bytes -> bytes) (order : list bytes -> list bytes) (ford : gset N -> list N) (caching : bool) (max_events : N).
  Context (Hord : forall l t, t ∈ order l <-> t ∈ l) (Hford : forall s, ford s ≡ₚ elements s).
  Notation pstep := (pstep 16 dps hash order ford caching).
  Notation lstep := (lstep 16 dps hash order ford caching).
  Notation sstep := (sstep 16 dps hash order ford caching max_events).
  Notation zstep := (zstep 16 dps hash order ford caching max_events).
  Notation wstep := (wstep 16 dps hash order ford caching max_events).
  Notation wserves := (wserves 16 dps hash order ford caching max_events).
  Notation mrun := (mrun hash order ford caching).
  Notation mshows := (mshows hash order).
  Notation minv := (minv 16 dps hash caching).
  Notation calm := (ServerLive.calm dps hash order ford caching max_events).
  Notation w_ok := (w_ok hash order caching).
  Context (tr0 : list label) (s0 : psys) (h0 : option N) (Hrun : mrun fine tr0 (MP s0)).
  Notation going := (going hash order ford caching max_events s0 h0).

  (** *** Readers *)
  Lemma lstep_readers s l s' k : lstep s l s' -> kind (p_readers (s_proc s') !! k) = label_kind l k (kind (p_readers (s_proc s) !! k)).
  Proof.
    intros H. destruct H; try reflexivity; cbn [s_proc].
    - match goal with H : Mvcc.pstep _ _ _ _ _ _ _ _ _ _ _ |- _ => exact (pstep_kind dps hash order ford caching _ _ _ _ _ k H) end.
    - destruct caching; reflexivity.
    - cbn [label_kind]. unfold pin_header. destruct ((y_header f).1 =? 0); reflexivity.
    - destruct hdr; reflexivity.
  Qed.
  Lemma wstep_kinds v ol v' : wstep v ol v' -> kinds (w_tasks v) -> kinds (w_tasks v').
  Proof.
    intros H Hk. destruct H as [v ol z Hz Hr _|v h next Hz|v ol u Hu Hg Hq Hd Hw Hw'].
    - intros k x Hx. specialize (Hk k x Hx). cbn in Hx. rewrite <- Hk. pose proof (zstep_lstep _ _ _ _ _ _ _ _ _ Hz) as Hl. cbn [w_tasks v_proc w_set_z w_z]. destruct ol as [l|]; [|now rewrite Hl].
      rewrite (lstep_readers _ _ _ k Hl). destruct l; try reflexivity; cbn [label_kind]; (destruct (decide _) as [->|]; [|reflexivity]);
        match goal with |- context [p_readers _ !! ?i] => specialize (Hr _ i eq_refl eq_refl); congruence end.
    - unfold w_notify. case_match; exact Hk.
    - exact (kinds_step dps hash order ford caching max_events _ _ _ Hu Hk).
  Qed.
  Lemma wserves_kinds s h v vs tr : wserves s h (v :: vs) tr -> kinds (w_tasks v).
  Proof.
    intros H. remember (v :: vs) as l eqn:El. revert v vs El. induction H as [|v vs tr ol v' H IH Hst]; intros w ws El.
    - injection El as <- <-. intros k x Hk. cbn in Hk. rewrite lookup_empty in Hk. discriminate.
    - injection El as <- <-. eapply wstep_kinds; [exact Hst|]. eapply IH. reflexivity.
  Qed.

  (** *** The thread stands still *)
  (** No batch is being built on one that is still being written, and no commit is to be announced. *)
  Definition at_ease (v : wsrv) : Prop :=
    (l_fly (z_pipe (w_z v)) = None \/ l_phase (z_pipe (w_z v)) = PFetch) /\ forall todo hd next, z_thread (w_z v) <> ZSend todo (Some hd) next.
  (** What steps of tasks leave alone: [tasks_only v v'] says that [v'] is [v] but for the tasks and their readers. *)
  Definition tasks_only (v v' : wsrv) : Prop :=
    w_z v' = z_set_sys (PSys (s_disk (z_sys (w_z v))) (s_proc (z_sys (w_z v'))) (z_pipe (w_z v))) (w_z v) /\
    w_ver v' = w_ver v /\ w_unread v' = w_unread v /\ w_lost v' = w_lost v.
  Lemma minv_quiet v sy : minv false (MP (z_sys (w_z v))) sy -> p_writer (s_proc (z_sys (w_z v))) = WIdle /\ forall f, l_fly (z_pipe (w_z v)) = Some f -> y_io f <> IFailed true.
  Proof.
    assert (Ht : forall d p pi, thread_inv 16 dps hash caching d (PipelineRefine.view false p) pi sy -> p_writer p = WIdle /\ forall f, l_fly pi = Some f -> y_io f <> IFailed true).
    { intros d p pi (g & [H|(f & db & w & todo & H)]).
      - split; [exact (a_x _ _ _ _ _ _ _ _ _ H)|]. intros f Hf. rewrite (a_fly _ _ _ _ _ _ _ _ _ H) in Hf. discriminate.
      - split; [exact (b_x _ _ _ _ _ _ _ _ _ _ _ _ _ H)|]. intros f' Hf. rewrite (b_fly _ _ _ _ _ _ _ _ _ _ _ _ _ H) in Hf. injection Hf as <-. apply (b_io _ _ _ _ _ _ _ _ _ _ _ _ _ H). }
    unfold z_pipe. intros [H|[(f & E1 & E2) H]]; [exact (Ht _ _ _ H)|]. split; [exact (proj1 (Ht _ _ _ H))|]. intros f' Hf. rewrite E1 in Hf. injection Hf as <-. rewrite E2. discriminate.
  Qed.
  Section from.
    Context (v0 : wsrv) (vs0 : list wsrv).
    (** [u]: the tasks of a server that came from [v0] by steps of tasks. *)
    Definition eased (u : srv) (H : list seq_event) : Prop :=
      exists v vs tr sy l, u = w_tasks v /\ going (v :: vs) tr /\ v :: vs = l ++ v0 :: vs0 /\ tasks_only v0 v /\ at_ease v /\ w_ok vs v sy /\ s_hist (sp_cur sy) = H.
    Lemma ease_view v : at_ease v -> w_view v = w_tasks v.
    Proof.
      intros [_ H]. unfold w_view, z_publishing. destruct (z_thread (w_z v)); try reflexivity. destruct head; [|reflexivity]. exfalso. eapply H. reflexivity.
    Qed.
    Lemma eased_one v vs tr sy ol u' : sstep (w_tasks v) ol u' -> calm_label ol -> aside (w_tasks v) u' -> going (v :: vs) tr -> tasks_only v0 v -> at_ease v -> w_ok vs v sy ->
      exists sy', u' = w_tasks (w_put u' v) /\ going (w_put u' v :: v :: vs) (tr ++ match ol with Some l => [l] | None => [] end) /\ tasks_only v0 (w_put u' v) /\
        at_ease (w_put u' v) /\ w_ok (v :: vs) (w_put u' v) sy' /\ s_hist (sp_cur sy') = s_hist (sp_cur sy).
    Proof.
      intros Hst Hl [Eu Hw] [Hg Ha] (T1 & T2 & T3 & T4) [Hf Hp] Hok.
      pose proof Hok as (Hi & _). destruct (minv_quiet _ _ Hi) as [Hidle Hnf]. set (v' := w_put u' v).
      assert (Hws : wstep v ol v').
      { apply W_task; [exact Hst|rewrite Eu; reflexivity|rewrite Eu; reflexivity|rewrite Eu; reflexivity|exact Hidle|rewrite Hw; exact Hidle]. }
      assert (Ed : v_disk u' = s_disk (z_sys (w_z v))) by (rewrite Eu; reflexivity).
      assert (Ever : v_ver u' = w_ver v) by (rewrite Eu; reflexivity). assert (Eun : v_unread u' = w_unread v) by (rewrite Eu; reflexivity). assert (Elo : v_lost u' = w_lost v) by (rewrite Eu; reflexivity).
      assert (Hfine : fine (MP (z_sys (w_z v))) (MP (z_sys (w_z v')))).
      { unfold v', w_put. cbn [w_z z_set_sys z_sys]. unfold z_pipe in *. destruct (z_sys (w_z v)) as [d p pi] eqn:Es. cbn [s_pipe s_disk s_proc] in *. split.
        - split; [exact Hnf|]. split; [intros f f' E1 E2 E3 E4; congruence|]. intros Hgu Hph Hno. exfalso. unfold gives_up in Hgu. rewrite Hno, Hph in Hgu. exact Hgu.
        - intros H1 H2. destruct Hf; contradiction. }
      destruct (w_step hash order ford caching max_events Hord Hford _ _ _ _ _ Hws Hfine Hok) as (sy' & Hok' & Hsp).
      exists sy'. split; [|split; [|split; [|split; [|split]]]].
      - unfold v', w_put, w_tasks. cbn [w_z z_set_sys z_sys s_disk s_proc w_ver w_rpcs w_unread w_lost]. rewrite Ed, Ever, Eun, Elo. exact Eu.
      - split; [eapply wserves_step; eassumption|]. split; [exact Hfine|exact Ha].
      - unfold v', w_put, tasks_only. cbn [w_z w_ver w_unread w_lost z_sys z_set_sys s_proc]. rewrite Ed, Ever, Eun, Elo.
        split; [|auto]. rewrite T1. reflexivity.
      - split; [exact Hf|exact Hp].
      - exact Hok'.
      - f_equal. apply (spec_cur_same dps _ _ _ Hsp). destruct ol as [[]|]; cbn in *; try contradiction; exact I.
    Qed.
    Lemma eased_step u ol u' H : sstep u ol u' -> calm_label ol -> aside u u' -> eased u H -> eased u' H.
    Proof.
      intros Hst Hl Hs (v & vs & tr & sy & l & -> & Hg & El & Ht & He & Hok & HH).
      destruct (eased_one v vs tr sy ol u' Hst Hl Hs Hg Ht He Hok) as (sy' & G1 & G2 & G3 & G4 & G5 & G6).
      exists (w_put u' v), (v :: vs), (tr ++ match ol with Some l => [l] | None => [] end), sy', (w_put u' v :: l). split; [exact G1|]. split; [exact G2|].
      split; [cbn [app]; now rewrite El|]. split; [exact G3|]. split; [exact G4|]. split; [exact G5|]. congruence.
    Qed.
    Lemma eased_kinds u H : eased u H -> kinds u.
    Proof. intros (v & vs & tr & sy & l & -> & [Hg _] & _). eapply wserves_kinds; exact Hg. Qed.
    Lemma eased_rpc u H k x : eased u H -> v_rpcs u !! k = Some x -> k ∉ v_lost u -> exists vs sy, rpc_inv hash order vs u sy k x /\ s_hist (sp_cur sy) = H.
    Proof.
      intros (v & vs & tr & sy & l & -> & _ & _ & _ & He & (_ & _ & _ & HR) & HH) Hx Hl. exists (map w_view (v :: vs)), sy. split; [|exact HH].
      rewrite <- (ease_view v He). exact (HR k x Hx Hl).
    Qed.
    Lemma eased_scan u H k a q start bw limit : eased u H -> p_readers (v_proc u) !! k = Some (ROpen a) ->
      exists y, handler_read hash order (fetch 16 (p_cache (v_proc u)) (v_disk u)) a.2 q start bw limit = Ok y.
    Proof.
      intros (v & vs & tr & sy & l & -> & _ & _ & _ & He & (Hi & _) & HH) Er. apply (minv_tinv hash caching) in Hi.
      destruct (tinv_scan hash order ford caching Hord Hford (w_view v) sy k a q start bw limit Hi Er) as (s1 & _ & E). cbn in E |- *. rewrite E. eauto.
    Qed.
    Lemma eased_calm u u' H : calm u u' -> eased u H -> eased u' H.
    Proof. exact (A_calm dps hash order ford caching max_events eased eased_step u u' H). Qed.
  End from.
  Lemma eased_start v vs tr : going (v :: vs) tr -> at_ease v -> exists sy, w_ok vs v sy /\ eased v vs (w_tasks v) (s_hist (sp_cur sy)).
  Proof.
    intros [Hg Ha] He. destruct (wserves_inv hash order ford caching max_events Hord Hford _ _ _ _ _ _ Hrun Hg Ha) as (sy & Hok). exists sy. split; [exact Hok|].
    exists v, vs, tr, sy, []. split; [reflexivity|]. split; [split; assumption|]. split; [reflexivity|]. split; [|split; [exact He|split; [exact Hok|reflexivity]]].
    unfold tasks_only. split; [|auto]. symmetry. apply zsrv_eta.
  Qed.

  (** ** C99 *)
  (** The responses to a read are at most as many as the events it is answered with, or one. *)
  Theorem pipelined_responses_bounded v vs tr k r x st : going (v :: vs) tr -> w_rpcs v !! k = Some (QRd r x) -> k ∉ w_lost v -> mshows (w_sys v) st ->
    (length (rr_out r) <= Nat.max 1 (length (spec_read (s_hist st) (rr_q r) (rr_start r) (rr_bw r) (rr_limit r))))%nat.
  Proof.
    intros [Hg Ha] Hk Hl Hs. destruct (wserves_inv hash order ford caching max_events Hord Hford _ _ _ _ _ _ Hrun Hg Ha) as (sy & Hi & _ & _ & HR).
    destruct (minv_eqv hash order ford caching Hord Hford false _ _ _ Hi Hs) as [Eh _]. rewrite Eh. exact (inv_bounded hash order _ _ _ _ _ _ (HR _ _ Hk Hl)).
  Qed.
  (** Whenever no batch is being built on one that is still being written, steps of the tasks lead to the end of a read whose client stays, with
      the whole answer; and to the delivery of all that a subscription asks for and is committed.  The threads need not do anything:
      it does not matter how long a commit takes to be written. *)
  Theorem pipelined_read_ends v vs tr k r x : going (v :: vs) tr -> at_ease v -> w_rpcs v !! k = Some (QRd r x) -> k ∉ w_lost v ->
    match x with QLoop | QBorrow | QCall | QOpen | QRead (Ok _) => True | _ => False end ->
    exists v' vs' tr' l r' s, going (v' :: vs') tr' /\ v' :: vs' = l ++ v :: vs /\ tasks_only v v' /\
      w_rpcs v' !! k = Some (QRd r' QEnd) /\ asked (QRd r' QEnd) = asked (QRd r x) /\
      (exists w y, w ∈ v' :: vs' /\ w_rpcs w !! k = Some y /\ unsent y /\ mshows (w_sys w) s) /\
      concat (map fst (rr_out r')) = spec_read (s_hist s) (rr_q r) (rr_start r) (rr_bw r) (rr_limit r).
  Proof.
    intros Hg He Hx Hl Hp. destruct (eased_start _ _ _ Hg He) as (sy & _ & HA).
    destruct (read_done dps hash order ford caching max_events (eased v vs) (eased_step v vs) (eased_kinds v vs) (eased_rpc v vs) (eased_scan v vs)
      _ _ (w_tasks v) k r x HA Hl Hx Hp (Nat.lt_succ_diag_r _)) as (u & r' & Hc & Hx').
    destruct (calm_asked dps hash order ford caching max_events _ _ _ _ Hc Hx) as (x2 & X1 & X2 & _). rewrite Hx' in X1. injection X1 as <-.
    destruct (eased_calm v vs _ _ _ Hc HA) as (v' & vs' & tr' & sy' & l & -> & Hg' & El & Ht & _). pose proof Ht as (_ & _ & _ & El').
    assert (Hl' : k ∉ w_lost v') by (rewrite El'; exact Hl).
    destruct (pipelined_remote_read hash order ford caching max_events Hord Hford tr0 s0 h0 Hrun _ _ _ _ _ _ Hg' Hx' Hl') as (_ & s & Hs & _ & Hend & _). destruct (Hend eq_refl) as [E _].
    exists v', vs', tr', l, r', s. split; [exact Hg'|]. split; [exact El|]. split; [exact Ht|]. split; [exact Hx'|]. split; [exact X2|]. split; [exact Hs|].
    rewrite E. cbn in X2. injection X2 as -> -> -> -> _. reflexivity.
  Qed.
  Theorem pipelined_subscription_catches_up v vs tr k s x st : going (v :: vs) tr -> at_ease v -> w_rpcs v !! k = Some (QSub s x) -> k ∉ w_lost v -> mshows (w_sys v) st ->
    match x with QEnd | QGone | QFail _ | QRead (Err _) => False | _ => True end ->
    exists v' vs' tr' l s', going (v' :: vs') tr' /\ v' :: vs' = l ++ v :: vs /\ tasks_only v v' /\
      w_rpcs v' !! k = Some (QSub s' QWait) /\ su_q s' = su_q s /\ su_after s' = su_after s /\ (exists st', mshows (w_sys v') st' /\ s_hist st' = s_hist st) /\
      concat (su_out s') = filter (fun e => (match su_after s with Some a => a < e.1 | None => True end) /\ q_matches (su_q s) e.2) (s_hist st).
  Proof.
    intros Hg He Hx Hl Hst Hp. destruct (eased_start _ _ _ Hg He) as (sy & (Hi & _) & HA). destruct (minv_eqv hash order ford caching Hord Hford false _ _ _ Hi Hst) as [Eh Et].
    assert (Hpub : publishing (w_tasks v) = false) by reflexivity.
    destruct (deliver dps hash order ford caching max_events dps32 (eased v vs) (eased_step v vs) (eased_kinds v vs) (eased_rpc v vs) (eased_scan v vs)
      (w_tasks v) _ k s x HA Hl Hpub Hx Hp) as (u & s' & Hc & Hx' & E1 & E2 & E3).
    destruct (eased_calm v vs _ _ _ Hc HA) as (v' & vs' & tr' & sy' & l & -> & Hg' & El & Ht & _ & (Hi' & _) & HH).
    exists v', vs', tr', l, s'. split; [exact Hg'|]. split; [exact El|]. split; [exact Ht|]. split; [exact Hx'|]. split; [exact E1|]. split; [exact E2|].
    split; [exists (sp_cur sy'); split; [apply (minv_shows hash order ford caching Hord Hford false _ _ Hi'); now eexists|congruence]|]. unfold all_sent in E3. unfold su_sent in E3. rewrite E3, E1, E2, Eh.
    unfold spec_read. cbn [cut]. apply list_filter_iff. intros e. unfold Spec.in_range, sub_from. destruct (su_after s); [|tauto]. rewrite <- N.le_succ_l. replace (N.succ n) with (n + 1) by lia. tauto.
  Qed.
End pipelined_live.

(** Three events are stored and a fourth is being written.  Client 7's read gets the three, client 9's subscription (after position 1, to a tag) the third,
    without any step of the threads. *)
Definition i_script : list wact :=
  [UZ (XArrive 0 e_three)] ++ u_thread 5 ++ u_io 6 ++ u_thread 5 ++
  [UT (VSubscribe 9 f_query (Some 1) None); UT (VRead 7 [] None false None None); UZ (XArrive 1 (g_cond None))] ++ u_thread 5 ++ u_io 2.
Definition i_check (v : wsrv) (vs : list wsrv) : bool :=
  match w_rpcs v !! 7%nat, w_rpcs v !! 9%nat, w_lost v with Some (QRd r QLoop), Some (QSub su QLoop), [] =>
    match rr_q r, rr_limit r, rr_out r, su_out su with [], None, [], [] => true | _, _, _, _ => false end | _, _, _ => false end &&
  match z_thread (w_z v), l_fly (z_pipe (w_z v)), l_phase (z_pipe (w_z v)) with ZFetch, Some f, PFetch => writing (y_io f) | _, _, _ => false end &&
  (h_next_pos (latest (s_proc (z_sys (w_z v)))).2 =? 4).
Example pipelined_live_example : exists v vs tr r su f v1 r1 v2 su2, w_going true 10 (v :: vs) tr /\ at_ease v /\
  l_fly (z_pipe (w_z v)) = Some f /\ writing (y_io f) = true /\ h_next_pos (latest (s_proc (z_sys (w_z v)))).2 = 4 /\
  w_rpcs v !! 7%nat = Some (QRd r QLoop) /\ rr_out r = [] /\ 7%nat ∉ w_lost v /\ tasks_only v v1 /\ w_rpcs v1 !! 7%nat = Some (QRd r1 QEnd) /\ rr_out r1 <> [] /\
  w_rpcs v !! 9%nat = Some (QSub su QLoop) /\ su_out su = [] /\ 9%nat ∉ w_lost v /\ tasks_only v v2 /\ w_rpcs v2 !! 9%nat = Some (QSub su2 QWait).
Proof.
  destruct (w_found true 10 i_script i_check) as (v & vs & tr & H & HP); [vm_compute; reflexivity|].
  unfold i_check in HP. apply andb_prop in HP as [HP P3]. apply andb_prop in HP as [P1 P2]. apply N.eqb_eq in P3.
  destruct (w_rpcs v !! 7%nat) as [[r []|]|] eqn:E7; try discriminate P1. destruct (w_rpcs v !! 9%nat) as [[|su []]|] eqn:E9; try discriminate P1. destruct (w_lost v) eqn:El; [|discriminate P1].
  destruct (rr_q r); [|discriminate P1]. destruct (rr_limit r) eqn:Elim; [discriminate P1|]. destruct (rr_out r) eqn:Eo; [|discriminate P1]. destruct (su_out su) eqn:Es; [|discriminate P1]. clear P1.
  destruct (z_thread (w_z v)) eqn:Et; try discriminate P2. destruct (l_fly (z_pipe (w_z v))) as [f|] eqn:Ef; [|discriminate P2]. destruct (l_phase (z_pipe (w_z v))) eqn:Ep; try discriminate P2.
  assert (He : at_ease v). { split; [right; exact Ep|]. rewrite Et. discriminate. }
  assert (Hl : forall k : nat, k ∉ w_lost v) by (rewrite El; intros k; apply not_elem_of_nil).
  destruct (pipelined_read_ends f_hash (fun l => l) x_ford true 10 x_ord x_ford_ok _ _ _ (proj1 (w_started true)) _ _ _ _ _ _ H He E7 (Hl _) I) as (v1 & vs1 & tr1 & l1 & r1 & s & G1 & _ & T1 & X1 & X1' & _).
  assert (Hl1 : 7%nat ∉ w_lost v1) by (destruct T1 as (_ & _ & _ & ->); apply Hl).
  destruct (pipelined_remote_read f_hash (fun l => l) x_ford true 10 x_ord x_ford_ok _ _ _ (proj1 (w_started true)) _ _ _ _ _ _ G1 X1 Hl1) as (_ & s' & _ & _ & Hend & _). destruct (Hend eq_refl) as [_ Hne].
  destruct (wserves_inv f_hash (fun l => l) x_ford true 10 x_ord x_ford_ok _ _ _ _ _ _ (proj1 (w_started true)) (proj1 H) (proj2 H)) as (sy & Hi & _).
  pose proof (minv_shows f_hash (fun l => l) x_ford true x_ord x_ford_ok false _ _ Hi ltac:(now eexists)) as Hst.
  destruct (pipelined_subscription_catches_up f_hash (fun l => l) x_ford true 10 x_ord x_ford_ok _ _ _ (proj1 (w_started true)) _ _ _ _ _ _ _ H He E9 (Hl _) Hst I) as (v2 & vs2 & tr2 & l2 & su2 & _ & _ & T2 & X2 & _).
  assert (Hne' : rr_out r1 <> []). { apply Hne. cbn in X1'. injection X1' as _ _ _ -> _. rewrite Elim. discriminate. }
  exists v, vs, tr, r, su, f, v1, r1, v2, su2. repeat (split; [assumption || apply Hl|]). exact X2.
Qed.
Print Assumptions pipelined_responses_bounded.
Print Assumptions pipelined_read_ends.
Print Assumptions pipelined_subscription_catches_up.
