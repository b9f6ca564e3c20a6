(** C62-C64: the requests that pass through the pipelining writer thread (PipelineServer.v). *)
From Verif Require Import Exec PropsStore PropsFindings PropsCrash PropsPipeline PropsPipelined.
From Verif Require Import MvccProofs SpecProofs StoreProofs PipelineSteps PipelineRefine.
From Verif Require Export PipelineQueue.
From Coq Require Import Relations.Relation_Operators Wellfounded.Lexicographic_Product.
Local Open Scope N_scope.

(** The head of what the last published commit holds, or is about to be. *)
Definition z_told (v : zsrv) : option N := match z_thread v with ZSend _ (Some h) _ => h | _ => z_head v end.

Section props.
  Context (hash : bytes -> bytes) (order : list bytes -> list bytes) (ford : gset N -> list N) (caching : bool) (max_events : N).
  Context (Hord : forall l t, t ∈ order l <-> t ∈ l) (Hford : forall s, ford s ≡ₚ elements s).
  Notation lstep := (lstep 16 dps hash order ford caching).
  Notation zstep := (zstep 16 dps hash order ford caching max_events).
  Notation zserves := (zserves 16 dps hash order ford caching max_events).
  Notation z_works := (z_works dps hash order ford caching max_events).
  Notation z_able := (z_able dps hash order ford).
  Notation mrun := (mrun hash order ford caching).
  Notation healthy := (healthy 16).
  Notation mshows := (mshows hash order).
  (** A thread that has just been started, on a database reached by [tr0]; each step meets [C]. *)
  Context (C : msys -> msys -> Prop) (s : psys) (h : option N).
  Context (Hp : l_phase (s_pipe s) = PFetch) (Hf : l_fly (s_pipe s) = None).
  Fixpoint z_all (vs : list zsrv) : Prop :=
    match vs with v' :: (v :: _) as vs' => C (MP (z_sys v)) (MP (z_sys v')) /\ z_all vs' | _ => True end.

  (** ** C62: answers *)
  (** Each request is in one place: answered, about to be answered, in the commit being written, in the batch being built, or
      in the queue; none is answered twice. *)
  Theorem pipelined_answered_once v vs tr : zserves s h (v :: vs) tr ->
    NoDup (map fst (z_seen v)) /\
    map fst (z_sent v) ++ map fst (z_decided (z_thread v)) ++ map fst (flying v) ++ map fst (z_held (z_thread v)) ++ map fst (queued (z_queue v)) ≡ₚ map fst (z_seen v).
  Proof.
    intros H. destruct (zserves_accounts dps hash order ford caching max_events _ _ _ _ _ Hp Hf H) as (P & A1 & _ & A3 & _ & _ & A6 & _). split; [exact A6|].
    rewrite <- A1, !map_app, app_assoc. rewrite <- map_app, <- A3, !map_map. reflexivity.
  Qed.
  Lemma zserves_mrun tr0 v vs tr : mrun C tr0 (MP s) -> zserves s h (v :: vs) tr -> z_all (v :: vs) -> mrun C (tr0 ++ tr) (MP (z_sys v)).
  Proof.
    intros H0 H. remember (v :: vs) as l eqn:El. revert v vs El. induction H as [|v vs tr ol v' H IH Hst]; intros w ws El Ha.
    - injection El as <- <-. now rewrite app_nil_r.
    - injection El as <- <-. destruct Ha as [Hc Ha]. specialize (IH _ _ eq_refl Ha). apply zstep_lstep in Hst. destruct ol as [l|].
      + rewrite app_assoc. eapply mrun_snoc; [exact IH|apply M_pipe, Hst|exact Hc].
      + rewrite app_nil_r, Hst. exact IH.
  Qed.
  (** Each request that was decided has a fate; answers are sent in the order of the decisions.  The committed ones are those of
      the database's commits, in the same order, which is that of arrival, with the answers given there; the others are
      answered with errors. *)
  Theorem pipelined_server_linearizable tr0 v vs tr : mrun C tr0 (MP s) -> zserves s h (v :: vs) tr -> z_all (v :: vs) ->
    exists P : list fate,
      map f_in P ⊆+ z_seen v /\ z_sent v `prefix_of` map f_out P /\
      map f_in (filter (fun f => f_done f = true) P) `sublist_of` z_seen v /\
      (forall f, f ∈ P -> f_done f = false -> exists e, f_ans f = Err e) /\
      map f_com (filter (fun f => f_done f = true) P) = commits tr /\
      mrun C (tr0 ++ tr) (MP (z_sys v)).
  Proof.
    intros H0 H Ha. destruct (zserves_accounts dps hash order ford caching max_events _ _ _ _ _ Hp Hf H) as (P & A1 & A2 & A3 & A4 & A5 & _). exists P.
    split; [rewrite <- A1; apply submseteq_inserts_r; reflexivity|]. split; [rewrite A3; eexists; reflexivity|].
    split; [etransitivity; [|exact A2]; apply sublist_inserts_r; reflexivity|]. split; [now rewrite Forall_forall in A5|]. split; [exact A4|].
    eapply zserves_mrun; eassumption.
  Qed.

  Lemma mrun_weaken (D : msys -> msys -> Prop) tr y : (forall a b, C a b -> D a b) -> mrun C tr y -> mrun D tr y.
  Proof.
    intros HC. assert (Hw : forall y0 t y1, msteps 16 dps hash order ford caching C y0 t y1 -> msteps 16 dps hash order ford caching D y0 t y1).
    { intros y0 t y1 H. induction H; [constructor|]. econstructor; eauto. }
    intros [H|H]; [left|right]; now apply Hw.
  Qed.
  (** So, if the thread was started on a database that shows [st0], the answers of the commits are those the requests get one after
      the other from [st0] on, and the result is what the database shows. *)
  Theorem pipelined_server_stored tr0 v vs tr st0 : (forall a b, C a b -> healthy a b) -> mrun C tr0 (MP s) -> mshows (MP s) st0 ->
    zserves s h (v :: vs) tr -> z_all (v :: vs) ->
    exists st1, spec_batch dps st0 (map fst (commits tr)) = (map snd (commits tr), st1) /\ mshows (MP (z_sys v)) st1.
  Proof.
    intros HC H0 Hs H. remember (v :: vs) as l eqn:El. revert v vs El. induction H as [|v vs tr ol v' H IH Hst]; intros w ws El Ha.
    - injection El as <- <-. exists st0. split; [reflexivity|exact Hs].
    - injection El as <- <-. destruct Ha as [Hc Ha]. destruct (IH _ _ eq_refl Ha) as (st1 & E1 & Hs1).
      pose proof (mrun_weaken _ _ _ HC (zserves_mrun _ _ _ _ H0 H Ha)) as Hr. apply zstep_lstep in Hst. destruct ol as [l|]; [|rewrite app_nil_r, Hst; eauto].
      assert (Hm : mstep 16 dps hash order ford caching (MP (z_sys v)) l (MP (z_sys v'))) by now constructor.
      rewrite commits_app, !map_app, batch_app, E1.
      destruct (mrun_inv hash order ford caching Hord Hford true _ _ Hr) as (sy & _ & Hi & _).
      assert (Hcalm : StoreProofs.calm l \/ exists reqs ans, l = LCommit reqs ans).
      { destruct l; cbn; eauto; exfalso; clear -Hst; inversion Hst; subst; try (destruct hdr; discriminate); match goal with H : pstep _ _ _ _ _ _ _ _ _ _ _ |- _ => inversion H end. }
      destruct Hcalm as [Hcalm|(reqs & ans & ->)].
      + replace (commits [l]) with (@nil (request * res N)) by (destruct l; try contradiction; reflexivity). cbn. exists st1. rewrite app_nil_r. split; [reflexivity|].
        destruct (msim_step hash order ford caching Hord Hford true _ _ _ _ Hi Hm (HC _ _ Hc)) as (sy' & Hss & Hi').
        pose proof (minv_eqv hash order ford caching Hord Hford true _ _ _ Hi Hs1) as He.
        assert (Hu : mup (MP (z_sys v'))) by now eexists. pose proof (minv_shows hash order ford caching Hord Hford true _ _ Hi' Hu) as Hsh.
        eapply shows_eqv; [exact Hsh|]. replace (sp_cur sy') with (sp_cur sy); [now symmetry|]. destruct l; try contradiction; inversion Hss; reflexivity.
      + destruct (pipelined_commit hash order ford caching Hord Hford _ _ _ _ _ _ Hr Hs1 Hm (HC _ _ Hc)) as (st2 & E2 & Hs2). exists st2. split; [|exact Hs2].
        unfold commits. cbn. rewrite app_nil_r. pose proof (batch_length dps st1 reqs) as Hl. rewrite E2 in Hl. cbn in Hl. change (map fst (zip reqs ans)) with (fst <$> zip reqs ans).
        change (map snd (zip reqs ans)) with (snd <$> zip reqs ans). rewrite fst_zip, snd_zip by lia. now rewrite E2.
  Qed.

  (** ** C63: the thread gets on *)
  Theorem pipelined_never_stuck v vs tr : zserves s h (v :: vs) tr -> z_able v -> z_thread v <> ZStop ->
    (z_thread v = ZFetch -> z_queue v = [] -> l_fly (z_pipe v) <> None) -> exists ol v', z_works v ol v'.
  Proof.
    intros H Hab Hs Hq. destruct (zserves_accounts dps hash order ford caching max_events _ _ _ _ _ Hp Hf H) as (P & _ & _ & _ & _ & _ & _ & A7 & _).
    apply (can_work dps hash order ford caching max_events v); auto. eapply zserves_idle; eassumption.
  Qed.
  (** Each step of the thread and of the I/O thread leaves less to do, in a well-founded order; steps of others, apart from new
      messages, do not change what is left.  When the thread is at rest every request has been answered. *)
  Theorem pipelined_finishes v vs tr : zserves s h (v :: vs) tr ->
    (forall ol v', z_works v ol v' -> z_less (z_left v') (z_left v)) /\
    (forall ol v', zstep v ol v' -> z_queue v' = z_queue v -> z_thread v' = z_thread v -> z_fly v' = z_fly v -> l_fly (z_pipe v') = l_fly (z_pipe v) -> z_left v' = z_left v) /\
    well_founded z_less /\
    (z_thread v = ZFetch -> z_queue v = [] -> l_fly (z_pipe v) = None -> map fst (z_sent v) ≡ₚ map fst (z_seen v)).
  Proof.
    intros H. destruct (zserves_accounts dps hash order ford caching max_events _ _ _ _ _ Hp Hf H) as (P & A1 & _ & A3 & _ & _ & _ & A7 & A8). split; [|split; [|split]].
    - intros ol v' Hw. eapply zworks_less; eassumption.
    - intros ol v' _ E1 E2 E3 E4. unfold z_left. now rewrite E1, E2, E3, E4.
    - apply wf_slexprod; apply lt_wf.
    - intros E1 E2 E3. unfold flying in A1. rewrite E1, E2, E3 in *. cbn in *. rewrite !app_nil_r in *. rewrite <- A1, <- A3, !map_map. reflexivity.
  Qed.
  (** A thread that has ended has answered every request it took. *)
  Definition ending (t : zphase) : bool := match t with ZStop | ZSend _ _ ZStop => true | _ => false end.
  Lemma ending_fly v vs tr : zserves s h (v :: vs) tr -> ending (z_thread v) = true -> l_fly (z_pipe v) = None.
  Proof.
    intros H. remember (v :: vs) as l eqn:El. revert v vs El. induction H as [|v vs tr ol v' H IH Hst]; intros w ws El.
    - injection El as <- <-. discriminate.
    - injection El as <- <-. specialize (IH _ _ eq_refl). destruct (zserves_accounts _ _ _ _ _ _ _ _ _ _ _ Hp Hf H) as (P & _ & _ & _ & _ & _ & _ & Hok & _).
      destruct Hst; unfold z_pipe in *; cbn; try exact IH; try discriminate.
      + rewrite H0 in IH. exact IH.
      + intros He. specialize (IH He). congruence.
      + intros He. specialize (IH He). congruence.
      + intros _. apply lstep_commit in H2 as (f' & _ & _ & _ & ->). reflexivity.
      + intros _. assumption.
      + intros _. assumption.
      + rewrite H0 in IH. exact IH.
      + rewrite H0 in IH, Hok. cbn in IH, Hok. destruct next; try discriminate; [now destruct Hok|auto].
  Qed.
  Theorem pipelined_shutdown v vs tr : zserves s h (v :: vs) tr -> z_thread v = ZStop ->
    map fst (z_sent v) ++ map fst (queued (z_queue v)) ≡ₚ map fst (z_seen v).
  Proof.
    intros H E. destruct (pipelined_answered_once _ _ _ H) as [_ Ho]. pose proof (ending_fly _ _ _ H) as Hn. rewrite E in *. unfold flying in Ho. rewrite (Hn eq_refl) in Ho. exact Ho.
  Qed.

  (** ** C64: the published head *)
  Lemma thread_tsn d p pi sy f : thread_inv 16 dps hash caching d p pi sy -> l_fly pi = Some f -> h_tsn (latest p).2 < h_tsn (y_header f).2.
  Proof.
    intros (g & [H|(f' & db & w & todo & H)]) Ef; [pose proof (a_fly _ _ _ _ _ _ _ _ _ H); congruence|].
    pose proof (b_fly _ _ _ _ _ _ _ _ _ _ _ _ _ H) as Hf'. assert (f' = f) as -> by congruence. pose proof (fly_next _ _ _ _ _ _ _ _ _ _ _ _ _ H) as (N1 & _ & _ & N4 & _).
    rewrite (b_hdr _ _ _ _ _ _ _ _ _ _ _ _ _ H). cbn [snd]. assert (Hlat : (latest p).2 = g_hdr (gh_cur g)) by exact (u_latest _ _ _ _ _ _ _ _ (b_u _ _ _ _ _ _ _ _ _ _ _ _ _ H)).
    rewrite Hlat, <- N1. lia.
  Qed.
  Lemma idle_latest d p l d' p' : pstep 16 dps hash order ford caching d p l d' p' -> p_writer p = WIdle -> latest p' = latest p.
  Proof. intros H E. destruct H; try congruence; reflexivity. Qed.
  Lemma lstep_latest s1 l s2 : lstep s1 l s2 ->
    latest (s_proc s2) = latest (s_proc s1) \/ exists f, l_fly (s_pipe s1) = Some f /\ l = LCommit (y_done f) (y_ans f) /\ s_proc s2 = pin_header (y_header f) (s_proc s1).
  Proof.
    intros H. destruct H; cbn; try (left; reflexivity).
    - left. eapply idle_latest; eassumption.
    - left. destruct caching; reflexivity.
    - right. eauto.
  Qed.
  Lemma lstep_pin s1 reqs ans s2 : lstep s1 (LCommit reqs ans) s2 -> exists f, l_fly (s_pipe s1) = Some f /\ y_io f = ICached /\ s_proc s2 = pin_header (y_header f) (s_proc s1).
  Proof. intros H. inversion H; subst; try (destruct hdr; discriminate); cbn; [match goal with H : pstep _ _ _ _ _ _ _ _ _ _ _ |- _ => now destruct (idle_label _ _ _ _ _ _ _ _ _ _ H) end|eauto]. Qed.
  Lemma told_step v ol v' sy : zstep v ol v' -> minv 16 dps hash caching true (MP (z_sys v)) sy -> z_ok (z_thread v) (z_pipe v) ->
    z_told v = header_head (latest (s_proc (z_sys v))).2 -> z_told v' = header_head (latest (s_proc (z_sys v'))).2.
  Proof.
    intros H Hi Hok Ht.
    assert (Hsame : forall s', lstep (z_sys v) LTau s' \/ (exists r, lstep (z_sys v) (LAbort r) s') \/ (exists r, lstep (z_sys v) (LUnsure r) s') -> latest (s_proc s') = latest (s_proc (z_sys v))).
    { intros s' [Hl|[(r & Hl)|(r & Hl)]]; (apply lstep_latest in Hl as [E|(f & _ & E & _)]; [exact E|discriminate]). }
    unfold z_told in *. destruct H; cbn [z_thread z_head z_sys z_set_sys z_set_thread z_set_queue z_set_fly z_send z_note z_leave z_publish] in *; try exact Ht.
    all: try match goal with E : z_thread _ = _ |- _ => rewrite E in * end; try exact Ht.
    all: try match goal with E : lstep _ LTau _ |- _ => rewrite (Hsame _ (or_introl E)) end; try exact Ht.
    all: try match goal with E : lstep _ (LAbort _) _ |- _ => rewrite (Hsame _ (or_intror (or_introl (ex_intro _ _ E)))) end; try exact Ht.
    - rewrite H in Ht. cbn in *. rewrite (idle_latest _ _ _ _ _ H0 H1). exact Ht.
    - apply lstep_pin in H1 as (f' & Ef & Ey & E). unfold z_pipe in H0. rewrite Ef in H0. injection H0 as ->. rewrite E, (latest_pin 16 dps dps32 ltac:(lia)); [reflexivity|].
      destruct Hi as [Hi|[(f0 & Ef0 & Ey0) _]]; [|congruence]. pose proof (thread_tsn _ _ _ _ _ Hi Ef) as Htsn. now rewrite view_latest in Htsn.
    - rewrite (Hsame s') by (destruct hdr; eauto). destruct (z_thread v); try discriminate; exact Ht.
    - destruct next; try (now destruct Hok); destruct h0; exact Ht.
  Qed.
  (** What is published is the head of the database as it is then: the events a subscriber is woken for can be read. *)
  Theorem pipelined_published tr0 v vs tr st : (forall a b, C a b -> healthy a b) -> mrun C tr0 (MP s) -> (forall st0, mshows (MP s) st0 -> h = spec_head st0) ->
    zserves s h (v :: vs) tr -> z_all (v :: vs) -> mshows (MP (z_sys v)) st -> z_told v = spec_head st.
  Proof.
    intros HC H0 Hh H Ha Hs.
    assert (Hinv : forall v vs tr, zserves s h (v :: vs) tr -> z_all (v :: vs) -> exists sy, minv 16 dps hash caching true (MP (z_sys v)) sy).
    { intros w ws t Hw Hz. pose proof (zserves_mrun _ _ _ _ H0 Hw Hz) as Hr. apply (mrun_weaken _ _ _ HC) in Hr.
      destruct (mrun_inv hash order ford caching Hord Hford true _ _ Hr) as (sy & _ & Hi & _). eauto. }
    assert (Ht : z_told v = header_head (latest (s_proc (z_sys v))).2).
    { clear Hs. remember (v :: vs) as l eqn:El. revert v vs El. induction H as [|v vs tr ol v' H IH Hst]; intros w ws El.
      - injection El as <- <-. cbn. destruct (Hinv _ _ _ (zserves_init _ _ _ _ _ _ _ s h) I) as (sy & Hi).
        pose proof (minv_shows hash order ford caching Hord Hford true _ _ Hi ltac:(now eexists)) as Hsh. rewrite (Hh _ Hsh). destruct Hsh as (p & E & _ & _ & <-). cbn in E. now injection E as <-.
      - injection El as <- <-. destruct Ha as [Hc Ha]. destruct (Hinv _ _ _ H Ha) as (sy & Hi).
        destruct (zserves_accounts _ _ _ _ _ _ _ _ _ _ _ Hp Hf H) as (P & _ & _ & _ & _ & _ & _ & Hok & _).
        eapply told_step; [exact Hst|exact Hi|exact Hok|]. eapply IH; eauto. }
    rewrite Ht. destruct Hs as (p & E & _ & _ & <-). cbn in E. now injection E as <-.
  Qed.
End props.

(** ** Running it *)
(** [XThread]: the next step of the thread; [XIo]: of the I/O thread; [XIoFails]: a page cannot be written. *)
Inductive zact := XArrive (id : nat) (r : request) | XLeave (id : nat) | XShutdown | XThread | XIo | XIoFails.
#[local] Instance pphase_eq : EqDecision pphase. Proof. solve_decision. Defined.
#[local] Instance writer_eq : EqDecision writer. Proof. solve_decision. Defined.
Definition last_ans (pi : pipe) : option (res N) := match l_phase pi with PBuild _ ans | PBuilt _ ans _ => last ans | PFetch => None end.
Section zexec.
  Context (c : bool) (max_events : N).
  Notation ex := (p_exec c).
  Definition zbuilt (v : zsrv) (items : list Server.item) (q : list msg) : option (option label * zsrv) :=
    match ex (z_sys v) BBuilt with
    | Some (LTau, s') => if bool_decide (l_phase (s_pipe s') = PBuilt (map it_req items) (map it_ans items) None)
        then Some (Some LTau, z_set_queue q (z_set_sys s' (z_set_thread (ZBarrier items) v))) else None
    | _ => None
    end.
  Definition zack (v : zsrv) (f : fly) (next : zphase) : option (option label * zsrv) :=
    match y_io f with
    | IDone => match ex (z_sys v) BCache with Some (LTau, s') => Some (Some LTau, z_set_sys s' v) | _ => None end
    | ICached => match ex (z_sys v) BAck with
        | Some (_, s') => Some (Some (LCommit (y_done f) (y_ans f)), z_set_sys s' (z_set_fly [] (z_set_thread (ZSend (zip (z_fly v) (y_ans f)) (Some (fly_head f)) next) v)))
        | _ => None end
    | IFailed hdr => match z_after (z_thread v), ex (z_sys v) BFailed with
        | Some (items, next'), Some (l, s') =>
            Some (Some l, z_set_sys s' (z_set_fly [] (z_set_thread (ZSend (map (fun i => (i, Err EIo)) (z_fly v) ++ map (fun x => (it_id x, Err EIo)) items) None next') v)))
        | _, _ => None end
    | _ => None
    end.
  Definition zexec (v : zsrv) (a : zact) : option (option label * zsrv) :=
    match a with
    | XArrive id r => match z_thread v with ZStop => None | _ =>
        if bool_decide (id ∈ map fst (z_seen v)) then None else Some (None, z_set_queue (z_queue v ++ [MAppend id r]) (z_note (id, r) v)) end
    | XLeave id => Some (None, z_leave id v)
    | XShutdown => Some (None, z_set_queue (z_queue v ++ [MShutdown]) v)
    | XIo => match l_fly (z_pipe v) with
        | Some f => let go b x := match ex (z_sys v) b with Some (LTau, s') => Some (Some LTau, z_set_sys s' v) | _ => None end in
          match y_io f with IPages [] => go BSync IHeader | IPages (_ :: todo) => go BPage (IPages todo) | IHeader => go BHeader ISync | ISync => go BDone IDone | _ => None end
        | None => None end
    | XIoFails => match l_fly (z_pipe v) with
        | Some f => match y_io f, ex (z_sys v) BPageFails with IPages (_ :: _), Some (LTau, s') => Some (Some LTau, z_set_sys s' v) | _, _ => None end
        | None => None end
    | XThread =>
      match z_thread v with
      | ZFetch => match z_queue v with
          | MAppend id r :: q => Some (None, z_set_queue q (z_set_thread (ZOpen id r) v))
          | MShutdown :: q => Some (None, z_set_queue q (z_set_thread ZReap v))
          | [] => match l_fly (z_pipe v) with Some _ => Some (None, z_set_thread ZIdle v) | None => None end end
      | ZOpen id r => match ex (z_sys v) BBegin with Some (LTau, s') => Some (Some LTau, z_set_sys s' (z_set_thread (ZProc [] id r) v)) | _ => None end
      | ZProc items id r =>
        if bool_decide (id ∈ z_gone v) then
          match ex (z_sys v) (BCancel r) with
          | Some (LTau, s') => match last_ans (s_pipe s') with
              | Some (Err e) => if bool_decide (l_phase (s_pipe s') = PBuilt (map it_req items ++ [r]) (map it_ans items ++ [Err e]) (Some e))
                  then Some (Some LTau, z_set_sys s' (z_set_thread (ZBarrier (items ++ [(id, r, Err e)])) v)) else None
              | _ => None end
          | _ => None end
        else
          match ex (z_sys v) (BReq r) with
          | Some (LTau, s') => match last_ans (s_pipe s') with
              | Some a => if bool_decide (l_phase (s_pipe s') = PBuild (map it_req items ++ [r]) (map it_ans items ++ [a]))
                  then Some (Some LTau, z_set_sys s' (z_set_thread (ZDrain (items ++ [(id, r, a)])) v)) else None
              | _ => None end
          | _ => None end
      | ZDrain items =>
        if max_events <=? total_events items then zbuilt v items (z_queue v)
        else match z_queue v with
          | MAppend id r :: q => Some (None, z_set_queue q (z_set_thread (ZProc items id r) v))
          | MShutdown :: q => zbuilt v items q
          | [] => zbuilt v items [] end
      | ZBarrier items => match l_fly (z_pipe v) with
          | Some f => zack v f (ZBarrier items)
          | None => match l_phase (z_pipe v) with
              | PBuilt _ _ (Some e) => match ex (z_sys v) (BAbort []) with
                  | Some (LAbort reqs, s') => Some (Some (LAbort reqs), z_set_sys s' (z_set_thread (ZSend (map (fun x => (it_id x, Err e)) items) None ZFetch) v))
                  | _ => None end
              | _ => match ex (z_sys v) BDispatch with
                  | Some (LTau, s') => match l_fly (s_pipe s') with Some _ => Some (Some LTau, z_set_sys s' (z_set_fly (map it_id items) (z_set_thread ZFetch v))) | None => None end
                  | _ => None end
              end end
      | ZIdle => match l_fly (z_pipe v) with Some f => zack v f ZFetch | None => None end
      | ZReap => match l_fly (z_pipe v) with Some f => zack v f ZStop | None => Some (None, z_set_thread ZStop v) end
      | ZSend ((id, a) :: todo) h next => Some (None, z_send (id, a) (z_set_thread (ZSend todo h next) v))
      | ZSend [] h next => Some (None, z_publish h (z_set_thread next v))
      | ZStop => None
      end
    end.
  Notation zstep := (zstep 16 4096 f_hash (fun l => l) x_ford c max_events).
  Lemma ex_ok s a l s' : ex s a = Some (l, s') -> lstep 16 4096 f_hash (fun l => l) x_ford c s l s'. Proof. apply lexec_ok. Qed.
  Lemma zbuilt_ok v items q ol v' : zbuilt v items q = Some (ol, v') -> exists s', lstep 16 4096 f_hash (fun l => l) x_ford c (z_sys v) LTau s' /\
    l_phase (s_pipe s') = PBuilt (map it_req items) (map it_ans items) None /\ ol = Some LTau /\ v' = z_set_queue q (z_set_sys s' (z_set_thread (ZBarrier items) v)).
  Proof.
    unfold zbuilt. intros H. destruct (ex (z_sys v) BBuilt) as [[[] s']|] eqn:E; try discriminate. case_bool_decide; [|discriminate]. injection H as <- <-. apply ex_ok in E. eauto.
  Qed.
  Lemma zack_ok v f next ol v' : l_fly (z_pipe v) = Some f -> z_next (z_thread v) = Some next -> zack v f next = Some (ol, v') -> zstep v ol v'.
  Proof.
    intros Ef En. unfold zack. destruct (y_io f) eqn:Ey; try discriminate.
    - destruct (ex (z_sys v) BCache) as [[[] s']|] eqn:E; try discriminate. intros H. injection H as <- <-. eapply (Z_cached _ _ _ _ _ _ _ _ f); [congruence|exact Ef|exact Ey|exact (ex_ok _ _ _ _ E)|].
      unfold z_pipe in *. destruct (z_sys v) as [d p pi]. cbn [lexec s_pipe] in *. rewrite Ef, Ey in E. destruct (l_phase pi); try discriminate; injection E as <-; reflexivity.
    - destruct (ex (z_sys v) BAck) as [[l s']|] eqn:E; try discriminate. intros H. injection H as <- <-. eapply Z_acked; [exact En|exact Ef|].
      pose proof (ex_ok _ _ _ _ E) as Hl. unfold z_pipe in *. destruct (z_sys v) as [d p pi]. cbn [lexec s_pipe] in *. rewrite Ef, Ey in E. destruct (l_phase pi); try discriminate; injection E as <- <-; exact Hl.
    - destruct (z_after (z_thread v)) as [[items next']|] eqn:Ea; [|discriminate]. destruct (ex (z_sys v) BFailed) as [[l s']|] eqn:E; try discriminate. intros H. injection H as <- <-.
      pose proof (ex_ok _ _ _ _ E) as Hl. assert (exists reqs, l = (if hdr then LUnsure else LAbort) reqs /\ l_fly (s_pipe s') = None) as (reqs & -> & En').
      { unfold z_pipe in *. destruct (z_sys v) as [d p pi]. cbn [lexec s_pipe] in *. rewrite Ef, Ey in E. destruct (l_phase pi); try discriminate; injection E as <- <-; eexists; (split; [reflexivity|apply rollback_pipe]). }
      eapply Z_failed; [exact Ea|exact Ef|exact Ey|exact Hl|exact En'|discriminate|discriminate].
  Qed.
  Lemma zexec_ok v a ol v' : zexec v a = Some (ol, v') -> zstep v ol v'.
  Proof.
    destruct a; cbn [zexec].
    - destruct (z_thread v) eqn:Et; try discriminate; case_bool_decide; try discriminate; intros E; injection E as <- <-; (apply Z_arrive; [congruence|assumption]).
    - intros E. injection E as <- <-. constructor.
    - intros E. injection E as <- <-. constructor.
    - destruct (z_thread v) as [|id r|items id r|items|items| | |todo h next|] eqn:Et; intros E.
      + destruct (z_queue v) as [|[id r|] q] eqn:Eq.
        * destruct (l_fly (z_pipe v)) eqn:Ef; [|discriminate]. injection E as <- <-. apply Z_idle; congruence.
        * injection E as <- <-. now apply Z_take.
        * injection E as <- <-. now apply Z_stop.
      + destruct (ex (z_sys v) BBegin) as [[[] s']|] eqn:Ex; try discriminate. injection E as <- <-. eapply Z_begin; [exact Et|exact (ex_ok _ _ _ _ Ex)|].
        destruct (z_sys v) as [d p pi]. cbn [lexec] in Ex. destruct (l_phase pi); try discriminate. destruct (find_reusable_page_ids _ _ _) as [[[]|] w]; [|discriminate]. now injection Ex as <-.
      + case_bool_decide.
        * destruct (ex (z_sys v) (BCancel r)) as [[[] s']|] eqn:Ex; try discriminate. destruct (last_ans _) as [[|e]|]; try discriminate. case_bool_decide; [|discriminate]. injection E as <- <-.
          eapply Z_fails; [exact Et|exact (ex_ok _ _ _ _ Ex)|assumption|auto].
        * destruct (ex (z_sys v) (BReq r)) as [[[] s']|] eqn:Ex; try discriminate. destruct (last_ans _) as [a|]; try discriminate. case_bool_decide; [|discriminate]. injection E as <- <-.
          eapply Z_process; [exact Et|exact (ex_ok _ _ _ _ Ex)|assumption].
      + destruct (N.leb_spec max_events (total_events items)).
        * apply zbuilt_ok in E as (s' & H1 & H2 & -> & ->). change (z_set_queue (z_queue v) ?x) with x. eapply Z_full; eassumption.
        * destruct (z_queue v) as [|[id r|] q] eqn:Eq.
          -- apply zbuilt_ok in E as (s' & H1 & H2 & -> & ->). rewrite <- Eq. eapply Z_empty; eassumption.
          -- injection E as <- <-. now apply Z_more.
          -- apply zbuilt_ok in E as (s' & H1 & H2 & -> & ->). eapply Z_swallow; eassumption.
      + destruct (l_fly (z_pipe v)) as [f|] eqn:Ef; [eapply zack_ok; [exact Ef|now rewrite Et|exact E]|].
        assert (Hd : match ex (z_sys v) BDispatch with Some (LTau, s') => match l_fly (s_pipe s') with Some _ => Some (Some LTau, z_set_sys s' (z_set_fly (map it_id items) (z_set_thread ZFetch v))) | None => None end | _ => None end = Some (ol, v') -> zstep v ol v').
        { destruct (ex (z_sys v) BDispatch) as [[[] s']|] eqn:Ex; try discriminate. destruct (l_fly (s_pipe s')) as [f|] eqn:Ef'; [|discriminate]. intros H. injection H as <- <-.
          eapply Z_dispatch; [exact Et|exact Ef|exact (ex_ok _ _ _ _ Ex)|exact Ef']. }
        destruct (l_phase (z_pipe v)) as [| |done ans [e|]] eqn:Ep; try exact (Hd E).
        destruct (ex (z_sys v) (BAbort [])) as [[[] s']|] eqn:Ex; try discriminate. injection E as <- <-. eapply Z_abort; [exact Et|exact Ef|exact (ex_ok _ _ _ _ Ex)|].
        intros dn an o E'. rewrite Ep in E'. now injection E' as <- <- <-.
      + destruct (l_fly (z_pipe v)) as [f|] eqn:Ef; [|discriminate]. eapply zack_ok; [exact Ef|now rewrite Et|exact E].
      + destruct (l_fly (z_pipe v)) as [f|] eqn:Ef; [eapply zack_ok; [exact Ef|now rewrite Et|exact E]|]. injection E as <- <-. now apply Z_reap.
      + destruct todo as [|[id a] todo]; injection E as <- <-; [now eapply Z_publish|now eapply Z_send].
      + discriminate.
    - destruct (l_fly (z_pipe v)) as [f|] eqn:Ef; [|discriminate].
      assert (Hgo : forall b x s', writing (y_io f) = true -> ex (z_sys v) b = Some (LTau, s') -> s_proc s' = s_proc (z_sys v) -> s_pipe s' = set_fly (Some (set_io x f)) (z_pipe v) -> zstep v (Some LTau) (z_set_sys s' v)).
      { intros b x s' Hw Hx H1 H2. eapply Z_io; [exact Ef|exact Hw|exact (ex_ok _ _ _ _ Hx)|exact H1|exact H2]. }
      destruct (y_io f) as [[|[q b] todo]| | | | |] eqn:Ey; try discriminate; intros E.
      + destruct (ex (z_sys v) BSync) as [[[] s']|] eqn:Ex; try discriminate. injection E as <- <-. eapply (Hgo _ IHeader); [reflexivity|exact Ex|..]; unfold z_pipe in *; destruct (z_sys v) as [d p pi]; cbn [lexec s_pipe] in *; rewrite Ef, Ey in Ex; injection Ex as <-; reflexivity.
      + destruct (ex (z_sys v) BPage) as [[[] s']|] eqn:Ex; try discriminate. injection E as <- <-. eapply (Hgo _ (IPages todo)); [reflexivity|exact Ex|..]; unfold z_pipe in *; destruct (z_sys v) as [d p pi]; cbn [lexec s_pipe] in *; change (4096 =? DEFAULT_PAGE_SIZE) with true in Ex; cbv iota in Ex; rewrite Ef, Ey in Ex; injection Ex as <-; reflexivity.
      + destruct (ex (z_sys v) BHeader) as [[[] s']|] eqn:Ex; try discriminate. injection E as <- <-. eapply (Hgo _ ISync); [reflexivity|exact Ex|..]; unfold z_pipe in *; destruct (z_sys v) as [d p pi]; cbn [lexec s_pipe] in *; rewrite Ef, Ey in Ex; injection Ex as <-; reflexivity.
      + destruct (ex (z_sys v) BDone) as [[[] s']|] eqn:Ex; try discriminate. injection E as <- <-. eapply (Hgo _ IDone); [reflexivity|exact Ex|..]; unfold z_pipe in *; destruct (z_sys v) as [d p pi]; cbn [lexec s_pipe] in *; rewrite Ef, Ey in Ex; injection Ex as <-; reflexivity.
    - destruct (l_fly (z_pipe v)) as [f|] eqn:Ef; [|discriminate]. destruct (y_io f) as [[|[q b] todo]| | | | |] eqn:Ey; try discriminate. destruct (ex (z_sys v) BPageFails) as [[[] s']|] eqn:Ex; try discriminate.
      intros E. injection E as <- <-. eapply (Z_io _ _ _ _ _ _ _ _ f (IFailed false)); [exact Ef|now rewrite Ey|exact (ex_ok _ _ _ _ Ex)|..]; unfold z_pipe in *; destruct (z_sys v) as [d p pi]; cbn [lexec s_pipe] in *;
        change (4096 =? DEFAULT_PAGE_SIZE) with true in Ex; cbv iota in Ex; rewrite Ef, Ey in Ex; injection Ex as <-; reflexivity.
  Qed.
End zexec.
Notation z_serves c m := (zserves 16 4096 f_hash (fun l => l) x_ford c m b_init None).
#[local] Instance gives_up_dec pi : Decision (gives_up pi).
Proof.
  unfold gives_up. destruct (l_fly pi) as [f|]; [destruct (y_io f) as [| | | | |[]]; first [left; reflexivity|right; discriminate]|].
  destruct (l_phase pi); first [left; exact I|right; exact id].
Defined.
Definition z_calm (v v' : zsrv) : bool :=
  let p := s_proc (z_sys v) in
  match l_fly (z_pipe v') with Some f => match y_io f with IFailed true => false | _ => true end | None => true end &&
  match l_fly (z_pipe v), l_fly (z_pipe v') with
  | Some f, Some f' => match y_io f, y_io f' with IFailed false, _ => true | _, IFailed false => match map_to_list (p_cache p) with [] => true | _ => false end | _, _ => true end
  | _, _ => true end &&
  match l_phase (z_pipe v'), l_fly (z_pipe v') with
  | PFetch, None => if decide (gives_up (z_pipe v)) then
      match mvcc_writer (fetch 16 (p_cache p) (s_disk (z_sys v))) (reg_min (p_regs p)) (latest p).2 with
      | (Ok tt, w) => bool_decide (w = l_w (z_pipe v') /\ l_header (z_pipe v') = latest p) | _ => false end else true
  | _, _ => true end.
Lemma z_calm_ok v v' : z_calm v v' = true -> healthy 16 (MP (z_sys v)) (MP (z_sys v')).
Proof.
  unfold z_calm, z_pipe. intros H. apply andb_prop in H as [H H3]. apply andb_prop in H as [H1 H2]. destruct (z_sys v) as [d p pi], (z_sys v') as [d' p' pi']. cbn [s_disk s_proc s_pipe] in *. split; [|split].
  - intros f Ef E. rewrite Ef, E in H1. discriminate.
  - intros f f' Ef Ef' Hn Hy q n _ Hq. rewrite Ef, Ef', Hy in H2. destruct (map_to_list (p_cache p)) eqn:Em; [apply map_to_list_empty_iff in Em; rewrite Em, lookup_empty in Hq; discriminate|].
    destruct (y_io f) as [| | | | |[]]; try discriminate H2. now destruct Hn.
  - intros Hg Ep Ef. rewrite Ep, Ef in H3. rewrite decide_True in H3 by exact Hg. destruct (mvcc_writer _ _ _) as [[[]|] w]; [|discriminate]. apply bool_decide_eq_true in H3 as [-> ->]. auto.
Qed.
Fixpoint z_run (c : bool) (m : N) (strict : bool) (v : zsrv) (vs : list zsrv) (tr : list label) (acts : list zact) : option (zsrv * list zsrv * list label) :=
  match acts with
  | [] => Some (v, vs, tr)
  | a :: acts' => match zexec c m v a with
      | Some (ol, v') => if implb strict (z_calm v v') then z_run c m strict v' (v :: vs) (tr ++ match ol with Some l => [l] | None => [] end) acts' else None
      | None => None end
  end.
Lemma z_run_ok c m strict v vs tr acts v' vs' tr' : z_serves c m (v :: vs) tr -> (strict = true -> z_all (healthy 16) (v :: vs)) -> z_run c m strict v vs tr acts = Some (v', vs', tr') ->
  z_serves c m (v' :: vs') tr' /\ (strict = true -> z_all (healthy 16) (v' :: vs')).
Proof.
  revert v vs tr. induction acts as [|a acts IH]; cbn [z_run]; intros v vs tr H Ha E; [injection E as <- <- <-; auto|].
  destruct (zexec c m v a) as [[ol v1]|] eqn:Ex; [|discriminate]. destruct (implb strict (z_calm v v1)) eqn:Ec; [|discriminate]. eapply IH; [| |exact E].
  - econstructor; [exact H|]. exact (zexec_ok _ _ _ _ _ _ Ex).
  - intros ->. split; [now apply z_calm_ok|now apply Ha].
Qed.
Lemma z_found c m strict acts (P : zsrv -> list zsrv -> list label -> bool) :
  match z_run c m strict (z_init b_init None) [] [] acts with Some (v, vs, tr) => P v vs tr | None => false end = true ->
  exists v vs tr, z_serves c m (v :: vs) tr /\ (strict = true -> z_all (healthy 16) (v :: vs)) /\ P v vs tr = true.
Proof.
  destruct (z_run c m strict (z_init b_init None) [] [] acts) as [[[v vs] tr]|] eqn:E; [|discriminate]. intros HP. exists v, vs, tr.
  destruct (z_run_ok _ _ _ _ _ _ _ _ _ _ (zserves_init _ _ _ _ _ _ _ _ _) (fun _ => I) E) as [H1 H2]. auto.
Qed.
Lemma b_started c : mrun f_hash (fun l => l) x_ford c (healthy 16) [LTau] (MP b_init) /\ l_phase (s_pipe b_init) = PFetch /\ l_fly (s_pipe b_init) = None /\
  forall st, mshows f_hash (fun l => l) (MP b_init) st -> None = spec_head st.
Proof.
  split; [|split; [reflexivity|split; [reflexivity|]]].
  - right. change [LTau] with ([] ++ [LTau]). econstructor; [constructor| |exact I]. apply M_start. exact b_starts.
  - intros st (p & E & _ & _ & <-). injection E as <-. reflexivity.
Qed.
Definition x_thread (n : nat) : list zact := replicate n XThread.
(** Client 1's request is built while client 0's is being written. *)
Definition x_overlap : list zact :=
  [XArrive 0 f_one] ++ x_thread 5 ++ [XArrive 1 f_one] ++ x_thread 4.
Definition x_rest : list zact := replicate 6 XIo ++ x_thread 6 ++ replicate 6 XIo ++ x_thread 4.
Example pipelined_server_example c : exists v vs tr, z_serves c 10 (v :: vs) tr /\ z_all (healthy 16) (v :: vs) /\
  z_thread v = ZFetch /\ z_queue v = [] /\ z_sent v = [(0%nat, Ok 1); (1%nat, Ok 2)] /\ z_head v = Some 2 /\ commits tr = [(f_one, Ok 1); (f_one, Ok 2)] /\
  exists w, w ∈ vs /\ flying w = [(0%nat, f_one)] /\ z_held (z_thread w) = [(1%nat, f_one)].
Proof.
  destruct (z_found c 10 true (x_overlap ++ x_rest) (fun v vs tr => match z_thread v, z_queue v, z_head v with ZFetch, [], Some 2 =>
      bool_decide (z_sent v = [(0%nat, Ok 1); (1%nat, Ok 2)] /\ commits tr = [(f_one, Ok 1); (f_one, Ok 2)]) &&
      existsb (fun w => bool_decide (flying w = [(0%nat, f_one)] /\ z_held (z_thread w) = [(1%nat, f_one)])) vs
    | _, _, _ => false end)) as (v & vs & tr & H & Ha & HP); [destruct c; vm_compute; reflexivity|].
  exists v, vs, tr. split; [exact H|]. split; [now apply Ha|]. clear H Ha. cases. apply andb_prop in HP as [K1 K2]. apply bool_decide_eq_true in K1 as [K1 K1'].
  repeat split; auto. apply existsb_exists in K2 as (w & Hw & Hp). apply bool_decide_eq_true in Hp as [? ?]. exists w. split; [now apply elem_of_list_In|auto].
Qed.
(** Pages of client 0's request cannot be written while client 1's is processed: both get errors; client 2's is stored. *)
Example pipelined_server_failure_example : exists v vs tr, z_serves false 10 (v :: vs) tr /\ z_all (healthy 16) (v :: vs) /\
  z_thread v = ZFetch /\ z_queue v = [] /\ z_sent v = [(0%nat, Err EIo); (1%nat, Err EIo); (2%nat, Ok 1)] /\ z_head v = Some 1 /\ commits tr = [(f_one, Ok 1)].
Proof.
  destruct (z_found false 10 true (x_overlap ++ [XIo; XIoFails] ++ x_thread 4 ++ [XArrive 2 f_one] ++ x_thread 6 ++ replicate 6 XIo ++ x_thread 4) (fun v vs tr => match z_thread v, z_queue v, z_head v with ZFetch, [], Some 1 =>
      bool_decide (z_sent v = [(0%nat, Err EIo); (1%nat, Err EIo); (2%nat, Ok 1)] /\ commits tr = [(f_one, Ok 1)])
    | _, _, _ => false end)) as (v & vs & tr & H & Ha & HP); [vm_compute; reflexivity|].
  exists v, vs, tr. split; [exact H|]. split; [now apply Ha|]. clear H Ha. cases. apply bool_decide_eq_true in HP as [K1 K2]. auto 10.
Qed.
(** In the middle of it the thread can go on: see [pipelined_never_stuck]. *)
Example pipelined_able_example c : exists v vs tr, z_serves c 10 (v :: vs) tr /\ z_able 4096 f_hash (fun l => l) x_ford v /\
  z_thread v = ZProc [] 1 f_one /\ flying v = [(0%nat, f_one)].
Proof.
  destruct (z_found c 10 true ([XArrive 0 f_one] ++ x_thread 5 ++ [XArrive 1 f_one] ++ x_thread 2) (fun v vs tr => match z_thread v with ZProc [] 1 r =>
      bool_decide (r = f_one /\ flying v = [(0%nat, f_one)] /\ req_wf' (l_w (z_pipe v)) f_one) &&
      match (process_append_request (Pipeline.snap 16 (s_disk (z_sys v)) (s_proc (z_sys v)) (z_pipe v)) 16 4096 f_hash (fun l => l) (false, false) (rq_events f_one) (rq_cond f_one) (rq_trk f_one) (l_w (z_pipe v))).1 with
      | Ok _ => true | Err _ => false end
    | _ => false end)) as (v & vs & tr & H & _ & HP); [destruct c; vm_compute; reflexivity|].
  exists v, vs, tr. split; [exact H|]. clear H. destruct (z_thread v) as [| |[|] [|[|]] r| | | | | |] eqn:Et; try discriminate HP. apply andb_prop in HP as [K1 K2]. apply bool_decide_eq_true in K1 as (-> & K1 & K3).
  split; [|split; [reflexivity|exact K1]]. split.
  - intros items id r E. rewrite Et in E. injection E as <- <- <-. split; [apply req_wf'_ok, K3|]. intros w E. rewrite E in K2. discriminate.
  - intros items todo hp hb pages w E. rewrite Et in E. discriminate.
Qed.
(** A shutdown message is taken while a commit is being written: its client is answered, then the thread ends.  The request behind
    the message is never looked at. *)
Example pipelined_shutdown_example c : exists v vs tr, z_serves c 10 (v :: vs) tr /\ z_all (healthy 16) (v :: vs) /\
  z_thread v = ZStop /\ z_sent v = [(0%nat, Ok 1)] /\ z_queue v = [MAppend 1 f_one] /\ map fst (z_seen v) = [0%nat; 1%nat].
Proof.
  destruct (z_found c 10 true ([XArrive 0 f_one] ++ x_thread 5 ++ [XShutdown; XArrive 1 f_one; XThread] ++ replicate 6 XIo ++ x_thread 4) (fun v vs tr => match z_thread v, z_queue v with
      ZStop, [MAppend 1 r] => bool_decide (r = f_one /\ z_sent v = [(0%nat, Ok 1)] /\ map fst (z_seen v) = [0%nat; 1%nat]) | _, _ => false end))
    as (v & vs & tr & H & Ha & HP); [destruct c; vm_compute; reflexivity|].
  exists v, vs, tr. split; [exact H|]. split; [now apply Ha|]. clear H Ha. cases. apply bool_decide_eq_true in HP as (-> & K1 & K2). auto.
Qed.
(** As with the other thread (C42), a shutdown message that is taken while more requests are looked for is forgotten: a request
    that comes later is processed, and the thread waits for more. *)
Theorem pipelined_shutdown_honoured_refuted c : exists v vs tr, z_serves c 10 (v :: vs) tr /\ z_all (healthy 16) (v :: vs) /\
  z_thread v = ZFetch /\ z_queue v = [] /\ l_fly (z_pipe v) = None /\ z_sent v = [(0%nat, Ok 1); (1%nat, Ok 2)] /\
  exists w, w ∈ vs /\ z_queue w = [MAppend 0 f_one; MShutdown] /\ z_sent w = [] /\ map fst (z_seen w) = [0%nat].
Proof.
  destruct (z_found c 10 true ([XArrive 0 f_one; XShutdown] ++ x_thread 6 ++ replicate 6 XIo ++ x_thread 4 ++ [XArrive 1 f_one] ++ x_thread 6 ++ replicate 6 XIo ++ x_thread 4)
    (fun v vs tr => match z_thread v, z_queue v, l_fly (z_pipe v) with ZFetch, [], None =>
      bool_decide (z_sent v = [(0%nat, Ok 1); (1%nat, Ok 2)]) &&
      existsb (fun w => match z_queue w with [MAppend 0 r; MShutdown] => bool_decide (r = f_one /\ z_sent w = [] /\ map fst (z_seen w) = [0%nat]) | _ => false end) vs
    | _, _, _ => false end)) as (v & vs & tr & H & Ha & HP); [destruct c; vm_compute; reflexivity|].
  exists v, vs, tr. split; [exact H|]. split; [now apply Ha|]. clear H Ha. cases. apply andb_prop in HP as [K1 K2]. apply bool_decide_eq_true in K1.
  repeat split; auto. apply existsb_exists in K2 as (w & Hw & Hp). exists w. split; [now apply elem_of_list_In|]. clear -Hp. cases. apply bool_decide_eq_true in Hp as (-> & ? & ?). auto.
Qed.
(** And a client that gives up takes the others of its batch along (C34). *)
Theorem pipelined_cancellation_isolated_refuted c : exists v vs tr, z_serves c 10 (v :: vs) tr /\
  z_gone v = [1%nat] /\ z_sent v = [(0%nat, Err ECancelled); (1%nat, Err ECancelled)] /\ commits tr = [] /\ z_thread v = ZFetch /\
  exists w, w ∈ vs /\ z_thread w = ZDrain [(0%nat, f_one, Ok 1)].
Proof.
  destruct (z_found c 10 false ([XArrive 0 f_one; XArrive 1 b_cancelled] ++ x_thread 3 ++ [XLeave 1] ++ x_thread 6)
    (fun v vs tr => match z_thread v with ZFetch =>
      bool_decide (z_gone v = [1%nat] /\ z_sent v = [(0%nat, Err ECancelled); (1%nat, Err ECancelled)] /\ commits tr = []) &&
      existsb (fun w => match z_thread w with ZDrain items => bool_decide (items = [(0%nat, f_one, Ok 1)]) | _ => false end) vs
    | _ => false end)) as (v & vs & tr & H & _ & HP); [destruct c; vm_compute; reflexivity|].
  exists v, vs, tr. split; [exact H|]. clear H. cases. apply andb_prop in HP as [K1 K2]. apply bool_decide_eq_true in K1 as (K1 & K3 & K4).
  repeat split; auto. apply existsb_exists in K2 as (w & Hw & Hp). exists w. split; [now apply elem_of_list_In|]. clear -Hp. destruct (z_thread w); try discriminate. now apply bool_decide_eq_true in Hp as ->.
Qed.

Print Assumptions pipelined_answered_once.
Print Assumptions pipelined_server_linearizable.
Print Assumptions pipelined_server_stored.
Print Assumptions pipelined_never_stuck.
Print Assumptions pipelined_finishes.
Print Assumptions pipelined_shutdown.
Print Assumptions pipelined_published.
Print Assumptions pipelined_server_example.
Print Assumptions pipelined_server_failure_example.
Print Assumptions pipelined_able_example.
Print Assumptions pipelined_shutdown_example.
Print Assumptions pipelined_shutdown_honoured_refuted.
Print Assumptions pipelined_cancellation_isolated_refuted.
