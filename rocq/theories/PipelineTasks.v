(** Remote reads and subscriptions next to the pipelining writer thread (PipelineRemote.v), over all executions. *)
From Verif Require Import Exec PropsStore PropsFindings PropsCrash PropsPipeline PropsPipelined PropsPipelinedServer.
From Verif Require Import MvccProofs SpecProofs StoreProofs PipelineSteps PipelineRefine.
From Verif Require Export PipelineRemote TaskProofs.
Local Open Scope N_scope.

(** A commit is being answered, and the watched head is about to be set. *)
Definition z_publishing (z : zsrv) : bool := match z_thread z with ZSend _ (Some _) _ => true | _ => false end.
(** The server as in [w_tasks], with a thread that is about to publish if the thread is. *)
Definition w_view (v : wsrv) : srv := v_set_thread (if z_publishing (w_z v) then TReply [] (Some None) else TStop) (w_tasks v).
Lemma view_publishing v : publishing (w_view v) = z_publishing (w_z v).
Proof. unfold publishing, w_view. cbn. now destruct (z_publishing (w_z v)). Qed.
Lemma zsrv_eta z : z_set_sys (PSys (s_disk (z_sys z)) (s_proc (z_sys z)) (z_pipe z)) z = z.
Proof. destruct z as [[] ? ? ? ? ? ? ?]. reflexivity. Qed.

Section tasks.
  Context (hash : bytes -> bytes) (order : list bytes -> list bytes) (ford : gset N -> list N) (caching : bool) (max_events : N).
  Context (Hord : forall l t, t ∈ order l <-> t ∈ l) (Hford : forall s, ford s ≡ₚ elements s).
  Notation pstep := (pstep 16 dps hash order ford caching).
  Notation sstep := (sstep 16 dps hash order ford caching max_events).
  Notation zstep := (zstep 16 dps hash order ford caching max_events).
  Notation zserves := (zserves 16 dps hash order ford caching max_events).
  Notation wstep := (wstep 16 dps hash order ford caching max_events).
  Notation wserves := (wserves 16 dps hash order ford caching max_events).
  Notation mrun := (mrun hash order ford caching).
  Notation mshows := (mshows hash order).
  Notation shows := (shows hash order).
  Notation minv := (minv 16 dps hash caching).

  (** *** The database as the tasks see it *)
  Definition tinv (y : sys) (sy : spec_sys) : Prop :=
    match y with Sys d (Some p) => exists pi, minv false (MP (PSys d p pi)) sy | _ => False end.
  Lemma tinv_bound v sy : tinv (v_sys v) sy -> nlen (s_hist (sp_cur sy)) + 1 < U64.
  Proof.
    intros (pi & H).
    assert (Ht : forall d p pi, thread_inv 16 dps hash caching d (view false p) pi sy -> nlen (s_hist (sp_cur sy)) + 1 < U64).
    { intros d p pi0 (g & [H0|(f & db & w & todo & H0)]).
      - pose proof (a_u _ _ _ _ _ _ _ _ _ H0) as Hu. pose proof (u_pos _ _ _ _ _ _ _ _ Hu _ (u_in _ _ _ _ _ _ _ _ Hu)) as Hp. rewrite (u_spec _ _ _ _ _ _ _ _ Hu).
        destruct (u_hdr _ _ _ _ _ _ _ _ Hu) as [[Hs _] _]. cbn in Hs. unfold header_ok, u64_ok in Hs. lia.
      - pose proof (b_u _ _ _ _ _ _ _ _ _ _ _ _ _ H0) as Hu. pose proof (u_pos _ _ _ _ _ _ _ _ Hu _ (u_in _ _ _ _ _ _ _ _ Hu)) as Hp. rewrite (u_spec _ _ _ _ _ _ _ _ Hu).
        destruct (u_hdr _ _ _ _ _ _ _ _ Hu) as [[Hs _] _]. cbn in Hs. unfold header_ok, u64_ok in Hs. lia. }
    destruct H as [H|[_ H]]; exact (Ht _ _ _ H).
  Qed.
  Lemma tinv_shows v sy : tinv (v_sys v) sy -> shows (v_sys v) (sp_cur sy).
  Proof. intros (pi & H). exact (minv_shows hash order ford caching Hord Hford false (MP (PSys (v_disk v) (v_proc v) pi)) sy H ltac:(now eexists)). Qed.
  Lemma tinv_scan v sy k a q start bw limit : tinv (v_sys v) sy -> p_readers (v_proc v) !! k = Some (ROpen a) ->
    exists s, sp_open sy !! k = Some s /\
      handler_read hash order (fetch 16 (p_cache (v_proc v)) (v_disk v)) a.2 q start bw limit = Ok (spec_read (s_hist s) q start bw (Some limit), spec_head s).
  Proof.
    intros (pi & H) Hk.
    assert (Ho : exists G, cur_ok (v_disk v) /\ g_hdr G = a.2 /\ sp_open sy !! k = Some (g_st G) /\ held 16 dps hash (v_disk v) (p_cache (v_proc v)) G).
    { destruct H as [H|[_ H]]; (destruct (ti_open 16 dps hash caching dps32 ltac:(lia) _ _ _ _ _ _ H Hk) as (Hc & G & A1 & A2 & A3); exists G; auto). }
    destruct Ho as (G & Hc & Hh & Ho & Hp). exists (g_st G). split; [exact Ho|]. unfold handler_read. rewrite <- Hh.
    rewrite (held_read 16 dps hash order ford dps_ok dps32 ltac:(lia) Hord Hford _ _ G q start bw (Some limit) false Hc Hp).
    do 2 f_equal. rewrite <- (pos_head 16 dps dps32 ltac:(lia) G (so_pos _ _ _ _ _ (proj1 Hp))). unfold handler_head, header_head.
    destruct (N.ltb_spec 1 (h_next_pos (g_hdr G))), (N.eqb_spec (h_next_pos (g_hdr G) - 1) 0); try reflexivity; lia.
  Qed.

  (** *** The threads *)
  Lemma task_pstep v ol u : sstep (w_tasks v) ol u -> v_disk u = s_disk (z_sys (w_z v)) ->
    match ol with Some l => pstep (s_disk (z_sys (w_z v))) (s_proc (z_sys (w_z v))) l (s_disk (z_sys (w_z v))) (v_proc u) | None => v_proc u = s_proc (z_sys (w_z v)) end.
  Proof. intros H Hd. apply sstep_db in H. destruct ol; [rewrite <- Hd at 2; exact H|exact (proj2 H)]. Qed.
  (** What a step is to the threads. *)
  Lemma wstep_z v ol v' : wstep v ol v' -> zstep (w_z v) ol (w_z v') \/ ol = None /\ w_z v' = w_z v.
  Proof.
    intros H. destruct H as [v ol z H _ _|v h next H|v ol u H Hg Hq Hd Hi Hi'].
    - left. exact H.
    - left. assert (E : forall x, w_z (w_notify x) = w_z x) by (intros x; unfold w_notify; now destruct (has_listener _)). rewrite E. now apply Z_publish.
    - pose proof (task_pstep _ _ _ H Hd) as Hp. cbn. rewrite Hd. destruct ol as [l|].
      + left. apply Z_other with (p := s_proc (z_sys (w_z v))); auto. unfold z_pipe. now destruct (z_sys (w_z v)).
      + right. split; [reflexivity|]. rewrite Hp. apply zsrv_eta.
  Qed.
  Fixpoint w_all (C : msys -> msys -> Prop) (vs : list wsrv) : Prop :=
    match vs with v' :: (v :: _) as vs' => C (MP (z_sys (w_z v))) (MP (z_sys (w_z v'))) /\ w_all C vs' | _ => True end.
  (** The threads run as they do without the tasks. *)
  Lemma wserves_z C s h v vs tr : wserves s h (v :: vs) tr -> w_all C (v :: vs) -> exists zs, zserves s h (w_z v :: zs) tr /\ z_all C (w_z v :: zs).
  Proof.
    intros H. remember (v :: vs) as l eqn:El. revert v vs El. induction H as [|v vs tr ol v' H IH Hst]; intros w ws [= <- <-] Ha.
    - exists []. split; [constructor|exact I].
    - destruct Ha as [Hc Ha]. destruct (IH _ _ eq_refl Ha) as (zs & Hz & Hza). destruct (wstep_z _ _ _ Hst) as [Hs|[-> E]].
      + exists (w_z v :: zs). split; [now econstructor|]. split; assumption.
      + exists zs. rewrite E, app_nil_r. auto.
  Qed.
  Lemma wstep_mstep v ol v' : wstep v ol v' -> match ol with Some l => mstep 16 dps hash order ford caching (MP (z_sys (w_z v))) l (MP (z_sys (w_z v'))) | None => z_sys (w_z v') = z_sys (w_z v) end.
  Proof.
    intros H. destruct (wstep_z _ _ _ H) as [Hz|[-> E]]; [|now rewrite E]. apply zstep_lstep in Hz. destruct ol as [l|]; [now apply M_pipe|exact Hz].
  Qed.

  (** *** The tasks *)
  (** Their steps do not depend on the thread. *)
  Lemma task_any_thread t v ol u : v_thread v = TStop -> sstep v ol u -> v_gone u = v_gone v -> v_queue u = v_queue v -> sstep (v_set_thread t v) ol (v_set_thread t u).
  Proof.
    intros Ht H Hg Hq. destruct H; try congruence.
    - (* a client leaves *) exfalso. cbn in Hg. assert (E : length (id :: v_gone v) = length (v_gone v)) by now rewrite Hg. cbn in E. lia.
    - (* shutdown *) exfalso. cbn in Hq. assert (E : length (v_queue v ++ [MShutdown]) = length (v_queue v)) by now rewrite Hq. rewrite app_length in E. cbn in E. lia.
    - apply (V_tau _ _ _ _ _ _ _ (v_set_thread t v)); assumption.
    - apply (V_other _ _ _ _ _ _ _ (v_set_thread t v) l i); assumption.
    - apply (V_read _ _ _ _ _ _ _ (v_set_thread t v)); assumption.
    - apply (V_subscribe _ _ _ _ _ _ _ (v_set_thread t v)); assumption.
    - apply (V_close _ _ _ _ _ _ _ (v_set_thread t v)); assumption.
    - apply (V_permit _ _ _ _ _ _ _ (v_set_thread t v)); assumption.
    - apply (V_call _ _ _ _ _ _ _ (v_set_thread t v)); assumption.
    - apply (V_ready _ _ _ _ _ _ _ (v_set_thread t v)); assumption.
    - eapply (V_scan _ _ _ _ _ _ _ (v_set_thread t v)); eassumption.
    - apply (V_handle _ _ _ _ _ _ _ (v_set_thread t v)); assumption.
    - eapply (V_dropped _ _ _ _ _ _ _ (v_set_thread t v)); eassumption.
    - apply (V_wake _ _ _ _ _ _ _ (v_set_thread t v)); assumption.
    - apply (V_unreadable _ _ _ _ _ _ _ (v_set_thread t v)); assumption.
    - eapply (V_lossy _ _ _ _ _ _ _ (v_set_thread t v)); eassumption.
  Qed.
  Lemma task_sent v ol u : v_thread v = TStop -> sstep v ol u -> v_gone u = v_gone v -> v_queue u = v_queue v ->
    v_thread u = TStop /\ v_sent u = v_sent v /\ v_seen u = v_seen v /\ v_head u = v_head v.
  Proof.
    intros Ht H Hg Hq. destruct H; try congruence; try (repeat split; assumption).
  Qed.
  Lemma task_view v ol u : sstep (w_tasks v) ol u -> v_gone u = [] -> v_queue u = [] -> v_disk u = s_disk (z_sys (w_z v)) ->
    sstep (w_view v) ol (w_view (w_put u v)).
  Proof.
    intros H Hg Hq Hd. destruct (task_sent (w_tasks v) ol u eq_refl H Hg Hq) as (E1 & E2 & E3 & E4). cbn in E2, E3, E4.
    pose proof (task_any_thread (if z_publishing (w_z v) then TReply [] (Some None) else TStop) (w_tasks v) ol u eq_refl H Hg Hq) as H'.
    replace (w_view (w_put u v)) with (v_set_thread (if z_publishing (w_z v) then TReply [] (Some None) else TStop) u); [exact H'|].
    unfold w_view, w_put, w_tasks, v_set_thread, z_publishing. cbn. destruct u. cbn in *. now subst.
  Qed.

  Definition w_ok (vs : list wsrv) (v : wsrv) (sy : spec_sys) : Prop :=
    minv false (MP (z_sys (w_z v))) sy /\ sp_good sy /\ sp_sub sy /\
    forall k x, w_rpcs v !! k = Some x -> k ∉ w_lost v -> rpc_inv hash order (map w_view (v :: vs)) (w_view v) sy k x.
  Lemma minv_tinv v sy : minv false (MP (z_sys (w_z v))) sy -> tinv (v_sys (w_view v)) sy.
  Proof. intros H. exists (z_pipe (w_z v)). unfold z_pipe. cbn. now destruct (z_sys (w_z v)). Qed.
  (** What the threads do to the watch. *)
  Lemma zstep_told z ol z' sy sy' : zstep z ol z' -> spec_step dps sy (olabel ol) sy' -> (forall h next, z_thread z = ZSend [] (Some h) next -> z_thread z' = z_thread z) ->
    z_publishing z' = false -> z_publishing z = false /\ s_hist (sp_cur sy') = s_hist (sp_cur sy).
  Proof.
    intros H Hsp Hn Hp'. split.
    - unfold z_publishing in *. destruct H; cbn in *; try exact Hp'; try (match goal with E : z_thread _ = _ |- _ => rewrite E in * end; try reflexivity; try exact Hp').
      + destruct (z_thread v); cbn in *; try reflexivity; discriminate.
      + destruct (z_thread v); cbn in *; try reflexivity; discriminate.
      + destruct h; [|reflexivity]. specialize (Hn _ _ eq_refl). rewrite Hn in Hp'. discriminate Hp'.
    - f_equal. apply (spec_cur_same dps _ _ _ Hsp). destruct H; cbn; try exact I.
      + match goal with H : Mvcc.pstep _ _ _ _ _ _ _ _ _ _ _ |- _ => rename H into Hps end. destruct l; try exact I; inversion Hps; subst; congruence.
      + discriminate Hp'.
      + destruct hdr; exact I.
  Qed.
  Lemma lstep_label s l s' : lstep 16 dps hash order ford caching s l s' -> match l with LCrash _ | LKill _ | LOpen => False | _ => True end.
  Proof. intros H. destruct l; try exact I; exfalso; inversion H; subst; try (destruct hdr; discriminate); match goal with H : Mvcc.pstep _ _ _ _ _ _ _ _ _ _ _ |- _ => inversion H end. Qed.
  Lemma notify_same v : w_z (w_notify v) = w_z v /\ w_rpcs (w_notify v) = w_rpcs v /\ w_unread (w_notify v) = w_unread v /\ w_lost (w_notify v) = w_lost v /\ (w_ver v <= w_ver (w_notify v))%nat /\
    (forall k x, w_rpcs v !! k = Some x -> listening x = true -> w_ver (w_notify v) = S (w_ver v)).
  Proof.
    unfold w_notify. destruct (has_listener (w_tasks v)) eqn:E; cbn; repeat split; try lia. intros k x Hk Hl.
    rewrite (listener (w_tasks v) k x Hk Hl) in E. discriminate.
  Qed.
  Lemma w_step v vs ol v' sy : wstep v ol v' -> fine (MP (z_sys (w_z v))) (MP (z_sys (w_z v'))) -> w_ok vs v sy -> exists sy', w_ok (v :: vs) v' sy' /\ spec_step dps sy (olabel ol) sy'.
  Proof.
    intros Hst Hf (Hi & Hg & Hsub & HR).
    assert (Hsim : exists sy', spec_step dps sy (olabel ol) sy' /\ minv false (MP (z_sys (w_z v'))) sy').
    { pose proof (wstep_mstep _ _ _ Hst) as Hm. destruct ol as [l|]; cbn.
      - exact (msim_step hash order ford caching Hord Hford false _ _ _ _ Hi Hm Hf).
      - exists sy. split; [constructor|]. now rewrite Hm. }
    destruct Hsim as (sy' & Hsp & Hi'). exists sy'. split; [|exact Hsp]. pose proof (proj1 (spec_step_good _ _ _ _ Hg Hsp)) as Hg'.
    split; [exact Hi'|]. split; [exact Hg'|]. split; [exact (spec_step_sub _ _ _ _ Hsub Hsp)|].
    pose proof (minv_tinv _ _ Hi) as Ht. pose proof (minv_tinv _ _ Hi') as Ht'.
    destruct Hst as [v ol z Hz Hr Hn|v h next Hz|v ol u Hu Hgo Hq Hd Hw Hw'].
    - intros k x Hk Hl. cbn [map]. eapply (rpc_keep dps hash order tinv tinv_bound tinv_shows tinv_scan); [exact (HR k x Hk Hl)|exact (fun h => h)|exact Hg|exact Hg'|exact Hsp| |exact Ht'|exact Hk|cbn; lia|].
      + pose proof (zstep_lstep _ _ _ _ _ _ _ _ _ Hz) as Hls. destruct ol as [l|]; [|exact I]. pose proof (lstep_label _ _ _ Hls) as Hll. cbn [olabel].
        assert (Hne : forall i, reader_of l = Some i -> i <> k) by (intros i Hri ->; pose proof (Hr _ _ eq_refl Hri) as Hno; cbn in Hk; congruence).
        destruct l; cbn in *; try exact I; try contradiction; apply Hne; reflexivity.
      + intros _ Hp _. rewrite view_publishing in *. exact (zstep_told _ _ _ _ _ Hz Hsp Hn Hp).
    - destruct (notify_same (w_set_z (z_publish (Some h) (z_set_thread next (w_z v))) v)) as (E1 & E2 & E3 & E4 & E5 & E6).
      intros k x Hk Hl. rewrite E2 in Hk. rewrite E4 in Hl. cbn [map]. eapply (rpc_keep dps hash order tinv tinv_bound tinv_shows tinv_scan); [exact (HR k x Hk Hl)| |exact Hg|exact Hg'|exact Hsp|exact I|exact Ht'| | |].
      + unfold w_view. cbn [v_unread v_set_thread w_tasks]. rewrite E3. exact (fun h => h).
      + unfold w_view. cbn [v_rpcs v_set_thread w_tasks]. rewrite E2. exact Hk.
      + unfold w_view. cbn [v_ver v_set_thread w_tasks]. exact E5.
      + intros Hlis _ Hv. exfalso. unfold w_view in Hv. cbn [v_ver v_set_thread w_tasks] in Hv. rewrite (E6 k x Hk Hlis) in Hv. cbn in Hv. lia.
    - pose proof (task_view _ _ _ Hu Hgo Hq Hd) as Hs.
      exact (task_step dps hash order ford caching max_events tinv tinv_bound tinv_shows tinv_scan (w_view v) (map w_view vs) ol (w_view (w_put u v)) sy sy' Hs Ht Hg Hg' Hsub Hsp Ht' HR).
  Qed.
  Lemma wserves_inv tr0 s h v vs tr : mrun fine tr0 (MP s) -> wserves s h (v :: vs) tr -> w_all fine (v :: vs) -> exists sy, w_ok vs v sy.
  Proof.
    intros H0 H. remember (v :: vs) as l eqn:El. revert v vs El. induction H as [|v vs tr ol v' H IH Hst]; intros w ws [= <- <-] Ha.
    - destruct (mrun_inv hash order ford caching Hord Hford false _ _ H0) as (sy & Hs & Hi & Hg). exists sy. split; [exact Hi|]. split; [exact Hg|].
      split; [exact (spec_steps_sub _ _ _ _ spec_init_sub Hs)|]. intros k x Hk. cbn in Hk. rewrite lookup_empty in Hk. discriminate.
    - destruct Ha as [Hc Ha]. destruct (IH _ _ eq_refl Ha) as (sy & Hok). destruct (w_step _ _ _ _ _ Hst Hc Hok) as (sy' & Hok' & _). eauto.
  Qed.
End tasks.
