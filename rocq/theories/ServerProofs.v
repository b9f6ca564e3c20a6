(** Remote reads and subscriptions, over all executions of the server. *)
From Verif Require Export TaskProofs.
Local Open Scope N_scope.

Section server_proofs.
  Context (ps : N) (hash : bytes -> bytes) (order : list bytes -> list bytes) (ford : gset N -> list N) (caching : bool) (max_events : N).
  Context (Hps : ps_ok ps) (Hps32 : ps < U32) (Hord : forall l t, t ∈ order l <-> t ∈ l) (Hford : forall s, ford s ≡ₚ elements s).
  Notation pstep := (pstep 16 ps hash order ford caching).
  Notation sstep := (sstep 16 ps hash order ford caching max_events).
  Notation serves := (serves 16 ps hash order ford caching max_events).
  Notation inv := (inv 16 ps hash caching).
  Notation shows := (shows hash order).
  Notation run := (run ps hash order ford caching).
  Notation sim_step := (sim_step ps hash order ford caching Hps Hps32 Hord Hford).

  Notation seen_by := (seen_by hash order).
  Notation rpc_inv := (rpc_inv hash order).

  (** Each step of the server is one of the database, or none. *)
  Lemma sstep_db v ol v' : sstep v ol v' ->
    match ol with Some l => pstep (v_disk v) (v_proc v) l (v_disk v') (v_proc v') | None => v_disk v' = v_disk v /\ v_proc v' = v_proc v end.
  Proof.
    intros H. destruct H; cbn; try (split; reflexivity); try assumption; unfold v_publish; try (case_match; split; reflexivity).
  Qed.
  Lemma sim_sstep v ol v' sy : sstep v ol v' -> inv (v_sys v) sy -> exists sy', spec_step ps sy (olabel ol) sy' /\ inv (v_sys v') sy' /\ (ol = None -> sy' = sy).
  Proof.
    intros H Hi. apply sstep_db in H. destruct ol as [l|]; cbn.
    - destruct (sim_step (v_sys v) sy l (v_sys v') Hi) as (sy' & H1 & H2); [unfold v_sys; now constructor|]. exists sy'. repeat split; auto. discriminate.
    - destruct H as [E1 E2]. exists sy. split; [constructor|]. split; [|reflexivity]. unfold v_sys. rewrite E1, E2. exact Hi.
  Qed.
  Lemma inv_bound v sy : inv (v_sys v) sy -> nlen (s_hist (sp_cur sy)) + 1 < U64.
  Proof.
    intros (g & H). pose proof (u_pos _ _ _ _ _ _ _ _ H _ (u_in _ _ _ _ _ _ _ _ H)) as Hp. rewrite (u_spec _ _ _ _ _ _ _ _ H).
    destruct (u_hdr _ _ _ _ _ _ _ _ H) as [[Hs _] _]. cbn in Hs. unfold header_ok, u64_ok in Hs. lia.
  Qed.
  Lemma inv_shows_v v sy : inv (v_sys v) sy -> shows (v_sys v) (sp_cur sy).
  Proof. intros H. apply (inv_shows ps hash order ford caching Hps Hps32 Hord Hford _ _ H). now eexists. Qed.

  (** What the handler returns. *)
  Lemma scan_ok v sy k a q start bw limit : inv (v_sys v) sy -> p_readers (v_proc v) !! k = Some (ROpen a) ->
    exists s, sp_open sy !! k = Some s /\
      handler_read hash order (fetch 16 (p_cache (v_proc v)) (v_disk v)) a.2 q start bw limit = Ok (spec_read (s_hist s) q start bw (Some limit), spec_head s).
  Proof.
    intros Hi Hk.
    destruct (sim_step (v_sys v) sy _ (v_sys v) Hi (Y_proc _ _ _ _ _ _ _ _ _ _ _ (S_read 16 ps hash order ford caching (v_disk v) (v_proc v) k a q start bw (Some limit) false Hk))) as (sy1 & H1 & _).
    destruct (sim_step (v_sys v) sy _ (v_sys v) Hi (Y_proc _ _ _ _ _ _ _ _ _ _ _ (S_read 16 ps hash order ford caching (v_disk v) (v_proc v) k a q start bw None false Hk))) as (sy2 & H2 & _).
    apply spec_read_inv in H1 as (s1 & Ho1 & El1). apply spec_read_inv in H2 as (s2 & Ho2 & El2).
    assert (s2 = s1) as -> by congruence. exists s1. split; [exact Ho1|]. unfold umadb_read in *. unfold handler_read.
    destruct (read_conditional _ _ _ _ _ _ q start bw (Some limit) false) as [ev1|e1]; [|discriminate]. cbn [rbind] in *. assert (E1 : ev1 = spec_read (s_hist s1) q start bw (Some limit)) by congruence.
    destruct (read_conditional _ _ _ _ _ _ q start bw None false) as [ev2|e2]; [|discriminate]. cbn [rbind] in *. assert (E2 : header_head a.2 = spec_head s1) by (unfold spec_read_head in El2; congruence).
    rewrite <- E1, <- E2. unfold handler_head, header_head. do 2 f_equal.
    destruct (N.ltb_spec 1 (h_next_pos a.2)), (N.eqb_spec (h_next_pos a.2 - 1) 0); try reflexivity; lia.
  Qed.

  Lemma seen_now k v vs x sy : v_rpcs v !! k = Some x -> unsent x -> inv (v_sys v) sy -> seen_by k (v :: vs) (sp_cur sy).
  Proof. exact (task_seen_now hash order inv inv_shows_v k v vs x sy). Qed.
  Lemma rpcs_step v vs ol v' sy sy' : sstep v ol v' -> inv (v_sys v) sy -> sp_good sy -> sp_good sy' -> sp_sub sy ->
    spec_step ps sy (olabel ol) sy' -> inv (v_sys v') sy' ->
    (forall k x, v_rpcs v !! k = Some x -> k ∉ v_lost v -> rpc_inv (v :: vs) v sy k x) ->
    forall k x, v_rpcs v' !! k = Some x -> k ∉ v_lost v' -> rpc_inv (v' :: v :: vs) v' sy' k x.
  Proof. exact (task_step ps hash order ford caching max_events inv inv_bound inv_shows_v scan_ok v vs ol v' sy sy'). Qed.

  (** ** Over whole executions *)
  Lemma serves_cons d p h l tr : serves d p h l tr -> exists v vs, l = v :: vs.
  Proof. intros H. destruct H; eauto. Qed.
  Lemma serves_run tr0 d p h v vs tr : run tr0 (Sys d (Some p)) -> serves d p h (v :: vs) tr -> run (tr0 ++ tr) (v_sys v).
  Proof.
    intros H0 H. remember (v :: vs) as l eqn:El. revert v vs El. induction H as [|v vs tr ol v' H IH Hst]; intros w ws El.
    - injection El as <- <-. cbn. rewrite app_nil_r. exact H0.
    - injection El as <- <-. specialize (IH v vs eq_refl). apply sstep_db in Hst. rewrite app_assoc. destruct ol as [l|].
      + eapply run_step; [exact IH|]. now constructor.
      + destruct Hst as [E1 E2]. rewrite app_nil_r. unfold v_sys. rewrite E1, E2. exact IH.
  Qed.
  Definition srv_ok (vs : list srv) (v : srv) (sy : spec_sys) : Prop :=
    inv (v_sys v) sy /\ sp_good sy /\ sp_sub sy /\ forall k x, v_rpcs v !! k = Some x -> k ∉ v_lost v -> rpc_inv (v :: vs) v sy k x.
  Lemma serves_inv tr0 d p h v vs tr : run tr0 (Sys d (Some p)) -> serves d p h (v :: vs) tr -> exists sy, srv_ok vs v sy.
  Proof.
    intros H0 H. remember (v :: vs) as l eqn:El. revert v vs El. induction H as [|v vs tr ol v' H IH Hst]; intros w ws El.
    - injection El as <- <-. destruct (run_inv ps hash order ford caching Hps Hps32 Hord Hford _ _ H0) as (sy & Hs & Hi & Hg). exists sy. split; [exact Hi|]. split; [exact Hg|].
      split; [exact (spec_steps_sub _ _ _ _ spec_init_sub Hs)|]. intros k x Hk. cbn in Hk. rewrite lookup_empty in Hk. discriminate.
    - injection El as <- <-. destruct (IH v vs eq_refl) as (sy & Hi & Hg & Hsub & HR). destruct (sim_sstep _ _ _ _ Hst Hi) as (sy' & Hsp & Hi' & _).
      pose proof (proj1 (spec_step_good _ _ _ _ Hg Hsp)) as Hg'. exists sy'. split; [exact Hi'|]. split; [exact Hg'|]. split; [exact (spec_step_sub _ _ _ _ Hsub Hsp)|].
      exact (rpcs_step _ _ _ _ _ _ Hst Hi Hg Hg' Hsub Hsp Hi' HR).
  Qed.

  (** What was asked for. *)
  Definition asked (x : rpc) : query * option N * bool * option N * N :=
    match x with
    | QRd r _ => (rr_q r, rr_start r, rr_bw r, rr_limit r, rr_batch r)
    | QSub s _ => (su_q s, su_after s, false, None, su_batch s)
    end.
  Definition is_read (x : rpc) : bool := match x with QRd _ _ => true | _ => false end.
  Lemma sstep_asked v ol v' k x : sstep v ol v' -> v_rpcs v !! k = Some x ->
    exists x', v_rpcs v' !! k = Some x' /\ asked x' = asked x /\ is_read x' = is_read x.
  Proof.
    intros H Hk. destruct H; cbn; try (exists x; split; [exact Hk|split; reflexivity]).
    { exists x. unfold v_publish. case_match; (split; [exact Hk|split; reflexivity]). }
    all: match goal with |- exists _, <[?k0 := _]> _ !! _ = _ /\ _ => destruct (decide (k0 = k)) as [->|Hne] end;
      [|rewrite lookup_insert_ne by exact Hne; exists x; split; [exact Hk|split; reflexivity]];
      rewrite lookup_insert; eexists; split; [reflexivity|];
      repeat match goal with H1 : v_rpcs ?v !! ?k = Some ?a, H2 : v_rpcs ?v !! ?k = Some ?b |- _ => rewrite H1 in H2; injection H2 as H2; try subst end; try congruence.
    all: try (destruct x; split; reflexivity).
    2: { split; reflexivity. }
    match goal with |- context [rpc_handle _ ?a] => destruct a as [[evs hd]|e] end; [|destruct x; split; reflexivity].
    destruct x as [r y|s y]; cbn [rpc_handle asked is_read].
    - unfold read_iter. destruct (last _); cbn; repeat case_match; simplify_eq; split; reflexivity.
    - unfold sub_iter. destruct (last _); cbn; repeat case_match; simplify_eq; split; reflexivity.
  Qed.
  Lemma serves_asked d p h v vs tr w k x : serves d p h (v :: vs) tr -> w ∈ v :: vs -> v_rpcs w !! k = Some x ->
    exists x', v_rpcs v !! k = Some x' /\ asked x' = asked x /\ is_read x' = is_read x.
  Proof.
    intros H. remember (v :: vs) as l eqn:El. revert v vs El. induction H as [|v vs tr ol v' H IH Hst]; intros u us El Hw Hx.
    - injection El as <- <-. apply elem_of_list_singleton in Hw as ->. eauto.
    - injection El as <- <-. apply elem_of_cons in Hw as [->|Hw]; [eauto|]. destruct (IH _ _ eq_refl Hw Hx) as (x1 & H1 & H2 & H3).
      destruct (sstep_asked _ _ _ _ _ Hst H1) as (x2 & H4 & H5 & H6). exists x2. repeat split; congruence.
  Qed.
End server_proofs.
