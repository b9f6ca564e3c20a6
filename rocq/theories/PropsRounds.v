(** Remote reads and subscriptions do a bounded number of steps: C101. *)
From Verif Require Import Exec PropsStore PropsFindings PropsCrash PropsPipeline PropsPipelined PropsPipelinedServer.
From Verif Require Import MvccProofs SpecProofs StoreProofs ServerLive ServerExec PropsServer PropsRemote Permits PropsPermits PipelineTasks PropsPipelinedRemote PropsPipelinedLive.
Local Open Scope N_scope.

#[local] Instance rread_eq : EqDecision rread. Proof. solve_decision. Defined.
#[local] Instance rsub_eq : EqDecision rsub. Proof. solve_decision. Defined.
#[local] Instance qphase_eq : EqDecision qphase. Proof. solve_decision. Defined.
#[local] Instance rpc_eq : EqDecision rpc. Proof. solve_decision. Defined.
(** How often call [k] did something, in the states [hs] gone through, the last one first. *)
Fixpoint moves (k : nat) (hs : list (gmap nat rpc)) : nat :=
  match hs with
  | m' :: (m :: _) as hs' => (if decide (m' !! k = m !! k) then 0 else 1) + moves k hs'
  | _ => 0
  end.
(** The commits made. *)
Definition is_commit (l : label) : bool := match l with LCommit _ _ => true | _ => false end.
Definition committed (tr : list label) : nat := length (List.filter is_commit tr).
Lemma committed_app t1 t2 : committed (t1 ++ t2) = (committed t1 + committed t2)%nat. Proof. unfold committed. now rewrite List.filter_app, app_length. Qed.
Lemma short_batches {A} (l : list (list A)) : Forall (fun b => b <> []) l -> (length l <= length (concat l))%nat.
Proof. induction 1 as [|b l Hb _ IH]; [reflexivity|]. cbn [concat]. rewrite app_length. destruct b; [contradiction|]. cbn in *. lia. Qed.

(** ** What a step of a call does *)
Definition rank (q : qphase) : nat :=
  match q with QLoop => 0 | QBorrow => 1 | QCall => 2 | QOpen => 3 | QRead _ => 4 | QWait | QEnd | QFail _ => 5 | QGone => 6 end.
Definition seen_ver (x : rpc) : nat := match x with QRd _ _ => 0 | QSub s _ => su_seen s end.
Definition pot (x : rpc) : nat := 5 * responses x + 6 * seen_ver x + rank (rpc_phase x).
Lemma rank_most q : (rank q <= 6)%nat. Proof. destruct q; cbn; lia. Qed.
Lemma handle_pot x a q : rpc_phase x = QRead q -> (pot x < pot (rpc_handle x a))%nat /\ seen_ver (rpc_handle x a) = seen_ver x.
Proof.
  intros Hx. unfold pot. rewrite Hx. destruct a as [[evs hd]|e]; [|destruct x, e; cbn; lia]. destruct x as [r y|s y]; cbn [rpc_handle].
  - destruct (read_iter r evs hd) as [r' go] eqn:E. unfold read_iter in E. set (kept := match match rr_head r with Some _ => _ | None => _ end with Some _ => _ | None => _ end) in E.
    cbn [seen_ver responses rpc_phase]. destruct (last kept).
    + assert (Hl : length (rr_out r') = S (length (rr_out r))) by (repeat case_match; injection E as <- <-; cbn [rr_out]; rewrite app_length; cbn; lia).
      rewrite Hl. destruct (go && _); cbn; lia.
    + injection E as <- <-. cbn [andb rr_out]. destruct (rr_out r); cbn; lia.
  - unfold sub_iter. destruct (last evs) as [e|]; [|cbn; lia]. destruct (e.1 =? U64 - 1); cbn [seen_ver responses rpc_phase su_out su_seen]; rewrite app_length; cbn; lia.
Qed.
Lemma phase_pot x q q' (n : nat) : rpc_phase x = q -> (rank q < rank q')%nat -> (seen_ver x <= n)%nat ->
  (set_phase q' x = x \/ (pot x < pot (set_phase q' x))%nat) /\ (seen_ver (set_phase q' x) <= n)%nat.
Proof. intros <- Hq Hn. unfold pot. destruct x; cbn [set_phase responses seen_ver rpc_phase] in *; (split; [right|]; lia). Qed.
Section step.
  Context (ps : N) (hash : bytes -> bytes) (order : list bytes -> list bytes) (ford : gset N -> list N) (caching : bool) (max_events : N).
  Notation sstep := (sstep 16 ps hash order ford caching max_events).
  Lemma step_ver v ol v' : sstep v ol v' -> (v_ver v <= v_ver v')%nat.
  Proof. intros H. destruct H; cbn; try lia. unfold v_publish. case_match; cbn; lia. Qed.
  Lemma step_pot v ol v' k x : sstep v ol v' -> v_rpcs v !! k = Some x -> (seen_ver x <= v_ver v)%nat ->
    exists x', v_rpcs v' !! k = Some x' /\ (x' = x \/ (pot x < pot x')%nat) /\ (seen_ver x' <= v_ver v')%nat.
  Proof.
    intros H Hk Hs. destruct H; cbn [v_rpcs v_ver v_set_rpc v_set_db v_set_thread v_set_queue v_send v_note v_leave v_mark v_lose]; try (exists x; auto; fail).
    { exists x. unfold v_publish. case_match; cbn; split; auto. }
    all: match goal with |- exists _, <[?k0 := _]> _ !! _ = _ /\ _ => destruct (decide (k0 = k)) as [->|Hne] end;
      [|rewrite lookup_insert_ne by exact Hne; exists x; auto];
      rewrite lookup_insert; eexists; split; [reflexivity|];
      repeat match goal with H1 : v_rpcs ?v !! ?k = Some ?a, H2 : v_rpcs ?v !! ?k = Some ?b |- _ => rewrite H1 in H2; injection H2 as H2; try subst end; try congruence.
    all: try (eapply phase_pot; [eassumption|cbn; lia|exact Hs]).
    - unfold pot. destruct x as [r []|s []]; try contradiction; cbn [set_phase responses seen_ver rpc_phase rank] in *; (split; [right|]; lia).
    - match goal with E : rpc_phase _ = _ |- _ => revert E end. unfold pot. destruct x as [r y|s y]; cbn [saw su_seen su_out responses seen_ver rpc_phase] in *; intros ->; cbn [rank]; (split; [right|]; lia).
    - match goal with E : rpc_phase _ = QRead _ |- _ => destruct (handle_pot x ans _ E) as [H3 H4] end. split; [right; exact H3|]. rewrite H4. exact Hs.
    - unfold pot. cbn [saw su_seen su_out responses seen_ver rpc_phase rank] in *. split; [right|]; lia.
  Qed.
  Lemma step_new v ol v' k x : sstep v ol v' -> v_rpcs v !! k = None -> v_rpcs v' !! k = Some x ->
    responses x = 0%nat /\ (is_read x = false -> seen_ver x = v_ver v) /\ (seen_ver x <= v_ver v)%nat.
  Proof.
    intros H Hn Hx. destruct H; cbn in Hx; try congruence.
    { unfold v_publish in Hx. case_match; cbn in Hx; congruence. }
    all: match type of Hx with <[?k0 := _]> _ !! _ = _ => destruct (decide (k0 = k)) as [->|Hne]; [rewrite lookup_insert in Hx|rewrite lookup_insert_ne in Hx by exact Hne; congruence] end; try congruence.
    all: injection Hx as <-; cbn; repeat split; auto; try discriminate; lia.
  Qed.
End step.

(** ** Counting *)
(** [hs]: the calls and the version of the watch in the states gone through. *)
Definition counts (hs : list (gmap nat rpc * nat)) : Prop :=
  match hs with
  | [] => True
  | (m, ver) :: before => forall k,
      match m !! k with
      | None => moves k (map fst hs) = 0%nat /\ Forall (fun h => h.1 !! k = None) hs
      | Some x => (seen_ver x <= ver)%nat /\ exists first, (moves k (map fst hs) + 6 * first <= 1 + pot x)%nat /\ (is_read x = true -> first = 0%nat) /\
          (is_read x = false -> forall h, h ∈ hs -> h.1 !! k = None -> (h.2 <= first)%nat)
      end
  end.
Lemma moves_cons k m' m hs : moves k (m' :: m :: hs) = ((if decide (m' !! k = m !! k) then 0 else 1) + moves k (m :: hs))%nat.
Proof. reflexivity. Qed.
Lemma counts_init ver : counts [(∅, ver)].
Proof. intros k. rewrite lookup_empty. split; [reflexivity|]. constructor; [apply lookup_empty|constructor]. Qed.
Lemma counts_step m ver hs m' ver' : counts ((m, ver) :: hs) -> Forall (fun h => (h.2 <= ver)%nat) hs -> (ver <= ver')%nat ->
  (forall k x, m !! k = Some x -> (seen_ver x <= ver)%nat -> exists x', m' !! k = Some x' /\ (x' = x \/ (pot x < pot x')%nat) /\ (seen_ver x' <= ver')%nat /\ is_read x' = is_read x) ->
  (forall k x, m !! k = None -> m' !! k = Some x -> responses x = 0%nat /\ (is_read x = false -> seen_ver x = ver) /\ (seen_ver x <= ver)%nat) ->
  counts ((m', ver') :: (m, ver) :: hs).
Proof.
  intros Hc Hle Hver Hold Hnew k. specialize (Hc k). destruct (m !! k) as [x|] eqn:Em.
  - destruct Hc as [Hs (first & H1 & H2 & H3)]. destruct (Hold _ _ Em Hs) as (x' & E' & Hx & Hs' & Hrd). rewrite E'. split; [exact Hs'|]. exists first. cbn [map fst] in *. rewrite moves_cons, E', Em.
    split; [|split].
    + destruct Hx as [->|Hx]; [rewrite decide_True by reflexivity; exact H1|]. destruct (decide _); cbn [Nat.add]; lia.
    + rewrite Hrd. exact H2.
    + rewrite Hrd. intros Hr h Hin Hn. apply elem_of_cons in Hin as [->|Hin]; [cbn in Hn; congruence|]. eauto.
  - destruct Hc as [H1 H2]. destruct (m' !! k) as [x|] eqn:Em'.
    + destruct (Hnew _ _ Em Em') as (N1 & N2 & N3). split; [lia|]. cbn [map fst] in *. rewrite moves_cons, Em', Em, decide_False, H1 by discriminate.
      exists (seen_ver x). unfold pot. split; [lia|]. split; [destruct x; [reflexivity|discriminate]|]. intros Hr h Hin Hn. rewrite (N2 Hr).
      apply elem_of_cons in Hin as [->|Hin]; [cbn in Hn; congruence|]. apply elem_of_cons in Hin as [->|Hin]; [reflexivity|]. exact (proj1 (Forall_forall _ _) Hle _ Hin).
    + split; [|constructor; [exact Em'|exact H2]]. cbn [map fst] in *. rewrite moves_cons, Em', Em, decide_True by reflexivity. exact H1.
Qed.
(** What follows for one call. *)
Lemma counts_read m ver hs k r x : counts ((m, ver) :: hs) -> m !! k = Some (QRd r x) -> (moves k (map fst ((m, ver) :: hs)) <= 7 + 5 * length (rr_out r))%nat.
Proof.
  intros Hc E. specialize (Hc k). rewrite E in Hc. destruct Hc as [_ (first & H1 & _)]. unfold pot in H1. cbn [responses seen_ver rpc_phase] in H1. pose proof (rank_most x). lia.
Qed.
Lemma counts_sub m ver hs k s x m0 ver0 : counts ((m, ver) :: hs) -> m !! k = Some (QSub s x) -> (m0, ver0) ∈ hs -> m0 !! k = None ->
  (moves k (map fst ((m, ver) :: hs)) + 6 * ver0 <= 7 + 5 * length (su_out s) + 6 * ver)%nat.
Proof.
  intros Hc E Hin Hn. specialize (Hc k). rewrite E in Hc. destruct Hc as [Hs (first & H1 & _ & H3)]. specialize (H3 eq_refl _ (elem_of_list_further _ _ _ Hin) Hn). cbn in H3.
  unfold pot in H1. cbn [responses seen_ver rpc_phase] in *. pose proof (rank_most x). lia.
Qed.

(** ** C101 *)
Section blocking.
  Context (ps : N) (hash : bytes -> bytes) (order : list bytes -> list bytes) (ford : gset N -> list N) (caching : bool) (max_events : N).
  Context (Hps : ps_ok ps) (Hps32 : ps < U32) (Hord : forall l t, t ∈ order l <-> t ∈ l) (Hford : forall s, ford s ≡ₚ elements s).
  Notation sstep := (sstep 16 ps hash order ford caching max_events).
  Notation serves := (serves 16 ps hash order ford caching max_events).
  Notation run := (run ps hash order ford caching).
  Notation shows := (shows hash order).
  Context (d : disk) (p : proc) (h : option N).
  Definition calls (v : srv) : gmap nat rpc * nat := (v_rpcs v, v_ver v).
  Lemma serves_counts v vs tr : serves d p h (v :: vs) tr -> counts (map calls (v :: vs)) /\ Forall (fun h => (h.2 <= v_ver v)%nat) (map calls vs).
  Proof.
    intros H. remember (v :: vs) as l eqn:El. revert v vs El. induction H as [|v vs tr ol v' H IH Hst]; intros w ws [= <- <-]; [split; [apply counts_init|constructor]|].
    destruct (IH _ _ eq_refl) as [Hc Hle]. pose proof (step_ver ps hash order ford caching max_events _ _ _ Hst) as Hv. split.
    - apply counts_step; [exact Hc|exact Hle|exact Hv| |].
      + intros k x Hx Hs. destruct (step_pot ps hash order ford caching max_events _ _ _ _ _ Hst Hx Hs) as (x' & E1 & E2 & E3). destruct (sstep_asked ps hash order ford caching max_events _ _ _ _ _ Hst Hx) as (x2 & F1 & _ & F3).
        exists x'. split; [exact E1|]. split; [exact E2|]. split; [exact E3|]. congruence.
      + intros k x. apply (step_new ps hash order ford caching max_events _ _ _ _ _ Hst).
    - cbn. constructor; [exact Hv|]. eapply Forall_impl; [exact Hle|]. intros y Hy. cbn in *. lia.
  Qed.
  (** The watch changes once per commit, at most. *)
  Notation leads := (leads ps hash order ford caching max_events).
  Lemma leads_ver w v tr : leads w v tr -> (v_ver v + (if publishing v then 1 else 0) <= v_ver w + (if publishing w then 1 else 0) + committed tr)%nat.
  Proof.
    induction 1 as [|v tr ol v' H IH Hst]; [cbn; lia|]. rewrite committed_app. unfold publishing in *. set (before := (v_ver w + _)%nat) in *. clearbody before.
    destruct Hst; cbn in *; repeat match goal with E : v_thread _ = _ |- _ => try rewrite E in IH; try rewrite E; clear E end; cbn in *; try lia.
    unfold v_publish. case_match; cbn; lia.
  Qed.
  Lemma serves_leads v vs w ws tr : serves d p h (v :: vs ++ w :: ws) tr -> exists tr1 tr2, tr = tr1 ++ tr2 /\ serves d p h (w :: ws) tr1 /\ leads w v tr2.
  Proof.
    remember (v :: vs ++ w :: ws) as l eqn:El. intros H. revert v vs El. induction H as [|v0 vs0 tr ol v' H IH Hst]; intros v vs El; [destruct vs; discriminate El|].
    injection El as <- El. destruct vs as [|v1 vs].
    - injection El as -> ->. eexists _, _. split; [reflexivity|]. split; [exact H|]. exact (leads_step ps hash order ford caching max_events w w [] ol v' (leads_here _ _ _ _ _ _ w) Hst).
    - cbn in El. injection El as -> ->. destruct (IH _ _ eq_refl) as (t1 & t2 & -> & H1 & H2). rewrite <- app_assoc. eexists _, _. split; [reflexivity|]. split; [exact H1|]. econstructor; eassumption.
  Qed.
  Context (tr0 : list label) (Hrun : run tr0 (Sys d (Some p))).
  (** A read does at most seven steps, and five for each response; so it comes to an end, and with it the hold it has on a reader. *)
  Theorem read_steps v vs tr k r x st : serves d p h (v :: vs) tr -> v_rpcs v !! k = Some (QRd r x) -> k ∉ v_lost v -> shows (v_sys v) st ->
    (moves k (map v_rpcs (v :: vs)) <= 7 + 5 * Nat.max 1 (length (spec_read (s_hist st) (rr_q r) (rr_start r) (rr_bw r) (rr_limit r))))%nat.
  Proof.
    intros H Hk Hl Hs. pose proof (responses_bounded ps hash order ford caching max_events Hps Hps32 Hord Hford _ _ _ _ Hrun _ _ _ _ _ _ _ H Hk Hl Hs) as B.
    destruct (serves_counts _ _ _ H) as [Hc _]. pose proof (counts_read _ _ _ _ _ _ Hc Hk) as C.
    replace (map v_rpcs (v :: vs)) with (map fst (map calls (v :: vs))) by now rewrite map_map. change (map calls (v :: vs)) with ((v_rpcs v, v_ver v) :: map calls vs). etransitivity; [exact C|]. lia.
  Qed.
  (** A subscription does, too, and six for each commit made since it began; so while nothing is committed it comes to rest. *)
  Theorem subscription_steps v vs w ws tr k su x st : serves d p h (v :: vs ++ w :: ws) tr -> v_rpcs w !! k = None ->
    v_rpcs v !! k = Some (QSub su x) -> k ∉ v_lost v -> shows (v_sys v) st ->
    exists tr1 tr2, tr = tr1 ++ tr2 /\ serves d p h (w :: ws) tr1 /\ leads w v tr2 /\
    (moves k (map v_rpcs (v :: vs ++ w :: ws)) <= 7 + 6 * ((if publishing w then 1 else 0) + committed tr2) +
      5 * length (filter (fun e => (match su_after su with Some a => a < e.1 | None => True end)%N /\ q_matches (su_q su) e.2) (s_hist st)))%nat.
  Proof.
    intros H Hn Hk Hl Hs. destruct (serves_leads _ _ _ _ _ H) as (t1 & t2 & -> & H1 & H2). exists t1, t2. split; [reflexivity|]. split; [exact H1|]. split; [exact H2|].
    destruct (subscription_exact ps hash order ford caching max_events Hps Hps32 Hord Hford _ _ _ _ Hrun _ _ _ _ _ _ _ H Hk Hl Hs) as (_ & _ & Hp).
    pose proof (subscription_batches ps hash order ford caching max_events _ _ _ _ _ _ _ _ _ H Hk) as Hb.
    apply prefix_length in Hp. pose proof (short_batches _ Hb) as Hsb. pose proof (leads_ver _ _ _ H2) as Hv.
    destruct (serves_counts _ _ _ H) as [Hc _]. pose proof (counts_sub _ _ _ _ _ _ (v_rpcs w) (v_ver w) Hc Hk) as C.
    replace (map v_rpcs (v :: vs ++ w :: ws)) with (map fst (map calls (v :: vs ++ w :: ws))) by now rewrite map_map. change (map calls (v :: vs ++ w :: ws)) with ((v_rpcs v, v_ver v) :: map calls (vs ++ w :: ws)).
    assert (Hin : (v_rpcs w, v_ver w) ∈ map calls (vs ++ w :: ws)) by (apply (elem_of_list_fmap_1 calls _ w), elem_of_app; right; left).
    specialize (C Hin Hn). apply (Nat.add_le_mono_r _ _ (6 * v_ver w)). etransitivity; [exact C|]. destruct (publishing v), (publishing w); lia.
  Qed.
End blocking.

Section pipelining.
  Context (hash : bytes -> bytes) (order : list bytes -> list bytes) (ford : gset N -> list N) (caching : bool) (max_events : N).
  Context (Hord : forall l t, t ∈ order l <-> t ∈ l) (Hford : forall s, ford s ≡ₚ elements s).
  Notation wstep := (wstep 16 dps hash order ford caching max_events).
  Notation wserves := (wserves 16 dps hash order ford caching max_events).
  Notation mrun := (mrun hash order ford caching).
  Notation mshows := (mshows hash order).
  Notation w_leads := (w_leads hash order ford caching max_events).
  Context (tr0 : list label) (s0 : psys) (h0 : option N) (Hrun : mrun fine tr0 (MP s0)).
  Notation going := (going hash order ford caching max_events s0 h0).
  Definition w_calls (v : wsrv) : gmap nat rpc * nat := (w_rpcs v, w_ver v).
  Lemma notify_ver v : (w_ver (w_notify v) <= S (w_ver v))%nat. Proof. unfold w_notify. case_match; cbn; lia. Qed.
  Lemma wserves_counts v vs tr : wserves s0 h0 (v :: vs) tr -> counts (map w_calls (v :: vs)) /\ Forall (fun h => (h.2 <= w_ver v)%nat) (map w_calls vs).
  Proof.
    intros H. remember (v :: vs) as l eqn:El. revert v vs El. induction H as [|v vs tr ol v' H IH Hst]; intros w ws [= <- <-]; [split; [apply counts_init|constructor]|].
    destruct (IH _ _ eq_refl) as [Hc Hle].
    assert (HS : (w_ver v <= w_ver v')%nat /\
      (forall k x, w_rpcs v !! k = Some x -> (seen_ver x <= w_ver v)%nat -> exists x', w_rpcs v' !! k = Some x' /\ (x' = x \/ (pot x < pot x')%nat) /\ (seen_ver x' <= w_ver v')%nat /\ is_read x' = is_read x) /\
      (forall k x, w_rpcs v !! k = None -> w_rpcs v' !! k = Some x -> responses x = 0%nat /\ (is_read x = false -> seen_ver x = w_ver v) /\ (seen_ver x <= w_ver v)%nat)).
    { destruct Hst as [v ol z Hz _ _|v h next Hz|v ol u Hz Hg Hq Hd Hi Hi'].
      - cbn. split; [lia|]. split; [intros k x E1 E2; exists x; auto|congruence].
      - destruct (notify_same (w_set_z (z_publish (Some h) (z_set_thread next (w_z v))) v)) as (_ & E & _ & _ & Hv & _). rewrite E. cbn in Hv |- *. split; [exact Hv|].
        split; [intros k x E1 E2; exists x; repeat split; auto; lia|congruence].
      - pose proof (step_ver dps hash order ford caching max_events _ _ _ Hz) as Hv. split; [exact Hv|]. split.
        + intros k x Hx Hs. destruct (step_pot dps hash order ford caching max_events _ _ _ _ _ Hz Hx Hs) as (x' & E1 & E2 & E3). destruct (sstep_asked dps hash order ford caching max_events _ _ _ _ _ Hz Hx) as (x2 & F1 & _ & F3).
          exists x'. split; [exact E1|]. split; [exact E2|]. split; [exact E3|]. congruence.
        + intros k x. apply (step_new dps hash order ford caching max_events _ _ _ _ _ Hz). }
    destruct HS as (Hv & HS1 & HS2). split; [exact (counts_step _ _ _ _ _ Hc Hle Hv HS1 HS2)|].
    cbn. constructor; [exact Hv|]. eapply Forall_impl; [exact Hle|]. intros y Hy. cbn in *. lia.
  Qed.
  (** The writer thread is still to tell the subscriptions of a commit. *)
  Fixpoint telling (t : zphase) : nat := match t with ZSend _ h next => (if h then 1 else 0) + telling next | _ => 0 end.
  Lemma w_leads_ver w v tr : w_leads w v tr -> (w_ver v + telling (z_thread (w_z v)) <= w_ver w + telling (z_thread (w_z w)) + committed tr)%nat.
  Proof.
    induction 1 as [|v tr ol v' H IH Hst _]; [cbn; lia|]. rewrite committed_app. set (before := (w_ver w + _)%nat) in *. clearbody before.
    destruct Hst as [v ol z Hz _ Hpub|v h next Hz|v ol u Hz Hg Hq Hd Hi Hi'].
    - cbn [w_set_z w_ver w_z]. destruct Hz; cbn in *; repeat match goal with E : z_thread _ = _ |- _ => try rewrite E in IH; try rewrite E; clear E end; cbn in *; try lia.
      + match goal with E : z_next ?t = Some next |- _ => destruct t; try discriminate E; injection E as <- end; cbn in *; lia.
      + match goal with E : z_after ?t = Some _ |- _ => destruct t; try discriminate E; injection E as <- <- end; cbn in *; lia.
    - pose proof (notify_ver (w_set_z (z_publish (Some h) (z_set_thread next (w_z v))) v)) as Hn. destruct (notify_same (w_set_z (z_publish (Some h) (z_set_thread next (w_z v))) v)) as (E & _).
      rewrite E, Hz in *. cbn in *. lia.
    - cbn [w_put w_ver w_z]. assert (v_ver u = w_ver v) as ->; [|cbn; lia]. inversion Hz; subst; cbn; try reflexivity; discriminate.
  Qed.
  Lemma going_leads v vs w ws tr : going (v :: vs ++ w :: ws) tr -> exists tr1 tr2, tr = tr1 ++ tr2 /\ going (w :: ws) tr1 /\ w_leads w v tr2.
  Proof.
    intros [H Ha]. remember (v :: vs ++ w :: ws) as l eqn:El. revert v vs El Ha. induction H as [|v0 vs0 tr ol v' H IH Hst]; intros v vs El Ha; [destruct vs; discriminate El|].
    injection El as <- El. destruct vs as [|v1 vs].
    - injection El as -> ->. destruct Ha as [Hc Ha]. eexists _, _. split; [reflexivity|]. split; [split; assumption|].
      exact (w_leads_step hash order ford caching max_events w w [] ol v' (w_leads_here _ _ _ _ _ w) Hst Hc).
    - cbn in El. injection El as -> ->. destruct Ha as [Hc Ha]. destruct (IH _ _ eq_refl Ha) as (t1 & t2 & -> & H1 & H2). rewrite <- app_assoc. eexists _, _. split; [reflexivity|]. split; [exact H1|]. econstructor; eassumption.
  Qed.
  (** The same next to the pipelining writer. *)
  Theorem pipelined_read_steps v vs tr k r x st : going (v :: vs) tr -> w_rpcs v !! k = Some (QRd r x) -> k ∉ w_lost v -> mshows (w_sys v) st ->
    (moves k (map w_rpcs (v :: vs)) <= 7 + 5 * Nat.max 1 (length (spec_read (s_hist st) (rr_q r) (rr_start r) (rr_bw r) (rr_limit r))))%nat.
  Proof.
    intros H Hk Hl Hs. pose proof (pipelined_responses_bounded hash order ford caching max_events Hord Hford _ _ _ Hrun _ _ _ _ _ _ _ H Hk Hl Hs) as B.
    destruct (wserves_counts _ _ _ (proj1 H)) as [Hc _]. pose proof (counts_read _ _ _ _ _ _ Hc Hk) as C.
    replace (map w_rpcs (v :: vs)) with (map fst (map w_calls (v :: vs))) by now rewrite map_map. change (map w_calls (v :: vs)) with ((w_rpcs v, w_ver v) :: map w_calls vs). etransitivity; [exact C|]. lia.
  Qed.
  Theorem pipelined_subscription_steps v vs w ws tr k su x st : going (v :: vs ++ w :: ws) tr -> w_rpcs w !! k = None ->
    w_rpcs v !! k = Some (QSub su x) -> k ∉ w_lost v -> mshows (w_sys v) st ->
    exists tr1 tr2, tr = tr1 ++ tr2 /\ going (w :: ws) tr1 /\ w_leads w v tr2 /\
    (moves k (map w_rpcs (v :: vs ++ w :: ws)) <= 7 + 6 * (telling (z_thread (w_z w)) + committed tr2) +
      5 * length (filter (fun e => (match su_after su with Some a => a < e.1 | None => True end)%N /\ q_matches (su_q su) e.2) (s_hist st)))%nat.
  Proof.
    intros H Hn Hk Hl Hs. destruct (going_leads _ _ _ _ _ H) as (t1 & t2 & -> & H1 & H2). exists t1, t2. split; [reflexivity|]. split; [exact H1|]. split; [exact H2|].
    destruct (pipelined_subscription_exact hash order ford caching max_events Hord Hford _ _ _ Hrun _ _ _ _ _ _ _ H Hk Hl Hs) as (_ & _ & Hp).
    pose proof (pipelined_subscription_batches hash order ford caching max_events _ _ _ _ _ _ _ _ (proj1 H) Hk) as Hb.
    apply prefix_length in Hp. pose proof (short_batches _ Hb) as Hsb. pose proof (w_leads_ver _ _ _ H2) as Hv.
    destruct (wserves_counts _ _ _ (proj1 H)) as [Hc _]. pose proof (counts_sub _ _ _ _ _ _ (w_rpcs w) (w_ver w) Hc Hk) as C.
    replace (map w_rpcs (v :: vs ++ w :: ws)) with (map fst (map w_calls (v :: vs ++ w :: ws))) by now rewrite map_map. change (map w_calls (v :: vs ++ w :: ws)) with ((w_rpcs v, w_ver v) :: map w_calls (vs ++ w :: ws)).
    assert (Hin : (w_rpcs w, w_ver w) ∈ map w_calls (vs ++ w :: ws)) by (apply (elem_of_list_fmap_1 w_calls _ w), elem_of_app; right; left).
    specialize (C Hin Hn). apply (Nat.add_le_mono_r _ _ (6 * w_ver w)). etransitivity; [exact C|]. lia.
  Qed.
End pipelining.

(** A read answered with three events in one response does 6 steps, a subscription that was sent two batches of one event 16. *)
Definition r_steps (here before : gmap nat rpc) (hs : list (gmap nat rpc)) (lost : list nat) : bool :=
  match here !! 8%nat, here !! 9%nat, before !! 9%nat, lost with
  | Some (QRd r QEnd), Some (QSub su QWait), None, [] =>
      bool_decide (map (fun o => map fst o.1) (rr_out r) = [[1; 3; 4]]) && Nat.eqb (moves 8 hs) 6 && bool_decide (map (map fst) (su_out su) = [[3]; [4]]) && Nat.eqb (moves 9 hs) 16
  | _, _, _, _ => false end.
Lemma r_steps_ok here before hs lost : r_steps here before hs lost = true -> exists r su,
  here !! 8%nat = Some (QRd r QEnd) /\ map (fun o => map fst o.1) (rr_out r) = [[1; 3; 4]] /\ 8%nat ∉ lost /\ moves 8 hs = 6%nat /\
  here !! 9%nat = Some (QSub su QWait) /\ map (map fst) (su_out su) = [[3]; [4]] /\ before !! 9%nat = None /\ 9%nat ∉ lost /\ moves 9 hs = 16%nat.
Proof.
  unfold r_steps. intros H. destruct (here !! 8%nat) as [[r []|]|]; try discriminate H. destruct (here !! 9%nat) as [[|su []]|]; try discriminate H. destruct (before !! 9%nat); [discriminate H|]. destruct lost; [|discriminate H].
  apply andb_prop in H as [H H4]. apply andb_prop in H as [H H3]. apply andb_prop in H as [H1 H2]. apply bool_decide_eq_true in H1. apply bool_decide_eq_true in H3. apply Nat.eqb_eq in H2, H4.
  exists r, su. repeat (split; [auto; apply not_elem_of_nil|]). exact H4.
Qed.
Example steps_example : exists v vs w ws tr r su, e_serves (v :: vs ++ w :: ws) tr /\
  v_rpcs v !! 8%nat = Some (QRd r QEnd) /\ map (fun o => map fst o.1) (rr_out r) = [[1; 3; 4]] /\ 8%nat ∉ v_lost v /\ moves 8 (map v_rpcs (v :: vs ++ w :: ws)) = 6%nat /\
  v_rpcs v !! 9%nat = Some (QSub su QWait) /\ map (map fst) (su_out su) = [[3]; [4]] /\ v_rpcs w !! 9%nat = None /\ 9%nat ∉ v_lost v /\ moves 9 (map v_rpcs (v :: vs ++ w :: ws)) = 16%nat.
Proof.
  destruct (e_found g_script (fun v vs => match vs !! 65%nat with Some w => r_steps (v_rpcs v) (v_rpcs w) (map v_rpcs (v :: vs)) (v_lost v) | None => false end)) as (v & vs & tr & H & HP); [vm_compute; reflexivity|].
  destruct (vs !! 65%nat) as [w|] eqn:E; [|discriminate HP]. apply r_steps_ok in HP as (r & su & HP). pose proof (take_drop_middle _ _ _ E) as Ev. rewrite <- Ev in H, HP.
  exists v, (take 65 vs), w, (drop 66 vs), tr, r, su. split; [exact H|exact HP].
Qed.
Example pipelined_steps_example : exists v vs w ws tr r su, w_going true 10 (v :: vs ++ w :: ws) tr /\
  w_rpcs v !! 8%nat = Some (QRd r QEnd) /\ map (fun o => map fst o.1) (rr_out r) = [[1; 3; 4]] /\ 8%nat ∉ w_lost v /\ moves 8 (map w_rpcs (v :: vs ++ w :: ws)) = 6%nat /\
  w_rpcs v !! 9%nat = Some (QSub su QWait) /\ map (map fst) (su_out su) = [[3]; [4]] /\ w_rpcs w !! 9%nat = None /\ 9%nat ∉ w_lost v /\ moves 9 (map w_rpcs (v :: vs ++ w :: ws)) = 16%nat.
Proof.
  destruct (w_found true 10 u_script (fun v vs => match vs !! 87%nat with Some w => r_steps (w_rpcs v) (w_rpcs w) (map w_rpcs (v :: vs)) (w_lost v) | None => false end)) as (v & vs & tr & H & HP); [vm_compute; reflexivity|].
  destruct (vs !! 87%nat) as [w|] eqn:E; [|discriminate HP]. apply r_steps_ok in HP as (r & su & HP). pose proof (take_drop_middle _ _ _ E) as Ev. rewrite <- Ev in H, HP.
  exists v, (take 87 vs), w, (drop 88 vs), tr, r, su. split; [exact H|exact HP].
Qed.
Print Assumptions read_steps.
Print Assumptions subscription_steps.
Print Assumptions pipelined_read_steps.
Print Assumptions pipelined_subscription_steps.
