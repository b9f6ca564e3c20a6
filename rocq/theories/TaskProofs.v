(** Remote reads and subscriptions: what each step of the server keeps true of their tasks, whatever stands behind the database
    they read (the writer thread of Mvcc.v, or the one of Pipeline.v). *)
From Verif Require Export ServerReads.
Local Open Scope N_scope.

(** The state a reader shows is an earlier one. *)
Definition sp_sub (y : spec_sys) : Prop :=
  (forall i l s, sp_calls y !! i = Some l -> s ∈ l -> extends s (sp_cur y)) /\ (forall i s, sp_open y !! i = Some s -> extends s (sp_cur y)).
Lemma spec_step_sub ps y l y' : sp_sub y -> spec_step ps y l y' -> sp_sub y'.
Proof.
  intros (G3 & G4) H.
  assert (Hnone : forall s u, sp_sub (SSys s None u ∅ ∅)) by (intros s u; split; intros i; [intros l0 s0|intros s0]; cbn; rewrite lookup_empty; discriminate).
  destruct H as [y|s calls open reqs ans s' H|s a calls open reqs|s calls open reqs|y reqs s' H|y reqs s' H|s|s a calls open i H1 H2
    |s a calls open i l s0 H1 H2|s a calls open i s0 H|y i s0 q start bw limit H evs|s a calls open i l s0 H1 H2|y i s0 src H];
    try apply Hnone; try (split; [exact G3|exact G4]); cbn in G3, G4.
  - pose proof (batch_extends ps s reqs) as He. rewrite H in He. cbn in He. split; cbn.
    + intros i l s0. rewrite lookup_fmap. destruct (calls !! i) as [l0|] eqn:E; [|discriminate]. cbn. intros [= <-] Hs.
      apply elem_of_cons in Hs as [->|Hs]; [apply extends_refl|]. eapply extends_trans; [eapply G3; eassumption|exact He].
    + intros i s0 Hs. eapply extends_trans; [eapply G4; eassumption|exact He].
  - split; cbn; [|exact G4]. intros j l s0. destruct (decide (j = i)) as [->|Hne].
    + rewrite lookup_insert. intros [= <-] Hs. apply elem_of_list_singleton in Hs as ->. apply extends_refl.
    + rewrite lookup_insert_ne by congruence. apply G3.
  - split; cbn.
    + intros j l0 s1. destruct (decide (j = i)) as [->|Hne]; [rewrite lookup_delete; discriminate|rewrite lookup_delete_ne by congruence; apply G3].
    + intros j s1. destruct (decide (j = i)) as [->|Hne]; [rewrite lookup_insert; intros [= <-]; eapply G3; eassumption|rewrite lookup_insert_ne by congruence; apply G4].
  - split; cbn; [exact G3|]. intros j s1. destruct (decide (j = i)) as [->|Hne]; [rewrite lookup_delete; discriminate|rewrite lookup_delete_ne by congruence; apply G4].
  - split; cbn; [|exact G4]. intros j l0 s1. destruct (decide (j = i)) as [->|Hne]; [rewrite lookup_delete; discriminate|rewrite lookup_delete_ne by congruence; apply G3].
Qed.
Lemma spec_init_sub : sp_sub spec_init.
Proof. split; intros i; [intros l s|intros s]; cbn; rewrite lookup_empty; discriminate. Qed.
Lemma spec_steps_sub ps y tr y' : sp_sub y -> spec_steps ps y tr y' -> sp_sub y'.
Proof. intros Hg H. induction H as [y|y tr y' l y'' H IH Hst]; [exact Hg|]. exact (spec_step_sub _ _ _ _ (IH Hg) Hst). Qed.

Lemma spec_read_inv ps y i q start bw limit r y' : spec_step ps y (LRead i q start bw limit r) y' ->
  exists s, sp_open y !! i = Some s /\ r = Ok (spec_read (s_hist s) q start bw limit, spec_read_head s limit (spec_read (s_hist s) q start bw limit)).
Proof. intros H. inversion H; subst. eauto. Qed.

(** ** Where a task is with its reader.  [bad]: a page could not be read for it. *)
Notation rargs := (query * option N * bool * N)%type.
Definition phase_ok (bad : Prop) (sy : spec_sys) (k : nat) (a : rargs) (P : spec_state -> Prop) (x : qphase) : Prop :=
  match x with
  | QCall => exists l, sp_calls sy !! k = Some l /\ Forall P l
  | QOpen => exists s, sp_open sy !! k = Some s /\ P s
  | QRead y => exists s, sp_open sy !! k = Some s /\ P s /\ (y = Ok (spec_read (s_hist s) a.1.1.1 a.1.1.2 a.1.2 (Some a.2), spec_head s) \/ bad /\ y = Err ECorruption)
  | QFail e => bad /\ e = ECorruption
  | _ => True
  end.
Definition idle_phase (x : qphase) : bool := match x with QLoop | QBorrow | QWait | QEnd | QGone => true | _ => false end.
Lemma phase_idle bad sy k a P x : idle_phase x = true -> phase_ok bad sy k a P x.
Proof. destruct x; cbn; intros; try discriminate; exact I. Qed.
Lemma phase_mono (bad bad' : Prop) sy k a (P P' : spec_state -> Prop) x : (bad -> bad') -> (forall s, P s -> P' s) -> phase_ok bad sy k a P x -> phase_ok bad' sy k a P' x.
Proof.
  intros Hb Hm H. destruct x; cbn in *; try exact H.
  - destruct H as (l & H1 & H2). exists l. split; [exact H1|]. eapply Forall_impl; [exact H2|exact Hm].
  - destruct H as (s & H1 & H2). eauto.
  - destruct H as (s & H1 & H2 & H3). exists s. split; [exact H1|]. split; [auto|]. tauto.
  - tauto.
Qed.
Lemma phase_stable (bad bad' : Prop) ps sy l sy' k a (P P' : spec_state -> Prop) x : spec_step ps sy l sy' -> quiet k l -> (bad -> bad') ->
  (forall s, P s -> P' s) -> (forall r b, l = LCommit r b -> P' (sp_cur sy')) -> phase_ok bad sy k a P x -> phase_ok bad' sy' k a P' x.
Proof.
  intros Hst Hq Hb Hm Hc H.
  assert (Ho : sp_open sy' !! k = sp_open sy !! k).
  { destruct Hst; cbn in *; try reflexivity; try contradiction; rewrite ?lookup_insert_ne, ?lookup_delete_ne by congruence; reflexivity. }
  assert (Hcl : forall L, sp_calls sy !! k = Some L -> Forall P L -> exists L', sp_calls sy' !! k = Some L' /\ Forall P' L').
  { intros L HL HP. assert (Forall P' L) as HP' by (eapply Forall_impl; [exact HP|exact Hm]).
    destruct Hst; cbn in *; try contradiction; try (exists L; split; [rewrite ?lookup_insert_ne, ?lookup_delete_ne by congruence; exact HL|exact HP']).
    eexists. split; [rewrite lookup_fmap, HL; reflexivity|]. constructor; [eapply Hc; reflexivity|exact HP']. }
  destruct x; cbn in *; try exact H.
  - destruct H as (L & HL & HP). eauto.
  - destruct H as (s & Hs & HP). exists s. rewrite Ho. auto.
  - destruct H as (s & Hs & HP & E). exists s. rewrite Ho. split; [exact Hs|]. split; [auto|]. tauto.
  - tauto.
Qed.

(** A batch has been committed and the watched head is about to be set. *)
Definition publishing (v : srv) : bool := match v_thread v with TReply _ (Some _) => true | _ => false end.
(** Nothing was committed since the version the subscriber has seen. *)
Definition fresh_sub (v : srv) (s : rsub) : Prop := su_seen s = v_ver v /\ publishing v = false.
(** Nothing has been sent so far. *)
Definition unsent (x : rpc) : Prop := match x with QRd r _ => rr_out r = [] | QSub s _ => su_out s = [] end.

Section task_proofs.
  Context (ps : N) (hash : bytes -> bytes) (order : list bytes -> list bytes) (ford : gset N -> list N) (caching : bool) (max_events : N).
  Notation pstep := (pstep 16 ps hash order ford caching).
  Notation sstep := (sstep 16 ps hash order ford caching max_events).
  Notation shows := (shows hash order).

  (** [s] was the state of the store at a time when task [k] was running and had sent nothing. *)
  Definition seen_by (k : nat) (vs : list srv) (s : spec_state) : Prop :=
    exists w x, w ∈ vs /\ v_rpcs w !! k = Some x /\ unsent x /\ shows (v_sys w) s.

  Definition rd_inv (bad : Prop) (vs : list srv) (sy : spec_sys) (k : nat) (r : rread) (x : qphase) : Prop :=
    rr_wf r /\ (match x with QEnd | QGone => True | QWait => False | _ => read_exhausted r = false end) /\
    match rr_head r with
    | None => rr_out r = [] /\ rr_next r = rr_start r /\ match rr_limit r with Some l => rr_remaining r = l | None => True end /\
        (x = QEnd -> rr_limit r = Some 0) /\ phase_ok bad sy k (rpc_args (QRd r x)) (seen_by k vs) x
    | Some hd => exists s0, seen_by k vs s0 /\ gapless (s_hist s0) /\ extends s0 (sp_cur sy) /\ hd = hist_head (s_hist s0) /\
        rr_heads (s_hist s0) r /\ rr_out r <> [] /\
        spec_read (s_hist s0) (rr_q r) (rr_start r) (rr_bw r) (rr_limit r) = rr_sent r ++ (match x with QEnd => [] | _ => rr_rest (s_hist s0) r end) /\
        (x <> QEnd -> (exists n, rr_next r = Some n /\ (rr_bw r = true -> n <= nlen (s_hist s0))) /\ Forall (fun o => o.1 <> []) (rr_out r)) /\
        phase_ok bad sy k (rpc_args (QRd r x)) (extends s0) x
    end.
  Definition su_inv (v : srv) (sy : spec_sys) (k : nat) (s : rsub) (x : qphase) : Prop :=
    (su_out s = [] /\ su_after s = Some (U64 - 1) /\ x = QEnd) \/
    (1 <= su_batch s /\ (su_seen s <= v_ver v)%nat /\ su_good (s_hist (sp_cur sy)) s /\ x <> QEnd /\
     phase_ok (k ∈ v_unread v) sy k (rpc_args (QSub s x)) (fun st => su_good (s_hist st) s /\ (fresh_sub v s -> s_hist st = s_hist (sp_cur sy))) x /\
     (x = QWait -> fresh_sub v s -> su_todo (s_hist (sp_cur sy)) s = [])).
  Definition rpc_inv (vs : list srv) (v : srv) (sy : spec_sys) (k : nat) (x : rpc) : Prop :=
    match x with QRd r q => rd_inv (k ∈ v_unread v) vs sy k r q | QSub s q => su_inv v sy k s q end.

  Definition olabel (ol : option label) : label := match ol with Some l => l | None => LTau end.
  (** What is asked of the database: [I y sy] says that its state [y] stands for [sy]. *)
  Context (I : sys -> spec_sys -> Prop).
  Context (I_bound : forall v sy, I (v_sys v) sy -> nlen (s_hist (sp_cur sy)) + 1 < U64).
  Context (I_shows : forall v sy, I (v_sys v) sy -> shows (v_sys v) (sp_cur sy)).
  Context (I_scan : forall v sy k a q start bw limit, I (v_sys v) sy -> p_readers (v_proc v) !! k = Some (ROpen a) ->
    exists s, sp_open sy !! k = Some s /\
      handler_read hash order (fetch 16 (p_cache (v_proc v)) (v_disk v)) a.2 q start bw limit = Ok (spec_read (s_hist s) q start bw (Some limit), spec_head s)).

  (** *** Steps that do not concern task [k] *)
  Lemma seen_mono k w vs s : seen_by k vs s -> seen_by k (w :: vs) s.
  Proof. intros (u & x & H1 & H2). exists u, x. split; [now right|exact H2]. Qed.
  Lemma task_seen_now k v vs x sy : v_rpcs v !! k = Some x -> unsent x -> I (v_sys v) sy -> seen_by k (v :: vs) (sp_cur sy).
  Proof. intros H1 H2 H3. exists v, x. split; [left|]. split; [exact H1|]. split; [exact H2|]. now apply I_shows. Qed.
  Lemma rd_keep (bad bad' : Prop) vs v' sy l sy' k r x : rd_inv bad vs sy k r x -> (bad -> bad') -> sp_good sy -> spec_step ps sy l sy' -> quiet k l -> I (v_sys v') sy' ->
    v_rpcs v' !! k = Some (QRd r x) -> rd_inv bad' (v' :: vs) sy' k r x.
  Proof.
    intros (H1 & H2 & H3) Hbad Hg Hst Hq Hi Hk. destruct (spec_step_good _ _ _ _ Hg Hst) as [_ Hext]. split; [exact H1|]. split; [exact H2|]. destruct (rr_head r) as [hd|].
    - destruct H3 as (s0 & A1 & A2 & A3 & A4 & A5 & A6 & A7 & A8 & A9). exists s0. split; [now apply seen_mono|]. split; [exact A2|].
      split; [eapply extends_trans; eassumption|]. do 5 (split; [assumption|]).
      eapply (phase_stable _ _ ps sy l sy' k _ (extends s0)); [exact Hst|exact Hq|exact Hbad|auto|intros rq b _; eapply extends_trans; eassumption|exact A9].
    - destruct H3 as (A1 & A2 & A3 & A4 & A5). do 4 (split; [assumption|]).
      eapply (phase_stable _ _ ps sy l sy' k _ (seen_by k vs)); [exact Hst|exact Hq|exact Hbad|intros s; apply seen_mono|intros rq b _; eapply task_seen_now; [exact Hk|exact A1|exact Hi]|exact A5].
  Qed.
  (** The version or the pending notification tells the subscriber about a new state. *)
  Definition told (v v' : srv) (sy sy' : spec_sys) : Prop :=
    publishing v' = false -> v_ver v' = v_ver v -> publishing v = false /\ s_hist (sp_cur sy') = s_hist (sp_cur sy).
  Lemma su_keep v v' sy l sy' k s x : su_inv v sy k s x -> (k ∈ v_unread v -> k ∈ v_unread v') -> sp_good sy -> sp_good sy' -> spec_step ps sy l sy' -> quiet k l -> (v_ver v <= v_ver v')%nat ->
    (listening (QSub s x) = true -> told v v' sy sy') -> su_inv v' sy' k s x.
  Proof.
    intros [H|(H1 & H2 & H3 & H4 & H5 & H6)] Hbad Hg Hg' Hst Hq Hv T; [now left|]. right.
    destruct (spec_step_good _ _ _ _ Hg Hst) as [_ Hext]. destruct (extends_hist _ _ Hext) as [h' Eh].
    assert (Hgood : su_good (s_hist (sp_cur sy')) s) by (rewrite Eh; apply su_mono; [rewrite <- Eh; exact (proj1 Hg')|exact H3]).
    split; [exact H1|]. split; [lia|]. split; [exact Hgood|]. split; [exact H4|].
    assert (Hx : (x = QGone \/ exists e, x = QFail e) \/ listening (QSub s x) = true) by (destruct x; (left; left; reflexivity) || (left; right; eauto; fail) || (right; reflexivity) || contradiction).
    destruct Hx as [[->|[e ->]]|Hx]; [split; [exact Logic.I|discriminate]|split; [destruct H5; split; auto|discriminate]|].
    assert (Hfr : fresh_sub v' s -> fresh_sub v s /\ s_hist (sp_cur sy') = s_hist (sp_cur sy)).
    { intros [F1 F2]. destruct (T Hx F2) as [T3 T4]; [lia|]. split; [split; [lia|exact T3]|exact T4]. }
    split.
    - eapply (phase_stable _ _ ps sy l sy' k _ (fun st => su_good (s_hist st) s /\ (fresh_sub v s -> s_hist st = s_hist (sp_cur sy)))); [exact Hst|exact Hq|exact Hbad| | |exact H5].
      + intros st [B1 B2]. split; [exact B1|]. intros F. destruct (Hfr F) as [F1 F2]. rewrite F2. auto.
      + intros rq b _. split; [exact Hgood|reflexivity].
    - intros Hw F. destruct (Hfr F) as [F1 F2]. rewrite F2. auto.
  Qed.

  (** *** Steps of task [k] *)
  Lemma rd_phase (bad bad' : Prop) vs v' sy sy' k r x x' : rd_inv bad vs sy k r x -> sp_good sy -> I (v_sys v') sy' -> v_rpcs v' !! k = Some (QRd r x') ->
    sp_cur sy' = sp_cur sy ->
    (match x with QEnd | QGone => False | _ => True end) -> (match x' with QEnd | QWait => False | _ => True end) ->
    (forall P : spec_state -> Prop, (forall s, P s -> P s) -> P (sp_cur sy) -> phase_ok bad sy k (rpc_args (QRd r x)) P x -> phase_ok bad' sy' k (rpc_args (QRd r x')) P x') ->
    rd_inv bad' (v' :: vs) sy' k r x'.
  Proof.
    intros (H1 & H2 & H3) Hg Hi Hk Hc Hx Hx' Hph. split; [exact H1|]. split; [destruct x, x'; try contradiction; try exact Logic.I; exact H2|]. destruct (rr_head r) as [hd|].
    - destruct H3 as (s0 & A1 & A2 & A3 & A4 & A5 & A6 & A7 & A8 & A9). exists s0. split; [now apply seen_mono|]. split; [exact A2|]. rewrite Hc.
      do 4 (split; [assumption|]). split; [rewrite A7; destruct x, x'; try contradiction; reflexivity|]. split; [intros _; apply A8; destruct x; try discriminate; contradiction|].
      apply Hph; auto.
    - destruct H3 as (A1 & A2 & A3 & A4 & A5). do 3 (split; [assumption|]). split; [intros ->; contradiction|].
      apply Hph; [auto| |].
      + rewrite <- Hc. eapply task_seen_now; [exact Hk|exact A1|exact Hi].
      + eapply phase_mono; [intros B; exact B| |exact A5]. intros s0 B. now apply seen_mono.
  Qed.
  Lemma su_phase v v' sy sy' k s x x' : su_inv v sy k s x -> sp_good sy ->
    sp_cur sy' = sp_cur sy -> v_ver v' = v_ver v -> publishing v' = publishing v ->
    (match x with QEnd => False | _ => True end) -> (match x' with QEnd | QWait => False | _ => True end) ->
    (forall P : spec_state -> Prop, P (sp_cur sy) -> phase_ok (k ∈ v_unread v) sy k (rpc_args (QSub s x)) P x -> phase_ok (k ∈ v_unread v') sy' k (rpc_args (QSub s x')) P x') ->
    su_inv v' sy' k s x'.
  Proof.
    intros [H|(H1 & H2 & H3 & H4 & H5 & H6)] Hg Hc Hv Hp Hx Hx' Hph; [destruct H as (_ & _ & ->); contradiction|]. right. unfold fresh_sub in *. rewrite Hv, Hp, Hc.
    do 3 (split; [assumption|]). split; [intros ->; contradiction|]. split; [|intros ->; contradiction]. apply Hph; [|exact H5]. split; [exact H3|reflexivity].
  Qed.

  Lemma spec_read_nil q start bw limit : spec_read [] q start bw limit = [].
  Proof. unfold spec_read. cbn. destruct bw, limit; cbn; rewrite ?take_nil; reflexivity. Qed.
  Lemma head_hist s : spec_head s = hist_head (s_hist s).
  Proof. unfold spec_head, hist_head. now destruct (s_hist s). Qed.
  Lemma extends_len s s' : extends s s' -> nlen (s_hist s) <= nlen (s_hist s').
  Proof. intros H. destruct (extends_hist _ _ H) as [h' ->]. rewrite nlen_app. lia. Qed.
  Lemma rd_handle (bad : Prop) vs v v' sy sy' k r ans : rd_inv bad vs sy k r (QRead ans) -> (exists y, ans = Ok y) -> sp_good sy -> sp_sub sy -> I (v_sys v) sy ->
    sp_cur sy' = sp_cur sy -> I (v_sys v') sy' -> rpc_inv (v' :: vs) v' sy' k (rpc_handle (QRd r (QRead ans)) ans).
  Proof.
    intros (H1 & H2 & H3) [yans Hans] Hg Hsub Hi Hc Hi'. pose proof (I_bound _ _ Hi) as Hb.
    assert (Hcase : exists s0 evs s, seen_by k vs s0 /\ extends s0 (sp_cur sy) /\ sp_open sy !! k = Some s /\ extends s0 s /\ gapless (s_hist s0) /\
      ans = Ok (evs, spec_head s) /\ (match rr_head r with Some x => x | None => spec_head s end) = hist_head (s_hist s0) /\
      filter (fun e : seq_event => e.1 <= nlen (s_hist s0)) evs = take (N.to_nat (Server.read_limit r)) (spec_read (s_hist s0) (rr_q r) (rr_next r) (rr_bw r) None) /\
      (length evs <= N.to_nat (Server.read_limit r))%nat /\ (s_hist s0 = [] -> evs = []) /\ rr_heads (s_hist s0) r /\
      (rr_out r <> [] -> Forall (fun x => x.1 <> []) (rr_out r)) /\
      spec_read (s_hist s0) (rr_q r) (rr_start r) (rr_bw r) (rr_limit r) = rr_sent r ++ rr_rest (s_hist s0) r).
    { destruct (rr_head r) as [hd|] eqn:Ehd.
      - destruct H3 as (s0 & A1 & A2 & A3 & A4 & A5 & A6 & A7 & A8 & A9). cbn [phase_ok rpc_args fst snd] in A9. destruct A9 as (s & B1 & B2 & [->|[_ ->]]); [|discriminate].
        destruct (A8 ltac:(discriminate)) as [(n & An & Ab) Ane]. exists s0. eexists. exists s. split; [exact A1|]. split; [exact A3|]. split; [exact B1|]. split; [exact B2|]. split; [exact A2|].
        split; [reflexivity|]. split; [exact A4|]. destruct (extends_hist _ _ B2) as [h' Eh]. pose proof (proj2 (proj2 (proj2 Hg)) _ _ B1) as Hgs.
        split; [rewrite An; cbn [fst snd]; rewrite SpecProofs.read_limit, Eh; apply read_later; [rewrite <- Eh; exact Hgs|exact Ab]|].
        split; [rewrite SpecProofs.read_limit, take_length; lia|]. split; [|split; [exact A5|split; [intros _; exact Ane|exact A7]]].
        intros E0. exfalso. rewrite E0, spec_read_nil in A7. symmetry in A7. apply app_eq_nil in A7 as [A7 _]. unfold rr_sent in A7. destruct (rr_out r) as [|o os]; [contradiction|].
        cbn in A7. apply app_eq_nil in A7 as [A7 _]. inversion Ane; subst. contradiction.
      - destruct H3 as (A1 & A2 & A3 & A4 & A5). cbn [phase_ok rpc_args fst snd] in A5. destruct A5 as (s & B1 & B2 & [->|[_ ->]]); [|discriminate]. pose proof (proj2 (proj2 (proj2 Hg)) _ _ B1) as Hgs.
        exists s. eexists. exists s. split; [exact B2|]. split; [exact (proj2 Hsub _ _ B1)|]. split; [exact B1|]. split; [apply extends_refl|]. split; [exact Hgs|].
        split; [reflexivity|]. split; [apply head_hist|]. cbn [fst snd]. rewrite SpecProofs.read_limit.
        split; [apply filter_all; apply Forall_take; rewrite Forall_forall; intros e He; apply read_elem in He as (He & _); apply (gapless_pos _ _ Hgs He)|].
        split; [rewrite take_length; lia|]. split; [intros ->; rewrite spec_read_nil; apply take_nil|]. split; [unfold rr_heads; rewrite A1; split; [constructor|left; constructor]|].
        split; [rewrite A1; contradiction|]. unfold rr_sent, rr_rest. rewrite A1, A2. cbn [map concat app].
        destruct (rr_limit r) as [l|]; cbn [is_someb]; [rewrite A3|]; reflexivity. }
    destruct Hcase as (s0 & evs & s & C1 & C2 & C3 & C4 & C5 & -> & C7 & C8 & C9 & C10 & C11 & C12 & C13).
    pose proof (extends_len _ _ C2) as Hle.
    destruct (iter_ok (s_hist s0) r evs (spec_head s) C5 ltac:(lia) H1 H2 C7 C8 C9 C10 C11 C12) as (r' & go & E & (S1 & S2 & S3 & S4 & S5) & W & Hd & Hs & Hh & Hne & Hgo).
    cbn [rpc_handle]. rewrite E. cbn [rpc_inv]. destruct go; cbn [andb].
    - destruct Hgo as (G1 & G2 & G3 & n & G4 & G5). rewrite G3. cbn [negb]. split; [exact W|]. split; [exact G3|]. rewrite Hd. exists s0.
      split; [now apply seen_mono|]. split; [exact C5|]. rewrite Hc. split; [exact C2|]. split; [reflexivity|]. split; [exact Hh|]. split; [exact Hne|].
      split; [rewrite S1, S2, S3, S4, C13, Hs, G1, app_assoc; reflexivity|]. split; [|exact Logic.I]. intros _. split; [|exact G2]. exists n. split; [exact G4|]. rewrite S3. exact G5.
    - split; [exact W|]. split; [exact Logic.I|]. rewrite Hd. exists s0.
      split; [now apply seen_mono|]. split; [exact C5|]. rewrite Hc. split; [exact C2|]. split; [reflexivity|]. split; [exact Hh|]. split; [exact Hne|].
      split; [rewrite S1, S2, S3, S4, C13, Hs, Hgo, app_nil_r; reflexivity|]. split; [congruence|exact Logic.I].
  Qed.
  Lemma su_handle vs v v' sy sy' k s ans : su_inv v sy k s (QRead ans) -> (exists y, ans = Ok y) -> sp_good sy -> sp_sub sy -> I (v_sys v) sy ->
    sp_cur sy' = sp_cur sy -> v_ver v' = v_ver v -> publishing v' = publishing v -> rpc_inv vs v' sy' k (rpc_handle (QSub s (QRead ans)) ans).
  Proof.
    intros [(_ & _ & H)|(H1 & H2 & H3 & H4 & H5 & H6)] [yans Hans] Hg Hsub Hi Hc Hv Hp; [discriminate|]. pose proof (I_bound _ _ Hi) as Hb.
    cbn [phase_ok rpc_args fst snd] in H5. destruct H5 as (st & B1 & (B2 & B3) & [->|[_ ->]]); [|discriminate]. pose proof (proj2 (proj2 (proj2 Hg)) _ _ B1) as Hgs. pose proof (proj2 Hsub _ _ B1) as Hext. pose proof (extends_len _ _ Hext) as Hle.
    destruct (sub_iter_ok (s_hist st) s _ Hgs ltac:(lia) H1 B2 eq_refl) as [(E1 & E2 & E3)|(s' & E3 & E4 & E5 & E6 & E7 & E8 & E9 & E10)].
    - cbn [rpc_handle]. rewrite (SpecProofs.read_limit (s_hist st) (su_q s) (su_next s) false (su_batch s)).
      change (spec_read (s_hist st) (su_q s) (su_next s) false None) with (su_todo (s_hist st) s). rewrite E3. cbn [rpc_inv]. right. unfold fresh_sub in *. rewrite Hc, Hv, Hp.
      split; [exact H1|]. split; [exact H2|]. split; [exact H3|]. split; [discriminate|]. split; [exact Logic.I|]. intros _ F. specialize (B3 F). unfold su_todo in *. now rewrite <- B3.
    - cbn [rpc_handle]. rewrite (SpecProofs.read_limit (s_hist st) (su_q s) (su_next s) false (su_batch s)).
      change (spec_read (s_hist st) (su_q s) (su_next s) false None) with (su_todo (s_hist st) s). rewrite E3. cbn [rpc_inv]. right. rewrite Hc, Hv.
      split; [lia|]. split; [lia|]. split; [|split; [discriminate|split; [exact Logic.I|discriminate]]].
      destruct (extends_hist _ _ Hext) as [h' Eh]. rewrite Eh. apply su_mono; [rewrite <- Eh; exact (proj1 Hg)|exact E4].
  Qed.

  (** What was read, unless it failed. *)
  Lemma read_answer vs v sy k x ans : rpc_inv vs v sy k x -> rpc_phase x = QRead ans -> (exists y, ans = Ok y) \/ (k ∈ v_unread v /\ ans = Err ECorruption).
  Proof.
    intros H Hp. destruct x as [r y|s y]; cbn [rpc_phase rpc_inv] in *; subst y.
    - destruct H as (_ & _ & H). destruct (rr_head r).
      + destruct H as (s0 & _ & _ & _ & _ & _ & _ & _ & _ & (s & _ & _ & [->|H])); eauto.
      + destruct H as (_ & _ & _ & _ & (s & _ & _ & [->|H])); eauto.
    - destruct H as [(_ & _ & H)|(_ & _ & _ & _ & (st & _ & _ & [->|H]) & _)]; [discriminate| |]; eauto.
  Qed.
  Lemma lost_mono v ol v' k : sstep v ol v' -> k ∉ v_lost v' -> k ∉ v_lost v.
  Proof.
    intros H. destruct H; cbn; try exact (fun x => x).
    - unfold v_publish. case_match; exact (fun x => x).
    - intros Hk Hi. apply Hk. now right.
  Qed.
  Lemma unread_mono v ol v' k : sstep v ol v' -> k ∈ v_unread v -> k ∈ v_unread v'.
  Proof. intros H Hk. destruct H; cbn; try exact Hk. - unfold v_publish. case_match; exact Hk. - now right. Qed.

  Lemma spec_cur_same sy l sy' : spec_step ps sy l sy' -> match l with LCommit _ _ | LCrash _ | LKill _ | LOpen => False | _ => True end -> sp_cur sy' = sp_cur sy.
  Proof. intros H Hl. destruct H; try contradiction; reflexivity. Qed.
  Lemma rpc_keep vs v v' sy l sy' k x : rpc_inv (v :: vs) v sy k x -> (k ∈ v_unread v -> k ∈ v_unread v') -> sp_good sy -> sp_good sy' -> spec_step ps sy l sy' -> quiet k l ->
    I (v_sys v') sy' -> v_rpcs v' !! k = Some x -> (v_ver v <= v_ver v')%nat -> (listening x = true -> told v v' sy sy') -> rpc_inv (v' :: v :: vs) v' sy' k x.
  Proof.
    intros H Hbad Hg Hg' Hst Hq Hi Hk Hv Ht. destruct x as [r x|s x]; cbn [rpc_inv] in *.
    - eapply rd_keep; eassumption.
    - eapply su_keep; eassumption.
  Qed.
  Lemma listener v k x : v_rpcs v !! k = Some x -> listening x = true -> has_listener v = true.
  Proof. intros H1 H2. unfold has_listener. apply existsb_exists. exists (k, x). split; [|exact H2]. apply elem_of_list_In, elem_of_map_to_list, H1. Qed.

  Lemma task_step v vs ol v' sy sy' : sstep v ol v' -> I (v_sys v) sy -> sp_good sy -> sp_good sy' -> sp_sub sy ->
    spec_step ps sy (olabel ol) sy' -> I (v_sys v') sy' ->
    (forall k x, v_rpcs v !! k = Some x -> k ∉ v_lost v -> rpc_inv (v :: vs) v sy k x) ->
    forall k x, v_rpcs v' !! k = Some x -> k ∉ v_lost v' -> rpc_inv (v' :: v :: vs) v' sy' k x.
  Proof.
    intros Hst Hi Hg Hg' Hsub Hsp Hi' IH0 k x Hk Hlost. assert (IH : forall y, v_rpcs v !! k = Some y -> rpc_inv (v :: vs) v sy k y) by (intros y Hy; apply IH0; [exact Hy|eapply lost_mono; eassumption]). clear IH0. pose proof (unread_mono _ _ _ k Hst) as Hbad. pose proof (spec_cur_same _ _ _ Hsp) as Hcur.
    assert (Hkeep : v_rpcs v !! k = Some x -> quiet k (olabel ol) -> (v_ver v <= v_ver v')%nat -> (listening x = true -> told v v' sy sy') -> rpc_inv (v' :: v :: vs) v' sy' k x)
      by (intros; eapply rpc_keep; eauto).
    assert (Hkeep' : v_rpcs v !! k = Some x -> quiet k (olabel ol) -> v_ver v' = v_ver v -> sp_cur sy' = sp_cur sy -> publishing v' = publishing v -> rpc_inv (v' :: v :: vs) v' sy' k x).
    { intros A1 A2 A3 A4 A5. apply Hkeep; [exact A1|exact A2|lia|]. intros _ B1 B2. rewrite A4. split; [congruence|reflexivity]. }
    assert (Hold : forall i, v_rpcs v !! i = None -> v_rpcs v !! k = Some x -> i <> k) by congruence.
    revert Hk Hlost Hi' Hsp Hcur Hkeep Hkeep' Hbad.
    destruct Hst; intros Hk Hlost Hi' Hsp Hcur Hkeep Hkeep' Hbad; cbn [olabel] in *.
    all: try (apply Hkeep'; [exact Hk|exact Logic.I|reflexivity|apply Hcur; exact Logic.I|unfold publishing; cbn; try match goal with H : v_thread _ = _ |- _ => rewrite H end; reflexivity]; fail).
    all: try (apply Hkeep'; [exact Hk|cbn; intuition congruence|reflexivity|apply Hcur; exact Logic.I|unfold publishing; cbn; try match goal with H : v_thread _ = _ |- _ => rewrite H end; reflexivity]; fail).
    - (* others *) match goal with H : _ \/ _ |- _ => destruct H as [->|[->|[->|[(? & ->)|(? & ? & ->)]]]] end;
        (apply Hkeep'; [exact Hk|cbn; try exact Logic.I; now apply Hold|reflexivity|apply Hcur; exact Logic.I|reflexivity]).
    - (* committed *) apply Hkeep; [exact Hk|exact Logic.I|cbn; lia|]. intros _ Hp. discriminate Hp.
    - (* not committed *) match goal with H : _ \/ _ |- _ => destruct H as [->| ->] end;
        (apply Hkeep'; [exact Hk|exact Logic.I|reflexivity|apply Hcur; exact Logic.I|unfold publishing; cbn; match goal with H : v_thread _ = _ |- _ => rewrite H end; reflexivity]).
    - (* published *) apply Hkeep; [|exact Logic.I| |].
      + revert Hk. unfold v_publish. case_match; exact (fun h => h).
      + unfold v_publish. case_match; cbn; lia.
      + intros Hl _ Hv. exfalso. assert (v_rpcs v !! k = Some x) as Hk' by (revert Hk; unfold v_publish; case_match; exact (fun h => h)).
        unfold v_publish in Hv. rewrite (listener v k x Hk' Hl) in Hv. cbn in Hv. lia.
    - (* a read begins *) cbn in Hk. destruct (decide (k0 = k)) as [->|Hne].
      2: { rewrite lookup_insert_ne in Hk by exact Hne. apply Hkeep'; [exact Hk|exact Logic.I|reflexivity|apply Hcur; exact Logic.I|reflexivity]. }
      rewrite lookup_insert in Hk. injection Hk as <-. cbn [rpc_inv]. split; [split; [cbn; unfold clamp_batch; lia|cbn; destruct limit; reflexivity || exact Logic.I]|].
      destruct (read_exhausted r) eqn:Ex; (split; [exact Logic.I || reflexivity|]); cbn [r new_read rr_head].
      + split; [reflexivity|]. split; [reflexivity|]. split; [cbn; destruct limit; reflexivity || exact Logic.I|]. split; [|exact Logic.I]. intros _. unfold read_exhausted in Ex. cbn in Ex. destruct limit as [l|]; [|discriminate].
        cbn in Ex. apply N.eqb_eq in Ex as ->. reflexivity.
      + split; [reflexivity|]. split; [reflexivity|]. split; [cbn; destruct limit; reflexivity || exact Logic.I|]. split; [discriminate|exact Logic.I].
    - (* a subscription begins *) cbn in Hk. destruct (decide (k0 = k)) as [->|Hne].
      2: { rewrite lookup_insert_ne in Hk by exact Hne. apply Hkeep'; [exact Hk|exact Logic.I|reflexivity|apply Hcur; exact Logic.I|reflexivity]. }
      rewrite lookup_insert in Hk. injection Hk as <-. cbn [rpc_inv]. case_bool_decide as Ha.
      + left. cbn. auto.
      + right. split; [cbn; unfold clamp_batch; lia|]. split; [cbn; lia|]. split; [|split; [discriminate|split; [exact Logic.I|discriminate]]].
        assert (su_next (new_sub q after batch (v_ver v)) = sub_from after) as En.
        { cbn. destruct after as [a|]; [|reflexivity]. cbn. f_equal. unfold sat_add. assert (a <> U64 - 1) by congruence. lia. }
        split; [|left; split; [reflexivity|exact En]]. unfold su_todo. rewrite En. reflexivity.
    - (* closed *) cbn in Hk. destruct (decide (k0 = k)) as [->|Hne].
      2: { rewrite lookup_insert_ne in Hk by exact Hne. apply Hkeep'; [exact Hk|exact Logic.I|reflexivity|apply Hcur; exact Logic.I|reflexivity]. }
      specialize (IH x0 ltac:(assumption)). pose proof Hk as Hk'. rewrite lookup_insert in Hk. injection Hk as <-. specialize (Hcur Logic.I).
      destruct x0 as [r y|s y]; cbn [rpc_inv set_phase rpc_phase] in *.
      + eapply rd_phase; [exact IH|exact Hg|exact Hi'|cbn; apply lookup_insert|exact Hcur|destruct y; try contradiction; exact Logic.I|exact Logic.I|intros; exact Logic.I].
      + eapply su_phase; [exact IH|exact Hg|exact Hcur|reflexivity|reflexivity|destruct y; try contradiction; exact Logic.I|exact Logic.I|intros; exact Logic.I].
    - (* permit *) cbn in Hk. destruct (decide (k0 = k)) as [->|Hne].
      2: { rewrite lookup_insert_ne in Hk by exact Hne. apply Hkeep'; [exact Hk|exact Logic.I|reflexivity|apply Hcur; exact Logic.I|reflexivity]. }
      specialize (IH x0 ltac:(assumption)). rewrite lookup_insert in Hk. specialize (Hcur Logic.I).
      destruct x0 as [r y|s y]; cbn [rpc_inv set_phase rpc_phase] in *; subst y; injection Hk as <-; cbn [rpc_inv].
      + eapply rd_phase; [exact IH|exact Hg|exact Hi'|cbn; apply lookup_insert|exact Hcur|exact Logic.I|exact Logic.I|intros; exact Logic.I].
      + destruct IH as [(_ & _ & IH)|(I1 & I2 & I3 & I4 & I5 & I6)]; [discriminate|]. right. rewrite Hcur. split; [exact I1|]. split; [cbn; lia|]. split; [exact I3|].
        split; [discriminate|]. split; [exact Logic.I|discriminate].
    - (* called *) cbn in Hk. destruct (decide (k0 = k)) as [->|Hne].
      2: { rewrite lookup_insert_ne in Hk by exact Hne. apply Hkeep'; [exact Hk|exact Hne|reflexivity|apply Hcur; exact Logic.I|reflexivity]. }
      specialize (IH x0 ltac:(assumption)). rewrite lookup_insert in Hk. injection Hk as <-. specialize (Hcur Logic.I).
      assert (Hph : forall bad (P : spec_state -> Prop) a, P (sp_cur sy) -> phase_ok bad sy' k a P QCall).
      { intros bad P a HP. inversion Hsp; subst. cbn in *. eexists. split; [apply lookup_insert|]. constructor; [exact HP|constructor]. }
      destruct x0 as [r y|s y]; cbn [rpc_inv set_phase rpc_phase] in *; subst y.
      + eapply rd_phase; [exact IH|exact Hg|exact Hi'|cbn; apply lookup_insert|exact Hcur|exact Logic.I|exact Logic.I|intros; now apply Hph].
      + eapply su_phase; [exact IH|exact Hg|exact Hcur|reflexivity|reflexivity|exact Logic.I|exact Logic.I|intros; now apply Hph].
    - (* the reader is there *) cbn in Hk. destruct (decide (k0 = k)) as [->|Hne].
      2: { rewrite lookup_insert_ne in Hk by exact Hne. apply Hkeep'; [exact Hk|exact Hne|reflexivity|apply Hcur; exact Logic.I|reflexivity]. }
      specialize (IH x0 ltac:(assumption)). rewrite lookup_insert in Hk. injection Hk as <-. specialize (Hcur Logic.I).
      assert (Hph : forall bad (P : spec_state -> Prop) a b, phase_ok bad sy k b P QCall -> phase_ok bad sy' k a P QOpen).
      { intros bad P a b (l & Hl & HP). inversion Hsp; subst. cbn in *. eexists. split; [apply lookup_insert|]. rewrite Forall_forall in HP. apply HP. congruence. }
      destruct x0 as [r y|s y]; cbn [rpc_inv set_phase rpc_phase] in *; subst y.
      + eapply rd_phase; [exact IH|exact Hg|exact Hi'|cbn; apply lookup_insert|exact Hcur|exact Logic.I|exact Logic.I|intros; eapply Hph; eassumption].
      + eapply su_phase; [exact IH|exact Hg|exact Hcur|reflexivity|reflexivity|exact Logic.I|exact Logic.I|intros; eapply Hph; eassumption].
    - (* read *) cbn in Hk. destruct (decide (k0 = k)) as [->|Hne].
      2: { rewrite lookup_insert_ne in Hk by exact Hne. apply Hkeep'; [exact Hk|exact Logic.I|reflexivity|apply Hcur; exact Logic.I|reflexivity]. }
      specialize (IH x0 ltac:(assumption)). rewrite lookup_insert in Hk. injection Hk as <-. specialize (Hcur Logic.I).
      destruct (I_scan v sy k a q start bw limit Hi ltac:(assumption)) as (s1 & Ho1 & Er). rewrite Er. assert (sy' = sy) as -> by (inversion Hsp; reflexivity).
      assert (Hph : forall bad (P : spec_state -> Prop) b, phase_ok bad sy k b P QOpen -> phase_ok bad sy k (q, start, bw, limit) P (QRead (Ok (spec_read (s_hist s1) q start bw (Some limit), spec_head s1)))).
      { intros bad P b (s2 & Hs2 & HP). exists s2. split; [exact Hs2|]. split; [exact HP|]. left. assert (s2 = s1) as -> by congruence. reflexivity. }
      destruct x0 as [r y|s y]; cbn [rpc_inv set_phase rpc_phase] in *; subst y; match goal with H : rpc_args _ = _ |- _ => rename H into Ha end.
      + eapply rd_phase; [exact IH|exact Hg|exact Hi'|cbn [v_set_rpc v_rpcs]; apply lookup_insert|exact Hcur|exact Logic.I|exact Logic.I|].
        intros P _ _ HP. cbn [rpc_args] in *. rewrite Ha. eapply Hph; exact HP.
      + eapply su_phase; [exact IH|exact Hg|exact Hcur|reflexivity|reflexivity|exact Logic.I|exact Logic.I|].
        intros P _ HP. cbn [rpc_args] in *. rewrite Ha. eapply Hph; exact HP.
    - (* handled *) cbn [v_rpcs v_set_rpc v_set_db] in Hk. destruct (decide (k0 = k)) as [->|Hne].
      2: { rewrite lookup_insert_ne in Hk by exact Hne. apply Hkeep'; [exact Hk|exact Hne|reflexivity|apply Hcur; exact Logic.I|reflexivity]. }
      specialize (IH x0 ltac:(assumption)). rewrite lookup_insert in Hk. injection Hk as <-. specialize (Hcur Logic.I).
      destruct (read_answer _ _ _ _ _ _ IH ltac:(eassumption)) as [Hok|[Hun ->]].
      2: { destruct x0 as [r y|s y]; cbn [rpc_handle rpc_inv set_phase rpc_phase] in *; subst y.
        - eapply rd_phase; [exact IH|exact Hg|exact Hi'|cbn; apply lookup_insert|exact Hcur|exact Logic.I|exact Logic.I|intros; split; [auto|reflexivity]].
        - eapply su_phase; [exact IH|exact Hg|exact Hcur|reflexivity|reflexivity|exact Logic.I|exact Logic.I|intros; split; [auto|reflexivity]]. }
      destruct x0 as [r y|s y]; cbn [rpc_phase] in *; subst y.
      + eapply rd_handle; eassumption.
      + eapply su_handle; [exact IH|exact Hok|exact Hg|exact Hsub|exact Hi|exact Hcur|reflexivity|reflexivity].
    - (* dropped *) cbn in Hk. destruct (decide (k0 = k)) as [->|Hne].
      2: { rewrite lookup_insert_ne in Hk by exact Hne. apply Hkeep'; [exact Hk|exact Hne|reflexivity|apply Hcur; exact Logic.I|reflexivity]. }
      specialize (IH x0 ltac:(assumption)). rewrite lookup_insert in Hk. injection Hk as <-. specialize (Hcur Logic.I).
      destruct x0 as [r y|s y]; cbn [rpc_inv set_phase rpc_phase] in *; subst y.
      + eapply rd_phase; [exact IH|exact Hg|exact Hi'|cbn; apply lookup_insert|exact Hcur|exact Logic.I|exact Logic.I|intros; exact Logic.I].
      + eapply su_phase; [exact IH|exact Hg|exact Hcur|reflexivity|reflexivity|exact Logic.I|exact Logic.I|intros; exact Logic.I].
    - (* woken *) cbn in Hk. destruct (decide (k0 = k)) as [->|Hne].
      2: { rewrite lookup_insert_ne in Hk by exact Hne. apply Hkeep'; [exact Hk|exact Logic.I|reflexivity|apply Hcur; exact Logic.I|reflexivity]. }
      specialize (IH _ ltac:(eassumption)). rewrite lookup_insert in Hk. injection Hk as <-. specialize (Hcur Logic.I). cbn [rpc_inv] in *.
      destruct IH as [(_ & _ & IH)|(I1 & I2 & I3 & I4 & I5 & I6)]; [discriminate|]. right. rewrite Hcur. split; [exact I1|]. split; [cbn; lia|]. split; [exact I3|].
      split; [discriminate|]. split; [exact Logic.I|discriminate].
    - (* a page cannot be read *) cbn in Hk. destruct (decide (k0 = k)) as [->|Hne].
      2: { rewrite lookup_insert_ne in Hk by exact Hne. apply Hkeep'; [exact Hk|exact Logic.I|reflexivity|apply Hcur; exact Logic.I|reflexivity]. }
      specialize (IH x0 ltac:(assumption)). rewrite lookup_insert in Hk. injection Hk as <-. specialize (Hcur Logic.I). assert (sy' = sy) as -> by (inversion Hsp; reflexivity).
      assert (Hph : forall bad (bad' : Prop) (P : spec_state -> Prop) a b, bad' -> phase_ok bad sy k b P QOpen -> phase_ok bad' sy k a P (QRead (Err ECorruption))).
      { intros bad bad' P a b Hb (s2 & Hs2 & HP). exists s2. auto. }
      destruct x0 as [r y|s y]; cbn [rpc_inv set_phase rpc_phase] in *; subst y.
      + eapply rd_phase; [exact IH|exact Hg|exact Hi'|cbn; apply lookup_insert|exact Hcur|exact Logic.I|exact Logic.I|]. intros P _ _ HP. eapply Hph; [left|exact HP].
      + eapply su_phase; [exact IH|exact Hg|exact Hcur|reflexivity|reflexivity|exact Logic.I|exact Logic.I|]. intros P _ HP. eapply Hph; [left|exact HP].
    - (* a page cannot be read, and nobody notices *) cbn in Hk, Hlost. destruct (decide (k0 = k)) as [->|Hne]; [contradiction Hlost; left|].
      rewrite lookup_insert_ne in Hk by exact Hne. apply Hkeep'; [exact Hk|exact Logic.I|reflexivity|apply Hcur; exact Logic.I|reflexivity].
  Qed.

End task_proofs.
