(** C79, C98 with the lookups of tracked positions, which take permits of the same semaphore. *)
From Verif Require Import Exec PropsStore PropsFindings PropsCrash ServerLive ServerExec PropsServer Permits PropsPermits Lookups.
Local Open Scope N_scope.

Section props.
  Context (ps : N) (hash : bytes -> bytes) (order : list bytes -> list bytes) (ford : gset N -> list N) (caching : bool) (max_events : N).
  Context (Hps : ps_ok ps) (Hps32 : ps < U32) (Hord : forall l t, t ∈ order l <-> t ∈ l) (Hford : forall s, ford s ≡ₚ elements s).
  Notation pstep := (pstep 16 ps hash order ford caching).
  Notation sstep := (sstep 16 ps hash order ford caching max_events).
  Notation lserves := (lserves 16 ps hash order ford caching max_events).
  Notation tstep := (tstep 16 ps hash order ford caching max_events).
  Notation tserves := (tserves 16 ps hash order ford caching max_events).
  Notation lgoes := (lgoes ps hash order ford caching max_events).
  Notation run := (run ps hash order ford caching).
  Context (tr0 : list label) (d : disk) (p : proc) (h : option N) (Hrun : run tr0 (Sys d (Some p))).

  (** A server with lookups is a limited server: everything that was proved holds of it. *)
  Theorem lookups_serve n w tr : tserves n d p h w tr -> exists vs, lserves n d p h (w.1 :: vs) tr.
  Proof.
    induction 1 as [|w tr ol w' _ (vs & IH) Hst]; [exists []; constructor|].
    destruct Hst as [v T i _ _ _ _|v T i _ _|v T ol v' Hst Hn _ _]; cbn [fst] in *; [exists vs; now rewrite app_nil_r|exists vs; now rewrite app_nil_r|].
    exists (v :: vs). constructor; [exact IH|]. split; [exact Hst|]. lia.
  Qed.
  (** No more than [n] batches are read and lookups made at a time. *)
  Theorem permits_limited n w tr : tserves n d p h w tr -> (holders w.1 + size w.2 <= n)%nat.
  Proof.
    induction 1 as [|w tr ol w' _ IH Hst]; [cbn; rewrite size_empty; apply Nat.le_0_l|].
    destruct Hst as [v T i Hi _ _ Hn|v T i Hi _|v T ol v' Hst Hn _ _]; cbn [fst snd] in *.
    - rewrite size_union, size_singleton by set_solver. lia.
    - assert (size (T ∖ {[i]}) <= size T)%nat by (apply subseteq_size; set_solver). lia.
    - pose proof (sstep_one ps hash order ford caching max_events Hps32 _ _ _ Hst). lia.
  Qed.
  (** While all permits are taken no lookup and no read gets one. *)
  Theorem lookup_waits n w ol w' : tstep n w ol w' -> (n <= holders w.1 + size w.2)%nat -> w'.2 ⊆ w.2 /\ (holders w'.1 <= holders w.1)%nat.
  Proof. clear Hps Hps32 Hord Hford Hrun. intros Hst Hn. destruct Hst as [v T i Hi _ _ H|v T i Hi _|v T ol v' Hst H _ _]; cbn [fst snd] in *; [lia|set_solver|]. split; [set_solver|]. lia. Qed.
  Lemma lookups_apart n w tr i : tserves n d p h w tr -> i ∈ w.2 -> v_rpcs w.1 !! i = None.
  Proof. intros H. revert i. induction H as [|w tr ol w' _ IH Hst]; intros i; [set_solver|]. destruct Hst as [v T j Hj H1 _ _|v T j Hj _|v T ol v' Hst _ _ H1]; cbn [fst snd] in *; [set_solver|set_solver|auto]. Qed.

  (** ** A lookup that has a permit gives it back *)
  (** Steps in which nothing is sent and nobody answered; the tasks stay where they are. *)
  Definition mine (v v' : srv) : Prop := exists ol, sstep v ol v' /\ calm_label ol /\ v_rpcs v' = v_rpcs v /\ aside v v'.
  Definition tgoes (n : nat) : lookups -> lookups -> Prop := rtc (fun w w' => exists ol, tstep n w ol w' /\ calm_label ol /\ aside w.1 w'.1).
  Lemma aside_refl v : aside v v.
  Proof. split; [now destruct v|reflexivity]. Qed.
  Lemma mine_tau v p' : pstep (v_disk v) (v_proc v) LTau (v_disk v) p' -> p_writer p' = p_writer (v_proc v) -> mine v (v_set_db (v_disk v) p' v).
  Proof. intros H1 H2. exists (Some LTau). split; [now apply V_tau|]. split; [exact I|]. split; [reflexivity|]. split; [reflexivity|exact H2]. Qed.
  Definition closes (v : srv) (i : nat) : Prop := exists v', rtc mine v v' /\ p_readers (v_proc v') !! i = None.
  Lemma closes_first v v1 i : mine v v1 -> closes v1 i -> closes v i.
  Proof. intros H (v' & H1 & H2). exists v'. split; [eapply rtc_l; eassumption|exact H2]. Qed.
  Lemma closes_open v i a : v_rpcs v !! i = None -> p_readers (v_proc v) !! i = Some (ROpen a) -> closes v i.
  Proof.
    intros H1 H2. eexists. split; [apply rtc_once; exists (Some (LClose i)); split|].
    - eapply (V_other _ _ _ _ _ _ _ v (LClose i) i); [eapply S_close; exact H2|exact H1|auto].
    - split; [exact I|]. split; [reflexivity|]. split; reflexivity.
    - cbn. apply lookup_delete.
  Qed.
  Lemma closes_chk v i a b : v_rpcs v !! i = None -> p_readers (v_proc v) !! i = Some (RChk a b) -> h_tsn (latest_of b (p_pin1 (v_proc v))).2 = h_tsn a.2 -> closes v i.
  Proof.
    intros H1 H2 H3. eapply closes_first; [exists (Some (LReady i)); split|].
    - eapply (V_other _ _ _ _ _ _ _ v (LReady i) i); [eapply S_ready; eassumption|exact H1|auto].
    - split; [exact I|]. split; [reflexivity|]. split; reflexivity.
    - eapply closes_open; [exact H1|cbn; apply lookup_insert].
  Qed.
  Lemma closes_call v i : v_rpcs v !! i = None -> p_readers (v_proc v) !! i = Some RCall -> closes v i.
  Proof.
    intros H1 H2. eapply closes_first; [apply mine_tau; [eapply (S_obs _ _ _ _ _ _ _ _ i); exact H2|reflexivity]|].
    eapply closes_first; [apply mine_tau; [eapply (S_seen _ _ _ _ _ _ _ _ i); cbn; apply lookup_insert|reflexivity]|].
    eapply closes_first; [apply mine_tau; [eapply (S_reg _ _ _ _ _ _ _ _ i); cbn; apply lookup_insert|reflexivity]|].
    eapply closes_first; [apply mine_tau; [eapply (S_chk _ _ _ _ _ _ _ _ i); cbn; apply lookup_insert|reflexivity]|].
    eapply closes_chk; [exact H1|cbn; apply lookup_insert|reflexivity].
  Qed.
  Lemma closes_chk' v i a b : v_rpcs v !! i = None -> p_readers (v_proc v) !! i = Some (RChk a b) -> closes v i.
  Proof.
    intros H1 H2. destruct (decide (h_tsn (latest_of b (p_pin1 (v_proc v))).2 = h_tsn a.2)) as [He|He]; [eapply closes_chk; eassumption|].
    eapply closes_first; [apply mine_tau; [eapply (S_retry _ _ _ _ _ _ _ _ i); eassumption|reflexivity]|]. apply closes_call; [exact H1|cbn; apply lookup_insert].
  Qed.
  Lemma closes_any v i : v_rpcs v !! i = None -> closes v i.
  Proof.
    intros H1. destruct (p_readers (v_proc v) !! i) as [ph|] eqn:E; [|exists v; split; [apply rtc_refl|exact E]]. destruct ph as [|a|a|a|a b|a].
    - now apply closes_call.
    - eapply closes_first; [apply mine_tau; [eapply (S_seen _ _ _ _ _ _ _ _ i); exact E|reflexivity]|].
      eapply closes_first; [apply mine_tau; [eapply (S_reg _ _ _ _ _ _ _ _ i); cbn; apply lookup_insert|reflexivity]|].
      eapply closes_first; [apply mine_tau; [eapply (S_chk _ _ _ _ _ _ _ _ i); cbn; apply lookup_insert|reflexivity]|].
      eapply closes_chk'; [exact H1|cbn; apply lookup_insert].
    - eapply closes_first; [apply mine_tau; [eapply (S_reg _ _ _ _ _ _ _ _ i); exact E|reflexivity]|].
      eapply closes_first; [apply mine_tau; [eapply (S_chk _ _ _ _ _ _ _ _ i); cbn; apply lookup_insert|reflexivity]|].
      eapply closes_chk'; [exact H1|cbn; apply lookup_insert].
    - eapply closes_first; [apply mine_tau; [eapply (S_chk _ _ _ _ _ _ _ _ i); exact E|reflexivity]|].
      eapply closes_chk'; [exact H1|cbn; apply lookup_insert].
    - eapply closes_chk'; eassumption.
    - eapply closes_open; eassumption.
  Qed.
  Lemma mine_tgoes n v v' T : rtc mine v v' -> (forall i, i ∈ T -> v_rpcs v !! i = None) -> tgoes n (v, T) (v', T) /\ v_rpcs v' = v_rpcs v.
  Proof.
    induction 1 as [v|v v1 v' (ol & H1 & H2 & H3 & H4) _ IH]; intros HT; [split; [apply rtc_refl|reflexivity]|]. rewrite <- H3 in HT. destruct (IH HT) as [I1 I2].
    split; [|congruence]. eapply rtc_l; [|exact I1]. exists ol. split; [|split; [exact H2|exact H4]]. constructor; [exact H1| | |exact HT].
    - unfold holders. rewrite H3. lia.
    - intros i s r ->. contradiction H2.
  Qed.
  (** A lookup that has a permit gives it back, whatever the others do not do. *)
  Theorem lookup_ends n w tr i : tserves n d p h w tr -> i ∈ w.2 -> exists v', tgoes n w (v', w.2 ∖ {[i]}) /\ v_rpcs v' = v_rpcs w.1.
  Proof.
    intros H Hi. destruct w as [v T]. cbn [fst snd] in *. destruct (closes_any v i (lookups_apart _ _ _ _ H Hi)) as (v' & H1 & H2).
    destruct (mine_tgoes n v v' T H1 (fun j Hj => lookups_apart _ _ _ _ H Hj)) as [H3 H4]. exists v'. split; [|exact H4].
    unfold tgoes. eapply rtc_r; [exact H3|]. exists None. split; [now constructor|]. split; [exact I|apply aside_refl].
  Qed.
  Lemma tgoes_tserves n w w' : tgoes n w w' -> forall tr, tserves n d p h w tr -> exists tr', tserves n d p h w' tr'.
  Proof. intros H. induction H as [|a b c (ol & H1 & _) _ IH]; intros tr Hs; [eauto|]. eapply IH. eapply tserves_step; eassumption. Qed.
  Lemma lookups_end n w tr : tserves n d p h w tr -> exists v' tr', tgoes n w (v', ∅) /\ v_rpcs v' = v_rpcs w.1 /\ tserves n d p h (v', ∅) tr'.
  Proof.
    destruct w as [v T]. remember (size T) as m eqn:Em. revert v T tr Em. induction m as [|m IH]; intros v T tr Em H.
    - symmetry in Em. apply size_empty_inv in Em. assert (T = ∅) as -> by set_solver. exists v, tr. split; [apply rtc_refl|auto].
    - destruct (set_choose_or_empty T) as [(i & Hi)|He]; [|assert (T = ∅) as -> by set_solver; rewrite size_empty in Em; discriminate].
      destruct (lookup_ends n (v, T) tr i H Hi) as (v1 & H1 & H2). cbn [fst snd] in *. destruct (tgoes_tserves _ _ _ H1 _ H) as (tr1 & H3).
      destruct (IH v1 (T ∖ {[i]}) tr1) as (v' & tr' & H4 & H5 & H6); [|exact H3|].
      + assert (E : T = {[i]} ∪ T ∖ {[i]}) by (apply union_difference_L; set_solver). rewrite E in Em at 1. rewrite size_union, size_singleton in Em by set_solver. lia.
      + exists v', tr'. split; [unfold tgoes in *; etransitivity; eassumption|]. split; [cbn [fst] in H5; congruence|exact H6].
  Qed.
  Lemma lgoes_tgoes n v v' : lgoes n v v' -> tgoes n (v, ∅) (v', ∅).
  Proof.
    induction 1 as [v|v v1 v' (ol & [H1 Hn] & H2 & H3) _ IH]; [apply rtc_refl|]. eapply rtc_l; [|exact IH]. exists ol. split; [|auto]. constructor; [exact H1| | |set_solver].
    - rewrite size_empty. lia.
    - intros i s r ->. contradiction H2.
  Qed.
  (** Neither lookups nor reads keep a read or a subscription from its next response ... *)
  Theorem read_gets_on_among_lookups n w tr k x : (0 < n)%nat -> tserves n d p h w tr -> v_rpcs w.1 !! k = Some x ->
    match rpc_phase x with QLoop | QBorrow | QCall | QOpen | QRead (Ok _) => True | _ => False end ->
    exists v' x', tgoes n w (v', ∅) /\ v_rpcs v' !! k = Some x' /\ got_on x x'.
  Proof.
    intros Hn H Hx Hp. destruct (lookups_end _ _ _ H) as (v1 & tr1 & H1 & H2 & H3). destruct (lookups_serve _ _ _ H3) as (vs & Hl). cbn [fst] in Hl. rewrite <- H2 in Hx.
    destruct (read_gets_on ps hash order ford caching max_events Hps Hps32 Hord Hford _ _ _ _ Hrun n v1 vs tr1 k x Hn Hl Hx Hp) as (v' & x' & H4 & H5 & H6 & _).
    exists v', x'. split; [|auto]. unfold tgoes. etransitivity; [exact H1|now apply lgoes_tgoes].
  Qed.
  (** ... nor a lookup from its permit. *)
  Theorem permit_free_again n w tr : (0 < n)%nat -> tserves n d p h w tr -> exists v' T', tgoes n w (v', T') /\ (holders v' + size T' < n)%nat.
  Proof.
    intros Hn H. destruct (lookups_end _ _ _ H) as (v1 & tr1 & H1 & _ & H3). pose proof (permits_limited _ _ _ H3) as Hl. cbn [fst snd] in Hl. rewrite size_empty in Hl.
    destruct (decide (holders v1 < n)%nat) as [Hf|Hf]; [exists v1, ∅; split; [exact H1|rewrite size_empty; lia]|].
    destruct (lookups_serve _ _ _ H3) as (vs & Hs). cbn [fst] in Hs. pose proof (serves_kinds _ _ _ _ _ _ _ _ _ _ _ _ (limited_serves _ _ _ _ _ _ _ _ _ _ _ _ Hs)) as Hk.
    destruct (held_some (v_rpcs v1)) as (j & y & Hj & Hh); [unfold holders in Hf; lia|].
    destruct (back_any ps hash order ford caching max_events v1 j y Hk Hj Hh) as (v' & ans & H5 & H6). exists v', ∅. split.
    - unfold tgoes. etransitivity; [exact H1|]. apply lgoes_tgoes. eapply owns_lgoes; eassumption.
    - assert (E : v_rpcs v' = <[j := rpc_handle y ans]> (v_rpcs v1)).
      { apply map_eq. intros i. destruct (decide (j = i)) as [->|Hi]; [now rewrite lookup_insert|]. rewrite lookup_insert_ne by exact Hi. eapply owns_others; [exact H5|congruence]. }
      pose proof (held_set _ _ _ (rpc_handle y ans) Hj) as E2. rewrite Hh, handle_holds in E2. rewrite size_empty. unfold holders in *. rewrite E. lia.
  Qed.
End props.

(** One permit, which a lookup has whose reader is being opened: a read waits; it gets its answer nevertheless. *)
Notation e_lookups n := (tserves 16 4096 f_hash (fun l => l) x_ford true 1000 n (init_disk 16 4096) e_db None).
Notation e_tstep n := (tstep 16 4096 f_hash (fun l => l) x_ford true 1000 n).
Example lookup_example : exists v tr r, e_lookups 1%nat (v, {[9%nat]}) tr /\ v_rpcs v !! 8%nat = Some (QRd r QLoop) /\ p_readers (v_proc v) !! 9%nat = Some RCall /\
  (forall ol w', e_tstep 1%nat (v, {[9%nat]}) ol w' -> holders w'.1 = 0%nat) /\ exists v' x', v_rpcs v' !! 8%nat = Some x' /\ got_on (QRd r QLoop) x'.
Proof.
  set (v0 := new_srv (init_disk 16 4096) e_db None). set (r := new_read [] None false None None).
  set (v1 := v_set_rpc 8 (QRd r QLoop) v0). set (v2 := v_set_db (v_disk v1) (set_reader 9 RCall (v_proc v1)) v1).
  assert (S0 : e_lookups 1%nat (v0, ∅) []) by apply tserves_start.
  assert (S1 : e_lookups 1%nat (v1, ∅) ([] ++ [])).
  { refine (tserves_step _ _ _ _ _ _ _ _ _ _ _ _ _ None _ S0 _). constructor; [|intros H; vm_compute in H; inversion H|discriminate|set_solver].
    exact (V_read 16 4096 f_hash (fun l => l) x_ford true 1000 v0 8 [] None false None None eq_refl eq_refl I). }
  assert (S2 : e_lookups 1%nat (v1, {[9%nat]} ∪ ∅) (([] ++ []) ++ [])).
  { refine (tserves_step _ _ _ _ _ _ _ _ _ _ _ _ _ None _ S1 _). constructor; [set_solver|reflexivity|reflexivity|]. rewrite size_empty. vm_compute. apply le_n. }
  rewrite union_empty_r_L in S2.
  assert (S3 : e_lookups 1%nat (v2, {[9%nat]}) ((([] ++ []) ++ []) ++ [LCall 9])).
  { refine (tserves_step _ _ _ _ _ _ _ _ _ _ _ _ _ (Some (LCall 9)) _ S2 _). constructor; [|intros H; vm_compute in H; inversion H; fail|discriminate|].
    - apply (V_other _ _ _ _ _ _ _ v1 (LCall 9) 9); [apply S_call; reflexivity|reflexivity|auto].
    - intros i Hi. apply elem_of_singleton in Hi as ->. reflexivity. }
  exists v2, ((([] ++ []) ++ []) ++ [LCall 9]), r. split; [exact S3|]. split; [reflexivity|]. split; [reflexivity|]. split.
  - intros ol w' Hst. destruct (lookup_waits 4096 f_hash (fun l => l) x_ford true 1000 1%nat _ _ _ Hst) as [_ H]; cbn [fst snd] in *; [rewrite size_singleton; lia|].
    assert (E : holders v2 = 0%nat) by (vm_compute; reflexivity). lia.
  - destruct (read_gets_on_among_lookups 4096 f_hash (fun l => l) x_ford true 1000 f_ps f_ps32 x_ord x_ford_ok _ _ _ _ e_start 1%nat _ _ 8%nat (QRd r QLoop) Nat.lt_0_1 S3 eq_refl I) as (v' & x' & _ & E1 & E2).
    exists v', x'. auto.
Qed.
Print Assumptions lookups_serve.
Print Assumptions permits_limited.
Print Assumptions lookup_waits.
Print Assumptions lookup_ends.
Print Assumptions read_gets_on_among_lookups.
Print Assumptions permit_free_again.
