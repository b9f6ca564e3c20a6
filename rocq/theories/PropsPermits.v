(** Properties of the limit on concurrent reads: C79, C98. *)
From Verif Require Import Exec PropsStore PropsFindings PropsCrash ServerLive ServerExec PropsServer Permits.
From Verif Require Options PropsOptions.
Local Open Scope N_scope.

(** ** Counting *)
Lemma held_insert m k x : m !! k = None -> held_by (<[k := x]> m) = ((if holds x then 1 else 0) + held_by m)%nat.
Proof.
  intros H. unfold held_by. destruct (holds x) eqn:E.
  - rewrite map_filter_insert_True by exact E. rewrite map_size_insert_None; [reflexivity|]. apply map_filter_lookup_None. now left.
  - rewrite map_filter_insert_False by (cbn; congruence). now rewrite delete_notin.
Qed.
Lemma held_set m k x y : m !! k = Some x -> ((if holds x then 1 else 0) + held_by (<[k := y]> m) = (if holds y then 1 else 0) + held_by m)%nat.
Proof.
  intros H. rewrite <- (insert_delete m k x H) at 2. rewrite <- (insert_delete_insert m k y).
  rewrite !held_insert by apply lookup_delete. lia.
Qed.
Lemma held_none m : held_by m = 0%nat -> forall k x, m !! k = Some x -> holds x = false.
Proof.
  intros H k x Hk. apply map_size_empty_inv in H. apply not_true_iff_false. intros E.
  assert (X : filter (fun kx : nat * rpc => holds kx.2 = true) m !! k = Some x) by (apply map_filter_lookup_Some; auto). rewrite H, lookup_empty in X. discriminate.
Qed.
Lemma held_some m : (0 < held_by m)%nat -> exists k x, m !! k = Some x /\ holds x = true.
Proof.
  intros H. destruct (map_choose (filter (fun kx : nat * rpc => holds kx.2 = true) m)) as (k & x & Hk).
  - intros E. unfold held_by in H. rewrite E, map_size_empty in H. lia.
  - apply map_filter_lookup_Some in Hk as [H1 H2]. eauto.
Qed.

Lemma batches_bound (out : list (list seq_event * option N)) : Forall (fun o => o.1 <> []) out \/ (exists hd, out = [([], hd)]) ->
  (length out <= Nat.max 1 (length (concat (map fst out))))%nat.
Proof.
  intros [H|[hd ->]]; [|cbn; lia]. enough (length out <= length (concat (map fst out)))%nat by lia. induction H as [|o out Ho _ IH]; [cbn; lia|]. cbn. rewrite app_length.
  destruct o as [[|e l] ?]; [now destruct Ho|]. cbn in *. lia.
Qed.
Lemma spec_read_mono H H' q start bw limit : H `prefix_of` H' -> (length (spec_read H q start bw limit) <= length (spec_read H' q start bw limit))%nat.
Proof.
  intros [l ->]. unfold spec_read. rewrite filter_app. set (a := filter _ H). set (b := filter _ l). assert (E : (length (if bw then rev a else a) <= length (if bw then rev (a ++ b) else a ++ b))%nat).
  { destruct bw; rewrite ?rev_length, app_length; lia. }
  destruct limit; cbn [cut]; [rewrite !take_length; lia|exact E].
Qed.

Section props_permits.
  Context (ps : N) (hash : bytes -> bytes) (order : list bytes -> list bytes) (ford : gset N -> list N) (caching : bool) (max_events : N).
  Context (Hps : ps_ok ps) (Hps32 : ps < U32) (Hord : forall l t, t ∈ order l <-> t ∈ l) (Hford : forall s, ford s ≡ₚ elements s).
  Notation pstep := (pstep 16 ps hash order ford caching).
  Notation sstep := (sstep 16 ps hash order ford caching max_events).
  Notation serves := (serves 16 ps hash order ford caching max_events).
  Notation lstep := (lstep 16 ps hash order ford caching max_events).
  Notation lserves := (lserves 16 ps hash order ford caching max_events).
  Notation run := (run ps hash order ford caching).
  Notation kinds_step := (kinds_step ps hash order ford caching max_events).
  Notation shows := (shows hash order).
  Context (tr0 : list label) (d : disk) (p : proc) (h : option N) (Hrun : run tr0 (Sys d (Some p))).

  (** A limited server is a server: everything that was proved holds of it. *)
  Theorem limited_serves n l tr : lserves n d p h l tr -> serves d p h l tr.
  Proof. intros H. induction H as [|v vs tr ol v' H IH [Hst _]]; [constructor|now constructor]. Qed.

  (** A step gives at most one permit. *)
  Lemma sstep_one v ol v' : sstep v ol v' -> (holders v' <= S (holders v))%nat.
  Proof.
    intros H. unfold holders. destruct H; cbn; try lia.
    { unfold v_publish. case_match; cbn; lia. }
    all: try match goal with H : v_rpcs _ !! ?k = Some ?x |- context [<[?k := ?y]> _] => pose proof (held_set _ _ x y H) end.
    all: try match goal with H : v_rpcs _ !! ?k = None |- context [<[?k := ?y]> _] => pose proof (held_insert _ k y H) end.
    all: repeat case_match; lia.
  Qed.
  (** No more batches are read at once than there are permits. *)
  Theorem reads_limited n v vs tr : lserves n d p h (v :: vs) tr -> (holders v <= n)%nat.
  Proof.
    remember (v :: vs) as l eqn:El. intros H. revert v vs El. induction H as [|v vs tr ol v' H IH [Hst Hn]]; intros w ws [= <- <-]; [apply Nat.le_0_l|].
    specialize (IH _ _ eq_refl). pose proof (sstep_one _ _ _ Hst). lia.
  Qed.

  (** While all permits are taken nobody gets one. *)
  Theorem permit_waits n v ol v' k x x' : lstep n v ol v' -> (n <= holders v)%nat -> v_rpcs v !! k = Some x -> holds x = false ->
    v_rpcs v' !! k = Some x' -> holds x' = false.
  Proof.
    intros [Hst Hn] Hl Hk Hx Hk'. apply not_true_iff_false. intros Hx'. enough (E : (holders v < holders v')%nat) by (apply Hn in E; apply Nat.le_ngt in Hl; contradiction). clear Hn Hl. unfold holders.
    destruct Hst; cbn [v_set_rpc v_set_db v_rpcs v_mark v_lose v_note v_set_queue v_leave v_set_thread v_send] in *; try congruence.
    { unfold v_publish in Hk'. case_match; cbn in Hk'; congruence. }
    all: destruct (decide (k0 = k)) as [->|Hne]; [rewrite lookup_insert in Hk'|rewrite lookup_insert_ne in Hk' by exact Hne; congruence].
    all: repeat match goal with H : v_rpcs _ !! ?j = Some ?a, H' : v_rpcs _ !! ?j = Some ?b |- _ => assert (a = b) by congruence; subst; clear H' end.
    all: try congruence.
    all: match goal with H : v_rpcs _ !! _ = Some ?b, H1 : holds ?b = false, H2 : holds ?c = true |- _ => pose proof (held_set _ _ _ c H) as E; rewrite H1, H2 in E end; injection Hk' as E'; rewrite E'; rewrite Nat.add_0_l in E; rewrite E; apply Nat.lt_succ_diag_r.
  Qed.

  (** ** Steps of a task that has a permit *)
  Definition own (j : nat) (v v' : srv) : Prop :=
    exists ol, sstep v ol v' /\ calm_label ol /\ (forall i, i <> j -> v_rpcs v' !! i = v_rpcs v !! i) /\
      (exists x x', v_rpcs v !! j = Some x /\ v_rpcs v' !! j = Some x' /\ holds x = true) /\ aside v v'.
  Definition owns (j : nat) : srv -> srv -> Prop := rtc (own j).
  Lemma own_rpc j v v' : own j v v' -> exists x x', v_rpcs v !! j = Some x /\ v_rpcs v' = <[j := x']> (v_rpcs v) /\ holds x = true.
  Proof.
    intros (ol & _ & _ & Ho & (x & x' & H1 & H2 & H3) & _). exists x, x'. split; [exact H1|]. split; [|exact H3]. apply map_eq. intros i.
    destruct (decide (j = i)) as [->|Hne]; [now rewrite lookup_insert|]. rewrite lookup_insert_ne by exact Hne. apply Ho. congruence.
  Qed.
  Lemma own_holders j v v' : own j v v' -> (holders v' <= holders v)%nat.
  Proof. intros H. destruct (own_rpc _ _ _ H) as (x & x' & H1 & H2 & H3). unfold holders. rewrite H2. pose proof (held_set _ _ _ x' H1) as E. rewrite H3 in E. destruct (holds x'); lia. Qed.
  Lemma owns_kinds j v v' : owns j v v' -> kinds v -> kinds v'.
  Proof. intros H. induction H as [|a b c (ol & Hst & _) _ IH]; [auto|]. intros Hk. apply IH. eapply kinds_step; eassumption. Qed.
  Lemma owns_others j v v' i : owns j v v' -> i <> j -> v_rpcs v' !! i = v_rpcs v !! i.
  Proof. intros H Hi. induction H as [|a b c (ol & _ & _ & Ho & _) _ IH]; [reflexivity|]. rewrite IH. now apply Ho. Qed.

  Lemma own_tau v p' j x : v_rpcs v !! j = Some x -> holds x = true -> pstep (v_disk v) (v_proc v) LTau (v_disk v) p' -> p_writer p' = p_writer (v_proc v) ->
    own j v (v_set_db (v_disk v) p' v).
  Proof. intros H1 H2 H3 H4. exists (Some LTau). split; [now apply V_tau|]. split; [exact I|]. split; [reflexivity|]. split; [exists x, x; auto|split; [reflexivity|exact H4]]. Qed.
  Lemma own_set v ol j x x' : v_rpcs v !! j = Some x -> holds x = true -> calm_label ol -> forall v', sstep v ol v' -> v_rpcs v' = <[j := x']> (v_rpcs v) -> aside v v' -> own j v v'.
  Proof.
    intros H1 H2 H3 v' H4 H5 H6. exists ol. split; [exact H4|]. split; [exact H3|]. split; [intros i Hi; rewrite H5; apply lookup_insert_ne; congruence|].
    split; [|exact H6]. exists x, x'. split; [exact H1|]. split; [rewrite H5; apply lookup_insert|exact H2].
  Qed.
  (** It gets its reader ... *)
  Definition opens (v : srv) (j : nat) (x : rpc) : Prop := exists v', owns j v v' /\ v_rpcs v' !! j = Some (set_phase QOpen x).
  Lemma opens_first v p' j x : v_rpcs v !! j = Some x -> holds x = true -> pstep (v_disk v) (v_proc v) LTau (v_disk v) p' -> p_writer p' = p_writer (v_proc v) ->
    opens (v_set_db (v_disk v) p' v) j x -> opens v j x.
  Proof. intros H1 H2 H3 H4 (v' & H5 & H6). exists v'. split; [|exact H6]. eapply rtc_l; [eapply own_tau; eassumption|exact H5]. Qed.
  Lemma opens_chk v j x a b : v_rpcs v !! j = Some x -> rpc_phase x = QCall -> p_readers (v_proc v) !! j = Some (RChk a b) ->
    h_tsn (latest_of b (p_pin1 (v_proc v))).2 = h_tsn a.2 -> opens v j x.
  Proof.
    intros H1 H2 H3 H4. eexists. split; [eapply rtc_once, (own_set v (Some (LReady j))); [exact H1|unfold holds; now rewrite H2|exact I| | |]|].
    - eapply V_ready; [exact H1|exact H2|eapply S_ready; eassumption].
    - reflexivity.
    - split; reflexivity.
    - cbn. apply lookup_insert.
  Qed.
  Lemma holds_call x : rpc_phase x = QCall -> holds x = true.
  Proof. intros H. unfold holds. now rewrite H. Qed.
  Lemma opens_call v j x : v_rpcs v !! j = Some x -> rpc_phase x = QCall -> p_readers (v_proc v) !! j = Some RCall -> opens v j x.
  Proof.
    intros H1 H2 H3. pose proof (holds_call x H2) as Hh.
    eapply opens_first; [exact H1|exact Hh|eapply (S_obs _ _ _ _ _ _ _ _ j); exact H3|reflexivity|].
    eapply opens_first; [exact H1|exact Hh|eapply (S_seen _ _ _ _ _ _ _ _ j); cbn; apply lookup_insert|reflexivity|].
    eapply opens_first; [exact H1|exact Hh|eapply (S_reg _ _ _ _ _ _ _ _ j); cbn; apply lookup_insert|reflexivity|].
    eapply opens_first; [exact H1|exact Hh|eapply (S_chk _ _ _ _ _ _ _ _ j); cbn; apply lookup_insert|reflexivity|].
    eapply opens_chk; [exact H1|exact H2|cbn; apply lookup_insert|]. reflexivity.
  Qed.
  Lemma opens_chk' v j x a b : v_rpcs v !! j = Some x -> rpc_phase x = QCall -> p_readers (v_proc v) !! j = Some (RChk a b) -> opens v j x.
  Proof.
    intros H1 H2 H3. pose proof (holds_call x H2) as Hh. destruct (decide (h_tsn (latest_of b (p_pin1 (v_proc v))).2 = h_tsn a.2)) as [He|He]; [eapply opens_chk; eassumption|].
    eapply opens_first; [exact H1|exact Hh|eapply (S_retry _ _ _ _ _ _ _ _ j); eassumption|reflexivity|]. apply opens_call; [exact H1|exact H2|]. cbn. apply lookup_insert.
  Qed.
  Lemma opens_any v j x : kinds v -> v_rpcs v !! j = Some x -> rpc_phase x = QCall -> opens v j x.
  Proof.
    intros Hk H1 H2. pose proof (holds_call x H2) as Hh. pose proof (Hk _ _ H1) as Hkd. rewrite H2 in Hkd. cbn in Hkd. destruct (p_readers (v_proc v) !! j) as [ph|] eqn:E; [|discriminate].
    destruct ph as [|a|a|a|a b|a]; [now apply opens_call| | | | |discriminate].
    - eapply opens_first; [exact H1|exact Hh|eapply (S_seen _ _ _ _ _ _ _ _ j); exact E|reflexivity|].
      eapply opens_first; [exact H1|exact Hh|eapply (S_reg _ _ _ _ _ _ _ _ j); cbn; apply lookup_insert|reflexivity|].
      eapply opens_first; [exact H1|exact Hh|eapply (S_chk _ _ _ _ _ _ _ _ j); cbn; apply lookup_insert|reflexivity|].
      eapply opens_chk'; [exact H1|exact H2|cbn; apply lookup_insert].
    - eapply opens_first; [exact H1|exact Hh|eapply (S_reg _ _ _ _ _ _ _ _ j); exact E|reflexivity|].
      eapply opens_first; [exact H1|exact Hh|eapply (S_chk _ _ _ _ _ _ _ _ j); cbn; apply lookup_insert|reflexivity|].
      eapply opens_chk'; [exact H1|exact H2|cbn; apply lookup_insert].
    - eapply opens_first; [exact H1|exact Hh|eapply (S_chk _ _ _ _ _ _ _ _ j); exact E|reflexivity|].
      eapply opens_chk'; [exact H1|exact H2|cbn; apply lookup_insert].
    - eapply opens_chk'; eassumption.
  Qed.
  (** ... and gives its permit back. *)
  Definition hands_back (v : srv) (j : nat) (x : rpc) : Prop := exists v' ans, owns j v v' /\ v_rpcs v' !! j = Some (rpc_handle x ans).
  Lemma handle_holds x a : holds (rpc_handle x a) = false.
  Proof. pose proof (handle_kind x a) as H. unfold holds. destruct a as [[evs hd]|e]; [destruct x as [r y|s y]|]; cbn [rpc_handle] in *.
    - destruct (read_iter r evs hd) as [r' go]. cbn. case_match; reflexivity.
    - unfold sub_iter. repeat case_match; simplify_eq; try reflexivity; discriminate.
    - destruct x, e; reflexivity.
  Qed.
  Lemma set_phase_phase q x : rpc_phase (set_phase q x) = q.
  Proof. now destruct x. Qed.
  Lemma set_phase_twice q q' x : set_phase q (set_phase q' x) = set_phase q x.
  Proof. now destruct x. Qed.
  Lemma handle_phase q x a : rpc_handle (set_phase q x) a = rpc_handle x a.
  Proof. destruct x, a as [[]|]; reflexivity. Qed.
  Lemma back_read v j x a : kinds v -> v_rpcs v !! j = Some x -> rpc_phase x = QRead a -> exists v', owns j v v' /\ v_rpcs v' !! j = Some (rpc_handle x a).
  Proof.
    intros Hk H1 H2. pose proof (Hk _ _ H1) as Hkd. rewrite H2 in Hkd. cbn in Hkd. destruct (p_readers (v_proc v) !! j) as [[| | | | |hp]|] eqn:E; try discriminate.
    eexists. split; [eapply rtc_once, (own_set v (Some (LClose j))); [exact H1|unfold holds; now rewrite H2|exact I| | |]|].
    - eapply V_handle; [exact H1|exact H2|eapply S_close; exact E].
    - reflexivity.
    - split; reflexivity.
    - cbn [v_rpcs v_set_rpc]. apply lookup_insert.
  Qed.
  Lemma back_open v j x : kinds v -> v_rpcs v !! j = Some x -> rpc_phase x = QOpen ->
    exists v' a q start bw limit, p_readers (v_proc v) !! j = Some (ROpen a) /\ rpc_args x = (q, start, bw, limit) /\
      owns j v v' /\ v_rpcs v' !! j = Some (rpc_handle x (handler_read hash order (fetch 16 (p_cache (v_proc v)) (v_disk v)) a.2 q start bw limit)).
  Proof.
    intros Hk H1 H2. pose proof (Hk _ _ H1) as Hkd. rewrite H2 in Hkd. cbn in Hkd. destruct (p_readers (v_proc v) !! j) as [[| | | | |hp]|] eqn:E; try discriminate.
    destruct (rpc_args x) as [[[q start] bw] limit] eqn:Ea. set (ans := handler_read hash order (fetch 16 (p_cache (v_proc v)) (v_disk v)) hp.2 q start bw limit).
    assert (Hst : sstep v None (v_set_rpc j (set_phase (QRead ans) x) v)) by (eapply V_scan; eassumption).
    assert (Ho : own j v (v_set_rpc j (set_phase (QRead ans) x) v)) by (eapply (own_set v None); [exact H1|unfold holds; now rewrite H2|exact I|exact Hst|reflexivity|split; reflexivity]).
    destruct (back_read (v_set_rpc j (set_phase (QRead ans) x) v) j (set_phase (QRead ans) x) ans) as (v' & H3 & H4).
    - eapply kinds_step; eassumption.
    - cbn. apply lookup_insert.
    - apply set_phase_phase.
    - exists v', hp, q, start, bw, limit. split; [reflexivity|]. split; [reflexivity|]. split; [eapply rtc_l; eassumption|]. now rewrite handle_phase in H4.
  Qed.
  Lemma back_any v j x : kinds v -> v_rpcs v !! j = Some x -> holds x = true -> hands_back v j x.
  Proof.
    intros Hk H1 H2.
    assert (Hopen : forall v x, kinds v -> v_rpcs v !! j = Some x -> rpc_phase x = QOpen -> hands_back v j x).
    { intros w y K1 K2 K3. destruct (back_open w j y K1 K2 K3) as (v' & a & q & start & bw & limit & _ & _ & K4 & K5). eexists _, _. split; eassumption. }
    assert (Hcall : forall v x, kinds v -> v_rpcs v !! j = Some x -> rpc_phase x = QCall -> hands_back v j x).
    { intros w y K1 K2 K3. destruct (opens_any w j y K1 K2 K3) as (w' & K4 & K5). destruct (Hopen w' _ (owns_kinds _ _ _ K4 K1) K5 (set_phase_phase _ _)) as (v' & ans & K6 & K7).
      exists v', ans. rewrite handle_phase in K7. split; [unfold owns; etransitivity; eassumption|exact K7]. }
    destruct (rpc_phase x) eqn:E; unfold holds in H2; rewrite E in H2; try discriminate.
    - pose proof (Hk _ _ H1) as Hkd. rewrite E in Hkd. cbn in Hkd. destruct (p_readers (v_proc v) !! j) as [ph|] eqn:Er; [destruct ph; discriminate|].
      assert (Hst : exists v', sstep v (Some (LCall j)) v' /\ v_rpcs v' = <[j := set_phase QCall x]> (v_rpcs v) /\ aside v v').
      { eexists. split; [eapply V_call; [exact H1|exact E|eapply S_call; exact Er]|split; [reflexivity|split; reflexivity]]. }
      destruct Hst as (v1 & Hst & Ev & El). assert (Ho : own j v v1) by (eapply (own_set v (Some (LCall j))); [exact H1|unfold holds; now rewrite E|exact I|exact Hst|exact Ev|exact El]).
      destruct (Hcall v1 (set_phase QCall x)) as (v' & ans & K1 & K2); [eapply kinds_step; eassumption|rewrite Ev; apply lookup_insert|apply set_phase_phase|].
      exists v', ans. rewrite handle_phase in K2. split; [eapply rtc_l; eassumption|exact K2].
    - now apply Hcall.
    - now apply Hopen.
    - destruct (back_read v j x _ Hk H1 E) as (v' & K1 & K2). eexists _, _. split; eassumption.
  Qed.

  (** ** Everyone gets on *)
  (** What a client of task [x] sees, from [x] to [x']: one more response, the end of its read, or (a subscriber) that there is
      nothing to send at present. *)
  Definition responses (x : rpc) : nat := match x with QRd r _ => length (rr_out r) | QSub s _ => length (su_out s) end.
  Definition got_on (x x' : rpc) : Prop :=
    (responses x < responses x')%nat \/ match x' with QRd _ QEnd | QSub _ QWait => True | _ => False end.
  Definition lgoes (n : nat) : srv -> srv -> Prop := rtc (fun v v' => exists ol, lstep n v ol v' /\ calm_label ol /\ aside v v').
  Lemma owns_lgoes n j v v' : owns j v v' -> lgoes n v v'.
  Proof.
    apply rtc_subrel. intros a b H. pose proof (own_holders _ _ _ H). destruct H as (ol & H1 & H2 & _ & _ & H3). exists ol. split; [split; [exact H1|lia]|auto].
  Qed.
  Lemma lgoes_goes n v v' : lgoes n v v' -> goes ps hash order ford caching max_events v v'.
  Proof. apply rtc_subrel. intros a b (ol & [H1 _] & H2 & _). eauto. Qed.
  Lemma lgoes_lserves n v v' : lgoes n v v' -> forall vs tr, lserves n d p h (v :: vs) tr -> exists vs' tr', lserves n d p h (v' :: vs') tr'.
  Proof.
    intros H. induction H as [|a b c (ol & H1 & _) H2 IH]; intros vs tr Hs; [eauto|]. eapply IH. eapply lserves_step; eassumption.
  Qed.
  Lemma handle_got_on x y : got_on x (rpc_handle x (Ok y)).
  Proof.
    unfold got_on. destruct y as [evs hd], x as [r q|s q]; cbn [rpc_handle].
    - destruct (read_iter r evs hd) as [r' go] eqn:E. unfold read_iter in E. set (kept := match match rr_head r with Some _ => _ | None => _ end with Some _ => _ | None => _ end) in E.
      destruct (last kept); [left|right; injection E as <- <-; exact I]. cbn [responses]. repeat case_match; injection E as <- <-; cbn [rr_out]; rewrite app_length; cbn; lia.
    - unfold sub_iter. destruct (last evs); [left|right; exact I]. case_match; simplify_eq; case_match; simplify_eq; cbn [responses su_out]; rewrite app_length; cbn; lia.
  Qed.
  Lemma free_permit n v k x : (0 < n)%nat -> kinds v -> (holders v <= n)%nat -> v_rpcs v !! k = Some x -> rpc_phase x = QLoop ->
    exists v', lgoes n v v' /\ v_rpcs v' !! k = Some x /\ (holders v' < n)%nat.
  Proof.
    intros Hn Hk Hl Hx Hph. destruct (decide (holders v < n)%nat) as [Hf|Hf]; [exists v; split; [apply rtc_refl|auto]|].
    destruct (held_some (v_rpcs v)) as (j & y & Hj & Hh); [unfold holders in Hf; lia|].
    assert (Hjk : k <> j). { intros ->. rewrite Hx in Hj. injection Hj as <-. unfold holds in Hh. rewrite Hph in Hh. discriminate. }
    destruct (back_any v j y Hk Hj Hh) as (v' & ans & H1 & H2). exists v'. split; [eapply owns_lgoes; exact H1|].
    split; [rewrite (owns_others _ _ _ _ H1 Hjk); exact Hx|].
    assert (E : v_rpcs v' = <[j := rpc_handle y ans]> (v_rpcs v)).
    { apply map_eq. intros i. destruct (decide (j = i)) as [->|Hi]; [now rewrite lookup_insert|]. rewrite lookup_insert_ne by exact Hi. eapply owns_others; [exact H1|congruence]. }
    pose proof (held_set _ _ _ (rpc_handle y ans) Hj) as E2. rewrite Hh, handle_holds in E2. unfold holders in *. rewrite E. lia.
  Qed.
  (** A batch that is being read, by a task that has its reader or waits for it, gets read. *)
  Lemma batch_read n v H k x : at_hist ps hash order caching v H -> v_rpcs v !! k = Some x -> match rpc_phase x with QBorrow | QCall | QOpen | QRead (Ok _) => True | _ => False end ->
    exists v' y, lgoes n v v' /\ v_rpcs v' !! k = Some (rpc_handle x (Ok y)).
  Proof.
    intros Ha Hx Hp.
    assert (Hopen : forall v x, at_hist ps hash order caching v H -> v_rpcs v !! k = Some x -> rpc_phase x = QOpen -> exists v' y, lgoes n v v' /\ v_rpcs v' !! k = Some (rpc_handle x (Ok y))).
    { intros w z Hw Hz Hq. destruct (back_open w k z (proj2 Hw) Hz Hq) as (v' & a & q & start & bw & limit & E1 & _ & E2 & E3).
      destruct Hw as [(ws & sy & (Hi & _) & _) _]. destruct (scan_ok ps hash order ford caching Hps Hps32 Hord Hford w sy k a q start bw limit Hi E1) as (s1 & _ & E). rewrite E in E3.
      eexists _, _. split; [eapply owns_lgoes; exact E2|exact E3]. }
    assert (Hcall : forall v x, at_hist ps hash order caching v H -> v_rpcs v !! k = Some x -> rpc_phase x = QCall -> exists v' y, lgoes n v v' /\ v_rpcs v' !! k = Some (rpc_handle x (Ok y))).
    { intros w z Hw Hz Hq. destruct (opens_any w k z (proj2 Hw) Hz Hq) as (w' & E1 & E2). pose proof (owns_lgoes n _ _ _ E1) as E3.
      destruct (Hopen w' _ (at_goes ps hash order ford caching max_events Hps Hps32 Hord Hford _ _ _ (lgoes_goes _ _ _ E3) Hw) E2 (set_phase_phase _ _)) as (v' & y & E4 & E5).
      rewrite handle_phase in E5. exists v', y. split; [unfold lgoes; etransitivity; eassumption|exact E5]. }
    destruct (rpc_phase x) eqn:E; try contradiction.
    - pose proof (proj2 Ha _ _ Hx) as Hkd. rewrite E in Hkd. cbn in Hkd. destruct (p_readers (v_proc v) !! k) as [ph|] eqn:Er; [destruct ph; discriminate|].
      assert (Hst : exists v', sstep v (Some (LCall k)) v' /\ v_rpcs v' = <[k := set_phase QCall x]> (v_rpcs v) /\ aside v v').
      { eexists. split; [eapply V_call; [exact Hx|exact E|eapply S_call; exact Er]|split; [reflexivity|split; reflexivity]]. }
      destruct Hst as (v1 & Hst & Ev & El). assert (Ho : own k v v1) by (eapply (own_set v (Some (LCall k))); [exact Hx|unfold holds; now rewrite E|exact I|exact Hst|exact Ev|exact El]).
      destruct (Hcall v1 (set_phase QCall x)) as (v' & y & E4 & E5).
      + exact (at_step ps hash order ford caching max_events Hps Hps32 Hord Hford _ _ _ _ Hst I Ha).
      + rewrite Ev. apply lookup_insert.
      + apply set_phase_phase.
      + rewrite handle_phase in E5. exists v', y. split; [|exact E5]. unfold lgoes. etransitivity; [eapply owns_lgoes, rtc_once, Ho|exact E4].
    - now apply Hcall.
    - now apply Hopen.
    - destruct x0 as [y|e]; [|contradiction]. destruct (back_read v k x _ (proj2 Ha) Hx E) as (v' & K1 & K2). exists v', y. split; [eapply owns_lgoes; exact K1|exact K2].
  Qed.
  Lemma got_on_phase q x y : got_on (set_phase q x) y -> got_on x y.
  Proof. now destruct x. Qed.
  Lemma read_next n v vs tr k x : (0 < n)%nat -> lserves n d p h (v :: vs) tr -> v_rpcs v !! k = Some x ->
    match rpc_phase x with QLoop | QBorrow | QCall | QOpen | QRead (Ok _) => True | _ => False end ->
    exists v' x2 y, lgoes n v v' /\ v_rpcs v' !! k = Some (rpc_handle x2 (Ok y)) /\ responses x2 = responses x /\ is_read x2 = is_read x.
  Proof.
    intros Hn Hs Hx Hp. pose proof (limited_serves _ _ _ Hs) as Hs'. pose proof (reads_limited _ _ _ _ Hs) as Hl.
    destruct (serves_inv ps hash order ford caching max_events Hps Hps32 Hord Hford _ _ _ _ _ _ _ Hrun Hs') as (sy & Hok).
    pose proof (serves_kinds _ _ _ _ _ _ _ _ _ _ _ _ Hs') as Hk. assert (Ha : at_hist ps hash order caching v (s_hist (sp_cur sy))) by (split; [exists vs, sy; auto|exact Hk]).
    assert (D : {rpc_phase x = QLoop} + {rpc_phase x <> QLoop}) by (destruct (rpc_phase x); (left; reflexivity) || (right; discriminate)). destruct D as [E|E].
    - destruct (free_permit n v k x Hn Hk Hl Hx E) as (v1 & H1 & H2 & H3).
      set (x2 := match x with QRd r _ => QRd r QBorrow | QSub s _ => QSub (saw (v_ver v1) s) QBorrow end). set (v2 := v_set_rpc k x2 v1).
      assert (Hst : sstep v1 None v2) by (eapply V_permit; eassumption).
      assert (Hg2 : lgoes n v v2). { unfold lgoes. eapply rtc_r; [exact H1|]. exists None. split; [split; [exact Hst|lia]|split; [exact I|split; reflexivity]]. }
      destruct (batch_read n v2 _ k x2 (at_goes ps hash order ford caching max_events Hps Hps32 Hord Hford _ _ _ (lgoes_goes _ _ _ Hg2) Ha)) as (v3 & y & H4 & H5).
      + apply lookup_insert.
      + unfold x2. destruct x; exact I.
      + exists v3, x2, y. split; [unfold lgoes; etransitivity; eassumption|]. split; [exact H5|]. unfold x2. destruct x; split; reflexivity.
    - destruct (batch_read n v _ k x Ha Hx) as (v3 & y & H4 & H5); [destruct (rpc_phase x); try contradiction; auto; congruence|].
      exists v3, x, y. auto.
  Qed.
  (** However many reads and subscriptions there are and wherever they are, any one of them gets its next response, without
      a commit, an end of another task or a client doing anything: it is enough that those that read a batch finish it. *)
  Theorem read_gets_on n v vs tr k x : (0 < n)%nat -> lserves n d p h (v :: vs) tr -> v_rpcs v !! k = Some x ->
    match rpc_phase x with QLoop | QBorrow | QCall | QOpen | QRead (Ok _) => True | _ => False end ->
    exists v' x', lgoes n v v' /\ v_rpcs v' !! k = Some x' /\ got_on x x' /\ exists vs' tr', lserves n d p h (v' :: vs') tr'.
  Proof.
    intros Hn Hs Hx Hp. destruct (read_next _ _ _ _ _ _ Hn Hs Hx Hp) as (v' & x2 & y & G1 & G2 & G3 & _). exists v'. eexists. split; [exact G1|]. split; [exact G2|].
    split; [|eapply lgoes_lserves; eassumption]. pose proof (handle_got_on x2 y) as G. unfold got_on in *. now rewrite <- G3.
  Qed.
  (** The number of permits of a server that was started is one with which that holds. *)
  Theorem started_read_gets_on cfg a o n v vs tr k x : Options.start cfg a = Options.Runs o n -> lserves (N.to_nat n) d p h (v :: vs) tr -> v_rpcs v !! k = Some x ->
    match rpc_phase x with QLoop | QBorrow | QCall | QOpen | QRead (Ok _) => True | _ => False end ->
    exists v' x', lgoes (N.to_nat n) v v' /\ v_rpcs v' !! k = Some x' /\ got_on x x' /\ exists vs' tr', lserves (N.to_nat n) d p h (v' :: vs') tr'.
  Proof. intros Hstart. apply PropsOptions.readers_never_locked_out in Hstart as [Hn _]. apply read_gets_on. lia. Qed.

  (** ** C98: remote reads come to an end *)
  (** The responses to a read are at most as many as the events it is answered with, or one, however the server is kept busy. *)
  Theorem responses_bounded v vs tr k r x st : serves d p h (v :: vs) tr -> v_rpcs v !! k = Some (QRd r x) -> k ∉ v_lost v -> shows (v_sys v) st ->
    (length (rr_out r) <= Nat.max 1 (length (spec_read (s_hist st) (rr_q r) (rr_start r) (rr_bw r) (rr_limit r))))%nat.
  Proof.
    intros H Hk Hl Hs. pose proof (remote_read_batches ps hash order ford caching max_events Hps Hps32 Hord Hford _ _ _ _ Hrun _ _ _ _ _ _ H Hk Hl) as Hb. apply batches_bound in Hb.
    destruct (serves_inv ps hash order ford caching max_events Hps Hps32 Hord Hford _ _ _ _ _ _ _ Hrun H) as (sy & Hi & Hg & Hsub & HR). pose proof (HR _ _ Hk Hl) as Hr. cbn [rpc_inv] in Hr.
    destruct (inv_shows_eqv ps hash order ford caching Hps Hps32 Hord Hford _ _ _ Hi Hs) as [Eh _]. rewrite Eh.
    destruct Hr as (_ & _ & Hr). destruct (rr_head r) as [hd|].
    - destruct Hr as (s & _ & _ & [Hext _] & _ & _ & _ & Hread & _). pose proof (f_equal length Hread) as E. rewrite app_length in E. unfold rr_sent in E.
      pose proof (spec_read_mono _ _ (rr_q r) (rr_start r) (rr_bw r) (rr_limit r) Hext). lia.
    - destruct Hr as (Ho & _). rewrite Ho. cbn. lia.
  Qed.
  Lemma handle_read x y : is_read x = true -> exists r q, rpc_handle x (Ok y) = QRd r q /\ (q = QLoop \/ q = QEnd).
  Proof.
    destruct x as [r q|]; [|discriminate]. intros _. destruct y as [evs hd]. cbn [rpc_handle]. destruct (read_iter r evs hd) as [r' go]. eexists _, _. split; [reflexivity|]. destruct (_ && _); auto.
  Qed.
  Lemma lgoes_lost n v v' : lgoes n v v' -> v_lost v' = v_lost v.
  Proof. intros H. induction H as [|a b c (ol & _ & _ & E) _ IH]; [reflexivity|]. apply aside_same in E as (_ & _ & E). congruence. Qed.
  Lemma lgoes_asked n v v' k x : lgoes n v v' -> v_rpcs v !! k = Some x -> exists x', v_rpcs v' !! k = Some x' /\ asked x' = asked x /\ is_read x' = is_read x.
  Proof.
    intros H. revert x. induction H as [u|a b c (ol & [Hst _] & _) _ IH]; intros x Hx; [eauto|]. destruct (sstep_asked ps hash order ford caching max_events _ _ _ _ _ Hst Hx) as (x1 & H1 & H2 & H3).
    destruct (IH _ H1) as (x2 & H4 & H5 & H6). exists x2. repeat split; congruence.
  Qed.
  (** A read whose client stays and for which every page can be read is answered in full, whatever the other tasks do: those that
      read a batch must finish it, nothing else is needed. *)
  Theorem read_ends n v vs tr k r x : (0 < n)%nat -> lserves n d p h (v :: vs) tr -> v_rpcs v !! k = Some (QRd r x) -> k ∉ v_lost v ->
    match x with QLoop | QBorrow | QCall | QOpen | QRead (Ok _) => True | _ => False end ->
    exists v' vs' tr' r' s, lgoes n v v' /\ lserves n d p h (v' :: vs') tr' /\ v_rpcs v' !! k = Some (QRd r' QEnd) /\ asked (QRd r' QEnd) = asked (QRd r x) /\
      (exists w y, w ∈ v' :: vs' /\ v_rpcs w !! k = Some y /\ unsent y /\ shows (v_sys w) s) /\
      concat (map fst (rr_out r')) = spec_read (s_hist s) (rr_q r) (rr_start r) (rr_bw r) (rr_limit r).
  Proof.
    intros Hn Hs Hx Hlost Hp.
    enough (exists v' r', lgoes n v v' /\ v_rpcs v' !! k = Some (QRd r' QEnd)) as (v' & r' & G1 & G2).
    { destruct (lgoes_lserves _ _ _ G1 _ _ Hs) as (vs' & tr' & Hs'). destruct (lgoes_asked _ _ _ _ _ G1 Hx) as (x' & G3 & G4 & _). rewrite G2 in G3. injection G3 as <-.
      assert (Hl' : k ∉ v_lost v') by now rewrite (lgoes_lost _ _ _ G1).
      destruct (remote_read_snapshot ps hash order ford caching max_events Hps Hps32 Hord Hford _ _ _ _ Hrun _ _ _ _ _ _ (limited_serves _ _ _ Hs') G2 Hl') as (_ & s & Hw & _ & He & _).
      exists v', vs', tr', r', s. split; [exact G1|]. split; [exact Hs'|]. split; [exact G2|]. split; [exact G4|]. split; [exact Hw|]. destruct (He eq_refl) as [He1 _].
      rewrite He1. cbn in G4. injection G4 as -> -> -> -> _. reflexivity. }
    assert (Hst : exists st, shows (v_sys v) st).
    { destruct (serves_inv ps hash order ford caching max_events Hps Hps32 Hord Hford _ _ _ _ _ _ _ Hrun (limited_serves _ _ _ Hs)) as (sy & Hi & _). exists (sp_cur sy). eapply inv_shows_v; eassumption. }
    destruct Hst as [st Hst]. set (b := Nat.max 1 (length (spec_read (s_hist st) (rr_q r) (rr_start r) (rr_bw r) (rr_limit r)))).
    remember (b - length (rr_out r))%nat as m eqn:Em. assert (Hm : (b <= length (rr_out r) + m)%nat) by lia. clear Em.
    assert (Hb : forall v' vs' tr' r' x', lgoes n v v' -> lserves n d p h (v' :: vs') tr' -> v_rpcs v' !! k = Some (QRd r' x') -> (length (rr_out r') <= b)%nat).
    { intros v' vs' tr' r' x' G1 Hs' G2. destruct (lgoes_asked _ _ _ _ _ G1 Hx) as (x1 & G3 & G4 & _). rewrite G2 in G3. injection G3 as <-. cbn in G4. injection G4 as E1 E2 E3 E4 _.
      destruct (serves_inv ps hash order ford caching max_events Hps Hps32 Hord Hford _ _ _ _ _ _ _ Hrun (limited_serves _ _ _ Hs)) as (sy & Hok). pose proof Hok as (Hi & _).
      destruct (inv_shows_eqv ps hash order ford caching Hps Hps32 Hord Hford _ _ _ Hi Hst) as [Eh _].
      assert (Ha : at_hist ps hash order caching v (s_hist (sp_cur sy))) by (split; [exists vs, sy; auto|exact (serves_kinds _ _ _ _ _ _ _ _ _ _ _ _ (limited_serves _ _ _ Hs))]).
      destruct (at_goes ps hash order ford caching max_events Hps Hps32 Hord Hford _ _ _ (lgoes_goes _ _ _ G1) Ha) as [(ws & sy' & (Hi' & _) & Eh') _].
      assert (Hl' : k ∉ v_lost v') by now rewrite (lgoes_lost _ _ _ G1).
      pose proof (responses_bounded _ _ _ _ _ _ _ (limited_serves _ _ _ Hs') G2 Hl' (inv_shows_v ps hash order ford caching Hps Hps32 Hord Hford _ _ Hi')) as B.
      rewrite Eh', <- Eh, E1, E2, E3, E4 in B. exact B. }
    clear Hst. assert (G : forall m v1 vs1 tr1 r1 x1, lgoes n v v1 -> lserves n d p h (v1 :: vs1) tr1 -> v_rpcs v1 !! k = Some (QRd r1 x1) ->
      match x1 with QLoop | QBorrow | QCall | QOpen | QRead (Ok _) => True | _ => False end -> (b <= length (rr_out r1) + m)%nat -> exists v' r', lgoes n v v' /\ v_rpcs v' !! k = Some (QRd r' QEnd));
      [|exact (G m v vs tr r x (rtc_refl _ _) Hs Hx Hp Hm)].
    clear m Hm Hs Hx Hp. intros m. induction m as [|m IH]; intros v1 vs1 tr1 r1 x1 G1 Hs1 Hx1 Hp1 Hm1;
      destruct (read_next _ _ _ _ _ _ Hn Hs1 Hx1 Hp1) as (v2 & x2 & y & L & K1 & K2 & K3); destruct (handle_read x2 y K3) as (r2 & q2 & K4 & K5); pose proof (handle_got_on x2 y) as K6; rewrite K4 in K1, K6;
      destruct (lgoes_lserves _ _ _ L _ _ Hs1) as (vs2 & tr2 & Hs2); assert (G2 : lgoes n v v2) by (unfold lgoes in *; etransitivity; eassumption); pose proof (Hb _ _ _ _ _ G2 Hs2 K1) as B;
      (destruct K5 as [-> | ->]; [|exists v2, r2; auto]); unfold got_on in K6; rewrite K2 in K6; destruct K6 as [K6|[]]; cbn [responses] in K6.
    - lia.
    - eapply (IH v2 vs2 tr2 r2 QLoop); [exact G2|exact Hs2|exact K1|exact I|lia].
  Qed.
End props_permits.

(** One permit, two reads: while the first has the permit the second waits; it gets its answer nevertheless. *)
Notation e_limited n := (lserves 16 4096 f_hash (fun l => l) x_ford true 1000 n (init_disk 16 4096) e_db None).
Example permit_example : exists v vs tr r, e_limited 1%nat (v :: vs) tr /\ v_rpcs v !! 8%nat = Some (QRd r QLoop) /\ holders v = 1%nat /\
  (forall v', lstep 16 4096 f_hash (fun l => l) x_ford true 1000 1 v None v' -> v_rpcs v' !! 8%nat <> Some (QRd r QBorrow)) /\
  exists v' x', v_rpcs v' !! 8%nat = Some x' /\ got_on (QRd r QLoop) x'.
Proof.
  set (v0 := new_srv (init_disk 16 4096) e_db None). set (r := new_read [] None false None None).
  set (v1 := v_set_rpc 7 (QRd r QLoop) v0). set (v2 := v_set_rpc 8 (QRd r QLoop) v1). set (v3 := v_set_rpc 7 (QRd r QBorrow) v2).
  assert (S0 : e_limited 1%nat [v0] []) by apply lserves_start.
  assert (S1 : e_limited 1%nat [v1; v0] ([] ++ [])).
  { refine (lserves_step _ _ _ _ _ _ _ _ _ _ _ _ _ _ None _ S0 (conj _ _)); [|intros _; apply Nat.lt_0_1]. exact (V_read 16 4096 f_hash (fun l => l) x_ford true 1000 v0 7 [] None false None None eq_refl eq_refl I). }
  assert (S2 : e_limited 1%nat [v2; v1; v0] (([] ++ []) ++ [])).
  { refine (lserves_step _ _ _ _ _ _ _ _ _ _ _ _ _ _ None _ S1 (conj _ _)); [|intros _; apply Nat.lt_0_1]. exact (V_read 16 4096 f_hash (fun l => l) x_ford true 1000 v1 8 [] None false None None eq_refl eq_refl I). }
  assert (S3 : e_limited 1%nat [v3; v2; v1; v0] ((([] ++ []) ++ []) ++ [])).
  { refine (lserves_step _ _ _ _ _ _ _ _ _ _ _ _ _ _ None _ S2 (conj _ _)); [|intros _; apply Nat.lt_0_1]. exact (V_permit 16 4096 f_hash (fun l => l) x_ford true 1000 v2 7 (QRd r QLoop) eq_refl eq_refl). }
  assert (H3 : holders v3 = 1%nat) by (vm_compute; reflexivity).
  exists v3, [v2; v1; v0], [], r. split; [exact S3|]. split; [reflexivity|]. split; [exact H3|]. split.
  - intros v' Hst E. pose proof (permit_waits _ _ _ _ _ _ 1%nat _ _ _ 8%nat _ _ Hst ltac:(rewrite H3; reflexivity) eq_refl eq_refl E) as Hc. discriminate Hc.
  - destruct (read_gets_on 4096 f_hash (fun l => l) x_ford true 1000 f_ps f_ps32 x_ord x_ford_ok _ _ _ _ e_start 1%nat v3 _ _ 8%nat _ Nat.lt_0_1 S3 eq_refl I) as (v' & x' & _ & E1 & E2 & _).
    exists v', x'. auto.
Qed.
Print Assumptions limited_serves.
Print Assumptions reads_limited.
Print Assumptions permit_waits.
Print Assumptions read_gets_on.
Print Assumptions started_read_gets_on.
Print Assumptions responses_bounded.
Print Assumptions read_ends.

(** The limit is the only thing that distinguishes a limited server. *)
Lemma serves_limited ps hash order ford caching max_events n d p h l tr : serves 16 ps hash order ford caching max_events d p h l tr -> Forall (fun v => (holders v <= n)%nat) l ->
  lserves 16 ps hash order ford caching max_events n d p h l tr.
Proof.
  intros H. induction H as [|v vs tr ol v' H IH Hst]; intros Hf; [constructor|]. inversion Hf as [|? ? H1 H2]; subst. constructor; [exact (IH H2)|]. split; [exact Hst|]. lia.
Qed.
(** Three events, read two at a time by client 7, who has got the first two; client 8 reads too, and there is one permit. *)
Definition e_midway : list sact := [VArrive 0 e_three] ++ e_batch 3 ++ [VRead 7 [] None false None (Some 2)] ++ e_round 7 ++ [VRead 8 [] None false None None; VTask 8].
Example read_ends_example : exists v vs tr r v' vs' tr' r', e_limited 1%nat (v :: vs) tr /\ holders v = 1%nat /\ v_rpcs v !! 7%nat = Some (QRd r QLoop) /\
  map (fun o => map fst o.1) (rr_out r) = [[1; 2]] /\ e_limited 1%nat (v' :: vs') tr' /\ v_rpcs v' !! 7%nat = Some (QRd r' QEnd).
Proof.
  destruct (e_found e_midway (fun v vs => forallb (fun v => Nat.leb (holders v) 1) (v :: vs) && Nat.eqb (holders v) 1 && match v_lost v with [] => true | _ => false end &&
    match v_rpcs v !! 7%nat with Some (QRd r QLoop) => bool_decide (map (fun o => map fst o.1) (rr_out r) = [[1; 2]]) | _ => false end)) as (v & vs & tr & H & HP); [vm_compute; reflexivity|].
  apply andb_prop in HP as [HP P4]. apply andb_prop in HP as [HP P3]. apply andb_prop in HP as [P1 P2]. apply Nat.eqb_eq in P2.
  destruct (v_rpcs v !! 7%nat) as [[r []|]|] eqn:E; try discriminate P4. apply bool_decide_eq_true in P4. destruct (v_lost v) eqn:El; [|discriminate P3].
  assert (Hl : e_limited 1%nat (v :: vs) tr).
  { apply serves_limited; [exact H|]. apply Forall_forall. intros w Hw. rewrite forallb_forall in P1. apply elem_of_list_In in Hw. apply P1 in Hw. now apply Nat.leb_le. }
  destruct (read_ends 4096 f_hash (fun l => l) x_ford true 1000 f_ps f_ps32 x_ord x_ford_ok _ _ _ _ e_start 1%nat v _ _ 7%nat r QLoop Nat.lt_0_1 Hl E) as (v' & vs' & tr' & r' & s & _ & G2 & G3 & _);
    [rewrite El; apply not_elem_of_nil|exact I|].
  exists v, vs, tr, r, v', vs', tr', r'. auto 8.
Qed.
