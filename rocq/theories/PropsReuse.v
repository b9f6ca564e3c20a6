(** C113: a write transaction begins with exactly the free pages that no reader may still need; a reader that was closed, or a call that
    had to start again, holds back none. *)
From Verif Require Import Walk WalkProofs Mvcc MvccProofs SpecProofs StoreProofs FreeListProofs FreeFind FreeProcess Txn TsnProofs Thrift Exec PipelineSys PropsStore PropsPages PropsFits PropsCrash PropsCheck PropsSpace.
Local Open Scope N_scope.

(** Reader [i] has put down that it reads the state of transaction [t]: it is open, or about to be. *)
Definition reads_at (p : proc) (i : nat) (t : N) : Prop :=
  exists a, h_tsn a.2 = t /\ (p_readers p !! i = Some (ROpen a) \/ p_readers p !! i = Some (RReg a) \/ exists b, p_readers p !! i = Some (RChk a b)).
Lemma reads_at_reg p i t : reads_at p i t <-> exists r, p_readers p !! i = Some r /\ reg_of r = Some t.
Proof.
  split.
  - intros (a & <- & [H|[H|(b & H)]]); eauto.
  - intros (r & H & E). destruct r as [| | |a|a b|a]; try discriminate E; injection E as <-; exists a; split; eauto.
Qed.

(** A number for a transaction in the registry, and its smallest. *)
Definition registry_says (p : proc) : Prop :=
  (forall t n, p_regs p !! t = Some n <-> (0 < n)%nat /\ exists l, NoDup l /\ length l = n /\ forall i, i ∈ l <-> reads_at p i t) /\
  (forall t, reg_min (p_regs p) = Some t <-> (exists i, reads_at p i t) /\ forall i u, reads_at p i u -> t <= u) /\
  (reg_min (p_regs p) = None <-> forall i u, ~ reads_at p i u).
Lemma registry_facts p : reg_ok (p_regs p) (p_readers p) -> registry_says p.
Proof.
  intros Hg.
  assert (Hle : forall i u, reads_at p i u -> exists a, reg_min (p_regs p) = Some a /\ a <= u).
  { intros i u H. apply reads_at_reg in H as (r & H1 & H2). eapply reg_min_le; eassumption. }
  assert (Hin : forall t, reg_min (p_regs p) = Some t -> exists i, reads_at p i t).
  { intros t E. destruct (reg_min_in _ _ _ Hg E) as (i & r & H1 & H2). exists i. apply reads_at_reg. eauto. }
  split; [|split].
  - intros t n. set (m := filter (fun x => reg_of x.2 = Some t) (p_readers p)).
    assert (Hm : forall i, i ∈ map fst (map_to_list m) <-> reads_at p i t).
    { intros i. rewrite reads_at_reg, elem_of_list_fmap. split.
      - intros ([i' r] & -> & H). apply elem_of_map_to_list, map_filter_lookup_Some in H as [H1 H2]. eauto.
      - intros (r & H1 & H2). exists (i, r). split; [reflexivity|]. apply elem_of_map_to_list, map_filter_lookup_Some. auto. }
    assert (Hn : NoDup (map fst (map_to_list m))) by apply NoDup_fst_map_to_list.
    assert (Hl : length (map fst (map_to_list m)) = cnt (p_readers p) t) by (rewrite map_length; reflexivity).
    rewrite (Hg t). split.
    + intros E. destruct (Nat.eqb_spec (cnt (p_readers p) t) 0); [discriminate|]. injection E as <-. split; [lia|]. eauto.
    + intros (H0 & l & Hnd & <- & Hx). assert (P : l ≡ₚ map fst (map_to_list m)) by (apply NoDup_Permutation; [assumption|assumption|intros i; now rewrite Hx, Hm]).
      rewrite P, Hl in *. destruct (Nat.eqb_spec (cnt (p_readers p) t) 0); [lia|reflexivity].
  - intros t. split.
    + intros E. split; [now apply Hin|]. intros i u H. destruct (Hle i u H) as (a & E' & Ha). congruence.
    + intros ((i & Hi') & Hmin). destruct (Hle _ _ Hi') as (a & E & Ha). destruct (Hin _ E) as (j & Hj). specialize (Hmin _ _ Hj). rewrite E. f_equal. lia.
  - split.
    + intros E i u H. destruct (Hle i u H) as (a & E' & _). congruence.
    + intros H. destruct (reg_min (p_regs p)) as [t|] eqn:E; [|reflexivity]. destruct (Hin _ eq_refl) as (i & Hi'). now apply H in Hi'.
Qed.

Section props.
  Context (ps : N) (hash : bytes -> bytes) (order : list bytes -> list bytes) (ford : gset N -> list N) (caching : bool).
  Context (Hps : ps_ok ps) (Hps32 : ps < U32) (Hord : forall l t, t ∈ order l <-> t ∈ l) (Hford : forall s, ford s ≡ₚ elements s).
  Notation run := (run ps hash order ford caching).
  Notation step := (step 16 ps hash order ford caching).

  (** The registry has a number for a transaction exactly if that many readers read its state, and its smallest is the smallest of theirs. *)
  Theorem registry_exact tr y p : run tr y -> y_proc y = Some p -> registry_says p.
  Proof.
    intros Hr Hp. destruct (run_inv ps hash order ford caching Hps Hps32 Hord Hford _ _ Hr) as (sy & _ & Hi & _). unfold inv in Hi. rewrite Hp in Hi. destruct Hi as (g & Hi).
    apply registry_facts. exact (u_regs _ _ _ _ _ _ _ _ Hi).
  Qed.

  Lemma begin_reusable rd sn sm : snap_ok 16 ps hash (rget rd) sn -> exists w, mvcc_writer rd sm (sn_hdr sn) = (Ok tt, w) /\ w_reusable w ≡ₚ pairs (filter (fun e => old_enough sm e.1) (sn_es sn)).
  Proof.
    intros H. unfold mvcc_writer. set (w0 := new_writer (sn_hdr sn)).
    pose proof H as [S1 S2 S3 S4 S5 S6 S7 S8].
    assert (Hc0 : coh rd w0) by (intros p n Hp; cbn in Hp; rewrite lookup_empty in Hp; discriminate).
    assert (Hv0 : forall q, vget rd w0 q = rget rd q) by (intros q; unfold vget, w0; cbn; rewrite lookup_empty; reflexivity).
    assert (Hp0 : pool_ok w0 (sn_PF sn ++ (sn_PE sn ++ sn_PT sn ++ sn_PK sn) ++ map fst (pairs (sn_es sn)))).
    { eapply (cover_pool w0 _ _ _); [|rewrite app_assoc; reflexivity|].
      - split; [exact S6|]. unfold w0. cbn. rewrite elements_empty. cbn. rewrite app_nil_r, <- S7. unfold sn_live. solve_Permutation.
      - intros q [n Hq]. cbn in Hq. rewrite lookup_empty in Hq. discriminate. }
    assert (Hfl0 : flrep (vget rd w0) (h_tsn (sn_hdr sn)) (w_free_root w0) (sn_PF sn) (sn_es sn)).
    { eapply flrep_frame; [exact S3|]. intros q _. apply Hv0. }
    destruct (find_reusable_ok rd sm w0 _ _ _ _ Hc0 Hp0 Hfl0) as (w1 & l & E & _ & _ & Hl & _). exists (set_reusable l w1). split; [exact E|exact Hl].
  Qed.

  (** A transaction can begin whenever none is under way, and then has for use exactly the pages that the file says are free since a transaction that no reader is behind. *)
  Theorem reusable_exact tr y p : run tr y -> y_proc y = Some p -> p_writer p = WIdle ->
    exists w, mvcc_writer (fetch 16 (p_cache p) (y_disk y)) (reg_min (p_regs p)) (latest p).2 = (Ok tt, w) /\
      step y LTau (Sys (y_disk y) (Some (set_writer (WBusy (fetch 16 (p_cache p) (y_disk y)) w [] []) p))) /\
      forall q t, (q, t) ∈ w_reusable w <-> recorded (on_disk (y_disk y)) (h_free_root (latest p).2) q t /\ forall i m, reads_at p i m -> t <= m.
  Proof.
    intros Hr Hp Hw. destruct (registry_exact _ _ _ Hr Hp) as (_ & Hmin & Hnone).
    destruct (run_inv ps hash order ford caching Hps Hps32 Hord Hford _ _ Hr) as (sy & _ & Hi & _). unfold inv in Hi. rewrite Hp in Hi. destruct Hi as (g & Hi).
    pose proof (u_held _ _ _ _ _ _ _ _ Hi) as Hh. pose proof (u_cur _ _ _ _ _ _ _ _ Hi) as Hc. pose proof (u_latest _ _ _ _ _ _ _ _ Hi) as Hlat. set (G := gh_cur g) in *.
    set (rd := fetch 16 (p_cache p) (y_disk y)) in *. set (sm := reg_min (p_regs p)) in *.
    assert (Hrd : forall q, q ∈ g_live G -> rget rd q = g_get G q) by (intros q Hq; unfold rd; eapply held_rget; try eassumption; lia).
    assert (Hok : snap_ok 16 ps hash (rget rd) (g_sn G)) by (eapply snap_frame; [exact (proj1 Hh)|exact Hrd]).
    destruct (begin_reusable rd (g_sn G) sm Hok) as (w & E & Hl). rewrite <- Hlat in E. exists w. split; [exact E|]. split.
    { destruct y as [d pp]. cbn [y_proc y_disk] in *. subst pp. constructor. now apply S_begin. }
    assert (Hfl : flrep (on_disk (y_disk y)) (g_tsn G) (h_free_root (g_hdr G)) (sn_PF (g_sn G)) (sn_es (g_sn G))).
    { eapply flrep_frame; [exact (so_fl _ _ _ _ _ (proj1 Hh))|]. intros x Hx. destruct (proj2 Hh x) as (n & Hn & Hgn & _).
      - unfold sn_live. apply elem_of_app. now left.
      - unfold on_disk. now rewrite (Hgn _ (Hc x)), Hn. }
    intros q t. rewrite Hl, Hlat, (flrep_recorded _ _ _ _ _ _ _ Hfl), !pairs_in.
    assert (Ho : old_enough sm t <-> forall i m, reads_at p i m -> t <= m).
    { unfold old_enough. destruct sm as [s|] eqn:Es.
      - destruct (proj1 (Hmin s) eq_refl) as ((i & Hi') & Hall). split; [intros H j m Hj; specialize (Hall _ _ Hj); lia|intros H; exact (H _ _ Hi')].
      - pose proof (proj1 Hnone eq_refl) as H. split; [intros _ i m Hm; now apply H in Hm|auto]. }
    rewrite <- Ho. split.
    - intros (ids & Pv & He & Hq). apply elem_of_list_filter in He as [H1 H2]. eauto 6.
    - intros [(ids & Pv & He & Hq) H1]. exists ids, Pv. split; [|exact Hq]. apply elem_of_list_filter. auto.
  Qed.
  (** Once all readers are closed, every page the file says is free is for use. *)
  Corollary reusable_when_closed tr y p : run tr y -> y_proc y = Some p -> p_writer p = WIdle -> p_readers p = ∅ ->
    exists w, mvcc_writer (fetch 16 (p_cache p) (y_disk y)) (reg_min (p_regs p)) (latest p).2 = (Ok tt, w) /\
      forall q t, (q, t) ∈ w_reusable w <-> recorded (on_disk (y_disk y)) (h_free_root (latest p).2) q t.
  Proof.
    intros Hr Hp Hw He. destruct (reusable_exact _ _ _ Hr Hp Hw) as (w & E & _ & H). exists w. split; [exact E|]. intros q t. rewrite H. split; [tauto|]. intros Hq. split; [exact Hq|].
    intros i m Hm. apply reads_at_reg in Hm as (r & Hm & _). rewrite He, lookup_empty in Hm. discriminate.
  Qed.
End props.
(** The same with the pipelining writer, whatever fails, and whichever thread ran before. *)
Section pipelined.
  Context (kw : nat) (ps : N) (hash : bytes -> bytes) (order : list bytes -> list bytes) (ford : gset N -> list N) (caching : bool).
  Notation counted p := (reg_ok (p_regs p) (p_readers p)).
  Lemma pstep_regs d p l d' p' : pstep kw ps hash order ford caching d p l d' p' -> counted p -> counted p'.
  Proof.
    intros H Hg. inversion H; subst; cbn [p_regs p_readers set_reader set_readers set_regs set_cache set_writer]; try exact Hg.
    all: try (unfold pin_header; destruct (_ =? 0); exact Hg).
    all: try (destruct caching; exact Hg).
    - eapply reg_same; [exact Hg|]. intros u. rewrite cnt_insert by assumption. cbn [reg_of]. rewrite decide_False by discriminate. lia.
    - eapply reg_same; [exact Hg|]. intros u. eapply cnt_insert_same; [eassumption|reflexivity].
    - eapply reg_same; [exact Hg|]. intros u. eapply cnt_insert_same; [eassumption|reflexivity].
    - eapply register_ok; [exact Hg|]. intros u. pose proof (cnt_replace _ i _ (RReg a) u ltac:(eassumption)) as X. cbn [reg_of] in X. rewrite (decide_False (P := None = Some u)) in X by discriminate.
      destruct (decide (h_tsn a.2 = u)) as [Hn|Hn]; [rewrite decide_True in X by congruence; lia|rewrite decide_False in X by congruence; lia].
    - eapply reg_same; [exact Hg|]. intros u. eapply cnt_insert_same; [eassumption|reflexivity].
    - eapply reg_same; [exact Hg|]. intros u. eapply cnt_insert_same; [eassumption|reflexivity].
    - eapply unregister_ok; [exact Hg|]. intros u. pose proof (cnt_replace _ i _ RCall u ltac:(eassumption)) as X. cbn [reg_of] in X. rewrite (decide_False (P := None = Some u)) in X by discriminate.
      destruct (decide (h_tsn a.2 = u)) as [Hn|Hn]; [rewrite decide_True in X by congruence; lia|rewrite decide_False in X by congruence; lia].
    - eapply unregister_ok; [exact Hg|]. intros u. pose proof (cnt_delete _ i _ u ltac:(eassumption)) as X. cbn [reg_of] in X.
      destruct (decide (h_tsn a.2 = u)) as [Hn|Hn]; [rewrite decide_True in X by congruence; lia|rewrite decide_False in X by congruence; lia].
    - eapply reg_same; [exact Hg|]. intros u. pose proof (cnt_delete _ i _ u ltac:(eassumption)) as X. cbn [reg_of] in X. rewrite decide_False in X by discriminate. lia.
  Qed.
  Lemma open_regs d d' p : open_db kw ps d = Ok (d', p) -> counted p.
  Proof.
    intros Ho. unfold open_db in Ho. repeat (match type of Ho with (rbind ?x _ = _) => destruct x; cbn [rbind] in Ho; [|discriminate] | (let '(_, _) := ?x in _) = _ => destruct x | match ?x with _ => _ end = _ => destruct x; try discriminate end).
    all: injection Ho as _ <-; intros t; reflexivity.
  Qed.
  Definition mcounted (s : msys) : Prop := match s with MB y => match y_proc y with Some p => counted p | None => True end | MOpen _ p => counted p | MP s => counted (s_proc s) end.
  Lemma mstep_regs s l s' : mstep kw ps hash order ford caching s l s' -> mcounted s -> mcounted s'.
  Proof.
    intros H Hg. inversion H as [y l0 y' Hs|d d' p Ho|d p l0 p' Hp|d p s0 Hs|s0 l0 s1 Hl|d p d' Hd|d p Hd|d p pi d' Hd|d p pi Hd]; subst; cbn [mcounted y_proc s_proc] in *; try exact I.
    - inversion Hs; subst; cbn [y_proc] in *; try exact I; [eapply pstep_regs; eassumption|eapply open_regs; eassumption].
    - eapply open_regs; eassumption.
    - eapply pstep_regs; eassumption.
    - destruct Hs as (_ & w & _ & ->). exact Hg.
    - inversion Hl; subst; cbn [s_proc] in *; try exact Hg; [eapply pstep_regs; eassumption|destruct caching; exact Hg|unfold pin_header; destruct (_ =? 0); exact Hg].
  Qed.
  Theorem registry_exact_pipelined tr s0 s p : s0 = MB (init_sys 16 ps) \/ s0 = pipelined_new ps -> msteps kw ps hash order ford caching (fun _ _ => True) s0 tr s ->
    match s with MB y => y_proc y = Some p | MOpen _ p' => p' = p | MP s => s_proc s = p end -> registry_says p.
  Proof.
    intros H0 H. assert (Hi : mcounted s0) by (destruct H0 as [->| ->]; intros t; reflexivity). clear H0.
    assert (Hs : mcounted s) by (induction H; eauto using mstep_regs). clear Hi H. intros Hp. apply registry_facts.
    destruct s as [y|d p'|s]; cbn [mcounted] in Hs; [rewrite Hp in Hs|subst p'|subst p]; exact Hs.
  Qed.
End pipelined.
(** A reader is open and another one registered when a batch is committed: nothing can be used again.  The second has to start again, and the first is closed: three pages can,
    although the call of the second goes on. *)
Definition r_script : list act := x_batch [xr1; xr2] 3 ++ [ADone] ++ x_reader 0 ++ [ACall 1; AObs 1; ASeen 1; AReg 1] ++ x_batch [xr3; xr4; xr5] 6 ++ [ADone].
Definition r_state (s : list act) (regs : list (N * nat)) (reus : list (N * N)) : Prop :=
  exists tr y p w, x_run tr y /\ y_proc y = Some p /\ p_writer p = WIdle /\ p_readers p <> ∅ /\ map_to_list (p_regs p) = regs /\
    mvcc_writer (fetch 16 (p_cache p) (y_disk y)) (reg_min (p_regs p)) (latest p).2 = (Ok tt, w) /\ w_reusable w = reus /\ option_map fst (x_exec s) = Some tr.
Lemma r_state_found s regs reus : match x_exec s with
  | Some (_, Sys d (Some p)) => match p_writer p with WIdle => true | _ => false end && negb (bool_decide (map_to_list (p_readers p) = [])) && bool_decide (map_to_list (p_regs p) = regs) &&
      match mvcc_writer (fetch 16 (p_cache p) d) (reg_min (p_regs p)) (latest p).2 with (Ok tt, w) => bool_decide (w_reusable w = reus) | _ => false end
  | _ => false end = true -> r_state s regs reus.
Proof.
  destruct (x_exec s) as [[tr [d [p|]]]|] eqn:E; try discriminate. intros H. rewrite !andb_true_iff in H. destruct H as (((H1 & H2) & H3) & H4). apply bool_decide_eq_true in H3. apply negb_true_iff, bool_decide_eq_false in H2.
  destruct (mvcc_writer _ _ _) as [[[]|] w] eqn:Ew; [|discriminate]. apply bool_decide_eq_true in H4. exists tr, (Sys d (Some p)), p, w. split; [now apply (x_ran s)|]. split; [reflexivity|].
  split; [destruct (p_writer p); [reflexivity|discriminate..]|]. split; [intros E0; apply H2; rewrite E0; apply map_to_list_empty|]. split; [exact H3|]. split; [exact Ew|]. split; [exact H4|]. now rewrite E.
Qed.
Example reuse_example : r_state r_script [(1, 2%nat)] [] /\ r_state (r_script ++ [AChk 1; AReady 1]) [(1, 1%nat)] [] /\ r_state (r_script ++ [AChk 1; AReady 1; AClose 0]) [] [(5, 2); (6, 2); (7, 2)].
Proof. split; [|split]; apply r_state_found; vm_compute; reflexivity. Qed.
(** The pipelining thread starts while a reader is being opened. *)
Example registry_pipelined_example : exists tr s, msteps 16 4096 x_hash (fun l => l) (fun s => elements s) false (fun _ _ => True) (pipelined_new 4096) tr (MP s) /\ map_to_list (p_regs (s_proc s)) = [(h_tsn init_header, 1%nat)] /\ reads_at (s_proc s) 0 (h_tsn init_header).
Proof.
  set (q := Proc (0, init_header) (1, init_header) ∅ ∅ ∅ WIdle).
  set (q1 := set_reader 0 RCall q). set (q2 := set_reader 0 (RObs (p_pin0 q1)) q1). set (a := latest_of (p_pin0 q1) (p_pin1 q2)).
  set (q3 := set_reader 0 (RSeen a) q2). set (p := set_regs (reg_register (h_tsn a.2) (p_regs q3)) (set_reader 0 (RReg a) q3)).
  destruct (mvcc_writer (fetch 16 (p_cache p) (init_disk 16 4096)) (reg_min (p_regs p)) (latest p).2) as [[[]|e] w] eqn:E; [|vm_compute in E; discriminate E].
  exists ((((([] ++ [LCall 0]) ++ [LTau]) ++ [LTau]) ++ [LTau]) ++ [LTau]), (PSys (init_disk 16 4096) p (Pipe w (latest p) ∅ PFetch None)). split.
  - eapply msteps_snoc; [eapply msteps_snoc; [eapply msteps_snoc; [eapply msteps_snoc; [eapply msteps_snoc; [apply msteps_nil| |exact I]| |exact I]| |exact I]| |exact I]| |exact I].
    + eapply (M_read _ _ _ _ _ _ _ q _ q1); [apply (S_call _ _ _ _ _ _ _ q 0%nat); reflexivity|reflexivity|reflexivity].
    + eapply (M_read _ _ _ _ _ _ _ q1 _ q2); [apply (S_obs _ _ _ _ _ _ _ q1 0%nat); reflexivity|reflexivity|reflexivity].
    + eapply (M_read _ _ _ _ _ _ _ q2 _ q3); [apply (S_seen _ _ _ _ _ _ _ q2 0%nat); reflexivity|reflexivity|reflexivity].
    + eapply (M_read _ _ _ _ _ _ _ q3 _ p); [apply (S_reg _ _ _ _ _ _ _ q3 0%nat); reflexivity|reflexivity|reflexivity].
    + apply M_start. split; [reflexivity|]. exists w. split; [exact E|reflexivity].
  - split; [reflexivity|]. exists a. split; [reflexivity|]. right. left. reflexivity.
Qed.
Print Assumptions registry_exact.
Print Assumptions registry_exact_pipelined.
Print Assumptions reusable_exact.
Print Assumptions reusable_when_closed.
