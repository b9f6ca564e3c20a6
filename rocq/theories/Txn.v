(** Write transactions: from one committed state to the next. *)
From Verif Require Export AppendProofs FreeFind Mvcc.
From Verif Require Import EventsProofs TrackingProofs ReadProofs Fits FitsSim.
Local Open Scope N_scope.

(** A committed state: the header, the pages of the four trees, the free list, and what is stored. *)
Record snap := Snap {
  sn_hdr : header; sn_PF : list N; sn_PE : list N; sn_PT : list N; sn_PK : list N;
  sn_es : list flent; sn_st : spec_state }.
Definition sn_live (sn : snap) : list N := sn_PF sn ++ sn_PE sn ++ sn_PT sn ++ sn_PK sn.

Record snap_ok (kw : nat) (ps : N) (hash : bytes -> bytes) (get : N -> option node) (sn : snap) : Prop := {
  so_hist : hist_rep kw ps hash get (h_events_root (sn_hdr sn)) (h_tags_root (sn_hdr sn)) (sn_PE sn) (sn_PT sn) (s_hist (sn_st sn));
  so_trk : exists es, trkrep get (h_tracking_root (sn_hdr sn)) (sn_PK sn) es /\ forall x, s_track (sn_st sn) x = alookup x es;
  so_fl : flrep get (h_tsn (sn_hdr sn)) (h_free_root (sn_hdr sn)) (sn_PF sn) (sn_es sn);
  so_seq : map fst (s_hist (sn_st sn)) = seqN 1 (length (s_hist (sn_st sn)));
  so_pos : h_next_pos (sn_hdr sn) = 1 + nlen (s_hist (sn_st sn));
  so_two : 2 <= h_next_page (sn_hdr sn);
  so_cover : sn_live sn ++ map fst (pairs (sn_es sn)) ≡ₚ seqN 2 (N.to_nat (h_next_page (sn_hdr sn) - 2));
  so_fit : forall q n, q ∈ sn_live sn -> get q = Some n -> fit kw ps n }.

Definition rget (rd : snapshot) (q : N) : option node := match rd q with Ok n => Some n | Err _ => None end.

Lemma hist_rep_frame kw ps hash get get' er tr PE PT h :
  hist_rep kw ps hash get er tr PE PT h -> (forall q, q ∈ PE ++ PT -> get' q = get q) -> hist_rep kw ps hash get' er tr PE PT h.
Proof.
  intros [(h1 & ts1 & S1 & H1) (h2 & ts2 & S2 & H2)] Hg. split.
  - exists h1, ts1. split; [|exact H1]. eapply shape_frame; [exact (evleaf_frame 1024 ltac:(unfold ps_ok; lia))|exact S1|]. intros q Hq. apply Hg. set_solver.
  - exists h2, ts2. split; [|exact H2]. eapply shape_frame; [apply tagsleaf_frame|exact S2|]. intros q Hq. apply Hg. set_solver.
Qed.
Lemma snap_frame kw ps hash get get' sn :
  snap_ok kw ps hash get sn -> (forall q, q ∈ sn_live sn -> get' q = get q) -> snap_ok kw ps hash get' sn.
Proof.
  intros [S1 (es & S2 & S2') S3 S4 S5 S6 S7 S8] Hg. constructor; auto; [| | |intros q n Hq; rewrite Hg by exact Hq; now apply S8]; unfold sn_live in Hg.
  - eapply hist_rep_frame; [exact S1|]. intros q Hq. apply Hg. set_solver.
  - exists es. split; [|exact S2']. eapply trkrep_frame; [exact S2|]. intros q Hq. apply Hg. set_solver.
  - eapply flrep_frame; [exact S3|]. intros q Hq. apply Hg. set_solver.
Qed.

(** Pages live in a snapshot are in the range of the file and not on its free list. *)
Lemma snap_range kw ps hash get sn q : snap_ok kw ps hash get sn ->
  q ∈ sn_live sn ++ map fst (pairs (sn_es sn)) <-> 2 <= q < h_next_page (sn_hdr sn).
Proof. intros H. pose proof (so_two _ _ _ _ _ H). rewrite (so_cover _ _ _ _ _ H), elem_of_seqN. lia. Qed.
Lemma snap_nodup kw ps hash get sn : snap_ok kw ps hash get sn -> NoDup (sn_live sn ++ map fst (pairs (sn_es sn))).
Proof. intros H. rewrite (so_cover _ _ _ _ _ H). apply seqN_NoDup. Qed.
Lemma snap_disj kw ps hash get sn q t : snap_ok kw ps hash get sn -> q ∈ sn_live sn -> (q, t) ∉ pairs (sn_es sn).
Proof.
  intros H Hq Hp. apply snap_nodup in H. apply NoDup_app in H as (_ & H & _). apply (H q Hq).
  apply elem_of_list_fmap. exists (q, t). auto.
Qed.
Lemma snap_one kw ps hash get sn q t t' : snap_ok kw ps hash get sn -> (q, t) ∈ pairs (sn_es sn) -> (q, t') ∈ pairs (sn_es sn) -> t = t'.
Proof.
  intros H H1 H2. apply snap_nodup in H. apply NoDup_app in H as (_ & _ & H).
  revert H H1 H2. generalize (pairs (sn_es sn)). induction l as [|[p u] l IH]; [set_solver|]. cbn [map fst]. intros Hn. apply NoDup_cons in Hn as [Hn1 Hn2].
  rewrite !elem_of_cons. intros [[= -> ->]|H1] [[= -> ]|H2]; auto.
  - exfalso. apply Hn1. apply elem_of_list_fmap. now exists (p, t').
  - subst. exfalso. apply Hn1. apply elem_of_list_fmap. now exists (p, t).
Qed.
Lemma snap_le kw ps hash get sn q t : snap_ok kw ps hash get sn -> (q, t) ∈ pairs (sn_es sn) -> t <= h_tsn (sn_hdr sn).
Proof.
  intros H Hp. destruct (so_fl _ _ _ _ _ H) as (h & ts & _ & Ee & _ & Hb). apply pairs_in in Hp as (ids & Pv & He & _). rewrite <- Ee in He.
  apply elem_toks_es in He. apply Hb in He. exact He.
Qed.

(** The pages a transaction may write: those past the end of the file, and those old enough on the free list. *)
Definition fresh (sn : snap) (sm : option N) (q : N) : Prop :=
  (exists t, (q, t) ∈ pairs (sn_es sn) /\ old_enough sm t) \/ h_next_page (sn_hdr sn) <= q.
Lemma fresh_live kw ps hash get sn sm q : snap_ok kw ps hash get sn -> q ∈ sn_live sn -> ~ fresh sn sm q.
Proof.
  intros H Hq [(t & Ht & _)|Hn]; [exact (snap_disj _ _ _ _ _ _ _ H Hq Ht)|].
  assert (2 <= q < h_next_page (sn_hdr sn)) by (apply (snap_range _ _ _ _ _ q H); set_solver). lia.
Qed.

Section txn.
  Context (kw : nat) (ps : N) (hash : bytes -> bytes) (order : list bytes -> list bytes) (ford : gset N -> list N).
  Context (Hps : ps_ok ps) (Hkw : (kw <= 16)%nat) (Hord : forall l t, t ∈ order l <-> t ∈ l) (Hford : forall s, ford s ≡ₚ elements s).
  Notation snap_ok := (snap_ok kw ps hash).
  Notation req_wf := Mvcc.req_wf.

  Definition T (sn : snap) (sm : option N) (t : N) : Prop := old_enough sm t /\ t <= h_tsn (sn_hdr sn).
  Definition kept_pairs (sn : snap) (sm : option N) : list (N * N) := pairs (filter (fun e => ~ old_enough sm e.1) (sn_es sn)).

  (** A transaction under way: [s] is what it has made of the state so far. *)
  Record tinv (rd : snapshot) (sn : snap) (sm : option N) (w : writer) (PE PT PK : list N) (s : spec_state) : Prop := {
    ti_db : dbrep rd kw ps hash w PE PT PK (sn_PF sn ++ map fst (kept_pairs sn sm)) s;
    ti_p : pinv rd (T sn sm) (fresh sn sm) (fun q => q ∈ sn_live sn) w (sn_PF sn) (PE ++ PT ++ PK) [] (sn_es sn) (kept_pairs sn sm);
    ti_tsn : w_tsn w = h_tsn (sn_hdr sn) + 1;
    ti_live : forall q n, q ∈ sn_live sn -> rd q = Ok n -> fit kw ps n;
    ti_fit : forall q n, w_dirty w !! q = Some n -> fit kw ps n }.

  Lemma pairs_split sm es : pairs es ≡ₚ pairs (filter (fun e => ~ old_enough sm e.1) es) ++ pairs (filter (fun e => old_enough sm e.1) es).
  Proof.
    induction es as [|[t [ids Pv]] es IH]; [reflexivity|]. rewrite pairs_cons, !filter_cons. cbn [fst].
    destruct (decide (old_enough sm t)) as [H|H].
    - rewrite decide_False by tauto. rewrite pairs_cons, IH. solve_Permutation.
    - rewrite decide_True by tauto. rewrite pairs_cons, IH. solve_Permutation.
  Qed.

  Lemma begin_ok rd sn sm : snap_ok (rget rd) sn ->
    exists w, mvcc_writer rd sm (sn_hdr sn) = (Ok tt, w) /\ tinv rd sn sm w (sn_PE sn) (sn_PT sn) (sn_PK sn) (sn_st sn).
  Proof.
    intros H. unfold mvcc_writer. set (w0 := new_writer (sn_hdr sn)).
    pose proof H as [S1 S2 S3 S4 S5 S6 S7 S8].
    assert (Hc0 : coh rd w0) by (intros p n Hp; cbn in Hp; rewrite lookup_empty in Hp; discriminate).
    assert (Hv0 : forall q, vget rd w0 q = rget rd q) by (intros q; unfold vget, w0; cbn; rewrite lookup_empty; reflexivity).
    assert (Hp0 : pool_ok w0 (sn_PF sn ++ (sn_PE sn ++ sn_PT sn ++ sn_PK sn) ++ map fst (pairs (sn_es sn)))).
    { eapply (cover_pool w0 _ _ _); [|rewrite app_assoc; reflexivity|].
      - split; [exact S6|]. unfold w0. cbn. rewrite elements_empty. cbn. rewrite app_nil_r, <- S7. unfold sn_live. solve_Permutation.
      - intros q [n Hq]. cbn in Hq. rewrite lookup_empty in Hq. discriminate. }
    assert (Hfl0 : flrep (vget rd w0) (h_tsn (sn_hdr sn)) (w_free_root w0) (sn_PF sn) (sn_es sn)).
    { eapply flrep_frame; [exact S3|]. intros q _. apply Hv0. }
    destruct (find_reusable_ok rd sm w0 _ _ _ _ Hc0 Hp0 Hfl0) as (w1 & l & E & Hs & Hc1 & Hl & Hld).
    exists (set_reusable l w1). split; [exact E|].
    assert (Hv1 : forall q, vget rd (set_reusable l w1) q = rget rd q).
    { intros q. rewrite <- Hv0. change (vget rd (set_reusable l w1) q) with (vget rd w1 q). now apply sim_view. }
    assert (Hcov : cover (set_reusable l w1) (sn_PF sn ++ (sn_PE sn ++ sn_PT sn ++ sn_PK sn) ++ [] ++ map fst (kept_pairs sn sm))).
    { destruct Hs as [-> _]. split; [exact S6|]. cbn. rewrite elements_empty. cbn. rewrite <- S7, Hl.
      rewrite (pairs_split sm (sn_es sn)), map_app. unfold kept_pairs, sn_live. solve_Permutation. }
    assert (Hd : forall q, w_dirty (set_reusable l w1) !! q = None) by (destruct Hs as [-> _]; intros q; cbn; apply lookup_empty).
    assert (Htsn : w_tsn (set_reusable l w1) = h_tsn (sn_hdr sn) + 1) by (destruct Hs as [-> _]; reflexivity).
    constructor; [| |exact Htsn|intros q n Hq E'; apply (S8 q); [exact Hq|unfold rget; now rewrite E']|intros q n Hq; rewrite Hd in Hq; discriminate].
    - constructor.
      + exact Hc1.
      + eapply pool_ok_perm; [|eapply (cover_pool _ _ []); [exact Hcov|reflexivity|]].
        * cbn [app]. solve_Permutation.
        * intros q [n Hq]. rewrite Hd in Hq. discriminate.
      + assert (w_events_root (set_reusable l w1) = h_events_root (sn_hdr sn)) as -> by (destruct Hs as [-> _]; reflexivity).
        assert (w_tags_root (set_reusable l w1) = h_tags_root (sn_hdr sn)) as -> by (destruct Hs as [-> _]; reflexivity).
        eapply hist_rep_frame; [exact S1|]. intros q _. apply (Hv1 q).
      + destruct S2 as (es & Hk & Ht). exists es. split; [|exact Ht].
        assert (w_tracking_root (set_reusable l w1) = h_tracking_root (sn_hdr sn)) as -> by (destruct Hs as [-> _]; reflexivity). eapply trkrep_frame; [exact Hk|]. intros q _. apply (Hv1 q).
      + exact S4.
      + destruct Hs as [-> _]. exact S5.
    - constructor.
      + exact Hc1.
      + exact Hcov.
      + intros q [n Hq]. rewrite Hd in Hq. discriminate.
      + assert (w_free_root (set_reusable l w1) = h_free_root (sn_hdr sn)) as -> by (destruct Hs as [-> _]; reflexivity).
        rewrite Htsn. destruct S3 as (h & ts & F1 & F2 & F3 & F4). exists h, ts. split; [|split; [exact F2|split; [exact F3|]]].
        * eapply shape_frame; [apply flleaf_frame|exact F1|]. intros q _. apply Hv1.
        * intros t Ht. specialize (F4 t Ht). lia.
      + assert (w_reused (set_reusable l w1) = []) as -> by (destruct Hs as [-> _]; reflexivity). cbn [w_reusable set_reusable].
        rewrite Hl, app_nil_r. apply pairs_split.
      + assert (w_reused (set_reusable l w1) = []) as -> by (destruct Hs as [-> _]; reflexivity). cbn [w_reusable set_reusable].
        rewrite app_nil_r. intros p t Hin. rewrite Hl in Hin. apply pairs_in in Hin as (ids & Pv & He & Hi).
        apply elem_of_list_filter in He as [Ho He]. split; [exact Ho|]. eapply snap_le; [exact H|]. apply pairs_in. eauto.
      + rewrite Htsn. intros t [_ Ht]. lia.
      + rewrite Htsn. intros ids Pv He q Hq. destruct S3 as (h & ts & _ & Ee & _ & Hb). rewrite <- Ee in He. apply elem_toks_es in He. apply Hb in He. cbn in He. lia.
      + intros t ids Pv He [Ho _] q Hq. change (loaded w1 q). eapply Hld; eassumption.
      + intros q [n Hq]. rewrite Hd in Hq. discriminate.
      + cbn [w_reusable set_reusable]. intros q Hq. rewrite Hl in Hq. apply elem_of_list_fmap in Hq as ([q' t] & -> & Hin). left. exists t.
        apply pairs_in in Hin as (ids & Pv & He & Hi). apply elem_of_list_filter in He as [Ho He]. split; [|exact Ho]. apply pairs_in. eauto.
      + intros q Hq. right. assert (w_next_page (set_reusable l w1) = h_next_page (sn_hdr sn)) as En by (destruct Hs as [-> _]; reflexivity). now rewrite <- En.
      + intros q Hq. right. unfold sn_live. exact Hq.
  Qed.

  Lemma macc_wacc rd P w P' w' : macc rd P w P' w' -> wacc rd P (strip w) P' (strip w').
  Proof. apply wacc_of_acc. Qed.

  (** What a request does to the page account. *)
  Lemma pinv_macc rd T Fr Sr w PF Q es O Q' w' : macc rd Q w Q' w' ->
    pinv rd T Fr Sr w PF Q [] es O -> pinv rd T Fr Sr w' PF Q' [] es O.
  Proof.
    intros A H. pose proof (pinv_pool _ _ _ _ _ _ _ _ _ _ H) as Hp. pose proof H as [I1 I2 I3 I4 I5 I6 I7 I8 I9 F1 F2 F3 F4].
    pose proof A as (po & k & fn & Aa). pose proof (acc_by_wacc rd _ _ _ _ _ _ _ (w_free_root (strip w')) Aa) as Aw.
    replace (set_free_root (w_free_root (strip w')) (strip w')) with (strip w') in Aw by (now destruct w').
    assert (Hpq : pool_ok (strip w) (Q ++ PF ++ [] ++ map fst O)).
    { apply strip_pool. eapply pool_ok_perm; [|exact Hp]. cbn [app]. solve_Permutation. }
    assert (Hpq' : pool_ok (strip w') (Q' ++ PF ++ [] ++ map fst O)) by (eapply wa_pool; [exact Aw|exact Hpq]).
    assert (Htsn : w_tsn w' = w_tsn w) by exact (wa_tsn _ _ _ _ _ _ _ _ Aw).
    assert (Hfr : w_free_root w' = w_free_root w) by exact (acc_froot _ _ _ _ _ _ _ _ Aa).
    assert (Hreus : w_reusable w = po ++ w_reusable w') by exact (wa_reusable _ _ _ _ _ _ _ _ Aw).
    assert (Hreu : w_reused w' = w_reused w ++ po) by exact (wa_reused _ _ _ _ _ _ _ _ Aw).
    assert (Hk : forall q, q ∈ PF -> w_dirty w' !! q = w_dirty w !! q).
    { intros q Hq. apply (wacc_dirty rd Q (strip w) Q' (strip w') (PF ++ [] ++ map fst O)); [exists po, k, fn; exact Aw|exact Hpq|apply elem_of_app; now left]. }
    assert (Hv : forall q, q ∈ PF -> vget rd w' q = vget rd w q) by (intros q Hq; unfold vget; now rewrite Hk).
    destruct (fr_step rd ps Hps T Fr Sr _ _ _ _ _ _ _ Aw) as (G1 & G2 & G3); auto.
    constructor; auto.
    - apply (wa_coh _ _ _ _ _ _ _ _ Aw). exact I1.
    - eapply cover_perm; [|eapply (cover_step rd Q (strip w) Q' (strip w')); [exact Aw|eapply cover_perm; [|exact I2]]].
      + instantiate (1 := PF ++ map fst O). cbn [app]. solve_Permutation.
      + cbn [app]. solve_Permutation.
    - intros q Hq. pose proof (po_dirty _ _ Hpq' q Hq) as Hd'. cbn [app] in Hd'.
      destruct (wa_dom _ _ _ _ _ _ _ _ Aw q Hq) as [Hd|Hd].
      + specialize (I3 q Hd). pose proof (po_nodup _ _ Hpq) as Hn. apply NoDup_app in Hn as [Hn _]. cbn [app] in Hn.
        apply NoDup_app in Hn as (_ & Hn1 & Hn2). apply NoDup_app in Hn2 as (_ & Hn2 & _).
        rewrite !elem_of_app in Hd'. rewrite elem_of_app in I3. rewrite elem_of_app. destruct Hd' as [Hd'|[Hd'|Hd']]; auto. exfalso.
        destruct I3 as [I3|I3]; [exact (Hn2 q I3 Hd')|]. apply (Hn1 q I3). apply elem_of_app; now right.
      + rewrite !elem_of_app in Hd'. rewrite elem_of_app. destruct Hd' as [Hd'|[Hd'|Hd']]; auto. exfalso.
        apply (wacc_fresh_notin rd Q (strip w) Q' (strip w') po k fn (PF ++ [] ++ map fst O) q Aw Hpq); [apply elem_of_app; right; apply elem_of_app; right; exact Hd'|exact Hd].
    - rewrite Htsn, Hfr. eapply flrep_frame; [exact I4|exact Hv].
    - rewrite Hreu, I5, Hreus. solve_Permutation.
    - intros p t' Hp1. apply (I6 p). rewrite Hreus. rewrite Hreu in Hp1. set_solver.
    - intros t' Ht'. rewrite Htsn. now apply I7.
    - rewrite Htsn. intros ids Pv He q Hq. rewrite Hk; [now apply (I8 ids Pv)|]. eapply flrep_pages; [exact I4|exact He|exact Hq].
    - intros t ids Pv He HT q Hq. apply (wacc_loaded rd Q (strip w) Q' (strip w') (PF ++ [] ++ map fst O)); [exists po, k, fn; exact Aw|exact Hpq| |].
      + apply elem_of_app. right. apply elem_of_app. left. eapply flrep_pages; [exact I4|exact He|exact Hq].
      + exact (I9 t ids Pv He HT q Hq).
    - intros q Hq. eapply (src_step rd ps Hps T Fr Sr Q (strip w) Q' (strip w') _ _ _ PF ([] ++ map fst O)); [exact Aw|exact Hpq| |].
      + intros q' Hq'. apply F4. rewrite elem_of_app in Hq' |- *. tauto.
      + rewrite elem_of_app in Hq |- *. tauto.
  Qed.

  (** ** The pages fit *)
  Definition mask (rd : snapshot) (q : N) : res node :=
    match rd q with Ok n => if decide (fit kw ps n) then Ok n else Err EIo | Err e => Err e end.
  Definition trim (w : writer) : writer := set_deser (filter (fun kv => fit kw ps kv.2) (w_deser w)) w.
  Lemma mask_sub rd q n : mask rd q = Ok n -> rd q = Ok n /\ fit kw ps n.
  Proof. unfold mask. destruct (rd q); [|discriminate]. destruct (decide _); [|discriminate]. intros [= <-]. auto. Qed.
  Lemma mask_ok rd q n : rd q = Ok n -> fit kw ps n -> mask rd q = Ok n.
  Proof. unfold mask. intros -> H. now rewrite decide_True. Qed.
  Lemma trim_lookup w q n : w_deser (trim w) !! q = Some n <-> w_deser w !! q = Some n /\ fit kw ps n.
  Proof. cbn. rewrite map_filter_lookup_Some. reflexivity. Qed.
  Lemma trim_sim rd w : coh rd w -> lsim rd (trim w) w.
  Proof. intros Hc. split; [|exact Hc]. eexists. split; [reflexivity|]. intros q n Hq. apply trim_lookup in Hq. tauto. Qed.
  Lemma mask_view rd sn w q : (forall q n, q ∈ sn_live sn -> rd q = Ok n -> fit kw ps n) -> is_Some (w_dirty w !! q) \/ q ∈ sn_live sn ->
    vget (mask rd) (trim w) q = vget rd w q.
  Proof.
    intros Hl Hq. unfold vget. cbn. destruct (w_dirty w !! q) eqn:E; [reflexivity|]. destruct Hq as [[? Hq]|Hq]; [discriminate|].
    destruct (rd q) as [n|e] eqn:Er; unfold mask; rewrite Er; [|reflexivity]. rewrite decide_True; [reflexivity|eauto].
  Qed.
  Lemma tinv_mask rd sn sm w PE PT PK s : tinv rd sn sm w PE PT PK s -> tinv (mask rd) sn sm (trim w) PE PT PK s.
  Proof.
    intros [[D1 D2 D3 (es & D4 & D4') D5 D6] [I1 I2 I3 I4 I5 I6 I7 I8 I9 F1 F2 F3 F4] H3 H4 H5].
    assert (Hv : forall q, q ∈ sn_PF sn ++ PE ++ PT ++ PK -> vget (mask rd) (trim w) q = vget rd w q).
    { intros q Hq. apply (mask_view rd sn); [exact H4|]. now apply F4. }
    assert (Hc : coh (mask rd) (trim w)). { intros q n Hq. apply trim_lookup in Hq as [Hq Hf]. apply mask_ok; auto. }
    constructor; [| |exact H3| |exact H5].
    - constructor; auto.
      + destruct D2. now constructor.
      + eapply hist_rep_frame; [exact D3|]. intros q Hq. apply Hv. set_solver.
      + exists es. split; [|exact D4']. eapply trkrep_frame; [exact D4|]. intros q Hq. apply Hv. set_solver.
    - constructor; auto.
      + eapply flrep_frame; [exact I4|]. intros q Hq. apply Hv. set_solver.
      + intros t ids Pv He HT q Hq. destruct (I9 t ids Pv He HT q Hq) as [Hd|[n Hd]]; [now left|].
        destruct (F4 q) as [Hs|Hs]; [apply elem_of_app; left; exact (flrep_pages _ _ _ _ _ (t, (ids, Pv)) I4 He q Hq)|now left|].
        right. exists n. apply trim_lookup. split; [exact Hd|]. apply (H4 q); [exact Hs|]. now apply I1.
    - intros q n Hq E. apply mask_sub in E. tauto.
  Qed.
  Lemma trim_wfit rd sn sm w PE PT PK s : tinv rd sn sm w PE PT PK s -> wfit kw ps (trim w).
  Proof. intros H. split; [exact (ti_fit _ _ _ _ _ _ _ _ H)|]. intros q n Hq. apply trim_lookup in Hq. tauto. Qed.

  Lemma request_none rd c evs cond trk w r w' : process_append_request rd kw ps hash order c evs cond trk w = (r, w') ->
    w' = w \/ process_append_request rd kw ps hash order c evs None trk w = (r, w').
  Proof.
    unfold process_append_request. set (m := check_condition rd hash order c evs cond). intros E.
    assert (Hm : exists r0, m w = (r0, w)).
    { unfold m, check_condition. destruct cond as [cd|]; [|eexists; reflexivity]. unfold wbind at 1, read_dirty at 1.
      match goal with |- context [with_cancel ?a ?b] => destruct (with_cancel a b) as [[|e0 l]|e] end; [eexists; reflexivity| |eexists; reflexivity].
      unfold wbind at 1, is_request_idempotent. destruct (_ && _); [|eexists; reflexivity]. unfold wbind at 1, read_dirty.
      match goal with |- context [with_cancel ?a ?b] => destruct (with_cancel a b) as [fd|e] end; [|eexists; reflexivity].
      destruct (_ =? _); [|eexists; reflexivity]. destruct (last fd); [|eexists; reflexivity]. cbn [ret]. destruct (decide _); eexists; reflexivity. }
    destruct Hm as [[[p|]|e] Hm]; unfold wbind at 1 in E; rewrite Hm in E.
    - left. now injection E as _ <-.
    - right. exact E.
    - left. now injection E as _ <-.
  Qed.
  Lemma request_fit rd sn sm w PE PT PK s r x w' : tinv rd sn sm w PE PT PK s -> req_wf w r ->
    process_append_request rd kw ps hash order (false, false) (rq_events r) (rq_cond r) (rq_trk r) w = (x, w') ->
    forall q n, w_dirty w' !! q = Some n -> fit kw ps n.
  Proof.
    intros H (R1 & R2 & R3 & R4 & R5) E. apply request_none in E as [->|E]; [exact (ti_fit _ _ _ _ _ _ _ _ H)|].
    assert (Hro : request_ok s (rq_events r) None (rq_trk r)).
    { constructor; auto; try discriminate. rewrite (db_next _ _ _ _ _ _ _ _ _ _ (ti_db _ _ _ _ _ _ _ _ H)) in R5. exact R5. }
    destruct (process_append_ok rd kw ps hash order Hps Hkw Hord w PE PT PK _ s _ None _ (ti_db _ _ _ _ _ _ _ _ H) Hro) as (w2 & _ & _ & _ & E2 & _ & _ & Hsim).
    rewrite E in E2. apply pair_equal_spec in E2 as [-> <-].
    pose proof (tinv_mask _ _ _ _ _ _ _ _ H) as Hm.
    destruct (process_append_ok (mask rd) kw ps hash order Hps Hkw Hord (trim w) PE PT PK _ s _ None _ (ti_db _ _ _ _ _ _ _ _ Hm) Hro) as (w3 & _ & _ & _ & E3 & _ & _ & _).
    destruct (spec_append ps s (rq_events r) None (rq_trk r)) as [[p|e] s'] eqn:Es; cbn [fst snd] in *.
    - destruct (msim_request (mask rd) rd (fun q n Hq => proj1 (mask_sub _ _ _ Hq)) kw ps hash order _ _ _ _ _ _ _ (trim_sim rd w (db_coh _ _ _ _ _ _ _ _ _ _ (ti_db _ _ _ _ _ _ _ _ H))) E3) as (w4 & E4 & [(d & Ed & _) _]).
      rewrite E in E4. injection E4 as <-.
      destruct (keeps_request kw ps Hps Hkw (mask rd) (fun q n Hq => proj2 (mask_sub _ _ _ Hq)) hash order _ _ _ _ _ (trim_wfit _ _ _ _ _ _ _ _ H) E3) as [[Hk _] _].
      intros q n Hq. apply (Hk q). rewrite Ed. exact Hq.
    - assert (s' = s) as ->.
      { revert Es. unfold spec_append. cbv zeta. destruct (decide _); [destruct (spec_track _ _)|]; intros Es; try discriminate Es; now injection Es. }
      destruct (Hsim eq_refl) as [Hs _]; [right; discriminate|]. intros q n Hq. apply (ti_fit _ _ _ _ _ _ _ _ H q). rewrite Hs in Hq. exact Hq.
  Qed.

  Lemma request_step rd sn sm w PE PT PK s r : tinv rd sn sm w PE PT PK s -> req_wf w r ->
    exists w' PE' PT' PK', 
      process_append_request rd kw ps hash order (false, false) (rq_events r) (rq_cond r) (rq_trk r) w =
        ((spec_append ps s (rq_events r) (rq_cond r) (rq_trk r)).1, w') /\
      tinv rd sn sm w' PE' PT' PK' (spec_append ps s (rq_events r) (rq_cond r) (rq_trk r)).2.
  Proof.
    intros H (R1 & R2 & R3 & R4 & R5).
    pose proof H as [H1 H2 H3 H4 H5].
    destruct (process_append_ok rd kw ps hash order Hps Hkw Hord w PE PT PK _ s (rq_events r) (rq_cond r) (rq_trk r) H1) as (w' & PE' & PT' & PK' & E & A & D & _).
    { constructor; auto. rewrite (db_next _ _ _ _ _ _ _ _ _ _ H1) in R5. exact R5. }
    exists w', PE', PT', PK'. split; [exact E|]. constructor; [exact D| | |exact H4|].
    - eapply pinv_macc; [exact A|exact H2].
    - destruct A as (po & k & fn & Aa). rewrite <- H3. exact (acc_tsn _ _ _ _ _ _ _ _ Aa).
    - eapply request_fit; [exact H|split; [exact R1|split; [exact R2|split; [exact R3|split; [exact R4|exact R5]]]]|exact E].
  Qed.

  Lemma commit_fit rd sn sm w PE PT PK s w' : tinv rd sn sm w PE PT PK s -> process_freed_page_ids rd kw ps ford w = (Ok tt, w') ->
    forall q n, w_dirty w' !! q = Some n -> fit kw ps n.
  Proof.
    intros H E. pose proof (tinv_mask _ _ _ _ _ _ _ _ H) as Hm.
    destruct (process_freed_ok (mask rd) kw ps Hps (T sn sm) (fresh sn sm) (fun q => q ∈ sn_live sn) ford Hford (trim w) _ _ _ _ (ti_p _ _ _ _ _ _ _ _ Hm)) as (w3 & _ & _ & _ & E3 & _).
    destruct (msim_process (mask rd) rd (fun q n Hq => proj1 (mask_sub _ _ _ Hq)) kw ps ford _ _ _ _ (trim_sim rd w (db_coh _ _ _ _ _ _ _ _ _ _ (ti_db _ _ _ _ _ _ _ _ H))) E3) as (w4 & E4 & [(d & Ed & _) _]).
    rewrite E in E4. injection E4 as <-.
    destruct (keeps_process kw ps Hps Hkw (mask rd) (fun q n Hq => proj2 (mask_sub _ _ _ Hq)) ford _ _ _ (trim_wfit _ _ _ _ _ _ _ _ H) E3) as [[Hk _] _].
    intros q n Hq. apply (Hk q). rewrite Ed. exact Hq.
  Qed.

  (** Committing. *)
  Lemma commit_ok rd sn sm w PE PT PK s schema : snap_ok (rget rd) sn -> tinv rd sn sm w PE PT PK s ->
    exists w' sn', process_freed_page_ids rd kw ps ford w = (Ok tt, w') /\
      sn_hdr sn' = next_header schema w' /\ sn_st sn' = s /\ snap_ok (vget rd w') sn' /\
      h_tsn (sn_hdr sn') = h_tsn (sn_hdr sn) + 1 /\
      (forall q, is_Some (w_dirty w' !! q) -> fresh sn sm q /\ q ∈ sn_live sn') /\
      (forall q, q ∈ sn_live sn' -> is_Some (w_dirty w' !! q) \/ q ∈ sn_live sn) /\
      (forall q, q ∈ sn_live sn -> q ∈ sn_live sn' \/ (q, h_tsn (sn_hdr sn')) ∈ pairs (sn_es sn')) /\
      (forall q t, (q, t) ∈ pairs (sn_es sn) -> ~ fresh sn sm q -> (q, t) ∈ pairs (sn_es sn')).
  Proof.
    intros Hsn H. pose proof H as [H1 H2 H3 H4 H5].
    destruct (process_freed_ok rd kw ps Hps (T sn sm) (fresh sn sm) (fun q => q ∈ sn_live sn) ford Hford w _ _ _ _ H2)
      as (w' & PF' & es' & fs & E & P & K & Hru & Hfr).
    pose proof (pinv_done _ _ _ _ _ _ _ _ _ P Hru Hfr) as Hcov.
    set (sn' := Snap (next_header schema w') PF' PE PT PK es' s).
    exists w', sn'. split; [exact E|]. split; [reflexivity|]. split; [reflexivity|].
    pose proof K as [K1 K2 K3 K4 K5 K6]. pose proof P as [I1 I2 I3 I4 I5 I6 I7 I8 I9 F1 F2 F3 F4].
    assert (Hok : snap_ok (vget rd w') sn').
    { destruct H1 as [D1 D2 D3 D4 D5 D6].
      assert (Hv : forall q, q ∈ PE ++ PT ++ PK -> vget rd w' q = vget rd w q) by (intros q Hq; unfold vget; now rewrite K1).
      constructor; cbn [sn' sn_hdr sn_PF sn_PE sn_PT sn_PK sn_es sn_st next_header h_events_root h_tags_root h_tracking_root h_free_root h_tsn h_next_pos h_next_page].
      - rewrite K4, K5. eapply hist_rep_frame; [exact D3|]. intros q Hq. apply Hv. set_solver.
      - destruct D4 as (es & D4 & D4'). exists es. split; [|exact D4']. rewrite K6. eapply trkrep_frame; [exact D4|]. intros q Hq. apply Hv. set_solver.
      - exact I4.
      - exact D5.
      - rewrite K3. exact D6.
      - exact (proj1 I2).
      - unfold sn_live. cbn. rewrite <- Hcov. solve_Permutation.
      - intros q n Hq Hg. unfold vget in Hg. destruct (w_dirty w' !! q) as [m|] eqn:Ed; [injection Hg as ->; exact (commit_fit _ _ _ _ _ _ _ _ _ H E _ _ Ed)|].
        destruct (F4 q Hq) as [[? Hd]|Hl]; [congruence|]. destruct (rd q) eqn:Er; [|discriminate]. injection Hg as ->. exact (H4 q n Hl Er). }
    split; [exact Hok|]. split; [cbn; rewrite K2; exact H3|].
    split; [intros q Hq; split; [exact (F1 q Hq)|exact (I3 q Hq)]|]. split; [intros q Hq; exact (F4 q Hq)|]. split.
    - intros q Hq. pose proof (fresh_live _ _ _ _ _ sm _ Hsn Hq) as Hnf.
      assert (Hr : q ∈ sn_live sn' ++ map fst (pairs es')).
      { apply (snap_range _ _ _ _ _ q Hok). cbn [sn' sn_hdr next_header h_next_page].
        assert (2 <= q < h_next_page (sn_hdr sn)) as Hq2 by (apply (snap_range _ _ _ _ _ q Hsn); set_solver).
        split; [lia|]. destruct (N.lt_ge_cases q (w_next_page w')) as [Hlt|Hge]; [exact Hlt|]. exfalso. apply Hnf. exact (F3 q Hge). }
      apply elem_of_app in Hr as [Hr|Hr]; [now left|]. right. apply elem_of_list_fmap in Hr as ([q' t] & Eq & Hr). cbn in Eq. subst q'.
      cbn [sn' sn_hdr next_header h_tsn sn_es]. pose proof Hr as Hr'. rewrite I5, Hru, app_nil_r in Hr'. rewrite !elem_of_app in Hr'.
      destruct Hr' as [[Hr'|Hr']|Hr'].
      + apply elem_of_list_In, in_map_iff in Hr' as (? & [= -> <-] & _). rewrite K2. exact Hr.
      + exfalso. eapply (snap_disj _ _ _ _ _ q t Hsn Hq). unfold kept_pairs in Hr'. apply pairs_in in Hr' as (ids & Pv & He & Hi). apply elem_of_list_filter in He as [_ He].
        apply pairs_in. eauto.
      + exfalso. apply Hnf. apply F2. apply elem_of_list_fmap. now exists (q, t).
    - intros q t Hq Hnf. cbn [sn' sn_es]. rewrite I5. apply elem_of_app; left. apply elem_of_app; right.
      rewrite (pairs_split sm) in Hq. apply elem_of_app in Hq as [Hq|Hq]; [exact Hq|]. exfalso. apply Hnf. left. exists t.
      apply pairs_in in Hq as (ids & Pv & He & Hi). apply elem_of_list_filter in He as [Ho He]. split; [apply pairs_in; eauto|exact Ho].
  Qed.
End txn.
