(** The page store seen by a write transaction, and page accounting. *)
From Verif Require Export CowTree.
From stdpp Require Import fin_sets.
Local Open Scope N_scope.

(** The page the transaction sees under an id. *)
Definition vget (rd : snapshot) (w : writer) (p : N) : option node :=
  match w_dirty w !! p with
  | Some n => Some n
  | None => match rd p with Ok n => Some n | Err _ => None end
  end.

Definition coh (rd : snapshot) (w : writer) : Prop :=
  forall p n, w_deser w !! p = Some n -> rd p = Ok n.

Definition loaded (w : writer) (p : N) : Prop := is_Some (w_dirty w !! p) \/ is_Some (w_deser w !! p).

Fixpoint seqN (a : N) (n : nat) : list N :=
  match n with O => [] | S n' => a :: seqN (a + 1) n' end.

Lemma elem_of_seqN a n x : x ∈ seqN a n <-> a <= x < a + N.of_nat n.
Proof.
  revert a; induction n as [|n IH]; intros a; cbn [seqN].
  - rewrite elem_of_nil. lia.
  - rewrite elem_of_cons, IH. lia.
Qed.
Lemma NoDup_seqN a n : NoDup (seqN a n).
Proof.
  revert a; induction n as [|n IH]; intros a; cbn [seqN]; constructor; [|apply IH].
  rewrite elem_of_seqN. lia.
Qed.
Lemma seqN_app a n m : seqN a (n + m) = seqN a n ++ seqN (a + N.of_nat n) m.
Proof.
  revert a; induction n as [|n IH]; intros a; cbn [seqN Nat.add app].
  - f_equal. lia.
  - rewrite IH. do 3 f_equal. lia.
Qed.

(** The ids a step may hand out are not in use. [P] is the list of all pages of the database
    (all trees) as the transaction sees it. *)
Record pool_ok (w : writer) (P : list N) : Prop := {
  po_nodup : NoDup (P ++ map fst (w_reusable w));
  po_lt : forall q, q ∈ P ++ map fst (w_reusable w) -> q < w_next_page w;
  po_min : forall q, q ∈ P ++ map fst (w_reusable w) -> 2 <= q;  (* not a header page *)
  po_next : 2 <= w_next_page w;
  po_freed_lt : forall q, q ∈ w_freed w -> q < w_next_page w;
  po_freed : forall q, q ∈ w_freed w -> q ∉ P ++ map fst (w_reusable w);
  po_dirty : forall q, is_Some (w_dirty w !! q) -> q ∈ P }.

(** [acc P w P' w']: the step from [w] to [w'] turned the page set [P] into [P'], taking the ids [fresh]
    from the pool and giving up the ids [fn]; nothing else changed. *)
Record acc_by (rd : snapshot) (P : list N) (w : writer) (P' : list N) (w' : writer)
    (popped : list (N * N)) (k : nat) (fn : list N) : Prop := {
  acc_reusable : w_reusable w = popped ++ w_reusable w';
  acc_reused : w_reused w' = w_reused w ++ popped;
  acc_next : w_next_page w' = w_next_page w + N.of_nat k;
  acc_perm : P' ++ fn ≡ₚ P ++ map fst popped ++ seqN (w_next_page w) k;
  acc_freed : w_freed w' = w_freed w ∪ list_to_set fn;
  acc_out : forall q, q ∉ P -> q ∉ map fst popped ++ seqN (w_next_page w) k -> w_dirty w' !! q = w_dirty w !! q;
  acc_pool : forall Q, pool_ok w (P ++ Q) -> pool_ok w' (P' ++ Q);
  acc_keep : forall q, is_Some (w_dirty w !! q) -> q ∉ fn -> is_Some (w_dirty w' !! q);
  acc_new : forall q, q ∈ map fst popped ++ seqN (w_next_page w) k -> q ∉ fn -> is_Some (w_dirty w' !! q);
  acc_dom : forall q, is_Some (w_dirty w' !! q) -> is_Some (w_dirty w !! q) \/ q ∈ map fst popped ++ seqN (w_next_page w) k;
  acc_loaded : forall q, loaded w q -> q ∉ fn -> loaded w' q;
  acc_coh : coh rd w -> coh rd w';
  acc_tsn : w_tsn w' = w_tsn w;
  acc_pos : w_next_pos w' = w_next_pos w;
  acc_froot : w_free_root w' = w_free_root w;
  acc_eroot : w_events_root w' = w_events_root w;
  acc_troot : w_tags_root w' = w_tags_root w;
  acc_kroot : w_tracking_root w' = w_tracking_root w;
  (* only pages not yet copied are given up *)
  acc_clean : forall Q, pool_ok w (P ++ Q) -> forall q, q ∈ fn ->
    w_dirty w !! q = None /\ q ∉ map fst popped ++ seqN (w_next_page w) k }.
Definition acc rd P w P' w' : Prop := exists popped k fn, acc_by rd P w P' w' popped k fn.

Lemma pool_ok_perm w P P' : P ≡ₚ P' -> pool_ok w P -> pool_ok w P'.
Proof.
  intros HP [H1 H2 Hm Hx H3 H4 H5]. constructor.
  - now rewrite <- HP.
  - intros q. rewrite <- HP. apply H2.
  - intros q. rewrite <- HP. apply Hm.
  - exact Hx.
  - exact H3.
  - intros q Hq. rewrite <- HP. now apply H4.
  - intros q Hq. rewrite <- HP. now apply H5.
Qed.

Section acc.
  Context (rd : snapshot).
  Implicit Types w : writer.

  (** Freed pages that are not dirty afterwards: the pool invariant is kept. *)
  Lemma acc_pool_intro P w P' w' popped k fn :
    w_reusable w = popped ++ w_reusable w' ->
    w_next_page w' = w_next_page w + N.of_nat k ->
    P' ++ fn ≡ₚ P ++ map fst popped ++ seqN (w_next_page w) k ->
    w_freed w' = w_freed w ∪ list_to_set fn ->
    (forall q, q ∈ fn -> w_dirty w' !! q = None) ->
    (forall q, is_Some (w_dirty w' !! q) -> is_Some (w_dirty w !! q) \/ q ∈ map fst popped ++ seqN (w_next_page w) k) ->
    forall Q, pool_ok w (P ++ Q) -> pool_ok w' (P' ++ Q).
  Proof.
    intros A1 A3 A4 A5 A7 A10 Q [H1 H2 Hm Hx H3 H4 H5].
    rewrite A1, map_app in H1, H2, H4, Hm.
    assert (HN : NoDup ((P' ++ Q) ++ map fst (w_reusable w') ++ fn)).
    { assert (NoDup (((P ++ Q) ++ map fst popped ++ map fst (w_reusable w')) ++ seqN (w_next_page w) k)) as HN.
      { apply NoDup_app. split; [exact H1|split; [|apply NoDup_seqN]].
        intros q Hq Hs. apply elem_of_seqN in Hs. apply H2 in Hq. lia. }
      assert (Hp : (P' ++ Q) ++ map fst (w_reusable w') ++ fn ≡ₚ
                   ((P ++ Q) ++ map fst popped ++ map fst (w_reusable w')) ++ seqN (w_next_page w) k).
      { transitivity ((P' ++ fn) ++ Q ++ map fst (w_reusable w')); [solve_Permutation|].
        rewrite A4. solve_Permutation. }
      now rewrite Hp. }
    assert (Hin : forall q, q ∈ P' ++ fn -> q ∈ P \/ q ∈ map fst popped \/ q ∈ seqN (w_next_page w) k).
    { intros q Hq. rewrite A4 in Hq. set_solver. }
    constructor.
    - rewrite app_assoc in HN. now apply NoDup_app in HN as [HN _].
    - intros q Hq. rewrite A3.
      assert (q ∈ P' \/ q ∈ Q ++ map fst (w_reusable w')) as [Hq1|Hq1] by set_solver.
      + destruct (Hin q) as [H|[H|H]]; [set_solver| | |apply elem_of_seqN in H; lia].
        * specialize (H2 q ltac:(set_solver)). lia.
        * specialize (H2 q ltac:(set_solver)). lia.
      + specialize (H2 q ltac:(set_solver)). lia.
    - intros q Hq.
      assert (q ∈ P' \/ q ∈ Q ++ map fst (w_reusable w')) as [Hq1|Hq1] by set_solver.
      + destruct (Hin q) as [H|[H|H]]; [set_solver| | |apply elem_of_seqN in H; lia].
        * apply Hm. set_solver.
        * apply Hm. set_solver.
      + apply Hm. set_solver.
    - lia.
    - intros q Hq. rewrite A5 in Hq. rewrite A3. apply elem_of_union in Hq as [Hq|Hq].
      + specialize (H3 q Hq). lia.
      + apply elem_of_list_to_set in Hq. destruct (Hin q) as [H|[H|H]]; [set_solver| | |apply elem_of_seqN in H; lia].
        * specialize (H2 q ltac:(set_solver)). lia.
        * specialize (H2 q ltac:(set_solver)). lia.
    - intros q Hq Hn. rewrite A5 in Hq. apply elem_of_union in Hq as [Hq|Hq].
      + specialize (H4 q Hq). specialize (H3 q Hq).
        assert (q ∈ P' \/ q ∈ Q ++ map fst (w_reusable w')) as [Hq1|Hq1] by set_solver.
        * destruct (Hin q) as [H|[H|H]]; [set_solver|set_solver|set_solver|apply elem_of_seqN in H; lia].
        * set_solver.
      + apply elem_of_list_to_set in Hq. rewrite app_assoc in HN. apply NoDup_app in HN as (_ & HN & _).
        exact (HN q Hn Hq).
    - intros q Hq. assert (q ∉ fn) as Hf. { intros Hf. rewrite (A7 q Hf) in Hq. now destruct Hq. }
      destruct (A10 q Hq) as [H|H].
      + apply H5 in H. assert (q ∈ P \/ q ∈ Q) as [H'|H'] by set_solver; [|set_solver].
        assert (q ∈ P' ++ fn) by (rewrite A4; set_solver). set_solver.
      + assert (q ∈ P' ++ fn) by (rewrite A4; set_solver). set_solver.
  Qed.

  Lemma acc_refl P w : acc rd P w P w.
  Proof.
    exists [], 0%nat, []. constructor; cbn [app map seqN]; auto.
    - now rewrite app_nil_r.
    - lia.
    - set_solver.
    - intros q Hq. set_solver.
    - intros Q _ q Hq. set_solver.
  Qed.

  Lemma acc_perm_l P1 P2 w P' w' : P1 ≡ₚ P2 -> acc rd P1 w P' w' -> acc rd P2 w P' w'.
  Proof.
    intros HP (po & k & fn & H). exists po, k, fn. destruct H. constructor; auto.
    - now rewrite <- HP.
    - intros q Hq. apply acc_out0. now rewrite HP.
    - intros Q HQ. apply acc_pool0. eapply pool_ok_perm; [|exact HQ]. now rewrite HP.
    - intros Q HQ. apply (acc_clean0 Q). eapply pool_ok_perm; [|exact HQ]. now rewrite HP.
  Qed.
  Lemma acc_perm_r P w P1 P2 w' : P1 ≡ₚ P2 -> acc rd P w P1 w' -> acc rd P w P2 w'.
  Proof.
    intros HP (po & k & fn & H). exists po, k, fn. destruct H. constructor; auto; [now rewrite <- HP|].
    intros Q HQ. eapply pool_ok_perm; [|exact (acc_pool0 Q HQ)]. now rewrite HP.
  Qed.

  Lemma acc_trans P w P' w' P'' w'' : acc rd P w P' w' -> acc rd P' w' P'' w'' -> acc rd P w P'' w''.
  Proof.
    intros (po1 & k1 & f1 & H1) (po2 & k2 & f2 & H2). exists (po1 ++ po2), (k1 + k2)%nat, (f2 ++ f1).
    destruct H1 as [A1 A2 A3 A4 A5 A6 A7 A8 A9 A10 A11 A12 A13 A14 A15 A16 A17 A18 A19].
    destruct H2 as [B1 B2 B3 B4 B5 B6 B7 B8 B9 B10 B11 B12 B13 B14 B15 B16 B17 B18 B19].
    assert (Hfr : map fst (po1 ++ po2) ++ seqN (w_next_page w) (k1 + k2)
                  ≡ₚ (map fst po1 ++ seqN (w_next_page w) k1) ++ map fst po2 ++ seqN (w_next_page w') k2).
    { rewrite map_app, seqN_app, A3. solve_Permutation. }
    assert (HP' : forall q, q ∈ P' -> q ∈ P \/ q ∈ map fst po1 ++ seqN (w_next_page w) k1).
    { intros q Hq. assert (q ∈ P' ++ f1) as H by set_solver. rewrite A4 in H. set_solver. }
    constructor; try congruence.
    - rewrite A1, B1. now rewrite app_assoc.
    - rewrite B2, A2. now rewrite app_assoc.
    - rewrite B3, A3. lia.
    - rewrite Hfr. rewrite (app_assoc P), <- A4. rewrite app_assoc, B4. solve_Permutation.
    - rewrite B5, A5, list_to_set_app_L. set_solver.
    - intros q Hq Hf. rewrite Hfr in Hf. rewrite B6, A6; [reflexivity|exact Hq|set_solver| |set_solver].
      intros Hin. apply HP' in Hin. set_solver.
    - auto.
    - intros q Hq Hn. apply B8; [apply A8; [exact Hq|set_solver]|set_solver].
    - intros q Hq Hn. rewrite Hfr in Hq. apply elem_of_app in Hq as [Hq|Hq].
      + apply B8; [apply A9; [exact Hq|set_solver]|set_solver].
      + apply B9; [exact Hq|set_solver].
    - intros q Hq. rewrite Hfr. destruct (B10 q Hq) as [H|H]; [|set_solver].
      destruct (A10 q H); set_solver.
    - intros q Hq Hn. apply B11; [apply A11; [exact Hq|set_solver]|set_solver].
    - auto.
    - intros Q HQ q Hq. specialize (A19 Q HQ). specialize (B19 Q (A7 Q HQ)).
      rewrite Hfr, not_elem_of_app.
      assert (Hd : forall x, w_dirty w' !! x = None -> w_dirty w !! x = None).
      { intros x Hx. destruct (w_dirty w !! x) eqn:E; [|reflexivity].
        destruct (decide (x ∈ f1)) as [Hf|Hf]; [destruct (A19 x Hf); congruence|].
        destruct (A8 x ltac:(eauto) Hf). congruence. }
      apply elem_of_app in Hq as [Hq|Hq].
      + destruct (B19 q Hq) as [D1 D2]. split; [auto|]. split; [|exact D2].
        intros Hin. destruct (decide (q ∈ f1)) as [Hf|Hf]; [now destruct (A19 q Hf)|].
        destruct (A9 q Hin Hf). congruence.
      + destruct (A19 q Hq) as [D1 D2]. split; [exact D1|]. split; [exact D2|].
        assert (q ∈ P) as HqP.
        { assert (q ∈ P' ++ f1) as H by set_solver. rewrite A4 in H. set_solver. }
        destruct HQ as [H1 H2 _ _ _ _ _]. rewrite A1, B1, !map_app in H1, H2.
        intros [Hin|Hin]%elem_of_app.
        * apply NoDup_app in H1 as (_ & H1 & _). apply (H1 q); set_solver.
        * apply elem_of_seqN in Hin. specialize (H2 q ltac:(set_solver)). lia.
  Qed.

  Lemma acc_frame_r Q P w P' w' : acc rd P w P' w' -> acc rd (P ++ Q) w (P' ++ Q) w'.
  Proof.
    intros (po & k & fn & H). exists po, k, fn. destruct H. constructor; auto.
    - transitivity ((P' ++ fn) ++ Q); [solve_Permutation|]. rewrite acc_perm0. solve_Permutation.
    - intros q Hq. apply acc_out0. set_solver.
    - intros Q' HQ. rewrite <- app_assoc. apply acc_pool0. now rewrite app_assoc.
    - intros Q' HQ. apply (acc_clean0 (Q ++ Q')). now rewrite app_assoc.
  Qed.
  Lemma acc_frame_l Q P w P' w' : acc rd P w P' w' -> acc rd (Q ++ P) w (Q ++ P') w'.
  Proof.
    intros H. eapply acc_perm_l; [apply (Permutation_app_comm P Q)|].
    eapply acc_perm_r; [apply (Permutation_app_comm P' Q)|]. now apply acc_frame_r.
  Qed.

  Lemma acc_pool' P w P' w' Q : acc rd P w P' w' -> pool_ok w (P ++ Q) -> pool_ok w' (P' ++ Q).
  Proof. intros (po & k & fn & H) HQ. exact (acc_pool _ _ _ _ _ _ _ _ H Q HQ). Qed.
  Lemma acc_coh' P w P' w' : acc rd P w P' w' -> coh rd w -> coh rd w'.
  Proof. intros (po & k & fn & H). exact (acc_coh _ _ _ _ _ _ _ _ H). Qed.

  Lemma acc_fresh_notin P w P' w' po k fn Q q :
    acc_by rd P w P' w' po k fn -> pool_ok w (P ++ Q) -> q ∈ P ++ Q -> q ∉ map fst po ++ seqN (w_next_page w) k.
  Proof.
    intros H [H1 H2 _ _ _ _ _] Hq Hf. rewrite (acc_reusable _ _ _ _ _ _ _ _ H), map_app in H1, H2.
    apply elem_of_app in Hf as [Hf|Hf].
    - apply NoDup_app in H1 as (_ & H1 & _). apply (H1 q Hq). set_solver.
    - apply elem_of_seqN in Hf. specialize (H2 q ltac:(set_solver)). lia.
  Qed.
  Lemma acc_fn_notin P w P' w' po k fn Q q :
    acc_by rd P w P' w' po k fn -> pool_ok w (P ++ Q) -> q ∈ P' ++ Q -> q ∉ fn.
  Proof.
    intros H HQ Hq Hf. pose proof (acc_pool _ _ _ _ _ _ _ _ H Q HQ) as [_ _ _ _ _ H4 _].
    apply (H4 q); [|set_solver]. rewrite (acc_freed _ _ _ _ _ _ _ _ H). set_solver.
  Qed.

  (** Pages of other objects are seen unchanged. *)
  Lemma acc_view P w P' w' Q q :
    acc rd P w P' w' -> pool_ok w (P ++ Q) -> q ∈ Q -> vget rd w' q = vget rd w q.
  Proof.
    intros (po & k & fn & H) HQ Hq. unfold vget. rewrite (acc_out _ _ _ _ _ _ _ _ H); [reflexivity| |].
    - intros HqP. destruct HQ as [H1 _ _ _ _ _ _]. apply NoDup_app in H1 as (H1 & _ & _).
      apply NoDup_app in H1 as (_ & H1 & _). exact (H1 q HqP Hq).
    - eapply acc_fresh_notin; [exact H|exact HQ|set_solver].
  Qed.
  Lemma acc_dirty' P w P' w' Q q :
    acc rd P w P' w' -> pool_ok w (P ++ Q) -> q ∈ Q -> w_dirty w' !! q = w_dirty w !! q.
  Proof.
    intros (po & k & fn & A) Hp Hq. apply (acc_out _ _ _ _ _ _ _ _ A).
    - pose proof (po_nodup _ _ Hp) as Hn. rewrite NoDup_app in Hn. destruct Hn as (Hn & _).
      apply NoDup_app in Hn as (_ & Hn & _). intros H. exact (Hn q H Hq).
    - eapply acc_fresh_notin; [exact A|exact Hp|set_solver].
  Qed.
  Lemma acc_loaded' P w P' w' Q q :
    acc rd P w P' w' -> pool_ok w (P ++ Q) -> q ∈ P' ++ Q -> loaded w q -> loaded w' q.
  Proof.
    intros (po & k & fn & H) HQ Hq. intros Hl. apply (acc_loaded _ _ _ _ _ _ _ _ H); [exact Hl|].
    eapply acc_fn_notin; eassumption.
  Qed.
  Lemma acc_keep' P w P' w' Q q :
    acc rd P w P' w' -> pool_ok w (P ++ Q) -> q ∈ P' ++ Q -> is_Some (w_dirty w !! q) -> is_Some (w_dirty w' !! q).
  Proof.
    intros (po & k & fn & H) HQ Hq. intros Hl. apply (acc_keep _ _ _ _ _ _ _ _ H); [exact Hl|].
    eapply acc_fn_notin; eassumption.
  Qed.

  (** Only the read cache changed. *)
  Definition sim w w' : Prop :=
    w' = set_deser (w_deser w') w /\ w_deser w ⊆ w_deser w'.

  Lemma sim_refl w : sim w w.
  Proof. split; [now destruct w|reflexivity]. Qed.
  Lemma sim_trans w1 w2 w3 : sim w1 w2 -> sim w2 w3 -> sim w1 w3.
  Proof.
    intros [H1 H1'] [H2 H2']. split; [|now transitivity (w_deser w2)].
    rewrite H2 at 1. rewrite H1 at 1. reflexivity.
  Qed.
  Lemma sim_view w w' p : sim w w' -> vget rd w' p = vget rd w p.
  Proof. intros [-> _]. reflexivity. Qed.
  Lemma sim_loaded w w' p : sim w w' -> loaded w p -> loaded w' p.
  Proof.
    intros [H1 H2] [H|[n H]]; [left; rewrite H1; exact H|right]. exists n. eapply lookup_weaken; eassumption.
  Qed.
  Lemma sim_acc P w w' : sim w w' -> coh rd w' -> acc rd P w P w'.
  Proof.
    intros Hs Hc. pose proof (sim_loaded w w') as Hl. destruct Hs as [H1 H2].
    revert Hl Hc H2. rewrite H1. generalize (w_deser w') as d. clear H1 w'. intros d Hl Hc H2.
    exists [], 0%nat, []. constructor; cbn [map app seqN set_deser w_tsn w_reusable w_reused w_next_page w_freed
      w_dirty w_next_pos w_free_root w_events_root w_tags_root w_tracking_root]; auto.
    - now rewrite app_nil_r.
    - lia.
    - set_solver.
    - intros Q [A B C D F G H]. constructor; assumption.
    - intros q Hq. set_solver.
    - intros q Hq _. apply Hl; [split; [reflexivity|exact H2]|exact Hq].
    - intros Q _ q Hq. set_solver.
  Qed.

  Lemma get_page_ref_ok w p n :
    coh rd w -> vget rd w p = Some n ->
    exists w', get_page_ref rd p w = (Ok n, w') /\ sim w w' /\ coh rd w' /\ loaded w' p.
  Proof.
    intros Hc Hv. unfold vget in Hv. unfold get_page_ref. destruct (w_dirty w !! p) as [m|] eqn:E.
    { injection Hv as ->. exists w. split; [reflexivity|]. split; [apply sim_refl|]. split; [exact Hc|]. left. eauto. }
    destruct (w_deser w !! p) as [m|] eqn:E2.
    { rewrite (Hc p m E2) in Hv. injection Hv as ->. exists w. split; [reflexivity|].
      split; [apply sim_refl|]. split; [exact Hc|]. right. eauto. }
    destruct (rd p) as [m|e] eqn:E3; [|discriminate]. injection Hv as ->.
    eexists. split; [reflexivity|]. split; [|split].
    - split; [reflexivity|]. apply insert_subseteq. exact E2.
    - intros q m. cbn. rewrite lookup_insert_Some. intros [[<- <-]|[_ H]]; [exact E3|now apply Hc].
    - right. cbn. rewrite lookup_insert. eauto.
  Qed.

  (** Allocation of a page id and insertion of the page. *)
  Lemma alloc_ok w P :
    pool_ok w P ->
    exists q w1, alloc_page_id w = (Ok q, w1) /\ q ∉ P /\ q ∉ w_freed w /\ 2 <= q /\
      forall n, exists w2, insert_dirty q n w1 = (Ok tt, w2) /\ acc rd [] w [q] w2 /\
        w_dirty w2 = <[q := n]> (w_dirty w).
  Proof.
    intros HP. unfold alloc_page_id, insert_dirty.
    assert (Hgo : forall q w1 (po : list (N * N)) (k : nat),
      [q] = map fst po ++ seqN (w_next_page w) k ->
      w_reusable w = po ++ w_reusable w1 -> w_reused w1 = w_reused w ++ po ->
      w_next_page w1 = w_next_page w + N.of_nat k ->
      w_tsn w1 = w_tsn w -> w_next_pos w1 = w_next_pos w -> w_free_root w1 = w_free_root w ->
      w_events_root w1 = w_events_root w -> w_tags_root w1 = w_tags_root w -> w_tracking_root w1 = w_tracking_root w ->
      w_freed w1 = w_freed w -> w_deser w1 = w_deser w -> w_dirty w1 = w_dirty w ->
      q ∉ P /\ q ∉ w_freed w /\ 2 <= q /\
      forall n, exists w2,
        (if decide (q ∈ w_freed w1) then (Err EPageAlreadyFreed, w1)
         else match w_dirty w1 !! q with
              | Some _ => (Err EPageAlreadyDirty, w1)
              | None => (Ok tt, set_dirty (<[q := n]> (w_dirty w1)) w1)
              end) = (Ok tt, w2) /\ acc rd [] w [q] w2 /\ w_dirty w2 = <[q := n]> (w_dirty w)).
    { intros q w1 po k Hq R1 R2 R3 R4 R5 R6 R7 R8 R9 R10 R11 R12.
      assert (q ∉ P /\ q ∉ w_freed w /\ 2 <= q) as (HqP & Hqf & Hq2).
      { destruct HP as [H1 H2 Hm Hx H3 H4 H5]. rewrite R1, map_app in H1, H2, H4, Hm.
        assert (q ∈ map fst po ++ seqN (w_next_page w) k) as Hin by (rewrite <- Hq; set_solver).
        apply elem_of_app in Hin as [Hin|Hin].
        - apply NoDup_app in H1 as (_ & H1 & _). split; [intros H; apply (H1 q H); set_solver|].
          split; [intros H; apply (H4 q H); set_solver|]. apply Hm. set_solver.
        - apply elem_of_seqN in Hin. split; [|split]; [intros H|intros H|lia].
          + specialize (H2 q ltac:(set_solver)). lia.
          + specialize (H3 q H). lia. }
      split; [exact HqP|]. split; [exact Hqf|]. split; [exact Hq2|]. intros n.
      rewrite decide_False by (rewrite R10; exact Hqf).
      assert (w_dirty w !! q = None) as Hd.
      { destruct (w_dirty w !! q) as [m|] eqn:E; [|reflexivity]. destruct HqP. apply (po_dirty _ _ HP). eauto. }
      rewrite R12, Hd. eexists. split; [reflexivity|]. split; [|reflexivity].
      exists po, k, [].
      assert (Hdom : forall x, is_Some (<[q := n]> (w_dirty w) !! x) -> is_Some (w_dirty w !! x) \/ x ∈ map fst po ++ seqN (w_next_page w) k).
      { intros x. rewrite <- Hq. rewrite lookup_insert_is_Some. set_solver. }
      constructor; cbn [set_dirty w_reusable w_reused w_next_page w_freed w_dirty w_tsn w_next_pos w_free_root w_events_root w_tags_root w_tracking_root]; auto.
      - rewrite app_nil_r, <- Hq. reflexivity.
      - rewrite R10. set_solver.
      - rewrite <- Hq. intros x _ Hx. rewrite lookup_insert_ne; [reflexivity|set_solver].
      - apply (acc_pool_intro _ _ _ _ po k []); cbn [set_dirty w_reusable w_next_page w_freed w_dirty]; auto.
        + rewrite <- Hq. reflexivity.
        + rewrite R10. set_solver.
        + set_solver.
      - intros x Hx _. apply lookup_insert_is_Some. destruct (decide (q = x)); auto.
      - rewrite <- Hq. intros x Hx _. apply elem_of_list_singleton in Hx as ->. rewrite lookup_insert. eauto.
      - intros x [Hx|Hx] _.
        + left. cbn. apply lookup_insert_is_Some. destruct (decide (q = x)); auto.
        + right. cbn. now rewrite R11.
      - intros Hc x m. cbn. rewrite R11. apply Hc.
      - intros Q _ x Hx. set_solver. }
    destruct (w_reusable w) as [|[p t] rest] eqn:ER.
    - eexists _, _. split; [reflexivity|]. apply (Hgo _ _ [] 1%nat); try reflexivity; cbn; rewrite ?ER, ?app_nil_r; reflexivity.
    - eexists _, _. split; [reflexivity|]. apply (Hgo _ _ [(p, t)] 0%nat); try reflexivity; cbn; rewrite ?N.add_0_r; auto.
  Qed.

  (** Writing a dirty page. *)
  Lemma put_dirty_ok w p n n0 :
    w_dirty w !! p = Some n0 ->
    exists w', put_dirty p n w = (Ok tt, w') /\ acc rd [p] w [p] w' /\ w_dirty w' = <[p := n]> (w_dirty w).
  Proof.
    intros Hp. eexists. split; [reflexivity|]. split; [|reflexivity].
    exists [], 0%nat, [].
    assert (Hdom : forall x, is_Some (<[p := n]> (w_dirty w) !! x) -> is_Some (w_dirty w !! x)).
    { intros x. rewrite lookup_insert_is_Some. intros [<-|[_ H]]; eauto. }
    constructor; cbn; auto.
    - now rewrite app_nil_r.
    - lia.
    - set_solver.
    - intros q Hq _. rewrite lookup_insert_ne; [reflexivity|set_solver].
    - intros Q HQ. apply (acc_pool_intro [p] w [p] _ [] 0%nat [] ) with (Q := Q); cbn; auto; try lia; set_solver.
    - intros q Hq _. apply lookup_insert_is_Some. destruct (decide (p = q)); auto.
    - set_solver.
    - intros q [Hq|Hq] _.
      + left. cbn. apply lookup_insert_is_Some. destruct (decide (p = q)); auto.
      + right. exact Hq.
    - intros Q _ x Hx. set_solver.
  Qed.

  (** Copy on write. *)
  Lemma cow_ok w p n Q :
    coh rd w -> loaded w p -> vget rd w p = Some n -> pool_ok w (p :: Q) ->
    exists dp w', get_dirty_page_id p w = (Ok dp, w') /\ acc rd [p] w [dp] w' /\ w_dirty w' !! dp = Some n.
  Proof.
    intros Hc Hl Hv HP. unfold get_dirty_page_id.
    assert (p ∉ w_freed w) as Hf. { intros H. apply (po_freed _ _ HP p H). set_solver. }
    rewrite decide_False by exact Hf. unfold vget in Hv.
    destruct (w_dirty w !! p) as [m|] eqn:E.
    { injection Hv as ->. exists p, w. split; [reflexivity|]. split; [apply acc_refl|exact E]. }
    destruct Hl as [Hl|[m Hl]]; [rewrite E in Hl; now destruct Hl|].
    rewrite (Hc p m Hl) in Hv. injection Hv as ->.
    unfold wbind.
    assert (Hgo : forall q w1 (po : list (N * N)) (k : nat),
      [q] = map fst po ++ seqN (w_next_page w) k ->
      w_reusable w = po ++ w_reusable w1 -> w_reused w1 = w_reused w ++ po ->
      w_next_page w1 = w_next_page w + N.of_nat k ->
      w_tsn w1 = w_tsn w -> w_next_pos w1 = w_next_pos w -> w_free_root w1 = w_free_root w ->
      w_events_root w1 = w_events_root w -> w_tags_root w1 = w_tags_root w -> w_tracking_root w1 = w_tracking_root w ->
      w_freed w1 = {[p]} ∪ w_freed w -> w_deser w1 = w_deser w -> w_dirty w1 = w_dirty w ->
      exists dp w',
        match w_deser w1 !! p with
        | None => (Err EDatabaseCorrupted, w1)
        | Some n => (Ok q, set_dirty (<[q := n]> (w_dirty w1)) (set_deser (delete p (w_deser w1)) w1))
        end = (Ok dp, w') /\ acc rd [p] w [dp] w' /\ w_dirty w' !! dp = Some n).
    { intros q w1 po k Hq R1 R2 R3 R4 R5 R6 R7 R8 R9 R10 R11 R12.
      rewrite R11, Hl. eexists _, _. split; [reflexivity|]. split; [|cbn; apply lookup_insert].
      assert (q <> p) as Hqp.
      { intros ->. assert (p ∈ map fst po ++ seqN (w_next_page w) k) as Hin by (rewrite <- Hq; set_solver).
        destruct HP as [H1 H2 Hm Hx H3 H4 H5]. rewrite R1, map_app in H1, H2.
        apply elem_of_app in Hin as [Hin|Hin].
        - apply NoDup_app in H1 as (_ & H1 & _). apply (H1 p); set_solver.
        - apply elem_of_seqN in Hin. specialize (H2 p ltac:(set_solver)). lia. }
      assert (Hdom : forall x, is_Some (<[q := n]> (w_dirty w1) !! x) -> is_Some (w_dirty w !! x) \/ x ∈ map fst po ++ seqN (w_next_page w) k).
      { intros x. rewrite <- Hq, R12. rewrite lookup_insert_is_Some. set_solver. }
      exists po, k, [p].
      constructor; cbn [set_dirty set_deser w_reusable w_reused w_next_page w_freed w_dirty w_tsn w_next_pos w_free_root w_events_root w_tags_root w_tracking_root]; auto.
      - rewrite <- Hq. cbn. apply perm_swap.
      - rewrite R10. set_solver.
      - rewrite <- Hq, R12. intros x _ Hx. rewrite lookup_insert_ne; [reflexivity|set_solver].
      - apply (acc_pool_intro _ _ _ _ po k [p]); cbn [set_dirty set_deser w_reusable w_reused w_next_page w_freed w_dirty]; auto.
        + rewrite <- Hq. cbn. apply perm_swap.
        + rewrite R10. set_solver.
        + intros x Hx. apply elem_of_list_singleton in Hx as ->. rewrite lookup_insert_ne by exact Hqp. now rewrite R12.
      - intros x Hx _. rewrite R12. apply lookup_insert_is_Some. destruct (decide (q = x)); auto.
      - rewrite <- Hq. intros x Hx _. apply elem_of_list_singleton in Hx as ->. rewrite lookup_insert. eauto.
      - intros x [Hx|Hx] Hxp.
        + left. cbn. rewrite R12. apply lookup_insert_is_Some. destruct (decide (q = x)); auto.
        + right. cbn. rewrite lookup_delete_ne; [exact Hx|set_solver].
      - intros _ x m. cbn. rewrite lookup_delete_Some. intros [_ H]. now apply Hc.
      - intros Q' _ x Hx. apply elem_of_list_singleton in Hx as ->. split; [exact E|].
        rewrite <- Hq. set_solver. }
    unfold alloc_page_id. cbn [set_freed w_reusable].
    destruct (w_reusable w) as [|[r t] rest] eqn:ER.
    - apply (Hgo _ _ [] 1%nat); try reflexivity; cbn; rewrite ?ER, ?app_nil_r; reflexivity.
    - apply (Hgo _ _ [(r, t)] 0%nat); try reflexivity; cbn; rewrite ?N.add_0_r; auto.
  Qed.

  Lemma dirty_vget w p n : w_dirty w !! p = Some n -> vget rd w p = Some n.
  Proof. unfold vget. now intros ->. Qed.
End acc.
Arguments sim : clear implicits.
