(** Processing of freed and reused pages at commit (mvcc.rs:1335-1368): every page is accounted for exactly once. *)
From Verif Require Export FreeRemove.
Local Open Scope N_scope.

Lemma seqN_S_r a n : seqN a (S n) = seqN a n ++ [a + N.of_nat n].
Proof.
  revert a. induction n as [|n IH]; intros a; cbn [seqN app].
  - now rewrite N.add_0_r.
  - cbn [seqN] in IH. rewrite IH. do 3 f_equal. lia.
Qed.

(** The page ids [X], the ids given up so far and the ids still reusable are all the pages of the file, each once. *)
Definition cover (w : writer) (X : list N) : Prop :=
  2 <= w_next_page w /\
  X ++ elements (w_freed w) ++ map fst (w_reusable w) ≡ₚ seqN 2 (N.to_nat (w_next_page w - 2)).

Lemma seqN_len a n : length (seqN a n) = n.
Proof. revert a. induction n as [|n IH]; intros a; cbn [seqN length]; [reflexivity|]. now rewrite IH. Qed.
Lemma seqN_NoDup a n : NoDup (seqN a n).
Proof.
  revert a. induction n as [|n IH]; intros a; cbn [seqN]; constructor; [|apply IH].
  intros H. apply elem_of_seqN in H. lia.
Qed.
Lemma cover_perm w X Y : X ≡ₚ Y -> cover w X -> cover w Y.
Proof. intros H [H0 H1]. split; [exact H0|]. now rewrite <- H. Qed.
Lemma cover_nodup w X : cover w X -> NoDup (X ++ elements (w_freed w) ++ map fst (w_reusable w)).
Proof. intros [_ H]. rewrite H. apply seqN_NoDup. Qed.
Lemma cover_pool w X P Y : cover w X -> X = P ++ Y -> (forall q, is_Some (w_dirty w !! q) -> q ∈ P) -> pool_ok w X.
Proof.
  intros Hc -> Hd. pose proof (cover_nodup _ _ Hc) as Hn. destruct Hc as [H2 Hc].
  assert (Hin : forall q, q ∈ (P ++ Y) ++ elements (w_freed w) ++ map fst (w_reusable w) -> 2 <= q < w_next_page w).
  { intros q Hq. rewrite Hc in Hq. apply elem_of_seqN in Hq. lia. }
  constructor.
  - apply NoDup_app in Hn as (N1 & N2 & N3). apply NoDup_app in N3 as (_ & _ & N3). apply NoDup_app. split; [exact N1|]. split; [|exact N3].
    intros q Hq Hq'. apply (N2 q Hq). set_solver.
  - intros q Hq. apply Hin. set_solver.
  - intros q Hq. apply Hin. set_solver.
  - exact H2.
  - intros q Hq. apply Hin. apply elem_of_app; right. apply elem_of_app; left. now apply elem_of_elements.
  - intros q Hq Hq'. apply elem_of_elements in Hq. apply NoDup_app in Hn as (_ & N2 & N3). apply NoDup_app in N3 as (_ & N3 & _).
    apply elem_of_app in Hq' as [Hq'|Hq']; [apply (N2 q Hq'); set_solver|exact (N3 q Hq Hq')].
  - intros q Hq. specialize (Hd q Hq). set_solver.
Qed.
Lemma elements_list_to_set (A : gset N) (l : list N) : NoDup (elements A ++ l) -> elements (A ∪ list_to_set l) ≡ₚ elements A ++ l.
Proof.
  intros Hn. apply NoDup_app in Hn as (_ & Hd & Hl).
  rewrite elements_disj_union.
  - apply Permutation_app_head. apply NoDup_Permutation; [apply NoDup_elements|exact Hl|]. intros q. rewrite elem_of_elements. apply elem_of_list_to_set.
  - intros q Hq Hq'. apply (Hd q); [now apply elem_of_elements|now apply elem_of_list_to_set in Hq'].
Qed.
(** A step keeps the account. *)
Lemma cover_step rd P w P' w' po k fn X :
  wacc_by rd P w P' w' po k fn -> cover w (P ++ X) -> cover w' (P' ++ X).
Proof.
  intros H Hc. pose proof (cover_nodup _ _ Hc) as Hn. destruct Hc as [H2 Hc].
  destruct H as [A1 A2 A3 A4 A5 _ _ _ _ _ _ _ _ _ _ _ _].
  assert (Hs : seqN 2 (N.to_nat (w_next_page w' - 2)) = seqN 2 (N.to_nat (w_next_page w - 2)) ++ seqN (w_next_page w) k).
  { rewrite A3. replace (N.to_nat (w_next_page w + N.of_nat k - 2)) with (N.to_nat (w_next_page w - 2) + k)%nat by lia.
    rewrite seqN_app. do 2 f_equal. lia. }
  assert (Hall : (P' ++ fn) ++ X ++ elements (w_freed w) ++ map fst (w_reusable w') ≡ₚ seqN 2 (N.to_nat (w_next_page w' - 2))).
  { rewrite A4, Hs, <- Hc, A1, map_app. solve_Permutation. }
  split; [lia|]. rewrite A5.
  rewrite elements_list_to_set; [rewrite <- Hall; solve_Permutation|].
  assert (Hn' : NoDup ((P' ++ fn) ++ X ++ elements (w_freed w) ++ map fst (w_reusable w'))) by (rewrite Hall; apply seqN_NoDup).
  assert (E : (P' ++ fn) ++ X ++ elements (w_freed w) ++ map fst (w_reusable w') ≡ₚ (elements (w_freed w) ++ fn) ++ P' ++ X ++ map fst (w_reusable w')) by solve_Permutation.
  rewrite E in Hn'. now apply NoDup_app in Hn' as [Hn' _].
Qed.

(** The (page, transaction) pairs recorded in the free list. *)
Definition pairs (es : list flent) : list (N * N) := concat (map (fun e => map (fun p => (p, e.1)) e.2.1) es).
Lemma pairs_app a b : pairs (a ++ b) = pairs a ++ pairs b.
Proof. unfold pairs. now rewrite map_app, concat_app. Qed.
Lemma pairs_cons t ids Pv es : pairs ((t, (ids, Pv)) :: es) = map (fun p => (p, t)) ids ++ pairs es.
Proof. reflexivity. Qed.
Lemma pairs_in p t es : (p, t) ∈ pairs es <-> exists ids Pv, (t, (ids, Pv)) ∈ es /\ p ∈ ids.
Proof.
  unfold pairs. rewrite elem_of_list_In, in_concat. split.
  - intros (l & Hl & Hp). apply in_map_iff in Hl as ([t' [ids Pv]] & <- & He). apply in_map_iff in Hp as (p' & [= <- <-] & Hp).
    exists ids, Pv. now rewrite !elem_of_list_In.
  - intros (ids & Pv & He & Hp). exists (map (fun p => (p, t)) ids). split.
    + apply in_map_iff. exists (t, (ids, Pv)). now rewrite <- elem_of_list_In.
    + apply in_map_iff. exists p. now rewrite <- elem_of_list_In.
Qed.

(** ** The invariant of the loop *)
(** What the loop does not touch. *)
Record kept (Q : list N) (w w' : writer) : Prop := {
  kp_dirty : forall q, q ∈ Q -> w_dirty w' !! q = w_dirty w !! q;
  kp_tsn : w_tsn w' = w_tsn w;
  kp_pos : w_next_pos w' = w_next_pos w;
  kp_eroot : w_events_root w' = w_events_root w;
  kp_troot : w_tags_root w' = w_tags_root w;
  kp_kroot : w_tracking_root w' = w_tracking_root w }.
Lemma kept_refl Q w : kept Q w w.
Proof. constructor; auto. Qed.
Lemma kept_trans Q w w' w'' : kept Q w w' -> kept Q w' w'' -> kept Q w w''.
Proof. intros [A1 A2 A3 A4 A5 A6] [B1 B2 B3 B4 B5 B6]. constructor; try congruence. intros q Hq. rewrite B1, A1; auto. Qed.
Lemma kept_wacc rd P w P' w' Q : wacc rd P w P' w' -> pool_ok w (P ++ Q) -> kept Q w w'.
Proof.
  intros H Hp. pose proof H as (po & k & fn & A). constructor.
  - intros q Hq. eapply wacc_dirty; eassumption.
  - apply (wa_tsn _ _ _ _ _ _ _ _ A).
  - apply (wa_pos _ _ _ _ _ _ _ _ A).
  - apply (wa_eroot _ _ _ _ _ _ _ _ A).
  - apply (wa_troot _ _ _ _ _ _ _ _ A).
  - apply (wa_kroot _ _ _ _ _ _ _ _ A).
Qed.

Section process.
  Context (rd : snapshot) (kw : nat) (ps : N) (Hps : ps_ok ps).
  (* [T]: the transactions whose free pages may be reused; [Fr]: the pages which may be written *)
  Context (T : N -> Prop) (Fr : N -> Prop).
  (* [Sr]: the pages the transaction started from *)
  Context (Sr : N -> Prop).

  (** [PF]: pages of the free list; [Q]: all other live pages; [es]: entries of the free list; [R]: pages given up
      and still to be recorded; [O]: pairs not available for reuse. *)
  Record pinv (w : writer) (PF Q R : list N) (es : list flent) (O : list (N * N)) : Prop := {
    pi_coh : coh rd w;
    pi_cover : cover w (PF ++ Q ++ R ++ map fst O);
    pi_dirty : forall q, is_Some (w_dirty w !! q) -> q ∈ PF ++ Q;
    pi_fl : flrep (vget rd w) (w_tsn w) (w_free_root w) PF es;
    pi_pairs : pairs es ≡ₚ O ++ w_reusable w ++ w_reused w;
    pi_T : forall p t, (p, t) ∈ w_reusable w ++ w_reused w -> T t;
    pi_lt : forall t, T t -> t < w_tsn w;
    pi_own : forall ids Pv, (w_tsn w, (ids, Pv)) ∈ es -> forall q, q ∈ Pv -> is_Some (w_dirty w !! q);
    pi_load : forall t ids Pv, (t, (ids, Pv)) ∈ es -> T t -> forall q, q ∈ Pv -> loaded w q;
    pi_fr_dirty : forall q, is_Some (w_dirty w !! q) -> Fr q;
    pi_fr_reuse : forall q, q ∈ map fst (w_reusable w) -> Fr q;
    pi_fr_next : forall q, w_next_page w <= q -> Fr q;
    pi_src : forall q, q ∈ PF ++ Q -> is_Some (w_dirty w !! q) \/ Sr q }.

  Lemma pinv_pool w PF Q R es O : pinv w PF Q R es O -> pool_ok w (PF ++ Q ++ R ++ map fst O).
  Proof.
    intros H. eapply cover_pool; [apply (pi_cover _ _ _ _ _ _ H)|rewrite app_assoc; reflexivity|apply (pi_dirty _ _ _ _ _ _ H)].
  Qed.
  Lemma fr_step P w P' w' po k fn : wacc_by rd P w P' w' po k fn ->
    (forall q, is_Some (w_dirty w !! q) -> Fr q) -> (forall q, q ∈ map fst (w_reusable w) -> Fr q) -> (forall q, w_next_page w <= q -> Fr q) ->
    (forall q, is_Some (w_dirty w' !! q) -> Fr q) /\ (forall q, q ∈ map fst (w_reusable w') -> Fr q) /\ (forall q, w_next_page w' <= q -> Fr q).
  Proof.
    intros H F1 F2 F3. split; [|split].
    - intros q Hq. destruct (wa_dom _ _ _ _ _ _ _ _ H q Hq) as [Hd|Hd]; [now apply F1|]. apply elem_of_app in Hd as [Hd|Hd].
      + apply F2. rewrite (wa_reusable _ _ _ _ _ _ _ _ H), map_app. set_solver.
      + apply F3. apply elem_of_seqN in Hd. lia.
    - intros q Hq. apply F2. rewrite (wa_reusable _ _ _ _ _ _ _ _ H), map_app. set_solver.
    - intros q Hq. apply F3. pose proof (wa_next _ _ _ _ _ _ _ _ H). lia.
  Qed.

  Lemma src_step P w P' w' po k fn Q Y : wacc_by rd P w P' w' po k fn -> pool_ok w (P ++ Q ++ Y) ->
    (forall q, q ∈ P ++ Q -> is_Some (w_dirty w !! q) \/ Sr q) -> forall q, q ∈ P' ++ Q -> is_Some (w_dirty w' !! q) \/ Sr q.
  Proof.
    intros H Hp Hs q Hq.
    assert (Hfn : q ∉ fn) by (eapply wacc_fn_notin; [exact H|exact Hp|set_solver]).
    destruct (decide (q ∈ map fst po ++ seqN (w_next_page w) k)) as [Hn|Hn]; [left; now apply (wa_new _ _ _ _ _ _ _ _ H)|].
    assert (q ∈ P ++ Q) as Hin.
    { apply elem_of_app in Hq as [Hq|Hq]; [|set_solver].
      assert (q ∈ P ++ map fst po ++ seqN (w_next_page w) k) as Hq' by (rewrite <- (wa_perm _ _ _ _ _ _ _ _ H); set_solver). set_solver. }
    destruct (Hs q Hin) as [Hd|Hd]; [left; now apply (wa_keep _ _ _ _ _ _ _ _ H)|now right].
  Qed.

  Definition isdirty (w : writer) (q : N) : Prop := is_Some (w_dirty w !! q).
  (** Pages of the free list not yet copied. *)
  Definition nd (w : writer) (P : list N) : nat := length (filter (fun q => w_dirty w !! q = None) P).
  Lemma nd_perm w P P' : P ≡ₚ P' -> nd w P = nd w P'.
  Proof. intros H. unfold nd. now rewrite H. Qed.
  Lemma nd_app w P P' : nd w (P ++ P') = (nd w P + nd w P')%nat.
  Proof. unfold nd. now rewrite filter_app, app_length. Qed.
  Lemma nd_le w w' P : (forall q, q ∈ P -> w_dirty w' !! q = None -> w_dirty w !! q = None) -> (nd w' P <= nd w P)%nat.
  Proof.
    unfold nd. induction P as [|p P IH]; intros H; [reflexivity|]. rewrite !filter_cons.
    specialize (IH ltac:(set_solver)). destruct (decide (w_dirty w' !! p = None)) as [E|E].
    - rewrite decide_True by (apply H; set_solver). cbn. lia.
    - case_decide; cbn; lia.
  Qed.
  Lemma nd_length w P : (nd w P <= length P)%nat.
  Proof. unfold nd. apply filter_length. Qed.
  Lemma nd_all w P : (forall q, q ∈ P -> w_dirty w !! q = None) -> nd w P = length P.
  Proof.
    unfold nd. induction P as [|p P IH]; intros H; [reflexivity|]. rewrite filter_cons, decide_True by (apply H; set_solver).
    cbn. f_equal. apply IH. set_solver.
  Qed.
  Lemma nd_none w P : (forall q, q ∈ P -> is_Some (w_dirty w !! q)) -> nd w P = 0%nat.
  Proof.
    unfold nd. induction P as [|p P IH]; intros H; [reflexivity|]. rewrite filter_cons, decide_False.
    - apply IH. set_solver.
    - intros E. destruct (H p ltac:(set_solver)) as [n En]. congruence.
  Qed.

  (** The old pages of [P'] are those of [P] not given up. *)
  Lemma nd_wacc P w P' w' po k fn Q : wacc_by rd P w P' w' po k fn -> pool_ok w (P ++ Q) -> (nd w' P' <= nd w P)%nat.
  Proof.
    intros H Hp.
    pose proof (wa_pool _ _ _ _ _ _ _ _ H Q Hp) as Hp'.
    assert (Hfn : forall q, q ∈ P' -> q ∉ fn) by (intros q Hq; eapply wacc_fn_notin; [exact H|exact Hp|set_solver]).
    assert (Hsub : forall q, q ∈ filter (fun q => w_dirty w' !! q = None) P' -> q ∈ filter (fun q => w_dirty w !! q = None) P).
    { intros q Hq. apply elem_of_list_filter in Hq as [Hn Hq].
      assert (Hin : q ∈ P ++ map fst po ++ seqN (w_next_page w) k) by (rewrite <- (wa_perm _ _ _ _ _ _ _ _ H); set_solver).
      apply elem_of_list_filter. apply elem_of_app in Hin as [Hin|Hin].
      - split; [|exact Hin]. destruct (w_dirty w !! q) eqn:E; [|reflexivity]. exfalso.
        destruct (wa_keep _ _ _ _ _ _ _ _ H q ltac:(eauto) (Hfn q Hq)). congruence.
      - exfalso. destruct (wa_new _ _ _ _ _ _ _ _ H q Hin (Hfn q Hq)). congruence. }
    unfold nd. apply submseteq_length. apply NoDup_submseteq; [|exact Hsub].
    apply NoDup_filter. pose proof (po_nodup _ _ Hp') as Hn. apply NoDup_app in Hn as [Hn _]. now apply NoDup_app in Hn as [Hn _].
  Qed.
  Lemma nd_acc P w P' w' po k fn Q : acc_by rd P w P' w' po k fn -> pool_ok w (P ++ Q) -> (nd w' P' + length fn <= nd w P)%nat.
  Proof.
    intros H Hp. pose proof (acc_by_wacc rd _ _ _ _ _ _ _ (w_free_root w') H) as Hw.
    assert (Hfn : forall q, q ∈ P' -> q ∉ fn) by (intros q Hq; eapply wacc_fn_notin; [exact Hw|exact Hp|set_solver]).
    pose proof (acc_clean _ _ _ _ _ _ _ _ H Q Hp) as Hcl.
    assert (Hsub : forall q, q ∈ filter (fun q => w_dirty w' !! q = None) P' ++ fn -> q ∈ filter (fun q => w_dirty w !! q = None) P).
    { intros q Hq. apply elem_of_list_filter. apply elem_of_app in Hq as [Hq|Hq].
      - apply elem_of_list_filter in Hq as [Hn Hq].
        assert (Hin : q ∈ P ++ map fst po ++ seqN (w_next_page w) k) by (rewrite <- (acc_perm _ _ _ _ _ _ _ _ H); set_solver).
        apply elem_of_app in Hin as [Hin|Hin].
        + split; [|exact Hin]. destruct (w_dirty w !! q) eqn:E; [|reflexivity]. exfalso.
          destruct (acc_keep _ _ _ _ _ _ _ _ H q ltac:(eauto) (Hfn q Hq)). congruence.
        + exfalso. destruct (acc_new _ _ _ _ _ _ _ _ H q Hin (Hfn q Hq)). congruence.
      - destruct (Hcl q Hq) as [H1 H2]. split; [exact H1|].
        assert (Hin : q ∈ P ++ map fst po ++ seqN (w_next_page w) k) by (rewrite <- (acc_perm _ _ _ _ _ _ _ _ H); set_solver). set_solver. }
    unfold nd. rewrite <- app_length. apply submseteq_length. apply NoDup_submseteq; [|exact Hsub].
    assert (Hnd : NoDup (P' ++ fn)).
    { rewrite (acc_perm _ _ _ _ _ _ _ _ H). pose proof (po_nodup _ _ Hp) as Hn. rewrite (acc_reusable _ _ _ _ _ _ _ _ H), map_app in Hn.
      apply NoDup_app. split; [|split].
      - apply NoDup_app in Hn as [Hn _]. now apply NoDup_app in Hn as [Hn _].
      - intros q Hq Hq'. eapply (wacc_fresh_notin rd); [exact Hw|exact Hp| |exact Hq']. set_solver.
      - apply NoDup_app. split; [|split; [|apply seqN_NoDup]].
        + apply NoDup_app in Hn as (_ & _ & Hn). now apply NoDup_app in Hn as [Hn _].
        + intros q Hq Hq'. apply elem_of_seqN in Hq'. pose proof (po_lt _ _ Hp q) as Hl. rewrite (acc_reusable _ _ _ _ _ _ _ _ H), map_app in Hl.
          specialize (Hl ltac:(set_solver)). lia. }
    apply NoDup_app in Hnd as (Hn1 & Hn2 & Hn3). apply NoDup_app. split; [now apply NoDup_filter|]. split; [|exact Hn3].
    intros q Hq. apply elem_of_list_filter in Hq as [_ Hq]. now apply Hn2.
  Qed.

  (** One removal. *)
  Lemma remove_step w PF Q es O x t rest :
    pinv w PF Q [] es O -> w_reused w = (x, t) :: rest ->
    exists w' PF' es', remove_free_page_id rd kw ps t x (set_reused rest w) = (Ok tt, w') /\
      pinv w' PF' Q [] es' O /\ kept Q w w' /\ (nd w' PF' <= nd w PF)%nat /\
      (length (w_reused w') + length (w_reusable w') + 1 = length (w_reused w) + length (w_reusable w))%nat /\
      (length (w_reusable w') <= length (w_reusable w))%nat.
  Proof.
    intros H Hr. pose proof H as [I1 I2 I3 I4 I5 I6 I7 I8 I9 F1 F2 F3 F4]. rewrite Hr in I5, I6.
    assert (Hin : (x, t) ∈ pairs es) by (rewrite I5; set_solver).
    apply pairs_in in Hin as (ids & Pv & He & Hx). apply elem_of_list_split in He as (e1 & e2 & Ees).
    assert (HTt : T t) by (apply (I6 x); set_solver).
    set (w0 := set_reused rest w).
    assert (Hp : pool_ok w (PF ++ Q ++ [] ++ map fst O)) by (eapply pinv_pool; eassumption).
    assert (Hp0 : pool_ok w0 (PF ++ Q ++ [] ++ map fst O)) by (destruct Hp; constructor; assumption).
    assert (Hv0 : forall q, vget rd w0 q = vget rd w q) by reflexivity.
    destruct (remove_free_ok rd kw ps Hps w0 PF (Q ++ [] ++ map fst O) es (w_tsn w) e1 t ids Pv e2 x) as (w' & PF' & new & E1 & A & Hfl & Hsh).
    { exact I1. } { exact Hp0. } { exact I4. } { exact Ees. } { exact Hx. }
    { intros q Hq. apply (I9 t ids Pv); [rewrite Ees; set_solver|exact HTt|exact Hq]. }
    exists w', PF', (e1 ++ new ++ e2). split; [exact E1|].
    pose proof A as (po & k & fn & Aw).
    pose proof (wacc_pool rd _ _ _ _ _ A Hp0) as Hp'.
    assert (Htsn : w_tsn w' = w_tsn w) by (rewrite (wa_tsn _ _ _ _ _ _ _ _ Aw); reflexivity).
    assert (Hreus : w_reusable w = po ++ w_reusable w') by (rewrite <- (wa_reusable _ _ _ _ _ _ _ _ Aw); reflexivity).
    assert (Hreu : w_reused w' = rest ++ po) by (rewrite (wa_reused _ _ _ _ _ _ _ _ Aw); reflexivity).
    assert (Hpg : forall e q, e ∈ e1 ++ new ++ e2 -> q ∈ e.2.2 -> q ∈ PF') by (intros e q He Hq; eapply flrep_pages; eassumption).
    split; [|split; [|split; [|split]]].
    - destruct (fr_step _ _ _ _ _ _ _ Aw) as (G1 & G2 & G3); auto. constructor; auto.
      + eapply wacc_coh; eassumption.
      + eapply cover_step; [exact Aw|]. exact I2.
      + intros q Hq. destruct (wa_dom _ _ _ _ _ _ _ _ Aw q Hq) as [Hd|Hd].
        * pose proof (po_dirty _ _ Hp' q Hq) as Hd'. specialize (I3 q Hd). cbn [app] in Hd'.
          apply elem_of_app in I3 as [I3|I3]; [|set_solver].
          rewrite elem_of_app in Hd' |- *. destruct Hd' as [Hd'|Hd']; [now left|]. exfalso.
          pose proof (po_nodup _ _ Hp) as Hn. apply NoDup_app in Hn as [Hn _]. apply NoDup_app in Hn as (_ & Hn & _). exact (Hn q I3 Hd').
        * pose proof (po_dirty _ _ Hp' q Hq) as Hd'. cbn [app] in Hd'. rewrite elem_of_app in Hd' |- *. destruct Hd' as [Hd'|Hd']; [now left|]. exfalso.
          eapply (wacc_fresh_notin rd); [exact Aw|exact Hp0|apply elem_of_app; right; exact Hd'|exact Hd].
      + rewrite Htsn. exact Hfl.
      + rewrite Hreu.
        assert (Hpe : pairs es ≡ₚ (x, t) :: pairs (e1 ++ new ++ e2)).
        { rewrite Ees, !pairs_app. cbn [app]. rewrite pairs_cons.
          destruct Hsh as [[-> ->]|(ids' & Pv' & -> & Hids & _)].
          - cbn. solve_Permutation.
          - rewrite pairs_cons. cbn [pairs concat map]. rewrite Hids. cbn [map]. solve_Permutation. }
        apply (Permutation_cons_inv (a := (x, t))). rewrite <- Hpe, I5, Hreus. solve_Permutation.
      + intros p t' Hp1. apply (I6 p). rewrite Hreus. rewrite Hreu in Hp1. set_solver.
      + intros t' Ht'. rewrite Htsn. now apply I7.
      + rewrite Htsn. intros ids1 Pv1 He q Hq. pose proof (Hpg _ _ He Hq) as HqP.
        assert (Hold : (w_tsn w, (ids1, Pv1)) ∈ es).
        { rewrite Ees. destruct Hsh as [[-> _]|(ids' & Pv' & -> & _)]; [set_solver|]. specialize (I7 t HTt).
          rewrite !elem_of_app, elem_of_list_singleton in He. destruct He as [He|[He|He]]; [set_solver| |set_solver]. injection He as He1 _ _. lia. }
        eapply wacc_keep; [exact A|exact Hp0|set_solver|]. exact (I8 _ _ Hold q Hq).
      + intros t' ids1 Pv1 He HT q Hq. pose proof (Hpg _ _ He Hq) as HqP.
        rewrite !elem_of_app in He. destruct He as [He|[He|He]].
        * eapply wacc_loaded; [exact A|exact Hp0|set_solver|]. apply (I9 t' ids1 Pv1); [rewrite Ees; set_solver|exact HT|exact Hq].
        * destruct Hsh as [[-> _]|(ids' & Pv' & -> & _ & Hl)]; [inversion He|]. apply elem_of_list_singleton in He. injection He as -> -> ->. now apply Hl.
        * eapply wacc_loaded; [exact A|exact Hp0|set_solver|]. apply (I9 t' ids1 Pv1); [rewrite Ees; set_solver|exact HT|exact Hq].
      + eapply src_step; [exact Aw|exact Hp0|exact F4].
    - pose proof (kept_wacc rd _ _ _ _ (Q ++ [] ++ map fst O) A Hp0) as [K1 K2 K3 K4 K5 K6]. constructor; auto.
      intros q Hq. rewrite K1 by set_solver. reflexivity.
    - exact (nd_wacc _ _ _ _ _ _ _ _ Aw Hp0).
    - rewrite Hreus, Hreu, Hr, !app_length. cbn [length]. lia.
    - rewrite Hreus, app_length. lia.
  Qed.

  Lemma remove_reused_ok fuel : forall w PF Q es O, pinv w PF Q [] es O -> (length (w_reused w) + length (w_reusable w) <= fuel)%nat ->
    exists w' PF' es', remove_reused rd kw ps fuel w = (Ok tt, w') /\ pinv w' PF' Q [] es' O /\ kept Q w w' /\ w_reused w' = [] /\
      (nd w' PF' <= nd w PF)%nat /\ (length (w_reusable w') <= length (w_reusable w))%nat.
  Proof.
    induction fuel as [|fuel IH]; intros w PF Q es O H Hf; cbn [remove_reused]; unfold wbind at 1; unfold gets at 1;
      destruct (w_reused w) as [|[x t] rest] eqn:Er; try (cbn in Hf; lia);
      try (exists w, PF, es; split; [reflexivity|]; split; [exact H|]; split; [apply kept_refl|]; split; [exact Er|]; split; lia).
    unfold wbind at 1. unfold modify at 1.
    destruct (remove_step w PF Q es O x t rest H Er) as (w1 & PF1 & es1 & E1 & H1 & K1 & N1 & L1 & L1').
    unfold wbind at 1. rewrite E1.
    destruct (IH w1 PF1 Q es1 O H1) as (w2 & PF2 & es2 & E2 & H2 & K2 & R2 & N2 & L2).
    { rewrite Er in L1. cbn in L1, Hf. lia. }
    exists w2, PF2, es2. split; [exact E2|]. split; [exact H2|]. split; [eapply kept_trans; eassumption|]. split; [exact R2|]. split; lia.
  Qed.

  (** One insertion. *)
  Lemma insert_step w PF Q R es O x :
    pinv w PF Q (x :: R) es O ->
    exists w' PF' es' po fn, insert_freed_page_id rd kw ps (w_tsn w) x (set_dirty (delete x (w_dirty w)) w) = (Ok tt, w') /\
      pinv w' PF' Q R es' ((x, w_tsn w) :: O) /\ kept Q w w' /\ (nd w' PF' + length fn <= nd w PF)%nat /\
      w_reusable w = po ++ w_reusable w' /\ w_reused w' = w_reused w ++ po /\ w_freed w' = w_freed w ∪ list_to_set fn.
  Proof.
    intros H. pose proof H as [I1 I2 I3 I4 I5 I6 I7 I8 I9 F1 F2 F3 F4].
    pose proof (pinv_pool _ _ _ _ _ _ H) as Hp.
    assert (Hxd : w_dirty w !! x = None).
    { destruct (w_dirty w !! x) eqn:E; [exfalso|reflexivity]. specialize (I3 x ltac:(eauto)).
      pose proof (po_nodup _ _ Hp) as Hn. apply NoDup_app in Hn as [Hn _]. rewrite app_assoc in Hn. apply NoDup_app in Hn as (_ & Hn & _). apply (Hn x I3). set_solver. }
    rewrite (delete_notin _ _ Hxd).
    assert (Ew : set_dirty (w_dirty w) w = w) by (now destruct w). rewrite Ew.
    assert (Hown : forall ids Pv, (w_tsn w, (ids, Pv)) ∈ es -> exists O2, O ≡ₚ map (fun p => (p, w_tsn w)) ids ++ O2).
    { intros ids Pv He.
      assert (Hsub : map (fun p => (p, w_tsn w)) ids ⊆+ O ++ (w_reusable w ++ w_reused w)).
      { rewrite <- I5. apply elem_of_list_split in He as (e1 & e2 & ->). rewrite pairs_app, pairs_cons.
        apply submseteq_inserts_l, submseteq_inserts_r. reflexivity. }
      apply submseteq_app_r in Hsub as (k1 & k2 & Ek & H1 & H2).
      destruct k2 as [|[p t] k2].
      - rewrite app_nil_r in Ek. apply submseteq_Permutation in H1 as [k3 H1]. exists k3. now rewrite Ek.
      - exfalso. assert (Hin : (p, t) ∈ w_reusable w ++ w_reused w) by (eapply elem_of_submseteq; [|exact H2]; set_solver).
        apply I6 in Hin. apply I7 in Hin. assert (Hin2 : (p, t) ∈ map (fun p => (p, w_tsn w)) ids) by (rewrite Ek; set_solver).
        apply elem_of_list_In, in_map_iff in Hin2 as (? & [= _ <-] & _). lia. }
    destruct (insert_freed_ok rd kw ps Hps w PF (Q ++ (x :: R) ++ map fst O) es (w_tsn w) x I1 Hp I4)
      as (w1 & r & PF' & es0 & old & ids & ids' & Pv' & E1 & A & Hfl & Ees & Hold & Hids & Hpv & Hlt).
    { intros ids Pv He. split; [|now apply (I8 ids)]. destruct (Hown _ _ He) as [O2 HO].
      pose proof (po_nodup _ _ Hp) as Hn. apply NoDup_app in Hn as [Hn _]. apply NoDup_app in Hn as (_ & _ & Hn). apply NoDup_app in Hn as (_ & _ & Hn).
      rewrite HO, map_app, map_map in Hn. cbn [fst] in Hn. rewrite map_id in Hn. cbn [app] in Hn. apply NoDup_cons in Hn as [Hn1 Hn2].
      apply NoDup_cons. split; [set_solver|]. apply NoDup_app in Hn2 as (_ & _ & Hn2). now apply NoDup_app in Hn2 as [Hn2 _]. }
    pose proof A as (po & k & fn & Aa).
    pose proof (acc_by_wacc rd _ _ _ _ _ _ _ r Aa) as Aw.
    assert (A' : wacc rd PF w PF' (set_free_root r w1)) by (exists po, k, fn; exact Aw).
    exists (set_free_root r w1), PF', (es0 ++ [(w_tsn w, (ids', Pv'))]), po, fn. split; [exact E1|].
    pose proof (wacc_pool rd _ _ _ _ _ A' Hp) as Hp'.
    assert (Htsn : w_tsn (set_free_root r w1) = w_tsn w) by exact (wa_tsn _ _ _ _ _ _ _ _ Aw).
    assert (Hreus : w_reusable w = po ++ w_reusable (set_free_root r w1)) by exact (wa_reusable _ _ _ _ _ _ _ _ Aw).
    assert (Hreu : w_reused (set_free_root r w1) = w_reused w ++ po) by exact (wa_reused _ _ _ _ _ _ _ _ Aw).
    assert (Hpg : forall e q, e ∈ es0 ++ [(w_tsn w, (ids', Pv'))] -> q ∈ e.2.2 -> q ∈ PF') by (intros e q He Hq; eapply flrep_pages; [exact Hfl|exact He|exact Hq]).
    split; [|split; [|split; [|split; [|split]]]].
    - destruct (fr_step _ _ _ _ _ _ _ Aw) as (G1 & G2 & G3); auto. constructor; auto.
      + eapply wacc_coh; eassumption.
      + eapply cover_perm; [|eapply (cover_step rd PF w PF'); [exact Aw|exact I2]]. cbn [map fst]. solve_Permutation.
      + intros q Hq. destruct (wa_dom _ _ _ _ _ _ _ _ Aw q Hq) as [Hd|Hd].
        * pose proof (po_dirty _ _ Hp' q Hq) as Hd'. specialize (I3 q Hd).
          apply elem_of_app in I3 as [I3|I3]; [|set_solver].
          rewrite elem_of_app in Hd' |- *. destruct Hd' as [Hd'|Hd']; [now left|]. exfalso.
          pose proof (po_nodup _ _ Hp) as Hn. apply NoDup_app in Hn as [Hn _]. apply NoDup_app in Hn as (_ & Hn & _). exact (Hn q I3 Hd').
        * pose proof (po_dirty _ _ Hp' q Hq) as Hd'. rewrite elem_of_app in Hd' |- *. destruct Hd' as [Hd'|Hd']; [now left|]. exfalso.
          eapply (wacc_fresh_notin rd); [exact Aw|exact Hp|apply elem_of_app; right; exact Hd'|exact Hd].
      + rewrite Htsn. exact Hfl.
      + rewrite Hreu, pairs_app, pairs_cons. cbn [pairs concat map]. rewrite Hids. cbn [map].
        assert (Hpe : pairs es ≡ₚ pairs es0 ++ map (fun p => (p, w_tsn w)) ids).
        { rewrite Ees, pairs_app. destruct Hold as [[-> ->]|[Pv ->]]; [reflexivity|]. rewrite pairs_cons. cbn [pairs concat map]. now rewrite app_nil_r. }
        transitivity ((x, w_tsn w) :: pairs es); [rewrite Hpe; solve_Permutation|]. rewrite I5, Hreus. solve_Permutation.
      + intros p t' Hp1. apply (I6 p). rewrite Hreus. rewrite Hreu in Hp1. set_solver.
      + intros t' Ht'. rewrite Htsn. now apply I7.
      + rewrite Htsn. intros ids1 Pv1 He q Hq. apply elem_of_app in He as [He|He].
        * specialize (Hlt _ He). cbn in Hlt. lia.
        * apply elem_of_list_singleton in He. injection He as -> ->. now apply Hpv.
      + intros t' ids1 Pv1 He HT q Hq. pose proof (Hpg _ _ He Hq) as HqP. apply elem_of_app in He as [He|He].
        * eapply wacc_loaded; [exact A'|exact Hp|set_solver|]. apply (I9 t' ids1 Pv1); [rewrite Ees; set_solver|exact HT|exact Hq].
        * apply elem_of_list_singleton in He. injection He as -> -> ->. left. now apply Hpv.
      + eapply src_step; [exact Aw|exact Hp|exact F4].
    - pose proof (kept_wacc rd _ _ _ _ (Q ++ (x :: R) ++ map fst O) A' Hp) as [K1 K2 K3 K4 K5 K6]. constructor; auto.
      intros q Hq. rewrite K1 by set_solver. reflexivity.
    - exact (nd_acc _ _ _ _ _ _ _ _ Aa Hp).
    - exact Hreus.
    - exact Hreu.
    - exact (wa_freed _ _ _ _ _ _ _ _ Aw).
  Qed.

  Lemma insert_all_ok R : forall w PF Q es O, pinv w PF Q R es O ->
    exists w' PF' es' po fn, insert_freed_all rd kw ps R w = (Ok tt, w') /\
      pinv w' PF' Q [] es' (rev (map (fun x => (x, w_tsn w)) R) ++ O) /\ kept Q w w' /\ (nd w' PF' + length fn <= nd w PF)%nat /\
      w_reusable w = po ++ w_reusable w' /\ w_reused w' = w_reused w ++ po /\ w_freed w' = w_freed w ∪ list_to_set fn.
  Proof.
    induction R as [|x R IH]; intros w PF Q es O H; cbn [insert_freed_all].
    - exists w, PF, es, [], []. split; [reflexivity|]. split; [exact H|]. split; [apply kept_refl|]. split; [cbn; lia|]. split; [reflexivity|].
      split; [now rewrite app_nil_r|]. cbn. set_solver.
    - unfold wbind at 1. unfold modify at 1. unfold wbind at 1. unfold gets at 1.
      destruct (insert_step w PF Q R es O x H) as (w1 & PF1 & es1 & po1 & fn1 & E1 & H1 & K1 & N1 & A1 & B1 & C1).
      unfold wbind at 1. cbn [w_tsn set_dirty]. rewrite E1.
      destruct (IH w1 PF1 Q es1 _ H1) as (w2 & PF2 & es2 & po2 & fn2 & E2 & H2 & K2 & N2 & A2 & B2 & C2).
      exists w2, PF2, es2, (po1 ++ po2), (fn1 ++ fn2). split; [exact E2|].
      split; [|split; [eapply kept_trans; eassumption|split; [rewrite app_length; lia|split; [|split]]]].
      + rewrite (kp_tsn _ _ _ K1) in H2. cbn [map rev]. rewrite <- app_assoc. exact H2.
      + rewrite A1, A2. lassoc.
      + rewrite B2, B1. lassoc.
      + rewrite C2, C1, list_to_set_app_L. set_solver.
  Qed.

  Lemma set_freed_inv w PF Q es O R : pinv w PF Q [] es O -> R ≡ₚ elements (w_freed w) -> pinv (set_freed ∅ w) PF Q R es O.
  Proof.
    intros [I1 [I2 I2'] I3 I4 I5 I6 I7 I8 I9 F1 F2 F3 F4] HR. constructor; auto.
    split; [exact I2|]. cbn [w_freed set_freed w_reusable w_next_page]. rewrite <- I2', elements_empty, HR. solve_Permutation.
  Qed.

  Lemma process_loop_ok ford (Hford : forall s, ford s ≡ₚ elements s) fuel : forall w PF Q es O,
    pinv w PF Q [] es O ->
    (w_reused w = [] /\ w_freed w = ∅) \/ (length (w_reusable w) + nd w PF + 2 <= fuel)%nat ->
    exists w' PF' es' fs, process_freed_loop rd kw ps ford fuel w = (Ok tt, w') /\
      pinv w' PF' Q [] es' (map (fun x => (x, w_tsn w)) fs ++ O) /\ kept Q w w' /\ w_reused w' = [] /\ w_freed w' = ∅.
  Proof.
    induction fuel as [|fuel IH]; intros w PF Q es O H Hf; cbn [process_freed_loop];
      unfold wbind at 1; unfold gets at 1; unfold wbind at 1; unfold gets at 1.
    - destruct Hf as [[Hf0 Hf]|Hf]; [|lia]. rewrite Hf0, (bool_decide_eq_true_2 _ Hf). cbn [is_nil andb].
      exists w, PF, es, []. split; [reflexivity|]. split; [exact H|]. split; [apply kept_refl|]. auto.
    - destruct (is_nil (w_reused w) && bool_decide (w_freed w = ∅)) eqn:Ed.
      { apply andb_true_iff in Ed as [E1 E2]. apply bool_decide_eq_true in E2. destruct (w_reused w) eqn:Er; [|discriminate].
        exists w, PF, es, []. split; [reflexivity|]. split; [exact H|]. split; [apply kept_refl|]. auto. }
      destruct Hf as [[Hf1 Hf2]|Hf].
      { exfalso. rewrite Hf1, (bool_decide_eq_true_2 _ Hf2) in Ed. discriminate. }
      unfold wbind at 1. unfold gets at 1.
      destruct (remove_reused_ok (length (w_reused w) + length (w_reusable w)) w PF Q es O H ltac:(lia)) as (w1 & PF1 & es1 & E1 & H1 & K1 & R1 & N1 & L1).
      unfold wbind at 1. rewrite E1. unfold wbind at 1. unfold gets at 1. unfold wbind at 1. unfold modify at 1.
      pose proof (set_freed_inv w1 PF1 Q es1 O (ford (w_freed w1)) H1 (Hford _)) as H1'.
      destruct (insert_all_ok _ _ _ _ _ _ H1') as (w2 & PF2 & es2 & po & fn & E2 & H2 & K2 & N2 & A2 & B2 & C2).
      unfold wbind at 1. rewrite E2. cbn [w_tsn set_freed w_reusable w_reused w_freed] in *.
      assert (N1' : nd (set_freed ∅ w1) PF1 = nd w1 PF1) by reflexivity. rewrite N1' in N2.
      assert (K12 : kept Q w w2).
      { eapply kept_trans; [exact K1|]. destruct K2 as [D1 D2 D3 D4 D5 D6]. constructor; auto. }
      destruct (IH w2 PF2 Q es2 _ H2) as (w3 & PF3 & es3 & fs & E3 & H3 & K3 & R3 & F3).
      { rewrite B2, C2, R1, A2 in *. cbn [app]. destruct po as [|a po]; [|right; cbn [app length] in *; rewrite app_length in *; lia].
        destruct fn as [|f fn]; [left; split; [reflexivity|set_solver]|right; cbn [app length] in *; lia]. }
      exists w3, PF3, es3, (fs ++ rev (ford (w_freed w1))). split; [exact E3|]. split; [|split; [eapply kept_trans; eassumption|auto]].
      rewrite (kp_tsn _ _ _ K12) in H3. rewrite (kp_tsn _ _ _ K1) in H3. rewrite map_app, map_rev, <- app_assoc. exact H3.
  Qed.

  Lemma process_freed_ok ford (Hford : forall s, ford s ≡ₚ elements s) w PF Q es O :
    pinv w PF Q [] es O ->
    exists w' PF' es' fs, process_freed_page_ids rd kw ps ford w = (Ok tt, w') /\
      pinv w' PF' Q [] es' (map (fun x => (x, w_tsn w)) fs ++ O) /\ kept Q w w' /\ w_reused w' = [] /\ w_freed w' = ∅.
  Proof.
    intros H. unfold process_freed_page_ids. unfold wbind at 1. unfold gets at 1. unfold wbind at 1. unfold gets at 1.
    eapply process_loop_ok; [exact Hford|exact H|right].
    pose proof (nd_length w PF). pose proof (pi_cover _ _ _ _ _ _ H) as [H2 Hc]. apply Permutation_length in Hc.
    rewrite seqN_len, !app_length in Hc. lia.
  Qed.

  (** Every page of the file is in exactly one place. *)
  Lemma pinv_done w PF Q es O : pinv w PF Q [] es O -> w_reused w = [] -> w_freed w = ∅ ->
    PF ++ Q ++ map fst (pairs es) ≡ₚ seqN 2 (N.to_nat (w_next_page w - 2)).
  Proof.
    intros [I1 [I2 I2'] I3 I4 I5 I6 I7 I8 I9 F1 F2 F3 F4] Hr Hf. rewrite Hr, Hf in *. rewrite I5. rewrite <- I2', elements_empty, !map_app. cbn [map]. solve_Permutation.
  Qed.
End process.
