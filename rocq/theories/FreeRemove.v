(** Removal from the free list, and the giving up of pages copied in the same transaction. *)
From Verif Require Export FreeListProofs.
Local Open Scope N_scope.

(** Like [acc], but the root of the free list may change and copied pages may be given up. *)
Record wacc_by (rd : snapshot) (P : list N) (w : writer) (P' : list N) (w' : writer)
    (popped : list (N * N)) (k : nat) (fn : list N) : Prop := {
  wa_reusable : w_reusable w = popped ++ w_reusable w';
  wa_reused : w_reused w' = w_reused w ++ popped;
  wa_next : w_next_page w' = w_next_page w + N.of_nat k;
  wa_perm : P' ++ fn ≡ₚ P ++ map fst popped ++ seqN (w_next_page w) k;
  wa_freed : w_freed w' = w_freed w ∪ list_to_set fn;
  wa_out : forall q, q ∉ P -> q ∉ map fst popped ++ seqN (w_next_page w) k -> w_dirty w' !! q = w_dirty w !! q;
  wa_pool : forall Q, pool_ok w (P ++ Q) -> pool_ok w' (P' ++ Q);
  wa_keep : forall q, is_Some (w_dirty w !! q) -> q ∉ fn -> is_Some (w_dirty w' !! q);
  wa_new : forall q, q ∈ map fst popped ++ seqN (w_next_page w) k -> q ∉ fn -> is_Some (w_dirty w' !! q);
  wa_dom : forall q, is_Some (w_dirty w' !! q) -> is_Some (w_dirty w !! q) \/ q ∈ map fst popped ++ seqN (w_next_page w) k;
  wa_loaded : forall q, loaded w q -> q ∉ fn -> loaded w' q;
  wa_coh : coh rd w -> coh rd w';
  wa_tsn : w_tsn w' = w_tsn w;
  wa_pos : w_next_pos w' = w_next_pos w;
  wa_eroot : w_events_root w' = w_events_root w;
  wa_troot : w_tags_root w' = w_tags_root w;
  wa_kroot : w_tracking_root w' = w_tracking_root w }.
Definition wacc rd P w P' w' : Prop := exists popped k fn, wacc_by rd P w P' w' popped k fn.

Section wacc.
  Context (rd : snapshot).

  Lemma acc_by_wacc P w P' w' po k fn r : acc_by rd P w P' w' po k fn -> wacc_by rd P w P' (set_free_root r w') po k fn.
  Proof.
    intros H. destruct H as [A1 A2 A3 A4 A5 A6 A7 A8 A9 A10 A11 A12 A13 A14 A15 A16 A17 A18 A19]. constructor; auto.
    intros Q HQ. destruct (A7 Q HQ) as [B1 B2 B3 B4 B5 B6 B7]. constructor; auto.
  Qed.
  Lemma acc_wacc P w P' w' r : acc rd P w P' w' -> wacc rd P w P' (set_free_root r w').
  Proof. intros (po & k & fn & H). exists po, k, fn. now apply acc_by_wacc. Qed.
  Lemma wacc_of_acc P w P' w' : acc rd P w P' w' -> wacc rd P w P' w'.
  Proof.
    intros H. replace w' with (set_free_root (w_free_root w') w') by now destruct w'. now apply acc_wacc.
  Qed.
  Lemma wacc_perm_l P1 P2 w P' w' : P1 ≡ₚ P2 -> wacc rd P1 w P' w' -> wacc rd P2 w P' w'.
  Proof.
    intros HP (po & k & fn & H). exists po, k, fn. destruct H. constructor; auto.
    - now rewrite <- HP.
    - intros q Hq. apply wa_out0. now rewrite HP.
    - intros Q HQ. apply wa_pool0. eapply pool_ok_perm; [|exact HQ]. now rewrite HP.
  Qed.
  Lemma wacc_trans P w P' w' P'' w'' : wacc rd P w P' w' -> wacc rd P' w' P'' w'' -> wacc rd P w P'' w''.
  Proof.
    intros (po1 & k1 & f1 & H1) (po2 & k2 & f2 & H2). exists (po1 ++ po2), (k1 + k2)%nat, (f2 ++ f1).
    destruct H1 as [A1 A2 A3 A4 A5 A6 A7 A8 A9 A10 A11 A12 A13 A14 A15 A16 A17].
    destruct H2 as [B1 B2 B3 B4 B5 B6 B7 B8 B9 B10 B11 B12 B13 B14 B15 B16 B17].
    assert (Hfr : map fst (po1 ++ po2) ++ seqN (w_next_page w) (k1 + k2) ≡ₚ
                  (map fst po1 ++ seqN (w_next_page w) k1) ++ (map fst po2 ++ seqN (w_next_page w') k2)).
    { rewrite map_app, seqN_app, A3. solve_Permutation. }
    constructor.
    - rewrite A1, B1. now rewrite app_assoc.
    - rewrite B2, A2. now rewrite app_assoc.
    - lia.
    - rewrite Hfr. transitivity ((P'' ++ f2) ++ f1); [solve_Permutation|]. rewrite B4.
      transitivity ((P' ++ f1) ++ map fst po2 ++ seqN (w_next_page w') k2); [solve_Permutation|]. rewrite A4. solve_Permutation.
    - rewrite B5, A5, list_to_set_app_L. set_solver.
    - intros q Hq Hf. rewrite Hfr in Hf. rewrite B6; [apply A6; set_solver| |set_solver].
      intros Hq'. assert (q ∈ P' ++ f1) as Hin by set_solver. rewrite A4 in Hin. set_solver.
    - intros Q HQ. auto.
    - intros q Hq Hf. apply B8; [apply A8; set_solver|set_solver].
    - intros q Hq Hf. rewrite Hfr in Hq. apply elem_of_app in Hq as [Hq|Hq]; [apply B8; [apply A9; set_solver|set_solver]|apply B9; set_solver].
    - intros q Hq. rewrite Hfr. destruct (B10 q Hq) as [H|H]; [|set_solver]. destruct (A10 q H) as [H'|H']; [now left|set_solver].
    - intros q Hq Hf. apply B11; [apply A11; set_solver|set_solver].
    - auto.
    - congruence.
    - congruence.
    - congruence.
    - congruence.
    - congruence.
  Qed.

  Lemma wacc_pool P w P' w' Q : wacc rd P w P' w' -> pool_ok w (P ++ Q) -> pool_ok w' (P' ++ Q).
  Proof. intros (po & k & fn & H) HQ. exact (wa_pool _ _ _ _ _ _ _ _ H Q HQ). Qed.
  Lemma wacc_coh P w P' w' : wacc rd P w P' w' -> coh rd w -> coh rd w'.
  Proof. intros (po & k & fn & H). exact (wa_coh _ _ _ _ _ _ _ _ H). Qed.
  Lemma wacc_fresh_notin P w P' w' po k fn Q q :
    wacc_by rd P w P' w' po k fn -> pool_ok w (P ++ Q) -> q ∈ P ++ Q -> q ∉ map fst po ++ seqN (w_next_page w) k.
  Proof.
    intros H [H1 H2 _ _ _ _ _] Hq Hf. rewrite (wa_reusable _ _ _ _ _ _ _ _ H), map_app in H1, H2.
    apply elem_of_app in Hf as [Hf|Hf].
    - apply NoDup_app in H1 as (_ & H1 & _). apply (H1 q Hq). set_solver.
    - apply elem_of_seqN in Hf. specialize (H2 q ltac:(set_solver)). lia.
  Qed.
  Lemma wacc_fn_notin P w P' w' po k fn Q q :
    wacc_by rd P w P' w' po k fn -> pool_ok w (P ++ Q) -> q ∈ P' ++ Q -> q ∉ fn.
  Proof.
    intros H HQ Hq Hf. pose proof (wa_pool _ _ _ _ _ _ _ _ H Q HQ) as [_ _ _ _ _ H4 _].
    apply (H4 q); [|set_solver]. rewrite (wa_freed _ _ _ _ _ _ _ _ H). apply elem_of_union. right. now apply elem_of_list_to_set.
  Qed.
  Lemma wacc_dirty P w P' w' Q q :
    wacc rd P w P' w' -> pool_ok w (P ++ Q) -> q ∈ Q -> w_dirty w' !! q = w_dirty w !! q.
  Proof.
    intros (po & k & fn & A) Hp Hq. apply (wa_out _ _ _ _ _ _ _ _ A).
    - intros HqP. pose proof (po_nodup _ _ Hp) as H1. apply NoDup_app in H1 as (H1 & _ & _). apply NoDup_app in H1 as (_ & H1 & _). exact (H1 q HqP Hq).
    - eapply wacc_fresh_notin; [exact A|exact Hp|set_solver].
  Qed.
  Lemma wacc_view P w P' w' Q q :
    wacc rd P w P' w' -> pool_ok w (P ++ Q) -> q ∈ Q -> vget rd w' q = vget rd w q.
  Proof. intros A Hp Hq. unfold vget. now rewrite (wacc_dirty _ _ _ _ _ _ A Hp Hq). Qed.
  Lemma wacc_loaded P w P' w' Q q :
    wacc rd P w P' w' -> pool_ok w (P ++ Q) -> q ∈ P' ++ Q -> loaded w q -> loaded w' q.
  Proof.
    intros (po & k & fn & H) HQ Hq Hl. apply (wa_loaded _ _ _ _ _ _ _ _ H); [exact Hl|].
    eapply wacc_fn_notin; eassumption.
  Qed.
  Lemma wacc_keep P w P' w' Q q :
    wacc rd P w P' w' -> pool_ok w (P ++ Q) -> q ∈ P' ++ Q -> is_Some (w_dirty w !! q) -> is_Some (w_dirty w' !! q).
  Proof.
    intros (po & k & fn & H) HQ Hq Hl. apply (wa_keep _ _ _ _ _ _ _ _ H); [exact Hl|].
    eapply wacc_fn_notin; eassumption.
  Qed.

  Lemma free_ok p w : exists w', append_freed_page_id p w = (Ok tt, w') /\ wacc_by rd [p] w [] w' [] 0 [p] /\
    w_free_root w' = w_free_root w.
  Proof.
    unfold append_freed_page_id. destruct (decide (p ∈ w_freed w)) as [Hf|Hf].
    - exists w. split; [reflexivity|]. split; [|reflexivity]. constructor; cbn [app map seqN]; auto.
      + now rewrite app_nil_r.
      + lia.
      + cbn. set_solver.
      + intros Q HQ. exfalso. apply (po_freed _ _ HQ p Hf). set_solver.
      + intros q Hq. inversion Hq.
    - exists (set_dirty (delete p (w_dirty w)) (set_freed ({[p]} ∪ w_freed w) w)). split; [reflexivity|]. split; [|reflexivity].
      constructor; cbn [app map seqN]; try reflexivity; auto.
      + cbn. now rewrite app_nil_r.
      + cbn. lia.
      + cbn. set_solver.
      + intros q Hq _. cbn. rewrite lookup_delete_ne; [reflexivity|]. set_solver.
      + apply (acc_pool_intro [p] w [] (set_dirty (delete p (w_dirty w)) (set_freed ({[p]} ∪ w_freed w) w)) [] 0 [p]); auto.
        * cbn. lia.
        * cbn. set_solver.
        * intros q Hq. apply elem_of_list_singleton in Hq as ->. apply lookup_delete.
        * cbn. intros q [n Hq]. apply lookup_delete_Some in Hq as [_ Hq]. eauto.
      + intros q Hq Hn. cbn. rewrite lookup_delete_ne; [exact Hq|]. set_solver.
      + intros q Hq. inversion Hq.
      + cbn. intros q [n Hq]. apply lookup_delete_Some in Hq as [_ Hq]. eauto.
      + intros q [Hq|Hq] Hn; [left|right; exact Hq]. cbn [w_dirty set_dirty]. rewrite lookup_delete_ne; [exact Hq|]. set_solver.
  Qed.
  Lemma wacc_by_frame_r Q P w P' w' po k fn : wacc_by rd P w P' w' po k fn -> wacc_by rd (P ++ Q) w (P' ++ Q) w' po k fn.
  Proof.
    intros H. destruct H. constructor; auto.
    - transitivity ((P' ++ fn) ++ Q); [solve_Permutation|]. rewrite wa_perm0. solve_Permutation.
    - intros q Hq. apply wa_out0. set_solver.
    - intros R HR. eapply pool_ok_perm; [|apply (wa_pool0 (Q ++ R)); eapply pool_ok_perm; [|exact HR]]; solve_Permutation.
  Qed.
  Lemma wacc_frame_r Q P w P' w' : wacc rd P w P' w' -> wacc rd (P ++ Q) w (P' ++ Q) w'.
  Proof. intros (po & k & fn & H). exists po, k, fn. now apply wacc_by_frame_r. Qed.
  Lemma free_all_ok G : forall w, exists w', free_all G w = (Ok tt, w') /\ wacc rd G w [] w' /\ w_free_root w' = w_free_root w /\
    list_to_set G ⊆ w_freed w'.
  Proof.
    induction G as [|p G IH]; intros w; cbn [free_all].
    - exists w. split; [reflexivity|]. split; [apply wacc_of_acc, acc_refl|]. split; [reflexivity|set_solver].
    - destruct (free_ok p w) as (w1 & E1 & A1 & R1). unfold wbind at 1. rewrite E1.
      destruct (IH w1) as (w2 & E2 & A2 & R2 & F2). exists w2. split; [exact E2|]. split; [|split; [congruence|]].
      + eapply wacc_trans; [|exact A2]. exact (wacc_frame_r G [p] w [] w1 (ex_intro _ _ (ex_intro _ _ (ex_intro _ _ A1)))).
      + destruct A2 as (po & k & fn & A2). cbn [list_to_set]. apply union_subseteq. split; [|exact F2].
        rewrite (wa_freed _ _ _ _ _ _ _ _ A2), (wa_freed _ _ _ _ _ _ _ _ A1). cbn. set_solver.
  Qed.
End wacc.

Lemma get_dirty_freed p w q w' : get_dirty_page_id p w = (Ok q, w') -> q = p \/ p ∈ w_freed w'.
Proof.
  unfold get_dirty_page_id. destruct (decide (p ∈ w_freed w)); [discriminate|].
  destruct (w_dirty w !! p); [intros [= <- _]; now left|].
  unfold wbind. set (w0 := set_freed _ _). assert (H0 : p ∈ w_freed w0) by (unfold w0; cbn; set_solver).
  unfold alloc_page_id. destruct (w_reusable w0) as [|[a b] r]; cbn;
    (destruct (w_deser w !! p); [|discriminate]; intros [= _ <-]; right; exact H0).
Qed.
Lemma get_dirty_mono p w r w' : get_dirty_page_id p w = (r, w') -> w_freed w ⊆ w_freed w'.
Proof.
  unfold get_dirty_page_id. destruct (decide (p ∈ w_freed w)); [intros [= _ <-]; reflexivity|].
  destruct (w_dirty w !! p); [intros [= _ <-]; reflexivity|].
  unfold wbind. set (w0 := set_freed _ _). assert (H0 : w_freed w ⊆ w_freed w0) by (unfold w0; cbn; set_solver).
  unfold alloc_page_id. destruct (w_reusable w0) as [|[a b] r']; cbn;
    (destruct (w_deser w !! p); intros [= _ <-]; exact H0).
Qed.
(** A replaced node has been given up, if the walk went above the node it started from. *)
Lemma propagate_freed {K} (ops : tree_ops K) kw ps st : t_check_always ops = false -> t_cow ops = true ->
  forall ri w old new w' si', propagate ops kw ps st ri None w = (Ok (Some (old, new), si'), w') ->
  w_freed w ⊆ w_freed w' /\ (st = [] /\ ri = Some (old, new) \/ old ∈ w_freed w').
Proof.
  intros Hca Hcow. induction st as [|[p i] st IH]; intros ri w old new w' si'; cbn [propagate].
  { intros [= -> _ <-]. split; [reflexivity|]. auto. }
  rewrite Hcow. cbn [negb andb].
  unfold wbind at 1. destruct (get_dirty_page_id p w) as [[dp|e] w1] eqn:E1; [|discriminate].
  unfold wbind at 1. unfold get_mut_dirty at 1. destruct (w_dirty w1 !! dp) as [n|]; [|discriminate].
  destruct (t_int ops n) as [nd|]; [|discriminate].
  unfold wbind at 1, lift at 1. destruct (match ri with Some (old, new) => t_repl ops nd i old new | None => Ok nd end) as [nd1|e]; [|discriminate].
  unfold wbind at 1. unfold put_dirty at 1. 
  set (w2 := set_dirty _ w1). rewrite Hca. cbn [orb]. rewrite andb_false_r. intros H.
  apply IH in H as [Hm H]. assert (Hm2 : w_freed w ⊆ w_freed w').
  { etransitivity; [eapply get_dirty_mono; exact E1|exact Hm]. }
  split; [exact Hm2|]. right. destruct H as [[_ H]|H]; [|exact H].
  unfold info in H. destruct (N.eqb_spec p dp); [discriminate|]. injection H as -> ->.
  apply get_dirty_freed in E1 as [E1|E1]; [congruence|]. exact (Hm old E1).
Qed.

Lemma position_mid x l1 l2 : x ∉ l1 -> position x (l1 ++ x :: l2) = Some (length l1).
Proof.
  induction l1 as [|y l1 IH]; intros H; cbn [position app length].
  - now rewrite N.eqb_refl.
  - apply not_elem_of_cons in H as [H1 H2]. destruct (N.eqb_spec y x); [congruence|]. now rewrite IH.
Qed.
Lemma remove_child_same (ks : list N) csL c c' csR :
  remove_child (INode ks (csL ++ c :: csR)) (length csL) = remove_child (INode ks (csL ++ c' :: csR)) (length csL).
Proof. unfold remove_child. cbn [in_keys in_children]. rewrite !list_lookup_middle, !vec_remove_app by reflexivity. reflexivity. Qed.
Lemma acc_freed_mono rd P w P' w' : acc rd P w P' w' -> w_freed w ⊆ w_freed w'.
Proof. intros (po & k & fn & A). rewrite (acc_freed _ _ _ _ _ _ _ _ A). set_solver. Qed.

Section removal.
  Context (rd : snapshot) (kw : nat) (ps : N) (Hps : ps_ok ps).

  (** What is left of an entry after the removal of [x]. *)
  Definition shrunk (w : writer) (t x : N) (ids : list N) (new : list flent) : Prop :=
    (new = [] /\ ids = [x]) \/
    exists ids' Pv', new = [(t, (ids', Pv'))] /\ ids ≡ₚ x :: ids' /\ (forall q, q ∈ Pv' -> loaded w q).

  Lemma leaf_remove_ok w leaf e1 t ids Pv e2 vs1 v vs2 P1 P2 Q x :
    coh rd w -> pool_ok w ([leaf] ++ (P1 ++ Pv ++ P2) ++ Q) -> loaded w leaf ->
    vget rd w leaf = Some (NFreeLeaf (FlLeaf (map fst (e1 ++ (t, (ids, Pv)) :: e2)) (vs1 ++ v :: vs2))) ->
    listrep flval (vget rd w) vs1 P1 (map snd e1) -> flval (vget rd w) v Pv (ids, Pv) -> listrep flval (vget rd w) vs2 P2 (map snd e2) ->
    x ∈ ids -> (forall q, q ∈ Pv -> loaded w q) ->
    exists w' dl rem Pl' vs' new,
      leaf_remove rd kw ps t x leaf (length e1) (fv_root v) w = (Ok (dl, is_nil (e1 ++ new ++ e2), rem), w') /\
      acc rd ([leaf] ++ P1 ++ Pv ++ P2) w ([dl] ++ Pl' ++ rem) w' /\
      w_dirty w' !! dl = Some (NFreeLeaf (FlLeaf (map fst (e1 ++ new ++ e2)) vs')) /\
      listrep flval (vget rd w') vs' Pl' (map snd (e1 ++ new ++ e2)) /\
      shrunk w' t x ids new /\ (leaf = dl \/ leaf ∈ w_freed w').
  Proof.
    intros Hc Hp Hld Hn Hv1 Hv Hv2 Hx Hlv.
    assert (El1 : length vs1 = length e1) by (apply listrep_length in Hv1; now rewrite map_length in Hv1).
    rewrite map_app in Hn. cbn [map fst] in Hn.
    assert (Ek : (map fst e1 ++ t :: map fst e2) !! length e1 = Some t) by (apply list_lookup_middle; now rewrite map_length).
    assert (Ev : (vs1 ++ v :: vs2) !! length e1 = Some v) by (now apply list_lookup_middle).
    assert (Eins : forall v', <[length e1 := v']> (vs1 ++ v :: vs2) = vs1 ++ v' :: vs2) by (intros v'; rewrite <- El1; apply list_insert_mid).
    assert (Erk : vec_remove (length e1) (map fst e1 ++ t :: map fst e2) = map fst e1 ++ map fst e2).
    { rewrite <- (map_length fst e1). apply vec_remove_app. }
    assert (Erv : vec_remove (length e1) (vs1 ++ v :: vs2) = vs1 ++ vs2) by (rewrite <- El1; apply vec_remove_app).
    assert (Hnn : forall new, new <> [] -> is_nil (e1 ++ new ++ e2) = false) by (intros [|a new] H; [congruence|]; now destruct e1).
    unfold leaf_remove. destruct Hv as [_ [(Hr & Epv & Eids)|(Hr & Eids & Ht)]]; cbn [fst snd] in *.
    - (* in the leaf *)
      rewrite Hr, N.eqb_refl. subst Pv. cbn [app] in Hp.
      destruct (cow_ok rd w leaf _ _ Hc Hld Hn Hp) as (dl & w1 & E1 & A1 & D1).
      pose proof (acc_pool' rd _ _ _ _ _ A1 Hp) as Hp1.
      unfold wbind at 1. rewrite E1. unfold wbind at 1. unfold get_mut_dirty at 1. rewrite D1. cbn [fl_keys fl_values]. rewrite Ev, Eids.
      destruct (position_split x ids Hx) as (l1 & l2 & -> & Hx1 & Epos). rewrite Epos. cbv zeta. rewrite vec_remove_app, Erk, Erv, Eins.
      assert (Hfr : forall w2, acc rd [dl] w1 [dl] w2 ->
        acc rd ([leaf] ++ P1 ++ [] ++ P2) w ([dl] ++ (P1 ++ P2) ++ []) w2 /\ (forall q, q ∈ P1 ++ P2 -> vget rd w2 q = vget rd w q) /\
        (leaf = dl \/ leaf ∈ w_freed w2)).
      { intros w2 A2. split; [|split].
        - rewrite app_nil_r. cbn [app]. change (leaf :: P1 ++ P2) with ([leaf] ++ (P1 ++ P2)). change (dl :: P1 ++ P2) with ([dl] ++ (P1 ++ P2)).
          eapply acc_trans; apply acc_frame_r; eassumption.
        - intros q Hq. transitivity (vget rd w1 q); [eapply acc_view; [exact A2|exact Hp1|set_solver]|eapply acc_view; [exact A1|exact Hp|set_solver]].
        - destruct (get_dirty_freed _ _ _ _ E1) as [->|H]; [now left|right]. eapply acc_freed_mono; eassumption. }
      destruct (is_nil (l1 ++ l2)) eqn:En.
      + destruct (l1 ++ l2) eqn:El; [|discriminate]. apply app_nil in El as [-> ->]. cbn [fl_keys].
        destruct (put_dirty_ok rd w1 dl (NFreeLeaf (FlLeaf (map fst e1 ++ map fst e2) (vs1 ++ vs2))) _ D1) as (w2 & E2 & A2 & D2).
        unfold wbind at 1. rewrite E2. destruct (Hfr w2 A2) as (H1 & H2 & H3).
        exists w2, dl, [], (P1 ++ P2), (vs1 ++ vs2), []. split; [|split; [exact H1|split; [|split; [|split; [|exact H3]]]]].
        * cbn [app andb]. unfold ret. do 4 f_equal. destruct e1; cbn; [now destruct e2|reflexivity].
        * rewrite D2, lookup_insert, map_app. reflexivity.
        * cbn [app]. rewrite map_app. apply listrep_app; (eapply listrep_frame; [intros; eapply flval_frame; eassumption|eassumption|]); intros q Hq; apply H2; set_solver.
        * left. auto.
      + destruct (put_dirty_ok rd w1 dl (NFreeLeaf (FlLeaf (map fst e1 ++ t :: map fst e2) (vs1 ++ FlValue (l1 ++ l2) (fv_root v) :: vs2))) _ D1) as (w2 & E2 & A2 & D2).
        rewrite Hr in E2. cbn [fl_keys]. unfold wbind at 1. rewrite Hr, E2. destruct (Hfr w2 A2) as (H1 & H2 & H3).
        exists w2, dl, [], (P1 ++ P2), (vs1 ++ FlValue (l1 ++ l2) 0 :: vs2), [(t, (l1 ++ l2, []))]. split; [|split; [exact H1|split; [|split; [|split; [|exact H3]]]]].
        * rewrite Hnn by discriminate. reflexivity.
        * rewrite D2, lookup_insert, map_app, Hr. reflexivity.
        * rewrite map_app. apply listrep_app; [eapply listrep_frame; [intros; eapply flval_frame; eassumption|exact Hv1|intros q Hq; apply H2; set_solver]|].
          cbn [app map]. apply (lr_cons flval _ _ _ [] P2); [split; [reflexivity|]; left; auto|].
          eapply listrep_frame; [intros; eapply flval_frame; eassumption|exact Hv2|intros q Hq; apply H2; set_solver].
        * right. exists (l1 ++ l2), []. split; [reflexivity|]. split; [solve_Permutation|]. intros q Hq. inversion Hq.
    - (* in a tree *)
      rewrite (proj2 (N.eqb_neq _ _) Hr).
      assert (Hpv : pool_ok w (Pv ++ ([leaf] ++ P1 ++ P2) ++ Q)) by (eapply pool_ok_perm; [|exact Hp]; solve_Permutation).
      destruct (tsn_remove_ok rd kw ps Hps w Pv _ (fv_root v) ids x Hc Hpv Ht Hx) as (w1 & r & rem & Pv' & E1 & A1 & Hcase).
      { apply Hlv. destruct (tsntree_head _ _ _ _ Ht) as [P' ->]. now left. }
      pose proof (acc_pool' rd _ _ _ _ _ A1 Hpv) as Hp1.
      unfold wbind at 1. rewrite E1.
      assert (Hp1' : pool_ok w1 (leaf :: (P1 ++ P2 ++ Pv' ++ rem) ++ Q)) by (eapply pool_ok_perm; [|exact Hp1]; solve_Permutation).
      destruct (cow_ok rd w1 leaf (NFreeLeaf (FlLeaf (map fst e1 ++ t :: map fst e2) (vs1 ++ v :: vs2))) ((P1 ++ P2 ++ Pv' ++ rem) ++ Q)) as (dl & w2 & E2 & A2 & D2).
      { eapply acc_coh'; eassumption. }
      { eapply acc_loaded'; [exact A1|exact Hpv|set_solver|exact Hld]. }
      { rewrite (acc_view rd _ _ _ _ _ leaf A1 Hpv) by set_solver. exact Hn. }
      { exact Hp1'. }
      assert (Hp1'' : pool_ok w1 ([leaf] ++ (P1 ++ P2 ++ Pv' ++ rem) ++ Q)) by exact Hp1'.
      pose proof (acc_pool' rd _ _ _ _ _ A2 Hp1'') as Hp2.
      unfold wbind at 1. rewrite E2. unfold wbind at 1. unfold get_mut_dirty at 1. rewrite D2. cbn [fl_keys fl_values].
      rewrite Ek, N.eqb_refl. cbn [negb].
      assert (Hlv1 : forall q, q ∈ Pv' ++ rem -> loaded w1 q) by (eapply acc_all_loaded; [exact A1|exact Hpv|exact Hlv]).
      assert (Hfr : forall w3, acc rd [dl] w2 [dl] w3 ->
        acc rd ([leaf] ++ P1 ++ Pv ++ P2) w ([dl] ++ (P1 ++ Pv' ++ P2) ++ rem) w3 /\
        (forall q, q ∈ P1 ++ P2 -> vget rd w3 q = vget rd w q) /\
        (forall q, q ∈ Pv' -> vget rd w3 q = vget rd w1 q) /\
        (forall q, q ∈ Pv' -> loaded w3 q) /\
        (leaf = dl \/ leaf ∈ w_freed w3)).
      { intros w3 A3.
        assert (Hvv : forall q, q ∈ P1 ++ P2 ++ Pv' ++ rem -> vget rd w3 q = vget rd w1 q).
        { intros q Hq. transitivity (vget rd w2 q); [eapply acc_view; [exact A3|exact Hp2|set_solver]|eapply acc_view; [exact A2|exact Hp1''|set_solver]]. }
        split; [|split; [|split; [|split]]].
        - apply (acc_perm_l rd (Pv ++ ([leaf] ++ P1 ++ P2))); [solve_Permutation|].
          eapply acc_trans; [apply acc_frame_r; exact A1|].
          apply (acc_perm_l rd ([leaf] ++ (P1 ++ P2 ++ Pv' ++ rem))); [solve_Permutation|].
          apply (acc_perm_r rd _ _ ([dl] ++ (P1 ++ P2 ++ Pv' ++ rem))); [solve_Permutation|].
          eapply acc_trans; apply acc_frame_r; eassumption.
        - intros q Hq. rewrite Hvv by set_solver. eapply acc_view; [exact A1|exact Hpv|set_solver].
        - intros q Hq. apply Hvv. set_solver.
        - intros q Hq. eapply acc_loaded'; [exact A3|exact Hp2|set_solver|]. eapply acc_loaded'; [exact A2|exact Hp1''|set_solver|]. apply Hlv1. set_solver.
        - destruct (get_dirty_freed _ _ _ _ E2) as [->|H]; [now left|right]. eapply acc_freed_mono; eassumption. }
      destruct r as [r'|].
      + destruct Hcase as (ids' & Ht' & Hids).
        assert (Hr' : r' <> 0).
        { assert (2 <= r'); [|lia]. apply (po_min _ _ Hp1). destruct (tsntree_head _ _ _ _ Ht') as [P' ->]. set_solver. }
        assert (Hend : exists w3, (if r' =? fv_root v then ret (dl, false, rem)
            else match (vs1 ++ v :: vs2) !! length e1 with
                 | None => fail Panic
                 | Some v0 => do! put_dirty dl (NFreeLeaf (FlLeaf (map fst e1 ++ t :: map fst e2) (<[length e1:=FlValue (fv_page_ids v0) r']> (vs1 ++ v :: vs2)))) in
                   ret (dl, false, rem) end) w2 = (Ok (dl, false, rem), w3) /\ acc rd [dl] w2 [dl] w3 /\
            w_dirty w3 !! dl = Some (NFreeLeaf (FlLeaf (map fst e1 ++ t :: map fst e2) (vs1 ++ FlValue [] r' :: vs2)))).
        { destruct (N.eqb_spec r' (fv_root v)) as [Eq|Hne].
          - exists w2. split; [reflexivity|]. split; [apply acc_refl|]. rewrite D2. repeat f_equal. destruct v as [vi vr]. cbn in Eids, Eq. now subst.
          - rewrite Ev, Eins, Eids.
            destruct (put_dirty_ok rd w2 dl (NFreeLeaf (FlLeaf (map fst e1 ++ t :: map fst e2) (vs1 ++ FlValue [] r' :: vs2))) _ D2) as (w3 & E3 & A3 & D3).
            exists w3. unfold wbind at 1. rewrite E3. split; [reflexivity|]. split; [exact A3|]. rewrite D3. apply lookup_insert. }
        destruct Hend as (w3 & E3 & A3 & D3). rewrite E3. destruct (Hfr w3 A3) as (H1 & H2 & H2' & H2'' & H3).
        exists w3, dl, rem, (P1 ++ Pv' ++ P2), (vs1 ++ FlValue [] r' :: vs2), [(t, (ids', Pv'))].
        split; [rewrite Hnn by discriminate; reflexivity|]. split; [exact H1|]. split; [rewrite D3, map_app; reflexivity|]. split; [|split; [|exact H3]].
        * rewrite map_app. apply listrep_app; [eapply listrep_frame; [intros; eapply flval_frame; eassumption|exact Hv1|intros q Hq; apply H2; set_solver]|].
          cbn [app map]. apply (lr_cons flval _ _ _ Pv' P2); [|eapply listrep_frame; [intros; eapply flval_frame; eassumption|exact Hv2|intros q Hq; apply H2; set_solver]].
          split; [reflexivity|]. right. cbn [fst snd fv_root fv_page_ids]. split; [exact Hr'|]. split; [reflexivity|].
          eapply tsntree_frame; [exact Ht'|exact H2'].
        * right. exists ids', Pv'. auto.
      + destruct Hcase as [-> ->]. rewrite Erk, Erv.
        destruct (put_dirty_ok rd w2 dl (NFreeLeaf (FlLeaf (map fst e1 ++ map fst e2) (vs1 ++ vs2))) _ D2) as (w3 & E3 & A3 & D3).
        cbv zeta. unfold wbind at 1. rewrite E3. cbn [fl_keys]. destruct (Hfr w3 A3) as (H1 & H2 & H2' & H2'' & H3). 
        exists w3, dl, rem, (P1 ++ P2), (vs1 ++ vs2), []. split; [|split; [exact H1|split; [|split; [|split; [|exact H3]]]]].
        * cbn [app]. unfold ret. do 4 f_equal. destruct e1; cbn; [now destruct e2|reflexivity].
        * rewrite D3, lookup_insert, map_app. reflexivity.
        * cbn [app]. rewrite map_app. apply listrep_app; (eapply listrep_frame; [intros; eapply flval_frame; eassumption|eassumption|]); intros q Hq; apply H2; set_solver.
        * left. auto.
  Qed.

  Lemma fl_shape_ops t get h p P ts : shape (fl_rm_ops t) flleaf get h p P ts <-> flshape get h p P ts.
  Proof. split; intros H; (eapply shape_ops; [| |exact H]; reflexivity). Qed.

  (** The walk up. *)
  Lemma fl_remove_up_ok w t hl leaf dl st root hr Pp pre post Q Pl es vs :
    path (fl_rm_ops t) flleaf (vget rd w) False hl leaf st root hr Pp pre post ->
    pool_ok w (Pp ++ (dl :: Pl) ++ Q) -> coh rd w -> stack_ok (fl_rm_ops t) w st ->
    w_dirty w !! dl = Some (NFreeLeaf (FlLeaf (map fst es) vs)) -> listrep flval (vget rd w) vs Pl (map snd es) ->
    (leaf = dl \/ leaf ∈ w_freed w) ->
    exists w' root1 rem P' X,
      fl_remove_up kw ps t leaf dl (is_nil es) st w = (Ok (info root root1, rem), w') /\
      acc rd (Pp ++ dl :: Pl) w (P' ++ rem) w' /\ flshape (vget rd w') hr root1 P' X /\
      X `sublist_of` pre ++ map TE es ++ post /\ toks_es X = toks_es (pre ++ map TE es ++ post) /\
      (root1 = root \/ root ∈ w_freed w' \/ root ∈ rem).
  Proof.
    intros Hpath Hp Hc Hst Hd Hvs Hfr.
    assert (Hkeep : exists w' root1 P', propagate (fl_rm_ops t) kw ps st (info leaf dl) None w = (Ok (info root root1, None), w') /\
      acc rd (Pp ++ dl :: Pl) w P' w' /\ flshape (vget rd w') hr root1 P' (pre ++ map TE es ++ post) /\ (root1 = root \/ root ∈ w_freed w')).
    { destruct (keep_up_ok (fl_rm_ops t) flleaf flleaf_frame rd kw ps (fl_rm_laws kw ps Hps t) eq_refl eq_refl
        w hl leaf dl st root hr Pp pre post Q (dl :: Pl) (map TE es) Hpath) as (w' & root1 & P' & E1 & A1 & Hs1); auto.
      { eapply sh_leaf; [apply dirty_vget; exact Hd|reflexivity|]. exists vs. auto. }
      exists w', root1, P'. split; [exact E1|]. split; [exact A1|]. split; [now apply fl_shape_ops in Hs1|].
      destruct (N.eq_dec root1 root) as [H|H]; [now left|right]. rewrite (info_diff root root1) in E1 by congruence.
      destruct (propagate_freed (fl_rm_ops t) kw ps _ eq_refl eq_refl _ _ _ _ _ _ E1) as [Hm [[-> Hi]|Hi]]; [|exact Hi].
      unfold info in Hi. destruct (N.eqb_spec leaf dl); [discriminate|]. injection Hi as -> ->. destruct Hfr as [->|Hfr]; [congruence|]. now apply Hm. }
    unfold fl_remove_up. destruct (is_nil es) eqn:En; [destruct st as [|[p i] st]|].
    - destruct Hkeep as (w' & root1 & P' & E1 & A1 & Hs & Hr). unfold wbind at 1. rewrite E1.
      exists w', root1, [], P', (pre ++ map TE es ++ post). rewrite app_nil_r. split; [reflexivity|]. split; [exact A1|]. split; [exact Hs|].
      split; [reflexivity|]. split; [reflexivity|]. destruct Hr; auto.
    - destruct es; [|discriminate]. inversion Hvs; subst. cbn [map app].
      assert (Hp' : pool_ok w (Pp ++ [dl] ++ Q)) by (eapply pool_ok_perm; [|exact Hp]; solve_Permutation).
      destruct (remove_up_ok (fl_rm_ops t) flleaf flleaf_frame rd kw ps (fl_rm_laws kw ps Hps t) eq_refl eq_refl
        w hl leaf p i st root hr Pp pre post ([dl] ++ Q) Hpath Hp' Hc Hst)
        as (dp & w1 & nn & ks & cs & ks' & cs' & w2 & w3 & root1 & P' & X & E1 & D1 & Ei & (csL & csR & -> & ->) & Er & E2 & HX & HXe & HsX & Hcase).
      unfold wbind at 1. rewrite E1. unfold wbind at 1. unfold get_mut_dirty at 1. rewrite D1.
      destruct nn; try discriminate Ei. cbn [fl_rm_ops t_int] in Ei. injection Ei as ->.
      assert (Erep : (match info leaf dl with Some (old, new) => repl_at Panic (INode ks (csL ++ leaf :: csR)) (length csL) old new
                      | None => Ok (INode ks (csL ++ leaf :: csR)) end) = Ok (INode ks (csL ++ dl :: csR))).
      { unfold info. destruct (N.eqb_spec leaf dl) as [->|Hne]; [reflexivity|]. unfold repl_at. cbn [in_keys in_children].
        rewrite list_lookup_middle by reflexivity. rewrite N.eqb_refl, list_insert_mid. reflexivity. }
      unfold wbind at 1. unfold lift at 1. rewrite Erep. cbn [in_children]. rewrite list_lookup_middle by reflexivity.
      rewrite N.eqb_refl. cbn [negb]. rewrite (remove_child_same ks csL leaf dl csR) in Er. unfold wbind at 1. unfold lift at 1. rewrite Er.
      cbn [fl_rm_ops t_mk] in E2. unfold wbind at 1. rewrite E2. cbn [in_keys in_children].
      assert (Hm12 : w_freed w1 = w_freed w2) by (unfold put_dirty in E2; injection E2 as <-; reflexivity).
      destruct Hcase as [(c' & -> & -> & E3 & A3)|(Hks & _ & E3 & A3)].
      + cbn [is_nil].
        assert (Eold : (match info p dp with Some (o, _) => o | None => dp end) = p).
        { unfold info. destruct (N.eqb_spec p dp); congruence. }
        rewrite Eold. cbv zeta. unfold wbind at 1. rewrite E3.
        exists w3, root1, [dl; dp], P', X. split; [reflexivity|]. split.
        { apply (acc_perm_r rd _ _ ((P' ++ [dp]) ++ [dl])); [solve_Permutation|]. now apply acc_frame_r. }
        split; [now apply fl_shape_ops in HsX|]. split; [exact HX|]. split; [exact HXe|].
        destruct (N.eq_dec root1 root) as [H|H]; [now left|right]. rewrite (info_diff root root1) in E3 by congruence.
        destruct (propagate_freed (fl_rm_ops t) kw ps _ eq_refl eq_refl _ _ _ _ _ _ E3) as [Hm [[-> Hi]|Hi]]; [|now left].
        injection Hi as -> ->. destruct (get_dirty_freed _ _ _ _ E1) as [->|H']; [right; set_solver|left]. apply Hm. now rewrite <- Hm12.
      + destruct ks' as [|k0 ks']; [congruence|]. cbn [is_nil]. unfold wbind at 1. rewrite E3.
        exists w3, root1, [dl], P', X. split; [reflexivity|]. split; [now apply acc_frame_r|].
        split; [now apply fl_shape_ops in HsX|]. split; [exact HX|]. split; [exact HXe|].
        destruct (N.eq_dec root1 root) as [H|H]; [now left|right]. rewrite (info_diff root root1) in E3 by congruence.
        destruct (propagate_freed (fl_rm_ops t) kw ps _ eq_refl eq_refl _ _ _ _ _ _ E3) as [Hm [[-> Hi]|Hi]]; [|now left].
        unfold info in Hi. destruct (N.eqb_spec p dp); [discriminate|]. injection Hi as -> ->.
        destruct (get_dirty_freed _ _ _ _ E1) as [->|H']; [congruence|left]. apply Hm. now rewrite <- Hm12.
    - destruct Hkeep as (w' & root1 & P' & E1 & A1 & Hs & Hr).
      exists w', root1, [], P', (pre ++ map TE es ++ post). rewrite app_nil_r. split; [|split; [exact A1|split; [exact Hs|split; [reflexivity|split; [reflexivity|destruct Hr; auto]]]]].
      destruct st; (unfold wbind at 1; rewrite E1; reflexivity).
  Qed.

  Lemma remove_free_ok w PF Q es tsn e1 t ids Pv e2 x :
    coh rd w -> pool_ok w (PF ++ Q) -> flrep (vget rd w) tsn (w_free_root w) PF es ->
    es = e1 ++ (t, (ids, Pv)) :: e2 -> x ∈ ids -> (forall q, q ∈ Pv -> loaded w q) ->
    exists w' PF' new, remove_free_page_id rd kw ps t x w = (Ok tt, w') /\ wacc rd PF w PF' w' /\
      flrep (vget rd w') tsn (w_free_root w') PF' (e1 ++ new ++ e2) /\ shrunk w' t x ids new.
  Proof.
    intros Hc Hp (h & ts & Hs & Ees & Hsrt & Hbd) Hes Hx Hlv. unfold remove_free_page_id.
    unfold wbind at 1. unfold gets at 1. unfold wbind at 1. unfold gets at 1.
    destruct (pool_height _ _ _ _ _ _ _ _ _ Hp Hs) as (h0 & Hh & Hs0). clear Hs. rename Hs0 into Hs. clear h. rename h0 into h.
    edestruct (descend_ok (fl_rm_ops t) flleaf flleaf_frame rd kw ps False (fun _ => True) (fl_rm_laws kw ps Hps t)
      (StronglySorted (clt N.compare)) (fun k => cle N.compare k t) (fun k => clt N.compare t k)
      (fun ks ks' H1 H2 => ssorted_sublist _ ks ks' H1 H2)
      (fun ks cs Hl Hk => choose_lin_law t ks cs Hl Hk)
      _ h (w_free_root w) w [] (w_free_root w) h [] [] [] PF ts Hh)
      as (w1 & leaf & st & Pp & pre & post & n & Pl & es1 & E1 & S1 & C1 & [hl Hpath] & Hn & Hleaf & Hlr & Hld & Hst & _ & Etk & EP & Hpre & Hpost).
    { constructor. }
    { now apply fl_shape_ops. }
    { exact Hc. }
    { constructor. }
    { left; reflexivity. }
    { left; reflexivity. }
    { rewrite app_nil_r. cbn [app]. exact (tsorted_ks N.compare (@fst N (list N * list N)) ts Hsrt). }
    { discriminate. }
    cbn [app] in Etk. rewrite app_nil_r in Etk. cbn [app] in EP.
    unfold wbind at 1. rewrite E1.
    pose proof (sim_acc rd PF w w1 S1 C1) as A1.
    destruct (get_page_ref_ok rd w1 leaf n C1 Hn) as (w1b & E1b & S1b & C1b & Hld').
    unfold wbind at 1. rewrite E1b.
    pose proof (sim_acc rd PF w1 w1b S1b C1b) as A1b.
    assert (Hv1 : forall q, vget rd w1b q = vget rd w1 q) by (intros q; now apply sim_view).
    assert (Hpath' : path (fl_rm_ops t) flleaf (vget rd w1b) False hl leaf st (w_free_root w) h Pp pre post).
    { eapply path_frame; [apply flleaf_frame|exact Hpath|auto]. }
    assert (Hst' : stack_ok (fl_rm_ops t) w1b st).
    { unfold stack_ok in *. eapply Forall_impl; [exact Hst|]. intros y [H1 _]. split; [eapply sim_loaded; eassumption|discriminate]. }
    assert (Hlr' : flleaf (vget rd w1b) n Pl es1) by (eapply flleaf_frame; [exact Hlr|auto]).
    rewrite <- Hv1 in Hn.
    assert (A1' : acc rd PF w PF w1b) by (eapply acc_trans; eassumption).
    assert (Hp1 : pool_ok w1b ([leaf] ++ Pl ++ Pp ++ Q)).
    { eapply pool_ok_perm; [|eapply acc_pool'; [exact A1'|exact Hp]]. rewrite <- EP. solve_Permutation. }
    clear Hpath Hst Hld Hlr. destruct Hlr' as (vs & -> & Hvs).
    rewrite <- Etk in Hsrt.
    destruct (search_split N.compare N_cmp_ok fst t pre es1 post Hsrt Hpre Hpost) as (Hpre' & Hpost' & Hes1).
    (* the entry is in this leaf *)
    assert (Hin : exists f1 f2, es1 = f1 ++ (t, (ids, Pv)) :: f2 /\ e1 = toks_es pre ++ f1 /\ e2 = f2 ++ toks_es post).
    { assert (Hin : (t, (ids, Pv)) ∈ es1).
      { assert (Hin : (t, (ids, Pv)) ∈ es) by (rewrite Hes; set_solver).
        rewrite <- Ees, <- Etk, !toks_es_app, toks_es_map, !elem_of_app in Hin. destruct Hin as [H|[H|H]]; [exfalso|exact H|exfalso].
        - specialize (Hpre' _ (proj1 (elem_toks_es _ _) H)). cbn in Hpre'. apply (proj1 (cltN _ _)) in Hpre'. exact (N.lt_irrefl _ Hpre').
        - specialize (Hpost' _ (proj1 (elem_toks_es _ _) H)). cbn in Hpost'. apply (proj1 (cltN _ _)) in Hpost'. exact (N.lt_irrefl _ Hpost'). }
      apply elem_of_list_split in Hin as (f1 & f2 & ->). exists f1, f2. split; [reflexivity|].
      assert (Heq : toks_es pre ++ (f1 ++ (t, (ids, Pv)) :: f2) ++ toks_es post = e1 ++ (t, (ids, Pv)) :: e2).
      { rewrite <- Hes, <- Ees, <- Etk, !toks_es_app, toks_es_map. reflexivity. }
      assert (Heq' : (toks_es pre ++ f1) ++ (t, (ids, Pv)) :: f2 ++ toks_es post = e1 ++ (t, (ids, Pv)) :: e2) by (rewrite <- Heq; lassoc). clear Heq. rename Heq' into Heq.
      assert (Hnd : forall a b, e1 ++ (t, (ids, Pv)) :: e2 = a ++ (t, (ids, Pv)) :: b -> (t, (ids, Pv)) ∉ a).
      { intros a b Hab Ha. apply tsorted_es in Hsrt. rewrite Etk, Ees, Hes, Hab, map_app in Hsrt.
        apply ss_app in Hsrt as (_ & _ & Hsrt). specialize (Hsrt t t). assert (clt N.compare t t) as Habs.
        - apply Hsrt; [|cbn; now left]. apply elem_of_list_In, in_map_iff. exists (t, (ids, Pv)). split; [reflexivity|now apply elem_of_list_In].
        - apply (proj1 (cltN _ _)) in Habs. exact (N.lt_irrefl _ Habs). }
      pose proof (Hnd _ _ eq_refl) as N1. pose proof (Hnd _ _ (eq_sym Heq)) as N2.
      apply app_eq_inv in Heq. destruct Heq as [(k & H1 & H2)|(k & H1 & H2)].
      - destruct k as [|a k]; [rewrite app_nil_r in H1; cbn in H2; injection H2 as <-; auto|].
        injection H2 as <- ->. exfalso. apply N2. rewrite H1. set_solver.
      - destruct k as [|a k]; [rewrite app_nil_r in H1; cbn in H2; injection H2 as <-; auto|].
        injection H2 as <- ->. exfalso. apply N1. rewrite H1. set_solver. }
    destruct Hin as (f1 & f2 & Ef & Ee1 & Ee2). subst es1.
    rewrite map_app in Hvs. cbn [map snd] in Hvs.
    destruct (listrep_split _ _ _ _ _ _ Hvs) as (vs1 & vs2' & P1 & P2' & -> & -> & El1 & Hv1r & Hv2r).
    inversion Hv2r as [|v vs2 Pv0 P2 a l Hv Hv2]; subst vs2' P2' a l. pose proof Hv as [EPv _]. cbn [snd] in EPv. subst Pv0. clear Hv2r.
    rewrite map_length in El1. cbn [fl_keys fl_values].
    assert (Ht1 : t ∉ map fst f1).
    { intros H. rewrite map_app in Hes1. apply ss_app in Hes1 as (_ & _ & Hes1). specialize (Hes1 t t H ltac:(now left)). apply (proj1 (cltN _ _)) in Hes1. exact (N.lt_irrefl _ Hes1). }
    assert (Epos : position t (map fst (f1 ++ (t, (ids, Pv)) :: f2)) = Some (length f1)).
    { rewrite map_app. cbn [map fst]. rewrite position_mid by exact Ht1. now rewrite map_length. }
    rewrite Epos. rewrite list_lookup_middle by congruence.
    destruct (leaf_remove_ok w1b leaf f1 t ids Pv f2 vs1 v vs2 P1 P2 (Pp ++ Q) x C1b Hp1 Hld' Hn Hv1r Hv Hv2 Hx)
      as (w2 & dl & rem & Pl' & vs' & new & E2 & A2 & D2 & Hvs2 & Hshr & Hfr).
    { intros q Hq. eapply sim_loaded; [exact S1b|]. eapply sim_loaded; [exact S1|]. now apply Hlv. }
    unfold wbind at 1. rewrite E2.
    assert (Hp1' : pool_ok w1b (([leaf] ++ P1 ++ Pv ++ P2) ++ Pp ++ Q)) by (eapply pool_ok_perm; [|exact Hp1]; solve_Permutation).
    pose proof (acc_pool' rd _ _ _ _ _ A2 Hp1') as Hp2.
    destruct (fl_remove_up_ok w2 t hl leaf dl st (w_free_root w) h Pp pre post (rem ++ Q) Pl' (f1 ++ new ++ f2) vs')
      as (w3 & root1 & rem2 & P' & X & E3 & A3 & HsX & HX & HXe & Hroot).
    { eapply path_frame; [apply flleaf_frame|exact Hpath'|]. intros q Hq. eapply acc_view; [exact A2|exact Hp1'|set_solver]. }
    { eapply pool_ok_perm; [|exact Hp2]. solve_Permutation. }
    { eapply acc_coh'; eassumption. }
    { assert (HinP : Forall (fun x => x.1 ∈ Pp) st) by (eapply path_stack; [apply flleaf_frame|exact Hpath']).
      unfold stack_ok in *. rewrite Forall_forall in Hst', HinP |- *.
      intros y Hy. destruct (Hst' y Hy) as [H1 H2]. specialize (HinP y Hy). split; [|discriminate].
      eapply acc_loaded'; [exact A2|exact Hp1'|set_solver|exact H1]. }
    { exact D2. }
    { exact Hvs2. }
    { exact Hfr. }
    unfold wbind at 1. rewrite E3.
    assert (A13 : acc rd PF w (P' ++ rem ++ rem2) w3).
    { eapply acc_trans; [exact A1'|]. apply (acc_perm_l rd (([leaf] ++ P1 ++ Pv ++ P2) ++ Pp)); [rewrite <- EP; solve_Permutation|].
      eapply acc_trans; [apply acc_frame_r; exact A2|].
      apply (acc_perm_l rd ((Pp ++ dl :: Pl') ++ rem)); [solve_Permutation|].
      apply (acc_perm_r rd _ _ ((P' ++ rem2) ++ rem)); [solve_Permutation|]. now apply acc_frame_r. }
    pose proof (acc_pool' rd _ _ _ _ _ A13 Hp) as Hp3.
    destruct (free_all_ok rd (rem ++ rem2) w3) as (w4 & E4 & A4 & R4 & F4).
    unfold wbind at 1. rewrite E4.
    assert (Hp3' : pool_ok w3 ((rem ++ rem2) ++ P' ++ Q)) by (eapply pool_ok_perm; [|exact Hp3]; solve_Permutation).
    pose proof (wacc_pool rd _ _ _ _ _ A4 Hp3') as Hp4. cbn [app] in Hp4.
    assert (A14 : wacc rd PF w P' w4).
    { eapply wacc_trans; [apply wacc_of_acc; exact A13|]. apply (wacc_perm_l rd ((rem ++ rem2) ++ P')); [solve_Permutation|].
      exact (wacc_frame_r rd P' _ _ _ _ A4). }
    assert (HsX4 : flshape (vget rd w4) h root1 P' X).
    { eapply shape_frame; [apply flleaf_frame|exact HsX|]. intros q Hq. eapply wacc_view; [exact A4|exact Hp3'|set_solver]. }
    assert (Hes' : toks_es X = e1 ++ new ++ e2).
    { rewrite HXe, !toks_es_app, toks_es_map, Ee1, Ee2. lassoc. }
    assert (Hfl : flrep (vget rd w4) tsn root1 P' (e1 ++ new ++ e2)).
    { exists h, X. split; [exact HsX4|]. split; [exact Hes'|].
      assert (Hord : tsorted N.compare fst (pre ++ map TE (f1 ++ new ++ f2) ++ post) /\ forall y, y ∈ pre ++ map TE (f1 ++ new ++ f2) ++ post -> tk fst y <= tsn).
      { destruct Hshr as [[-> _]|(ids' & Pv' & -> & _)].
        - assert (Hsub : pre ++ map TE (f1 ++ [] ++ f2) ++ post `sublist_of` pre ++ map (TE (K:=N)) (f1 ++ (t, (ids, Pv)) :: f2) ++ post).
          { apply sublist_app; [reflexivity|]. apply sublist_app; [|reflexivity]. rewrite !map_app. apply sublist_app; [reflexivity|]. cbn [map app]. now apply sublist_cons. }
          split; [eapply ssorted_sublist; eassumption|]. intros y Hy. apply Hbd. rewrite <- Etk. eapply elem_of_submseteq; [exact Hy|]. now apply sublist_submseteq.
        - split.
          + eapply (tsorted_update N.compare N_cmp_ok fst t pre (f1 ++ (t, (ids, Pv)) :: f2)); try eassumption.
            * rewrite map_app in Hes1 |- *. exact Hes1.
            * intros e He. apply elem_of_app in He as [He|He]; [|cbn [app] in He; apply elem_of_cons in He as [->|He]].
              -- right. exists e. split; [set_solver|reflexivity].
              -- now left.
              -- right. exists e. split; [set_solver|reflexivity].
          + intros y Hy. assert (Hin : tk fst y ∈ map (tk fst) (pre ++ map TE (f1 ++ (t, (ids, Pv)) :: f2) ++ post)).
            { assert (H : tk fst y ∈ map (tk fst) (pre ++ map TE (f1 ++ [(t, (ids', Pv'))] ++ f2) ++ post)) by now apply elem_of_list_fmap_1.
              rewrite !map_app in H |- *. exact H. }
            apply elem_of_list_In, in_map_iff in Hin as (y' & <- & Hy'). apply Hbd. rewrite <- Etk. now apply elem_of_list_In. }
      destruct Hord as [H1 H2]. split; [eapply ssorted_sublist; eassumption|].
      intros y Hy. apply H2. eapply elem_of_submseteq; [exact Hy|]. now apply sublist_submseteq. }
    assert (Hshr4 : forall w5, (forall q, q ∈ P' -> loaded w4 q -> loaded w5 q) -> shrunk w5 t x ids new).
    { intros w5 Hw5. destruct Hshr as [H|(ids' & Pv' & -> & Hids & Hl)]; [now left|right]. exists ids', Pv'. split; [reflexivity|]. split; [exact Hids|].
      intros q Hq.
      assert (HqP : q ∈ P').
      { eapply (flrep_pages _ _ _ _ _ (t, (ids', Pv'))); [exact Hfl|set_solver|exact Hq]. }
      apply Hw5; [exact HqP|]. eapply wacc_loaded; [exact A4|exact Hp3'|set_solver|].
      assert (Hp2' : pool_ok w2 ((Pp ++ dl :: Pl') ++ rem ++ Q)) by (eapply pool_ok_perm; [|exact Hp2]; solve_Permutation).
      eapply acc_loaded'; [exact A3|exact Hp2'|set_solver|]. now apply Hl. }
    assert (Hroot4 : w_free_root w4 = w_free_root w).
    { rewrite R4. destruct A13 as (po & k & fn & A13). exact (acc_froot _ _ _ _ _ _ _ _ A13). }
    destruct (N.eq_dec root1 (w_free_root w)) as [Eq|Hne].
    - rewrite Eq. unfold info. rewrite N.eqb_refl. exists w4, P', new. split; [reflexivity|]. split; [exact A14|]. split; [rewrite Hroot4, <- Eq; exact Hfl|]. apply Hshr4. auto.
    - rewrite info_diff by congruence. rewrite N.eqb_refl.
      assert (Hrf : w_free_root w ∈ w_freed w4).
      { destruct Hroot as [H|[H|H]]; [congruence| |].
        - destruct A4 as (po & k & fn & A4). rewrite (wa_freed _ _ _ _ _ _ _ _ A4). set_solver.
        - apply F4. apply elem_of_list_to_set. set_solver. }
      unfold wbind at 1. unfold append_freed_page_id at 1. destruct (decide (w_free_root w ∈ w_freed w4)); [|contradiction].
      unfold modify. exists (set_free_root root1 w4), P', new. split; [reflexivity|]. split.
      { destruct A14 as (po & k & fn & A14). exists po, k, fn. destruct A14 as [B1 B2 B3 B4 B5 B6 B7 B8 B9 B10 B11 B12 B13 B14 B15 B16 B17].
        constructor; auto. intros Q' HQ'. destruct (B7 Q' HQ'). constructor; auto. }
      split; [exact Hfl|]. apply Hshr4. auto.
  Qed.
End removal.
