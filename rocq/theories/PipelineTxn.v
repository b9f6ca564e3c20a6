(** The write transactions of the pipelining writer thread: looking for reusable pages with a writer used before. *)
From Verif Require Export MvccProofs Pipeline.
From Verif Require Import EventsProofs TrackingProofs ReadProofs PageProofs CodecProofs FreeListProofs StoreProofs.
Local Open Scope N_scope.

(** ** Computations that only read pages *)
(** They change nothing but the pages read, do not look at the list of reusable pages, and when they succeed with some pages
    unreadable they would have done the same with all of them. *)
Record reading {A} (m : snapshot -> M A) : Prop := {
  rg_frame : forall rd l w, m rd (set_reusable l w) = ((m rd w).1, set_reusable l (m rd w).2);
  rg_deser : forall rd w, exists e, (m rd w).2 = set_deser e w /\ forall q n, e !! q = Some n -> w_deser w !! q = Some n \/ rd q = Ok n;
  rg_mono : forall rd rd' w a w', ailing rd rd' -> m rd' w = (Ok a, w') -> m rd w = (Ok a, w') }.
Lemma set_deser_id w : set_deser (w_deser w) w = w. Proof. now destruct w. Qed.
Lemma reading_ret {A} (a : A) : reading (fun _ => ret a).
Proof. constructor; [reflexivity| |auto]. intros rd w. exists (w_deser w). split; [now rewrite set_deser_id|auto]. Qed.
Lemma reading_fail {A} e : reading (fun _ => @fail A e).
Proof. constructor; [reflexivity| |intros * _ H; discriminate]. intros rd w. exists (w_deser w). split; [now rewrite set_deser_id|auto]. Qed.
Lemma reading_gets {A} (f : writer -> A) : (forall l w, f (set_reusable l w) = f w) -> reading (fun _ => gets f).
Proof.
  intros Hf. constructor; [| |auto].
  - intros rd l w. unfold gets. now rewrite Hf.
  - intros rd w. exists (w_deser w). split; [cbn; now rewrite set_deser_id|auto].
Qed.
Lemma reading_bind {A B} (m : snapshot -> M A) (f : snapshot -> A -> M B) : reading m -> (forall a, reading (fun rd => f rd a)) -> reading (fun rd => wbind (m rd) (f rd)).
Proof.
  intros Hm Hf. constructor.
  - intros rd l w. unfold wbind. rewrite (rg_frame _ Hm). destruct (m rd w) as [[a|e] w1]; cbn; [apply (rg_frame _ (Hf a))|reflexivity].
  - intros rd w. unfold wbind. destruct (rg_deser _ Hm rd w) as (d1 & E1 & H1). destruct (m rd w) as [[a|e] w1]; cbn in E1 |- *; [|eauto].
    destruct (rg_deser _ (Hf a) rd w1) as (d2 & E2 & H2). exists d2. split; [rewrite E2, E1; reflexivity|]. intros q n Hq. destruct (H2 q n Hq) as [H|H]; [|auto].
    rewrite E1 in H. cbn in H. auto.
  - intros rd rd' w b w' Ha H. unfold wbind in *. destruct (m rd' w) as [[a|e] w1] eqn:E; [|discriminate]. rewrite (rg_mono _ Hm _ _ _ _ _ Ha E). exact (rg_mono _ (Hf a) _ _ _ _ _ Ha H).
Qed.
Lemma reading_load q : reading (fun rd => load_page rd q).
Proof.
  constructor.
  - intros rd l w. unfold load_page, get_page_ref. cbn. destruct (w_dirty w !! q); [reflexivity|]. destruct (w_deser w !! q); [reflexivity|]. destruct (rd q); reflexivity.
  - intros rd w. unfold load_page, get_page_ref. destruct (w_dirty w !! q); [exists (w_deser w); split; [cbn; now rewrite set_deser_id|auto]|].
    destruct (w_deser w !! q); [exists (w_deser w); split; [cbn; now rewrite set_deser_id|auto]|].
    destruct (rd q) as [n|e] eqn:E; [|exists (w_deser w); split; [cbn; now rewrite set_deser_id|auto]].
    eexists. split; [reflexivity|]. intros x m Hx. apply lookup_insert_Some in Hx as [[<- <-]|[_ Hx]]; auto.
  - intros rd rd' w a w' Ha. unfold load_page, get_page_ref. destruct (w_dirty w !! q); [auto|]. destruct (w_deser w !! q); [auto|].
    destruct (Ha q) as [->|(e & ->)]; [auto|discriminate].
Qed.
Lemma reading_ext {A} (m m' : snapshot -> M A) : (forall rd w, m rd w = m' rd w) -> reading m -> reading m'.
Proof.
  intros He [H1 H2 H3]. constructor.
  - intros rd l w. rewrite <- !He. apply H1.
  - intros rd w. rewrite <- !He. apply H2.
  - intros rd rd' w a w' Ha. rewrite <- !He. now apply H3.
Qed.
Lemma reading_concat {A} (f : snapshot -> N -> M (list A)) l : (forall c, reading (fun rd => f rd c)) -> reading (fun rd => concat_m (f rd) l).
Proof.
  intros Hf. induction l as [|c l IH]; cbn [concat_m]; [apply reading_ret|]. apply reading_bind; [apply Hf|]. intros a. apply reading_bind; [exact IH|]. intros b. apply reading_ret.
Qed.
Lemma reading_tsn fuel p : reading (fun rd => tsn_collect rd fuel p).
Proof.
  revert p. induction fuel as [|fuel IH]; intros p; cbn [tsn_collect]; [apply reading_fail|]. apply reading_bind; [apply reading_load|].
  intros n; destruct n; try apply reading_fail; [apply reading_ret || (apply reading_concat; exact IH)..].
Qed.
Lemma reading_leaf fuel sm ks vs : reading (fun rd => leaf_collect rd fuel sm ks vs).
Proof.
  revert vs. induction ks as [|t ks IH]; intros vs; cbn [leaf_collect]; [apply reading_ret|]. destruct (match sm with Some s => s <? t | None => false end); [apply reading_ret|].
  destruct vs as [|v vs]; [apply reading_fail|]. apply reading_bind.
  - destruct (fv_root v =? 0); [apply reading_ret|apply reading_tsn].
  - intros ids. apply reading_bind; [apply IH|]. intros [l fin]. apply reading_ret.
Qed.
Lemma reading_until (f : snapshot -> N -> M (list (N * N) * bool)) l : (forall c, reading (fun rd => f rd c)) -> reading (fun rd => collect_until (f rd) l).
Proof.
  intros Hf. induction l as [|c l IH]; cbn [collect_until]; [apply reading_ret|]. apply reading_bind; [apply Hf|]. intros [a fin]. destruct fin; [apply reading_ret|].
  apply reading_bind; [exact IH|]. intros [b fin']. apply reading_ret.
Qed.
Lemma reading_fl fuel sm p : reading (fun rd => fl_collect rd fuel sm p).
Proof.
  revert p. induction fuel as [|fuel IH]; intros p; cbn [fl_collect]; [apply reading_fail|]. apply reading_bind; [apply reading_load|].
  intros n; destruct n; try apply reading_fail.
  - apply reading_bind; [now apply reading_gets|]. intros np. apply reading_leaf.
  - apply reading_until. exact IH.
Qed.

(** Looking for reusable pages: the list found before does not matter. *)
Lemma find_frame rd sm l w : find_reusable_page_ids rd sm (set_reusable l w) =
  match find_reusable_page_ids rd sm w with (Ok tt, w') => (Ok tt, w') | (Err e, w') => (Err e, set_reusable l w') end.
Proof.
  unfold find_reusable_page_ids, wbind, gets. cbn [w_free_root w_next_page set_reusable].
  rewrite (rg_frame _ (reading_fl (S (N.to_nat (w_next_page w))) sm (w_free_root w))). destruct (fl_collect rd _ sm _ w) as [[[x y]|e] w1]; reflexivity.
Qed.
Lemma find_deser rd sm w : exists e l, (find_reusable_page_ids rd sm w).2 = set_reusable l (set_deser e w) /\
  forall q n, e !! q = Some n -> w_deser w !! q = Some n \/ rd q = Ok n.
Proof.
  unfold find_reusable_page_ids, wbind, gets. destruct (rg_deser _ (reading_fl (S (N.to_nat (w_next_page w))) sm (w_free_root w)) rd w) as (e & E & He).
  destruct (fl_collect rd _ sm _ w) as [[[x y]|er] w1]; cbn in E |- *; subst w1; exists e.
  - eexists. split; [reflexivity|exact He].
  - exists (w_reusable w). split; [now destruct w|exact He].
Qed.
Lemma find_mono rd rd' sm w w' : ailing rd rd' -> find_reusable_page_ids rd' sm w = (Ok tt, w') -> find_reusable_page_ids rd sm w = (Ok tt, w').
Proof.
  intros Ha. unfold find_reusable_page_ids, wbind, gets. destruct (fl_collect rd' _ sm _ w) as [[[x y]|er] w1] eqn:E; [|discriminate].
  rewrite (rg_mono _ (reading_fl (S (N.to_nat (w_next_page w))) sm (w_free_root w)) _ _ _ _ _ Ha E). auto.
Qed.

(** ** Transactions *)
(** What is left of a writer before it is put to use. *)
Definition bare (w : writer) : writer := set_reusable [] (set_deser ∅ w).
Lemma bare_find rd sm w r w' : find_reusable_page_ids rd sm w = (r, w') -> bare w' = bare w.
Proof. intros E. destruct (find_deser rd sm w) as (e & l & E' & _). rewrite E in E'. cbn in E'. now subst. Qed.
Lemma coh_find rd rd' sm w r w' : ailing rd rd' -> coh rd w -> find_reusable_page_ids rd' sm w = (r, w') -> coh rd w'.
Proof.
  intros Ha Hc E. destruct (find_deser rd' sm w) as (e & l & E' & He). rewrite E in E'. cbn in E'. subst. intros q n Hq. cbn in Hq.
  destruct (He q n Hq) as [H|H]; [now apply Hc|]. destruct (Ha q) as [Hr|(er & Hr)]; congruence.
Qed.
Lemma ailing_refl rd : ailing rd rd. Proof. intros q. now left. Qed.

Section txn.
  Context (kw : nat) (ps : N) (hash : bytes -> bytes) (order : list bytes -> list bytes) (ford : gset N -> list N).
  Context (Hps : ps_ok ps) (Hkw : (kw <= 16)%nat) (Hord : forall l t, t ∈ order l <-> t ∈ l) (Hford : forall s, ford s ≡ₚ elements s).
  Notation snap_ok := (snap_ok kw ps hash).
  Notation tinv := (tinv kw ps hash).

  Lemma tinv_ext rd rd' sn sm w PE PT PK s : (forall q, rd' q = rd q) -> tinv rd sn sm w PE PT PK s -> tinv rd' sn sm w PE PT PK s.
  Proof.
    intros He [[D1 D2 D3 (es & D4 & D4') D5 D6] [I1 I2 I3 I4 I5 I6 I7 I8 I9 F1 F2 F3 F4] Ht Hl Hf].
    assert (Hv : forall q, vget rd' w q = vget rd w q) by (intros q; unfold vget; now rewrite He).
    constructor; [constructor; auto|constructor; auto|exact Ht|intros q n Hq; rewrite He; now apply Hl|exact Hf].
    - intros q n Hq. rewrite He. now apply D1.
    - eapply hist_rep_frame; [exact D3|]. intros q _. apply Hv.
    - exists es. split; [|exact D4']. eapply trkrep_frame; [exact D4|]. intros q _. apply Hv.
    - intros q n Hq. rewrite He. now apply D1.
    - eapply flrep_frame; [exact I4|]. intros q _. apply Hv.
  Qed.

  (** A transaction begins; the writer may have been used before. *)
  Lemma begin_gen rd sn sm w0 : snap_ok (rget rd) sn -> bare w0 = new_writer (sn_hdr sn) -> coh rd w0 ->
    exists w, find_reusable_page_ids rd sm w0 = (Ok tt, w) /\ tinv rd sn sm w (sn_PE sn) (sn_PT sn) (sn_PK sn) (sn_st sn).
  Proof.
    intros H Hb Hc.
    assert (exists e, w0 = set_reusable (w_reusable w0) (set_deser e (new_writer (sn_hdr sn))) /\ forall q n, e !! q = Some n -> rd q = Ok n) as (e & E0 & He).
    { exists (w_deser w0). split; [rewrite <- Hb; now destruct w0|exact Hc]. }
    assert (Hf : exists w, find_reusable_page_ids rd sm (set_deser e (new_writer (sn_hdr sn))) = (Ok tt, w) /\ tinv rd sn sm w (sn_PE sn) (sn_PT sn) (sn_PK sn) (sn_st sn)).
    2: { destruct Hf as (w & E & Ht). exists w. split; [|exact Ht]. rewrite E0, find_frame, E. reflexivity. }
    clear w0 Hb Hc E0. set (w0 := set_deser e (new_writer (sn_hdr sn))).
    pose proof H as [S1 S2 S3 S4 S5 S6 S7 S8].
    assert (Hc0 : coh rd w0) by exact He.
    assert (Hv0 : forall q, vget rd w0 q = rget rd q) by (intros q; unfold vget, w0; cbn; rewrite lookup_empty; reflexivity).
    assert (Hp0 : pool_ok w0 (sn_PF sn ++ (sn_PE sn ++ sn_PT sn ++ sn_PK sn) ++ map fst (pairs (sn_es sn)))).
    { eapply (cover_pool w0 _ _ _); [|rewrite app_assoc; reflexivity|].
      - split; [exact S6|]. unfold w0. cbn. rewrite elements_empty. cbn. rewrite app_nil_r, <- S7. unfold sn_live. solve_Permutation.
      - intros q [n Hq]. cbn in Hq. rewrite lookup_empty in Hq. discriminate. }
    assert (Hfl0 : flrep (vget rd w0) (h_tsn (sn_hdr sn)) (w_free_root w0) (sn_PF sn) (sn_es sn)).
    { eapply flrep_frame; [exact S3|]. intros q _. apply Hv0. }
    destruct (find_reusable_ok rd sm w0 _ _ _ _ Hc0 Hp0 Hfl0) as (w1 & l & E & Hs & Hc1 & Hl & Hld).
    exists (set_reusable l w1). split; [exact E|].
    assert (Hv1 : forall q, vget rd (set_reusable l w1) q = rget rd q).
    { intros q. rewrite <- Hv0. change (vget rd (set_reusable l w1) q) with (vget rd w1 q). now apply sim_view. }
    assert (Hcov : cover (set_reusable l w1) (sn_PF sn ++ (sn_PE sn ++ sn_PT sn ++ sn_PK sn) ++ [] ++ map fst (kept_pairs sn sm))).
    { destruct Hs as [-> _]. split; [exact S6|]. cbn. rewrite elements_empty. cbn. rewrite <- S7, Hl.
      rewrite (pairs_split hash sm (sn_es sn)), map_app. unfold kept_pairs, sn_live. solve_Permutation. }
    assert (Hd : forall q, w_dirty (set_reusable l w1) !! q = None) by (destruct Hs as [-> _]; intros q; cbn; apply lookup_empty).
    assert (Htsn : w_tsn (set_reusable l w1) = h_tsn (sn_hdr sn) + 1) by (destruct Hs as [-> _]; reflexivity).
    constructor; [| |exact Htsn|intros q n Hq E'; apply (S8 q); [exact Hq|unfold rget; now rewrite E']|intros q n Hq; rewrite Hd in Hq; discriminate].
    - constructor.
      + exact Hc1.
      + eapply pool_ok_perm; [|eapply (cover_pool _ _ []); [exact Hcov|reflexivity|]].
        * cbn [app]. solve_Permutation.
        * intros q [n Hq]. rewrite Hd in Hq. discriminate.
      + assert (w_events_root (set_reusable l w1) = h_events_root (sn_hdr sn)) as -> by (destruct Hs as [-> _]; reflexivity).
        assert (w_tags_root (set_reusable l w1) = h_tags_root (sn_hdr sn)) as -> by (destruct Hs as [-> _]; reflexivity).
        eapply hist_rep_frame; [exact S1|]. intros q _. apply (Hv1 q).
      + destruct S2 as (es & Hk & Ht). exists es. split; [|exact Ht].
        assert (w_tracking_root (set_reusable l w1) = h_tracking_root (sn_hdr sn)) as -> by (destruct Hs as [-> _]; reflexivity). eapply trkrep_frame; [exact Hk|]. intros q _. apply (Hv1 q).
      + exact S4.
      + destruct Hs as [-> _]. exact S5.
    - constructor.
      + exact Hc1.
      + exact Hcov.
      + intros q [n Hq]. rewrite Hd in Hq. discriminate.
      + assert (w_free_root (set_reusable l w1) = h_free_root (sn_hdr sn)) as -> by (destruct Hs as [-> _]; reflexivity).
        rewrite Htsn. destruct S3 as (h & ts & F1 & F2 & F3 & F4). exists h, ts. split; [|split; [exact F2|split; [exact F3|]]].
        * eapply shape_frame; [apply flleaf_frame|exact F1|]. intros q _. apply Hv1.
        * intros t Ht. specialize (F4 t Ht). lia.
      + assert (w_reused (set_reusable l w1) = []) as -> by (destruct Hs as [-> _]; reflexivity). cbn [w_reusable set_reusable].
        rewrite Hl, app_nil_r. apply (pairs_split hash).
      + assert (w_reused (set_reusable l w1) = []) as -> by (destruct Hs as [-> _]; reflexivity). cbn [w_reusable set_reusable].
        rewrite app_nil_r. intros p t Hin. rewrite Hl in Hin. apply pairs_in in Hin as (ids & Pv & He' & Hi).
        apply elem_of_list_filter in He' as [Ho He']. split; [exact Ho|]. eapply snap_le; [exact H|]. apply pairs_in. eauto.
      + rewrite Htsn. intros t [_ Ht]. lia.
      + rewrite Htsn. intros ids Pv He' q Hq. destruct S3 as (h & ts & _ & Ee & _ & Hb). rewrite <- Ee in He'. apply elem_toks_es in He'. apply Hb in He'. cbn in He'. lia.
      + intros t ids Pv He' [Ho _] q Hq. change (loaded w1 q). eapply Hld; eassumption.
      + intros q [n Hq]. rewrite Hd in Hq. discriminate.
      + cbn [w_reusable set_reusable]. intros q Hq. rewrite Hl in Hq. apply elem_of_list_fmap in Hq as ([q' t] & -> & Hin). left. exists t.
        apply pairs_in in Hin as (ids & Pv & He' & Hi). apply elem_of_list_filter in He' as [Ho He']. split; [|exact Ho]. apply pairs_in. eauto.
      + intros q Hq. right. assert (w_next_page (set_reusable l w1) = h_next_page (sn_hdr sn)) as En by (destruct Hs as [-> _]; reflexivity). now rewrite <- En.
      + intros q Hq. right. unfold sn_live. exact Hq.
  Qed.

  (** After the commit was prepared nothing of the transaction is left in the writer. *)
  Lemma commit_bare rd sn sm w PE PT PK s schema w' : tinv rd sn sm w PE PT PK s -> process_freed_page_ids rd kw ps ford w = (Ok tt, w') ->
    bare (advance w') = new_writer (next_header schema w').
  Proof.
    intros [_ H2 _ _ _] E. destruct (process_freed_ok rd kw ps Hps (T sn sm) (fresh sn sm) (fun q => q ∈ sn_live sn) ford Hford w _ _ _ _ H2)
      as (w1 & PF' & es' & fs & E1 & _ & _ & Hru & Hfr). assert (w1 = w') as -> by congruence.
    unfold bare, advance, new_writer, next_header. cbn. now rewrite Hru, Hfr.
  Qed.
End txn.
