(** The trees of a committed state are what following the references finds. *)
From Verif Require Export Walk Txn.
From Verif Require Import EventsProofs TagsProofs TrackingProofs FreeListProofs TsnProofs.
Local Open Scope N_scope.

Section shape.
  Context {K E : Type} (ops : tree_ops K) (leafrep : (N -> option node) -> node -> list N -> list E -> Prop) (g : E -> list N).
  Context (Hint : forall n ks cs, t_leaf ops n = false -> t_int ops n = Some (INode ks cs) -> refs n = cs /\ frees n = []).
  Context (Hleaf : forall get n P es, leafrep get n P es -> exists F, walks get (refs n) P F /\ frees n ++ F ≡ₚ es ≫= g).
  Lemma toks_es_app (a b : list (tok K E)) : toks_es (a ++ b) = toks_es a ++ toks_es b.
  Proof. apply omap_app. Qed.
  Lemma toks_es_map (es : list E) : toks_es (map (TE (K := K)) es) = es.
  Proof. induction es as [|e es IH]; [reflexivity|]. cbn. f_equal. exact IH. Qed.
  Lemma shape_walks_mut get :
    (forall h p P ts, shape ops leafrep get h p P ts -> exists F, walks get [p] P F /\ F ≡ₚ toks_es ts ≫= g) /\
    (forall h ks cs P ts, rforest ops leafrep get h ks cs P ts -> exists F, walks get cs P F /\ F ≡ₚ toks_es ts ≫= g).
  Proof.
    apply (shape_rforest_ind ops leafrep get
      (fun h p P ts _ => exists F, walks get [p] P F /\ F ≡ₚ toks_es ts ≫= g)
      (fun h ks cs P ts _ => exists F, walks get cs P F /\ F ≡ₚ toks_es ts ≫= g)).
    - intros p n P es h Hg Hl Hr. destruct (Hleaf _ _ _ _ Hr) as (F & Hw & HF). exists (frees n ++ F).
      split; [now apply walks_one|]. now rewrite toks_es_map.
    - intros h p n ks c cs P ts P' ts' Hg Hl Hi Hne _ (F & Hw & HF) _ (F' & Hw' & HF').
      destruct (Hint _ _ _ Hl Hi) as [Er Ef]. exists (F ++ F'). split.
      + pose proof (walks_one get p n (P ++ P') (F ++ F') Hg) as HW. rewrite Er, Ef in HW. apply HW.
        exact (walks_app get [c] P F cs P' F' Hw Hw').
      + rewrite toks_es_app, bind_app. now rewrite HF, HF'.
    - intros h. exists []. split; [constructor|reflexivity].
    - intros h k ks c cs P ts P' ts' _ (F & Hw & HF) _ (F' & Hw' & HF'). exists (F ++ F'). split.
      + exact (walks_app get [c] P F cs P' F' Hw Hw').
      + change (TS k :: ts ++ ts') with ([TS k] ++ (ts ++ ts')). rewrite !toks_es_app. cbn [app]. change (toks_es [TS k]) with (@nil E). cbn [app].
        rewrite bind_app. now rewrite HF, HF'.
  Qed.
  Lemma shape_walks get h p P ts : shape ops leafrep get h p P ts -> exists F, walks get [p] P F /\ F ≡ₚ toks_es ts ≫= g.
  Proof. apply (proj1 (shape_walks_mut get)). Qed.
End shape.
Definition nofree {A} (a : A) : list N := [].
Lemma bind_nofree {A} (l : list A) : l ≫= nofree = [].
Proof. induction l; cbn; auto. Qed.

Ltac ints := let n := fresh in let Hl := fresh in let Hi := fresh in intros n ? ? Hl Hi; destruct n; cbn in Hl, Hi; try discriminate;
  repeat match goal with H : inode _ |- _ => destruct H end; injection Hi as -> ->; auto.

Lemma chain_walks get p P d : chain get p P d -> walks get (ref p) P [].
Proof.
  induction 1 as [|p next d P rest Hp Hg Hc IH]; [constructor|].
  unfold ref. destruct (N.eqb_spec p 0); [contradiction|].
  exact (walks_one get p (NEvOverflow (EvOverflow next d)) P [] Hg IH).
Qed.
Lemma evleaf_walks get n P es : evleaf get n P es -> exists F, walks get (refs n) P F /\ frees n ++ F ≡ₚ es ≫= nofree.
Proof.
  intros (vs & -> & Hv). exists []. rewrite bind_nofree. split; [|reflexivity]. cbn [refs ev_values]. revert P Hv.
  generalize (map snd es). clear es. intros rs P Hv. induction Hv as [|v C r vs Cs rs H1 H2 IH]; [constructor|].
  cbn. change (@nil N) with (@nil N ++ []). apply walks_app; [|exact IH].
  destruct v; cbn in H1 |- *; [destruct H1 as [_ ->]; constructor|]. destruct H1 as (_ & _ & _ & _ & _ & H1). eapply chain_walks; exact H1.
Qed.
Lemma tagleaf_walks get n P es : tagleaf get n P es -> exists F, walks get (refs n) P F /\ frees n ++ F ≡ₚ es ≫= nofree.
Proof. intros [-> ->]. exists []. rewrite bind_nofree. split; [constructor|reflexivity]. Qed.
Lemma pertag_walks get root P l : pertag get root P l -> walks get [root] P [].
Proof.
  intros (h & ts & Hs & _). destruct (shape_walks (tag_ops 0) tagleaf nofree ltac:(ints) tagleaf_walks get h root P ts Hs) as (F & Hw & HF).
  rewrite bind_nofree in HF. apply Permutation_nil_r in HF. now subst.
Qed.
Lemma tagsleaf_walks kw ps get n P es : tagsleaf kw ps get n P es -> exists F, walks get (refs n) P F /\ frees n ++ F ≡ₚ es ≫= nofree.
Proof.
  intros (vs & -> & Hv). exists []. rewrite bind_nofree. split; [|reflexivity]. cbn [refs tl_values]. revert P Hv.
  generalize (map snd es). clear es. intros rs P Hv. induction Hv as [|v vs P P' a l H1 H2 IH]; [constructor|].
  cbn. change (@nil N) with (@nil N ++ []). apply walks_app; [|exact IH]. unfold ref.
  destruct H1 as [_ [(-> & -> & _)|(H0 & _ & H1)]]; [constructor|].
  destruct (N.eqb_spec (tv_root v) 0); [contradiction|]. eapply pertag_walks; exact H1.
Qed.
Lemma trkleaf_walks get n P es : trkleaf get n P es -> exists F, walks get (refs n) P F /\ frees n ++ F ≡ₚ es ≫= nofree.
Proof. intros [-> ->]. exists []. rewrite bind_nofree. split; [constructor|reflexivity]. Qed.
Lemma tsnleaf_walks get n P es : tsnleaf get n P es -> exists F, walks get (refs n) P F /\ frees n ++ F ≡ₚ es ≫= (fun x => [x]).
Proof.
  intros [-> ->]. exists []. split; [constructor|]. cbn. rewrite app_nil_r. clear. induction es as [|e es IH]; [reflexivity|]. cbn. now constructor.
Qed.
Lemma bind_single {A} (l : list A) : l ≫= (fun x => [x]) = l.
Proof. induction l as [|x l IH]; [reflexivity|]. cbn. f_equal. exact IH. Qed.
Lemma tsntree_walks get root P ids : tsntree get root P ids -> exists F, walks get [root] P F /\ F ≡ₚ ids.
Proof.
  intros (h & ts & Hs & Ht & _). destruct (shape_walks (tsn_ops 0) tsnleaf (fun x => [x]) ltac:(ints) tsnleaf_walks get h root P ts Hs) as (F & Hw & HF).
  rewrite bind_single, Ht in HF. eauto.
Qed.
Lemma flleaf_walks get n P es : flleaf get n P es -> exists F, walks get (refs n) P F /\ frees n ++ F ≡ₚ es ≫= (fun e : flent => e.2.1).
Proof.
  intros (vs & -> & Hv). cbn [refs frees fl_values].
  assert (es ≫= (fun e : flent => e.2.1) = map snd es ≫= fst) as ->. { clear. induction es as [|e es IH]; [reflexivity|]. cbn. f_equal. exact IH. }
  revert P Hv. generalize (map snd es). clear es. intros rs P Hv. induction Hv as [|v vs P P' a l H1 H2 IH]; [exists []; split; constructor|].
  destruct IH as (F' & Hw' & HF').
  assert (exists F, walks get (ref (fv_root v)) P F /\ fv_page_ids v ++ F ≡ₚ a.1) as (F & Hw & HF).
  { unfold ref. destruct H1 as [-> [(-> & -> & ->)|(H0 & -> & H1)]].
    - exists []. split; [constructor|now rewrite app_nil_r].
    - destruct (N.eqb_spec (fv_root v) 0); [contradiction|]. eapply tsntree_walks; exact H1. }
  exists (F ++ F'). split.
  - cbn. apply walks_app; [exact Hw|exact Hw'].
  - cbn. rewrite <- HF, <- HF'. rewrite <- !app_assoc. apply Permutation_app_head. rewrite !app_assoc. apply Permutation_app_tail. apply Permutation_app_comm.
Qed.

Lemma snap_walks kw ps hash get sn : snap_ok kw ps hash get sn ->
  exists P F, walks get (refs (NHeader (sn_hdr sn))) P F /\ P = sn_live sn /\ F ≡ₚ map fst (pairs (sn_es sn)).
Proof.
  intros H. destruct (so_fl _ _ _ _ _ H) as (h & ts & Hf & Hts & _).
  destruct (so_hist _ _ _ _ _ H) as [(h1 & ts1 & S1 & _) (h2 & ts2 & S2 & _)].
  destruct (so_trk _ _ _ _ _ H) as (es & Htrk & _).
  destruct (shape_walks fl_ops flleaf (fun e : flent => e.2.1) ltac:(ints) flleaf_walks _ _ _ _ _ Hf) as (F & W & HF).
  destruct (shape_walks ev_ops evleaf nofree ltac:(ints) evleaf_walks _ _ _ _ _ S1) as (F1 & W1 & HF1).
  destruct (shape_walks (tags_ops []) (tagsleaf kw ps) nofree ltac:(ints) (tagsleaf_walks kw ps) _ _ _ _ _ S2) as (F2 & W2 & HF2).
  rewrite bind_nofree in HF1. rewrite bind_nofree in HF2. apply Permutation_nil_r in HF1, HF2. subst F1 F2.
  assert (walks get (ref (h_tracking_root (sn_hdr sn))) (sn_PK sn) []) as W3.
  { unfold ref. destruct Htrk as [(-> & -> & _)|(H0 & h3 & ts3 & S3 & _)]; [constructor|].
    destruct (N.eqb_spec (h_tracking_root (sn_hdr sn)) 0); [contradiction|].
    destruct (shape_walks (trk_ops []) trkleaf nofree ltac:(ints) trkleaf_walks _ _ _ _ _ S3) as (F3 & W3 & HF3).
    rewrite bind_nofree in HF3. apply Permutation_nil_r in HF3. now subst. }
  exists (sn_live sn), F. split; [|split; [reflexivity|]].
  - pose proof (walks_app _ _ _ _ _ _ _ W (walks_app _ _ _ _ _ _ _ W1 (walks_app _ _ _ _ _ _ _ W2 W3))) as HW.
    cbn [app] in HW. rewrite app_nil_r in HW. exact HW.
  - rewrite HF, Hts. unfold pairs. clear. induction (sn_es sn) as [|e es IH]; [reflexivity|].
    cbn. rewrite map_app, IH. f_equiv. rewrite map_map. cbn. now rewrite map_id.
Qed.
