(** Following the references of a database file.

    This is a reading of the file format that does not use the rest of the model: a page refers to other pages, and
    records page ids as free.  Node types and fields: header_node.rs:17-27, free_lists_tree_nodes.rs:7-16,
    events_tree_nodes.rs (EventsLeafNode, EventValue, EventsOverflowNode), tags_tree_nodes.rs, tracking_tree_nodes.rs. *)
From Verif Require Import Nodes.
Local Open Scope N_scope.

(** [0] means "no page" in the fields that may be empty. *)
Definition ref (p : N) : list N := if p =? 0 then [] else [p].
(** The pages a page refers to. *)
Definition refs (n : node) : list N :=
  match n with
  | NHeader h => [h_free_root h; h_events_root h; h_tags_root h] ++ ref (h_tracking_root h)
  | NFreeInt i | NEvInt i | NTagInt i | NTsnInt i => in_children i
  | NTagsInt i | NTrkInt i => in_children i
  | NEvLeaf l => ev_values l ≫= fun v => match v with Inline _ => [] | Overflow _ _ _ root _ _ _ => ref root end
  | NEvOverflow o => ref (ov_next o)
  | NTagsLeaf l => tl_values l ≫= fun v => ref (tv_root v)
  | NFreeLeaf l => fl_values l ≫= fun v => ref (fv_root v)
  | NTagLeaf _ | NTsnLeaf _ | NTrkLeaf _ => []
  end.
(** The page ids a page records as free. *)
Definition frees (n : node) : list N :=
  match n with
  | NFreeLeaf l => fl_values l ≫= fv_page_ids
  | NTsnLeaf ids => ids
  | _ => []
  end.
(** [walks get ps P F]: following all references from the pages [ps] comes to an end, passes the pages [P] and finds
    the free page ids [F]; whatever is passed or found several times is listed several times. *)
Inductive walks (get : N -> option node) : list N -> list N -> list N -> Prop :=
  | walks_nil : walks get [] [] []
  | walks_cons p n ps P F P' F' : get p = Some n -> walks get (refs n) P F -> walks get ps P' F' ->
      walks get (p :: ps) (p :: P ++ P') (frees n ++ F ++ F').

(** There is one way to do it. *)
Lemma walks_unique get ps P F P' F' : walks get ps P F -> walks get ps P' F' -> P' = P /\ F' = F.
Proof.
  intros H. revert P' F'. induction H as [|p n ps P F P1 F1 Hg H1 IH1 H2 IH2]; intros P' F' H'.
  - inversion H'. auto.
  - inversion H' as [|? n' ? Q G Q1 G1 Hg' H1' H2']; subst. assert (n' = n) as -> by congruence.
    destruct (IH1 _ _ H1') as [-> ->]. destruct (IH2 _ _ H2') as [-> ->]. auto.
Qed.
Lemma walks_app get ps P F ps' P' F' : walks get ps P F -> walks get ps' P' F' -> walks get (ps ++ ps') (P ++ P') (F ++ F').
Proof.
  intros H H'. induction H as [|p n ps P F P1 F1 Hg H1 IH1 H2 IH2]; [exact H'|].
  cbn [app]. rewrite <- !app_assoc. now constructor.
Qed.
Lemma walks_one get p n P F : get p = Some n -> walks get (refs n) P F -> walks get [p] (p :: P) (frees n ++ F).
Proof.
  intros Hg H. pose proof (walks_cons get p n [] P F [] [] Hg H (walks_nil _)) as H'. now rewrite !app_nil_r in H'.
Qed.
Lemma walks_frame get get' ps P F : walks get ps P F -> (forall q, q ∈ P -> get' q = get q) -> walks get' ps P F.
Proof.
  intros H. induction H as [|p n ps P F P1 F1 Hg H1 IH1 H2 IH2]; intros Hq; constructor.
  - rewrite Hq; [exact Hg|apply elem_of_cons; auto].
  - apply IH1. intros q Hin. apply Hq. apply elem_of_cons; right. apply elem_of_app; auto.
  - apply IH2. intros q Hin. apply Hq. apply elem_of_cons; right. apply elem_of_app; auto.
Qed.
