(** Merging and grouping the positions of several tags. *)
From Verif Require Export IterTags.
Local Open Scope N_scope.

Definition ple (bw : bool) (a b : N) : Prop := if bw then b <= a else a <= b.
Definition plt (bw : bool) (a b : N) : Prop := if bw then b < a else a < b.
Notation tpos := (fun a : tagged => a.1.1).
Notation tle bw := (fun a b : tagged => ple bw (a.1.1) (b.1.1)).

Lemma ple_trans bw a b c : ple bw a b -> ple bw b c -> ple bw a c.
Proof. destruct bw; cbn; lia. Qed.
Lemma ple_plt_trans bw a b c : ple bw a b -> plt bw b c -> plt bw a c.
Proof. destruct bw; cbn; lia. Qed.

Lemma best_head_ok bw ls :
  match best_head bw ls with
  | None => concat ls = []
  | Some a => (exists l, a :: l ∈ ls) /\ (forall b l, b :: l ∈ ls -> ple bw (tpos a) (tpos b))
  end.
Proof.
  induction ls as [|l ls IH]; cbn [best_head]; [reflexivity|].
  destruct l as [|a l]; cbn [head].
  - destruct (best_head bw ls) as [b|].
    + destruct IH as [[l Hl] Hb]. split; [exists l; now right|]. intros c l' H. apply elem_of_cons in H as [H|H]; [discriminate|eauto].
    + exact IH.
  - destruct (best_head bw ls) as [b|].
    + destruct IH as [[l' Hl] Hb]. unfold before. destruct (if bw then a.1.1 <? b.1.1 else b.1.1 <? a.1.1) eqn:E.
      * assert (Hba : ple bw (tpos b) (tpos a)) by (destruct bw; cbn; apply N.ltb_lt in E; lia).
        split; [exists l'; now right|]. intros c l2 H. apply elem_of_cons in H as [[= -> ->]|H]; [exact Hba|eauto].
      * assert (Hab : ple bw (tpos a) (tpos b)) by (destruct bw; cbn; apply N.ltb_ge in E; lia).
        split; [exists l; now left|]. intros c l2 H. apply elem_of_cons in H as [[= -> ->]|H]; [destruct bw; cbn; lia|].
        eapply ple_trans; [exact Hab|eauto].
    + split; [exists l; now left|]. intros c l2 H. apply elem_of_cons in H as [[= -> ->]|H]; [destruct bw; cbn; lia|].
      exfalso. clear -H IH. apply elem_of_list_split in H as (x & y & ->). rewrite concat_app in IH. apply app_nil in IH as [_ IH]. discriminate.
Qed.
Lemma pop_head_perm a l ls : a :: l ∈ ls -> concat ls ≡ₚ a :: concat (pop_head a ls).
Proof.
  induction ls as [|l0 ls IH]; [intros H; inversion H|]. intros H. cbn [pop_head]. apply elem_of_cons in H as [<-|H].
  - rewrite decide_True by reflexivity. reflexivity.
  - destruct l0 as [|b l0]; [cbn; auto|]. destruct (decide (b = a)) as [->|]; [reflexivity|].
    cbn [concat]. rewrite (IH H). apply Permutation_sym, (Permutation_middle (b :: l0)).
Qed.
Lemma pop_head_sorted bw a ls : Forall (StronglySorted (tle bw)) ls -> Forall (StronglySorted (tle bw)) (pop_head a ls).
Proof.
  induction 1 as [|l ls Hl Hls IH]; cbn [pop_head]; [constructor|].
  destruct l as [|b l]; [now constructor|]. destruct (decide (b = a)); [|now constructor].
  constructor; [|exact Hls]. now inversion Hl.
Qed.
Lemma kmerge_ok bw : forall fuel ls, (length (concat ls) <= fuel)%nat -> Forall (StronglySorted (tle bw)) ls ->
  kmerge fuel bw ls ≡ₚ concat ls /\ StronglySorted (tle bw) (kmerge fuel bw ls).
Proof.
  induction fuel as [|fuel IH]; intros ls Hlen Hs; cbn [kmerge].
  - destruct (concat ls); [split; constructor|cbn in Hlen; lia].
  - pose proof (best_head_ok bw ls) as Hb. destruct (best_head bw ls) as [a|]; [|rewrite Hb; split; constructor].
    destruct Hb as [[l Hl] Hmin]. pose proof (pop_head_perm a l ls Hl) as Hp.
    assert (Hlen' : (length (concat (pop_head a ls)) <= fuel)%nat) by (rewrite Hp in Hlen; cbn in Hlen; lia).
    destruct (IH _ Hlen' (pop_head_sorted bw a ls Hs)) as [P1 S1]. split; [now rewrite P1, Hp|].
    constructor; [exact S1|]. apply Forall_forall. intros b Hb. rewrite P1 in Hb.
    assert (Hb' : b ∈ concat ls) by (rewrite Hp; now right).
    apply elem_of_list_In, in_concat in Hb' as (l' & Hl' & Hin). apply elem_of_list_In in Hl'. apply elem_of_list_In in Hin.
    destruct l' as [|c l']; [inversion Hin|]. pose proof (Hmin c l' Hl') as Hac. apply elem_of_cons in Hin as [->|Hin]; [exact Hac|].
    eapply ple_trans; [exact Hac|]. rewrite Forall_forall in Hs. specialize (Hs _ Hl'). inversion Hs as [|? ? _ Hf]; subst.
    rewrite Forall_forall in Hf. now apply Hf.
Qed.

Notation group := (N * list bytes * list nat)%type.
Definition group_of (l : list tagged) (g : group) : Prop :=
  (forall t, t ∈ g.1.2 <-> exists Q, (g.1.1, t, Q) ∈ l) /\
  (forall i, i ∈ g.2 <-> exists t Q, (g.1.1, t, Q) ∈ l /\ i ∈ Q).
(** The current group stands for the tokens already consumed. *)
Lemma group_from_ok bw : forall l p T Q l0,
  StronglySorted (tle bw) l -> (forall a, a ∈ l -> ple bw p (tpos a)) ->
  (forall a, a ∈ l0 -> tpos a = p) -> l0 <> [] -> group_of l0 (p, T, Q) ->
  let gs := group_from (Some (p, T, Q)) l in
  StronglySorted (plt bw) (map (fun g => g.1.1) gs) /\ (forall g, g ∈ gs -> group_of (l0 ++ l) g) /\
  (forall g, g ∈ gs -> ple bw p g.1.1) /\
  (forall a, a ∈ l0 ++ l -> exists g, g ∈ gs /\ g.1.1 = tpos a) /\ (forall g, g ∈ gs -> exists a, a ∈ l0 ++ l /\ tpos a = g.1.1).
Proof.
  induction l as [|[[pos tag] qi] l IH]; intros p T Q l0 Hs Hle Hl0 Hne Hg; cbv zeta; cbn [group_from].
  - rewrite app_nil_r. split; [repeat constructor|]. split; [|split; [|split]].
    + intros g H. apply elem_of_list_singleton in H as ->. exact Hg.
    + intros g H. apply elem_of_list_singleton in H as ->. destruct bw; cbn; lia.
    + intros a Ha. exists (p, T, Q). split; [now left|]. symmetry. now apply Hl0.
    + intros g H. apply elem_of_list_singleton in H as ->. destruct l0 as [|a l0]; [congruence|]. exists a. split; [now left|].
      apply Hl0. now left.
  - inversion Hs as [|? ? Hs' Hf]; subst. rewrite Forall_forall in Hf. destruct (N.eqb_spec p pos) as [<-|Hpp].
    + destruct (IH p (tag :: T) (qi ++ Q) (l0 ++ [(p, tag, qi)]) Hs') as (R1 & R2 & R3 & R4 & R5).
      * intros a Ha. apply (Hf a Ha).
      * intros a Ha. apply elem_of_app in Ha as [Ha|Ha]; [auto|]. apply elem_of_list_singleton in Ha as ->. reflexivity.
      * destruct l0; discriminate.
      * destruct Hg as [G1 G2]. cbn [fst snd] in *. split; intros x; cbn [fst snd].
        -- rewrite elem_of_cons, G1. split.
           ++ intros [->|[Q' HQ]]; [exists qi|exists Q']; set_solver.
           ++ intros [Q' HQ]. apply elem_of_app in HQ as [HQ|HQ]; [right; eauto|]. apply elem_of_list_singleton in HQ. injection HQ as -> ->. now left.
        -- rewrite elem_of_app, G2. split.
           ++ intros [H|(t & Q' & HQ & Hi)]; [exists tag, qi; set_solver|exists t, Q'; set_solver].
           ++ intros (t & Q' & HQ & Hi). apply elem_of_app in HQ as [HQ|HQ]; [right; eauto|]. apply elem_of_list_singleton in HQ. injection HQ as -> ->. now left.
      * rewrite <- app_assoc in *. auto.
    + assert (Hplt : plt bw p pos).
      { specialize (Hle (pos, tag, qi) ltac:(now left)). destruct bw; cbn in *; lia. }
      destruct (IH pos [tag] qi [(pos, tag, qi)] Hs') as (R1 & R2 & R3 & R4 & R5).
      * intros a Ha. apply (Hf a Ha).
      * intros a Ha. apply elem_of_list_singleton in Ha as ->. reflexivity.
      * discriminate.
      * split; intros x; cbn [fst snd].
        -- rewrite elem_of_list_singleton. split; [intros ->; exists qi; now left|]. intros [Q' HQ]. apply elem_of_list_singleton in HQ. now injection HQ as -> ->.
        -- split; [intros Hx; exists tag, qi; split; [now left|exact Hx]|]. intros (t & Q' & HQ & Hx). apply elem_of_list_singleton in HQ. now injection HQ as -> ->.
      * cbn [app] in *. set (gs := group_from (Some (pos, [tag], qi)) l) in *.
        split; [|split; [|split; [|split]]].
        -- cbn [map fst]. constructor; [exact R1|]. apply Forall_map, Forall_forall. intros g Hg'. specialize (R3 g Hg').
           destruct bw; cbn in *; lia.
        -- intros g Hg'. apply elem_of_cons in Hg' as [->|Hg'].
           ++ destruct Hg as [G1 G2]. cbn [fst snd] in *.
              assert (Hno : forall t Q', (p, t, Q') ∈ (pos, tag, qi) :: l -> False).
              { intros t Q' H. apply elem_of_cons in H as [[= H _ _]|H]; [congruence|]. specialize (Hf _ H). destruct bw; cbn in *; lia. }
              split; intros x; cbn [fst snd].
              ** rewrite G1. split; intros [Q' HQ]; exists Q'; [set_solver|]. apply elem_of_app in HQ as [HQ|HQ]; [exact HQ|]. now apply Hno in HQ.
              ** rewrite G2. split; intros (t & Q' & HQ & Hx); exists t, Q'; [set_solver|]. apply elem_of_app in HQ as [HQ|HQ]; [auto|]. now apply Hno in HQ.
           ++ assert (Hgp : g.1.1 <> p) by (specialize (R3 g Hg'); destruct bw; cbn in *; lia).
              destruct (R2 g Hg') as [G1 G2]. split; intros x.
              ** rewrite G1. split; intros [Q' HQ]; exists Q'; [set_solver|]. apply elem_of_app in HQ as [HQ|HQ]; [|exact HQ]. apply Hl0 in HQ. cbn in HQ. congruence.
              ** rewrite G2. split; intros (t & Q' & HQ & Hx); exists t, Q'; [set_solver|]. apply elem_of_app in HQ as [HQ|HQ]; [|auto]. apply Hl0 in HQ. cbn in HQ. congruence.
        -- intros g Hg'. apply elem_of_cons in Hg' as [->|Hg']; [destruct bw; cbn; lia|]. specialize (R3 g Hg'). destruct bw; cbn in *; lia.
        -- intros a Ha. apply elem_of_app in Ha as [Ha|Ha].
           ++ exists (p, T, Q). split; [now left|]. symmetry. now apply Hl0.
           ++ destruct (R4 a Ha) as (g & Hg' & Eg). exists g. split; [now right|exact Eg].
        -- intros g Hg'. apply elem_of_cons in Hg' as [->|Hg'].
           ++ destruct l0 as [|a l0]; [congruence|]. exists a. split; [now left|]. apply Hl0. now left.
           ++ destruct (R5 g Hg') as (a & Ha & Ea). exists a. split; [set_solver|exact Ea].
Qed.
Lemma groups_ok bw l : StronglySorted (tle bw) l ->
  let gs := group_from None l in
  StronglySorted (plt bw) (map (fun g => g.1.1) gs) /\ (forall g, g ∈ gs -> group_of l g) /\
  (forall a, a ∈ l -> exists g, g ∈ gs /\ g.1.1 = tpos a) /\ (forall g, g ∈ gs -> exists a, a ∈ l /\ tpos a = g.1.1).
Proof.
  destruct l as [|[[pos tag] qi] l]; intros Hs; cbv zeta; cbn [group_from].
  - split; [constructor|]. split; [|split]; intros ? H; inversion H.
  - inversion Hs as [|? ? Hs' Hf]; subst. rewrite Forall_forall in Hf.
    destruct (group_from_ok bw l pos [tag] qi [(pos, tag, qi)] Hs') as (R1 & R2 & R3 & R4 & R5).
    + intros a Ha. apply (Hf a Ha).
    + intros a Ha. apply elem_of_list_singleton in Ha as ->. reflexivity.
    + discriminate.
    + split; intros x; cbn [fst snd].
      * rewrite elem_of_list_singleton. split; [intros ->; exists qi; now left|]. intros [Q' HQ]. apply elem_of_list_singleton in HQ. now injection HQ as -> ->.
      * split; [intros Hx; exists tag, qi; split; [now left|exact Hx]|]. intros (t & Q' & HQ & Hx). apply elem_of_list_singleton in HQ. now injection HQ as -> ->.
    + cbn [app] in *. auto.
Qed.

(** Two strictly ordered lists with the same elements are equal. *)
Lemma sorted_ext {A} (R : A -> A -> Prop) : (forall a, ~ R a a) -> (forall a b, R a b -> R b a -> False) -> forall l l',
  StronglySorted R l -> StronglySorted R l' -> (forall x, x ∈ l <-> x ∈ l') -> l = l'.
Proof.
  intros Hir Has. induction l as [|x l IH]; intros l' Hs Hs' Heq.
  - destruct l' as [|y l']; [reflexivity|]. specialize (proj2 (Heq y) ltac:(now left)). intros H. inversion H.
  - destruct l' as [|y l']; [specialize (proj1 (Heq x) ltac:(now left)); intros H; inversion H|].
    inversion Hs as [|? ? Hs1 Hf1]; subst. inversion Hs' as [|? ? Hs2 Hf2]; subst. rewrite Forall_forall in Hf1, Hf2.
    assert (x = y) as <-.
    { pose proof (proj1 (Heq x) ltac:(now left)) as Hx. pose proof (proj2 (Heq y) ltac:(now left)) as Hy.
      apply elem_of_cons in Hx as [?|Hx]; [auto|]. apply elem_of_cons in Hy as [?|Hy]; [auto|].
      exfalso. eapply Has; [apply Hf1; exact Hy|apply Hf2; exact Hx]. }
    f_equal. apply IH; auto. intros z. split; intros Hz.
    + pose proof (proj1 (Heq z) ltac:(now right)) as H. apply elem_of_cons in H as [->|H]; [exfalso; eapply Hir; apply Hf1; exact Hz|exact H].
    + pose proof (proj2 (Heq z) ltac:(now right)) as H. apply elem_of_cons in H as [->|H]; [exfalso; eapply Hir; apply Hf2; exact Hz|exact H].
Qed.
