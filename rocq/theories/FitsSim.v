(** A transaction that succeeds when some pages cannot be read does the same when they can. *)
From Verif Require Export Fits Store.
Local Open Scope N_scope.

Section sim.
  Context (rd1 rd2 : snapshot) (Hsub : forall q n, rd1 q = Ok n -> rd2 q = Ok n) (kw : nat) (ps : N).

  Definition lsim (w1 w2 : writer) : Prop := (exists d, w1 = set_deser d w2 /\ forall q n, d !! q = Some n -> w_deser w2 !! q = Some n) /\ coh rd2 w2.
  Definition msim {A} (m1 m2 : M A) : Prop := forall w1 w2 a w1', lsim w1 w2 -> m1 w1 = (Ok a, w1') -> exists w2', m2 w2 = (Ok a, w2') /\ lsim w1' w2'.

  Lemma msim_bind {A B} (m1 m2 : M A) (f1 f2 : A -> M B) : msim m1 m2 -> (forall a, msim (f1 a) (f2 a)) -> msim (wbind m1 f1) (wbind m2 f2).
  Proof.
    intros Hm Hf w1 w2 b w1' HR E. apply wbind_ok in E as (a & v1 & E1 & E). destruct (Hm _ _ _ _ HR E1) as (v2 & E2 & HR').
    destruct (Hf a _ _ _ _ HR' E) as (w2' & E3 & HR''). exists w2'. split; [|exact HR'']. unfold wbind. now rewrite E2.
  Qed.
  Lemma msim_ret {A} (a : A) : msim (ret a) (ret a).
  Proof. intros w1 w2 b w1' HR [= <- <-]. exists w2. split; [reflexivity|exact HR]. Qed.
  Lemma msim_fail {A} e e' : msim (@fail A e) (@fail A e').
  Proof. intros w1 w2 b w1' HR [=]. Qed.
  Lemma msim_lift {A} (r : res A) : msim (lift r) (lift r).
  Proof. intros w1 w2 b w1' HR [= -> <-]. exists w2. split; [reflexivity|exact HR]. Qed.
  Lemma msim_gets {A} (f : writer -> A) : (forall d w, f (set_deser d w) = f w) -> msim (gets f) (gets f).
  Proof. intros Hf w1 w2 b w1' HR [= <- <-]. exists w2. split; [|exact HR]. destruct HR as [(d & -> & _) _]. unfold gets. now rewrite Hf. Qed.
  Lemma msim_modify f : (forall d w, f (set_deser d w) = set_deser d (f w) /\ w_deser (f w) = w_deser w) -> msim (modify f) (modify f).
  Proof.
    intros Hf w1 w2 b w1' HR [= <- <-]. exists (f w2). split; [reflexivity|]. destruct HR as [(d & -> & Hd) Hc]. destruct (Hf d w2) as [E1 E2].
    split; [exists d; split; [exact E1|rewrite E2; exact Hd]|]. intros q n. rewrite E2. apply Hc.
  Qed.
  Lemma msim_ref p : msim (get_page_ref rd1 p) (get_page_ref rd2 p).
  Proof.
    intros w1 w2 n w1' HR E. pose proof HR as [(d & -> & Hd) Hc]. unfold get_page_ref in *. cbn in E. destruct (w_dirty w2 !! p) as [m|].
    { injection E as <- <-. exists w2. auto. }
    destruct (d !! p) as [m|] eqn:E1. { injection E as <- <-. rewrite (Hd _ _ E1). exists w2. auto. }
    destruct (rd1 p) as [m|e] eqn:E2; [|discriminate]. injection E as <- <-. apply Hsub in E2. destruct (w_deser w2 !! p) as [m'|] eqn:E3.
    - pose proof (Hc _ _ E3) as E4. rewrite E2 in E4. injection E4 as <-. exists w2. split; [reflexivity|]. split; [|exact Hc].
      exists (<[p := m]> d). split; [reflexivity|]. intros q n Hq. apply lookup_insert_Some in Hq as [[<- <-]|[_ Hq]]; auto.
    - rewrite E2. eexists. split; [reflexivity|]. split.
      + exists (<[p := m]> d). split; [reflexivity|]. cbn. intros q n Hq. apply lookup_insert_Some. apply lookup_insert_Some in Hq as [[<- <-]|[Hn Hq]]; auto.
      + intros q n Hq. cbn in Hq. apply lookup_insert_Some in Hq as [[<- <-]|[_ Hq]]; auto.
  Qed.
  Lemma msim_mut p : msim (get_mut_dirty p) (get_mut_dirty p).
  Proof.
    intros w1 w2 n w1' HR E. pose proof HR as [(d & -> & Hd) Hc]. unfold get_mut_dirty in *. cbn in E. destruct (w_dirty w2 !! p); [|discriminate].
    injection E as <- <-. exists w2. auto.
  Qed.
  Lemma msim_put p n : msim (put_dirty p n) (put_dirty p n).
  Proof.
    intros w1 w2 b w1' HR E. pose proof HR as [(d & -> & Hd) Hc]. unfold put_dirty in *. cbn in E. injection E as <- <-. eexists. split; [reflexivity|].
    split; [exists d; auto|exact Hc].
  Qed.
  Lemma msim_insert p n : msim (insert_dirty p n) (insert_dirty p n).
  Proof.
    intros w1 w2 b w1' HR E. pose proof HR as [(d & -> & Hd) Hc]. unfold insert_dirty in *. cbn [w_freed w_dirty set_deser] in E. destruct (decide _); [discriminate|]. destruct (w_dirty w2 !! p); [discriminate|].
    injection E as <- <-. eexists. split; [reflexivity|]. split; [exists d; auto|exact Hc].
  Qed.
  Lemma msim_alloc : msim alloc_page_id alloc_page_id.
  Proof.
    intros w1 w2 b w1' HR E. pose proof HR as [(d & -> & Hd) Hc]. unfold alloc_page_id in *. cbn [w_reusable set_deser] in E. destruct (w_reusable w2) as [|[q t] l];
    injection E as <- <-; (eexists; split; [reflexivity|]); (split; [exists d; auto|exact Hc]).
  Qed.
  Lemma msim_cow p : msim (get_dirty_page_id p) (get_dirty_page_id p).
  Proof.
    intros w1 w2 b w1' HR E. pose proof HR as [(d & -> & Hd) Hc]. unfold get_dirty_page_id in *. cbn [w_freed w_dirty set_deser] in E. destruct (decide _); [discriminate|].
    destruct (w_dirty w2 !! p) eqn:Ed; [injection E as <- <-; exists w2; auto|].
    apply wbind_ok in E as (q & v1 & E1 & E2).
    assert (HR' : lsim (set_freed ({[p]} ∪ w_freed w2) (set_deser d w2)) (set_freed ({[p]} ∪ w_freed w2) w2)) by (split; [exists d; auto|exact Hc]).
    destruct (msim_alloc _ _ _ _ HR' E1) as (v2 & E3 & [(d' & -> & Hd') Hc']). unfold wbind. rewrite E3. cbn [w_deser set_deser] in E2.
    destruct (d' !! p) as [nn|] eqn:En; [|discriminate]. rewrite (Hd' _ _ En). injection E2 as <- <-. eexists. split; [reflexivity|]. split.
    - exists (delete p d'). split; [reflexivity|]. cbn. intros x m Hx. apply lookup_delete_Some. apply lookup_delete_Some in Hx as [Hn Hx]. auto.
    - intros x m Hx. cbn in Hx. apply lookup_delete_Some in Hx as [_ Hx]. auto.
  Qed.
  Lemma msim_freed p : msim (append_freed_page_id p) (append_freed_page_id p).
  Proof.
    intros w1 w2 b w1' HR E. pose proof HR as [(d & -> & Hd) Hc]. unfold append_freed_page_id in *. cbn [w_freed w_dirty set_deser] in E. destruct (decide _).
    - injection E as <- <-. exists w2. auto.
    - injection E as <- <-. eexists. split; [reflexivity|]. split; [exists d; auto|exact Hc].
  Qed.

  Ltac ms := repeat first
    [ apply msim_ret | apply msim_fail | apply msim_lift | apply msim_ref | apply msim_mut | apply msim_put | apply msim_insert | apply msim_alloc
    | apply msim_cow | apply msim_freed | (apply msim_gets; reflexivity) | (apply msim_modify; intros; split; reflexivity)
    | assumption
    | match goal with H : forall _, _ |- msim _ _ => apply H end
    | (apply msim_bind; [|intros ?])
    | match goal with |- msim (match ?x with _ => _ end) _ => destruct x end ].

  Lemma msim_descend {K} (ops : tree_ops K) : forall fuel p st, msim (descend ops rd1 fuel p st) (descend ops rd2 fuel p st).
  Proof. induction fuel as [|fuel IH]; intros p st; cbn [descend]; ms. Qed.
  Lemma msim_propagate {K} (ops : tree_ops K) : forall st ri si, msim (propagate ops kw ps st ri si) (propagate ops kw ps st ri si).
  Proof. induction st as [|[p i] st IH]; intros ri si; cbn [propagate]; cbv zeta; ms. Qed.
  Lemma msim_finish {K} (ops : tree_ops K) root ri si : msim (finish ops root ri si) (finish ops root ri si).
  Proof. unfold finish. ms. Qed.
  Lemma msim_chunks : forall cs next, msim (write_chunks cs next) (write_chunks cs next).
  Proof. induction cs as [|c cs IH]; intros next; cbn [write_chunks]; ms. Qed.
  Lemma msim_choose sv : msim (choose_value ps sv) (choose_value ps sv).
  Proof. pose proof msim_chunks. unfold choose_value, data_and_metadata_to_chain, write_overflow_chain. cbv zeta. ms. Qed.
  Ltac ms2 := repeat first [ apply msim_descend | apply msim_propagate | apply msim_finish | apply msim_choose | progress ms ].
  Lemma msim_event sv pos : msim (event_tree_append rd1 kw ps sv pos) (event_tree_append rd2 kw ps sv pos).
  Proof. unfold event_tree_append. cbv zeta. ms2. Qed.
  Lemma msim_per_tag root pos : msim (per_tag_insert rd1 kw ps root pos) (per_tag_insert rd2 kw ps root pos).
  Proof. unfold per_tag_insert. cbv zeta. ms2. Qed.
  Lemma msim_tags tag pos : msim (tags_tree_insert rd1 kw ps tag pos) (tags_tree_insert rd2 kw ps tag pos).
  Proof. pose proof msim_per_tag. unfold tags_tree_insert, tags_leaf_update, tags_leaf_split, new_per_tag_tree, set_tags_value. cbv zeta. ms2. Qed.
  Lemma msim_tracking s pos : msim (tracking_upsert rd1 kw ps s pos) (tracking_upsert rd2 kw ps s pos).
  Proof. unfold tracking_upsert, trk_leaf_update. cbv zeta. ms2. Qed.
  Lemma msim_insert_tags hash tags pos : msim (insert_tags rd1 kw ps hash tags pos) (insert_tags rd2 kw ps hash tags pos).
  Proof. pose proof msim_tags. induction tags as [|t tags IH]; cbn [insert_tags]; ms. Qed.
  Lemma msim_position : msim issue_position issue_position.
  Proof.
    intros w1 w2 b w1' HR E. pose proof HR as [(d & -> & Hd) Hc]. unfold issue_position in *. cbn [w_next_pos set_deser] in E. injection E as <- <-. eexists. split; [reflexivity|].
    split; [exists d; auto|exact Hc].
  Qed.
  Lemma msim_values hash svs : forall lst, msim (append_values rd1 kw ps hash svs lst) (append_values rd2 kw ps hash svs lst).
  Proof. pose proof msim_event. pose proof msim_insert_tags. pose proof msim_position. induction svs as [|sv svs IH]; intros lst; cbn [append_values]; ms. Qed.
  Lemma msim_request hash order c evs trk : msim (process_append_request rd1 kw ps hash order c evs None trk) (process_append_request rd2 kw ps hash order c evs None trk).
  Proof. pose proof (msim_values hash). pose proof msim_tracking. unfold process_append_request. cbn [check_condition]. ms. Qed.

  Lemma msim_tsn_insert root key : msim (tsn_subtree_insert rd1 kw ps root key) (tsn_subtree_insert rd2 kw ps root key).
  Proof. unfold tsn_subtree_insert. cbv zeta. ms2. Qed.
  Lemma msim_tsn_all : forall ids root, msim (tsn_insert_all rd1 kw ps root ids) (tsn_insert_all rd2 kw ps root ids).
  Proof. pose proof msim_tsn_insert. induction ids as [|p ids IH]; intros root; cbn [tsn_insert_all]; ms. Qed.
  Lemma msim_insert_freed tsn freed : msim (insert_freed_page_id rd1 kw ps tsn freed) (insert_freed_page_id rd2 kw ps tsn freed).
  Proof. pose proof msim_tsn_insert. pose proof msim_tsn_all. unfold insert_freed_page_id, apply_plan. cbv zeta. ms2. Qed.
  Lemma msim_tsn_remove root id : msim (tsn_remove rd1 kw ps root id) (tsn_remove rd2 kw ps root id).
  Proof. unfold tsn_remove, tsn_remove_up. cbv zeta. ms2. Qed.
  Lemma msim_free_all ids : msim (free_all ids) (free_all ids).
  Proof. induction ids as [|p ids IH]; cbn [free_all]; ms. Qed.
  Lemma msim_remove_free tsn id : msim (remove_free_page_id rd1 kw ps tsn id) (remove_free_page_id rd2 kw ps tsn id).
  Proof. pose proof msim_tsn_remove. pose proof msim_free_all. unfold remove_free_page_id, leaf_remove, fl_remove_up. cbv zeta. ms2. Qed.
  Lemma msim_reused fuel : msim (remove_reused rd1 kw ps fuel) (remove_reused rd2 kw ps fuel).
  Proof. pose proof msim_remove_free. induction fuel as [|fuel IH]; cbn [remove_reused]; ms. Qed.
  Lemma msim_freed_all ids : msim (insert_freed_all rd1 kw ps ids) (insert_freed_all rd2 kw ps ids).
  Proof. pose proof msim_insert_freed. induction ids as [|p ids IH]; cbn [insert_freed_all]; ms. Qed.
  Lemma msim_process ford : msim (process_freed_page_ids rd1 kw ps ford) (process_freed_page_ids rd2 kw ps ford).
  Proof.
    pose proof msim_reused. pose proof msim_freed_all.
    assert (forall fuel, msim (process_freed_loop rd1 kw ps ford fuel) (process_freed_loop rd2 kw ps ford fuel)) by (induction fuel as [|fuel IH]; cbn [process_freed_loop]; ms).
    unfold process_freed_page_ids. ms.
  Qed.
End sim.
