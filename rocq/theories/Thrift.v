(** A transaction asks for new pages at the end of the file only when it has no page left to use again. *)
From Verif Require Export Fits Store.
From Verif Require Import Append FreeList.
Local Open Scope N_scope.

(** From [w] to [w']: pages were taken from the front of the reusable ones; if that was not enough they are used up. *)
Definition spends (w w' : writer) : Prop :=
  (exists taken, w_reusable w = taken ++ w_reusable w') /\
  (w_next_page w' = w_next_page w \/ w_reusable w' = [] /\ w_next_page w <= w_next_page w').
Lemma spends_same w w' : w_reusable w' = w_reusable w -> w_next_page w' = w_next_page w -> spends w w'.
Proof. intros E1 E2. split; [exists []; now rewrite E1|now left]. Qed.
Lemma spends_trans w1 w2 w3 : spends w1 w2 -> spends w2 w3 -> spends w1 w3.
Proof.
  intros [(a & Ea) H1] [(b & Eb) H2]. split; [exists (a ++ b); rewrite Ea, Eb; now rewrite app_assoc|].
  destruct H2 as [E2|[E2 H2]]; [|right; split; [exact E2|destruct H1 as [E1|[_ H1]]; lia]].
  destruct H1 as [E1|[E1 H1]]; [left; congruence|]. right. rewrite E1 in Eb. symmetry in Eb. apply app_eq_nil in Eb as [_ Eb]. split; [exact Eb|lia].
Qed.

Section thrift.
  Context (kw : nat) (ps : N) (rd : snapshot).
  (** Whether it succeeds or fails. *)
  Definition thrifty {A} (m : M A) : Prop := forall w, spends w (m w).2.

  Lemma th_bind {A B} (m : M A) (f : A -> M B) : thrifty m -> (forall a, thrifty (f a)) -> thrifty (wbind m f).
  Proof.
    intros Hm Hf w. unfold wbind. pose proof (Hm w) as H. destruct (m w) as [[a|e] w1]; cbn in H |- *; [|exact H].
    eapply spends_trans; [exact H|apply Hf].
  Qed.
  Lemma th_same {A} (m : M A) : (forall w, w_reusable (m w).2 = w_reusable w /\ w_next_page (m w).2 = w_next_page w) -> thrifty m.
  Proof. intros H w. destruct (H w). now apply spends_same. Qed.
  Lemma th_ret {A} (a : A) : thrifty (ret a).
  Proof. now apply th_same. Qed.
  Lemma th_fail {A} e : thrifty (@fail A e).
  Proof. now apply th_same. Qed.
  Lemma th_lift {A} (r : res A) : thrifty (lift r).
  Proof. now apply th_same. Qed.
  Lemma th_gets {A} (f : writer -> A) : thrifty (gets f).
  Proof. now apply th_same. Qed.
  Lemma th_modify f : (forall w, w_reusable (f w) = w_reusable w /\ w_next_page (f w) = w_next_page w) -> thrifty (modify f).
  Proof. intros H. now apply th_same. Qed.
  Lemma th_ref p : thrifty (get_page_ref rd p).
  Proof. apply th_same. intros w. unfold get_page_ref. destruct (w_dirty w !! p); [auto|]. destruct (w_deser w !! p); [auto|]. destruct (rd p); auto. Qed.
  Lemma th_mut p : thrifty (get_mut_dirty p).
  Proof. apply th_same. intros w. unfold get_mut_dirty. destruct (w_dirty w !! p); auto. Qed.
  Lemma th_put p n : thrifty (put_dirty p n).
  Proof. now apply th_same. Qed.
  Lemma th_insert p n : thrifty (insert_dirty p n).
  Proof. apply th_same. intros w. unfold insert_dirty. destruct (decide _); [auto|]. destruct (w_dirty w !! p); auto. Qed.
  Lemma th_alloc : thrifty alloc_page_id.
  Proof.
    intros w. unfold alloc_page_id. destruct (w_reusable w) as [|[p t] l] eqn:E; cbn.
    - split; [exists []; reflexivity|]. right. cbn. split; [exact E|lia].
    - split; [exists [(p, t)]; cbn; exact E|]. left. reflexivity.
  Qed.
  Lemma th_cow p : thrifty (get_dirty_page_id p).
  Proof.
    intros w. unfold get_dirty_page_id. destruct (decide _); [now apply spends_same|]. destruct (w_dirty w !! p); [now apply spends_same|].
    refine (spends_trans _ (set_freed ({[p]} ∪ w_freed w) w) _ _ _); [now apply spends_same|].
    match goal with |- spends ?w0 (?m ?w0).2 => assert (thrifty m) as Hm; [|exact (Hm w0)] end.
    apply th_bind; [apply th_alloc|]. intros q. apply th_same. intros w1. destruct (w_deser w1 !! p); auto.
  Qed.
  Lemma th_freed p : thrifty (append_freed_page_id p).
  Proof. apply th_same. intros w. unfold append_freed_page_id. destruct (decide _); auto. Qed.

  Ltac th := repeat first
    [ apply th_ret | apply th_fail | apply th_lift | apply th_ref | apply th_mut | apply th_put | apply th_insert | apply th_alloc
    | apply th_cow | apply th_freed | apply th_gets | (apply th_modify; intros; split; reflexivity)
    | assumption
    | match goal with H : forall _, _ |- thrifty _ => apply H end
    | (apply th_bind; [|intros ?])
    | match goal with |- thrifty (match ?x with _ => _ end) => destruct x end ].

  Lemma th_descend {K} (ops : tree_ops K) : forall fuel p st, thrifty (descend ops rd fuel p st).
  Proof. induction fuel as [|fuel IH]; intros p st; cbn [descend]; th. Qed.
  Lemma th_propagate {K} (ops : tree_ops K) : forall st ri si, thrifty (propagate ops kw ps st ri si).
  Proof. induction st as [|[p i] st IH]; intros ri si; cbn [propagate]; cbv zeta; th. Qed.
  Lemma th_finish {K} (ops : tree_ops K) root ri si : thrifty (finish ops root ri si).
  Proof. unfold finish. th. Qed.
  Lemma th_chunks : forall cs next, thrifty (write_chunks cs next).
  Proof. induction cs as [|c cs IH]; intros next; cbn [write_chunks]; th. Qed.
  Lemma th_choose sv : thrifty (choose_value ps sv).
  Proof. pose proof th_chunks. unfold choose_value, data_and_metadata_to_chain, write_overflow_chain. cbv zeta. th. Qed.
  Ltac th2 := repeat first [ apply th_descend | apply th_propagate | apply th_finish | apply th_choose | progress th ].
  Lemma th_event sv pos : thrifty (event_tree_append rd kw ps sv pos).
  Proof. unfold event_tree_append. cbv zeta. th2. Qed.
  Lemma th_per_tag root pos : thrifty (per_tag_insert rd kw ps root pos).
  Proof. unfold per_tag_insert. cbv zeta. th2. Qed.
  Lemma th_tags tag pos : thrifty (tags_tree_insert rd kw ps tag pos).
  Proof. pose proof th_per_tag. unfold tags_tree_insert, tags_leaf_update, tags_leaf_split, new_per_tag_tree, set_tags_value. cbv zeta. th2. Qed.
  Lemma th_tracking s pos : thrifty (tracking_upsert rd kw ps s pos).
  Proof. unfold tracking_upsert, trk_leaf_update. cbv zeta. th2. Qed.
  Lemma th_insert_tags hash tags pos : thrifty (insert_tags rd kw ps hash tags pos).
  Proof. pose proof th_tags. induction tags as [|t tags IH]; cbn [insert_tags]; th. Qed.
  Lemma th_position : thrifty issue_position.
  Proof. now apply th_same. Qed.
  Lemma th_values hash svs : forall lst, thrifty (append_values rd kw ps hash svs lst).
  Proof. pose proof th_event. pose proof th_insert_tags. pose proof th_position. induction svs as [|sv svs IH]; intros lst; cbn [append_values]; th. Qed.
  Lemma th_request hash order c evs cond trk : thrifty (process_append_request rd kw ps hash order c evs cond trk).
  Proof.
    pose proof (th_values hash). pose proof th_tracking. unfold process_append_request. apply th_bind; [|intros ?].
    - unfold check_condition, is_request_idempotent, read_dirty. cbv zeta. th.
    - th.
  Qed.

  Lemma th_tsn_insert root key : thrifty (tsn_subtree_insert rd kw ps root key).
  Proof. unfold tsn_subtree_insert. cbv zeta. th2. Qed.
  Lemma th_tsn_all : forall ids root, thrifty (tsn_insert_all rd kw ps root ids).
  Proof. pose proof th_tsn_insert. induction ids as [|p ids IH]; intros root; cbn [tsn_insert_all]; th. Qed.
  Lemma th_insert_freed tsn freed : thrifty (insert_freed_page_id rd kw ps tsn freed).
  Proof. pose proof th_tsn_insert. pose proof th_tsn_all. unfold insert_freed_page_id, apply_plan. cbv zeta. th2. Qed.
  Lemma th_tsn_remove root id : thrifty (tsn_remove rd kw ps root id).
  Proof. unfold tsn_remove, tsn_remove_up. cbv zeta. th2. Qed.
  Lemma th_free_all ids : thrifty (free_all ids).
  Proof. induction ids as [|p ids IH]; cbn [free_all]; th. Qed.
  Lemma th_remove_free tsn id : thrifty (remove_free_page_id rd kw ps tsn id).
  Proof. pose proof th_tsn_remove. pose proof th_free_all. unfold remove_free_page_id, leaf_remove, fl_remove_up. cbv zeta. th2. Qed.
  Lemma th_reused fuel : thrifty (remove_reused rd kw ps fuel).
  Proof. pose proof th_remove_free. induction fuel as [|fuel IH]; cbn [remove_reused]; th. Qed.
  Lemma th_freed_all ids : thrifty (insert_freed_all rd kw ps ids).
  Proof. pose proof th_insert_freed. induction ids as [|p ids IH]; cbn [insert_freed_all]; th. Qed.
  Lemma th_process ford : thrifty (process_freed_page_ids rd kw ps ford).
  Proof.
    pose proof th_reused. pose proof th_freed_all.
    assert (forall fuel, thrifty (process_freed_loop rd kw ps ford fuel)) by (induction fuel as [|fuel IH]; cbn [process_freed_loop]; th).
    unfold process_freed_page_ids. th.
  Qed.
End thrift.

(** Looking for reusable pages does not change the end of the file. *)
Section still.
  Context (rd : snapshot).
  Definition still {A} (m : M A) : Prop := forall w, w_next_page (m w).2 = w_next_page w.
  Lemma st_bind {A B} (m : M A) (f : A -> M B) : still m -> (forall a, still (f a)) -> still (wbind m f).
  Proof.
    intros Hm Hf w. unfold wbind. pose proof (Hm w) as H. destruct (m w) as [[a|e] w1]; cbn in H |- *; [|exact H]. now rewrite Hf.
  Qed.
  Lemma st_load p : still (load_page rd p).
  Proof.
    intros w. unfold load_page, get_page_ref. destruct (w_dirty w !! p); [reflexivity|]. destruct (w_deser w !! p); [reflexivity|]. destruct (rd p); reflexivity.
  Qed.
  Ltac st := repeat first [ apply st_load | assumption | match goal with H : forall _, _ |- still _ => apply H end | (apply st_bind; [|intros ?])
    | match goal with |- still (match ?x with _ => _ end) => destruct x end | (intros ?; reflexivity) ].
  Lemma st_concat {A} (f : N -> M (list A)) l : (forall c, still (f c)) -> still (concat_m f l).
  Proof. intros Hf. induction l as [|c l IH]; cbn [concat_m]; st. Qed.
  Lemma st_tsn : forall fuel p, still (tsn_collect rd fuel p).
  Proof. induction fuel as [|fuel IH]; intros p; cbn [tsn_collect]; [st|]. pose proof (fun l => st_concat (tsn_collect rd fuel) l IH). st. Qed.
  Lemma st_leaf fuel sm : forall ks vs, still (leaf_collect rd fuel sm ks vs).
  Proof. pose proof st_tsn. induction ks as [|k ks IH]; intros vs; cbn [leaf_collect]; st. Qed.
  Lemma st_until f l : (forall c, still (f c)) -> still (collect_until f l).
  Proof. intros Hf. induction l as [|c l IH]; cbn [collect_until]; st. Qed.
  Lemma st_collect sm : forall fuel p, still (fl_collect rd fuel sm p).
  Proof.
    pose proof st_leaf. induction fuel as [|fuel IH]; intros p; cbn [fl_collect]; [st|]. pose proof (fun l => st_until (fl_collect rd fuel sm) l IH). st.
  Qed.
  Lemma st_find sm : still (find_reusable_page_ids rd sm).
  Proof. pose proof (st_collect sm). unfold find_reusable_page_ids. st. Qed.
End still.
