(** The six trees satisfy the laws of the shared loops. *)
From Verif Require Export TreeProofs BSearch.
Local Open Scope nat_scope.

Lemma list_insert_mid {A} (l1 l2 : list A) x y : <[length l1 := y]> (l1 ++ x :: l2) = l1 ++ y :: l2.
Proof. rewrite <- (Nat.add_0_r (length l1)) at 1. rewrite insert_app_r. reflexivity. Qed.

Section node_ops.
  Context {K : Type}.
  Implicit Types (ks ksL ksR : list K) (cs csL csR : list N).

  Lemma repl_last_ok ksL ksR csL c csR c' i : csR = [] ->
    repl_last (INode (ksL ++ ksR) (csL ++ c :: csR)) i c c' = Ok (INode (ksL ++ ksR) (csL ++ c' :: csR)).
  Proof.
    intros ->. unfold repl_last. cbn [in_keys in_children]. rewrite app_length. cbn [length].
    replace (Nat.pred (length csL + 1)) with (length csL) by lia.
    rewrite list_lookup_middle by reflexivity. rewrite N.eqb_refl. now rewrite list_insert_mid.
  Qed.
  Lemma repl_at_ok e ksL ksR csL c csR c' :
    repl_at e (INode (ksL ++ ksR) (csL ++ c :: csR)) (length csL) c c' = Ok (INode (ksL ++ ksR) (csL ++ c' :: csR)).
  Proof.
    unfold repl_at. cbn [in_keys in_children].
    rewrite list_lookup_middle by reflexivity. rewrite N.eqb_refl. now rewrite list_insert_mid.
  Qed.
  Lemma ins_last_ok ksL ksR csL c csR k q i : length ksR = length csR -> csR = [] ->
    ins_last (INode (ksL ++ ksR) (csL ++ c :: csR)) i k q = INode (ksL ++ k :: ksR) (csL ++ c :: q :: csR).
  Proof.
    intros HR ->. destruct ksR; [|discriminate HR]. unfold ins_last. cbn [in_keys in_children].
    rewrite app_nil_r. f_equal. lassoc.
  Qed.
  Lemma vec_insert_app {A} (l1 l2 : list A) x i : i = length l1 -> vec_insert i x (l1 ++ l2) = l1 ++ x :: l2.
  Proof. intros ->. unfold vec_insert. now rewrite take_app, drop_app. Qed.
  Lemma ins_at_ok ksL ksR csL c csR k q : length ksL = length csL ->
    ins_at (INode (ksL ++ ksR) (csL ++ c :: csR)) (length csL) k q = INode (ksL ++ k :: ksR) (csL ++ c :: q :: csR).
  Proof.
    intros HL. unfold ins_at. cbn [in_keys in_children]. f_equal.
    - now apply vec_insert_app.
    - change (c :: csR) with ([c] ++ csR). rewrite app_assoc, vec_insert_app; [lassoc|]. rewrite app_length. cbn. lia.
  Qed.
  Lemma split_key_ok m ks cs : length cs = S (length ks) -> 0 < m -> S m < length ks ->
    exists ksL k ksR csL csR, split_key m (INode ks cs) = Ok (INode ksL csL, k, INode ksR csR) /\
      ks = ksL ++ k :: ksR /\ cs = csL ++ csR /\ length csL = S (length ksL) /\ ksL <> [] /\ ksR <> [].
  Proof.
    intros Hl H0 Hm. unfold split_key. cbn [in_keys in_children].
    assert (m < length ks) as Hm' by lia. apply lookup_lt_is_Some in Hm' as [k Hk]. rewrite Hk.
    do 5 eexists. split; [reflexivity|]. split; [symmetry; now apply take_drop_middle|].
    split; [symmetry; apply take_drop|]. split; [rewrite !take_length; lia|].
    split; intros Hn; apply (f_equal length) in Hn; rewrite ?take_length, ?drop_length in Hn; cbn [length] in Hn; lia.
  Qed.
  Lemma split_last_ok ks cs : length cs = S (length ks) -> 3 <= length ks ->
    exists ksL k ksR csL csR, split_last (INode ks cs) = Ok (INode ksL csL, k, INode ksR csR) /\
      ks = ksL ++ k :: ksR /\ cs = csL ++ csR /\ length csL = S (length ksL) /\ ksL <> [] /\ ksR <> [].
  Proof. intros. apply split_key_ok; [assumption|cbn [in_keys]; lia..]. Qed.
  Lemma split_children_half_ok ks cs : length cs = S (length ks) -> 3 <= length ks ->
    exists ksL k ksR csL csR, split_children_half (INode ks cs) = Ok (INode ksL csL, k, INode ksR csR) /\
      ks = ksL ++ k :: ksR /\ cs = csL ++ csR /\ length csL = S (length ksL) /\ ksL <> [] /\ ksR <> [].
  Proof.
    intros Hl H3. unfold split_children_half. cbn [in_keys in_children]. rewrite Hl, Nat.eqb_refl.
    replace (S (length ks) <? 4) with false by (symmetry; apply Nat.ltb_ge; lia). cbn [orb negb].
    pose proof (Nat.div2_odd (S (length ks))) as Hod.
    apply split_key_ok; [exact Hl|..]; destruct (Nat.odd (S (length ks))); cbn [Nat.b2n] in Hod; lia.
  Qed.
  Lemma div2_lt n : 3 <= n -> 0 < Nat.div2 n /\ S (Nat.div2 n) < n.
  Proof. intros H. pose proof (Nat.div2_odd n) as Hod. destruct (Nat.odd n); cbn [Nat.b2n] in Hod; lia. Qed.
  Lemma split_keys_half_checked_ok ks cs : length cs = S (length ks) -> 3 <= length ks ->
    exists ksL k ksR csL csR, split_keys_half_checked (INode ks cs) = Ok (INode ksL csL, k, INode ksR csR) /\
      ks = ksL ++ k :: ksR /\ cs = csL ++ csR /\ length csL = S (length ksL) /\ ksL <> [] /\ ksR <> [].
  Proof.
    intros Hl H3. unfold split_keys_half_checked. cbn [in_keys in_children]. rewrite Hl, Nat.eqb_refl.
    replace (S (length ks) <? 4) with false by (symmetry; apply Nat.ltb_ge; lia). cbn [orb negb].
    apply split_key_ok; [exact Hl|apply div2_lt; lia..].
  Qed.
  Lemma split_keys_half_ok ks cs : length cs = S (length ks) -> 3 <= length ks ->
    exists ksL k ksR csL csR, split_keys_half (INode ks cs) = Ok (INode ksL csL, k, INode ksR csR) /\
      ks = ksL ++ k :: ksR /\ cs = csL ++ csR /\ length csL = S (length ksL) /\ ksL <> [] /\ ksR <> [].
  Proof.
    intros Hl H3. unfold split_keys_half. cbn [in_keys in_children]. rewrite Hl, Nat.eqb_refl. cbn [negb].
    apply split_key_ok; [exact Hl|apply div2_lt; lia..].
  Qed.
End node_ops.

Local Open Scope N_scope.

(** Smallest page size covered: an internal node with two keys always fits. *)
Definition ps_ok (ps : N) : Prop := 1024 <= ps.

Lemma nat_of_nlen {A} (l : list A) (n : nat) : N.of_nat n <= nlen l -> (n <= length l)%nat.
Proof. unfold nlen. lia. Qed.

Ltac arity := intros ks cs Hl Hk Hsz;
  assert (3 <= length ks)%nat as H3; [|split; [exact H3|]].

Section laws.
  Context (kw : nat) (ps : N) (Hps : ps_ok ps).

  Lemma ev_laws : ops_laws ev_ops kw ps True (fun _ => True).
  Proof.
    constructor; cbn [ev_ops t_int t_mk t_leaf t_repl t_ins t_split]; auto.
    - intros. apply repl_last_ok; auto.
    - intros. apply ins_last_ok; auto.
    - arity; [|now apply split_last_ok].
      unfold page_size_of, node_size, u64_int_size, nlen, PAGE_HEADER_SIZE in Hsz. cbn [in_keys in_children] in Hsz.
      rewrite Hl in Hsz. unfold ps_ok in Hps. lia.
  Qed.
  Lemma fl_laws : ops_laws fl_ops kw ps True (fun _ => True).
  Proof.
    constructor; cbn [fl_ops t_int t_mk t_leaf t_repl t_ins t_split]; auto.
    - intros. apply repl_last_ok; auto.
    - intros. apply ins_last_ok; auto.
    - arity; [|now apply split_last_ok].
      unfold page_size_of, node_size, fl_int_size, nlen, PAGE_HEADER_SIZE in Hsz. cbn [in_keys in_children] in Hsz.
      rewrite Hl in Hsz. unfold ps_ok in Hps. lia.
  Qed.
  Lemma tag_laws pos : ops_laws (tag_ops pos) kw ps False (fun _ => True).
  Proof.
    constructor; cbn [tag_ops t_int t_mk t_leaf t_repl t_ins t_split]; auto.
    - intros. apply repl_at_ok; auto.
    - intros. apply ins_at_ok; auto.
    - arity; [|now apply split_children_half_ok].
      unfold page_size_of, node_size, u64_int_size, nlen, PAGE_HEADER_SIZE in Hsz. cbn [in_keys in_children] in Hsz.
      rewrite Hl in Hsz. unfold ps_ok in Hps. lia.
  Qed.
  Lemma tsn_laws key : ops_laws (tsn_ops key) kw ps False (fun _ => True).
  Proof.
    constructor; cbn [tsn_ops t_int t_mk t_leaf t_repl t_ins t_split]; auto.
    - intros. apply repl_at_ok; auto.
    - intros. apply ins_at_ok; auto.
    - arity; [|now apply split_keys_half_ok].
      unfold page_size_of, node_size, fl_int_size, nlen, PAGE_HEADER_SIZE in Hsz. cbn [in_keys in_children] in Hsz.
      rewrite Hl in Hsz. unfold ps_ok in Hps. lia.
  Qed.
  (** The tag hash is 8 bytes ([kw] = 8) or, in old databases, 16. *)
  Lemma tags_laws tag : (kw <= 16)%nat -> ops_laws (tags_ops tag) kw ps False (fun _ => True).
  Proof.
    intros Hkw. constructor; cbn [tags_ops t_int t_mk t_leaf t_repl t_ins t_split]; auto.
    - intros. apply repl_at_ok; auto.
    - intros. apply ins_at_ok; auto.
    - arity; [|now apply split_children_half_ok].
      unfold page_size_of, node_size, tags_int_size, nlen, PAGE_HEADER_SIZE in Hsz. cbn [in_keys in_children] in Hsz.
      rewrite Hl in Hsz. unfold ps_ok in Hps. nia.
  Qed.
  Lemma trk_laws src : ops_laws (trk_ops src) kw ps False (fun k => nlen k <= 255).
  Proof.
    constructor; cbn [trk_ops t_int t_mk t_leaf t_repl t_ins t_split]; auto.
    - intros. apply repl_at_ok; auto.
    - intros. apply ins_at_ok; auto.
    - arity; [|now apply split_keys_half_checked_ok].
      destruct (Nat.le_gt_cases 3 (length ks)) as [H|H]; [exact H|exfalso].
      unfold page_size_of, node_size, trk_int_size, PAGE_HEADER_SIZE in Hsz. cbn [in_keys in_children] in Hsz.
      unfold ps_ok in Hps. unfold nlen in *.
      destruct ks as [|k1 [|k2 [|k3 ks]]]; [| | |cbn [length] in H; lia]; cbn [length foldr] in *;
        rewrite ?Forall_cons in Hk; lia.
  Qed.
End laws.

Lemma choose_last_law {K} e (ks : list K) cs (sk : list K -> Prop) (okL okR : K -> Prop) :
  (forall k, last ks = Some k -> okL k) ->
  length cs = S (length ks) -> sk ks ->
  exists ksL ksR csL c csR, ks = ksL ++ ksR /\ cs = csL ++ c :: csR /\ length ksL = length csL /\
    choose_last e (INode ks cs) = Ok (length csL, c) /\ (True -> csR = []) /\
    (forall k, last ksL = Some k -> okL k) /\ (forall k, head ksR = Some k -> okR k).
Proof.
  intros HL Hlen _. destruct (exists_last (l := cs)) as (csL & c & ->).
  { intros ->. discriminate Hlen. }
  rewrite app_length in Hlen. cbn [length] in Hlen.
  exists ks, [], csL, c, []. rewrite app_nil_r. unfold choose_last. cbn [in_children].
  rewrite last_snoc, app_length. cbn [length]. replace (Nat.pred (length csL + 1)) with (length csL) by lia.
  repeat split; auto; [lia|]. cbn. discriminate.
Qed.
