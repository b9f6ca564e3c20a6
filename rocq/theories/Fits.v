(** The pages a write transaction makes fit their page, except leaves of the tag index and pages of the tracking tree. *)
From Verif Require Export Append FreeList TreeLaws.
Local Open Scope N_scope.

Section fits.
  Context (kw : nat) (ps : N) (Hps : ps_ok ps) (Hkw : (kw <= 16)%nat).

  (** The page is one of those the code checks properly, and then it fits; internal pages do not have too many children. *)
  Definition int_fit {K} (nd : inode K) (n : node) : Prop :=
    (length (in_children nd) <= S (length (in_keys nd)))%nat /\ page_size_of kw n <= ps.
  Definition fit (n : node) : Prop :=
    match n with
    | NHeader _ | NTagsLeaf _ | NTrkLeaf _ | NTrkInt _ => True
    | NFreeInt nd | NEvInt nd | NTagInt nd | NTsnInt nd => int_fit nd n
    | NTagsInt nd => int_fit nd n
    | _ => page_size_of kw n <= ps
    end.

  Global Instance int_fit_dec {K} (nd : inode K) n : Decision (int_fit nd n).
  Proof. unfold int_fit. apply _. Defined.
  Global Instance fit_dec n : Decision (fit n).
  Proof. destruct n; unfold fit; apply _. Defined.

  Definition wfit (w : writer) : Prop :=
    (forall q n, w_dirty w !! q = Some n -> fit n) /\ (forall q n, w_deser w !! q = Some n -> fit n).
  (** A computation that keeps this, and its answers. *)
  Definition keeps {A} (m : M A) (Q : A -> Prop) : Prop := forall w a w', wfit w -> m w = (Ok a, w') -> wfit w' /\ Q a.
  Notation any := (fun _ => True).

  Lemma wbind_ok {A B} (m : M A) (f : A -> M B) w b w' : wbind m f w = (Ok b, w') -> exists a w1, m w = (Ok a, w1) /\ f a w1 = (Ok b, w').
  Proof. unfold wbind. destruct (m w) as [[a|e] w1]; [eauto|discriminate]. Qed.
  Lemma keeps_bind {A B} (m : M A) (f : A -> M B) Q R : keeps m Q -> (forall a, Q a -> keeps (f a) R) -> keeps (wbind m f) R.
  Proof. intros Hm Hf w b w' Hw E. apply wbind_ok in E as (a & w1 & E1 & E2). destruct (Hm _ _ _ Hw E1) as [H1 H2]. exact (Hf a H2 _ _ _ H1 E2). Qed.
  Lemma keeps_weak {A} (m : M A) (Q Q' : A -> Prop) : keeps m Q -> (forall a, Q a -> Q' a) -> keeps m Q'.
  Proof. intros H HQ w a w' Hw E. destruct (H _ _ _ Hw E). auto. Qed.
  Lemma keeps_ret {A} (a : A) (Q : A -> Prop) : Q a -> keeps (ret a) Q.
  Proof. intros H w b w' Hw [= <- <-]. auto. Qed.
  Lemma keeps_fail {A} e Q : keeps (@fail A e) Q.
  Proof. intros w b w' _ [=]. Qed.
  Lemma keeps_lift {A} (r : res A) : keeps (lift r) (fun a => r = Ok a).
  Proof. intros w b w' Hw [= -> <-]. auto. Qed.
  Lemma keeps_gets {A} (f : writer -> A) : keeps (gets f) any.
  Proof. intros w b w' Hw [= <- <-]. auto. Qed.
  Lemma keeps_modify f : (forall w, w_dirty (f w) = w_dirty w /\ w_deser (f w) = w_deser w) -> keeps (modify f) any.
  Proof. intros Hf w b w' Hw [= <- <-]. destruct (Hf w) as [E1 E2]. split; [|exact I]. unfold wfit. rewrite E1, E2. exact Hw. Qed.
  Lemma keeps_ref rd p : (forall q n, rd q = Ok n -> fit n) -> keeps (get_page_ref rd p) fit.
  Proof.
    intros Hrd w n w' [H1 H2] E. unfold get_page_ref in E. destruct (w_dirty w !! p) as [m|] eqn:E1.
    { injection E as <- <-. split; [split; assumption|eauto]. }
    destruct (w_deser w !! p) as [m|] eqn:E2. { injection E as <- <-. split; [split; assumption|eauto]. }
    destruct (rd p) as [m|e] eqn:E3; [|discriminate]. injection E as <- <-. split; [|eauto].
    split; [exact H1|]. cbn. intros q x Hq. apply lookup_insert_Some in Hq as [[<- <-]|[_ Hq]]; eauto.
  Qed.
  Lemma keeps_mut p : keeps (get_mut_dirty p) fit.
  Proof. intros w n w' Hw E. unfold get_mut_dirty in E. destruct (w_dirty w !! p) eqn:E1; [|discriminate]. injection E as <- <-. split; [exact Hw|exact (proj1 Hw _ _ E1)]. Qed.
  Lemma wfit_put w p n : wfit w -> fit n -> wfit (set_dirty (<[p := n]> (w_dirty w)) w).
  Proof. intros [H1 H2] Hn. split; [|exact H2]. cbn. intros q m Hq. apply lookup_insert_Some in Hq as [[<- <-]|[_ Hq]]; eauto. Qed.
  Lemma keeps_put p n : fit n -> keeps (put_dirty p n) any.
  Proof. intros Hn w b w' Hw [= <- <-]. split; [now apply wfit_put|exact I]. Qed.
  Lemma keeps_insert p n : fit n -> keeps (insert_dirty p n) any.
  Proof.
    intros Hn w b w' Hw E. unfold insert_dirty in E. destruct (decide _); [discriminate|]. destruct (w_dirty w !! p); [discriminate|].
    injection E as <- <-. split; [now apply wfit_put|exact I].
  Qed.
  Lemma alloc_same w q w1 : alloc_page_id w = (Ok q, w1) -> w_dirty w1 = w_dirty w /\ w_deser w1 = w_deser w.
  Proof. unfold alloc_page_id. destruct (w_reusable w) as [|[p t] l]; intros [= <- <-]; auto. Qed.
  Lemma keeps_alloc : keeps alloc_page_id any.
  Proof. intros w b w' Hw E. apply alloc_same in E as [E1 E2]. split; [|exact I]. unfold wfit. rewrite E1, E2. exact Hw. Qed.
  Lemma keeps_cow p : keeps (get_dirty_page_id p) any.
  Proof.
    intros w q w' Hw E. unfold get_dirty_page_id in E. destruct (decide _); [discriminate|]. destruct (w_dirty w !! p) eqn:Ed.
    { injection E as <- <-. auto. }
    apply wbind_ok in E as (q' & w1 & E1 & E2). apply alloc_same in E1 as [D1 D2]. cbn in D1, D2.
    destruct (w_deser w1 !! p) as [nn|] eqn:En; [|discriminate]. injection E2 as <- <-. split; [|exact I]. destruct Hw as [H1 H2]. split; cbn.
    - intros x m Hx. rewrite D1 in Hx. apply lookup_insert_Some in Hx as [[<- <-]|[_ Hx]]; [|eauto]. rewrite D2 in En. eauto.
    - intros x m Hx. apply lookup_delete_Some in Hx as [_ Hx]. rewrite D2 in Hx. eauto.
  Qed.
  Lemma keeps_freed p : keeps (append_freed_page_id p) any.
  Proof.
    intros w b w' [H1 H2] E. unfold append_freed_page_id in E. destruct (decide _); injection E as <- <-; (split; [|exact I]); [split; assumption|].
    split; [|exact H2]. cbn. intros q x Hq. apply lookup_delete_Some in Hq as [_ Hq]. eauto.
  Qed.

  Ltac kstep :=
    match goal with
    | |- keeps (wbind (lift _) _) _ => eapply keeps_bind; [apply keeps_lift|]; intros
    | |- keeps (wbind (gets _) _) _ => eapply keeps_bind; [apply keeps_gets|]; intros
    | |- keeps (wbind (get_mut_dirty _) _) _ => eapply keeps_bind; [apply keeps_mut|]; intros
    | |- keeps (wbind (get_dirty_page_id _) _) _ => eapply keeps_bind; [apply keeps_cow|]; intros
    | |- keeps (wbind alloc_page_id _) _ => eapply keeps_bind; [apply keeps_alloc|]; intros
    | |- keeps (wbind (append_freed_page_id _) _) _ => eapply keeps_bind; [apply keeps_freed|]; intros
    | |- keeps (wbind (put_dirty _ _) _) _ => eapply keeps_bind; [apply keeps_put|]; [|intros]
    | |- keeps (wbind (insert_dirty _ _) _) _ => eapply keeps_bind; [apply keeps_insert|]; [|intros]
    | |- keeps (fail _) _ => apply keeps_fail
    | |- keeps (ret _) _ => apply keeps_ret
    | |- keeps (put_dirty _ _) _ => eapply keeps_weak; [apply keeps_put|]; [|auto]
    end.

  (** ** The loops shared by the trees *)
  Record fit_laws {K} (ops : tree_ops K) : Prop := {
    fl_int : forall n nd, t_int ops n = Some nd -> n = t_mk ops nd;
    fl_repl : forall nd i o c nd', t_repl ops nd i o c = Ok nd' -> fit (t_mk ops nd) -> fit (t_mk ops nd');
    fl_ins : forall nd i k c, fit (t_mk ops nd) -> page_size_of kw (t_mk ops (t_ins ops nd i k c)) <= ps -> fit (t_mk ops (t_ins ops nd i k c));
    fl_split : forall nd i k c l m r, fit (t_mk ops nd) -> t_split ops (t_ins ops nd i k c) = Ok (l, m, r) -> fit (t_mk ops l) /\ fit (t_mk ops r);
    fl_plain : t_check_always ops = false \/ forall nd, fit (t_mk ops nd) -> page_size_of kw (t_mk ops nd) <= ps;
    fl_root : forall k a b, fit (t_mk ops (INode [k] [a; b])) }.

  Section tree.
    Context {K : Type} (ops : tree_ops K) (L : fit_laws ops) (rd : snapshot).
    Lemma keeps_descend : (forall q n, rd q = Ok n -> fit n) -> forall fuel p stack, keeps (descend ops rd fuel p stack) any.
    Proof.
      intros Hrd fuel. induction fuel as [|fuel IH]; intros p stack; cbn [descend]; [apply keeps_fail|].
      eapply keeps_bind; [apply keeps_ref, Hrd|]. intros n _. destruct (t_leaf ops n); [now apply keeps_ret|].
      destruct (t_int ops n); [|apply keeps_fail]. kstep. destruct a as [j c]. apply IH.
    Qed.
    Lemma keeps_propagate : forall stack ri si, keeps (propagate ops kw ps stack ri si) any.
    Proof.
      intros stack. induction stack as [|[p i] stack IH]; intros ri si; cbn [propagate]; [now apply keeps_ret|].
      destruct (negb (t_cow ops) && _); [apply IH|].
      eapply (keeps_bind _ _ any); [destruct (t_cow ops); [apply keeps_cow|now apply keeps_ret]|]. intros dp _.
      kstep. destruct (t_int ops a) as [nd|] eqn:Ei; [|apply keeps_fail]. apply (fl_int _ L) in Ei. subst a.
      kstep. rename a into nd1.
      assert (F1 : fit (t_mk ops nd1)).
      { destruct ri as [[o c]|]; [eapply (fl_repl _ L); eassumption|]. congruence. }
      clear H0. intros w a w' Hw E. apply wbind_ok in E as ([] & w1 & E1 & E). cbv zeta in E.
      set (nd2 := match si with Some (k, c) => t_ins ops nd1 i k c | None => nd1 end) in *.
      assert (Hgood : fit (t_mk ops nd2) -> wfit w1) by (intros Hf; injection E1 as <-; now apply wfit_put).
      destruct ((ps <? page_size_of kw (t_mk ops nd2)) && _) eqn:Ec.
      - destruct (t_arity_check ops && _); [discriminate|]. apply wbind_ok in E as ([[l k] r] & w2 & E2 & E). cbv beta iota in E.
        unfold lift in E2. injection E2 as Es <-.
        assert (fit (t_mk ops l) /\ fit (t_mk ops r)) as [Fl Fr].
        { destruct si as [[k0 c0]|]; [eapply (fl_split _ L); eassumption|]. exfalso. apply andb_true_iff in Ec as [Ec1 Ec2].
          rewrite orb_false_r in Ec2. apply N.ltb_lt in Ec1. destruct (fl_plain _ L) as [Hp|Hp]; [congruence|]. specialize (Hp _ F1). unfold nd2 in Ec1. lia. }
        apply wbind_ok in E as ([] & w2 & E2 & E). injection E1 as <-. unfold put_dirty in E2. assert (E3 := f_equal snd E2). cbn [snd] in E3. clear E2. subst w2. cbn [set_dirty w_dirty w_tsn w_next_page w_free_root w_events_root w_tags_root w_tracking_root w_next_pos w_reusable w_freed w_deser w_reused] in E. rewrite insert_insert in E.
        refine (keeps_bind alloc_page_id _ any any _ _ _ _ _ _ E); [apply keeps_alloc| |].
        + intros q _. kstep; [exact Fr|]. apply IH.
        + match goal with |- wfit ?x => replace x with (set_dirty (<[dp := t_mk ops l]> (w_dirty w)) w) by reflexivity end. now apply wfit_put.
      - eapply IH; [|exact E]. apply Hgood. destruct si as [[k0 c0]|]; [|exact F1]. apply (fl_ins _ L); [exact F1|]. rewrite orb_true_r, andb_true_r in Ec.
        apply N.ltb_ge in Ec. exact Ec.
    Qed.
    Lemma keeps_finish root ri si : keeps (finish ops root ri si) any.
    Proof.
      unfold finish. eapply (keeps_bind _ _ any).
      { destruct ri as [[o c]|]; [destruct (root =? o)|]; first [now apply keeps_ret|apply keeps_fail]. }
      intros root1 _. destruct si as [[k r]|]; [|now apply keeps_ret]. kstep. kstep; [apply (fl_root _ L)|]. now apply keeps_ret.
    Qed.
  End tree.

  (** ** The trees *)
  Lemma len_ins {A} i (x : A) l : length (vec_insert i x l) = S (length l).
  Proof. unfold vec_insert. rewrite app_length. cbn. rewrite take_length, drop_length. lia. Qed.
  Lemma repl_at_len {K} e (nd : inode K) i o c nd' : repl_at e nd i o c = Ok nd' -> in_keys nd' = in_keys nd /\ length (in_children nd') = length (in_children nd).
  Proof. unfold repl_at. destruct (_ !! _); [|discriminate]. destruct (_ =? _); [|discriminate]. intros [= <-]. cbn. now rewrite insert_length. Qed.
  Lemma repl_last_len {K} (nd : inode K) i o c nd' : repl_last nd i o c = Ok nd' -> in_keys nd' = in_keys nd /\ length (in_children nd') = length (in_children nd).
  Proof. unfold repl_last. destruct (_ !! _); [|discriminate]. destruct (_ =? _); [|discriminate]. intros [= <-]. cbn. now rewrite insert_length. Qed.
  Lemma split_key_len {K} m (nd : inode K) l k r : split_key m nd = Ok (l, k, r) ->
    (m < length (in_keys nd))%nat /\ length (in_keys l) = m /\ (length (in_children l) <= S m /\ length (in_children l) <= length (in_children nd))%nat /\
    length (in_keys r) = (length (in_keys nd) - S m)%nat /\ length (in_children r) = (length (in_children nd) - S m)%nat.
  Proof.
    unfold split_key. destruct (_ !! m) eqn:E; [|discriminate]. intros [= <- _ <-]. cbn [in_keys in_children]. apply lookup_lt_Some in E.
    rewrite !take_length, !drop_length. lia.
  Qed.
  Lemma len_nlen {A} (l : list A) : nlen l = N.of_nat (length l). Proof. reflexivity. Qed.

  Lemma ev_laws : fit_laws ev_ops.
  Proof.
    unfold ps_ok in Hps. constructor.
    - intros n nd. destruct n; try discriminate. now intros [= ->].
    - intros nd i o c nd' E [H1 H2]. apply (repl_last_len _ i) in E as [E1 E2]. split; [rewrite E1, E2; exact H1|].
      revert H2. cbn [t_mk ev_ops fl_ops tsn_ops tag_ops tags_ops]. unfold page_size_of, node_size, u64_int_size. rewrite !len_nlen, E1, E2. auto.
    - intros nd i k c [H1 _] H. split; [|exact H]. cbn. rewrite !app_length. cbn. lia.
    - intros nd i k c l m r [H1 H2] E. apply split_key_len in E as (A1 & A2 & A3 & A4 & A5). cbn in H1, A1, A2, A3, A4, A5.
      rewrite !app_length in *. cbn [length] in *. cbn in H2. unfold page_size_of, PAGE_HEADER_SIZE in *. cbn in H2. unfold u64_int_size in *. rewrite !len_nlen in *.
      split; (split; [lia|]); unfold page_size_of, PAGE_HEADER_SIZE, node_size, u64_int_size; cbn; rewrite !len_nlen; lia.
    - right. intros nd [_ H]. exact H.
    - intros k a b. split; [cbn; lia|]. unfold page_size_of, PAGE_HEADER_SIZE, node_size, u64_int_size. cbn. lia.
  Qed.
  Lemma fl_laws : fit_laws fl_ops.
  Proof.
    unfold ps_ok in Hps. constructor.
    - intros n nd. destruct n; try discriminate. now intros [= ->].
    - intros nd i o c nd' E [H1 H2]. apply (repl_last_len _ i) in E as [E1 E2]. split; [rewrite E1, E2; exact H1|].
      revert H2. cbn [t_mk ev_ops fl_ops tsn_ops tag_ops tags_ops]. unfold page_size_of, node_size, fl_int_size. rewrite !len_nlen, E1, E2. auto.
    - intros nd i k c [H1 _] H. split; [|exact H]. cbn. rewrite !app_length. cbn. lia.
    - intros nd i k c l m r [H1 H2] E. apply split_key_len in E as (A1 & A2 & A3 & A4 & A5). cbn in H1, A1, A2, A3, A4, A5.
      rewrite !app_length in *. cbn [length] in *. cbn in H2. unfold page_size_of, PAGE_HEADER_SIZE in *. cbn in H2. unfold fl_int_size in *. rewrite !len_nlen in *.
      split; (split; [lia|]); unfold page_size_of, PAGE_HEADER_SIZE, node_size, fl_int_size; cbn; rewrite !len_nlen; lia.
    - right. intros nd [_ H]. exact H.
    - intros k a b. split; [cbn; lia|]. unfold page_size_of, PAGE_HEADER_SIZE, node_size, fl_int_size. cbn. lia.
  Qed.
  Lemma tsn_laws x : fit_laws (tsn_ops x).
  Proof.
    unfold ps_ok in Hps. constructor.
    - intros n nd. destruct n; try discriminate. now intros [= ->].
    - intros nd i o c nd' E [H1 H2]. apply repl_at_len in E as [E1 E2]. split; [rewrite E1, E2; exact H1|].
      revert H2. cbn [t_mk ev_ops fl_ops tsn_ops tag_ops tags_ops]. unfold page_size_of, node_size, fl_int_size. rewrite !len_nlen, E1, E2. auto.
    - intros nd i k c [H1 _] H. split; [|exact H]. cbn. rewrite !len_ins. cbn in H1. lia.
    - intros nd i k c l m r [H1 H2] E. cbn in E. unfold split_keys_half in E. destruct (negb _) eqn:En; [discriminate|].
      apply negb_false_iff, Nat.eqb_eq in En. apply split_key_len in E as (A1 & A2 & A3 & A4 & A5). cbn in H1, A1, A2, A3, A4, A5, En.
      rewrite !len_ins in *. cbn in H2. unfold page_size_of, PAGE_HEADER_SIZE in *. cbn in H2. unfold fl_int_size in *. rewrite !len_nlen in *.
      pose proof (Nat.div2_div (S (length (in_keys nd)))) as Hd. pose proof (Nat.div_mod_eq (S (length (in_keys nd))) 2). pose proof (Nat.mod_upper_bound (S (length (in_keys nd))) 2).
      split; (split; [lia|]); unfold page_size_of, PAGE_HEADER_SIZE, node_size, fl_int_size; cbn; rewrite !len_nlen; lia.
    - left. reflexivity.
    - intros k a b. split; [cbn; lia|]. unfold page_size_of, PAGE_HEADER_SIZE, node_size, fl_int_size. cbn. lia.
  Qed.
  Lemma repl_set_len {K} (nd : inode K) i o c nd' : repl_set nd i o c = Ok nd' -> in_keys nd' = in_keys nd /\ length (in_children nd') = length (in_children nd).
  Proof. unfold repl_set. destruct (_ !! _); [|discriminate]. intros [= <-]. cbn. now rewrite insert_length. Qed.
  Lemma fl_rm_laws x : fit_laws (fl_rm_ops x).
  Proof.
    unfold ps_ok in Hps. constructor.
    - intros n nd. destruct n; try discriminate. now intros [= ->].
    - intros nd i o c nd' E [H1 H2]. apply repl_at_len in E as [E1 E2]. split; [rewrite E1, E2; exact H1|].
      revert H2. cbn [t_mk fl_rm_ops]. unfold page_size_of, node_size, fl_int_size. rewrite !len_nlen, E1, E2. auto.
    - intros nd i k c [H1 _] H. split; [|exact H]. cbn. rewrite !len_ins. cbn in H1. lia.
    - intros nd i k c l m r [H1 H2] E. cbn in E. unfold split_keys_half in E. destruct (negb _) eqn:En; [discriminate|].
      apply negb_false_iff, Nat.eqb_eq in En. apply split_key_len in E as (A1 & A2 & A3 & A4 & A5). cbn in H1, A1, A2, A3, A4, A5, En.
      rewrite !len_ins in *. cbn in H2. unfold page_size_of, PAGE_HEADER_SIZE in *. cbn in H2. unfold fl_int_size in *. rewrite !len_nlen in *.
      pose proof (Nat.div2_div (S (length (in_keys nd)))) as Hd. pose proof (Nat.div_mod_eq (S (length (in_keys nd))) 2). pose proof (Nat.mod_upper_bound (S (length (in_keys nd))) 2).
      split; (split; [lia|]); unfold page_size_of, PAGE_HEADER_SIZE, node_size, fl_int_size; cbn; rewrite !len_nlen; lia.
    - left. reflexivity.
    - intros k a b. split; [cbn; lia|]. unfold page_size_of, PAGE_HEADER_SIZE, node_size, fl_int_size. cbn. lia.
  Qed.
  Lemma tsn_rm_laws x : fit_laws (tsn_rm_ops x).
  Proof.
    unfold ps_ok in Hps. constructor.
    - intros n nd. destruct n; try discriminate. now intros [= ->].
    - intros nd i o c nd' E [H1 H2]. apply (repl_set_len _ _ o) in E as [E1 E2]. split; [rewrite E1, E2; exact H1|].
      revert H2. cbn [t_mk tsn_rm_ops]. unfold page_size_of, node_size, fl_int_size. rewrite !len_nlen, E1, E2. auto.
    - intros nd i k c [H1 _] H. split; [|exact H]. cbn. rewrite !len_ins. cbn in H1. lia.
    - intros nd i k c l m r [H1 H2] E. cbn in E. unfold split_keys_half in E. destruct (negb _) eqn:En; [discriminate|].
      apply negb_false_iff, Nat.eqb_eq in En. apply split_key_len in E as (A1 & A2 & A3 & A4 & A5). cbn in H1, A1, A2, A3, A4, A5, En.
      rewrite !len_ins in *. cbn in H2. unfold page_size_of, PAGE_HEADER_SIZE in *. cbn in H2. unfold fl_int_size in *. rewrite !len_nlen in *.
      pose proof (Nat.div2_div (S (length (in_keys nd)))) as Hd. pose proof (Nat.div_mod_eq (S (length (in_keys nd))) 2). pose proof (Nat.mod_upper_bound (S (length (in_keys nd))) 2).
      split; (split; [lia|]); unfold page_size_of, PAGE_HEADER_SIZE, node_size, fl_int_size; cbn; rewrite !len_nlen; lia.
    - left. reflexivity.
    - intros k a b. split; [cbn; lia|]. unfold page_size_of, PAGE_HEADER_SIZE, node_size, fl_int_size. cbn. lia.
  Qed.
  Lemma tag_laws x : fit_laws (tag_ops x).
  Proof.
    unfold ps_ok in Hps. constructor.
    - intros n nd. destruct n; try discriminate. now intros [= ->].
    - intros nd i o c nd' E [H1 H2]. apply repl_at_len in E as [E1 E2]. split; [rewrite E1, E2; exact H1|].
      revert H2. cbn [t_mk ev_ops fl_ops tsn_ops tag_ops tags_ops]. unfold page_size_of, node_size, u64_int_size. rewrite !len_nlen, E1, E2. auto.
    - intros nd i k c [H1 _] H. split; [|exact H]. cbn. rewrite !len_ins. cbn in H1. lia.
    - intros nd i k c l m r [H1 H2] E. cbn in E. unfold split_children_half in E. cbv zeta in E. destruct (_ || _) eqn:En; [discriminate|].
      apply orb_false_iff in En as [_ En]. apply negb_false_iff, Nat.eqb_eq in En. apply split_key_len in E as (A1 & A2 & A3 & A4 & A5). cbn in H1, A1, A2, A3, A4, A5, En.
      rewrite !len_ins in *. cbn in H2. unfold page_size_of, PAGE_HEADER_SIZE in *. cbn in H2. unfold u64_int_size in *. rewrite !len_nlen in *.
      set (x0 := S (length (in_children nd))) in *.
      pose proof (Nat.div2_div x0) as Hd. pose proof (Nat.div_mod_eq x0 2). pose proof (Nat.mod_upper_bound x0 2). 
      split; (split; [lia|]); unfold page_size_of, PAGE_HEADER_SIZE, node_size, u64_int_size; cbn; rewrite !len_nlen; lia.
    - right. intros nd [_ H]. exact H.
    - intros k a b. split; [cbn; lia|]. unfold page_size_of, PAGE_HEADER_SIZE, node_size, u64_int_size. cbn. lia.
  Qed.
  Lemma tags_laws x : fit_laws (tags_ops x).
  Proof.
    unfold ps_ok in Hps. constructor.
    - intros n nd. destruct n; try discriminate. now intros [= ->].
    - intros nd i o c nd' E [H1 H2]. apply repl_at_len in E as [E1 E2]. split; [rewrite E1, E2; exact H1|].
      revert H2. cbn [t_mk ev_ops fl_ops tsn_ops tag_ops tags_ops]. unfold page_size_of, node_size, tags_int_size. rewrite !len_nlen, E1, E2. auto.
    - intros nd i k c [H1 _] H. split; [|exact H]. cbn. rewrite !len_ins. cbn in H1. lia.
    - intros nd i k c l m r [H1 H2] E. cbn in E. unfold split_children_half in E. cbv zeta in E. destruct (_ || _) eqn:En; [discriminate|].
      apply orb_false_iff in En as [_ En]. apply negb_false_iff, Nat.eqb_eq in En. apply split_key_len in E as (A1 & A2 & A3 & A4 & A5). cbn in H1, A1, A2, A3, A4, A5, En.
      rewrite !len_ins in *. cbn in H2. unfold page_size_of, PAGE_HEADER_SIZE in *. cbn in H2. unfold tags_int_size in *. rewrite !len_nlen in *.
      set (x0 := S (length (in_children nd))) in *.
      pose proof (Nat.div2_div x0) as Hd. pose proof (Nat.div_mod_eq x0 2). pose proof (Nat.mod_upper_bound x0 2).
      split; (split; [lia|]); unfold page_size_of, PAGE_HEADER_SIZE, node_size, tags_int_size; cbn; rewrite !len_nlen; nia.
    - right. intros nd [_ H]. exact H.
    - intros k a b. split; [cbn; lia|]. unfold page_size_of, PAGE_HEADER_SIZE, node_size, tags_int_size. cbn -[N.mul]. lia.
  Qed.
  Lemma trk_laws x : fit_laws (trk_ops x).
  Proof.
    constructor; intros; try exact I; try (split; exact I).
    - destruct n; try discriminate. cbn in H. now injection H as ->.
    - left. reflexivity.
  Qed.

  (** ** Events *)
  Definition dkept (w w' : writer) : Prop := forall q n, w_dirty w !! q = Some n -> w_dirty w' !! q = Some n.
  Lemma insert_kept p n w w' : insert_dirty p n w = (Ok tt, w') -> dkept w w'.
  Proof.
    unfold insert_dirty. destruct (decide _); [discriminate|]. destruct (w_dirty w !! p) eqn:E; [discriminate|]. intros [= <-] q m Hq. cbn.
    rewrite lookup_insert_ne; [exact Hq|congruence].
  Qed.
  Lemma alloc_kept q w w' : alloc_page_id w = (Ok q, w') -> dkept w w'.
  Proof. intros E x n Hx. apply alloc_same in E as [-> _]. exact Hx. Qed.
  (** The node read at a page is the node of its copy. *)
  Definition seen (w : writer) (p : N) (n : node) : Prop :=
    w_dirty w !! p = Some n \/ w_dirty w !! p = None /\ w_deser w !! p = Some n.
  Lemma ref_seen rd p w n w' : get_page_ref rd p w = (Ok n, w') -> seen w' p n.
  Proof.
    unfold get_page_ref. destruct (w_dirty w !! p) eqn:E1; [intros [= <- <-]; left; exact E1|].
    destruct (w_deser w !! p) eqn:E2; [intros [= <- <-]; right; auto|]. destruct (rd p); [|discriminate]. intros [= <- <-].
    right. split; [exact E1|]. cbn. apply lookup_insert.
  Qed.
  Lemma cow_seen p w q w' n : seen w p n -> get_dirty_page_id p w = (Ok q, w') -> w_dirty w' !! q = Some n.
  Proof.
    unfold get_dirty_page_id. destruct (decide _) as [|Hf]; [discriminate|]. intros [Hs|[Hs1 Hs2]].
    { rewrite Hs. intros [= <- <-]. exact Hs. }
    rewrite Hs1. intros E. apply wbind_ok in E as (q' & w1 & E1 & E2). apply alloc_same in E1 as [_ D2]. cbn in D2.
    rewrite D2, Hs2 in E2. injection E2 as <- <-. cbn. apply lookup_insert.
  Qed.

  Definition sv_ok (sv : sized_value) : Prop :=
    match sv with
    | ((v, d), None) => d = 8 + ev_value_size v /\ 19 + ev_value_size v <= ps
    | ((Inline r, _), Some (Overflow ty dl tags rt uuid ml trk, od)) =>
      od = 8 + ev_value_size (Overflow ty dl tags rt uuid ml trk) /\ 11 + od <= ps /\ ml = match er_meta r with [] => 0 | _ => 1 end
    | _ => True
    end.
  Lemma validate_sv r sv : validate_event_record ps r = Ok sv -> sv_ok sv.
  Proof.
    unfold validate_event_record. destruct (validate_tags _); [|discriminate]. destruct (validate_metadata _); [|discriminate]. cbn [rbind]. cbv zeta.
    unfold PAGE_HEADER_SIZE, ev_leaf_size. cbn [ev_keys ev_values foldr]. change (nlen [0]) with 1. change (nlen (@nil N)) with 0.
    destruct (N.leb_spec (2 + 1 * 8 + (ev_value_size (Inline r) + 0) + 9) ps) as [Hl|Hl].
    - intros E. apply (f_equal (fun x => match x with Ok a => a | Err _ => sv end)) in E. cbv beta iota in E. rewrite <- E. cbn [sv_ok]. lia.
    - set (ov := Overflow _ _ _ _ _ _ _). destruct (N.ltb_spec ps (2 + 1 * 8 + (ev_value_size ov + 0) + 9)) as [H2|H2]; [discriminate|]. intros E. apply (f_equal (fun x => match x with Ok a => a | Err _ => sv end)) in E. cbv beta iota in E. rewrite <- E. unfold sv_ok. unfold ov at 1. fold ov. split; [lia|]. split; [lia|reflexivity].
  Qed.
  Lemma validate_all_sv rs svs : validate_all ps rs = Ok svs -> Forall sv_ok svs.
  Proof.
    revert svs. induction rs as [|r rs IH]; cbn [validate_all]; [intros svs [= <-]; constructor|]. intros svs.
    destruct (validate_event_record ps r) as [sv|] eqn:E; [|discriminate]. cbn [rbind]. destruct (validate_all ps rs) as [l|]; [|discriminate]. cbn [rbind].
    intros [= <-]. constructor; [eapply validate_sv, E|auto].
  Qed.
  Lemma chunks_short cap data : Forall (fun c => (length c <= cap)%nat) (chunks cap data).
  Proof.
    unfold chunks. generalize (length data) as fuel. intros fuel. revert data. induction fuel as [|fuel IH]; intros data; cbn [chunk_loop]; [constructor|].
    destruct data as [|b data]; [constructor|]. constructor; [rewrite take_length; lia|apply IH].
  Qed.
  Lemma keeps_chunks : forall cs next, Forall (fun c => 17 + nlen c <= ps) cs -> keeps (write_chunks cs next) any /\
    forall w a w', write_chunks cs next w = (Ok a, w') -> dkept w w'.
  Proof.
    induction cs as [|c cs IH]; intros next Hc; cbn [write_chunks].
    { split; [now apply keeps_ret|]. intros w a w' [= <- <-] q n Hq. exact Hq. }
    apply Forall_cons in Hc as [Hc1 Hc2]. split.
    - kstep. kstep; [|apply IH; exact Hc2]. cbn [fit]. unfold page_size_of, PAGE_HEADER_SIZE, node_size, ev_overflow_size. cbn [ov_data]. lia.
    - intros w b w' E. apply wbind_ok in E as (q & w1 & E1 & E). apply wbind_ok in E as ([] & w2 & E2 & E). apply (proj2 (IH _ Hc2)) in E.
      apply alloc_kept in E1. apply insert_kept in E2. intros x n Hx. auto.
  Qed.
  Lemma keeps_chain data : keeps (write_overflow_chain ps data) any /\ forall w a w', write_overflow_chain ps data w = (Ok a, w') -> dkept w w'.
  Proof.
    unfold ps_ok in Hps. unfold write_overflow_chain. cbv zeta. destruct (_ =? 0); [split; [apply keeps_fail|intros w a w' [=]]|].
    pose proof (chunks_short (N.to_nat (ps - (PAGE_HEADER_SIZE + 8))) data) as Hch. destruct (chunks _ data) as [|c cs].
    - split.
      + kstep. kstep; [|now apply keeps_ret]. cbn [fit]. unfold page_size_of, PAGE_HEADER_SIZE, node_size, ev_overflow_size. change (nlen (ov_data (EvOverflow 0 []))) with 0. lia.
      + intros w b w' E. apply wbind_ok in E as (q & w1 & E1 & E). apply wbind_ok in E as ([] & w2 & E2 & E). injection E as <- <-.
        apply alloc_kept in E1. apply insert_kept in E2. intros x n Hx. auto.
    - apply keeps_chunks. apply Forall_rev. eapply Forall_impl; [exact Hch|]. intros x Hx. cbv beta in Hx. unfold nlen, PAGE_HEADER_SIZE in *. lia.
  Qed.
  Lemma keeps_choose sv w v d w' : sv_ok sv -> wfit w -> choose_value ps sv w = (Ok (v, d), w') ->
    wfit w' /\ dkept w w' /\ d = 8 + ev_value_size v /\ 19 + ev_value_size v <= ps.
  Proof.
    destruct sv as [[v0 d0] [[ov od]|]]; cbn [choose_value].
    - destruct v0 as [r|]; [|intros _ _ [=]]. cbn [sv_ok]. intros Hov Hw E. apply wbind_ok in E as ([rt ml] & w1 & E1 & E).
      unfold data_and_metadata_to_chain in E1. apply wbind_ok in E1 as (rt' & w2 & E2 & E1). injection E1 as -> <- ->.
      pose proof (proj1 (keeps_chain _) _ _ _ Hw E2) as [Hw1 _]. pose proof (proj2 (keeps_chain _) _ _ _ E2) as Hk.
      destruct ov as [|ty dl tags rt0 uuid ml0 trk]; [discriminate|]. injection E as <- <- <-. destruct Hov as (-> & Hov & ->).
      split; [exact Hw1|]. split; [exact Hk|].
      assert (Es : ev_value_size (Overflow ty dl tags rt uuid (match er_meta r with [] => 0 | _ => meta_size (er_meta r) end) trk)
                 = ev_value_size (Overflow ty dl tags rt0 uuid (match er_meta r with [] => 0 | _ => 1 end) trk)).
      { unfold ev_value_size. do 2 f_equal. destruct (er_meta r) as [|kv m]; [reflexivity|].
        replace (0 <? meta_size (kv :: m)) with true; [reflexivity|]. symmetry. apply N.ltb_lt. unfold meta_size. lia. }
      rewrite Es. lia.
    - destruct v0; cbn [sv_ok]; intros [-> H] Hw E; unfold ret in E; pose proof (f_equal snd E) as E1; cbn [snd] in E1; subst w'; assert (Ev := f_equal (fun x => match x.1 with Ok a => a.1 | Err _ => v end) E); assert (Ed := f_equal (fun x => match x.1 with Ok a => a.2 | Err _ => d end) E); cbv beta iota in Ev, Ed; cbn [fst snd] in Ev, Ed; subst v d; (split; [exact Hw|]); (split; [intros q n Hq; exact Hq|]); auto.
  Qed.
  Lemma ev_leaf_app l pos v : ev_leaf_size (EvLeaf (ev_keys l ++ [pos]) (ev_values l ++ [v])) = ev_leaf_size l + 8 + ev_value_size v.
  Proof.
    unfold ev_leaf_size. cbn [ev_keys ev_values]. rewrite foldr_app. cbn [foldr]. rewrite !len_nlen, app_length. cbn [length].
    assert (H : forall l a, foldr (fun v acc => ev_value_size v + acc) a l = foldr (fun v acc => ev_value_size v + acc) 0 l + a).
    { clear. induction l as [|x l IH]; intros a; cbn; [lia|]. rewrite IH. lia. }
    rewrite H. lia.
  Qed.

  Section trees.
    Context (rd : snapshot) (Hrd : forall q n, rd q = Ok n -> fit n).
    Lemma cow_dirty p w q w' : get_dirty_page_id p w = (Ok q, w') -> is_Some (w_dirty w' !! q).
    Proof.
      unfold get_dirty_page_id. destruct (decide _) as [|Hf]; [discriminate|]. destruct (w_dirty w !! p) eqn:Ed.
      { intros [= <- <-]. eauto. }
      intros E. apply wbind_ok in E as (q' & w1 & E1 & E2). destruct (w_deser w1 !! p); [|discriminate]. injection E2 as <- <-. cbn. rewrite lookup_insert. eauto.
    Qed.
    Lemma keeps_event_append sv pos : sv_ok sv -> keeps (event_tree_append rd kw ps sv pos) any.
    Proof.
      intros Hsv. unfold event_tree_append. kstep. kstep. eapply keeps_bind; [apply keeps_descend, Hrd|]. intros [leaf stack] _.
      intros w u w' Hw E. apply wbind_ok in E as (dl & w0 & E0 & E). destruct (keeps_cow _ _ _ _ Hw E0) as [Hw0 _]. apply cow_dirty in E0 as [m Em].
      apply wbind_ok in E as (n & w1 & E1 & E). unfold get_page_ref in E1. rewrite Em in E1. injection E1 as <- <-. pose proof (proj1 Hw0 _ _ Em) as Hn.
      cbv zeta in E. apply wbind_ok in E as ([v d] & w2 & E2 & E).
      destruct (keeps_choose _ _ _ _ _ Hsv Hw0 E2) as (Hw2 & Hk & -> & Hv). apply Hk in Em. cbv beta iota in E.
      apply wbind_ok in E as (si & w3 & E3 & E).
      assert (Hw3 : wfit w3).
      { destruct (N.leb_spec (page_size_of kw m + (8 + ev_value_size v)) ps) as [Hle|Hle].
        - apply wbind_ok in E3 as (m' & w4 & E4 & E3). unfold get_mut_dirty in E4. rewrite Em in E4. injection E4 as <- <-.
          destruct m; try discriminate. unfold wbind, put_dirty in E3. cbv beta iota in E3. injection E3 as _ <-. apply wfit_put; [exact Hw2|].
          cbn [fit]. unfold page_size_of, node_size in *. rewrite ev_leaf_app. lia.
        - revert E3. match goal with |- ?m _ = _ -> _ => intros E3; assert (Hkk : keeps m any) end.
          { kstep. kstep; [|now apply keeps_ret]. cbn [fit]. unfold page_size_of, PAGE_HEADER_SIZE, node_size, ev_leaf_size. cbn [ev_keys ev_values foldr]. change (nlen [pos]) with 1. lia. }
          exact (proj1 (Hkk _ _ _ Hw2 E3)). }
      refine (_ w3 u w' Hw3 E). 
      eapply keeps_bind; [apply (keeps_propagate _ ev_laws)|]. intros [ri si'] _. eapply keeps_bind; [apply (keeps_finish _ ev_laws)|]. intros r _.
      apply keeps_modify. auto.
    Qed.

    (** ** Tags and tracking *)
    Lemma keeps_per_tag root pos : keeps (per_tag_insert rd kw ps root pos) any.
    Proof.
      unfold per_tag_insert. kstep. eapply keeps_bind; [apply keeps_descend, Hrd|]. intros [leaf stack] _. kstep. kstep.
      eapply (keeps_bind _ _ any).
      { destruct a1; try apply keeps_fail. destruct (N.ltb_spec ps (page_size_of kw (NTagLeaf (positions ++ [pos])))) as [Hl|Hl].
        - kstep; [assumption|]. kstep. kstep; [|now apply keeps_ret]. cbn [fit]. unfold ps_ok in Hps. unfold page_size_of, PAGE_HEADER_SIZE, node_size, u64_list_size. change (nlen [_]) with 1. lia.
        - kstep; [exact Hl|]. now apply keeps_ret. }
      intros si _. eapply keeps_bind; [apply (keeps_propagate _ (tag_laws pos))|]. intros [ri si'] _. apply (keeps_finish _ (tag_laws pos)).
    Qed.
    Lemma keeps_new_per_tag positions : keeps (new_per_tag_tree kw ps positions) any.
    Proof.
      unfold new_per_tag_tree. destruct (N.leb_spec (page_size_of kw (NTagLeaf positions)) ps) as [Hl|Hl].
      { kstep. kstep; [exact Hl|]. now apply keeps_ret. }
      destruct (last positions) as [p|]; [|apply keeps_fail]. destruct (N.ltb_spec ps (page_size_of kw (NTagLeaf (removelast positions)))) as [H|H]; [apply keeps_fail|].
      kstep. kstep; [exact H|]. kstep. kstep. { cbn [fit]. unfold ps_ok in Hps. unfold page_size_of, PAGE_HEADER_SIZE, node_size, u64_list_size. change (nlen [_]) with 1. lia. }
      kstep. kstep; [exact (fl_root _ (tag_laws p) p _ _)|]. now apply keeps_ret.
    Qed.
    Lemma keeps_set_value dl i v : keeps (set_tags_value dl i v) any.
    Proof.
      unfold set_tags_value. kstep. destruct a; try apply keeps_fail. destruct (tl_values _ !! i); [|apply keeps_fail]. kstep. exact I.
    Qed.
    Lemma keeps_tags_update dl tag pos : keeps (tags_leaf_update rd kw ps dl tag pos) any.
    Proof.
      unfold tags_leaf_update. kstep. destruct a; try apply keeps_fail. destruct (bs_bytes tag _) as [i|i]; [|kstep; exact I].
      destruct (_ !! i); [|apply keeps_fail]. destruct (tv_root t =? 0).
      - kstep; [exact I|]. destruct (_ && _); [|now apply keeps_ret]. eapply keeps_bind; [apply keeps_new_per_tag|]. intros q _. apply keeps_set_value.
      - eapply keeps_bind; [apply keeps_per_tag|]. intros q _. kstep. destruct a; try apply keeps_fail. destruct (bs_bytes tag _) as [j|j]; [|apply keeps_fail].
        destruct (_ !! j); [apply keeps_set_value|apply keeps_fail].
    Qed.
    Lemma keeps_tags_split dl : keeps (tags_leaf_split kw ps dl) any.
    Proof.
      unfold tags_leaf_split. kstep. destruct (_ <? _); [|now apply keeps_ret]. destruct a; try (now apply keeps_ret). destruct (drop _ _); [apply keeps_fail|].
      kstep; [exact I|]. kstep. kstep; [exact I|]. now apply keeps_ret.
    Qed.
    Lemma keeps_tags_insert tag pos : keeps (tags_tree_insert rd kw ps tag pos) any.
    Proof.
      unfold tags_tree_insert. kstep. kstep. eapply keeps_bind; [apply keeps_descend, Hrd|]. intros [leaf stack] _. kstep.
      eapply keeps_bind; [apply keeps_tags_update|]. intros _ _. eapply keeps_bind; [apply keeps_tags_split|]. intros si _.
      eapply keeps_bind; [apply (keeps_propagate _ (tags_laws tag))|]. intros [ri si'] _. eapply keeps_bind; [apply (keeps_finish _ (tags_laws tag))|]. intros r _.
      apply keeps_modify. auto.
    Qed.
    Lemma keeps_trk_update dl source pos : keeps (trk_leaf_update kw ps dl source pos) any.
    Proof.
      unfold trk_leaf_update. kstep. destruct a; try apply keeps_fail. kstep. kstep; [exact I|]. destruct (_ <? _); [|now apply keeps_ret].
      destruct (_ <? _)%nat; [apply keeps_fail|]. destruct (drop _ _); [apply keeps_fail|]. kstep; [exact I|]. kstep. kstep; [exact I|]. now apply keeps_ret.
    Qed.
    Lemma keeps_tracking source pos : keeps (tracking_upsert rd kw ps source pos) any.
    Proof.
      unfold tracking_upsert. destruct (_ <? _); [apply keeps_fail|]. kstep. destruct (a =? 0).
      { kstep. kstep; [exact I|]. apply keeps_modify. auto. }
      kstep. eapply keeps_bind; [apply keeps_descend, Hrd|]. intros [leaf stack] _. eapply keeps_bind; [apply keeps_ref, Hrd|]. intros n _.
      eapply (keeps_bind _ _ any).
      { destruct n; try apply keeps_fail. kstep. destruct a1; [|now apply keeps_ret]. destruct (_ <=? _); [apply keeps_fail|now apply keeps_ret]. }
      intros _ _. kstep. eapply keeps_bind; [apply keeps_trk_update|]. intros si _.
      eapply keeps_bind; [apply (keeps_propagate _ (trk_laws source))|]. intros [ri si'] _. eapply keeps_bind; [apply (keeps_finish _ (trk_laws source))|]. intros r _.
      apply keeps_modify. auto.
    Qed.
    Lemma keeps_insert_tags hash tags pos : keeps (insert_tags rd kw ps hash tags pos) any.
    Proof.
      induction tags as [|t tags IH]; cbn [insert_tags]; [now apply keeps_ret|]. eapply keeps_bind; [apply keeps_tags_insert|]. intros _ _. exact IH.
    Qed.
    Lemma keeps_append_values hash svs : forall lst, Forall sv_ok svs -> keeps (append_values rd kw ps hash svs lst) any.
    Proof.
      induction svs as [|sv svs IH]; intros lst Hs; cbn [append_values]; [now apply keeps_ret|]. apply Forall_cons in Hs as [Hs1 Hs2].
      eapply (keeps_bind _ _ any). { intros w b w' Hw E. injection E as <- <-. split; [exact Hw|exact I]. }
      intros pos _. eapply (keeps_bind _ _ any). { destruct sv as [[[r|] d] o]; [apply keeps_insert_tags|apply keeps_fail]. }
      intros _ _. eapply keeps_bind; [now apply keeps_event_append|]. intros _ _. now apply IH.
    Qed.
    Lemma keeps_request hash order evs trk : keeps (process_append_request rd kw ps hash order (false, false) evs None trk) any.
    Proof.
      unfold process_append_request. cbn [check_condition]. eapply keeps_bind; [now apply (keeps_ret _ (fun a => a = None))|]. intros a ->. kstep.
      apply validate_all_sv in H. eapply (keeps_bind _ _ any). { destruct trk; [apply keeps_tracking|now apply keeps_ret]. }
      intros _ _. destruct a; [now apply keeps_ret|]. now apply keeps_append_values.
    Qed.

    (** ** The free list: insertion *)
    Lemma fit_ids l : fit (NTsnLeaf l) <-> 11 + 8 * nlen l <= ps.
    Proof. cbn [fit]. unfold page_size_of, PAGE_HEADER_SIZE, node_size, u64_list_size. lia. Qed.
    Lemma keeps_tsn_insert root key : keeps (tsn_subtree_insert rd kw ps root key) any.
    Proof.
      unfold tsn_subtree_insert. kstep. eapply keeps_bind; [apply keeps_descend, Hrd|]. intros [leaf stack] _. kstep. rename a0 into n, H0 into Hn.
      destruct n as [| | | | | | | | | |ids| | |]; try apply keeps_fail. destruct (bs_N key ids) as [i|i]; [now apply keeps_ret|].
      intros w r w' Hw E. apply wbind_ok in E as ([] & w1 & E1 & E). injection E1 as <-.
      destruct (N.leb_spec (page_size_of kw (NTsnLeaf (vec_insert i key ids))) ps) as [Hl|Hl].
      { refine (keeps_ret root any I _ _ _ _ E). now apply wfit_put. }
      cbv zeta in E. destruct (drop _ _) as [|k ids2] eqn:Ed; [discriminate|].
      set (mid := Nat.div2 (length (vec_insert i key ids))) in *.
      assert (Hlen : length (vec_insert i key ids) = S (length ids)) by apply len_ins.
      assert (Hm : (mid <= length ids /\ S (length ids) - mid <= length ids)%nat).
      { apply fit_ids in Hn. cbn [fit] in Hl. unfold page_size_of, PAGE_HEADER_SIZE, node_size, u64_list_size in Hl. rewrite len_nlen in Hl. rewrite Hlen in Hl.
        unfold mid. rewrite Hlen. pose proof (Nat.div2_div (S (length ids))). pose proof (Nat.div_mod_eq (S (length ids)) 2). pose proof (Nat.mod_upper_bound (S (length ids)) 2).
        unfold ps_ok in Hps. destruct ids as [|x ids]; cbn [length] in *; lia. }
      assert (F1 : fit (NTsnLeaf (take mid (vec_insert i key ids)))).
      { apply fit_ids. apply fit_ids in Hn. rewrite len_nlen in *. rewrite take_length. lia. }
      assert (F2 : fit (NTsnLeaf (k :: ids2))).
      { rewrite <- Ed. apply fit_ids. apply fit_ids in Hn. rewrite len_nlen in *. rewrite drop_length. lia. }
      apply wbind_ok in E as ([] & w2 & E2 & E). unfold put_dirty in E2. assert (E3 := f_equal snd E2). cbn [snd] in E3. clear E2. subst w2.
      cbn [set_dirty w_dirty w_tsn w_next_page w_free_root w_events_root w_tags_root w_tracking_root w_next_pos w_reusable w_freed w_deser w_reused] in E. rewrite insert_insert in E.
      refine (keeps_bind alloc_page_id _ any any _ _ _ _ _ _ E); [apply keeps_alloc| |].
      - intros q _. kstep; [exact F2|]. eapply keeps_bind; [apply (keeps_propagate _ (tsn_laws key))|]. intros [ri si] _. apply (keeps_finish _ (tsn_laws key)).
      - match goal with |- wfit ?x => replace x with (set_dirty (<[leaf := NTsnLeaf (take mid (vec_insert i key ids))]> (w_dirty w)) w) by reflexivity end. now apply wfit_put.
    Qed.
    Lemma keeps_tsn_insert_all ids : forall root, keeps (tsn_insert_all rd kw ps root ids) any.
    Proof.
      induction ids as [|p ids IH]; intros root; cbn [tsn_insert_all]; [now apply keeps_ret|]. eapply keeps_bind; [apply keeps_tsn_insert|]. intros r _. apply IH.
    Qed.
    Lemma fill_fits ids : forall acc, fit (NTsnLeaf acc) -> fit (NTsnLeaf (fill_leaf kw ps acc ids)).
    Proof.
      induction ids as [|p ids IH]; intros acc Ha; cbn [fill_leaf]; [exact Ha|]. destruct (N.leb_spec (page_size_of kw (NTsnLeaf (acc ++ [p]))) ps) as [Hl|Hl]; [|exact Ha].
      apply IH. exact Hl.
    Qed.
    Definition vsz (v : fl_value) : N := 10 + 8 * nlen (fv_page_ids v).
    Definition vsum (vs : list fl_value) : N := foldr (fun v acc => vsz v + acc) 0 vs.
    Lemma leaf_sum l : fl_leaf_size l = 2 + 8 * nlen (fl_keys l) + vsum (fl_values l).
    Proof.
      unfold fl_leaf_size, vsum. assert (H : forall l, foldr (fun v acc => 2 + nlen (fv_page_ids v) * 8 + 8 + acc) 0 l = foldr (fun v acc => vsz v + acc) 0 l).
      { clear. induction l as [|v l IH]; [reflexivity|]. cbn [foldr]. rewrite IH. unfold vsz. lia. }
      rewrite H. lia.
    Qed.
    Lemma vsum_app a b : vsum (a ++ b) = vsum a + vsum b.
    Proof. induction a as [|v a IH]; cbn [app vsum foldr]; [reflexivity|]. fold (vsum (a ++ b)) (vsum a). rewrite IH. lia. Qed.
    Lemma vsum_insert vs i v v' : vs !! i = Some v -> vsum (<[i := v']> vs) + vsz v = vsum vs + vsz v'.
    Proof.
      intros H. rewrite insert_take_drop by (now apply lookup_lt_Some in H). rewrite <- (take_drop_middle _ _ _ H) at 3. rewrite !vsum_app. cbn [vsum foldr].
      fold (vsum (drop (S i) vs)). lia.
    Qed.
    Lemma vsum_remove vs i : vsum (vec_remove i vs) <= vsum vs.
    Proof.
      unfold vec_remove. rewrite vsum_app. rewrite <- (take_drop i vs) at 3. rewrite vsum_app. destruct (vs !! i) as [v|] eqn:E.
      - rewrite (drop_S _ _ _ E). cbn [vsum foldr]. fold (vsum (drop (S i) vs)). lia.
      - apply lookup_ge_None in E. rewrite !drop_ge by lia. lia.
    Qed.
    Lemma fit_leaf l : fit (NFreeLeaf l) <-> 11 + 8 * nlen (fl_keys l) + vsum (fl_values l) <= ps.
    Proof. cbn [fit]. unfold page_size_of, PAGE_HEADER_SIZE, node_size. rewrite leaf_sum. lia. Qed.
    Lemma last_split {A} (l : list A) x : last l = Some x -> l = removelast l ++ [x].
    Proof.
      intros H. destruct l as [|y l] using rev_ind; [discriminate|]. rewrite last_snoc in H. injection H as ->. now rewrite removelast_last.
    Qed.
    Lemma keeps_plan tsn l pl freed dl w si w' : choose_plan ps tsn l = Ok pl -> wfit w -> w_dirty w !! dl = Some (NFreeLeaf l) ->
      apply_plan rd kw ps pl tsn freed dl w = (Ok si, w') -> wfit w'.
    Proof.
      intros Hpl Hw Hd E. pose proof (proj1 Hw _ _ Hd) as Hl. apply fit_leaf in Hl. unfold apply_plan in E. apply wbind_ok in E as (n & w1 & E1 & E). unfold get_mut_dirty in E1. rewrite Hd in E1. injection E1 as <- <-.
      cbv zeta in E. clear Hd. revert E. match goal with |- ?m _ = _ -> _ => intros E; enough (Hk : keeps m any) by exact (proj1 (Hk _ _ _ Hw E)) end. clear E. unfold ps_ok in Hps.
      assert (Hnil : forall x : N, nlen [x] = 1) by reflexivity. 
      unfold choose_plan in Hpl. destruct pl.
      - assert (fits_new_tsn ps l = true) as Hf.
        { destruct (last (fl_keys l)); [|destruct (fits_new_tsn ps l); [reflexivity|discriminate]]. destruct (tsn =? n).
          - destruct (_ !! _); [|discriminate]. destruct (negb _); [discriminate|]. destruct (fits_new_id _ _); [discriminate|]. destruct (_ =? _)%nat; discriminate.
          - destruct (n <? tsn); [|discriminate]. destruct (fits_new_tsn ps l); [reflexivity|discriminate]. }
        unfold fits_new_tsn in Hf. apply N.leb_le in Hf. rewrite leaf_sum in Hf. unfold PAGE_HEADER_SIZE in Hf. kstep; [|now apply keeps_ret].
        apply fit_leaf. cbn [fl_keys fl_values]. rewrite vsum_app. cbn [vsum foldr]. unfold vsz. cbn [fv_page_ids]. rewrite Hnil. rewrite !len_nlen, app_length in *. cbn [length]. lia.
      - assert (fits_new_id ps l = true) as Hf.
        { destruct (last (fl_keys l)); [|destruct (fits_new_tsn ps l); discriminate]. destruct (tsn =? n).
          - destruct (_ !! _); [|discriminate]. destruct (negb _); [discriminate|]. destruct (fits_new_id _ _); [reflexivity|]. destruct (_ =? _)%nat; discriminate.
          - destruct (n <? tsn); [|discriminate]. destruct (fits_new_tsn ps l); discriminate. }
        unfold fits_new_id in Hf. apply N.leb_le in Hf. rewrite leaf_sum in Hf. unfold PAGE_HEADER_SIZE in Hf. destruct (fl_values l !! i) as [v|] eqn:Ev; [|apply keeps_fail].
        kstep; [|now apply keeps_ret]. apply fit_leaf. cbn [fl_keys fl_values].
        pose proof (vsum_insert _ _ _ (FlValue (fv_page_ids v ++ [freed]) (fv_root v)) Ev) as Hs. unfold vsz in Hs. cbn [fv_page_ids] in Hs. rewrite !len_nlen, app_length in *. cbn [length] in Hs. lia.
      - destruct (_ !! _) as [v|] eqn:Ev; [|apply keeps_fail]. destruct (fv_root v =? 0); [apply keeps_fail|]. eapply keeps_bind; [apply keeps_tsn_insert|]. intros r _.
        destruct (r =? fv_root v); [now apply keeps_ret|]. kstep; [|now apply keeps_ret]. apply fit_leaf. cbn [fl_keys fl_values].
        pose proof (vsum_insert _ _ _ (FlValue (fv_page_ids v) r) Ev) as Hs. unfold vsz in Hs. cbn [fv_page_ids] in Hs. lia.
      - destruct (_ !! _) as [v|] eqn:Ev; [|apply keeps_fail]. destruct (is_nil _); [apply keeps_fail|]. kstep.
        kstep; [apply fill_fits, fit_ids; cbn; lia|]. eapply keeps_bind; [apply keeps_tsn_insert_all|]. intros r _. kstep; [|now apply keeps_ret].
        apply fit_leaf. cbn [fl_keys fl_values]. pose proof (vsum_insert _ _ _ (FlValue [] r) Ev) as Hs. unfold vsz in Hs. cbn [fv_page_ids] in Hs. change (nlen (@nil N)) with 0 in Hs. lia.
      - destruct (last (fl_keys l)) as [k|] eqn:Ek; [|apply keeps_fail]. destruct (last (fl_values l)) as [v|] eqn:Ev; [|apply keeps_fail].
        assert (2 <= length (fl_keys l) /\ 2 <= length (fl_values l))%nat as [L1 L2].
        { destruct (tsn =? k).
          - destruct (_ !! _) as [v'|] eqn:Ei; [|discriminate]. destruct (negb _); [discriminate|]. destruct (fits_new_id _ _); [discriminate|]. destruct (Nat.eqb_spec (length (fl_keys l)) 1); [discriminate|].
            apply lookup_lt_Some in Ei. destruct (fl_keys l) as [|? [|? ?]]; [discriminate|cbn in *; lia|]. cbn [length] in *. lia.
          - destruct (k <? tsn); [|discriminate]. destruct (fits_new_tsn ps l); discriminate. }
        apply last_split in Ek, Ev. rewrite Ek in Hl at 1. rewrite Ev in Hl. rewrite vsum_app in Hl. cbn [vsum foldr] in Hl. rewrite !len_nlen, app_length in Hl. cbn [length] in Hl.
        kstep. { apply fit_leaf. cbn [fl_keys fl_values]. rewrite !len_nlen. lia. }
        kstep. kstep; [|now apply keeps_ret]. apply fit_leaf. cbn [fl_keys fl_values vsum foldr]. unfold vsz in *. cbn [fv_page_ids]. rewrite Hnil, !len_nlen, app_length in *. cbn [length].
        assert (10 <= vsum (removelast (fl_values l))).
        { rewrite Ev in L2. rewrite app_length in L2. cbn in L2. destruct (removelast (fl_values l)) as [|v1 vs1]; [cbn in L2; lia|]. cbn [vsum foldr]. unfold vsz. lia. }
        assert (1 <= length (removelast (fl_keys l)))%nat. { rewrite Ek in L1. rewrite app_length in L1. cbn in L1. lia. }
        lia.
      - kstep. kstep; [|now apply keeps_ret]. apply fit_leaf. cbn [fl_keys fl_values vsum foldr]. unfold vsz. cbn [fv_page_ids]. rewrite !Hnil. lia.
    Qed.
    Lemma keeps_insert_freed tsn freed : keeps (insert_freed_page_id rd kw ps tsn freed) any.
    Proof.
      unfold insert_freed_page_id. kstep. kstep. eapply keeps_bind; [apply keeps_descend, Hrd|]. intros [leaf stack] _.
      intros w u w' Hw E. apply wbind_ok in E as (n & w1 & E1 & E). destruct (keeps_ref _ _ Hrd _ _ _ Hw E1) as [Hw1 Hn]. apply ref_seen in E1.
      destruct n; try discriminate. apply wbind_ok in E as (pl & w2 & E2 & E). unfold lift in E2. injection E2 as Hpl <-.
      apply wbind_ok in E as (dl & w3 & E3 & E). destruct (keeps_cow _ _ _ _ Hw1 E3) as [Hw3 _]. apply (cow_seen _ _ _ _ _ E1) in E3.
      apply wbind_ok in E as (si & w4 & E4 & E). apply (keeps_plan _ _ _ _ _ _ _ _ Hpl Hw3 E3) in E4.
      refine (_ w4 u w' E4 E). eapply keeps_bind; [apply (keeps_propagate _ fl_laws)|]. intros [ri si'] _. eapply keeps_bind; [apply (keeps_finish _ fl_laws)|]. intros r _.
      apply keeps_modify. auto.
    Qed.

    (** ** The free list: removal *)
    Lemma len_remove {A} i (l : list A) : length (vec_remove i l) = if (i <? length l)%nat then Nat.pred (length l) else length l.
    Proof. unfold vec_remove. rewrite app_length, take_length, drop_length. destruct (Nat.ltb_spec i (length l)); lia. Qed.
    Lemma remove_child_fit (mk : inode N -> node) nd i nd' : mk = NTsnInt \/ mk = NFreeInt -> fit (mk nd) -> remove_child nd i = Ok nd' -> fit (mk nd').
    Proof.
      intros Hmk Hf E. unfold remove_child in E. destruct (_ !! _) eqn:Ei; [|discriminate]. injection E as <-. apply lookup_lt_Some in Ei.
      assert (Hg : (length (in_children nd) <= S (length (in_keys nd)))%nat /\ 13 + 8 * nlen (in_keys nd) + 8 * nlen (in_children nd) <= ps ->
        fit (mk (INode (vec_remove (Nat.pred i) (in_keys nd)) (vec_remove i (in_children nd))))).
      { intros [G1 G2]. destruct Hmk as [-> | ->]; cbn [fit]; unfold int_fit; cbn [in_keys in_children]; unfold page_size_of, PAGE_HEADER_SIZE, node_size, fl_int_size; cbn [in_keys in_children];
          rewrite !len_nlen in *; rewrite !len_remove; (destruct (Nat.ltb_spec i (length (in_children nd))); [|lia]); (destruct (Nat.ltb_spec (Nat.pred i) (length (in_keys nd))); lia). }
      apply Hg. destruct Hmk as [-> | ->]; cbn [fit] in Hf; destruct Hf as [F1 F2]; (split; [exact F1|]); unfold page_size_of, PAGE_HEADER_SIZE, node_size, fl_int_size in F2; lia.
    Qed.
    Lemma fit_ids_remove j ids : fit (NTsnLeaf ids) -> fit (NTsnLeaf (vec_remove j ids)).
    Proof. intros H. apply fit_ids. apply fit_ids in H. rewrite !len_nlen in *. rewrite len_remove. destruct (_ <? _)%nat; lia. Qed.
    Lemma keeps_tsn_up id leaf dl em stack root : keeps (tsn_remove_up kw ps id leaf dl em stack root) any.
    Proof.
      assert (Hgen : forall st ri, keeps (propagate (tsn_rm_ops id) kw ps st ri None) any) by (intros; apply (keeps_propagate _ (tsn_rm_laws id))).
      unfold tsn_remove_up. cbv zeta. destruct em; [destruct stack as [|[p i] stack]|].
      - eapply keeps_bind; [apply Hgen|]. intros [ri si] _. now apply keeps_ret.
      - kstep. kstep. destruct a0; try apply keeps_fail. kstep. cbv beta in *. kstep. { eapply (remove_child_fit NTsnInt); [now left|eassumption|eassumption]. }
        destruct (in_children a0) as [|c [|c2 cs]].
        + eapply keeps_bind; [apply Hgen|]. intros _ _. now apply keeps_ret.
        + eapply keeps_bind; [apply Hgen|]. intros [ri si] _. now apply keeps_ret.
        + eapply keeps_bind; [apply Hgen|]. intros [ri si] _. now apply keeps_ret.
      - eapply keeps_bind; [apply Hgen|]. intros [ri si] _. now apply keeps_ret.
    Qed.
    Lemma keeps_tsn_remove root id : keeps (tsn_remove rd kw ps root id) any.
    Proof.
      unfold tsn_remove. kstep. kstep. destruct a0 as [| | | | | | | | | |ids| | |]; try apply keeps_fail.
      - destruct (position id ids) as [j|]; [|apply keeps_fail]. kstep; [now apply fit_ids_remove|]. destruct (is_nil _); now apply keeps_ret.
      - kstep. eapply keeps_bind; [apply keeps_descend, Hrd|]. intros [leaf stack] _. kstep. kstep. destruct a2 as [| | | | | | | | | |ids| | |]; try apply keeps_fail.
        destruct (position id ids) as [j|]; [|apply keeps_fail]. kstep; [now apply fit_ids_remove|]. eapply keeps_bind; [apply keeps_tsn_up|]. intros [r rem] _. now apply keeps_ret.
    Qed.
    Lemma fit_leaf_remove l i : fit (NFreeLeaf l) -> fit (NFreeLeaf (FlLeaf (vec_remove i (fl_keys l)) (vec_remove i (fl_values l)))).
    Proof.
      rewrite !fit_leaf. cbn [fl_keys fl_values]. pose proof (vsum_remove (fl_values l) i). rewrite !len_nlen, len_remove. destruct (_ <? _)%nat; lia.
    Qed.
    Lemma keeps_leaf_remove tsn id leaf i root : keeps (leaf_remove rd kw ps tsn id leaf i root) any.
    Proof.
      unfold leaf_remove. destruct (root =? 0).
      - kstep. kstep. destruct a0; try apply keeps_fail. destruct (_ !! i) as [v|] eqn:Ev; [|apply keeps_fail]. destruct (position _ _) as [j|]; [|apply keeps_fail].
        cbv zeta. kstep; [|now apply keeps_ret]. destruct (is_nil _); [now apply fit_leaf_remove|]. rewrite fit_leaf in *. cbn [fl_keys fl_values].
        pose proof (vsum_insert _ _ _ (FlValue (vec_remove j (fv_page_ids v)) (fv_root v)) Ev) as Hs. unfold vsz in Hs. cbn [fv_page_ids] in Hs.
        rewrite !len_nlen, len_remove in *. destruct (_ <? _)%nat; lia.
      - eapply keeps_bind; [apply keeps_tsn_remove|]. intros [r rem] _. kstep. kstep. destruct a0; try apply keeps_fail. destruct (_ !! i); [|apply keeps_fail].
        destruct (negb _); [apply keeps_fail|]. destruct r as [r'|].
        + destruct (r' =? root); [now apply keeps_ret|]. destruct (fl_values _ !! i) as [v|] eqn:Ev; [|apply keeps_fail]. kstep; [|now apply keeps_ret].
          rewrite fit_leaf in *. cbn [fl_keys fl_values]. pose proof (vsum_insert _ _ _ (FlValue (fv_page_ids v) r') Ev) as Hs. unfold vsz in Hs. cbn [fv_page_ids] in Hs. lia.
        + cbv zeta. kstep; [now apply fit_leaf_remove|]. now apply keeps_ret.
    Qed.
    Lemma keeps_fl_up tsn leaf dl em stack : keeps (fl_remove_up kw ps tsn leaf dl em stack) any.
    Proof.
      assert (Hgen : forall st ri, keeps (propagate (fl_rm_ops tsn) kw ps st ri None) any) by (intros; apply (keeps_propagate _ (fl_rm_laws tsn))).
      unfold fl_remove_up. destruct em; [destruct stack as [|[p i] stack]|].
      - eapply keeps_bind; [apply Hgen|]. intros [ri si] _. now apply keeps_ret.
      - kstep. kstep. destruct a0; try apply keeps_fail. kstep. cbv beta in *.
        assert (fit (NFreeInt a0)) as F1. { destruct (info leaf dl) as [[o c]|]; [eapply (fl_repl _ (fl_rm_laws tsn)); eassumption|congruence]. }
        destruct (_ !! i); [|apply keeps_fail]. destruct (negb _); [apply keeps_fail|]. kstep. cbv beta in *. kstep. { eapply (remove_child_fit NFreeInt); [now right|exact F1|eassumption]. }
        destruct (is_nil _).
        + destruct (in_children a1) as [|c [|c2 cs]]; try apply keeps_fail. eapply keeps_bind; [apply Hgen|]. intros [ri si] _. now apply keeps_ret.
        + eapply keeps_bind; [apply Hgen|]. intros [ri si] _. now apply keeps_ret.
      - eapply keeps_bind; [apply Hgen|]. intros [ri si] _. now apply keeps_ret.
    Qed.
    Lemma keeps_free_all ids : keeps (free_all ids) any.
    Proof. induction ids as [|p ids IH]; cbn [free_all]; [now apply keeps_ret|]. kstep. exact IH. Qed.
    Lemma keeps_remove_free tsn id : keeps (remove_free_page_id rd kw ps tsn id) any.
    Proof.
      unfold remove_free_page_id. kstep. kstep. eapply keeps_bind; [apply keeps_descend, Hrd|]. intros [leaf stack] _. eapply keeps_bind; [apply keeps_ref, Hrd|]. intros n _.
      destruct n; try apply keeps_fail. destruct (position _ _) as [i|]; [|apply keeps_fail]. destruct (_ !! i); [|apply keeps_fail].
      eapply keeps_bind; [apply keeps_leaf_remove|]. intros [[dl em] rem1] _. eapply keeps_bind; [apply keeps_fl_up|]. intros [ri rem2] _. eapply keeps_bind; [apply keeps_free_all|]. intros _ _.
      destruct ri as [[o c]|]; [|now apply keeps_ret]. destruct (_ =? o); [|apply keeps_fail]. kstep. apply keeps_modify. auto.
    Qed.
    Lemma keeps_reused fuel : keeps (remove_reused rd kw ps fuel) any.
    Proof.
      induction fuel as [|fuel IH]; cbn [remove_reused]; kstep; (destruct a as [|[id tsn] rest]; [now apply keeps_ret|]); [apply keeps_fail|].
      eapply keeps_bind; [apply keeps_modify; auto|]. intros _ _. eapply keeps_bind; [apply keeps_remove_free|]. intros _ _. exact IH.
    Qed.
    Lemma keeps_freed_all ids : keeps (insert_freed_all rd kw ps ids) any.
    Proof.
      induction ids as [|p ids IH]; cbn [insert_freed_all]; [now apply keeps_ret|]. eapply (keeps_bind _ _ any).
      { intros w b w' [H1 H2] [= <- <-]. split; [|exact I]. split; [|exact H2]. cbn. intros q n Hq. apply lookup_delete_Some in Hq as [_ Hq]. eauto. }
      intros _ _. kstep. eapply keeps_bind; [apply keeps_insert_freed|]. intros _ _. exact IH.
    Qed.
    Lemma keeps_process ford : keeps (process_freed_page_ids rd kw ps ford) any.
    Proof.
      unfold process_freed_page_ids. kstep. kstep. generalize (S (S (length a + N.to_nat a0))). clear H H0. intros fuel. induction fuel as [|fuel IH]; cbn [process_freed_loop].
      - kstep. kstep. destruct (_ && _); [now apply keeps_ret|apply keeps_fail].
      - kstep. kstep. destruct (_ && _); [now apply keeps_ret|]. kstep. eapply keeps_bind; [apply keeps_reused|]. intros _ _. kstep.
        eapply keeps_bind; [apply keeps_modify; auto|]. intros _ _. eapply keeps_bind; [apply keeps_freed_all|]. intros _ _. exact IH.
    Qed.
  End trees.
End fits.
