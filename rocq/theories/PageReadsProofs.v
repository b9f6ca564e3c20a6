(** The programs of PageReads.v compute what the functions of Iter.v do, and ask only for pages they were referred to. *)
From Verif Require Export PageReads.
Local Open Scope N_scope.

(** ** Reading at once *)
Lemma at_once_bind {A B} rd (t : prog A) (f : A -> prog B) : at_once rd (pbind t f) = at_once rd (f (at_once rd t)).
Proof. induction t as [a|q k IH]; cbn; auto. Qed.
Lemma at_once_pq {A B} rd (t : prog (res A)) (f : A -> prog (res B)) : at_once rd (pq t f) = rbind (at_once rd t) (fun a => at_once rd (f a)).
Proof. unfold pq. rewrite at_once_bind. now destruct (at_once rd t). Qed.
Lemma rbind_ext {A B} (r : res A) (f g : A -> res B) : (forall a, f a = g a) -> rbind r f = rbind r g.
Proof. intros H. destruct r; cbn; auto. Qed.

Section once.
  Context (rd : snapshot).
  Lemma chain_once fuel p : at_once rd (chain_prog fuel p) = read_overflow_chain fuel rd p.
  Proof.
    revert p. induction fuel as [|fuel IH]; intros p; cbn [chain_prog read_overflow_chain]; destruct (p =? 0); try reflexivity.
    rewrite at_once_pq. apply rbind_ext. intros n. destruct n; try reflexivity. rewrite at_once_pq, IH. reflexivity.
  Qed.
  Lemma materialize_once fuel v : at_once rd (materialize_prog fuel v) = materialize fuel rd v.
  Proof. destruct v; [reflexivity|]. unfold materialize_prog, materialize. rewrite at_once_pq, chain_once. reflexivity. Qed.
  Lemma event_lookup_once fuel cfuel p pos : at_once rd (event_lookup_prog fuel cfuel p pos) = event_tree_lookup fuel cfuel rd p pos.
  Proof.
    revert p. induction fuel as [|fuel IH]; intros p; [reflexivity|]. cbn [event_lookup_prog event_tree_lookup]. rewrite at_once_pq. apply rbind_ext. intros n.
    destruct n; try reflexivity; cbv zeta; [|destruct (in_children _ !! _); [apply IH|reflexivity]]. destruct (bs_N _ _); [|reflexivity]. destruct (ev_values _ !! _); [apply materialize_once|reflexivity].
  Qed.
  Lemma tracking_lookup_once fuel p src : at_once rd (tracking_lookup_prog fuel p src) = tracking_lookup fuel rd p src.
  Proof.
    revert p. induction fuel as [|fuel IH]; intros p; [reflexivity|]. cbn [tracking_lookup_prog tracking_lookup]. rewrite at_once_pq. apply rbind_ext. intros n.
    destruct n; try reflexivity. destruct (in_children _ !! _); [apply IH|reflexivity].
  Qed.
  Lemma tracking_once fuel root src : at_once rd (tracking_prog fuel root src) = get_tracking_info fuel rd root src.
  Proof. unfold tracking_prog, get_tracking_info. destruct (root =? 0); [reflexivity|apply tracking_lookup_once]. Qed.
  Lemma ei_step_once cfuel start bw it : at_once rd (ei_step_prog cfuel start bw it) = ei_step cfuel rd start bw it.
  Proof.
    destruct it as [p oi]. unfold ei_step_prog, ei_step. rewrite at_once_pq. apply rbind_ext. intros n. destruct n as [| | |l|nd| | | | | | | | |]; try reflexivity.
    2: destruct (match oi with Some i => Some i | None => _ end) as [i|]; [|reflexivity]; now destruct (in_children nd !! i).
    destruct (match oi with Some i => Some i | None => _ end) as [i|]; [|reflexivity]. destruct (ev_values l !! i); [|reflexivity]. destruct (ev_keys l !! i); [|reflexivity].
      rewrite at_once_pq, materialize_once. reflexivity.
  Qed.
  Lemma ei_loop_once cfuel start bw fuel room st : at_once rd (ei_loop_prog cfuel start bw fuel room st) = ei_loop cfuel rd start bw fuel room st.
  Proof.
    revert room st. induction fuel as [|fuel IH]; intros room st; destruct room as [|room], st as [|it st]; try reflexivity.
    cbn [ei_loop_prog ei_loop]. rewrite at_once_pq, ei_step_once. apply rbind_ext. intros [out push]. rewrite at_once_pq, IH. apply rbind_ext. now intros [rest st''].
  Qed.
  Lemma ei_next_once cfuel start bw fuel bs st : at_once rd (ei_next_prog cfuel start bw fuel bs st) = ei_next_batch cfuel rd start bw fuel bs st.
  Proof. unfold ei_next_prog, ei_next_batch. destruct (bs =? 0); [reflexivity|]. destruct (bw && _); [reflexivity|apply ei_loop_once]. Qed.
  Lemma ti_step_once start bw it : at_once rd (ti_step_prog start bw it) = ti_step rd start bw it.
  Proof.
    destruct it as [p oi]. unfold ti_step_prog, ti_step. rewrite at_once_pq. apply rbind_ext. intros n. destruct n; try reflexivity. cbv zeta. now destruct (in_children _ !! _).
  Qed.
  Lemma ti_loop_once start bw fuel st : at_once rd (ti_loop_prog start bw fuel st) = ti_loop rd start bw fuel st.
  Proof.
    revert st. induction fuel as [|fuel IH]; intros st; destruct st as [|it st]; try reflexivity.
    cbn [ti_loop_prog ti_loop]. rewrite at_once_bind, ti_step_once. destruct (ti_step _ _ _ _) as [[out push]|]; [|reflexivity]. rewrite at_once_bind, IH. reflexivity.
  Qed.
  Lemma ti_find_once fuel p tag : at_once rd (ti_find_prog fuel p tag) = ti_find rd fuel p tag.
  Proof.
    revert p. induction fuel as [|fuel IH]; intros p; [reflexivity|]. cbn [ti_find_prog ti_find]. rewrite at_once_bind. cbn [page at_once].
    destruct (rd p) as [n|]; [|reflexivity]. destruct n; try reflexivity. destruct (in_children _ !! _); [apply IH|reflexivity].
  Qed.
  Lemma tag_positions_once start bw fuel np root tag : at_once rd (tag_positions_prog start bw fuel np root tag) = tag_positions rd start bw fuel np root tag.
  Proof.
    unfold tag_positions_prog, tag_positions. rewrite at_once_bind, ti_find_once. destruct (ti_find _ _ _ _); [|reflexivity]. destruct (tv_root _ =? 0); [reflexivity|apply ti_loop_once].
  Qed.
  Lemma map_once {A B} (f : A -> prog B) g l : (forall a, at_once rd (f a) = g a) -> at_once rd (map_prog f l) = map g l.
  Proof. intros H. induction l as [|a l IH]; [reflexivity|]. cbn [map_prog map]. rewrite at_once_bind, H, at_once_bind, IH. reflexivity. Qed.
  Lemma scan_once fuel nextp next limit keep st out : (forall st, at_once rd (nextp st) = next st) ->
    at_once rd (scan_prog fuel nextp limit keep st out) = scan_loop fuel next limit keep st out.
  Proof.
    intros H. revert st out. induction fuel as [|fuel IH]; intros st out; [reflexivity|]. cbn [scan_prog scan_loop]. rewrite at_once_pq, H. apply rbind_ext. intros [batch st'].
    destruct batch; [reflexivity|]. destruct (push_batch _ _ _ _) as [out' stop]. destruct stop; [reflexivity|apply IH].
  Qed.
  Lemma index_once lookupp lookup q limit gs out : (forall pos, at_once rd (lookupp pos) = lookup pos) ->
    at_once rd (index_prog lookupp q limit gs out) = index_loop lookup q limit gs out.
  Proof.
    intros H. revert out. induction gs as [|[[pos tags] qiis] gs IH]; intros out; [reflexivity|]. cbn [index_prog index_loop]. cbv zeta.
    destruct (List.filter _ qiis) as [|m ms]; [apply IH|]. rewrite at_once_pq, H. apply rbind_ext. intros r. destruct (check_match _ _ _); [|apply IH]. destruct (limit_reached _ _); [reflexivity|apply IH].
  Qed.
  Lemma read_conditional_once np hash order er tr q start bw limit force :
    at_once rd (read_conditional_prog (scan_fuel rd np) np hash order er tr q start bw limit force) = read_conditional rd np hash order er tr q start bw limit force.
  Proof.
    unfold read_conditional_prog, read_conditional. cbv zeta.
    assert (Hs : forall bs keep, at_once rd (scan_prog (S (scan_fuel rd np)) (ei_next_prog np start bw (scan_fuel rd np) bs) limit keep [(er, None)] []) =
      scan_loop (S (scan_fuel rd np)) (ei_next_batch np rd start bw (scan_fuel rd np) bs) limit keep [(er, None)] []) by (intros; apply scan_once; intros; apply ei_next_once).
    assert (Hi : forall tags,  at_once rd (pbind (map_prog (fun t => pbind (tag_positions_prog start bw (scan_fuel rd np) np tr (hash t)) (fun l => Ret (map (fun p => (p, t, tag_qiids q t)) l))) tags)
          (fun lists => index_prog (event_lookup_prog np np er) q limit (group_from None (kmerge (length (concat lists)) bw lists)) [])) =
      let lists := map (fun t => map (fun p => (p, t, tag_qiids q t)) (tag_positions rd start bw (scan_fuel rd np) np tr (hash t))) tags in
      index_loop (event_tree_lookup np np rd er) q limit (group_from None (kmerge (length (concat lists)) bw lists)) []).
    { intros tags. rewrite at_once_bind. rewrite (map_once _ (fun t => map (fun p => (p, t, tag_qiids q t)) (tag_positions rd start bw (scan_fuel rd np) np tr (hash t)))).
      - apply index_once. intros pos. apply event_lookup_once.
      - intros t. rewrite at_once_bind, tag_positions_once. reflexivity. }
    destruct limit as [[|lim]|]; [reflexivity| |]; (destruct q as [|it q]; [apply Hs|]; destruct (negb _ || force); [apply Hs|apply Hi]).
  Qed.
  Lemma read_once hash order h q start bw limit force :
    at_once rd (read_prog (scan_fuel rd (N.to_nat (h_next_page h))) hash order h q start bw limit force) = umadb_read hash order rd h q start bw limit force.
  Proof. unfold read_prog, umadb_read. rewrite at_once_pq, read_conditional_once. reflexivity. Qed.
End once.

(** ** Following references *)
Lemma follows_weaken {A} (Q Q' : (N -> Prop) -> A -> Prop) (K K' : N -> Prop) t : follows Q K t -> (forall x, K x -> K' x) ->
  (forall (K1 K2 : N -> Prop) a, (forall x, K1 x -> K2 x) -> Q K1 a -> Q' K2 a) -> follows Q' K' t.
Proof.
  revert K K'. induction t as [a|q k IH]; intros K K' H HK HQ; cbn in *; [eapply HQ; eauto|]. destruct H as [Hq H]. split; [auto|]. intros r.
  eapply IH; [apply H| |exact HQ]. intros x [Hx|Hx]; auto.
Qed.
Lemma follows_bind {A B} (Q : (N -> Prop) -> A -> Prop) (Q' : (N -> Prop) -> B -> Prop) K t f : follows Q K t ->
  (forall (K' : N -> Prop) a, (forall x, K x -> K' x) -> Q K' a -> follows Q' K' (f a)) -> follows Q' K (pbind t f).
Proof.
  revert K. induction t as [a|q k IH]; intros K H Hf; cbn in *; [apply Hf; auto|]. destruct H as [Hq H]. split; [exact Hq|]. intros r. apply IH; [apply H|].
  intros K' a HK. apply Hf. auto.
Qed.
Definition qtop {A} : (N -> Prop) -> A -> Prop := fun _ _ => True.
Lemma follows_top {A} (Q : (N -> Prop) -> A -> Prop) K t : follows Q K t -> follows qtop K t.
Proof. intros H. eapply follows_weaken; [exact H|auto|]. intros. exact I. Qed.
(** the result of a program that may fail *)
Definition qok {A} (Q : (N -> Prop) -> A -> Prop) : (N -> Prop) -> res A -> Prop := fun K r => match r with Ok a => Q K a | Err _ => True end.
Lemma follows_pq {A B} (Q : (N -> Prop) -> A -> Prop) (Q' : (N -> Prop) -> B -> Prop) K t f : follows (qok Q) K t ->
  (forall (K' : N -> Prop) a, (forall x, K x -> K' x) -> Q K' a -> follows (qok Q') K' (f a)) -> follows (qok Q') K (pq t f).
Proof. intros H Hf. unfold pq. eapply follows_bind; [exact H|]. intros K' [a|e] HK HQ; [now apply Hf|exact I]. Qed.
Lemma qok_top {A} K (r : res A) : qok qtop K r. Proof. now destruct r. Qed.
Definition qrefs : (N -> Prop) -> node -> Prop := fun K n => forall x, x ∈ refs n -> K x.
Lemma page_follows (K : N -> Prop) q : K q -> follows (qok qrefs) K (page q).
Proof. intros Hq. cbn. split; [exact Hq|]. intros [n|e]; cbn; [|exact I]. intros x Hx. auto. Qed.
Definition qstack {A} : (N -> Prop) -> A * list item -> Prop := fun K r => forall it, it ∈ r.2 -> K it.1.

Lemma ref_in p : p <> 0 -> p ∈ ref p.
Proof. intros H. unfold ref. destruct (N.eqb_spec p 0); [contradiction|now left]. Qed.
Lemma child_ref {A} (l : list A) i c : l !! i = Some c -> c ∈ l.
Proof. apply elem_of_list_lookup_2. Qed.

Lemma chain_follows fuel (K : N -> Prop) p : (p <> 0 -> K p) -> follows (qok qtop) K (chain_prog fuel p).
Proof.
  revert K p. induction fuel as [|fuel IH]; intros K p Hp; cbn [chain_prog]; destruct (N.eqb_spec p 0) as [E|E]; try exact I.
  eapply follows_pq; [apply page_follows; auto|]. intros K' n HK Hn. destruct n; try exact I.
  eapply follows_pq; [apply IH|intros; exact I]. intros Hne. apply Hn. cbn. now apply ref_in.
Qed.
Definition value_ref (v : event_value) : N := match v with Inline _ => 0 | Overflow _ _ _ root _ _ _ => root end.
Lemma materialize_follows fuel (K : N -> Prop) v : (value_ref v <> 0 -> K (value_ref v)) -> follows (qok qtop) K (materialize_prog fuel v).
Proof.
  intros H. destruct v; [exact I|]. unfold materialize_prog. eapply follows_pq; [apply chain_follows; exact H|]. intros K' a _ _. apply qok_top.
Qed.
Lemma leaf_refs l v i (K : N -> Prop) : qrefs K (NEvLeaf l) -> ev_values l !! i = Some v -> value_ref v <> 0 -> K (value_ref v).
Proof.
  intros HK Hv Hne. apply HK. cbn. apply elem_of_list_bind. exists v. split; [|eapply child_ref; exact Hv]. destruct v; [now destruct Hne|]. now apply ref_in.
Qed.
Lemma event_lookup_follows fuel cfuel (K : N -> Prop) p pos : K p -> follows (qok qtop) K (event_lookup_prog fuel cfuel p pos).
Proof.
  revert K p. induction fuel as [|fuel IH]; intros K p Hp; [exact I|]. cbn [event_lookup_prog]. eapply follows_pq; [apply page_follows; exact Hp|]. intros K' n HK Hn. destruct n; try exact I.
  - destruct (bs_N _ _); [|exact I]. destruct (ev_values _ !! _) eqn:E; [|exact I]. apply materialize_follows. eapply leaf_refs; eassumption.
  - destruct (in_children _ !! _) eqn:E; [|exact I]. apply IH. apply Hn. cbn. eapply child_ref; exact E.
Qed.
Lemma tracking_lookup_follows fuel (K : N -> Prop) p src : K p -> follows (qok qtop) K (tracking_lookup_prog fuel p src).
Proof.
  revert K p. induction fuel as [|fuel IH]; intros K p Hp; [exact I|]. cbn [tracking_lookup_prog]. eapply follows_pq; [apply page_follows; exact Hp|]. intros K' n HK Hn. destruct n; try exact I.
  - cbn. now destruct (trk_get _ _).
  - destruct (in_children _ !! _) eqn:E; [|exact I]. apply IH. apply Hn. cbn. eapply child_ref; exact E.
Qed.
Lemma push_children_in bw p nd i c it : it ∈ push_children bw p nd i c -> it.1 = c \/ it.1 = p.
Proof.
  unfold push_children. intros H. apply elem_of_cons in H as [->|H]; [now left|]. right.
  destruct bw; [destruct i; [now apply elem_of_nil in H|]|destruct (S i <? _)%nat; [|now apply elem_of_nil in H]]; apply elem_of_list_singleton in H as ->; reflexivity.
Qed.
Lemma ei_step_follows cfuel start bw (K : N -> Prop) it : K it.1 -> follows (qok qstack) K (ei_step_prog cfuel start bw it).
Proof.
  destruct it as [p oi]. cbn [fst]. intros Hp. unfold ei_step_prog. eapply follows_pq; [apply page_follows; exact Hp|]. intros K' n HK Hn.
  assert (Hnil : forall A, follows (qok (@qstack (list A))) K' (Ret (Ok ([], [])))) by (intros A; cbn; intros it Hit; now apply elem_of_nil in Hit).
  destruct n as [| | |l|nd| | | | | | | | |]; try exact I; cycle 1.
  - destruct (match oi with Some i => Some i | None => _ end) as [i|]; [|apply Hnil]. destruct (in_children nd !! i) eqn:E; [|exact I]. cbn. intros it Hit. cbn in Hit.
    destruct (push_children_in _ _ _ _ _ _ Hit) as [->| ->]; [|auto]. apply Hn. cbn. eapply child_ref; exact E.
  - destruct (match oi with Some i => Some i | None => _ end) as [i|]; [|apply Hnil]. destruct (ev_values l !! i) eqn:E; [|apply Hnil]. destruct (ev_keys l !! i); [|exact I].
    eapply follows_pq; [apply materialize_follows; eapply leaf_refs; eassumption|]. intros K2 r HK2 _. cbn [follows qok]. intros it Hit. cbn [snd] in Hit.
    destruct bw; [destruct i; [now apply elem_of_nil in Hit|]|destruct (S i <? _)%nat; [|now apply elem_of_nil in Hit]]; apply elem_of_list_singleton in Hit as ->; cbn; auto.
Qed.
Lemma ei_loop_follows cfuel start bw fuel room st (K : N -> Prop) : (forall it, it ∈ st -> K it.1) -> follows (qok qstack) K (ei_loop_prog cfuel start bw fuel room st).
Proof.
  revert room st K. induction fuel as [|fuel IH]; intros room st K Hst; destruct room as [|room], st as [|it st]; try exact I; try exact Hst.
  cbn [ei_loop_prog]. eapply follows_pq; [apply ei_step_follows; apply Hst; now left|]. intros K' [out push] HK Hpush. 
  eapply follows_pq; [apply IH|]. { intros x Hx. apply elem_of_app in Hx as [Hx|Hx]; [exact (Hpush x Hx)|]. apply HK, Hst. now right. }
  intros K2 [rest st2] _ H2. exact H2.
Qed.
Lemma ei_next_follows cfuel start bw fuel bs st (K : N -> Prop) : (forall it, it ∈ st -> K it.1) -> follows (qok qstack) K (ei_next_prog cfuel start bw fuel bs st).
Proof. intros H. unfold ei_next_prog. destruct (bs =? 0); [exact H|]. destruct (bw && _); [exact H|now apply ei_loop_follows]. Qed.
Lemma ti_step_follows start bw (K : N -> Prop) it : K it.1 -> follows (qok qstack) K (ti_step_prog start bw it).
Proof.
  destruct it as [p oi]. cbn [fst]. intros Hp. unfold ti_step_prog. eapply follows_pq; [apply page_follows; exact Hp|]. intros K' n HK Hn.
  assert (Hnil : forall A (l : list A), follows (qok (@qstack (list A))) K' (Ret (Ok (l, [])))) by (intros A l; cbn; intros it Hit; now apply elem_of_nil in Hit).
  destruct n; try apply Hnil. cbv zeta. destruct (in_children _ !! _) eqn:E; [|apply Hnil]. cbn. intros it Hit. cbn in Hit.
  destruct (push_children_in _ _ _ _ _ _ Hit) as [->| ->]; [|auto]. apply Hn. cbn. eapply child_ref; exact E.
Qed.
Lemma ti_loop_follows start bw fuel st (K : N -> Prop) : (forall it, it ∈ st -> K it.1) -> follows qtop K (ti_loop_prog start bw fuel st).
Proof.
  revert st K. induction fuel as [|fuel IH]; intros st K Hst; destruct st as [|it st]; try exact I.
  cbn [ti_loop_prog]. eapply follows_bind; [apply ti_step_follows; apply Hst; now left|]. intros K' [[out push]|] HK Hpush; [|exact I].
  eapply follows_bind; [apply IH|intros; exact I]. intros x Hx. apply elem_of_app in Hx as [Hx|Hx]; [exact (Hpush x Hx)|]. apply HK, Hst. now right.
Qed.
Definition qvalue : (N -> Prop) -> option tags_value -> Prop := fun K v => forall t, v = Some t -> tv_root t <> 0 -> K (tv_root t).
Lemma ti_find_follows fuel (K : N -> Prop) p tag : K p -> follows qvalue K (ti_find_prog fuel p tag).
Proof.
  assert (Hnone : forall K, qvalue K None) by (intros K1 t; discriminate).
  revert K p. induction fuel as [|fuel IH]; intros K p Hp; [apply Hnone|]. cbn [ti_find_prog]. eapply follows_bind; [apply page_follows; exact Hp|].
  intros K' [n|e] HK Hn; [|apply Hnone]. cbn in Hn. destruct n; try apply Hnone.
  - destruct (bs_bytes _ _); [|apply Hnone]. cbn. intros t Ht Hne. apply Hn. cbn. apply elem_of_list_bind. exists t. split; [now apply ref_in|eapply child_ref; exact Ht].
  - destruct (in_children _ !! _) eqn:E; [|apply Hnone]. apply IH. apply Hn. cbn. eapply child_ref; exact E.
Qed.
Lemma tag_positions_follows start bw fuel np (K : N -> Prop) root tag : K root -> follows qtop K (tag_positions_prog start bw fuel np root tag).
Proof.
  intros Hr. unfold tag_positions_prog. eapply follows_bind; [now apply ti_find_follows|]. intros K' [v|] HK Hv; [|exact I]. destruct (N.eqb_spec (tv_root v) 0); [exact I|].
  apply ti_loop_follows. intros it Hit. apply elem_of_list_singleton in Hit as ->. cbn. now apply Hv.
Qed.
Lemma map_follows {A B} (f : A -> prog B) l (K : N -> Prop) : (forall a (K' : N -> Prop), (forall x, K x -> K' x) -> follows qtop K' (f a)) -> follows qtop K (map_prog f l).
Proof.
  revert K. induction l as [|a l IH]; intros K H; [exact I|]. cbn [map_prog]. eapply follows_bind; [apply H; auto|]. intros K' b HK _.
  eapply follows_bind; [apply IH|intros; exact I]. intros a' K2 HK2. apply H. auto.
Qed.
Lemma scan_follows fuel next limit keep st out (K : N -> Prop) : (forall st (K' : N -> Prop), (forall it, it ∈ st -> K' it.1) -> follows (qok qstack) K' (next st)) ->
  (forall it, it ∈ st -> K it.1) -> follows (qok qtop) K (scan_prog fuel next limit keep st out).
Proof.
  intros Hn. revert K st out. induction fuel as [|fuel IH]; intros K st out Hst; [exact I|]. cbn [scan_prog]. eapply follows_pq; [apply Hn; exact Hst|]. intros K' [batch st'] HK Hst'.
  destruct batch; [exact I|]. destruct (push_batch _ _ _ _) as [out' stop]. destruct stop; [exact I|]. now apply IH.
Qed.
Lemma index_follows lookup q limit gs out (K : N -> Prop) : (forall pos (K' : N -> Prop), (forall x, K x -> K' x) -> follows (qok qtop) K' (lookup pos)) ->
  follows (qok qtop) K (index_prog lookup q limit gs out).
Proof.
  revert K out. induction gs as [|[[pos tags] qiis] gs IH]; intros K out Hl; [exact I|]. cbn [index_prog]. cbv zeta.
  destruct (List.filter _ qiis) as [|m ms]; [now apply IH|]. eapply follows_pq; [apply Hl; auto|]. intros K' r HK _.
  assert (Hl' : forall pos (K2 : N -> Prop), (forall x, K' x -> K2 x) -> follows (qok qtop) K2 (lookup pos)) by (intros; apply Hl; auto).
  destruct (check_match _ _ _); [|now apply IH]. destruct (limit_reached _ _); [exact I|now apply IH].
Qed.
Lemma read_conditional_follows fuel np hash order er tr q start bw limit force (K : N -> Prop) : K er -> K tr ->
  follows (qok qtop) K (read_conditional_prog fuel np hash order er tr q start bw limit force).
Proof.
  intros He Ht. unfold read_conditional_prog. cbv zeta.
  assert (Hs : forall bs keep, follows (qok qtop) K (scan_prog (S fuel) (ei_next_prog np start bw fuel bs) limit keep [(er, None)] [])).
  { intros bs keep. apply scan_follows; [intros; now apply ei_next_follows|]. intros it Hit. now apply elem_of_list_singleton in Hit as ->. }
  assert (Hi : forall tags, follows (qok qtop) K (pbind (map_prog (fun t => pbind (tag_positions_prog start bw fuel np tr (hash t)) (fun l => Ret (map (fun p => (p, t, tag_qiids q t)) l))) tags)
          (fun lists => index_prog (event_lookup_prog np np er) q limit (group_from None (kmerge (length (concat lists)) bw lists)) []))).
  { intros tags. eapply follows_bind; [apply map_follows|].
    - intros t K' HK. eapply follows_bind; [apply tag_positions_follows; auto|intros; exact I].
    - intros K' lists HK _. apply index_follows. intros pos K2 HK2. apply event_lookup_follows. auto. }
  destruct limit as [[|lim]|]; [exact I| |]; (destruct q as [|it q]; [apply Hs|]; destruct (negb _ || force); [apply Hs|apply Hi]).
Qed.
(** The two calls of readers. *)
Lemma read_follows fuel hash order h q start bw limit force :
  follows (qok qtop) (fun x => x ∈ refs (NHeader h)) (read_prog fuel hash order h q start bw limit force).
Proof.
  unfold read_prog. eapply follows_pq; [apply read_conditional_follows|intros; exact I]; cbn; [right; left|right; right; left].
Qed.
Lemma tracking_follows fuel h src : follows (qok qtop) (fun x => x ∈ refs (NHeader h)) (tracking_prog fuel (h_tracking_root h) src).
Proof.
  unfold tracking_prog. destruct (N.eqb_spec (h_tracking_root h) 0); [exact I|]. apply tracking_lookup_follows. cbn. do 3 right. now apply ref_in.
Qed.
