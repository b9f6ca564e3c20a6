(** What the loops of the remote read and of the subscription do, apart from when they do it. *)
From Verif Require Export Server StoreProofs.
Local Open Scope N_scope.

(** ** Pages of a read *)
Definition pos_after (bw : bool) (p : N) : N := if bw then p - 1 else p + 1.
Lemma filter_In (A : Type) (f : A -> bool) l : List.filter f l = filter (fun x => f x = true) l.
Proof.
  induction l as [|x l IH]; [reflexivity|]. rewrite filter_cons. cbn. destruct (f x) eqn:E.
  - rewrite decide_True by reflexivity. now rewrite IH.
  - rewrite decide_False by congruence. exact IH.
Qed.
Lemma filter_all {A} (P : A -> Prop) `{forall x, Decision (P x)} (l : list A) : Forall P l -> filter P l = l.
Proof. induction 1 as [|x l Hx _ IH]; [reflexivity|]. rewrite filter_cons, decide_True by exact Hx. now rewrite IH. Qed.
Lemma filter_none {A} (P : A -> Prop) `{forall x, Decision (P x)} (l : list A) : Forall (fun x => ~ P x) l -> filter P l = [].
Proof. induction 1 as [|x l Hx _ IH]; [reflexivity|]. rewrite filter_cons, decide_False by exact Hx. exact IH. Qed.
Lemma sorted_app {A} (R : A -> A -> Prop) l1 l2 : StronglySorted R (l1 ++ l2) -> forall x y, x ∈ l1 -> y ∈ l2 -> R x y.
Proof.
  induction l1 as [|a l1 IH]; intros H x y Hx Hy; [now apply elem_of_nil in Hx|]. inversion H as [|? ? H1 H2]; subst.
  apply elem_of_cons in Hx as [->|Hx]; [|eauto]. rewrite Forall_forall in H2. apply H2, elem_of_app. now right.
Qed.
Lemma read_filter h q start bw : spec_read h q start bw None =
  filter (fun e => Spec.in_range start bw e.1 /\ q_matches q e.2) (if bw then rev h else h).
Proof.
  unfold spec_read. cbn [cut]. destruct bw; [|reflexivity].
  induction h as [|e h IH]; [reflexivity|]. cbn [rev]. rewrite filter_app, filter_cons, <- IH. destruct (decide _) as [D|D].
  - cbn [rev]. rewrite filter_cons, decide_True by exact D. reflexivity.
  - rewrite filter_cons, decide_False by exact D. cbn. now rewrite app_nil_r.
Qed.
Lemma filter_sub {A} (P Q : A -> Prop) `{forall x, Decision (P x), forall x, Decision (Q x)} (l : list A) :
  (forall x, x ∈ l -> Q x -> P x) -> filter Q (filter P l) = filter Q l.
Proof.
  induction l as [|x l IH]; intros Hl; [reflexivity|]. rewrite (filter_cons P), (filter_cons Q x). specialize (IH (fun y Hy => Hl y (elem_of_list_further _ _ _ Hy))).
  destruct (decide (P x)) as [D|D].
  - rewrite filter_cons, IH. reflexivity.
  - rewrite (decide_False (P := Q x)); [exact IH|]. intros HQ. apply D, Hl; [left|exact HQ].
Qed.
Lemma read_order h q start bw l r : gapless h -> spec_read h q start bw None = l ++ r ->
  forall x y, x ∈ l -> y ∈ r -> if bw then y.1 < x.1 else x.1 < y.1.
Proof.
  intros Hg E x y Hx Hy. destruct (read_sorted h q start None Hg) as [S1 S2]. destruct bw.
  - rewrite E, map_app in S2. eapply (sorted_app _ _ _ S2); apply elem_of_list_fmap; eauto.
  - rewrite E, map_app in S1. eapply (sorted_app _ _ _ S1); apply elem_of_list_fmap; eauto.
Qed.
Lemma last_elem {A} (l : list A) x : last l = Some x -> exists l', l = l' ++ [x].
Proof. destruct l as [|y l] using rev_ind; [discriminate|]. rewrite last_snoc. intros [= ->]. eauto. Qed.
(** What remains after the last event of a page starts right behind it. *)
Lemma read_split h q start bw l r e : gapless h -> spec_read h q start bw None = l ++ r -> last l = Some e ->
  r = spec_read h q (Some (pos_after bw e.1)) bw None.
Proof.
  intros Hg E Hl. apply last_elem in Hl as [l' ->].
  assert (He : e ∈ spec_read h q start bw None) by (rewrite E; set_solver).
  pose proof (read_order h q start bw (l' ++ [e]) r Hg E e) as Hr.
  assert (Hl : forall x, x ∈ l' -> if bw then e.1 < x.1 else x.1 < e.1).
  { intros x Hx. rewrite <- app_assoc in E. apply (read_order h q start bw l' (e :: r) Hg E x e Hx). left. }
  apply read_elem in He as (Heh & Her & Heq). pose proof (gapless_pos h e Hg Heh) as Hpos.
  set (Q := fun x : seq_event => Spec.in_range (Some (pos_after bw e.1)) bw x.1 /\ q_matches q x.2).
  assert (EQ : spec_read h q (Some (pos_after bw e.1)) bw None = filter Q (spec_read h q start bw None)).
  { rewrite !read_filter. rewrite (filter_sub (fun x : seq_event => Spec.in_range start bw x.1 /\ q_matches q x.2) Q); [reflexivity|].
    intros x _ [HQ1 HQ2]. split; [|exact HQ2]. unfold Spec.in_range, pos_after in *. destruct start as [a|]; [|exact I]. destruct bw; lia. }
  rewrite EQ, E, filter_app, (filter_none Q (l' ++ [e])), filter_all; [reflexivity| |].
  - rewrite Forall_forall. intros x Hx. assert (x ∈ spec_read h q start bw None) as Hin by (rewrite E; apply elem_of_app; now right).
    apply read_elem in Hin as (_ & _ & Hq). split; [|exact Hq]. specialize (Hr x ltac:(set_solver) Hx). unfold Spec.in_range, pos_after. destruct bw; lia.
  - rewrite Forall_forall. intros x Hx [HQ _]. apply elem_of_app in Hx as [Hx|Hx].
    + specialize (Hl x Hx). unfold Spec.in_range, pos_after in HQ. destruct bw; lia.
    + apply elem_of_list_singleton in Hx as ->. unfold Spec.in_range, pos_after in HQ. destruct bw; lia.
Qed.

(** ** Growing histories *)
Lemma length_seqN a n : length (seqN a n) = n.
Proof. revert a. induction n as [|n IH]; intros a; [reflexivity|]. cbn. now rewrite IH. Qed.
Lemma gapless_suffix h h' : gapless (h ++ h') -> gapless h /\ forall e, e ∈ h' -> nlen h < e.1.
Proof.
  unfold gapless. rewrite map_app, app_length, seqN_app. intros H.
  apply app_inj_1 in H as [H1 H2]; [|rewrite map_length; symmetry; apply length_seqN].
  split; [exact H1|]. intros e He. assert (e.1 ∈ map fst h') as He' by (apply elem_of_list_fmap; eauto). rewrite H2 in He'. clear He. rename He' into He. apply elem_of_seqN in He. unfold nlen. lia.
Qed.
Lemma read_app h h' q start bw : spec_read (h ++ h') q start bw None =
  if bw then spec_read h' q start bw None ++ spec_read h q start bw None else spec_read h q start bw None ++ spec_read h' q start bw None.
Proof. rewrite !read_filter. destruct bw; [rewrite rev_app_distr|]; apply filter_app. Qed.
Lemma take_app_filter {A} (P : A -> Prop) `{forall x, Decision (P x)} k (l1 l2 : list A) : Forall P l1 -> Forall (fun x => ~ P x) l2 ->
  filter P (take k (l1 ++ l2)) = take k l1.
Proof.
  intros H1 H2. rewrite firstn_app, filter_app, (filter_all P (take k l1)), (filter_none P (take _ l2)), app_nil_r; [reflexivity| |].
  - now apply Forall_take.
  - now apply Forall_take.
Qed.
(** A page of a later state, without what is new, is a page of the earlier state. *)
Lemma read_later h h' q n bw k : gapless (h ++ h') -> (bw = true -> n <= nlen h) ->
  filter (fun e : seq_event => e.1 <= nlen h) (take k (spec_read (h ++ h') q (Some n) bw None)) = take k (spec_read h q (Some n) bw None).
Proof.
  intros Hg Hn. destruct (gapless_suffix _ _ Hg) as [Hg1 Hnew]. rewrite read_app.
  assert (Hold : Forall (fun e : seq_event => e.1 <= nlen h) (spec_read h q (Some n) bw None)).
  { rewrite Forall_forall. intros e He. apply read_elem in He as (He & _). apply (gapless_pos h e Hg1 He). }
  destruct bw.
  - assert (spec_read h' q (Some n) true None = []) as ->.
    { apply elem_of_nil_inv. intros e He. apply read_elem in He as (He & Hr & _). apply Hnew in He. cbn in Hr. specialize (Hn eq_refl). lia. }
    cbn [app]. apply filter_all. now apply Forall_take.
  - apply take_app_filter; [exact Hold|]. rewrite Forall_forall. intros e He. apply read_elem in He as (He & _). apply Hnew in He. lia.
Qed.
Lemma extends_hist s s' : extends s s' -> exists h', s_hist s' = s_hist s ++ h'.
Proof. intros [[h' H] _]. eauto. Qed.

(** ** The loop of a remote read *)
(** What is still to be sent, when the state at the first batch had history [h]. *)
Definition rr_rest (h : list seq_event) (r : rread) : list seq_event :=
  cut (if is_someb (rr_limit r) then Some (rr_remaining r) else None) (spec_read h (rr_q r) (rr_next r) (rr_bw r) None).
Definition rr_sent (r : rread) : list seq_event := concat (map fst (rr_out r)).
Definition hist_head (h : list seq_event) : option N := match h with [] => None | _ => Some (nlen h) end.
(** The request does not change. *)
Definition rr_same (r r' : rread) : Prop :=
  rr_q r' = rr_q r /\ rr_start r' = rr_start r /\ rr_bw r' = rr_bw r /\ rr_limit r' = rr_limit r /\ rr_batch r' = rr_batch r.
Definition rr_wf (r : rread) : Prop :=
  1 <= rr_batch r /\ match rr_limit r with None => rr_remaining r = U32 - 1 | Some _ => True end.
(** The heads of the responses. *)
Definition rr_heads (h : list seq_event) (r : rread) : Prop :=
  Forall (fun x => x.2 = (if is_someb (rr_limit r) then fst <$> last x.1 else hist_head h) /\ nlen x.1 <= rr_batch r) (rr_out r) /\
  (Forall (fun x => x.1 <> []) (rr_out r) \/ rr_out r = [([], if is_someb (rr_limit r) then None else hist_head h)]).

Lemma cut_take {A} k (l : list A) : cut (Some k) l = take (N.to_nat k) l.
Proof. reflexivity. Qed.
Lemma read_exhausted_false r : rr_wf r -> read_exhausted r = false -> 1 <= Server.read_limit r <= rr_batch r.
Proof.
  intros [H1 H2] H. unfold read_exhausted, Server.read_limit in *. destruct (rr_limit r) as [l|]; cbn [is_someb andb] in H.
  - apply N.eqb_neq in H. lia.
  - rewrite H2. unfold U32. lia.
Qed.
(** One batch.  [kept] is the next page of the first state. *)
Lemma iter_ok h r evs dbh : gapless h -> nlen h + 1 < U64 -> rr_wf r -> read_exhausted r = false ->
  (match rr_head r with Some x => x | None => dbh end) = hist_head h ->
  let k := N.to_nat (Server.read_limit r) in
  let kept := take k (spec_read h (rr_q r) (rr_next r) (rr_bw r) None) in
  filter (fun e : seq_event => e.1 <= nlen h) evs = kept -> (length evs <= k)%nat -> (h = [] -> evs = []) ->
  rr_heads h r -> (rr_out r <> [] -> Forall (fun x => x.1 <> []) (rr_out r)) ->
  exists r' go, read_iter r evs dbh = (r', go) /\ rr_same r r' /\ rr_wf r' /\ rr_head r' = Some (hist_head h) /\ rr_sent r' = rr_sent r ++ kept /\
    rr_heads h r' /\ rr_out r' <> [] /\
    (if go then rr_rest h r = kept ++ rr_rest h r' /\ Forall (fun x => x.1 <> []) (rr_out r') /\ read_exhausted r' = false /\
       exists n, rr_next r' = Some n /\ (rr_bw r = true -> n <= nlen h)
     else rr_rest h r = kept).
Proof.
  intros Hg Hb Hwf Hex Hhd k kept Hkept Hlen Hnil Hheads Hne. pose proof (read_exhausted_false r Hwf Hex) as Hlim.
  assert (Ek : List.filter (fun e : seq_event => match hist_head h with Some x => e.1 <=? x | None => true end) evs = kept).
  { rewrite filter_In, <- Hkept. destruct h as [|e0 h0].
    - rewrite (Hnil eq_refl). reflexivity.
    - cbn [hist_head]. apply list_filter_iff. intros e. apply N.leb_le. }
  assert (Hhd2 : match hist_head h with Some x => List.filter (fun e : seq_event => e.1 <=? x) evs | None => evs end = kept).
  { destruct (hist_head h) as [x|] eqn:Ex; [exact Ek|]. destruct h; [|discriminate]. rewrite (Hnil eq_refl). cbn. rewrite <- Ek, (Hnil eq_refl). reflexivity. }
  unfold read_iter. rewrite Hhd, Hhd2. fold k in Hlen.
  assert (Hkl : (length kept <= length evs)%nat).
  { rewrite <- Hkept. apply filter_length. }
  assert (Hsame : forall next rem out, rr_same r (RRead (rr_q r) (rr_start r) (rr_bw r) (rr_limit r) (rr_batch r) next rem (Some (hist_head h)) out)) by (intros; repeat split).
  (* the page is the last one when it is not full *)
  assert (Hlast : (length kept < k)%nat -> rr_rest h r = kept).
  { intros Hlt. unfold rr_rest. assert (spec_read h (rr_q r) (rr_next r) (rr_bw r) None = kept) as Eall.
    { unfold kept in *. rewrite take_length in Hlt. rewrite take_ge by lia. reflexivity. }
    rewrite Eall. destruct (rr_limit r) as [l|]; cbn [is_someb cut]; [|reflexivity]. apply take_ge. unfold k, Server.read_limit in Hlt. lia. }
  destruct (last kept) as [e|] eqn:El.
  - (* something to send *)
    assert (Hin : e ∈ kept) by (apply last_elem in El as [l' ->]; set_solver).
    assert (He : e ∈ h). { unfold kept in Hin. apply elem_of_take in Hin as (i & Hi & _). apply elem_of_list_lookup_2 in Hi. apply read_elem in Hi. tauto. }
    pose proof (gapless_pos h e Hg He) as Hpos. pose proof (last_elem _ _ El) as [kl Hkl'].
    assert (Hkne : kept <> []) by (rewrite Hkl'; now destruct kl).
    set (hd := if is_someb (rr_limit r) then Some e.1 else hist_head h).
    set (out := rr_out r ++ [(kept, hd)]).
    assert (Hsent : concat (map fst out) = rr_sent r ++ kept) by (unfold out, rr_sent; rewrite map_app, concat_app; cbn; now rewrite app_nil_r).
    assert (Hallne : Forall (fun x => x.1 <> []) out).
    { unfold out. apply Forall_app. split; [|constructor; [exact Hkne|constructor]]. destruct (rr_out r) as [|o os] eqn:Eo; [constructor|]. now apply Hne. }
    assert (Hkb : nlen kept <= rr_batch r).
    { unfold nlen, kept, k. rewrite take_length. unfold Server.read_limit in *. lia. }
    assert (Hhh : forall next rem, rr_heads h (RRead (rr_q r) (rr_start r) (rr_bw r) (rr_limit r) (rr_batch r) next rem (Some (hist_head h)) out)).
    { intros next rem. split; cbn [rr_out rr_limit rr_batch]; [|left; exact Hallne]. unfold out. apply Forall_app. split; [exact (proj1 Hheads)|].
      constructor; [|constructor]. cbn [fst snd]. split; [|exact Hkb]. unfold hd. destruct (is_someb (rr_limit r)); [|reflexivity]. now rewrite El. }
    set (less := nlen evs <? Server.read_limit r). set (reached := is_someb (hist_head h) && (nlen kept <? nlen evs)).
    set (next := if rr_bw r then e.1 - 1 else sat_add e.1 1).
    assert (Hnext : next = pos_after (rr_bw r) e.1). { unfold next, pos_after, sat_add. destruct (rr_bw r); [reflexivity|]. lia. }
    destruct (less || reached) eqn:Eend.
    + eexists _, false. split; [reflexivity|]. split; [apply Hsame|]. split; [exact Hwf|]. split; [reflexivity|]. split; [exact Hsent|]. split; [apply Hhh|].
      split; [cbn; unfold out; now destruct (rr_out r)|]. apply Hlast. apply orb_true_iff in Eend as [Eend|Eend].
      * unfold less in Eend. apply N.ltb_lt in Eend. unfold nlen, k in *. lia.
      * unfold reached in Eend. apply andb_true_iff in Eend as [_ Eend]. apply N.ltb_lt in Eend. unfold nlen in Eend. lia.
    + apply orb_false_iff in Eend as [E1 E2]. unfold less in E1. apply N.ltb_ge in E1. unfold nlen in E1.
      assert (Hfull : length kept = k).
      { unfold reached in E2. apply andb_false_iff in E2 as [E2|E2].
        - destruct h; [|discriminate]. now apply elem_of_nil in He.
        - apply N.ltb_ge in E2. unfold nlen, k in *. lia. }
      assert (Hsp : spec_read h (rr_q r) (rr_next r) (rr_bw r) None = kept ++ spec_read h (rr_q r) (Some next) (rr_bw r) None).
      { rewrite Hnext. rewrite <- (read_split h (rr_q r) (rr_next r) (rr_bw r) kept (drop k (spec_read h (rr_q r) (rr_next r) (rr_bw r) None)) e Hg); [|symmetry; apply take_drop|exact El].
        symmetry. apply take_drop. }
      assert (Hnb : rr_bw r = true -> next <= nlen h). { intros Eb. rewrite Hnext, Eb. cbn. lia. }
      destruct (rr_limit r) as [l|] eqn:Elim; cbn [is_someb].
      * set (rem := rr_remaining r - nlen kept).
        assert (Hrest : rr_rest h r = kept ++ take (N.to_nat rem) (spec_read h (rr_q r) (Some next) (rr_bw r) None)).
        { unfold rr_rest. rewrite Elim. cbn [is_someb cut]. rewrite Hsp at 1. rewrite firstn_app, take_ge by (unfold k, Server.read_limit in Hfull; lia). f_equal. f_equal. unfold rem, nlen. lia. }
        eexists _, (negb (rem =? 0)). split; [reflexivity|]. split; [apply Hsame|]. split; [split; [exact (proj1 Hwf)|exact I]|]. split; [reflexivity|]. split; [exact Hsent|]. split; [apply Hhh|].
        split; [cbn; unfold out; now destruct (rr_out r)|]. destruct (N.eqb_spec rem 0) as [Er|Er]; cbn [negb].
        -- rewrite Hrest, Er. cbn. apply app_nil_r.
        -- split; [exact Hrest|]. split; [exact Hallne|]. split; [unfold read_exhausted; cbn; now apply N.eqb_neq|]. exists next. split; [reflexivity|exact Hnb].
      * eexists _, true. split; [reflexivity|]. split; [apply Hsame|]. split; [split; [exact (proj1 Hwf)|cbn; destruct Hwf as [_ Hwf2]; now rewrite Elim in Hwf2]|].
        split; [reflexivity|]. split; [exact Hsent|]. split; [apply Hhh|]. split; [cbn; unfold out; now destruct (rr_out r)|].
        split; [unfold rr_rest; rewrite Elim; cbn; exact Hsp|]. split; [exact Hallne|]. split; [reflexivity|]. exists next. split; [reflexivity|exact Hnb].
  - (* nothing *)
    assert (Hk0 : kept = []) by (destruct kept as [|x l] using rev_ind; [reflexivity|rewrite last_snoc in El; discriminate]).
    eexists _, false. split; [reflexivity|]. split; [apply Hsame|]. split; [exact Hwf|]. split; [reflexivity|]. rewrite Hk0, app_nil_r.
    assert (Hlt : (length kept < k)%nat) by (rewrite Hk0; unfold k; cbn; lia).
    split; [|split; [|split; [|rewrite Hlast by exact Hlt; exact Hk0]]]; unfold rr_sent; cbn [rr_out]; destruct (rr_out r) as [|o os] eqn:Eo; try reflexivity; try discriminate.
    + split; cbn [rr_out rr_limit rr_batch]; [|right; destruct (is_someb (rr_limit r)); reflexivity].
      constructor; [|constructor]. cbn. split; [now destruct (is_someb (rr_limit r))|]. lia.
    + unfold rr_heads in *. cbn [rr_out rr_limit rr_batch]. rewrite Eo in Hheads. exact Hheads.
Qed.

(** ** The loop of a subscription *)
Lemma filter_ext_in {A} (P Q : A -> Prop) `{forall x, Decision (P x), forall x, Decision (Q x)} (l : list A) :
  (forall x, x ∈ l -> P x <-> Q x) -> filter P l = filter Q l.
Proof.
  induction l as [|x l IH]; intros Hl; [reflexivity|]. rewrite !filter_cons, IH by (intros y Hy; apply Hl; now right).
  specialize (Hl x ltac:(left)). destruct (decide (P x)), (decide (Q x)); tauto.
Qed.
Definition sub_from (after : option N) : option N := match after with Some a => Some (a + 1) | None => None end.
Definition su_sent (s : rsub) : list seq_event := concat (su_out s).
Definition su_todo (h : list seq_event) (s : rsub) : list seq_event := spec_read h (su_q s) (su_next s) false None.
Definition su_good (h : list seq_event) (s : rsub) : Prop :=
  spec_read h (su_q s) (sub_from (su_after s)) false None = su_sent s ++ su_todo h s /\
  ((su_out s = [] /\ su_next s = sub_from (su_after s)) \/
   exists n, su_next s = Some n /\ n <= nlen h + 1 /\ match sub_from (su_after s) with Some a => a <= n | None => True end).
Lemma su_mono h h' s : gapless (h ++ h') -> su_good h s -> su_good (h ++ h') s.
Proof.
  intros Hg [E Hn]. destruct (gapless_suffix _ _ Hg) as [Hg1 Hnew]. split.
  - unfold su_todo in *. rewrite !read_app, E, <- app_assoc. f_equal. f_equal. destruct Hn as [[_ ->]|(n & -> & Hn & Ha)]; [reflexivity|].
    rewrite !read_filter. apply filter_ext_in. intros e He. apply Hnew in He. unfold Spec.in_range. destruct (sub_from (su_after s)); split; intros [? ?]; (split; [try exact I; lia|assumption]).
  - destruct Hn as [Hn|(n & Hn & H1 & H2)]; [now left|right]. exists n. split; [exact Hn|]. split; [|exact H2]. rewrite nlen_app. lia.
Qed.
Lemma sub_iter_ok h s evs : gapless h -> nlen h + 1 < U64 -> 1 <= su_batch s -> su_good h s -> evs = take (N.to_nat (su_batch s)) (su_todo h s) ->
  (evs = [] /\ su_todo h s = [] /\ sub_iter s evs = (s, QWait)) \/
  exists s', sub_iter s evs = (s', QLoop) /\ su_good h s' /\ su_sent s' = su_sent s ++ evs /\ su_q s' = su_q s /\ su_after s' = su_after s /\
    su_batch s' = su_batch s /\ su_seen s' = su_seen s /\ evs <> [].
Proof.
  intros Hg Hb Hbat [E Hn] Ev. unfold sub_iter. destruct (last evs) as [e|] eqn:El.
  - right. pose proof (last_elem _ _ El) as [l' Hl'].
    assert (Hin : e ∈ su_todo h s). { assert (e ∈ evs) as H by (rewrite Hl'; set_solver). rewrite Ev in H. apply elem_of_take in H as (i & Hi & _). eapply elem_of_list_lookup_2, Hi. }
    assert (Hall : e ∈ spec_read h (su_q s) (sub_from (su_after s)) false None) by (rewrite E; apply elem_of_app; now right).
    apply read_elem in Hall as (He & Hr & _). pose proof (gapless_pos h e Hg He) as Hpos. rewrite (proj2 (N.eqb_neq _ _)) by lia.
    eexists. split; [reflexivity|]. split; [|split; [|cbn; repeat split; auto; rewrite Hl'; now destruct l']].
    + assert (sat_add e.1 1 = e.1 + 1) as -> by (unfold sat_add; lia). split; unfold su_todo, su_sent; cbn [su_q su_after su_next su_out].
      * rewrite concat_app. cbn [concat]. rewrite app_nil_r, <- app_assoc. rewrite E. unfold su_sent. f_equal.
        change (e.1 + 1) with (pos_after false e.1). unfold su_todo in *.
        rewrite <- (read_split h (su_q s) (su_next s) false evs (drop (N.to_nat (su_batch s)) (spec_read h (su_q s) (su_next s) false None)) e Hg); [|rewrite Ev; symmetry; apply take_drop|exact El].
        rewrite Ev. symmetry. apply take_drop.
      * right. exists (e.1 + 1). split; [reflexivity|]. split; [lia|]. destruct (sub_from (su_after s)); [cbn in Hr; lia|exact I].
    + unfold su_sent. cbn. rewrite concat_app. cbn. now rewrite app_nil_r.
  - left. assert (evs = []) as H0 by (destruct evs as [|x l] using rev_ind; [reflexivity|rewrite last_snoc in El; discriminate]). split; [exact H0|]. split; [|reflexivity].
    rewrite H0 in Ev. destruct (su_todo h s) as [|x l]; [reflexivity|]. destruct (N.to_nat (su_batch s)) eqn:E1; [lia|discriminate].
Qed.
