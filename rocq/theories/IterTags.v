(** Positions of a tag, and the batches of the event scan. *)
From Verif Require Export IterEvents Spec.
Local Open Scope N_scope.

(** ** Tags *)
Lemma partition_point_ok {A} (p : A -> bool) (l : list A) :
  (forall i j a b, (i <= j)%nat -> l !! i = Some a -> l !! j = Some b -> p b = true -> p a = true) ->
  (forall x, x ∈ take (partition_point p l) l -> p x = true) /\ (forall x, x ∈ drop (partition_point p l) l -> p x = false).
Proof.
  intros Hm. unfold partition_point.
  assert (Hbs : bs_mono (fun x => if p x then Lt else Gt) l).
  { intros i j a b Hij Ha Hb. specialize (Hm i j a b Hij Ha Hb). split; intros H.
    - destruct (p b); [|discriminate]. now rewrite Hm.
    - destruct (p b); [|reflexivity]. now rewrite Hm in H. }
  apply binary_search_spec in Hbs. destruct (binary_search _ l) as [i|i].
  - destruct Hbs as (a & Ha & Ea). destruct (p a); discriminate.
  - destruct Hbs as (Hi & H1 & H2). split; intros x Hx.
    + apply elem_of_take in Hx as (j & Hj & Hji). specialize (H1 j x Hji Hj). destruct (p x); congruence.
    + apply elem_of_list_lookup in Hx as [j Hj]. rewrite lookup_drop in Hj. specialize (H2 _ _ ltac:(apply Nat.le_add_r) Hj). destruct (p x); congruence.
Qed.
Lemma pos_batch_ok start bw l : StronglySorted N.le l -> pos_batch start bw l = dir bw (List.filter (kept start bw) l).
Proof.
  intros Hs. unfold pos_batch, kept, dir. destruct start as [f|]; [|rewrite filter_all_true by auto; reflexivity].
  assert (Hle : forall i j a b, (i <= j)%nat -> l !! i = Some a -> l !! j = Some b -> a <= b).
  { intros i j a b Hij Ha Hb. destruct (Nat.eq_dec i j) as [->|]; [rewrite Ha in Hb; injection Hb as ->; lia|].
    eapply (ssorted_lookup N.le l i j); eauto. lia. }
  destruct bw.
  - f_equal. symmetry. apply filter_take_eq; apply (partition_point_ok (fun p => p <=? f)).
    + intros i j a b Hij Ha Hb. rewrite !N.leb_le. specialize (Hle i j a b Hij Ha Hb). lia.
    + intros i j a b Hij Ha Hb. rewrite !N.leb_le. specialize (Hle i j a b Hij Ha Hb). lia.
  - destruct (partition_point_ok (fun p => p <? f) l) as [H1 H2].
    { intros i j a b Hij Ha Hb. rewrite !N.ltb_lt. specialize (Hle i j a b Hij Ha Hb). lia. }
    symmetry. apply filter_drop_eq; intros x Hx; [specialize (H1 x Hx)|specialize (H2 x Hx)].
    + apply N.ltb_lt in H1. apply N.leb_gt. exact H1.
    + apply N.ltb_ge in H2. now apply N.leb_le.
Qed.

Lemma ti_loop_runs pg start bw st l m fuel :
  runs (ti_step pg start bw) st l [] m -> (m <= fuel)%nat -> ti_loop pg start bw fuel st = l.
Proof.
  intros Hr. remember [] as st' eqn:Est. revert fuel. induction Hr as [st|it st out push l st' m Hs Hr IH]; intros fuel Hf.
  - subst st. destruct fuel; reflexivity.
  - destruct fuel as [|fuel]; [lia|]. cbn [ti_loop]. rewrite Hs. rewrite IH by (auto; lia). reflexivity.
Qed.

(** The positions listed for a tag: in order, each at least once. *)
Definition lists_positions (start : option N) (bw : bool) (ps out : list N) : Prop :=
  out `sublist_of` dir bw (List.filter (kept start bw) ps) /\
  forall p, p ∈ ps -> kept start bw p = true -> p ∈ out.

Section tags.
  Context (kw : nat) (psz : N) (get : N -> option node) (pg : snapshot) (start : option N) (bw : bool).

  Lemma pertag_runs h root A ts :
    agrees get pg A -> tagshape get h root A ts -> wsorted N.compare id ts -> sep_ok id ts ->
    exists m out, (m <= wsum (visits pg) A)%nat /\ runs (ti_step pg start bw) [(root, None)] out [] m /\
      lists_positions start bw (toks_es ts) out.
  Proof.
    intros HA Hs Hw Hsep.
    destruct (dfs_ok (tag_ops 0) tagleaf id get start bw (ti_step pg start bw) A (visits pg) (fun _ => True))
      with (h := h) (p := root) (P := A) (ts := ts) as (out & m & Hr & Hm & Hsub & Hcov); auto.
    - intros p n nd c Hp Hg Hi Hne Hc. unfold ti_step. rewrite (HA p n Hp Hg). cbn [rbind].
      destruct n; try discriminate Hi. injection Hi as ->.
      destruct (in_keys nd) eqn:Ek; [congruence|]. now rewrite Hc.
    - intros p n nd c i Hp Hg Hi Hc. unfold ti_step. rewrite (HA p n Hp Hg). cbn [rbind].
      destruct n; try discriminate Hi. injection Hi as ->. now rewrite Hc.
    - intros p n nd Hp Hg Hi. unfold visits. rewrite (HA p n Hp Hg). destruct n; try discriminate Hi. injection Hi as ->. cbn. lia.
    - intros p n P0 es [HP HPl] Hg Hl [-> ->] _ Hsrt. exists 1%nat.
      pose proof (HA p _ ltac:(set_solver) Hg) as Hpg. split; [unfold visits; rewrite Hpg; lia|]. intros st.
      change (fun e => kept start bw (id e)) with (kept start bw). rewrite <- (pos_batch_ok start bw es) by (now rewrite map_id in Hsrt).
      apply (runs_one _ _ _ _ []). unfold ti_step. now rewrite Hpg.
    - now split.
    - exists m, out. split; [exact Hm|]. split; [apply Hr|]. split; [exact Hsub|].
      intros p Hp Hk. destruct (Hcov p Hp Hk) as (y & Hy & Ey). cbv [id] in Ey. now subst y.
  Qed.

  Lemma pos_batch_lists l : StronglySorted N.le l -> lists_positions start bw l (pos_batch start bw l).
  Proof.
    intros Hs. rewrite pos_batch_ok by exact Hs. split; [reflexivity|].
    intros p Hp Hk. apply elem_of_dir, filter_elem. auto.
  Qed.

  Theorem tag_positions_ok h root P ts tag np :
    shape (tags_ops []) (tagsleaf kw psz) get h root P ts -> tags_sorted ts -> agrees get pg P -> (h < np)%nat ->
    NoDup P -> (forall p, p ∈ P -> (N.to_nat p < np)%nat) ->
    lists_positions start bw (idx (toks_es ts) tag) (tag_positions pg start bw (scan_fuel pg np) np root tag).
  Proof.
    intros Hs Hsrt Ha Hh Hnd Hb. unfold tag_positions, idx.
    pose proof (ti_find_ok kw psz get pg tag np h root P ts Hs Hsrt Ha Hh) as Hf.
    destruct (ti_find pg np root tag) as [v|].
    - destruct Hf as (Pv & l & -> & [[Hsl _] [(Hr & -> & Hp & _)|(Hr & Hp & h' & ts' & Hs' & <- & Hw & Hsep)]] & Hsub); cbn [default].
      + rewrite Hr. cbn [N.eqb]. rewrite Hp. now apply pos_batch_lists.
      + rewrite (proj2 (N.eqb_neq _ 0) Hr).
        destruct (pertag_runs h' (tv_root v) Pv ts' ltac:(eapply agrees_sub; [|exact Ha]; intros ? ?; eapply elem_of_submseteq; eassumption) Hs' Hw Hsep) as (m & out & Hm & Hrun & Hlp).
        erewrite ti_loop_runs; [exact Hlp|exact Hrun|].
        pose proof (wsum_submseteq (visits pg) _ _ Hsub). pose proof (scan_fuel_bound pg np P Hnd Hb). lia.
    - rewrite Hf. cbn. split; [apply sublist_nil_l|]. intros p Hp. inversion Hp.
  Qed.
End tags.

(** ** Batches of events *)
Lemma ei_step_one cfuel pg start bw it out push : ei_step cfuel pg start bw it = Ok (out, push) -> (length out <= 1)%nat.
Proof.
  unfold ei_step. destruct it as [p oi]. destruct (pg p) as [n|]; [|discriminate]. cbn [rbind].
  repeat first [discriminate | intros [= <- _]; cbn; lia | match goal with
    | |- rbind ?x _ = _ -> _ => destruct x; cbn [rbind]
    | |- match ?x with _ => _ end = _ -> _ => destruct x eqn:? end].
Qed.
Lemma ei_loop_runs cfuel pg start bw st l m : runs (ei_step cfuel pg start bw) st l [] m ->
  forall fuel room, (m <= fuel)%nat -> exists st' m',
    ei_loop cfuel pg start bw fuel room st = Ok (take room l, st') /\
    runs (ei_step cfuel pg start bw) st' (drop room l) [] m' /\ (m' <= m)%nat.
Proof.
  intros Hr. remember [] as st0 eqn:Est. induction Hr as [st|it st out push l st' m Hs Hr IH]; intros fuel room Hf.
  - subst st. exists [], 0%nat. rewrite take_nil, drop_nil. split; [destruct fuel, room; reflexivity|]. split; [constructor|lia].
  - destruct room as [|room].
    { exists (it :: st), (S m). split; [destruct fuel; reflexivity|]. rewrite drop_0. split; [|lia]. subst st'. eapply runs_step; eassumption. }
    destruct fuel as [|fuel]; [lia|]. cbn [ei_loop]. rewrite Hs. cbn [rbind].
    pose proof (ei_step_one _ _ _ _ _ _ _ Hs) as H1.
    destruct (IH Est fuel (S room - length out)%nat ltac:(lia)) as (st2 & m2 & E2 & R2 & M2). rewrite E2. cbn [rbind].
    exists st2, m2. rewrite take_app_ge, drop_app_ge by lia. split; [|split; [exact R2|lia]].
    reflexivity.
Qed.

(** The result of a scan. *)
Lemma limit_reached_false {A} limit (out : list A) : limit_reached limit out = false -> cut limit out = out.
Proof.
  unfold limit_reached, cut, nlen. destruct limit as [k|]; [|auto]. intros H. apply N.leb_gt in H. apply take_ge. lia.
Qed.
Lemma limit_reached_true {A} limit (out rest : list A) :
  limit_reached limit (out ++ rest) = true -> forall more, cut limit (out ++ rest ++ more) = cut limit (out ++ rest).
Proof.
  unfold limit_reached, cut, nlen. destruct limit as [k|]; [|discriminate]. intros H more. apply N.leb_le in H.
  rewrite app_assoc. apply take_app_le. lia.
Qed.
Lemma push_batch_ok limit keep : forall batch out, limit_reached limit out = false ->
  exists b, push_batch limit keep batch out = (cut limit (out ++ List.filter (fun e => keep (snd e)) batch), b) /\ b = limit_reached limit (out ++ List.filter (fun e => keep (snd e)) batch).
Proof.
  induction batch as [|[pos r] batch IH]; intros out Hl; cbn [push_batch List.filter snd].
  - exists false. rewrite app_nil_r, limit_reached_false by exact Hl. auto.
  - destruct (keep r); [|apply IH; exact Hl].
    cbv zeta. destruct (limit_reached limit (out ++ [(pos, r)])) eqn:E.
    + exists true. change ((pos, r) :: ?x) with ([(pos, r)] ++ x). rewrite (limit_reached_true _ _ _ E). split.
      * f_equal. unfold limit_reached, cut, nlen in *. destruct limit as [k|]; [|discriminate].
        apply N.leb_gt in Hl. apply N.leb_le in E. rewrite app_length in E. cbn in E. rewrite take_ge; [reflexivity|rewrite app_length; cbn; lia].
      * unfold limit_reached, nlen in *. destruct limit; [|discriminate]. symmetry. apply N.leb_le. apply N.leb_le in E.
        rewrite !app_length in *. cbn [length] in *. lia.
    + destruct (IH _ E) as (b & E1 & E2). rewrite <- app_assoc in E1, E2. exists b. split; [exact E1|exact E2].
Qed.

Lemma scan_loop_ok cfuel pg start bw lf bs limit keep : 0 < bs ->
  (bw && match start with Some 0 => true | _ => false end) = false ->
  forall fuel st l m out, runs (ei_step cfuel pg start bw) st l [] m -> (m <= lf)%nat -> (length l < fuel)%nat ->
  limit_reached limit out = false ->
  scan_loop fuel (ei_next_batch cfuel pg start bw lf bs) limit keep st out =
    Ok (cut limit (out ++ List.filter (fun e => keep (snd e)) l)).
Proof.
  intros Hbs H0. induction fuel as [|fuel IH]; intros st l m out Hr Hm Hlen Hl; [lia|].
  cbn [scan_loop]. unfold ei_next_batch at 1. rewrite (proj2 (N.eqb_neq bs 0)) by lia. rewrite H0.
  destruct (ei_loop_runs _ _ _ _ _ _ _ Hr lf (N.to_nat bs) Hm) as (st2 & m2 & E2 & R2 & M2). rewrite E2. cbn [rbind].
  destruct (take (N.to_nat bs) l) as [|e0 b0] eqn:Et.
  - destruct l as [|e l]; [|destruct (N.to_nat bs) eqn:E; [lia|discriminate]].
    cbn [List.filter]. rewrite app_nil_r, limit_reached_false by exact Hl. reflexivity.
  - rewrite <- Et. destruct (push_batch_ok limit keep (take (N.to_nat bs) l) out Hl) as (b & -> & ->).
    assert (Ef : List.filter (fun e => keep (snd e)) l = List.filter (fun e => keep (snd e)) (take (N.to_nat bs) l) ++ List.filter (fun e => keep (snd e)) (drop (N.to_nat bs) l)) by (rewrite <- List.filter_app, take_drop; reflexivity). rewrite Ef.
    destruct (limit_reached limit (out ++ List.filter (fun e => keep (snd e)) (take (N.to_nat bs) l))) eqn:E.
    + now rewrite (limit_reached_true _ _ _ E).
    + rewrite (limit_reached_false _ _ E). rewrite (IH st2 (drop (N.to_nat bs) l) m2); [|exact R2|lia| |exact E].
      * now rewrite <- app_assoc.
      * rewrite drop_length. assert (length (take (N.to_nat bs) l) <= length l)%nat by (rewrite take_length; lia).
        assert (0 < length (take (N.to_nat bs) l))%nat by (rewrite Et; cbn; lia). rewrite take_length in *. lia.
Qed.
