(** Closing a client: C76. *)
From Verif Require Import ClientProofs PropsClient Registry.
Local Open Scope N_scope.

(** ** What is wanted, without any registry *)
(** A response knows the client it comes from, whether the caller has it, and whether it was stopped by close(); close() of a client,
    or its end, stops all responses of this client that callers have, once each. *)
Record sresponse := SResponse { s_owner : nat; s_shown : bool; s_stopped : bool; s_engine : eng }.
Definition stop_of (c : nat) (x : sresponse) : sresponse :=
  if bool_decide (s_owner x = c) && s_shown x && negb (s_stopped x) then SResponse (s_owner x) true true (engine_cancel (s_engine x)) else x.
Definition sstep (m : gmap nat sresponse) (l : wlabel) : gmap nat sresponse :=
  match l with
  | WConnect _ => m
  | WTake c r s => <[r := SResponse c false false (new_eng s)]> m
  | WReturn r => alter (fun x => SResponse (s_owner x) true (s_stopped x) (s_engine x)) r m
  | WUse r k => alter (fun x => SResponse (s_owner x) (s_shown x) (s_stopped x) (sync_call k (s_engine x)).2) r m
  | WDrop r => delete r m
  | WClose c | WEnd c => stop_of c <$> m
  end.
Definition srun (ls : list wlabel) : gmap nat sresponse := fold_left sstep ls ∅.

(** ** The code does that *)
Definition same (x : response) (y : sresponse) : Prop := owner x = s_owner y /\ shown x = s_shown y /\ engine x = s_engine y.
Record rinv (n : N) (w : world) (m : gmap nat sresponse) : Prop := RInv {
  r_same : forall r, option_relation same (fun _ => False) (fun _ => False) (responses w !! r) (m !! r);
  r_active : forall c g i r, registries w !! c = Some g -> active g !! i = Some r ->
    exists x y, responses w !! r = Some x /\ m !! r = Some y /\ owner x = c /\ number x = i /\ shown x = true /\ s_stopped y = false;
  r_entered : forall r x y, responses w !! r = Some x -> m !! r = Some y -> shown x = true -> s_stopped y = false ->
    exists g, registries w !! owner x = Some g /\ active g !! number x = Some r;
  r_owner : forall r x, responses w !! r = Some x -> exists g, registries w !! owner x = Some g /\ number x < next_id g;
  r_unique : forall r r' x x', responses w !! r = Some x -> responses w !! r' = Some x' -> owner x = owner x' -> number x = number x' -> r = r';
  r_hidden : forall r y, m !! r = Some y -> s_shown y = false -> s_stopped y = false;
  r_next : forall c g, registries w !! c = Some g -> next_id g <= n }.

Lemma cancel_handle_twice x : cancel_handle (cancel_handle x) = cancel_handle x.
Proof. reflexivity. Qed.
Lemma cancel_list_lookup l : forall (rs : gmap nat response) r,
  fold_left (fun rs r => alter cancel_handle r rs) l rs !! r = if bool_decide (r ∈ l) then cancel_handle <$> rs !! r else rs !! r.
Proof.
  induction l as [|k l IH]; intros rs r; cbn [fold_left].
  - rewrite bool_decide_false by (now intros ?%elem_of_nil). reflexivity.
  - rewrite IH. destruct (decide (r = k)) as [->|Hne].
    + rewrite lookup_alter, (bool_decide_true (k ∈ k :: l)) by left. destruct (bool_decide (k ∈ l)); destruct (rs !! k) as [x|]; reflexivity.
    + rewrite lookup_alter_ne by congruence. destruct (decide (r ∈ l)) as [H|H].
      * now rewrite !bool_decide_true by (assumption || now right).
      * rewrite !bool_decide_false; [reflexivity| |assumption]. rewrite elem_of_cons. tauto.
Qed.
Lemma cancel_active_in a rs r i : a !! i = Some r -> cancel_active a rs !! r = cancel_handle <$> rs !! r.
Proof.
  intros H. unfold cancel_active. rewrite cancel_list_lookup, bool_decide_true; [reflexivity|]. apply elem_of_list_fmap. exists (i, r). split; [reflexivity|]. now apply elem_of_map_to_list.
Qed.
Lemma cancel_active_out a rs r : (forall i, a !! i <> Some r) -> cancel_active a rs !! r = rs !! r.
Proof.
  intros H. unfold cancel_active. rewrite cancel_list_lookup, bool_decide_false; [reflexivity|]. intros ([i r'] & Er & Hi)%elem_of_list_fmap. cbn in Er. subst r'.
  apply elem_of_map_to_list in Hi. now apply (H i).
Qed.
Lemma same_at n w m r x : rinv n w m -> responses w !! r = Some x -> exists y, m !! r = Some y /\ same x y.
Proof. intros H E. assert (Hs := r_same _ _ _ H r). rewrite E in Hs. destruct (m !! r) as [y|]; [eauto|contradiction]. Qed.
Lemma same_none n w m r : rinv n w m -> responses w !! r = None -> m !! r = None.
Proof. intros H E. assert (Hs := r_same _ _ _ H r). rewrite E in Hs. destruct (m !! r) as [y|]; [contradiction|reflexivity]. Qed.
Lemma same_back n w m r y : rinv n w m -> m !! r = Some y -> exists x, responses w !! r = Some x /\ same x y.
Proof. intros H E. assert (Hs := r_same _ _ _ H r). rewrite E in Hs. destruct (responses w !! r) as [x|]; [eauto|contradiction]. Qed.

(* close() and the end of a client *)
Lemma stop_inv n w m c g al : rinv n w m -> registries w !! c = Some g ->
  rinv n (World (<[c := Registry (next_id g) ∅]> (registries w)) al (cancel_active (active g) (responses w))) (stop_of c <$> m).
Proof.
  intros H Eg.
  (* what happens to one response *)
  assert (Hone : forall r x y, responses w !! r = Some x -> m !! r = Some y -> same x y ->
    (owner x = c /\ shown x = true /\ s_stopped y = false /\ cancel_active (active g) (responses w) !! r = Some (cancel_handle x) /\ stop_of c y = SResponse c true true (engine_cancel (s_engine y))) \/
    ((owner x <> c \/ shown x = false \/ s_stopped y = true) /\ cancel_active (active g) (responses w) !! r = Some x /\ stop_of c y = y)).
  { intros r x y Ex Ey (S1 & S2 & S3). unfold stop_of. rewrite <- S1, <- S2.
    destruct (decide (owner x = c)) as [Ho|Ho]; [rewrite (bool_decide_true (owner x = c)) by assumption|rewrite (bool_decide_false (owner x = c)) by assumption].
    destruct (shown x) eqn:Esh; [destruct (s_stopped y) eqn:Est|]; cbn [andb negb].
    - right. repeat split; auto. rewrite cancel_active_out; [assumption|]. intros i Hi. destruct (r_active _ _ _ H c g i r Eg Hi) as (x' & y' & E1 & E2 & _ & _ & _ & E3). congruence.
    - left. repeat split; auto; [|congruence]. destruct (r_entered _ _ _ H r x y Ex Ey Esh Est) as (g' & E1 & E2). assert (g' = g) as -> by congruence.
      rewrite (cancel_active_in _ _ _ _ E2), Ex. reflexivity.
    - right. repeat split; auto. rewrite cancel_active_out; [assumption|]. intros i Hi. destruct (r_active _ _ _ H c g i r Eg Hi) as (x' & y' & E1 & _ & _ & _ & E3 & _). congruence.
    - right. repeat split; auto. rewrite cancel_active_out; [assumption|]. intros i Hi. destruct (r_active _ _ _ H c g i r Eg Hi) as (x' & y' & E1 & _ & E3 & _). congruence. }
  assert (Hback : forall r x1, cancel_active (active g) (responses w) !! r = Some x1 -> exists x y, responses w !! r = Some x /\ m !! r = Some y /\ same x y /\ owner x1 = owner x /\ number x1 = number x /\ shown x1 = shown x).
  { intros r x1 E1. destruct (responses w !! r) as [x|] eqn:Ex.
    - destruct (same_at _ _ _ _ _ H Ex) as (y & Ey & Hs). exists x, y. destruct (Hone r x y Ex Ey Hs) as [(_ & _ & _ & E & _)|(_ & E & _)]; rewrite E in E1; injection E1 as <-; auto 7.
    - exfalso. unfold cancel_active in E1. rewrite cancel_list_lookup, Ex in E1. destruct (bool_decide _); discriminate. }
  pose proof H as [R1 R2 R3 R4 R5 R6 R7]. split; cbn [registries alive responses].
  - intros r. rewrite lookup_fmap. destruct (responses w !! r) as [x|] eqn:Ex.
    + destruct (same_at _ _ _ _ _ H Ex) as (y & Ey & Hs). rewrite Ey. destruct (Hone r x y Ex Ey Hs) as [(Ho & Hsh & _ & -> & E)|(_ & -> & E)]; cbn [fmap option_fmap option_map option_relation]; rewrite E; [|exact Hs].
      destruct Hs as (S1 & S2 & S3). repeat split; cbn; congruence.
    + rewrite (same_none _ _ _ _ H Ex). unfold cancel_active. rewrite cancel_list_lookup, Ex. destruct (bool_decide _); exact I.
  - intros c' g' i r. destruct (decide (c' = c)) as [->|Hne].
    + rewrite lookup_insert. intros [= <-]. cbn. rewrite lookup_empty. discriminate.
    + rewrite lookup_insert_ne by congruence. intros Eg' Hi. destruct (R2 c' g' i r Eg' Hi) as (x & y & Ex & Ey & Ho & Hn & Hsh & Hst).
      destruct (same_at _ _ _ _ _ H Ex) as (y' & Ey' & Hs). assert (y' = y) as -> by congruence.
      destruct (Hone r x y Ex Ey Hs) as [(Ho' & _)|(_ & E1 & E2)]; [congruence|]. exists x, y. rewrite lookup_fmap, Ey. cbn. rewrite E2. auto 8.
  - intros r x1 y1 E1 E2 Hsh Hst. destruct (Hback r x1 E1) as (x & y & Ex & Ey & Hs & B1 & B2 & B3). rewrite lookup_fmap, Ey in E2. cbn in E2. injection E2 as <-.
    destruct (Hone r x y Ex Ey Hs) as [(_ & _ & _ & _ & E)|(Hwhy & _ & E)]; rewrite E in Hst; [discriminate|].
    rewrite B3 in Hsh. destruct Hwhy as [Hw|[Hw|Hw]]; [|congruence..]. rewrite B1, B2, lookup_insert_ne by congruence. now apply (R3 r x y).
  - intros r x1 E1. destruct (Hback r x1 E1) as (x & y & Ex & _ & _ & B1 & B2 & _). destruct (R4 r x Ex) as (g' & Eg' & Hlt). rewrite B1, B2. destruct (decide (owner x = c)) as [Ho|Hne].
    + assert (g' = g) as -> by congruence. rewrite Ho, lookup_insert. eexists. split; [reflexivity|]. exact Hlt.
    + rewrite lookup_insert_ne by congruence. eauto.
  - intros r r' x1 x1' E1 E1'. destruct (Hback r x1 E1) as (x & y & Ex & _ & _ & -> & -> & _), (Hback r' x1' E1') as (x' & y' & Ex' & _ & _ & -> & -> & _). now apply (R5 r r' x x').
  - intros r y1. rewrite lookup_fmap. destruct (m !! r) as [y|] eqn:Ey; [|discriminate]. cbn. intros [= <-]. unfold stop_of.
    destruct (bool_decide _ && _ && _) eqn:Eb; [discriminate|]. now apply (R6 r y).
  - intros c' g' E. destruct (decide (c' = c)) as [->|Hne]; [rewrite lookup_insert in E; injection E as <-; cbn; now apply (R7 c g)|rewrite lookup_insert_ne in E by congruence; now apply (R7 c' g')].
Qed.

Lemma wstep_inv n w m l w' : rinv n w m -> n + 1 < U64 -> wstep w l = Some w' -> rinv (n + 1) w' (sstep m l).
Proof.
  intros H Hn E.
  assert (Hmono : forall w m, rinv n w m -> rinv (n + 1) w m).
  { clear. intros w m [R1 R2 R3 R4 R5 R6 R7]. split; try assumption. intros c g E. specialize (R7 c g E). lia. }
  pose proof H as [R1 R2 R3 R4 R5 R6 R7].
  destruct l as [c|c r s|r|r k|r|c|c]; cbn [wstep sstep] in *.
  - (* connect *)
    destruct (registries w !! c) as [g|] eqn:Eg; [discriminate|]. injection E as <-. split; cbn [registries alive responses]; try assumption.
    + intros c' g' i r. destruct (decide (c' = c)) as [->|Hne]; [rewrite lookup_insert; intros [= <-]; cbn; rewrite lookup_empty; discriminate|rewrite lookup_insert_ne by congruence; apply R2].
    + intros r x y Ex Ey H1 H2. destruct (R3 r x y Ex Ey H1 H2) as (g & E1 & E2). exists g. rewrite lookup_insert_ne by congruence. auto.
    + intros r x Ex. destruct (R4 r x Ex) as (g & E1 & E2). exists g. rewrite lookup_insert_ne by congruence. auto.
    + intros c' g' E. destruct (decide (c' = c)) as [->|Hne]; [rewrite lookup_insert in E; injection E as <-; cbn; lia|rewrite lookup_insert_ne in E by congruence; specialize (R7 c' g' E); lia].
  - (* a number is taken *)
    destruct (registries w !! c) as [g|] eqn:Eg; [|discriminate]. destruct (responses w !! r) as [?|] eqn:Er; [discriminate|]. destruct (bool_decide (c ∈ alive w)); [|discriminate]. injection E as <-.
    assert (Hlt := R7 c g Eg). rewrite N.mod_small by lia. assert (Em := same_none _ _ _ _ H Er). split; cbn [registries alive responses].
    + intros r'. destruct (decide (r' = r)) as [->|Hne]; [rewrite !lookup_insert; repeat split|rewrite !lookup_insert_ne by congruence; apply R1].
    + intros c' g' i r'. intros E1 E2. assert (exists g0, registries w !! c' = Some g0 /\ active g0 !! i = Some r') as (g0 & E3 & E4).
      { destruct (decide (c' = c)) as [->|Hne]; [rewrite lookup_insert in E1; injection E1 as <-; exists g; auto|rewrite lookup_insert_ne in E1 by congruence; eauto]. }
      destruct (R2 c' g0 i r' E3 E4) as (x & y & Ex & Ey & ?). exists x, y. rewrite !lookup_insert_ne by congruence. auto.
    + intros r' x y Ex Ey H1 H2. destruct (decide (r' = r)) as [->|Hne]; [rewrite lookup_insert in Ex; injection Ex as <-; discriminate H1|]. rewrite lookup_insert_ne in Ex by congruence; rewrite lookup_insert_ne in Ey by congruence.
      destruct (R3 r' x y Ex Ey H1 H2) as (g0 & E1 & E2). destruct (decide (owner x = c)) as [Ho|Hc]; [assert (g0 = g) as -> by congruence; rewrite Ho, lookup_insert; eexists; split; [reflexivity|]; exact E2|rewrite lookup_insert_ne by congruence; eauto].
    + intros r' x Ex. destruct (decide (r' = r)) as [->|Hne].
      * rewrite lookup_insert in Ex. injection Ex as <-. cbn. rewrite lookup_insert. eexists. split; [reflexivity|]. cbn. lia.
      * rewrite lookup_insert_ne in Ex by congruence. destruct (R4 r' x Ex) as (g0 & E1 & E2). destruct (decide (owner x = c)) as [Ho|Hc]; [rewrite Ho, lookup_insert; eexists; split; [reflexivity|]; cbn; assert (g0 = g) as -> by congruence; lia|rewrite lookup_insert_ne by congruence; eauto].
    + assert (Hnew : forall r' x, responses w !! r' = Some x -> owner x = c -> number x <> next_id g).
      { intros r' x Ex Ho. destruct (R4 r' x Ex) as (g0 & E1 & E2). assert (g0 = g) as -> by congruence. lia. }
      intros r1 r2 x1 x2 E1 E2 Ho Hnum. destruct (decide (r1 = r)) as [->|H1], (decide (r2 = r)) as [->|H2]; [reflexivity| | |].
      * rewrite lookup_insert in E1. rewrite lookup_insert_ne in E2 by congruence. injection E1 as <-. cbn in *. exfalso. now apply (Hnew r2 x2).
      * rewrite lookup_insert in E2. rewrite lookup_insert_ne in E1 by congruence. injection E2 as <-. cbn in *. exfalso. now apply (Hnew r1 x1).
      * rewrite lookup_insert_ne in E1 by congruence; rewrite lookup_insert_ne in E2 by congruence. now apply (R5 r1 r2 x1 x2).
    + intros r' y Ey Hsh. destruct (decide (r' = r)) as [->|Hne]; [rewrite lookup_insert in Ey; now injection Ey as <-|rewrite lookup_insert_ne in Ey by congruence; now apply (R6 r')].
    + intros c' g' E. destruct (decide (c' = c)) as [->|Hne]; [rewrite lookup_insert in E; injection E as <-; cbn; lia|rewrite lookup_insert_ne in E by congruence; specialize (R7 c' g' E); lia].
  - (* the response is entered and returned *)
    destruct (responses w !! r) as [x|] eqn:Ex; [|discriminate]. destruct (shown x) eqn:Esh; [discriminate|]. destruct (registries w !! owner x) as [g|] eqn:Eg; [|discriminate]. injection E as <-.
    destruct (same_at _ _ _ _ _ H Ex) as (y & Ey & S1 & S2 & S3). assert (Hst : s_stopped y = false) by (apply (R6 r y Ey); congruence).
    assert (Hfree : forall r', active g !! number x = Some r' -> False).
    { intros r' Hi. destruct (R2 _ _ _ _ Eg Hi) as (x' & _ & Ex' & _ & Ho & Hnum & Hsh & _). assert (r' = r) by now apply (R5 r' r x' x). congruence. }
    assert (Hm : forall r', alter (fun x => SResponse (s_owner x) true (s_stopped x) (s_engine x)) r m !! r' = if decide (r' = r) then Some (SResponse (s_owner y) true (s_stopped y) (s_engine y)) else m !! r').
    { intros r'. destruct (decide (r' = r)) as [->|Hne]; [now rewrite lookup_alter, Ey|now rewrite lookup_alter_ne by congruence]. }
    split; cbn [registries alive responses].
    + intros r'. rewrite Hm. destruct (decide (r' = r)) as [->|Hne]; [rewrite lookup_insert; repeat split; assumption|rewrite lookup_insert_ne by congruence; apply R1].
    + intros c' g' i r' E1 E2. destruct (decide (c' = owner x)) as [->|Hc].
      * rewrite lookup_insert in E1. injection E1 as <-. cbn [active] in E2. destruct (decide (i = number x)) as [->|Hi].
        -- rewrite lookup_insert in E2. injection E2 as <-. eexists _, _. rewrite lookup_insert, Hm, decide_True by reflexivity. cbn. auto 8.
        -- rewrite lookup_insert_ne in E2 by congruence. destruct (R2 _ _ _ _ Eg E2) as (x' & y' & Ex' & Ey' & Ho & Hnum & Hsh & Hs). assert (r' <> r) by congruence. exists x', y'. rewrite lookup_insert_ne, Hm, decide_False by congruence. auto 8.
      * rewrite lookup_insert_ne in E1 by congruence. destruct (R2 _ _ _ _ E1 E2) as (x' & y' & Ex' & Ey' & Ho & Hnum & Hsh & Hs). assert (r' <> r) by congruence. exists x', y'. rewrite lookup_insert_ne, Hm, decide_False by congruence. auto 8.
    + intros r' x' y' Ex' Ey' H1 H2. rewrite Hm in Ey'. destruct (decide (r' = r)) as [->|Hne].
      * rewrite lookup_insert in Ex'. injection Ex' as <-. cbn. rewrite lookup_insert. eexists. split; [reflexivity|]. cbn. apply lookup_insert.
      * rewrite lookup_insert_ne in Ex' by congruence. destruct (R3 r' x' y' Ex' Ey' H1 H2) as (g0 & E1 & E2). destruct (decide (owner x' = owner x)) as [Ho|Hc].
        -- assert (g0 = g) as -> by congruence. rewrite Ho, lookup_insert. eexists. split; [reflexivity|]. cbn. rewrite lookup_insert_ne; [assumption|]. intros Hnum. apply Hne. now apply (R5 r' r x' x).
        -- rewrite lookup_insert_ne by congruence. eauto.
    + intros r' x' Ex'. assert (exists x0, responses w !! r' = Some x0 /\ owner x' = owner x0 /\ number x' = number x0) as (x0 & E0 & -> & ->).
      { destruct (decide (r' = r)) as [->|Hne]; [rewrite lookup_insert in Ex'; injection Ex' as <-; eauto|rewrite lookup_insert_ne in Ex' by congruence; eauto]. }
      destruct (R4 r' x0 E0) as (g0 & E1 & E2). destruct (decide (owner x0 = owner x)) as [Ho|Hc]; [assert (g0 = g) as -> by congruence; rewrite Ho, lookup_insert; eexists; split; [reflexivity|]; exact E2|rewrite lookup_insert_ne by congruence; eauto].
    + assert (Hb : forall r' x', <[r := Response (owner x) (number x) true (engine x)]> (responses w) !! r' = Some x' -> exists x0, responses w !! r' = Some x0 /\ owner x' = owner x0 /\ number x' = number x0).
      { intros r' x' Ex'. destruct (decide (r' = r)) as [->|Hne]; [rewrite lookup_insert in Ex'; injection Ex' as <-; eauto|rewrite lookup_insert_ne in Ex' by congruence; eauto]. }
      intros r1 r2 x1 x2 E1 E2. destruct (Hb _ _ E1) as (y1 & F1 & -> & ->), (Hb _ _ E2) as (y2 & F2 & -> & ->). now apply (R5 r1 r2 y1 y2).
    + intros r' y' Ey' Hsh. rewrite Hm in Ey'. destruct (decide (r' = r)); [injection Ey' as <-; discriminate Hsh|now apply (R6 r')].
    + intros c' g' E. destruct (decide (c' = owner x)) as [->|Hne]; [rewrite lookup_insert in E; injection E as <-; cbn; specialize (R7 _ _ Eg); lia|rewrite lookup_insert_ne in E by congruence; specialize (R7 c' g' E); lia].
  - (* used *)
    destruct (responses w !! r) as [x|] eqn:Ex; [|discriminate]. destruct (shown x) eqn:Esh; [|discriminate]. injection E as <-. apply Hmono.
    destruct (same_at _ _ _ _ _ H Ex) as (y & Ey & S1 & S2 & S3).
    assert (Hm : forall r', alter (fun x => SResponse (s_owner x) (s_shown x) (s_stopped x) (sync_call k (s_engine x)).2) r m !! r' = if decide (r' = r) then Some (SResponse (s_owner y) (s_shown y) (s_stopped y) (sync_call k (s_engine y)).2) else m !! r').
    { intros r'. destruct (decide (r' = r)) as [->|Hne]; [now rewrite lookup_alter, Ey|now rewrite lookup_alter_ne by congruence]. }
    assert (Hr : forall r', <[r := use k x]> (responses w) !! r' = if decide (r' = r) then Some (use k x) else responses w !! r').
    { intros r'. destruct (decide (r' = r)) as [->|Hne]; [now rewrite lookup_insert|now rewrite lookup_insert_ne by congruence]. }
    split; cbn [registries alive responses]; try assumption.
    + intros r'. rewrite Hm, Hr. destruct (decide (r' = r)) as [->|Hne]; [repeat split; cbn; congruence|apply R1].
    + intros c' g' i r' E1 E2. destruct (R2 _ _ _ _ E1 E2) as (x' & y' & Ex' & Ey' & Ho & Hnum & Hsh & Hs). rewrite Hm, Hr. destruct (decide (r' = r)) as [->|Hne]; [|eauto 10].
      assert (x' = x) as -> by congruence. assert (y' = y) as -> by congruence. eexists _, _. split; [reflexivity|]. split; [reflexivity|]. cbn. auto.
    + intros r' x' y' Ex' Ey' H1 H2. rewrite Hr in Ex'. rewrite Hm in Ey'. destruct (decide (r' = r)) as [->|Hne]; [|now apply (R3 r' x' y')]. injection Ex' as <-. injection Ey' as <-. exact (R3 r x y Ex Ey H1 H2).
    + intros r' x' Ex'. rewrite Hr in Ex'. destruct (decide (r' = r)) as [->|Hne]; [|now apply (R4 r')]. injection Ex' as <-. exact (R4 r x Ex).
    + assert (Hb : forall r' x', <[r := use k x]> (responses w) !! r' = Some x' -> exists x0, responses w !! r' = Some x0 /\ owner x' = owner x0 /\ number x' = number x0).
      { intros r' x' Ex'. rewrite Hr in Ex'. destruct (decide (r' = r)) as [->|Hne]; [injection Ex' as <-; eauto|eauto]. }
      intros r1 r2 x1 x2 E1 E2. destruct (Hb _ _ E1) as (y1 & F1 & -> & ->), (Hb _ _ E2) as (y2 & F2 & -> & ->). now apply (R5 r1 r2 y1 y2).
    + intros r' y' Ey' Hsh. rewrite Hm in Ey'. destruct (decide (r' = r)); [injection Ey' as <-; exact (R6 r y Ey Hsh)|now apply (R6 r')].
  - (* dropped *)
    destruct (responses w !! r) as [x|] eqn:Ex; [|discriminate]. destruct (shown x) eqn:Esh; [|discriminate]. destruct (registries w !! owner x) as [g|] eqn:Eg; [|discriminate]. injection E as <-.
    assert (Hd : forall {A} (mm : gmap nat A) r', delete r mm !! r' = if decide (r' = r) then None else mm !! r').
    { intros A mm r'. destruct (decide (r' = r)) as [->|Hne]; [apply lookup_delete|now rewrite lookup_delete_ne by congruence]. }
    split; cbn [registries alive responses].
    + intros r'. rewrite !Hd. destruct (decide (r' = r)); [exact I|apply R1].
    + intros c' g' i r' E1 E2. assert (exists g0, registries w !! c' = Some g0 /\ active g0 !! i = Some r' /\ (c' = owner x -> i <> number x)) as (g0 & E3 & E4 & Hi).
      { destruct (decide (c' = owner x)) as [->|Hc]; [|rewrite lookup_insert_ne in E1 by congruence; exists g'; auto]. rewrite lookup_insert in E1. injection E1 as <-. cbn in E2. exists g.
        destruct (decide (i = number x)) as [->|Hi]; [rewrite lookup_delete in E2; discriminate|rewrite lookup_delete_ne in E2 by congruence; auto]. }
      destruct (R2 _ _ _ _ E3 E4) as (x' & y' & Ex' & Ey' & Ho & Hnum & Hsh & Hs). assert (Hne : r' <> r) by (intros ->; assert (x' = x) as -> by congruence; now apply Hi). exists x', y'. rewrite !Hd. destruct (decide (r' = r)); [contradiction|auto 8].
    + intros r' x' y' Ex' Ey' H1 H2. rewrite Hd in Ex'; rewrite Hd in Ey'. destruct (decide (r' = r)) as [|Hne]; [discriminate|]. destruct (R3 r' x' y' Ex' Ey' H1 H2) as (g0 & E1 & E2). destruct (decide (owner x' = owner x)) as [Ho|Hc].
      * assert (g0 = g) as -> by congruence. rewrite Ho, lookup_insert. eexists. split; [reflexivity|]. cbn. rewrite lookup_delete_ne; [assumption|]. intros Hnum. apply Hne. now apply (R5 r' r x' x).
      * rewrite lookup_insert_ne by congruence. eauto.
    + intros r' x' Ex'. rewrite Hd in Ex'. destruct (decide (r' = r)) as [|Hne]; [discriminate|]. destruct (R4 r' x' Ex') as (g0 & E1 & E2).
      destruct (decide (owner x' = owner x)) as [Ho|Hc]; [assert (g0 = g) as -> by congruence; rewrite Ho, lookup_insert; eexists; split; [reflexivity|]; exact E2|rewrite lookup_insert_ne by congruence; eauto].
    + intros r1 r2 x1 x2 E1 E2. rewrite Hd in E1; rewrite Hd in E2. destruct (decide (r1 = r)), (decide (r2 = r)); try discriminate. now apply (R5 r1 r2 x1 x2).
    + intros r' y' Ey' Hsh. rewrite Hd in Ey'. destruct (decide (r' = r)); [discriminate|now apply (R6 r')].
    + intros c' g' E. destruct (decide (c' = owner x)) as [->|Hne]; [rewrite lookup_insert in E; injection E as <-; cbn; specialize (R7 _ _ Eg); lia|rewrite lookup_insert_ne in E by congruence; specialize (R7 c' g' E); lia].
  - destruct (registries w !! c) as [g|] eqn:Eg; [|discriminate]. destruct (bool_decide _); [|discriminate]. injection E as <-. apply Hmono. now apply stop_inv.
  - destruct (registries w !! c) as [g|] eqn:Eg; [|discriminate]. destruct (bool_decide _ && _); [|discriminate]. injection E as <-. apply Hmono. now apply stop_inv.
Qed.
Lemma wrun_inv ls : forall n w m w', rinv n w m -> n + nlen ls < U64 -> wrun w ls = Some w' -> rinv (n + nlen ls) w' (fold_left sstep ls m).
Proof.
  induction ls as [|l ls IH]; intros n w m w' H Hn E; cbn [wrun fold_left] in *.
  - injection E as <-. unfold nlen. cbn. now rewrite N.add_0_r.
  - destruct (wstep w l) as [w1|] eqn:E1; [|discriminate]. assert (El : n + nlen (l :: ls) = n + 1 + nlen ls) by (unfold nlen; cbn [length]; lia). rewrite El in *.
    apply (IH (n + 1) w1 _ w'); [|exact Hn|exact E]. eapply wstep_inv; [exact H|lia|exact E1].
Qed.

(** In every process, whatever its threads do with however many clients, the responses are as if there were no registry: a response
    is used as if it was the only one, close() and the end of a client stop those of this client that have been returned and not
    been dropped, and no other ones. *)
Theorem close_exact ls w : wrun w_empty ls = Some w -> nlen ls < U64 ->
  (forall r x, responses w !! r = Some x -> exists y, srun ls !! r = Some y /\ same x y) /\ (forall r y, srun ls !! r = Some y -> exists x, responses w !! r = Some x /\ same x y).
Proof.
  intros E Hn. assert (H : rinv (0 + nlen ls) w (srun ls)).
  { unfold srun. eapply wrun_inv; [|exact Hn|exact E]. split; cbn; intros *; rewrite ?lookup_empty; try discriminate; try exact I. }
  split; intros r z Ez; [now apply (same_at _ _ _ _ _ H)|now apply (same_back _ _ _ _ _ H)].
Qed.
(** What the caller sees after close(): a response that it has, and that was not stopped so before, raises the cancellation at the
    next step of an iteration, unless its end was reached; those of other clients are as they were. *)
Theorem close_stops ls c w w' : wrun w_empty (ls ++ [WClose c]) = Some w' -> wrun w_empty ls = Some w -> nlen ls + 1 < U64 ->
  forall r x y, responses w !! r = Some x -> srun ls !! r = Some y ->
  exists x', responses w' !! r = Some x' /\
    (owner x = c -> shown x = true -> s_stopped y = false -> g_fin (engine x) = false -> (sync_call CNext (engine x')).1 = AItem (Some (Err ECancelled))) /\
    (owner x <> c -> engine x' = engine x).
Proof.
  intros E' E Hn r x y Ex Ey. destruct (close_exact ls w E ltac:(lia)) as [H1 _]. destruct (close_exact (ls ++ [WClose c]) w' E') as [_ H2]; [unfold nlen in *; rewrite app_length; cbn; lia|].
  destruct (H1 r x Ex) as (y0 & Ey0 & S1 & S2 & S3). assert (y0 = y) as -> by congruence.
  assert (Es : srun (ls ++ [WClose c]) !! r = Some (stop_of c y)) by (unfold srun in *; rewrite fold_left_app; cbn [fold_left sstep]; rewrite lookup_fmap, Ey; reflexivity).
  destruct (H2 r _ Es) as (x' & Ex' & T1 & T2 & T3). exists x'. split; [exact Ex'|]. unfold stop_of in T3. split.
  - intros Ho Hsh Hst Hf. rewrite <- S1, <- S2, Hsh, Hst, bool_decide_true in T3 by assumption. cbn in T3. rewrite T3, <- S3. destruct (engine x) as [f b a]. cbn in Hf. subst f.
    cbn [sync_call]. unfold next_item, engine_cancel, evaluate_shutdown, ar_cancel. cbn [g_fin g_resp g_buf a_global a_local]. rewrite orb_true_r. reflexivity.
  - intros Ho. rewrite <- S1, bool_decide_false in T3 by assumption. cbn in T3. congruence.
Qed.
(** Two clients with a response each; one is closed.  A second response of it, whose call was underway, goes on. *)
Definition r_acts : list wlabel := [WConnect 1; WConnect 2; WTake 1 10 c_stream; WTake 2 20 c_stream; WReturn 20; WReturn 10; WTake 1 11 c_stream; WUse 10 CNext].
Definition r_answer (r : nat) (w : world) : option answer := (fun x => (sync_call CNext (engine x)).1) <$> responses w !! r.
Definition r_check : option (list (option answer)) :=
  match wrun w_empty (r_acts ++ [WClose 1; WReturn 11]) with Some w => Some (map (fun r => r_answer r w) [10; 11; 20]%nat) | None => None end.
Example close_example : r_check = Some [Some (AItem (Some (Err ECancelled))); Some (AItem (Some (Ok (c_event 1)))); Some (AItem (Some (Ok (c_event 1))))].
Proof. vm_compute. reflexivity. Qed.

Print Assumptions close_exact.
Print Assumptions close_stops.
