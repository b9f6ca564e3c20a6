(** The system in which pages cannot be read, and that of Mvcc.v: the same, with some requests replaced by others. *)
From Verif Require Export PatchyReads StoreProofs PropsPageReads.
Local Open Scope N_scope.

(** ** Batches *)
Lemma lax_snoc ps s reqs ans s1 r a s2 : lax_batch ps s reqs ans s1 -> lax_append ps s1 r a s2 -> lax_batch ps s (reqs ++ [r]) (ans ++ [a]) s2.
Proof. induction 1; intros H2; cbn; econstructor; eauto. constructor. Qed.
Lemma spec_batch_snoc ps s reqs r : (spec_batch ps s (reqs ++ [r])).2 =
  (spec_append ps (spec_batch ps s reqs).2 (rq_events r) (rq_cond r) (rq_trk r)).2.
Proof. revert s. induction reqs as [|x reqs IH]; intros s; cbn; [reflexivity|]. apply IH. Qed.
Lemma by_tags_dec q : {by_tags q} + {~ by_tags q}.
Proof.
  destruct q as [|it q]; [right; now intros [? _]|]. destruct (decide (Forall (fun it => qi_tags it <> []) (it :: q))) as [H|H].
  - left. split; [discriminate|]. now apply Forall_forall.
  - right. intros [_ H']. apply H. now apply Forall_forall.
Qed.
Lemma part_sub h q start limit evs : by_tags q -> part h q start false limit evs -> evs `sublist_of` spec_read h q start false None.
Proof. intros _ [->|(_ & H & _)]; [|exact H]. unfold spec_read. cbn [cut]. apply cut_sublist. Qed.
Lemma part_exact h q start bw limit evs : ~ by_tags q -> part h q start bw limit evs -> evs = spec_read h q start bw limit.
Proof. intros Hn [->|(H & _)]; [reflexivity|contradiction]. Qed.
Lemma sublist_nonnil {A} (x : A) l l' : x :: l `sublist_of` l' -> l' <> [].
Proof. intros H ->. apply sublist_length in H. cbn in H. lia. Qed.
Lemma all_after_nil h c : all_after h c = [] -> events_after h c 1 = [].
Proof. unfold all_after, events_after, spec_read. cbn [cut]. intros ->. reflexivity. Qed.

(** ** Steps with the batch replaced *)
Definition batch_of (x : wphase) : list request * list (res N) :=
  match x with WBusy _ _ done ans | WPages _ _ done ans | WHeader _ done ans | WSync _ done ans => (done, ans) | _ => ([], []) end.
Definition put_batch (b : list request * list (res N)) (x : wphase) : wphase :=
  match x with
  | WBusy rd w _ _ => WBusy rd w b.1 b.2 | WPages w todo _ _ => WPages w todo b.1 b.2
  | WHeader w _ _ => WHeader w b.1 b.2 | WSync w _ _ => WSync w b.1 b.2 | x => x
  end.
Definition swap (b : list request * list (res N)) (p : proc) : proc := set_writer (put_batch b (p_writer p)) p.
(** The labels of the same step, [x] being the phase of the writer before it. *)
Definition relabelled (b : list request * list (res N)) (x : wphase) (l l' : label) : Prop :=
  match l with
  | LCommit reqs ans => l' = LCommit b.1 b.2 /\ (reqs, ans) = batch_of x
  | LUnsure reqs => l' = LUnsure b.1 /\ reqs = (batch_of x).1
  | LAbort _ => exists reqs, l' = LAbort reqs
  | LCrash _ | LKill _ | LOpen => False
  | l => l' = l
  end.
Definition active (x : wphase) : bool := match x with WIdle | WBroken => false | _ => true end.

Section refine.
  Context (ps : N) (hash : bytes -> bytes) (order : list bytes -> list bytes) (ford : gset N -> list N) (caching : bool).
  Context (Hps : ps_ok ps) (Hps32 : ps < U32) (Hord : forall l t, t ∈ order l <-> t ∈ l) (Hford : forall s, ford s ≡ₚ elements s).
  Notation pstep := (pstep 16 ps hash order ford caching).
  Notation step := (step 16 ps hash order ford caching).
  Notation steps := (steps 16 ps hash order ford caching).
  Notation run := (run ps hash order ford caching).
  Notation inv := (inv 16 ps hash caching).

  (** The batch after a step: a transaction begins, a request is added, or it is the same. *)
  Definition grows (x x1 : wphase) (b b1 : list request * list (res N)) : Prop :=
    (active x1 = false) \/
    (active x = false /\ batch_of x1 = ([], []) /\ b1 = ([], [])) \/
    (active x = true /\ exists r a, batch_of x1 = ((batch_of x).1 ++ [r], (batch_of x).2 ++ [a]) /\ b1 = (b.1 ++ [r], b.2 ++ [a])) \/
    (active x = true /\ batch_of x1 = batch_of x /\ b1 = b) \/ (x1 = x /\ b1 = b).

  Lemma swap_step d p l d1 p1 b : pstep d p l d1 p1 -> exists l' b1, pstep d (swap b p) l' d1 (swap b1 p1) /\
    relabelled b (p_writer p) l l' /\ grows (p_writer p) (p_writer p1) b b1.
  Proof.
    assert (Hsame : forall l p2, p_writer p2 = p_writer p -> relabelled b (p_writer p) l l -> pstep d (swap b p) l d1 (swap b p2) ->
      exists l' b1, pstep d (swap b p) l' d1 (swap b1 p2) /\ relabelled b (p_writer p) l l' /\ grows (p_writer p) (p_writer p2) b b1).
    { intros l0 p2 E Hl Hs. exists l0, b. split; [exact Hs|]. split; [exact Hl|]. right; right; right; right. split; [exact E|reflexivity]. }
    intros H. destruct H as [d p q n H1 H2 H3|d p q|d p i H1|d p i H1|d p i a H1|d p i a H1|d p i a H1|d p i a a' H1 H2|d p i a a' H1 H2|d p i a H1
      |d p i a q start bw limit force H1|d p i a H1|d p i a src H1|d p w H1 H2|d p rd w done ans r a w' H1 H2 H3 H4|d p rd w done ans r H1
      |d p rd w done ans w' todo H1 H2 H3 H4 H5|d p w q n bs todo done ans H1 H2|d p w q n bs todo done ans d' H1 H2|d p w done ans H1|d p w done ans d' H1 H2
      |d p w done ans bs H1 H2|d p w done ans bs d' H1 H2 H3|d p w done ans H1|d p w done ans d' H1 H2].
    - apply Hsame; [reflexivity..|]. exact (S_load _ _ _ _ _ _ d (swap b p) q n H1 H2 H3).
    - apply Hsame; [reflexivity..|]. exact (S_evict _ _ _ _ _ _ d (swap b p) q).
    - apply Hsame; [reflexivity..|]. exact (S_call _ _ _ _ _ _ d (swap b p) i H1).
    - apply Hsame; [reflexivity..|]. exact (S_obs _ _ _ _ _ _ d (swap b p) i H1).
    - apply Hsame; [reflexivity..|]. exact (S_seen _ _ _ _ _ _ d (swap b p) i a H1).
    - apply Hsame; [reflexivity..|]. exact (S_reg _ _ _ _ _ _ d (swap b p) i a H1).
    - apply Hsame; [reflexivity..|]. exact (S_chk _ _ _ _ _ _ d (swap b p) i a H1).
    - apply Hsame; [reflexivity..|]. exact (S_ready _ _ _ _ _ _ d (swap b p) i a a' H1 H2).
    - apply Hsame; [reflexivity..|]. exact (S_retry _ _ _ _ _ _ d (swap b p) i a a' H1 H2).
    - apply Hsame; [reflexivity..|]. exact (S_close _ _ _ _ _ _ d (swap b p) i a H1).
    - apply Hsame; [reflexivity..|]. exact (S_read _ _ _ _ _ _ d (swap b p) i a q start bw limit force H1).
    - apply Hsame; [reflexivity..|]. exact (S_head _ _ _ _ _ _ d (swap b p) i a H1).
    - apply Hsame; [reflexivity..|]. exact (S_track _ _ _ _ _ _ d (swap b p) i a src H1).
    - exists LTau, ([], []). split; [|split; [reflexivity|right; left; rewrite H1; repeat split]].
      refine (S_begin _ _ _ _ _ _ d (swap b p) w _ H2). unfold swap. cbn [set_writer p_writer]. now rewrite H1.
    - exists LTau, (b.1 ++ [r], b.2 ++ [a]). split; [|split; [reflexivity|right; right; left; rewrite H1; split; [reflexivity|exists r, a; split; reflexivity]]].
      refine (S_request _ _ _ _ _ _ d (swap b p) rd w b.1 b.2 r a w' _ H2 H3 H4). unfold swap. cbn [set_writer p_writer]. now rewrite H1.
    - exists (LAbort (b.1 ++ [])), b. split; [|split; [now eexists|left; reflexivity]].
      refine (S_abort _ _ _ _ _ _ d (swap b p) rd w b.1 b.2 [] _). unfold swap. cbn [set_writer p_writer]. now rewrite H1.
    - exists LTau, b. split; [|split; [reflexivity|do 3 right; left; rewrite H1; repeat split]].
      refine (S_commit _ _ _ _ _ _ d (swap b p) rd w b.1 b.2 w' todo _ H2 H3 H4 H5). unfold swap. cbn [set_writer p_writer]. now rewrite H1.
    - exists LTau, b. split; [|split; [reflexivity|do 3 right; left; rewrite H1; repeat split]].
      refine (S_page _ _ _ _ _ _ d (swap b p) w q n bs todo b.1 b.2 _ H2). unfold swap. cbn [set_writer p_writer]. now rewrite H1.
    - exists (LAbort b.1), b. split; [|split; [now eexists|left; reflexivity]].
      refine (S_page_fails _ _ _ _ _ _ d (swap b p) w q n bs todo b.1 b.2 d' _ H2). unfold swap. cbn [set_writer p_writer]. now rewrite H1.
    - exists LTau, b. split; [|split; [reflexivity|do 3 right; left; rewrite H1; repeat split]].
      assert (Hx : p_writer (swap b p) = WPages w [] b.1 b.2) by (unfold swap; cbn [set_writer p_writer]; now rewrite H1).
      pose proof (S_sync 16 ps hash order ford caching d (swap b p) w b.1 b.2 Hx) as Hs. destruct caching; exact Hs.
    - exists (LAbort b.1), b. split; [|split; [now eexists|left; reflexivity]].
      refine (S_sync_fails _ _ _ _ _ _ d (swap b p) w b.1 b.2 d' _ H2). unfold swap. cbn [set_writer p_writer]. now rewrite H1.
    - exists LTau, b. split; [|split; [reflexivity|do 3 right; left; rewrite H1; repeat split]].
      refine (S_header _ _ _ _ _ _ d (swap b p) w b.1 b.2 bs _ H2). unfold swap. cbn [set_writer p_writer]. now rewrite H1.
    - exists (LUnsure b.1), b. split; [|split; [now rewrite H1|left; reflexivity]].
      refine (S_header_fails _ _ _ _ _ _ d (swap b p) w b.1 b.2 bs d' _ H2 H3). unfold swap. cbn [set_writer p_writer]. now rewrite H1.
    - exists (LCommit b.1 b.2), b. split; [|split; [now rewrite H1|left; unfold pin_header; cbn [fst]; destruct (_ =? 0); reflexivity]].
      assert (Hx : p_writer (swap b p) = WSync w b.1 b.2) by (unfold swap; cbn [set_writer p_writer]; now rewrite H1).
      pose proof (S_done 16 ps hash order ford caching d (swap b p) w b.1 b.2 Hx) as Hs.
      change (latest (swap b p)) with (latest p) in Hs. revert Hs. unfold pin_header. cbn [fst]. destruct (_ =? 0); intros Hs; exact Hs.
    - exists (LUnsure b.1), b. split; [|split; [now rewrite H1|left; reflexivity]].
      refine (S_done_fails _ _ _ _ _ _ d (swap b p) w b.1 b.2 d' _ H2). unfold swap. cbn [set_writer p_writer]. now rewrite H1.
  Qed.

  (** ** Requests *)
  Lemma read_patchy_part rd w PE PT PK Q s q start limit found : dbrep rd 16 ps hash w PE PT PK Q s ->
    read_patchy hash order rd w q start limit (Ok found) -> part (s_hist s) q start false (Some limit) found.
  Proof.
    intros H Hr. pose proof (db_pool _ _ _ _ _ _ _ _ _ _ H) as Hp. destruct Hp as [Hnd Hlt _ _ _ _ _].
    apply NoDup_app in Hnd as (Hnd & _ & _). apply NoDup_app in Hnd as (HndE & _ & Hnd). apply NoDup_app in Hnd as (HndT & _ & _).
    eapply (read_conditional_may 16 ps hash order Hord (vget rd w)); [exact (db_hist _ _ _ _ _ _ _ _ _ _ H)|apply agrees_page_at|apply agrees_page_at|exact HndE|exact HndT| | | |exact Hr].
    - intros p Hin. specialize (Hlt p ltac:(set_solver)). lia.
    - intros p Hin. specialize (Hlt p ltac:(set_solver)). lia.
    - intros e He. assert (e.1 ∈ map fst (s_hist s)) as Hin by (apply elem_of_list_fmap; eauto).
      rewrite (db_seq _ _ _ _ _ _ _ _ _ _ H), elem_of_seqN in Hin. lia.
  Qed.

  Definition nothing : request := Req [] None None.
  Lemma nothing_done rd w : process_append_request rd 16 ps hash order (false, false) (rq_events nothing) (rq_cond nothing) (rq_trk nothing) w = (Ok 0, w).
  Proof. reflexivity. Qed.
  Lemma nothing_spec s : spec_append ps s (rq_events nothing) (rq_cond nothing) (rq_trk nothing) = (Ok 0, s).
  Proof.
    unfold spec_append, nothing. cbn [rq_events rq_cond rq_trk map spec_track]. rewrite decide_True by constructor. cbn [number last_pos last].
    rewrite app_nil_r. now destruct s.
  Qed.

  Lemma last_last_pos (l : list seq_event) e : last l = Some e -> last_pos l = e.1.
  Proof. unfold last_pos. now intros ->. Qed.
  Lemma is_someb_all evs : forallb (fun e => is_someb (ne_uuid e)) evs = true <-> Forall (fun e => is_Some (ne_uuid e)) evs.
  Proof.
    rewrite forallb_forall, Forall_forall. split; intros H e He.
    - specialize (H e ltac:(now apply elem_of_list_In)). destruct (ne_uuid e); [now eexists|discriminate].
    - destruct (H e ltac:(now apply elem_of_list_In)) as [u ->]. reflexivity.
  Qed.

  Lemma patchy_request rd sn sm w PE PT PK s r a w' : tinv 16 ps hash rd sn sm w PE PT PK s -> req_wf w r ->
    processed 16 ps hash order rd r w a w' -> match a with Ok _ => True | Err e => is_abort e = false end ->
    exists r0 a0, req_wf w r0 /\
      process_append_request rd 16 ps hash order (false, false) (rq_events r0) (rq_cond r0) (rq_trk r0) w = (a0, w') /\
      match a0 with Ok _ => True | Err e => is_abort e = false end /\
      lax_append ps s r a (spec_append ps s (rq_events r0) (rq_cond r0) (rq_trk r0)).2.
  Proof.
    intros Ht Hwf (early & Hj & E) Ha. pose proof Hwf as (R1 & R2 & R3 & R4 & R5). pose proof (ti_db _ _ _ _ _ _ _ _ _ _ _ Ht) as Hdb.
    set (r1 := Req (rq_events r) None (rq_trk r)).
    assert (Hwf1 : req_wf w r1). { split; [exact R1|]. split; [exact R2|]. split; [discriminate|]. split; [discriminate|exact R5]. }
    assert (Hwf0 : req_wf w nothing). { split; [constructor|]. split; [unfold nlen; cbn; lia|]. split; [discriminate|]. split; [discriminate|]. unfold nlen. cbn. lia. }
    assert (Hquiet : a <> Err Panic -> w' = w -> lax_append ps s r a s -> exists r0 a0, req_wf w r0 /\
      process_append_request rd 16 ps hash order (false, false) (rq_events r0) (rq_cond r0) (rq_trk r0) w = (a0, w') /\
      match a0 with Ok _ => True | Err e => is_abort e = false end /\
      lax_append ps s r a (spec_append ps s (rq_events r0) (rq_cond r0) (rq_trk r0)).2).
    { intros _ -> Hl. exists nothing, (Ok 0). split; [exact Hwf0|]. split; [apply nothing_done|]. split; [exact I|]. now rewrite nothing_spec. }
    assert (Hfree : early = Ok None -> lax_append ps s r (spec_append ps s (rq_events r) None (rq_trk r)).1 (spec_append ps s (rq_events r) None (rq_trk r)).2 ->
      exists r0 a0, req_wf w r0 /\
      process_append_request rd 16 ps hash order (false, false) (rq_events r0) (rq_cond r0) (rq_trk r0) w = (a0, w') /\
      match a0 with Ok _ => True | Err e => is_abort e = false end /\
      lax_append ps s r a (spec_append ps s (rq_events r0) (rq_cond r0) (rq_trk r0)).2).
    { intros -> Hl. destruct (request_step 16 ps hash order ford Hps ltac:(lia) Hord Hford _ _ _ _ _ _ _ _ r1 Ht Hwf1) as (w2 & _ & _ & _ & E1 & _).
      cbn [r1 rq_events rq_cond rq_trk] in E1. assert (E2 := eq_trans E E1). apply pair_equal_spec in E2 as [E2 E3]. subst w2.
      exists r1, a. split; [exact Hwf1|]. split; [now rewrite E2|]. split; [exact Ha|]. rewrite E2. exact Hl. }
    destruct (rq_cond r) as [c|] eqn:Ec.
    2: { cbn in Hj. apply Hfree; [exact Hj|]. left. rewrite Ec. apply surjective_pairing. }
    cbn [judged] in Hj. destruct Hj as (found & Hf & Hj).
    assert (Hfrom : (match ac_after c with Some a => Some ((a + 1) mod U64) | None => None end) = match ac_after c with Some a => Some (a + 1) | None => None end).
    { destruct (ac_after c) as [x|] eqn:Ex; [|reflexivity]. f_equal. apply N.mod_small. eapply R3; [reflexivity|exact Ex]. }
    rewrite Hfrom in *. apply (read_patchy_part _ _ _ _ _ _ s _ _ _ _ Hdb) in Hf.
    pose proof (R4 c eq_refl) as Hne.
    destruct (by_tags_dec (ac_query c)) as [Hbt|Hbt].
    - (* by tags *)
      pose proof (part_sub _ _ _ _ _ Hbt Hf) as Hsub. change (spec_read (s_hist s) (ac_query c) _ false None) with (all_after (s_hist s) c) in Hsub.
      assert (Hlax : all_after (s_hist s) c <> [] -> forall a0 s0, (spec_append ps s (rq_events r) None (rq_trk r) = (a0, s0) \/ (s0 = s /\ a0 = Err EIntegrity) \/
        (s0 = s /\ rq_events r <> [] /\ Forall (fun e => is_Some (ne_uuid e)) (rq_events r) /\
         exists l, l `sublist_of` all_after (s_hist s) c /\ map (fun e => er_uuid e.2) l = map ne_uuid (rq_events r) /\ a0 = Ok (last_pos l))) ->
        lax_append ps s r a0 s0).
      { intros Hn a0 s0 H. right. exists c. split; [exact Ec|]. split; [exact Hbt|]. split; [exact Hn|exact H]. }
      destruct found as [|e found].
      + apply Hfree; [exact Hj|]. destruct (all_after (s_hist s) c) as [|x l] eqn:Eall.
        * left. rewrite Ec. unfold spec_append at 1. rewrite (all_after_nil _ _ Eall). unfold spec_append. apply surjective_pairing.
        * apply Hlax; [discriminate|]. left. apply surjective_pairing.
      + pose proof (sublist_nonnil _ _ _ Hsub) as Hn.
        destruct (forallb _ (rq_events r) && _) eqn:Eid.
        2: { subst early. apply pair_equal_spec in E as [-> ->]. apply Hquiet; [discriminate|reflexivity|]. apply Hlax; [exact Hn|]. right. left. auto. }
        destruct Hj as (again & Hag & ->). apply (read_patchy_part _ _ _ _ _ _ s _ _ _ _ Hdb) in Hag.
        pose proof (part_sub _ _ _ _ _ Hbt Hag) as Hsub2. change (spec_read (s_hist s) (ac_query c) _ false None) with (all_after (s_hist s) c) in Hsub2.
        apply andb_true_iff in Eid as [Eid _]. apply is_someb_all in Eid.
        unfold verdict in E. destruct (nlen again =? nlen (rq_events r)).
        2: { apply pair_equal_spec in E as [-> ->]. apply Hquiet; [discriminate|reflexivity|]. apply Hlax; [exact Hn|]. right. left. auto. }
        destruct (last again) as [el|] eqn:El; [|apply pair_equal_spec in E as [-> _]; discriminate].
        destruct (decide _) as [Hu|Hu].
        2: { apply pair_equal_spec in E as [-> ->]. apply Hquiet; [discriminate|reflexivity|]. apply Hlax; [exact Hn|]. right. left. auto. }
        apply pair_equal_spec in E as [-> ->]. apply Hquiet; [discriminate|reflexivity|]. apply Hlax; [exact Hn|]. right. right.
        split; [reflexivity|]. split; [exact Hne|]. split; [exact Eid|]. exists again. split; [exact Hsub2|]. split; [exact Hu|]. now rewrite (last_last_pos _ _ El).
    - (* by a scan: as it should be *)
      apply (part_exact _ _ _ _ _ _ Hbt) in Hf. change (spec_read (s_hist s) (ac_query c) _ false (Some 1)) with (events_after (s_hist s) c 1) in Hf.
      destruct found as [|e found].
      + apply Hfree; [exact Hj|]. left. rewrite Ec. unfold spec_append at 1. rewrite <- Hf. unfold spec_append. apply surjective_pairing.
      + assert (Hspec : forall a0, (is_retry (s_hist s) (rq_events r) c -> a0 = Ok (last_pos (events_after (s_hist s) c (nlen (rq_events r))))) ->
          (~ is_retry (s_hist s) (rq_events r) c -> a0 = Err EIntegrity) -> lax_append ps s r a0 s).
        { intros a0 Hy Hn. left. rewrite Ec. unfold spec_append. rewrite <- Hf. destruct (decide _) as [H|H]; [now rewrite (Hy H)|now rewrite (Hn H)]. }
        destruct (forallb _ (rq_events r) && _) eqn:Eid.
        2: { subst early. apply pair_equal_spec in E as [-> ->]. apply Hquiet; [discriminate|reflexivity|]. apply Hspec; [|reflexivity]. intros (_ & Hid & _).
             apply is_someb_all in Hid. rewrite Hid in Eid. cbn in Eid. apply N.leb_gt in Eid. lia. }
        destruct Hj as (again & Hag & ->). apply (read_patchy_part _ _ _ _ _ _ s _ _ _ _ Hdb) in Hag. apply (part_exact _ _ _ _ _ _ Hbt) in Hag.
        change (spec_read (s_hist s) (ac_query c) _ false (Some (nlen (rq_events r)))) with (events_after (s_hist s) c (nlen (rq_events r))) in Hag.
        apply andb_true_iff in Eid as [Eid _]. apply is_someb_all in Eid.
        unfold verdict in E. destruct (N.eqb_spec (nlen again) (nlen (rq_events r))) as [El|El].
        2: { apply pair_equal_spec in E as [-> ->]. apply Hquiet; [discriminate|reflexivity|]. apply Hspec; [|reflexivity]. intros (_ & _ & Hid).
             rewrite <- Hag in Hid. apply (f_equal length) in Hid. rewrite !map_length in Hid. unfold nlen in El. lia. }
        destruct (last again) as [el|] eqn:Ell; [|apply pair_equal_spec in E as [-> _]; discriminate].
        destruct (decide _) as [Hu|Hu].
        2: { apply pair_equal_spec in E as [-> ->]. apply Hquiet; [discriminate|reflexivity|]. apply Hspec; [|reflexivity]. intros (_ & _ & Hid). rewrite <- Hag in Hid. contradiction. }
        apply pair_equal_spec in E as [-> ->]. apply Hquiet; [discriminate|reflexivity|]. apply Hspec.
        * intros _. now rewrite <- Hag, (last_last_pos _ _ Ell).
        * intros Hn. exfalso. apply Hn. split; [exact Hne|]. split; [exact Eid|]. now rewrite <- Hag.
  Qed.

  (** ** Readers *)
  Lemma held_may d c G q start bw limit force r : cur_ok d -> held 16 ps hash d c G -> let rd := fetch 16 c d in
    may rd (read_prog (scan_fuel rd (N.to_nat (h_next_page (g_hdr G)))) hash order (g_hdr G) q start bw limit force) r ->
    patchy_read (g_st G) q start bw limit r.
  Proof.
    intros Hc H rd Hm. unfold read_prog, pq in Hm. apply may_bind in Hm as ([evs|e] & Hm & Hr); cbn in Hr; subst r; [|left; eauto].
    right. exists evs. split.
    { unfold spec_read_head. destruct limit; [reflexivity|]. erewrite (pos_head 16 ps); [reflexivity|exact Hps32|lia|exact (so_pos _ _ _ _ _ (proj1 H))]. }
    assert (Hlt : forall x, x ∈ g_live G -> 2 <= x < h_next_page (g_hdr G)).
    { intros x Hx. eapply (live_two 16 ps hash order ford); try eassumption; try lia. exact (proj1 H). }
    assert (Hf : forall x n, x ∈ g_live G -> g_get G x = Some n -> fetch 16 c d x = Ok n).
    { intros x n Hx Hn. eapply (held_fetch 16 ps hash order ford); eauto; lia. }
    pose proof (proj1 H) as Hok. pose proof (snap_nodup _ _ _ _ _ Hok) as Hnd.
    apply NoDup_app in Hnd as (Hnd & _ & _). unfold sn_live in Hnd.
    apply NoDup_app in Hnd as (_ & _ & Hnd). apply NoDup_app in Hnd as (HndE & _ & Hnd). apply NoDup_app in Hnd as (HndT & _ & _).
    eapply (read_conditional_may 16 ps hash order Hord (g_get G)); [exact (so_hist _ _ _ _ _ Hok)| | |exact HndE|exact HndT| | | |exact Hm].
    - intros x n Hx Hn. apply Hf; [unfold sn_live; set_solver|exact Hn].
    - intros x n Hx Hn. apply Hf; [unfold sn_live; set_solver|exact Hn].
    - intros x Hx. specialize (Hlt x ltac:(unfold sn_live; set_solver)). lia.
    - intros x Hx. specialize (Hlt x ltac:(unfold sn_live; set_solver)). lia.
    - intros e He. assert (e.1 ∈ map fst (s_hist (g_st G))) as Hin by (apply elem_of_list_fmap; eauto).
      rewrite (so_seq _ _ _ _ _ Hok), elem_of_seqN in Hin. lia.
  Qed.
  Lemma held_may_track d c G src r : cur_ok d -> held 16 ps hash d c G ->
    may (fetch 16 c d) (tracking_prog (N.to_nat (h_next_page (g_hdr G))) (h_tracking_root (g_hdr G)) src) r ->
    (exists e, r = Err e) \/ r = Ok (s_track (g_st G) src).
  Proof.
    intros Hc H Hm. destruct r as [x|e]; [right|left; eauto]. apply (strict_may _ _ _ (tracking_strict _ _ _)) in Hm.
    rewrite tracking_once in Hm. rewrite <- Hm. eapply (held_track 16 ps hash order ford); eauto; lia.
  Qed.

  (** ** The simulation *)
  Definition swap_sys (b : list request * list (res N)) (y : sys) : sys := Sys (y_disk y) (swap b <$> y_proc y).
  Definition lax_inv (y : sys) (sy : spec_sys) : Prop :=
    exists b, inv (swap_sys b y) sy /\
      match y_proc y with
      | Some p => active (p_writer p) = true -> lax_batch ps (sp_cur sy) (batch_of (p_writer p)).1 (batch_of (p_writer p)).2 (spec_batch ps (sp_cur sy) b.1).2
      | None => True
      end.

  Lemma batch_ok d p b sy : inv (swap_sys b (Sys d (Some p))) sy -> active (p_writer p) = true -> (spec_batch ps (sp_cur sy) b.1).1 = b.2.
  Proof.
    intros (g & H) Ha. pose proof (u_writer _ _ _ _ _ _ _ _ H) as Hw. rewrite (u_spec _ _ _ _ _ _ _ _ H). cbn [y_proc swap_sys fmap option_fmap option_map swap p_writer set_writer] in Hw.
    destruct (p_writer p) as [|rd w done ans|w todo done ans|w done ans|w done ans|]; try discriminate Ha; cbn [put_batch winv] in Hw.
    - destruct Hw as (_ & PE & PT & PK & s & _ & E). now rewrite E.
    - destruct Hw as ((_ & E & _) & _). now rewrite E.
    - destruct Hw as ((_ & E & _) & _). now rewrite E.
    - destruct Hw as ((_ & E & _) & _). now rewrite E.
  Qed.
  Definition quiet (l : label) : bool := match l with LCommit _ _ | LCrash _ | LKill _ => false | _ => true end.
  Lemma quiet_cur sy l sy' : spec_step ps sy l sy' -> quiet l = true -> sp_cur sy' = sp_cur sy.
  Proof. destruct 1; intros Hq; try discriminate Hq; reflexivity. Qed.
  Lemma commit_active d p l d1 p1 : pstep d p l d1 p1 -> (exists reqs ans, l = LCommit reqs ans) \/ (exists reqs, l = LUnsure reqs) ->
    active (p_writer p) = true /\ active (p_writer p1) = false.
  Proof.
    intros Hs Hl. destruct Hs; destruct Hl as [(? & ? & El)|(? & El)]; try discriminate El;
      match goal with H : p_writer _ = _ |- _ => rewrite H end; (split; [reflexivity|]); unfold pin_header; repeat (destruct (_ =? _)); reflexivity.
  Qed.

  Lemma sim_lax y sy l y1 : lax_inv y sy -> qstep 16 ps hash order ford caching y l y1 -> exists sy1, lax_step ps sy l sy1 /\ lax_inv y1 sy1.
  Proof.
    intros (b & Hi & HJ) Hq. destruct Hq as [y l y1 Hs|d p rd w done ans r a w' Hx Hwf Hp Ha|d p i h q start bw limit force r Hr rd Hm|d p i h src r Hr Hm].
    - destruct Hs as [d p l d1 p1 Hs|d p d1 Hd|d d1 Hd|d p Hd|d d1 p Ho].
      + destruct (swap_step d p l d1 p1 b Hs) as (l' & b1 & Hs' & Hrel & Hg).
        destruct (sim_step ps hash order ford caching Hps Hps32 Hord Hford (swap_sys b (Sys d (Some p))) sy l' (swap_sys b1 (Sys d1 (Some p1))) Hi ltac:(apply Y_proc; exact Hs')) as (sy1 & Hsp & Hi1).
        cbn [y_proc] in HJ.
        assert (Hq : quiet l' = true -> lax_inv (Sys d1 (Some p1)) sy1).
        { intros Hl. pose proof (quiet_cur _ _ _ Hsp Hl) as Ec. exists b1. split; [exact Hi1|]. cbn [y_proc]. intros Hact. rewrite Ec.
          destruct Hg as [Hg|[(_ & E1 & ->)|[(Hax & r & a & E1 & ->)|[(Hax & E1 & ->)|(E1 & ->)]]]].
          - congruence.
          - rewrite E1. cbn. constructor.
          - rewrite E1. cbn [fst snd]. specialize (HJ Hax). eapply lax_snoc; [exact HJ|]. left.
            pose proof (batch_ok _ _ _ _ Hi Hax) as E2. pose proof (batch_ok _ _ _ _ Hi1 Hact) as E3. rewrite Ec in E3. cbn [fst snd] in E3.
            rewrite (MvccProofs.spec_batch_snoc ps) in E3. cbn [fst] in E3. rewrite E2 in E3. apply app_inj_2 in E3 as [_ E3]; [|reflexivity]. injection E3 as E3.
            rewrite spec_batch_snoc. rewrite <- E3. apply surjective_pairing.
          - rewrite E1. now apply HJ.
          - rewrite E1 in Hact |- *. now apply HJ. }
        destruct l; cbn [relabelled] in Hrel; try (subst l'; exists sy1; split; [now apply LX_same|now apply Hq]); try (destruct Hrel; fail).
        * destruct Hrel as [-> Eb]. destruct (commit_active _ _ _ _ _ Hs ltac:(left; eauto)) as [Hax Hay]. exists sy1. split.
          -- inversion Hsp; subst. apply LX_commit. specialize (HJ Hax). cbn [sp_cur] in HJ. rewrite <- Eb in HJ. cbn [fst snd] in HJ.
             match goal with H : spec_batch _ _ _ = _ |- _ => rewrite H in HJ end. exact HJ.
          -- exists b1. split; [exact Hi1|]. cbn [y_proc]. congruence.
        * destruct Hrel as [reqs' ->]. exists sy1. split; [|now apply Hq]. apply LX_same. inversion Hsp; subst. apply SS_abort.
        * destruct Hrel as [-> Eb]. destruct (commit_active _ _ _ _ _ Hs ltac:(right; eauto)) as [Hax Hay]. exists sy1. split; [|now apply Hq].
          inversion Hsp; subst. eapply LX_unsure. specialize (HJ Hax). cbn [sp_cur] in HJ. exact HJ.
      + destruct (sim_step ps hash order ford caching Hps Hps32 Hord Hford (swap_sys b (Sys d (Some p))) sy _ (swap_sys b (Sys d1 None)) Hi ltac:(apply Y_crash; exact Hd)) as (sy1 & Hsp & Hi1).
        exists sy1. split; [|exists b; split; [exact Hi1|exact I]]. cbn [y_proc] in HJ. inversion Hsp as [| | | |? ? s' Hv| | | | | | | |]; subst. destruct Hv as [Hv|[Hv|Hv]].
        * apply LX_same, SS_crash. now left.
        * apply LX_same, SS_crash. now right; left.
        * cbn [swap p_writer set_writer] in Hv. destruct (p_writer p) as [|? ? ? ?|? ? ? ?|? ? ?|? done ans|]; cbn [in_flight put_batch] in *;
            try (apply LX_same, SS_crash; now left).
          eapply LX_crash. rewrite Hv. apply HJ. reflexivity.
      + destruct (sim_step ps hash order ford caching Hps Hps32 Hord Hford (swap_sys b (Sys d None)) sy _ (swap_sys b (Sys d1 None)) Hi ltac:(apply Y_crash_down; exact Hd)) as (sy1 & Hsp & Hi1).
        exists sy1. split; [now apply LX_same|exists b; split; [exact Hi1|exact I]].
      + destruct (sim_step ps hash order ford caching Hps Hps32 Hord Hford (swap_sys b (Sys d (Some p))) sy _ (swap_sys b (Sys d None)) Hi ltac:(apply Y_kill; exact Hd)) as (sy1 & Hsp & Hi1).
        exists sy1. split; [|exists b; split; [exact Hi1|exact I]]. cbn [y_proc] in HJ. inversion Hsp as [| | | | |? ? s' Hv| | | | | | |]; subst. destruct Hv as [Hv|[Hv|Hv]].
        * apply LX_same, SS_kill. now left.
        * apply LX_same, SS_kill. now right; left.
        * cbn [swap p_writer set_writer] in Hv. destruct (p_writer p) as [|? ? ? ?|? ? ? ?|? ? ?|? done ans|]; cbn [in_flight put_batch] in *;
            try (apply LX_same, SS_kill; now left).
          eapply LX_kill. rewrite Hv. apply HJ. reflexivity.
      + destruct (sim_step ps hash order ford caching Hps Hps32 Hord Hford (Sys d None) sy _ (Sys d1 (Some p)) Hi ltac:(apply Y_open; exact Ho)) as (sy1 & Hsp & Hi1).
        exists sy1. split; [now apply LX_same|]. exists b. assert (p_writer p = WIdle) as Ew.
        { unfold open_db in Ho. destruct (read_headers _ _) as [[[n0 n1] fx]|]; [|discriminate Ho]. cbn [rbind] in Ho.
          destruct (match fx with Some _ => _ | None => _ end) as [d2|]; [|discriminate Ho]. cbn [rbind] in Ho.
          destruct (as_header n0.2) as [h0|]; [|discriminate Ho]. cbn [rbind] in Ho. destruct (as_header n1.2) as [h1|]; [|discriminate Ho]. cbn [rbind] in Ho.
          destruct (check_roots _ _ _); [|discriminate Ho]. cbn [rbind] in Ho. injection Ho as _ <-. reflexivity. }
        split; [|cbn [y_proc]; rewrite Ew; discriminate].
        replace (swap_sys b (Sys d1 (Some p))) with (Sys d1 (Some p)); [exact Hi1|]. unfold swap_sys. cbn. f_equal. f_equal. unfold swap. rewrite Ew. cbn.
        destruct p. cbn in Ew |- *. now rewrite Ew.
    - (* a request *)
      cbn [y_proc] in HJ. pose proof Hi as (g & H). pose proof (u_writer _ _ _ _ _ _ _ _ H) as Hw.
      assert (Esw : p_writer (swap b p) = WBusy rd w b.1 b.2) by (cbn; now rewrite Hx).
      cbn [y_proc swap_sys fmap option_fmap option_map] in Hw. rewrite Esw in Hw. destruct Hw as (_ & PE & PT & PK & s & Ht & Eb).
      destruct (patchy_request _ _ _ _ _ _ _ _ _ _ _ Ht Hwf Hp Ha) as (r0 & a0 & Hwf0 & Ep & Ha0 & Hl).
      set (p1 := set_writer (WBusy rd w' (done ++ [r]) (ans ++ [a])) p).
      assert (step (swap_sys b (Sys d (Some p))) LTau (swap_sys (b.1 ++ [r0], b.2 ++ [a0]) (Sys d (Some p1)))) as Hs.
      { cbn. apply Y_proc. exact (S_request 16 ps hash order ford caching d (swap b p) rd w b.1 b.2 r0 a0 w' Esw Hwf0 Ep Ha0). }
      destruct (sim_step ps hash order ford caching Hps Hps32 Hord Hford _ _ _ _ Hi Hs) as (sy1 & Hsp & Hi1).
      inversion Hsp; subst. exists sy1. split; [apply LX_same, SS_tau|]. eexists. split; [exact Hi1|]. cbn [y_proc p1 p_writer set_writer batch_of fst snd].
      intros _. rewrite Hx in HJ. cbn [batch_of fst snd] in HJ. specialize (HJ eq_refl). eapply lax_snoc; [exact HJ|]. rewrite spec_batch_snoc.
      rewrite (u_spec _ _ _ _ _ _ _ _ H), Eb. exact Hl.
    - pose proof Hi as (g & H). pose proof (u_readers _ _ _ _ _ _ _ _ H i) as Hri. unfold rinv in Hri. cbn in Hri. rewrite Hr in Hri.
      destruct Hri as (_ & G & _ & Eh & Eo & Hpr). exists sy. split; [|exists b; split; [exact Hi|exact HJ]]. eapply LX_read; [exact Eo|].
      rewrite <- Eh in Hm. eapply held_may; [exact (u_cur _ _ _ _ _ _ _ _ H)|exact (proj1 Hpr)|exact Hm].
    - pose proof Hi as (g & H). pose proof (u_readers _ _ _ _ _ _ _ _ H i) as Hri. unfold rinv in Hri. cbn in Hri. rewrite Hr in Hri.
      destruct Hri as (_ & G & _ & Eh & Eo & Hpr). exists sy. split; [|exists b; split; [exact Hi|exact HJ]]. eapply LX_track; [exact Eo|].
      rewrite <- Eh in Hm. eapply held_may_track; [exact (u_cur _ _ _ _ _ _ _ _ H)|exact (proj1 Hpr)|exact Hm].
  Qed.
  Lemma sim_lax_steps y sy tr y1 : lax_inv y sy -> qsteps 16 ps hash order ford caching y tr y1 -> exists sy1, lax_steps ps sy tr sy1 /\ lax_inv y1 sy1.
  Proof.
    intros Hi H. induction H as [|y tr y2 l y3 H IH Hs]; [exists sy; split; [constructor|exact Hi]|].
    destruct (IH Hi) as (sy2 & H2 & Hi2). destruct (sim_lax _ _ _ _ Hi2 Hs) as (sy3 & H3 & Hi3). exists sy3. split; [econstructor; eauto|exact Hi3].
  Qed.
End refine.
