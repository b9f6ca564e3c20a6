(** Properties C01-C11, C13, C22 and C25: what the database does, over every execution of the transition system of
    Mvcc.v, crashes and restarts included.

    [run tr y]: the events [tr] lead from a new database to [y].  [shows y s]: a reader opened in [y] answers every
    question as the abstract state [s] (a list of events and a tracking position per source) prescribes. *)
From Verif Require Import Mvcc MvccProofs SpecProofs StoreProofs Exec.
Local Open Scope N_scope.

Section props.
  Context (ps : N) (hash : bytes -> bytes) (order : list bytes -> list bytes) (ford : gset N -> list N) (caching : bool).
  Context (Hps : ps_ok ps) (Hps32 : ps < U32) (Hord : forall l t, t ∈ order l <-> t ∈ l) (Hford : forall s, ford s ≡ₚ elements s).
  Notation step := (step 16 ps hash order ford caching).
  Notation steps := (steps 16 ps hash order ford caching).
  Notation run := (run ps hash order ford caching).
  Notation shows := (shows hash order).
  Notation commit_split := (run_commit_split ps hash order ford caching Hps Hps32 Hord Hford).
  Notation run_extends := (run_extends ps hash order ford caching Hps Hps32 Hord Hford).

  (** ** C01: positions *)
  Theorem positions_gapless tr y : run tr y -> up y -> exists s, shows y s /\ map fst (s_hist s) = seqN 1 (length (s_hist s)).
  Proof. intros H Hu. exact (run_up ps hash order ford caching Hps Hps32 Hord Hford tr y H Hu). Qed.

  (** What is stored stays, at its position, whatever happens. *)
  Theorem events_permanent tr y s tr' y' s' : run tr y -> shows y s -> steps y tr' y' -> shows y' s' ->
    exists new, s_hist s' = s_hist s ++ new.
  Proof. intros H1 H2 H3 H4. exact (proj1 (run_extends _ _ _ _ _ _ H1 H2 H3 H4)). Qed.

  (** A request of a committed batch that is answered with a position: [h] is what was stored before it.  If no event
      of [h] meets its condition then its events take the next positions, otherwise it adds none. *)
  Theorem append_positions tr y s r1 r r2 ans y' p : run tr y -> shows y s -> step y (LCommit (r1 ++ r :: r2) ans) y' ->
    ans !! length r1 = Some (Ok p) -> rq_events r <> [] ->
    exists h new later s', shows y' s' /\ s_hist s' = h ++ new ++ later /\ s_hist s `prefix_of` h /\
      ((forall c, rq_cond r = Some c -> forall e, e ∈ h -> ~ conflicts c e) ->
        p = nlen h + nlen (rq_events r) /\ map fst new = seqN (nlen h + 1) (length (rq_events r)) /\
        map snd new = map (to_record (rq_trk r)) (rq_events r)) /\
      ((exists c e, rq_cond r = Some c /\ e ∈ h /\ conflicts c e) -> new = []).
  Proof.
    intros H Hs Hst Ha Hne. destruct (commit_split _ _ _ _ _ _ _ _ H Hs Hst) as (a1 & s1 & a & s2 & a2 & s3 & Ean & Ha' & B1 & B & B2 & Hsh).
    assert (a = Ok p) as -> by congruence. pose proof (batch_extends ps s r1) as E1. rewrite B1 in E1. cbn in E1.
    pose proof (batch_extends ps s2 r2) as E2. rewrite B2 in E2. cbn in E2. destruct E2 as [(later & El) _]. destruct E1 as [E1 _].
    destruct (append_cases _ _ _ _ _ _ _ B) as [(t & Ht & Hok & Hc & Hp & Es)|[[-> (c & Hc & Hca & _)]|[_ Herr]]].
    - exists (s_hist s1), (number (1 + nlen (s_hist s1)) (map (to_record (rq_trk r)) (rq_events r))), later, s3.
      split; [exact Hsh|]. split; [rewrite El, Es; cbn; now rewrite app_assoc|]. split; [exact E1|]. split.
      + intros _. rewrite number_fst, number_snd, map_length, N.add_comm. assert (map (to_record (rq_trk r)) (rq_events r) <> []) by (now destruct (rq_events r)).
        rewrite last_number in Hp by assumption. injection Hp as ->. unfold nlen. rewrite map_length.
        replace (N.of_nat (length (s_hist s1)) + 1) with (1 + N.of_nat (length (s_hist s1))) by lia. split; [lia|auto].
      + intros (c & e & Hc0 & He & Hcf). exfalso. exact (proj1 (no_conflict_iff _ _) (Hc c Hc0) e He Hcf).
    - exists (s_hist s1), [], later, s3. split; [exact Hsh|]. split; [now rewrite El|]. split; [exact E1|]. split; [|auto].
      intros Hno. exfalso. apply Hca. apply no_conflict_iff. now apply Hno.
    - exfalso. destruct Herr as [(c & _ & _ & _ & X)|[_ [[_ X]|(e & _ & _ & X)]]]; discriminate.
  Qed.

  (** ** C02, C03: reads *)
  (** A reader opened now, asked for the events selected by [q] from [start] on: it returns an initial part, as long as
      the limit says, of a list that holds exactly the stored events in range that match, sorted by position in the
      direction asked for.  [force]: whether the tag index may be used. *)
  Theorem read_exact tr y p : run tr y -> y_proc y = Some p ->
    exists h : list seq_event, map fst h = seqN 1 (length h) /\ forall q start bw limit force, exists sel hd,
      umadb_read hash order (fetch 16 (p_cache p) (y_disk y)) (latest p).2 q start bw limit force =
        Ok (match limit with Some k => take (N.to_nat k) sel | None => sel end, hd) /\
      (forall e, e ∈ sel <-> e ∈ h /\ Spec.in_range start bw e.1 /\ q_matches q e.2) /\
      StronglySorted (fun e e' => if bw then e'.1 < e.1 else e.1 < e'.1) sel.
  Proof.
    intros H Hp. destruct (run_up ps hash order ford caching Hps Hps32 Hord Hford tr y H ltac:(now exists p)) as (s & (p' & Hp' & Hr & _) & Hg).
    assert (p' = p) as -> by congruence. exists (s_hist s). split; [exact Hg|]. intros q start bw limit force.
    exists (spec_read (s_hist s) q start bw None), (spec_read_head s limit (spec_read (s_hist s) q start bw limit)). split; [|split].
    - rewrite Hr. now destruct limit.
    - intros e. apply read_elem.
    - destruct (read_sorted (s_hist s) q start None Hg) as [S1 S2].
      assert (Hm : forall (R : N -> N -> Prop) (l : list seq_event), StronglySorted R (map fst l) -> StronglySorted (fun e e' => R e.1 e'.1) l).
      { intros R l. induction l as [|e l IH]; intros HS; [constructor|]. inversion HS as [|? ? HS1 HS2]; subst. constructor; [now apply IH|].
        rewrite Forall_map in HS2. exact HS2. }
      destruct bw; [exact (Hm (fun a b => b < a) _ S2)|exact (Hm N.lt _ S1)].
  Qed.
  (** The tag index never changes an answer, whatever function computes its keys. *)
  Theorem index_read_is_scan tr y p : run tr y -> y_proc y = Some p -> forall q start bw limit,
    umadb_read hash order (fetch 16 (p_cache p) (y_disk y)) (latest p).2 q start bw limit false =
    umadb_read hash order (fetch 16 (p_cache p) (y_disk y)) (latest p).2 q start bw limit true.
  Proof.
    intros H Hp q start bw limit. destruct (run_up ps hash order ford caching Hps Hps32 Hord Hford tr y H ltac:(now exists p)) as (s & (p' & Hp' & Hr & _) & Hg).
    assert (p' = p) as -> by congruence. now rewrite !Hr.
  Qed.

  (** ** C04: append conditions *)
  (** [s1]: the state the request is judged in, left by its predecessors in the batch. *)
  Theorem condition_enforced tr y s r1 r r2 ans y' c : run tr y -> shows y s -> step y (LCommit (r1 ++ r :: r2) ans) y' ->
    rq_cond r = Some c -> exists h a, ans !! length r1 = Some a /\ h = s_hist (spec_batch ps s r1).2 /\
      ((exists e, e ∈ h /\ conflicts c e) -> ~ is_retry h (rq_events r) c -> a = Err EIntegrity) /\
      ((forall e, e ∈ h -> ~ conflicts c e) -> rq_trk r = None -> a <> Err EIntegrity) /\
      (is_retry h (rq_events r) c -> a = Ok (last_pos (take (length (rq_events r)) (filter (conflicts c) h)))) /\
      ((forall e, e ∈ h -> ~ conflicts c e) -> rq_trk r = None -> rq_events r <> [] ->
        Forall (event_ok ps) (map (to_record None) (rq_events r)) -> a = Ok (nlen h + nlen (rq_events r))).
  Proof.
    intros H Hs Hst Hc. destruct (commit_split _ _ _ _ _ _ _ _ H Hs Hst) as (a1 & s1 & a & s2 & a2 & s3 & Ean & Ha' & B1 & B & B2 & Hsh).
    exists (s_hist s1), a. split; [exact Ha'|]. split; [now rewrite B1|].
    destruct (append_cases _ _ _ _ _ _ _ B) as [(t & Ht & Hok & Hca & Hp & Es)|[[-> (c' & Hc' & Hca & Hret & Hp)]|[_ Herr]]].
    - specialize (Hca c Hc). pose proof (proj1 (no_conflict_iff _ _) Hca) as Hno. split; [intros (e & He & Hcf) _; exfalso; exact (Hno e He Hcf)|].
      split; [intros _ _; rewrite Hp; discriminate|]. split; [intros Hret; exfalso; exact (retry_conflict _ _ _ Hret Hca)|].
      intros _ Htrk Hne _. rewrite Hp. f_equal. rewrite last_number by (now destruct (rq_events r)). unfold nlen. rewrite map_length. lia.
    - assert (c' = c) as -> by congruence. split; [intros _ Hn; contradiction|]. split; [intros _ _; rewrite Hp; discriminate|].
      rewrite events_after_filter in Hp. unfold nlen in Hp. rewrite Nat2N.id in Hp. split; [intros _; exact Hp|].
      intros Hno. exfalso. apply Hca, no_conflict_iff, Hno.
    - destruct Herr as [(c' & Hc' & Hca & Hret & ->)|[Hca X]].
      + assert (c' = c) as -> by congruence. split; [reflexivity|]. split; [intros Hno; exfalso; apply Hca, no_conflict_iff, Hno|].
        split; [contradiction|]. intros Hno. exfalso; apply Hca, no_conflict_iff, Hno.
      + specialize (Hca c Hc). pose proof (proj1 (no_conflict_iff _ _) Hca) as Hno. split; [intros (e & He & Hcf) _; exfalso; exact (Hno e He Hcf)|].
        split; [|split; [intros Hret; exfalso; exact (retry_conflict _ _ _ Hret Hca)|]].
        * intros _ Htrk. destruct X as [[_ ->]|(e & _ & Ht & ->)]; [discriminate|]. rewrite Htrk in Ht. discriminate.
        * intros _ Htrk Hne Hev. destruct X as [[Hnok _]|(e & _ & Ht & ->)]; rewrite Htrk in *; [contradiction|discriminate].
  Qed.

  (** ** C05: retries *)
  (** A conditional request was answered [p] in a batch; its events have ids and meet its own condition; nothing stored
      before met it.  Sent again at any later time, with anything in between, it is answered [p] and adds nothing. *)
  Theorem retry_idempotent tr y s r1 r r2 ans y' p c tr' y'' s' q1 q2 ans' y3 :
    run tr y -> shows y s -> step y (LCommit (r1 ++ r :: r2) ans) y' -> ans !! length r1 = Some (Ok p) ->
    rq_cond r = Some c -> rq_events r <> [] -> Forall (fun e => is_Some (ne_uuid e)) (rq_events r) ->
    Forall (fun e => q_matches (ac_query c) (to_record (rq_trk r) e)) (rq_events r) ->
    (forall a, ac_after c = Some a -> a <= nlen (s_hist (spec_batch ps s r1).2)) ->
    steps y' tr' y'' -> shows y'' s' -> step y'' (LCommit (q1 ++ r :: q2) ans') y3 ->
    ans' !! length q1 = Some (Ok p) /\
    exists s3, shows y3 s3 /\ (ans', s3) = ((spec_batch ps s' q1).1 ++ Ok p :: (spec_batch ps (spec_batch ps s' q1).2 q2).1, (spec_batch ps s' (q1 ++ q2)).2).
  Proof.
    intros H Hs Hst Ha Hc Hne Hids Hmat Haf Hst2 Hs2 Hst3.
    destruct (commit_split _ _ _ _ _ _ _ _ H Hs Hst) as (a1 & s1 & a & s2 & a2 & s3 & Ean & Ha' & B1 & B & B2 & Hsh).
    assert (a = Ok p) as -> by congruence. rewrite B1 in Haf. cbn in Haf.
    pose proof (run_step _ _ _ _ _ _ _ _ _ H Hst) as H'.
    assert (Hret : is_retry (s_hist s2) (rq_events r) c /\ p = last_pos (events_after (s_hist s2) c (nlen (rq_events r)))).
    { destruct (append_cases _ _ _ _ _ _ _ B) as [(t & Ht & Hok & Hca & Hp & Es)|[[-> (c' & Hc' & Hca & Hret & Hp)]|[_ Herr]]].
      - destruct (accepted_retry (s_hist s1) (rq_events r) c (rq_trk r) Hne Hids (Hca c Hc)) as [R1 R2].
        + rewrite Forall_forall. intros e He. split.
          * assert (e.1 ∈ map fst (number (1 + nlen (s_hist s1)) (map (to_record (rq_trk r)) (rq_events r)))) as Hf by (apply elem_of_list_fmap; eauto).
            rewrite number_fst, elem_of_seqN in Hf. destruct (ac_after c) as [af|]; [|exact I]. specialize (Haf af eq_refl). lia.
          * assert (e.2 ∈ map snd (number (1 + nlen (s_hist s1)) (map (to_record (rq_trk r)) (rq_events r)))) as Hf by (apply elem_of_list_fmap; eauto).
            rewrite number_snd in Hf. apply elem_of_list_fmap in Hf as (e0 & -> & He0). rewrite Forall_forall in Hmat. now apply Hmat.
        + rewrite Es. cbn [s_hist]. split; [exact R1|]. rewrite R2. congruence.
      - assert (c' = c) as -> by congruence. split; [exact Hret|]. congruence.
      - exfalso. destruct Herr as [(c' & _ & _ & _ & X)|[_ [[_ X]|(e & _ & _ & X)]]]; discriminate. }
    destruct Hret as [Hret Hp].
    destruct (run_extends _ _ _ _ _ _ H' Hsh Hst2 Hs2) as [(l2 & El2) _].
    pose proof (batch_extends ps s2 r2) as [(l1 & El1) _]. rewrite B2 in El1. cbn in El1.
    pose proof (batch_extends ps s' q1) as [(l3 & El3) _].
    destruct (commit_split _ _ _ _ _ _ _ _ (run_app _ _ _ _ _ _ _ _ _ H' Hst2) Hs2 Hst3) as (b1 & t1 & b & t2 & b2 & t3 & Eb & Hb & C1 & C & C2 & Hsh3).
    rewrite C1 in El3. cbn in El3. rewrite El2, El1, <- !app_assoc in El3.
    destruct (retry_stable (s_hist s2) (l1 ++ l2 ++ l3) _ _ Hret) as [Hr' Hev]. rewrite <- El3 in Hr', Hev.
    unfold spec_append in C. rewrite Hc in C. destruct (events_after (s_hist t1) c 1) as [|e0 l0] eqn:E0; [exfalso; exact (retry_conflict _ _ _ Hr' E0)|].
    rewrite decide_True in C by exact Hr'. rewrite Hev, <- Hp in C. injection C as <- <-. split; [exact Hb|]. exists t3. split; [exact Hsh3|].
    rewrite Eb, batch_app, C1. cbn [fst snd]. now rewrite C2.
  Qed.

  (** ** C06: rejected requests *)
  (** The other requests of the batch are answered, and the store is left, as without it. *)
  Theorem rejected_no_effect tr y s r1 r r2 ans y' e : run tr y -> shows y s -> step y (LCommit (r1 ++ r :: r2) ans) y' ->
    ans !! length r1 = Some (Err e) ->
    exists s', shows y' s' /\ spec_batch ps s (r1 ++ r2) = (delete (length r1) ans, s').
  Proof.
    intros H Hs Hst Ha. destruct (commit_split _ _ _ _ _ _ _ _ H Hs Hst) as (a1 & s1 & a & s2 & a2 & s3 & Ean & Ha' & B1 & B & B2 & Hsh).
    assert (a = Err e) as -> by congruence. exists s3. split; [exact Hsh|].
    assert (s2 = s1) as ->. { destruct (append_cases _ _ _ _ _ _ _ B) as [(t & _ & _ & _ & X & _)|[[-> _]|[-> _]]]; [discriminate|reflexivity|reflexivity]. }
    rewrite batch_app, B1. cbn [fst snd]. rewrite B2. cbn [fst snd]. f_equal. rewrite Ean. pose proof (batch_length ps s r1) as Hl. rewrite B1 in Hl. cbn in Hl.
    rewrite <- Hl. now rewrite delete_middle.
  Qed.

  (** ** C07: batches *)
  (** What a batch does is what its requests do one at a time: the state and the answers are those of two batches into
      which it is split anywhere. *)
  Theorem batch_is_sequence tr y s r1 r2 ans y' : run tr y -> shows y s -> step y (LCommit (r1 ++ r2) ans) y' ->
    exists a1 s1 a2 s', ans = a1 ++ a2 /\ spec_batch ps s r1 = (a1, s1) /\ spec_batch ps s1 r2 = (a2, s') /\ shows y' s'.
  Proof.
    intros H Hs Hst. destruct (run_commit ps hash order ford caching Hps Hps32 Hord Hford _ _ _ _ _ _ H Hs Hst) as (s' & Hb & Hsh). rewrite batch_app in Hb.
    exists (spec_batch ps s r1).1, (spec_batch ps s r1).2, (spec_batch ps (spec_batch ps s r1).2 r2).1, (spec_batch ps (spec_batch ps s r1).2 r2).2.
    injection Hb as <- <-. split; [reflexivity|]. split; [now destruct (spec_batch ps s r1)|]. split; [now destruct (spec_batch ps (spec_batch ps s r1).2 r2)|exact Hsh].
  Qed.
  (** Two databases: one takes the requests in one batch, the other in two; they give the same answers and can then not be
      told apart. *)
  Theorem batching_irrelevant trA yA trB yB s r1 r2 ansA yA' ans1 yB1 trM yB1' ans2 yB' :
    run trA yA -> shows yA s -> run trB yB -> shows yB s ->
    step yA (LCommit (r1 ++ r2) ansA) yA' ->
    step yB (LCommit r1 ans1) yB1 -> steps yB1 trM yB1' -> Forall calm trM -> step yB1' (LCommit r2 ans2) yB' ->
    ansA = ans1 ++ ans2 /\ exists s', shows yA' s' /\ shows yB' s'.
  Proof.
    intros HA HsA HB HsB HstA HstB1 HM Hq HstB2.
    destruct (run_commit ps hash order ford caching Hps Hps32 Hord Hford _ _ _ _ _ _ HA HsA HstA) as (s' & Hb & Hsh).
    destruct (run_commit ps hash order ford caching Hps Hps32 Hord Hford _ _ _ _ _ _ HB HsB HstB1) as (s1 & Hb1 & Hsh1).
    pose proof (run_step _ _ _ _ _ _ _ _ _ HB HstB1) as HB1.
    assert (Hsh1' : shows yB1' s1).
    { exact (run_calm ps hash order ford caching Hps Hps32 Hord Hford _ _ _ _ _ HB1 Hsh1 HM Hq). }
    destruct (run_commit ps hash order ford caching Hps Hps32 Hord Hford _ _ _ _ _ _ (run_app _ _ _ _ _ _ _ _ _ HB1 HM) Hsh1' HstB2) as (s2 & Hb2 & Hsh2).
    rewrite batch_app, Hb1 in Hb. cbn [fst snd] in Hb. rewrite Hb2 in Hb. injection Hb as <- <-. split; [reflexivity|]. now exists s2.
  Qed.
  Theorem aborted_batch_no_trace tr y s reqs y' : run tr y -> shows y s -> step y (LAbort reqs) y' -> shows y' s.
  Proof. exact (run_abort ps hash order ford caching Hps Hps32 Hord Hford tr y s reqs y'). Qed.

  (** ** C08: tracking *)
  Theorem tracking_forward tr y s tr' y' s' src t : run tr y -> shows y s -> steps y tr' y' -> shows y' s' ->
    s_track s src = Some t -> exists t', s_track s' src = Some t' /\ t <= t'.
  Proof. intros H1 H2 H3 H4. exact (proj2 (run_extends _ _ _ _ _ _ H1 H2 H3 H4) src t). Qed.
  (** A request with a tracking position: rejected unless the position is beyond the recorded one; when its events are added
      the position is recorded, and no other source changes. *)
  Theorem tracking_enforced tr y s r1 r r2 ans y' src pos : run tr y -> shows y s -> step y (LCommit (r1 ++ r :: r2) ans) y' ->
    rq_trk r = Some (Tracking src pos) ->
    exists s1 s2 a, s1 = (spec_batch ps s r1).2 /\ s2 = (spec_batch ps s (r1 ++ [r])).2 /\ ans !! length r1 = Some a /\
      (rq_cond r = None -> (exists t, s_track s1 src = Some t /\ pos <= t) -> exists e, a = Err e /\ (e = EIntegrity \/ e = EInvalidArgument)) /\
      (rq_cond r = None -> Forall (event_ok ps) (map (to_record (rq_trk r)) (rq_events r)) -> nlen src <= 255 ->
        (exists t, s_track s1 src = Some t /\ pos <= t) -> a = Err EIntegrity) /\
      ((forall x, s_track s2 x = s_track s1 x) \/
       (s_track s2 src = Some pos /\ (forall x, x <> src -> s_track s2 x = s_track s1 x) /\ (forall t, s_track s1 src = Some t -> t < pos) /\
        map snd (s_hist s2) = map snd (s_hist s1) ++ map (to_record (rq_trk r)) (rq_events r))).
  Proof.
    intros H Hs Hst Htrk. destruct (commit_split _ _ _ _ _ _ _ _ H Hs Hst) as (a1 & s1 & a & s2 & a2 & s3 & Ean & Ha' & B1 & B & B2 & Hsh).
    exists s1, s2, a. split; [now rewrite B1|]. split; [rewrite batch_app, B1; cbn [fst snd spec_batch]; now rewrite B|]. split; [exact Ha'|].
    destruct (append_cases _ _ _ _ _ _ _ B) as [(t & Ht & Hok & Hca & Hp & Es)|[[-> (c' & Hc' & Hca & Hret & Hp)]|[-> Herr]]].
    - rewrite Htrk in Ht. cbn in Ht. destruct (255 <? nlen src); [discriminate|].
      assert (Hlt : (forall t0, s_track s1 src = Some t0 -> t0 < pos) /\ t = (fun s0 => if decide (s0 = src) then Some pos else s_track s1 s0)).
      { destruct (s_track s1 src) as [t0|]; [destruct (N.leb_spec pos t0); [discriminate|]|]; (split; [|congruence]); [intros t1 [= <-]; assumption|discriminate]. }
      destruct Hlt as [Hlt ->]. split; [|split].
      + intros _ (t0 & Ht0 & Hle). specialize (Hlt t0 Ht0). lia.
      + intros _ _ _ (t0 & Ht0 & Hle). specialize (Hlt t0 Ht0). lia.
      + right. rewrite Es. cbn. rewrite decide_True by reflexivity. split; [reflexivity|]. split; [intros x Hx; now rewrite decide_False|].
        split; [exact Hlt|]. now rewrite map_app, number_snd.
    - split; [congruence|]. split; [congruence|]. now left.
    - split; [|split; [|now left]].
      + intros Hc _. destruct Herr as [(c' & Hc' & _)|[_ [[_ ->]|(e & _ & Ht & ->)]]]; [congruence|eauto|]. exists e. split; [reflexivity|].
        rewrite Htrk in Ht. cbn in Ht. destruct (255 <? nlen src); [right; congruence|]. destruct (s_track s1 src); [destruct (_ <=? _); [left; congruence|discriminate]|discriminate].
      + intros Hc Hok Hlen (t0 & Ht0 & Hle). destruct Herr as [(c' & Hc' & _)|[_ [[Hn _]|(e & _ & Ht & ->)]]]; [congruence|contradiction|].
        rewrite Htrk in Ht. cbn in Ht. rewrite (proj2 (N.ltb_ge _ _) Hlen), Ht0, (proj2 (N.leb_le _ _) Hle) in Ht. congruence.
  Qed.

  (** ** C10: what was acknowledged survives *)
  (** The events a request added when it was answered are at their positions at every later moment, after any crashes;
      and so is its tracking position, unless it has moved on. *)
  Theorem acked_survive tr y s r1 r r2 ans y' p tr' y'' s' : run tr y -> shows y s -> step y (LCommit (r1 ++ r :: r2) ans) y' ->
    ans !! length r1 = Some (Ok p) -> (forall c, rq_cond r = Some c -> forall e, e ∈ s_hist (spec_batch ps s r1).2 -> ~ conflicts c e) ->
    steps y' tr' y'' -> shows y'' s' ->
    (forall i e, rq_events r !! i = Some e ->
      s_hist s' !! (length (s_hist (spec_batch ps s r1).2) + i)%nat =
        Some (p + 1 + N.of_nat i - nlen (rq_events r), to_record (rq_trk r) e)) /\
    (forall src t, rq_trk r = Some (Tracking src t) -> exists t', s_track s' src = Some t' /\ t <= t').
  Proof.
    intros H Hs Hst Ha Hno Hst2 Hs2. destruct (commit_split _ _ _ _ _ _ _ _ H Hs Hst) as (a1 & s1 & a & s2 & a2 & s3 & Ean & Ha' & B1 & B & B2 & Hsh).
    assert (a = Ok p) as -> by congruence. rewrite B1 in Hno |- *. cbn [snd] in Hno |- *.
    destruct (run_extends _ _ _ _ _ _ (run_step _ _ _ _ _ _ _ _ _ H Hst) Hsh Hst2 Hs2) as [(l2 & El2) Et2].
    pose proof (batch_extends ps s2 r2) as [(l1 & El1) Et1]. rewrite B2 in El1, Et1. cbn in El1, Et1.
    destruct (append_cases _ _ _ _ _ _ _ B) as [(t & Ht & Hok & Hca & Hp & Es)|[[-> (c' & Hc' & Hca & Hret & Hp)]|[_ Herr]]].
    - split.
      + intros i e Hi. rewrite El2, El1, Es. cbn [s_hist]. rewrite <- !app_assoc. rewrite lookup_app_r by lia.
        replace (length (s_hist s1) + i - length (s_hist s1))%nat with i by lia.
        assert (Hi' : map (to_record (rq_trk r)) (rq_events r) !! i = Some (to_record (rq_trk r) e)) by (rewrite list_lookup_fmap, Hi; reflexivity).
        pose proof (lookup_lt_Some _ _ _ Hi) as Hlt. rewrite lookup_app_l by (rewrite number_length, map_length; lia).
        rewrite last_number in Hp by (destruct (rq_events r); [destruct i; discriminate|discriminate]). injection Hp as ->.
        rewrite (number_lookup _ _ _ _ Hi'). f_equal. f_equal. unfold nlen. rewrite map_length. lia.
      + intros src pos Htrk. rewrite Htrk in Ht. cbn in Ht. destruct (255 <? nlen src); [discriminate|].
        assert (t src = Some pos) as Hsrc. { destruct (s_track s1 src) as [t0|]; [destruct (pos <=? t0); [discriminate|]|]; injection Ht as <-; now rewrite decide_True. }
        destruct (Et1 src pos) as (t1 & Ht1 & Hle1); [now rewrite Es|]. destruct (Et2 src t1 Ht1) as (t2 & Ht2 & Hle2). exists t2. split; [exact Ht2|lia].
    - exfalso. apply Hca, no_conflict_iff. now apply Hno.
    - exfalso. destruct Herr as [(c' & _ & _ & _ & X)|[_ [[_ X]|(e & _ & _ & X)]]]; discriminate.
  Qed.

  (** ** C11: crashes *)
  (** A crash of the machine or the end of the process, possibly more crashes, then a restart: the state is the one before,
      or that with the whole batch whose header was being written, or that with a whole batch whose header could not be
      written or synced (and which was answered with an error; see C33). *)
  Theorem crash_atomic tr y s l reqs y1 tr1 y2 y3 : run tr y -> shows y s -> (l = LCrash reqs \/ l = LKill reqs) -> step y l y1 ->
    steps y1 tr1 y2 -> Forall (fun l => exists r, l = LCrash r) tr1 -> step y2 LOpen y3 ->
    exists s', shows y3 s' /\ (s' = s \/ s' = (spec_batch ps s reqs).2 \/ exists r0, LUnsure r0 ∈ tr /\ s' = (spec_batch ps s r0).2).
  Proof. exact (run_restart ps hash order ford caching Hps Hps32 Hord Hford tr y s l reqs y1 tr1 y2 y3). Qed.
  (** A database that is down can be opened. *)
  Theorem open_succeeds tr y : run tr y -> y_proc y = None -> exists y', step y LOpen y' /\ up y'.
  Proof.
    intros H Hd. destruct (run_open ps hash order ford caching Hps Hps32 Hord Hford tr y H Hd) as (d' & p & E). exists (Sys d' (Some p)).
    split; [|now exists p]. destruct y as [d [p'|]]; [discriminate|]. now constructor.
  Qed.

  (** ** C09: events and tracking together *)
  (** After a restart each request of a batch that was being committed has taken effect wholly or not at all: [s1] and [s2]
      are the states before and after it. *)
  Theorem tracking_atomic tr y s l r1 r r2 y1 tr1 y2 y3 : run tr y -> shows y s -> (forall r0, LUnsure r0 ∉ tr) ->
    (l = LCrash (r1 ++ r :: r2) \/ l = LKill (r1 ++ r :: r2)) -> step y l y1 ->
    steps y1 tr1 y2 -> Forall (fun l => exists r, l = LCrash r) tr1 -> step y2 LOpen y3 ->
    shows y3 s \/ exists s1 s2 s3, shows y3 s3 /\ extends s s1 /\ extends s2 s3 /\
      ((s_hist s2 = s_hist s1 /\ forall x, s_track s2 x = s_track s1 x) \/
       (map snd (s_hist s2) = map snd (s_hist s1) ++ map (to_record (rq_trk r)) (rq_events r) /\
        forall x, s_track s2 x = match rq_trk r with Some (Tracking src t) => if decide (x = src) then Some t else s_track s1 x | None => s_track s1 x end)).
  Proof.
    intros H Hs Hun Hl Hst Hc Hf Ho. destruct (crash_atomic _ _ _ _ _ _ _ _ _ H Hs Hl Hst Hc Hf Ho) as (s' & Hsh & [->|[->|(r0 & Hr & _)]]); [now left| |exfalso; exact (Hun r0 Hr)].
    right. pose proof (batch_extends ps s r1) as E1. rewrite batch_app in Hsh. cbn [spec_batch fst snd] in Hsh.
    set (s1 := (spec_batch ps s r1).2) in *. destruct (spec_append ps s1 (rq_events r) (rq_cond r) (rq_trk r)) as [a s2] eqn:B. cbn [fst snd] in Hsh.
    exists s1, s2, (spec_batch ps s2 r2).2. split; [exact Hsh|]. split; [exact E1|]. split; [apply batch_extends|].
    destruct (append_cases _ _ _ _ _ _ _ B) as [(t & Ht & Hok & Hca & Hp & Es)|[[-> _]|[-> _]]]; [|now left|now left]. right. rewrite Es. cbn [s_hist s_track].
    split; [now rewrite map_app, number_snd|]. intros x. destruct (rq_trk r) as [[src pos]|]; cbn in Ht; [|congruence]. destruct (255 <? nlen src); [discriminate|].
    destruct (s_track s1 src) as [t0|]; [destruct (pos <=? t0); [discriminate|]|]; injection Ht as <-; reflexivity.
  Qed.

  (** ** C13: snapshots *)
  (** A reader asked for in [y0] and given in [y3]: there is a state, shown at some moment in between, from which it
      answers everything it is asked as long as it lives, whatever happens meanwhile. *)
  Theorem snapshot_isolation t1 y0 i y1 t2 y2 y3 t3 y4 : run t1 y0 -> step y0 (LCall i) y1 ->
    steps y1 t2 y2 -> Forall (quiet i) t2 -> step y2 (LReady i) y3 -> steps y3 t3 y4 -> Forall (quiet i) t3 ->
    exists s ta tb ya, t2 = ta ++ tb /\ steps y1 ta ya /\ steps ya tb y2 /\ shows ya s /\
      (forall q start bw limit r, LRead i q start bw limit r ∈ t3 ->
         r = Ok (spec_read (s_hist s) q start bw limit, spec_read_head s limit (spec_read (s_hist s) q start bw limit))) /\
      (forall src r, LTrack i src r ∈ t3 -> r = Ok (s_track s src)).
  Proof.
    intros H H1 H2 Hq2 H3 H4 Hq3. destruct (run_inv ps hash order ford caching Hps Hps32 Hord Hford _ _ H) as (sy0 & _ & Hi0 & _).
    destruct (window ps hash order ford caching Hps Hps32 Hord Hford _ _ _ _ _ _ Hi0 H1 H2 Hq2) as (sy2 & l & Hi2 & Hl & Hw).
    destruct (sim_step ps hash order ford caching Hps Hps32 Hord Hford _ _ _ _ Hi2 H3) as (sy3 & Hs3 & Hi3). inversion Hs3; subst. cbn in Hl.
    match goal with H : _ !! i = Some ?l', H' : ?s ∈ ?l' |- _ => assert (l' = l) as -> by congruence; destruct (Hw s H') as (ta & tb & ya & Et & Ha & Hb & Hsh); exists s end.
    exists ta, tb, ya. split; [exact Et|]. split; [exact Ha|]. split; [exact Hb|]. split; [exact Hsh|].
    destruct (opened_stays ps hash order ford caching Hps Hps32 Hord Hford _ _ i _ _ _ Hi3 (lookup_insert _ _ _) H4 Hq3) as (_ & _ & _ & Hr & Ht). auto.
  Qed.

  (** ** C22: the head *)
  Theorem head_is_last tr y p : run tr y -> y_proc y = Some p -> exists h : list seq_event, map fst h = seqN 1 (length h) /\
    header_head (latest p).2 = (fst <$> last h) /\
    forall q start bw limit force, exists evs,
      umadb_read hash order (fetch 16 (p_cache p) (y_disk y)) (latest p).2 q start bw limit force =
        Ok (evs, match limit with None => fst <$> last h | Some _ => fst <$> last evs end).
  Proof.
    intros H Hp. destruct (run_up ps hash order ford caching Hps Hps32 Hord Hford tr y H ltac:(now exists p)) as (s & (p' & Hp' & Hr & _ & Hh) & Hg).
    assert (p' = p) as -> by congruence. exists (s_hist s). split; [exact Hg|]. rewrite <- (head_last _ Hg). split; [exact Hh|].
    intros q start bw limit force. eexists. rewrite Hr. reflexivity.
  Qed.
  (** head(), between the call in [y0] and the answer: it is the last position of a state shown in between. *)
  Theorem head_linearizable t1 y0 i y1 t2 y2 r y3 : run t1 y0 -> step y0 (LCall i) y1 ->
    steps y1 t2 y2 -> Forall (quiet i) t2 -> step y2 (LHead i r) y3 ->
    exists s ta tb ya, t2 = ta ++ tb /\ steps y1 ta ya /\ steps ya tb y2 /\ shows ya s /\ r = (fst <$> last (s_hist s)).
  Proof.
    intros H H1 H2 Hq2 H3. destruct (run_inv ps hash order ford caching Hps Hps32 Hord Hford _ _ H) as (sy0 & _ & Hi0 & _).
    destruct (window ps hash order ford caching Hps Hps32 Hord Hford _ _ _ _ _ _ Hi0 H1 H2 Hq2) as (sy2 & l & Hi2 & Hl & Hw).
    destruct (sim_step ps hash order ford caching Hps Hps32 Hord Hford _ _ _ _ Hi2 H3) as (sy3 & Hs3 & Hi3). inversion Hs3; subst. cbn in Hl.
    match goal with H : _ !! i = Some ?l', H' : ?s ∈ ?l' |- _ => assert (l' = l) as -> by congruence; destruct (Hw s H') as (ta & tb & ya & Et & Ha & Hb & Hsh); exists s end.
    exists ta, tb, ya. split; [exact Et|]. split; [exact Ha|]. split; [exact Hb|]. split; [exact Hsh|]. apply head_last.
    eapply (run_shows ps hash order ford caching Hps Hps32 Hord Hford); [|exact Hsh]. rewrite Et in H2. exact (run_app _ _ _ _ _ _ _ _ _ (run_step _ _ _ _ _ _ _ _ _ H H1) Ha).
  Qed.

  (** ** C25: one order for all *)
  (** [L] lists the requests in the order in which they took effect ([lin]): batch after batch in the order of the commits,
      each answered as in a one-at-a-time execution of [L].  The state shown is the one after [L]. *)
  Theorem appends_linearizable tr y : run tr y -> up y -> exists L, lin ps tr L /\ shows y (spec_batch ps spec_empty L).2.
  Proof. exact (run_lin ps hash order ford caching Hps Hps32 Hord Hford tr y). Qed.

  (** Nothing stands in the way of a request: an idle writer can begin; whatever well-formed request comes, it gets an
      answer; the transaction can be prepared for writing. *)
  Theorem writer_begins tr y p : run tr y -> y_proc y = Some p -> p_writer p = WIdle ->
    exists w, step y LTau (Sys (y_disk y) (Some (set_writer (WBusy (fetch 16 (p_cache p) (y_disk y)) w [] []) p))).
  Proof.
    intros H Hp Hx. destruct (run_idle ps hash order ford caching Hps Hps32 Hord Hford tr y H p Hp Hx) as (w & E). exists w.
    destruct y as [d p']. cbn in Hp. subst p'. constructor. now constructor.
  Qed.
  Theorem request_answered tr y p rd w done ans r : run tr y -> y_proc y = Some p -> p_writer p = WBusy rd w done ans -> req_wf w r ->
    exists a w', step y LTau (Sys (y_disk y) (Some (set_writer (WBusy rd w' (done ++ [r]) (ans ++ [a])) p))).
  Proof.
    intros H Hp Hx Hwf. destruct (run_request ps hash order ford caching Hps Hps32 Hord Hford tr y p rd w done ans r H Hp Hx Hwf) as (a & w' & E & He). exists a, w'.
    destruct y as [d p']. cbn in Hp. subst p'. constructor. eapply S_request; try eassumption. destruct a; [exact I|now apply He].
  Qed.
  Theorem freed_pages_recorded tr y p rd w done ans : run tr y -> y_proc y = Some p -> p_writer p = WBusy rd w done ans ->
    exists w', process_freed_page_ids rd 16 ps ford w = (Ok tt, w').
  Proof. exact (run_free ps hash order ford caching Hps Hps32 Hord Hford tr y p rd w done ans). Qed.
End props.

(** ** An execution *)
(** To show that the theorems speak of something: a database with pages of 1024 bytes and a hash function that
    maps all tags to the same key, on which the following happens. *)
Definition x_hash (t : bytes) : bytes := replicate 16 7.
Definition x_ford (s : gset N) : list N := elements s.
Definition xa : bytes := [97]. Definition xb : bytes := [98]. Definition xs : bytes := [115]. Definition xz : bytes := [122].
(** One event; one with a condition met by the first; two events with ids, one larger than a page, under a
    condition; three with tracking. *)
Definition xr1 := Req [NE xz [1;2;3] [xa; xb] None []] None None.
Definition xr2 := Req [NE xz [] [] None []] (Some (ACond [QItem [] [xa]] None)) None.
Definition xr3 := Req [NE xz [4] [xa] (Some (replicate 16 1)) []; NE xa (replicate 1500 9) [xb] (Some (replicate 16 2)) [([1],[2])]]
  (Some (ACond [QItem [] [xa]; QItem [xa] []] (Some 1))) None.
Definition xr4 := Req [NE xz [5] [] None []] None (Some (Tracking xs 5)).
Definition xr5 := Req [NE xz [6] [] None []] None (Some (Tracking xs 4)).
Definition xr6 := Req [NE xz [7] [xb] None []] None (Some (Tracking xs 9)).
Definition x_batch (rs : list request) (pages : nat) : list act := ABegin :: map ARequest rs ++ ACommit :: replicate pages APage ++ [ASync; AHeader].
Definition x_reader (i : nat) : list act := [ACall i; AObs i; ASeen i; AReg i; AChk i; AReady i].
Definition x_script : list act :=
  x_batch [xr1; xr2] 3 ++ [ADone] ++ x_reader 0 ++ x_batch [xr3; xr4; xr5] 6 ++ [ADone; ARead 0 [] None false None; ATrack 0 xs; AClose 0] ++
  [ACall 1; AObs 1; ASeen 1; AHead 1] ++ x_batch [xr3] 0 ++ [ADone] ++ x_batch [xr6] 4 ++ [ACrash; AOpen] ++
  x_reader 2 ++ [ARead 2 [QItem [] [xb]] (Some 5) true (Some 2); ATrack 2 xs].
Definition x_ev1 : seq_event := (1, to_record None (NE xz [1;2;3] [xa; xb] None [])).
Definition x_ev3 : seq_event := (3, to_record None (NE xa (replicate 1500 9) [xb] (Some (replicate 16 2)) [([1],[2])])).
Definition x_ev5 : seq_event := (5, to_record (rq_trk xr6) (NE xz [7] [xb] None [])).
Definition x_t1 : list label := replicate 9 LTau.
Definition x_t2 : list label := LCall 0 :: replicate 4 LTau ++ LReady 0 :: replicate 13 LTau.
Definition x_c2 : label := LCommit [xr3; xr4; xr5] [Ok 3; Ok 4; Err EIntegrity].
Definition x_t3 : list label :=
  [LRead 0 [] None false None (Ok ([x_ev1], Some 1)); LTrack 0 xs (Ok None); LClose 0; LCall 1; LTau; LTau; LHead 1 (Some 4)] ++ replicate 5 LTau.
Definition x_t4 : list label := replicate 9 LTau.
Definition x_t5 : list label := LCall 2 :: replicate 4 LTau ++ [LReady 2;
  LRead 2 [QItem [] [xb]] (Some 5) true (Some 2) (Ok ([x_ev5; x_ev3], Some 3)); LTrack 2 xs (Ok (Some 9))].
Definition x_trace : list label :=
  x_t1 ++ LCommit [xr1; xr2] [Ok 1; Err EIntegrity] :: x_t2 ++ x_c2 :: x_t3 ++ LCommit [xr3] [Ok 3] :: x_t4 ++ LCrash [xr6] :: LOpen :: x_t5.

Notation x_run := (run 1024 x_hash (fun l => l) x_ford true).
Notation x_step := (Mvcc.step 16 1024 x_hash (fun l => l) x_ford true).
Notation x_steps := (Mvcc.steps 16 1024 x_hash (fun l => l) x_ford true).
Notation x_shows := (shows x_hash (fun l => l)).
Lemma x_ps : ps_ok 1024. Proof. unfold ps_ok. lia. Qed.
Lemma x_ps32 : 1024 < U32. Proof. reflexivity. Qed.
Lemma x_ord (l : list bytes) t : t ∈ (fun l => l) l <-> t ∈ l. Proof. reflexivity. Qed.
Lemma x_ford_ok s : x_ford s ≡ₚ elements s. Proof. reflexivity. Qed.
Example x_happens : exists y, x_run x_trace y.
Proof.
  destruct (exec_runs 1024 x_hash (fun l => l) x_ford true x_ps x_ps32 x_ord x_ford_ok x_script x_trace) as (y & H & _); [vm_compute; reflexivity|]. now exists y.
Qed.

Definition x_s1 := (spec_batch 1024 spec_empty [xr1; xr2]).2.
Definition x_s2 := (spec_batch 1024 x_s1 [xr3; xr4; xr5]).2.
Lemma x_states : exists ya yb yc yd ye yf yg yh yi yj,
  x_run x_t1 ya /\ x_shows ya spec_empty /\ x_step ya (LCommit [xr1; xr2] [Ok 1; Err EIntegrity]) yb /\
  x_steps yb x_t2 yc /\ x_shows yc x_s1 /\ x_step yc x_c2 yd /\ x_steps yd x_t3 ye /\ x_shows ye x_s2 /\ x_step ye (LCommit [xr3] [Ok 3]) yf /\
  x_steps yf x_t4 yg /\ x_shows yg x_s2 /\ x_step yg (LCrash [xr6]) yh /\ x_step yh LOpen yi /\ x_steps yi x_t5 yj.
Proof.
  destruct x_happens as (yj & H). unfold x_trace in H.
  apply run_at in H as (ya & yb & Ha & Hb & H). apply steps_app_inv in H as (yc & Hc & H).
  change (x_c2 :: ?r) with ([x_c2] ++ r) in H. apply steps_app_inv in H as (yd & Hd & H).
  apply (steps_snoc_inv _ _ _ _ _ _ []) in Hd as (yc' & Hc' & Hd). apply steps_nil_inv in Hc' as ->.
  apply steps_app_inv in H as (ye & He & H). change (LCommit [xr3] [Ok 3] :: ?r) with ([LCommit [xr3] [Ok 3]] ++ r) in H.
  apply steps_app_inv in H as (yf & Hf & H). apply (steps_snoc_inv _ _ _ _ _ _ []) in Hf as (ye' & Hc' & Hf). apply steps_nil_inv in Hc' as ->.
  apply steps_app_inv in H as (yg & Hg & H). change (LCrash [xr6] :: LOpen :: ?r) with ([LCrash [xr6]] ++ [LOpen] ++ r) in H.
  apply steps_app_inv in H as (yh & Hh & H). apply (steps_snoc_inv _ _ _ _ _ _ []) in Hh as (yg' & Hc' & Hh). apply steps_nil_inv in Hc' as ->.
  apply steps_app_inv in H as (yi & Hi & H). apply (steps_snoc_inv _ _ _ _ _ _ []) in Hi as (yh' & Hc' & Hi). apply steps_nil_inv in Hc' as ->.
  assert (Hcalm : Forall calm x_t1 /\ Forall calm x_t2 /\ Forall calm x_t3 /\ Forall calm x_t4) by (repeat split; repeat (constructor; try exact I)).
  destruct Hcalm as (C1 & C2 & C3 & C4).
  assert (S0 : x_shows (init_sys 16 1024) spec_empty).
  { apply (inv_shows 1024 x_hash (fun l => l) x_ford true x_ps x_ps32 x_ord x_ford_ok _ spec_init); [|now eexists]. exact (init_inv 1024 x_hash (fun l => l) x_ford true x_ps x_ps32 x_ord x_ford_ok). }
  pose proof (run_calm 1024 x_hash (fun l => l) x_ford true x_ps x_ps32 x_ord x_ford_ok [] _ _ _ _ (steps_nil _ _ _ _ _ _ _) S0 Ha C1) as S1.
  pose proof (run_step _ _ _ _ _ _ _ _ _ Ha Hb) as Rb.
  destruct (run_commit 1024 x_hash (fun l => l) x_ford true x_ps x_ps32 x_ord x_ford_ok _ _ _ _ _ _ Ha S1 Hb) as (s1 & E1 & S2).
  assert (s1 = x_s1) as -> by (unfold x_s1; now rewrite E1). 
  pose proof (run_calm 1024 x_hash (fun l => l) x_ford true x_ps x_ps32 x_ord x_ford_ok _ _ _ _ _ Rb S2 Hc C2) as S3.
  pose proof (run_app _ _ _ _ _ _ _ _ _ Rb Hc) as Rc. pose proof (run_step _ _ _ _ _ _ _ _ _ Rc Hd) as Rd.
  destruct (run_commit 1024 x_hash (fun l => l) x_ford true x_ps x_ps32 x_ord x_ford_ok _ _ _ _ _ _ Rc S3 Hd) as (s2 & E2 & S4).
  assert (s2 = x_s2) as -> by (unfold x_s2; now rewrite E2). 
  pose proof (run_calm 1024 x_hash (fun l => l) x_ford true x_ps x_ps32 x_ord x_ford_ok _ _ _ _ _ Rd S4 He C3) as S5.
  pose proof (run_app _ _ _ _ _ _ _ _ _ Rd He) as Re. pose proof (run_step _ _ _ _ _ _ _ _ _ Re Hf) as Rf.
  destruct (run_commit 1024 x_hash (fun l => l) x_ford true x_ps x_ps32 x_ord x_ford_ok _ _ _ _ _ _ Re S5 Hf) as (s3 & E3 & S6).
  assert (s3 = x_s2) as ->. { transitivity (spec_batch 1024 x_s2 [xr3]).2; [now rewrite E3|]. vm_compute. reflexivity. }
  pose proof (run_calm 1024 x_hash (fun l => l) x_ford true x_ps x_ps32 x_ord x_ford_ok _ _ _ _ _ Rf S6 Hg C4) as S7.
  exists ya, yb, yc, yd, ye, yf, yg, yh, yi, yj. repeat (split; [assumption|]). exact H.
Qed.

(** ** What the theorems say of this execution *)
(** C01: two events take positions 2 and 3 after the one stored before. *)
Example x_positions : exists y s', x_shows y s' /\ map fst (s_hist s') = [1; 2; 3; 4] /\ s_hist x_s1 = [x_ev1] /\ x_ev3 ∈ s_hist s'.
Proof.
  destruct x_states as (ya & yb & yc & yd & ye & yf & yg & yh & yi & yj & Ha & Sa & Hb & Hc & Sc & Hd & He & Se & _).
  pose proof (run_app _ _ _ _ _ _ _ _ _ (run_step _ _ _ _ _ _ _ _ _ Ha Hb) Hc) as Rc.
  destruct (append_positions 1024 x_hash (fun l => l) x_ford true x_ps x_ps32 x_ord x_ford_ok _ _ _ [] xr3 [xr4; xr5] _ _ 3 Rc Sc Hd eq_refl ltac:(discriminate)) as (h & new & later & s' & Hs' & E & Hp & Hn & _).
  exists ye, x_s2. split; [exact Se|]. split; [vm_compute; reflexivity|]. split; [vm_compute; reflexivity|].
  apply elem_of_list_lookup. exists 2%nat. vm_compute. reflexivity.
Qed.
Example x_permanent : exists new, s_hist x_s2 = s_hist x_s1 ++ new /\ length new = 3%nat.
Proof.
  destruct x_states as (ya & yb & yc & yd & ye & yf & yg & yh & yi & yj & Ha & Sa & Hb & Hc & Sc & Hd & He & Se & _).
  pose proof (run_app _ _ _ _ _ _ _ _ _ (run_step _ _ _ _ _ _ _ _ _ Ha Hb) Hc) as Rc.
  assert (Hst : x_steps yc (x_c2 :: x_t3) ye).
  { assert (forall t y1 y2, x_steps y1 t y2 -> forall l y0, x_step y0 l y1 -> x_steps y0 (l :: t) y2) as Hcons.
    { intros t y1 y2 H1. induction H1 as [y|y tr y' l y'' H1 IH H2]; intros l0 y0 H0.
      - apply (steps_snoc _ _ _ _ _ _ y0 [] y0 l0 y); [constructor|exact H0].
      - apply (steps_snoc _ _ _ _ _ _ y0 (l0 :: tr) y' l y''); auto. }
    exact (Hcons _ _ _ He _ _ Hd). }
  destruct (events_permanent 1024 x_hash (fun l => l) x_ford true x_ps x_ps32 x_ord x_ford_ok _ _ _ _ _ _ Rc Sc Hst Se) as (new & E). exists new. split; [exact E|].
  assert (length (s_hist x_s2) = 4%nat /\ length (s_hist x_s1) = 1%nat) as [E1 E2] by (vm_compute; auto).
  apply (f_equal length) in E. rewrite app_length in E. lia.
Qed.
(** C02, C03: after the restart the index read (all tags collide) returned two events, backwards from 5, and no others; see
    [x_t5]. *)
Example x_read : exists y p, x_run x_trace y /\ y_proc y = Some p /\
  umadb_read x_hash (fun l => l) (fetch 16 (p_cache p) (y_disk y)) (latest p).2 [QItem [] [xb]] (Some 5) true (Some 2) false = Ok ([x_ev5; x_ev3], Some 3) /\
  umadb_read x_hash (fun l => l) (fetch 16 (p_cache p) (y_disk y)) (latest p).2 [QItem [] [xb]] (Some 5) true (Some 2) true = Ok ([x_ev5; x_ev3], Some 3).
Proof.
  destruct (exec_runs 1024 x_hash (fun l => l) x_ford true x_ps x_ps32 x_ord x_ford_ok x_script x_trace) as (y & H & E); [vm_compute; reflexivity|].
  assert (Hp : option_map (fun r => match y_proc r.2 with
      | Some p => Some (umadb_read x_hash (fun l => l) (fetch 16 (p_cache p) (y_disk r.2)) (latest p).2 [QItem [] [xb]] (Some 5) true (Some 2) true)
      | None => None end) (exec 16 1024 x_hash (fun l => l) x_ford true (init_sys 16 1024) x_script) = Some (Some (Ok ([x_ev5; x_ev3], Some 3)))) by (vm_compute; reflexivity).
  rewrite E in Hp. cbn [option_map snd] in Hp. destruct (y_proc y) as [p|] eqn:Ey; [|discriminate]. exists y, p. split; [exact H|]. split; [exact Ey|].
  injection Hp as Hp. split; [|exact Hp]. rewrite (index_read_is_scan 1024 x_hash (fun l => l) x_ford true x_ps x_ps32 x_ord x_ford_ok _ _ p H Ey). exact Hp.
Qed.
(** C04, C06: the second request of the first batch is rejected, and the store is as after the first alone. *)
Example x_rejected : spec_batch 1024 spec_empty [xr1] = ([Ok 1], x_s1) /\ exists y y' : sys, x_run x_t1 y /\ x_shows y spec_empty /\
  x_step y (LCommit ([xr1] ++ xr2 :: []) [Ok 1; Err EIntegrity]) y' /\ (exists e c, rq_cond xr2 = Some c /\ e ∈ s_hist x_s1 /\ conflicts c e).
Proof.
  destruct x_states as (ya & yb & yc & yd & ye & yf & yg & yh & yi & yj & Ha & Sa & Hb & _). split.
  - destruct (rejected_no_effect 1024 x_hash (fun l => l) x_ford true x_ps x_ps32 x_ord x_ford_ok _ _ _ [xr1] xr2 [] _ _ EIntegrity Ha Sa Hb eq_refl) as (s' & _ & E). rewrite app_nil_r in E. cbn [delete list_delete length] in E.
    rewrite E. f_equal. transitivity (spec_batch 1024 spec_empty [xr1]).2; [now rewrite E|]. vm_compute. reflexivity.
  - exists ya, yb. split; [exact Ha|]. split; [exact Sa|]. split; [exact Hb|]. exists x_ev1, (ACond [QItem [] [xa]] None). split; [reflexivity|].
    split; [apply elem_of_list_lookup; exists 0%nat; vm_compute; reflexivity|]. apply (bool_decide_unpack _). vm_compute. exact I.
Qed.
(** C05: the third request, sent again. *)
Example x_retry : [Ok 3] !! 0%nat = Some (Ok 3) /\ spec_batch 1024 x_s2 [xr3] = ([Ok 3], x_s2).
Proof.
  destruct x_states as (ya & yb & yc & yd & ye & yf & yg & yh & yi & yj & Ha & Sa & Hb & Hc & Sc & Hd & He & Se & Hf & _).
  pose proof (run_app _ _ _ _ _ _ _ _ _ (run_step _ _ _ _ _ _ _ _ _ Ha Hb) Hc) as Rc.
  assert (Hids : Forall (fun e => is_Some (ne_uuid e)) (rq_events xr3)) by (repeat constructor; eexists; reflexivity).
  assert (Hm : Forall (fun e => q_matches [QItem [] [xa]; QItem [xa] []] (to_record (rq_trk xr3) e)) (rq_events xr3)) by (apply (bool_decide_unpack _); vm_compute; exact I).
  destruct (retry_idempotent 1024 x_hash (fun l => l) x_ford true x_ps x_ps32 x_ord x_ford_ok _ _ _ [] xr3 [xr4; xr5] _ _ 3 (ACond [QItem [] [xa]; QItem [xa] []] (Some 1)) _ _ _ [] [] _ _
    Rc Sc Hd eq_refl eq_refl ltac:(discriminate) Hids Hm ltac:(intros a [= <-]; vm_compute; discriminate) He Se Hf) as [H1 (s3 & H2 & H3)].
  split; [exact H1|]. vm_compute. reflexivity.
Qed.
(** C08-C11: the crash comes between the writing and the sync of the header of a batch with tracking; afterwards the
    source is at 5, or at 9 and the event is stored. *)
Example x_crash : exists y, x_shows y x_s2 \/ x_shows y (spec_batch 1024 x_s2 [xr6]).2.
Proof.
  destruct x_states as (ya & yb & yc & yd & ye & yf & yg & yh & yi & yj & Ha & Sa & Hb & Hc & Sc & Hd & He & Se & Hf & Hg & Sg & Hh & Hi & Hj).
  pose proof (run_app _ _ _ _ _ _ _ _ _ (run_step _ _ _ _ _ _ _ _ _ Ha Hb) Hc) as Rc. pose proof (run_app _ _ _ _ _ _ _ _ _ (run_step _ _ _ _ _ _ _ _ _ Rc Hd) He) as Re.
  pose proof (run_app _ _ _ _ _ _ _ _ _ (run_step _ _ _ _ _ _ _ _ _ Re Hf) Hg) as Rg.
  destruct (crash_atomic 1024 x_hash (fun l => l) x_ford true x_ps x_ps32 x_ord x_ford_ok _ _ _ (LCrash [xr6]) [xr6] _ [] _ _ Rg Sg (or_introl eq_refl) Hh (steps_nil _ _ _ _ _ _ _) (Forall_nil_2 _) Hi) as (s' & Hs & [->|[->|(r0 & Hr & _)]]).
  - exists yi. now left.
  - exists yi. now right.
  - exfalso. apply elem_of_list_In in Hr. cbn in Hr. repeat (destruct Hr as [Hr|Hr]; [discriminate|]). exact Hr.
Qed.
(** C13: reader 0 was opened before the second batch, and does not see it; [x_t3]. *)
Example x_snapshot : exists t1 y0 y1 t2 y2 y3 t3 y4, x_run t1 y0 /\ x_step y0 (LCall 0) y1 /\ x_steps y1 t2 y2 /\ Forall (quiet 0) t2 /\
  x_step y2 (LReady 0) y3 /\ x_steps y3 t3 y4 /\ Forall (quiet 0) t3 /\ x_c2 ∈ t3 /\ LRead 0 [] None false None (Ok ([x_ev1], Some 1)) ∈ t3.
Proof.
  destruct x_happens as (y & H). set (rd := LRead 0 [] None false None (Ok ([x_ev1], Some 1))).
  assert (exists t1 t2 t3 t4, x_trace = (t1 ++ LCall 0 :: t2 ++ LReady 0 :: t3) ++ t4 /\ Forall (quiet 0) t2 /\ Forall (quiet 0) t3 /\ x_c2 ∈ t3 /\ rd ∈ t3)
    as (t1 & t2 & t3 & t4 & E & Q2 & Q3 & I1 & I2).
  { exists (x_t1 ++ [LCommit [xr1; xr2] [Ok 1; Err EIntegrity]]), (replicate 4 LTau), (replicate 13 LTau ++ [x_c2; rd]).
    eexists. split; [reflexivity|]. split; [repeat constructor|]. split; [repeat constructor|]. split; apply elem_of_list_lookup; [now exists 13%nat|now exists 14%nat]. }
  rewrite E in H. apply steps_app_inv in H as (y4 & H & _). apply run_at in H as (y0 & y1 & H0 & H1 & H).
  change (LReady 0 :: t3) with ([LReady 0] ++ t3) in H. apply steps_app_inv in H as (y2 & H2 & H). apply steps_app_inv in H as (y3 & H3 & H4).
  apply (steps_snoc_inv _ _ _ _ _ _ []) in H3 as (y2' & H3' & H3). apply steps_nil_inv in H3' as ->.
  exists t1, y0, y1, t2, y2, y3, t3, y4. auto 10.
Qed.
(** C25: the order of this execution: all requests as they were committed, then the one in flight. *)
Example x_order : lin 1024 (x_t1 ++ [LCommit [xr1; xr2] [Ok 1; Err EIntegrity]]) [xr1; xr2].
Proof.
  change [xr1; xr2] with ([] ++ [xr1; xr2]). apply lin_commit; [|vm_compute; reflexivity].
  unfold x_t1. generalize 9%nat as n. intros n. induction n as [|n IH]; [constructor|]. replace (replicate (S n) LTau) with (replicate n LTau ++ [LTau]).
  - apply lin_calm; [exact IH|left; exact I].
  - clear. induction n as [|n IH]; [reflexivity|]. cbn. now rewrite IH.
Qed.

Print Assumptions positions_gapless.
Print Assumptions events_permanent.
Print Assumptions append_positions.
Print Assumptions read_exact.
Print Assumptions index_read_is_scan.
Print Assumptions condition_enforced.
Print Assumptions retry_idempotent.
Print Assumptions rejected_no_effect.
Print Assumptions batch_is_sequence.
Print Assumptions batching_irrelevant.
Print Assumptions aborted_batch_no_trace.
Print Assumptions tracking_forward.
Print Assumptions tracking_enforced.
Print Assumptions tracking_atomic.
Print Assumptions acked_survive.
Print Assumptions crash_atomic.
Print Assumptions open_succeeds.
Print Assumptions snapshot_isolation.
Print Assumptions head_is_last.
Print Assumptions head_linearizable.
Print Assumptions appends_linearizable.
Print Assumptions request_answered.
