(** Append requests against the specification. *)
From Verif Require Export Append EventsProofs TagsProofs TrackingProofs ReadProofs.
Local Open Scope N_scope.

(** ** Validation *)
Lemma has_dup_ok m : has_duplicate_key m = false <-> NoDup (map fst m).
Proof.
  induction m as [|[k v] m IH]; cbn [has_duplicate_key map fst]; [split; [constructor|reflexivity]|].
  rewrite orb_false_iff, IH, NoDup_cons. apply and_iff_compat_r. rewrite <- not_true_iff_false, existsb_exists.
  split; intros H Hin; apply H.
  - apply elem_of_list_fmap in Hin as (kv & -> & Hin). exists kv. split; [now apply elem_of_list_In|]. now apply bool_decide_eq_true.
  - destruct Hin as (kv & Hin & Hk). apply bool_decide_eq_true in Hk as ->. apply elem_of_list_fmap. exists kv. split; [reflexivity|now apply elem_of_list_In].
Qed.
Lemma meta_room_eq m : meta_room m = match m with [] => 0 | _ => meta_size m end.
Proof.
  destruct m as [|kv m]; [reflexivity|]. unfold meta_room, meta_size. f_equal.
  generalize (kv :: m). clear. induction l as [|x l IH]; cbn [foldr]; [reflexivity|]. rewrite IH. lia.
Qed.
Lemma inline_room r : ev_leaf_size (EvLeaf [0] [Inline r]) + PAGE_HEADER_SIZE = fixed_room r + 2 + nlen (er_data r) + meta_room (er_meta r).
Proof.
  rewrite meta_room_eq. unfold ev_leaf_size, fixed_room, ev_value_size, opt_size, tags_room, tags_size, PAGE_HEADER_SIZE.
  cbn [ev_keys ev_values foldr]. change (nlen [0]) with 1. destruct (er_meta r), (er_uuid r), (er_tracking r); lia.
Qed.
Lemma overflow_room r :
  ev_leaf_size (EvLeaf [0] [Overflow (er_type r) (nlen (er_data r)) (er_tags r) 0 (er_uuid r)
    (match er_meta r with [] => 0 | _ => 1 end) (er_tracking r)]) + PAGE_HEADER_SIZE =
  fixed_room r + 16 + match er_meta r with [] => 0 | _ => 8 end.
Proof.
  unfold ev_leaf_size, fixed_room, ev_value_size, opt_size, tags_room, tags_size, PAGE_HEADER_SIZE.
  cbn [ev_keys ev_values foldr]. change (nlen [0]) with 1. destruct (er_meta r); cbn [N.ltb N.compare]; destruct (er_uuid r), (er_tracking r); lia.
Qed.
Lemma validate_ok ps r : if decide (event_ok ps r) then exists sv, validate_event_record ps r = Ok sv
                         else validate_event_record ps r = Err EInvalidArgument.
Proof.
  unfold validate_event_record, validate_tags, validate_metadata. rewrite inline_room, overflow_room.
  set (ok := decide (event_ok ps r)).
  destruct (N.ltb_spec 65535 (nlen (er_tags r))) as [H1|H1]; cbn [rbind].
  { destruct ok as [(H & _)|_]; [lia|reflexivity]. }
  destruct (N.ltb_spec 65535 (nlen (er_meta r))) as [H2|H2]; cbn [rbind].
  { destruct ok as [(_ & H & _)|_]; [lia|reflexivity]. }
  destruct (has_duplicate_key (er_meta r)) eqn:H3; cbn [rbind].
  { destruct ok as [(_ & _ & H & _)|_]; [|reflexivity]. apply has_dup_ok in H. congruence. }
  apply has_dup_ok in H3.
  destruct (existsb _ (er_meta r)) eqn:H4; cbn [rbind].
  { destruct ok as [(_ & _ & _ & H & _)|_]; [|reflexivity]. apply existsb_exists in H4 as (kv & Hin & Hkv).
    rewrite Forall_forall in H. apply elem_of_list_In in Hin. apply H in Hin. apply orb_true_iff in Hkv. rewrite !N.ltb_lt in Hkv. lia. }
  assert (H5 : Forall (fun kv : bytes * bytes => nlen kv.1 <= 65535 /\ nlen kv.2 <= 65535) (er_meta r)).
  { apply Forall_forall. intros kv Hin. rewrite <- not_true_iff_false, existsb_exists in H4.
    destruct (N.le_gt_cases (nlen kv.1) 65535) as [A|A], (N.le_gt_cases (nlen kv.2) 65535) as [B|B]; auto; exfalso; apply H4; exists kv;
      (split; [now apply elem_of_list_In|]); rewrite orb_true_iff, !N.ltb_lt; lia. }
  destruct (N.leb_spec (fixed_room r + 2 + nlen (er_data r) + meta_room (er_meta r)) ps) as [H6|H6].
  { destruct ok as [_|H]; [eauto|]. exfalso. apply H. unfold event_ok. repeat split; auto. }
  destruct (N.ltb_spec ps (fixed_room r + 16 + match er_meta r with [] => 0 | _ => 8 end)) as [H7|H7].
  - destruct ok as [(_ & _ & _ & _ & H)|_]; [|reflexivity]. destruct H; lia.
  - destruct ok as [_|H]; [eauto|]. exfalso. apply H. unfold event_ok. repeat split; auto.
Qed.
Lemma validate_all_ok ps rs :
  if decide (Forall (event_ok ps) rs) then exists svs, validate_all ps rs = Ok svs /\ Forall2 (fun r sv => validate_event_record ps r = Ok sv) rs svs
  else validate_all ps rs = Err EInvalidArgument.
Proof.
  induction rs as [|r rs IH]; cbn [validate_all].
  { rewrite decide_True by constructor. eexists. split; [reflexivity|constructor]. }
  pose proof (validate_ok ps r) as Hr. destruct (decide (event_ok ps r)) as [Hok|Hok].
  - destruct Hr as [sv Esv]. rewrite Esv. cbn [rbind]. destruct (decide (Forall (event_ok ps) rs)) as [H|H].
    + destruct IH as (svs & -> & H2). rewrite decide_True by now constructor. eexists. split; [reflexivity|]. now constructor.
    + rewrite IH. rewrite decide_False by (rewrite Forall_cons; tauto). reflexivity.
  - rewrite Hr. rewrite decide_False by (rewrite Forall_cons; tauto). reflexivity.
Qed.

(** ** Steps that also move the roots *)
Definition strip (w : writer) : writer := set_next_pos 0 (set_tracking_root 0 (set_tags_root 0 (set_events_root 0 w))).
Definition macc rd P w P' w' : Prop := acc rd P (strip w) P' (strip w').
Lemma strip_pool w P : pool_ok (strip w) P <-> pool_ok w P.
Proof. split; intros [A B C D F G H]; constructor; assumption. Qed.
Lemma acc_macc rd P w P' w' : acc rd P w P' w' -> macc rd P w P' w'.
Proof.
  intros (po & k & fn & [A1 A2 A3 A4 A5 A6 A7 A8 A9 A10 A11 A12 A13 A14 A15 A16 A17 A18 A19]). exists po, k, fn.
  constructor; try assumption; try reflexivity; intros Q HQ; [apply strip_pool; apply A7|apply (A19 Q)]; now apply strip_pool.
Qed.
Lemma macc_pool rd P w P' w' Q : macc rd P w P' w' -> pool_ok w (P ++ Q) -> pool_ok w' (P' ++ Q).
Proof. intros H HQ. apply strip_pool. apply strip_pool in HQ. eapply acc_pool'; eassumption. Qed.
Lemma macc_coh rd P w P' w' : macc rd P w P' w' -> coh rd w -> coh rd w'.
Proof. intros H Hc. apply (acc_coh' _ _ _ _ _ H). exact Hc. Qed.
Lemma macc_view rd P w P' w' Q q : macc rd P w P' w' -> pool_ok w (P ++ Q) -> q ∈ Q -> vget rd w' q = vget rd w q.
Proof. intros H HQ Hq. apply strip_pool in HQ. exact (acc_view rd P (strip w) P' (strip w') Q q H HQ Hq). Qed.
Lemma macc_refl rd P w : macc rd P w P w.
Proof. apply acc_refl. Qed.
Lemma macc_trans rd P w P' w' P'' w'' : macc rd P w P' w' -> macc rd P' w' P'' w'' -> macc rd P w P'' w''.
Proof. apply acc_trans. Qed.
Lemma macc_sim rd P w w' : sim w w' -> coh rd w' -> macc rd P w P w'.
Proof. intros H Hc. now apply acc_macc, sim_acc. Qed.

(** ** The database a transaction sees *)
Record dbrep (rd : snapshot) (kw : nat) (ps : N) (hash : bytes -> bytes) (w : writer) (PE PT PK Q : list N) (s : spec_state) : Prop := {
  db_coh : coh rd w;
  db_pool : pool_ok w (PE ++ PT ++ PK ++ Q);
  db_hist : hist_rep kw ps hash (vget rd w) (w_events_root w) (w_tags_root w) PE PT (s_hist s);
  db_trk : exists es, trkrep (vget rd w) (w_tracking_root w) PK es /\ forall x, s_track s x = alookup x es;
  db_seq : map fst (s_hist s) = seqN 1 (length (s_hist s));
  db_next : w_next_pos w = 1 + nlen (s_hist s) }.

Lemma agrees_page_at rd w P : agrees (vget rd w) (page_at rd (w_dirty w)) P.
Proof.
  intros q n _ Hg. unfold vget in Hg. unfold page_at. destruct (w_dirty w !! q); [congruence|].
  destruct (rd q); [congruence|discriminate].
Qed.

Section append.
  Context (rd : snapshot) (kw : nat) (ps : N) (hash : bytes -> bytes) (order : list bytes -> list bytes).
  Context (Hps : ps_ok ps) (Hkw : (kw <= 16)%nat) (Hord : forall l t, t ∈ order l <-> t ∈ l).
  Notation dbrep := (dbrep rd kw ps hash).

  Lemma db_positions w PE PT PK Q s e : dbrep w PE PT PK Q s -> e ∈ s_hist s -> 1 <= e.1 <= nlen (s_hist s).
  Proof.
    intros H He. assert (e.1 ∈ map fst (s_hist s)) as Hin by (apply elem_of_list_fmap; eauto).
    rewrite (db_seq _ _ _ _ _ _ _ _ _ _ H), elem_of_seqN in Hin. unfold nlen. lia.
  Qed.

  Lemma read_dirty_ok w PE PT PK Q s q start limit :
    dbrep w PE PT PK Q s ->
    read_dirty rd hash order false q start limit w = (Ok (spec_read (s_hist s) q start false (Some limit)), w).
  Proof.
    intros H. unfold read_dirty, with_cancel. f_equal.
    pose proof (db_pool _ _ _ _ _ _ _ _ _ _ H) as Hp. destruct Hp as [Hnd Hlt _ _ _ _ _].
    apply NoDup_app in Hnd as (Hnd & _ & _). apply NoDup_app in Hnd as (HndE & _ & Hnd). apply NoDup_app in Hnd as (HndT & _ & _).
    eapply (read_conditional_ok kw ps hash order Hord (vget rd w)).
    - exact (db_hist _ _ _ _ _ _ _ _ _ _ H).
    - apply agrees_page_at.
    - apply agrees_page_at.
    - exact HndE.
    - exact HndT.
    - intros p Hin. specialize (Hlt p ltac:(set_solver)). lia.
    - intros p Hin. specialize (Hlt p ltac:(set_solver)). lia.
    - intros e He. apply (db_positions _ _ _ _ _ _ _ H) in He. lia.
  Qed.

  (** ** Indexing the tags of an event *)
  Notation tagsshape := (shape (tags_ops []) (tagsleaf kw ps)).
  Lemma insert_tags_ok pos : forall tags w P Q h ts,
    coh rd w -> pool_ok w (P ++ Q) -> tagsshape (vget rd w) h (w_tags_root w) P ts -> tags_sorted ts ->
    (forall t p, p ∈ idx (toks_es ts) t -> p <= pos) ->
    exists w' h' P' ts', insert_tags rd kw ps hash tags pos w = (Ok tt, w') /\ macc rd P w P' w' /\
      tagsshape (vget rd w') h' (w_tags_root w') P' ts' /\ tags_sorted ts' /\
      (forall x p, p ∈ idx (toks_es ts') x <-> p ∈ idx (toks_es ts) x \/ p = pos /\ exists t, t ∈ tags /\ hash t = x) /\
      w_events_root w' = w_events_root w /\ w_tracking_root w' = w_tracking_root w /\ w_next_pos w' = w_next_pos w.
  Proof.
    induction tags as [|t tags IH]; intros w P Q h ts Hc Hp Hs Hsrt Hmax; cbn [insert_tags].
    - exists w, h, P, ts. split; [reflexivity|]. split; [apply macc_refl|]. split; [exact Hs|]. split; [exact Hsrt|].
      split; [|auto]. intros x p. set_solver.
    - destruct (tags_insert_ok rd kw ps Hps Hkw w P Q h ts (hash t) pos Hc Hp Hs Hsrt Hmax) as (w1 & r1 & h1 & P1 & ts1 & E1 & A1 & S1 & Hs1 & I1).
      unfold wbind at 1. rewrite E1. pose proof (acc_macc _ _ _ _ _ A1) as M1.
      assert (M1' : macc rd P w P1 (set_tags_root r1 w1)) by exact M1.
      destruct (IH (set_tags_root r1 w1) P1 Q h1 ts1) as (w2 & h2 & P2 & ts2 & E2 & M2 & S2 & Hs2 & I2 & R1 & R2 & R3).
      + eapply macc_coh; eassumption.
      + eapply macc_pool; eassumption.
      + exact S1.
      + exact Hs1.
      + intros x p Hx. rewrite I1 in Hx. destruct (decide (x = hash t)) as [->|]; [|eauto].
        apply elem_of_app in Hx as [Hx|Hx]; [eauto|]. apply elem_of_list_singleton in Hx as ->. lia.
      + exists w2, h2, P2, ts2. split; [exact E2|]. split; [eapply macc_trans; eassumption|]. split; [exact S2|]. split; [exact Hs2|].
        split; [|split; [|split]].
        * intros x p. rewrite I2, I1. destruct (decide (x = hash t)) as [->|Hne].
          -- rewrite elem_of_app, elem_of_list_singleton. split.
             ++ intros [[H|H]|(-> & t' & Ht & Hh)]; [auto| |]; right; (split; [auto|]); [exists t|exists t']; (split; [set_solver|auto]).
             ++ intros [H|(-> & t' & Ht & Hh)]; [auto|]. auto.
          -- split.
             ++ intros [H|(-> & t' & Ht & Hh)]; [auto|]. right. split; [auto|]. exists t'. split; [set_solver|auto].
             ++ intros [H|(-> & t' & Ht & Hh)]; [auto|]. right. split; [auto|]. apply elem_of_cons in Ht as [->|Ht]; [congruence|eauto].
        * rewrite R1. destruct A1 as (po & k & fn & A1). exact (acc_eroot _ _ _ _ _ _ _ _ A1).
        * rewrite R2. destruct A1 as (po & k & fn & A1). exact (acc_kroot _ _ _ _ _ _ _ _ A1).
        * rewrite R3. destruct A1 as (po & k & fn & A1). exact (acc_pos _ _ _ _ _ _ _ _ A1).
  Qed.

  Lemma tsorted_snoc (ts : list (tok N seq_event)) X pos r :
    tsorted N.compare fst ts -> (forall e, e ∈ toks_es ts -> e.1 < pos) -> sep_ok fst ts ->
    X = [TE (pos, r)] \/ X = [TS pos; TE (pos, r)] ->
    tsorted N.compare fst (ts ++ X) /\ sep_ok fst (ts ++ X) /\ toks_es (ts ++ X) = toks_es ts ++ [(pos, r)].
  Proof.
    intros Hs Hlt Hsep HX.
    assert (Hall : forall a, a ∈ ts -> tk fst a < pos).
    { intros [e|k] Ha; cbn [tk]; [apply Hlt; now apply elem_toks_es|].
      destruct (sep_ok_ks _ _ _ Hsep Ha) as (e & He & <-). apply Hlt. now apply elem_toks_es. }
    split; [|split].
    - apply ss_app. split; [exact Hs|]. split.
      + destruct HX as [-> | ->]; repeat constructor. cbn. unfold cle. rewrite N.compare_refl. discriminate.
      + intros a b Ha Hb. specialize (Hall a Ha). assert (tk fst b = pos) as Eb by (destruct HX as [-> | ->]; set_solver).
        rewrite <- Eb in Hall. unfold tord. destruct a, b; cbn in *; unfold clt, cle; try (apply N.compare_lt_iff; exact Hall);
          rewrite (proj2 (N.compare_lt_iff _ _)) by exact Hall; discriminate.
    - clear -Hsep HX. induction ts as [|[e|k] ts IH]; cbn [app sep_ok] in *.
      + destruct HX as [-> | ->]; cbn; auto.
      + auto.
      + destruct Hsep as [H1 H2]. split; [|auto]. destruct ts as [|[e|k'] ts]; [contradiction|exact H1|contradiction].
    - rewrite toks_es_app. f_equal. destruct HX as [-> | ->]; reflexivity.
  Qed.

  Lemma hist_rep_view w w' er tr PE PT hist :
    hist_rep kw ps hash (vget rd w) er tr PE PT hist -> (forall q, q ∈ PE ++ PT -> vget rd w' q = vget rd w q) ->
    hist_rep kw ps hash (vget rd w') er tr PE PT hist.
  Proof.
    intros [(h & ts & Hs & H) (h2 & ts2 & Hs2 & H2)] Hq. split; [exists h, ts|exists h2, ts2]; (split; [|assumption]).
    - eapply shape_frame; [exact (evleaf_frame ps Hps)|exact Hs|]. intros q Hin. apply Hq. set_solver.
    - eapply shape_frame; [apply tagsleaf_frame|exact Hs2|]. intros q Hin. apply Hq. set_solver.
  Qed.

  Lemma seqN_snoc a n : seqN a (S n) = seqN a n ++ [a + N.of_nat n].
  Proof. replace (S n) with (n + 1)%nat by lia. rewrite seqN_app. reflexivity. Qed.

  (** One event. *)
  Lemma append_one_ok w PE PT PK Q s r sv :
    dbrep w PE PT PK Q s -> validate_event_record ps r = Ok sv -> rec_wf r -> 2 + nlen (s_hist s) < U64 ->
    exists w2 w3 PE' PT', issue_position w = (Ok (1 + nlen (s_hist s)), set_next_pos (2 + nlen (s_hist s)) w) /\
      (exists d o, sv = ((Inline r, d), o)) /\
      insert_tags rd kw ps hash (er_tags r) (1 + nlen (s_hist s)) (set_next_pos (2 + nlen (s_hist s)) w) = (Ok tt, w2) /\
      event_tree_append rd kw ps sv (1 + nlen (s_hist s)) w2 = (Ok tt, w3) /\
      macc rd (PE ++ PT ++ PK) w (PE' ++ PT' ++ PK) w3 /\
      dbrep w3 PE' PT' PK Q (SState (s_hist s ++ [(1 + nlen (s_hist s), r)]) (s_track s)).
  Proof.
    intros H Hv Hwf Hlen. set (pos := 1 + nlen (s_hist s)). set (w1 := set_next_pos (2 + nlen (s_hist s)) w).
    pose proof (fun e => db_positions w PE PT PK Q s e H) as Hposs.
    destruct H as [Hc Hp Hh (es & Hk & Htrk) Hseq Hnext]. destruct Hh as [(he & tse & Se & Hse & Hpe & Ee) (ht & tst & St & Hst & Hidx)].
    assert (E1 : issue_position w = (Ok pos, w1)).
    { unfold issue_position, w1, pos. rewrite Hnext, N.mod_small by lia. do 2 f_equal. lia. }
    assert (M1 : macc rd PT w PT w1) by exact (macc_refl rd PT w).
    assert (Hp1 : pool_ok w1 (PT ++ PE ++ PK ++ Q)).
    { assert (pool_ok w (PT ++ PE ++ PK ++ Q)) as Hp' by (eapply pool_ok_perm; [|exact Hp]; solve_Permutation). exact (macc_pool _ _ _ _ _ _ M1 Hp'). }
    destruct (insert_tags_ok pos (er_tags r) w1 PT (PE ++ PK ++ Q) ht tst) as (w2 & h2 & PT' & ts2 & E2 & M2 & S2 & Hs2 & I2 & R1 & R2 & R3);
      [exact Hc|exact Hp1|exact St|exact Hst| |].
    { intros t p Hin. apply Hidx in Hin as (r' & _ & Hr & _). apply Hposs in Hr. cbn in Hr. unfold pos. lia. }
    assert (V2 : forall q, q ∈ PE ++ PK ++ Q -> vget rd w2 q = vget rd w q) by (intros q Hq; apply (macc_view _ _ _ _ _ _ _ M2 Hp1 Hq)).
    pose proof (macc_pool _ _ _ _ _ _ M2 Hp1) as Hp2.
    assert (Hp2' : pool_ok w2 (PE ++ PT' ++ PK ++ Q)) by (eapply pool_ok_perm; [|exact Hp2]; solve_Permutation).
    pose proof (macc_coh _ _ _ _ _ M2 Hc) as Hc2.
    assert (Se2 : shape ev_ops evleaf (vget rd w2) he (w_events_root w2) PE tse).
    { rewrite R1. eapply shape_frame; [exact (evleaf_frame ps Hps)|exact Se|]. intros q Hin. apply V2. set_solver. }
    destruct (event_append_ok rd kw ps Hps w2 PE _ he tse pos r sv Hc2 Hp2' Se2 Hv Hwf) as (w3 & r3 & h3 & PE' & ts3 & E3 & A3 & S3 & Ets).
    pose proof (acc_macc _ _ _ _ _ A3) as M3. assert (M3' : macc rd PE w2 PE' (set_events_root r3 w3)) by exact M3.
    assert (V3 : forall q, q ∈ PT' ++ PK ++ Q -> vget rd (set_events_root r3 w3) q = vget rd w2 q) by (intros q Hq; apply (macc_view _ _ _ _ _ _ _ M3' Hp2' Hq)).
    exists w2, (set_events_root r3 w3), PE', PT'. split; [exact E1|]. split.
    { destruct (validate_spec ps r sv Hv Hwf) as (_ & _ & [[-> _]|(d & ov & _ & -> & _)]); eauto. }
    split; [exact E2|]. split; [exact E3|]. split.
    { eapply macc_trans; [|apply (acc_frame_r rd (PT' ++ PK)); exact M3'].
      eapply acc_perm_l; [|eapply acc_perm_r; [|apply (acc_frame_r rd (PE ++ PK)); exact M2]]; solve_Permutation. }
    destruct (tsorted_snoc tse (drop (length tse) ts3) pos r Hse) as (T1 & T2 & T3).
    { intros e He. rewrite Ee in He. apply Hposs in He. unfold pos. lia. }
    { exact Hpe. }
    { destruct Ets as [-> | ->]; rewrite drop_app; auto. }
    assert (Ets' : tse ++ drop (length tse) ts3 = ts3) by (destruct Ets as [-> | ->]; now rewrite drop_app).
    rewrite Ets' in T1, T2, T3.
    assert (AR : w_tags_root w3 = w_tags_root w2 /\ w_tracking_root w3 = w_tracking_root w2 /\ w_next_pos w3 = w_next_pos w2).
    { destruct A3 as (po & k & fn & [A1' A2' A3' A4' A5' A6' A7' A8' A9' A10' A11' A12' A13' A14' A15' A16' A17' A18' A19']). auto. }
    destruct AR as (AR1 & AR2 & AR3).
    constructor.
    - eapply macc_coh; eassumption.
    - exact (macc_pool _ _ _ _ _ _ M3' Hp2').
    - split.
      + exists h3, ts3. split; [exact S3|]. split; [exact T1|]. split; [exact T2|]. rewrite T3, Ee. reflexivity.
      + exists h2, ts2. split; [|split; [exact Hs2|]].
        * eapply shape_frame; [apply tagsleaf_frame| |intros q Hq; apply V3; set_solver]. cbn [w_tags_root set_events_root]. rewrite AR1. exact S2.
        * intros x p. rewrite I2, (Hidx x p). cbn [s_hist]. split.
          -- intros [(r' & t & Hr & Ht & Hx)|(-> & t & Ht & Hx)]; [exists r', t|exists r, t]; (split; [set_solver|auto]).
          -- intros (r' & t & Hr & Ht & Hx). apply elem_of_app in Hr as [Hr|Hr]; [left; eauto|].
             apply elem_of_list_singleton in Hr as [= -> ->]. right. split; [reflexivity|eauto].
    - exists es. split; [|exact Htrk]. cbn [w_tracking_root set_events_root]. rewrite AR2, R2.
      eapply trkrep_frame; [exact Hk|]. intros q Hq. rewrite V3 by set_solver. apply V2. set_solver.
    - cbn [s_hist]. rewrite map_app, app_length, Nat.add_1_r, seqN_snoc, Hseq. unfold nlen in pos. reflexivity.
    - cbn [s_hist w_next_pos set_events_root]. rewrite AR3, R3. unfold w1. cbn. unfold nlen. rewrite app_length. cbn. lia.
  Qed.

  Lemma nlen_app {A} (a b : list A) : nlen (a ++ b) = nlen a + nlen b.
  Proof. unfold nlen. rewrite app_length. lia. Qed.
  Lemma nlen_cons {A} (a : A) b : nlen (a :: b) = 1 + nlen b.
  Proof. unfold nlen. cbn. lia. Qed.

  Lemma append_values_ok : forall rs svs w PE PT PK Q s lst,
    dbrep w PE PT PK Q s -> Forall2 (fun r sv => validate_event_record ps r = Ok sv) rs svs -> Forall rec_wf rs ->
    1 + nlen (s_hist s) + nlen rs < U64 ->
    exists w' PE' PT',
      append_values rd kw ps hash svs lst w = (Ok (match rs with [] => lst | _ => last_pos (number (1 + nlen (s_hist s)) rs) end), w') /\
      macc rd (PE ++ PT ++ PK) w (PE' ++ PT' ++ PK) w' /\
      dbrep w' PE' PT' PK Q (SState (s_hist s ++ number (1 + nlen (s_hist s)) rs) (s_track s)).
  Proof.
    induction rs as [|r rs IH]; intros svs w PE PT PK Q s lst H Hv Hwf Hlen.
    - inversion Hv; subst. exists w, PE, PT. split; [reflexivity|]. split; [apply macc_refl|]. cbn [number]. rewrite app_nil_r. now destruct s.
    - inversion Hv as [|? sv ? svs' Hv1 Hv2]; subst. rewrite Forall_cons in Hwf. destruct Hwf as [Hwf1 Hwf2]. rewrite nlen_cons in Hlen.
      destruct (append_one_ok w PE PT PK Q s r sv H Hv1 Hwf1 ltac:(lia)) as (w2 & w3 & PE1 & PT1 & E1 & (d & o & Esv) & E2 & E3 & M & H3).
      destruct (IH svs' w3 PE1 PT1 PK Q _ (1 + nlen (s_hist s)) H3 Hv2 Hwf2) as (w4 & PE2 & PT2 & E4 & M4 & H4).
      { cbn [s_hist]. rewrite nlen_app. change (nlen [?x]) with 1. lia. }
      exists w4, PE2, PT2. split; [|split; [eapply macc_trans; eassumption|]].
      + cbn [append_values]. unfold wbind at 1. rewrite E1. rewrite Esv at 1. unfold wbind at 1. rewrite E2. unfold wbind at 1. rewrite E3, E4.
        do 2 f_equal. destruct rs as [|r' rs]; [reflexivity|]. cbn [s_hist number]. rewrite nlen_app. change (nlen [?x]) with 1.
        replace (1 + (nlen (s_hist s) + 1)) with (1 + nlen (s_hist s) + 1) by lia. reflexivity.
      + cbn [s_hist s_track number] in *. rewrite nlen_app, <- app_assoc in H4. change (nlen [?x]) with 1 in H4. cbn [app] in H4.
        replace (1 + (nlen (s_hist s) + 1)) with (1 + nlen (s_hist s) + 1) in H4 by lia. exact H4.
  Qed.

  (** ** The condition *)
  Lemma idempotent_ok w PE PT PK Q s evs c :
    dbrep w PE PT PK Q s -> nlen evs <= 4294967295 -> evs <> [] ->
    is_request_idempotent rd hash order false evs (ac_query c) (match ac_after c with Some a => Some (a + 1) | None => None end) w =
    (Ok (if decide (is_retry (s_hist s) evs c) then Some (last_pos (events_after (s_hist s) c (nlen evs))) else None), w).
  Proof.
    intros H Hlen Hne. unfold is_request_idempotent.
    destruct (forallb (fun e => is_someb (ne_uuid e)) evs) eqn:Ef; cbn [andb].
    2: { rewrite decide_False; [reflexivity|]. intros (_ & Hf & _). rewrite <- not_true_iff_false in Ef. apply Ef.
         apply forallb_forall. intros e He. rewrite Forall_forall in Hf. apply elem_of_list_In in He. destruct (Hf e He) as [u ->]. reflexivity. }
    rewrite (proj2 (N.leb_le _ _)) by exact Hlen. unfold wbind at 1. rewrite (read_dirty_ok _ _ _ _ _ _ _ _ _ H).
    fold (events_after (s_hist s) c (nlen evs)). set (found := events_after (s_hist s) c (nlen evs)).
    destruct (N.eqb_spec (nlen found) (nlen evs)) as [El|El].
    - unfold last_pos. destruct (last found) as [e|] eqn:Elast.
      + unfold ret. do 2 f_equal. destruct (decide (map _ found = map ne_uuid evs)) as [Em|Em].
        * rewrite decide_True; [reflexivity|]. split; [exact Hne|]. split; [|exact Em].
          apply Forall_forall. intros x Hx. rewrite forallb_forall in Ef. apply elem_of_list_In, Ef in Hx. destruct (ne_uuid x); [eauto|discriminate].
        * rewrite decide_False; [reflexivity|]. intros (_ & _ & H'). contradiction.
      + apply last_None in Elast. rewrite Elast in El. destruct evs; [congruence|]. rewrite nlen_cons in El. cbn in El. lia.
    - rewrite decide_False; [reflexivity|]. intros (_ & _ & H'). apply El. unfold nlen. rewrite <- (map_length (fun f : seq_event => er_uuid f.2) found), <- (map_length ne_uuid evs).
      do 2 f_equal. exact H'.
  Qed.

  (** The request can be answered: the documented use of the interface. *)
  Record request_ok (s : spec_state) (evs : list new_event) (cond : option append_condition) (trk : option tracking) : Prop := {
    ro_wf : Forall rec_wf (map (to_record trk) evs);
    ro_count : nlen evs <= 4294967295;
    ro_after : forall c a, cond = Some c -> ac_after c = Some a -> a + 1 < U64;
    ro_nonempty : forall c, cond = Some c -> evs <> [];
    ro_room : 1 + nlen (s_hist s) + nlen evs < U64 }.

  Theorem process_append_ok w PE PT PK Q s evs cond trk :
    dbrep w PE PT PK Q s -> request_ok s evs cond trk ->
    exists w' PE' PT' PK',
      process_append_request rd kw ps hash order (false, false) evs cond trk w = ((spec_append ps s evs cond trk).1, w') /\
      macc rd (PE ++ PT ++ PK) w (PE' ++ PT' ++ PK') w' /\
      dbrep w' PE' PT' PK' Q (spec_append ps s evs cond trk).2 /\
      ((spec_append ps s evs cond trk).2 = s -> evs <> [] \/ (forall p, (spec_append ps s evs cond trk).1 <> Ok p) -> sim w w').
  Proof.
    intros H [Hwf Hcnt Haft Hne Hroom]. unfold process_append_request, spec_append. cbv zeta.
    match goal with |- context [match cond with Some _ => _ | None => ?x end] => set (accept := x) end.
    assert (Hacc : exists w' PE' PT' PK',
      (let! svs := lift (validate_all ps (map (to_record trk) evs)) in
       do! match trk with Some t => tracking_upsert rd kw ps (tr_source t) (tr_pos t) | None => ret tt end in
       match svs with [] => ret 0 | _ => append_values rd kw ps hash svs 0 end) w = (accept.1, w') /\
      macc rd (PE ++ PT ++ PK) w (PE' ++ PT' ++ PK') w' /\ dbrep w' PE' PT' PK' Q accept.2 /\
      (accept.2 = s -> evs <> [] \/ (forall p, accept.1 <> Ok p) -> sim w w')).
    { clear Haft Hne. subst accept. unfold wbind at 1, lift at 1.
      pose proof (validate_all_ok ps (map (to_record trk) evs)) as Hval. destruct (decide (Forall (event_ok ps) _)) as [Hok|Hok].
      2: { rewrite Hval. exists w, PE, PT, PK. split; [reflexivity|]. split; [apply macc_refl|]. split; [exact H|]. intros; apply sim_refl. }
      destruct Hval as (svs & -> & Hv).
      assert (Hgo : forall w1 PK1 t, macc rd (PE ++ PT ++ PK) w (PE ++ PT ++ PK1) w1 -> dbrep w1 PE PT PK1 Q (SState (s_hist s) t) ->
        exists w' PE' PT' PK', match svs with [] => ret 0 | _ => append_values rd kw ps hash svs 0 end w1 =
          (Ok (last_pos (number (1 + nlen (s_hist s)) (map (to_record trk) evs))), w') /\
          macc rd (PE ++ PT ++ PK) w (PE' ++ PT' ++ PK') w' /\
          dbrep w' PE' PT' PK' Q (SState (s_hist s ++ number (1 + nlen (s_hist s)) (map (to_record trk) evs)) t)).
      { intros w1 PK1 t M1 H1.
        destruct (append_values_ok _ svs w1 PE PT PK1 Q _ 0 H1 Hv Hwf) as (w' & PE' & PT' & E' & M' & H').
        { cbn [s_hist]. unfold nlen in *. rewrite map_length. exact Hroom. }
        exists w', PE', PT', PK1. split; [|split; [eapply macc_trans; eassumption|exact H']].
        destruct (map (to_record trk) evs) as [|r rs]; inversion Hv; subst; exact E'. }
      assert (Hne2 : forall t, SState (s_hist s ++ number (1 + nlen (s_hist s)) (map (to_record trk) evs)) t = s -> evs = []).
      { intros t Hs. destruct evs as [|e evs]; [reflexivity|]. exfalso. apply (f_equal (fun x => length (s_hist x))) in Hs.
        cbn [s_hist map number] in Hs. rewrite app_length in Hs. cbn in Hs. lia. }
      destruct trk as [[src pos]|]; cbn [spec_track tr_source tr_pos].
      - pose proof H as [Hc Hp Hh (es & Hk & Htrk) Hseq Hnext].
        assert (Hp' : pool_ok w (PK ++ PE ++ PT ++ Q)) by (eapply pool_ok_perm; [|exact Hp]; solve_Permutation).
        pose proof (tracking_upsert_ok rd kw ps Hps w PK _ es src pos Hc Hp' Hk) as Hup. rewrite <- Htrk in Hup.
        destruct (255 <? nlen src).
        { exists w, PE, PT, PK. unfold wbind at 1. rewrite Hup. split; [reflexivity|]. split; [apply macc_refl|]. split; [exact H|]. intros; apply sim_refl. }
        assert (Hreject : (exists w1, tracking_upsert rd kw ps src pos w = (Err EIntegrity, w1) /\ sim w w1 /\ coh rd w1) ->
           exists w' PE' PT' PK', (do! tracking_upsert rd kw ps src pos in match svs with [] => ret 0 | _ => append_values rd kw ps hash svs 0 end) w = ((@Err N EIntegrity, s).1, w') /\
             macc rd (PE ++ PT ++ PK) w (PE' ++ PT' ++ PK') w' /\ dbrep w' PE' PT' PK' Q (@Err N EIntegrity, s).2 /\ ((@Err N EIntegrity, s).2 = s -> evs <> [] \/ (forall p, (@Err N EIntegrity, s).1 <> Ok p) -> sim w w')).
        { intros (w1 & E1 & S1 & C1). exists w1, PE, PT, PK. unfold wbind at 1. rewrite E1. split; [reflexivity|].
          pose proof (macc_sim rd (PE ++ PT ++ PK) _ _ S1 C1) as M1. split; [exact M1|]. split; [|auto].
          assert (Hv1 : forall q, vget rd w1 q = vget rd w q) by (intros q; now apply sim_view).
          destruct S1 as [S1 S1']. cbn [snd]. constructor.
          - exact C1.
          - rewrite S1. destruct Hp. now constructor.
          - assert (w_events_root w1 = w_events_root w) as -> by now rewrite S1. assert (w_tags_root w1 = w_tags_root w) as -> by now rewrite S1.
            eapply hist_rep_view; [exact Hh|auto].
          - exists es. split; [|exact Htrk]. assert (w_tracking_root w1 = w_tracking_root w) as -> by now rewrite S1. eapply trkrep_frame; [exact Hk|auto].
          - exact Hseq.
          - rewrite S1. exact Hnext. }
        assert (Haccept : (exists w1 root' P' es', tracking_upsert rd kw ps src pos w = (Ok tt, set_tracking_root root' w1) /\ acc rd PK w P' w1 /\
             trkrep (vget rd w1) root' P' es' /\ (forall x, alookup x es' = if decide (x = src) then Some pos else alookup x es)) ->
           let ans := (Ok (last_pos (number (1 + nlen (s_hist s)) (map (to_record (Some (Tracking src pos))) evs))),
                SState (s_hist s ++ number (1 + nlen (s_hist s)) (map (to_record (Some (Tracking src pos))) evs)) (fun x => if decide (x = src) then Some pos else s_track s x)) in
           exists w' PE' PT' PK', (do! tracking_upsert rd kw ps src pos in match svs with [] => ret 0 | _ => append_values rd kw ps hash svs 0 end) w = (ans.1, w') /\
             macc rd (PE ++ PT ++ PK) w (PE' ++ PT' ++ PK') w' /\ dbrep w' PE' PT' PK' Q ans.2 /\ (ans.2 = s -> evs <> [] \/ (forall p, ans.1 <> Ok p) -> sim w w')).
        { intros (w1 & root' & P' & es' & E1 & A1 & T1 & L1) ans. unfold wbind at 1. rewrite E1.
          assert (M1 : macc rd PK w P' (set_tracking_root root' w1)) by exact (acc_macc _ _ _ _ _ A1).
          assert (AR : w_events_root w1 = w_events_root w /\ w_tags_root w1 = w_tags_root w /\ w_next_pos w1 = w_next_pos w).
          { destruct A1 as (po & k & fn & [A1' A2' A3' A4' A5' A6' A7' A8' A9' A10' A11' A12' A13' A14' A15' A16' A17' A18' A19']). auto. }
          destruct AR as (AR1 & AR2 & AR3).
          destruct (Hgo (set_tracking_root root' w1) P' (fun x => if decide (x = src) then Some pos else s_track s x)) as (w' & PE' & PT' & PK' & E' & M' & H').
          - eapply acc_perm_l; [|eapply acc_perm_r; [|apply (acc_frame_r rd (PE ++ PT)); exact M1]]; solve_Permutation.
          - constructor; cbn [s_hist s_track].
            + eapply macc_coh; eassumption.
            + eapply pool_ok_perm; [|eapply macc_pool; [exact M1|exact Hp']]. solve_Permutation.
            + cbn [w_events_root w_tags_root set_tracking_root]. rewrite AR1, AR2. eapply hist_rep_view; [exact Hh|].
              intros q Hq. apply (macc_view _ _ _ _ _ _ _ M1 Hp'). set_solver.
            + exists es'. split; [exact T1|]. intros x. rewrite L1, Htrk. reflexivity.
            + exact Hseq.
            + cbn [w_next_pos set_tracking_root]. rewrite AR3. exact Hnext.
          - exists w', PE', PT', PK'. split; [exact E'|]. split; [exact M'|]. split; [exact H'|].
            intros Hs [Hevs|Hevs]; [apply Hne2 in Hs; contradiction|]. exfalso. exact (Hevs _ eq_refl). }
        destruct (s_track s src) as [e|]; [destruct (pos <=? e)|]; [apply Hreject, Hup|apply Haccept, Hup|apply Haccept, Hup].
      - unfold wbind at 1, ret at 1. destruct (Hgo w PK (s_track s)) as (w' & PE' & PT' & PK' & E' & M' & H'); [apply macc_refl|now destruct s|].
        exists w', PE', PT', PK'. split; [exact E'|]. split; [exact M'|]. split; [exact H'|].
        intros Hs [Hevs|Hevs]; [apply Hne2 in Hs; contradiction|]. exfalso. exact (Hevs _ eq_refl). }
    destruct cond as [c|]; cbn [check_condition].
    2: { unfold wbind at 1, ret at 1. exact Hacc. }
    assert (Efrom : match ac_after c with Some a => Some ((a + 1) mod U64) | None => None end = match ac_after c with Some a => Some (a + 1) | None => None end).
    { destruct (ac_after c) as [a|] eqn:Ea; [|reflexivity]. rewrite N.mod_small; [reflexivity|]. eapply Haft; eauto. }
    rewrite Efrom. set (from := match ac_after c with Some a => Some (a + 1) | None => None end).
    match goal with |- context [wbind (wbind ?m ?f) ?g w] => assert (Hb : wbind (wbind m f) g w = match f (events_after (s_hist s) c 1) w with (Ok a, w') => g a w' | (Err e, w') => (Err e, w') end) end.
    { unfold wbind at 1 2. cbn [fst]. unfold from. rewrite (read_dirty_ok _ _ _ _ _ _ _ _ _ H). reflexivity. }
    rewrite Hb. clear Hb. destruct (events_after (s_hist s) c 1) as [|e0 l0]; [exact Hacc|].
    cbv beta iota. unfold wbind at 1. cbn [snd]. unfold from. rewrite (idempotent_ok _ _ _ _ _ _ _ c H Hcnt (Hne c eq_refl)).
    exists w, PE, PT, PK. destruct (decide (is_retry (s_hist s) evs c)); cbn [fst snd ret fail].
    - split; [reflexivity|]. split; [apply macc_refl|]. split; [exact H|]. intros; apply sim_refl.
    - split; [reflexivity|]. split; [apply macc_refl|]. split; [exact H|]. intros; apply sim_refl.
  Qed.
End append.
