(** Correctness of the events tree append, overflow chains and lookup. *)
From Verif Require Export EventsTree TreeLaws CodecProofs.
Local Open Scope N_scope.

(** What the type [DcbEvent] guarantees (strings are UTF-8, a uuid has 16 bytes) and what fits memory. *)
Definition rec_wf (r : event_record) : Prop :=
  utf8_ok (er_type r) = true /\ Forall (fun t => utf8_ok t = true) (er_tags r) /\
  opt_ok uuid_ok (er_uuid r) /\
  Forall (fun kv => utf8_ok kv.1 = true /\ utf8_ok kv.2 = true) (er_meta r) /\
  opt_ok (fun t => utf8_ok (tr_source t) = true /\ tr_pos t < U64) (er_tracking r) /\
  nlen (er_data r) + meta_size (er_meta r) < U64.

Definition meta_bytes (m : list (bytes * bytes)) : bytes := match m with [] => [] | _ => meta_ser m end.
Definition meta_len (m : list (bytes * bytes)) : N := match m with [] => 0 | _ => meta_size m end.
Lemma nlen_meta_bytes m : nlen (meta_bytes m) = meta_len m.
Proof. destruct m; [reflexivity|]. apply meta_size_eq. Qed.

(** ** Overflow chains *)
Inductive chain (get : N -> option node) : N -> list N -> bytes -> Prop :=
| ch_end : chain get 0 [] []
| ch_cons p next d P rest :
    p <> 0 -> get p = Some (NEvOverflow (EvOverflow next d)) -> chain get next P rest ->
    chain get p (p :: P) (d ++ rest).

Lemma chain_frame get get' p P d :
  chain get p P d -> (forall q, q ∈ P -> get' q = get q) -> chain get' p P d.
Proof.
  induction 1 as [|p next d P rest Hp Hg Hc IH]; intros Hq; [apply ch_end|].
  apply (ch_cons _ p next d P rest); [exact Hp| |].
  - rewrite Hq by set_solver. exact Hg.
  - apply IH. set_solver.
Qed.

Definition agrees (get : N -> option node) (pg : snapshot) (P : list N) : Prop :=
  forall q n, q ∈ P -> get q = Some n -> pg q = Ok n.

Lemma read_chain_ok get pg p P d fuel :
  chain get p P d -> agrees get pg P -> (length P <= fuel)%nat -> read_overflow_chain fuel pg p = Ok d.
Proof.
  intros Hc. revert fuel. induction Hc as [|p next d P rest Hp Hg Hc IH]; intros fuel Ha Hf.
  - destruct fuel; reflexivity.
  - destruct fuel as [|fuel]; [cbn in Hf; lia|]. cbn [read_overflow_chain].
    rewrite (proj2 (N.eqb_neq p 0)) by exact Hp.
    rewrite (Ha p _ ltac:(set_solver) Hg). cbn [rbind]. cbn [ov_next ov_data].
    rewrite IH; [reflexivity| |cbn in Hf; lia]. intros q n Hq. apply Ha. set_solver.
Qed.

Lemma chunk_loop_concat fuel cap data : (0 < cap)%nat -> (length data <= fuel)%nat -> concat (chunk_loop fuel cap data) = data.
Proof.
  intros Hc. revert data. induction fuel as [|fuel IH]; intros data Hf.
  - destruct data; [reflexivity|cbn in Hf; lia].
  - cbn [chunk_loop]. destruct data as [|b data]; [reflexivity|].
    cbn [concat]. rewrite IH.
    + apply take_drop.
    + rewrite drop_length. cbn [length] in *. lia.
Qed.
Lemma chunk_loop_size fuel cap data : Forall (fun c => (length c <= cap)%nat) (chunk_loop fuel cap data).
Proof.
  revert data. induction fuel as [|fuel IH]; intros data; cbn [chunk_loop]; [constructor|].
  destruct data as [|b data]; [constructor|]. constructor; [rewrite take_length; lia|apply IH].
Qed.
Lemma chunks_concat cap data : (0 < cap)%nat -> concat (chunks cap data) = data.
Proof. intros H. now apply chunk_loop_concat. Qed.

Section proofs.
  Context (rd : snapshot) (kw : nat) (ps : N) (Hps : ps_ok ps).

  Lemma write_chunks_ok : forall rc next C0 d0 w Q,
    chain (vget rd w) next C0 d0 -> pool_ok w (C0 ++ Q) ->
    exists w' root C, write_chunks rc next w = (Ok root, w') /\ acc rd C0 w C w' /\
      chain (vget rd w') root C (concat (rev rc) ++ d0) /\
      (forall p n, w_dirty w' !! p = Some n -> w_dirty w !! p = Some n \/
         exists nx c, n = NEvOverflow (EvOverflow nx c) /\ c ∈ rc).
  Proof.
    induction rc as [|c rc IH]; intros next C0 d0 w Q Hc Hp.
    - exists w, next, C0. split; [reflexivity|]. split; [apply acc_refl|]. split; [exact Hc|auto].
    - cbn [write_chunks].
      destruct (alloc_ok rd w _ Hp) as (q & w1 & E1 & HqP & Hqf & Hq2 & Hins).
      destruct (Hins (NEvOverflow (EvOverflow next c))) as (w2 & E2 & A2 & D2).
      unfold wbind at 1. rewrite E1. unfold wbind at 1. rewrite E2.
      assert (Hc2 : chain (vget rd w2) q (q :: C0) (c ++ d0)).
      { apply (ch_cons _ q next c C0 d0); [lia| |].
        - apply dirty_vget. rewrite D2, lookup_insert. reflexivity.
        - eapply chain_frame; [exact Hc|]. intros x Hx. eapply (acc_view rd [] w [q] w2 (C0 ++ Q)); [exact A2|exact Hp|]. set_solver. }
      pose proof (acc_pool' rd [] w [q] w2 (C0 ++ Q) A2 Hp) as Hp2.
      destruct (IH q (q :: C0) (c ++ d0) w2 Q Hc2 Hp2) as (w3 & root & C & E3 & A3 & Hc3 & Hd3).
      exists w3, root, C. split; [exact E3|]. split; [|split].
      + eapply acc_trans; [|exact A3]. apply (acc_frame_r rd C0 [] w [q] w2 A2).
      + cbn [rev]. rewrite concat_app. cbn [concat]. rewrite app_nil_r, <- app_assoc. exact Hc3.
      + intros p n Hn. destruct (Hd3 p n Hn) as [H|(nx & c' & -> & Hin)].
        * rewrite D2 in H. apply lookup_insert_Some in H as [[<- <-]|[_ H]]; [|auto].
          right. exists next, c. split; [reflexivity|set_solver].
        * right. exists nx, c'. split; [reflexivity|set_solver].
  Qed.

  Definition ovf_fits (n : node) : Prop := exists nx c, n = NEvOverflow (EvOverflow nx c) /\ nlen c <= ps - 17.

  Lemma write_overflow_chain_ok data w Q :
    pool_ok w Q ->
    exists w' root C, write_overflow_chain ps data w = (Ok root, w') /\ acc rd [] w C w' /\
      chain (vget rd w') root C data /\
      (forall p n, w_dirty w' !! p = Some n -> w_dirty w !! p = Some n \/ ovf_fits n).
  Proof.
    intros Hp. unfold write_overflow_chain. cbv zeta. unfold ps_ok in Hps.
    rewrite (proj2 (N.eqb_neq _ 0)) by (unfold PAGE_HEADER_SIZE; lia).
    set (cap := N.to_nat (ps - (PAGE_HEADER_SIZE + 8))).
    assert (0 < cap)%nat as Hcap by (unfold cap, PAGE_HEADER_SIZE; lia).
    pose proof (chunks_concat cap data Hcap) as Hcc.
    pose proof (chunk_loop_size (length data) cap data) as Hsz. fold (chunks cap data) in Hsz.
    destruct (chunks cap data) as [|c0 cs0] eqn:Ech.
    - cbn in Hcc. subst data.
      destruct (alloc_ok rd w _ Hp) as (q & w1 & E1 & HqP & Hqf & Hq2 & Hins).
      destruct (Hins (NEvOverflow (EvOverflow 0 []))) as (w2 & E2 & A2 & D2).
      unfold wbind at 1. rewrite E1. unfold wbind at 1. rewrite E2.
      exists w2, q, [q]. split; [reflexivity|]. split; [exact A2|]. split.
      + apply (ch_cons _ q 0 [] [] []); [lia| |constructor]. apply dirty_vget. rewrite D2, lookup_insert. reflexivity.
      + intros p n Hn. rewrite D2 in Hn. apply lookup_insert_Some in Hn as [[<- <-]|[_ H]]; [|auto].
        right. exists 0, []. split; [reflexivity|]. unfold nlen; cbn; lia.
    - destruct (write_chunks_ok (rev (c0 :: cs0)) 0 [] [] w Q (ch_end _) Hp) as (w' & root & C & E & A & Hc & Hd).
      exists w', root, C. split; [exact E|]. split; [exact A|]. split.
      + rewrite rev_involutive, app_nil_r, Hcc in Hc. exact Hc.
      + intros p n Hn. destruct (Hd p n Hn) as [H|(nx & c & -> & Hin)]; [auto|right].
        exists nx, c. split; [reflexivity|]. apply elem_of_list_In, in_rev, elem_of_list_In in Hin.
        rewrite Forall_forall in Hsz. specialize (Hsz c Hin). unfold nlen, cap, PAGE_HEADER_SIZE in *. lia.
  Qed.

  (** ** Event values *)
  Definition valrep (get : N -> option node) (v : event_value) (C : list N) (r : event_record) : Prop :=
    match v with
    | Inline r' => r' = r /\ C = []
    | Overflow ty dl tags root uuid ml trk =>
      r = EventRecord ty (er_data r) tags uuid (er_meta r) trk /\
      dl = nlen (er_data r) /\ ml = meta_len (er_meta r) /\ dl + ml < U64 /\ meta_ok (er_meta r) /\
      chain get root C (meta_bytes (er_meta r) ++ er_data r)
    end.

  Lemma valrep_frame get get' v C r :
    valrep get v C r -> (forall q, q ∈ C -> get' q = get q) -> valrep get' v C r.
  Proof.
    destruct v; cbn; [auto|]. intros (H1 & H2 & H3 & H4 & H5 & H6) Hq. repeat split; auto; try apply H5.
    eapply chain_frame; eassumption.
  Qed.

  Lemma materialize_ok get pg v C r fuel :
    valrep get v C r -> agrees get pg C -> (length C <= fuel)%nat -> materialize fuel pg v = Ok r.
  Proof.
    destruct v as [r'|ty dl tags root uuid ml trk]; cbn [valrep materialize].
    - now intros [-> _].
    - intros (Er & -> & -> & Hlt & Hm & Hc) Ha Hf.
      rewrite (read_chain_ok _ _ _ _ _ _ Hc Ha Hf). cbn [rbind].
      rewrite N.mod_small by exact Hlt. rewrite nlen_app, nlen_meta_bytes.
      replace (meta_len (er_meta r) + nlen (er_data r) =? nlen (er_data r) + meta_len (er_meta r)) with true
        by (symmetry; apply N.eqb_eq; lia). cbn [negb].
      assert (N.to_nat (meta_len (er_meta r)) = length (meta_bytes (er_meta r))) as El.
      { rewrite <- nlen_meta_bytes. unfold nlen. lia. }
      rewrite El.
      assert (slice_range 0 (length (meta_bytes (er_meta r))) (meta_bytes (er_meta r) ++ er_data r) = Ok (meta_bytes (er_meta r))) as ->.
      { unfold slice_range.
        match goal with |- (if ?b then _ else _) = _ => replace b with true end.
        2: { symmetry. rewrite andb_true_iff, app_length, !Nat.leb_le. lia. }
        now rewrite drop_0, Nat.sub_0_r, take_app. }
      cbn [rbind]. rewrite drop_app.
      destruct (er_meta r) as [|kv m] eqn:Em.
      + cbn [meta_len meta_bytes]. cbn [N.ltb]. cbn [rbind]. f_equal. symmetry. rewrite Er at 1. reflexivity.
      + replace (0 <? meta_len (kv :: m)) with true.
        2: { symmetry. apply N.ltb_lt. unfold meta_len, meta_size. lia. }
        unfold meta_bytes. rewrite meta_rt by exact Hm. cbn [rbind]. f_equal. symmetry. rewrite Er at 1. reflexivity.
  Qed.

  Inductive valsrep (get : N -> option node) : list event_value -> list N -> list event_record -> Prop :=
  | vr_nil : valsrep get [] [] []
  | vr_cons v C r vs Cs rs : valrep get v C r -> valsrep get vs Cs rs -> valsrep get (v :: vs) (C ++ Cs) (r :: rs).

  Lemma valsrep_frame get get' vs Cs rs :
    valsrep get vs Cs rs -> (forall q, q ∈ Cs -> get' q = get q) -> valsrep get' vs Cs rs.
  Proof.
    induction 1 as [|v C r vs Cs rs Hv Hvs IH]; intros Hq; constructor.
    - eapply valrep_frame; [exact Hv|set_solver].
    - apply IH. set_solver.
  Qed.
  Lemma valsrep_snoc get vs Cs rs v C r :
    valsrep get vs Cs rs -> valrep get v C r -> valsrep get (vs ++ [v]) (Cs ++ C) (rs ++ [r]).
  Proof.
    intros H Hv. induction H as [|v0 C0 r0 vs Cs rs Hv0 Hvs IH]; cbn [app].
    - rewrite <- (app_nil_r C). constructor; [exact Hv|constructor].
    - rewrite <- app_assoc. constructor; auto.
  Qed.
  Lemma valsrep_length get vs Cs rs : valsrep get vs Cs rs -> length vs = length rs.
  Proof. induction 1; cbn; auto. Qed.
  Lemma valsrep_lookup get vs Cs rs i v :
    valsrep get vs Cs rs -> vs !! i = Some v ->
    exists r C C1 C2, rs !! i = Some r /\ valrep get v C r /\ Cs = C1 ++ C ++ C2.
  Proof.
    intros H. revert i. induction H as [|v0 C0 r0 vs Cs rs Hv0 Hvs IH]; intros i Hi.
    - now rewrite lookup_nil in Hi.
    - destruct i as [|i]; cbn in Hi.
      + injection Hi as ->. exists r0, C0, [], Cs. auto.
      + destruct (IH i Hi) as (r & C & C1 & C2 & H1 & H2 & ->). exists r, C, (C0 ++ C1), C2.
        repeat split; auto. now rewrite <- app_assoc.
  Qed.

  Notation entry := (N * event_record)%type.
  Definition evleaf (get : N -> option node) (n : node) (P : list N) (es : list entry) : Prop :=
    exists vs, n = NEvLeaf (EvLeaf (map fst es) vs) /\ valsrep get vs P (map snd es).
  Lemma evleaf_frame get get' n P es :
    evleaf get n P es -> (forall q, q ∈ P -> get' q = get q) -> evleaf get' n P es.
  Proof. intros (vs & -> & H) Hq. exists vs. split; [reflexivity|]. eapply valsrep_frame; eassumption. Qed.

  Notation evshape := (shape ev_ops evleaf).

  Lemma validate_spec r sv :
    validate_event_record ps r = Ok sv -> rec_wf r ->
    meta_ok (er_meta r) /\ nlen (er_tags r) < U16 /\
    ((sv = ((Inline r, 8 + ev_value_size (Inline r)), None) /\ 11 + 8 + ev_value_size (Inline r) <= ps) \/
     exists d ov, ov = Overflow (er_type r) (nlen (er_data r)) (er_tags r) 0 (er_uuid r)
               (match er_meta r with [] => 0 | _ => 1 end) (er_tracking r) /\
       sv = ((Inline r, d), Some (ov, 8 + ev_value_size ov)) /\ 11 + 8 + ev_value_size ov <= ps).
  Proof.
    intros H (Hw1 & Hw2 & Hw3 & Hw4 & Hw5 & Hw6). unfold validate_event_record in H.
    unfold validate_tags in H. destruct (N.ltb_spec 65535 (nlen (er_tags r))) as [|Ht]; [discriminate|]. cbn [rbind] in H.
    unfold validate_metadata in H. destruct (N.ltb_spec 65535 (nlen (er_meta r))) as [|Hmn]; [discriminate|].
    destruct (has_duplicate_key (er_meta r)); [discriminate|].
    destruct (existsb (fun kv => (65535 <? nlen kv.1) || (65535 <? nlen kv.2)) (er_meta r)) eqn:Ex; [discriminate|].
    cbn [rbind] in H.
    split; [|split; [unfold U16; lia|]].
    { split; [unfold U16; lia|]. rewrite Forall_forall in Hw4 |- *. intros kv Hkv. specialize (Hw4 kv Hkv) as [? ?].
      assert ((65535 <? nlen kv.1) || (65535 <? nlen kv.2) = false) as Hkvl.
      { destruct ((65535 <? nlen kv.1) || (65535 <? nlen kv.2)) eqn:E; [|reflexivity].
        rewrite <- Ex. symmetry. apply existsb_exists. exists kv. split; [now apply elem_of_list_In|exact E]. }
      apply orb_false_iff in Hkvl as [Hk Hv]. apply N.ltb_ge in Hk, Hv.
      split; split; auto; unfold U16; lia. }
    assert (Hsz : forall v, ev_leaf_size (EvLeaf [0] [v]) = 2 + 8 + ev_value_size v).
    { intros v. unfold ev_leaf_size, nlen. cbn [ev_keys ev_values length foldr]. lia. }
    assert (He : ev_leaf_size (EvLeaf [] []) = 2) by reflexivity.
    rewrite !Hsz, He in H.
    destruct (N.leb_spec (2 + 8 + ev_value_size (Inline r) + PAGE_HEADER_SIZE) ps) as [Hfit|Hno].
    - left. unfold PAGE_HEADER_SIZE in Hfit. split; [|lia]. assert (sv = ((Inline r, 2 + 8 + ev_value_size (Inline r) - 2), None)) as -> by congruence.
      do 2 f_equal. lia.
    - right. set (ov := Overflow _ _ _ _ _ _ _) in H.
      destruct (N.ltb_spec ps (2 + 8 + ev_value_size ov + PAGE_HEADER_SIZE)) as [|Hfit]; [discriminate|].
      eexists _, ov. split; [reflexivity|]. unfold PAGE_HEADER_SIZE in Hfit. split; [|lia].
      assert (sv = ((Inline r, 2 + 8 + ev_value_size (Inline r) - 2), Some (ov, 2 + 8 + ev_value_size ov - 2))) as -> by congruence.
      replace (2 + 8 + ev_value_size ov - 2) with (8 + ev_value_size ov) by lia. reflexivity.
  Qed.

  Lemma choose_value_ok r sv w Q :
    validate_event_record ps r = Ok sv -> rec_wf r -> pool_ok w Q ->
    exists w' v C, choose_value ps sv w = (Ok (v, 8 + ev_value_size v), w') /\ acc rd [] w C w' /\
      valrep (vget rd w') v C r /\ 11 + 8 + ev_value_size v <= ps /\
      (forall p n, w_dirty w' !! p = Some n -> w_dirty w !! p = Some n \/ ovf_fits n).
  Proof.
    intros Hv Hw Hp. destruct (validate_spec r sv Hv Hw) as (Hm & Ht & [[-> Hfit]|(d & ov & Eov & -> & Hfit)]).
    - exists w, (Inline r), []. cbn [choose_value]. split; [reflexivity|]. split; [apply acc_refl|].
      split; [split; reflexivity|]. split; [exact Hfit|auto].
    - cbn [choose_value]. unfold data_and_metadata_to_chain. fold (meta_bytes (er_meta r)). fold (meta_len (er_meta r)).
      destruct (write_overflow_chain_ok (meta_bytes (er_meta r) ++ er_data r) w Q Hp) as (w' & root & C & E & A & Hc & Hd).
      unfold wbind at 1. unfold wbind at 1. rewrite E. cbn [ret]. subst ov.
      eexists w', _, C.
      assert (Hszeq : ev_value_size (Overflow (er_type r) (nlen (er_data r)) (er_tags r) 0 (er_uuid r) match er_meta r with [] => 0 | _ => 1 end (er_tracking r))
        = ev_value_size (Overflow (er_type r) (nlen (er_data r)) (er_tags r) root (er_uuid r) (meta_len (er_meta r)) (er_tracking r))).
      { unfold ev_value_size. do 2 f_equal. destruct (er_meta r) as [|kv m]; [reflexivity|].
        replace (0 <? meta_len (kv :: m)) with true; [reflexivity|].
        symmetry. apply N.ltb_lt. unfold meta_len, meta_size. lia. }
      rewrite Hszeq in *. split; [reflexivity|]. split; [exact A|]. split; [|split; [exact Hfit|exact Hd]].
      destruct Hw as (_ & _ & _ & _ & _ & Hlt). cbn [valrep].
      assert (meta_len (er_meta r) <= meta_size (er_meta r)) by (unfold meta_len; destruct (er_meta r); lia).
      repeat split; try (now apply Hm); [destruct r; reflexivity|lia|exact Hc].
  Qed.

  Lemma path_rm_post {K E} (ops : tree_ops K) (lr : _ -> _ -> _ -> list E -> Prop) get h c st root hr P pre post :
    path ops lr get True h c st root hr P pre post -> post = [].
  Proof.
    induction 1 as [|h c p n ksL csL ksR csR PL PR pre post st root hr P pre' post' Hg Hl Hi Hkne Hrm HL HR Hp IH]; [reflexivity|].
    rewrite (Hrm I) in HR. rewrite IH. now inversion HR.
  Qed.

  Theorem event_append_ok w P Q h ts pos r sv :
    coh rd w -> pool_ok w (P ++ Q) -> evshape (vget rd w) h (w_events_root w) P ts ->
    validate_event_record ps r = Ok sv -> rec_wf r ->
    exists w1 root' h' P' ts',
      event_tree_append rd kw ps sv pos w = (Ok tt, set_events_root root' w1) /\
      acc rd P w P' w1 /\ evshape (vget rd w1) h' root' P' ts' /\
      (ts' = ts ++ [TE (pos, r)] \/ ts' = ts ++ [TS pos; TE (pos, r)]).
  Proof.
    intros Hc Hp Hs Hv Hw. unfold event_tree_append.
    unfold wbind at 1. unfold gets at 1. unfold wbind at 1. unfold gets at 1.
    destruct (pool_height _ _ _ _ _ _ _ _ _ Hp Hs) as (h0 & Hh & Hs0). clear Hs. rename Hs0 into Hs. clear h. rename h0 into h.
    edestruct (descend_ok ev_ops evleaf evleaf_frame rd kw ps True (fun _ => True) (ev_laws kw ps Hps)
      (fun _ => True) (fun _ => True) (fun _ => True) ltac:(auto)
      (fun ks cs Hl Hk => choose_last_law EDatabaseCorrupted ks cs (fun _ => True) (fun _ => True) (fun _ => True) ltac:(auto) Hl Hk)
      _ h (w_events_root w) w [] (w_events_root w) h [] [] [] P ts Hh)
      as (w1 & leaf & st & Pp & pre & post & n & Pl & es & E1 & S1 & C1 & [hl Hpath] & Hn & Hleaf & Hlr & Hld & Hst & _ & Etk & EP & _ & _).
    { constructor. }
    { exact Hs. }
    { exact Hc. }
    { constructor. }
    { left; reflexivity. }
    { left; reflexivity. }
    { exact I. }
    { intros H; discriminate H. }
    cbn [app] in Etk. rewrite app_nil_r in Etk. cbn [app] in EP.
    pose proof (path_rm_post _ _ _ _ _ _ _ _ _ _ _ Hpath) as ->. rewrite app_nil_r in Etk.
    unfold wbind at 1. rewrite E1.
    pose proof (sim_acc rd P w w1 S1 C1) as A1.
    assert (Hp1 : pool_ok w1 ([leaf] ++ (Pl ++ Pp) ++ Q)).
    { eapply pool_ok_perm; [|eapply acc_pool'; [exact A1|exact Hp]]. rewrite <- EP. solve_Permutation. }
    (* copy on write of the leaf *)
    destruct (cow_ok rd w1 leaf n _ C1 Hld Hn Hp1) as (dl & w2 & E2 & A2 & D2).
    unfold wbind at 1. rewrite E2.
    pose proof (acc_pool' rd _ _ _ _ _ A2 Hp1) as Hp2.
    unfold wbind at 1. unfold get_page_ref at 1. rewrite D2. cbv zeta.
    (* the value *)
    destruct (choose_value_ok r sv w2 _ Hv Hw Hp2) as (w3 & v & C & E3 & A3 & Hvr & Hfit & Hd3).
    unfold wbind at 1. rewrite E3.
    pose proof (acc_pool' rd [] _ _ _ _ A3 Hp2) as Hp3.
    assert (Hcoh3 : coh rd w3) by (eapply acc_coh'; [exact A3|eapply acc_coh'; [exact A2|exact C1]]).
    destruct Hlr as (vs & -> & Hvs).
    assert (Hview3 : forall q, q ∈ Pl ++ Pp ++ Q -> vget rd w3 q = vget rd w1 q).
    { intros q Hq. transitivity (vget rd w2 q).
      - eapply (acc_view rd [] w2 C w3); [exact A3|exact Hp2|set_solver].
      - eapply acc_view; [exact A2|exact Hp1|]. set_solver. }
    assert (D3 : w_dirty w3 !! dl = Some (NEvLeaf (EvLeaf (map fst es) vs))).
    { destruct A3 as (po & k & fn & A3'). rewrite (acc_out _ _ _ _ _ _ _ _ A3'); [exact D2|set_solver|].
      eapply (acc_fresh_notin rd [] _ _ _ _ _ _ _ dl A3' Hp2). set_solver. }
    (* the leaf update; what remains is the walk up from a hole *)
    assert (Hstep : exists w4 si Pc tc,
      (if page_size_of kw (NEvLeaf (EvLeaf (map fst es) vs)) + (8 + ev_value_size v) <=? ps then
         let! n := get_mut_dirty dl in
         match n with
         | NEvLeaf l => do! put_dirty dl (NEvLeaf (EvLeaf (ev_keys l ++ [pos]) (ev_values l ++ [v]))) in ret None
         | _ => fail EDatabaseCorrupted
         end
       else
         let! q := alloc_page_id in
         do! insert_dirty q (NEvLeaf (EvLeaf [pos] [v])) in
         ret (Some (pos, q))) w3 = (Ok si, w4) /\
      acc rd (C ++ [dl] ++ Pl) w3 Pc w4 /\
      hole ev_ops evleaf (vget rd w4) 0 dl si Pc tc /\
      (tc = map TE es ++ [TE (pos, r)] \/ tc = map TE es ++ [TS pos; TE (pos, r)])).
    { assert (Hvs3 : valsrep (vget rd w3) vs Pl (map snd es)).
      { eapply valsrep_frame; [exact Hvs|]. intros q Hq. apply Hview3. set_solver. }
      destruct (N.leb_spec (page_size_of kw (NEvLeaf (EvLeaf (map fst es) vs)) + (8 + ev_value_size v)) ps) as [Hle|Hgt].
      - unfold wbind at 1. unfold get_mut_dirty. rewrite D3. cbn [ev_keys ev_values].
        destruct (put_dirty_ok rd w3 dl (NEvLeaf (EvLeaf (map fst es ++ [pos]) (vs ++ [v]))) _ D3) as (w4 & E4 & A4 & D4).
        unfold wbind at 1. rewrite E4. exists w4, None, (dl :: Pl ++ C), (map TE (es ++ [(pos, r)])).
        split; [reflexivity|]. split; [|split].
        + apply (acc_perm_l rd ([dl] ++ (Pl ++ C))); [solve_Permutation|].
          exact (acc_frame_r rd (Pl ++ C) [dl] w3 [dl] w4 A4).
        + cbn [hole]. apply (sh_leaf ev_ops evleaf _ dl (NEvLeaf (EvLeaf (map fst es ++ [pos]) (vs ++ [v])))); [|reflexivity|].
          * apply dirty_vget. rewrite D4, lookup_insert. reflexivity.
          * exists (vs ++ [v]). rewrite !map_app. split; [reflexivity|].
            eapply valsrep_frame; [apply valsrep_snoc; [exact Hvs3|exact Hvr]|].
            assert (Hp3' : pool_ok w3 ([dl] ++ (Pl ++ C) ++ (Pp ++ Q))) by (eapply pool_ok_perm; [|exact Hp3]; solve_Permutation).
            intros q Hq. eapply acc_view; [exact A4|exact Hp3'|]. set_solver.
        + left. rewrite map_app. reflexivity.
      - assert (Hp3' : pool_ok w3 (([dl] ++ Pl ++ C) ++ (Pp ++ Q))) by (eapply pool_ok_perm; [|exact Hp3]; solve_Permutation).
        destruct (alloc_ok rd w3 _ Hp3') as (q & w3' & E4 & HqP & Hqf & Hq2 & Hins).
        destruct (Hins (NEvLeaf (EvLeaf [pos] [v]))) as (w4 & E5 & A4 & D4).
        unfold wbind at 1. rewrite E4. unfold wbind at 1. rewrite E5.
        assert (Hview4 : forall x, x ∈ [dl] ++ Pl ++ C -> vget rd w4 x = vget rd w3 x).
        { intros x Hx. eapply (acc_view rd [] w3 [q] w4); [exact A4|exact Hp3'|]. set_solver. }
        exists w4, (Some (pos, q)), ((dl :: Pl) ++ (q :: C)), (map TE es ++ TS pos :: map TE [(pos, r)]).
        split; [reflexivity|]. split; [|split].
        + apply (acc_perm_l rd ([] ++ ([dl] ++ Pl ++ C))); [solve_Permutation|].
          apply (acc_perm_r rd _ _ ([q] ++ ([dl] ++ Pl ++ C))); [solve_Permutation|].
          exact (acc_frame_r rd ([dl] ++ Pl ++ C) [] w3 [q] w4 A4).
        + cbn [hole]. exists (dl :: Pl), (q :: C), (map TE es), (map TE [(pos, r)]).
          split; [reflexivity|]. split; [reflexivity|]. split.
          * apply (sh_leaf ev_ops evleaf _ dl (NEvLeaf (EvLeaf (map fst es) vs))); [|reflexivity|].
            -- rewrite Hview4 by set_solver. apply dirty_vget. exact D3.
            -- exists vs. split; [reflexivity|]. eapply valsrep_frame; [exact Hvs3|]. intros x Hx. apply Hview4. set_solver.
          * apply (sh_leaf ev_ops evleaf _ q (NEvLeaf (EvLeaf [pos] [v]))); [|reflexivity|].
            -- apply dirty_vget. rewrite D4, lookup_insert. reflexivity.
            -- exists [v]. split; [reflexivity|]. cbn [map snd]. rewrite <- (app_nil_r C). constructor; [|constructor].
               eapply valrep_frame; [exact Hvr|]. intros x Hx. apply Hview4. set_solver.
        + right. reflexivity. }
    destruct Hstep as (w4 & si & Pc & tc & E4 & A4 & Hhole & Htc).
    unfold wbind at 1. rewrite E4.
    assert (Hp3' : pool_ok w3 ((C ++ [dl] ++ Pl) ++ Pp ++ Q)) by (eapply pool_ok_perm; [|exact Hp3]; solve_Permutation).
    pose proof (acc_pool' rd _ _ _ _ _ A4 Hp3') as Hp4.
    assert (Hview4 : forall q, q ∈ Pp -> vget rd w4 q = vget rd w1 q).
    { intros q Hq. transitivity (vget rd w3 q).
      - eapply acc_view; [exact A4|exact Hp3'|]. set_solver.
      - apply Hview3. set_solver. }
    pose proof (path_stack ev_ops evleaf evleaf_frame _ _ _ _ _ _ _ _ _ _ Hpath) as Hin.
    edestruct (propagate_ok ev_ops evleaf evleaf_frame rd kw ps True (fun _ => True) (ev_laws kw ps Hps)
      st hl leaf dl (w_events_root w) h Pp pre [] w4 si Pc tc Q)
      as (w5 & root1 & si' & P5 & E5 & A5 & _ & Hh5).
    { eapply path_frame; [apply evleaf_frame|exact Hpath|exact Hview4]. }
    { eapply hole_mono; [|exact Hhole]. lia. }
    { eapply pool_ok_perm; [|exact Hp4]. solve_Permutation. }
    { eapply acc_coh'; [exact A4|exact Hcoh3]. }
    { unfold stack_ok in *. rewrite Forall_forall in Hst, Hin |- *. intros x Hx. destruct (Hst x Hx) as [Hl _]. specialize (Hin x Hx).
      split; [|intros H; discriminate H].
      eapply acc_loaded'; [exact A4|exact Hp3'|set_solver|].
      eapply (acc_loaded' rd [] w2 C w3); [exact A3|exact Hp2|set_solver|].
      eapply acc_loaded'; [exact A2|exact Hp1|set_solver|exact Hl]. }
    { intros H; discriminate H. }
    { apply Forall_true. auto. }
    unfold wbind at 1. rewrite E5.
    assert (Hp5 : pool_ok w5 (P5 ++ Q)).
    { eapply acc_pool'; [exact A5|]. eapply pool_ok_perm; [|exact Hp4]. solve_Permutation. }
    destruct (finish_ok ev_ops evleaf evleaf_frame rd kw ps True (fun _ => True) (ev_laws kw ps Hps)
      (w_events_root w) root1 h si' P5 _ w5 Q Hh5 Hp5) as (w6 & root' & h' & P6 & E6 & A6 & Hs6).
    unfold wbind at 1. rewrite E6.
    exists w6, root', h', P6, (pre ++ tc ++ []). split; [reflexivity|]. split; [|split; [exact Hs6|]].
    - eapply acc_trans; [exact A1|].
      apply (acc_perm_l rd ([leaf] ++ (Pl ++ Pp))); [rewrite <- EP; solve_Permutation|].
      eapply acc_trans; [apply acc_frame_r; exact A2|].
      eapply acc_trans; [apply (acc_frame_r rd ([dl] ++ Pl ++ Pp) [] w2 C w3 A3)|].
      apply (acc_perm_l rd ((C ++ [dl] ++ Pl) ++ Pp)); [solve_Permutation|].
      eapply acc_trans; [apply acc_frame_r; exact A4|].
      eapply acc_trans; [|exact A6].
      eapply acc_perm_l; [|exact A5]. solve_Permutation.
    - rewrite app_nil_r. subst ts. destruct Htc as [-> | ->]; [left|right]; lassoc.
  Qed.
End proofs.
