(** Property C108: the events and the tracked positions on the disk are exactly those stored.

    What the file holds is read off it with [kept] and [recorded], which only know the file format (events_tree_nodes.rs: EventLeafNode,
    EventValue, EventOverflowNode, EventInternalNode; tracking_tree_nodes.rs: TrackingLeafNode, TrackingInternalNode). *)
From Verif Require Import Mvcc MvccProofs SpecProofs StoreProofs ReadProofs EventsProofs TrackingProofs LookupProofs Exec PropsStore PropsPages PropsSpace PropsFits.
From Verif Require Import PipelineSys PipelineProofs PipelineRefine PropsPipelined PropsFindings PropsIndex PropsPipelinedIndex.
Local Open Scope N_scope.

(** [spells get p b]: the overflow pages from page [p] on hold the bytes [b]. *)
Inductive spells (get : N -> option node) : N -> bytes -> Prop :=
  | spells_end : spells get 0 []
  | spells_page p next d rest : p <> 0 -> get p = Some (NEvOverflow (EvOverflow next d)) -> spells get next rest -> spells get p (d ++ rest).
(** [means get v r]: the value [v] of a leaf is the event [r], whose metadata and data may be on overflow pages. *)
Inductive means (get : N -> option node) : event_value -> event_record -> Prop :=
  | means_inline r : means get (Inline r) r
  | means_plain ty tags root uuid trk data : spells get root data -> means get (Overflow ty (nlen data) tags root uuid 0 trk) (EventRecord ty data tags uuid [] trk)
  | means_meta ty tags root uuid trk mb m data : spells get root (mb ++ data) -> 0 < nlen mb -> meta_de mb = Ok m ->
      means get (Overflow ty (nlen data) tags root uuid (nlen mb) trk) (EventRecord ty data tags uuid m trk).
(** [kept get p pos r]: the tree of events rooted at page [p] has the event [r] at position [pos]. *)
Inductive kept (get : N -> option node) : N -> N -> event_record -> Prop :=
  | kept_leaf p l i pos v r : get p = Some (NEvLeaf l) -> ev_keys l !! i = Some pos -> ev_values l !! i = Some v -> means get v r -> kept get p pos r
  | kept_int p i c pos r : get p = Some (NEvInt i) -> c ∈ in_children i -> kept get c pos r -> kept get p pos r.
(** [recorded get p src pos]: the tracking tree rooted at page [p] has position [pos] for [src]. *)
Inductive recorded (get : N -> option node) : N -> bytes -> N -> Prop :=
  | recorded_leaf p l i src pos : get p = Some (NTrkLeaf l) -> tk_keys l !! i = Some src -> tk_values l !! i = Some pos -> recorded get p src pos
  | recorded_int p i c src pos : get p = Some (NTrkInt i) -> c ∈ in_children i -> recorded get c src pos -> recorded get p src pos.

Lemma chain_spells get p P b : chain get p P b -> spells get p b.
Proof. induction 1; econstructor; eassumption. Qed.
Lemma spells_fun get p b b' : spells get p b -> spells get p b' -> b = b'.
Proof.
  intros H. revert b'. induction H as [|p next d rest Hp Hg _ IH]; intros b' H'.
  - inversion H'; congruence.
  - inversion H' as [|? next' d' rest' Hp' Hg' H'']; subst; [contradiction|]. rewrite Hg in Hg'. injection Hg' as <- <-. f_equal. auto.
Qed.
Lemma app_split {A} (a b c d : list A) : a ++ b = c ++ d -> nlen b = nlen d -> a = c /\ b = d.
Proof. intros H Hl. apply app_inj_2 in H; [exact H|]. unfold nlen in Hl. lia. Qed.
Lemma meta_bytes_pos m : m <> [] -> 0 < meta_len m.
Proof. destruct m as [|kv m]; [contradiction|]. intros _. unfold meta_len, meta_size. lia. Qed.
Lemma value_means get v C r r' : valrep get v C r -> means get v r' <-> r' = r.
Proof.
  destruct v as [r0|ty dl tags root uuid ml trk]; cbn [valrep].
  - intros [-> _]. split; [intros H; now inversion H|intros ->; constructor].
  - intros (Er & -> & -> & _ & Hm & Hc). apply chain_spells in Hc. split.
    + intros H. inversion H as [|? ? ? ? ? data Hs Ed Em|? ? ? ? ? mb m data Hs Hp Hd Ed Em]; subst.
      * rewrite Er. destruct (er_meta r) as [|kv m] eqn:E.
        -- cbn [meta_bytes app] in Hc. now rewrite (spells_fun _ _ _ _ Hs Hc).
        -- pose proof (meta_bytes_pos (kv :: m) ltac:(discriminate)). lia.
      * destruct (app_split _ _ _ _ (spells_fun _ _ _ _ Hs Hc) ltac:(congruence)) as [-> ->]. rewrite Er. destruct (er_meta r) as [|kv m'] eqn:E; [cbn in Hp; lia|].
        unfold meta_bytes in Hd. rewrite meta_rt in Hd by exact Hm. now injection Hd as ->.
    + intros ->. rewrite Er at 3. destruct (er_meta r) as [|kv m] eqn:E.
      * cbn [meta_len]. apply means_plain. exact Hc.
      * rewrite <- nlen_meta_bytes. apply means_meta; [exact Hc|rewrite nlen_meta_bytes; now apply meta_bytes_pos|]. unfold meta_bytes. now apply meta_rt.
Qed.
Lemma vals_at (get : N -> option node) vs P rs k v : valsrep get vs P rs -> vs !! k = Some v -> exists r C, rs !! k = Some r /\ valrep get v C r.
Proof.
  intros H. revert k. induction H as [|v' C r vs Cs rs H1 H2 IH]; intros k Hk; [destruct k; discriminate|].
  destruct k as [|k]; [injection Hk as ->; cbn; eauto|]. exact (IH k Hk).
Qed.
Lemma vals_len (get : N -> option node) vs P rs : valsrep get vs P rs -> length vs = length rs.
Proof. induction 1 as [|v C r vs Cs rs H1 H2 IH]; cbn; congruence. Qed.

Lemma events_kept get h root P ts pos r : shape ev_ops evleaf get h root P ts -> kept get root pos r <-> (pos, r) ∈ toks_es ts.
Proof.
  intros Hs. destruct (tree_says ev_ops evleaf get (fun p => kept get p pos r) (fun e => e = (pos, r))) as [H _].
  - intros p n P' es Hg _ (vs & -> & Hv). split.
    + intros Hk. inversion Hk as [? l i ? v ? Hg' Hi Hvi Hm|? i c ? ? Hg']; subst; [|congruence]. assert (l = EvLeaf (map fst es) vs) as -> by congruence. cbn [ev_keys ev_values] in Hi, Hvi.
      destruct (vals_at _ _ _ _ _ _ Hv Hvi) as (r0 & C & Hr & Hval). apply (value_means _ _ _ _ _ Hval) in Hm as ->. rewrite map_at in Hi. rewrite map_at in Hr. destruct (es !! i) as [[a b]|] eqn:Ee; [|discriminate]. cbn in Hi, Hr. injection Hi as <-. injection Hr as <-.
      exists (a, b). split; [eapply elem_of_list_lookup_2; exact Ee|reflexivity].
    + intros (e & He & ->). apply elem_of_list_lookup in He as (i & Hi). destruct (lookup_lt_is_Some_2 vs i) as (v & Hvi).
      { rewrite (vals_len _ _ _ _ Hv), map_length. eapply lookup_lt_Some; exact Hi. }
      destruct (vals_at _ _ _ _ _ _ Hv Hvi) as (r0 & C & Hr & Hval). rewrite map_at, Hi in Hr. injection Hr as <-.
      eapply (kept_leaf _ _ _ i); [exact Hg|cbn [ev_keys]; now rewrite map_at, Hi|exact Hvi|]. now apply (value_means _ _ _ _ _ Hval).
  - intros p n ks cs Hg Hl Hi. destruct n as [| | | |[ks' cs'] | | | | | | | | |]; cbn in Hl, Hi; try discriminate. injection Hi as -> ->. split.
    + intros Hk. inversion Hk as [? l i ? v ? Hg'|? i c ? ? Hg' Hc Hk']; subst; [congruence|]. assert (i = INode ks cs) as -> by congruence. eauto.
    + intros (c & Hc & Hk). eapply kept_int; eassumption.
  - rewrite (H _ _ _ _ Hs). split; [intros (e & He & ->); exact He|eauto].
Qed.
Lemma tracking_recorded get root P es src pos : trkrep get root P es -> (root <> 0 /\ recorded get root src pos) <-> alookup src es = Some pos.
Proof.
  intros [(-> & _ & ->)|(Hnz & h & ts & Hs & Ht & Hsrt & _)]; [split; [intros [? _]; contradiction|discriminate]|].
  destruct (tree_says (trk_ops []) trkleaf get (fun p => recorded get p src pos) (fun e => e = (src, pos))) as [H _].
  - intros p n P' es' Hg _ (_ & ->). split.
    + intros Hk. inversion Hk as [? l i ? ? Hg' Hi Hvi|? i c ? ? Hg']; subst; [|congruence]. assert (l = TrkLeaf (map fst es') (map snd es')) as -> by congruence. cbn [tk_keys tk_values] in Hi, Hvi.
      rewrite map_at in Hi. rewrite map_at in Hvi. destruct (es' !! i) as [[a b]|] eqn:Ee; [|discriminate]. cbn in Hi, Hvi. injection Hi as <-. injection Hvi as <-. exists (a, b). split; [eapply elem_of_list_lookup_2; exact Ee|reflexivity].
    + intros (e & He & ->). apply elem_of_list_lookup in He as (i & Hi). eapply (recorded_leaf _ _ _ i); [exact Hg|cbn [tk_keys]; now rewrite map_at, Hi|cbn [tk_values]; now rewrite map_at, Hi].
  - intros p n ks cs Hg Hl Hi. destruct n as [| | | | | | | | | | | | |[ks' cs']]; cbn in Hl, Hi; try discriminate. injection Hi as -> ->. split.
    + intros Hk. inversion Hk as [? l i ? ? Hg'|? i c ? ? Hg' Hc Hk']; subst; [congruence|]. assert (i = INode ks cs) as -> by congruence. eauto.
    + intros (c & Hc & Hk). eapply recorded_int; eassumption.
  - rewrite (H _ _ _ _ Hs), Ht. split.
    + intros (_ & e & He & ->). apply alookup_nodup; [|exact He]. rewrite <- Ht. apply tsorted_es in Hsrt. revert Hsrt. generalize (map fst (toks_es ts)). induction 1 as [|k l _ IH Hk]; constructor; [|exact IH].
      intros Hin. rewrite Forall_forall in Hk. apply Hk in Hin. now apply clt_irrefl in Hin; [|apply bytes_cmp_ok].
    + intros Hl. split; [exact Hnz|]. apply alookup_in in Hl. eauto.
Qed.

Section props.
  Context (ps : N) (hash : bytes -> bytes) (order : list bytes -> list bytes) (ford : gset N -> list N) (caching : bool).
  Context (Hps : ps_ok ps) (Hps32 : ps < U32) (Hord : forall l t, t ∈ order l <-> t ∈ l) (Hford : forall s, ford s ≡ₚ elements s).
  Notation run := (run ps hash order ford caching).

  Lemma held_holds d p G : cur_ok d -> held 16 ps hash d (p_cache p) G ->
    (forall pos r, kept (on_disk d) (h_events_root (g_hdr G)) pos r <-> (pos, r) ∈ s_hist (g_st G)) /\
    forall src pos, (h_tracking_root (g_hdr G) <> 0 /\ recorded (on_disk d) (h_tracking_root (g_hdr G)) src pos) <-> s_track (g_st G) src = Some pos.
  Proof.
    intros Hc Hh. assert (Hg : forall x, x ∈ g_live G -> on_disk d x = g_get G x).
    { intros x Hx. destruct (proj2 Hh x Hx) as (n & Hn & Hg & _). unfold on_disk. now rewrite (Hg _ (Hc x)), Hn. }
    pose proof (snap_frame _ _ _ _ _ _ (proj1 Hh) Hg) as Hok. split.
    - intros pos r. destruct (so_hist _ _ _ _ _ Hok) as [(h & ts & Hs & _ & _ & Ht) _]. rewrite (events_kept _ _ _ _ _ pos r Hs), Ht. reflexivity.
    - intros src pos. destruct (so_trk _ _ _ _ _ Hok) as (es & Hk & Ht). rewrite (tracking_recorded _ _ _ _ src pos Hk). now rewrite Ht.
  Qed.
  (** In every state an execution can reach, in what is committed and in what readers have open: the tree of events holds exactly the
      events a reader gets, and the tracking tree exactly the positions a reader is told. *)
  Theorem file_holds tr y p h evs hd force : run tr y -> y_proc y = Some p -> in_use p h -> umadb_read hash order (fetch 16 (p_cache p) (y_disk y)) h [] None false None force = Ok (evs, hd) ->
    (forall pos r, kept (on_disk (y_disk y)) (h_events_root h) pos r <-> (pos, r) ∈ evs) /\
    forall src pos, (h_tracking_root h <> 0 /\ recorded (on_disk (y_disk y)) (h_tracking_root h) src pos) <->
      get_tracking_info (N.to_nat (h_next_page h)) (fetch 16 (p_cache p) (y_disk y)) (h_tracking_root h) src = Ok (Some pos).
  Proof.
    intros Hr Hp Hu He. destruct (run_in_use ps hash order ford caching Hps Hps32 Hord Hford tr y p h Hr Hp Hu) as (g & sy & G & Hi & <- & Hh & _).
    pose proof (u_cur _ _ _ _ _ _ _ _ Hi) as Hc. destruct (held_holds _ _ _ Hc Hh) as [H1 H2]. rewrite (held_response 16 ps hash order ford Hps Hps32 ltac:(lia) Hord Hford _ _ G [] None false None force Hc Hh) in He.
    rewrite read_all in He. injection He as <- _. split; [exact H1|]. intros src pos. rewrite H2, (held_track 16 ps hash order ford Hps Hps32 ltac:(lia) Hord Hford _ _ G src Hc Hh). split; congruence.
  Qed.
  (** Of what is committed, the same in terms of what is stored. *)
  Corollary file_holds_stored tr y p s : run tr y -> shows hash order y s -> y_proc y = Some p ->
    (forall pos r, kept (on_disk (y_disk y)) (h_events_root (latest p).2) pos r <-> (pos, r) ∈ s_hist s) /\
    forall src pos, (h_tracking_root (latest p).2 <> 0 /\ recorded (on_disk (y_disk y)) (h_tracking_root (latest p).2) src pos) <-> s_track s src = Some pos.
  Proof.
    intros Hr (p' & Hp' & Hs & Ht & _) Hp. rewrite Hp in Hp'. injection Hp' as <-. specialize (Hs [] None false None false). rewrite read_all in Hs.
    destruct (file_holds tr y p (latest p).2 _ _ false Hr Hp (or_introl eq_refl) Hs) as [H1 H2]. split; [exact H1|]. intros src pos. rewrite H2, Ht. split; congruence.
  Qed.
End props.
Section pipelined.
  Context (hash : bytes -> bytes) (order : list bytes -> list bytes) (ford : gset N -> list N) (caching : bool).
  Context (Hord : forall l t, t ∈ order l <-> t ∈ l) (Hford : forall s, ford s ≡ₚ elements s).
  (** The same of the pipelining writer, also while the pages of the next commit are being written. *)
  Theorem pipelined_file_holds tr s st p : mrun hash order ford caching (healthy 16) tr s -> mshows hash order s st -> y_proc (msys_of s) = Some p ->
    (forall pos r, kept (on_disk (y_disk (msys_of s))) (h_events_root (latest p).2) pos r <-> (pos, r) ∈ s_hist st) /\
    forall src pos, (h_tracking_root (latest p).2 <> 0 /\ recorded (on_disk (y_disk (msys_of s))) (h_tracking_root (latest p).2) src pos) <-> s_track st src = Some pos.
  Proof.
    intros Hr (p' & Hp' & Hs & Ht & _) Hp. rewrite Hp in Hp'. injection Hp' as <-. destruct (mrun_inv hash order ford caching Hord Hford true tr s Hr) as (sy & _ & Hi & _).
    destruct (minv_held hash caching true s sy Hi ltac:(now exists p)) as (p' & G & Hp' & Hc & Hh & El). rewrite Hp in Hp'. injection Hp' as <-. rewrite El in *.
    destruct (held_holds dps hash _ p G Hc Hh) as [H1 H2]. specialize (Hs [] None false None false). rewrite read_all in Hs.
    rewrite (held_response 16 dps hash order ford dps_ok dps32 ltac:(lia) Hord Hford _ _ G [] None false None false Hc Hh), read_all in Hs. injection Hs as E _. rewrite <- E. split; [exact H1|].
    intros src pos. specialize (Ht src). rewrite (held_track 16 dps hash order ford dps_ok dps32 ltac:(lia) Hord Hford _ _ G src Hc Hh) in Ht. injection Ht as Ht. rewrite H2. now rewrite Ht.
  Qed.
End pipelined.

(** An execution with an event whose data and metadata are on two overflow pages, and with a tracked position. *)
Definition h_script := x_batch [xr1] 3 ++ [ADone] ++ x_batch [xr3; xr4] 6 ++ [ADone].
Definition h_big := EventRecord xa (replicate 1500 9) [xb] (Some (replicate 16 2)) [([1],[2])] None.
Definition h_p (y : sys) : bool := match y_proc y with
  | Some p => match umadb_read x_hash (fun l => l) (fetch 16 (p_cache p) (y_disk y)) (latest p).2 [] None false None false with
    | Ok (evs, hd) => bool_decide (alookup 3 evs = Some h_big) && bool_decide (length evs = 4%nat) &&
        match on_disk (y_disk y) (h_events_root (latest p).2) with
        | Some (NEvLeaf l) => match ev_values l !! 2%nat with Some (Overflow _ dl _ root _ ml _) => (dl =? 1500) && (0 <? ml) && match on_disk (y_disk y) root with Some (NEvOverflow o) => negb (ov_next o =? 0) | _ => false end | _ => false end
        | _ => false end
    | _ => false end &&
    match get_tracking_info (N.to_nat (h_next_page (latest p).2)) (fetch 16 (p_cache p) (y_disk y)) (h_tracking_root (latest p).2) xs with Ok (Some 5) => true | _ => false end
  | None => false end.
Lemma h_p_found : exists tr y, x_run tr y /\ h_p y = true.
Proof. apply (x_found h_script). vm_compute. reflexivity. Qed.
Example file_holds_example : exists tr y p l dl root ml ty tags uuid trk o, x_run tr y /\ y_proc y = Some p /\
  on_disk (y_disk y) (h_events_root (latest p).2) = Some (NEvLeaf l) /\ ev_values l !! 2%nat = Some (Overflow ty dl tags root uuid ml trk) /\ dl = 1500 /\ 0 < ml /\
  on_disk (y_disk y) root = Some (NEvOverflow o) /\ ov_next o <> 0 /\
  kept (on_disk (y_disk y)) (h_events_root (latest p).2) 3 h_big /\ (forall r, ~ kept (on_disk (y_disk y)) (h_events_root (latest p).2) 5 r) /\
  recorded (on_disk (y_disk y)) (h_tracking_root (latest p).2) xs 5 /\ ~ recorded (on_disk (y_disk y)) (h_tracking_root (latest p).2) xs 4.
Proof.
  destruct h_p_found as (tr & y & Hr & H). unfold h_p in H. destruct (y_proc y) as [p|] eqn:Ep; [|discriminate H]. apply andb_prop in H as [H H4].
  destruct (umadb_read _ _ _ _ _ _ _ _ _) as [[evs hd]|] eqn:Er; [|discriminate H]. apply andb_prop in H as [H H3]. apply andb_prop in H as [H1 H2]. apply bool_decide_eq_true in H1, H2.
  destruct (on_disk (y_disk y) (h_events_root (latest p).2)) as [nd|] eqn:En; [|discriminate H3]. destruct nd as [| | |l| | | | | | | | | |]; try discriminate H3.
  destruct (ev_values l !! 2%nat) as [[|ty dl tags root uuid ml trk]|] eqn:Ev; try discriminate H3. apply andb_prop in H3 as [H3 H5]. apply andb_prop in H3 as [H3 H6]. apply N.eqb_eq in H3. apply N.ltb_lt in H6.
  destruct (on_disk (y_disk y) root) as [nd|] eqn:Eo; [|discriminate H5]. destruct nd as [| | | | |o| | | | | | | |]; try discriminate H5. apply negb_true_iff, N.eqb_neq in H5.
  destruct (get_tracking_info _ _ _ _) as [[t|]|] eqn:Et; try discriminate H4. assert (t = 5) as -> by (destruct t as [|[[[|[]|]|[]|]|[]|]]; congruence). clear H4.
  destruct (file_holds 1024 x_hash (fun l => l) x_ford true x_ps x_ps32 x_ord x_ford_ok tr y p (latest p).2 evs hd false Hr Ep (or_introl eq_refl) Er) as [K T].
  destruct (use_index 1024 x_hash (fun l => l) x_ford true x_ps x_ps32 x_ord x_ford_ok tr y p (latest p).2 Hr Ep (or_introl eq_refl)) as (hist & hd' & _ & _ & _ & Hrd & Hseq & _). rewrite (Hrd false) in Er. injection Er as -> _.
  destruct (proj2 (T xs 5) Et) as [Hnz T5].
  exists tr, y, p, l, dl, root, ml, ty, tags, uuid, trk, o. do 8 (split; [assumption|]). split; [apply K; now apply alookup_in|]. split.
  { intros r Hk. apply K in Hk. apply (elem_of_list_fmap_1 fst) in Hk. change (5 ∈ map fst evs) in Hk. rewrite Hseq, H2 in Hk. vm_compute in Hk. repeat (apply elem_of_cons in Hk as [Hk|Hk]; [discriminate Hk|]). inversion Hk. }
  split; [exact T5|]. intros T4. pose proof (proj1 (T xs 4) (conj Hnz T4)). congruence.
Qed.
(** The pages and the header of a second commit are being written. *)
Example pipelined_file_holds_example c : exists tr s p, mrun f_hash (fun l => l) x_ford c (healthy 16) tr s /\ mshows f_hash (fun l => l) s p_first /\ y_proc (msys_of s) = Some p /\
  (exists r, kept (on_disk (y_disk (msys_of s))) (h_events_root (latest p).2) 1 r) /\ forall r, ~ kept (on_disk (y_disk (msys_of s))) (h_events_root (latest p).2) 2 r.
Proof.
  destruct (pipelined_index_example c) as (tr & s & p & Hm & Hs & Hp & _). exists tr, s, p. do 3 (split; [assumption|]).
  destruct (pipelined_file_holds f_hash (fun l => l) x_ford c x_ord x_ford_ok tr s p_first p Hm Hs Hp) as [K _].
  assert (E : exists r, s_hist p_first = [(1, r)]) by (eexists; vm_compute; reflexivity). destruct E as (r & E). split.
  - exists r. apply K. rewrite E. now left.
  - intros r' Hk. apply K in Hk. rewrite E in Hk. apply elem_of_list_singleton in Hk. discriminate Hk.
Qed.
Print Assumptions file_holds.
Print Assumptions file_holds_stored.
Print Assumptions pipelined_file_holds.
