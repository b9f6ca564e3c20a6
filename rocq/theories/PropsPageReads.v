(** Property C82: reads page by page, loads into the cache that take time, blocking writer thread. *)
From Verif Require Import Walk Mvcc MvccProofs SpecSys SpecProofs StoreProofs Exec PageReads PageReadsProofs PageReadsRefine PropsStore PropsPages.
Local Open Scope N_scope.

(** A call made by running the code's own program, and the answer as a label. *)
Definition read_call (hash : bytes -> bytes) (order : list bytes -> list bytes) (rd : snapshot) (i : nat) (h : header) (q : query)
    (start : option N) (bw : bool) (limit : option N) (force : bool) : prog label :=
  pbind (read_prog (scan_fuel rd (N.to_nat (h_next_page h))) hash order h q start bw limit force)
    (fun r => Ret (LRead i q start bw limit r)).
Definition track_call (i : nat) (h : header) (src : bytes) : prog label :=
  pbind (tracking_prog (N.to_nat (h_next_page h)) (h_tracking_root h) src) (fun r => Ret (LTrack i src r)).

Lemma set_cache_same p : set_cache (p_cache p) p = p. Proof. now destruct p. Qed.
Lemma evict_nothing (c : gmap N node) : exists q, delete q c = c.
Proof. exists (fresh (dom c)). apply delete_notin. apply not_elem_of_dom. apply is_fresh. Qed.
Lemma read_call_ok hash order rd i h q start bw limit force :
  follows (fun _ _ => True) (fun x => x ∈ refs (NHeader h)) (read_call hash order rd i h q start bw limit force) /\
  at_once rd (read_call hash order rd i h q start bw limit force) = LRead i q start bw limit (umadb_read hash order rd h q start bw limit force).
Proof.
  split; [eapply follows_bind; [apply read_follows|intros; exact I]|]. unfold read_call. now rewrite at_once_bind, read_once.
Qed.
Lemma track_call_ok rd i h src :
  follows (fun _ _ => True) (fun x => x ∈ refs (NHeader h)) (track_call i h src) /\
  at_once rd (track_call i h src) = LTrack i src (get_tracking_info (N.to_nat (h_next_page h)) rd (h_tracking_root h) src).
Proof.
  split; [eapply follows_bind; [apply tracking_follows|intros; exact I]|]. unfold track_call. now rewrite at_once_bind, tracking_once.
Qed.

Section props.
  Context (ps : N) (hash : bytes -> bytes) (order : list bytes -> list bytes) (ford : gset N -> list N) (caching : bool).
  Context (Hps : ps_ok ps) (Hps32 : ps < U32) (Hord : forall l t, t ∈ order l <-> t ∈ l) (Hford : forall s, ford s ≡ₚ elements s).
  Notation step := (step 16 ps hash order ford caching).
  Notation steps := (steps 16 ps hash order ford caching).
  Notation run := (run ps hash order ford caching).

  (** What a state held safely gives the argument. *)
  Lemma held_open d c G : cur_ok d -> held 16 ps hash d c G ->
    exists P F, walks (on_disk d) (refs (NHeader (g_hdr G))) P F /\ sound_pages d c P /\ reads_as hash order (fetch 16 c d) (g_hdr G) (g_st G).
  Proof.
    intros Hc Hh. destruct (held_walks ps hash _ _ _ Hc Hh) as (P & F & Hw & -> & _). exists (g_live G), F. split; [exact Hw|]. split.
    - intros q Hq. destruct (proj2 Hh q Hq) as (n & Hn & Hg & Hca). split; [apply (snap_range _ _ _ _ _ q (proj1 Hh)); apply elem_of_app; now left|].
      exists n. split; [unfold on_disk; now rewrite (Hg _ (Hc q))|exact Hca].
    - split; intros; [eapply held_response|eapply held_track]; try eassumption; lia.
  Qed.

  (** The system in which readers get their pages one by one. *)
  Notation xstep := (xstep 16 hash order caching step view_sys put_sys others_sys).
  Notation xsteps := (xsteps 16 hash order caching step view_sys put_sys others_sys (fun _ _ => True)).
  Definition xrun (tr : list label) (x : xsys) : Prop := xsteps (XSys (init_sys 16 ps) ∅ None) tr x.

  Definition binv (y : sys) (sy : spec_sys) : Prop := inv 16 ps hash caching y sy /\ exists tr, run tr y.
  Notation xinv := (xinv caching view_sys binv).

  Lemma b_step s sy l s' : binv s sy -> step s l s' -> True -> exists sy', spec_step ps sy l sy' /\ binv s' sy'.
  Proof.
    intros [Hi (tr & Hr)] Hst _. destruct (sim_step ps hash order ford caching Hps Hps32 Hord Hford _ _ _ _ Hi Hst) as (sy' & H1 & H2).
    exists sy'. split; [exact H1|]. split; [exact H2|]. exists (tr ++ [l]). econstructor; eassumption.
  Qed.
  Lemma view_proc y d p : view_sys y = Some (d, p) -> y_disk y = d /\ y_proc y = Some p.
  Proof. unfold view_sys. destruct (y_proc y); [intros [= <- <-]; auto|discriminate]. Qed.
  Lemma b_open s sy d p i a : binv s sy -> view_sys s = Some (d, p) -> p_readers p !! i = Some (ROpen a) ->
    exists st P F, sp_open sy !! i = Some st /\ walks (on_disk d) (refs (NHeader a.2)) P F /\ sound_pages d (p_cache p) P /\
      reads_as hash order (fetch 16 (p_cache p) d) a.2 st.
  Proof.
    intros [Hi _] Hv Ha. apply view_proc in Hv as [Hd Hp]. unfold inv in Hi. rewrite Hp in Hi. destruct Hi as (g & Hu).
    pose proof (u_readers _ _ _ _ _ _ _ _ Hu i) as Hr. unfold rinv in Hr. rewrite Ha in Hr. destruct Hr as (_ & G & _ & Hg & Ho & Hh & _). rewrite Hd in *.
    destruct (held_open d (p_cache p) G) as (P & F & H1 & H2 & H3); [exact (u_cur _ _ _ _ _ _ _ _ Hu)|exact Hh|].
    rewrite Hg in H1, H3. exists (g_st G), P, F. auto.
  Qed.
  Lemma b_kept s sy l s' d p d' p' i a : binv s sy -> step s l s' -> True -> view_sys s = Some (d, p) -> view_sys s' = Some (d', p') ->
    p_readers p !! i = Some (ROpen a) -> l <> LClose i -> stays i l /\ p_readers p' !! i = Some (ROpen a) /\
    forall P F, walks (on_disk d) (refs (NHeader a.2)) P F -> forall q, q ∈ P -> on_disk d' q = on_disk d q.
  Proof.
    intros [_ (tr & Hr)] Hst _ Hv Hv' Ha Hl. apply view_proc in Hv as [<- Hp]. apply view_proc in Hv' as [<- Hp'].
    enough (stays i l /\ p_readers p' !! i = Some (ROpen a)) as [H1 H2].
    { split; [exact H1|]. split; [exact H2|]. intros P F Hw q Hq.
      eapply (proj1 (pages_in_use_kept ps hash order ford caching Hps Hps32 Hord Hford tr s p a.2 P F l s' Hr Hp (or_intror (ex_intro _ i (ex_intro _ a (conj Ha eq_refl)))) Hw Hst q Hq)). }
    inversion Hst as [d0 p0 l0 d1 p1 Hps'|? ? ? Hcr|? ? Hcr|? ? Hse|? ? ? Hop]; subst; cbn in Hp, Hp'; try discriminate.
    injection Hp as ->. injection Hp' as ->.
    inversion Hps'; subst; cbn [stays]; try (split; [exact I|exact Ha]); try (split; [exact I|]; cbn; destruct caching; exact Ha);
      try (match goal with H : p_readers p !! ?j = _ |- _ => destruct (decide (j = i)) as [->|Hne]; [try congruence|split; [try exact I; exact Hne|cbn; rewrite ?lookup_insert_ne, ?lookup_delete_ne by congruence; exact Ha]] end).
    all: try (split; [exact I|]; unfold pin_header; destruct (_ =? 0); exact Ha).
  Qed.
  Lemma b_load s sy d p q n : binv s sy -> view_sys s = Some (d, p) -> caching = true -> 2 <= q -> fetch 16 (p_cache p) d q = Ok n ->
    let s' := put_sys (<[q := n]> (p_cache p)) s in
    step s LTau s' /\ True /\ view_sys s' = Some (d, set_cache (<[q := n]> (p_cache p)) p).
  Proof.
    intros _ Hv Hc Hq Hf s'. apply view_proc in Hv as [<- Hp]. destruct s as [d0 p0]. cbn in *. subst p0. split; [|auto]. constructor. now apply S_load.
  Qed.
  Lemma b_same s sy d p : binv s sy -> view_sys s = Some (d, p) -> step s LTau s /\ True.
  Proof.
    intros _ Hv. apply view_proc in Hv as [<- Hp]. destruct s as [d0 p0]. cbn in *. subst p0. split; [|exact I]. constructor.
    destruct (evict_nothing (p_cache p)) as [q Hq]. pose proof (S_evict 16 ps hash order ford caching d0 p q) as H. rewrite Hq, set_cache_same in H. exact H.
  Qed.
  Lemma b_read s sy d p i a l : binv s sy -> view_sys s = Some (d, p) -> p_readers p !! i = Some (ROpen a) ->
    asks hash order (fetch 16 (p_cache p) d) i a.2 l -> step s l s /\ True.
  Proof.
    intros _ Hv Ha Hl. apply view_proc in Hv as [<- Hp]. destruct s as [d0 p0]. cbn in *. subst p0. split; [|exact I]. constructor.
    destruct Hl as [(q & start & bw & limit & force & ->)|(src & ->)]; [now apply S_read|now apply S_track].
  Qed.
  Lemma b_latest s sy d p : binv s sy -> view_sys s = Some (d, p) -> exists P F, walks (on_disk d) (refs (NHeader (latest p).2)) P F /\ sound_pages d (p_cache p) P.
  Proof.
    intros [Hi _] Hv. apply view_proc in Hv as [<- Hp]. unfold inv in Hi. rewrite Hp in Hi. destruct Hi as (g & Hu).
    destruct (held_open _ _ _ (u_cur _ _ _ _ _ _ _ _ Hu) (u_held _ _ _ _ _ _ _ _ Hu)) as (P & F & H1 & H2 & _). rewrite (u_latest _ _ _ _ _ _ _ _ Hu). eauto.
  Qed.
  Lemma step_lkept s l s' d p d' p' : step s l s' -> others_sys s s' -> view_sys s = Some (d, p) -> view_sys s' = Some (d', p') -> latest p' = latest p /\ d' = d.
  Proof.
    intros Hst Ho Hv Hv'. apply view_proc in Hv as [<- Hp]. apply view_proc in Hv' as [<- Hp'].
    unfold others_sys in Ho. rewrite Hp, Hp' in Ho. cbn in Ho. injection Ho as Ho.
    inversion Hst as [d0 p0 l0 d1 p1 Hps'|? ? ? Hcr|? ? Hcr|? ? Hse|? ? ? Hop]; subst; cbn in Hp, Hp'; try discriminate.
    injection Hp as ->. injection Hp' as ->. cbn in *.
    inversion Hps'; subst; try (split; reflexivity); exfalso; cbn in Ho.
    all: try (match goal with H : p_writer _ = _ |- _ => rewrite H in Ho end).
    all: try discriminate Ho.
    - apply (f_equal (fun x => match x with WPages _ l _ _ => length l | _ => 0%nat end)) in Ho. cbn in Ho. lia.
    - unfold pin_header in Ho. destruct (_ =? 0); discriminate Ho.
  Qed.
  Lemma b_lkept s sy l s' d p d' p' : binv s sy -> step s l s' -> True -> others_sys s s' -> view_sys s = Some (d, p) -> view_sys s' = Some (d', p') ->
    latest p' = latest p /\ forall P F, walks (on_disk d) (refs (NHeader (latest p).2)) P F -> forall q, q ∈ P -> on_disk d' q = on_disk d q.
  Proof. intros _ Hst _ Ho Hv Hv'. destruct (step_lkept _ _ _ _ _ _ _ Hst Ho Hv Hv') as [H1 ->]. auto. 
  Qed.

  Lemma xrun_inv tr x : xrun tr x -> run tr (x_sys x) /\ exists sy, spec_steps ps spec_init tr sy /\ xinv x sy.
  Proof.
    intros H. eapply (xsteps_refine ps hash order caching step view_sys put_sys others_sys (fun _ _ => True) binv b_step b_open b_kept b_load b_same b_read b_latest b_lkept run).
    - intros t s l s' H1 H2 _. econstructor; eassumption.
    - constructor.
    - split; [apply (init_inv ps hash order ford caching Hps Hps32 Hord Hford)|exists []; constructor].
    - exact H.
  Qed.

  Lemma xsteps_from x sy tr x' : xinv x sy -> xsteps x tr x' -> exists sy', spec_steps ps sy tr sy' /\ xinv x' sy'.
  Proof.
    intros Hx H. eapply (xsteps_inv ps hash order caching step view_sys put_sys others_sys (fun _ _ => True) binv b_step b_open b_kept b_load b_same b_read b_latest b_lkept (fun _ _ => True));
      [auto|exact I|exact Hx|exact H].
  Qed.

  (** ** C82 *)
  (** Readers get the pages of an answer one by one, pages are read and put into the cache at different moments, and anything may happen in
      between: the same could have happened with every answer made at once. *)
  Theorem spread_reads_refine tr x : xrun tr x -> run tr (x_sys x).
  Proof. intros H. exact (proj1 (xrun_inv tr x H)). Qed.
  (** So a reader answers as if nothing had happened since it was opened, also in an answer during which something happens. *)
  Theorem spread_reads_isolated t1 i t2 t3 x : xrun (t1 ++ [LCall i] ++ t2 ++ [LReady i] ++ t3) x -> Forall (quiet i) t2 -> Forall (quiet i) t3 ->
    exists s ta tb y, t2 = ta ++ tb /\ run (t1 ++ [LCall i] ++ ta) y /\ shows hash order y s /\
      (forall q start bw limit r, LRead i q start bw limit r ∈ t3 ->
         r = Ok (spec_read (s_hist s) q start bw limit, spec_read_head s limit (spec_read (s_hist s) q start bw limit))) /\
      (forall src r, LTrack i src r ∈ t3 -> r = Ok (s_track s src)).
  Proof.
    intros H Q2 Q3. apply spread_reads_refine in H. apply steps_app_inv in H as (y0 & H0 & H). apply steps_app_inv in H as (y1 & H1 & H).
    apply steps_app_inv in H as (y2 & H2 & H). apply steps_app_inv in H as (y3 & H3 & H4).
    pose proof (steps_snoc_inv _ _ _ _ _ _ [] _ _ H1) as (y0' & H1' & Hc). apply steps_nil_inv in H1' as ->.
    pose proof (steps_snoc_inv _ _ _ _ _ _ [] _ _ H3) as (y2' & H3' & Hr). apply steps_nil_inv in H3' as ->.
    destruct (snapshot_isolation ps hash order ford caching Hps Hps32 Hord Hford _ _ _ _ _ _ _ _ _ H0 Hc H2 Q2 Hr H4 Q3) as (s & ta & tb & ya & E & Ha & Hb & Hs & R1 & R2).
    exists s, ta, tb, ya. split; [exact E|]. split; [|auto].
    rewrite app_assoc. exact (run_app ps hash order ford caching _ _ _ _ (run_step _ _ _ _ _ _ _ _ _ H0 Hc) Ha).
  Qed.
  (** A call of a reader can begin, whatever the others do, as the program of the code ... *)
  Theorem spread_read_begins tr x d p i a q start bw limit force : xrun tr x -> view_sys (x_sys x) = Some (d, p) -> p_readers p !! i = Some (ROpen a) ->
    x_tasks x !! i = None -> let rd := fetch 16 (p_cache p) d in
    xrun (tr ++ [LTau]) (XSys (x_sys x) (<[i := Running (read_call hash order rd i a.2 q start bw limit force)]> (x_tasks x)) (x_load x)) /\
    forall src, xrun (tr ++ [LTau]) (XSys (x_sys x) (<[i := Running (track_call i a.2 src)]> (x_tasks x)) (x_load x)).
  Proof.
    intros H Hv Ha Hn rd. destruct x as [s T W]. cbn in *. split.
    - econstructor; [exact H| |exact I]. destruct (read_call_ok hash order rd i a.2 q start bw limit force) as [H1 H2].
      eapply X_begin; [exact Hv|exact Ha|exact Hn|exact H1|]. fold rd. rewrite H2. left. now exists q, start, bw, limit, force.
    - intros src. econstructor; [exact H| |exact I]. destruct (track_call_ok rd i a.2 src) as [H1 H2].
      eapply X_begin; [exact Hv|exact Ha|exact Hn|exact H1|]. fold rd. rewrite H2. right. now exists src.
  Qed.
  (** ... and once begun it ends, if nobody else does anything, after finitely many steps. *)
  Theorem spread_read_ends tr x i t : xrun tr x -> x_tasks x !! i = Some (Running t) ->
    exists n l x', xsteps x (replicate n LTau ++ [l]) x' /\ answer l = true /\ x_tasks x' !! i = None /\
      forall (Q : label -> Prop) (K : N -> Prop), follows (fun _ => Q) K t -> Q l.
  Proof.
    intros H Ht. destruct (xrun_inv _ _ H) as (_ & sy & _ & Hx). destruct x as [s T W].
    destruct (task_ends ps hash order caching step view_sys put_sys others_sys (fun _ _ => True) binv b_step b_open b_kept b_load b_same b_read b_latest b_lkept t s T W sy i Hx Ht)
      as (n & l & s' & T' & H1 & H2 & H3 & H4).
    exists n, l. eexists. split; [exact H1|]. auto.
  Qed.
  (** Whatever happens without answers can happen while calls are being answered. *)
  Lemma xlift s T tr s' : steps s tr s' -> Forall (fun l => answer l = false /\ (forall i, is_Some (T !! i) -> l <> LClose i) /\
    match l with LCrash _ | LKill _ => T = ∅ | _ => True end) tr -> (T = ∅ \/ is_Some (view_sys s)) -> xsteps (XSys s T None) tr (XSys s' T None).
  Proof.
    intros H. induction H as [s|s tr s1 l s2 H IH Hst]; intros Hf Hv; [constructor|]. apply Forall_app in Hf as [Hf Hl]. apply Forall_singleton in Hl as (H1 & H2 & H3).
    econstructor; [exact (IH Hf Hv)| |exact I].
    pose proof (X_sys 16 hash order caching step view_sys put_sys others_sys s1 l s2 T None Hst H1 H2 ltac:(intros [x Hx]; discriminate)) as Hx.
    destruct (view_sys s2) eqn:E; [exact Hx|]. assert (T = ∅) as ->; [|exact Hx].
    inversion Hst; subst; cbn in E; try discriminate; exact H3.
  Qed.
End props.

(** ** Concrete case: the execution of PropsStore.v in which reader 0 is opened before the second batch *)
Lemma scan_fuel_pos rd n : exists f, scan_fuel rd n = S f.
Proof.
  unfold scan_fuel. assert (forall l, exists f, foldr (fun i a => visits rd (N.of_nat i) + a)%nat 1%nat l = S f) as H; [|apply H].
  induction l as [|i l [f IH]]; [now exists 0%nat|]. cbn. rewrite IH. exists (visits rd (N.of_nat i) + f)%nat. lia.
Qed.
(** Reading everything begins with the root of the events tree. *)
Lemma read_all_asks hash order rd i h : exists k, read_call hash order rd i h [] None false None false = Ask (h_events_root h) k.
Proof.
  unfold read_call, read_prog, read_conditional_prog. destruct (scan_fuel_pos rd (N.to_nat (h_next_page h))) as [f ->].
  remember (N.to_nat (h_next_page h)) as np. cbn [scan_prog]. unfold ei_next_prog. change (SCAN_BATCH_SIZE =? 0) with false. cbn [andb].
  destruct (N.to_nat SCAN_BATCH_SIZE) as [|m] eqn:E; [discriminate E|]. cbn [ei_loop_prog]. eexists. reflexivity.
Qed.
Lemma read_call_leaf hash order rd i h q start bw limit force (K : N -> Prop) : (forall x, x ∈ refs (NHeader h) -> K x) ->
  follows (fun _ l => exists r, l = LRead i q start bw limit r) K (read_call hash order rd i h q start bw limit force).
Proof.
  intros HK. eapply (follows_bind qtop); [eapply follows_weaken; [apply read_follows|exact HK|intros; exact I]|]. intros K' r _ _. now exists r.
Qed.
Notation x_xrun := (xrun 1024 x_hash (fun l => l) x_ford true).
Notation x_xsteps := (xsteps 16 x_hash (fun l => l) true (step 16 1024 x_hash (fun l => l) x_ford true) view_sys put_sys others_sys (fun _ _ => True)).
Lemma spec_steps_snoc_inv ps y tr l y' : spec_steps ps y (tr ++ [l]) y' -> exists ym, spec_steps ps y tr ym /\ spec_step ps ym l y'.
Proof.
  intros H. remember (tr ++ [l]) as t eqn:E. destruct H as [y|y t0 ym l0 y' H1 H2]; [now destruct tr|]. apply app_inj_tail in E as [-> ->]. eauto.
Qed.
Lemma tau_spec ps sy n sy' : spec_steps ps sy (replicate n LTau) sy' -> sy' = sy.
Proof.
  revert sy'. induction n as [|n IH]; intros sy' H.
  - cbn in H. remember (@nil label) as t eqn:E. destruct H as [y|y t0 ym l0 y' H1 H2]; [reflexivity|now destruct t0].
  - replace (replicate (S n) LTau) with (replicate n LTau ++ [LTau]) in H by (clear; induction n as [|n IH]; [reflexivity|cbn; f_equal; exact IH]).
    apply spec_steps_snoc_inv in H as (ym & H1 & H2). apply IH in H1 as ->. now inversion H2.
Qed.
(** The reader begins to read everything and gets the root page; the second batch is committed; the reader goes on, and answers without it. *)
Example x_spread : exists t1 t2 t3 m r, x_c2 ∈ t3 /\ r = Ok ([x_ev1], Some 1) /\
  exists x1 x2 x3, x_xrun (t1 ++ [LCall 0] ++ t2 ++ [LReady 0] ++ [LTau; LTau]) x1 /\ is_Some (x_tasks x1 !! 0%nat) /\
    x_xsteps x1 t3 x2 /\ x_tasks x2 = x_tasks x1 /\ x_xsteps x2 (replicate m LTau ++ [LRead 0 [] None false None r]) x3.
Proof.
  destruct x_happens as (y & H). set (rd := LRead 0 [] None false None (Ok ([x_ev1], Some 1))).
  assert (exists t1 t2 t3 t4, x_trace = ((t1 ++ LCall 0 :: t2) ++ LReady 0 :: (t3 ++ [x_c2]) ++ [rd]) ++ t4 /\
    Forall (fun l => answer l = false /\ (forall i : nat, l <> LClose i) /\ match l with LCrash _ | LKill _ => False | _ => True end) ((t1 ++ LCall 0 :: t2) ++ LReady 0 :: (t3 ++ [x_c2])))
    as (t1 & t2 & t3 & t4 & E & Q).
  { exists (x_t1 ++ [LCommit [xr1; xr2] [Ok 1; Err EIntegrity]]), (replicate 4 LTau), (replicate 13 LTau).
    eexists. split; [reflexivity|]. repeat (constructor; [split; [reflexivity|split; [discriminate|exact I]]|]). constructor. }
  rewrite E in H. clear E. apply steps_app_inv in H as (yz & H & _). apply run_at in H as (y0 & y1 & H0 & H1 & H). apply steps_app_inv in H as (y5 & H5 & H6).
  apply (steps_snoc_inv _ _ _ _ _ _ []) in H6 as (y5' & H6' & H6). apply steps_nil_inv in H6' as ->.
  apply Forall_app in Q as [Q1 Q]. apply Forall_cons in Q as [Q2 Q3].
  set (T0 := ∅ : gmap nat task).
  assert (x_xrun ((t1 ++ LCall 0 :: t2) ++ [LReady 0]) (XSys y1 ∅ None)) as X1.
  { unfold xrun. apply (xlift 1024 x_hash (fun l => l) x_ford true); [econstructor; [exact H0|exact H1]| |now left].
    apply Forall_app. split; [|constructor; [|constructor]].
    - eapply Forall_impl; [exact Q1|]. intros l (A1 & A2 & A3). split; [exact A1|]. split; [auto|]. now destruct l.
    - destruct Q2 as (A1 & A2 & A3). split; [exact A1|]. split; [auto|exact I]. }
  assert (exists d p a, view_sys y1 = Some (d, p) /\ p_readers p !! 0%nat = Some (ROpen a)) as (d & p & a & Hv & Ha).
  { inversion H1 as [d0 p0 l0 d1 p1 Hps'| | | |]; subst. inversion Hps'; subst. eexists _, _, _. split; [reflexivity|]. cbn. apply lookup_insert. }
  destruct (spread_read_begins 1024 x_hash (fun l => l) x_ford true _ _ _ _ 0%nat a [] None false None false X1 Hv Ha (lookup_empty _)) as [X2 _].
  cbn [x_sys x_tasks x_load] in X2. destruct (read_all_asks x_hash (fun l => l) (fetch 16 (p_cache p) d) 0 a.2) as [k Hk].
  assert (follows (fun _ l => exists r, l = LRead 0 [] None false None r) (fun _ => True) (Ask (h_events_root a.2) k)) as Hleaf.
  { rewrite <- Hk. now apply read_call_leaf. }
  rewrite Hk in X2. clear Hk.
  destruct (xrun_inv 1024 x_hash (fun l => l) x_ford true x_ps x_ps32 x_ord x_ford_ok _ _ X2) as (_ & sy & _ & (_ & HT & _)).
  destruct (task_page _ _ _ _ _ _ _ (HT 0%nat _ (lookup_insert _ _ _))) as (d' & p' & n & Hv' & Hq & Hn & Hc). cbn [x_sys] in Hv'.
  assert (d' = d /\ p' = p) as [-> ->] by (split; congruence). clear HT sy.
  set (root := h_events_root a.2) in *. set (T1 := <[0%nat := Running (Ask root k)]> (∅ : gmap nat task)) in *.
  assert (exists u, (u = Running (k (Ok n)) \/ u = Loading root n k) /\ x_xrun ((((t1 ++ LCall 0 :: t2) ++ [LReady 0]) ++ [LTau]) ++ [LTau]) (XSys y1 (<[0%nat := u]> T1) None)) as (u & Hu & X3).
  { destruct Hc as [Hc|Hc].
    - exists (Loading root n k). split; [now right|]. econstructor; [exact X2| |exact I].
      eapply X_miss; [exact Hv|apply lookup_insert|exact Hq|exact Hc|reflexivity|now apply on_disk_dec].
    - exists (Running (k (Ok n))). split; [now left|]. econstructor; [exact X2| |exact I].
      eapply X_hit; [exact Hv|apply lookup_insert|exact Hq|exact Hc]. }
  assert (x_xsteps (XSys y1 (<[0%nat := u]> T1) None) (t3 ++ [x_c2]) (XSys y5 (<[0%nat := u]> T1) None)) as X4.
  { apply (xlift 1024 x_hash (fun l => l) x_ford true); [exact H5| |right; rewrite Hv; now eexists].
    eapply Forall_impl; [exact Q3|]. intros l (A1 & A2 & A3). split; [exact A1|]. split; [auto|]. now destruct l. }
  pose proof (xsteps_app _ _ _ _ _ _ _ _ _ _ _ _ _ X3 X4) as X5.
  assert (exists m0 y6 T6, x_xsteps (XSys y5 (<[0%nat := u]> T1) None) (replicate m0 LTau) (XSys y6 T6 None) /\ T6 !! 0%nat = Some (Running (k (Ok n)))) as (m0 & y6 & T6 & X6 & HT6).
  { destruct Hu as [->| ->]; [exists 0%nat, y5, (<[0%nat := Running (k (Ok n))]> T1); split; [constructor|apply lookup_insert]|].
    assert (exists d5 p5, view_sys y5 = Some (d5, p5)) as (d5 & p5 & Hv5).
    { inversion H6; subst. eexists _, _. reflexivity. }
    exists 1%nat. eexists _, _. split; [apply xsteps_one; [|exact I]|apply lookup_insert]. eapply X_loaded; [exact Hv5|apply lookup_insert]. }
  pose proof (xsteps_app _ _ _ _ _ _ _ _ _ _ _ _ _ X5 X6) as X7.
  destruct (spread_read_ends 1024 x_hash (fun l => l) x_ford true x_ps x_ps32 x_ord x_ford_ok _ _ 0%nat _ X7 HT6) as (m & l & x3 & X8 & _ & _ & Hl).
  apply proj2 in Hleaf. destruct (Hl _ _ (Hleaf (Ok n))) as [r ->].
  pose proof (xsteps_app _ _ _ _ _ _ _ _ _ _ _ _ _ X6 X8) as X9. rewrite app_assoc, <- replicate_add in X9.
  destruct (xrun_inv 1024 x_hash (fun l => l) x_ford true x_ps x_ps32 x_ord x_ford_ok _ _ X5) as (_ & sy & _ & Hinv).
  exists t1, t2, (t3 ++ [x_c2]), (m0 + m)%nat, r. split; [apply elem_of_app; right; now left|]. split.
  - destruct (sim_step 1024 x_hash (fun l => l) x_ford true x_ps x_ps32 x_ord x_ford_ok _ _ _ _ (proj1 (proj1 Hinv)) H6) as (sy' & Hs' & _).
    destruct (xsteps_from 1024 x_hash (fun l => l) x_ford true x_ps x_ps32 x_ord x_ford_ok _ _ _ _ Hinv X9) as (sy9 & Hs9 & _).
    apply spec_steps_snoc_inv in Hs9 as (ym & H7 & H8). apply tau_spec in H7 as ->.
    assert (forall r sy', spec_step 1024 sy (LRead 0 [] None false None r) sy' -> exists s0, sp_open sy !! 0%nat = Some s0 /\
      r = Ok (spec_read (s_hist s0) [] None false None, spec_read_head s0 None (spec_read (s_hist s0) [] None false None))) as Hone.
    { intros r0 sy0 Hr0. inversion Hr0; subst. eauto. }
    destruct (Hone _ _ Hs') as (s1 & O1 & ->). destruct (Hone _ _ H8) as (s2 & O2 & ->). congruence.
  - exists (XSys y1 (<[0%nat := u]> T1) None), (XSys y5 (<[0%nat := u]> T1) None), x3.
    split; [|split; [cbn; rewrite lookup_insert; now eexists|split; [exact X4|split; [reflexivity|exact X9]]]].
    rewrite <- !app_assoc in X3. cbn [app] in X3 |- *. exact X3.
Qed.

Print Assumptions spread_reads_refine.
Print Assumptions spread_reads_isolated.
Print Assumptions spread_read_begins.
Print Assumptions spread_read_ends.
