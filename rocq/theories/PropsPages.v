(** Properties C15, C16 and C21: the pages of the file, over every execution of the transition system of Mvcc.v.

    Which pages make up a database is stated with the walk of Walk.v, which only knows the file format. *)
From Verif Require Import Walk WalkProofs Mvcc MvccProofs SpecProofs StoreProofs Exec PropsStore.
Local Open Scope N_scope.

(** What a page of the file holds. *)
Definition on_disk (d : disk) (q : N) : option node := match dec 16 (d_cur d q) with Ok n => Some n | Err _ => None end.
(** The headers that matter: the last one committed and those of the readers. *)
Definition in_use (p : proc) (h : header) : Prop := h = (latest p).2 \/ exists i a, p_readers p !! i = Some (ROpen a) /\ h = a.2.

Lemma seqN_at a n k : (k < n)%nat -> seqN a n !! k = Some (a + N.of_nat k).
Proof.
  revert a k. induction n as [|n IH]; intros a k Hk; [lia|]. destruct k as [|k]; cbn; [f_equal; lia|]. rewrite IH by lia. f_equal. lia.
Qed.

Section props.
  Context (ps : N) (hash : bytes -> bytes) (order : list bytes -> list bytes) (ford : gset N -> list N) (caching : bool).
  Context (Hps : ps_ok ps) (Hps32 : ps < U32) (Hord : forall l t, t ∈ order l <-> t ∈ l) (Hford : forall s, ford s ≡ₚ elements s).
  Notation step := (step 16 ps hash order ford caching).
  Notation steps := (steps 16 ps hash order ford caching).
  Notation run := (run ps hash order ford caching).
  Notation shows := (shows hash order).

  Lemma held_walks d c G : cur_ok d -> held 16 ps hash d c G ->
    exists P F, walks (on_disk d) (refs (NHeader (g_hdr G))) P F /\ P = g_live G /\ F ≡ₚ map fst (pairs (sn_es (g_sn G))).
  Proof.
    intros Hc [Hok Hh]. destruct (snap_walks _ _ _ _ _ Hok) as (P & F & Hw & -> & HF). exists (g_live G), F. split; [|split; [reflexivity|exact HF]].
    eapply walks_frame; [exact Hw|]. intros q Hq. destruct (Hh q Hq) as (n & Hn & Hg & _). unfold on_disk. now rewrite (Hg _ (Hc q)).
  Qed.
  (** Every header in use belongs to a state whose pages are safe. *)
  Lemma run_in_use tr y p h : run tr y -> y_proc y = Some p -> in_use p h ->
    exists g sy G, uinv 16 ps hash caching (y_disk y) p g sy /\ g_hdr G = h /\ held 16 ps hash (y_disk y) (p_cache p) G /\
      (busy (p_writer p) -> forall q, q ∈ g_live G -> ~ Txn.fresh (g_sn (gh_cur g)) (gh_sm g) q).
  Proof.
    intros H Hp Hu. destruct (run_inv ps hash order ford caching Hps Hps32 Hord Hford _ _ H) as (sy & _ & Hi & _). unfold inv in Hi. rewrite Hp in Hi. destruct Hi as (g & Hi).
    exists g, sy. pose proof (u_held _ _ _ _ _ _ _ _ Hi) as Hh. destruct Hu as [->|(i & a & Ha & ->)].
    - exists (gh_cur g). split; [exact Hi|]. split; [symmetry; exact (u_latest _ _ _ _ _ _ _ _ Hi)|]. split; [exact Hh|].
      intros _ q Hq. eapply fresh_live; [exact (proj1 Hh)|exact Hq].
    - pose proof (u_readers _ _ _ _ _ _ _ _ Hi i) as Hr. unfold rinv in Hr. rewrite Ha in Hr. destruct Hr as (_ & G & _ & Hg & _ & Hh' & Hpr).
      exists G. split; [exact Hi|]. split; [exact Hg|]. split; [exact Hh'|]. intros Hb q Hq. exact (proj2 (Hpr q Hq) Hb).
  Qed.

  (** What any step leaves of the pages of a state held safely. *)
  Lemma uinv_kept d p g sy G l y' : uinv 16 ps hash caching d p g sy -> held 16 ps hash d (p_cache p) G ->
    (busy (p_writer p) -> forall q, q ∈ g_live G -> ~ Txn.fresh (g_sn (gh_cur g)) (gh_sm g) q) -> step (Sys d (Some p)) l y' ->
    forall q, q ∈ g_live G -> cur_ok (y_disk y') /\ forall c, d_dur (y_disk y') q c -> d_dur d q c.
  Proof.
    intros Hi Hh Hf Hst q Hin. pose proof (u_cur _ _ _ _ _ _ _ _ Hi) as Hc.
    assert (2 <= q) as H2 by (apply (snap_range _ _ _ _ _ q (proj1 Hh)); apply elem_of_app; now left).
    assert (Hnot : forall w todo done ans x m, p_writer p = WPages w todo done ans -> (x, m) ∈ todo -> q <> x).
    { intros w todo done ans x m Hx Hxm ->. pose proof (u_writer _ _ _ _ _ _ _ _ Hi) as Hwr. rewrite Hx in Hwr, Hf.
      destruct Hwr as ((_ & _ & _ & _ & _ & N6 & _) & Hto & _). apply (Hf I x Hin). apply N6. exists m. now apply Hto. }
    assert (Hoth : q <> other_slot (latest p).1) by (unfold other_slot; case_match; lia).
    inversion Hst as [? ? ? ? ? Hps'| ? ? ? Hcr| |? ? Hse|]; subst; cbn.
    - inversion Hps'; subst; try (split; [exact Hc|auto; fail]).
      + split; [now apply write_cur|]. intros c. apply write_dur. eapply Hnot; [eassumption|]. now left.
      + match goal with H : _ \/ _ |- _ => destruct H as [->|Hsp]; [split; [exact Hc|auto]|] end.
        destruct (spoilt_ok _ _ _ _ _ Hc Hsp) as [Hc1 Hd1]. split; [exact Hc1|]. intros c. apply Hd1. eapply Hnot; [eassumption|]. now left.
      + split; [now apply synced_cur|]. intros c. now apply synced_dur.
      + match goal with H : d_unsynced _ _ |- _ => destruct (unsynced_ok _ _ Hc H) as [Hc1 Hd1] end. split; [exact Hc1|]. intros c. apply Hd1.
      + split; [now apply write_cur|]. intros c. now apply write_dur.
      + match goal with H : d_spoilt _ _ _ _ _ |- _ => destruct (spoilt_ok _ _ _ _ _ Hc H) as [Hc1 Hd1] end. split; [exact Hc1|]. intros c. now apply Hd1.
      + split; [now apply synced_cur|]. intros c. now apply synced_dur.
      + match goal with H : d_unsynced _ _ |- _ => destruct (unsynced_ok _ _ Hc H) as [Hc1 Hd1] end. split; [exact Hc1|]. intros c. apply Hd1.
    - destruct (crashed_ok _ _ Hcr) as (Hd1 & Hc1 & _). split; [exact Hc1|]. intros c. apply Hd1.
    - split; [exact Hc|auto].
  Qed.

  (** ** C15 *)
  (** Follow all references from the committed header: every page from 2 up to the high-water mark is passed exactly
      once, or found exactly once among the free ones, and nothing else is. *)
  Theorem no_page_lost_or_shared tr y p : run tr y -> y_proc y = Some p ->
    exists P F, walks (on_disk (y_disk y)) (refs (NHeader (latest p).2)) P F /\
      P ++ F ≡ₚ seqN 2 (N.to_nat (h_next_page (latest p).2 - 2)).
  Proof.
    intros H Hp. destruct (run_in_use tr y p (latest p).2 H Hp ltac:(now left)) as (g & sy & G & Hi & Hg & Hh & _).
    destruct (held_walks _ _ _ (u_cur _ _ _ _ _ _ _ _ Hi) Hh) as (P & F & Hw & -> & HF). rewrite Hg in Hw. exists (g_live G), F.
    split; [exact Hw|]. rewrite HF, <- Hg. exact (so_cover _ _ _ _ _ (proj1 Hh)).
  Qed.
  Corollary pages_used_once tr y p P F : run tr y -> y_proc y = Some p -> walks (on_disk (y_disk y)) (refs (NHeader (latest p).2)) P F ->
    NoDup P /\ NoDup F /\ (forall q, q ∈ P -> q ∉ F) /\ forall q, 2 <= q < h_next_page (latest p).2 <-> q ∈ P \/ q ∈ F.
  Proof.
    intros H Hp Hw. destruct (no_page_lost_or_shared tr y p H Hp) as (P' & F' & Hw' & E). destruct (walks_unique _ _ _ _ _ _ Hw Hw') as [-> ->].
    assert (NoDup (P ++ F)) as Hnd by (rewrite E; apply NoDup_seqN). apply NoDup_app in Hnd as (H1 & H2 & H3). split; [exact H1|]. split; [exact H3|]. split; [exact H2|].
    intros q. rewrite <- elem_of_app, E, elem_of_seqN. lia.
  Qed.

  (** ** C16 *)
  (** The pages of a committed state are there as long as the state is in use. *)
  Theorem pages_in_use_readable tr y p h : run tr y -> y_proc y = Some p -> in_use p h ->
    exists P F, walks (on_disk (y_disk y)) (refs (NHeader h)) P F /\
      forall q, q ∈ P -> exists n, on_disk (y_disk y) q = Some n /\ fetch 16 (p_cache p) (y_disk y) q = Ok n.
  Proof.
    intros H Hp Hu. destruct (run_in_use tr y p h H Hp Hu) as (g & sy & G & Hi & Hg & Hh & _).
    pose proof (u_cur _ _ _ _ _ _ _ _ Hi) as Hc.
    destruct (held_walks _ _ _ Hc Hh) as (P & F & Hw & -> & HF). rewrite Hg in Hw. exists (g_live G), F.
    split; [exact Hw|]. intros q Hq. destruct (proj2 Hh q Hq) as (n & Hn & Hgd). exists n. split.
    - unfold on_disk. now rewrite (proj1 Hgd _ (Hc q)).
    - eapply held_fetch; eauto.
  Qed.
  (** No write goes to them. *)
  Theorem pages_in_use_not_written tr y p h P F w todo done ans : run tr y -> y_proc y = Some p -> in_use p h ->
    walks (on_disk (y_disk y)) (refs (NHeader h)) P F -> p_writer p = WPages w todo done ans ->
    forall q n, (q, n) ∈ todo -> q ∉ P.
  Proof.
    intros H Hp Hu Hw Hx q n Hq Hin. destruct (run_in_use tr y p h H Hp Hu) as (g & sy & G & Hi & Hg & Hh & Hf).
    destruct (held_walks _ _ _ (u_cur _ _ _ _ _ _ _ _ Hi) Hh) as (P' & F' & Hw' & E & _). rewrite Hg in Hw'.
    destruct (walks_unique _ _ _ _ _ _ Hw Hw') as [-> ->]. subst P.
    pose proof (u_writer _ _ _ _ _ _ _ _ Hi) as Hwr. rewrite Hx in Hwr, Hf. destruct Hwr as ((_ & _ & _ & _ & _ & N6 & _) & Hto & _).
    apply (Hf I q Hin). apply N6. exists n. now apply Hto.
  Qed.
  (** Whatever happens next — a write that fails half-way, a failed sync or a crash of the machine included — they can be read
      as before, now and after any crash that may follow. *)
  Theorem pages_in_use_kept tr y p h P F l y' : run tr y -> y_proc y = Some p -> in_use p h ->
    walks (on_disk (y_disk y)) (refs (NHeader h)) P F -> step y l y' ->
    forall q, q ∈ P -> on_disk (y_disk y') q = on_disk (y_disk y) q /\
      forall c, d_dur (y_disk y') q c -> dec 16 c = dec 16 (d_cur (y_disk y) q).
  Proof.
    intros H Hp Hu Hw Hst q Hin. destruct (run_in_use tr y p h H Hp Hu) as (g & sy & G & Hi & Hg & Hh & Hf).
    pose proof (u_cur _ _ _ _ _ _ _ _ Hi) as Hc. destruct (held_walks _ _ _ Hc Hh) as (P' & F' & Hw' & E & _). rewrite Hg in Hw'.
    pose proof Hw as Hw0. destruct (walks_unique _ _ _ _ _ _ Hw Hw') as [-> ->]. subst P.
    destruct (proj2 Hh q Hin) as (n & Hn & Hgd & _). assert (2 <= q) as H2 by (apply (snap_range _ _ _ _ _ q (proj1 Hh)); apply elem_of_app; now left).
    enough (cur_ok (y_disk y') /\ forall c, d_dur (y_disk y') q c -> d_dur (y_disk y) q c) as [Hc' Hd].
    { split; [unfold on_disk; rewrite (Hgd _ (Hc q)), (Hgd _ (Hd _ (Hc' q))); reflexivity|]. intros c Hcd. rewrite (Hgd _ (Hc q)). apply Hgd, Hd, Hcd. }
    destruct y as [d p0]. cbn in Hp. subst p0. exact (uinv_kept _ _ _ _ _ _ _ Hi Hh Hf Hst q Hin).
  Qed.

  (** ** C21 *)
  (** A request answered with a position, no event stored before ([h]) meeting its condition: its [k]-th event is
      found at position [length h + 1 + k], with all it had, whatever its size and whatever happened since. *)
  Theorem payload_round_trip tr y s r1 r r2 ans y' p : run tr y -> shows y s -> step y (LCommit (r1 ++ r :: r2) ans) y' ->
    ans !! length r1 = Some (Ok p) ->
    exists h, s_hist s `prefix_of` h /\ ((forall c, rq_cond r = Some c -> forall e, e ∈ h -> ~ conflicts c e) ->
      forall k ev, rq_events r !! k = Some ev -> forall tr' y'' pr force, steps y' tr' y'' -> y_proc y'' = Some pr ->
        exists rec, umadb_read hash order (fetch 16 (p_cache pr) (y_disk y'')) (latest pr).2 [] (Some (nlen h + 1 + N.of_nat k)) false (Some 1) force =
            Ok ([(nlen h + 1 + N.of_nat k, rec)], Some (nlen h + 1 + N.of_nat k)) /\
          er_type rec = ne_type ev /\ er_data rec = ne_data ev /\ er_tags rec = ne_tags ev /\ er_uuid rec = ne_uuid ev /\
          er_meta rec = ne_meta ev /\ er_tracking rec = rq_trk r).
  Proof.
    intros H Hs Hst Ha. destruct (decide (rq_events r = [])) as [E0|Hne].
    { exists (s_hist s). split; [reflexivity|]. intros _ k ev. now rewrite E0. }
    destruct (append_positions ps hash order ford caching Hps Hps32 Hord Hford _ _ _ _ _ _ _ _ _ H Hs Hst Ha Hne) as (h & new & later & s' & Hs' & E & Hpre & Hok & _).
    exists h. split; [exact Hpre|]. intros Hno k ev Hk tr' y'' pr force Hst' Hp. destruct (Hok Hno) as (_ & Hf & Hr).
    pose proof (run_step _ _ _ _ _ _ _ _ _ H Hst) as H'. pose proof (run_app _ _ _ _ _ _ _ _ _ H' Hst') as H''.
    destruct (run_up ps hash order ford caching Hps Hps32 Hord Hford _ y'' H'' ltac:(now exists pr)) as (s'' & Hs'' & Hgl).
    destruct (events_permanent ps hash order ford caching Hps Hps32 Hord Hford _ _ _ _ _ _ H' Hs' Hst' Hs'') as (more & Em).
    exists (to_record (rq_trk r) ev). split; [|repeat split].
    destruct Hs'' as (pr' & Hp' & Hrd & _). assert (pr' = pr) as -> by congruence. rewrite Hrd.
    assert (s_hist s'' !! (length h + k)%nat = Some (nlen h + 1 + N.of_nat k, to_record (rq_trk r) ev)) as Hlk.
    { rewrite Em, E, <- !app_assoc. rewrite lookup_app_r by lia. replace (length h + k - length h)%nat with k by lia.
      assert (length new = length (rq_events r)) as Hl by (rewrite <- (map_length snd), Hr; apply map_length).
      pose proof (lookup_lt_Some _ _ _ Hk) as Hlt. rewrite lookup_app_l by lia.
      destruct (lookup_lt_is_Some_2 new k) as ([q rec] & Hq); [lia|]. rewrite Hq. f_equal. f_equal.
      - assert (map fst new !! k = Some q) as Hq' by (rewrite list_lookup_fmap, Hq; reflexivity). rewrite Hf in Hq'.
        rewrite seqN_at in Hq' by lia. injection Hq' as <-. lia.
      - assert (map snd new !! k = Some rec) as Hq' by (rewrite list_lookup_fmap, Hq; reflexivity). rewrite Hr in Hq'.
        rewrite list_lookup_fmap, Hk in Hq'. cbn in Hq'. congruence. }
    assert (spec_read (s_hist s'') [] (Some (nlen h + 1 + N.of_nat k)) false (Some 1) = [(nlen h + 1 + N.of_nat k, to_record (rq_trk r) ev)]) as ->; [|reflexivity].
    rewrite read_limit. change (N.to_nat 1) with 1%nat. set (e := (nlen h + 1 + N.of_nat k, to_record (rq_trk r) ev)) in *.
    assert (e ∈ spec_read (s_hist s'') [] (Some (nlen h + 1 + N.of_nat k)) false None) as Hin.
    { apply read_elem. split; [eapply elem_of_list_lookup_2; exact Hlk|]. split; [cbn; lia|now left]. }
    destruct (read_sorted (s_hist s'') [] (Some (nlen h + 1 + N.of_nat k)) None Hgl) as [Hso _].
    pose proof (fun e' => proj1 (read_elem (s_hist s'') [] (Some (nlen h + 1 + N.of_nat k)) false e')) as Hel.
    destruct (spec_read (s_hist s'') [] (Some (nlen h + 1 + N.of_nat k)) false None) as [|e' l]; [inversion Hin|]. cbn. rewrite take_0. f_equal.
    destruct (Hel e' ltac:(now left)) as (He' & Hrg & _). cbn in Hrg. apply elem_of_cons in Hin as [|Hin]; [congruence|exfalso].
    cbn in Hso. inversion Hso as [|? ? _ Hall]; subst. rewrite Forall_forall in Hall. specialize (Hall e.1). feed specialize Hall; [apply elem_of_list_fmap; eauto|]. cbn in Hall. lia.
  Qed.
End props.

(** ** Cases *)
(** The walk, computed. *)
Fixpoint walk (get : N -> option node) (fuel : nat) (l : list N) : option (list N * list N) :=
  match fuel, l with
  | _, [] => Some ([], [])
  | O, _ => None
  | S fuel, p :: l =>
    match get p with
    | None => None
    | Some n => match walk get fuel (refs n), walk get fuel l with
                | Some (P, F), Some (P', F') => Some (p :: P ++ P', frees n ++ F ++ F')
                | _, _ => None
                end
    end
  end.
Lemma walk_walks get fuel l P F : walk get fuel l = Some (P, F) -> walks get l P F.
Proof.
  revert l P F. induction fuel as [|fuel IH]; intros [|p l] P F; cbn; try (intros [= <- <-]; apply walks_nil).
  destruct (get p) as [n|] eqn:Eg; [|discriminate]. destruct (walk get fuel (refs n)) as [[P1 F1]|] eqn:E1; [|discriminate].
  destruct (walk get fuel l) as [[P2 F2]|] eqn:E2; [|discriminate]. intros [= <- <-]. constructor; auto.
Qed.
Notation x_exec := (exec 16 1024 x_hash (fun l => l) x_ford true (init_sys 16 1024)).
Notation x_runs := (exec_runs 1024 x_hash (fun l => l) x_ford true x_ps x_ps32 x_ord x_ford_ok).
Lemma x_found s (P : sys -> bool) : match x_exec s with Some (_, y) => P y | None => false end = true -> exists tr y, x_run tr y /\ P y = true.
Proof.
  destruct (x_exec s) as [[tr y]|] eqn:E; [|discriminate]. intros HP. destruct (x_runs s tr) as (y' & H & E'); [now rewrite E|].
  exists tr, y. split; [|exact HP]. congruence.
Qed.

Notation x_walk y h := (walk (on_disk (y_disk y)) 50 (refs (NHeader h))).
Definition pgs_eq (x : option (list N * list N)) (P F : list N) : bool := bool_decide (x = Some (P, F)).

(** C15: after the execution of PropsStore.v, a crash included, the trees have six pages and four are free. *)
Definition x_p15 (y : sys) : bool := match y_proc y with
  | Some p => (h_next_page (latest p).2 =? 12) && pgs_eq (x_walk y (latest p).2) [11; 7; 8; 4; 6; 5] [3; 9; 2; 10]
  | None => false end.
Lemma x_p15_inv y : x_p15 y = true -> exists p, y_proc y = Some p /\ h_next_page (latest p).2 = 12 /\
  walks (on_disk (y_disk y)) (refs (NHeader (latest p).2)) [11; 7; 8; 4; 6; 5] [3; 9; 2; 10].
Proof.
  unfold x_p15. destruct (y_proc y) as [p|]; [|discriminate]. rewrite andb_true_iff, N.eqb_eq. unfold pgs_eq. rewrite bool_decide_eq_true.
  intros [H1 H2]. exists p. split; [reflexivity|]. split; [exact H1|]. eapply walk_walks. exact H2.
Qed.
Lemma x_p15_found : exists tr y, x_run tr y /\ x_p15 y = true.
Proof. apply (x_found x_script). vm_compute. reflexivity. Qed.
Example x_pages : exists tr y p, x_run tr y /\ y_proc y = Some p /\ h_next_page (latest p).2 = 12 /\
  walks (on_disk (y_disk y)) (refs (NHeader (latest p).2)) [11; 7; 8; 4; 6; 5] [3; 9; 2; 10] /\
  [11; 7; 8; 4; 6; 5] ++ [3; 9; 2; 10] ≡ₚ seqN 2 10.
Proof.
  destruct x_p15_found as (tr & y & H & HP). apply x_p15_inv in HP as (p & Hp & H1 & H2). exists tr, y, p. do 4 (split; [assumption|]).
  destruct (no_page_lost_or_shared 1024 x_hash (fun l => l) x_ford true x_ps x_ps32 x_ord x_ford_ok tr y p H Hp) as (P & F & Hw & E).
  destruct (walks_unique _ _ _ _ _ _ H2 Hw) as [-> ->]. rewrite H1 in E. exact E.
Qed.

(** C16: a reader of the first commit, after the second one, while the third is being written (two pages are still to be
    written).  All pages of the reader are still there, out of use by the second commit. *)
Definition x_script2 := x_batch [xr1; xr2] 3 ++ [ADone] ++ x_reader 0 ++ x_batch [xr3; xr4; xr5] 6 ++ [ADone] ++ removelast (removelast (x_batch [xr6] 2)).
Definition x_p16 (y : sys) : bool := match y_proc y with
  | Some p => match p_readers p !! 0%nat, p_writer p with
    | Some (ROpen a), WPages w todo _ _ =>
      bool_decide (map fst todo = [12; 14]) && (pgs_eq (x_walk y a.2) [7; 6; 5] [3; 4; 2] && pgs_eq (x_walk y (latest p).2) [10; 3; 8; 4; 2; 9] [7; 5; 6])
    | _, _ => false end
  | None => false end.
Lemma x_p16_inv y : x_p16 y = true -> exists p a w todo done ans, y_proc y = Some p /\ p_readers p !! 0%nat = Some (ROpen a) /\
  p_writer p = WPages w todo done ans /\ map fst todo = [12; 14] /\
  walks (on_disk (y_disk y)) (refs (NHeader a.2)) [7; 6; 5] [3; 4; 2] /\
  walks (on_disk (y_disk y)) (refs (NHeader (latest p).2)) [10; 3; 8; 4; 2; 9] [7; 5; 6].
Proof.
  unfold x_p16. destruct (y_proc y) as [p|]; [|discriminate]. destruct (p_readers p !! 0%nat) as [[]|] eqn:Hr; try discriminate.
  destruct (p_writer p) as [| |w todo done ans| | |] eqn:Hx; try discriminate. unfold pgs_eq. rewrite !andb_true_iff, !bool_decide_eq_true.
  intros (H1 & H2 & H3). exists p, a, w, todo, done, ans. do 4 (split; [auto|]). split; eapply walk_walks; eassumption.
Qed.
Lemma x_p16_found : exists tr y, x_run tr y /\ x_p16 y = true.
Proof. apply (x_found x_script2). vm_compute. reflexivity. Qed.
Example x_pages_kept : exists tr y p a w todo done ans, x_run tr y /\ y_proc y = Some p /\ p_readers p !! 0%nat = Some (ROpen a) /\
  p_writer p = WPages w todo done ans /\ map fst todo = [12; 14] /\
  walks (on_disk (y_disk y)) (refs (NHeader a.2)) [7; 6; 5] [3; 4; 2] /\
  walks (on_disk (y_disk y)) (refs (NHeader (latest p).2)) [10; 3; 8; 4; 2; 9] [7; 5; 6] /\
  (forall l y', x_step y l y' -> on_disk (y_disk y') 7 = on_disk (y_disk y) 7).
Proof.
  destruct x_p16_found as (tr & y & H & HP). apply x_p16_inv in HP as (p & a & w & todo & done & ans & Hp & Hr & Hx & H1 & H2 & H3).
  exists tr, y, p, a, w, todo, done, ans. do 7 (split; [assumption|]).
  intros l y' Hst. refine (proj1 (pages_in_use_kept 1024 x_hash (fun l => l) x_ford true x_ps x_ps32 x_ord x_ford_ok tr y p a.2 _ _ l y' H Hp _ H2 Hst 7 _)); [right; eauto|now left].
Qed.

(** C21: an event of 1500 bytes in a file with pages of 1024 bytes, with an id and metadata, read after more commits. *)
Example x_payload : exists y p, x_shows y x_s2 /\ y_proc y = Some p /\
  umadb_read x_hash (fun l => l) (fetch 16 (p_cache p) (y_disk y)) (latest p).2 [] (Some 3) false (Some 1) false = Ok ([x_ev3], Some 3) /\
  length (er_data x_ev3.2) = 1500%nat.
Proof.
  destruct x_states as (ya & yb & yc & yd & ye & yf & yg & yh & yi & yj & Ha & Sa & Hb & Hc & Sc & Hd & He & Se & _).
  pose proof (run_app _ _ _ _ _ _ _ _ _ (run_step _ _ _ _ _ _ _ _ _ Ha Hb) Hc) as Rc. pose proof Se as (p & Hp & _).
  destruct (payload_round_trip 1024 x_hash (fun l => l) x_ford true x_ps x_ps32 x_ord x_ford_ok _ _ _ [] xr3 [xr4; xr5] _ _ 3 Rc Sc Hd eq_refl) as (h & Hpre & Hk).
  exists ye, p. split; [exact Se|]. split; [exact Hp|]. split; [|reflexivity].
  destruct Se as (p' & Hp' & Hr & _). assert (p' = p) as -> by congruence. rewrite Hr. vm_compute. reflexivity.
Qed.

Print Assumptions no_page_lost_or_shared.
Print Assumptions pages_used_once.
Print Assumptions pages_in_use_readable.
Print Assumptions pages_in_use_not_written.
Print Assumptions pages_in_use_kept.
Print Assumptions payload_round_trip.
