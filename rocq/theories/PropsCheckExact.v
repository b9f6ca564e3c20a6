(** C59, of any file at all: which pages umadb-check complains of. *)
From Verif Require Import Check MvccProofs StoreProofs PropsStore PropsPages PropsFits PropsCrash PropsCheck.
Local Open Scope N_scope.

(** Page [q] of the file is there and is not all zeros. *)
Definition written (d : disk) (q : N) : Prop := exists b c, d_cur d q = Some b /\ c ∈ b /\ c <> 0.
Lemma zero_page_spec b : zero_page b = false <-> exists c, c ∈ b /\ c <> 0.
Proof.
  unfold zero_page. induction b as [|x b IH]; cbn [forallb]; [split; [discriminate|intros (c & Hc & _); inversion Hc]|].
  destruct (N.eqb_spec 0 x) as [<-|Hx]; cbn [andb].
  - rewrite IH. split; intros (c & Hc & Hn); exists c; (split; [|exact Hn]); [now right|]. apply elem_of_cons in Hc as [->|Hc]; [contradiction|exact Hc].
  - split; [|reflexivity]. intros _. exists x. split; [now left|congruence].
Qed.
Lemma beyond_exact d q l : beyond 16 d q l -> forall x, x ∈ l <-> q <= x /\ (forall y, q <= y <= x -> written d y) /\ on_disk d x = None.
Proof.
  intros H. induction H as [q E|q b E Ez|q b n l E Ez Ed _ IH|q b e l E Ez Ed _ IH]; intros x.
  - split; [intros Hx; inversion Hx|]. intros (Hq & Hw & _). destruct (Hw q ltac:(lia)) as (b & c & E' & _). congruence.
  - split; [intros Hx; inversion Hx|]. intros (Hq & Hw & _). destruct (Hw q ltac:(lia)) as (b' & c & E' & Hc). assert (b' = b) as -> by congruence.
    assert (zero_page b = false) by (apply zero_page_spec; eauto). congruence.
  - apply zero_page_spec in Ez as (c & Hc). assert (Hq : written d q) by (exists b, c; auto). rewrite IH. split.
    + intros (H1 & H2 & H3). split; [lia|]. split; [|exact H3]. intros y Hy. destruct (decide (y = q)) as [->|Hne]; [exact Hq|]. apply H2. lia.
    + intros (H1 & H2 & H3). assert (x <> q). { intros ->. unfold on_disk in H3. rewrite E in H3. cbn [dec] in H3. now rewrite Ed in H3. }
      split; [lia|]. split; [|exact H3]. intros y Hy. apply H2. lia.
  - apply zero_page_spec in Ez as (c & Hc). assert (Hq : written d q) by (exists b, c; auto). rewrite elem_of_cons, IH. split.
    + intros [->|(H1 & H2 & H3)].
      * split; [lia|]. split; [intros y Hy; assert (y = q) as -> by lia; exact Hq|]. unfold on_disk. rewrite E. cbn [dec]. now rewrite Ed.
      * split; [lia|]. split; [|exact H3]. intros y Hy. destruct (decide (y = q)) as [->|Hne]; [exact Hq|]. apply H2. lia.
    + intros (H1 & H2 & H3). destruct (decide (x = q)) as [->|Hne]; [now left|]. right. split; [lia|]. split; [|exact H3]. intros y Hy. apply H2. lia.
Qed.
Lemma judge_other h evs r back x : x ∈ judge h evs r back -> match x with QHeader _ | QPage _ | QBeyond _ => False | _ => True end.
Proof.
  intros H. set (P := fun x : problem => match x with QHeader _ | QPage _ | QBeyond _ => False | _ => True end). change (P x). revert x H. apply Forall_forall.
  unfold judge. cbv zeta. repeat (apply Forall_app; split); repeat case_match; repeat constructor.
Qed.
Lemma bad_pages_spec d h q : q ∈ bad_pages 16 d h <-> 2 <= q < h_next_page h /\ exists e, fetch 16 ∅ d q = Err e.
Proof.
  unfold bad_pages. rewrite elem_of_list_In, filter_In, <- elem_of_list_In, elem_of_seqN. destruct (fetch 16 ∅ d q) as [n|e]; cbn [is_ok negb]; split.
  - intros [_ Hf]. discriminate Hf.
  - intros [_ [e He]]. discriminate He.
  - intros [H1 _]. split; [lia|eauto].
  - intros [H1 _]. split; [lia|reflexivity].
Qed.
(** Whatever the file holds: umadb-check complains of a page past the high-water mark exactly if it cannot be decoded and this page and all
    from the mark to it are there and not all zeros; and of one below the mark exactly if it cannot be read. *)
Theorem check_pages_exact ps hash order d d' p r q : check 16 ps hash order d d' (Ok r) -> open_db 16 ps d = Ok (d', p) -> let next := h_next_page (latest p).2 in
  (QBeyond q ∈ c_problems r <-> next <= q /\ (forall y, next <= y <= q -> written d' y) /\ on_disk d' q = None) /\
  (QPage q ∈ c_problems r <-> 2 <= q < next /\ exists e, fetch 16 ∅ d' q = Err e).
Proof.
  intros H Eo next. inversion H as [|d0 p0 l evs r0 Eo' Hb Hs E1 E2]; subst. rewrite Eo in Eo'. injection Eo' as <-. cbn [c_problems]. fold next in Hb |- *.
  assert (M : forall (f : N -> problem) l x, x ∈ map f l <-> exists q, x = f q /\ q ∈ l) by (intros f l' x; apply elem_of_list_fmap).
  split; rewrite !elem_of_app, !M.
  - rewrite <- (beyond_exact _ _ _ Hb). split; [|eauto 7].
    intros [(x & E & _)|[(x & E & _)|[(x & E & Hx)|Hj]]]; [discriminate E|discriminate E|injection E as ->; exact Hx|]. now apply judge_other in Hj.
  - pose proof (bad_pages_spec d' (latest p).2 q) as P. fold next in P.
    rewrite <- P. split; [|eauto 7].
    intros [(x & E & _)|[(x & E & Hx)|[(x & E & _)|Hj]]]; [discriminate E|injection E as ->; exact Hx|discriminate E|]. now apply judge_other in Hj.
Qed.
(** Non-trivial: after a script of appends the file gets, past its high-water mark, a page that starts with a zero and cannot be decoded, then
    one more such page, then a page of zeros, then another bad page; and a page no longer in use is overwritten.  The tool names that page and
    the first two, and does not look past the zeros. *)
Definition litter (d : disk) : disk := match open_db 16 1024 d with
  | Ok (_, p) => let n := h_next_page (latest p).2 in
    r_put 5 (Some [0; 7]) (r_put n (Some [0; 7]) (r_put (n + 1) (Some [9]) (r_put (n + 2) (Some [0; 0]) (r_put (n + 3) (Some [9]) d))))
  | _ => d end.
Example litter_example : exists tr d d' p r, x_run tr (Sys d None) /\ check 16 1024 x_hash (fun l => l) (litter d) d' (Ok r) /\ open_db 16 1024 (litter d) = Ok (d', p) /\
  let n := h_next_page (latest p).2 in c_problems r = [QPage 5; QBeyond n; QBeyond (n + 1)] /\ written d' (n + 3) /\ on_disk d' (n + 3) = None.
Proof.
  destruct (stop_found c_script (fun d => match check_x 1024 x_hash (litter d), open_db 16 1024 (litter d) with
    | Some (d', r), Ok (d'', p) => let n := h_next_page (latest p).2 in
        bool_decide (c_problems r = [QPage 5; QBeyond n; QBeyond (n + 1)]) && bool_decide (d_cur d'' (n + 3) = Some [9])
    | _, _ => false end)) as (tr & d & H & HP & _); [vm_compute; reflexivity|].
  destruct (check_x 1024 x_hash (litter d)) as [[d' r]|] eqn:E; [|discriminate]. destruct (open_db 16 1024 (litter d)) as [[d'' p]|] eqn:Eo; [|discriminate].
  cbv zeta in HP. apply andb_prop in HP as [H1 H2]. apply bool_decide_eq_true in H1, H2.
  assert (d'' = d') as ->. { apply check_x_ok in E. inversion E; congruence. }
  exists tr, d, d', p, r. split; [exact H|]. split; [now apply check_x_ok|]. split; [exact Eo|]. cbv zeta. split; [exact H1|]. split.
  - exists [9], 9. split; [exact H2|]. split; [now left|discriminate].
  - unfold on_disk. rewrite H2. reflexivity.
Qed.

Lemma scan_fun hash order d h k evs r evs' r' : scan 16 hash order d h k evs r -> scan 16 hash order d h k evs' r' -> evs' = evs /\ r' = r.
Proof.
  intros H. revert evs' r'. induction H as [k E|k l e l' r E El _ IH|k e E]; intros evs' r' H'; inversion H' as [k2 E'|k2 l2 e2 l2' r2 E' El2 H2|k2 e2 E']; subst; rewrite E in E'; try discriminate E'.
  - auto.
  - injection E' as <-. discriminate El2.
  - injection E' as ->. discriminate El.
  - injection E' as <-. rewrite El in El2. injection El2 as <-. destruct (IH _ _ H2) as [-> ->]. auto.
  - injection E' as ->. auto.
Qed.
(** The verdict on any file that opens.  It passes exactly if both header pages are there, all pages below the mark can be read, those
    past it, up to the first that is missing or all zeros, can be decoded, reading all events from the first on meets no error and ends at the
    position the header says (0: there are none), and reading backwards finds an event, at this position. *)
Theorem check_pass_exact ps hash order d d' p r : check 16 ps hash order d d' (Ok r) -> open_db 16 ps d = Ok (d', p) ->
  let h := (latest p).2 in
  passes r <-> (forall q, q < 2 -> d_cur d' q <> None) /\ (forall q, 2 <= q < h_next_page h -> exists n, fetch 16 ∅ d' q = Ok n) /\
    (forall q, h_next_page h <= q -> (forall y, h_next_page h <= y <= q -> written d' y) -> on_disk d' q <> None) /\
    scan 16 hash order d' h 1 (c_events r) None /\ from_option fst 0 (last (c_events r)) = h_next_pos h - 1 /\
    exists l e, check_read 16 hash order d' h None true 1 = Ok l /\ last l = Some e /\ e.1 = h_next_pos h - 1.
Proof.
  intros H Eo h. pose proof (fun q => check_pages_exact ps hash order d d' p r q H Eo) as HP. cbv zeta in HP. fold h in HP.
  inversion H as [|d0 p0 l evs r0 Eo' Hb Hs E1 E2]; subst. rewrite Eo in Eo'. injection Eo' as <-. fold h in Hb, Hs, HP |- *. cbn [c_events c_problems] in *. unfold passes. cbn [c_problems].
  set (back := check_read 16 hash order d' h None true 1) in *.
  assert (HL : lost_headers d' = [] <-> forall q, q < 2 -> d_cur d' q <> None).
  { unfold lost_headers. cbn [List.filter]. split.
    - intros E q Hq. assert (q = 0 \/ q = 1) as [-> | ->] by lia; intros E0; rewrite E0 in E; [discriminate E|]. destruct (d_cur d' 0); discriminate E.
    - intros E. pose proof (E 0 ltac:(lia)). pose proof (E 1 ltac:(lia)). destruct (d_cur d' 0); [|contradiction]. destruct (d_cur d' 1); [reflexivity|contradiction]. }
  assert (HJ : judge h evs r0 back = [] <-> r0 = None /\ from_option fst 0 (last evs) = h_next_pos h - 1 /\ exists l e, back = Ok l /\ last l = Some e /\ e.1 = h_next_pos h - 1).
  { unfold judge. cbv zeta. split.
    - intros E. apply app_nil in E as [E1 E]. apply app_nil in E as [E2 E]. apply app_nil in E as [E3 E]. apply app_nil in E as [E4 _].
      split; [now destruct r0|]. split; [destruct (N.eqb_spec (from_option fst 0 (last evs)) (h_next_pos h - 1)); [assumption|discriminate E3]|].
      destruct back as [b|]; [|discriminate E2]. destruct (last b) as [e|] eqn:El; cbn in E4; [|discriminate E4]. exists b, e. split; [reflexivity|]. split; [exact El|]. destruct (N.eqb_spec e.1 (h_next_pos h - 1)); [assumption|discriminate E4].
    - intros (-> & E3 & b & e & -> & El & Ee). rewrite El. cbn [fmap option_fmap option_map]. now rewrite E3, Ee, N.eqb_refl. }
  assert (HN : forall A (l : list A), l = [] <-> forall x, x ∉ l).
  { intros A [|x m]; split; [intros _ x Hx; inversion Hx|reflexivity|discriminate|]. intros Hx. exfalso. apply (Hx x). left. }
  assert (HM : forall (f : N -> problem) m, map f m = [] <-> m = []) by (intros f [|? ?]; split; (discriminate || reflexivity)).
  assert (HA : forall (a b : list problem), a ++ b = [] <-> a = [] /\ b = []) by (intros [|? ?] b; cbn; split; [auto|intros [_ E]; exact E|discriminate|intros [E _]; discriminate E]).
  rewrite !HA, !HM, HL, HJ.
  assert (HB : l = [] <-> forall q, h_next_page h <= q -> (forall y, h_next_page h <= y <= q -> written d' y) -> on_disk d' q <> None).
  { rewrite HN. pose proof (beyond_exact _ _ _ Hb) as X. split; [intros E q H1 H2 H3; apply (E q), X; auto|]. intros E q Hq. apply X in Hq as (H1 & H2 & H3). now apply (E q). }
  assert (HF : bad_pages 16 d' h = [] <-> forall q, 2 <= q < h_next_page h -> exists n, fetch 16 ∅ d' q = Ok n).
  { rewrite HN. assert (X : forall q, q ∈ bad_pages 16 d' h <-> 2 <= q < h_next_page h /\ exists e, fetch 16 ∅ d' q = Err e) by apply bad_pages_spec.
    split; [intros E q Hq; destruct (fetch 16 ∅ d' q) as [n|e] eqn:Ef; [eauto|exfalso; apply (E q), X; rewrite Ef; eauto]|]. intros E q Hq. apply X in Hq as (Hq & e & Ef). destruct (E q Hq) as [n En]. congruence. }
  rewrite HF, HB. split.
  - intros (H1 & H2 & H3 & -> & H5 & H6). auto 8.
  - intros (H1 & H2 & H3 & H4 & H5 & H6). destruct (scan_fun _ _ _ _ _ _ _ _ _ Hs H4) as [_ <-]. auto 8.
Qed.
Example check_pass_example : exists d d' p r, check 16 1024 x_hash (fun l => l) d d' (Ok r) /\ open_db 16 1024 d = Ok (d', p) /\ passes r /\ c_events r <> [].
Proof.
  destruct check_pass_refuted as (tr & d & _ & (d' & p & r & H1 & H2 & H3 & H4 & _) & _). exists (c_tags d), d', p, r. split; [exact H1|]. split; [exact H3|]. split; [exact H2|].
  intros E. rewrite E in H4. discriminate H4.
Qed.
Print Assumptions check_pages_exact.
Print Assumptions check_pass_exact.
