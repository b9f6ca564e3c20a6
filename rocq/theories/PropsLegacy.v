(** C71, C72: databases of schema version 0 (tag hashes of 8 bytes), and several databases in one process. *)
From Coq Require Import Strings.String Strings.Ascii.
From Verif Require Import Mvcc MvccProofs SpecProofs StoreProofs Exec PropsStore EventsProofs PageProofs CodecProofs TagHash Twin.
Local Open Scope N_scope.

Definition tag_txt (s : string) : bytes := map N_of_ascii (list_ascii_of_string s).
(** Against values computed with other software. *)
Example hash_example :
  tag_to_hash 16 (tag_txt "student:1") = [6;120;209;147;40;46;85;172;173;67;166;60;244;186;40;103] /\
  tag_to_hash 16 (replicate 100 120) = [196;149;106;143;171;227;93;57;141;250;75;242;94;34;232;75].
Proof. vm_compute. auto. Qed.

(** The hashes of the code are ones that the stored form keeps, as the theorems on codecs ask. *)
Theorem tag_hash_stored kw t : kw = 8%nat \/ kw = 16%nat -> hash_ok kw (tag_to_hash kw t) /\ is_bytes (tag_to_hash kw t).
Proof.
  intros [-> | ->]; unfold tag_to_hash; cbn [Nat.eqb].
  - assert (L : forall v, length (w64 v) = 8%nat) by (intros v; pose proof (le_bytes_length 8 v); assumption).
    unfold tag_to_hash_crc64, hash_ok. split; [split|].
    + rewrite app_length, L. reflexivity.
    + rewrite <- (L (calc_crc t * U32 + calc_crc (t ++ SALT))) at 1. apply drop_app.
    + apply Forall_app. split; [apply le_bytes_is_bytes|]. repeat constructor.
  - destruct (v5uuid_ok t) as [H1 H2]. split; [|exact H2]. split; [exact H1|]. apply drop_ge. lia.
Qed.

(** ** C71: old files *)
(** A new database as older versions of the software made it: the headers have schema version 0. *)
Definition legacy_header : header := Header 0 2 3 4 5 1 0 0.
Definition legacy_page (q : N) : option node :=
  if q =? 0 then Some (NHeader legacy_header) else if q =? 1 then Some (NHeader legacy_header)
  else if q =? 2 then Some (NFreeLeaf (FlLeaf [] []))
  else if q =? 3 then Some (NEvLeaf (EvLeaf [] []))
  else if q =? 4 then Some (NTagsLeaf (TagsLeaf [] []))
  else None.
(** Any file whose pages read so, e.g. with headers of 48 bytes. *)
Definition legacy_file (f : N -> option bytes) : Prop := forall q n, legacy_page q = Some n -> dec 8 (f q) = Ok n.
Definition at_rest (f : N -> option bytes) : sys := Sys (Disk f (fun q c => c = f q) (fun _ => false)) None.

Section legacy.
  Context (ps : N) (hash : bytes -> bytes) (order : list bytes -> list bytes) (ford : gset N -> list N) (caching : bool).
  Context (Hps : ps_ok ps) (Hps32 : ps < U32) (Hord : forall l t, t ∈ order l <-> t ∈ l) (Hford : forall s, ford s ≡ₚ elements s).
  Notation steps8 := (steps 8 ps hash order ford caching).

  (** What a reader opened now would return, as in StoreProofs.v. *)
  Definition shows8 (y : sys) (s : spec_state) : Prop :=
    exists p, y_proc y = Some p /\ let h := (latest p).2 in let rd := fetch 8 (p_cache p) (y_disk y) in
      (forall q start bw limit force, umadb_read hash order rd h q start bw limit force =
         Ok (spec_read (s_hist s) q start bw limit, spec_read_head s limit (spec_read (s_hist s) q start bw limit))) /\
      (forall src, get_tracking_info (N.to_nat (h_next_page h)) rd (h_tracking_root h) src = Ok (s_track s src)) /\
      header_head h = spec_head s.

  Lemma legacy_inv f : legacy_file f -> inv 8 ps hash caching (at_rest f) (SSys spec_empty None false ∅ ∅).
  Proof.
    intros Hf. exists (PSnap (Snap legacy_header [2] [3] [4] [] [] spec_empty) legacy_page). constructor; cbn.
    - intros q. reflexivity.
    - intros q c _ H. exact H.
    - exists 0. split; [lia|]. split; [intros b ->; now apply Hf|]. intros b n -> Hn. exists legacy_header. split; [|auto].
      change (other_slot 0) with 1 in Hn. rewrite (Hf 1 (NHeader legacy_header) eq_refl) in Hn. congruence.
    - split; [|left; auto]. split; [|exact I]. repeat split; try constructor; vm_compute; reflexivity.
    - split.
      + constructor; cbn.
        * split.
          -- exists 0%nat, []. split; [|split; [constructor|split; [exact I|reflexivity]]].
             eapply (sh_leaf ev_ops evleaf legacy_page 3 _ [] []); [reflexivity|reflexivity|]. exists []. split; [reflexivity|constructor].
          -- exists 0%nat, []. split; [|split; [constructor|]].
             ++ eapply (sh_leaf (tags_ops []) (tagsleaf 8 ps) legacy_page 4 _ [] []); [reflexivity|reflexivity|]. exists []. split; [reflexivity|constructor].
             ++ intros x p. split; [intros H; inversion H|]. intros (r & t & H & _). inversion H.
        * exists []. split; [now left|reflexivity].
        * exists 0%nat, []. split; [|split; [reflexivity|split; [constructor|]]].
          -- eapply (sh_leaf fl_ops flleaf legacy_page 2 _ [] []); [reflexivity|reflexivity|]. exists []. split; [reflexivity|constructor].
          -- intros t H. inversion H.
        * reflexivity.
        * reflexivity.
        * lia.
        * reflexivity.
        * intros q n Hq. unfold sn_live in Hq. cbn in Hq. rewrite !elem_of_cons in Hq. unfold ps_ok in Hps.
          assert (11 <= ps) as H11 by lia. destruct Hq as [->|[->|[->|Hq]]]; [intros E; injection E as <-..|inversion Hq]; [exact H11|exact H11|exact I].
      + intros q Hq. assert (exists n, legacy_page q = Some n) as (n & En).
        { unfold sn_live in Hq. cbn in Hq. rewrite !elem_of_cons in Hq. destruct Hq as [->|[->|[->|Hq]]]; [eauto|eauto|eauto|inversion Hq]. }
        exists n. split; [exact En|]. split; [intros b ->; now apply Hf|]. left. apply lookup_empty.
    - reflexivity.
  Qed.
  Lemma inv_shows8 y sy p : inv 8 ps hash caching y sy -> y_proc y = Some p -> shows8 y (sp_cur sy).
  Proof.
    intros H Hp. unfold inv in H. rewrite Hp in H. destruct H as (g & H). exists p. split; [exact Hp|].
    rewrite (u_latest _ _ _ _ _ _ _ _ H), (u_spec _ _ _ _ _ _ _ _ H). pose proof (u_held _ _ _ _ _ _ _ _ H) as Hh. pose proof (u_cur _ _ _ _ _ _ _ _ H) as Hc.
    split; [intros; eapply held_response; try eassumption; lia|]. split; [intros; eapply held_track; try eassumption; lia|].
    apply (pos_head 8 ps Hps32 ltac:(lia)). apply (u_pos _ _ _ _ _ _ _ _ H), (u_in _ _ _ _ _ _ _ _ H).
  Qed.
  Lemma legacy_sim f tr y : legacy_file f -> steps8 (at_rest f) tr y ->
    exists sy, spec_steps ps (SSys spec_empty None false ∅ ∅) tr sy /\ inv 8 ps hash caching y sy.
  Proof.
    intros Hf H. remember (at_rest f) as y0 eqn:E0. induction H as [y|y tr y' l y'' H IH Hst]; subst.
    - eexists. split; [constructor|now apply legacy_inv].
    - destruct (IH eq_refl) as (sy & Hs & Hi).
      destruct (step_inv 8 ps hash order ford caching Hps Hps32 ltac:(lia) Hord Hford y' sy l y'' Hi Hst) as (sy' & Hs' & Hi').
      exists sy'. split; [econstructor; eassumption|exact Hi'].
  Qed.

  (** Whatever happens to an old file, crashes included, the answers and what is found are those of SpecSys.v. *)
  Theorem legacy_as_specified f tr y : legacy_file f -> steps8 (at_rest f) tr y ->
    exists sy, spec_steps ps (SSys spec_empty None false ∅ ∅) tr sy /\ (forall p, y_proc y = Some p -> shows8 y (sp_cur sy)).
  Proof. intros Hf H. destruct (legacy_sim f tr y Hf H) as (sy & Hs & Hi). exists sy. split; [exact Hs|]. intros p. now apply inv_shows8. Qed.

  (** It opens, now and after every crash or end of the process. *)
  Theorem legacy_opens f tr d : legacy_file f -> steps8 (at_rest f) tr (Sys d None) -> exists d' p, open_db 8 ps d = Ok (d', p).
  Proof.
    intros Hf H. destruct (legacy_sim f tr _ Hf H) as (sy & _ & (G & Hi)).
    destruct (open_ok 8 ps hash order ford caching Hps Hps32 ltac:(lia) Hord Hford _ _ _ Hi) as (d' & p & Ho & _). eauto.
  Qed.
End legacy.

(** Runs of chosen steps, with the hash of the code. *)
Notation t_exec kw := (exec kw 4096 (tag_to_hash kw) (fun l => l) x_ford false).
Notation t_step kw := (step kw 4096 (tag_to_hash kw) (fun l => l) x_ford false).
Notation t_steps kw := (steps kw 4096 (tag_to_hash kw) (fun l => l) x_ford false).
Lemma steps_cons kw ps hash order ford caching y l y1 tr y2 : step kw ps hash order ford caching y l y1 -> steps kw ps hash order ford caching y1 tr y2 ->
  steps kw ps hash order ford caching y (l :: tr) y2.
Proof.
  intros E IH. induction IH as [y1|y1 tr y2 l' y3 IH1 IH Hs].
  - apply (steps_snoc kw ps hash order ford caching y [] y l y1); [constructor|exact E].
  - apply (steps_snoc kw ps hash order ford caching y (l :: tr) y2 l' y3); auto.
Qed.
Lemma exec1_plain kw ps hash order ford caching y a l y' : a <> ACrash -> exec1 kw ps hash order ford caching y a = Some (l, y') -> step kw ps hash order ford caching y l y'.
Proof.
  intros Ha. destruct y as [d [p|]]; cbn [exec1].
  - assert (forall l d' p', pexec kw ps hash order ford caching d p a = Some (l, d', p') -> step kw ps hash order ford caching (Sys d (Some p)) l (Sys d' (Some p'))) as Hp by (intros; apply Y_proc; eapply pexec_ok; eassumption).
    destruct a; try (destruct (pexec _ _ _ _ _ _ d p _) as [[[l1 d1] p1]|] eqn:E; [|discriminate]; intros [= <- <-]; now apply Hp). done.
  - destruct a; try discriminate. destruct (open_db kw ps d) as [[d' p]|] eqn:E; [|discriminate]. intros [= <- <-]. now apply Y_open.
Qed.
Definition crash_free (s : list act) : bool := forallb (fun a => match a with ACrash => false | _ => true end) s.
Lemma t_run kw y s tr y' : crash_free s = true -> t_exec kw y s = Some (tr, y') -> t_steps kw y tr y'.
Proof.
  revert y tr y'. induction s as [|a s IH]; intros y tr y'; cbn [exec crash_free forallb]; [intros _ [= <- <-]; constructor|].
  intros (Ha & Hs)%andb_prop. destruct (exec1 _ _ _ _ _ _ y a) as [[l y1]|] eqn:E; [|discriminate].
  destruct (exec _ _ _ _ _ _ y1 s) as [[tr1 y2]|] eqn:E2; [|discriminate]. intros [= <- <-].
  eapply steps_cons; [eapply exec1_plain; [|exact E]; now destruct a|]. now apply IH.
Qed.

(** An old file with headers of 48 bytes is opened; an event is appended and read by its tag. *)
Definition old_header : bytes := w64 0 ++ w64 5 ++ w64 2 ++ w64 3 ++ w64 4 ++ w64 1.
Definition old_file (q : N) : option bytes :=
  if q <? 2 then Some ([type_byte (NHeader legacy_header)] ++ w32 (calc_crc old_header) ++ w32 48 ++ old_header ++ replicate 4039 0)
  else match legacy_page q with Some n => match page_ser 8 4096 n with Ok b => Some b | Err _ => None end | None => None end.
Lemma old_file_legacy : legacy_file old_file.
Proof.
  intros q n. unfold legacy_page.
  destruct (N.eqb_spec q 0) as [->|_]; [intros [= <-]; vm_compute; reflexivity|]. destruct (N.eqb_spec q 1) as [->|_]; [intros [= <-]; vm_compute; reflexivity|].
  destruct (N.eqb_spec q 2) as [->|_]; [intros [= <-]; vm_compute; reflexivity|]. destruct (N.eqb_spec q 3) as [->|_]; [intros [= <-]; vm_compute; reflexivity|].
  destruct (N.eqb_spec q 4) as [->|_]; [intros [= <-]; vm_compute; reflexivity|]. discriminate.
Qed.
Definition one_event : request := Req [NE (tag_txt "StudentRegistered") [1] [tag_txt "student:1"] None []] None None.
Definition by_tag : query := [QItem [] [tag_txt "student:1"]].
Definition append_acts (r : request) (pages : nat) : list act := [ABegin; ARequest r; ACommit] ++ replicate pages APage ++ [ASync; AHeader; ADone].
Definition read_acts (q : query) : list act := [ACall 1; AObs 1; ASeen 1; AReg 1; AChk 1; AReady 1; ARead 1 q None false None].
Definition legacy_script : list act := [AOpen] ++ append_acts one_event 3 ++ read_acts by_tag.
Definition reads_one (l : label) : bool := match l with LRead _ _ _ _ _ (Ok ([(1, _)], Some 1)) => true | _ => false end.
Example legacy_example : exists tr y l, t_steps 8 (at_rest old_file) (tr ++ [l]) y /\ LCommit [one_event] [Ok 1] ∈ tr /\ reads_one l = true.
Proof.
  destruct (t_exec 8 (at_rest old_file) legacy_script) as [[tr y]|] eqn:E.
  - assert (K : match t_exec 8 (at_rest old_file) legacy_script with
                | Some (t, _) => match last t with Some l => reads_one l && existsb (fun l' => match l' with LCommit [_] [Ok 1] => true | _ => false end) t | None => false end
                | None => false end = true) by (vm_compute; reflexivity).
    assert (K2 : match t_exec 8 (at_rest old_file) legacy_script with Some (t, _) => nth 9 t LTau | None => LTau end = LCommit [one_event] [Ok 1]) by (vm_compute; reflexivity).
    assert (K3 : match t_exec 8 (at_rest old_file) legacy_script with Some (t, _) => length t | None => 0%nat end = 17%nat) by (vm_compute; reflexivity).
    rewrite E in K, K2, K3. destruct (last tr) as [l|] eqn:El; [|discriminate]. apply last_Some in El as (t0 & ->).
    apply andb_prop in K as [K _]. exists t0, y, l. split; [apply (t_run 8 _ legacy_script); [reflexivity|exact E]|]. split; [|exact K].
    rewrite app_length in K3. cbn in K3. rewrite app_nth1 in K2 by lia. rewrite <- K2. apply elem_of_list_In. apply nth_In. lia.
  - exfalso. assert (K : match t_exec 8 (at_rest old_file) legacy_script with Some _ => true | None => false end = true) by (vm_compute; reflexivity). now rewrite E in K.
Qed.

(** ** C72: several databases in one process *)
(** As long as all of them are of one format, each does what it would do alone. *)
Theorem twins_independent_partial ps hash order ford caching w t tr t' :
  twin_steps ps hash order ford caching t tr t' -> tw_width t = w -> Forall (fun x : bool * nat * label => x.1.2 = w) tr ->
  forall i, steps w ps (hash w) order ford caching (tw_sys t i) (tw_trace i tr) (tw_sys t' i).
Proof.
  intros H Hw Hall i. induction H as [t|t x t' tr t'' Hx H IH]; [constructor|]. inversion Hall as [|? ? Ex Hall']; subst.
  assert (Hstep : tw_width t' = x.1.2 /\ exists l y, x = (x.1.1, x.1.2, l) /\ step x.1.2 ps (hash x.1.2) order ford caching (tw_sys t x.1.1) l y /\ tw_sys t' = tw_set x.1.1 y (tw_sys t)).
  { inversion Hx; subst; cbn; (split; [reflexivity|]); do 2 eexists; (split; [reflexivity|]); (split; [eassumption|reflexivity]). }
  destruct Hstep as (Hw' & l & y & Exx & Hst & Et). rewrite Ex in *. specialize (IH Hw' Hall'). rewrite Et in IH. rewrite Exx. cbn [tw_trace].
  unfold tw_set in IH. destruct (Bool.eqb i x.1.1) eqn:Ei.
  - apply Bool.eqb_prop in Ei as ->. rewrite Bool.eqb_reflx in IH. eapply steps_cons; eassumption.
  - destruct (Bool.eqb x.1.1 i) eqn:Ej; [apply Bool.eqb_prop in Ej; subst; now rewrite Bool.eqb_reflx in Ei|exact IH].
Qed.

(** Chosen steps. *)
Fixpoint tw_exec (t : twin) (s : list (bool * nat * act)) : option (list (bool * nat * label) * twin) :=
  match s with
  | [] => Some ([], t)
  | (i, w, a) :: s' =>
    match a with
    | ACrash => None
    | AOpen => match exec1 w 4096 (tag_to_hash w) (fun l => l) x_ford false (tw_sys t i) AOpen with
               | Some (LOpen, y) => match tw_exec (Twin w (tw_set i y (tw_sys t))) s' with Some (tr, t') => Some ((i, w, LOpen) :: tr, t') | None => None end
               | _ => None end
    | _ => let v := tw_width t in
           match exec1 v 4096 (tag_to_hash v) (fun l => l) x_ford false (tw_sys t i) a with
           | Some (LOpen, _) | None => None
           | Some (l, y) => match tw_exec (Twin v (tw_set i y (tw_sys t))) s' with Some (tr, t') => Some ((i, v, l) :: tr, t') | None => None end
           end
    end
  end.
Notation tw_run := (twin_steps 4096 tag_to_hash (fun l => l) x_ford false).
Lemma tw_exec_ok s : forall t tr t', tw_exec t s = Some (tr, t') -> tw_run t tr t'.
Proof.
  induction s as [|[[i w] a] s IH]; intros t tr t'; cbn [tw_exec]; [intros [= <- <-]; constructor|].
  assert (Hgen : a <> ACrash -> forall l y, exec1 (tw_width t) 4096 (tag_to_hash (tw_width t)) (fun l => l) x_ford false (tw_sys t i) a = Some (l, y) -> l <> LOpen ->
    forall tr' t2, tw_exec (Twin (tw_width t) (tw_set i y (tw_sys t))) s = Some (tr', t2) -> tw_run t ((i, tw_width t, l) :: tr') t2).
  { intros Ha l y E Hl tr' t2 E2. econstructor; [apply TW_step; [exact Hl|eapply exec1_plain; [exact Ha|exact E]]|now apply IH]. }
  destruct a; cbn beta iota zeta; try discriminate.
  all: try (destruct (exec1 (tw_width t) _ _ _ _ _ _ _) as [[l y]|] eqn:E; [|discriminate];
    destruct l; try discriminate; (destruct (tw_exec _ s) as [[tr' t2]|] eqn:E2; [|discriminate]); intros [= <- <-]; refine (Hgen _ _ _ eq_refl _ _ _ E2); discriminate).
  destruct (exec1 w _ _ _ _ _ _ AOpen) as [[l y]|] eqn:E; [|discriminate]. destruct l; try discriminate.
  destruct (tw_exec _ s) as [[tr' t2]|] eqn:E2; [|discriminate]. intros [= <- <-]. econstructor; [apply TW_open; eapply exec1_plain; [|exact E]; discriminate|now apply IH].
Qed.

(** A database of the present format is open and has an event with the tag student:1.  An old file is opened in the same
    process.  A request to the first database that must fail if there is an event with that tag succeeds. *)
Definition if_none : request := Req [NE (tag_txt "StudentRegistered") [2] [tag_txt "student:1"] None []] (Some (ACond by_tag None)) None.
Definition on (i : bool) (w : nat) (l : list act) : list (bool * nat * act) := map (fun a => (i, w, a)) l.
Definition twin_script : list (bool * nat * act) := on true 16 (append_acts one_event 3) ++ on false 8 [AOpen] ++ on true 8 (append_acts if_none 3).
Definition twin_start : twin := Twin 16 (fun i => if i then init_sys 16 4096 else at_rest old_file).
(** Two databases of the present format: the request that must fail fails in the first and succeeds in the second. *)
Definition pair_script : list (bool * nat * act) := on true 16 (append_acts one_event 3) ++ on true 16 [ABegin; ARequest if_none] ++ on false 16 (append_acts if_none 3) ++ on true 16 [ACommit; ASync; AHeader; ADone].
Definition pair_start : twin := Twin 16 (fun _ => init_sys 16 4096).
Example twins_example : exists tr t, tw_run pair_start tr t /\ Forall (fun x : bool * nat * label => x.1.2 = 16%nat) tr /\
  LCommit [if_none] [Err EIntegrity] ∈ tw_trace true tr /\ LCommit [if_none] [Ok 1] ∈ tw_trace false tr.
Proof.
  assert (K : match tw_exec pair_start pair_script with Some (tr, _) => forallb (fun x : bool * nat * label => Nat.eqb x.1.2 16) tr = true /\
     nth 14 (tw_trace true tr) LTau = LCommit [if_none] [Err EIntegrity] /\ length (tw_trace true tr) = 15%nat /\
     nth 8 (tw_trace false tr) LTau = LCommit [if_none] [Ok 1] /\ length (tw_trace false tr) = 9%nat | None => False end) by (vm_compute; repeat split).
  destruct (tw_exec pair_start pair_script) as [[tr t]|] eqn:E; [|contradiction]. destruct K as (K1 & K2 & K3 & K4 & K5).
  exists tr, t. split; [now apply (tw_exec_ok pair_script)|]. split; [|split].
  - apply Forall_forall. intros x Hx. rewrite forallb_forall in K1. apply Nat.eqb_eq, K1. now apply elem_of_list_In.
  - rewrite <- K2. apply elem_of_list_In, nth_In. lia.
  - rewrite <- K4. apply elem_of_list_In, nth_In. lia.
Qed.

(** What the specification says of commits without anything else. *)
Fixpoint commits_ok (ps : N) (s : spec_state) (tr : list label) : Prop :=
  match tr with
  | [] => True
  | LCommit r a :: tr' => a = (spec_batch ps s r).1 /\ commits_ok ps (spec_batch ps s r).2 tr'
  | _ :: tr' => commits_ok ps s tr'
  end.
Definition commits_end (ps : N) (s : spec_state) (tr : list label) : spec_state :=
  fold_left (fun s l => match l with LCommit r _ => (spec_batch ps s r).2 | _ => s end) tr s.
Definition commit_or_tau (l : label) : bool := match l with LTau | LCommit _ _ => true | _ => false end.
Lemma commits_ok_snoc ps s tr l : commits_ok ps s tr -> match l with LCommit r a => a = (spec_batch ps (commits_end ps s tr) r).1 | _ => True end -> commits_ok ps s (tr ++ [l]).
Proof.
  revert s. induction tr as [|x tr IH]; intros s H Hl; cbn in *.
  - destruct l; auto.
  - destruct x; try (apply IH; assumption). destruct H as [H1 H2]. split; [exact H1|]. apply IH; assumption.
Qed.
Lemma spec_commits ps y tr y' : spec_steps ps y tr y' -> forallb commit_or_tau tr = true -> commits_ok ps (sp_cur y) tr /\ sp_cur y' = commits_end ps (sp_cur y) tr.
Proof.
  intros H. induction H as [y|y tr y' l y'' H IH Hst]; intros Hq; [split; [exact I|reflexivity]|]. rewrite forallb_app in Hq. apply andb_prop in Hq as [Hq Hl].
  destruct (IH Hq) as [H1 H2]. cbn in Hl. rewrite andb_true_r in Hl. unfold commits_end in *. rewrite fold_left_app. cbn [fold_left]. destruct l; try discriminate Hl.
  - split; [apply commits_ok_snoc; [exact H1|exact I]|]. inversion Hst; subst. exact H2.
  - inversion Hst; subst. cbn [sp_cur] in H2 |- *. match goal with E : spec_batch _ _ _ = _ |- _ => rename E into Eb end. unfold commits_end. rewrite <- H2, Eb. split; [|reflexivity].
    apply commits_ok_snoc; [exact H1|]. unfold commits_end. now rewrite <- H2, Eb.
Qed.
Theorem twins_independent_refuted : exists tr t, tw_run twin_start tr t /\
  LCommit [one_event] [Ok 1] ∈ tw_trace true tr /\ LCommit [if_none] [Ok 2] ∈ tw_trace true tr /\ ~ exists sy, spec_steps 4096 spec_init (tw_trace true tr) sy.
Proof.
  assert (K : match tw_exec twin_start twin_script with Some (tr, _) => tw_trace true tr | None => [] end =
    replicate 8 LTau ++ [LCommit [one_event] [Ok 1]] ++ replicate 8 LTau ++ [LCommit [if_none] [Ok 2]]) by (vm_compute; reflexivity).
  destruct (tw_exec twin_start twin_script) as [[tr t]|] eqn:E; [|discriminate K].
  exists tr, t. split; [now apply (tw_exec_ok twin_script)|]. rewrite K. split; [|split].
  - rewrite !elem_of_app. right; left. now left.
  - rewrite !elem_of_app. right; right; right. now left.
  - intros (sy & H). apply spec_commits in H as [H _]; [|reflexivity]. cbn [app replicate commits_ok] in H. destruct H as (_ & H & _). vm_compute in H. discriminate.
Qed.
(** Worse: what is written to the database of the present format while the width is the old one stays.  Events are copied
    into it from an old file, the process ends, and the new database is opened on its own: a read for the tag of the
    acknowledged event finds nothing, although the event is there. *)
Definition clean (d : disk) : Prop := forall q c, d_dur d q c -> d_wr d q = false -> c = d_cur d q.
Lemma clean_write kw q b d : clean d -> clean (d_write kw q b d).
Proof. intros H x c. unfold d_write. cbn. destruct (x =? q) eqn:E; cbn; [discriminate|apply H]. Qed.
Lemma clean_synced d : clean d -> clean (d_synced d).
Proof. intros H x c. unfold d_synced. cbn. destruct (d_wr d x) eqn:E; [auto|]. intros Hc _. now apply H. Qed.
Lemma clean_open kw ps d d' p : open_db kw ps d = Ok (d', p) -> clean d -> clean d'.
Proof.
  intros E H. unfold open_db in E. destruct (read_headers _ _) as [[[n0 n1] f]|]; cbn [rbind] in E; [|discriminate].
  assert (Hf : forall d1, (match f with None => Ok d | Some (q, n) => let? b := page_ser kw ps n in Ok (d_write kw q b d) end) = Ok d1 -> clean d1).
  { intros d1. destruct f as [[q n]|]; [destruct (page_ser kw ps n); cbn [rbind]; [|discriminate]; intros [= <-]; now apply clean_write|now intros [= <-]]. }
  destruct (match f with None => Ok d | Some (q, n) => _ end) as [d1|]; cbn [rbind] in E; [|discriminate]. specialize (Hf d1 eq_refl).
  destruct (as_header n0.2); cbn [rbind] in E; [|discriminate]. destruct (as_header n1.2); cbn [rbind] in E; [|discriminate].
  destruct (check_roots _ _ _); cbn [rbind] in E; [|discriminate]. now injection E as <- _.
Qed.
Lemma clean_exec1 kw hash y a l y' : a <> ACrash -> exec1 kw 4096 hash (fun l => l) x_ford false y a = Some (l, y') -> clean (y_disk y) -> clean (y_disk y').
Proof.
  intros Ha E H. destruct y as [d [p|]]; cbn [exec1 y_disk] in *.
  - assert (E' : match pexec kw 4096 hash (fun l => l) x_ford false d p a with Some (l, d', p') => Some (l, Sys d' (Some p')) | None => None end = Some (l, y')) by (destruct a; (contradiction || exact E)).
    clear E Ha. destruct (pexec _ _ _ _ _ _ d p a) as [[[l1 d1] p1]|] eqn:E; [|discriminate]. injection E' as -> <-. cbn [y_disk].
    destruct a; cbn [pexec] in E; try discriminate; repeat (case_match; try discriminate); match goal with X : Some (_, _, _) = Some (_, _, _) |- _ => injection X as <- <- <- end; subst; first [exact H|now apply clean_write|now apply clean_synced].
  - destruct a; try discriminate. destruct (open_db kw 4096 d) as [[d' p]|] eqn:Eo; [|discriminate]. injection E as <- <-. cbn [y_disk]. eapply clean_open; eassumption.
Qed.
Definition tw_clean (t : twin) : Prop := forall i, clean (y_disk (tw_sys t i)).
Lemma tw_clean_set t i y w : tw_clean t -> clean (y_disk y) -> tw_clean (Twin w (tw_set i y (tw_sys t))).
Proof. intros H Hy j. cbn. unfold tw_set. destruct (Bool.eqb i j); [exact Hy|apply H]. Qed.
Lemma tw_exec_clean s : forall t tr t', tw_exec t s = Some (tr, t') -> tw_clean t -> tw_clean t'.
Proof.
  induction s as [|[[i w] a] s IH]; intros t tr t' E H; cbn [tw_exec] in E; [now injection E as _ <-|].
  assert (Hgen : forall v l y tr2 t2, a <> ACrash -> exec1 v 4096 (tag_to_hash v) (fun l => l) x_ford false (tw_sys t i) a = Some (l, y) ->
    tw_exec (Twin v (tw_set i y (tw_sys t))) s = Some (tr2, t2) -> tw_clean t2).
  { intros v l y tr2 t2 Ha E1 E2. eapply IH; [exact E2|]. apply tw_clean_set; [exact H|]. eapply clean_exec1; [exact Ha|exact E1|apply H]. }
  destruct a; cbn beta iota zeta in E; try discriminate;
  (destruct (exec1 _ _ _ _ _ _ _ _) as [[l y]|] eqn:E1; [|discriminate]); destruct l; try discriminate;
    (destruct (tw_exec _ s) as [[tr' t2]|] eqn:E2; [|discriminate]); injection E as _ <-; (eapply Hgen; [discriminate|exact E1|exact E2]).
Qed.
Definition migrate_script : list (bool * nat * act) := on false 8 [AOpen] ++ on true 8 (append_acts one_event 3).
Definition later_script : list (bool * nat * act) := on true 16 ([AOpen] ++ read_acts by_tag ++ [ARead 1 [] None false None]).
Definition killed (t : twin) : twin := Twin (tw_width t) (tw_set true (Sys (y_disk (tw_sys t true)) None) (tw_sys t)).
Theorem twins_damage_refuted : exists tr t tr' t', tw_run twin_start tr t /\ LCommit [one_event] [Ok 1] ∈ tw_trace true tr /\
  twin_step 4096 tag_to_hash (fun l => l) x_ford false t (true, 8%nat, LKill []) (killed t) /\ tw_run (killed t) tr' t' /\
  LRead 1 by_tag None false None (Ok ([], Some 1)) ∈ tw_trace true tr' /\
  (exists e, LRead 1 [] None false None (Ok ([(1, e)], Some 1)) ∈ tw_trace true tr' /\ er_tags e = [tag_txt "student:1"]).
Proof.
  assert (K : match tw_exec twin_start migrate_script with
    | Some (tr, t) => tw_trace true tr = replicate 8 LTau ++ [LCommit [one_event] [Ok 1]] /\ tw_width t = 8%nat /\
        (d_wr (y_disk (tw_sys t true)) 0 = false /\ d_wr (y_disk (tw_sys t true)) 1 = false) /\
        match y_proc (tw_sys t true) with Some p => in_flight (p_writer p) | None => [one_event] end = [] /\
        match tw_exec (killed t) later_script with
        | Some (tr', _) => nth 7 (tw_trace true tr') LTau = LRead 1 by_tag None false None (Ok ([], Some 1)) /\
            match nth 8 (tw_trace true tr') LTau with LRead 1 [] None false None (Ok ([(1, e)], Some 1)) => er_tags e = [tag_txt "student:1"] | _ => False end /\ length (tw_trace true tr') = 9%nat
        | None => False end
    | None => False end) by (vm_compute; repeat split).
  destruct (tw_exec twin_start migrate_script) as [[tr t]|] eqn:E; [|contradiction].
  destruct K as (K1 & K2 & (K3 & K4) & K5 & K6). destruct (tw_exec (killed t) later_script) as [[tr' t']|] eqn:E'; [|contradiction].
  destruct K6 as (K6 & K7 & K8). exists tr, t, tr', t'. split; [now apply (tw_exec_ok migrate_script)|]. split; [rewrite K1, elem_of_app; right; now left|]. split; [|split].
  - destruct (tw_sys t true) as [d [p|]] eqn:Et; [|discriminate K5]. cbn in K3, K4, K5. rewrite <- K2, <- K5. unfold killed. rewrite Et. cbn [y_disk].
    apply TW_step; [discriminate|]. rewrite Et. apply Y_kill. intros q c Hq Hc.
    assert (Hcl : clean d). { change d with (y_disk (Sys d (Some p))). rewrite <- Et. apply (tw_exec_clean _ _ _ _ E). intros [|] x b; cbn; auto. }
    apply Hcl; [exact Hc|]. assert (q = 0 \/ q = 1) as [->| ->] by lia; assumption.
  - now apply (tw_exec_ok later_script).
  - split; [rewrite <- K6; apply elem_of_list_In, nth_In; lia|].
    clear K5. destruct (nth 8 (tw_trace true tr') LTau) eqn:E8; try contradiction. repeat (case_match; try contradiction). subst. eexists. split; [rewrite <- E8; apply elem_of_list_In, nth_In; lia|exact K7].
Qed.
Print Assumptions tag_hash_stored.
Print Assumptions legacy_as_specified.
Print Assumptions legacy_opens.
Print Assumptions twins_independent_partial.
Print Assumptions twins_independent_refuted.
Print Assumptions twins_damage_refuted.
