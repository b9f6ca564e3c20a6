(** Properties C12, C33, C40, C41 and C44: opening a file, and failures around the header pages. *)
From Verif Require Import Mvcc MvccProofs SpecProofs StoreProofs Exec PropsPage PropsStore PropsFindings PageProofs.
Local Open Scope N_scope.

(** ** C12: the choice of the header *)
(** Nothing is assumed about the contents of the file. *)
Section recovery.
  Context (kw : nat) (ps : N) (Hps : ps_ok ps).
  (** Slot [s] holds the header [h]; slot [s] holds nothing that can be read. *)
  Definition intact (d : disk) (s : N) (h : header) : Prop := s < 2 /\ dec kw (d_cur d s) = Ok (NHeader h).
  Definition unreadable (d : disk) (s : N) : Prop := exists e, dec kw (d_cur d s) = Err e.

  Lemma two s : s < 2 -> s = 0 \/ s = 1. Proof. lia. Qed.
  Lemma latest_of_ge a b : h_tsn a.2 <= h_tsn (latest_of a b).2 /\ h_tsn b.2 <= h_tsn (latest_of a b).2 /\ (latest_of a b = a \/ latest_of a b = b).
  Proof. unfold latest_of. destruct (N.ltb_spec (h_tsn a.2) (h_tsn b.2)); split_and!; auto; lia. Qed.
  (** If a file is opened, then with the intact header of the greatest transaction number, and nothing that could be
      read before is changed. *)
  Theorem header_recovery d d' p : open_db kw ps d = Ok (d', p) ->
    (exists s, intact d s (latest p).2) /\ (forall s h, intact d s h -> h_tsn h <= h_tsn (latest p).2) /\
    (forall q n, dec kw (d_cur d q) = Ok n -> d_cur d' q = d_cur d q).
  Proof.
    unfold open_db, read_headers, intact, latest. destruct (dec kw (d_cur d 0)) as [n0|e0] eqn:E0, (dec kw (d_cur d 1)) as [n1|e1] eqn:E1; cbn; try discriminate.
    - destruct n0; cbn; try discriminate. destruct n1; cbn; try discriminate. destruct (check_roots _ _ _); cbn; [|discriminate]. intros [= <- <-]. cbn.
      destruct (latest_of_ge (0, h) (1, h0)) as (L1 & L2 & L3). cbn in *. split; [destruct L3 as [->| ->]; [exists 0|exists 1]; cbn; split; auto; lia|].
      split; [|auto]. intros s x [Hs Hx]. destruct (two s Hs) as [->| ->]; rewrite ?E0, ?E1 in Hx; injection Hx as <-; assumption.
    - destruct (page_ser kw ps n0) as [b|]; cbn; [|discriminate]. destruct n0; cbn; try discriminate. destruct (check_roots _ _ _); cbn; [|discriminate]. intros [= <- <-]. cbn.
      destruct (latest_of_ge (0, h) (0, h)) as (L1 & L2 & L3). cbn in *. assert (latest_of (0, h) (0, h) = (0, h)) as -> by (now destruct L3). cbn.
      split; [exists 0; split; [lia|assumption]|]. split.
      + intros s x [Hs Hx]. destruct (two s Hs) as [->| ->]; rewrite ?E0, ?E1 in Hx; [injection Hx as <-; lia|discriminate].
      + intros q n Hq. destruct (N.eqb_spec q 1) as [->|]; [congruence|reflexivity].
    - destruct (page_ser kw ps n1) as [b|]; cbn; [|discriminate]. destruct n1; cbn; try discriminate. destruct (check_roots _ _ _); cbn; [|discriminate]. intros [= <- <-]. cbn.
      destruct (latest_of_ge (1, h) (1, h)) as (L1 & L2 & L3). cbn in *. assert (latest_of (1, h) (1, h) = (1, h)) as -> by (now destruct L3). cbn.
      split; [exists 1; split; [lia|assumption]|]. split.
      + intros s x [Hs Hx]. destruct (two s Hs) as [->| ->]; rewrite ?E0, ?E1 in Hx; [discriminate|injection Hx as <-; lia].
      + intros q n Hq. destruct (N.eqb_spec q 0) as [->|]; [congruence|reflexivity].
  Qed.
  (** Without an intact header nothing is opened (and nothing written: there is no new disk). *)
  Theorem no_header_no_open d : (forall s, s < 2 -> unreadable d s) -> exists e, open_db kw ps d = Err e.
  Proof.
    intros H. destruct (H 0 ltac:(lia)) as [e0 E0], (H 1 ltac:(lia)) as [e1 E1]. exists e0. unfold open_db. rewrite E0, E1. reflexivity.
  Qed.
  Lemma header_stored h : exists b, page_ser kw ps (NHeader h) = Ok b.
  Proof.
    unfold page_ser. cbn [node_ser rbind]. pose proof (header_size_eq h) as E. assert (header_size h <= 62) by (unfold header_size; destruct (_ =? _); lia).
    unfold ps_ok in Hps. rewrite (proj2 (N.ltb_ge _ _)) by (unfold PAGE_HEADER_SIZE; lia). eauto.
  Qed.
  Lemma write_fetch q b d i : q < 2 -> fetch kw ∅ (d_write kw q b d) i = fetch kw ∅ d i.
  Proof. intros Hq. unfold fetch. destruct (N.ltb_spec i 2); [reflexivity|]. rewrite lookup_empty. cbn. destruct (N.eqb_spec i q); [lia|reflexivity]. Qed.
  Lemma roots_ext rd rd' h : (forall q, rd q = rd' q) -> check_roots kw rd h = check_roots kw rd' h.
  Proof. intros H. unfold check_roots. now rewrite !H. Qed.
  (** A file with an intact header [h], whose other slot has an older header, the same or nothing readable, is opened
      with [h] if the roots [h] names are there. *)
  Theorem header_recovery_opens d s h : intact d s h ->
    (forall s', s' < 2 -> unreadable d s' \/ exists h', intact d s' h' /\ (h_tsn h' < h_tsn h \/ h' = h)) ->
    check_roots kw (fetch kw ∅ d) h = Ok tt -> exists d' p, open_db kw ps d = Ok (d', p) /\ (latest p).2 = h.
  Proof.
    intros [Hs Hh] Ho Hr. destruct (header_stored h) as [b Hb].
    destruct (two s Hs) as [->| ->].
    - destruct (Ho 1 ltac:(lia)) as [[e E]|(h' & [_ E] & Hlt)]; unfold open_db; rewrite Hh, E; cbn [read_headers rbind as_header snd fst].
      + rewrite Hb. cbn [read_headers rbind as_header snd fst]. unfold latest at 1. cbn [p_pin0 p_pin1]. assert (latest_of (0, h) (0, h) = (0, h)) as El by (unfold latest_of; now destruct (_ <? _)). rewrite El. cbn [snd].
        rewrite (roots_ext _ (fetch kw ∅ d)) by (intros q; apply write_fetch; lia). rewrite Hr. cbn. eexists _, _. split; [reflexivity|]. unfold latest. cbn. now rewrite El.
      + assert ((latest_of (0, h) (1, h')).2 = h) as El by (unfold latest_of; cbn; destruct (N.ltb_spec (h_tsn h) (h_tsn h')); [destruct Hlt; [lia|subst; lia]|reflexivity]).
        unfold latest at 1. cbn [p_pin0 p_pin1]. rewrite El, Hr. cbn. eexists _, _. split; [reflexivity|]. exact El.
    - destruct (Ho 0 ltac:(lia)) as [[e E]|(h' & [_ E] & Hlt)]; unfold open_db; rewrite Hh, E; cbn [read_headers rbind as_header snd fst].
      + rewrite Hb. cbn [read_headers rbind as_header snd fst]. unfold latest at 1. cbn [p_pin0 p_pin1]. assert (latest_of (1, h) (1, h) = (1, h)) as El by (unfold latest_of; now destruct (_ <? _)). rewrite El. cbn [snd].
        rewrite (roots_ext _ (fetch kw ∅ d)) by (intros q; apply write_fetch; lia). rewrite Hr. cbn. eexists _, _. split; [reflexivity|]. unfold latest. cbn. now rewrite El.
      + assert ((latest_of (0, h') (1, h)).2 = h) as El by (unfold latest_of; cbn; destruct (N.ltb_spec (h_tsn h') (h_tsn h)); [reflexivity|destruct Hlt; [lia|subst; reflexivity]]).
        unfold latest at 1. cbn [p_pin0 p_pin1]. rewrite El, Hr. cbn. eexists _, _. split; [reflexivity|]. exact El.
  Qed.
End recovery.
(** A database after one commit, one of whose header slots is then filled with rubbish. *)
Definition r_after : list act := x_batch [f_one] 3 ++ [ADone].
Definition r_put (q : N) (c : option bytes) (d : disk) : disk := Disk (fun i => if i =? q then c else d_cur d i) (d_dur d) (d_wr d).
Definition r_tsn (o : res (disk * proc)) : option N := match o with Ok (_, p) => Some (h_tsn (latest p).2) | Err _ => None end.
Example recovery_example : exists tr y h0 h1, f_run tr y /\ intact 16 (y_disk y) 0 h0 /\ intact 16 (y_disk y) 1 h1 /\ h_tsn h0 = 0 /\ h_tsn h1 = 1 /\
  check_roots 16 (fetch 16 ∅ (y_disk y)) h1 = Ok tt /\ r_tsn (open_db 16 4096 (y_disk y)) = Some 1 /\ r_tsn (open_db 16 4096 (r_put 1 (Some [1; 2]) (y_disk y))) = Some 0 /\
  r_tsn (open_db 16 4096 (r_put 0 None (y_disk y))) = Some 1.
Proof.
  destruct (f_found r_after (fun y =>
    match dec 16 (d_cur (y_disk y) 0), dec 16 (d_cur (y_disk y) 1) with
    | Ok (NHeader h0), Ok (NHeader h1) => bool_decide (h_tsn h0 = 0) && bool_decide (h_tsn h1 = 1) && is_ok (check_roots 16 (fetch 16 ∅ (y_disk y)) h1) &&
       bool_decide (r_tsn (open_db 16 4096 (y_disk y)) = Some 1) && bool_decide (r_tsn (open_db 16 4096 (r_put 1 (Some [1; 2]) (y_disk y))) = Some 0) &&
       bool_decide (r_tsn (open_db 16 4096 (r_put 0 None (y_disk y))) = Some 1)
    | _, _ => false end)) as (tr & y & H & HP); [vm_compute; reflexivity|].
  destruct (dec 16 (d_cur (y_disk y) 0)) as [[h0| | | | | | | | | | | | |]|] eqn:E0; try discriminate.
  destruct (dec 16 (d_cur (y_disk y) 1)) as [[h1| | | | | | | | | | | | |]|] eqn:E1; try discriminate.
  apply andb_prop in HP as [HP H6]. apply andb_prop in HP as [HP H5]. apply andb_prop in HP as [HP H4]. apply andb_prop in HP as [HP H3]. apply andb_prop in HP as [H1 H2].
  apply bool_decide_eq_true in H1, H2, H4, H5, H6. exists tr, y, h0, h1. split; [exact H|]. split; [split; [lia|exact E0]|]. split; [split; [lia|exact E1]|].
  split; [exact H1|]. split; [exact H2|]. split; [|split; [exact H4|split; [exact H5|exact H6]]]. destruct (check_roots 16 _ h1) as [[]|]; [reflexivity|discriminate].
Qed.

(** ** C41: a read error while opening *)
(** [open_db] with the outcomes of the two reads of header pages (mvcc.rs:381-382) as arguments. *)
Definition open_with (kw : nat) (ps : N) (r0 r1 : res node) (d : disk) : res (disk * proc) :=
  let? '(n0, n1, fix_) := read_headers r0 r1 in
  let? d' := match fix_ with
             | None => Ok d
             | Some (q, n) => let? b := page_ser kw ps n in Ok (d_write kw q b d)
             end in
  let? h0 := as_header n0.2 in
  let? h1 := as_header n1.2 in
  let p := Proc (n0.1, h0) (n1.1, h1) ∅ ∅ ∅ WIdle in
  let? _ := check_roots kw (fetch kw ∅ d') (latest p).2 in
  Ok (d', p).
Lemma open_with_eq kw ps d : open_db kw ps d = open_with kw ps (dec kw (d_cur d 0)) (dec kw (d_cur d 1)) d.
Proof. reflexivity. Qed.
(** An event is stored and acknowledged and the machine stopped in good order.  When the page with the newer header
    cannot be read at the next start, it is overwritten with the older one: every later start, with a disk that works
    again, finds the database empty. *)
Theorem opening_loses_nothing_refuted : exists tr d d' p d'' p'', f_run (tr ++ [LCommit [f_one] [Ok 1]; LCrash []]) (Sys d None) /\ 
  open_with 16 4096 (dec 16 (d_cur d 0)) (Err EIo) d = Ok (d', p) /\ open_db 16 4096 d' = Ok (d'', p'') /\
  umadb_read f_hash (fun l => l) (fetch 16 ∅ d'') (latest p'').2 [] None false None false = Ok ([], None).
Proof.
  destruct (f_runs (r_after ++ [ACrash]) (replicate 8 LTau ++ [LCommit [f_one] [Ok 1]; LCrash []])) as (y & H & E); [vm_compute; reflexivity|].
  assert (Hc : match f_exec (r_after ++ [ACrash]) with
    | Some (_, Sys d None) => match open_with 16 4096 (dec 16 (d_cur d 0)) (Err EIo) d with
      | Ok (d', p) => match open_db 16 4096 d' with
        | Ok (d'', p'') => match umadb_read f_hash (fun l => l) (fetch 16 ∅ d'') (latest p'').2 [] None false None false with Ok ([], None) => true | _ => false end
        | _ => false end
      | _ => false end
    | _ => false end = true) by (vm_compute; reflexivity).
  rewrite E in Hc. clear E. destruct y as [d [p|]]; [discriminate Hc|]. destruct (open_with _ _ _ _ d) as [[d1 p1]|] eqn:E1; [|discriminate Hc].
  destruct (open_db _ _ d1) as [[d2 p2]|] eqn:E2; [|discriminate Hc]. destruct (umadb_read _ _ _ _ _ _ _ _ _) as [[[|] [|]]|] eqn:E3; try discriminate Hc.
  exists (replicate 8 LTau). eexists _, _, _, _, _. split; [exact H|]. split; [eassumption|]. split; eassumption.
Qed.

(** ** C40: a crash during creation *)
(** Mvcc::new for a path that does not exist (pager.rs:66-77, mvcc.rs:285-377): the file is created empty, the root pages
    are written and synced, then header 1, then header 0, then all is synced. *)
Inductive cop := CWrite (q : N) | CSync.
Definition creation : list cop := [CWrite 2; CWrite 3; CWrite 4; CSync; CWrite 1; CWrite 0; CSync].
Definition new_file : disk := Disk (fun _ => None) (fun _ c => c = None) (fun _ => false).
Section creation.
  Context (ps : N) (hash : bytes -> bytes) (order : list bytes -> list bytes) (ford : gset N -> list N) (caching : bool).
  Context (Hps : ps_ok ps) (Hps32 : ps < U32) (Hord : forall l t, t ∈ order l <-> t ∈ l) (Hford : forall s, ford s ≡ₚ elements s).
  Definition c_do (d : disk) (o : cop) : disk :=
    match o with
    | CWrite q => match init_file 16 ps q with Some b => d_write 16 q b d | None => d end
    | CSync => d_synced d
    end.
  Definition created (ops : list cop) : disk := foldl c_do new_file ops.
  Lemma init_bytes q n : init_page q = Some n -> exists b, init_file 16 ps q = Some b.
  Proof.
    intros E. destruct (init_storable q n E) as [Hs Hz]. unfold init_file. rewrite E.
    destruct (page_size_safe 16 ps n) as (b & Eb); [lia|exact (proj1 Hs)|unfold ps_ok in Hps; lia|]. rewrite Eb. eauto.
  Qed.
  (** Until creation has finished, a crash may leave a file that can never be opened. *)
  Theorem creation_crash_refuted k : (k < 7)%nat -> exists d, d_crashed (created (take k creation)) d /\ exists e, open_db 16 ps d = Err e.
  Proof.
    intros Hk. destruct (init_bytes 2 _ eq_refl) as [b2 E2], (init_bytes 3 _ eq_refl) as [b3 E3], (init_bytes 4 _ eq_refl) as [b4 E4], (init_bytes 0 _ eq_refl) as [b0 E0], (init_bytes 1 _ eq_refl) as [b1 E1].
    exists (Disk (fun q => if q <? 2 then None else d_cur (created (take k creation)) q)
                 (fun q c => c = if q <? 2 then None else d_cur (created (take k creation)) q) (fun _ => false)). split.
    - eexists. split; [|reflexivity]. cbn beta. intros q. unfold created, creation.
      destruct k as [|[|[|[|[|[|[|k]]]]]]]; [..|lia]; cbn [take foldl c_do]; rewrite ?E2, ?E3, ?E4, ?E0, ?E1; unfold d_write, d_synced; cbn [d_cur d_dur d_wr].
      all: destruct (N.ltb_spec q 2) as [Hq|Hq].
      all: repeat match goal with |- context [?y =? ?x] => destruct (N.eqb_spec y x); [try lia|]; cbn [orb] end; subst; try lia; auto.
      all: first [reflexivity | left; reflexivity | right; intros ? ?; discriminate | intros ? ?; discriminate].
    - apply no_header_no_open. intros s Hs. exists EIo. cbn [d_cur]. rewrite (proj2 (N.ltb_lt _ _) Hs). reflexivity.
  Qed.
  (** When it has finished, the file is that of a new database, on the disk. *)
  Theorem creation_complete q c : d_dur (created creation) q c <-> c = init_file 16 ps q.
  Proof.
    destruct (init_bytes 2 _ eq_refl) as [b2 E2], (init_bytes 3 _ eq_refl) as [b3 E3], (init_bytes 4 _ eq_refl) as [b4 E4], (init_bytes 0 _ eq_refl) as [b0 E0], (init_bytes 1 _ eq_refl) as [b1 E1].
    unfold created, creation. cbn [foldl c_do]. rewrite E2, E3, E4, E0, E1. unfold d_write, d_synced. cbn [d_cur d_dur d_wr].
    repeat match goal with |- context [q =? ?x] => destruct (N.eqb_spec q x); [subst q|]; cbn -[init_file] end; try (now rewrite ?E2, ?E3, ?E4, ?E0, ?E1).
    assert (init_file 16 ps q = None) as ->; [|reflexivity]. unfold init_file, init_page. repeat match goal with |- context [q =? ?x] => destruct (N.eqb_spec q x); [contradiction|] end. reflexivity.
  Qed.
  (** Whenever the crash comes: if the file left can be opened, then as an empty database. *)
  Theorem creation_crash_empty k d d' p : d_crashed (created (take k creation)) d -> open_db 16 ps d = Ok (d', p) -> shows hash order (Sys d' (Some p)) spec_empty.
  Proof.
    intros (f & Hf & ->) Ho.
    destruct (init_bytes 2 _ eq_refl) as [b2 E2], (init_bytes 3 _ eq_refl) as [b3 E3], (init_bytes 4 _ eq_refl) as [b4 E4], (init_bytes 0 _ eq_refl) as [b0 E0], (init_bytes 1 _ eq_refl) as [b1 E1].
    assert (Hhd : forall s n, s < 2 -> dec 16 (f s) = Ok n -> n = NHeader init_header /\ (5 <= k)%nat).
    { intros s n Hs Hn. specialize (Hf s). pose proof (init_dec ps Hps Hps32 0 _ eq_refl) as D0. pose proof (init_dec ps Hps Hps32 1 _ eq_refl) as D1. revert Hf Hn. unfold created, creation.
      destruct k as [|[|[|[|[|[|[|[|k]]]]]]]]; [..|rewrite take_ge by (cbn; lia)]; cbn [take foldl c_do]; rewrite ?E2, ?E3, ?E4, ?E0, ?E1; unfold d_write, d_synced; cbn [d_cur d_dur d_wr].
      all: destruct (two s Hs) as [-> | ->]; cbn -[may_hold dec]; try (intros ->; discriminate).
      all: rewrite E0 in D0; rewrite E1 in D1.
      all: try (intros -> Hn; split; [congruence|lia]).
      all: intros [->|Hm] Hn; [split; [congruence|lia]|].
      all: destruct (Hm n Hn) as [Hm'|(c0 & Hc0 & Hm')]; [split; [congruence|lia]|]; cbn in Hc0; subst c0; discriminate. }
    assert (Hroot : (5 <= k)%nat -> forall q, q = 2 \/ q = 3 \/ q = 4 -> f q = init_file 16 ps q).
    { intros Hk q Hq. specialize (Hf q). revert Hf. unfold created, creation.
      destruct k as [|[|[|[|[|[|[|k]]]]]]]; [lia..| | |rewrite take_ge by (cbn; lia)].
      all: cbn [take foldl c_do]; rewrite ?E2, ?E3, ?E4, ?E0, ?E1; unfold d_write, d_synced; cbn [d_cur d_dur d_wr].
      all: destruct Hq as [->|[->| ->]]; cbn -[init_file]; congruence. }
    destruct (header_recovery 16 ps _ _ _ Ho) as ((s & Hs1 & Hs2) & _ & _). cbn [d_cur] in Hs2. destruct (Hhd s _ Hs1 Hs2) as [Ehd Hk]. specialize (Hroot Hk).
    assert (Hd : dinv 16 ps hash (Disk f (fun q c => c = f q) (fun _ => false)) init_snap (SSys spec_empty None false ∅ ∅)).
    { constructor.
      - intros q. reflexivity.
      - intros q c _ ->. reflexivity.
      - exists s. split; [exact Hs1|]. split; [intros b ->; cbn; congruence|]. intros b n -> Hn. exists init_header. split; [|auto].
        eapply Hhd; [|exact Hn]. apply (other_lt 16 ps Hps32); lia.
      - split; [exact (proj1 (init_storable 0 (NHeader init_header) eq_refl))|]. right. auto.
      - split; [apply (init_snap_ok ps hash Hps Hps32)|]. intros q Hq. 
        assert (q = 2 \/ q = 3 \/ q = 4) as Hq'.
        { unfold g_live, sn_live in Hq. cbn in Hq. rewrite !elem_of_cons in Hq. destruct Hq as [->|[->|[->|Hq]]]; auto. inversion Hq. }
        assert (exists n, init_page q = Some n) as (n & En) by (destruct Hq' as [->|[->| ->]]; cbn; eauto).
        exists n. split; [exact En|]. split; [|left; apply lookup_empty]. intros b ->. rewrite (Hroot q Hq'). eapply init_dec; eauto.
      - reflexivity. }
    destruct (open_ok 16 ps hash order ford caching Hps Hps32 ltac:(lia) Hord Hford _ _ _ Hd) as (d1 & p1 & Eo & Hu). rewrite Ho in Eo. injection Eo as <- <-.
    change spec_empty with (sp_cur (SSys spec_empty None true ∅ ∅)).
    eapply (inv_shows ps hash order ford caching Hps Hps32 Hord Hford); [eexists; exact Hu|eexists; reflexivity].
  Qed.
End creation.

(** ** C33, C44: going on after the header page was not synced *)
(** The transition system of Mvcc.v stops the process when the header page could not be synced, and lets it be killed only
    while no header page waits to be synced.  The code does neither; these are its other steps.  [W_go_on]: Mvcc::commit
    returns the error of the sync (mvcc.rs:844), the requests are answered with it, and the next transaction starts from
    the header pinned before.  [W_kill]: the process ends at any moment; the operating system still has the writes. *)
Inductive wild (ps : N) (hash : bytes -> bytes) (order : list bytes -> list bytes) (ford : gset N -> list N) (caching : bool) : sys -> label -> sys -> Prop :=
  | W_step y l y' : Mvcc.step 16 ps hash order ford caching y l y' -> wild ps hash order ford caching y l y'
  | W_go_on d p w done ans d' : p_writer p = WSync w done ans -> d_unsynced d d' ->
      wild ps hash order ford caching (Sys d (Some p)) (LUnsure done) (Sys d' (Some (set_writer WIdle p)))
  | W_kill d p : wild ps hash order ford caching (Sys d (Some p)) (LKill (in_flight (p_writer p))) (Sys d None).
Inductive wilds (ps : N) (hash : bytes -> bytes) (order : list bytes -> list bytes) (ford : gset N -> list N) (caching : bool) : sys -> list label -> sys -> Prop :=
  | wilds_nil y : wilds ps hash order ford caching y [] y
  | wilds_cons y l y' tr y'' : wild ps hash order ford caching y l y' -> wilds ps hash order ford caching y' tr y'' -> wilds ps hash order ford caching y (l :: tr) y''.

Section wild.
  Context (ps : N) (hash : bytes -> bytes) (order : list bytes -> list bytes) (ford : gset N -> list N) (caching : bool).
  Lemma w_write_cur q b d : cur_ok d -> cur_ok (d_write 16 q b d).
  Proof. intros H i. cbn. destruct (i =? q); [now left|apply H]. Qed.
  Lemma w_spoilt_cur q b d d' : cur_ok d -> d_spoilt 16 q b d d' -> cur_ok d'.
  Proof. intros H (c & Hc & ->) i. cbn. destruct (i =? q); [exact Hc|apply H]. Qed.
  Lemma pstep_cur d p l d' p' : pstep 16 ps hash order ford caching d p l d' p' -> cur_ok d -> cur_ok d'.
  Proof.
    intros Hst H. inversion Hst; subst; auto using w_write_cur; try (eapply w_spoilt_cur; eassumption).
    all: try match goal with Hx : _ = _ \/ d_spoilt _ _ _ _ _ |- _ => destruct Hx as [->|Hx]; [exact H|]; eapply w_spoilt_cur; eassumption end.
    all: try (intros i; cbn; destruct (d_wr d i); [reflexivity|apply H]).
    all: match goal with Hx : d_unsynced _ _ |- _ => destruct Hx as (f & Hf & ->); intros i; cbn; specialize (Hf i); destruct (d_wr d i); [exact Hf|rewrite Hf; apply H] end.
  Qed.
  Notation exec1 := (exec1 16 ps hash order ford caching).
  Notation exec := (exec 16 ps hash order ford caching).
  Lemma exec1_wild y a l y' : cur_ok (y_disk y) -> exec1 y a = Some (l, y') -> wild ps hash order ford caching y l y' /\ cur_ok (y_disk y').
  Proof.
    intros Hc E. assert (Hs : Mvcc.step 16 ps hash order ford caching y l y') by (eapply exec1_ok; [|exact E]; auto).
    split; [now apply W_step|]. inversion Hs as [d p l0 d' p' Hp|d p d' Hd|d d' Hd|d p Hd|d d' p Ho]; subst; cbn in *; auto.
    - eapply pstep_cur; eassumption.
    - destruct Hd as (f & Hf & ->). intros q. reflexivity.
    - destruct Hd as (f & Hf & ->). intros q. reflexivity.
    - unfold open_db in Ho. destruct (read_headers _ _) as [[[n0 n1] o]|]; cbn [rbind] in Ho; [|discriminate].
      destruct o as [[q n]|]; [destruct (page_ser 16 ps n) as [b|]; cbn [rbind] in Ho; [|discriminate]|cbn [rbind] in Ho].
      all: destruct (as_header n0.2); cbn [rbind] in Ho; [|discriminate]; destruct (as_header n1.2); cbn [rbind] in Ho; [|discriminate]; destruct (check_roots _ _ _); cbn [rbind] in Ho; [|discriminate].
      all: injection Ho as <- _; auto using w_write_cur.
  Qed.
  Lemma exec_wild s : forall y tr y', cur_ok (y_disk y) -> exec y s = Some (tr, y') -> wilds ps hash order ford caching y tr y' /\ cur_ok (y_disk y').
  Proof.
    induction s as [|a s IH]; intros y tr y' Hc; cbn [Exec.exec]; [intros [= <- <-]; split; [constructor|exact Hc]|].
    destruct (exec1 y a) as [[l y1]|] eqn:E1; [|discriminate]. destruct (exec y1 s) as [[tr1 y2]|] eqn:E2; [|discriminate]. intros [= <- <-].
    destruct (exec1_wild _ _ _ _ Hc E1) as [H1 H2]. destruct (IH _ _ _ H2 E2) as [H3 H4]. split; [econstructor; eassumption|exact H4].
  Qed.
  (** What a header page may hold after a crash, it may hold until the next sync. *)
  Definition unsynced_act (a : act) : bool := match a with ASync | ADone | ACrash => false | _ => true end.
  Lemma write_lost q b d i c : d_dur d i c -> d_dur (d_write 16 q b d) i c.
  Proof.
    intros H. cbn. destruct (N.eqb_spec i q) as [->|]; [|exact H]. right. unfold may_hold. destruct (q <? 2); [|exact I]. intros n Hn. right. eauto.
  Qed.
  Lemma exec1_lost y a l y' i c : unsynced_act a = true -> exec1 y a = Some (l, y') -> d_dur (y_disk y) i c -> d_dur (y_disk y') i c.
  Proof.
    intros Ha E H. destruct y as [d [p|]]; cbn [Exec.exec1] in E.
    - destruct a; try discriminate Ha; cbn [pexec] in E; repeat (case_match; try discriminate); simplify_eq; try exact H; now apply write_lost.
    - destruct a; try discriminate. destruct (open_db 16 ps d) as [[d' p]|] eqn:Ho; [|discriminate]. injection E as <- <-. cbn in *.
      unfold open_db in Ho. destruct (read_headers _ _) as [[[n0 n1] o]|]; cbn [rbind] in Ho; [|discriminate].
      destruct o as [[q n]|]; [destruct (page_ser 16 ps n) as [b|]; cbn [rbind] in Ho; [|discriminate]|cbn [rbind] in Ho].
      all: destruct (as_header n0.2); cbn [rbind] in Ho; [|discriminate]; destruct (as_header n1.2); cbn [rbind] in Ho; [|discriminate]; destruct (check_roots _ _ _); cbn [rbind] in Ho; [|discriminate].
      all: injection Ho as <- _; auto using write_lost.
  Qed.
  Lemma exec_lost s : forall y tr y' i c, forallb unsynced_act s = true -> exec y s = Some (tr, y') -> d_dur (y_disk y) i c -> d_dur (y_disk y') i c.
  Proof.
    induction s as [|a s IH]; intros y tr y' i c Ha; cbn [Exec.exec]; [intros [= <- <-]; auto|]. cbn in Ha. apply andb_prop in Ha as [Ha1 Ha2].
    destruct (exec1 y a) as [[l y1]|] eqn:E1; [|discriminate]. destruct (exec y1 s) as [[tr1 y2]|] eqn:E2; [|discriminate]. intros [= <- <-] H.
    eapply IH; [exact Ha2|exact E2|]. eapply exec1_lost; eassumption.
  Qed.
  Lemma wilds_app y t1 y1 t2 y2 : wilds ps hash order ford caching y t1 y1 -> wilds ps hash order ford caching y1 t2 y2 -> wilds ps hash order ford caching y (t1 ++ t2) y2.
  Proof. induction 1; intros H2; [exact H2|]. cbn. econstructor; eauto. Qed.
End wild.

Notation f_wilds := (wilds 4096 f_hash (fun l => l) x_ford true).
Notation f_exec' := (exec 16 4096 f_hash (fun l => l) x_ford true).
Global Instance new_event_eq_dec : EqDecision new_event. Proof. solve_decision. Defined.
Global Instance qitem_eq_dec : EqDecision query_item. Proof. solve_decision. Defined.
Global Instance acond_eq_dec : EqDecision append_condition. Proof. solve_decision. Defined.
Global Instance request_eq_dec : EqDecision request. Proof. solve_decision. Defined.
Global Instance err_eq_dec' : EqDecision err. Proof. solve_decision. Defined.
Global Instance res_eq_dec {A} `{EqDecision A} : EqDecision (res A). Proof. solve_decision. Defined.
Definition f_plain := Req [NE [1] [] [] None []] None None.
Definition settled (d : disk) : disk := Disk (d_cur d) (fun q c => c = d_cur d q) (fun _ => false).
Definition dropped (d : disk) : disk := Disk (d_cur d) (d_dur d) (fun _ => false).
Lemma crash_settled d : cur_ok d -> d_crashed d (settled d).
Proof. intros H. exists (d_cur d). split; [exact H|reflexivity]. Qed.
Lemma sync_dropped d : cur_ok d -> d_unsynced d (dropped d).
Proof. intros H. exists (d_cur d). split; [|reflexivity]. intros q. destruct (d_wr d q); [apply H|reflexivity]. Qed.
Lemma init_cur ps : cur_ok (y_disk (init_sys 16 ps)). Proof. intros q. reflexivity. Qed.

(** The sync of the header page fails, the request is answered with an error, the machine crashes: when the file is opened
    again the event is there. *)
Theorem failed_commit_no_trace_refuted : exists tr d p d1 p1 d2 d3 p3, f_run tr (Sys d (Some p)) /\
  umadb_read f_hash (fun l => l) (fetch 16 (p_cache p) d) (latest p).2 [] None false None false = Ok ([], None) /\
  Mvcc.step 16 4096 f_hash (fun l => l) x_ford true (Sys d (Some p)) (LUnsure [f_one]) (Sys d1 (Some p1)) /\
  Mvcc.step 16 4096 f_hash (fun l => l) x_ford true (Sys d1 (Some p1)) (LCrash []) (Sys d2 None) /\
  Mvcc.step 16 4096 f_hash (fun l => l) x_ford true (Sys d2 None) LOpen (Sys d3 (Some p3)) /\
  umadb_read f_hash (fun l => l) (fetch 16 (p_cache p3) d3) (latest p3).2 [] None false None false = Ok ([(1, to_record None (NE [1] [] [[97]] None []))], Some 1).
Proof.
  destruct (f_found (x_batch [f_one] 3) (fun y => match y with
    | Sys d (Some p) => match p_writer p with WSync _ done _ => bool_decide (done = [f_one]) | _ => false end &&
       bool_decide (umadb_read f_hash (fun l => l) (fetch 16 (p_cache p) d) (latest p).2 [] None false None false = Ok ([], None)) &&
       match open_db 16 4096 (settled (dropped d)) with
       | Ok (d3, p3) => bool_decide (umadb_read f_hash (fun l => l) (fetch 16 (p_cache p3) d3) (latest p3).2 [] None false None false = Ok ([(1, to_record None (NE [1] [] [[97]] None []))], Some 1))
       | _ => false end
    | _ => false end)) as (tr & [d [p|]] & H & HP); [vm_compute; reflexivity| |discriminate HP].
  apply andb_prop in HP as [HP H3]. apply andb_prop in HP as [H1 H2]. apply bool_decide_eq_true in H2.
  destruct (p_writer p) as [| | | |w done ans|] eqn:Ew; try discriminate H1. apply bool_decide_eq_true in H1. subst done.
  destruct (open_db 16 4096 (settled (dropped d))) as [[d3 p3]|] eqn:Eo; [|discriminate H3]. apply bool_decide_eq_true in H3.
  pose proof (run_cur 4096 f_hash (fun l => l) x_ford true f_ps f_ps32 x_ord x_ford_ok _ _ H p eq_refl) as Hc. cbn in Hc.
  exists tr, d, p, (dropped d), (set_writer WBroken p), (settled (dropped d)), d3, p3. split; [exact H|]. split; [exact H2|]. split; [|split; [|split; [|exact H3]]].
  - apply Y_proc. eapply S_done_fails; [exact Ew|]. now apply sync_dropped.
  - change [] with (in_flight (p_writer (set_writer WBroken p))) at 1. apply Y_crash, crash_settled. exact Hc.
  - now apply Y_open.
Qed.

(** An event is stored and acknowledged.  The sync of the next header page fails and the process goes on: the following
    transaction starts from the header before and reuses the page numbers of the one that failed, whose header is on the
    disk.  After a crash the file cannot be opened: the acknowledged event is lost. *)
Definition w_first : list act := x_batch [f_one] 3 ++ [ADone] ++ x_batch [f_one] 3.
Definition w_go_on (y : sys) : sys := match y with Sys d (Some p) => Sys (dropped d) (Some (set_writer WIdle p)) | _ => y end.
Global Instance label_eq_dec : EqDecision label. Proof. solve_decision. Defined.
Theorem failed_sync_harmless_refuted : exists tr d, f_wilds (init_sys 16 4096) (tr ++ [LCrash []]) (Sys d None) /\ LCommit [f_one] [Ok 1] ∈ tr /\ LUnsure [f_one] ∈ tr /\
  (forall d' p, open_db 16 4096 d <> Ok (d', p)).
Proof.
  pose (t0 := replicate 8 LTau ++ LCommit [f_one] [Ok 1] :: replicate 8 LTau).
  assert (Hc : match f_exec w_first with
    | Some (tr, Sys d (Some p)) => bool_decide (tr = t0) && match p_writer p with WSync _ done _ => bool_decide (done = [f_one]) | _ => false end &&
      match f_exec' (w_go_on (Sys d (Some p))) [ABegin; ARequest f_plain; ACommit; APage; APage; ACrash] with
      | Some (tr', Sys d' None) => bool_decide (tr' = replicate 5 LTau ++ [LCrash []]) && negb (is_ok (open_db 16 4096 d'))
      | _ => false end
    | _ => false end = true) by (vm_compute; reflexivity).
  destruct (f_exec w_first) as [[tr1 [d1 [p1|]]]|] eqn:E1; [|discriminate Hc|discriminate Hc].
  apply andb_prop in Hc as [Hc H3]. apply andb_prop in Hc as [H1 H2]. apply bool_decide_eq_true in H1.
  destruct (p_writer p1) as [| | | |w done ans|] eqn:Ew; try discriminate H2. apply bool_decide_eq_true in H2. subst done tr1.
  destruct (exec_wild _ _ _ _ _ _ _ _ _ (init_cur 4096) E1) as [W1 C1]. cbn [y_disk] in C1.
  destruct (f_exec' (w_go_on (Sys d1 (Some p1))) _) as [[tr2 [d2 [p2|]]]|] eqn:E2; [discriminate H3| |discriminate H3].
  apply andb_prop in H3 as [H3 H4]. apply bool_decide_eq_true in H3. subst tr2.
  destruct (exec_wild _ _ _ _ _ _ (w_go_on (Sys d1 (Some p1))) _ _ C1 E2) as [W2 C2].
  exists (t0 ++ LUnsure [f_one] :: replicate 5 LTau), d2. split; [|split; [|split]].
  - rewrite <- app_assoc. cbn [app]. eapply wilds_app; [exact W1|]. econstructor; [|exact W2]. eapply W_go_on; [exact Ew|]. now apply sync_dropped.
  - apply elem_of_app. left. apply elem_of_app. right. left.
  - apply elem_of_app. right. left.
  - intros d' p Eo. rewrite Eo in H4. discriminate.
Qed.

(** An event is stored and acknowledged.  The process is killed after it has written the next header page and before it
    has synced it, and started again: the following transaction reuses pages of the state acknowledged.  If the machine
    now crashes, and the header page never reached the disk, the file cannot be opened: the acknowledged event is lost.
    No error was reported to anyone. *)
Definition w_kill (y : sys) : sys := Sys (y_disk y) None.
Definition w_crash (d0 d : disk) : disk := (* header pages as in [d0] *)
  Disk (fun q => if q <? 2 then d_cur d0 q else d_cur d q) (fun q c => c = if q <? 2 then d_cur d0 q else d_cur d q) (fun _ => false).
Theorem restart_harmless_refuted : exists tr d, f_wilds (init_sys 16 4096) (tr ++ [LCrash []]) (Sys d None) /\ LCommit [f_one] [Ok 1] ∈ tr /\
  Forall (fun l => match l with LUnsure _ | LAbort _ => False | _ => True end) tr /\
  (forall d' p, open_db 16 4096 d <> Ok (d', p)).
Proof.
  pose (s0 := x_batch [f_one] 3 ++ [ADone] ++ [ABegin; ARequest f_one; ACommit; APage; APage; APage; ASync]).
  pose (s2 := [AOpen; ABegin; ARequest f_plain; ACommit; APage; APage]).
  pose (t0 := replicate 8 LTau ++ LCommit [f_one] [Ok 1] :: replicate 7 LTau).
  assert (Hc : match f_exec s0 with
    | Some (tr, Sys d (Some p)) => bool_decide (tr = t0) && 
      match f_exec' (Sys d (Some p)) [AHeader] with
      | Some (tr', Sys d1 (Some p1)) => bool_decide (tr' = [LTau]) && bool_decide (in_flight (p_writer p1) = [f_one]) &&
        match f_exec' (Sys d1 None) s2 with
        | Some (tr'', Sys d2 (Some p2)) => bool_decide (tr'' = LOpen :: replicate 5 LTau) && bool_decide (in_flight (p_writer p2) = []) && negb (is_ok (open_db 16 4096 (w_crash d d2)))
        | _ => false end
      | _ => false end
    | _ => false end = true) by (vm_compute; reflexivity).
  destruct (f_exec s0) as [[tr0 [d0 [p0|]]]|] eqn:E0; [|discriminate Hc|discriminate Hc]. apply andb_prop in Hc as [H0 Hc]. apply bool_decide_eq_true in H0. subst tr0.
  destruct (f_exec' (Sys d0 (Some p0)) [AHeader]) as [[tr1 [d1 [p1|]]]|] eqn:E1; [|discriminate Hc|discriminate Hc]. apply andb_prop in Hc as [H1 Hc]. apply andb_prop in H1 as [H1 Hf1].
  apply bool_decide_eq_true in H1, Hf1. subst tr1.
  destruct (f_exec' (Sys d1 None) s2) as [[tr2 [d2 [p2|]]]|] eqn:E2; [|discriminate Hc|discriminate Hc]. apply andb_prop in Hc as [H2 Hc]. apply andb_prop in H2 as [H2 Hf2].
  apply bool_decide_eq_true in H2, Hf2. subst tr2.
  destruct (exec_wild _ _ _ _ _ _ _ _ _ (init_cur 4096) E0) as [W0 C0]. destruct (exec_wild _ _ _ _ _ _ _ _ _ C0 E1) as [W1 C1].
  destruct (exec_wild _ _ _ _ _ _ (Sys d1 None) _ _ C1 E2) as [W2 C2]. cbn [y_disk] in C0, C1, C2.
  exists (t0 ++ LTau :: LKill [f_one] :: LOpen :: replicate 5 LTau), (w_crash d0 d2). split; [|split; [|split]].
  - rewrite <- app_assoc. eapply wilds_app; [exact W0|]. cbn [app]. change (LTau :: LKill [f_one] :: LOpen :: replicate 5 LTau ++ [LCrash []]) with ([LTau] ++ LKill [f_one] :: (LOpen :: replicate 5 LTau) ++ [LCrash []]).
    eapply wilds_app; [exact W1|]. econstructor; [rewrite <- Hf1; apply W_kill|]. eapply wilds_app; [exact W2|]. econstructor; [|constructor]. apply W_step. rewrite <- Hf2. apply Y_crash.
    eexists. split; [|reflexivity]. intros q. cbn beta. destruct (q <? 2); [|apply C2].
    refine (exec_lost _ _ _ _ _ s2 _ _ _ _ _ eq_refl E2 _). refine (exec_lost _ _ _ _ _ [AHeader] _ _ _ _ _ eq_refl E1 _). apply C0.
  - apply elem_of_app. left. apply elem_of_app. right. left.
  - unfold t0. rewrite Forall_app. split; [rewrite Forall_app; split; [|constructor]|]; repeat constructor.
  - intros d' p Eo. rewrite Eo in Hc. discriminate.
Qed.

(** ** C39: a torn header page *)
(** The checksum cannot tell the headers below apart from a mixture of them: if the write of the page with [t_new] over
    the page with [t_old] is interrupted after 41 bytes, the page has the transaction number and the root of the events
    of the new header with the root of the tag index and the next position of the old one, and its checksum is right.
    (27895 events lie between the two headers.)  A disk that writes the 61 bytes of a header, which lie in one sector,
    as a whole excludes this; Mvcc.v assumes so ([may_hold]). *)
Definition t_old : header := Header 2 9 10 8 20 256 1 0.
Definition t_new : header := Header 4 34157 34158 34159 34160 28151 1 0.
Theorem torn_header_refuted : exists old new k bo bn n, storable 16 (NHeader old) /\ storable 16 (NHeader new) /\ h_tsn old < h_tsn new /\
  page_ser 16 4096 (NHeader old) = Ok bo /\ page_ser 16 4096 (NHeader new) = Ok bn /\ page_de 16 (take k bn ++ drop k bo) = Ok n /\ n <> NHeader old /\ n <> NHeader new.
Proof.
  exists t_old, t_new, 41%nat.
  destruct (page_ser 16 4096 (NHeader t_old)) as [bo|] eqn:Eo; [|vm_compute in Eo; discriminate].
  destruct (page_ser 16 4096 (NHeader t_new)) as [bn|] eqn:En; [|vm_compute in En; discriminate].
  exists bo, bn, (NHeader (Header 4 (h_free_root t_new) (h_events_root t_new) (h_tags_root t_old) (h_next_page t_new) (h_next_pos t_old) 1 0)).
  split; [split; [repeat split; vm_compute; reflexivity|exact I]|]. split; [split; [repeat split; vm_compute; reflexivity|exact I]|].
  split; [reflexivity|]. split; [reflexivity|]. split; [reflexivity|]. split; [|split; discriminate].
  assert (match page_ser 16 4096 (NHeader t_old), page_ser 16 4096 (NHeader t_new) with Ok bo, Ok bn => page_de 16 (take 41 bn ++ drop 41 bo) | _, _ => Err EIo end =
    Ok (NHeader (Header 4 (h_free_root t_new) (h_events_root t_new) (h_tags_root t_old) (h_next_page t_new) (h_next_pos t_old) 1 0))) as Hx by (vm_compute; reflexivity).
  now rewrite Eo, En in Hx.
Qed.

Print Assumptions header_recovery.
Print Assumptions no_header_no_open.
Print Assumptions header_recovery_opens.
Print Assumptions opening_loses_nothing_refuted.
Print Assumptions creation_crash_refuted.
Print Assumptions creation_complete.
Print Assumptions creation_crash_empty.
Print Assumptions failed_commit_no_trace_refuted.
Print Assumptions failed_sync_harmless_refuted.
Print Assumptions restart_harmless_refuted.
Print Assumptions torn_header_refuted.
