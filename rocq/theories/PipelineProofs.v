(** The pipelining writer thread does what SpecSys.v says, under conditions on its input and output (PipelineSys.v). *)
From Verif Require Export PipelineTxn.
From Verif Require Import EventsProofs TrackingProofs ReadProofs PageProofs CodecProofs FreeListProofs StoreProofs.
Local Open Scope N_scope.

(** ** The invariant *)
(** [sm] bounds the readers registered. *)
Definition sm_ok (p : proc) (sm : option N) : Prop :=
  forall i r t, p_readers p !! i = Some r -> reg_of r = Some t -> exists a, sm = Some a /\ a <= t.

Section pinv.
  Context (kw : nat) (ps : N) (hash : bytes -> bytes) (order : list bytes -> list bytes) (ford : gset N -> list N) (caching : bool).
  Context (Hps : ps_ok ps) (Hps32 : ps < U32) (Hkw : (kw <= 16)%nat)
    (Hord : forall l t, t ∈ order l <-> t ∈ l) (Hford : forall s, ford s ≡ₚ elements s).
  Notation snap_ok := (snap_ok kw ps hash).
  Notation dec := (dec kw).
  Notation tinv := (tinv kw ps hash).
  Notation uinv := (uinv kw ps hash caching).
  Notation fetch := (fetch kw).
  Notation snap := (Pipeline.snap kw).
  Notation pgood := (pgood kw).
  Notation nextok := (nextok kw ps hash).

  Definition fphase (f : fly) (w : writer) (todo : list (N * node)) : wphase :=
    match y_io f with
    | IPages _ => WPages w todo (y_done f) (y_ans f)
    | IHeader => WHeader w (y_done f) (y_ans f)
    | _ => WSync w (y_done f) (y_ans f)
    end.
  (** The blocking writer thread puts the pages into the cache after the first sync, this one at the very end. *)
  Definition fcache (f : fly) (c : gmap N node) : gmap N node :=
    match y_io f with IPages _ => c | _ => if caching then y_wet f ∪ c else c end.
  Definition fdisk (f : fly) (db : disk) : disk := match y_io f with IDone | ICached => d_synced db | _ => db end.
  Definition awriter (d : disk) (p : proc) (pi : pipe) : wphase :=
    match l_phase pi with PBuild done ans | PBuilt done ans None => WBusy (snap d p pi) (l_w pi) done ans | _ => WIdle end.
  (** The writer at the head of the loop. *)
  Definition ready (d : disk) (p : proc) (pi : pipe) : Prop := bare (l_w pi) = new_writer (l_header pi).2 /\ coh (snap d p pi) (l_w pi).

  (** No commit is being written. *)
  Record idle_inv (d : disk) (p : proc) (pi : pipe) (g : ghost) (sy : spec_sys) : Prop := {
    a_u : uinv d (set_writer (awriter d p pi) p) g sy;
    a_x : p_writer p = WIdle;
    a_fly : l_fly pi = None;
    a_header : l_header pi = latest p;
    a_coh : forall q n, 2 <= q -> p_cache p !! q = Some n -> dec (d_cur d q) = Ok n;
    a_wet : forall q n, l_wet pi !! q = Some n -> 2 <= q /\ dec (d_cur d q) = Ok n;
    a_ready : l_phase pi = PFetch -> ready d p pi }.
  (** A commit is being written. *)
  Record fly_inv (f : fly) (db : disk) (w : writer) (todo : list (N * node)) (d : disk) (p : proc) (pi : pipe) (g : ghost) (sy : spec_sys) : Prop := {
    b_u : uinv db (set_writer (fphase f w todo) (set_cache (fcache f (p_cache p)) p)) g sy;
    b_x : p_writer p = WIdle;
    b_fly : l_fly pi = Some f;
    b_disk : d = fdisk f db;
    b_io : forall b, y_io f <> IFailed b;
    b_wet : y_wet f = w_dirty w;
    b_lwet : l_wet pi = w_dirty w;
    b_hdr : y_header f = (other_slot (latest p).1, next_header (h_schema (latest p).2) w);
    b_lhdr : l_header pi = y_header f;
    b_bytes : page_ser kw ps (NHeader (y_header f).2) = Ok (y_bytes f);
    b_pages : forall pages, y_io f = IPages pages -> Forall2 (fun e x => e.1 = x.1 /\ page_ser kw DEFAULT_PAGE_SIZE e.2 = Ok x.2) todo pages;
    b_coh : forall q n, 2 <= q -> (w_dirty w !! q = None \/ y_io f = ICached) -> p_cache p !! q = Some n -> dec (d_cur d q) = Ok n;
    b_phase : match l_phase pi with
      | PFetch => ready d p pi
      | PBuild done ans | PBuilt done ans None => exists sm PE PT PK s, tinv (snap d p pi) (g_sn (gh_next g)) sm (l_w pi) PE PT PK s /\
          spec_batch ps (g_st (gh_next g)) done = (ans, s) /\ sm_ok p sm
      | PBuilt _ _ (Some _) => True
      end }.
  Definition thread_inv (d : disk) (p : proc) (pi : pipe) (sy : spec_sys) : Prop :=
    exists g, idle_inv d p pi g sy \/ exists f db w todo, fly_inv f db w todo d p pi g sy.

  (** *** What the thread reads *)
  Lemma live_ge2 G q get : snap_ok get (g_sn G) -> q ∈ g_live G -> 2 <= q.
  Proof. intros H Hq. apply (live_two kw ps hash order ford Hps Hps32 Hkw Hord Hford G q get H Hq). Qed.
  Lemma snap_eq d p pi d' p' pi' :
    l_wet pi' = l_wet pi -> (forall q, 2 <= q -> l_wet pi !! q = None -> fetch (p_cache p') d' q = fetch (p_cache p) d q) ->
    forall q, snap d' p' pi' q = snap d p pi q.
  Proof.
    intros Ew Hf q. unfold Pipeline.snap, wet_read. rewrite Ew. destruct (l_wet pi !! q) eqn:E; [reflexivity|]. destruct (N.lt_ge_cases q 2) as [H|H]; [|now apply Hf].
    unfold Mvcc.fetch. now rewrite (proj2 (N.ltb_lt _ _) H).
  Qed.
  Lemma fetch_disk d c q : 2 <= q -> (forall n, c !! q = Some n -> dec (d_cur d q) = Ok n) -> fetch c d q = dec (d_cur d q).
  Proof. intros H Hc. unfold Mvcc.fetch. rewrite (proj2 (N.ltb_ge _ _) H). destruct (c !! q) eqn:E; [symmetry; auto|reflexivity]. Qed.
  Lemma pgood_coh d c q n : cur_ok d -> (forall m, c !! q = Some m -> dec (d_cur d q) = Ok m) -> (forall b, d_dur d q b -> dec b = Ok n) -> pgood d c q n.
  Proof.
    intros Hc Hm Hd. split; [exact Hd|]. destruct (c !! q) as [m|] eqn:E; [|now left]. right. specialize (Hm m eq_refl). rewrite (Hd _ (Hc q)) in Hm. congruence.
  Qed.

  Lemma idle_snap d p pi g sy q : idle_inv d p pi g sy -> 2 <= q -> snap d p pi q = dec (d_cur d q).
  Proof.
    intros H Hq. unfold Pipeline.snap, wet_read. destruct (l_wet pi !! q) as [n|] eqn:E; [symmetry; apply (a_wet _ _ _ _ _ H q n E)|].
    apply fetch_disk; [exact Hq|]. intros n. now apply (a_coh _ _ _ _ _ H).
  Qed.
  Lemma idle_rget d p pi g sy q : idle_inv d p pi g sy -> q ∈ g_live (gh_cur g) -> rget (snap d p pi) q = g_get (gh_cur g) q.
  Proof.
    intros H Hq. pose proof (u_held _ _ _ _ _ _ _ _ (a_u _ _ _ _ _ H)) as [H1 H2]. destruct (H2 q Hq) as (n & En & [Hd _]). unfold rget.
    rewrite (idle_snap d p pi g sy q H) by apply (live_ge2 _ _ _ H1 Hq). rewrite (Hd _ (u_cur _ _ _ _ _ _ _ _ (a_u _ _ _ _ _ H) q)). now rewrite En.
  Qed.

  Lemma fly_next f db w todo d p pi g sy : fly_inv f db w todo d p pi g sy -> nextok g w (y_done f) (y_ans f).
  Proof.
    intros H. pose proof (u_writer _ _ _ _ _ _ _ _ (b_u _ _ _ _ _ _ _ _ _ H)) as Hw. cbn [p_writer set_writer] in Hw. unfold fphase in Hw. destruct (y_io f); cbn in Hw; apply Hw.
  Qed.
  Lemma fly_cur_ok f db w todo d p pi g sy : fly_inv f db w todo d p pi g sy -> cur_ok d.
  Proof.
    intros H. pose proof (u_cur _ _ _ _ _ _ _ _ (b_u _ _ _ _ _ _ _ _ _ H)) as Hc. rewrite (b_disk _ _ _ _ _ _ _ _ _ H). unfold fdisk. destruct (y_io f); auto; now apply synced_cur.
  Qed.
  Lemma fdisk_dur f db q b : cur_ok db -> d_dur (fdisk f db) q b -> d_dur db q b.
  Proof. intros Hc. unfold fdisk. destruct (y_io f); auto; now apply synced_dur. Qed.
  Lemma fdisk_cur f db q : d_cur (fdisk f db) q = d_cur db q.
  Proof. unfold fdisk. destruct (y_io f); reflexivity. Qed.
  Lemma fcache_out f c q : y_wet f !! q = None -> fcache f c !! q = c !! q.
  Proof. intros H. unfold fcache. destruct (y_io f), caching; try reflexivity; now apply lookup_union_r. Qed.
  Lemma fly_fresh f db w todo d p pi g sy q : fly_inv f db w todo d p pi g sy -> is_Some (w_dirty w !! q) -> Txn.fresh (g_sn (gh_cur g)) (gh_sm g) q /\ 2 <= q.
  Proof.
    intros H Hq. pose proof (fly_next _ _ _ _ _ _ _ _ _ H) as (_ & _ & _ & _ & _ & N6 & _). destruct (N6 q Hq) as [Hf _]. split; [exact Hf|].
    eapply (fresh_two kw ps hash Hps32 Hkw); [|exact Hf]. exact (proj1 (u_held _ _ _ _ _ _ _ _ (b_u _ _ _ _ _ _ _ _ _ H))).
  Qed.
  (** Pages outside the commit are as the invariant of the whole says. *)
  Lemma fly_pgood f db w todo d p pi g sy q n : fly_inv f db w todo d p pi g sy -> w_dirty w !! q = None -> pgood db (fcache f (p_cache p)) q n -> pgood d (p_cache p) q n.
  Proof.
    intros H Hq Hp. eapply pgood_sub; [exact Hp| |left; symmetry; apply fcache_out; now rewrite (b_wet _ _ _ _ _ _ _ _ _ H)].
    intros b. rewrite (b_disk _ _ _ _ _ _ _ _ _ H). apply fdisk_dur. exact (u_cur _ _ _ _ _ _ _ _ (b_u _ _ _ _ _ _ _ _ _ H)).
  Qed.
  Lemma fly_held f db w todo d p pi g sy G : fly_inv f db w todo d p pi g sy ->
    prot kw ps hash db (fcache f (p_cache p)) g (fphase f w todo) G -> held kw ps hash d (p_cache p) G.
  Proof.
    intros H [[P1 P2] P3]. split; [exact P1|]. intros q Hq. destruct (P2 q Hq) as (n & En & Hp). exists n. split; [exact En|].
    eapply fly_pgood; [exact H| |exact Hp]. destruct (w_dirty w !! q) eqn:E; [|reflexivity]. exfalso. destruct (P3 q Hq) as [_ Hf].
    apply Hf; [unfold fphase; destruct (y_io f); exact I|]. eapply fly_fresh; [exact H|eauto].
  Qed.
  Lemma fly_rget f db w todo d p pi g sy q : fly_inv f db w todo d p pi g sy -> q ∈ g_live (gh_next g) -> rget (snap d p pi) q = g_get (gh_next g) q.
  Proof.
    intros H Hq. pose proof (fly_next _ _ _ _ _ _ _ _ _ H) as (N1 & N2 & N3 & N4 & N5 & N6 & N7 & N8 & N9 & N10 & N11).
    unfold rget, Pipeline.snap, wet_read. rewrite (b_lwet _ _ _ _ _ _ _ _ _ H). destruct (w_dirty w !! q) as [n|] eqn:E; [symmetry; now apply N10|].
    destruct (N7 q Hq) as [[? ?]|Hl]; [congruence|]. rewrite (N11 q Hq E).
    pose proof (u_held _ _ _ _ _ _ _ _ (b_u _ _ _ _ _ _ _ _ _ H)) as [H1 H2]. destruct (H2 q Hl) as (n & En & Hp). rewrite En.
    rewrite (fetch_good kw d (p_cache p) q n); [reflexivity|eapply fly_cur_ok; exact H|apply (live_ge2 _ _ _ H1 Hl)|]. eapply fly_pgood; eassumption.
  Qed.
  Lemma fly_snap f db w todo d p pi g sy : fly_inv f db w todo d p pi g sy -> snap_ok (rget (snap d p pi)) (g_sn (gh_next g)).
  Proof.
    intros H. pose proof (fly_next _ _ _ _ _ _ _ _ _ H) as (N1 & N2 & N3 & _). eapply snap_frame; [exact N3|]. intros q Hq. eapply fly_rget; eassumption.
  Qed.
  Lemma idle_snap_ok d p pi g sy : idle_inv d p pi g sy -> snap_ok (rget (snap d p pi)) (g_sn (gh_cur g)).
  Proof.
    intros H. eapply snap_frame; [exact (proj1 (u_held _ _ _ _ _ _ _ _ (a_u _ _ _ _ _ H)))|]. intros q Hq. eapply idle_rget; eassumption.
  Qed.

  (** *** Moves of the invariant of the whole *)
  Lemma uinv_busy d p g sy rd w done ans sm PE PT PK s : uinv d p g sy -> p_writer p = WIdle ->
    (forall q, q ∈ g_live (gh_cur g) -> rget rd q = g_get (gh_cur g) q) -> tinv rd (g_sn (gh_cur g)) sm w PE PT PK s ->
    spec_batch ps (g_st (gh_cur g)) done = (ans, s) -> sm_ok p sm ->
    exists g', uinv d (set_writer (WBusy rd w done ans) p) g' sy.
  Proof.
    intros H Hx Hrd Ht Hb Hsm. pose proof (u_held _ _ _ _ _ _ _ _ H) as Hh. set (G0 := gh_cur g) in *.
    exists (Ghost G0 (gh_list g) sm (gh_next g)). rewrite <- (set_cache_id p) at 1.
    eapply writer_step; [exact H|exact (u_cur _ _ _ _ _ _ _ _ H)| |exact Hh|exact (u_nocache _ _ _ _ _ _ _ _ H)| | |reflexivity|reflexivity|reflexivity|exact (u_up _ _ _ _ _ _ _ _ H)|].
    - cbn. pose proof (u_slots _ _ _ _ _ _ _ _ H) as Hs. now rewrite Hx in Hs.
    - intros G i r HG Hi Hr [Hp1 Hp2]. split; [exact Hp1|]. intros q Hq. cbn. destruct (Hp2 q Hq) as [Ha _]. split; [exact Ha|]. intros _.
      destruct Ha as [Ha|(t & Ha & Hlt)]; [eapply fresh_live; [exact (proj1 Hh)|exact Ha]|].
      destruct (Hsm _ _ _ Hi Hr) as (a & Ea & Hle). intros [(u & Hu & Ho)|Hn].
      + pose proof (snap_one _ _ _ _ _ _ _ _ (proj1 Hh) Ha Hu) as ->. rewrite Ea in Ho. cbn in Ho. lia.
      + assert (2 <= q < h_next_page (g_hdr G0)); [|fold G0 in Hn; lia]. apply (snap_range _ _ _ _ _ q (proj1 Hh)). apply elem_of_app; right. apply elem_of_list_fmap. now exists (q, t).
    - cbn. split; [exact Hrd|]. exists PE, PT, PK, s. split; [exact Ht|exact Hb].
    - rewrite (u_alt _ _ _ _ _ _ _ _ H), Hx. reflexivity.
  Qed.
  Lemma uinv_rd d p g sy rd rd' w done ans : (forall q, rd' q = rd q) ->
    uinv d (set_writer (WBusy rd w done ans) p) g sy -> uinv d (set_writer (WBusy rd' w done ans) p) g sy.
  Proof.
    intros He H. pose proof (u_writer _ _ _ _ _ _ _ _ H) as Hw. cbn in Hw. destruct Hw as (Hrd & PE & PT & PK & s & Ht & Hb).
    rewrite <- (g_eta g). change (set_writer (WBusy rd' w done ans) p) with (set_writer (WBusy rd' w done ans) (set_writer (WBusy rd w done ans) p)).
    apply quiet_step; [exact H|exact I|exact I|reflexivity|reflexivity|]. cbn. split.
    - intros q Hq. unfold rget. rewrite He. now apply Hrd.
    - exists PE, PT, PK, s. split; [|exact Hb]. eapply tinv_ext; [exact He|exact Ht].
  Qed.
  Lemma uinv_idle d p g sy : uinv d p g sy -> busy (p_writer p) -> alt_of g (p_writer p) = None -> uinv d (set_writer WIdle p) g sy.
  Proof.
    intros H Hb Ha. destruct (abort_step kw ps hash caching Hps32 Hkw d p g sy d [] H (u_cur _ _ _ _ _ _ _ _ H) Hb Ha) as (sy' & Hs & Hu); [auto|]. inversion Hs; subst. exact Hu.
  Qed.
  Lemma awriter_ext d p pi d' p' g sy : (forall q, snap d' p' pi q = snap d p pi q) ->
    uinv d' (set_writer (awriter d p pi) p') g sy -> uinv d' (set_writer (awriter d' p' pi) p') g sy.
  Proof.
    intros He H. unfold awriter in *. destruct (l_phase pi) as [|done ans|done ans [e|]]; auto; (eapply uinv_rd; [exact He|exact H]).
  Qed.
  Lemma ready_ext d p pi d' p' pi' : l_w pi' = l_w pi -> l_header pi' = l_header pi -> (forall q, snap d' p' pi' q = snap d p pi q) -> ready d p pi -> ready d' p' pi'.
  Proof. intros Ew Eh He [H1 H2]. split; [congruence|]. intros q n Hq. rewrite He. rewrite Ew in Hq. now apply H2. Qed.
  Lemma spec_abort sy reqs : sp_up sy = true -> spec_step ps sy (LAbort reqs) sy.
  Proof. intros H. destruct sy. cbn in H. subst. apply SS_abort. Qed.
End pinv.
