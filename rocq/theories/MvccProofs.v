(** The invariant of the database, and that it does what SpecSys.v says. *)
From Verif Require Export Txn.
From Verif Require Import EventsProofs TrackingProofs ReadProofs LookupProofs PageProofs CodecProofs PropsPage FreeListProofs.
Local Open Scope N_scope.

(** A committed state together with the contents of its pages. *)
Record psnap := PSnap { g_sn : snap; g_get : N -> option node }.
Notation g_hdr G := (sn_hdr (g_sn G)).
Notation g_tsn G := (h_tsn (sn_hdr (g_sn G))).
Notation g_st G := (sn_st (g_sn G)).
Notation g_live G := (sn_live (g_sn G)).
Notation g_pairs G := (pairs (sn_es (g_sn G))).

(** [gh_cur]: the committed state; [gh_list]: those committed since the file was opened; [gh_sm]: the smallest reader
    when the write transaction began; [gh_next]: the state it is committing. *)
Record ghost := Ghost { gh_cur : psnap; gh_list : list psnap; gh_sm : option N; gh_next : psnap }.

Definition reg_of (r : rphase) : option N :=
  match r with RReg a | RChk a _ | ROpen a => Some (h_tsn a.2) | _ => None end.
Definition busy (x : wphase) : Prop := match x with WIdle | WBroken => False | _ => True end.

(** ** The registry *)
Definition cnt (m : gmap nat rphase) (t : N) : nat := size (filter (fun x => reg_of x.2 = Some t) m).
Definition reg_ok (regs : gmap N nat) (m : gmap nat rphase) : Prop :=
  forall t, regs !! t = if (cnt m t =? 0)%nat then None else Some (cnt m t).

Lemma cnt_insert_same m i r r0 t : m !! i = Some r0 -> reg_of r0 = reg_of r -> cnt (<[i := r]> m) t = cnt m t.
Proof.
  intros Hi Hr. unfold cnt. rewrite <- (insert_id m i r0 Hi) at 2. rewrite <- (insert_delete_insert m), <- (insert_delete_insert m i r0).
  destruct (decide (reg_of r = Some t)) as [H|H].
  - rewrite !map_filter_insert_True by (cbn; congruence). rewrite !map_size_insert. 
    assert (filter (fun x => reg_of x.2 = Some t) (delete i m) !! i = None) as -> by (apply map_filter_lookup_None; left; apply lookup_delete). reflexivity.
  - rewrite !map_filter_insert_False by (cbn; congruence). now rewrite delete_idemp.
Qed.
Lemma cnt_delete m i r0 t : m !! i = Some r0 -> cnt m t = (cnt (delete i m) t + if decide (reg_of r0 = Some t) then 1 else 0)%nat.
Proof.
  intros Hi. unfold cnt. rewrite <- (insert_id m i r0 Hi) at 1. rewrite <- (insert_delete_insert m i r0).
  destruct (decide (reg_of r0 = Some t)) as [H|H].
  - rewrite map_filter_insert_True by exact H. rewrite map_size_insert.
    assert (filter (fun x => reg_of x.2 = Some t) (delete i m) !! i = None) as -> by (apply map_filter_lookup_None; left; apply lookup_delete). lia.
  - rewrite map_filter_insert_False by exact H. rewrite delete_idemp. lia.
Qed.
Lemma cnt_insert m i r t : m !! i = None -> cnt (<[i := r]> m) t = (cnt m t + if decide (reg_of r = Some t) then 1 else 0)%nat.
Proof.
  intros Hi. rewrite (cnt_delete _ i r) by apply lookup_insert. now rewrite delete_insert.
Qed.
Lemma cnt_replace m i r0 r t : m !! i = Some r0 ->
  (cnt (<[i := r]> m) t + (if decide (reg_of r0 = Some t) then 1 else 0) = cnt m t + if decide (reg_of r = Some t) then 1 else 0)%nat.
Proof.
  intros Hi. rewrite (cnt_delete m i r0) by exact Hi. rewrite <- insert_delete_insert. rewrite cnt_insert by apply lookup_delete. lia.
Qed.
Lemma register_ok regs m m' t : reg_ok regs m -> (forall u, cnt m' u = (cnt m u + if decide (t = u) then 1 else 0)%nat) ->
  reg_ok (reg_register t regs) m'.
Proof.
  intros H Hc u. unfold reg_register. rewrite Hc. destruct (decide (t = u)) as [<-|Hne].
  - rewrite lookup_insert, H. destruct (Nat.eqb_spec (cnt m t) 0) as [E|E]; cbn [default from_option id].
    + rewrite E. reflexivity.
    + destruct (Nat.eqb_spec (cnt m t + 1) 0); [lia|]. f_equal. cbn. lia.
  - rewrite lookup_insert_ne by congruence. rewrite H, Nat.add_0_r. reflexivity.
Qed.
Lemma unregister_ok regs m m' t : reg_ok regs m -> (forall u, (cnt m' u + if decide (t = u) then 1 else 0)%nat = cnt m u) ->
  reg_ok (reg_unregister t regs) m'.
Proof.
  intros H Hc u. unfold reg_unregister. pose proof (Hc t) as Ht. rewrite decide_True in Ht by reflexivity.
  rewrite (H t). destruct (Nat.eqb_spec (cnt m t) 0) as [E|E]; [lia|].
  destruct (Nat.eqb_spec (cnt m t - 1) 0) as [E1|E1].
  - destruct (decide (t = u)) as [<-|Hne].
    + rewrite lookup_delete. destruct (Nat.eqb_spec (cnt m' t) 0); [reflexivity|lia].
    + rewrite lookup_delete_ne by congruence. specialize (Hc u). rewrite decide_False in Hc by congruence. rewrite H. replace (cnt m u) with (cnt m' u) by lia. reflexivity.
  - destruct (decide (t = u)) as [<-|Hne].
    + rewrite lookup_insert. destruct (Nat.eqb_spec (cnt m' t) 0); [lia|]. f_equal. lia.
    + rewrite lookup_insert_ne by congruence. specialize (Hc u). rewrite decide_False in Hc by congruence. rewrite H. replace (cnt m u) with (cnt m' u) by lia. reflexivity.
Qed.
Lemma reg_same regs m m' : reg_ok regs m -> (forall u, cnt m' u = cnt m u) -> reg_ok regs m'.
Proof. intros H Hc t. now rewrite Hc, H. Qed.

Lemma min_fold (l : list N) t : t ∈ l ->
  exists a, foldr (fun t acc => Some (match acc with Some a => N.min t a | None => t end)) None l = Some a /\ a <= t.
Proof.
  induction l as [|x l IH]; intros H; [inversion H|]. cbn [foldr]. apply elem_of_cons in H as [<-|H].
  - eexists. split; [reflexivity|]. destruct (foldr _ None l); lia.
  - destruct (IH H) as (a & -> & Ha). eexists. split; [reflexivity|]. lia.
Qed.
(** The smallest registered tsn bounds that of every registered reader. *)
Lemma reg_min_le regs m i r t : reg_ok regs m -> m !! i = Some r -> reg_of r = Some t -> exists a, reg_min regs = Some a /\ a <= t.
Proof.
  intros H Hi Hr. unfold reg_min. apply min_fold. specialize (H t).
  assert (cnt m t <> 0)%nat as Hc. { rewrite (cnt_delete m i r) by exact Hi. rewrite decide_True by exact Hr. lia. }
  destruct (Nat.eqb_spec (cnt m t) 0); [contradiction|].
  apply elem_of_list_fmap. exists (t, cnt m t). split; [reflexivity|]. now apply elem_of_map_to_list.
Qed.

Section inv.
  Context (kw : nat) (ps : N) (hash : bytes -> bytes) (order : list bytes -> list bytes) (ford : gset N -> list N) (caching : bool).
  Context (Hps : ps_ok ps) (Hps32 : ps < U32) (Hkw : (kw <= 16)%nat)
    (Hord : forall l t, t ∈ order l <-> t ∈ l) (Hford : forall s, ford s ≡ₚ elements s).
  Notation snap_ok := (snap_ok kw ps hash).
  Notation dec := (dec kw).
  Notation storable := (storable kw).
  Notation tinv := (tinv kw ps hash).

  (** ** Pages *)
  (** Page [q] is safely stored with contents [n], and the cache does not say otherwise. *)
  Definition pgood (d : disk) (c : gmap N node) (q : N) (n : node) : Prop :=
    (forall b, d_dur d q b -> dec b = Ok n) /\ (c !! q = None \/ c !! q = Some n).
  Definition held (d : disk) (c : gmap N node) (G : psnap) : Prop :=
    snap_ok (g_get G) (g_sn G) /\ forall q, q ∈ g_live G -> exists n, g_get G q = Some n /\ pgood d c q n.
  Definition cur_ok (d : disk) : Prop := forall q, d_dur d q (d_cur d q).
  Definition hdr_ok (h : header) : Prop :=
    storable (NHeader h) /\ ((h_schema h = 0 /\ kw = 8%nat) \/ (h_schema h = 1 /\ kw = 16%nat)).
  (** The header pages: [hid] has the committed header [h]; the other is older, or a copy, or unreadable, or [alt]. *)
  Definition slots (d : disk) (hid : N) (h : header) (alt : option header) : Prop :=
    hid < 2 /\ (forall b, d_dur d hid b -> dec b = Ok (NHeader h)) /\
    (forall b n, d_dur d (other_slot hid) b -> dec b = Ok n ->
      exists h', n = NHeader h' /\ (h_tsn h' < h_tsn h \/ h' = h \/ alt = Some h')).

  (** ** The write transaction *)
  Definition nextok (g : ghost) (w : writer) (done : list request) (ans : list (res N)) : Prop :=
    let G := gh_cur g in let G' := gh_next g in
    g_hdr G' = next_header (h_schema (g_hdr G)) w /\ spec_batch ps (g_st G) done = (ans, g_st G') /\
    snap_ok (g_get G') (g_sn G') /\ g_tsn G' = g_tsn G + 1 /\ storable (NHeader (g_hdr G')) /\
    (forall q, is_Some (w_dirty w !! q) -> Txn.fresh (g_sn G) (gh_sm g) q /\ q ∈ g_live G') /\
    (forall q, q ∈ g_live G' -> is_Some (w_dirty w !! q) \/ q ∈ g_live G) /\
    (forall q, q ∈ g_live G -> q ∈ g_live G' \/ (q, g_tsn G') ∈ g_pairs G') /\
    (forall q t, (q, t) ∈ g_pairs G -> ~ Txn.fresh (g_sn G) (gh_sm g) q -> (q, t) ∈ g_pairs G') /\
    (forall q n, w_dirty w !! q = Some n -> g_get G' q = Some n /\ storable n) /\
    (forall q, q ∈ g_live G' -> w_dirty w !! q = None -> g_get G' q = g_get G q).
  Definition winv (d : disk) (c : gmap N node) (g : ghost) (hid : N) (x : wphase) : Prop :=
    match x with
    | WIdle => True
    | WBusy rd w done ans =>
      (forall q, q ∈ g_live (gh_cur g) -> rget rd q = g_get (gh_cur g) q) /\
      exists PE PT PK s, tinv rd (g_sn (gh_cur g)) (gh_sm g) w PE PT PK s /\ spec_batch ps (g_st (gh_cur g)) done = (ans, s)
    | WPages w todo done ans =>
      nextok g w done ans /\ (forall q n, (q, n) ∈ todo -> w_dirty w !! q = Some n) /\
      forall q n, w_dirty w !! q = Some n -> (q, n) ∈ todo \/ (d_wr d q = true /\ dec (d_cur d q) = Ok n)
    | WHeader w done ans => nextok g w done ans /\ forall q n, w_dirty w !! q = Some n -> pgood d c q n
    | WSync w done ans =>
      nextok g w done ans /\ (forall q n, w_dirty w !! q = Some n -> pgood d c q n) /\
      d_wr d (other_slot hid) = true /\ dec (d_cur d (other_slot hid)) = Ok (NHeader (g_hdr (gh_next g)))
    | WBroken => exists w done ans, nextok g w done ans /\ forall q n, w_dirty w !! q = Some n -> pgood d c q n
    end.
  Definition alt_of (g : ghost) (x : wphase) : option header :=
    match x with WSync _ _ _ | WBroken => Some (g_hdr (gh_next g)) | _ => None end.

  (** ** Readers *)
  (** The pages of [G] cannot be overwritten. *)
  Definition prot (d : disk) (c : gmap N node) (g : ghost) (x : wphase) (G : psnap) : Prop :=
    held d c G /\ forall q, q ∈ g_live G ->
      (q ∈ g_live (gh_cur g) \/ exists t, (q, t) ∈ g_pairs (gh_cur g) /\ g_tsn G < t) /\
      (busy x -> ~ Txn.fresh (g_sn (gh_cur g)) (gh_sm g) q).
  Definition calling (g : ghost) (sy : spec_sys) (i : nat) (P : list spec_state -> Prop) : Prop :=
    exists l, sp_calls sy !! i = Some l /\ sp_open sy !! i = None /\ g_st (gh_cur g) ∈ l /\ P l.
  Definition rinv (d : disk) (p : proc) (g : ghost) (sy : spec_sys) (i : nat) : Prop :=
    match p_readers p !! i with
    | None => sp_calls sy !! i = None /\ sp_open sy !! i = None
    | Some RCall => calling g sy i (fun _ => True)
    | Some (RObs a) => h_tsn a.2 <= g_tsn (gh_cur g) /\ calling g sy i (fun l => exists G, G ∈ gh_list g /\ g_hdr G = (latest_of a (p_pin1 p)).2 /\ g_st G ∈ l)
    | Some (RSeen a) | Some (RReg a) => calling g sy i (fun l => exists G, G ∈ gh_list g /\ g_hdr G = a.2 /\ g_st G ∈ l)
    | Some (RChk a b) => h_tsn b.2 <= g_tsn (gh_cur g) /\ calling g sy i (fun l => exists G, G ∈ gh_list g /\ g_hdr G = a.2 /\ g_st G ∈ l /\
        (h_tsn (latest_of b (p_pin1 p)).2 = h_tsn a.2 -> prot d (p_cache p) g (p_writer p) G))
    | Some (ROpen a) => sp_calls sy !! i = None /\ exists G, G ∈ gh_list g /\ g_hdr G = a.2 /\ sp_open sy !! i = Some (g_st G) /\
        prot d (p_cache p) g (p_writer p) G
    end.

  Record uinv (d : disk) (p : proc) (g : ghost) (sy : spec_sys) : Prop := {
    u_cur : cur_ok d;
    u_slots : slots d (latest p).1 (g_hdr (gh_cur g)) (alt_of g (p_writer p));
    u_latest : (latest p).2 = g_hdr (gh_cur g);
    u_hdr : hdr_ok (g_hdr (gh_cur g));
    u_held : held d (p_cache p) (gh_cur g);
    u_nocache : caching = false -> p_cache p = ∅;
    u_in : gh_cur g ∈ gh_list g;
    u_le : forall G, G ∈ gh_list g -> g_tsn G <= g_tsn (gh_cur g);
    u_pos : forall G, G ∈ gh_list g -> h_next_pos (g_hdr G) = 1 + nlen (s_hist (g_st G));
    u_inj : forall G1 G2, G1 ∈ gh_list g -> G2 ∈ gh_list g -> g_tsn G1 = g_tsn G2 -> G1 = G2;
    u_regs : reg_ok (p_regs p) (p_readers p);
    u_readers : forall i, rinv d p g sy i;
    u_writer : winv d (p_cache p) g (latest p).1 (p_writer p);
    u_spec : sp_cur sy = g_st (gh_cur g);
    u_alt : sp_alt sy = (match p_writer p with WBroken => Some (g_st (gh_next g)) | _ => None end);
    u_up : sp_up sy = true }.
  Record dinv (d : disk) (G : psnap) (sy : spec_sys) : Prop := {
    dn_cur : cur_ok d;
    dn_settled : d_settled d;
    dn_slots : exists hid, slots d hid (g_hdr G) None;
    dn_hdr : hdr_ok (g_hdr G);
    dn_held : held d ∅ G;
    dn_spec : sy = SSys (g_st G) None false ∅ ∅ }.
  Definition inv (y : sys) (sy : spec_sys) : Prop :=
    match y_proc y with
    | Some p => exists g, uinv (y_disk y) p g sy
    | None => exists G, dinv (y_disk y) G sy
    end.

  (** ** Storage *)
  Lemma stored n b : storable n -> page_ser kw ps n = Ok b -> dec (Some b) = Ok n.
  Proof.
    intros [H1 H2] E. cbn. eapply page_rt; [exact Hkw|exact Hps32|exact H1| |exact E].
    intros b' Eb. eapply node_ser_bytes; eassumption.
  Qed.
  Lemma live_two G q get : snap_ok get (g_sn G) -> q ∈ g_live G -> 2 <= q < h_next_page (g_hdr G).
  Proof. intros H Hq. apply (snap_range _ _ _ _ _ q H). set_solver. Qed.
  Lemma fresh_two sn sm q get : snap_ok get sn -> Txn.fresh sn sm q -> 2 <= q.
  Proof.
    intros H [(t & Hp & _)|Hn].
    - apply (snap_range _ _ _ _ _ q H). apply elem_of_app; right. apply elem_of_list_fmap. now exists (q, t).
    - pose proof (so_two _ _ _ _ _ H). lia.
  Qed.
  Lemma pgood_sub d c d' c' q n : pgood d c q n -> (forall b, d_dur d' q b -> d_dur d q b) ->
    (c' !! q = c !! q \/ c' !! q = None \/ c' !! q = Some n) -> pgood d' c' q n.
  Proof. intros [H1 H2] Hd Hc. split; [auto|]. destruct Hc as [->|[->| ->]]; auto. Qed.
  Lemma held_sub d c d' c' G : held d c G -> (forall q b, q ∈ g_live G -> d_dur d' q b -> d_dur d q b) ->
    (forall q n, q ∈ g_live G -> g_get G q = Some n -> c' !! q = c !! q \/ c' !! q = None \/ c' !! q = Some n) -> held d' c' G.
  Proof.
    intros [H1 H2] Hd Hc. split; [exact H1|]. intros q Hq. destruct (H2 q Hq) as (n & Hn & Hg). exists n. split; [exact Hn|].
    eapply pgood_sub; eauto.
  Qed.
  Lemma fetch_good d c q n : cur_ok d -> 2 <= q -> pgood d c q n -> fetch kw c d q = Ok n.
  Proof.
    intros Hc Hq [H1 H2]. unfold fetch. rewrite (proj2 (N.ltb_ge _ _)) by exact Hq.
    destruct H2 as [-> | ->]; [|reflexivity]. apply H1, Hc.
  Qed.
  Lemma held_fetch d c G q n : cur_ok d -> held d c G -> q ∈ g_live G -> g_get G q = Some n -> fetch kw c d q = Ok n.
  Proof.
    intros Hc [H1 H2] Hq Hn. destruct (H2 q Hq) as (n' & Hn' & Hg). assert (n' = n) as -> by congruence.
    apply fetch_good; auto. apply (live_two G q _ H1 Hq).
  Qed.
  Lemma held_rget d c G q : cur_ok d -> held d c G -> q ∈ g_live G -> rget (fetch kw c d) q = g_get G q.
  Proof.
    intros Hc H Hq. destruct (proj2 H q Hq) as (n & Hn & _). unfold rget. rewrite (held_fetch d c G q n Hc H Hq Hn). now rewrite Hn.
  Qed.

  (** ** What a reader sees *)
  Lemma held_read d c G q start bw limit force : cur_ok d -> held d c G ->
    read_conditional (fetch kw c d) (N.to_nat (h_next_page (g_hdr G))) hash order (h_events_root (g_hdr G))
      (h_tags_root (g_hdr G)) q start bw limit force = Ok (spec_read (s_hist (g_st G)) q start bw limit).
  Proof.
    intros Hc H. pose proof (proj1 H) as Hok. pose proof (snap_nodup _ _ _ _ _ Hok) as Hnd.
    apply NoDup_app in Hnd as (Hnd & _ & _). unfold sn_live in Hnd.
    apply NoDup_app in Hnd as (_ & _ & Hnd). apply NoDup_app in Hnd as (HndE & _ & Hnd). apply NoDup_app in Hnd as (HndT & _ & _).
    eapply (read_conditional_ok kw ps hash order Hord (g_get G)).
    - exact (so_hist _ _ _ _ _ Hok).
    - intros x n Hx Hn. eapply held_fetch; eauto. unfold sn_live. set_solver.
    - intros x n Hx Hn. eapply held_fetch; eauto. unfold sn_live. set_solver.
    - exact HndE.
    - exact HndT.
    - intros x Hx. pose proof (live_two G x _ Hok ltac:(unfold sn_live; set_solver)). lia.
    - intros x Hx. pose proof (live_two G x _ Hok ltac:(unfold sn_live; set_solver)). lia.
    - intros e He. assert (e.1 ∈ map fst (s_hist (g_st G))) as Hin by (apply elem_of_list_fmap; eauto).
      rewrite (so_seq _ _ _ _ _ Hok), elem_of_seqN in Hin. lia.
  Qed.
  Lemma pos_head G : h_next_pos (g_hdr G) = 1 + nlen (s_hist (g_st G)) -> header_head (g_hdr G) = spec_head (g_st G).
  Proof.
    intros H. unfold header_head. rewrite H. unfold spec_head, nlen. destruct (s_hist (g_st G)) as [|e l]; [reflexivity|].
    destruct (N.eqb_spec (1 + N.of_nat (length (e :: l)) - 1) 0) as [E|E]; [cbn in E; lia|]. f_equal. lia.
  Qed.
  Lemma held_response d c G q start bw limit force : cur_ok d -> held d c G ->
    umadb_read hash order (fetch kw c d) (g_hdr G) q start bw limit force =
      Ok (spec_read (s_hist (g_st G)) q start bw limit, spec_read_head (g_st G) limit (spec_read (s_hist (g_st G)) q start bw limit)).
  Proof.
    intros Hc H. unfold umadb_read. rewrite (held_read d c G q start bw limit force Hc H). cbn [rbind]. unfold spec_read_head.
    destruct limit; [reflexivity|]. rewrite (pos_head G (so_pos _ _ _ _ _ (proj1 H))). reflexivity.
  Qed.
  Lemma held_track d c G src : cur_ok d -> held d c G ->
    get_tracking_info (N.to_nat (h_next_page (g_hdr G))) (fetch kw c d) (h_tracking_root (g_hdr G)) src = Ok (s_track (g_st G) src).
  Proof.
    intros Hc H. pose proof (proj1 H) as Hok. destruct (so_trk _ _ _ _ _ Hok) as (es & Hk & Ht). rewrite Ht.
    eapply get_tracking_info_ok; [exact Hk| |].
    - intros x n Hx Hn. eapply held_fetch; eauto. unfold sn_live. set_solver.
    - pose proof (snap_nodup _ _ _ _ _ Hok) as Hnd. apply NoDup_app in Hnd as (Hnd & _ & _). unfold sn_live in Hnd.
      rewrite !app_assoc in Hnd. apply NoDup_app in Hnd as (_ & _ & Hnd).
      assert (sn_PK (g_sn G) ⊆+ seqN 2 (N.to_nat (h_next_page (g_hdr G) - 2))) as Hs.
      { apply NoDup_submseteq; [exact Hnd|]. intros x Hx. pose proof (live_two G x _ Hok ltac:(unfold sn_live; set_solver)). apply elem_of_seqN. lia. }
      apply submseteq_length in Hs. rewrite seqN_len in Hs. pose proof (so_two _ _ _ _ _ Hok). lia.
  Qed.

  (** ** Small steps of the invariant *)
  Lemma latest_le (p : proc) : h_tsn (p_pin0 p).2 <= h_tsn (latest p).2 /\ h_tsn (p_pin1 p).2 <= h_tsn (latest p).2.
  Proof. unfold latest, latest_of. destruct (N.ltb_spec (h_tsn (p_pin0 p).2) (h_tsn (p_pin1 p).2)); lia. Qed.
  Lemma other_ne hid : other_slot hid <> hid.
  Proof. unfold other_slot. destruct (N.eqb_spec hid 0); lia. Qed.
  Lemma other_lt hid : other_slot hid < 2.
  Proof. unfold other_slot. destruct (N.eqb_spec hid 0); lia. Qed.
  Lemma other_other hid : hid < 2 -> other_slot (other_slot hid) = hid.
  Proof. unfold other_slot. intros H. destruct (N.eqb_spec hid 0); cbn; lia. Qed.

  Lemma spec_batch_snoc s reqs r :
    spec_batch ps s (reqs ++ [r]) =
      ((spec_batch ps s reqs).1 ++ [(spec_append ps (spec_batch ps s reqs).2 (rq_events r) (rq_cond r) (rq_trk r)).1],
       (spec_append ps (spec_batch ps s reqs).2 (rq_events r) (rq_cond r) (rq_trk r)).2).
  Proof. revert s. induction reqs as [|x reqs IH]; intros s; [reflexivity|]. cbn [app spec_batch]. cbv zeta. rewrite IH. reflexivity. Qed.

  (** A step that leaves reader [j] and the committed states alone. *)
  Lemma rinv_mono d p g sy d' p' g' sy' j : rinv d p g sy j ->
    p_readers p' !! j = p_readers p !! j -> p_pin1 p' = p_pin1 p ->
    sp_calls sy' !! j = sp_calls sy !! j -> sp_open sy' !! j = sp_open sy !! j ->
    gh_cur g' = gh_cur g -> gh_list g' = gh_list g ->
    (forall G r, p_readers p !! j = Some r -> reg_of r = Some (g_tsn G) -> prot d (p_cache p) g (p_writer p) G -> prot d' (p_cache p') g' (p_writer p') G) ->
    rinv d' p' g' sy' j.
  Proof.
    intros H Hr Hp Hc Ho Hg Hl Hprot. unfold rinv in *. rewrite Hr.
    destruct (p_readers p !! j) as [[|a|a|a|a b|a]|] eqn:Er; unfold calling in *; rewrite ?Hg, ?Hl, ?Hp, ?Hc, ?Ho; try exact H.
    - destruct H as (H0 & l & H1 & H2 & H3 & G & H4 & H5 & H6 & H7). split; [exact H0|]. exists l. repeat (split; [assumption|]). exists G. repeat (split; [assumption|]).
      intros Ht. eapply Hprot; [reflexivity| |exact (H7 Ht)]. cbn. now rewrite H5.
    - destruct H as (H1 & G & H2 & H3 & H4 & H5). split; [exact H1|]. exists G. repeat (split; [assumption|]).
      eapply Hprot; [reflexivity| |exact H5]. cbn. now rewrite H3.
  Qed.

  Lemma prot_cur d c g x : held d c (gh_cur g) -> prot d c g x (gh_cur g).
  Proof.
    intros H. split; [exact H|]. intros q Hq. split; [now left|]. intros _. eapply fresh_live; [exact (proj1 H)|exact Hq].
  Qed.
  (** Pages outside the reach of the write transaction may change. *)
  Lemma prot_sub d c d' c' g x x' G : prot d c g x G -> (busy x' -> busy x) ->
    (forall q b, q ∈ g_live G -> (busy x -> ~ Txn.fresh (g_sn (gh_cur g)) (gh_sm g) q) -> d_dur d' q b -> d_dur d q b) ->
    (forall q n, q ∈ g_live G -> (busy x -> ~ Txn.fresh (g_sn (gh_cur g)) (gh_sm g) q) -> g_get G q = Some n -> pgood d c q n ->
       c' !! q = c !! q \/ c' !! q = None \/ c' !! q = Some n) ->
    prot d' c' g x' G.
  Proof.
    intros [H1 H2] Hx Hd Hc. split.
    - destruct H1 as [H1 H1']. split; [exact H1|]. intros q Hq. destruct (H1' q Hq) as (n & Hn & Hg). exists n. split; [exact Hn|].
      destruct (H2 q Hq) as [_ Hf]. eapply pgood_sub; [exact Hg|intros b; apply (Hd q b Hq Hf)|apply (Hc q n Hq Hf Hn Hg)].
    - intros q Hq. destruct (H2 q Hq) as [Ha Hf]. split; [exact Ha|]. intros Hb. apply Hf, Hx, Hb.
  Qed.
  Lemma pgood_load d c q n q' m : cur_ok d -> 2 <= q -> pgood d c q n -> 2 <= q' -> fetch kw c d q' = Ok m -> pgood d (<[q' := m]> c) q n.
  Proof.
    intros Hc Hq Hg Hq' Hf. split; [exact (proj1 Hg)|]. destruct (decide (q = q')) as [->|Hne].
    - rewrite lookup_insert. right. rewrite (fetch_good d c q' n Hc Hq Hg) in Hf. congruence.
    - rewrite lookup_insert_ne by congruence. exact (proj2 Hg).
  Qed.
  Lemma pgood_evict d c q n q' : pgood d c q n -> pgood d (delete q' c) q n.
  Proof.
    intros Hg. split; [exact (proj1 Hg)|]. destruct (decide (q = q')) as [->|Hne].
    - rewrite lookup_delete. now left.
    - rewrite lookup_delete_ne by congruence. exact (proj2 Hg).
  Qed.

  (** *** The cache *)
  Lemma cache_step d p g sy c' : uinv d p g sy -> (caching = false -> c' = ∅) ->
    (forall q n, 2 <= q -> pgood d (p_cache p) q n -> pgood d c' q n) -> uinv d (set_cache c' p) g sy.
  Proof.
    intros H Hn Hg. destruct H. constructor; try assumption.
    - destruct u_held0 as [H1 H2]. split; [exact H1|]. intros q Hq. destruct (H2 q Hq) as (n & Hn' & Hp). exists n. split; [exact Hn'|].
      apply Hg; [apply (live_two _ q _ H1 Hq)|exact Hp].
    - intros i. eapply rinv_mono; [apply u_readers0|reflexivity|reflexivity|reflexivity|reflexivity|reflexivity|reflexivity|].
      intros G r _ _ [[H1 H2] H3]. split; [split; [exact H1|]|exact H3]. intros q Hq. destruct (H2 q Hq) as (n & Hn' & Hp). exists n. split; [exact Hn'|].
      apply Hg; [apply (live_two _ q _ H1 Hq)|exact Hp].
    - assert (Hd : forall w done ans, nextok g w done ans -> (forall q n, w_dirty w !! q = Some n -> pgood d (p_cache p) q n) ->
                   forall q n, w_dirty w !! q = Some n -> pgood d c' q n).
      { intros w done ans (_ & _ & _ & _ & _ & N5 & _) Hw q n Hq. apply Hg; [|apply Hw, Hq].
        destruct (N5 q) as [Hf _]; [eauto|]. eapply fresh_two; [exact (proj1 u_held0)|exact Hf]. }
      destruct p as [pin0 pin1 c regs rs x]. cbn in *. destruct x; cbn in *; try assumption.
      + destruct u_writer0 as [N1 N2]. split; [exact N1|]. eapply Hd; eauto.
      + destruct u_writer0 as (N1 & N2 & N3 & N4). split; [exact N1|]. split; [eapply Hd; eauto|]. split; [exact N3|exact N4].
      + destruct u_writer0 as (w & dn & an & N1 & N2). exists w, dn, an. split; [exact N1|]. eapply Hd; eauto.
  Qed.

  (** *** Readers *)
  Lemma reader_step d p g sy i rs' regs' sy' : uinv d p g sy ->
    (forall j, j <> i -> rs' !! j = p_readers p !! j /\ sp_calls sy' !! j = sp_calls sy !! j /\ sp_open sy' !! j = sp_open sy !! j) ->
    sp_cur sy' = sp_cur sy -> sp_alt sy' = sp_alt sy -> sp_up sy' = sp_up sy ->
    reg_ok regs' rs' -> rinv d (set_regs regs' (set_readers rs' p)) g sy' i ->
    uinv d (set_regs regs' (set_readers rs' p)) g sy'.
  Proof.
    intros H Hj H1 H2 H3 Hr Hi. destruct H. constructor; try assumption.
    - intros j. destruct (decide (j = i)) as [->|Hne]; [exact Hi|]. destruct (Hj j Hne) as (E1 & E2 & E3).
      eapply rinv_mono; [apply u_readers0|exact E1|reflexivity|exact E2|exact E3|reflexivity|reflexivity|]. intros G r _ _ Hp. exact Hp.
    - cbn. now rewrite H1.
    - cbn. now rewrite H2.
    - now rewrite H3.
  Qed.
  Lemma ins_ne {A} (m : gmap nat A) i x j : j <> i -> <[i := x]> m !! j = m !! j.
  Proof. intros H. now rewrite lookup_insert_ne by congruence. Qed.
  Lemma del_ne {A} (m : gmap nat A) i j : j <> i -> delete i m !! j = m !! j.
  Proof. intros H. now rewrite lookup_delete_ne by congruence. Qed.
  (** The reader moves on; nothing else changes. *)
  Lemma reader_tau d p g sy i r0 r regs' : uinv d p g sy -> p_readers p !! i = Some r0 ->
    reg_ok regs' (<[i := r]> (p_readers p)) -> rinv d (set_regs regs' (set_reader i r p)) g sy i ->
    uinv d (set_regs regs' (set_reader i r p)) g sy.
  Proof.
    intros H Hr Hok Hi. apply (reader_step d p g sy i (<[i := r]> (p_readers p)) regs' sy H); auto.
    intros j Hj. now rewrite ins_ne.
  Qed.
  Lemma set_regs_id p rs : set_regs (p_regs p) (set_readers rs p) = set_readers rs p.
  Proof. reflexivity. Qed.

  Lemma pstep_readers d p g sy i l p' : uinv d p g sy ->
    (p_readers p !! i = None /\ l = LCall i /\ p' = set_reader i RCall p) \/
    (p_readers p !! i = Some RCall /\ l = LTau /\ p' = set_reader i (RObs (p_pin0 p)) p) \/
    (exists a, p_readers p !! i = Some (RObs a) /\ l = LTau /\ p' = set_reader i (RSeen (latest_of a (p_pin1 p))) p) \/
    (exists a, p_readers p !! i = Some (RSeen a) /\ l = LTau /\ p' = set_regs (reg_register (h_tsn a.2) (p_regs p)) (set_reader i (RReg a) p)) \/
    (exists a, p_readers p !! i = Some (RReg a) /\ l = LTau /\ p' = set_reader i (RChk a (p_pin0 p)) p) \/
    (exists a b, p_readers p !! i = Some (RChk a b) /\ h_tsn (latest_of b (p_pin1 p)).2 = h_tsn a.2 /\ l = LReady i /\ p' = set_reader i (ROpen a) p) \/
    (exists a b, p_readers p !! i = Some (RChk a b) /\ l = LTau /\ p' = set_regs (reg_unregister (h_tsn a.2) (p_regs p)) (set_reader i RCall p)) \/
    (exists a, p_readers p !! i = Some (ROpen a) /\ l = LClose i /\ p' = set_regs (reg_unregister (h_tsn a.2) (p_regs p)) (set_readers (delete i (p_readers p)) p)) ->
    exists sy', spec_step ps sy l sy' /\ uinv d p' g sy'.
  Proof.
    intros H Hc. pose proof (u_readers _ _ _ _ H i) as Hi. pose proof (u_regs _ _ _ _ H) as Hreg. pose proof (u_up _ _ _ _ H) as Hup.
    pose proof (u_spec _ _ _ _ H) as Hsp. pose proof (latest_le p) as [Hl0 Hl1]. pose proof (u_latest _ _ _ _ H) as Hlat. rewrite Hlat in Hl0, Hl1.
    unfold rinv in Hi. destruct sy as [cur alt up calls open]. cbn in Hup, Hsp. subst up.
    destruct Hc as [(E & -> & ->)|[(E & -> & ->)|[(a & E & -> & ->)|[(a & E & -> & ->)|[(a & E & -> & ->)|[(a & b & E & Ht & -> & ->)|[(a & b & E & -> & ->)|(a & E & -> & ->)]]]]]]]; rewrite E in Hi.
    - destruct Hi as [Hi1 Hi2]. cbn in Hi1, Hi2. eexists. split; [apply SS_call; assumption|].
      unfold set_reader. rewrite <- set_regs_id. eapply reader_step with (i := i); [exact H| |reflexivity|reflexivity|reflexivity| |].
      + intros j Hj. cbn. now rewrite !ins_ne.
      + eapply reg_same; [exact Hreg|]. intros u. rewrite cnt_insert by exact E. cbn. rewrite decide_False by congruence. lia.
      + unfold rinv. cbn. rewrite lookup_insert. exists [cur]. cbn. rewrite lookup_insert. split; [reflexivity|]. split; [exact Hi2|]. split; [|exact I]. rewrite <- Hsp. set_solver.
    - eexists. split; [apply SS_tau|]. unfold set_reader. rewrite <- set_regs_id. eapply reader_tau; [exact H|exact E| |].
      + eapply reg_same; [exact Hreg|]. intros u. eapply cnt_insert_same; [exact E|reflexivity].
      + unfold rinv. cbn. rewrite lookup_insert. split; [exact Hl0|]. destruct Hi as (l & Hi1 & Hi2 & Hi3 & _). exists l. split; [exact Hi1|]. split; [exact Hi2|]. split; [exact Hi3|].
        exists (gh_cur g). split; [exact (u_in _ _ _ _ H)|]. split; [symmetry; exact Hlat|exact Hi3].
    - eexists. split; [apply SS_tau|]. unfold set_reader. rewrite <- set_regs_id. eapply reader_tau; [exact H|exact E| |].
      + eapply reg_same; [exact Hreg|]. intros u. eapply cnt_insert_same; [exact E|reflexivity].
      + unfold rinv. cbn. rewrite lookup_insert. exact (proj2 Hi).
    - eexists. split; [apply SS_tau|]. eapply reader_tau; [exact H|exact E| |].
      + eapply register_ok; [exact Hreg|]. intros u. pose proof (cnt_replace (p_readers p) i (RSeen a) (RReg a) u E) as Hc. cbn [reg_of] in Hc.
        rewrite (decide_False (P := None = Some u)) in Hc by congruence. rewrite Nat.add_0_r in Hc. rewrite Hc. f_equal.
        destruct (decide (h_tsn a.2 = u)); [now rewrite decide_True by congruence|now rewrite decide_False by congruence].
      + unfold rinv. cbn. rewrite lookup_insert. exact Hi.
    - eexists. split; [apply SS_tau|]. unfold set_reader. rewrite <- set_regs_id. eapply reader_tau; [exact H|exact E| |].
      + eapply reg_same; [exact Hreg|]. intros u. eapply cnt_insert_same; [exact E|reflexivity].
      + unfold rinv. cbn. rewrite lookup_insert. split; [exact Hl0|]. destruct Hi as (l & Hi1 & Hi2 & Hi3 & G & Hi4 & Hi5 & Hi6). exists l. split; [exact Hi1|]. split; [exact Hi2|]. split; [exact Hi3|].
        exists G. split; [exact Hi4|]. split; [exact Hi5|]. split; [exact Hi6|]. intros Ht. change (latest_of (p_pin0 p) (p_pin1 p)) with (latest p) in Ht.
        rewrite Hlat, <- Hi5 in Ht. rewrite (u_inj _ _ _ _ H G (gh_cur g) Hi4 (u_in _ _ _ _ H)) by congruence. apply prot_cur, (u_held _ _ _ _ H).
    - destruct Hi as (_ & l & Hi1 & Hi2 & Hi3 & G & Hi4 & Hi5 & Hi6 & Hi7). cbn in Hi1, Hi2. eexists. split; [eapply SS_ready; [exact Hi1|exact Hi6]|].
      unfold set_reader. rewrite <- set_regs_id. eapply reader_step with (i := i); [exact H| |reflexivity|reflexivity|reflexivity| |].
      + intros j Hj. cbn. rewrite !ins_ne by exact Hj. now rewrite del_ne by exact Hj.
      + eapply reg_same; [exact Hreg|]. intros u. eapply cnt_insert_same; [exact E|reflexivity].
      + unfold rinv. cbn. rewrite lookup_insert. split; [apply lookup_delete|]. exists G. rewrite lookup_insert. split; [exact Hi4|]. split; [exact Hi5|]. split; [reflexivity|]. exact (Hi7 Ht).
    - destruct Hi as (_ & l & Hi1 & Hi2 & Hi3 & G & Hi4). eexists. split; [apply SS_tau|]. eapply reader_tau; [exact H|exact E| |].
      + eapply unregister_ok; [exact Hreg|]. intros u. pose proof (cnt_replace (p_readers p) i (RChk a b) RCall u E) as Hc. cbn [reg_of] in Hc.
        rewrite (decide_False (P := None = Some u)) in Hc by congruence. rewrite Nat.add_0_r in Hc. rewrite <- Hc. f_equal.
        destruct (decide (h_tsn a.2 = u)); [now rewrite decide_True by congruence|now rewrite decide_False by congruence].
      + unfold rinv. cbn. rewrite lookup_insert. exists l. auto.
    - destruct Hi as (Hi1 & G & Hi2 & Hi3 & Hi4 & Hi5). cbn in Hi1, Hi4. eexists. split; [eapply SS_close; exact Hi4|].
      eapply reader_step with (i := i); [exact H| |reflexivity|reflexivity|reflexivity| |].
      + intros j Hj. cbn. now rewrite !del_ne by exact Hj.
      + eapply unregister_ok; [exact Hreg|]. intros u. rewrite (cnt_delete (p_readers p) i (ROpen a) u E). cbn [reg_of]. f_equal.
        destruct (decide (h_tsn a.2 = u)); [now rewrite decide_True by congruence|now rewrite decide_False by congruence].
      + unfold rinv. cbn. rewrite lookup_delete. split; [exact Hi1|apply lookup_delete].
  Qed.

  Lemma head_step d p g sy i a : uinv d p g sy -> p_readers p !! i = Some (RSeen a) ->
    exists sy', spec_step ps sy (LHead i (header_head a.2)) sy' /\ uinv d (set_readers (delete i (p_readers p)) p) g sy'.
  Proof.
    intros H E. pose proof (u_readers _ _ _ _ H i) as Hi. pose proof (u_regs _ _ _ _ H) as Hreg. pose proof (u_up _ _ _ _ H) as Hup.
    unfold rinv in Hi. rewrite E in Hi. destruct sy as [cur alt up calls open]. cbn in Hup. subst up.
    destruct Hi as (l & Hi1 & Hi2 & Hi3 & G & Hi4 & Hi5 & Hi6). cbn in Hi1, Hi2. rewrite <- Hi5, (pos_head G (u_pos _ _ _ _ H G Hi4)).
    eexists. split; [eapply SS_head; [exact Hi1|exact Hi6]|].
    rewrite <- set_regs_id. eapply reader_step with (i := i); [exact H| |reflexivity|reflexivity|reflexivity| |].
    - intros j Hj. cbn. now rewrite !del_ne by exact Hj.
    - eapply reg_same; [exact Hreg|]. intros u. rewrite (cnt_delete (p_readers p) i (RSeen a) u E). cbn. rewrite decide_False by congruence. lia.
    - unfold rinv. cbn. rewrite lookup_delete. split; [apply lookup_delete|exact Hi2].
  Qed.

  (** *** The write transaction *)
  (** The writer moves on; readers' pages stay. *)
  Lemma writer_step d p g sy d' x' sm' nx' c' sy' :
    uinv d p g sy ->
    let g' := Ghost (gh_cur g) (gh_list g) sm' nx' in
    cur_ok d' -> slots d' (latest p).1 (g_hdr (gh_cur g)) (alt_of g' x') -> held d' c' (gh_cur g) ->
    (caching = false -> c' = ∅) ->
    (forall G i r, G ∈ gh_list g -> p_readers p !! i = Some r -> reg_of r = Some (g_tsn G) -> prot d (p_cache p) g (p_writer p) G -> prot d' c' g' x' G) ->
    winv d' c' g' (latest p).1 x' ->
    sp_cur sy' = sp_cur sy -> sp_calls sy' = sp_calls sy -> sp_open sy' = sp_open sy -> sp_up sy' = true ->
    sp_alt sy' = (match x' with WBroken => Some (g_st nx') | _ => None end) ->
    uinv d' (set_writer x' (set_cache c' p)) g' sy'.
  Proof.
    intros H g' H1 H2 H3 H4 H5 H6 H7 H8 H9 H10 H11. destruct H. constructor; try assumption.
    - intros i. specialize (u_readers0 i). unfold rinv in *. cbn [p_readers set_writer set_cache p_pin1 p_cache p_writer g' gh_cur gh_list].
      destruct (p_readers p !! i) as [[|a|a|a|a b|a]|] eqn:Er; unfold calling in *; cbn [g' gh_cur gh_list]; rewrite ?H8, ?H9; try exact u_readers0.
      + destruct u_readers0 as (R0 & l & R1 & R2 & R3 & G & R4 & R5 & R6 & R7). split; [exact R0|]. exists l. repeat (split; [assumption|]). exists G. repeat (split; [assumption|]).
        intros Ht. eapply H5; [exact R4|exact Er|cbn; now rewrite R5|exact (R7 Ht)].
      + destruct u_readers0 as (R1 & G & R2 & R3 & R4 & R5). split; [exact R1|]. exists G. repeat (split; [assumption|]).
        eapply H5; [exact R2|exact Er|cbn; now rewrite R3|exact R5].
    - cbn. now rewrite H7.
  Qed.

  Lemma set_cache_id p : set_cache (p_cache p) p = p.
  Proof. now destruct p. Qed.
  Lemma g_eta g : Ghost (gh_cur g) (gh_list g) (gh_sm g) (gh_next g) = g.
  Proof. now destruct g. Qed.

  (** Files that differ in pages the write transaction may write. *)
  Definition same_but (d d' : disk) (P : N -> Prop) : Prop := forall q b, ~ P q -> d_dur d' q b -> d_dur d q b.
  Lemma same_but_refl d P : same_but d d P.
  Proof. intros q b _ H. exact H. Qed.
  Lemma slots_sub d d' hid h alt : slots d hid h alt -> (forall q b, q < 2 -> d_dur d' q b -> d_dur d q b) -> slots d' hid h alt.
  Proof.
    intros (H1 & H2 & H3) Hd. split; [exact H1|]. split; [intros b Hb; apply H2, Hd; auto|]. intros b n Hb. apply H3, Hd; [apply other_lt|exact Hb].
  Qed.
  Lemma slots_alt d hid h alt : slots d hid h None -> slots d hid h alt.
  Proof.
    intros (H1 & H2 & H3). split; [exact H1|]. split; [exact H2|]. intros b n Hb Hn. destruct (H3 b n Hb Hn) as (h' & E & [Hh|[Hh|Hh]]); [eauto|eauto|discriminate].
  Qed.
  Lemma synced_dur d q b : cur_ok d -> d_dur (d_synced d) q b -> d_dur d q b.
  Proof. intros Hc. cbn. destruct (d_wr d q); [intros ->; apply Hc|auto]. Qed.
  Lemma synced_cur d : cur_ok d -> cur_ok (d_synced d).
  Proof. intros Hc q. cbn. destruct (d_wr d q); [reflexivity|apply Hc]. Qed.
  Lemma unsynced_ok d d' : cur_ok d -> d_unsynced d d' -> cur_ok d' /\ forall q b, d_dur d' q b -> d_dur d q b.
  Proof.
    intros Hc (f & Hf & ->). split; [|auto]. intros q. cbn. specialize (Hf q). destruct (d_wr d q); [exact Hf|rewrite Hf; apply Hc].
  Qed.
  Lemma write_cur q b d : cur_ok d -> cur_ok (d_write kw q b d).
  Proof. intros Hc x. cbn. destruct (N.eqb_spec x q); [now left|apply Hc]. Qed.
  Lemma write_dur q b d x c : x <> q -> d_dur (d_write kw q b d) x c -> d_dur d x c.
  Proof. intros Hne. cbn. destruct (N.eqb_spec x q); [contradiction|auto]. Qed.
  Lemma spoilt_ok q b d d' : cur_ok d -> d_spoilt kw q b d d' -> cur_ok d' /\ forall x c, x <> q -> d_dur d' x c -> d_dur d x c.
  Proof.
    intros Hc (c & Hm & ->). split.
    - intros x. cbn. destruct (N.eqb_spec x q); [exact Hm|apply Hc].
    - intros x c' Hne. cbn. destruct (N.eqb_spec x q); [contradiction|auto].
  Qed.

  (** The transaction ends without a commit. *)
  Lemma abort_step d p g sy d' reqs : uinv d p g sy -> cur_ok d' -> busy (p_writer p) ->
    alt_of g (p_writer p) = None ->
    (forall q b, ~ Txn.fresh (g_sn (gh_cur g)) (gh_sm g) q -> d_dur d' q b -> d_dur d q b) ->
    exists sy', spec_step ps sy (LAbort reqs) sy' /\ uinv d' (set_writer WIdle p) g sy'.
  Proof.
    intros H Hc Hb Ha Hd. exists sy. pose proof (u_up _ _ _ _ H) as Hup. split.
    { destruct sy. cbn in Hup. subst. apply SS_abort. }
    pose proof (u_held _ _ _ _ H) as Hh.
    assert (Hd2 : forall q b, q < 2 -> d_dur d' q b -> d_dur d q b).
    { intros q b Hq. apply Hd. intros Hf. pose proof (fresh_two _ _ _ _ (proj1 Hh) Hf). lia. }
    rewrite <- (set_cache_id p), <- (g_eta g). eapply writer_step; [exact H|exact Hc| | | | |exact I|reflexivity|reflexivity|reflexivity|exact Hup|].
    - cbn. eapply slots_sub; [|exact Hd2]. pose proof (u_slots _ _ _ _ H) as Hs. now rewrite Ha in Hs.
    - eapply held_sub; [exact Hh| |intros; now left]. intros q b Hq. apply Hd. eapply fresh_live; [exact (proj1 Hh)|exact Hq].
    - exact (u_nocache _ _ _ _ H).
    - intros G i r _ _ _ Hp. rewrite g_eta. eapply prot_sub; [exact Hp|intros []| |intros; now left]. intros q b _ Hf. apply Hd. auto.
    - rewrite (u_alt _ _ _ _ H). destruct (p_writer p); try reflexivity. destruct Hb.
  Qed.

  Lemma begin_step d p g sy w : uinv d p g sy -> p_writer p = WIdle ->
    mvcc_writer (fetch kw (p_cache p) d) (reg_min (p_regs p)) (latest p).2 = (Ok tt, w) ->
    exists g', uinv d (set_writer (WBusy (fetch kw (p_cache p) d) w [] []) p) g' sy.
  Proof.
    intros H Hx E. pose proof (u_held _ _ _ _ H) as Hh. pose proof (u_cur _ _ _ _ H) as Hc.
    set (rd := fetch kw (p_cache p) d) in *. set (sm := reg_min (p_regs p)) in *. set (G0 := gh_cur g) in *.
    assert (Hrd : forall q, q ∈ g_live G0 -> rget rd q = g_get G0 q) by (intros q Hq; eapply held_rget; eassumption).
    assert (Hok : snap_ok (rget rd) (g_sn G0)) by (eapply snap_frame; [exact (proj1 Hh)|exact Hrd]).
    destruct (begin_ok kw ps hash order Hkw Hord rd (g_sn G0) sm Hok) as (w' & E' & Ht).
    rewrite (u_latest _ _ _ _ H) in E. fold G0 in E. assert (w' = w) as -> by congruence.
    exists (Ghost G0 (gh_list g) sm (gh_next g)). rewrite <- (set_cache_id p) at 1.
    eapply writer_step; [exact H|exact Hc| |exact Hh|exact (u_nocache _ _ _ _ H)| | |reflexivity|reflexivity|reflexivity|exact (u_up _ _ _ _ H)|].
    - cbn. pose proof (u_slots _ _ _ _ H) as Hs. now rewrite Hx in Hs.
    - intros G i r HG Hi Hr [Hp1 Hp2]. split; [exact Hp1|]. intros q Hq. cbn. destruct (Hp2 q Hq) as [Ha _]. split; [exact Ha|]. intros _.
      destruct Ha as [Ha|(t & Ha & Hlt)]; [eapply fresh_live; [exact (proj1 Hh)|exact Ha]|].
      destruct (reg_min_le _ _ _ _ _ (u_regs _ _ _ _ H) Hi Hr) as (a & Ea & Hle). intros [(u & Hu & Ho)|Hn].
      + pose proof (snap_one _ _ _ _ _ _ _ _ (proj1 Hh) Ha Hu) as ->. unfold sm in Ho. rewrite Ea in Ho. cbn in Ho. lia.
      + assert (2 <= q < h_next_page (g_hdr G0)); [|fold G0 in Hn; lia]. apply (snap_range _ _ _ _ _ q (proj1 Hh)). apply elem_of_app; right. apply elem_of_list_fmap. now exists (q, t).
    - cbn. split; [exact Hrd|]. exists (sn_PE (g_sn G0)), (sn_PT (g_sn G0)), (sn_PK (g_sn G0)), (g_st G0). split; [exact Ht|reflexivity].
    - rewrite (u_alt _ _ _ _ H), Hx. reflexivity.
  Qed.

  (** The writer changes its mind; the file does not change. *)
  Lemma quiet_step d p g sy x' nx' : uinv d p g sy -> busy (p_writer p) -> busy x' -> alt_of g (p_writer p) = None ->
    let g' := Ghost (gh_cur g) (gh_list g) (gh_sm g) nx' in
    alt_of g' x' = None -> winv d (p_cache p) g' (latest p).1 x' -> uinv d (set_writer x' p) g' sy.
  Proof.
    intros H Hb Hb' Ha g' Ha' Hw. rewrite <- (set_cache_id p).
    eapply writer_step; [exact H|exact (u_cur _ _ _ _ H)| |exact (u_held _ _ _ _ H)|exact (u_nocache _ _ _ _ H)| |exact Hw|reflexivity|reflexivity|reflexivity|exact (u_up _ _ _ _ H)|].
    - fold g'. rewrite Ha'. pose proof (u_slots _ _ _ _ H) as Hs. now rewrite Ha in Hs.
    - intros G i r _ _ _ Hp. eapply prot_sub with (g := g) in Hp; [destruct Hp as [P1 P2]; split; [exact P1|exact P2]|intros _; exact Hb|intros q b _ _ Hd; exact Hd|intros; now left].
    - rewrite (u_alt _ _ _ _ H). destruct (p_writer p), x'; try reflexivity; destruct Hb; destruct Hb'.
  Qed.

  Lemma commit_begin d p g sy rd w done ans w' todo : uinv d p g sy -> p_writer p = WBusy rd w done ans ->
    process_freed_page_ids rd kw ps ford w = (Ok tt, w') -> todo ≡ₚ map_to_list (w_dirty w') ->
    Forall (fun e => storable e.2) todo -> storable (NHeader (next_header (h_schema (latest p).2) w')) ->
    exists g', uinv d (set_writer (WPages w' todo done ans) p) g' sy.
  Proof.
    intros H Hx E Htodo Hst Hsth. pose proof (u_writer _ _ _ _ H) as Hw. rewrite Hx in Hw. destruct Hw as (Hrd & PE & PT & PK & s & Ht & Hb).
    set (G0 := gh_cur g) in *. pose proof (u_held _ _ _ _ H) as Hh. fold G0 in Hh.
    assert (Hok : snap_ok (rget rd) (g_sn G0)) by (eapply snap_frame; [exact (proj1 Hh)|exact Hrd]).
    destruct (commit_ok kw ps hash order ford Hps Hkw Hord Hford rd (g_sn G0) (gh_sm g) w PE PT PK s (h_schema (g_hdr G0)) Hok Ht)
      as (w1 & sn' & E1 & C1 & C2 & C3 & C4 & C5 & C6 & C7 & C8).
    assert (w1 = w') as -> by congruence. rewrite (u_latest _ _ _ _ H) in Hsth. fold G0 in Hsth.
    assert (Hin : forall q n, (q, n) ∈ todo <-> w_dirty w' !! q = Some n) by (intros q n; rewrite Htodo; apply elem_of_map_to_list).
    exists (Ghost (gh_cur g) (gh_list g) (gh_sm g) (PSnap sn' (vget rd w'))).
    apply quiet_step; [exact H|rewrite Hx; exact I|exact I|now rewrite Hx|reflexivity|]. cbn. split.
    - unfold nextok. cbn. fold G0. split; [exact C1|]. split; [rewrite C2; exact Hb|]. split; [exact C3|]. split; [exact C4|]. split; [rewrite C1; exact Hsth|].
      split; [exact C5|]. split; [exact C6|]. split; [exact C7|]. split; [exact C8|]. split.
      + intros q n Hq. split; [unfold vget; now rewrite Hq|]. rewrite Forall_forall in Hst. apply (Hst (q, n)). now apply Hin.
      + intros q Hq Hn. unfold vget. rewrite Hn. destruct (C6 q Hq) as [[? Hq']|Hq']; [congruence|]. apply Hrd, Hq'.
    - split; [intros q n Hq; now apply Hin|]. intros q n Hq. left. now apply Hin.
  Qed.

  Lemma page_step d p g sy w q n b todo done ans : uinv d p g sy -> p_writer p = WPages w ((q, n) :: todo) done ans ->
    page_ser kw ps n = Ok b -> uinv (d_write kw q b d) (set_writer (WPages w todo done ans) p) g sy.
  Proof.
    intros H Hx E. pose proof (u_writer _ _ _ _ H) as Hw. rewrite Hx in Hw. destruct Hw as (Hn & Hto & Hdone).
    pose proof Hn as (N1 & N2 & N3 & N4 & N5 & N6 & N7 & N8 & N9 & N10 & N11).
    pose proof (Hto q n ltac:(set_solver)) as Hq. destruct (N6 q) as [Hf Hlv]; [eauto|]. destruct (N10 q n Hq) as [_ Hst].
    pose proof (u_held _ _ _ _ H) as Hh. pose proof (fresh_two _ _ _ _ (proj1 Hh) Hf) as H2.
    rewrite <- (set_cache_id p), <- (g_eta g). eapply writer_step; [exact H|apply write_cur, (u_cur _ _ _ _ H)| | |exact (u_nocache _ _ _ _ H)| | |reflexivity|reflexivity|reflexivity|exact (u_up _ _ _ _ H)|].
    - cbn. pose proof (u_slots _ _ _ _ H) as Hs. rewrite Hx in Hs. eapply slots_sub; [exact Hs|]. intros x c Hx2. apply write_dur. lia.
    - eapply held_sub; [exact Hh| |intros; now left]. intros x c Hxl. apply write_dur. intros ->. exact (fresh_live _ _ _ _ _ _ _ (proj1 Hh) Hxl Hf).
    - intros G i r _ _ _ Hp. rewrite g_eta. rewrite Hx in Hp. eapply prot_sub; [exact Hp|intros _; exact I| |intros; now left].
      intros x c _ Hnf. apply write_dur. intros ->. apply Hnf; [exact I|exact Hf].
    - cbn. rewrite g_eta. split; [exact Hn|]. split; [intros x m Hxm; apply Hto; set_solver|]. intros x m Hxm.
      destruct (N.eqb_spec x q) as [->|Hne].
      + right. split; [reflexivity|]. assert (m = n) as -> by congruence. now apply stored.
      + destruct (Hdone x m Hxm) as [Hi|Hi]; [|right; exact Hi]. apply elem_of_cons in Hi as [[= -> ->]|Hi]; [contradiction|now left].
    - rewrite (u_alt _ _ _ _ H), Hx. reflexivity.
  Qed.

  Lemma sync_step d p g sy w done ans : uinv d p g sy -> p_writer p = WPages w [] done ans ->
    uinv (d_synced d) (set_writer (WHeader w done ans) (if caching then set_cache (w_dirty w ∪ p_cache p) p else p)) g sy.
  Proof.
    intros H Hx. pose proof (u_writer _ _ _ _ H) as Hw. rewrite Hx in Hw. destruct Hw as (Hn & Hto & Hdone).
    pose proof Hn as (N1 & N2 & N3 & N4 & N5 & N6 & N7 & N8 & N9 & N10 & N11).
    pose proof (u_held _ _ _ _ H) as Hh. pose proof (u_cur _ _ _ _ H) as Hc.
    set (c' := if caching then w_dirty w ∪ p_cache p else p_cache p).
    assert (Hset : (if caching then set_cache (w_dirty w ∪ p_cache p) p else p) = set_cache c' p) by (unfold c'; destruct caching; [reflexivity|now rewrite set_cache_id]).
    assert (Hnd : forall q, ~ Txn.fresh (g_sn (gh_cur g)) (gh_sm g) q -> c' !! q = p_cache p !! q).
    { intros q Hq. unfold c'. destruct caching; [|reflexivity]. apply lookup_union_r. destruct (w_dirty w !! q) eqn:Eq; [|reflexivity]. exfalso. apply Hq. apply N6. eauto. }
    rewrite Hset. rewrite <- (g_eta g). eapply writer_step; [exact H|apply synced_cur, Hc| | | | | |reflexivity|reflexivity|reflexivity|exact (u_up _ _ _ _ H)|].
    - cbn. pose proof (u_slots _ _ _ _ H) as Hs. rewrite Hx in Hs. eapply slots_sub; [exact Hs|]. intros x c _. apply synced_dur, Hc.
    - eapply held_sub; [exact Hh|intros x c _; apply synced_dur, Hc|]. intros x n Hxl _. left. apply Hnd. exact (fresh_live _ _ _ _ _ _ _ (proj1 Hh) Hxl).
    - intros Hca. unfold c'. rewrite Hca. apply (u_nocache _ _ _ _ H Hca).
    - intros G i r _ _ _ Hp. rewrite g_eta. rewrite Hx in Hp. eapply prot_sub; [exact Hp|intros _; exact I|intros x c _ _; apply synced_dur, Hc|].
      intros x n _ Hnf _ _. left. apply Hnd, Hnf, I.
    - cbn. rewrite g_eta. split; [exact Hn|]. intros q n Hq. destruct (Hdone q n Hq) as [Hi|[Hi1 Hi2]]; [inversion Hi|]. split.
      + intros b Hb. cbn in Hb. rewrite Hi1 in Hb. now subst.
      + unfold c'. destruct caching eqn:Eca.
        * right. erewrite lookup_union_Some_l; [reflexivity|exact Hq].
        * left. rewrite (u_nocache _ _ _ _ H Eca). apply lookup_empty.
    - rewrite (u_alt _ _ _ _ H), Hx. reflexivity.
  Qed.

  (** The header page in which the commit is written. *)
  Lemma slots_next d hid h h' b d' : slots d hid h None -> storable (NHeader h') -> page_ser kw ps (NHeader h') = Ok b ->
    (forall q c, q <> other_slot hid -> d_dur d' q c -> d_dur d q c) ->
    (forall c, d_dur d' (other_slot hid) c -> c = Some b \/ may_hold kw d (other_slot hid) b c) ->
    slots d' hid h (Some h').
  Proof.
    intros (H1 & H2 & H3) Hst E Hd Ho. split; [exact H1|]. split.
    - intros c Hc. apply H2, Hd; [|exact Hc]. intros He. symmetry in He. exact (other_ne hid He).
    - intros c n Hc Hn. pose proof (stored _ _ Hst E) as Hb.
      assert (Hm : dec (Some b) = Ok n \/ exists c0, d_dur d (other_slot hid) c0 /\ dec c0 = Ok n).
      { destruct (Ho c Hc) as [->|Hm]; [left; exact Hn|]. unfold may_hold in Hm. rewrite (proj2 (N.ltb_lt _ _)) in Hm by apply other_lt. exact (Hm n Hn). }
      destruct Hm as [Hm|(c0 & Hm1 & Hm2)].
      + exists h'. split; [congruence|auto].
      + destruct (H3 c0 n Hm1 Hm2) as (h0 & E0 & [Hh|[Hh|Hh]]); [exists h0; auto|exists h0; auto|discriminate].
  Qed.
  (** A step of the header page: pages are not touched. *)
  Lemma header_step d p g sy d' x' sy' : uinv d p g sy -> cur_ok d' ->
    slots d' (latest p).1 (g_hdr (gh_cur g)) (alt_of g x') -> (busy x' -> busy (p_writer p)) ->
    (forall q c, 2 <= q -> d_dur d' q c -> d_dur d q c) ->
    winv d' (p_cache p) g (latest p).1 x' ->
    sp_cur sy' = sp_cur sy -> sp_calls sy' = sp_calls sy -> sp_open sy' = sp_open sy -> sp_up sy' = true ->
    sp_alt sy' = (match x' with WBroken => Some (g_st (gh_next g)) | _ => None end) ->
    uinv d' (set_writer x' p) g sy'.
  Proof.
    intros H Hc Hs Hb Hd Hw E1 E2 E3 E4 E5. pose proof (u_held _ _ _ _ H) as Hh.
    rewrite <- (set_cache_id p), <- (g_eta g). eapply writer_step; [exact H|exact Hc| | |exact (u_nocache _ _ _ _ H)| | |exact E1|exact E2|exact E3|exact E4|exact E5]; rewrite ?g_eta.
    - exact Hs.
    - eapply held_sub; [exact Hh| |intros; now left]. intros q c Hq. apply Hd. apply (live_two _ q _ (proj1 Hh) Hq).
    - intros G i r _ _ _ Hp. eapply prot_sub; [exact Hp|exact Hb| |intros; now left].
      intros q c Hq _. apply Hd. apply (live_two _ q _ (proj1 (proj1 Hp)) Hq).
    - exact Hw.
  Qed.
  Lemma dirty_sub d d' c g w done ans : nextok g w done ans -> held d c (gh_cur g) -> (forall q c, 2 <= q -> d_dur d' q c -> d_dur d q c) ->
    (forall q n, w_dirty w !! q = Some n -> pgood d c q n) -> forall q n, w_dirty w !! q = Some n -> pgood d' c q n.
  Proof.
    intros (_ & _ & _ & _ & _ & N6 & _) Hh Hd Hg q n Hq. eapply pgood_sub; [apply Hg, Hq| |now left]. intros b. apply Hd.
    destruct (N6 q) as [Hf _]; [eauto|]. exact (fresh_two _ _ _ _ (proj1 Hh) Hf).
  Qed.

  Lemma header_write d p g sy w done ans b : uinv d p g sy -> p_writer p = WHeader w done ans ->
    page_ser kw ps (NHeader (next_header (h_schema (latest p).2) w)) = Ok b ->
    uinv (d_write kw (other_slot (latest p).1) b d) (set_writer (WSync w done ans) p) g sy.
  Proof.
    intros H Hx E. pose proof (u_writer _ _ _ _ H) as Hw. rewrite Hx in Hw. destruct Hw as (Hn & Hg).
    pose proof Hn as (N1 & N2 & N3 & N4 & N5 & N6 & N7 & N8 & N9 & N10 & N11).
    pose proof (other_lt (latest p).1) as Ho. pose proof (u_slots _ _ _ _ H) as Hs. rewrite Hx in Hs. cbn in Hs.
    rewrite (u_latest _ _ _ _ H), <- N1 in E.
    assert (Hd : forall q c, 2 <= q -> d_dur (d_write kw (other_slot (latest p).1) b d) q c -> d_dur d q c) by (intros q c Hq; apply write_dur; lia).
    eapply header_step; [exact H|apply write_cur, (u_cur _ _ _ _ H)| | |exact Hd| |reflexivity|reflexivity|reflexivity|exact (u_up _ _ _ _ H)|].
    - cbn. eapply slots_next; [exact Hs|exact N5|exact E|intros q c; apply write_dur|]. intros c Hc. cbn in Hc. rewrite N.eqb_refl in Hc. exact Hc.
    - rewrite Hx. auto.
    - cbn. split; [exact Hn|]. split; [eapply dirty_sub; [exact Hn|exact (u_held _ _ _ _ H)|exact Hd|exact Hg]|].
      rewrite N.eqb_refl. split; [reflexivity|]. now apply stored.
    - rewrite (u_alt _ _ _ _ H), Hx. reflexivity.
  Qed.
  Lemma header_fails d p g sy w done ans b d' : uinv d p g sy -> p_writer p = WHeader w done ans ->
    page_ser kw ps (NHeader (next_header (h_schema (latest p).2) w)) = Ok b ->
    d_spoilt kw (other_slot (latest p).1) b d d' ->
    exists sy', spec_step ps sy (LUnsure done) sy' /\ uinv d' (set_writer WBroken p) g sy'.
  Proof.
    intros H Hx E Hsp. pose proof (u_writer _ _ _ _ H) as Hw. rewrite Hx in Hw. destruct Hw as (Hn & Hg).
    pose proof Hn as (N1 & N2 & N3 & N4 & N5 & N6 & N7 & N8 & N9 & N10 & N11).
    pose proof (u_alt _ _ _ _ H) as Ha. rewrite Hx in Ha. pose proof (u_up _ _ _ _ H) as Hup. pose proof (u_spec _ _ _ _ H) as Hcur.
    exists (SSys (sp_cur sy) (Some (g_st (gh_next g))) true (sp_calls sy) (sp_open sy)). split.
    { destruct sy as [s a u calls open]. cbn in Ha, Hup, Hcur. subst. cbn. pose proof (SS_unsure ps (g_st (gh_cur g)) calls open done) as Hss. rewrite N2 in Hss. exact Hss. }
    pose proof (other_lt (latest p).1) as Ho. pose proof (u_slots _ _ _ _ H) as Hs. rewrite Hx in Hs. cbn in Hs.
    rewrite (u_latest _ _ _ _ H), <- N1 in E. destruct (spoilt_ok _ _ _ _ (u_cur _ _ _ _ H) Hsp) as [Hc Hd].
    assert (Hd2 : forall q c, 2 <= q -> d_dur d' q c -> d_dur d q c) by (intros q c Hq; apply Hd; lia).
    eapply header_step; [exact H|exact Hc| |intros []|exact Hd2| |reflexivity|reflexivity|reflexivity|reflexivity|reflexivity].
    - cbn. eapply slots_next; [exact Hs|exact N5|exact E|exact Hd|]. intros c Hc'. destruct Hsp as (c1 & _ & ->). cbn in Hc'. rewrite N.eqb_refl in Hc'. now right.
    - cbn. exists w, done, ans. split; [exact Hn|]. eapply dirty_sub; [exact Hn|exact (u_held _ _ _ _ H)|exact Hd2|exact Hg].
  Qed.
  Lemma done_fails d p g sy w done ans d' : uinv d p g sy -> p_writer p = WSync w done ans -> d_unsynced d d' ->
    exists sy', spec_step ps sy (LUnsure done) sy' /\ uinv d' (set_writer WBroken p) g sy'.
  Proof.
    intros H Hx Hsp. pose proof (u_writer _ _ _ _ H) as Hw. rewrite Hx in Hw. destruct Hw as (Hn & Hg & _).
    pose proof Hn as (N1 & N2 & N3 & N4 & N5 & N6 & N7 & N8 & N9 & N10 & N11).
    pose proof (u_alt _ _ _ _ H) as Ha. rewrite Hx in Ha. pose proof (u_up _ _ _ _ H) as Hup. pose proof (u_spec _ _ _ _ H) as Hcur.
    exists (SSys (sp_cur sy) (Some (g_st (gh_next g))) true (sp_calls sy) (sp_open sy)). split.
    { destruct sy as [s a u calls open]. cbn in Ha, Hup, Hcur. subst. cbn. pose proof (SS_unsure ps (g_st (gh_cur g)) calls open done) as Hss. rewrite N2 in Hss. exact Hss. }
    pose proof (u_slots _ _ _ _ H) as Hs. rewrite Hx in Hs. cbn in Hs. destruct (unsynced_ok _ _ (u_cur _ _ _ _ H) Hsp) as [Hc Hd].
    eapply header_step; [exact H|exact Hc| |intros []|intros q c _; apply Hd| |reflexivity|reflexivity|reflexivity|reflexivity|reflexivity].
    - cbn. eapply slots_sub; [exact Hs|]. intros q c _. apply Hd.
    - cbn. exists w, done, ans. split; [exact Hn|]. eapply dirty_sub; [exact Hn|exact (u_held _ _ _ _ H)|intros q c _; apply Hd|exact Hg].
  Qed.

  (** The pages of the committed state are all in place. *)
  Lemma held_next d d' c c' g w done ans : nextok g w done ans -> held d c (gh_cur g) ->
    (forall q b, 2 <= q -> d_dur d' q b -> d_dur d q b) -> (forall q, c' !! q = c !! q \/ c' !! q = None) ->
    (forall q n, w_dirty w !! q = Some n -> pgood d c q n) -> held d' c' (gh_next g).
  Proof.
    intros (N1 & N2 & N3 & N4 & N5 & N6 & N7 & N8 & N9 & N10 & N11) Hh Hd Hc Hg. split; [exact N3|]. intros q Hq.
    pose proof (live_two _ q _ N3 Hq) as H2. destruct (w_dirty w !! q) as [n|] eqn:E.
    - exists n. split; [apply N10, E|]. eapply pgood_sub; [apply Hg, E|intros b; apply Hd; lia|]. destruct (Hc q); auto.
    - destruct (N7 q Hq) as [[? ?]|Hl]; [congruence|]. destruct (proj2 Hh q Hl) as (n & Hn & Hp). exists n. split; [rewrite (N11 q Hq E); exact Hn|].
      eapply pgood_sub; [exact Hp|intros b; apply Hd; lia|]. destruct (Hc q); auto.
  Qed.
  (** The state it replaces stays protected, and so do the older ones. *)
  Lemma prot_next d d' c g w done ans x : nextok g w done ans -> busy x -> (forall q b, 2 <= q -> d_dur d' q b -> d_dur d q b) ->
    forall G sm nx l, g_tsn G <= g_tsn (gh_cur g) -> prot d c g x G -> prot d' c (Ghost (gh_next g) l sm nx) WIdle G.
  Proof.
    intros (N1 & N2 & N3 & N4 & N5 & N6 & N7 & N8 & N9 & N10 & N11) Hb Hd G sm nx l Ht [[P1 P2] P3]. split.
    - split; [exact P1|]. intros q Hq. destruct (P2 q Hq) as (n & Hn & Hp). exists n. split; [exact Hn|]. eapply pgood_sub; [exact Hp| |now left].
      intros b. apply Hd. apply (live_two _ q _ P1 Hq).
    - intros q Hq. cbn. split; [|intros []]. destruct (P3 q Hq) as [Ha Hf]. specialize (Hf Hb). destruct Ha as [Ha|(t & Ha & Hlt)].
      + destruct (N8 q Ha) as [Hl|Hl]; [now left|]. right. eexists. split; [exact Hl|]. lia.
      + right. exists t. split; [apply N9; assumption|exact Hlt].
  Qed.

  Lemma done_step d p g sy w done ans : uinv d p g sy -> p_writer p = WSync w done ans ->
    exists g' sy', gh_cur g' = gh_next g /\ spec_step ps sy (LCommit done ans) sy' /\
      uinv (d_synced d) (pin_header (other_slot (latest p).1, next_header (h_schema (latest p).2) w) (set_writer WIdle p)) g' sy'.
  Proof.
    intros H Hx. pose proof (u_writer _ _ _ _ H) as Hw. rewrite Hx in Hw. destruct Hw as (Hn & Hg & Hwr & Hdec).
    pose proof Hn as (N1 & N2 & N3 & N4 & N5 & N6 & N7 & N8 & N9 & N10 & N11).
    pose proof (u_alt _ _ _ _ H) as Ha. rewrite Hx in Ha. pose proof (u_up _ _ _ _ H) as Hup. pose proof (u_spec _ _ _ _ H) as Hcur.
    pose proof (u_cur _ _ _ _ H) as Hc. pose proof (u_held _ _ _ _ H) as Hh. pose proof (u_latest _ _ _ _ H) as Hlat. pose proof (latest_le p) as [Hl0 Hl1].
    rewrite Hlat in Hl0, Hl1. rewrite Hlat, <- N1.
    set (hid := (latest p).1) in *. set (a := (other_slot hid, g_hdr (gh_next g))).
    pose proof (u_slots _ _ _ _ H) as (Hs1 & Hs2 & Hs3). fold hid in Hs1, Hs2, Hs3.
    set (p' := pin_header a (set_writer WIdle p)).
    assert (Hp' : p_cache p' = p_cache p /\ p_regs p' = p_regs p /\ p_readers p' = p_readers p /\ p_writer p' = WIdle).
    { unfold p', pin_header. destruct (a.1 =? 0); auto. }
    destruct Hp' as (Ep1 & Ep2 & Ep3 & Ep4).
    assert (Hlat' : latest p' = a).
    { unfold p', pin_header, latest, latest_of. destruct (N.eqb_spec a.1 0) as [E0|E0]; cbn [p_pin0 p_pin1 set_writer].
      - destruct (N.ltb_spec (h_tsn a.2) (h_tsn (p_pin1 p).2)) as [Hlt|Hlt]; [cbn in Hlt; lia|reflexivity].
      - destruct (N.ltb_spec (h_tsn (p_pin0 p).2) (h_tsn a.2)) as [Hlt|Hlt]; [reflexivity|cbn in Hlt; lia]. }
    assert (Hpin : p_pin1 p' = p_pin1 p \/ p_pin1 p' = a).
    { unfold p', pin_header. destruct (a.1 =? 0); auto. }
    assert (Hlo : forall b, h_tsn b.2 <= g_tsn (gh_cur g) -> latest_of b (p_pin1 p') = latest_of b (p_pin1 p) \/ latest_of b (p_pin1 p') = a).
    { intros b Hb. destruct Hpin as [->| ->]; [now left|]. right. unfold latest_of. destruct (N.ltb_spec (h_tsn b.2) (h_tsn a.2)) as [Hlt|Hlt]; [reflexivity|cbn in Hlt; lia]. }
    set (g' := Ghost (gh_next g) (gh_next g :: gh_list g) None (gh_next g)).
    set (sy' := SSys (g_st (gh_next g)) None true (cons (g_st (gh_next g)) <$> sp_calls sy) (sp_open sy)).
    exists g', sy'. split; [reflexivity|]. split.
    { destruct sy as [s al u calls open]. cbn in Ha, Hup, Hcur. subst. unfold sy'. cbn. apply SS_commit. exact N2. }
    assert (Hdur : forall q b, d_dur (d_synced d) q b -> d_dur d q b) by (intros q b; apply synced_dur, Hc).
    assert (Hcall : forall i (P : list spec_state -> Prop) l, sp_calls sy !! i = Some l -> sp_open sy !! i = None -> P (g_st (gh_next g) :: l) -> calling g' sy' i P).
    { intros i P l E1 E2 HP. exists (g_st (gh_next g) :: l). unfold sy'. cbn [sp_calls sp_open]. rewrite lookup_fmap, E1. cbn. split; [reflexivity|]. split; [exact E2|]. split; [set_solver|exact HP]. }
    assert (HnextL : forall G, G ∈ gh_list g -> G ∈ gh_list g') by (intros G HG; unfold g'; cbn; set_solver).
    constructor.
    - apply synced_cur, Hc.
    - rewrite Hlat', Ep4. cbn. split; [apply other_lt|]. split.
      + intros b Hb. cbn in Hb. rewrite Hwr in Hb. now subst b.
      + rewrite (other_other hid Hs1). intros b n Hb Hnb. apply Hdur in Hb. pose proof (Hs2 b Hb) as E2. exists (g_hdr (gh_cur g)). split; [congruence|]. left. lia.
    - rewrite Hlat'. reflexivity.
    - destruct (u_hdr _ _ _ _ H) as [_ Hv]. split; [exact N5|]. cbn. rewrite N1. cbn. exact Hv.
    - rewrite Ep1. eapply held_next; [exact Hn|exact Hh|intros q b _; apply Hdur|intros; now left|exact Hg].
    - rewrite Ep1. apply (u_nocache _ _ _ _ H).
    - unfold g'. cbn. set_solver.
    - unfold g'. cbn. intros G HG. apply elem_of_cons in HG as [->|HG]; [lia|]. pose proof (u_le _ _ _ _ H G HG). lia.
    - unfold g'. cbn. intros G HG. apply elem_of_cons in HG as [->|HG]; [exact (so_pos _ _ _ _ _ N3)|exact (u_pos _ _ _ _ H G HG)].
    - unfold g'. cbn. intros G1 G2 HG1 HG2 Et. apply elem_of_cons in HG1 as [->|HG1]; apply elem_of_cons in HG2 as [->|HG2].
      + reflexivity.
      + pose proof (u_le _ _ _ _ H G2 HG2). lia.
      + pose proof (u_le _ _ _ _ H G1 HG1). lia.
      + apply (u_inj _ _ _ _ H); assumption.
    - rewrite Ep2, Ep3. apply (u_regs _ _ _ _ H).
    - intros i. pose proof (u_readers _ _ _ _ H i) as Hi. unfold rinv in *. rewrite Ep3, Ep1, Ep4. destruct (p_readers p !! i) as [[|b|b|b|b b'|b]|] eqn:Er.
      + destruct Hi as (l & R1 & R2 & R3 & _). eapply Hcall; eauto.
      + destruct Hi as (R0 & l & R1 & R2 & R3 & G & R4 & R5 & R6). split; [cbn; lia|]. eapply Hcall; [exact R1|exact R2|].
        destruct (Hlo b R0) as [->| ->].
        * exists G. split; [apply HnextL, R4|]. split; [exact R5|set_solver].
        * exists (gh_next g). split; [unfold g'; cbn; set_solver|]. split; [reflexivity|set_solver].
      + destruct Hi as (l & R1 & R2 & R3 & G & R4 & R5 & R6). eapply Hcall; [exact R1|exact R2|]. exists G. split; [apply HnextL, R4|]. split; [exact R5|set_solver].
      + destruct Hi as (l & R1 & R2 & R3 & G & R4 & R5 & R6). eapply Hcall; [exact R1|exact R2|]. exists G. split; [apply HnextL, R4|]. split; [exact R5|set_solver].
      + destruct Hi as (R0 & l & R1 & R2 & R3 & G & R4 & R5 & R6 & R7). split; [cbn; lia|]. eapply Hcall; [exact R1|exact R2|]. exists G. split; [apply HnextL, R4|]. split; [exact R5|]. split; [set_solver|].
        pose proof (u_le _ _ _ _ H G R4) as Hle. rewrite R5 in Hle.
        destruct (Hlo b' R0) as [->| ->].
        * intros Ht. eapply prot_next; [exact Hn| |intros q c _; apply Hdur|apply (u_le _ _ _ _ H G R4)|exact (R7 Ht)]. rewrite Hx. exact I.
        * cbn. intros Ht. lia.
      + destruct Hi as (R1 & G & R2 & R3 & R4 & R5). unfold sy'. cbn [sp_calls sp_open]. rewrite lookup_fmap, R1. split; [reflexivity|]. exists G.
        split; [apply HnextL, R2|]. split; [exact R3|]. split; [exact R4|]. eapply prot_next; [exact Hn| |intros q c _; apply Hdur|apply (u_le _ _ _ _ H G R2)|exact R5]. rewrite Hx. exact I.
      + destruct Hi as (R1 & R2). unfold sy'. cbn [sp_calls sp_open]. rewrite lookup_fmap, R1. auto.
    - rewrite Ep4. exact I.
    - reflexivity.
    - rewrite Ep4. reflexivity.
    - reflexivity.
  Qed.

  (** *** A step of the process *)
  Lemma pstep_inv d p g sy l d' p' : uinv d p g sy -> pstep kw ps hash order ford caching d p l d' p' ->
    exists g' sy', spec_step ps sy l sy' /\ uinv d' p' g' sy'.
  Proof.
    intros H Hst. destruct Hst as
      [d p q n Hca Hq Hf|d p q|d p i Hi|d p i Hi|d p i a Hi|d p i a Hi|d p i a Hi|d p i a b Hi Ht|d p i a b Hi Ht|d p i a Hi
      |d p i a q start bw limit force Hi|d p i a Hi|d p i a src Hi
      |d p w Hx E|d p rd w done ans r a w' Hx Hwf E Hab|d p rd w done ans r Hx|d p rd w done ans w' todo Hx E Htodo Hs1 Hs2
      |d p w q n b todo done ans Hx E|d p w q n b todo done ans d' Hx Hd|d p w done ans Hx|d p w done ans d' Hx Hd
      |d p w done ans b Hx E|d p w done ans b d' Hx E Hd|d p w done ans Hx|d p w done ans d' Hx Hd].
    - exists g, sy. split; [apply SS_tau|]. apply cache_step; [exact H|congruence|]. intros x m Hx Hp. eapply pgood_load; eauto. exact (u_cur _ _ _ _ H).
    - exists g, sy. split; [apply SS_tau|]. apply cache_step; [exact H| |]. 
      + intros Hca. rewrite (u_nocache _ _ _ _ H Hca). apply delete_empty.
      + intros x m Hx Hp. now apply pgood_evict.
    - destruct (pstep_readers d p g sy i (LCall i) _ H ltac:(left; eauto)) as (sy' & Hs & Hu). eauto.
    - destruct (pstep_readers d p g sy i LTau _ H ltac:(right; left; eauto)) as (sy' & Hs & Hu). eauto.
    - destruct (pstep_readers d p g sy i LTau _ H ltac:(right; right; left; eauto)) as (sy' & Hs & Hu). eauto.
    - destruct (pstep_readers d p g sy i LTau _ H ltac:(do 3 right; left; eauto)) as (sy' & Hs & Hu). eauto.
    - destruct (pstep_readers d p g sy i LTau _ H ltac:(do 4 right; left; eauto)) as (sy' & Hs & Hu). eauto.
    - destruct (pstep_readers d p g sy i (LReady i) _ H ltac:(do 5 right; left; eauto 10)) as (sy' & Hs & Hu). eauto.
    - destruct (pstep_readers d p g sy i LTau _ H ltac:(do 6 right; left; eauto 10)) as (sy' & Hs & Hu). eauto.
    - destruct (pstep_readers d p g sy i (LClose i) _ H ltac:(do 7 right; eauto 10)) as (sy' & Hs & Hu). eauto.
    - pose proof (u_readers _ _ _ _ H i) as Hr. unfold rinv in Hr. rewrite Hi in Hr. destruct Hr as (_ & G & _ & Hh & Ho & Hp & _). rewrite <- Hh.
      exists g, sy. split; [|exact H]. rewrite (held_response d (p_cache p) G q start bw limit force (u_cur _ _ _ _ H) Hp). apply SS_read, Ho.
    - exists g. exact (head_step d p g sy i a H Hi).
    - pose proof (u_readers _ _ _ _ H i) as Hr. unfold rinv in Hr. rewrite Hi in Hr. destruct Hr as (_ & G & _ & Hh & Ho & Hp & _). rewrite <- Hh.
      exists g, sy. split; [|exact H]. rewrite (held_track d (p_cache p) G src (u_cur _ _ _ _ H) Hp). apply SS_track, Ho.
    - destruct (begin_step d p g sy w H Hx E) as (g' & Hu). exists g', sy. split; [apply SS_tau|exact Hu].
    - pose proof (u_writer _ _ _ _ H) as Hw. rewrite Hx in Hw. destruct Hw as (Hrd & PE & PT & PK & s & Ht & Hb).
      destruct (request_step kw ps hash order ford Hps Hkw Hord Hford rd (g_sn (gh_cur g)) (gh_sm g) w PE PT PK s r Ht Hwf) as (w1 & PE' & PT' & PK' & E1 & Ht').
      rewrite E in E1. injection E1 as -> ->.
      exists (Ghost (gh_cur g) (gh_list g) (gh_sm g) (gh_next g)), sy. split; [apply SS_tau|].
      apply quiet_step; [exact H|rewrite Hx; exact I|exact I|now rewrite Hx|reflexivity|]. cbn. split; [exact Hrd|].
      exists PE', PT', PK', (spec_append ps s (rq_events r) (rq_cond r) (rq_trk r)).2. split; [exact Ht'|]. rewrite spec_batch_snoc, Hb. reflexivity.
    - destruct (abort_step d p g sy d (done ++ r) H (u_cur _ _ _ _ H)) as (sy' & Hs & Hu); [now rewrite Hx|now rewrite Hx|auto|]. eauto.
    - destruct (commit_begin d p g sy rd w done ans w' todo H Hx E Htodo Hs1 Hs2) as (g' & Hu). exists g', sy. split; [apply SS_tau|exact Hu].
    - exists g, sy. split; [apply SS_tau|]. eapply page_step; eauto.
    - pose proof (u_writer _ _ _ _ H) as Hw. rewrite Hx in Hw. destruct Hw as (Hn & Hto & _). 
      assert (Hf : Txn.fresh (g_sn (gh_cur g)) (gh_sm g) q).
      { destruct Hn as (_ & _ & _ & _ & _ & N6 & _). apply N6. exists n. apply Hto. set_solver. }
      destruct Hd as [->|Hd].
      + destruct (abort_step d p g sy d done H (u_cur _ _ _ _ H)) as (sy' & Hs & Hu); [now rewrite Hx|now rewrite Hx|auto|]. eauto.
      + destruct (spoilt_ok _ _ _ _ (u_cur _ _ _ _ H) Hd) as [Hc Hd'].
        destruct (abort_step d p g sy d' done H Hc) as (sy' & Hs & Hu); [now rewrite Hx|now rewrite Hx| |eauto]. intros x c Hx' . apply Hd'. intros ->. exact (Hx' Hf).
    - exists g, sy. split; [apply SS_tau|]. apply sync_step; assumption.
    - destruct (unsynced_ok _ _ (u_cur _ _ _ _ H) Hd) as [Hc Hd'].
      destruct (abort_step d p g sy d' done H Hc) as (sy' & Hs & Hu); [now rewrite Hx|now rewrite Hx| |eauto]. intros x c _. apply Hd'.
    - exists g, sy. split; [apply SS_tau|]. apply header_write; assumption.
    - destruct (header_fails d p g sy w done ans b d' H Hx E Hd) as (sy' & Hs & Hu). eauto.
    - destruct (done_step d p g sy w done ans H Hx) as (g' & sy' & _ & Hs & Hu). eauto.
    - destruct (done_fails d p g sy w done ans d' H Hx Hd) as (sy' & Hs & Hu). eauto.
  Qed.

  (** *** Crashes and restarts *)
  Lemma slots_down d d' hid h alt : slots d hid h alt -> (forall q b, d_dur d' q b -> d_dur d q b) -> cur_ok d' -> d_settled d' ->
    slots d' hid h None \/ exists h', alt = Some h' /\ forall b, d_dur d' (other_slot hid) b -> dec b = Ok (NHeader h').
  Proof.
    intros (H1 & H2 & H3) Hd Hc Hs.
    assert (Hone : forall b, d_dur d' (other_slot hid) b -> b = d_cur d' (other_slot hid)) by (intros b; apply Hs, other_lt).
    destruct (dec (d_cur d' (other_slot hid))) as [n|e] eqn:En.
    - destruct (H3 _ n (Hd _ _ (Hc (other_slot hid))) En) as (h' & -> & [Hh|[Hh|Hh]]).
      + left. split; [exact H1|]. split; [intros b Hb; apply H2, Hd, Hb|]. intros b n Hb Hn. rewrite (Hone b Hb) in Hn. exists h'. split; [congruence|auto].
      + left. split; [exact H1|]. split; [intros b Hb; apply H2, Hd, Hb|]. intros b n Hb Hn. rewrite (Hone b Hb) in Hn. exists h'. split; [congruence|auto].
      + right. exists h'. split; [exact Hh|]. intros b Hb. now rewrite (Hone b Hb).
    - left. split; [exact H1|]. split; [intros b Hb; apply H2, Hd, Hb|]. intros b n Hb Hn. rewrite (Hone b Hb) in Hn. congruence.
  Qed.
  Lemma end_step d p g sy d' : uinv d p g sy -> (forall q b, d_dur d' q b -> d_dur d q b) -> cur_ok d' -> d_settled d' ->
    exists G, survives ps sy (in_flight (p_writer p)) (g_st G) /\ dinv d' G (SSys (g_st G) None false ∅ ∅).
  Proof.
    intros H Hd Hc Hs. pose proof (u_held _ _ _ _ H) as Hh. pose proof (u_slots _ _ _ _ H) as Hsl. pose proof (u_spec _ _ _ _ H) as Hcur.
    destruct (slots_down _ d' _ _ _ Hsl Hd Hc Hs) as [Hsl'|(h' & Ea & Hn')].
    - exists (gh_cur g). split; [left; now symmetry|]. constructor; [exact Hc|exact Hs|eauto|exact (u_hdr _ _ _ _ H)| |reflexivity].
      eapply held_sub; [exact Hh|intros q b _; apply Hd|]. intros q n _ _. right. left. apply lookup_empty.
    - assert (exists w done ans, nextok g w done ans /\ (forall q n, w_dirty w !! q = Some n -> pgood d (p_cache p) q n) /\ h' = g_hdr (gh_next g) /\
        survives ps sy (in_flight (p_writer p)) (g_st (gh_next g))) as (w & done & ans & Hn & Hg & -> & Hsv).
      { pose proof (u_writer _ _ _ _ H) as Hw. pose proof (u_alt _ _ _ _ H) as Hal. destruct (p_writer p); try discriminate; cbn in Hw, Ea.
        - destruct Hw as (N & N' & _). exists w, done, ans. split; [exact N|]. split; [exact N'|]. split; [congruence|]. right. right. cbn. rewrite Hcur.
          destruct N as (_ & N2 & _). now rewrite N2.
        - destruct Hw as (w & done & ans & N & N'). exists w, done, ans. split; [exact N|]. split; [exact N'|]. split; [congruence|]. right. left. exact Hal. }
      exists (gh_next g). split; [exact Hsv|]. pose proof Hn as (N1 & N2 & N3 & N4 & N5 & _). destruct Hsl as (Hs1 & Hs2 & _).
      constructor; [exact Hc|exact Hs| | | |reflexivity].
      + exists (other_slot (latest p).1). split; [apply other_lt|]. split; [exact Hn'|]. rewrite other_other by exact Hs1. intros b n Hb Hnb.
        pose proof (Hs2 b (Hd _ _ Hb)) as E. exists (g_hdr (gh_cur g)). split; [congruence|]. left. lia.
      + destruct (u_hdr _ _ _ _ H) as [_ Hv]. split; [exact N5|]. rewrite N1. exact Hv.
      + eapply held_next; [exact Hn|exact Hh|intros q b _; apply Hd| |exact Hg]. intros q. right. apply lookup_empty.
  Qed.
  Lemma crashed_ok d d' : d_crashed d d' -> (forall q b, d_dur d' q b -> d_dur d q b) /\ cur_ok d' /\ d_settled d'.
  Proof.
    intros (f & Hf & ->). split; [intros q b; cbn; intros ->; apply Hf|]. split; [intros q; reflexivity|]. intros q c _ E. exact E.
  Qed.

  (** The root pages are of the right kind. *)
  Lemma shape_root {K E : Type} (ops : tree_ops K) (leafrep : (N -> option node) -> node -> list N -> list E -> Prop) get h r P ts :
    shape ops leafrep get h r P ts -> r ∈ P /\ exists n, get r = Some n /\ (t_leaf ops n = true \/ exists i, t_int ops n = Some i).
  Proof. intros H. destruct H; (split; [set_solver|]; eauto 10). Qed.
  Lemma roots_ok d c G : cur_ok d -> held d c G -> hdr_ok (g_hdr G) -> check_roots kw (fetch kw c d) (g_hdr G) = Ok tt.
  Proof.
    intros Hc Hh [_ Hv]. pose proof (proj1 Hh) as [S1 S2 S3 _ _ _ _].
    destruct S1 as [(h1 & ts1 & S1 & _) (h2 & ts2 & S1' & _)]. destruct S3 as (h3 & ts3 & S3 & _).
    apply shape_root in S1 as (I1 & n1 & G1 & K1). apply shape_root in S1' as (I2 & n2 & G2 & K2). apply shape_root in S3 as (I3 & n3 & G3 & K3).
    assert (E1 : fetch kw c d (h_events_root (g_hdr G)) = Ok n1) by (eapply held_fetch; eauto; unfold sn_live; set_solver).
    assert (E2 : fetch kw c d (h_tags_root (g_hdr G)) = Ok n2) by (eapply held_fetch; eauto; unfold sn_live; set_solver).
    assert (E3 : fetch kw c d (h_free_root (g_hdr G)) = Ok n3) by (eapply held_fetch; eauto; unfold sn_live; set_solver).
    assert (R1 : is_ev_root n1 = true) by (destruct n1; try reflexivity; destruct K1 as [K1|(? & K1)]; discriminate).
    assert (R2 : is_tags_root n2 = true) by (destruct n2; try reflexivity; destruct K2 as [K2|(? & K2)]; discriminate).
    assert (R3 : is_free_root n3 = true) by (destruct n3; try reflexivity; destruct K3 as [K3|(? & K3)]; discriminate).
    unfold check_roots. rewrite E1, E2, E3. cbn [check_root]. rewrite R1, R2, R3.
    assert (Hr : (if h_tracking_root (g_hdr G) =? 0 then Ok tt else check_root is_trk_root (fetch kw c d (h_tracking_root (g_hdr G)))) = Ok tt).
    { destruct S2 as (es & [(E0 & _)|(E0 & h4 & ts4 & S4 & _)] & _); [now rewrite E0|]. rewrite (proj2 (N.eqb_neq _ _)) by exact E0.
      apply shape_root in S4 as (I4 & n4 & G4 & K4).
      assert (E4 : fetch kw c d (h_tracking_root (g_hdr G)) = Ok n4) by (eapply held_fetch; eauto; unfold sn_live; set_solver).
      rewrite E4. cbn. assert (R4 : is_trk_root n4 = true) by (destruct n4; try reflexivity; destruct K4 as [K4|(? & K4)]; discriminate). now rewrite R4. }
    destruct Hv as [[-> ->]|[-> ->]]; cbn; rewrite Hr; reflexivity.
  Qed.

  (** Opening finds the committed state. *)
  Lemma opened d G d' p : cur_ok d' -> (forall q b, 2 <= q -> d_dur d' q b -> d_dur d q b) -> held d ∅ G -> hdr_ok (g_hdr G) ->
    (latest p).2 = g_hdr G -> slots d' (latest p).1 (g_hdr G) None ->
    p = Proc (p_pin0 p) (p_pin1 p) ∅ ∅ ∅ WIdle ->
    check_roots kw (fetch kw ∅ d') (latest p).2 = Ok tt /\ uinv d' p (Ghost G [G] None G) (SSys (g_st G) None true ∅ ∅).
  Proof.
    intros Hc Hd Hh Hok Hl Hs Hp.
    assert (Hh' : held d' ∅ G).
    { eapply held_sub; [exact Hh| |intros; now left]. intros q b Hq. apply Hd. apply (live_two _ q _ (proj1 Hh) Hq). }
    split; [rewrite Hl; now apply roots_ok|]. destruct p as [pin0 pin1 c regs rs x]. cbn in Hp. injection Hp as -> -> -> ->. constructor; cbn; auto.
    - set_solver.
    - intros G' HG. apply elem_of_list_singleton in HG as ->. lia.
    - intros G' HG. apply elem_of_list_singleton in HG as ->. exact (so_pos _ _ _ _ _ (proj1 Hh)).
    - intros G1 G2 HG1 HG2. apply elem_of_list_singleton in HG1 as ->. now apply elem_of_list_singleton in HG2 as ->.
    - intros t. rewrite lookup_empty. reflexivity.
    - intros i. unfold rinv. cbn. rewrite lookup_empty. split; apply lookup_empty.
  Qed.
  Lemma open_ok d G sy : dinv d G sy ->
    exists d' p, open_db kw ps d = Ok (d', p) /\ uinv d' p (Ghost G [G] None G) (SSys (g_st G) None true ∅ ∅).
  Proof.
    intros [Hc Hst (hid & Hs1 & Hs2 & Hs3) Hh Hheld ->]. pose proof Hh as [Hsto _].
    assert (Hone : forall q b, q < 2 -> d_dur d q b -> b = d_cur d q) by (intros q b; apply Hst).
    assert (exists b, page_ser kw ps (NHeader (g_hdr G)) = Ok b) as (b & Eb).
    { apply page_size_safe; [exact Hkw|exact (proj1 Hsto)|]. unfold page_size_of, PAGE_HEADER_SIZE. cbn [node_size]. assert (header_size (g_hdr G) <= 62) by (unfold header_size; destruct (_ =? _); lia). unfold ps_ok in Hps. lia. }
    pose proof (stored _ _ Hsto Eb) as Hb. pose proof (Hs2 _ (Hc hid)) as E1.
    assert (Hw : forall o, o < 2 -> (forall c, d_dur d o c -> exists e, dec c = Err e) -> forall c n, d_dur (d_write kw o b d) o c -> dec c = Ok n -> n = NHeader (g_hdr G)).
    { intros o Ho Her c n Hcn Hn. cbn in Hcn. rewrite N.eqb_refl in Hcn. destruct Hcn as [->|Hm]; [congruence|].
      unfold may_hold in Hm. rewrite (proj2 (N.ltb_lt _ _)) in Hm by exact Ho. destruct (Hm n Hn) as [Hm'|(c0 & Hc0 & Hn0)]; [congruence|].
      destruct (Her c0 Hc0) as (e & He). congruence. }
    assert (hid = 0 \/ hid = 1) as [-> | ->] by lia.
    - change (other_slot 0) with 1 in Hs3. unfold open_db. rewrite E1. destruct (dec (d_cur d 1)) as [n1|e] eqn:E2.
      + destruct (Hs3 _ _ (Hc 1) E2) as (h1 & -> & Hh1). cbn [read_headers rbind as_header snd fst].
        set (p := Proc (0, g_hdr G) (1, h1) ∅ ∅ ∅ WIdle).
        assert (Hl : latest p = (0, g_hdr G)).
        { unfold latest, latest_of. cbn. destruct (N.ltb_spec (h_tsn (g_hdr G)) (h_tsn h1)) as [Hlt|_]; [|reflexivity]. destruct Hh1 as [Hh1|[->|Hh1]]; [lia|lia|discriminate]. }
        destruct (opened d G d p Hc ltac:(auto) Hheld Hh) as [O1 O2]; [now rewrite Hl| |reflexivity|].
        { rewrite Hl. split; [cbn; lia|]. split; [exact Hs2|exact Hs3]. }
        rewrite O1. cbn. eauto.
      + cbn [read_headers rbind]. rewrite Eb. cbn [rbind as_header snd fst].
        set (p := Proc (0, g_hdr G) (0, g_hdr G) ∅ ∅ ∅ WIdle).
        assert (Hl : latest p = (0, g_hdr G)) by (unfold latest, latest_of; cbn; now rewrite N.ltb_irrefl).
        destruct (opened d G (d_write kw 1 b d) p) as [O1 O2]; [now apply write_cur|intros q c Hq; apply write_dur; lia|exact Hheld|exact Hh|now rewrite Hl| |reflexivity|].
        { rewrite Hl. split; [cbn; lia|]. split; [intros c Hcc; apply Hs2; exact Hcc|]. intros c n Hcc Hn. exists (g_hdr G). split; [|auto].
          eapply (Hw 1); [lia| |exact Hcc|exact Hn]. intros c0 Hc0. rewrite (Hone 1 c0 ltac:(lia) Hc0). eauto. }
        rewrite O1. cbn. eauto.
    - change (other_slot 1) with 0 in Hs3. unfold open_db. rewrite E1. destruct (dec (d_cur d 0)) as [n0|e] eqn:E2.
      + destruct (Hs3 _ _ (Hc 0) E2) as (h0 & -> & Hh0). cbn [read_headers rbind as_header snd fst].
        set (p := Proc (0, h0) (1, g_hdr G) ∅ ∅ ∅ WIdle).
        assert (Hl : (latest p = (1, g_hdr G) \/ (latest p = (0, g_hdr G) /\ h0 = g_hdr G))).
        { unfold latest, latest_of. cbn. destruct (N.ltb_spec (h_tsn h0) (h_tsn (g_hdr G))) as [Hlt|Hge]; [now left|]. right.
          destruct Hh0 as [Hh0|[->|Hh0]]; [lia|auto|discriminate]. }
        destruct (opened d G d p Hc ltac:(auto) Hheld Hh) as [O1 O2]; [now destruct Hl as [->|[-> _]]| |reflexivity|].
        { destruct Hl as [->|[-> ->]].
          - split; [cbn; lia|]. split; [exact Hs2|exact Hs3].
          - split; [cbn; lia|]. cbn [fst]. split; [intros c Hcc; now rewrite (Hone 0 c ltac:(lia) Hcc)|]. change (other_slot 0) with 1. intros c n Hcc Hn.
            exists (g_hdr G). split; [|auto]. rewrite (Hs2 c Hcc) in Hn. congruence. }
        rewrite O1. cbn. eauto.
      + cbn [read_headers rbind]. rewrite Eb. cbn [rbind as_header snd fst].
        set (p := Proc (1, g_hdr G) (1, g_hdr G) ∅ ∅ ∅ WIdle).
        assert (Hl : latest p = (1, g_hdr G)) by (unfold latest, latest_of; cbn; now rewrite N.ltb_irrefl).
        destruct (opened d G (d_write kw 0 b d) p) as [O1 O2]; [now apply write_cur|intros q c Hq; apply write_dur; lia|exact Hheld|exact Hh|now rewrite Hl| |reflexivity|].
        { rewrite Hl. split; [cbn; lia|]. split; [intros c Hcc; apply Hs2; exact Hcc|]. change (other_slot (1, g_hdr G).1) with 0. intros c n Hcc Hn. exists (g_hdr G). split; [|auto].
          eapply (Hw 0); [lia| |exact Hcc|exact Hn]. intros c0 Hc0. rewrite (Hone 0 c0 ltac:(lia) Hc0). eauto. }
        rewrite O1. cbn. eauto.
  Qed.

  (** ** Refinement *)
  Theorem step_inv y sy l y' : inv y sy -> step kw ps hash order ford caching y l y' -> exists sy', spec_step ps sy l sy' /\ inv y' sy'.
  Proof.
    intros H Hst. destruct Hst as [d p l d' p' Hp|d p d' Hd|d d' Hd|d p Hset|d d' p Ho].
    - destruct H as (g & H). destruct (pstep_inv _ _ _ _ _ _ _ H Hp) as (g' & sy' & Hs & Hu). exists sy'. split; [exact Hs|]. exists g'. exact Hu.
    - destruct H as (g & H). destruct (crashed_ok _ _ Hd) as (Hd1 & Hd2 & Hd3). destruct (end_step _ _ _ _ _ H Hd1 Hd2 Hd3) as (G & Hsv & Hdn).
      eexists. split; [apply SS_crash; exact Hsv|]. exists G. exact Hdn.
    - destruct H as (G & H). destruct (crashed_ok _ _ Hd) as (Hd1 & Hd2 & Hd3). destruct H as [Hc Hst (hid & Hsl) Hh Hheld ->].
      eexists. split; [apply SS_crash; left; reflexivity|]. exists G. constructor; [exact Hd2|exact Hd3| |exact Hh| |reflexivity].
      + exists hid. eapply slots_sub; [exact Hsl|]. intros q b _. apply Hd1.
      + eapply held_sub; [exact Hheld|intros q b _; apply Hd1|intros; now left].
    - destruct H as (g & H). cbn [y_disk] in H. destruct (end_step _ _ _ _ d H ltac:(auto) (u_cur _ _ _ _ H) Hset) as (G & Hsv & Hdn).
      eexists. split; [apply SS_kill; exact Hsv|]. exists G. exact Hdn.
    - destruct H as (G & H). cbn [y_disk] in H. destruct (open_ok _ _ _ H) as (d1 & p1 & Eo & Hu). rewrite Ho in Eo. injection Eo as <- <-.
      pose proof (dn_spec _ _ _ H) as ->. eexists. split; [apply SS_open|]. eexists. exact Hu.
  Qed.
End inv.

(** ** A new database *)
Definition init_snap : psnap :=
  PSnap (Snap init_header [2] [3] [4] [] [] spec_empty) init_page.
Section init.
  Context (ps : N) (hash : bytes -> bytes) (order : list bytes -> list bytes) (ford : gset N -> list N) (caching : bool).
  Context (Hps : ps_ok ps) (Hps32 : ps < U32) (Hord : forall l t, t ∈ order l <-> t ∈ l) (Hford : forall s, ford s ≡ₚ elements s).

  Lemma init_snap_ok : snap_ok 16 ps hash init_page (g_sn init_snap).
  Proof.
    constructor; cbn.
    - split.
      + exists 0%nat, []. split; [|split; [constructor|split; [exact I|reflexivity]]].
        eapply (sh_leaf ev_ops evleaf init_page 3 _ [] []); [reflexivity|reflexivity|]. exists []. split; [reflexivity|constructor].
      + exists 0%nat, []. split; [|split; [constructor|]].
        * eapply (sh_leaf (tags_ops []) (tagsleaf 16 ps) init_page 4 _ [] []); [reflexivity|reflexivity|]. exists []. split; [reflexivity|constructor].
        * intros x p. split; [intros H; inversion H|]. intros (r & t & H & _). inversion H.
    - exists []. split; [now left|reflexivity].
    - exists 0%nat, []. split; [|split; [reflexivity|split; [constructor|]]].
      + eapply (sh_leaf fl_ops flleaf init_page 2 _ [] []); [reflexivity|reflexivity|]. exists []. split; [reflexivity|constructor].
      + intros t H. inversion H.
    - reflexivity.
    - reflexivity.
    - lia.
    - reflexivity.
    - intros q n Hq. unfold sn_live in Hq. cbn in Hq. rewrite !elem_of_cons in Hq. unfold ps_ok in Hps.
      assert (11 <= ps) as H11 by lia. destruct Hq as [->|[->|[->|Hq]]]; [intros E; injection E as <-..|inversion Hq]; [exact H11|exact H11|exact I].
  Qed.
  Lemma init_storable q n : init_page q = Some n -> storable 16 n /\ page_size_of 16 n <= 1024.
  Proof.
    unfold init_page.
    destruct (q =? 0); [intros [= <-]|destruct (q =? 1); [intros [= <-]|destruct (q =? 2); [intros [= <-]|
      destruct (q =? 3); [intros [= <-]|destruct (q =? 4); [intros [= <-]|discriminate]]]]].
    all: split; [split; [|exact I || constructor]|vm_compute; congruence].
    all: repeat split; try constructor; vm_compute; reflexivity.
  Qed.
  Lemma init_dec q n : init_page q = Some n -> dec 16 (init_file 16 ps q) = Ok n.
  Proof.
    intros E. destruct (init_storable q n E) as [Hs Hz]. unfold init_file. rewrite E.
    destruct (page_size_safe 16 ps n) as (b & Eb); [lia|exact (proj1 Hs)|unfold ps_ok in Hps; lia|]. rewrite Eb.
    eapply stored; eauto.
  Qed.
  Lemma init_inv : inv 16 ps hash caching (init_sys 16 ps) spec_init.
  Proof.
    exists (Ghost init_snap [init_snap] None init_snap). constructor; cbn.
    - intros q. reflexivity.
    - split; [lia|]. split; [intros b ->; apply init_dec; reflexivity|]. intros b n -> Hn. exists init_header. split; [|auto].
      change (other_slot 0) with 1 in Hn. rewrite (init_dec 1 (NHeader init_header) eq_refl) in Hn. congruence.
    - reflexivity.
    - split; [exact (proj1 (init_storable 0 (NHeader init_header) eq_refl))|]. right. auto.
    - split; [apply init_snap_ok|]. intros q Hq. assert (exists n, init_page q = Some n) as (n & En).
      { unfold sn_live in Hq. cbn in Hq. rewrite !elem_of_cons in Hq. destruct Hq as [->|[->|[->|Hq]]]; [eauto|eauto|eauto|inversion Hq]. }
      exists n. split; [exact En|]. split; [intros b ->; now apply init_dec|]. left. apply lookup_empty.
    - reflexivity.
    - set_solver.
    - intros G HG. apply elem_of_list_singleton in HG as ->. cbn; lia.
    - intros G HG. apply elem_of_list_singleton in HG as ->. reflexivity.
    - intros G1 G2 HG1 HG2. apply elem_of_list_singleton in HG1 as ->. now apply elem_of_list_singleton in HG2 as ->.
    - intros t. rewrite lookup_empty. reflexivity.
    - intros i. unfold rinv. cbn. rewrite lookup_empty. split; apply lookup_empty.
    - exact I.
    - reflexivity.
    - reflexivity.
    - reflexivity.
  Qed.

  (** Whatever the database does is allowed by SpecSys.v. *)
  Theorem refines tr y : steps 16 ps hash order ford caching (init_sys 16 ps) tr y ->
    exists sy, spec_steps ps spec_init tr sy /\ inv 16 ps hash caching y sy.
  Proof.
    intros H. remember (init_sys 16 ps) as y0 eqn:E0. induction H as [y|y tr y' l y'' H IH Hst]; subst.
    - exists spec_init. split; [constructor|apply init_inv].
    - destruct (IH eq_refl) as (sy & Hs & Hi).
      destruct (step_inv 16 ps hash order ford caching Hps Hps32 ltac:(lia) Hord Hford y' sy l y'' Hi Hst) as (sy' & Hs' & Hi').
      exists sy'. split; [econstructor; eassumption|exact Hi'].
  Qed.
End init.
