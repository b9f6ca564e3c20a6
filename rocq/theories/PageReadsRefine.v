(** Reads spread over time refine reads made at once: the argument for any system, from what each system must give. *)
From Verif Require Import Walk Mvcc MvccProofs SpecSys PageReads PageReadsProofs PropsPages.
Local Open Scope N_scope.

(** What a walk passes is closed under references. *)
Lemma walks_closed get l P F : walks get l P F ->
  (forall x, x ∈ l -> x ∈ P) /\ forall q, q ∈ P -> exists n, get q = Some n /\ forall x, x ∈ refs n -> x ∈ P.
Proof.
  induction 1 as [|p n l P F P1 F1 Hg H1 [IH1 IH1'] H2 [IH2 IH2']]; [split; intros q Hq; now apply not_elem_of_nil in Hq|].
  split.
  - intros x Hx. apply elem_of_cons in Hx as [->|Hx]; [apply elem_of_list_here|]. apply elem_of_cons; right. apply elem_of_app; auto.
  - intros q Hq. apply elem_of_cons in Hq as [->|Hq].
    + exists n. split; [exact Hg|]. intros x Hx. apply elem_of_cons; right. apply elem_of_app; auto.
    + apply elem_of_app in Hq as [Hq|Hq]; [destruct (IH1' _ Hq) as (m & Hm & Hr)|destruct (IH2' _ Hq) as (m & Hm & Hr)];
        exists m; (split; [exact Hm|]); intros x Hx; apply elem_of_cons; right; apply elem_of_app; auto.
Qed.

(** A program that follows references gives the same wherever these pages are the same. *)
Lemma at_once_agree {A} (P : N -> Prop) rd rd' (K : N -> Prop) (t : prog A) :
  follows (fun _ _ => True) K t -> (forall x, K x -> P x) ->
  (forall q, P q -> rd' q = rd q /\ exists n, rd q = Ok n /\ forall x, x ∈ refs n -> P x) -> at_once rd' t = at_once rd t.
Proof.
  revert K. induction t as [a|q k IH]; intros K Hf HK HP; [reflexivity|]. cbn. cbn in Hf. destruct Hf as (Hq & Hn).
  destruct (HP q (HK _ Hq)) as (-> & n & En & Hr). rewrite En.
  eapply IH; [exact (Hn (Ok n))| |exact HP]. intros x [Hx|Hx]; auto.
Qed.

(** The answers of a state. *)
Definition answers (st : spec_state) (i : nat) (l : label) : Prop :=
  (exists q start bw limit, l = LRead i q start bw limit
     (Ok (spec_read (s_hist st) q start bw limit, spec_read_head st limit (spec_read (s_hist st) q start bw limit)))) \/
  (exists src, l = LTrack i src (Ok (s_track st src))).
(** Every read through [rd] from the header [h] gives what the state says. *)
Definition reads_as (hash : bytes -> bytes) (order : list bytes -> list bytes) (rd : snapshot) (h : header) (st : spec_state) : Prop :=
  (forall q start bw limit force, umadb_read hash order rd h q start bw limit force =
     Ok (spec_read (s_hist st) q start bw limit, spec_read_head st limit (spec_read (s_hist st) q start bw limit))) /\
  (forall src, get_tracking_info (N.to_nat (h_next_page h)) rd (h_tracking_root h) src = Ok (s_track st src)).
(** The pages [P] are there, and the cache does not say otherwise. *)
Definition sound_pages (d : disk) (c : gmap N node) (P : list N) : Prop :=
  forall q, q ∈ P -> 2 <= q /\ exists n, on_disk d q = Some n /\ (c !! q = None \/ c !! q = Some n).
(** After the step, reader [i] still shows what it showed. *)
Definition stays (i : nat) (l : label) : Prop :=
  match l with LReady j => j <> i | LClose j => j <> i | LCrash _ | LKill _ => False | _ => True end.

Lemma asks_answers hash order rd h st i l : reads_as hash order rd h st -> asks hash order rd i h l -> answers st i l.
Proof.
  intros [H1 H2] [(q & start & bw & limit & force & ->)|(src & ->)].
  - left. exists q, start, bw, limit. now rewrite H1.
  - right. exists src. now rewrite H2.
Qed.
Lemma answers_asks hash order rd h st i l : reads_as hash order rd h st -> answers st i l -> asks hash order rd i h l.
Proof.
  intros [H1 H2] [(q & start & bw & limit & ->)|(src & ->)].
  - left. exists q, start, bw, limit, false. now rewrite H1.
  - right. exists src. now rewrite H2.
Qed.
Lemma stays_open ps sy l sy' i st : spec_step ps sy l sy' -> stays i l -> sp_open sy !! i = Some st -> sp_open sy' !! i = Some st.
Proof.
  intros H Hs Ho. destruct H; cbn in *; try exact Ho; try contradiction.
  - now rewrite lookup_insert_ne.
  - now rewrite lookup_delete_ne.
Qed.
Lemma on_disk_dec d q n : on_disk d q = Some n <-> dec 16 (d_cur d q) = Ok n.
Proof. unfold on_disk. destruct (dec 16 (d_cur d q)); split; congruence. Qed.
Lemma sound_fetch d c P q : sound_pages d c P -> q ∈ P -> exists n, on_disk d q = Some n /\ fetch 16 c d q = Ok n.
Proof.
  intros H Hq. destruct (H q Hq) as (H2 & n & Hn & Hc). exists n. split; [exact Hn|]. apply on_disk_dec in Hn.
  unfold fetch. destruct (N.ltb_spec q 2); [lia|]. destruct Hc as [->| ->]; [exact Hn|reflexivity].
Qed.

Section refine.
  Context {St : Type} (ps : N) (hash : bytes -> bytes) (order : list bytes -> list bytes) (caching : bool).
  Context (sstep : St -> label -> St -> Prop) (view : St -> option (disk * proc)) (put_cache : gmap N node -> St -> St)
    (others : St -> St -> Prop) (C : St -> St -> Prop) (Inv : St -> spec_sys -> Prop).
  Notation xstep := (xstep 16 hash order caching sstep view put_cache others).
  Notation xsteps := (xsteps 16 hash order caching sstep view put_cache others C).
  Notation asks := (asks hash order).

  Context (H_step : forall s sy l s', Inv s sy -> sstep s l s' -> C s s' -> exists sy', spec_step ps sy l sy' /\ Inv s' sy').
  Context (H_open : forall s sy d p i a, Inv s sy -> view s = Some (d, p) -> p_readers p !! i = Some (ROpen a) ->
    exists st P F, sp_open sy !! i = Some st /\ walks (on_disk d) (refs (NHeader a.2)) P F /\ sound_pages d (p_cache p) P /\
      reads_as hash order (fetch 16 (p_cache p) d) a.2 st).
  Context (H_kept : forall s sy l s' d p d' p' i a, Inv s sy -> sstep s l s' -> C s s' -> view s = Some (d, p) -> view s' = Some (d', p') ->
    p_readers p !! i = Some (ROpen a) -> l <> LClose i -> stays i l /\ p_readers p' !! i = Some (ROpen a) /\
    forall P F, walks (on_disk d) (refs (NHeader a.2)) P F -> forall q, q ∈ P -> on_disk d' q = on_disk d q).
  Context (H_load : forall s sy d p q n, Inv s sy -> view s = Some (d, p) -> caching = true -> 2 <= q -> fetch 16 (p_cache p) d q = Ok n ->
    let s' := put_cache (<[q := n]> (p_cache p)) s in
    sstep s LTau s' /\ C s s' /\ view s' = Some (d, set_cache (<[q := n]> (p_cache p)) p)).
  Context (H_same : forall s sy d p, Inv s sy -> view s = Some (d, p) -> sstep s LTau s /\ C s s).
  Context (H_read : forall s sy d p i a l, Inv s sy -> view s = Some (d, p) -> p_readers p !! i = Some (ROpen a) ->
    asks (fetch 16 (p_cache p) d) i a.2 l -> sstep s l s /\ C s s).
  Context (H_latest : forall s sy d p, Inv s sy -> view s = Some (d, p) -> exists P F, walks (on_disk d) (refs (NHeader (latest p).2)) P F /\ sound_pages d (p_cache p) P).
  Context (H_lkept : forall s sy l s' d p d' p', Inv s sy -> sstep s l s' -> C s s' -> others s s' -> view s = Some (d, p) -> view s' = Some (d', p') ->
    latest p' = latest p /\ forall P F, walks (on_disk d) (refs (NHeader (latest p).2)) P F -> forall q, q ∈ P -> on_disk d' q = on_disk d q).

  (** A call that is being answered: its program asks only for pages of the state, and will give this state's answer. *)
  Definition task_ok (s : St) (sy : spec_sys) (i : nat) (u : task) : Prop :=
    exists d p a st P F l, view s = Some (d, p) /\ p_readers p !! i = Some (ROpen a) /\ sp_open sy !! i = Some st /\
      walks (on_disk d) (refs (NHeader a.2)) P F /\ sound_pages d (p_cache p) P /\ answers st i l /\
      exists t K, follows (fun _ _ => True) K t /\ (forall x, K x -> x ∈ P) /\ at_once (fetch 16 (p_cache p) d) t = l /\
        match u with
        | Running t' => t' = t
        | Loading q n k => caching = true /\ q ∈ P /\ on_disk d q = Some n /\ t = k (Ok n)
        end.
  Definition load_ok (s : St) (w : N * node) : Prop :=
    exists d p P F, view s = Some (d, p) /\ caching = true /\ walks (on_disk d) (refs (NHeader (latest p).2)) P F /\ w.1 ∈ P /\ on_disk d w.1 = Some w.2.
  Definition xinv (x : xsys) (sy : spec_sys) : Prop :=
    Inv (x_sys x) sy /\ (forall i u, x_tasks x !! i = Some u -> task_ok (x_sys x) sy i u) /\ (forall w, x_load x = Some w -> load_ok (x_sys x) w).

  (** A task survives a step that leaves its reader open. *)
  Lemma task_kept s sy l s' sy' d p i u : Inv s sy -> sstep s l s' -> C s s' -> spec_step ps sy l sy' -> Inv s' sy' -> view s' = Some (d, p) ->
    l <> LClose i -> task_ok s sy i u -> task_ok s' sy' i u.
  Proof.
    intros Hi Hst HC Hsp Hi' Hv' Hl (d0 & p0 & a & st & P & F & l0 & Hv & Hr & Ho & Hw & Hs & Ha & t & K & Hf & HK & He & Hu).
    destruct (H_kept _ _ _ _ _ _ _ _ _ _ Hi Hst HC Hv Hv' Hr Hl) as (Hst' & Hr' & Hd). specialize (Hd _ _ Hw).
    destruct (H_open _ _ _ _ _ _ Hi' Hv' Hr') as (st' & P' & F' & Ho' & Hw' & Hs' & _).
    rewrite (stays_open _ _ _ _ _ _ Hsp Hst' Ho) in Ho'. injection Ho' as <-.
    pose proof (walks_frame _ _ _ _ _ Hw Hd) as Hw2. destruct (walks_unique _ _ _ _ _ _ Hw2 Hw') as [-> ->].
    exists d, p, a, st, P, F, l0. split; [exact Hv'|]. split; [exact Hr'|]. split; [exact (stays_open _ _ _ _ _ _ Hsp Hst' Ho)|].
    split; [exact Hw2|]. split; [exact Hs'|]. split; [exact Ha|]. exists t, K. split; [exact Hf|]. split; [exact HK|]. split.
    - rewrite <- He. apply (at_once_agree (fun x => x ∈ P) (fetch 16 (p_cache p0) d0) (fetch 16 (p_cache p) d) K); [exact Hf|exact HK|].
      intros q Hq. destruct (sound_fetch _ _ _ _ Hs Hq) as (n & Hn & E). destruct (sound_fetch _ _ _ _ Hs' Hq) as (n' & Hn' & E').
      rewrite (Hd q Hq) in Hn'. assert (n' = n) as -> by congruence. split; [congruence|]. exists n. split; [exact E|].
      destruct (proj2 (walks_closed _ _ _ _ Hw) q Hq) as (m & Hm & Hr0). assert (m = n) as -> by congruence. exact Hr0.
    - destruct u as [t'|q n k]; [exact Hu|]. destruct Hu as (H1 & H2 & H3 & H4). split; [exact H1|]. split; [exact H2|]. split; [|exact H4].
      rewrite (Hd q H2). exact H3.
  Qed.
  (** A program goes on with the page it asked for. *)
  Lemma task_next s sy i q k d p n : task_ok s sy i (Running (Ask q k)) -> view s = Some (d, p) -> on_disk d q = Some n ->
    task_ok s sy i (Running (k (Ok n))) /\ (caching = true -> task_ok s sy i (Loading q n k)).
  Proof.
    intros (d0 & p0 & a & st & P & F & l0 & Hv & Hr & Ho & Hw & Hs & Ha & t & K & Hf & HK & He & <-) Hv' Hn.
    assert (d0 = d /\ p0 = p) as [-> ->] by (split; congruence). cbn in Hf. destruct Hf as [Hq Hf].
    assert (forall x, K x \/ x ∈ refs n -> x ∈ P) as HK'.
    { intros x [Hx|Hx]; [auto|]. destruct (proj2 (walks_closed _ _ _ _ Hw) q (HK _ Hq)) as (m & Hm & Hr0). assert (m = n) as -> by congruence. auto. }
    assert (at_once (fetch 16 (p_cache p) d) (k (Ok n)) = l0) as He'.
    { rewrite <- He. cbn. destruct (sound_fetch _ _ _ _ Hs (HK _ Hq)) as (m & Hm & ->). assert (m = n) as -> by congruence. reflexivity. }
    split; [|intros Hca]; exists d, p, a, st, P, F, l0; do 6 (split; [assumption|]); exists (k (Ok n)), (fun x => K x \/ x ∈ refs n);
      (split; [exact (Hf (Ok n))|]); auto.
    split; [exact HK'|]. split; [exact He'|]. auto.
  Qed.
  Lemma task_next1 s sy i q k d p n : task_ok s sy i (Running (Ask q k)) -> view s = Some (d, p) -> on_disk d q = Some n -> task_ok s sy i (Running (k (Ok n))).
  Proof. intros H1 H2 H3. exact (proj1 (task_next _ _ _ _ _ _ _ _ H1 H2 H3)). Qed.
  Lemma task_page s sy i q k : task_ok s sy i (Running (Ask q k)) -> exists d p n, view s = Some (d, p) /\ 2 <= q /\ on_disk d q = Some n /\
    (p_cache p !! q = None \/ p_cache p !! q = Some n).
  Proof.
    intros (d & p & a & st & P & F & l0 & Hv & Hr & Ho & Hw & Hs & Ha & t & K & Hf & HK & He & <-). cbn in Hf. destruct Hf as [Hq Hf].
    destruct (Hs q (HK _ Hq)) as (H2 & n & Hn & Hc). exists d, p, n. auto.
  Qed.
  Lemma task_loading s sy i q n k : task_ok s sy i (Loading q n k) -> exists d p, view s = Some (d, p) /\ caching = true /\ 2 <= q /\ on_disk d q = Some n /\
    fetch 16 (p_cache p) d q = Ok n /\ task_ok s sy i (Running (k (Ok n))).
  Proof.
    intros (d & p & a & st & P & F & l0 & Hv & Hr & Ho & Hw & Hs & Ha & t & K & Hf & HK & He & (H1 & H2 & H3 & ->)).
    exists d, p. destruct (sound_fetch _ _ _ _ Hs H2) as (m & Hm & E). assert (m = n) as -> by congruence.
    repeat (split; [auto; apply (Hs q H2)|]). exists d, p, a, st, P, F, l0. do 6 (split; [assumption|]). exists (k (Ok n)), K. auto.
  Qed.
  (** Putting a loaded page into the cache is a step of the system. *)
  Lemma put_ok s sy (T : gmap nat task) (W : option (N * node)) d p q n sy' : Inv s sy -> (forall i u, T !! i = Some u -> task_ok s sy i u) -> (forall w, W = Some w -> load_ok s w) ->
    view s = Some (d, p) -> caching = true -> 2 <= q -> fetch 16 (p_cache p) d q = Ok n -> sy' = sy ->
    let s' := put_cache (<[q := n]> (p_cache p)) s in
    sstep s LTau s' /\ C s s' /\ Inv s' sy' /\ (forall i u, T !! i = Some u -> task_ok s' sy' i u) /\ (forall w, W = Some w -> load_ok s' w).
  Proof.
    intros Hi HT HW Hv Hc Hq Hf -> s'. destruct (H_load _ _ _ _ _ _ Hi Hv Hc Hq Hf) as (H1 & H2 & H3). fold s' in H1, H2, H3.
    destruct (H_step _ _ _ _ Hi H1 H2) as (sy' & Hsp & Hi'). assert (sy' = sy) as -> by (inversion Hsp; reflexivity).
    split; [exact H1|]. split; [exact H2|]. split; [exact Hi'|]. split.
    - intros i u Hu. eapply task_kept; [exact Hi|exact H1|exact H2|exact Hsp|exact Hi'|exact H3|discriminate|exact (HT i u Hu)].
    - intros w Hw. destruct (HW w Hw) as (d0 & p0 & P & F & Hv0 & Hc0 & Hw0 & Hq0 & Hd0).
      assert (d0 = d /\ p0 = p) as [-> ->] by (split; congruence). exists d. eexists _, P, F. split; [exact H3|]. auto.
  Qed.

  Lemma insert_tasks s sy (T : gmap nat task) i u : (forall j v, T !! j = Some v -> task_ok s sy j v) -> task_ok s sy i u ->
    forall j v, <[i := u]> T !! j = Some v -> task_ok s sy j v.
  Proof.
    intros HT Hu j v Hj. destruct (decide (j = i)) as [->|Hne]; [rewrite lookup_insert in Hj; now injection Hj as <-|].
    rewrite lookup_insert_ne in Hj by congruence. auto.
  Qed.
  Lemma delete_tasks s sy (T : gmap nat task) i : (forall j v, T !! j = Some v -> task_ok s sy j v) -> forall j v, delete i T !! j = Some v -> task_ok s sy j v.
  Proof. intros HT j v Hj. apply lookup_delete_Some in Hj as [_ Hj]. auto. Qed.

  (** Each step is one of the system in which a read is made at once. *)
  Theorem xstep_refines x sy l x' : xinv x sy -> xstep x l x' -> C (x_sys x) (x_sys x') ->
    sstep (x_sys x) l (x_sys x') /\ C (x_sys x) (x_sys x') /\ exists sy', spec_step ps sy l sy' /\ xinv x' sy'.
  Proof.
    intros (Hi & HT & HW) Hx HC.
    assert (forall s, x_sys x = s -> forall d p, view s = Some (d, p) -> x_sys x' = s -> l = LTau -> (forall i u, x_tasks x' !! i = Some u -> task_ok s sy i u) ->
      (forall w, x_load x' = Some w -> load_ok s w) -> sstep (x_sys x) l (x_sys x') /\ C (x_sys x) (x_sys x') /\ exists sy', spec_step ps sy l sy' /\ xinv x' sy') as Hstut.
    { intros s E d p Hv E' -> HT' HW'. rewrite E in Hi. destruct (H_same s sy d p Hi Hv) as [H1 H2]. rewrite E, E'. split; [exact H1|]. split; [exact H2|].
      exists sy. split; [constructor|]. split; [rewrite E'; exact Hi|]. rewrite E'. split; [exact HT'|exact HW']. }
    destruct Hx as [s l s' T W Hst Hl Hcl Hwt|s T W d p i a t Hv Hr HTi Hf Ha|s T W i q k HTi Hq|s T W d p i q n k Hv HTi Hq Hc|s T W d p i q n k Hv HTi Hq Hc Hca Hd
      |s T W d p i q n k Hv HTi|s T W i q n k HTi Hlo|s T W d p i q k Hv HTi Hq Hc Hca|s T d p P F q n Hv Hwk HqP Hc Hca Hd|s T d p q n Hv|s T W i l HTi|s T W i t HTi];
      cbn [x_sys x_tasks x_load] in *.
    - assert (x_sys (match view s' with Some _ => XSys s' T W | None => XSys s' ∅ None end) = s') as E by (destruct (view s'); reflexivity).
      rewrite E in HC |- *. split; [exact Hst|]. split; [exact HC|]. destruct (H_step _ _ _ _ Hi Hst HC) as (sy' & Hsp & Hi'). exists sy'. split; [exact Hsp|].
      unfold xinv. rewrite E. split; [exact Hi'|]. destruct (view s') as [[d' p']|] eqn:Hv'; cbn.
      + split.
        * intros i u Hu. eapply task_kept; [exact Hi|exact Hst|exact HC|exact Hsp|exact Hi'|exact Hv'|apply Hcl; now exists u|auto].
        * intros w Hw. destruct (HW w Hw) as (d & p & P & F & Hv & Hca & Hwk & Hq & Hd). destruct (Hwt ltac:(now exists w)) as [H|Hot]; [congruence|].
          destruct (H_lkept _ _ _ _ _ _ _ _ Hi Hst HC Hot Hv Hv') as (H1 & H2). specialize (H2 _ _ Hwk). exists d', p', P, F. split; [exact Hv'|]. split; [exact Hca|].
          rewrite H1. split; [eapply walks_frame; [exact Hwk|exact H2]|]. split; [exact Hq|]. now rewrite (H2 _ Hq).
      + split; [intros i u Hu; now rewrite lookup_empty in Hu|discriminate].
    - apply (Hstut s eq_refl d p Hv eq_refl eq_refl); [|exact HW]. cbn. apply insert_tasks; [exact HT|].
      destruct (H_open _ _ _ _ _ _ Hi Hv Hr) as (st & P & F & Ho & Hw & Hs & Hra).
      exists d, p, a, st, P, F. eexists. do 5 (split; [eassumption|]). split; [eapply asks_answers; eassumption|].
      exists t, (fun x => x ∈ refs (NHeader a.2)). split; [exact Hf|]. split; [exact (proj1 (walks_closed _ _ _ _ Hw))|]. split; reflexivity.
    - destruct (task_page _ _ _ _ _ (HT _ _ HTi)) as (d & p & n & Hv & H2 & _). lia.
    - apply (Hstut s eq_refl d p Hv eq_refl eq_refl); [|exact HW]. cbn. apply insert_tasks; [exact HT|].
      destruct (task_page _ _ _ _ _ (HT _ _ HTi)) as (d0 & p0 & m & Hv0 & _ & Hm & Hc0). assert (d0 = d /\ p0 = p) as [-> ->] by (split; congruence).
      eapply task_next1; [exact (HT _ _ HTi)|exact Hv|]. destruct Hc0 as [Hc0|Hc0]; congruence.
    - apply (Hstut s eq_refl d p Hv eq_refl eq_refl); [|exact HW]. cbn. apply insert_tasks; [exact HT|]. apply on_disk_dec in Hd.
      exact (proj2 (task_next _ _ _ _ _ _ _ _ (HT _ _ HTi) Hv Hd) Hca).
    - destruct (task_loading _ _ _ _ _ _ (HT _ _ HTi)) as (d0 & p0 & Hv0 & Hca & Hq & Hn & Hfe & Hru). assert (d0 = d /\ p0 = p) as [-> ->] by (split; congruence).
      destruct (put_ok s sy (<[i := Running (k (Ok n))]> T) W d p q n sy Hi (insert_tasks _ _ _ _ _ HT Hru) HW Hv Hca Hq Hfe eq_refl) as (H1 & H2 & H3 & H4 & H5).
      split; [exact H1|]. split; [exact H2|]. exists sy. split; [constructor|]. split; [exact H3|]. split; [exact H4|exact H5].
    - destruct (task_page _ _ _ _ _ (HT _ _ HTi)) as (d & p & m & Hv & Hq & Hm & _). apply (Hstut s eq_refl d p Hv eq_refl eq_refl); [|exact HW]. cbn.
      apply insert_tasks; [exact HT|]. eapply task_next1; [exact (HT _ _ HTi)|exact Hv|]. destruct Hlo as [Hlo|(j & k' & Hlo)]; cbn in Hlo.
      + destruct (HW _ Hlo) as (d0 & p0 & _ & _ & Hv0 & _ & _ & _ & Hd). cbn in Hd. congruence.
      + destruct (task_loading _ _ _ _ _ _ (HT _ _ Hlo)) as (d0 & p0 & Hv0 & _ & _ & Hn & _). congruence.
    - destruct (task_page _ _ _ _ _ (HT _ _ HTi)) as (d0 & p0 & m & Hv0 & _ & Hm & _). assert (d0 = d /\ p0 = p) as [-> ->] by (split; congruence).
      apply (Hstut s eq_refl d p Hv eq_refl eq_refl); [|exact HW]. cbn. apply insert_tasks; [exact HT|].
      assert (dec 16 (d_cur d q) = Ok m) as -> by (now apply on_disk_dec). eapply task_next1; [exact (HT _ _ HTi)|exact Hv|exact Hm].
    - apply (Hstut s eq_refl d p Hv eq_refl eq_refl); [exact HT|]. intros w [= <-]. exists d, p, P, F. cbn. do 4 (split; [assumption|]). now apply on_disk_dec.
    - destruct (HW _ eq_refl) as (d0 & p0 & P & F & Hv0 & Hca & Hwk & HqP & Hd). cbn in *. assert (d0 = d /\ p0 = p) as [-> ->] by (split; congruence).
      destruct (H_latest _ _ _ _ Hi Hv) as (P' & F' & Hwk' & Hs). destruct (walks_unique _ _ _ _ _ _ Hwk Hwk') as [-> ->].
      destruct (sound_fetch _ _ _ _ Hs HqP) as (m & Hm & Hfe). assert (m = n) as -> by congruence. pose proof (proj1 (Hs q HqP)) as Hq.
      destruct (put_ok s sy T None d p q n sy Hi HT ltac:(discriminate) Hv Hca Hq Hfe eq_refl) as (H1 & H2 & H3 & H4 & H5).
      split; [exact H1|]. split; [exact H2|]. exists sy. split; [constructor|]. split; [exact H3|]. split; [exact H4|exact H5].
    - destruct (HT _ _ HTi) as (d & p & a & st & P & F & l0 & Hv & Hr & Ho & Hw & Hs & Ha & t & K & Hf & HK & He & <-). cbn in He. subst l0.
      destruct (H_open _ _ _ _ _ _ Hi Hv Hr) as (st' & P' & F' & Ho' & _ & _ & Hra). assert (st' = st) as -> by congruence.
      destruct (H_read _ _ _ _ _ _ _ Hi Hv Hr (answers_asks _ _ _ _ _ _ _ Hra Ha)) as [H1 H2]. split; [exact H1|]. split; [exact H2|].
      exists sy. split; [destruct Ha as [(q & start & bw & limit & ->)|(src & ->)]; now constructor|]. split; [exact Hi|]. cbn. split; [|exact HW].
      apply delete_tasks. exact HT.
    - destruct (HT _ _ HTi) as (d & p & _ & _ & _ & _ & _ & Hv & _). apply (Hstut s eq_refl d p Hv eq_refl eq_refl); [|exact HW]. cbn. apply delete_tasks. exact HT.
  Qed.
  Theorem xsteps_inv (R : list label -> St -> Prop) x0 sy0 tr x :
    (forall tr s l s', R tr s -> sstep s l s' -> C s s' -> R (tr ++ [l]) s') -> R [] (x_sys x0) -> xinv x0 sy0 ->
    xsteps x0 tr x -> R tr (x_sys x) /\ exists sy, spec_steps ps sy0 tr sy /\ xinv x sy.
  Proof.
    intros HR H0 Hi H. induction H as [x0|x0 tr x l x' H IH Hx HC]; subst.
    - split; [exact H0|]. exists sy0. split; [constructor|exact Hi].
    - destruct (IH H0 Hi) as (Hr & sy & Hsp & Hinv). destruct (xstep_refines _ _ _ _ Hinv Hx HC) as (H1 & _ & sy' & Hsp' & Hinv').
      split; [eapply HR; eassumption|]. exists sy'. split; [econstructor; eassumption|exact Hinv'].
  Qed.
  Theorem xsteps_refine (R : list label -> St -> Prop) s0 sy0 tr x :
    (forall tr s l s', R tr s -> sstep s l s' -> C s s' -> R (tr ++ [l]) s') -> R [] s0 -> Inv s0 sy0 ->
    xsteps (XSys s0 ∅ None) tr x -> R tr (x_sys x) /\ exists sy, spec_steps ps sy0 tr sy /\ xinv x sy.
  Proof.
    intros HR H0 Hi H. eapply (xsteps_inv R (XSys s0 ∅ None)); [exact HR|exact H0| |exact H]. split; [exact Hi|]. cbn. split; [intros i u Hu; now rewrite lookup_empty in Hu|discriminate].
  Qed.
  Lemma xsteps_app x tr x' tr' x'' : xsteps x tr x' -> xsteps x' tr' x'' -> xsteps x (tr ++ tr') x''.
  Proof.
    intros H H'. induction H' as [x'|x' tr' y l z H' IH Hx HC]; [now rewrite app_nil_r|]. rewrite app_assoc. econstructor; [exact (IH H)|exact Hx|exact HC].
  Qed.
  Lemma xsteps_one x l x' : xstep x l x' -> C (x_sys x) (x_sys x') -> xsteps x [l] x'.
  Proof. intros H HC. apply (xsteps_snoc _ _ _ _ _ _ _ _ _ x [] x l x' (xsteps_nil _ _ _ _ _ _ _ _ _ x) H HC). Qed.
  (** Steps of the call's own give it the page it asks for. *)
  Lemma task_page_steps s T W sy i q k : xinv (XSys s T W) sy -> T !! i = Some (Running (Ask q k)) ->
    exists n m s' T', xsteps (XSys s T W) (replicate m LTau) (XSys s' T' W) /\ T' !! i = Some (Running (k (Ok n))) /\
      (forall j, j <> i -> T' !! j = T !! j) /\ exists sy', xinv (XSys s' T' W) sy'.
  Proof.
    intros Hx Hu. pose proof Hx as (Hi & HT & HW). cbn in Hi, HT, HW. pose proof (HT _ _ Hu) as Ht.
    destruct (task_page _ _ _ _ _ Ht) as (d & p & n & Hv & Hq & Hn & Hc). pose proof (proj2 (H_same _ _ _ _ Hi Hv)) as HC. exists n.
    assert (forall x' sy0 x, xinv x sy0 -> xstep x LTau x' -> C (x_sys x) (x_sys x') -> exists sy', xinv x' sy') as Hgo.
    { intros x' sy0 x H1 H2 H3. destruct (xstep_refines _ _ _ _ H1 H2 H3) as (_ & _ & sy' & _ & H4). eauto. }
    destruct Hc as [Hc|Hc].
    - destruct (bool_decide (caching = true)) eqn:Ec.
      + apply bool_decide_eq_true in Ec. assert (dec 16 (d_cur d q) = Ok n) as Hd by now apply on_disk_dec.
        pose proof (X_miss 16 hash order caching sstep view put_cache others s T W d p i q n k Hv Hu Hq Hc Ec Hd) as H1.
        destruct (Hgo _ _ _ Hx H1 HC) as (sy1 & Hx1).
        pose proof (X_loaded 16 hash order caching sstep view put_cache others s (<[i := Loading q n k]> T) W d p i q n k Hv (lookup_insert _ _ _)) as H2.
        assert (fetch 16 (p_cache p) d q = Ok n) as Hfe. { unfold fetch. destruct (N.ltb_spec q 2); [lia|]. now rewrite Hc. }
        pose proof (proj1 (proj2 (H_load _ _ _ _ _ _ (proj1 Hx1) Hv Ec Hq Hfe))) as HC2.
        destruct (Hgo _ _ _ Hx1 H2 HC2) as (sy2 & Hx2).
        exists 2%nat. eexists _, _.
        split; [apply (xsteps_app _ [LTau] _ [LTau] _ (xsteps_one _ _ _ H1 HC) (xsteps_one _ _ _ H2 HC2))|]. split; [apply lookup_insert|].
        split; [intros j Hj; now rewrite !lookup_insert_ne by congruence|exists sy2; exact Hx2].
      + apply bool_decide_eq_false in Ec. assert (dec 16 (d_cur d q) = Ok n) as Hd by now apply on_disk_dec.
        assert (caching = false) as Ec' by (destruct caching; congruence).
        pose proof (X_direct 16 hash order caching sstep view put_cache others s T W d p i q k Hv Hu Hq Hc (or_introl Ec')) as H1. rewrite Hd in H1.
        destruct (Hgo _ _ _ Hx H1 HC) as (sy1 & Hx1). exists 1%nat. eexists _, _. split; [exact (xsteps_one _ _ _ H1 HC)|]. split; [apply lookup_insert|split; [intros j Hj; now rewrite !lookup_insert_ne by congruence|eauto]].
    - pose proof (X_hit 16 hash order caching sstep view put_cache others s T W d p i q n k Hv Hu Hq Hc) as H1.
      destruct (Hgo _ _ _ Hx H1 HC) as (sy1 & Hx1). exists 1%nat. eexists _, _. split; [exact (xsteps_one _ _ _ H1 HC)|]. split; [apply lookup_insert|split; [intros j Hj; now rewrite !lookup_insert_ne by congruence|eauto]].
  Qed.
  (** Once a call has begun, steps of its own alone take it to its answer. *)
  Theorem task_ends t s T W sy i : xinv (XSys s T W) sy -> T !! i = Some (Running t) ->
    exists n l s' T', xsteps (XSys s T W) (replicate n LTau ++ [l]) (XSys s' T' W) /\ answer l = true /\ T' !! i = None /\
      forall (Q : label -> Prop) (K : N -> Prop), follows (fun _ => Q) K t -> Q l.
  Proof.
    revert s T sy. induction t as [l|q k IH]; intros s T sy Hx Hu; pose proof Hx as (Hi & HT & HW); cbn in Hi, HT, HW; pose proof (HT _ _ Hu) as Ht.
    - exists 0%nat, l, s, (delete i T). split; [|split; [|split; [apply lookup_delete|intros Q K HQ; exact HQ]]].
      + cbn. apply xsteps_one; [now apply X_end|]. destruct Ht as (d & p & _ & _ & _ & _ & _ & Hv & _). exact (proj2 (H_same _ _ _ _ Hi Hv)).
      + destruct Ht as (d & p & a & st & P & F & l0 & Hv & Hr & Ho & Hw & Hs & Ha & t & K & Hf & HK & He & <-). cbn in He. subst l0.
        destruct Ha as [(q & start & bw & limit & ->)|(src & ->)]; reflexivity.
    - destruct (task_page_steps _ _ _ _ _ _ _ Hx Hu) as (n & m & s' & T' & Hst & Hu' & _ & sy' & Hx').
      destruct (IH (Ok n) s' T' sy' Hx' Hu') as (n0 & l & s'' & T'' & H1 & H2 & H3 & H4).
      exists (m + n0)%nat, l, s'', T''. split; [rewrite replicate_add, <- app_assoc; exact (xsteps_app _ _ _ _ _ Hst H1)|]. split; [exact H2|]. split; [exact H3|].
      intros Q K [_ HQ]. exact (H4 Q _ (HQ (Ok n))).
  Qed.
End refine.
