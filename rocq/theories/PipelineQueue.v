(** Requests on their way through the pipelining writer thread: none is lost, none is answered twice; the thread gets on. *)
From Verif Require Export PipelineServer.
From Verif Require Export ServerQueue.
From Coq Require Import Relations.Relation_Operators Wellfounded.Lexicographic_Product.
Local Open Scope N_scope.

(** The requests the thread has taken from the queue and whose batch is not being written yet; the answers decided and not yet
    sent; the requests of the commit being written. *)
Fixpoint z_held (t : zphase) : list (nat * request) :=
  match t with
  | ZOpen id r => [(id, r)]
  | ZProc items id r => map fst items ++ [(id, r)]
  | ZDrain items | ZBarrier items => map fst items
  | ZSend _ _ next => z_held next
  | _ => []
  end.
Definition z_decided (t : zphase) : list (nat * res N) := match t with ZSend todo _ _ => todo | _ => [] end.
Definition flying (v : zsrv) : list (nat * request) := match l_fly (z_pipe v) with Some f => zip (z_fly v) (y_done f) | None => [] end.

(** What the writer has processed is what the thread holds. *)
Fixpoint z_ok (t : zphase) (pi : pipe) : Prop :=
  match t with
  | ZProc items _ _ => l_phase pi = PBuild (map it_req items) (map it_ans items)
  | ZDrain items => items <> [] /\ l_phase pi = PBuild (map it_req items) (map it_ans items)
  | ZBarrier items => items <> [] /\ exists o, l_phase pi = PBuilt (map it_req items) (map it_ans items) o
  | ZSend _ _ next => match next with ZSend _ _ _ | ZIdle => False | _ => z_ok next pi end
  | _ => l_phase pi = PFetch
  end.
Definition fly_ok (ids : list nat) (o : option fly) : Prop :=
  match o with Some f => ids <> [] /\ length ids = length (y_done f) /\ length ids = length (y_ans f) | None => ids = [] end.

Section queue.
  Context (ps : N) (hash : bytes -> bytes) (order : list bytes -> list bytes) (ford : gset N -> list N) (caching : bool) (max_events : N).
  Notation pstep := (pstep 16 ps hash order ford caching).
  Notation lstep := (lstep 16 ps hash order ford caching).
  Notation zstep := (zstep 16 ps hash order ford caching max_events).
  Notation zserves := (zserves 16 ps hash order ford caching max_events).

  (** Each step of the server is one of the database, or leaves it alone. *)
  Lemma zstep_lstep v ol v' : zstep v ol v' -> match ol with Some l => lstep (z_sys v) l (z_sys v') | None => z_sys v' = z_sys v end.
  Proof. intros H. destruct H; cbn; try assumption; try reflexivity. rewrite H. now apply L_other. Qed.

  Lemma idle_label d p l d' p' : pstep d p l d' p' -> p_writer p = WIdle ->
    match l with LCommit _ _ | LAbort _ | LUnsure _ => False | _ => True end.
  Proof. intros H E. destruct H; cbn; try exact I; congruence. Qed.
  (** What the steps with a given label do to the writer. *)
  Lemma lstep_commit s reqs ans s' : lstep s (LCommit reqs ans) s' ->
    exists f, l_fly (s_pipe s) = Some f /\ y_done f = reqs /\ y_ans f = ans /\ s_pipe s' = set_fly None (s_pipe s).
  Proof. intros H. inversion H; subst; try (destruct hdr; discriminate); cbn; [match goal with H : pstep _ _ _ _ _ |- _ => now destruct (idle_label _ _ _ _ _ H) end|eauto]. Qed.
  Lemma rollback_pipe rd p pi : l_phase (rollback rd p pi) = PFetch /\ l_fly (rollback rd p pi) = None.
  Proof. unfold rollback. destruct (mvcc_writer _ _ _) as [[[]|] ?]; split; reflexivity. Qed.
  Lemma lstep_unsure s reqs s' : lstep s (LUnsure reqs) s' -> l_phase (s_pipe s') = PFetch /\ l_fly (s_pipe s') = None.
  Proof.
    intros H. inversion H; subst; try (destruct hdr; discriminate); cbn; [match goal with H : pstep _ _ _ _ _ |- _ => now destruct (idle_label _ _ _ _ _ H) end|apply rollback_pipe].
  Qed.
  Lemma lstep_abort s reqs s' : lstep s (LAbort reqs) s' ->
    l_phase (s_pipe s') = PFetch /\ (l_phase (s_pipe s) = PFetch /\ l_fly (s_pipe s') = l_fly (s_pipe s) \/
      (exists done ans o, l_phase (s_pipe s) = PBuilt done ans o /\ l_fly (s_pipe s) = None /\ reqs = done /\ l_fly (s_pipe s') = None) \/
      (exists f, l_fly (s_pipe s) = Some f /\ y_io f = IFailed false /\ l_fly (s_pipe s') = None)).
  Proof.
    intros H. inversion H; subst; try (destruct hdr; discriminate); cbn; [match goal with H : pstep _ _ _ _ _ |- _ => now destruct (idle_label _ _ _ _ _ H) end|auto| | |].
    - destruct hdr; [discriminate|]. destruct (rollback_pipe rd p pi) as [-> ->]. split; [reflexivity|]. right. right. eauto.
    - destruct (rollback_pipe rd p pi) as [-> ->]. split; [reflexivity|]. right. left. eauto 8.
    - destruct (rollback_pipe rd' p pi) as [-> ->]. split; [reflexivity|]. right. left. eauto 8.
  Qed.
  (** A silent step that changes where the thread is. *)
  Lemma lstep_tau s s' : lstep s LTau s' ->
    (l_phase (s_pipe s') = l_phase (s_pipe s) /\
      (l_fly (s_pipe s') = l_fly (s_pipe s) \/ exists f x, l_fly (s_pipe s) = Some f /\ l_fly (s_pipe s') = Some (set_io x f))) \/
    (l_fly (s_pipe s') = l_fly (s_pipe s) /\
      match l_phase (s_pipe s) with
      | PFetch => l_phase (s_pipe s') = PBuild [] []
      | PBuild done ans => (exists r a, l_phase (s_pipe s') = PBuild (done ++ [r]) (ans ++ [a])) \/
          (exists r e, is_abort e = true /\ l_phase (s_pipe s') = PBuilt (done ++ [r]) (ans ++ [Err e]) (Some e)) \/ l_phase (s_pipe s') = PBuilt done ans None
      | _ => False
      end) \/
    (exists done ans f, l_phase (s_pipe s) = PBuilt done ans None /\ l_fly (s_pipe s) = None /\ l_phase (s_pipe s') = PFetch /\ l_fly (s_pipe s') = Some f /\
      y_done f = done /\ y_ans f = ans).
  Proof.
    intros H. remember LTau as l eqn:El. destruct H; try discriminate El; try (destruct hdr; discriminate El); cbn.
    all: try match goal with H : l_phase _ = _ |- _ => rewrite H end.
    all: try (left; split; [reflexivity|]; right; eauto; fail).
    - left. auto.
    - right; left. auto.
    - right; left. split; [reflexivity|]. left. eauto.
    - right; left. split; [reflexivity|]. right; left. eauto.
    - right; left. split; [reflexivity|]. auto.
    - right; right. eexists done, ans, _. repeat split; try eassumption; reflexivity.
  Qed.

  (** The ledger. *)
  Definition z_accounts (v : zsrv) (tr : list label) (P : list fate) : Prop :=
    map f_in P ++ flying v ++ z_held (z_thread v) ++ queued (z_queue v) ≡ₚ z_seen v /\
    map f_in (filter (fun f => f_done f = true) P) ++ flying v ++ z_held (z_thread v) ++ queued (z_queue v) `sublist_of` z_seen v /\
    map f_out P = z_sent v ++ z_decided (z_thread v) /\
    map f_com (filter (fun f => f_done f = true) P) = commits tr /\
    Forall (fun f => f_done f = false -> exists e, f_ans f = Err e) P /\
    NoDup (map fst (z_seen v)) /\ z_ok (z_thread v) (z_pipe v) /\ fly_ok (z_fly v) (l_fly (z_pipe v)).

  (** A block of requests dealt with. *)
  Definition outcomes (b : bool) (l : list (nat * request * res N)) : list fate := map (fun x => Fate x.1.1 x.1.2 x.2 b) l.
  Lemma outcomes_in b l : map f_in (outcomes b l) = map fst l.
  Proof. unfold outcomes. rewrite map_map. apply map_ext. now intros [[id r] y]. Qed.
  Lemma outcomes_out b l : map f_out (outcomes b l) = map (fun x => (x.1.1, x.2)) l.
  Proof. unfold outcomes. now rewrite map_map. Qed.
  Lemma outcomes_com b l : map f_com (outcomes b l) = map (fun x => (x.1.2, x.2)) l.
  Proof. unfold outcomes. now rewrite map_map. Qed.
  Lemma outcomes_filter b l : filter (fun f => f_done f = true) (outcomes b l) = if b then outcomes b l else [].
  Proof.
    induction l as [|x l IH]; [now destruct b|]. cbn [outcomes map]. rewrite filter_cons. destruct b; [rewrite decide_True by reflexivity; f_equal; exact IH|].
    rewrite decide_False by discriminate. exact IH.
  Qed.
  Lemma zip_fst_out {A B C} (l : list A) (k : list B) (m : list C) : length l = length k -> length l = length m ->
    map fst (zip (zip l k) m) = zip l k /\ map (fun x => (x.1.1, x.2)) (zip (zip l k) m) = zip l m /\ map (fun x => (x.1.2, x.2)) (zip (zip l k) m) = zip k m.
  Proof.
    revert k m. induction l as [|x l IH]; intros [|y k] [|z m] H1 H2; try discriminate; [auto|]. cbn in H1, H2. injection H1 as H1. injection H2 as H2.
    destruct (IH k m H1 H2) as (E1 & E2 & E3). cbn. now rewrite E1, E2, E3.
  Qed.
  Lemma fly_out (ids : list nat) (reqs : list request) (e : res N) : length ids = length reqs ->
    let l := map (fun x => (x, e)) (zip ids reqs) in map fst l = zip ids reqs /\ map (fun x => (x.1.1, x.2)) l = map (fun i => (i, e)) ids.
  Proof.
    revert reqs. induction ids as [|x ids IH]; intros [|y reqs] H; try discriminate; [auto|]. cbn in H. injection H as H. destruct (IH reqs H) as [E1 E2].
    cbn in *. now rewrite E1, E2.
  Qed.

  Lemma sublist_drop_mid {A} (a b c l : list A) : a ++ b ++ c `sublist_of` l -> a ++ c `sublist_of` l.
  Proof. intros H. etransitivity; [|exact H]. apply sublist_app; [reflexivity|]. apply sublist_inserts_l. reflexivity. Qed.

  Lemma zaccounts_step v ol v' tr P : zstep v ol v' -> z_accounts v tr P ->
    exists P', z_accounts v' (tr ++ match ol with Some l => [l] | None => [] end) (P ++ P').
  Proof.
    intros H (A1 & A2 & A3 & A4 & A5 & A6 & A7 & A8).
    assert (Hmove : forall v1 o, flying v1 ++ z_held (z_thread v1) ++ queued (z_queue v1) = flying v ++ z_held (z_thread v) ++ queued (z_queue v) ->
      z_sent v1 ++ z_decided (z_thread v1) = z_sent v ++ z_decided (z_thread v) -> z_seen v1 = z_seen v ->
      z_ok (z_thread v1) (z_pipe v1) -> fly_ok (z_fly v1) (l_fly (z_pipe v1)) -> commits o = [] -> exists P', z_accounts v1 (tr ++ o) (P ++ P')).
    { intros v1 o E1 E2 E3 E4 E5 E0. exists []. rewrite app_nil_r. unfold z_accounts. rewrite E1, E2, E3, commits_app, E0, app_nil_r. repeat split; assumption. }
    assert (Hend : forall v1 o b (l : list (nat * request * res N)), map fst l ++ flying v1 ++ z_held (z_thread v1) ++ queued (z_queue v1) ≡ₚ flying v ++ z_held (z_thread v) ++ queued (z_queue v) ->
      (if b : bool then map fst l ++ flying v1 ++ z_held (z_thread v1) ++ queued (z_queue v1) = flying v ++ z_held (z_thread v) ++ queued (z_queue v)
       else flying v1 ++ z_held (z_thread v1) ++ queued (z_queue v1) `sublist_of` flying v ++ z_held (z_thread v) ++ queued (z_queue v)) ->
      z_decided (z_thread v) = [] -> z_sent v1 ++ z_decided (z_thread v1) = z_sent v ++ map (fun x => (x.1.1, x.2)) l -> z_seen v1 = z_seen v ->
      (if b then commits o = map (fun x => (x.1.2, x.2)) l else commits o = [] /\ Forall (fun x => exists e, x.2 = Err e) l) ->
      z_ok (z_thread v1) (z_pipe v1) -> fly_ok (z_fly v1) (l_fly (z_pipe v1)) -> exists P', z_accounts v1 (tr ++ o) (P ++ P')).
    { intros v1 o b l E1 E1' E2 E3 E4 E5 E6 E7. exists (outcomes b l). unfold z_accounts. rewrite E3, E4, commits_app, !map_app, filter_app, !map_app, outcomes_in, outcomes_out, outcomes_filter, <- !app_assoc.
      rewrite E2, app_nil_r in A3. split; [rewrite E1; exact A1|]. split; [|split; [|split; [|split; [|split; [exact A6|split; [exact E6|exact E7]]]]]].
      - rewrite <- ?app_assoc. destruct b; [rewrite outcomes_in, E1'; exact A2|]. cbn [map app]. etransitivity; [|exact A2]. now apply sublist_app.
      - now rewrite A3.
      - rewrite A4. f_equal. destruct b; [now rewrite outcomes_com|]. now destruct E5 as [-> _].
      - apply Forall_app. split; [exact A5|]. apply Forall_forall. intros f Hf. apply elem_of_list_In, in_map_iff in Hf as (x & <- & Hx). cbn. destruct b; [discriminate|]. intros _.
        destruct E5 as [_ E5]. rewrite Forall_forall in E5. apply E5. now apply elem_of_list_In. }
    assert (Hfly : forall s', l_fly (s_pipe s') = l_fly (z_pipe v) \/ (exists f x, l_fly (z_pipe v) = Some f /\ l_fly (s_pipe s') = Some (set_io x f)) ->
      fly_ok (z_fly v) (l_fly (s_pipe s')) /\ match l_fly (s_pipe s') with Some f => zip (z_fly v) (y_done f) | None => [] end = flying v).
    { intros s' [E|(f & x & E & E')]; unfold flying; [rewrite E|rewrite E'; rewrite E in *]; split; try exact A8; reflexivity. }
    assert (Hok : forall t pi', l_phase pi' = l_phase (z_pipe v) -> z_ok t (z_pipe v) -> z_ok t pi').
    { intros t pi' E. induction t as [| | | | | | |? ? next IHt|]; cbn; rewrite ?E; try tauto. destruct next; tauto. }
    assert (Htau : forall s', lstep (z_sys v) LTau s' -> l_phase (s_pipe s') <> l_phase (z_pipe v) -> l_phase (s_pipe s') <> PFetch -> l_fly (s_pipe s') = l_fly (z_pipe v)).
    { intros s' Ht N1 N2. apply lstep_tau in Ht. change (s_pipe (z_sys v)) with (z_pipe v) in Ht. destruct Ht as [[E _]|[[E _]|(dn & an & f & _ & _ & E & _)]]; [contradiction|exact E|contradiction]. }
    assert (Hbuilt : forall items s', z_thread v = ZDrain items -> lstep (z_sys v) LTau s' -> l_phase (s_pipe s') = PBuilt (map it_req items) (map it_ans items) None ->
      forall v1, z_sys v1 = s' -> z_thread v1 = ZBarrier items -> z_fly v1 = z_fly v -> z_sent v1 = z_sent v -> z_seen v1 = z_seen v -> queued (z_queue v1) = queued (z_queue v) ->
      exists P', z_accounts v1 (tr ++ [LTau]) (P ++ P')).
    { intros items s' E Ht Hp v1 E1 E2 E3 E4 E5 E6. rewrite E in A7. cbn in A7. destruct A7 as [A7 A7'].
      assert (Ef : l_fly (s_pipe s') = l_fly (z_pipe v)) by (apply Htau; [exact Ht|rewrite Hp, A7'; discriminate|rewrite Hp; discriminate]).
      destruct (Hfly s' (or_introl Ef)) as [F1 F2]. apply Hmove; auto; unfold flying, z_pipe; rewrite ?E1, ?E2, ?E3, ?E4, ?E, ?E6; cbn; auto.
      - f_equal. exact F2.
      - eauto. }
    destruct H.
    - (* arrive *) exists []. rewrite !app_nil_r. unfold z_accounts, flying in *. cbn -[app] in *. rewrite queued_app, map_app. repeat split; try assumption.
      + rewrite <- A1, <- !app_assoc. reflexivity.
      + rewrite !app_assoc. apply sublist_app; [|reflexivity]. rewrite <- !app_assoc. exact A2.
      + apply NoDup_app. split; [exact A6|]. split; [|apply NoDup_singleton]. intros y Hy Hn. apply elem_of_list_singleton in Hn as ->. contradiction.
    - (* leave *) apply Hmove; auto.
    - (* shutdown *) apply Hmove; auto. cbn. unfold flying. cbn. rewrite queued_app. cbn. now rewrite app_nil_r.
    - (* other *) unfold flying, z_pipe in *. rewrite H in *. apply Hmove; auto; unfold flying, z_pipe; cbn; auto.
      pose proof (idle_label _ _ _ _ _ H0 H1). destruct l; try reflexivity; contradiction.
    - (* io *) destruct (Hfly s') as [F1 F2]; [rewrite H3; right; eauto|]. apply Hmove; auto; unfold flying; cbn; auto.
      + f_equal. exact F2.
      + unfold z_pipe. cbn. rewrite H3. apply Hok; [reflexivity|exact A7].
    - (* take *) rewrite H in *. apply Hmove; auto; unfold flying; cbn; rewrite ?H0, ?H; auto.
    - (* stop *) rewrite H in *. apply Hmove; auto; unfold flying; cbn; rewrite ?H0, ?H; auto.
    - (* idle *) rewrite H in *. apply Hmove; auto; unfold flying; cbn; rewrite ?H; auto.
    - (* begin *) rewrite H in *. cbn in A7. assert (E : l_fly (s_pipe s') = l_fly (z_pipe v)) by (apply Htau; [exact H0|rewrite H1, A7; discriminate|rewrite H1; discriminate]). destruct (Hfly s' (or_introl E)) as [F1 F2].
      apply Hmove; auto; unfold flying; cbn; rewrite ?H; auto. f_equal. exact F2.
    - (* begin fails *) rewrite H in *. cbn in A7. apply lstep_abort in H0. change (s_pipe (z_sys v)) with (z_pipe v) in H0.
      destruct H0 as [E' _]. rename H1 into E. destruct (Hfly s' (or_introl E)) as [F1 F2].
      match goal with |- exists _, z_accounts ?x _ _ => assert (Efl : flying x = flying v) by exact F2 end.
      apply (Hend _ _ false [(id, r, Err e)]); rewrite ?Efl; auto; cbn; rewrite ?H; cbn; auto.
      + apply Permutation_middle.
      + apply sublist_app; [reflexivity|]. now apply sublist_cons.
      + now rewrite !app_nil_r.
      + split; [reflexivity|]. repeat constructor. eauto.
    - (* process *) rewrite H in *. cbn in A7. assert (E : l_fly (s_pipe s') = l_fly (z_pipe v)).
      { apply Htau; [exact H0|rewrite H1, A7|rewrite H1; discriminate]. intros E. injection E as E _. apply (f_equal length) in E. rewrite app_length in E. cbn in E. lia. }
      destruct (Hfly s' (or_introl E)) as [F1 F2]. apply Hmove; auto; unfold flying; cbn; rewrite ?H; auto.
      + rewrite map_app. f_equal. exact F2.
      + rewrite !map_app. split; [|exact H1]. intros Hn. now apply app_nil in Hn as [_ Hn].
    - (* fails *) rewrite H in *. cbn in A7. assert (E : l_fly (s_pipe s') = l_fly (z_pipe v)) by (apply Htau; [exact H0|rewrite H1, A7; discriminate|rewrite H1; discriminate]).
      destruct (Hfly s' (or_introl E)) as [F1 F2]. apply Hmove; auto; unfold flying; cbn; rewrite ?H; auto.
      + rewrite map_app. f_equal. exact F2.
      + rewrite !map_app. split; [intros Hn; now apply app_nil in Hn as [_ Hn]|eauto].
    - (* full *) eapply Hbuilt; eauto.
    - (* more *) rewrite H in *. apply Hmove; auto; unfold flying; cbn; rewrite ?H, ?H1; auto.
      + cbn. now rewrite <- app_assoc.
      + apply A7.
    - (* swallow *) eapply Hbuilt; eauto. cbn. now rewrite H1.
    - (* empty *) eapply Hbuilt; eauto.
    - (* cached *) destruct (Hfly s') as [F1 F2]; [rewrite H3; right; eauto|]. apply Hmove; auto; unfold flying; cbn; auto.
      + f_equal. exact F2.
      + unfold z_pipe. cbn. rewrite H3. apply Hok; [reflexivity|exact A7].
    - (* acked *) apply lstep_commit in H1 as (f' & Ef & _ & _ & Ep). change (s_pipe (z_sys v)) with (z_pipe v) in Ef, Ep. rewrite Ef in H0. injection H0 as ->.
      rewrite Ef in A8. destruct A8 as (_ & L1 & L2). destruct (zip_fst_out (z_fly v) (y_done f) (y_ans f) L1 L2) as (Z1 & Z2 & Z3).
      assert (En : z_held next = z_held (z_thread v) /\ (match next with ZSend _ _ _ | ZIdle => False | _ => True end /\ z_ok next (z_pipe v)) /\ z_decided (z_thread v) = []).
      { destruct (z_thread v); try discriminate H; injection H as <-; repeat split; auto; try discriminate; apply A7. }
      destruct En as (En1 & En2 & En3).
      assert (Efl : flying (z_set_sys s' (z_set_fly [] (z_set_thread (ZSend (zip (z_fly v) (y_ans f)) (Some (fly_head f)) next) v))) = []).
      { unfold flying, z_pipe. cbn. now rewrite Ep. }
      apply (Hend _ _ true (zip (zip (z_fly v) (y_done f)) (y_ans f))); rewrite ?Efl, ?Z1, ?Z2, ?Z3; auto; unfold flying; rewrite ?Ef; cbn; rewrite ?En1; auto.
      + now rewrite app_nil_r.
      + unfold z_pipe. cbn. rewrite Ep. destruct En2 as [En2 En2']. destruct next; try contradiction; (apply Hok; [reflexivity|exact En2']).
      + unfold z_pipe. cbn. rewrite Ep. reflexivity.
    - (* failed *) rename H3 into Ef'. assert (Ep : l_phase (s_pipe s') = PFetch) by (destruct hdr; [apply lstep_unsure in H2|apply lstep_abort in H2]; apply H2). rewrite H0 in A8. destruct A8 as (_ & L1 & L2).
      destruct (fly_out (z_fly v) (y_done f) (Err e) L1) as [Z1 Z2]. cbn in Z1, Z2.
      assert (En : z_held (z_thread v) = map fst items /\ (match next with ZSend _ _ _ | ZIdle => False | _ => True end /\ z_ok next (s_pipe s')) /\ z_decided (z_thread v) = [] /\ z_held next = []).
      { destruct (z_thread v); try discriminate H; injection H as <- <-; repeat split; auto; discriminate. }
      destruct En as (En1 & En2 & En3 & En4).
      match goal with |- exists _, z_accounts ?x _ _ => assert (Efl : flying x = []) by (unfold flying, z_pipe; cbn; now rewrite Ef') end.
      apply (Hend _ _ false (map (fun x => (x, Err e)) (zip (z_fly v) (y_done f)) ++ map (fun x => (x.1, Err e')) items)); rewrite ?Efl; auto; unfold flying; rewrite ?H0; cbn; rewrite ?En1, ?En4, ?map_app, ?Z1, ?Z2, ?map_map; cbn; auto.
      + now rewrite <- app_assoc.
      + apply sublist_inserts_l. apply sublist_inserts_l. reflexivity.
      + split; [now destruct hdr|]. apply Forall_app. split; apply Forall_forall; intros x Hx; apply elem_of_list_In, in_map_iff in Hx as (y & <- & _); eauto.
      + destruct En2 as [En2 En2']. destruct next; try contradiction; exact En2'.
      + unfold z_pipe. cbn. rewrite Ef'. reflexivity.
    - (* abort *) rewrite H in *. cbn in A7. destruct A7 as (A7 & o & A7'). apply lstep_abort in H1 as [Ep [[Eq _]|[(dn & an & o' & Eq & _ & -> & Ef')|(f0 & Eq & _)]]]; change (s_pipe (z_sys v)) with (z_pipe v) in Eq; [congruence| |congruence].
      match goal with |- exists _, z_accounts ?x _ _ => assert (Efl : flying x = []) by (unfold flying, z_pipe; cbn; now rewrite Ef') end.
      apply (Hend _ _ false (map (fun x => (x.1, Err e)) items)); rewrite ?Efl; auto; unfold flying; rewrite ?H0, ?H; cbn; rewrite ?map_map; cbn; auto.
      + now apply sublist_inserts_l.
      + split; [reflexivity|]. apply Forall_forall; intros x Hx; apply elem_of_list_In, in_map_iff in Hx as (y & <- & _); eauto.
      + unfold z_pipe. cbn. rewrite Ef'. rewrite H0 in A8. exact A8.
    - (* dispatch *) rewrite H in *. cbn in A7. destruct A7 as (A7 & o & A7'). apply lstep_tau in H1. change (s_pipe (z_sys v)) with (z_pipe v) in H1. rewrite A7', H0 in H1.
      destruct H1 as [[_ [E|(? & ? & E & _)]]|[[E _]|(dn & an & f' & E & _ & Ep & Ef & Ed & Ea)]]; try congruence. injection E as <- <- _. rewrite Ef in H2. injection H2 as ->.
      apply Hmove; auto; unfold flying, z_pipe; cbn; rewrite ?H, ?Ef; unfold z_pipe in H0; rewrite ?H0; auto.
      + cbn. f_equal. rewrite Ed. clear. induction items as [|[[i r] a] items IH]; [reflexivity|]. cbn. now rewrite IH.
      + cbn. rewrite Ed, Ea, !map_length. split; [|auto]. now destruct items.
    - (* reap *) rewrite H in *. apply Hmove; auto; unfold flying; cbn; rewrite ?H; auto.
    - (* send *) rewrite H in *. apply Hmove; auto; unfold flying; cbn; rewrite ?H; auto. now rewrite <- app_assoc.
    - (* publish *) rewrite H in *. apply Hmove; auto; unfold flying; cbn; rewrite ?H; auto; [destruct next; auto; now destruct A7|destruct next; auto; now destruct A7].
  Qed.

  Lemma zserves_accounts s h v vs tr : l_phase (s_pipe s) = PFetch -> l_fly (s_pipe s) = None -> zserves s h (v :: vs) tr -> exists P, z_accounts v tr P.
  Proof.
    intros Hp Hf H. remember (v :: vs) as l eqn:El. revert v vs El. induction H as [|v vs tr ol v' H IH Hst]; intros w ws El.
    - injection El as <- <-. exists []. unfold z_accounts, flying, z_pipe. cbn. rewrite Hf. repeat split; auto; constructor.
    - injection El as <- <-. destruct (IH v vs eq_refl) as (P & HP). destruct (zaccounts_step _ _ _ _ _ Hst HP) as (P' & HP'). eauto.
  Qed.
  Lemma zserves_idle s h v vs tr : l_phase (s_pipe s) = PFetch -> l_fly (s_pipe s) = None -> zserves s h (v :: vs) tr -> z_thread v = ZIdle -> l_fly (z_pipe v) <> None.
  Proof.
    intros Hp Hf H. remember (v :: vs) as l eqn:El. revert v vs El. induction H as [|v vs tr ol v' H IH Hst]; intros w ws El.
    - injection El as <- <-. discriminate.
    - injection El as <- <-. specialize (IH _ _ eq_refl). destruct (zserves_accounts _ _ _ _ _ Hp Hf H) as (P & _ & _ & _ & _ & _ & _ & Hok & _).
      destruct Hst; unfold z_pipe in *; cbn; try exact IH; try discriminate.
      + rewrite H0 in IH. exact IH.
      + rewrite H4. discriminate.
      + intros _. assumption.
      + rewrite H4. discriminate.
      + rewrite H0 in Hok. cbn in Hok. intros ->. now destruct Hok.
  Qed.
  Lemma zserves_lsteps s h v vs tr : zserves s h (v :: vs) tr -> lsteps 16 ps hash order ford caching s tr (z_sys v).
  Proof.
    intros H. remember (v :: vs) as l eqn:El. revert v vs El. induction H as [|v vs tr ol v' H IH Hst]; intros w ws El.
    - injection El as <- <-. constructor.
    - injection El as <- <-. apply zstep_lstep in Hst. destruct ol as [l|]; [econstructor; [eapply IH; reflexivity|exact Hst]|]. rewrite app_nil_r, Hst. eapply IH. reflexivity.
  Qed.

  (** ** The thread gets on *)
  (** A step of the thread or of the I/O thread. *)
  Definition z_works (v : zsrv) (ol : option label) (v' : zsrv) : Prop :=
    zstep v ol v' /\ (z_thread v' <> z_thread v \/ l_fly (z_pipe v') <> l_fly (z_pipe v)).
  Fixpoint t_weight (t : zphase) : nat :=
    match t with
    | ZFetch | ZReap => 1
    | ZOpen _ _ => 10
    | ZProc items _ _ => 7 * length items + 9
    | ZDrain items => 7 * length items + 1
    | ZBarrier items => 7 * length items
    | ZSend todo _ next => 2 * length todo + 1 + t_weight next
    | ZIdle | ZStop => 0
    end.
  Definition io_weight (o : option fly) : nat :=
    match o with
    | Some f => match y_io f with IPages l => length l + 5 | IHeader => 4 | ISync => 3 | IDone => 2 | ICached => 1 | IFailed _ => 0 end
    | None => 0
    end.
  (** What is left to do: requests on their way, and the pages of the commit being written. *)
  Definition z_left (v : zsrv) : nat * nat := ((11 * length (z_queue v) + 5 * length (z_fly v) + t_weight (z_thread v))%nat, io_weight (l_fly (z_pipe v))).
  Definition z_less : nat * nat -> nat * nat -> Prop := slexprod _ _ lt lt.

  Lemma zworks_less v ol v' : z_works v ol v' -> z_ok (z_thread v) (z_pipe v) -> fly_ok (z_fly v) (l_fly (z_pipe v)) -> z_less (z_left v') (z_left v).
  Proof.
    intros [H Hw] Ht Hf. unfold z_left, z_less.
    assert (Hnone : z_thread v' = z_thread v -> l_fly (z_pipe v') = l_fly (z_pipe v) -> False) by (intros; destruct Hw; contradiction).
    destruct H; try (exfalso; apply Hnone; reflexivity).
    - (* other *) exfalso. apply Hnone; [reflexivity|]. unfold z_pipe. cbn. now rewrite H.
    - (* io *) assert (Hlt : (io_weight (Some (set_io x f)) < io_weight (Some f))%nat).
      { assert (Hx : set_io x f <> f) by (intros E; apply Hnone; [reflexivity|]; unfold z_pipe at 1; cbn; rewrite H3; cbn; congruence).
        unfold z_pipe in *. destruct (z_sys v) as [d p pi]. cbn in *. clear - H H0 H1 H3 Hx. unfold io_weight. cbn [set_io y_io].
        remember LTau as l eqn:El. remember {| s_disk := d; s_proc := p; s_pipe := pi |} as s0 eqn:Es.
        destruct H1; try discriminate El; try (destruct hdr; discriminate El); injection Es as E1 E2 E3; subst d0 p0 pi0; cbn in *.
        all: try match goal with E : ?P = set_fly _ ?P |- _ => exfalso; apply Hx; apply (f_equal l_fly) in E; cbn in E; congruence end.
        all: try match goal with E : _ = set_fly _ ?P, E' : l_phase ?P = _ |- _ => exfalso; apply (f_equal l_phase) in E; cbn in E; rewrite E' in E; try discriminate E end.
        all: try match goal with E : PBuild _ _ = PBuild _ _ |- _ => injection E as E _; apply (f_equal length) in E; rewrite app_length in E; cbn in E; lia end.
        all: match goal with E : l_fly ?P = Some _, E' : l_fly ?P = Some _ |- _ => rewrite E in E'; injection E' as -> end.
        all: match goal with E : y_io _ = _ |- _ => rewrite E in * end; try discriminate.
        all: match goal with E : set_fly _ ?P = set_fly _ ?P |- _ => apply (f_equal l_fly) in E; cbn in E; injection E as <- end; cbn; lia. }
      unfold z_pipe at 1. cbn [z_queue z_fly z_thread z_set_sys z_sys]. rewrite H3. cbn [set_fly l_fly]. rewrite H. now right.
    - left. cbn. rewrite H, H0. cbn. lia.
    - left. cbn. rewrite H, H0. cbn. lia.
    - left. cbn. rewrite H. cbn. lia.
    - left. cbn. rewrite H. cbn. lia.
    - left. cbn. rewrite H. cbn. lia.
    - left. cbn. rewrite H. cbn. rewrite app_length. cbn. lia.
    - left. cbn. rewrite H. cbn. rewrite app_length. cbn. lia.
    - left. cbn. rewrite H. cbn. lia.
    - left. cbn. rewrite H, H1. cbn. lia.
    - left. cbn. rewrite H, H1. cbn. lia.
    - left. cbn. rewrite H. cbn. lia.
    - (* cached *) unfold z_pipe at 1. cbn [z_queue z_fly z_thread z_set_sys z_sys]. rewrite H3, H0. right. cbn. rewrite H1. lia.
    - (* acked *) left. rewrite H0 in Hf. destruct Hf as (Hn & L1 & L2). cbn. rewrite zip_with_length, <- L2, Nat.min_id.
      assert (0 < length (z_fly v))%nat by (destruct (z_fly v); [contradiction|cbn; lia]). destruct (z_thread v); try discriminate H; injection H as <-; cbn; lia.
    - (* failed *) left. rewrite H0 in Hf. destruct Hf as (Hn & L1 & L2). cbn. rewrite app_length, !map_length.
      assert (0 < length (z_fly v))%nat by (destruct (z_fly v); [contradiction|cbn; lia]). destruct (z_thread v); try discriminate H; injection H as <- <-; cbn; lia.
    - (* abort *) left. rewrite H in *. cbn in *. rewrite map_length. destruct items; [now destruct Ht|]. cbn. lia.
    - (* dispatch *) left. rewrite H, H0 in *. cbn in *. subst. rewrite map_length, Hf. destruct items; [now destruct Ht|]. cbn. lia.
    - left. cbn. rewrite H. cbn. lia.
    - left. cbn. rewrite H. cbn. lia.
    - left. cbn. rewrite H. cbn. lia.
  Qed.

  (** What the model asks of requests and of the pages of a commit (the fields have room for their values, see [req_wf] and
      [storable]), and that no page read reports a cancellation. *)
  Definition z_able (v : zsrv) : Prop :=
    let d := s_disk (z_sys v) in let p := s_proc (z_sys v) in let pi := z_pipe v in
    (forall items id r, z_thread v = ZProc items id r -> req_wf (l_w pi) r /\
       forall w, process_append_request (Pipeline.snap 16 d p pi) 16 ps hash order (false, false) (rq_events r) (rq_cond r) (rq_trk r) (l_w pi) <> (Err ECancelled, w)) /\
    (forall items todo hp hb pages w, z_thread v = ZBarrier items -> prepare_commit 16 ps ford (Pipeline.snap 16 d p pi) todo pi = Ok (hp, hb, pages, w) -> todo ≡ₚ map_to_list (w_dirty w) ->
       Forall (fun e => storable 16 e.2) todo /\ storable 16 (NHeader hp.2)).
  Lemma ailing_refl rd : ailing rd rd. Proof. intros q. now left. Qed.
  Lemma can_work v : ps = DEFAULT_PAGE_SIZE -> z_ok (z_thread v) (z_pipe v) -> z_able v -> z_thread v <> ZStop ->
    (z_thread v = ZIdle -> l_fly (z_pipe v) <> None) -> (z_thread v = ZFetch -> z_queue v = [] -> l_fly (z_pipe v) <> None) -> exists ol v', z_works v ol v'.
  Proof.
    intros Hps Ht [Ha1 Ha2] Hs Hi Hq. destruct (z_sys v) as [d p pi] eqn:Es. unfold z_pipe in *. rewrite Es in *. cbn [s_pipe s_disk s_proc] in *.
    (** a commit is being written *)
    assert (Hfly : forall f, l_fly pi = Some f -> z_next (z_thread v) <> None -> exists ol v', z_works v ol v').
    { intros f Ef Hn.
      assert (Hph : match l_phase pi with PBuild _ _ => False | _ => True end).
      { destruct (z_thread v); try (now destruct Hn); cbn in Ht; [destruct Ht as (_ & o & ->)|rewrite Ht..]; exact I. }
      assert (Hio : forall d' x, writing (y_io f) = true -> y_io f <> x -> lstep (PSys d p pi) LTau (PSys d' p (set_fly (Some (set_io x f)) pi)) -> exists ol v', z_works v ol v').
      { intros d' x Hw Hx Hl. eexists _, _. split.
        - eapply (Z_io _ _ _ _ _ _ _ v f x); unfold z_pipe; rewrite ?Es; try eassumption; reflexivity.
        - right. unfold z_pipe. cbn. rewrite Es. cbn. rewrite Ef. intros E. injection E as E. apply (f_equal y_io) in E. cbn in E. congruence. }
      destruct (y_io f) as [[|[q b] todo]| | | | |hdr] eqn:Ey.
      - eapply (Hio (d_synced d) IHeader); [reflexivity|discriminate|]. now apply L_sync.
      - eapply (Hio _ (IPages todo)); [reflexivity| |eapply L_page; eassumption]. intros E. injection E as E. apply (f_equal length) in E. cbn in E. lia.
      - eapply (Hio _ ISync); [reflexivity|discriminate|]. now apply L_header.
      - eapply (Hio _ IDone); [reflexivity|discriminate|]. now apply L_done.
      - eexists _, _. split; [eapply (Z_cached _ _ _ _ _ _ _ v f); unfold z_pipe; rewrite ?Es; try eassumption; [eapply L_cached; eassumption|reflexivity]|].
        right. unfold z_pipe. cbn. rewrite Es. cbn. rewrite Ef. intros E. injection E as E. apply (f_equal y_io) in E. cbn in E. congruence.
      - destruct (z_next (z_thread v)) as [next|] eqn:En; [|contradiction]. eexists _, _. split; [eapply (Z_acked _ _ _ _ _ _ _ v f next); unfold z_pipe; rewrite ?Es; try eassumption; eapply L_acked; eassumption|].
        right. unfold z_pipe. cbn. rewrite Es. cbn. rewrite Ef. discriminate.
      - assert (exists items next, z_after (z_thread v) = Some (items, next)) as (items & next & En) by (destruct (z_thread v); try (now destruct Hn); cbn; eauto).
        eexists _, _. split; [eapply (Z_failed _ _ _ _ _ _ _ v f hdr items next EIo EIo); unfold z_pipe; rewrite ?Es; try eassumption; [eapply L_failed; try eassumption; apply ailing_refl|apply rollback_pipe|discriminate..]|].
        right. unfold z_pipe. cbn. rewrite Es. cbn. rewrite Ef. now rewrite (proj2 (rollback_pipe _ _ _)). }
    destruct (z_thread v) as [|id r|items id r|items|items| | |todo h next|] eqn:Et; cbn in Ht.
    - destruct (z_queue v) as [|[id r|] q] eqn:Eq.
      + eexists None, _. split; [apply Z_idle; unfold z_pipe; rewrite ?Es; auto|]. left. rewrite Et. discriminate.
      + eexists None, _. split; [eapply Z_take; eassumption|]. left. rewrite Et. discriminate.
      + eexists None, _. split; [eapply Z_stop; eassumption|]. left. rewrite Et. discriminate.
    - destruct (find_reusable_page_ids (Pipeline.snap 16 d p pi) (reg_min (p_regs p)) (l_w pi)) as [[[]|e] w] eqn:Ef.
      + eexists _, _. split; [eapply Z_begin; rewrite ?Es; [eassumption|apply L_begin; eassumption|reflexivity]|]. left. cbn. rewrite Et. discriminate.
      + eexists _, _. split; [eapply (Z_begin_fails _ _ _ _ _ _ _ v id r EIo); rewrite ?Es; [eassumption|eapply L_begin_fails; [eassumption|apply ailing_refl|eassumption]|unfold z_pipe; now rewrite Es|discriminate]|].
        left. cbn. rewrite Et. discriminate.
    - destruct (Ha1 _ _ _ eq_refl) as [Hwf Hnc].
      destruct (process_append_request (Pipeline.snap 16 d p pi) 16 ps hash order (false, false) (rq_events r) (rq_cond r) (rq_trk r) (l_w pi)) as [a w] eqn:Ep.
      destruct (match a with Ok _ => false | Err e => is_abort e end) eqn:Ea.
      + destruct a as [|e]; [discriminate|]. eexists _, _. split; [eapply (Z_fails _ _ _ _ _ _ _ v items id r e); rewrite ?Es; [eassumption|eapply L_fails; [exact Ht|apply ailing_refl|exact Ep|exact Ea]|reflexivity|]|].
        * intros ->. now destruct (Hnc w).
        * left. cbn. rewrite Et. discriminate.
      + eexists _, _. split; [eapply (Z_process _ _ _ _ _ _ _ v items id r a); rewrite ?Es; [eassumption|eapply L_request; [exact Ht|exact Hwf|exact Ep|]|reflexivity]|].
        * destruct a; auto.
        * left. cbn. rewrite Et. discriminate.
    - destruct Ht as [Hit Ht]. assert (Hb : lstep (PSys d p pi) LTau (PSys d p (Pipeline.set_phase (PBuilt (map it_req items) (map it_ans items) None) pi))).
      { apply L_built; [exact Ht|]. now destruct items. }
      destruct (N.le_gt_cases max_events (total_events items)) as [Hm|Hm].
      + eexists _, _. split; [eapply Z_full; rewrite ?Es; try eassumption; reflexivity|]. left. cbn. rewrite Et. discriminate.
      + destruct (z_queue v) as [|[id r|] q] eqn:Eq.
        * eexists _, _. split; [eapply Z_empty; rewrite ?Es; try eassumption; reflexivity|]. left. cbn. rewrite Et. discriminate.
        * eexists _, _. split; [eapply Z_more; eassumption|]. left. cbn. rewrite Et. discriminate.
        * eexists _, _. split; [eapply Z_swallow; rewrite ?Es; try eassumption; reflexivity|]. left. cbn. rewrite Et. discriminate.
    - destruct (l_fly pi) as [f|] eqn:Ef; [eapply Hfly; [reflexivity|discriminate]|]. destruct Ht as (Hit & o & Ht). destruct o as [e|].
      + eexists _, _. split; [eapply (Z_abort _ _ _ _ _ _ _ v items e); unfold z_pipe; rewrite ?Es; [eassumption|exact Ef|eapply L_abort; [exact Ht|exact Ef|apply ailing_refl]|]|].
        * cbn. intros dn an o' E. rewrite Ht in E. now injection E as <- <- <-.
        * left. cbn. rewrite Et. discriminate.
      + destruct (process_freed_page_ids (Pipeline.snap 16 d p pi) 16 ps ford (l_w pi)) as [x w] eqn:Ew.
        destruct (prepare_commit 16 ps ford (Pipeline.snap 16 d p pi) (map_to_list (w_dirty w)) pi) as [[[[hp hb] pages] w']|e] eqn:Ep.
        * assert (w' = w) as ->.
          { unfold prepare_commit in Ep. rewrite Ew in Ep. destruct x as [[]|]; [|discriminate]. destruct (page_ser _ _ _); [|discriminate]. destruct (prepare_pages _ _); [|discriminate]. clear - Ep. cbn [rbind] in Ep. congruence. }
          destruct (Ha2 _ _ _ _ _ _ eq_refl Ep (Permutation_refl _)) as [S1 S2]. eexists _, _.
          split; [eapply (Z_dispatch _ _ _ _ _ _ _ v items); unfold z_pipe; rewrite ?Es; [eassumption|exact Ef|eapply L_dispatch; [exact Ht|exact Ef|exact Ep|reflexivity|exact S1|exact S2]|reflexivity]|].
          left. cbn. rewrite Et. discriminate.
        * eexists _, _. split; [eapply (Z_abort _ _ _ _ _ _ _ v items EIo); unfold z_pipe; rewrite ?Es; [eassumption|exact Ef|eapply L_dispatch_fails; [exact Ht|exact Ef|apply ailing_refl|exact Ep|apply ailing_refl]|]|].
          -- cbn. intros dn an o' E. rewrite Ht in E. injection E as <- <- <-. discriminate.
          -- left. cbn. rewrite Et. discriminate.
    - destruct (l_fly pi) as [f|] eqn:Ef; [eapply Hfly; [reflexivity|discriminate]|]. now destruct Hi.
    - destruct (l_fly pi) as [f|] eqn:Ef; [eapply Hfly; [reflexivity|discriminate]|]. eexists None, _. split; [apply Z_reap; [exact Et|unfold z_pipe; now rewrite Es]|]. left. cbn. rewrite Et. discriminate.
    - destruct todo as [|[id a] todo].
      + eexists None, _. split; [eapply Z_publish; exact Et|]. left. cbn. rewrite Et. intros E. apply (f_equal t_weight) in E. cbn in E. lia.
      + eexists None, _. split; [eapply Z_send; exact Et|]. left. cbn. rewrite Et. intros E. injection E as E. apply (f_equal length) in E. cbn in E. lia.
    - contradiction.
  Qed.
End queue.
