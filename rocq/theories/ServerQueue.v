(** Requests on their way through the writer thread: none is lost, none is answered twice. *)
From Verif Require Export ServerProofs.
From Coq Require Import Relations.Relation_Operators Wellfounded.Lexicographic_Product Wellfounded.Inverse_Image.
Local Open Scope N_scope.

(** The requests the thread has taken from the queue and not yet decided; those still in the queue; the answers decided
    and not yet sent. *)
Definition held (t : tphase) : list (nat * request) :=
  match t with
  | TOpen id r => [(id, r)]
  | TProc items id r => map fst items ++ [(id, r)]
  | TDrain items | TCommit items => map fst items
  | TWait | TReply _ _ | TStop => []
  end.
Definition queued (q : list msg) : list (nat * request) :=
  omap (fun m => match m with MAppend id r => Some (id, r) | MShutdown => None end) q.
Definition decided (t : tphase) : list (nat * res N) := match t with TReply todo _ => todo | _ => [] end.
(** The requests committed, in order, with their answers. *)
Definition commits (tr : list label) : list (request * res N) :=
  concat (map (fun l => match l with LCommit reqs ans => zip reqs ans | _ => [] end) tr).
Lemma commits_app t1 t2 : commits (t1 ++ t2) = commits t1 ++ commits t2.
Proof. unfold commits. now rewrite map_app, concat_app. Qed.
Lemma queued_app q1 q2 : queued (q1 ++ q2) = queued q1 ++ queued q2.
Proof. apply omap_app. Qed.

(** What the write transaction holds is what the thread has processed. *)
Definition th_ok (t : tphase) (x : wphase) : Prop :=
  match t with
  | TProc items _ _ | TDrain items => exists rd w, x = WBusy rd w (map it_req items) (map it_ans items)
  | TCommit items =>
    match x with
    | WBusy _ _ done ans | WPages _ _ done ans | WHeader _ done ans | WSync _ done ans => done = map it_req items /\ ans = map it_ans items
    | _ => False
    end
  | _ => x = WIdle \/ x = WBroken
  end.

(** Who got what: the request, its answer, and whether it was committed. *)
Record fate := Fate { f_id : nat; f_req : request; f_ans : res N; f_done : bool }.
Definition f_in (f : fate) : nat * request := (f_id f, f_req f).
Definition f_out (f : fate) : nat * res N := (f_id f, f_ans f).
Definition f_com (f : fate) : request * res N := (f_req f, f_ans f).

Section server_queue.
  Context (ps : N) (hash : bytes -> bytes) (order : list bytes -> list bytes) (ford : gset N -> list N) (caching : bool) (max_events : N).
  Context (Hps : ps_ok ps).
  Notation pstep := (pstep 16 ps hash order ford caching).
  Notation sstep := (sstep 16 ps hash order ford caching max_events).
  Notation serves := (serves 16 ps hash order ford caching max_events).

  Definition accounts (v : srv) (tr : list label) (P : list fate) : Prop :=
    map f_in P ++ held (v_thread v) ++ queued (v_queue v) = v_seen v /\
    map f_out P = v_sent v ++ decided (v_thread v) /\
    map f_com (filter (fun f => f_done f = true) P) = commits tr /\
    Forall (fun f => f_done f = false -> exists e, f_ans f = Err e) P /\
    NoDup (map fst (v_seen v)) /\ th_ok (v_thread v) (p_writer (v_proc v)).

  Lemma pstep_writer d p l d' p' : pstep d p l d' p' ->
    match l with
    | LCall _ | LReady _ | LClose _ | LHead _ _ | LTrack _ _ _ => p_writer p' = p_writer p
    | LAbort _ => p_writer p' = WIdle
    | LUnsure _ => p_writer p' = WBroken
    | LCommit _ _ => p_writer p' = WIdle
    | _ => True
    end.
  Proof. intros H. destruct H; cbn; try reflexivity; try exact I. unfold pin_header. case_match; reflexivity. Qed.
  Lemma pstep_committing d p d' p' : pstep d p LTau d' p' -> p_writer p' <> p_writer p -> committing (p_writer p') = true ->
    forall items, th_ok (TCommit items) (p_writer p) -> th_ok (TCommit items) (p_writer p').
  Proof.
    intros H. remember LTau as l eqn:El. destruct H; try discriminate El; cbn; intros Hne Hc items; try congruence; try discriminate Hc.
    all: match goal with H : p_writer _ = _ |- _ => rewrite H end; try exact (fun h => h).
  Qed.
  Lemma zip_items (items : list Server.item) : zip (map it_req items) (map it_ans items) = map (fun x => (it_req x, it_ans x)) items.
  Proof. induction items as [|x items IH]; [reflexivity|]. cbn. now rewrite IH. Qed.

  (** A batch has been dealt with: [a] gives the answers. *)
  Definition fates (done : bool) (a : Server.item -> res N) (items : list Server.item) : list fate := map (fun x => Fate (it_id x) (it_req x) (a x) done) items.
  Lemma fates_in b a items : map f_in (fates b a items) = map fst items.
  Proof. unfold fates. rewrite map_map. apply map_ext. intros [[id r] y]. reflexivity. Qed.
  Lemma fates_out b a items : map f_out (fates b a items) = map (fun x => (it_id x, a x)) items.
  Proof. unfold fates. rewrite map_map. reflexivity. Qed.
  Lemma fates_false a items : filter (fun f => f_done f = true) (fates false a items) = [].
  Proof. induction items as [|x items IH]; [reflexivity|]. cbn [fates map]. rewrite filter_cons, decide_False by discriminate. exact IH. Qed.
  Lemma fates_true a items : filter (fun f => f_done f = true) (fates true a items) = fates true a items.
  Proof. induction items as [|x items IH]; [reflexivity|]. cbn [fates map]. rewrite filter_cons, decide_True by reflexivity. f_equal. exact IH. Qed.
  Lemma fates_com a items : map f_com (fates true a items) = map (fun x => (it_req x, a x)) items.
  Proof. unfold fates. rewrite map_map. reflexivity. Qed.
  Lemma fates_err (a : Server.item -> res N) items : (forall x, exists e, a x = Err e) -> Forall (fun f => f_done f = false -> exists e, f_ans f = Err e) (fates false a items).
  Proof. intros H. apply Forall_forall. intros f Hf _. apply elem_of_list_In, in_map_iff in Hf as (x & <- & _). apply H. Qed.

  Lemma accounts_step v ol v' tr P : sstep v ol v' -> accounts v tr P ->
    exists P', accounts v' (tr ++ match ol with Some l => [l] | None => [] end) (P ++ P').
  Proof.
    intros H (A1 & A2 & A3 & A4 & A5 & A6).
    assert (Hsame : forall v1 o, commits o = [] -> v_queue v1 = v_queue v -> v_thread v1 = v_thread v -> v_sent v1 = v_sent v -> v_seen v1 = v_seen v ->
      th_ok (v_thread v) (p_writer (v_proc v1)) -> exists P', accounts v1 (tr ++ o) (P ++ P')).
    { intros v1 o E0 E1 E2 E3 E4 E5. exists []. rewrite app_nil_r. unfold accounts. rewrite E1, E2, E3, E4, commits_app, E0, app_nil_r. repeat split; assumption. }
    assert (Hmove : forall v1, held (v_thread v1) ++ queued (v_queue v1) = held (v_thread v) ++ queued (v_queue v) ->
      v_sent v1 ++ decided (v_thread v1) = v_sent v ++ decided (v_thread v) -> v_seen v1 = v_seen v -> th_ok (v_thread v1) (p_writer (v_proc v1)) ->
      forall o, commits o = [] -> exists P', accounts v1 (tr ++ o) (P ++ P')).
    { intros v1 E1 E2 E3 E4 o E0. exists []. rewrite app_nil_r. unfold accounts. rewrite E1, E2, E3, commits_app, E0, app_nil_r. repeat split; assumption. }
    assert (Hend : forall v1 o b (a : Server.item -> res N) items, held (v_thread v) = map fst items -> decided (v_thread v) = [] ->
      held (v_thread v1) = [] -> v_queue v1 = v_queue v -> v_seen v1 = v_seen v ->
      v_sent v1 ++ decided (v_thread v1) = v_sent v ++ map (fun x => (it_id x, a x)) items ->
      (if b : bool then commits o = map (fun x => (it_req x, a x)) items else commits o = [] /\ forall x, exists e, a x = Err e) ->
      th_ok (v_thread v1) (p_writer (v_proc v1)) -> exists P', accounts v1 (tr ++ o) (P ++ P')).
    { intros v1 o b a items E1 E2 E3 E4 E5 E6 E7 E8. exists (fates b a items). unfold accounts. rewrite E3, E4, E5, E6, commits_app, !map_app, filter_app, map_app.
      rewrite fates_in, fates_out, <- app_assoc, A2, E2, app_nil_r, A3, E1 in *. cbn [app]. split; [exact A1|]. split; [reflexivity|].
      split; [|split; [|split; [exact A5|exact E8]]].
      - destruct b; [now rewrite fates_true, fates_com, E7|]. rewrite fates_false. now destruct E7 as [-> _].
      - apply Forall_app. split; [exact A4|]. destruct b; [|now apply fates_err]. apply Forall_forall. intros f Hf Hb. apply elem_of_list_In, in_map_iff in Hf as (x & <- & _). discriminate Hb. }
    destruct H.
    - (* arrive *) exists []. rewrite !app_nil_r. unfold accounts. cbn [v_thread v_queue v_sent v_seen v_proc v_note v_set_queue]. rewrite queued_app, map_app.
      repeat split; try assumption. + rewrite <- A1, <- !app_assoc. reflexivity.
      + apply NoDup_app. split; [exact A5|]. split; [|apply NoDup_singleton]. intros y Hy Hn. apply elem_of_list_singleton in Hn as ->. contradiction.
    - apply Hsame; auto.
    - apply Hmove; auto. cbn. rewrite queued_app. cbn. now rewrite app_nil_r.
    - apply Hsame; auto. cbn. match goal with E : p_writer _ = _ |- _ => now rewrite E end.
    - apply Hsame; auto.
      + match goal with H : _ \/ _ |- _ => destruct H as [->|[->|[->|[(? & ->)|(? & ? & ->)]]]] end; reflexivity.
      + match goal with H : pstep _ _ _ _ _ |- _ => apply pstep_writer in H end. cbn.
        match goal with H : _ \/ _ |- _ => destruct H as [->|[->|[->|[(? & ->)|(? & ? & ->)]]]] end; cbn in *; congruence.
    - (* take *) apply Hmove; auto; cbn; rewrite ?H, ?H0; auto. rewrite H in A6. exact A6.
    - (* stop *) apply Hmove; auto; cbn; rewrite ?H, ?H0; auto. rewrite H in A6. exact A6.
    - (* begin *) apply Hmove; auto; cbn; rewrite ?H; auto. eauto.
    - (* begin fails *) eapply (Hend _ _ false (fun _ => Err e) [(id, r, Err e)]); rewrite ?H; auto. + cbn. now rewrite app_nil_r. + split; [reflexivity|eauto]. + rewrite H in A6. exact A6.
    - (* process *) apply Hmove; auto; cbn; rewrite ?H; auto. { rewrite map_app. reflexivity. } rewrite !map_app. eauto.
    - (* fails *) eapply (Hend _ _ false (fun _ => Err e) (items ++ [(id, r, Err e)])); rewrite ?H; auto.
      + cbn. rewrite map_app. reflexivity.
      + cbn. rewrite map_app. reflexivity.
      + split; [reflexivity|eauto].
      + match goal with H : pstep _ _ _ _ _ |- _ => apply pstep_writer in H end. cbn. auto.
    - (* full *) apply Hmove; auto; cbn; rewrite ?H; auto. rewrite H in A6. cbn in A6. destruct A6 as (rd & w & ->). auto.
    - (* more *) apply Hmove; auto; cbn; rewrite ?H; auto. + rewrite H1. cbn. now rewrite <- app_assoc. + rewrite H in A6. exact A6.
    - (* swallow *) apply Hmove; auto; cbn; rewrite ?H, ?H1; auto. rewrite H in A6. cbn in A6. destruct A6 as (rd & w & ->). auto.
    - (* empty *) apply Hmove; auto; cbn; rewrite ?H, ?H1; auto. rewrite H in A6. cbn in A6. destruct A6 as (rd & w & ->). auto.
    - (* commit *) apply Hsame; auto. rewrite H in A6 |- *. eapply pstep_committing; eassumption.
    - (* committed *) rewrite H in A6. cbn in A6. rewrite H0 in A6. destruct A6 as [-> ->]. eapply (Hend _ _ true it_ans items); rewrite ?H; auto.
      + cbn. rewrite app_nil_r. apply zip_items.
      + match goal with H : pstep _ _ _ _ _ |- _ => apply pstep_writer in H end. cbn. auto.
    - (* commit fails *) eapply (Hend _ _ false (fun _ => Err e) items); rewrite ?H; auto.
      + split; [|eauto]. destruct H0 as [->| ->]; reflexivity.
      + match goal with H : pstep _ _ _ _ _ |- _ => apply pstep_writer in H end. cbn. destruct H0 as [->| ->]; auto.
    - (* reply *) apply Hmove; auto; cbn; rewrite ?H; auto. + cbn. now rewrite <- app_assoc. + rewrite H in A6. exact A6.
    - (* publish *) assert (E : forall (A : Type) (f : srv -> A), (forall d p q t s n g k h r u l, f (Srv d p q t s n g k h r u l) = f (Srv d p q t s n g 0%nat None r u l)) -> f (v_publish h v) = f v).
      { intros A f Hf. unfold v_publish. case_match; [|reflexivity]. destruct v. cbn. rewrite Hf. symmetry. apply Hf. }
      apply Hmove; auto; cbn.
      + rewrite (E _ v_queue) by reflexivity. rewrite H. reflexivity.
      + rewrite (E _ v_sent) by reflexivity. now rewrite H.
      + now rewrite (E _ v_seen) by reflexivity.
      + rewrite (E _ v_proc) by reflexivity. rewrite H in A6. exact A6.
    - (* next *) apply Hmove; auto; cbn; rewrite ?H; auto. rewrite H in A6. exact A6.
    - apply Hsame; auto.
    - apply Hsame; auto.
    - apply Hsame; auto.
    - apply Hsame; auto.
    - apply Hsame; auto. cbn. match goal with H : pstep _ _ _ _ _ |- _ => apply pstep_writer in H; cbn in H; now rewrite H end.
    - apply Hsame; auto. cbn. match goal with H : pstep _ _ _ _ _ |- _ => apply pstep_writer in H; cbn in H; now rewrite H end.
    - apply Hsame; auto.
    - apply Hsame; auto. cbn. match goal with H : pstep _ _ _ _ _ |- _ => apply pstep_writer in H; cbn in H; now rewrite H end.
    - apply Hsame; auto. cbn. match goal with H : pstep _ _ _ _ _ |- _ => apply pstep_writer in H; cbn in H; now rewrite H end.
    - apply Hsame; auto.
    - apply Hsame; auto.
    - apply Hsame; auto.
  Qed.
  Lemma serves_accounts d p h v vs tr : p_writer p = WIdle -> serves d p h (v :: vs) tr -> exists P, accounts v tr P.
  Proof.
    intros H0 H. remember (v :: vs) as l eqn:El. revert v vs El. induction H as [|v vs tr ol v' H IH Hst]; intros w ws El.
    - injection El as <- <-. exists []. unfold accounts. cbn. repeat split; auto. constructor.
    - injection El as <- <-. destruct (IH v vs eq_refl) as (P & HP). destruct (accounts_step _ _ _ _ _ Hst HP) as (P' & HP'). eauto.
  Qed.

  (** *** The thread keeps going *)
  (** A step of the writer thread. *)
  Definition works (v : srv) (ol : option label) (v' : srv) : Prop :=
    sstep v ol v' /\ (v_thread v' <> v_thread v \/ p_writer (v_proc v') <> p_writer (v_proc v)).
  Definition left_to_do (v : srv) : nat * (nat * nat) :=
    (length (v_queue v),
     match v_thread v with
     | TStop => (0, 0) | TWait => (1, 0) | TReply todo _ => (2, length todo)
     | TCommit _ => match p_writer (v_proc v) with
                    | WSync _ _ _ => (3, 0) | WHeader _ _ _ => (4, 0) | WPages _ todo _ _ => (5, length todo) | WBusy _ _ _ _ => (6, 0) | _ => (7, 0)
                    end
     | TDrain _ => (8, 0) | TProc _ _ _ => (9, 0) | TOpen _ _ => (10, 0)
     end)%nat.
  Definition less_to_do : nat * (nat * nat) -> nat * (nat * nat) -> Prop := slexprod _ _ lt (slexprod _ _ lt lt).
  Lemma less_wf : well_founded (fun v' v => less_to_do (left_to_do v') (left_to_do v)).
  Proof. apply wf_inverse_image. apply wf_slexprod; [apply lt_wf|]. apply wf_slexprod; apply lt_wf. Qed.

  Lemma pstep_stage d p d' p' items : pstep d p LTau d' p' -> p_writer p' <> p_writer p -> committing (p_writer p') = true ->
    th_ok (TCommit items) (p_writer p) ->
    slexprod nat nat lt lt
      match p_writer p' with WSync _ _ _ => (3, 0) | WHeader _ _ _ => (4, 0) | WPages _ todo _ _ => (5, length todo) | WBusy _ _ _ _ => (6, 0) | _ => (7, 0) end%nat
      match p_writer p with WSync _ _ _ => (3, 0) | WHeader _ _ _ => (4, 0) | WPages _ todo _ _ => (5, length todo) | WBusy _ _ _ _ => (6, 0) | _ => (7, 0) end%nat.
  Proof.
    intros H. remember LTau as l eqn:El. destruct H; try discriminate El; cbn; intros Hne Hc Hth; try congruence; try discriminate Hc.
    all: match goal with H : p_writer _ = _ |- _ => rewrite H end.
    - left. lia.
    - right. cbn. lia.
    - left. lia.
    - left. lia.
  Qed.
  Lemma works_less v ol v' : works v ol v' -> th_ok (v_thread v) (p_writer (v_proc v)) -> less_to_do (left_to_do v') (left_to_do v).
  Proof.
    intros [H Hw] Ht. unfold left_to_do, less_to_do.
    assert (Hnone : v_thread v' = v_thread v -> p_writer (v_proc v') = p_writer (v_proc v) -> False) by (intros; destruct Hw; contradiction).
    destruct H; cbn [v_thread v_queue v_set_thread v_set_queue v_send v_set_db v_proc v_note v_leave v_set_rpc] in *.
    all: try (exfalso; apply Hnone; reflexivity).
    all: try match goal with H : pstep _ _ (LCall _) _ _ |- _ => apply pstep_writer in H; exfalso; apply Hnone; [reflexivity|exact H] end.
    all: try match goal with H : pstep _ _ (LReady _) _ _ |- _ => apply pstep_writer in H; exfalso; apply Hnone; [reflexivity|exact H] end.
    all: try match goal with H : pstep _ _ (LClose _) _ _ |- _ => apply pstep_writer in H; exfalso; apply Hnone; [reflexivity|exact H] end.
    - exfalso. apply Hnone; auto.
    - exfalso. apply Hnone; [reflexivity|]. apply pstep_writer in H. destruct H1 as [->|[->|[->|[(? & ->)|(? & ? & ->)]]]]; exact H.
    - rewrite H, H0. left. cbn. lia.
    - rewrite H, H0. left. cbn. lia.
    - rewrite H. right. left. lia.
    - rewrite H. right. left. lia.
    - rewrite H. right. left. lia.
    - rewrite H. right. left. lia.
    - rewrite H. right. rewrite H in Ht. cbn in Ht. destruct Ht as (rd & w & ->). left. lia.
    - rewrite H, H1. left. cbn. lia.
    - rewrite H, H1. left. cbn. lia.
    - rewrite H. right. rewrite H in Ht. cbn in Ht. destruct Ht as (rd & w & ->). left. lia.
    - rewrite H in Ht |- *. right. eapply pstep_stage; eassumption.
    - rewrite H. right. rewrite H0. left. lia.
    - rewrite H. right. repeat case_match; left; lia.
    - rewrite H. right. right. cbn. lia.
    - rewrite H. unfold v_publish. case_match; cbn; right; left; lia.
    - rewrite H. right. left. lia.
  Qed.
  Lemma idle_works v id r : v_thread v = TOpen id r -> exists ol v', works v ol v'.
  Proof. intros H. exists None. eexists. split; [eapply (V_begin_fails _ _ _ _ _ _ _ _ _ _ EIo); [exact H|discriminate]|]. left. cbn. rewrite H. discriminate. Qed.
  (** It can always go on, unless there is nothing to do. *)
  Lemma can_work v : th_ok (v_thread v) (p_writer (v_proc v)) -> v_thread v <> TStop -> (v_thread v = TWait -> v_queue v <> []) -> exists ol v', works v ol v'.
  Proof.
    intros Ht Hs Hq.
    assert (go : forall ol v', sstep v ol v' -> v_thread v' <> v_thread v -> exists ol v', works v ol v') by (intros ol v' H1 H2; exists ol, v'; split; auto).
    assert (go' : forall ol v', sstep v ol v' -> p_writer (v_proc v') <> p_writer (v_proc v) -> exists ol v', works v ol v') by (intros ol v' H1 H2; exists ol, v'; split; auto).
    destruct (v_thread v) as [|id r|items id r|items|items|todo h|] eqn:E.
    - destruct (v_queue v) as [|[id r|] q] eqn:Eq; [now destruct Hq| |].
      + eapply go; [eapply V_take; eassumption|discriminate].
      + eapply go; [eapply V_stop; eassumption|discriminate].
    - eapply idle_works, E.
    - cbn in Ht. destruct Ht as (rd & w & Hw). eapply go.
      + eapply (V_fails _ _ _ _ _ _ _ v items id r rd w w (false, false) EIo true); try eassumption; try reflexivity; try discriminate. eapply S_abort. exact Hw.
      + discriminate.
    - destruct (N.ltb_spec (total_events items) max_events) as [Hl|Hl].
      + destruct (v_queue v) as [|[id r|] q] eqn:Eq.
        * eapply go; [eapply V_empty; eassumption|discriminate].
        * eapply go; [eapply V_more; eassumption|discriminate].
        * eapply go; [eapply V_swallow; eassumption|discriminate].
      + eapply go; [eapply V_full; eassumption|discriminate].
    - cbn in Ht. destruct (p_writer (v_proc v)) as [|rd w done ans|w [|[q n] todo] done ans|w done ans|w done ans|] eqn:Ew; try contradiction.
      + eapply go; [eapply (V_commit_fails _ _ _ _ _ _ _ _ _ (done ++ []) _ EIo); [exact E|left; reflexivity|discriminate|eapply S_abort; exact Ew]|discriminate].
      + eapply go'; [eapply V_commit; [exact E|eapply S_sync, Ew|cbn; rewrite Ew; intros Hx; discriminate Hx|reflexivity]|intros Hx; discriminate Hx].
      + eapply go; [eapply (V_commit_fails _ _ _ _ _ _ _ _ _ done _ EIo); [exact E|left; reflexivity|discriminate|eapply (S_page_fails _ _ _ _ _ _ _ _ _ _ _ []); [exact Ew|left; reflexivity]]|discriminate].
      + assert (exists b, page_ser 16 ps (NHeader (next_header (h_schema (latest (v_proc v)).2) w)) = Ok b) as (b & Eb).
        { unfold page_ser. cbn [node_ser rbind]. set (hd := next_header _ _). pose proof (header_size_eq hd) as Ehd. assert (header_size hd <= 62) by (unfold header_size; destruct (_ =? _); lia).
          unfold ps_ok in Hps. rewrite (proj2 (N.ltb_ge _ _)) by (unfold PAGE_HEADER_SIZE; lia). eauto. }
        eapply go'; [eapply V_commit; [exact E|eapply S_header; [exact Ew|exact Eb]|cbn; rewrite Ew; intros Hx; discriminate Hx|reflexivity]|intros Hx; discriminate Hx].
      + eapply go; [eapply V_committed; [exact E|exact Ew|]; eapply S_done, Ew|discriminate].
    - destruct todo as [|[id a] todo]; [destruct h as [h|]|].
      + eapply go; [eapply V_publish, E|discriminate].
      + eapply go; [eapply V_next, E|discriminate].
      + eapply go; [eapply V_reply, E|]. intros Hx. injection Hx as Hx. apply (f_equal length) in Hx. cbn in Hx. lia.
    - contradiction.
  Qed.
  (** Left alone, it works off the queue. *)
  Lemma works_off d p h v vs tr : p_writer p = WIdle -> serves d p h (v :: vs) tr ->
    exists v' new tr', serves d p h (v' :: new) tr' /\ (exists l, v' :: new = l ++ v :: vs) /\ v_seen v' = v_seen v /\
      (v_thread v' = TStop \/ v_thread v' = TWait /\ v_queue v' = []).
  Proof.
    intros H0. revert vs tr. induction (less_wf v) as [v _ IH]. intros vs tr H.
    destruct (serves_accounts _ _ _ _ _ _ H0 H) as (P & HP). destruct HP as (_ & _ & _ & _ & _ & Ht).
    assert (Hdec : (v_thread v = TStop \/ v_thread v = TWait /\ v_queue v = []) \/ (v_thread v <> TStop /\ (v_thread v = TWait -> v_queue v <> []))).
    { destruct (v_thread v); try (right; split; discriminate); [|left; now left]. destruct (v_queue v); [left; right; auto|right; split; discriminate]. }
    destruct Hdec as [Hd|[Hd1 Hd2]]; [exists v, vs, tr; split; [exact H|]; split; [now exists []|auto]|].
    destruct (can_work v Ht Hd1 Hd2) as (ol & v1 & Hw). pose proof (works_less _ _ _ Hw Ht) as Hl. destruct Hw as [Hst Hch].
    destruct (IH v1 Hl _ _ (serves_step _ _ _ _ _ _ _ _ _ _ _ _ _ _ _ H Hst)) as (v' & new & tr' & H1 & (l & Hl') & H2 & H3).
    exists v', new, tr'. split; [exact H1|]. split; [exists (l ++ [v1]); rewrite Hl', <- app_assoc; reflexivity|]. split; [|exact H3]. rewrite H2.
    destruct Hst; try reflexivity; try (exfalso; destruct Hch as [Hch|Hch]; apply Hch; reflexivity). unfold v_publish. case_match; reflexivity.
  Qed.
End server_queue.
