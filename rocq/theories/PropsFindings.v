(** Properties C27-C31: requests and reads at the edges.  Each is false of the code; the theorem named [..._refuted] gives
    an execution that shows it, and the theorem after it says what is true instead. *)
From Verif Require Import Mvcc MvccProofs SpecProofs StoreProofs Exec PropsStore PageProofs.
Local Open Scope N_scope.

(** The executions below run on a database with the default page size and a hash function that keeps short tags apart. *)
Definition f_hash (t : bytes) : bytes := t ++ replicate (16 - length t) 0.
Notation f_run := (run 4096 f_hash (fun l => l) x_ford true).
Notation f_exec := (exec 16 4096 f_hash (fun l => l) x_ford true (init_sys 16 4096)).
Lemma f_ps : ps_ok 4096. Proof. unfold ps_ok. lia. Qed.
Lemma f_ps32 : 4096 < U32. Proof. reflexivity. Qed.
Notation f_runs := (exec_runs 4096 f_hash (fun l => l) x_ford true f_ps f_ps32 x_ord x_ford_ok).


(** What can be computed to hold at the end of an execution does hold at the end of some run. *)
Lemma f_found s (P : sys -> bool) : match f_exec s with Some (_, y) => P y | None => false end = true -> exists tr y, f_run tr y /\ P y = true.
Proof.
  destruct (f_exec s) as [[tr y]|] eqn:E; [|discriminate]. intros HP. destruct (f_runs s tr) as (y' & H & E'); [now rewrite E|].
  exists tr, y. split; [|exact HP]. congruence.
Qed.
Ltac cases := repeat (case_match; try discriminate); subst.

(** ** C27: a request that stops the writer *)
(** One event is stored; a request without events, but with a condition which that event meets, makes the code index
    an empty list (db.rs:1024): the process aborts. *)
Definition f_one := Req [NE [1] [] [[97]] None []] None None.
Definition f_empty := Req [] (Some (ACond [] None)) None.
Definition f_process (w : writer) (rd : snapshot) (r : request) :=
  process_append_request rd 16 4096 f_hash (fun l => l) (false, false) (rq_events r) (rq_cond r) (rq_trk r) w.
Theorem no_request_stops_writer_refuted : exists tr y p rd w done ans r w',
  f_run tr y /\ y_proc y = Some p /\ p_writer p = WBusy rd w done ans /\
  process_append_request rd 16 4096 f_hash (fun l => l) (false, false) (rq_events r) (rq_cond r) (rq_trk r) w = (Err Panic, w').
Proof.
  destruct (f_found [ABegin; ARequest f_one] (fun y => match y with
    | Sys _ (Some p) => match p_writer p with WBusy rd w _ _ => match f_process w rd f_empty with (Err Panic, _) => true | _ => false end | _ => false end
    | _ => false end)) as (tr & y & H & HP); [vm_compute; reflexivity|].
  cases. exists tr. eexists _, _, _, _, _, _, f_empty, _. split; [exact H|]. split; [reflexivity|]. split; eassumption.
Qed.

(** ** C28: the largest [after] *)
(** [after] + 1 wraps around to 0 (db.rs:836): with the largest number as [after], every event counts as coming after it. *)
Definition f_max := Req [NE [1] [] [[97]] None []] (Some (ACond [] (Some (U64 - 1)))) None.
Theorem after_max_refuted : exists tr y p rd w done ans r c w',
  f_run tr y /\ y_proc y = Some p /\ p_writer p = WBusy rd w done ans /\ rq_cond r = Some c /\
  (forall e, e ∈ s_hist (spec_batch 4096 spec_empty done).2 -> ~ conflicts c e) /\
  process_append_request rd 16 4096 f_hash (fun l => l) (false, false) (rq_events r) (rq_cond r) (rq_trk r) w = (Err EIntegrity, w').
Proof.
  destruct (f_found [ABegin; ARequest f_one] (fun y => match y with
    | Sys _ (Some p) => match p_writer p with WBusy rd w done _ => if bool_decide (Forall (fun e => e.1 < U64 - 1) (s_hist (spec_batch 4096 spec_empty done).2)) then
        match f_process w rd f_max with (Err EIntegrity, _) => true | _ => false end else false | _ => false end
    | _ => false end)) as (tr & y & H & HP); [vm_compute; reflexivity|].
  cases. exists tr. eexists _, _, _, _, _, _, f_max, _, _. split; [exact H|]. split; [reflexivity|]. split; [eassumption|].
  split; [reflexivity|]. split; [|eassumption].
  intros e He [Ha _]. match goal with HB : bool_decide _ = true |- _ => apply bool_decide_eq_true in HB; rewrite Forall_forall in HB; specialize (HB e He) end. cbn in Ha. lia.
Qed.

(** ** C29, C30: pages that grow too long *)
(** A transaction that is committing and has a page which does not fit stays where it is until the commit fails. *)
Definition hopeless (n : node) : Prop := forall b, page_ser 16 4096 n <> Ok b.
Definition stuck (y : sys) (rs : list request) (n : node) : Prop :=
  exists p w todo ans q, y_proc y = Some p /\ p_writer p = WPages w todo rs ans /\ (q, n) ∈ todo.
Definition commit_fails (l : label) : bool := match l with LAbort _ | LCrash _ | LKill _ => true | _ => false end.
Lemma stuck_step y l y' rs n : hopeless n -> stuck y rs n -> Mvcc.step 16 4096 f_hash (fun l => l) x_ford true y l y' ->
  stuck y' rs n \/ (commit_fails l = true /\ forall rs', l = LAbort rs' -> rs' = rs).
Proof.
  intros Hn (p & w & todo & ans & q & Hp & Hw & Hin) Hst. inversion Hst as [d p0 l0 d' p' Hps|d p0 d' Hc|d d' Hc|d p0 Hs|d d' p0 Ho]; subst; cbn in Hp; try discriminate;
    try (right; split; [reflexivity|congruence]). injection Hp as ->.
  assert (Hk : p_writer p' = p_writer p -> stuck (Sys d' (Some p')) rs n) by (intros E; exists p', w, todo, ans, q; split; [reflexivity|]; split; [congruence|assumption]).
  inversion Hps; subst; try (left; apply Hk; reflexivity); try congruence.
  - assert (w0 = w /\ todo = (q0, n0) :: todo0 /\ done = rs /\ ans0 = ans) as (-> & -> & -> & ->) by (split_and!; congruence).
    apply elem_of_cons in Hin as [[= -> ->]|Hin]; [exfalso; eapply Hn; eassumption|].
    left. eexists _, w, todo0, ans, q. split; [reflexivity|]. split; [reflexivity|assumption].
  - right. split; [reflexivity|]. intros rs' [= <-]. congruence.
  - assert (todo = []) as -> by congruence. inversion Hin.
  - right. split; [reflexivity|]. intros rs' [= <-]. congruence.
Qed.
Lemma stuck_steps y tr y' rs n : hopeless n -> stuck y rs n -> Mvcc.steps 16 4096 f_hash (fun l => l) x_ford true y tr y' ->
  forallb (fun l => negb (commit_fails l)) tr = true -> stuck y' rs n /\ forall rs' ans, LCommit rs' ans ∉ tr.
Proof.
  intros Hn Hs Hst. induction Hst as [|y tr y1 l y2 Hst IH Hl]; intros Hf; [split; [assumption|intros ? ? Hx; inversion Hx]|].
  rewrite forallb_app in Hf. apply andb_prop in Hf as [Hf1 Hf2]. cbn in Hf2. rewrite andb_true_r in Hf2. apply negb_true_iff in Hf2.
  destruct (IH Hs Hf1) as [Hs1 Hc]. pose proof Hs1 as (p & w & todo & ans & q & Hp & Hw & Hin).
  destruct (stuck_step _ _ _ _ _ Hn Hs1 Hl) as [Hs2|[X _]]; [|congruence]. split; [exact Hs2|].
  intros rs' an Hx. apply elem_of_app in Hx as [Hx|Hx]; [exact (Hc _ _ Hx)|]. apply elem_of_list_singleton in Hx. subst l.
  destruct y1 as [d1 p1]; cbn in Hp; subst p1. inversion Hl; subst. inversion H3; subst; congruence.
Qed.

(** The request: 510 events with one tag, 504 with a second, one with a third.  Every event is accepted.  The positions
    of the first tag are moved out of the leaf, which leaves an entry of 26 bytes; when the third tag comes, the leaf is
    split by the number of its keys (tags_tree.rs:266-300) and the part with the second and third tag has 4103 bytes. *)
Definition f_tagged (t : bytes) := NE [1] [] [t] None [].
Definition f_split := Req (replicate 510 (f_tagged [1]) ++ replicate 504 (f_tagged [2]) ++ [f_tagged [3]]) None None.
Definition f_too_long (P : node -> bool) (o : sys) : bool := match o with
  | Sys _ (Some p) => match p_writer p with
    | WPages w todo done ans => bool_decide (done <> []) && forallb is_ok ans && existsb (fun e => P e.2 && negb (is_ok (page_ser 16 4096 e.2))) todo
    | _ => false end
  | _ => false end.
Lemma f_too_long_ok (P : node -> bool) y : f_too_long P y = true -> exists p w todo rs ans q n,
  y_proc y = Some p /\ p_writer p = WPages w todo rs ans /\ rs <> [] /\ forallb is_ok ans = true /\ P n = true /\ hopeless n /\ (q, n) ∈ todo.
Proof.
  destruct y as [d [p|]]; [|discriminate]. cbn. destruct (p_writer p) as [| |w todo done ans| | |] eqn:E; try discriminate.
  intros H. apply andb_prop in H as [H H3]. apply andb_prop in H as [H1 H2]. apply bool_decide_eq_true in H1.
  apply existsb_exists in H3 as ([q n] & Hin & Hx). apply andb_prop in Hx as [Hx1 Hx2]. exists p, w, todo, done, ans, q, n. split_and!; try assumption; try reflexivity.
  - intros b Hb. cbn in Hx2. rewrite Hb in Hx2. discriminate.
  - now apply elem_of_list_In.
Qed.
(** Requests whose events are all accepted, whose commit can only fail because of a page of the tag index. *)
Theorem tag_pages_fit_refuted : exists tr y rs n l, f_run tr y /\ rs <> [] /\ forallb is_ok (spec_batch 4096 spec_empty rs).1 = true /\
  n = NTagsLeaf l /\ stuck y rs n /\ forall tr' y', Mvcc.steps 16 4096 f_hash (fun l => l) x_ford true y tr' y' -> forallb (fun l => negb (commit_fails l)) tr' = true ->
    stuck y' rs n /\ forall rs' ans, LCommit rs' ans ∉ tr'.
Proof.
  destruct (f_found [ABegin; ARequest f_split; ACommit] (fun y => f_too_long (fun n => match n with NTagsLeaf _ => true | _ => false end) y &&
    match y with Sys _ (Some p) => match p_writer p with WPages _ _ done _ => forallb is_ok (spec_batch 4096 spec_empty done).1 | _ => false end | _ => false end)) as (tr & y & H & HP);
    [vm_compute; reflexivity|].
  apply andb_prop in HP as [HP HQ]. apply f_too_long_ok in HP as (p & w & todo & rs & ans & q & n & Hy & Hw & Hne & Hok & Hn & Hh & Hin).
  destruct n as [| | | | | |l| | | | | | |]; try discriminate.
  assert (Hs : stuck y rs (NTagsLeaf l)) by (now exists p, w, todo, ans, q).
  exists tr, y, rs, (NTagsLeaf l), l. split; [exact H|]. split; [exact Hne|]. split; [destruct y; cbn in Hy; subst; rewrite Hw in HQ; exact HQ|]. split; [reflexivity|]. split; [exact Hs|].
  intros tr' y' Hst Hf. now apply (stuck_steps y).
Qed.

(** 31 requests, each with one event and a tracking position: 15 sources with names of 2 bytes, then 16 with names of 247
    bytes.  Splitting the leaf by the number of its keys (db.rs:360-400) leaves a part of 4108 bytes. *)
Definition f_source (s : bytes) := Req [NE [1] [] [] None []] None (Some (Tracking s 1)).
Definition f_sources : list request :=
  map (fun i => f_source [0; N.of_nat i]) (seq 0 15) ++ map (fun i => f_source (1 :: N.of_nat i :: replicate 245 0)) (seq 0 16).
Theorem tracking_pages_fit_refuted : exists tr y rs n l, f_run tr y /\ rs <> [] /\ forallb is_ok (spec_batch 4096 spec_empty rs).1 = true /\
  n = NTrkLeaf l /\ stuck y rs n /\ forall tr' y', Mvcc.steps 16 4096 f_hash (fun l => l) x_ford true y tr' y' -> forallb (fun l => negb (commit_fails l)) tr' = true ->
    stuck y' rs n /\ forall rs' ans, LCommit rs' ans ∉ tr'.
Proof.
  destruct (f_found (ABegin :: map ARequest f_sources ++ [ACommit]) (fun y => f_too_long (fun n => match n with NTrkLeaf _ => true | _ => false end) y &&
    match y with Sys _ (Some p) => match p_writer p with WPages _ _ done _ => forallb is_ok (spec_batch 4096 spec_empty done).1 | _ => false end | _ => false end)) as (tr & y & H & HP);
    [vm_compute; reflexivity|].
  apply andb_prop in HP as [HP HQ]. apply f_too_long_ok in HP as (p & w & todo & rs & ans & q & n & Hy & Hw & Hne & Hok & Hn & Hh & Hin).
  destruct n as [| | | | | | | | | | | |l|]; try discriminate.
  assert (Hs : stuck y rs (NTrkLeaf l)) by (now exists p, w, todo, ans, q).
  exists tr, y, rs, (NTrkLeaf l), l. split; [exact H|]. split; [exact Hne|]. split; [destruct y; cbn in Hy; subst; rewrite Hw in HQ; exact HQ|]. split; [reflexivity|]. split; [exact Hs|].
  intros tr' y' Hst Hf. now apply (stuck_steps y).
Qed.

(** ** C31: pages that cannot be read *)
(** [rd'] reads as [rd] does, or fails. *)
Definition failing (rd rd' : snapshot) : Prop := forall q, rd' q = rd q \/ exists e, rd' q = Err e.
(** The iterator over the tag index takes an error for the end of the list (tags_tree.rs:697-702, 760-767): when the
    page with the root of the index cannot be read, a read answers that there is no event, and a request whose condition
    is met by a stored event is accepted. *)
Definition f_query : query := [QItem [] [[97]]].
Definition f_cond := Req [NE [1] [] [] None []] (Some (ACond f_query None)) None.
Theorem read_complete_or_error_refuted : exists tr y p q rd rd' e hd w w1 w2,
  f_run tr y /\ y_proc y = Some p /\ rd = fetch 16 ∅ (y_disk y) /\ rd' = (fun i => if i =? q then Err EIo else rd i) /\
  umadb_read f_hash (fun l => l) rd (latest p).2 f_query None false None false = Ok ([e], hd) /\
  umadb_read f_hash (fun l => l) rd' (latest p).2 f_query None false None false = Ok ([], hd) /\
  mvcc_writer rd None (latest p).2 = (Ok tt, w) /\
  process_append_request rd 16 4096 f_hash (fun l => l) (false, false) (rq_events f_cond) (rq_cond f_cond) (rq_trk f_cond) w = (Err EIntegrity, w1) /\
  process_append_request rd' 16 4096 f_hash (fun l => l) (false, false) (rq_events f_cond) (rq_cond f_cond) (rq_trk f_cond) w = (Ok 2, w2).
Proof.
  pose (bad := fun (y : sys) (p : proc) i => if i =? h_tags_root (latest p).2 then Err EIo else fetch 16 ∅ (y_disk y) i).
  destruct (f_found (x_batch [f_one] 3 ++ [ADone]) (fun y => match y_proc y with
    | Some p =>
      match umadb_read f_hash (fun l => l) (fetch 16 ∅ (y_disk y)) (latest p).2 f_query None false None false,
            umadb_read f_hash (fun l => l) (bad y p) (latest p).2 f_query None false None false,
            mvcc_writer (fetch 16 ∅ (y_disk y)) None (latest p).2 with
      | Ok ([_], Some 1), Ok ([], Some 1), (Ok tt, w) =>
        match f_process w (fetch 16 ∅ (y_disk y)) f_cond, f_process w (bad y p) f_cond with
        | (Err EIntegrity, _), (Ok 2, _) => true | _, _ => false end
      | _, _, _ => false end
    | _ => false end)) as (tr & y & H & HP); [vm_compute; reflexivity|].
  destruct (y_proc y) as [p|] eqn:Hy; [|discriminate]. exists tr, y, p, (h_tags_root (latest p).2), (fetch 16 ∅ (y_disk y)), (bad y p).
  cases. eexists _, _, _, _, _. split; [exact H|]. split; [exact Hy|]. do 6 (split; [reflexivity|| eassumption|]). eassumption.
Qed.

(** A read that does not use the index is complete or reports an error. *)
Section scan.
  Context (rd rd' : snapshot) (Hf : failing rd rd').
  Lemma failing_ok q n : rd' q = Ok n -> rd q = Ok n.
  Proof. intros H. destruct (Hf q) as [E|[e E]]; congruence. Qed.
  Lemma bind_ok {A B} (x x' : res A) (f f' : A -> res B) b : (forall a, x' = Ok a -> x = Ok a) -> (forall a, f' a = Ok b -> f a = Ok b) ->
    rbind x' f' = Ok b -> rbind x f = Ok b.
  Proof. intros Hx Hg. destruct x' as [a|]; cbn; [|discriminate]. intros H. rewrite (Hx a eq_refl). cbn. now apply Hg. Qed.
  Lemma chain_ok k : forall p b, read_overflow_chain k rd' p = Ok b -> read_overflow_chain k rd p = Ok b.
  Proof.
    induction k as [|k IH]; intros p b; cbn; (destruct (p =? 0); [auto|]); [auto|]. apply bind_ok; [intros; now apply failing_ok|].
    intros n. destruct n; try discriminate. apply bind_ok; auto.
  Qed.
  Lemma materialize_mono k v r : materialize k rd' v = Ok r -> materialize k rd v = Ok r.
  Proof. destruct v; cbn; [auto|]. apply bind_ok; [intros a; apply chain_ok|auto]. Qed.
  Context (start : option N) (bw : bool) (k : nat).
  Lemma ei_step_mono it x : ei_step k rd' start bw it = Ok x -> ei_step k rd start bw it = Ok x.
  Proof.
    destruct it as [p oi]. cbn. apply bind_ok; [intros; now apply failing_ok|]. intros n. destruct n; try discriminate.
    - destruct (match oi with Some i => Some i | None => first_value start bw n end) as [i|]; [|auto].
      destruct (ev_values n !! i); [|auto]. destruct (ev_keys n !! i); [|auto]. apply bind_ok; [intros; now apply materialize_mono|auto].
    - auto.
  Qed.
  Lemma ei_loop_mono f' : forall f room st x, (f' <= f)%nat -> ei_loop k rd' start bw f' room st = Ok x -> ei_loop k rd start bw f room st = Ok x.
  Proof.
    induction f' as [|f' IH]; intros f room st x Hle; destruct room as [|room], st as [|it st]; destruct f as [|f]; cbn [ei_loop]; auto; try discriminate; try lia.
    apply bind_ok; [intros; now apply ei_step_mono|]. intros [out push]. apply bind_ok; [|auto]. intros y. apply IH. lia.
  Qed.
  Lemma next_mono f' f bs st x : (f' <= f)%nat -> ei_next_batch k rd' start bw f' bs st = Ok x -> ei_next_batch k rd start bw f bs st = Ok x.
  Proof. intros Hle. unfold ei_next_batch. destruct (bs =? 0); [auto|]. case_match; [auto|]. now apply ei_loop_mono. Qed.
  Lemma scan_mono next next' limit keep f' : (forall st x, next' st = Ok x -> next st = Ok x) -> forall f st out x, (f' <= f)%nat ->
    scan_loop f' next' limit keep st out = Ok x -> scan_loop f next limit keep st out = Ok x.
  Proof.
    intros Hn. induction f' as [|f' IH]; intros f st out x Hle; destruct f as [|f]; cbn [scan_loop]; try discriminate; try lia.
    apply bind_ok; [apply Hn|]. intros [batch st']. destruct batch; [auto|]. destruct (push_batch _ _ _ _) as [out' stop]. destruct stop; [auto|]. apply IH. lia.
  Qed.
  Lemma fuel_mono np : (scan_fuel rd' np <= scan_fuel rd np)%nat.
  Proof.
    unfold scan_fuel. induction (seq 0 np) as [|i l IH]; cbn; [lia|]. assert (visits rd' (N.of_nat i) <= visits rd (N.of_nat i))%nat; [|lia].
    unfold visits. destruct (Hf (N.of_nat i)) as [->|[e ->]]; [lia|]. destruct (rd (N.of_nat i)); lia.
  Qed.
End scan.
(** [q] does not use the index: it has an item without tags, or no item at all. *)
Definition scans (q : query) : Prop := q = [] \/ exists it, it ∈ q /\ qi_tags it = [].
Theorem scan_complete_or_error rd rd' hash order h q start bw limit : failing rd rd' -> scans q ->
  umadb_read hash order rd' h q start bw limit false = umadb_read hash order rd h q start bw limit false \/
  exists e, umadb_read hash order rd' h q start bw limit false = Err e.
Proof.
  intros Hf Hq. destruct (umadb_read hash order rd' h q start bw limit false) as [x|e] eqn:E; [left|right; eauto]. symmetry. revert E.
  unfold umadb_read. apply bind_ok; [|auto]. intros evs. unfold read_conditional. cbv zeta.
  assert (Hb : q <> [] -> negb (forallb (λ it, match qi_tags it with [] => false | _ => true end) q) = true).
  { intros Hne. destruct Hq as [|(it & Hit & Ht)]; [contradiction|]. apply negb_true_iff, not_true_iff_false. rewrite forallb_forall. intros X.
    apply elem_of_list_In in Hit. specialize (X it Hit). now rewrite Ht in X. }
  assert (Hl : forall bs keep, scan_loop (S (scan_fuel rd' (N.to_nat (h_next_page h)))) (ei_next_batch (N.to_nat (h_next_page h)) rd' start bw (scan_fuel rd' (N.to_nat (h_next_page h))) bs) limit keep [(h_events_root h, None)] [] = Ok evs ->
    scan_loop (S (scan_fuel rd (N.to_nat (h_next_page h)))) (ei_next_batch (N.to_nat (h_next_page h)) rd start bw (scan_fuel rd (N.to_nat (h_next_page h))) bs) limit keep [(h_events_root h, None)] [] = Ok evs).
  { intros bs keep. pose proof (fuel_mono rd rd' Hf (N.to_nat (h_next_page h))). apply scan_mono; [|lia]. intros st z. now apply next_mono. }
  destruct limit as [[|lim]|]; [auto| |]; (destruct q as [|it q]; [apply Hl|]; rewrite (Hb ltac:(discriminate)); cbn [orb]; apply Hl).
Qed.
(** The reads of a database one of whose pages cannot be read any more, with and without the index. *)
Example scan_error_example : exists tr y p q, f_run tr y /\ y_proc y = Some p /\
  let rd := fetch 16 ∅ (y_disk y) in let rd' := fun i => if i =? q then Err EIo else rd i in
  failing rd rd' /\ scans [QItem [[1]] []] /\
  is_ok (umadb_read f_hash (fun l => l) rd (latest p).2 [QItem [[1]] []] None false None false) = true /\
  umadb_read f_hash (fun l => l) rd' (latest p).2 [QItem [[1]] []] None false None false = Err EIo.
Proof.
  destruct (f_found (x_batch [f_one] 3 ++ [ADone]) (fun y => match y_proc y with
    | Some p => is_ok (umadb_read f_hash (fun l => l) (fetch 16 ∅ (y_disk y)) (latest p).2 [QItem [[1]] []] None false None false) &&
       match umadb_read f_hash (fun l => l) (fun i => if i =? h_events_root (latest p).2 then Err EIo else fetch 16 ∅ (y_disk y) i) (latest p).2 [QItem [[1]] []] None false None false with Err EIo => true | _ => false end
    | _ => false end)) as (tr & y & H & HP); [vm_compute; reflexivity|].
  destruct (y_proc y) as [p|] eqn:Hy; [|discriminate]. apply andb_prop in HP as [HP1 HP2]. exists tr, y, p, (h_events_root (latest p).2). split; [exact H|]. split; [exact Hy|].
  cbv zeta. split; [|split; [|split; [exact HP1|]]].
  - intros q. destruct (q =? _); [right; eauto|now left].
  - right. eexists. split; [now left|reflexivity].
  - destruct (umadb_read _ _ (fun i => _) _ _ _ _ _ _) as [|[]]; try discriminate. reflexivity.
Qed.

Print Assumptions no_request_stops_writer_refuted.
Print Assumptions after_max_refuted.
Print Assumptions tag_pages_fit_refuted.
Print Assumptions tracking_pages_fit_refuted.
Print Assumptions read_complete_or_error_refuted.
Print Assumptions scan_complete_or_error.
