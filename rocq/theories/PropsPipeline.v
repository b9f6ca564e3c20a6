(** The pipelining writer thread: C14 (readers), C32 (page sizes), C45 (failed appends). *)
From Verif Require Import PageProofs Exec StoreProofs PropsStore PropsFindings PropsCrash.
From Verif Require Export Pipeline.
Local Open Scope N_scope.

(** ** Running the thread: a list of chosen steps is executed *)
(** [BCancel r]: request [r] is taken but found cancelled; [BAbort bad]: the batch is given up, the pages [bad] being unreadable
    just then. *)
Inductive pact := BOther (a : act) | BBegin | BReq (r : request) | BCancel (r : request) | BBuilt | BCache | BAck | BAbort (bad : list N) | BDispatch | BPage | BPageFails | BFailed | BSync | BHeader | BDone.
Definition reader_act (a : act) : bool :=
  match a with ALoad _ | AEvict _ | ACall _ | AObs _ | ASeen _ | AReg _ | AChk _ | AReady _ | AClose _ | ARead _ _ _ _ _ | AHead _ | ATrack _ _ => true | _ => false end.
Definition without (bad : list N) (rd : snapshot) : snapshot := fun q => if existsb (N.eqb q) bad then Err EIo else rd q.
Lemma without_ailing bad rd : ailing rd (without bad rd).
Proof. intros q. unfold without. destruct (existsb _ _); eauto. Qed.

Section exec.
  Context (kw : nat) (ps : N) (hash : bytes -> bytes) (order : list bytes -> list bytes) (ford : gset N -> list N) (caching : bool).
  Notation snap := (snap kw).
  Definition lexec (s : psys) (a : pact) : option (label * psys) :=
    let '(PSys d p pi) := s in
    match a with
    | BOther a => match p_writer p with WIdle => if reader_act a then match pexec kw ps hash order ford caching d p a with Some (l, _, p') => Some (l, PSys d p' pi) | None => None end else None | _ => None end
    | BBegin => match l_phase pi, find_reusable_page_ids (snap d p pi) (reg_min (p_regs p)) (l_w pi) with
        PFetch, (Ok tt, w) => Some (LTau, PSys d p (set_phase (PBuild [] []) (set_pw w pi))) | _, _ => None end
    | BReq r => match l_phase pi with
        | PBuild done ans => if decide (req_wf' (l_w pi) r) then
            match process_append_request (snap d p pi) kw ps hash order (false, false) (rq_events r) (rq_cond r) (rq_trk r) (l_w pi) with
            | (a, w) => if match a with Ok _ => true | Err e => negb (is_abort e) end then Some (LTau, PSys d p (set_phase (PBuild (done ++ [r]) (ans ++ [a])) (set_pw w pi))) else None
            end else None
        | _ => None end
    | BCancel r => match l_phase pi with
        | PBuild done ans => match process_append_request (snap d p pi) kw ps hash order (true, true) (rq_events r) (rq_cond r) (rq_trk r) (l_w pi) with
            | (Err e, w) => if is_abort e then Some (LTau, PSys d p (set_phase (PBuilt (done ++ [r]) (ans ++ [Err e]) (Some e)) (set_pw w pi))) else None
            | _ => None end
        | _ => None end
    | BBuilt => match l_phase pi with PBuild (r :: done) ans => Some (LTau, PSys d p (set_phase (PBuilt (r :: done) ans None) pi)) | _ => None end
    | BCache => match l_phase pi, l_fly pi with
        | PBuild _ _, _ => None
        | _, Some f => match y_io f with IDone => Some (LTau, PSys d (if caching then set_cache (y_wet f ∪ p_cache p) p else p) (set_fly (Some (set_io ICached f)) pi)) | _ => None end
        | _, _ => None end
    | BAck => match l_phase pi, l_fly pi with
        | PBuild _ _, _ => None
        | _, Some f => match y_io f with ICached => Some (LCommit (y_done f) (y_ans f), PSys d (pin_header (y_header f) p) (set_fly None pi)) | _ => None end
        | _, _ => None end
    | BAbort bad => match l_phase pi, l_fly pi with
        PBuilt done ans (Some e), None => Some (LAbort done, PSys d p (rollback (without bad (fetch kw (p_cache p) d)) p pi)) | _, _ => None end
    | BDispatch => match l_phase pi, l_fly pi with
        | PBuilt done ans None, None => match process_freed_page_ids (snap d p pi) kw ps ford (l_w pi) with
          | (Ok tt, w) => let todo := map_to_list (w_dirty w) in
            match prepare_commit kw ps ford (snap d p pi) todo pi with
            | Ok (hp, hb, pages, w') => if decide (Forall (fun e => storable kw e.2) todo /\ storable kw (NHeader hp.2))
                then Some (LTau, PSys d p (Pipe (advance w) hp (w_dirty w) PFetch (Some (Fly (IPages pages) hp hb (w_dirty w) done ans)))) else None
            | _ => None end
          | _ => None end
        | _, _ => None end
    | BPage => if ps =? DEFAULT_PAGE_SIZE then match l_fly pi with
        | Some f => match y_io f with IPages ((q, b) :: todo) => Some (LTau, PSys (d_write kw q b d) p (set_fly (Some (set_io (IPages todo) f)) pi)) | _ => None end
        | _ => None end else None
    | BPageFails => if ps =? DEFAULT_PAGE_SIZE then match l_fly pi with
        | Some f => match y_io f with IPages ((q, b) :: todo) => Some (LTau, PSys d p (set_fly (Some (set_io (IFailed false) f)) pi)) | _ => None end
        | _ => None end else None
    | BFailed => match l_phase pi, l_fly pi with
        | PBuild _ _, _ => None
        | ph, Some f => match y_io f with
          | IFailed hdr => Some ((if hdr then LUnsure else LAbort) (y_done f ++ match ph with PBuilt done _ _ => done | _ => [] end), PSys d p (rollback (fetch kw (p_cache p) d) p pi))
          | _ => None end
        | _, _ => None end
    | BSync => match l_fly pi with
        | Some f => match y_io f with IPages [] => Some (LTau, PSys (d_synced d) p (set_fly (Some (set_io IHeader f)) pi)) | _ => None end
        | _ => None end
    | BHeader => match l_fly pi with
        | Some f => match y_io f with IHeader => Some (LTau, PSys (d_write kw (y_header f).1 (y_bytes f) d) p (set_fly (Some (set_io ISync f)) pi)) | _ => None end
        | _ => None end
    | BDone => match l_fly pi with
        | Some f => match y_io f with ISync => Some (LTau, PSys (d_synced d) p (set_fly (Some (set_io IDone f)) pi)) | _ => None end
        | _ => None end
    end.
  Fixpoint lrun (s : psys) (tr : list label) (acts : list pact) : option (psys * list label) :=
    match acts with
    | [] => Some (s, tr)
    | a :: acts' => match lexec s a with Some (l, s') => lrun s' (tr ++ [l]) acts' | None => None end
    end.
  Notation lstep := (lstep kw ps hash order ford caching).
  Notation lsteps := (lsteps kw ps hash order ford caching).
  Lemma reader_pstep d p a l d' p' : reader_act a = true -> pexec kw ps hash order ford caching d p a = Some (l, d', p') -> d' = d /\ p_writer p' = p_writer p.
  Proof. destruct a; try discriminate; cbn; intros _ H; repeat (case_match; try discriminate); injection H as <- <- <-; auto. Qed.
  Lemma lexec_ok s a l s' : lexec s a = Some (l, s') -> lstep s l s'.
  Proof.
    destruct s as [d p pi]. destruct a; cbn [lexec]; intros H.
    - destruct (p_writer p) eqn:Ew; try discriminate. destruct (reader_act a) eqn:Ea; [|discriminate]. destruct (pexec _ _ _ _ _ _ d p a) as [[[l0 d0] p0]|] eqn:E; [|discriminate].
      destruct (reader_pstep _ _ _ _ _ _ Ea E) as [-> Ew']. apply pexec_ok in E. injection H as <- <-. apply L_other; congruence.
    - destruct (l_phase pi) eqn:E1; try discriminate. destruct (find_reusable_page_ids _ _ _) as [[[]|] w] eqn:E2; [|discriminate]. injection H as <- <-. now apply L_begin.
    - destruct (l_phase pi) eqn:E1; try discriminate. destruct (decide _) as [Hwf|]; [|discriminate]. destruct (process_append_request _ _ _ _ _ _ _ _ _ _) as [a w] eqn:E2.
      destruct (match a with Ok _ => true | Err e => _ end) eqn:Ea; [|discriminate]. injection H as <- <-. eapply L_request; [exact E1|apply req_wf'_ok, Hwf|exact E2|]. destruct a; [exact I|now apply negb_true_iff].
    - destruct (l_phase pi) eqn:E1; try discriminate. destruct (process_append_request _ _ _ _ _ _ _ _ _ _) as [[a|e] w] eqn:E2; [discriminate|]. destruct (is_abort e) eqn:Ee; [|discriminate].
      injection H as <- <-. eapply L_fails; [exact E1| |exact E2|exact Ee]. intros q. now left.
    - destruct (l_phase pi) as [|[|r done] ans|] eqn:E1; try discriminate. injection H as <- <-. apply L_built; [exact E1|discriminate].
    - destruct (l_phase pi) eqn:E1; try discriminate; destruct (l_fly pi) as [f|] eqn:E2; try discriminate; destruct (y_io f) eqn:E3; try discriminate; injection H as <- <-; (apply L_cached; [now rewrite E1|exact E2|exact E3]).
    - destruct (l_phase pi) eqn:E1; try discriminate; destruct (l_fly pi) as [f|] eqn:E2; try discriminate; destruct (y_io f) eqn:E3; try discriminate; injection H as <- <-; (apply L_acked; [now rewrite E1|exact E2|exact E3]).
    - destruct (l_phase pi) as [| |done ans [e|]] eqn:E1; try discriminate. destruct (l_fly pi) eqn:E2; try discriminate. injection H as <- <-. eapply L_abort; [exact E1|exact E2|apply without_ailing].
    - destruct (l_phase pi) as [| |done ans [e|]] eqn:E1; try discriminate. destruct (l_fly pi) eqn:E2; try discriminate. destruct (process_freed_page_ids _ _ _ _ _) as [[[]|] w] eqn:E3; [|discriminate].
      destruct (prepare_commit _ _ _ _ _ _) as [[[[hp hb] pages] w']|] eqn:E4; [|discriminate]. destruct (decide _) as [[Hs1 Hs2]|]; [|discriminate]. injection H as <- <-.
      assert (w' = w) as ->. { unfold prepare_commit in E4. rewrite E3 in E4. cbn [rbind] in E4. destruct (page_ser _ _ _); [|discriminate]. cbn [rbind] in E4. destruct (prepare_pages _ _); [|discriminate]. cbn [rbind] in E4. congruence. }
      eapply L_dispatch; [exact E1|exact E2|exact E4|reflexivity|exact Hs1|exact Hs2].
    - destruct (ps =? DEFAULT_PAGE_SIZE) eqn:E0; [|discriminate]. apply N.eqb_eq in E0. destruct (l_fly pi) as [f|] eqn:E2; [|discriminate]. destruct (y_io f) as [[|[q b] todo]| | | | |] eqn:E3; try discriminate.
      injection H as <- <-. eapply L_page; eassumption.
    - destruct (ps =? DEFAULT_PAGE_SIZE) eqn:E0; [|discriminate]. apply N.eqb_eq in E0. destruct (l_fly pi) as [f|] eqn:E2; [|discriminate]. destruct (y_io f) as [[|[q b] todo]| | | | |] eqn:E3; try discriminate.
      injection H as <- <-. eapply L_page_fails; [exact E0|exact E2|exact E3|now left].
    - assert (Hx : match l_phase pi with PBuild _ _ => False | _ => True end) by (destruct (l_phase pi); [exact I|discriminate|exact I]).
      destruct (l_fly pi) as [f|] eqn:E2; [|destruct (l_phase pi); discriminate]. destruct (y_io f) as [ | | | | |hdr] eqn:E3; try (destruct (l_phase pi); discriminate).
      pose proof (L_failed kw ps hash order ford caching d p pi f hdr (fetch kw (p_cache p) d) E2 E3 ltac:(intros q; now left) Hx) as Hs.
      destruct (l_phase pi); [|contradiction|]; injection H as <- <-; exact Hs.
    - destruct (l_fly pi) as [f|] eqn:E2; [|discriminate]. destruct (y_io f) as [[|]| | | | |] eqn:E3; try discriminate. injection H as <- <-. eapply L_sync; eassumption.
    - destruct (l_fly pi) as [f|] eqn:E2; [|discriminate]. destruct (y_io f) eqn:E3; try discriminate. injection H as <- <-. eapply L_header; eassumption.
    - destruct (l_fly pi) as [f|] eqn:E2; [|discriminate]. destruct (y_io f) eqn:E3; try discriminate. injection H as <- <-. eapply L_done; eassumption.
  Qed.
  Lemma lrun_ok s0 s tr acts s' tr' : lsteps s0 tr s -> lrun s tr acts = Some (s', tr') -> lsteps s0 tr' s'.
  Proof.
    revert s tr. induction acts as [|a acts IH]; cbn [lrun]; intros s tr H E; [congruence|]. destruct (lexec s a) as [[l s1]|] eqn:Ea; [|discriminate].
    eapply IH; [|exact E]. eapply lsteps_snoc; [exact H|]. eapply lexec_ok, Ea.
  Qed.
End exec.

(** The thread is started on a new database, with pages of the default size. *)
Notation b_proc := (Proc (0, init_header) (1, init_header) ∅ ∅ ∅ WIdle).
Definition b_init : psys := PSys (init_disk 16 4096) b_proc (Pipe (mvcc_writer (fetch 16 ∅ (init_disk 16 4096)) None init_header).2 (0, init_header) ∅ PFetch None).
Notation b_run c acts := (lrun 16 4096 f_hash (fun l => l) x_ford c b_init [] acts).
Notation b_steps c := (lsteps 16 4096 f_hash (fun l => l) x_ford c b_init).
Lemma b_starts : starts 16 (init_disk 16 4096) b_proc b_init.
Proof. split; [reflexivity|]. eexists. split; [|reflexivity]. vm_compute. reflexivity. Qed.
Lemma b_found c acts (P : psys -> list label -> bool) : match b_run c acts with Some (s, tr) => P s tr | None => false end = true -> exists s tr, b_steps c tr s /\ P s tr = true.
Proof.
  destruct (b_run c acts) as [[s tr]|] eqn:E; [|discriminate]. intros HP. exists s, tr. split; [|exact HP]. eapply lrun_ok; [apply lsteps_nil|exact E].
Qed.
Definition b_batch (r : request) : list pact := [BBegin; BReq r; BBuilt].
Definition b_io (n : nat) : list pact := replicate n BPage ++ [BSync; BHeader; BDone].
Definition b_ack : list pact := [BCache; BAck].
Definition b_open (i : nat) : list pact := map BOther [ACall i; AObs i; ASeen i; AReg i; AChk i; AReady i].
Definition b_read (i : nat) : pact := BOther (ARead i [] None false None).

(** ** C14: readers *)
(** Batch 1 is stored.  Batch 2 is in flight: the pages it replaced, those of the state after batch 1, are free from its
    transaction on.  When batch 3 begins no reader is registered, so it takes all free pages, these included.  Now a reader
    opens; the state after batch 1 is still the latest acknowledged, so it gets that.  Batch 3 then overwrites its pages: the
    reader, which saw event 1 before, sees events 1 to 3, with head 1. *)
Definition b_race : list pact :=
  b_batch f_one ++ [BDispatch] ++ b_io 3 ++ b_ack ++ b_batch f_one ++ [BDispatch; BBegin] ++ b_open 7 ++ [b_read 7; BReq f_one; BBuilt] ++
  b_io 3 ++ b_ack ++ [BDispatch] ++ b_io 3 ++ b_ack ++ [b_read 7].
(** What reader 7 was told, and when it was opened and closed. *)
Definition b_told (l : label) : option (option (res (list N * option N))) :=
  match l with
  | LReady 7 | LClose 7 => Some None
  | LRead 7 [] None false None r => Some (Some (match r with Ok (evs, h) => Ok (map fst evs, h) | Err e => Err e end))
  | _ => None end.
Theorem pipelined_snapshot_refuted caching : exists s tr, b_steps caching tr s /\
  omap b_told tr = [None; Some (Ok ([1], Some 1)); Some (Ok ([1; 2; 3], Some 1))].
Proof.
  destruct (b_found caching b_race (fun _ tr => bool_decide (omap b_told tr = [None; Some (Ok ([1], Some 1)); Some (Ok ([1; 2; 3], Some 1))])))
    as (s & tr & H & HP); [destruct caching; vm_compute; reflexivity|]. exists s, tr. split; [exact H|]. now apply bool_decide_eq_true in HP.
Qed.
(** Without the overlap, the same reader keeps its snapshot. *)
Definition b_calm : list pact :=
  b_batch f_one ++ [BDispatch] ++ b_io 3 ++ b_ack ++ b_open 7 ++ [b_read 7] ++ b_batch f_one ++ [BDispatch] ++ b_io 3 ++ b_ack ++
  b_batch f_one ++ [BDispatch] ++ b_io 3 ++ b_ack ++ [b_read 7].
Example pipelined_snapshot_example caching : exists s tr, b_steps caching tr s /\
  omap b_told tr = [None; Some (Ok ([1], Some 1)); Some (Ok ([1], Some 1))].
Proof.
  destruct (b_found caching b_calm (fun _ tr => bool_decide (omap b_told tr = [None; Some (Ok ([1], Some 1)); Some (Ok ([1], Some 1))])))
    as (s & tr & H & HP); [destruct caching; vm_compute; reflexivity|]. exists s, tr. split; [exact H|]. now apply bool_decide_eq_true in HP.
Qed.

(** ** C45: a batch that was given up *)
(** A batch is given up because one of its requests is cancelled.  To forget what it did the thread makes a new writer; as a
    page of the free list cannot be read just then, it keeps the old one, with the changes.  The next batch is committed
    together with them: the event of a request that was answered with an error is stored. *)
Definition b_cancelled : request := Req [NE [2] [] [[98]] None []] (Some (ACond [QItem [] [[98]]] None)) None.
Definition b_second : request := Req [NE [3] [] [] None []] None None.
Definition b_abort : list pact :=
  [BBegin; BReq f_one; BCancel b_cancelled; BAbort [2]] ++ b_batch b_second ++ [BDispatch] ++ b_io 3 ++ b_ack ++ b_open 7 ++ [b_read 7].
Theorem pipelined_abort_no_trace_refuted caching : exists s tr, b_steps caching tr s /\
  omap (fun l => match l with LAbort rs => Some (inl rs) | LCommit rs a => Some (inr (rs, a)) | _ => None end) tr = [inl [f_one; b_cancelled]; inr ([b_second], [Ok 2])] /\
  omap (fun l => match l with LRead 7 [] None false None (Ok (evs, _)) => Some (map (fun e => er_type e.2) evs) | _ => None end) tr = [[[1]; [3]]].
Proof.
  destruct (b_found caching b_abort (fun _ tr =>
    bool_decide (omap (fun l => match l with LAbort rs => Some (inl rs) | LCommit rs a => Some (inr (rs, a)) | _ => None end) tr = [inl [f_one; b_cancelled]; inr ([b_second], [Ok 2])] /\
      omap (fun l => match l with LRead 7 [] None false None (Ok (evs, _)) => Some (map (fun e => er_type e.2) evs) | _ => None end) tr = [[[1]; [3]]])))
    as (s & tr & H & HP); [destruct caching; vm_compute; reflexivity|]. exists s, tr. split; [exact H|]. now apply bool_decide_eq_true in HP.
Qed.

(** ** C32: page sizes *)
(** The first commit to a new database with pages of [ps] bytes: the changed pages, and what is to be written. *)
Definition b_commit (ps : N) (r : request) : res (list (N * node) * res (list (N * bytes))) :=
  let rd := fetch 16 ∅ (init_disk 16 ps) in
  match mvcc_writer rd None init_header with
  | (Ok tt, w) => match process_append_request rd 16 ps f_hash (fun l => l) (false, false) (rq_events r) (rq_cond r) (rq_trk r) w with
    | (Ok _, w) => match process_freed_page_ids rd 16 ps x_ford w with
      | (Ok tt, w') => let todo := map_to_list (w_dirty w') in
        Ok (todo, let? '(_, _, pages, _) := prepare_commit 16 ps x_ford rd todo (Pipe w (0, init_header) ∅ (PBuilt [r] [] None) None) in Ok pages)
      | (Err e, _) => Err e end
    | (Err e, _) => Err e end
  | (Err e, _) => Err e end.
Definition uring_writes (ps : N) (l : list (N * bytes)) (file : N -> N) : N -> N := foldl (fun f x => uring_write ps x.1 x.2 f) file l.
(** With pages of 1024 bytes each write covers four of them.  The writes of a commit are submitted together; when they are
    made from the last page to the first, pages of the commit are overwritten and cannot be read back. *)
Definition b_small : bool :=
  match b_commit 1024 f_one with
  | Ok (todo, Ok [a; b; c]) =>
    forallb (fun x => nlen x.2 =? 4096) [a; b; c] && existsb (fun e => e.1 =? 6) todo &&
    match page_de 16 (file_page 1024 (uring_writes 1024 [a; c; b] (fun _ => 0)) 6) with Ok _ => false | Err _ => true end
  | _ => false end.
Theorem small_pages_refuted : exists todo pages order q n e, b_commit 1024 f_one = Ok (todo, Ok pages) /\ order ≡ₚ pages /\ (q, n) ∈ todo /\
  Forall (fun x => nlen x.2 = 4096) pages /\ page_de 16 (file_page 1024 (uring_writes 1024 order (fun _ => 0)) q) = Err e.
Proof.
  assert (H : b_small = true) by (vm_compute; reflexivity). unfold b_small in H. destruct (b_commit 1024 f_one) as [[todo [pages|]]|]; try discriminate.
  destruct pages as [|a [|b [|c []]]]; try discriminate. apply andb_prop in H as [H H3]. apply andb_prop in H as [H1 H2].
  destruct (page_de _ _) as [|e] eqn:E; [discriminate|]. apply existsb_exists in H2 as ([q n] & Hin & Hq). apply N.eqb_eq in Hq. cbn [fst] in Hq. subst q.
  exists todo, [a; b; c], [a; c; b], 6, n, e. split; [reflexivity|]. split; [apply perm_skip, perm_swap|]. split; [now apply elem_of_list_In|]. split; [|exact E].
  apply Forall_forall. intros x Hx. rewrite forallb_forall in H1. apply N.eqb_eq. apply H1. now apply elem_of_list_In.
Qed.
(** With pages of 8192 bytes a commit fails although each of its pages fits. *)
Definition b_large : request := Req [NE [1] (replicate 5000 7) [[97]] None []] None None.
Theorem large_pages_refuted : exists todo, b_commit 8192 b_large = Ok (todo, Err EIo) /\ Forall (fun e => exists b, page_ser 16 8192 e.2 = Ok b) todo.
Proof.
  assert (H : match b_commit 8192 b_large with Ok (todo, Err EIo) => forallb (fun e => match page_ser 16 8192 e.2 with Ok _ => true | _ => false end) todo | _ => false end = true) by (vm_compute; reflexivity).
  destruct (b_commit 8192 b_large) as [[todo [|[]]]|]; try discriminate. exists todo. split; [reflexivity|]. apply Forall_forall. intros e He. rewrite forallb_forall in H.
  specialize (H e (proj1 (elem_of_list_In _ _) He)). destruct (page_ser 16 8192 e.2); [eauto|discriminate].
Qed.
(** With the default page size each write covers exactly its page, and holds it. *)
Theorem default_pages_exact rd ford todo pi hp hb pages w : Forall (fun e => storable 16 e.2) todo ->
  prepare_commit 16 DEFAULT_PAGE_SIZE ford rd todo pi = Ok (hp, hb, pages, w) ->
  map fst pages = map fst todo /\ nlen hb = DEFAULT_PAGE_SIZE /\
  Forall2 (fun e x => nlen x.2 = DEFAULT_PAGE_SIZE /\ page_de 16 x.2 = Ok e.2) todo pages.
Proof.
  intros Hst H. unfold prepare_commit in H. destruct (process_freed_page_ids _ _ _ _ _) as [[[]|] w0]; [|discriminate]. destruct (page_ser _ _ (NHeader _)) as [hb0|] eqn:Eh; [|discriminate]. cbn [rbind] in H.
  destruct (prepare_pages 16 todo) as [pages0|] eqn:Ep; [|discriminate]. cbn [rbind] in H. injection H as <- <- <- <-.
  destruct (page_ser_layout _ _ _ _ Eh) as (_ & _ & _ & _ & Hl). cut (map fst pages0 = map fst todo /\ Forall2 (fun (e : N * node) (x : N * bytes) => nlen x.2 = DEFAULT_PAGE_SIZE /\ page_de 16 x.2 = Ok e.2) todo pages0); [tauto|]. clear Eh Hl hb0.
  revert pages0 Ep. induction Hst as [|[q n] todo [Hn1 Hn2] _ IH]; intros pages E; cbn in E; [injection E as <-; auto|].
  destruct (page_ser 16 DEFAULT_PAGE_SIZE n) as [b|] eqn:Eb; [|discriminate]. cbn [rbind] in E. destruct (prepare_pages 16 todo) as [r|]; [|discriminate]. cbn [rbind] in E. injection E as <-.
  destruct (IH _ eq_refl) as [H1 H2]. cbn [map fst]. split; [now rewrite H1|]. constructor; [|exact H2]. cbn [snd]. destruct (page_ser_layout _ _ _ _ Eb) as (_ & _ & _ & _ & Hl). split; [exact Hl|].
  eapply (page_rt 16 DEFAULT_PAGE_SIZE); [lia|reflexivity|exact Hn1| |exact Eb]. intros b' Eb'. eapply node_ser_bytes; eassumption.
Qed.
Example default_pages_example : exists todo pages, b_commit 4096 f_one = Ok (todo, Ok pages) /\ length pages = 3%nat.
Proof.
  assert (H : match b_commit 4096 f_one with Ok (_, Ok [_; _; _]) => true | _ => false end = true) by (vm_compute; reflexivity).
  destruct (b_commit 4096 f_one) as [[todo [[|a [|b [|c []]]]|]]|]; try discriminate. eauto.
Qed.

Print Assumptions pipelined_snapshot_refuted.
Print Assumptions pipelined_abort_no_trace_refuted.
Print Assumptions small_pages_refuted.
Print Assumptions large_pages_refuted.
Print Assumptions default_pages_exact.
