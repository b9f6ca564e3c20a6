(** Running the transition system of Mvcc.v: a list of chosen steps is executed, giving the events it causes.  Used to show
    that what the theorems speak about happens. *)
From Verif Require Import Mvcc MvccProofs StoreProofs EventsProofs PageProofs CodecProofs.
Local Open Scope N_scope.

Global Instance opt_ok_dec {A} (P : A -> Prop) `{forall a, Decision (P a)} o : Decision (opt_ok P o).
Proof. destruct o; cbn; apply _. Defined.
Global Instance str16_ok_dec s : Decision (str16_ok s). Proof. unfold str16_ok. apply _. Defined.
Global Instance key8_ok_dec s : Decision (key8_ok s). Proof. unfold key8_ok. apply _. Defined.
Global Instance uuid_ok_dec s : Decision (uuid_ok s). Proof. unfold uuid_ok. apply _. Defined.
Global Instance u64_ok_dec s : Decision (u64_ok s). Proof. unfold u64_ok. apply _. Defined.
Global Instance is_bytes_dec s : Decision (is_bytes s). Proof. unfold is_bytes. apply _. Defined.
Global Instance hash_ok_dec kw s : Decision (hash_ok kw s). Proof. unfold hash_ok. apply _. Defined.
Global Instance tracking_ok_dec t : Decision (tracking_ok t). Proof. unfold tracking_ok. apply _. Defined.
Global Instance meta_ok_dec m : Decision (meta_ok m). Proof. unfold meta_ok. apply _. Defined.
Global Instance tags_ok_dec m : Decision (tags_ok m). Proof. unfold tags_ok. apply _. Defined.
Global Instance u64s_ok_dec m : Decision (u64s_ok m). Proof. unfold u64s_ok. apply _. Defined.
Global Instance fl_value_ok_dec m : Decision (fl_value_ok m). Proof. unfold fl_value_ok. apply _. Defined.
Global Instance ev_value_ok_dec v : Decision (ev_value_ok v). Proof. destruct v; cbn; apply _. Defined.
Global Instance tags_value_ok_dec v : Decision (tags_value_ok v). Proof. unfold tags_value_ok. apply _. Defined.
Global Instance node_ok_dec kw n : Decision (node_ok kw n).
Proof.
  destruct n; cbn; apply _.
Defined.
Global Instance tr_bytes_dec t : Decision (tr_bytes t). Proof. unfold tr_bytes. apply _. Defined.
Global Instance ev_value_bytes_dec v : Decision (ev_value_bytes v). Proof. destruct v; cbn; apply _. Defined.
Global Instance node_bytes_dec n : Decision (node_bytes n). Proof. destruct n; cbn; apply _. Defined.
Global Instance storable_dec kw n : Decision (storable kw n). Proof. unfold storable. apply _. Defined.
Global Instance rec_wf_dec r : Decision (rec_wf r). Proof. unfold rec_wf. apply _. Defined.
Definition req_wf' (w : writer) (r : request) : Prop :=
  Forall rec_wf (map (to_record (rq_trk r)) (rq_events r)) /\ nlen (rq_events r) <= 4294967295 /\
  match rq_cond r with Some c => match ac_after c with Some a => a + 1 < U64 | None => True end /\ rq_events r <> [] | None => True end /\
  w_next_pos w + nlen (rq_events r) < U64.
Global Instance req_wf'_dec w r : Decision (req_wf' w r).
Proof.
  unfold req_wf'. destruct (rq_cond r) as [c|]; [destruct (ac_after c)|]; try apply _; destruct (rq_events r); apply _.
Defined.
Lemma req_wf'_ok w r : req_wf' w r -> req_wf w r.
Proof.
  intros (H1 & H2 & H3 & H4). split; [exact H1|]. split; [exact H2|]. split; [|split; [|exact H4]].
  - intros c a E1 E2. rewrite E1, E2 in H3. tauto.
  - intros c E1. rewrite E1 in H3. tauto.
Qed.

(** The steps to choose from, named as in Mvcc.v. *)
Inductive act :=
  | ALoad (q : N) | AEvict (q : N) | ACall (i : nat) | AObs (i : nat) | ASeen (i : nat) | AReg (i : nat) | AChk (i : nat) | AReady (i : nat) | AClose (i : nat)
  | ARead (i : nat) (q : query) (start : option N) (bw : bool) (limit : option N) | AHead (i : nat) | ATrack (i : nat) (src : bytes)
  | ABegin | ARequest (r : request) | AAbort | ACommit | APage | ASync | AHeader | ADone
  | ACrash | AOpen.

Section exec.
  Context (kw : nat) (ps : N) (hash : bytes -> bytes) (order : list bytes -> list bytes) (ford : gset N -> list N) (caching : bool).
  Definition pexec (d : disk) (p : proc) (a : act) : option (label * disk * proc) :=
    match a with
    | ALoad q => if caching && (2 <=? q) then
        match fetch kw (p_cache p) d q with Ok n => Some (LTau, d, set_cache (<[q := n]> (p_cache p)) p) | _ => None end else None
    | AEvict q => Some (LTau, d, set_cache (delete q (p_cache p)) p)
    | ACall i => match p_readers p !! i with None => Some (LCall i, d, set_reader i RCall p) | _ => None end
    | AObs i => match p_readers p !! i with Some RCall => Some (LTau, d, set_reader i (RObs (p_pin0 p)) p) | _ => None end
    | ASeen i => match p_readers p !! i with Some (RObs a) => Some (LTau, d, set_reader i (RSeen (latest_of a (p_pin1 p))) p) | _ => None end
    | AReg i => match p_readers p !! i with
        Some (RSeen a) => Some (LTau, d, set_regs (reg_register (h_tsn a.2) (p_regs p)) (set_reader i (RReg a) p)) | _ => None end
    | AChk i => match p_readers p !! i with Some (RReg a) => Some (LTau, d, set_reader i (RChk a (p_pin0 p)) p) | _ => None end
    | AReady i => match p_readers p !! i with
        | Some (RChk a b) => if h_tsn (latest_of b (p_pin1 p)).2 =? h_tsn a.2 then Some (LReady i, d, set_reader i (ROpen a) p)
                             else Some (LTau, d, set_regs (reg_unregister (h_tsn a.2) (p_regs p)) (set_reader i RCall p))
        | _ => None end
    | AClose i => match p_readers p !! i with
        Some (ROpen a) => Some (LClose i, d, set_regs (reg_unregister (h_tsn a.2) (p_regs p)) (set_readers (delete i (p_readers p)) p)) | _ => None end
    | ARead i q start bw limit => match p_readers p !! i with
        Some (ROpen a) => Some (LRead i q start bw limit (umadb_read hash order (fetch kw (p_cache p) d) a.2 q start bw limit false), d, p) | _ => None end
    | AHead i => match p_readers p !! i with
        Some (RSeen a) => Some (LHead i (header_head a.2), d, set_readers (delete i (p_readers p)) p) | _ => None end
    | ATrack i src => match p_readers p !! i with
        Some (ROpen a) => Some (LTrack i src (get_tracking_info (N.to_nat (h_next_page a.2)) (fetch kw (p_cache p) d) (h_tracking_root a.2) src), d, p) | _ => None end
    | ABegin => match p_writer p, mvcc_writer (fetch kw (p_cache p) d) (reg_min (p_regs p)) (latest p).2 with
        WIdle, (Ok tt, w) => Some (LTau, d, set_writer (WBusy (fetch kw (p_cache p) d) w [] []) p) | _, _ => None end
    | ARequest r => match p_writer p with
        | WBusy rd w done ans =>
          if decide (req_wf' w r) then
            let x := process_append_request rd kw ps hash order (false, false) (rq_events r) (rq_cond r) (rq_trk r) w in
            if match x.1 with Ok _ => true | Err e => negb (is_abort e) end then Some (LTau, d, set_writer (WBusy rd x.2 (done ++ [r]) (ans ++ [x.1])) p) else None
          else None
        | _ => None end
    | AAbort => match p_writer p with WBusy rd w done ans => Some (LAbort done, d, set_writer WIdle p) | _ => None end
    | ACommit => match p_writer p with
        | WBusy rd w done ans => match process_freed_page_ids rd kw ps ford w with
          | (Ok tt, w') => let todo := map_to_list (w_dirty w') in
            if decide (Forall (fun e => storable kw e.2) todo /\ storable kw (NHeader (next_header (h_schema (latest p).2) w')))
            then Some (LTau, d, set_writer (WPages w' todo done ans) p) else None
          | _ => None end
        | _ => None end
    | APage => match p_writer p with
        | WPages w ((q, n) :: todo) done ans => match page_ser kw ps n with Ok b => Some (LTau, d_write kw q b d, set_writer (WPages w todo done ans) p) | _ => None end
        | _ => None end
    | ASync => match p_writer p with
        | WPages w [] done ans => Some (LTau, d_synced d, set_writer (WHeader w done ans) (if caching then set_cache (w_dirty w ∪ p_cache p) p else p))
        | _ => None end
    | AHeader => match p_writer p with
        | WHeader w done ans => match page_ser kw ps (NHeader (next_header (h_schema (latest p).2) w)) with
            Ok b => Some (LTau, d_write kw (other_slot (latest p).1) b d, set_writer (WSync w done ans) p) | _ => None end
        | _ => None end
    | ADone => match p_writer p with
        | WSync w done ans => Some (LCommit done ans, d_synced d, pin_header (other_slot (latest p).1, next_header (h_schema (latest p).2) w) (set_writer WIdle p))
        | _ => None end
    | ACrash | AOpen => None
    end.
  Definition exec1 (y : sys) (a : act) : option (label * sys) :=
    match y with
    | Sys d (Some p) => match a with
      | ACrash => Some (LCrash (in_flight (p_writer p)), Sys (Disk (d_cur d) (fun q c => c = d_cur d q) (fun _ => false)) None)
      | _ => match pexec d p a with Some (l, d', p') => Some (l, Sys d' (Some p')) | None => None end
      end
    | Sys d None => match a with
      | AOpen => match open_db kw ps d with Ok (d', p) => Some (LOpen, Sys d' (Some p)) | _ => None end
      | _ => None end
    end.
  Fixpoint exec (y : sys) (s : list act) : option (list label * sys) :=
    match s with
    | [] => Some ([], y)
    | a :: s' => match exec1 y a with
      | Some (l, y') => match exec y' s' with Some (tr, y'') => Some (l :: tr, y'') | None => None end
      | None => None end
    end.

  Notation pstep := (pstep kw ps hash order ford caching).
  Notation step := (step kw ps hash order ford caching).
  Notation steps := (steps kw ps hash order ford caching).
  Lemma pexec_ok d p a l d' p' : pexec d p a = Some (l, d', p') -> pstep d p l d' p'.
  Proof.
    destruct a; cbn [pexec]; repeat (case_match; try discriminate); intros [= <- <- <-]; subst; try (econstructor; eassumption).
    all: repeat match goal with H : _ && _ = true |- _ => apply andb_prop in H as [? ?] end.
    all: repeat match goal with H : (_ <=? _) = true |- _ => apply N.leb_le in H end.
    all: repeat match goal with H : (_ =? _) = true |- _ => apply N.eqb_eq in H end.
    all: repeat match goal with H : (_ =? _) = false |- _ => apply N.eqb_neq in H end.
    all: try (econstructor; eassumption).
    1-2: eapply S_request; [eassumption|apply req_wf'_ok; assumption| |];
      [match goal with H : (process_append_request _ _ _ _ _ _ _ _ _ _).1 = _ |- _ => rewrite <- H end; apply surjective_pairing|cbn; try match goal with H : negb _ = true |- _ => now apply negb_true_iff in H end; exact I].
    - rewrite <- (app_nil_r done). eapply S_abort. eassumption.
    - match goal with H : _ /\ _ |- _ => destruct H end. eapply S_commit; try eassumption. reflexivity.
  Qed.
  Lemma exec1_ok y a l y' : (forall p, y_proc y = Some p -> cur_ok (y_disk y)) -> exec1 y a = Some (l, y') -> step y l y'.
  Proof.
    intros Hc. destruct y as [d [p|]]; cbn [exec1].
    - assert (forall l d' p', pexec d p a = Some (l, d', p') -> step (Sys d (Some p)) l (Sys d' (Some p'))) as Hp by (intros; apply Y_proc; eapply pexec_ok; eassumption).
      destruct a; try (destruct (pexec d p _) as [[[l1 d1] p1]|] eqn:E; [|discriminate]; intros [= <- <-]; now apply Hp).
      intros [= <- <-]. apply Y_crash. exists (d_cur d). split; [exact (Hc p eq_refl)|reflexivity].
    - destruct a; try discriminate. destruct (open_db kw ps d) as [[d' p]|] eqn:E; [|discriminate]. intros [= <- <-]. now apply Y_open.
  Qed.
End exec.

Section runs.
  Context (ps : N) (hash : bytes -> bytes) (order : list bytes -> list bytes) (ford : gset N -> list N) (caching : bool).
  Context (Hps : ps_ok ps) (Hps32 : ps < U32) (Hord : forall l t, t ∈ order l <-> t ∈ l) (Hford : forall s, ford s ≡ₚ elements s).
  Notation exec := (exec 16 ps hash order ford caching).
  Notation steps := (steps 16 ps hash order ford caching).
  Notation run := (run ps hash order ford caching).
  Lemma run_cur tr y : run tr y -> forall p, y_proc y = Some p -> cur_ok (y_disk y).
  Proof.
    intros H p Hp. destruct (run_inv ps hash order ford caching Hps Hps32 Hord Hford _ _ H) as (sy & _ & Hi & _). unfold inv in Hi. rewrite Hp in Hi. destruct Hi as (g & Hi).
    exact (u_cur _ _ _ _ _ _ _ _ Hi).
  Qed.
  Lemma exec_ok s : forall tr0 y tr y', run tr0 y -> exec y s = Some (tr, y') -> steps y tr y'.
  Proof.
    induction s as [|a s IH]; intros tr0 y tr y' H; cbn [Exec.exec]; [intros [= <- <-]; constructor|].
    destruct (exec1 _ _ _ _ _ _ y a) as [[l y1]|] eqn:E1; [|discriminate]. destruct (exec y1 s) as [[tr1 y2]|] eqn:E2; [|discriminate]. intros [= <- <-].
    apply (exec1_ok _ _ _ _ _ _ _ _ _ _ (run_cur _ _ H)) in E1. pose proof (run_step _ _ _ _ _ _ _ _ _ H E1) as H1.
    specialize (IH _ _ _ _ H1 E2). clear - IH E1. induction IH as [y1|y1 tr y2 l' y3 IH1 IH Hs].
    - apply (steps_snoc 16 ps hash order ford caching y [] y l y1); [constructor|exact E1].
    - apply (steps_snoc 16 ps hash order ford caching y (l :: tr) y2 l' y3); auto.
  Qed.
  (** If the steps [s] can be taken one after another from a new database, they form a run. *)
  Theorem exec_runs s tr : option_map fst (exec (init_sys 16 ps) s) = Some tr -> exists y, run tr y /\ exec (init_sys 16 ps) s = Some (tr, y).
  Proof.
    destruct (exec (init_sys 16 ps) s) as [[tr' y]|] eqn:E; cbn; [|discriminate]. intros [= ->]. exists y. split; [|reflexivity].
    eapply (exec_ok s []); [constructor|exact E].
  Qed.
End runs.
