(** Running the server of Server.v: a list of chosen steps is executed.  Used to show that what the theorems speak about
    happens. *)
From Verif Require Import Exec.
From Verif Require Export ServerQueue.
Local Open Scope N_scope.

(** [VThread]: what the writer thread does next when nothing fails; [VGiveUp]: it finds the request cancelled; [VDb]: a step of
    the page cache or of a reader on its way; [VTask k]: what task [k] does next, once its reader is there; [VBad k]: it finds
    a page unreadable. *)
Inductive sact :=
  | VArrive (id : nat) (r : request) | VCancel (id : nat) | VShutdown | VThread | VGiveUp | VDb (a : act)
  | VRead (k : nat) (q : query) (start : option N) (bw : bool) (limit : option N) (batch : option N)
  | VSubscribe (k : nat) (q : query) (after : option N) (batch : option N) | VTask (k : nat) | VBad (k : nat).
(** A reader on its way. *)
Definition on_way (a : act) : bool := match a with ALoad _ | AEvict _ | AObs _ | ASeen _ | AReg _ | AChk _ => true | _ => false end.

Section server_exec.
  Context (kw : nat) (ps : N) (hash : bytes -> bytes) (order : list bytes -> list bytes) (ford : gset N -> list N) (caching : bool) (max_events : N).
  Notation pexec := (pexec kw ps hash order ford caching).
  Notation pstep := (pstep kw ps hash order ford caching).
  Notation sstep := (sstep kw ps hash order ford caching max_events).
  Notation serves := (serves kw ps hash order ford caching max_events).
  Definition texec (v : srv) : option (option label * srv) :=
    let d := v_disk v in let p := v_proc v in
    match v_thread v with
    | TWait => match v_queue v with
      | MAppend id r :: q => Some (None, v_set_thread (TOpen id r) (v_set_queue q v))
      | MShutdown :: q => Some (None, v_set_thread TStop (v_set_queue q v))
      | [] => None end
    | TOpen id r => match p_writer p, mvcc_writer (fetch kw (p_cache p) d) (reg_min (p_regs p)) (latest p).2 with
        WIdle, (Ok tt, w) => Some (Some LTau, v_set_thread (TProc [] id r) (v_set_db d (set_writer (WBusy (fetch kw (p_cache p) d) w [] []) p) v)) | _, _ => None end
    | TProc items id r => match p_writer p with
        | WBusy rd w done ans =>
          if decide (req_wf' w r) then
            let x := process_append_request rd kw ps hash order (false, false) (rq_events r) (rq_cond r) (rq_trk r) w in
            if match x.1 with Ok _ => true | Err e => negb (is_abort e) end
            then Some (Some LTau, v_set_thread (TDrain (items ++ [(id, r, x.1)])) (v_set_db d (set_writer (WBusy rd x.2 (done ++ [r]) (ans ++ [x.1])) p) v)) else None
          else None
        | _ => None end
    | TDrain items =>
      if max_events <=? total_events items then Some (None, v_set_thread (TCommit items) v)
      else match v_queue v with
           | MAppend id r :: q => Some (None, v_set_thread (TProc items id r) (v_set_queue q v))
           | MShutdown :: q => Some (None, v_set_thread (TCommit items) (v_set_queue q v))
           | [] => Some (None, v_set_thread (TCommit items) v) end
    | TCommit items => match p_writer p with
        | WBusy _ _ _ _ => match pexec d p ACommit with Some (l, d', p') => Some (Some l, v_set_db d' p' v) | None => None end
        | WPages _ (_ :: _) _ _ => match pexec d p APage with Some (l, d', p') => Some (Some l, v_set_db d' p' v) | None => None end
        | WPages _ [] _ _ => match pexec d p ASync with Some (l, d', p') => Some (Some l, v_set_db d' p' v) | None => None end
        | WHeader _ _ _ => match pexec d p AHeader with Some (l, d', p') => Some (Some l, v_set_db d' p' v) | None => None end
        | WSync w _ _ => match pexec d p ADone with
            Some (l, d', p') => Some (Some l, v_set_thread (TReply (map (fun x => (it_id x, it_ans x)) items) (Some (published_head w))) (v_set_db d' p' v)) | None => None end
        | _ => None end
    | TReply ((id, a) :: todo) h => Some (None, v_set_thread (TReply todo h) (v_send (id, a) v))
    | TReply [] (Some h) => Some (None, v_set_thread TWait (v_publish h v))
    | TReply [] None => Some (None, v_set_thread TWait v)
    | TStop => None
    end.
  Definition kexec (v : srv) (k : nat) : option (option label * srv) :=
    match v_rpcs v !! k with
    | None => None
    | Some x => match rpc_phase x with
      | QLoop => Some (None, v_set_rpc k (match x with QRd r _ => QRd r QBorrow | QSub s _ => QSub (saw (v_ver v) s) QBorrow end) v)
      | QBorrow => match pexec (v_disk v) (v_proc v) (ACall k) with Some (l, d', p') => Some (Some l, v_set_rpc k (set_phase QCall x) (v_set_db d' p' v)) | None => None end
      | QCall => match p_readers (v_proc v) !! k with
        | Some (RChk a b) => if h_tsn (latest_of b (p_pin1 (v_proc v))).2 =? h_tsn a.2 then
            match pexec (v_disk v) (v_proc v) (AReady k) with Some (l, d', p') => Some (Some l, v_set_rpc k (set_phase QOpen x) (v_set_db d' p' v)) | None => None end else None
        | _ => None end
      | QOpen => match p_readers (v_proc v) !! k with
        | Some (ROpen a) => let '(q, start, bw, limit) := rpc_args x in
            Some (None, v_set_rpc k (set_phase (QRead (handler_read hash order (fetch kw (p_cache (v_proc v)) (v_disk v)) a.2 q start bw limit)) x) v)
        | _ => None end
      | QRead ans => match pexec (v_disk v) (v_proc v) (AClose k) with Some (l, d', p') => Some (Some l, v_set_rpc k (rpc_handle x ans) (v_set_db d' p' v)) | None => None end
      | QWait => match x with
        | QSub s _ => if decide (v_ver v <> su_seen s) then Some (None, v_set_rpc k (QSub (saw (v_ver v) s) QLoop) v) else None
        | _ => None end
      | _ => None end
    end.
  Definition sexec (v : srv) (a : sact) : option (option label * srv) :=
    match a with
    | VArrive id r => match v_thread v with
        | TStop => None | _ => if decide (id ∉ map fst (v_seen v)) then Some (None, v_note id r (v_set_queue (v_queue v ++ [MAppend id r]) v)) else None end
    | VCancel id => Some (None, v_leave id v)
    | VShutdown => Some (None, v_set_queue (v_queue v ++ [MShutdown]) v)
    | VThread => texec v
    | VGiveUp => match v_thread v with
      | TProc items id r => match p_writer (v_proc v) with
        | WBusy rd w done ans =>
          if decide (id ∈ v_gone v) then
            match process_append_request rd kw ps hash order (true, true) (rq_events r) (rq_cond r) (rq_trk r) w with
            | (Err e, _) => if is_abort e then
                Some (Some (LAbort (map it_req items ++ [r])),
                  v_set_thread (TReply (map (fun x => (it_id x, Err (shadow_for_batch_abort e))) items ++ [(id, Err e)]) None) (v_set_db (v_disk v) (set_writer WIdle (v_proc v)) v)) else None
            | _ => None end
          else None
        | _ => None end
      | _ => None end
    | VDb a => if on_way a then match pexec (v_disk v) (v_proc v) a with Some (l, d', p') => Some (Some l, v_set_db d' p' v) | None => None end else None
    | VRead k q start bw limit batch => match v_rpcs v !! k, p_readers (v_proc v) !! k with
      | None, None => if match limit with Some l => l <? U32 | None => true end then
          let r := new_read q start bw limit batch in Some (None, v_set_rpc k (QRd r (if read_exhausted r then QEnd else QLoop)) v) else None
      | _, _ => None end
    | VSubscribe k q after batch => match v_rpcs v !! k, p_readers (v_proc v) !! k with
      | None, None => if match after with Some l => l <? U64 | None => true end then
          Some (None, v_set_rpc k (QSub (new_sub q after batch (v_ver v)) (if bool_decide (after = Some (U64 - 1)) then QEnd else QLoop)) v) else None
      | _, _ => None end
    | VTask k => kexec v k
    | VBad k => match v_rpcs v !! k with
      | Some x => match rpc_phase x with QOpen => Some (None, v_set_rpc k (set_phase (QRead (Err ECorruption)) x) (v_mark k v)) | _ => None end
      | None => None end
    end.
  Lemma texec_ok v ol v' : th_ok (v_thread v) (p_writer (v_proc v)) -> texec v = Some (ol, v') -> sstep v ol v'.
  Proof.
    intros Ht. unfold texec. destruct (v_thread v) as [|id r|items id r|items|items|[|[id a] todo] [h|]|] eqn:Et; cbn in Ht.
    - destruct (v_queue v) as [|[id r|] q] eqn:Eq; [discriminate| |]; intros [= <- <-]; econstructor; eassumption.
    - destruct (p_writer (v_proc v)) eqn:Ew; try discriminate. destruct (mvcc_writer _ _ _) as [[[]|] w] eqn:Em; [|discriminate]. intros [= <- <-].
      eapply V_begin; [exact Et|apply S_begin; eassumption|exact Ew|reflexivity].
    - destruct Ht as (rd & w & Ew). rewrite Ew. destruct (decide _) as [Hwf|]; [|discriminate]. destruct (process_append_request _ _ _ _ _ _ _ _ _ _) as [a w'] eqn:Ea. cbn [fst snd].
      destruct (match a with Ok _ => true | Err e => negb (is_abort e) end) eqn:Eok; [|discriminate]. intros [= <- <-].
      eapply V_process; [exact Et|exact Ew|eapply S_request; [exact Ew|apply req_wf'_ok, Hwf|exact Ea|destruct a; [exact I|now apply negb_true_iff]]|reflexivity].
    - destruct (N.leb_spec max_events (total_events items)); [intros [= <- <-]; now eapply V_full|].
      destruct (v_queue v) as [|[id r|] q] eqn:Eq; intros [= <- <-]; [eapply V_empty|eapply V_more|eapply V_swallow]; eassumption.
    - destruct (p_writer (v_proc v)) as [|rd w done ans|w [|[q n] todo] done ans|w done ans|w done ans|] eqn:Ew; try discriminate.
      all: match goal with |- context [pexec ?d ?p ?a] => destruct (pexec d p a) as [[[l d'] p']|] eqn:Ex; [|discriminate]; intros [= <- <-]; pose proof (pexec_ok _ _ _ _ _ _ _ _ _ _ _ _ Ex) as Hst end.
      all: cbn [pexec] in Ex; rewrite Ew in Ex; repeat (case_match; try discriminate); injection Ex as <- <- <-.
      all: try (eapply V_commit; [exact Et|exact Hst|cbn; rewrite Ew; intros Hx; try discriminate Hx; injection Hx as Hx; apply (f_equal length) in Hx; cbn in Hx; lia|reflexivity]).
      eapply V_committed; eassumption.
    - intros [= <- <-]. now eapply V_publish.
    - intros [= <- <-]. now eapply V_next.
    - intros [= <- <-]. now eapply V_reply.
    - intros [= <- <-]. now eapply V_reply.
    - discriminate.
  Qed.
  Lemma kexec_ok v k ol v' : kexec v k = Some (ol, v') -> sstep v ol v'.
  Proof.
    unfold kexec. destruct (v_rpcs v !! k) as [x|] eqn:Ek; [|discriminate]. destruct (rpc_phase x) as [| | | |ans| | |e|] eqn:Ex; try discriminate.
    - intros [= <- <-]. eapply V_permit; eassumption.
    - destruct (pexec _ _ _) as [[[l d'] p']|] eqn:E; [|discriminate]. intros [= <- <-]. pose proof (pexec_ok _ _ _ _ _ _ _ _ _ _ _ _ E) as Hst.
      cbn [pexec] in E. case_match; [discriminate|]. injection E as <- <- <-. eapply V_call; eassumption.
    - destruct (p_readers (v_proc v) !! k) as [[| | | |a b|]|] eqn:Er; try discriminate. destruct (h_tsn _ =? _) eqn:Et; [|discriminate].
      destruct (pexec _ _ _) as [[[l d'] p']|] eqn:E; [|discriminate]. intros [= <- <-]. pose proof (pexec_ok _ _ _ _ _ _ _ _ _ _ _ _ E) as Hst.
      cbn [pexec] in E. rewrite Er, Et in E. injection E as <- <- <-. eapply V_ready; eassumption.
    - destruct (p_readers (v_proc v) !! k) as [[| | | |a b|a]|] eqn:Er; try discriminate. destruct (rpc_args x) as [[[q start] bw] limit] eqn:Ea. intros [= <- <-]. eapply V_scan; eassumption.
    - destruct (pexec _ _ _) as [[[l d'] p']|] eqn:E; [|discriminate]. intros [= <- <-]. pose proof (pexec_ok _ _ _ _ _ _ _ _ _ _ _ _ E) as Hst.
      cbn [pexec] in E. repeat (case_match; try discriminate). injection E as <- <- <-. eapply V_handle; eassumption.
    - destruct x as [r y|s y]; [discriminate|]. cbn in Ex. subst y. destruct (decide _); [|discriminate]. intros [= <- <-]. eapply V_wake; eassumption.
  Qed.
  Lemma sexec_ok v a ol v' : th_ok (v_thread v) (p_writer (v_proc v)) -> sexec v a = Some (ol, v') -> sstep v ol v'.
  Proof.
    intros Ht. destruct a as [id r|id| | | |a|k q start bw limit batch|k q after batch|k|k]; cbn [sexec].
    - destruct (v_thread v) eqn:Et; try discriminate; (destruct (decide _); [|discriminate]); intros [= <- <-]; (eapply V_arrive; [congruence|assumption]).
    - intros [= <- <-]. apply V_cancel.
    - intros [= <- <-]. apply V_shutdown.
    - now apply texec_ok.
    - destruct (v_thread v) as [|id r|items id r|items|items|todo h|] eqn:Et; try discriminate. cbn in Ht. destruct Ht as (rd & w & Ew). rewrite Ew. destruct (decide _) as [Hg|]; [|discriminate].
      destruct (process_append_request _ _ _ _ _ _ _ _ _ _) as [[?|e] w'] eqn:Ea; [discriminate|]. destruct (is_abort e) eqn:Eb; [|discriminate]. intros [= <- <-].
      eapply (V_fails _ _ _ _ _ _ _ v items id r rd w w' (true, true) e false); try eassumption; [intros; contradiction|]. eapply S_abort. exact Ew.
    - destruct (on_way a) eqn:Eo; [|discriminate]. destruct (pexec _ _ _) as [[[l d'] p']|] eqn:E; [|discriminate]. intros [= <- <-]. pose proof (pexec_ok _ _ _ _ _ _ _ _ _ _ _ _ E) as Hst.
      destruct a; try discriminate Eo; cbn [pexec] in E; repeat (case_match; try discriminate); injection E as <- <- <-; (eapply V_tau; [exact Hst|reflexivity]).
    - destruct (v_rpcs v !! k) eqn:Ek; [discriminate|]. destruct (p_readers _ !! k) eqn:Er; [discriminate|]. destruct (match limit with Some l => l <? U32 | None => true end) eqn:El; [|discriminate].
      intros [= <- <-]. eapply V_read; [exact Ek|exact Er|]. destruct limit; [|exact I]. now apply N.ltb_lt.
    - destruct (v_rpcs v !! k) eqn:Ek; [discriminate|]. destruct (p_readers _ !! k) eqn:Er; [discriminate|]. destruct (match after with Some l => l <? U64 | None => true end) eqn:El; [|discriminate].
      intros [= <- <-]. eapply V_subscribe; [exact Ek|exact Er|]. destruct after; [|exact I]. now apply N.ltb_lt.
    - apply kexec_ok.
    - destruct (v_rpcs v !! k) as [x|] eqn:Ek; [|discriminate]. destruct (rpc_phase x) eqn:Ex; try discriminate. intros [= <- <-]. now eapply V_unreadable.
  Qed.
  (** A whole execution: the states, the last one first. *)
  Fixpoint srun (v : srv) (vs : list srv) (tr : list label) (s : list sact) : option (srv * list srv * list label) :=
    match s with
    | [] => Some (v, vs, tr)
    | a :: s' => match sexec v a with Some (ol, v') => srun v' (v :: vs) (tr ++ match ol with Some l => [l] | None => [] end) s' | None => None end
    end.
End server_exec.
Section server_runs.
  Context (ps : N) (hash : bytes -> bytes) (order : list bytes -> list bytes) (ford : gset N -> list N) (caching : bool) (max_events : N).
  Notation serves := (serves 16 ps hash order ford caching max_events).
  Notation srun := (srun 16 ps hash order ford caching max_events).
  Lemma srun_ok d p h s : p_writer p = WIdle -> forall v vs tr v' vs' tr', serves d p h (v :: vs) tr -> srun v vs tr s = Some (v', vs', tr') -> serves d p h (v' :: vs') tr'.
  Proof.
    intros Hw. induction s as [|a s IH]; intros v vs tr v' vs' tr' H; cbn [ServerExec.srun]; [congruence|].
    destruct (sexec _ _ _ _ _ _ _ v a) as [[ol v1]|] eqn:E; [|discriminate]. intros Hr. eapply IH; [|exact Hr]. eapply serves_step; [exact H|].
    destruct (serves_accounts _ _ _ _ _ _ _ _ _ _ _ _ Hw H) as (P & HP). eapply sexec_ok; [|exact E]. apply HP.
  Qed.
End server_runs.
