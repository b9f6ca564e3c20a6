(** Whatever the threads are at, remote reads and subscriptions next to the pipelining writer thread get on: C100. *)
From Verif Require Import Exec PropsStore PropsFindings PropsCrash PropsPipeline PropsPipelined PropsPipelinedServer.
From Verif Require Import MvccProofs SpecProofs StoreProofs ServerLive ServerExec PropsServer PropsRemote Permits PropsPermits PipelineTasks PropsPipelinedRemote PropsPipelinedLive.
From Coq Require Import Wellfounded Relations.
Local Open Scope N_scope.

(** A request that keeps to the documented use of the interface, as far as it is up to the request. *)
Definition rq_ok (r : request) : Prop :=
  Forall rec_wf (map (to_record (rq_trk r)) (rq_events r)) /\ nlen (rq_events r) <= 4294967295 /\
  (forall c a, rq_cond r = Some c -> ac_after c = Some a -> a + 1 < U64) /\ (forall c, rq_cond r = Some c -> rq_events r <> []).
(** The request being processed and those waiting. *)
Definition to_come (v : zsrv) : list request := match z_thread v with ZProc _ _ r => [r] | _ => [] end ++ map snd (queued (z_queue v)).
Definition events_in (rs : list request) : N := nlen (concat (map rq_events rs)).
(** While a batch is being built: the requests that may still join it keep to the documented use, there are positions left for their
    events, and no write of the commit before has failed.  Nothing is asked at other times. *)
Definition room_for (v : zsrv) : Prop :=
  match z_thread v with
  | ZProc _ _ _ | ZDrain _ => Forall rq_ok (to_come v) /\ w_next_pos (l_w (z_pipe v)) + events_in (to_come v) < U64 /\
      forall f, l_fly (z_pipe v) = Some f -> y_io f <> IFailed false
  | _ => True
  end.
Lemma append_grows ps s evs cond trk : nlen (s_hist (spec_append ps s evs cond trk).2) <= nlen (s_hist s) + nlen evs.
Proof.
  destruct (spec_append ps s evs cond trk) as [a s'] eqn:B. cbn.
  destruct (append_cases _ _ _ _ _ _ _ B) as [(t & _ & _ & _ & _ & ->)|[[-> _]|[-> _]]]; cbn [s_hist]; [|unfold nlen; lia..].
  unfold nlen. rewrite app_length, number_length, map_length. lia.
Qed.

Section ease.
  Context (hash : bytes -> bytes) (order : list bytes -> list bytes) (ford : gset N -> list N) (caching : bool) (max_events : N).
  Context (Hord : forall l t, t ∈ order l <-> t ∈ l) (Hford : forall s, ford s ≡ₚ elements s).
  Notation lstep := (lstep 16 dps hash order ford caching).
  Notation zstep := (zstep 16 dps hash order ford caching max_events).
  Notation zserves := (zserves 16 dps hash order ford caching max_events).
  Notation wstep := (wstep 16 dps hash order ford caching max_events).
  Notation wserves := (wserves 16 dps hash order ford caching max_events).
  Notation z_works := (z_works dps hash order ford caching max_events).
  Notation mrun := (mrun hash order ford caching).
  Notation mshows := (mshows hash order).
  Notation minv := (minv 16 dps hash caching).
  Notation thread_inv := (thread_inv 16 dps hash caching).
  Context (tr0 : list label) (s0 : psys) (h0 : option N) (Hrun : mrun fine tr0 (MP s0)) (Hp : l_phase (s_pipe s0) = PFetch) (Hf : l_fly (s_pipe s0) = None).
  Notation going := (going hash order ford caching max_events s0 h0).

  (** *** The steps meet the conditions *)
  Lemma fine_plain d p pi d' p' pi' : (forall f, l_fly pi' = Some f -> y_io f <> IFailed true) ->
    (forall f', l_fly pi' = Some f' -> y_io f' = IFailed false -> l_fly pi = Some f') -> p_readers p' = p_readers p ->
    (gives_up pi -> l_phase pi' = PFetch -> l_fly pi' = None ->
       mvcc_writer (fetch 16 (p_cache p) d) (reg_min (p_regs p)) (latest p).2 = (Ok tt, l_w pi') /\ l_header pi' = latest p) ->
    fine (MP (PSys d p pi)) (MP (PSys d' p' pi')).
  Proof.
    intros H1 H2 H3 H4. split.
    - split; [exact H1|]. split; [|exact H4]. intros f f' Ef Ef' Hn Hx. specialize (H2 _ Ef' Hx). congruence.
    - intros _ _ i a E1 E2. rewrite H3 in E2. congruence.
  Qed.
  Lemma fine_same v sy : minv false (MP (z_sys (w_z v))) sy -> fine (MP (z_sys (w_z v))) (MP (z_sys (w_z v))).
  Proof.
    intros Hi. destruct (minv_quiet hash caching _ _ Hi) as [_ Hn]. unfold z_pipe in Hn. destruct (z_sys (w_z v)) as [d p pi]. apply fine_plain; auto.
    intros Hg Hph Hno. exfalso. unfold gives_up in Hg. rewrite Hph, Hno in Hg. exact Hg.
  Qed.
  (** When a batch is given up the writer can be made anew. *)
  Lemma idle_writer d p pi g sy : idle_inv 16 dps hash caching d p pi g sy ->
    exists w, mvcc_writer (fetch 16 (p_cache p) d) (reg_min (p_regs p)) (latest p).2 = (Ok tt, w).
  Proof.
    intros H. pose proof (idle_base 16 dps hash caching dps32 ltac:(lia) _ _ _ _ _ H) as Hu.
    pose proof (u_held _ _ _ _ _ _ _ _ Hu) as Hh. pose proof (u_cur _ _ _ _ _ _ _ _ Hu) as Hc. rewrite (u_latest _ _ _ _ _ _ _ _ Hu).
    destruct (begin_ok 16 dps hash order ltac:(lia) Hord (fetch 16 (p_cache p) d) (g_sn (gh_cur g)) (reg_min (p_regs p))) as (w & E & _); [|eauto].
    eapply snap_frame; [exact (proj1 Hh)|]. intros q Hq. eapply held_rget; try eassumption; try lia; try exact dps_ok; exact dps32.
  Qed.
  Lemma failed_writer d p pi sy f : minv false (MP (PSys d p pi)) sy -> l_fly pi = Some f -> y_io f = IFailed false ->
    exists w, mvcc_writer (fetch 16 (p_cache p) d) (reg_min (p_regs p)) (latest p).2 = (Ok tt, w).
  Proof.
    intros [H|[_ H]] Ef Ey; destruct H as (g & [H|(f' & db & w & todo & H)]).
    - pose proof (a_fly _ _ _ _ _ _ _ _ _ H). cbn in *. congruence.
    - pose proof (b_fly _ _ _ _ _ _ _ _ _ _ _ _ _ H) as E. pose proof (b_io _ _ _ _ _ _ _ _ _ _ _ _ _ H) as E'. cbn in *. assert (f' = f) as -> by congruence. now destruct (E' false).
    - exact (idle_writer _ _ _ _ _ H).
    - pose proof (b_fly _ _ _ _ _ _ _ _ _ _ _ _ _ H) as E. discriminate E.
  Qed.
  (** A request joins the batch being built. *)
  Lemma building d p pi sy done ans r : minv false (MP (PSys d p pi)) sy -> (forall f, l_fly pi = Some f -> y_io f <> IFailed false) -> l_phase pi = PBuild done ans -> rq_ok r ->
    w_next_pos (l_w pi) + nlen (rq_events r) < U64 ->
    req_wf (l_w pi) r /\ exists a w, process_append_request (Pipeline.snap 16 d p pi) 16 dps hash order (false, false) (rq_events r) (rq_cond r) (rq_trk r) (l_w pi) = (a, w) /\
      (forall e, a = Err e -> is_abort e = false) /\ w_next_pos w <= w_next_pos (l_w pi) + nlen (rq_events r).
  Proof.
    intros Hi Hn Hph (R1 & R2 & R3 & R4) Hroom. assert (Hwf : req_wf (l_w pi) r) by (repeat split; assumption). split; [exact Hwf|].
    assert (exists sn sm PE PT PK s, Txn.tinv 16 dps hash (Pipeline.snap 16 d p pi) sn sm (l_w pi) PE PT PK s) as (sn & sm & PE & PT & PK & s & Ht).
    { destruct Hi as [(g & [H|(f & db & w & todo & H)])|[(f & E & E') _]]; [| |now destruct (Hn f)].
      - pose proof (a_u _ _ _ _ _ _ _ _ _ H) as Hu. unfold awriter in Hu. cbn [s_pipe] in Hu. rewrite Hph in Hu. pose proof (u_writer _ _ _ _ _ _ _ _ Hu) as Hw. cbn in Hw.
        destruct Hw as (_ & PE & PT & PK & s & Ht & _). eauto 10.
      - pose proof (b_phase _ _ _ _ _ _ _ _ _ _ _ _ _ H) as Hb. cbn [s_pipe] in Hb. rewrite Hph in Hb. destruct Hb as (sm & PE & PT & PK & s & Ht & _). eauto 10. }
    destruct (request_step 16 dps hash order ford dps_ok ltac:(lia) Hord Hford _ _ _ _ _ _ _ _ _ Ht Hwf) as (w' & PE' & PT' & PK' & E & Ht').
    eexists _, w'. split; [exact E|]. split.
    - intros e He. destruct (spec_append dps s (rq_events r) (rq_cond r) (rq_trk r)) as [a s2] eqn:B. cbn in He. subst a.
      destruct (append_cases _ _ _ _ _ _ _ B) as [(t & _ & _ & _ & X & _)|[[_ (c & _ & _ & _ & X)]|[_ [(c & _ & _ & _ & X)|[_ [[_ X]|(e' & _ & Ht0 & X)]]]]]]; try discriminate;
        injection X as ->; try reflexivity. unfold spec_track in Ht0. destruct (rq_trk r) as [[src pos]|]; [|discriminate].
      destruct (255 <? nlen src); [now injection Ht0 as <-|]. destruct (s_track s src); [destruct (_ <=? _); [now injection Ht0 as <-|discriminate]|discriminate].
    - rewrite (db_next _ _ _ _ _ _ _ _ _ _ (ti_db _ _ _ _ _ _ _ _ _ _ _ Ht)), (db_next _ _ _ _ _ _ _ _ _ _ (ti_db _ _ _ _ _ _ _ _ _ _ _ Ht')).
      pose proof (append_grows dps s (rq_events r) (rq_cond r) (rq_trk r)). lia.
  Qed.
  (** After sending answers the thread does not go on with a batch half built. *)
  Definition sends_on (t : zphase) : Prop := match t with ZSend _ _ next => match next with ZProc _ _ _ | ZDrain _ | ZSend _ _ _ => False | _ => True end | _ => True end.
  Lemma zserves_sends s h v vs tr : zserves s h (v :: vs) tr -> sends_on (z_thread v).
  Proof.
    intros H. remember (v :: vs) as l eqn:El. revert v vs El. induction H as [|v vs tr ol v' H IH Hst]; intros w ws El; injection El as <- <-; [exact I|].
    specialize (IH _ _ eq_refl). destruct Hst; cbn; try exact IH; try exact I.
    - destruct (z_thread v); try discriminate H0; injection H0 as <-; exact I.
    - destruct (z_thread v); try discriminate H0; injection H0 as <- <-; exact I.
    - rewrite H0 in IH. exact IH.
    - rewrite H0 in IH. cbn in IH. destruct next; try contradiction; exact I.
  Qed.

  (** *** One step towards rest *)
  Definition eases (v : wsrv) : Prop :=
    exists ol v', wstep v ol v' /\ fine (MP (z_sys (w_z v))) (MP (z_sys (w_z v'))) /\ z_works (w_z v) ol (w_z v') /\ room_for (w_z v') /\
      w_rpcs v' = w_rpcs v /\ w_lost v' = w_lost v /\ z_seen (w_z v') = z_seen (w_z v).
  (** A step of the threads that announces nothing. *)
  Lemma eases_by v ol z : z_works (w_z v) ol z -> match ol with Some l => reader_of l = None | None => True end -> (forall h next, z_thread (w_z v) <> ZSend [] (Some h) next) ->
    fine (MP (z_sys (w_z v))) (MP (z_sys z)) -> room_for z -> z_seen z = z_seen (w_z v) -> eases v.
  Proof.
    intros [Hz Hw] Hl Hs Hfine Hr Hn. exists ol, (w_set_z z v). split; [|split; [exact Hfine|split; [split; assumption|auto]]]. apply W_writer; [exact Hz| |].
    - intros l i -> E. congruence.
    - intros h next E. now destruct (Hs h next).
  Qed.
  Lemma events_cons r rs : events_in (r :: rs) = nlen (rq_events r) + events_in rs.
  Proof. unfold events_in, nlen. cbn. rewrite app_length. lia. Qed.
  Lemma eases_one v sy : minv false (MP (z_sys (w_z v))) sy -> z_ok (z_thread (w_z v)) (z_pipe (w_z v)) -> sends_on (z_thread (w_z v)) -> room_for (w_z v) ->
    at_ease v \/ eases v.
  Proof.
    intros Hi Hok Hson Hroom.
    pose proof (fine_same v sy Hi) as Hsame. destruct (minv_quiet hash caching _ _ Hi) as [Hidle Hnf].
    destruct (z_thread (w_z v)) as [|id r|items id r|items|items| | |todo h next|] eqn:Et.
    all: try (left; split; [right; exact Hok|rewrite Et; discriminate]).
    - (* ZProc *) destruct (l_fly (z_pipe (w_z v))) as [f|] eqn:Ef; [|left; split; [left; exact Ef|rewrite Et; discriminate]]. right.
      unfold room_for in Hroom. rewrite Et in Hroom. destruct Hroom as (R1 & R2 & R3). unfold to_come in R1, R2. rewrite Et in R1, R2. cbn [app] in R1, R2. apply Forall_cons in R1 as [R1 R1']. rewrite events_cons in R2. cbn in Hok.
      destruct (z_sys (w_z v)) as [d p pi] eqn:Es. unfold z_pipe in *. rewrite Es in *. cbn [s_pipe s_disk s_proc] in *.
      destruct (building d p pi sy _ _ r Hi R3 Hok R1 ltac:(lia)) as (Hwf & a & w & Ep & Ha & Hw).
      eapply (eases_by v (Some LTau)).
      + split; [eapply (Z_process _ _ _ _ _ _ _ (w_z v) items id r a); rewrite ?Es; [exact Et|eapply L_request; [exact Hok|exact Hwf|exact Ep|]|reflexivity]|].
        * destruct a; [exact I|now apply Ha].
        * left. cbn. rewrite Et. discriminate.
      + reflexivity.
      + rewrite Et. discriminate.
      + cbn [z_sys z_set_sys]. rewrite Es. apply fine_plain; [intros f' E'; cbn in E'; apply Hnf; congruence|intros f' E' _; exact E'|reflexivity|intros _ E; discriminate E].
      + unfold room_for, to_come, z_pipe. cbn [z_thread z_set_sys z_set_thread z_sys s_pipe z_queue app]. split; [exact R1'|]. split; [cbn; lia|exact R3].
      + reflexivity.
    - (* ZDrain *) destruct (l_fly (z_pipe (w_z v))) as [f|] eqn:Ef; [|left; split; [left; exact Ef|rewrite Et; discriminate]]. right.
      unfold room_for in Hroom. rewrite Et in Hroom. destruct Hroom as (R1 & R2 & R3). unfold to_come in R1, R2. rewrite Et in R1, R2. cbn [app] in R1, R2. cbn in Hok. destruct Hok as [Hit Hok].
      destruct (z_sys (w_z v)) as [d p pi] eqn:Es. unfold z_pipe in *. rewrite Es in *. cbn [s_pipe s_disk s_proc] in *.
      assert (Hb : lstep (PSys d p pi) LTau (PSys d p (Pipeline.set_phase (PBuilt (map it_req items) (map it_ans items) None) pi))) by (apply L_built; [exact Hok|now destruct items]).
      assert (Hfi : fine (MP (PSys d p pi)) (MP (PSys d p (Pipeline.set_phase (PBuilt (map it_req items) (map it_ans items) None) pi)))) by (apply fine_plain; [intros f' E'; cbn in E'; apply Hnf; congruence|intros f' E' _; exact E'|reflexivity|intros _ E; discriminate E]).
      destruct (N.le_gt_cases max_events (total_events items)) as [Hm|Hm]; [|destruct (z_queue (w_z v)) as [|[id r|] q] eqn:Eq].
      + eapply (eases_by v (Some LTau)); [split; [eapply Z_full; rewrite ?Es; [exact Et|exact Hm|exact Hb|reflexivity]|left; cbn; rewrite Et; discriminate]|reflexivity|rewrite Et; discriminate| |exact I|reflexivity].
        cbn [z_sys z_set_sys]. rewrite Es. exact Hfi.
      + eapply (eases_by v (Some LTau)); [split; [eapply Z_empty; rewrite ?Es; [exact Et|exact Hm|exact Eq|exact Hb|reflexivity]|left; cbn; rewrite Et; discriminate]|reflexivity|rewrite Et; discriminate| |exact I|reflexivity].
        cbn [z_sys z_set_sys]. rewrite Es. exact Hfi.
      + eapply (eases_by v None); [split; [eapply Z_more; [exact Et|exact Hm|exact Eq]|left; cbn; rewrite Et; discriminate]|exact I|rewrite Et; discriminate| | |reflexivity].
        * cbn [z_sys z_set_queue z_set_thread]. rewrite Es. exact Hsame.
        * unfold room_for, to_come, z_pipe. cbn [z_thread z_set_queue z_set_thread z_sys z_queue app]. rewrite Es. split; [exact R1|]. split; [exact R2|exact R3].
      + eapply (eases_by v (Some LTau)); [split; [eapply Z_swallow; rewrite ?Es; [exact Et|exact Hm|exact Eq|exact Hb|reflexivity]|left; cbn; rewrite Et; discriminate]|reflexivity|rewrite Et; discriminate| |exact I|reflexivity].
        cbn [z_sys z_set_sys z_set_queue]. rewrite Es. exact Hfi.
    - (* ZBarrier *) destruct (l_fly (z_pipe (w_z v))) as [f|] eqn:Ef; [|left; split; [left; exact Ef|rewrite Et; discriminate]]. right. destruct Hok as (Hit & o & Hok).
      destruct (z_sys (w_z v)) as [d p pi] eqn:Es. unfold z_pipe in *. rewrite Es in *. cbn [s_pipe s_disk s_proc] in *.
      assert (Hph : match l_phase pi with PBuild _ _ => False | _ => True end) by (rewrite Hok; exact I).
      assert (Hfi : forall d' p' x, p_readers p' = p_readers p -> (forall b, x <> IFailed b) -> fine (MP (PSys d p pi)) (MP (PSys d' p' (set_fly (Some (set_io x f)) pi)))).
      { intros d' p' x Hr Hx. apply fine_plain; [|intros f' E E'; cbn in E; injection E as <-; now destruct (Hx false)|exact Hr|intros _ _ E; discriminate E].
        intros f' E. cbn in E. injection E as <-. apply Hx. }
      assert (Hio : forall d' x, writing (y_io f) = true -> y_io f <> x -> (forall b, x <> IFailed b) -> lstep (PSys d p pi) LTau (PSys d' p (set_fly (Some (set_io x f)) pi)) -> eases v).
      { intros d' x Hw Hx Hb Hl. eapply (eases_by v (Some LTau)).
        - split; [eapply (Z_io _ _ _ _ _ _ _ (w_z v) f x); unfold z_pipe; rewrite ?Es; try eassumption; reflexivity|].
          right. unfold z_pipe. cbn. rewrite Es. cbn. rewrite Ef. intros E. injection E as E. apply (f_equal y_io) in E. cbn in E. congruence.
        - reflexivity.
        - rewrite Et. discriminate.
        - cbn [z_sys z_set_sys]. rewrite Es. now apply Hfi.
        - unfold room_for. cbn [z_thread z_set_sys]. rewrite Et. exact I.
        - reflexivity. }
      destruct (y_io f) as [[|[q b] todo]| | | | |hdr] eqn:Ey.
      + eapply (Hio (d_synced d) IHeader); [reflexivity|discriminate|discriminate|]. now apply L_sync.
      + eapply (Hio _ (IPages todo)); [reflexivity| |discriminate|eapply L_page; [reflexivity|eassumption..]]. intros E. injection E as E. apply (f_equal length) in E. cbn in E. lia.
      + eapply (Hio _ ISync); [reflexivity|discriminate|discriminate|]. now apply L_header.
      + eapply (Hio _ IDone); [reflexivity|discriminate|discriminate|]. now apply L_done.
      + eapply (eases_by v (Some LTau)).
        * split; [eapply (Z_cached _ _ _ _ _ _ _ (w_z v) f); unfold z_pipe; rewrite ?Es, ?Et; [discriminate|exact Ef|exact Ey|eapply L_cached; eassumption|reflexivity]|].
          right. unfold z_pipe. cbn. rewrite Es. cbn. rewrite Ef. intros E. injection E as E. apply (f_equal y_io) in E. cbn in E. congruence.
        * reflexivity.
        * rewrite Et. discriminate.
        * cbn [z_sys z_set_sys]. rewrite Es. apply Hfi; [destruct caching; reflexivity|discriminate].
        * unfold room_for. cbn [z_thread z_set_sys]. rewrite Et. exact I.
        * reflexivity.
      + eapply (eases_by v (Some (LCommit (y_done f) (y_ans f)))).
        * split; [eapply (Z_acked _ _ _ _ _ _ _ (w_z v) f); unfold z_pipe; rewrite ?Es, ?Et; [reflexivity|exact Ef|eapply L_acked; eassumption]|].
          right. unfold z_pipe. cbn. rewrite Es. cbn. rewrite Ef. discriminate.
        * reflexivity.
        * rewrite Et. discriminate.
        * cbn [z_sys z_set_sys]. rewrite Es. apply fine_plain; [discriminate..|unfold pin_header; destruct ((y_header f).1 =? 0); reflexivity|]. intros _ E. cbn in E. rewrite Hok in E. discriminate E.
        * exact I.
        * reflexivity.
      + destruct hdr; [now destruct (Hnf f eq_refl)|]. destruct (failed_writer d p pi sy f Hi Ef Ey) as (w & Ew).
        eapply (eases_by v (Some (LAbort (y_done f ++ match l_phase pi with PBuilt done _ _ => done | _ => [] end)))).
        * split; [eapply (Z_failed _ _ _ _ _ _ _ (w_z v) f false items ZFetch EIo EIo); unfold z_pipe; rewrite ?Es, ?Et; [reflexivity|exact Ef|exact Ey|eapply (L_failed _ _ _ _ _ _ d p pi f false); [exact Ef|exact Ey|apply ailing_refl|exact Hph]|apply rollback_pipe|discriminate..]|].
          right. unfold z_pipe. cbn. rewrite Es. cbn. rewrite Ef. now rewrite (proj2 (rollback_pipe _ _ _)).
        * reflexivity.
        * rewrite Et. discriminate.
        * cbn [z_sys z_set_sys]. rewrite Es. apply fine_plain; [rewrite (proj2 (rollback_pipe _ _ _)); discriminate..|reflexivity|]. intros _ _ _. unfold rollback. rewrite Ew. split; reflexivity.
        * exact I.
        * reflexivity.
    - (* ZSend *) assert (Hnx : room_for (z_set_thread next (w_z v))) by (unfold room_for; cbn; cbn in Hson; destruct next; try contradiction; exact I).
      destruct todo as [|[id a] todo].
      + destruct h as [hd|].
        * right. destruct (notify_same (w_set_z (z_publish (Some hd) (z_set_thread next (w_z v))) v)) as (N1 & N2 & _ & N4 & _).
          eexists None, _. split; [eapply W_publish; exact Et|]. rewrite N1, N2, N4. cbn [w_z w_set_z w_rpcs w_lost]. split; [exact Hsame|]. split; [|split; [exact Hnx|auto]].
          split; [eapply Z_publish; exact Et|]. left. cbn. rewrite Et. intros E. apply (f_equal t_weight) in E. cbn in E. lia.
        * right. eapply (eases_by v None); [split; [eapply Z_publish; exact Et|]|exact I|rewrite Et; discriminate|exact Hsame|exact Hnx|reflexivity].
          left. cbn. rewrite Et. intros E. apply (f_equal t_weight) in E. cbn in E. lia.
      + right. eapply (eases_by v None); [split; [eapply Z_send; exact Et|]|exact I|rewrite Et; discriminate|exact Hsame|exact I|reflexivity].
        left. cbn. rewrite Et. intros E. injection E as E. apply (f_equal length) in E. cbn in E. lia.
  Qed.

  (** ** C100 *)
  (** Steps of the writer thread and of the I/O thread, with no new request, lead to a point where no batch is being built on one that is still
      being written and no commit is to be announced. *)
  Theorem pipelined_comes_to_ease v vs tr : going (v :: vs) tr -> room_for (w_z v) ->
    exists v' vs' tr' l, going (v' :: vs') tr' /\ v' :: vs' = l ++ v :: vs /\ at_ease v' /\ w_rpcs v' = w_rpcs v /\ w_lost v' = w_lost v /\ z_seen (w_z v') = z_seen (w_z v) /\
      Forall (fun w => w_rpcs w = w_rpcs v) l.
  Proof.
    assert (Hwf : well_founded z_less) by (apply wf_slexprod; apply lt_wf).
    remember (z_left (w_z v)) as n eqn:En. revert v vs tr En. induction (Hwf n) as [n _ IH]. intros v vs tr -> [Hg Ha] Hr.
    destruct (wserves_inv hash order ford caching max_events Hord Hford _ _ _ _ _ _ Hrun Hg Ha) as (sy & Hi & _).
    destruct (wserves_z hash order ford caching max_events _ _ _ _ _ _ Hg Ha) as (zs & Hz & _).
    destruct (zserves_accounts dps hash order ford caching max_events _ _ _ _ _ Hp Hf Hz) as (P & _ & _ & _ & _ & _ & _ & A7 & A8).
    destruct (eases_one v sy Hi A7 (zserves_sends _ _ _ _ _ Hz) Hr) as [He|(ol & v1 & Hst & Hfi & Hw & Hr1 & E1 & E2 & E3)].
    - exists v, vs, tr, []. repeat split; try assumption; [apply He|apply He|constructor].
    - assert (Hg1 : going (v1 :: v :: vs) (tr ++ match ol with Some l => [l] | None => [] end)) by (split; [eapply wserves_step; eassumption|split; assumption]).
      destruct (IH _ (zworks_less dps hash order ford caching max_events _ _ _ Hw A7 A8) v1 _ _ eq_refl Hg1 Hr1) as (v' & vs' & tr' & l & Hg' & El & He & F1 & F2 & F3 & F4).
      exists v', vs', tr', (l ++ [v1]). split; [exact Hg'|]. split; [rewrite El, <- app_assoc; reflexivity|]. split; [exact He|]. split; [congruence|]. split; [congruence|]. split; [congruence|].
      apply Forall_app. split; [|constructor; [exact E1|constructor]]. eapply Forall_impl; [exact F4|]. cbn. congruence.
  Qed.
  (** Thus at any time the server can go on, with no new request, to the end of a read whose client stays ... *)
  Theorem pipelined_read_ends_anyway v vs tr k r x : going (v :: vs) tr -> room_for (w_z v) -> w_rpcs v !! k = Some (QRd r x) -> k ∉ w_lost v ->
    match x with QLoop | QBorrow | QCall | QOpen | QRead (Ok _) => True | _ => False end ->
    exists v' vs' tr' l r' s, going (v' :: vs') tr' /\ v' :: vs' = l ++ v :: vs /\ z_seen (w_z v') = z_seen (w_z v) /\
      w_rpcs v' !! k = Some (QRd r' QEnd) /\ asked (QRd r' QEnd) = asked (QRd r x) /\
      (exists w y, w ∈ v' :: vs' /\ w_rpcs w !! k = Some y /\ unsent y /\ mshows (w_sys w) s) /\
      concat (map fst (rr_out r')) = spec_read (s_hist s) (rr_q r) (rr_start r) (rr_bw r) (rr_limit r).
  Proof.
    intros Hg Hr Hx Hl Hph. destruct (pipelined_comes_to_ease v vs tr Hg Hr) as (v1 & vs1 & tr1 & l1 & Hg1 & El1 & He & E1 & E2 & E3 & _). rewrite <- E1 in Hx. rewrite <- E2 in Hl.
    destruct (pipelined_read_ends hash order ford caching max_events Hord Hford tr0 s0 h0 Hrun _ _ _ _ _ _ Hg1 He Hx Hl Hph) as (v' & vs' & tr' & l & r' & s & Hg' & El & (T & _) & H).
    exists v', vs', tr', (l ++ l1), r', s. split; [exact Hg'|]. split; [rewrite El, El1, app_assoc; reflexivity|]. split; [rewrite T; exact E3|]. exact H.
  Qed.
  (** ... and to the delivery of all that a subscription asks for and is committed. *)
  Theorem pipelined_subscription_catches_up_anyway v vs tr k s x st : going (v :: vs) tr -> room_for (w_z v) -> w_rpcs v !! k = Some (QSub s x) -> k ∉ w_lost v -> mshows (w_sys v) st ->
    match x with QEnd | QGone | QFail _ | QRead (Err _) => False | _ => True end ->
    exists v' vs' tr' l s' st', going (v' :: vs') tr' /\ v' :: vs' = l ++ v :: vs /\ z_seen (w_z v') = z_seen (w_z v) /\
      w_rpcs v' !! k = Some (QSub s' QWait) /\ mshows (w_sys v') st' /\ extends st st' /\
      concat (su_out s') = filter (fun e => (match su_after s with Some a => a < e.1 | None => True end) /\ q_matches (su_q s) e.2) (s_hist st').
  Proof.
    intros Hg Hr Hx Hl Hst Hph. destruct (pipelined_comes_to_ease v vs tr Hg Hr) as (v1 & vs1 & tr1 & l1 & Hg1 & El1 & He & E1 & E2 & E3 & _). rewrite <- E1 in Hx. rewrite <- E2 in Hl.
    destruct (going_shown hash order ford caching max_events Hord Hford tr0 s0 h0 Hrun _ _ _ Hg1) as (st1 & Hst1 & _).
    destruct (pipelined_subscription_catches_up hash order ford caching max_events Hord Hford tr0 s0 h0 Hrun _ _ _ _ _ _ _ Hg1 He Hx Hl Hst1 Hph) as (v' & vs' & tr' & l & s' & Hg' & El & (T & _) & Hx' & _ & _ & (st' & Hst' & Eh) & Hout).
    exists v', vs', tr', (l ++ l1), s', st'. split; [exact Hg'|]. split; [rewrite El, El1, app_assoc; reflexivity|]. split; [rewrite T; exact E3|]. split; [exact Hx'|]. split; [exact Hst'|].
    split; [|rewrite Eh; exact Hout].
    eapply (w_past_extends hash order ford caching max_events Hord Hford tr0 s0 h0 Hrun); [exact Hg'| |exact Hst|exact Hst']. rewrite El, El1, app_assoc. apply elem_of_app. right. left.
  Qed.
End ease.

(** Three events are stored and a fourth is being written.  A batch is being built on it: it holds one request, another is being processed and a third
    waits.  Client 7 reads and client 9 has a subscription. *)
Definition k_script : list wact := i_script ++ [UZ (XArrive 2 (g_cond None)); UZ (XArrive 3 f_one); UZ (XArrive 4 f_one)] ++ u_thread 4.
Definition k_fits (w : writer) (r : request) : bool := bool_decide (req_wf' w r).
Lemma k_fits_ok w r : k_fits w r = true -> rq_ok r.
Proof. intros H. apply bool_decide_eq_true in H. apply req_wf'_ok in H as (H1 & H2 & H3 & H4 & _). repeat split; assumption. Qed.
Definition k_check (v : wsrv) (vs : list wsrv) : bool :=
  match w_rpcs v !! 7%nat, w_rpcs v !! 9%nat, w_lost v with Some (QRd r QLoop), Some (QSub su QLoop), [] =>
    match rr_out r, su_out su with [], [] => true | _, _ => false end | _, _, _ => false end &&
  match z_thread (w_z v), l_fly (z_pipe (w_z v)), map snd (queued (z_queue (w_z v))) with
  | ZProc [_] _ r, Some f, [r'] => writing (y_io f) && k_fits (l_w (z_pipe (w_z v))) r && k_fits (l_w (z_pipe (w_z v))) r' && (w_next_pos (l_w (z_pipe (w_z v))) + events_in [r; r'] <? U64)
  | _, _, _ => false end &&
  match l_phase (z_pipe (w_z v)) with PBuild _ _ => true | _ => false end.
Example pipelined_ease_example : exists v vs tr r su, w_going true 10 (v :: vs) tr /\ room_for (w_z v) /\ ~ at_ease v /\
  w_rpcs v !! 7%nat = Some (QRd r QLoop) /\ rr_out r = [] /\ 7%nat ∉ w_lost v /\ w_rpcs v !! 9%nat = Some (QSub su QLoop) /\ su_out su = [] /\ 9%nat ∉ w_lost v /\
  (exists v1 vs1 tr1 r1, w_going true 10 (v1 :: vs1) tr1 /\ w_rpcs v1 !! 7%nat = Some (QRd r1 QEnd)) /\
  exists v2 vs2 tr2 su2, w_going true 10 (v2 :: vs2) tr2 /\ w_rpcs v2 !! 9%nat = Some (QSub su2 QWait).
Proof.
  destruct (w_found true 10 k_script k_check) as (v & vs & tr & H & HP); [vm_compute; reflexivity|].
  unfold k_check in HP. apply andb_prop in HP as [HP P3]. apply andb_prop in HP as [P1 P2].
  destruct (w_rpcs v !! 7%nat) as [[r []|]|] eqn:E7; try discriminate P1. destruct (w_rpcs v !! 9%nat) as [[|su []]|] eqn:E9; try discriminate P1. destruct (w_lost v) eqn:El; [|discriminate P1].
  destruct (rr_out r) eqn:Eo; [|discriminate P1]. destruct (su_out su) eqn:Es; [|discriminate P1]. clear P1.
  destruct (z_thread (w_z v)) as [| |[|it [|]] id rq| | | | | |] eqn:Et; try discriminate P2. destruct (l_fly (z_pipe (w_z v))) as [f|] eqn:Ef; [|discriminate P2].
  destruct (map snd (queued (z_queue (w_z v)))) as [|rq' [|]] eqn:Eq; try discriminate P2. apply andb_prop in P2 as [P2 P7]. apply andb_prop in P2 as [P2 P6]. apply andb_prop in P2 as [P4 P5].
  apply N.ltb_lt in P7. apply k_fits_ok in P5, P6.
  assert (Hr : room_for (w_z v)).
  { unfold room_for, to_come. rewrite Et, Eq. cbn [app]. split; [apply Forall_cons_2; [exact P5|apply Forall_cons_2; [exact P6|constructor]]|]. split; [exact P7|]. rewrite Ef. intros f' [= <-] E. rewrite E in P4. discriminate P4. }
  assert (Hne : ~ at_ease v). { intros [[E|E] _]; [congruence|]. rewrite E in P3. discriminate P3. }
  assert (Hl : forall k : nat, k ∉ w_lost v) by (rewrite El; intros k; apply not_elem_of_nil).
  destruct (w_started true) as (S1 & S2 & S3).
  destruct (pipelined_read_ends_anyway f_hash (fun l => l) x_ford true 10 x_ord x_ford_ok _ _ _ S1 S2 S3 _ _ _ _ _ _ H Hr E7 (Hl _) I) as (v1 & vs1 & tr1 & l1 & r1 & s & G1 & _ & _ & X1 & _).
  destruct (going_shown f_hash (fun l => l) x_ford true 10 x_ord x_ford_ok _ _ _ S1 _ _ _ H) as (st & Hst & _).
  destruct (pipelined_subscription_catches_up_anyway f_hash (fun l => l) x_ford true 10 x_ord x_ford_ok _ _ _ S1 S2 S3 _ _ _ _ _ _ _ H Hr E9 (Hl _) Hst I) as (v2 & vs2 & tr2 & l2 & su2 & st2 & G2 & _ & _ & X2 & _).
  exists v, vs, tr, r, su. repeat (split; [assumption || apply Hl|]). split; [eauto 10|eauto 10].
Qed.
Print Assumptions pipelined_comes_to_ease.
Print Assumptions pipelined_read_ends_anyway.
Print Assumptions pipelined_subscription_catches_up_anyway.
