(** C48, continued: what a client is told when the server shuts down before the first batch of its read has been sent. *)
From Verif Require Import StoreProofs SpecProofs Exec PropsStore PropsFindings PropsCrash Server ServerLive ServerExec PropsServer PropsWire ClientProofs Client PropsClient.
Local Open Scope N_scope.

(** The task of the read is at the head of its loop (umadb-server/src/lib.rs:502-505), or reads its first and only batch (544-547): it
    ends without having sent anything.  The client is told, without an error, that there are no events and that the store is empty. *)
Definition e_unread : list sact := [VArrive 0 e_three] ++ e_batch 3 ++ [VRead 7 [] None false None None].
Theorem emptiness_true_refuted : exists v vs tr r s, e_serves (v :: vs) tr /\ v_rpcs v !! 7%nat = Some (QRd r QGone) /\
  rr_q r = [] /\ rr_start r = None /\ rr_bw r = false /\ rr_limit r = None /\ shows f_hash (fun l => l) (v_sys v) s /\ map fst (s_hist s) = [1; 2; 3] /\
  let stream := map (fun o => arrives (response_to_pb o)) (rr_out r) in
  (collect_with_head (new_eng stream)).1 = Ok ([], None) /\ (ar_collect_with_head (new_ar stream)).1 = Ok ([], None).
Proof.
  destruct (e_found e_unread (fun v _ => match v_rpcs v !! 7%nat with
    | Some (QRd r QLoop) => match rr_q r, rr_start r, rr_bw r, rr_limit r, rr_out r with [], None, false, None, [] => true | _, _, _, _, _ => false end &&
       match umadb_read f_hash (fun l => l) (fetch 16 (p_cache (v_proc v)) (v_disk v)) (latest (v_proc v)).2 [] None false None false with Ok (l, _) => bool_decide (map fst l = [1; 2; 3]) | Err _ => false end
    | _ => false end)) as (v & vs & tr & H & HP); [vm_compute; reflexivity|].
  destruct (v_rpcs v !! 7%nat) as [[r []|]|] eqn:Eq; try discriminate. apply andb_prop in HP as [HP HR].
  assert (Hs := V_close 16 4096 f_hash (fun l => l) x_ford true 1000 v 7 (QRd r QLoop) Eq I). cbn [set_phase] in Hs.
  assert (H' := serves_step 16 4096 f_hash (fun l => l) x_ford true 1000 _ _ _ _ _ _ _ _ H Hs). cbn [app] in H'. rewrite app_nil_r in H'.
  set (v' := v_set_rpc 7 (QRd r QGone) v) in *. assert (Eq' : v_rpcs v' !! 7%nat = Some (QRd r QGone)) by apply lookup_insert.
  destruct (serves_inv 4096 f_hash (fun l => l) x_ford true 1000 f_ps f_ps32 x_ord x_ford_ok _ _ _ _ _ _ _ e_start H') as (sy & Hi & _).
  assert (Hsh : shows f_hash (fun l => l) (v_sys v') (sp_cur sy)) by (eapply inv_shows_v; [exact f_ps|exact f_ps32|exact x_ord|exact x_ford_ok|exact Hi]).
  exists v', (v :: vs), tr, r, (sp_cur sy). split; [exact H'|]. split; [exact Eq'|].
  destruct (rr_q r) eqn:E1; [|discriminate HP]. destruct (rr_start r) eqn:E2; [discriminate HP|]. destruct (rr_bw r) eqn:E3; [discriminate HP|]. destruct (rr_limit r) eqn:E4; [discriminate HP|]. destruct (rr_out r) eqn:E5; [|discriminate HP].
  do 4 (split; [reflexivity|]). split; [exact Hsh|]. split; [|split; reflexivity].
  destruct Hsh as (p & Hp & Hsh & _). specialize (Hsh [] None false None false). rewrite read_all in Hsh.
  assert (p = v_proc v) as -> by (cbn in Hp; congruence). change (y_disk (v_sys v')) with (v_disk v) in Hsh. rewrite Hsh in HR. now apply bool_decide_eq_true in HR.
Qed.
Print Assumptions emptiness_true_refuted.
