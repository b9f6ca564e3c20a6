(** Property C87: a database that has just been created. *)
From Verif Require Import Entry MvccProofs SpecProofs StoreProofs Exec PropsStore PropsFindings.
Local Open Scope N_scope.

Section props.
  Context (ps : N) (hash : bytes -> bytes) (order : list bytes -> list bytes) (ford : gset N -> list N) (caching : bool).
  Notation estep := (estep 16 ps hash order ford caching).
  Notation esteps := (esteps 16 ps hash order ford caching).
  Notation step := (step 16 ps hash order ford caching).
  Notation steps := (steps 16 ps hash order ford caching).
  Notation run := (run ps hash order ford caching).
  Definition erun (tr : list label) (z : esys) : Prop := esteps no_file tr z.

  (** Labels of the steps of the store: all but the storing of the name, which is silent. *)
  Inductive within : list label -> list label -> Prop :=
    | w_nil : within [] []
    | w_same l t t' : within t t' -> within (t ++ [l]) (t' ++ [l])
    | w_tau t t' : within t t' -> within t (t' ++ [LTau]).

  (** Once its name is stored the file stays, and what happens is what happens in Mvcc.v. *)
  Theorem named_stays y tr z : esteps (ESys (Some y) true) tr z -> exists y', z = ESys (Some y') true /\ steps y tr y'.
  Proof.
    intros H. remember (ESys (Some y) true) as z0 eqn:E. induction H as [z|z tr z' l z'' H IH Hs].
    - subst z. exists y. split; [reflexivity|constructor].
    - destruct (IH E) as (y1 & -> & H1). inversion Hs as [|? ? ? y2 H2| |]; subst. exists y2. split; [now destruct l|]. econstructor; eassumption.
  Qed.
  (** While there is a file, everything since its creation is an execution of the store. *)
  Theorem entry_refines tr z y b : erun tr z -> z = ESys (Some y) b -> exists t1 t2 t, tr = t1 ++ LOpen :: t2 /\ within t t2 /\ run t y.
  Proof.
    unfold erun. intros H. revert y b. remember no_file as z0 eqn:E. induction H as [z|z tr z' l z'' H IH Hs]; intros y b Ez; [subst; discriminate Ez|].
    destruct Hs as [b0|y0 b0 l y1 Hs|y0|y0 l y1 reqs Hs _]; injection Ez as <- <- || discriminate Ez.
    - exists tr, [], []. split; [reflexivity|]. split; [constructor|constructor].
    - destruct (IH E _ _ eq_refl) as (t1 & t2 & t & -> & Hw & Hr). exists t1, (t2 ++ [l]), (t ++ [l]). split; [now rewrite <- app_assoc|].
      split; [now constructor|]. econstructor; eassumption.
    - destruct (IH E _ _ eq_refl) as (t1 & t2 & t & -> & Hw & Hr). exists t1, (t2 ++ [LTau]), t. split; [now rewrite <- app_assoc|].
      split; [now constructor|exact Hr].
  Qed.
  (** The file is lost in a crash of the machine only, before its name was stored: so never by the end of the process. *)
  Theorem entry_lost z l z' : estep z l z' -> is_Some (e_file z) -> e_file z' = None -> e_named z = false /\ exists reqs, l = LCrash reqs.
  Proof. intros Hs [y Hy] Hn. destruct Hs; cbn in *; try discriminate. split; [reflexivity|eauto]. Qed.
End props.

(** ** C87: a new database loses what it has acknowledged *)
Notation n_run := (erun 4096 f_hash (fun l => l) x_ford true).
Lemma n_lift s tr b : forall y, esteps 16 4096 f_hash (fun l => l) x_ford true s tr (ESys (Some y) b) -> forall tr2 y2, Mvcc.steps 16 4096 f_hash (fun l => l) x_ford true y tr2 y2 ->
  Forall (fun l => match l with LCrash _ => False | _ => True end) tr2 -> esteps 16 4096 f_hash (fun l => l) x_ford true s (tr ++ tr2) (ESys (Some y2) b).
Proof.
  intros y H tr2 y2 H2. induction H2 as [y|y tr2 y2 l y3 H2 IH Hs]; intros Hf; [now rewrite app_nil_r|]. apply Forall_app in Hf as [Hf Hl]. inversion Hl as [|? ? Hl1 _]; subst.
  rewrite app_assoc. econstructor; [now apply IH|]. pose proof (E_step 16 4096 f_hash (fun l => l) x_ford true y2 b l y3 Hs) as Hx. assert (match l with LCrash _ => true | _ => b end = b) as E by (destruct l; try reflexivity; exact (False_ind _ Hl1)).
  now rewrite E in Hx.
Qed.
(** A new database; one event is appended, synced and acknowledged; the machine crashes; the server starts again: the store is empty. *)
Theorem new_database_survives_refuted : exists tr tr' y, n_run (LOpen :: tr ++ [LCommit [f_one] [Ok 1]] ++ tr' ++ [LOpen]) (ESys (Some y) false) /\
  Forall (fun l => l = LTau \/ l = LCrash []) (tr ++ tr') /\ shows f_hash (fun l => l) y spec_empty /\ (spec_batch 4096 spec_empty [f_one]).1 = [Ok 1].
Proof.
  destruct (f_runs (x_batch [f_one] 3 ++ [ADone]) (replicate 8 LTau ++ [LCommit [f_one] [Ok 1]])) as (y & H & _); [vm_compute; reflexivity|].
  exists (replicate 8 LTau), [LCrash []], (init_sys 16 4096).
  split; [|split; [repeat (constructor; [auto|]); constructor|split; [|vm_compute; reflexivity]]].
  - assert (esteps 16 4096 f_hash (fun l => l) x_ford true no_file [LOpen] (ESys (Some (init_sys 16 4096)) false)) as H0.
    { apply (esteps_snoc _ _ _ _ _ _ _ [] no_file); [constructor|]. unfold no_file. constructor. }
    pose proof (n_lift _ _ _ _ H0 _ _ H ltac:(repeat (constructor; [exact I|]); constructor)) as H1.
    assert (exists d p, y = Sys d (Some p) /\ p_writer p = WIdle) as (d & p & -> & Hw).
    { apply steps_snoc_inv in H as (y1 & _ & Hs). inversion Hs as [d1 p1 l1 d2 p2 Hp| | | |]; subst. exists d2, p2. split; [reflexivity|].
      inversion Hp; subst. unfold pin_header. destruct (_ =? _); reflexivity. }
    unfold erun. replace (LOpen :: replicate 8 LTau ++ [LCommit [f_one] [Ok 1]] ++ [LCrash []] ++ [LOpen])
      with ((([LOpen] ++ replicate 8 LTau ++ [LCommit [f_one] [Ok 1]]) ++ [LCrash []]) ++ [LOpen]) by reflexivity.
    econstructor; [econstructor; [exact H1|]|apply E_create].
    eapply (E_lost _ _ _ _ _ _ _ _ (Sys (Disk (d_cur d) (fun q c => c = d_cur d q) (fun _ => false)) None) []); [|reflexivity].
    pose proof (Y_crash 16 4096 f_hash (fun l => l) x_ford true d p (Disk (d_cur d) (fun q c => c = d_cur d q) (fun _ => false))) as Hc.
    rewrite Hw in Hc. apply Hc.
    exists (d_cur d). split; [|reflexivity].
    destruct (run_inv 4096 f_hash (fun l => l) x_ford true f_ps f_ps32 x_ord x_ford_ok _ _ H) as (sy & _ & (g & Hi) & _). exact (u_cur _ _ _ _ _ _ _ _ Hi).
  - apply (inv_shows 4096 f_hash (fun l => l) x_ford true f_ps f_ps32 x_ord x_ford_ok _ spec_init); [exact (init_inv 4096 f_hash (fun l => l) x_ford true f_ps f_ps32 x_ord x_ford_ok)|now eexists].
Qed.
(** The same, had the name been stored: the event is there again. *)
Lemma n_lift_named s tr y : esteps 16 4096 f_hash (fun l => l) x_ford true s tr (ESys (Some y) true) -> forall tr2 y2, Mvcc.steps 16 4096 f_hash (fun l => l) x_ford true y tr2 y2 ->
  esteps 16 4096 f_hash (fun l => l) x_ford true s (tr ++ tr2) (ESys (Some y2) true).
Proof.
  intros H tr2 y2 H2. induction H2 as [y|y tr2 y2 l y3 H2 IH Hs]; [now rewrite app_nil_r|]. rewrite app_assoc. econstructor; [now apply IH|].
  pose proof (E_step 16 4096 f_hash (fun l => l) x_ford true y2 true l y3 Hs) as Hx. assert (match l with LCrash _ => true | _ => true end = true) as E by now destruct l.
  now rewrite E in Hx.
Qed.
Lemma n_found s tr (P : sys -> bool) : option_map fst (f_exec s) = Some tr -> match f_exec s with Some (_, y) => P y | None => false end = true ->
  exists y, n_run (([LOpen] ++ [LTau]) ++ tr) (ESys (Some y) true) /\ P y = true.
Proof.
  intros H1 H2. destruct (f_runs s tr H1) as (y & H & E). rewrite E in H2. exists y. split; [|exact H2]. eapply n_lift_named; [|exact H].
  econstructor; [|apply E_name]. apply (esteps_snoc _ _ _ _ _ _ _ [] no_file); [constructor|]. unfold no_file. constructor.
Qed.
Example named_survives : exists tr y p e, n_run tr (ESys (Some y) true) /\ LCommit [f_one] [Ok 1] ∈ tr /\ LCrash [] ∈ tr /\ y_proc y = Some p /\
  umadb_read f_hash (fun l => l) (fetch 16 (p_cache p) (y_disk y)) (latest p).2 [] None false None false = Ok ([e], Some 1).
Proof.
  destruct (n_found (x_batch [f_one] 3 ++ [ADone; ACrash; AOpen]) (replicate 8 LTau ++ [LCommit [f_one] [Ok 1]; LCrash []; LOpen])
    (fun y => match y_proc y with
     | Some p => match umadb_read f_hash (fun l => l) (fetch 16 (p_cache p) (y_disk y)) (latest p).2 [] None false None false with
                 | Ok ([_], Some 1) => true | _ => false end
     | None => false end)) as (y & H & HP); [vm_compute; reflexivity|vm_compute; reflexivity|].
  destruct (y_proc y) as [p|] eqn:Hy; [|discriminate]. cases. eexists _, y, p, _. split; [exact H|]. split; [set_solver|]. split; [set_solver|]. split; [exact Hy|eassumption].
Qed.

Print Assumptions named_stays.
Print Assumptions entry_refines.
Print Assumptions entry_lost.
Print Assumptions new_database_survives_refuted.
