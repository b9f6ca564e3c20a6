(** Properties C80 and C81: several processes started on one database path. *)
From Verif Require Import Locking PropsPipelined PropsCrash PropsFindings PropsStore Exec MvccProofs StoreProofs PageProofs.
Local Open Scope N_scope.

Section locking.
  Context (ps : N) (hash : bytes -> bytes) (order : list bytes -> list bytes) (ford : gset N -> list N) (caching : bool).
  Context (C : msys -> msys -> Prop).
  Notation mstep := (mstep 16 ps hash order ford caching).
  Notation msteps := (msteps 16 ps hash order ford caching).
  Notation wstep := (wstep 16 ps hash order ford caching C).
  Notation wsteps := (wsteps 16 ps hash order ford caching C).
  Notation csteps := (csteps 16 ps hash order ford caching C).

  Lemma ends_down s r s' : mstep s (LKill r) s' \/ mstep s (LCrash r) s' -> is_up s' = false.
  Proof.
    intros [H|H]; inversion H as [y l y' Hs| |d p l p' Hp| |t l t' Hl| | | |]; subst; try reflexivity.
    all: try (inversion Hs; subst; try reflexivity).
    all: try match goal with Hp : pstep _ _ _ _ _ _ _ _ _ _ _ |- _ => inversion Hp end.
    all: try match goal with Hl : lstep _ _ _ _ _ _ _ _ _ |- _ => inversion Hl; subst; match goal with Hp : pstep _ _ _ _ _ _ _ _ _ _ _ |- _ => inversion Hp | _ => idtac end end.
    all: match goal with Hh : (if ?hdr then _ else _) _ = _ |- _ => destruct hdr; discriminate end.
  Qed.

  (** *** At most one *)
  Definition one (w : world) : Prop :=
    (forall i j x y, v_procs w !! i = Some x -> v_procs w !! j = Some y -> has_lock x = true -> has_lock y = true -> i = j) /\
    ((exists s, v_file w = Data s /\ is_up s = true) <-> exists i, v_procs w !! i = Some Running).
  Lemma thread_up b d p : is_up (with_thread b d p) = true. Proof. now destruct b. Qed.
  Lemma rest_down f d : at_rest f = Some d -> forall s, f = Data s -> is_up s = false.
  Proof. intros H s ->. destruct s as [[d0 [p|]]| |]; try discriminate. reflexivity. Qed.
  Lemma set_other (m : gmap N lphase) i x j y : (<[i := x]> m) !! j = Some y -> (j = i /\ y = x) \/ (j <> i /\ m !! j = Some y).
  Proof. rewrite lookup_insert_Some. intros [[<- <-]|[H1 H2]]; [left; auto|right; auto]. Qed.
  Lemma set_lock (m : gmap N lphase) i x :
    (forall a b u v, m !! a = Some u -> m !! b = Some v -> has_lock u = true -> has_lock v = true -> a = b) ->
    (has_lock x = true -> (forall j u, m !! j = Some u -> has_lock u = true -> j = i)) ->
    forall a b u v, <[i := x]> m !! a = Some u -> <[i := x]> m !! b = Some v -> has_lock u = true -> has_lock v = true -> a = b.
  Proof.
    intros H Hx a b u v Ha Hb Hu Hv. apply set_other in Ha as [[-> ->]|[Na Ha]], Hb as [[-> ->]|[Nb Hb]]; auto.
    - symmetry. eapply Hx; eassumption.
    - eapply Hx; eassumption.
    - eapply H; eassumption.
  Qed.
  Lemma del_lock (m : gmap N lphase) i :
    (forall a b u v, m !! a = Some u -> m !! b = Some v -> has_lock u = true -> has_lock v = true -> a = b) ->
    forall a b u v, delete i m !! a = Some u -> delete i m !! b = Some v -> has_lock u = true -> has_lock v = true -> a = b.
  Proof. intros H a b u v Ha Hb. apply lookup_delete_Some in Ha as [_ Ha], Hb as [_ Hb]. eauto. Qed.
  Lemma run_other (m : gmap N lphase) i x y : m !! i = y -> y <> Some Running -> x <> Running -> (exists j, <[i := x]> m !! j = Some Running) <-> exists j, m !! j = Some Running.
  Proof.
    intros Hi Hy Hx. split; intros [j Hj].
    - apply set_other in Hj as [[-> Hj]|[_ Hj]]; [congruence|eauto].
    - exists j. rewrite lookup_insert_ne; [exact Hj|congruence].
  Qed.
  Lemma run_gone (m : gmap N lphase) i y : m !! i = Some y -> y <> Running -> (exists j, delete i m !! j = Some Running) <-> exists j, m !! j = Some Running.
  Proof.
    intros Hi Hy. split; intros [j Hj].
    - apply lookup_delete_Some in Hj as [_ Hj]. eauto.
    - exists j. apply lookup_delete_Some. split; [congruence|exact Hj].
  Qed.
  Lemma one_step w l w' : one w -> wstep w l w' -> one w'.
  Proof.
    intros [H1 H2] Hst. inversion Hst; subst; cbn [v_file v_procs] in *.
    - (* look *) split; cbn; [apply set_lock; [exact H1|discriminate]|]. rewrite H2, run_other; [reflexivity|eassumption|discriminate..].
    - (* create *) split; cbn; [apply set_lock; [exact H1|discriminate]|]. rewrite run_other by (try eassumption; congruence). rewrite <- H2.
      destruct f; split; intros (s9 & E & ?); try discriminate; eauto.
    - (* found *) split; cbn; [apply set_lock; [exact H1|discriminate]|]. rewrite H2, run_other by (try eassumption; congruence). reflexivity.
    - (* gone *) split; cbn; [now apply del_lock|]. rewrite H2, run_gone; [reflexivity|eassumption|discriminate].
    - (* lock *) split; cbn.
      + apply set_lock; [exact H1|]. intros _ j u Hj Hu. apply H0 in Hj. congruence.
      + rewrite H2, run_other by (try eassumption; congruence). reflexivity.
    - (* locked *) split; cbn; [now apply del_lock|]. rewrite H2, run_gone; [reflexivity|eassumption|discriminate].
    - (* made *) split; cbn.
      + apply set_lock; [exact H1|]. intros _ j u Hj Hu. eapply H1; eauto.
      + split; [intros _; exists i; apply lookup_insert|]. intros _. eexists. split; [reflexivity|apply thread_up].
    - (* opened *) split; cbn.
      + apply set_lock; [exact H1|]. intros _ j u Hj Hu. eapply H1; eauto.
      + split; [intros _; exists i; apply lookup_insert|]. intros _. eexists. split; [reflexivity|apply thread_up].
    - (* refused *) split; cbn; [now apply del_lock|]. rewrite H2, run_gone; [reflexivity|eassumption|discriminate].
    - (* run *) split; cbn; [exact H1|]. rewrite <- H2. split; intros (s0 & [= <-] & ?); eauto.
    - (* end *) split; cbn; [now apply del_lock|]. split.
      + intros (s0 & [= <-] & Hu). rewrite (ends_down _ _ _ (or_introl H0)) in Hu. discriminate.
      + intros (j & Hj). apply lookup_delete_Some in Hj as [Hn Hj]. destruct Hn. eapply H1; eauto.
    - (* end early *) split; cbn; [now apply del_lock|]. rewrite H2, run_gone; [reflexivity|eassumption|assumption].
    - (* crash *) split; cbn; [intros a b u v Ha; now rewrite lookup_empty in Ha|]. split.
      + intros (s0 & [= <-] & Hu). rewrite (ends_down _ _ _ (or_intror H)) in Hu. discriminate.
      + intros (j & Hj). now rewrite lookup_empty in Hj.
    - (* reset *) split; cbn; [intros a b u v Ha; now rewrite lookup_empty in Ha|]. split.
      + intros (s0 & -> & Hu). destruct H0 as [H0|H0]; [discriminate|]. subst f. destruct H as [H|H]; discriminate.
      + intros (j & Hj). now rewrite lookup_empty in Hj.
  Qed.
  Lemma one_steps w tr w' : one w -> wsteps w tr w' -> one w'.
  Proof. induction 2; eauto using one_step. Qed.
  (** Nobody is at work, and there may be a file. *)
  Definition at_peace (f : file) : Prop := forall s, f = Data s -> is_up s = false.
  Lemma peace_one f : at_peace f -> one (World f ∅).
  Proof.
    intros H. split; cbn; [intros a b u v Ha; now rewrite lookup_empty in Ha|]. split.
    - intros (s & -> & Hu). rewrite (H s eq_refl) in Hu. discriminate.
    - intros (j & Hj). now rewrite lookup_empty in Hj.
  Qed.

  (** C80: however many processes are started, in whatever order their steps are taken: at most one of them has passed the lock,
      and the database is in use exactly while one runs. *)
  Theorem one_process f tr w : at_peace f -> wsteps (World f ∅) tr w ->
    (forall i j x y, v_procs w !! i = Some x -> v_procs w !! j = Some y -> has_lock x = true -> has_lock y = true -> i = j) /\
    ((exists s, v_file w = Data s /\ is_up s = true) <-> exists i, v_procs w !! i = Some Running).
  Proof. intros Hf H. exact (one_steps _ _ _ (peace_one f Hf) H). Qed.

  (** *** A file that is there *)
  (** No process that found no file is about. *)
  Definition settled_in (w : world) : Prop := (exists s, v_file w = Data s) /\ forall i x, v_procs w !! i = Some x -> x = Looked false \/ x = HasFile false \/ x = Locked false \/ x = Running.
  Lemma db_snoc tr l : db_trace (tr ++ [l]) = db_trace tr ++ match db_label l with Some x => [x] | None => [] end.
  Proof. unfold db_trace. rewrite omap_app. cbn. now destruct (db_label l). Qed.
  Lemma there_step s w l w' : v_file w = Data s -> settled_in w -> wstep w l w' ->
    settled_in w' /\ exists s', v_file w' = Data s' /\ match db_label l with Some x => mstep s x s' /\ C s s' | None => s' = s end.
  Proof.
    intros Ef [_ Hp] Hst. inversion Hst; subst; cbn [v_file v_procs] in *; subst; cbn [db_label is_file negb] in *; try discriminate.
    - split; [split; cbn; [eauto|]|eauto]. intros j y Hj. apply set_other in Hj as [[-> ->]|[_ Hj]]; [auto|eauto].
    - exfalso. edestruct Hp as [?|[?|[?|?]]]; [eassumption|discriminate..].
    - split; [split; cbn; [eauto|]|eauto]. intros j y Hj. apply set_other in Hj as [[-> ->]|[_ Hj]]; [auto|eauto].
    - assert (new = false) as -> by (destruct new; [edestruct Hp as [?|[?|[?|?]]]; [eassumption|discriminate..]|reflexivity]).
      split; [split; cbn; [eauto|]|eauto]. intros j y Hj. apply set_other in Hj as [[-> ->]|[_ Hj]]; [auto|eauto].
    - split; [split; cbn; [eauto|]|eauto]. intros j0 y Hj. apply lookup_delete_Some in Hj as [_ Hj]. eauto.
    - exfalso. edestruct Hp as [?|[?|[?|?]]]; [eassumption|discriminate..].
    - assert (s = MB (Sys d None)) as -> by (destruct s as [[d0 [p0|]]| |]; try discriminate; cbn in *; congruence).
      split; [split; cbn; [eauto|]|].
      + intros j y Hj. apply set_other in Hj as [[-> ->]|[_ Hj]]; [auto|eauto].
      + eexists. split; [reflexivity|]. split; [|assumption]. destruct pipelined; cbn; [now apply M_open|apply M_blocking; now apply Y_open].
    - split; [split; cbn; [eauto|]|eauto]. intros j0 y Hj. apply lookup_delete_Some in Hj as [_ Hj]. eauto.
    - injection Ef as ->. split; [split; cbn; [eauto|exact Hp]|eauto].
    - injection Ef as ->. split; [split; cbn; [eauto|]|eauto]. intros j0 y Hj. apply lookup_delete_Some in Hj as [_ Hj]. eauto.
    - split; [split; cbn; [eauto|]|eauto]. intros j0 y Hj. apply lookup_delete_Some in Hj as [_ Hj]. eauto.
    - injection Ef as ->. split; [split; cbn; [eauto|]|eauto]. intros j0 y Hj. now rewrite lookup_empty in Hj.
    - destruct H as [H|H]; discriminate.
  Qed.
  Lemma there_steps s w tr w' : v_file w = Data s -> settled_in w -> wsteps w tr w' ->
    settled_in w' /\ exists s', v_file w' = Data s' /\ msteps C s (db_trace tr) s'.
  Proof.
    intros Ef Hp H. induction H as [w|w tr w1 l w2 H IH Hst]; [split; [exact Hp|exists s; split; [exact Ef|constructor]]|].
    destruct (IH Ef Hp) as (Hp1 & s1 & E1 & M1). destruct (there_step _ _ _ _ E1 Hp1 Hst) as (Hp2 & s2 & E2 & M2). split; [exact Hp2|]. exists s2. split; [exact E2|].
    rewrite db_snoc. destruct (db_label l); [|subst; now rewrite app_nil_r]. destruct M2. eapply msteps_snoc; eassumption.
  Qed.
  (** C81, the positive part: if the file is there when the first process is started, then whatever number of processes is started, the
      database goes through the same as if one process after the other had been started. *)
  Theorem existing_file_shared s tr w : wsteps (World (Data s) ∅) tr w -> exists s', v_file w = Data s' /\ msteps C s (db_trace tr) s'.
  Proof.
    intros H. destruct (there_steps s (World (Data s) ∅) tr w eq_refl) as [_ H']; [|exact H|exact H'].
    split; cbn; [eauto|]. intros i x Hx. now rewrite lookup_empty in Hx.
  Qed.

  (** *** A file that is not there, and a start without race *)
  Definition calm_inv (w : world) : Prop :=
    match v_file w with
    | Nothing => forall i x, v_procs w !! i = Some x -> x = Looked true /\ forall j y, v_procs w !! j = Some y -> j = i
    | NoBytes => (exists i, v_procs w !! i = Some (HasFile true) /\ forall j y, v_procs w !! j = Some y -> j = i) \/
               ((forall i x, v_procs w !! i = Some x -> on_its_way x = false /\ x <> Running))
    | Data _ => settled_in w
    end.
  Definition fresh (s : msys) : Prop := exists b, s = with_thread b (init_disk 16 ps) first_proc.
  Lemma calm_step w l w' : calm_inv w -> one w -> wstep w l w' -> calm_start w w' ->
    calm_inv w' /\ match v_file w, v_file w' with
      | Data s, f' => exists s', f' = Data s' /\ match db_label l with Some x => mstep s x s' /\ C s s' | None => s' = s end
      | _, Data s' => fresh s' /\ db_label l = None
      | _, _ => db_label l = None
      end.
  Proof.
    intros H H1 Hst Hc. destruct (v_file w) as [| |s] eqn:Ef.
    3: { unfold calm_inv in H. rewrite Ef in H. destruct (there_step s w l w' Ef H Hst) as (Hp & s' & E & M). split; [unfold calm_inv; now rewrite E|]. eauto. }
    - (* no file *)
      unfold calm_inv in H. rewrite Ef in H. inversion Hst; subst; cbn [v_file v_procs] in *; subst; try discriminate; cbn [is_file negb] in *.
      + split; [|reflexivity]. cbn. assert (Hn : forall j y, m !! j = Some y -> False).
        { intros j y Hj. destruct (H _ _ Hj) as [-> _]. specialize (Hc i H0 ltac:(cbn; rewrite lookup_insert; eauto) j _ Hj). discriminate. }
        intros j y Hj. apply set_other in Hj as [[-> ->]|[_ Hj]]; [|destruct (Hn _ _ Hj)]. split; [reflexivity|].
        intros k z Hk. apply set_other in Hk as [[-> _]|[_ Hk]]; [reflexivity|destruct (Hn _ _ Hk)].
      + split; [|reflexivity]. cbn. left. exists i. split; [apply lookup_insert|]. intros j y Hj. apply set_other in Hj as [[-> ->]|[_ Hj]]; [reflexivity|].
        eapply (proj2 (H _ _ H0)); eassumption.
      + exfalso. match goal with E : m !! _ = Some _ |- _ => destruct (H _ _ E); discriminate end.
      + exfalso. match goal with E : m !! _ = Some _ |- _ => destruct (H _ _ E); discriminate end.
      + exfalso. match goal with E : m !! _ = Some _ |- _ => destruct (H _ _ E); discriminate end.
      + split; [|reflexivity]. cbn. intros j y Hj. apply lookup_delete_Some in Hj as [Hn Hj]. exfalso. apply Hn. symmetry. eapply (proj2 (H _ _ H0)); eassumption.
      + assert (f' = Nothing) as -> by (destruct H2 as [H2| ->]; [destruct f'; [reflexivity|discriminate..]|reflexivity]). split; [|reflexivity].
        cbn. intros j y Hj. now rewrite lookup_empty in Hj.
    - (* an empty file *)
      unfold calm_inv in H. rewrite Ef in H. inversion Hst; subst; cbn [v_file v_procs] in *; subst; try discriminate; cbn [is_file negb] in *.
      + split; [|reflexivity]. cbn. right. destruct H as [(k & Hk & _)|H].
        { specialize (Hc i H0 ltac:(cbn; rewrite lookup_insert; eauto) k _ Hk). discriminate. }
        intros j y Hj. apply set_other in Hj as [[-> ->]|[_ Hj]]; [split; [reflexivity|discriminate]|eauto].
      + exfalso. destruct H as [(k & Hk & Ho)|H]; [pose proof (Ho _ _ H0) as ->; rewrite H0 in Hk; discriminate|destruct (H _ _ H0); discriminate].
      + split; [|reflexivity]. cbn. right. destruct H as [(k & Hk & Ho)|H]; [pose proof (Ho _ _ H0) as ->; rewrite H0 in Hk; discriminate|].
        intros j y Hj. apply set_other in Hj as [[-> ->]|[_ Hj]]; [split; [reflexivity|discriminate]|eauto].
      + split; [|reflexivity]. cbn. right. intros j y Hj. apply set_other in Hj as [[-> ->]|[Hn Hj]]; [split; [reflexivity|discriminate]|].
        destruct H as [(k & Hk & Ho)|H]; [pose proof (Ho _ _ H0) as ->; pose proof (Ho _ _ Hj) as ->; contradiction|eauto].
      + split; [|reflexivity]. cbn. destruct H as [(k & Hk & Ho)|H].
        { pose proof (Ho _ _ H2) as ->. rewrite H2 in Hk. injection Hk as ->. discriminate. }
        right. intros j' y Hj. apply lookup_delete_Some in Hj as [_ Hj]. eauto.
      + destruct H as [(k & Hk & Ho)|H]; [pose proof (Ho _ _ H0) as ->; rewrite H0 in Hk; discriminate|].
        match goal with E : made _ _ _ = Some _ |- _ => cbn in E; injection E as <- end. split; [|split; [now exists pipelined|reflexivity]]. cbn. split; cbn; [eauto|].
        intros j y Hj. apply set_other in Hj as [[-> ->]|[Hn Hj]]; [auto|]. destruct (H _ _ Hj) as [Hy1 Hy2]. destruct y as [[|]|[|]|[|]|]; try discriminate; auto.
        exfalso. apply Hn. eapply (proj1 H1); [exact Hj|exact H0|reflexivity|reflexivity].
      + exfalso. match goal with E : at_rest _ = Some _ |- _ => injection E as <- end.
        destruct (no_header_no_open 16 ps no_pages) as [e E]; [intros q _; exists EIo; reflexivity|]. congruence.
      + split; [|reflexivity]. cbn. destruct H as [(k & Hk & Ho)|H]; [pose proof (Ho _ _ H0) as ->; rewrite H0 in Hk; discriminate|].
        right. intros j' y Hj. apply lookup_delete_Some in Hj as [_ Hj]. eauto.
      + split; [|reflexivity]. cbn. right. destruct H as [(k & Hk & Ho)|H]; intros j y Hj; apply lookup_delete_Some in Hj as [Hn Hj].
        * exfalso. pose proof (Ho _ _ H0) as ->. now pose proof (Ho _ _ Hj) as ->.
        * eauto.
      + destruct H2 as [H2| ->].
        * destruct f'; try discriminate. split; [|reflexivity]. cbn. intros j y Hj. now rewrite lookup_empty in Hj.
        * split; [|reflexivity]. cbn. right. intros j y Hj. now rewrite lookup_empty in Hj.
  Qed.
  Lemma calm_steps tr w : csteps (World Nothing ∅) tr w -> calm_inv w /\ one w /\
    match v_file w with Data s => exists s0, fresh s0 /\ msteps C s0 (db_trace tr) s | _ => db_trace tr = [] end.
  Proof.
    intros H. remember (World Nothing ∅) as w0 eqn:E. induction H as [w|w tr w1 l w2 H IH Hst Hc]; subst.
    - split; [cbn; intros j y Hj; now rewrite lookup_empty in Hj|]. split; [apply peace_one; discriminate|reflexivity].
    - destruct (IH eq_refl) as (I1 & I2 & I3). destruct (calm_step _ _ _ I1 I2 Hst Hc) as [J1 J2]. split; [exact J1|]. split; [exact (one_step _ _ _ I2 Hst)|].
      rewrite db_snoc. destruct (v_file w1) as [| |s1].
      1-2: destruct (v_file w2) as [| |s2]; [rewrite J2, I3; reflexivity..|]; destruct J2 as [J2 ->]; rewrite I3; exists s2; split; [exact J2|constructor].
      destruct J2 as (s2 & -> & J2). destruct I3 as (s0 & F & M). exists s0. split; [exact F|]. destruct (db_label l); [|subst; now rewrite app_nil_r]. destruct J2. eapply msteps_snoc; eassumption.
  Qed.
  (** C81, the positive part for a new database: if nobody looks for the file while another process, which found none, has not got the lock
      yet, then the database goes through the same as if its processes had been started one after the other. *)
  Theorem calm_creation tr w s : csteps (World Nothing ∅) tr w -> v_file w = Data s ->
    msteps C (MB (init_sys 16 ps)) (db_trace tr) s \/ msteps C (pipelined_new ps) (db_trace tr) s.
  Proof. intros H Ef. destruct (calm_steps tr w H) as (_ & _ & H'). rewrite Ef in H'. destruct H' as (s0 & [[|] ->] & M); [right|left]; exact M. Qed.

  (** *** Two processes that meet at the start *)
  (** Nobody is about who would write to the file, which is empty. *)
  Definition stuck (w : world) : Prop := v_file w = NoBytes /\ forall i x, v_procs w !! i = Some x -> x = Looked false \/ x = HasFile false \/ x = Locked false.
  Lemma stuck_step w l w' : stuck w -> wstep w l w' -> l <> WReset -> stuck w' /\ db_label l = None.
  Proof.
    intros [Ef Hp] Hst Hl. inversion Hst; subst; cbn [v_file v_procs] in *; subst; try discriminate; try contradiction.
    - split; [|reflexivity]. split; [reflexivity|]. cbn. intros j y Hj. apply set_other in Hj as [[-> ->]|[_ Hj]]; [auto|eauto].
    - exfalso. edestruct Hp as [?|[?|?]]; [eassumption|discriminate..].
    - split; [|reflexivity]. split; [reflexivity|]. cbn. intros j y Hj. apply set_other in Hj as [[-> ->]|[_ Hj]]; [auto|eauto].
    - assert (new = false) as -> by (destruct new; [edestruct Hp as [?|[?|?]]; [eassumption|discriminate..]|reflexivity]).
      split; [|reflexivity]. split; [reflexivity|]. cbn. intros j y Hj. apply set_other in Hj as [[-> ->]|[_ Hj]]; [auto|eauto].
    - split; [|reflexivity]. split; [reflexivity|]. cbn. intros j' y Hj. apply lookup_delete_Some in Hj as [_ Hj]. eauto.
    - exfalso. edestruct Hp as [?|[?|?]]; [eassumption|discriminate..].
    - exfalso. match goal with E : at_rest _ = Some _ |- _ => injection E as <- end.
      destruct (no_header_no_open 16 ps no_pages) as [e E]; [intros q _; exists EIo; reflexivity|]. congruence.
    - split; [|reflexivity]. split; [reflexivity|]. cbn. intros j' y Hj. apply lookup_delete_Some in Hj as [_ Hj]. eauto.
    - split; [|reflexivity]. split; [reflexivity|]. cbn. intros j' y Hj. apply lookup_delete_Some in Hj as [_ Hj]. eauto.
  Qed.
  Lemma stuck_steps w tr w' : stuck w -> wsteps w tr w' -> WReset ∉ tr -> stuck w' /\ db_trace tr = [].
  Proof.
    intros Hs H. induction H as [w|w tr w1 l w2 H IH Hst]; intros Hn; [auto|]. rewrite elem_of_app, elem_of_list_singleton in Hn.
    destruct IH as [I1 I2]; [exact Hs|tauto|]. destruct (stuck_step _ _ _ I1 Hst ltac:(intros ->; tauto)) as [J1 J2]. split; [exact J1|]. now rewrite db_snoc, I2, J2.
  Qed.
  Lemma wsteps_one w l w' : wstep w l w' -> wsteps w [l] w'.
  Proof. intros H. change [l] with ([] ++ [l]). eapply wsteps_snoc; [constructor|exact H]. Qed.
  Lemma wsteps_app w t1 w1 t2 w2 : wsteps w t1 w1 -> wsteps w1 t2 w2 -> wsteps w (t1 ++ t2) w2.
  Proof. intros H1 H2. induction H2 as [w1|w1 t2 w2 l w3 H2 IH Hst]; [now rewrite app_nil_r|]. rewrite app_assoc. eapply wsteps_snoc; [now apply IH|exact Hst]. Qed.
  Lemma wsteps_cons w l w1 t w2 : wstep w l w1 -> wsteps w1 t w2 -> wsteps w (l :: t) w2.
  Proof. intros H1 H2. exact (wsteps_app _ _ _ _ _ (wsteps_one _ _ _ H1) H2). Qed.

  (** C81 is false: the first process creates the file and is overtaken by the second, which finds the file, gets the lock and fails
      since there is nothing in the file; the first is refused the lock.  From then on every process is refused, until the machine
      crashes (and loses the empty file) or someone deletes it. *)
  Theorem start_race_refuted : exists tr w, wsteps (World Nothing ∅) tr w /\ tr = [WTau; WTau; WTau; WTau; WTau; WRefused 1; WRefused 2] /\ v_procs w = ∅ /\
    forall tr' w', wsteps w tr' w' -> WReset ∉ tr' -> db_trace tr' = [] /\ forall i, v_procs w' !! i <> Some Running.
  Proof.
    eexists _, (World NoBytes ∅). split; [|split; [reflexivity|split; [reflexivity|]]].
    - eapply wsteps_cons; [apply (V_look _ _ _ _ _ _ _ Nothing ∅ 1); apply lookup_empty|]. cbn [is_file negb].
      eapply wsteps_cons; [apply (V_create _ _ _ _ _ _ _ Nothing _ 1); apply lookup_insert|].
      eapply wsteps_cons; [apply (V_look _ _ _ _ _ _ _ NoBytes _ 2); reflexivity|]. cbn [is_file negb].
      eapply wsteps_cons; [apply (V_found _ _ _ _ _ _ _ NoBytes _ 2); [apply lookup_insert|reflexivity]|].
      eapply wsteps_cons.
      { apply (V_lock _ _ _ _ _ _ _ NoBytes _ 2 false); [apply lookup_insert|]. intros j x Hj. apply set_other in Hj as [[-> ->]|[_ Hj]]; [reflexivity|].
        apply set_other in Hj as [[-> ->]|[_ Hj]]; [reflexivity|]. apply set_other in Hj as [[-> ->]|[_ Hj]]; [reflexivity|]. apply set_other in Hj as [[-> ->]|[_ Hj]]; [reflexivity|]. now rewrite lookup_empty in Hj. }
      eapply wsteps_cons; [apply (V_locked _ _ _ _ _ _ _ NoBytes _ 1 2 true (Locked false)); [reflexivity|apply lookup_insert|reflexivity]|].
      destruct (no_header_no_open 16 ps no_pages) as [e E]; [intros q _; exists EIo; reflexivity|].
      match goal with |- wsteps (World _ ?m) _ _ => assert (Hm : delete 2 m = ∅) end; [|refine (eq_rect _ (fun z => wsteps _ [WRefused 2] (World NoBytes z)) _ _ Hm); apply wsteps_one; eapply V_refused; [|reflexivity|exact E]; reflexivity].
      apply map_eq. intros j. rewrite lookup_empty. destruct (delete 2 _ !! j) eqn:Ej; [|reflexivity]. exfalso. apply lookup_delete_Some in Ej as [N2 Ej]. apply lookup_delete_Some in Ej as [N1 Ej].
      repeat (apply set_other in Ej as [[-> ->]|[_ Ej]]; [congruence|]). now rewrite lookup_empty in Ej.
    - intros tr' w' H Hn. destruct (stuck_steps (World NoBytes ∅) tr' w') as [[_ Hp] Ht]; [split; [reflexivity|]; cbn; intros i x Hx; now rewrite lookup_empty in Hx|exact H|exact Hn|].
      split; [exact Ht|]. intros i Hi. apply Hp in Hi as [?|[?|?]]; discriminate.
  Qed.

  Lemma lift_run i m tr y y' : Mvcc.steps 16 ps hash order ford caching y tr y' -> (forall a b, C (MB a) (MB b)) -> m !! i = Some Running -> y_proc y <> None ->
    Forall (fun l => match l with LCrash _ | LKill _ | LOpen => False | _ => True end) tr ->
    wsteps (World (Data (MB y)) m) (map (WDb i) tr) (World (Data (MB y')) m) /\ y_proc y' <> None.
  Proof.
    intros H HC Hi. induction H as [y|y tr y1 l y2 H IH Hst]; intros Hy Hf; [split; [constructor|exact Hy]|]. apply Forall_app in Hf as [Hf1 Hf2]. apply Forall_inv in Hf2.
    destruct (IH Hy Hf1) as [I1 I2]. assert (Hy2 : y_proc y2 <> None) by (inversion Hst; subst; cbn in *; try contradiction; discriminate).
    split; [|exact Hy2]. rewrite map_app. eapply wsteps_snoc; [exact I1|]. apply V_run; [exact Hi|now apply M_blocking|apply HC| |].
    - destruct y1 as [d1 [p1|]]; [reflexivity|contradiction].
    - destruct y2 as [d1 [p1|]]; [reflexivity|contradiction].
  Qed.
End locking.

Section kept.
  Context (hash : bytes -> bytes) (order : list bytes -> list bytes) (ford : gset N -> list N) (caching : bool).
  Context (Hord : forall l t, t ∈ order l <-> t ∈ l) (Hford : forall s, ford s ≡ₚ elements s).
  (** So nothing that was stored is lost, whichever process stored it, and whichever has the file now. *)
  Theorem processes_keep_events tr w s st tr' w' s' st' : csteps 16 dps hash order ford caching (healthy 16) (World Nothing ∅) tr w -> v_file w = Data s -> mshows hash order s st ->
    wsteps 16 dps hash order ford caching (healthy 16) w tr' w' -> v_file w' = Data s' -> mshows hash order s' st' ->
    (exists new, s_hist st' = s_hist st ++ new) /\ forall src t, s_track st src = Some t -> exists t', s_track st' src = Some t' /\ t <= t'.
  Proof.
    intros H Ef Hs H' Ef' Hs'. destruct (calm_steps _ _ _ _ _ _ _ _ H) as (Hc & _ & _). unfold calm_inv in Hc. rewrite Ef in Hc.
    destruct (there_steps _ _ _ _ _ _ _ _ _ _ Ef Hc H') as (_ & s1 & E1 & M). rewrite Ef' in E1. injection E1 as <-.
    eapply (pipelined_permanent hash order ford caching Hord Hford (db_trace tr) s st _ s' st'); [|exact Hs|exact M|exact Hs'].
    exact (calm_creation _ _ _ _ _ _ _ _ _ H Ef).
  Qed.
End kept.

(** What is written into an empty file is the file of a new database, as [made] says; and all of it is on the disk. *)
Lemma made_of_empty ps (Hps : ps_ok ps) (Hps32 : ps < U32) q c : (d_dur (make_new 16 ps no_pages) q c <-> d_dur (init_disk 16 ps) q c) /\ d_cur (make_new 16 ps no_pages) q = d_cur (init_disk 16 ps) q /\ d_wr (make_new 16 ps no_pages) q = d_wr (init_disk 16 ps) q.
Proof.
  split; [exact (creation_complete ps Hps Hps32 q c)|]. split; [|reflexivity].
  assert (cur_ok (make_new 16 ps no_pages)) as Hc; [|exact (proj1 (creation_complete ps Hps Hps32 q _) (Hc q))].
  assert (Hs : forall d, cur_ok d -> cur_ok (d_synced d)) by (intros d H i; cbn; destruct (d_wr d i); [reflexivity|apply H]).
  assert (Hw : forall j d, cur_ok d -> cur_ok (put_init 16 ps j d)) by (intros j d H; unfold put_init; destruct (init_file 16 ps j); [now apply w_write_cur|exact H]).
  unfold make_new. apply Hs, Hw, Hw, Hs, Hw, Hw, Hw. intros i. reflexivity.
Qed.

(** ** A database made anew *)
(** What is not waiting to be synced is on the disk. *)
Definition clean (d : disk) : Prop := forall q c, d_wr d q = false -> d_dur d q c -> c = d_cur d q.
Lemma clean_write q b d : clean d -> clean (d_write 16 q b d).
Proof. intros H i c. cbn. destruct (i =? q); [discriminate|apply H]. Qed.
Lemma clean_sync d : clean d -> clean (d_synced d).
Proof. intros H i c _. cbn. destruct (d_wr d i) eqn:E; [auto|now apply H]. Qed.
Lemma exec1_clean ps hash order ford caching y a l y' : exec1 16 ps hash order ford caching y a = Some (l, y') -> clean (y_disk y) -> clean (y_disk y').
Proof.
  intros E H. destruct y as [d [p|]]; cbn [Exec.exec1] in E.
  - destruct a; cbn [pexec] in E; repeat (case_match; try discriminate); simplify_eq; cbn [y_disk] in *; auto using clean_write, clean_sync.
    all: intros q c _ Hc; exact Hc.
  - destruct a; try discriminate. destruct (open_db 16 ps d) as [[d' p]|] eqn:Ho; [|discriminate]. injection E as <- <-. cbn in *.
    unfold open_db in Ho. destruct (read_headers _ _) as [[[n0 n1] o]|]; cbn [rbind] in Ho; [|discriminate].
    destruct o as [[q n]|]; [destruct (page_ser 16 ps n) as [b|]; cbn [rbind] in Ho; [|discriminate]|cbn [rbind] in Ho].
    all: destruct (as_header n0.2); cbn [rbind] in Ho; [|discriminate]; destruct (as_header n1.2); cbn [rbind] in Ho; [|discriminate]; destruct (check_roots _ _ _); cbn [rbind] in Ho; [|discriminate].
    all: injection Ho as <- _; auto using clean_write.
Qed.
Lemma exec_clean ps hash order ford caching s : forall y tr y', exec 16 ps hash order ford caching y s = Some (tr, y') -> clean (y_disk y) -> clean (y_disk y').
Proof.
  induction s as [|a s IH]; intros y tr y'; cbn [Exec.exec]; [intros [= <- <-]; auto|].
  destruct (exec1 16 ps hash order ford caching y a) as [[l y1]|] eqn:E1; [|discriminate]. destruct (exec 16 ps hash order ford caching y1 s) as [[tr1 y2]|] eqn:E2; [|discriminate]. intros [= <- <-] H.
  eapply IH; [exact E2|]. eapply exec1_clean; eassumption.
Qed.
Lemma clean_settled d : clean d -> d_wr d 0 = false -> d_wr d 1 = false -> d_settled d.
Proof. intros H H0 H1 q c Hq Hc. apply H; [|exact Hc]. assert (q = 0 \/ q = 1) as [-> | ->] by lia; assumption. Qed.
Lemma init_clean ps : clean (y_disk (init_sys 16 ps)). Proof. intros q c _ H. exact H. Qed.

Notation k_wsteps := (wsteps 16 4096 f_hash (fun l => l) x_ford true fine).
Definition k_trace : list label := replicate 8 LTau ++ [LCommit [f_one] [Ok 1]].
(** A process stores an event and is about to end; the file can be opened again, and then the event is there; but a process that believes
    the file to be new makes a database without events of it. *)
Definition k_sees (d : disk) (p : proc) : option (list N * option N) :=
  match umadb_read f_hash (fun l => l) (fetch 16 (p_cache p) d) (latest p).2 [] None false None false with Ok (evs, h) => Some (map fst evs, h) | Err _ => None end.
Lemma k_states : exists d p d' p', f_run k_trace (Sys d (Some p)) /\ p_writer p = WIdle /\ d_settled d /\
  open_db 16 4096 d = Ok (d', p') /\ k_sees d' p' = Some ([1], Some 1) /\ k_sees (make_new 16 4096 d) first_proc = Some ([], None).
Proof.
  destruct (f_runs r_after k_trace) as (y & H & E); [vm_compute; reflexivity|].
  assert (Hc : match f_exec r_after with
    | Some (_, Sys d (Some p)) => match p_writer p with WIdle => true | _ => false end && negb (d_wr d 0) && negb (d_wr d 1) && bool_decide (k_sees (make_new 16 4096 d) first_proc = Some ([], None)) &&
        match open_db 16 4096 d with Ok (d', p') => bool_decide (k_sees d' p' = Some ([1], Some 1)) | Err _ => false end
    | _ => false end = true) by (vm_compute; reflexivity).
  pose proof (exec_clean _ _ _ _ _ _ _ _ _ E (init_clean 4096)) as Hcl.
  rewrite E in Hc. clear E. destruct y as [d [p|]]; [|discriminate Hc]. apply andb_prop in Hc as [Hc H5]. apply andb_prop in Hc as [Hc H4]. apply andb_prop in Hc as [Hc H3]. apply andb_prop in Hc as [H1 H2].
  apply negb_true_iff in H2, H3. apply bool_decide_eq_true in H4. destruct (open_db _ _ d) as [[d' p']|] eqn:E5; [|discriminate]. apply bool_decide_eq_true in H5.
  assert (Hw : p_writer p = WIdle) by (destruct (p_writer p); [reflexivity|discriminate H1..]).
  exists d, p, d', p'. split; [exact H|]. split; [exact Hw|]. split; [exact (clean_settled d Hcl H2 H3)|]. split; [exact E5|]. split; [exact H5|exact H4].
Qed.
Lemma fine_mb a b : fine (MB a) (MB b). Proof. split; exact I. Qed.
Ltac no_lock := let j := fresh in let x := fresh in let Hj := fresh in intros j x Hj; repeat (apply set_other in Hj as [[-> ->]|[? Hj]]; [reflexivity|] || apply lookup_delete_Some in Hj as [? Hj]); first [now rewrite lookup_empty in Hj | congruence].
(** C81 is false: both processes look and find no file.  The first makes a database, stores an event, says so and ends.  The second makes a
    new database in the file: the event is gone.  Nothing fails, and the machine does not crash. *)
Theorem new_file_race_refuted : exists tr w d p, k_wsteps (World Nothing ∅) tr w /\
  tr = replicate 5 WTau ++ map (WDb 1) (replicate 8 LTau ++ [LCommit [f_one] [Ok 1]; LKill []]) ++ replicate 3 WTau /\
  v_file w = Data (MB (Sys d (Some p))) /\ v_procs w !! 2 = Some Running /\
  (exists evs h, umadb_read f_hash (fun l => l) (fetch 16 (p_cache p) d) (latest p).2 [] None false None false = Ok (evs, h) /\ evs = [] /\ h = None).
Proof.
  destruct k_states as (d & p & d' & p' & H & Hw & Hd & _ & _ & Hn).
  pose (m0 := <[1 := HasFile true]> (<[2 := Looked true]> (<[1 := Looked true]> (∅ : gmap N lphase)))).
  pose (m1 := <[1 := Running]> (<[1 := Locked true]> m0)).
  pose (m2 := <[2 := Running]> (<[2 := Locked true]> (<[2 := HasFile true]> (delete 1 m1)))).
  eexists _, (World (Data (MB (Sys (make_new 16 4096 d) (Some first_proc)))) m2), _, _. split; [|split; [reflexivity|split; [reflexivity|split; [apply lookup_insert|]]]].
  - eapply wsteps_app.
    + cbn [replicate]. eapply wsteps_cons; [apply (V_look _ _ _ _ _ _ _ Nothing ∅ 1); apply lookup_empty|]. cbn [is_file negb].
      eapply wsteps_cons; [apply (V_look _ _ _ _ _ _ _ Nothing _ 2); reflexivity|]. cbn [is_file negb].
      eapply wsteps_cons; [apply (V_create _ _ _ _ _ _ _ Nothing _ 1); reflexivity|]. fold m0.
      eapply wsteps_cons; [apply (V_lock _ _ _ _ _ _ _ NoBytes m0 1 true); [apply lookup_insert|]; subst m0; no_lock|].
      apply wsteps_one. apply (V_made _ _ _ _ _ _ _ NoBytes (<[1 := Locked true]> m0) 1 false); [apply lookup_insert|reflexivity].
    + cbn [with_thread]. fold m1. change (replicate 8 LTau ++ [LCommit [f_one] [Ok 1]; LKill []]) with (k_trace ++ [LKill []]). rewrite map_app, <- app_assoc.
      eapply wsteps_app; [apply (lift_run 4096 f_hash (fun l => l) x_ford true fine 1 m1 k_trace (init_sys 16 4096) (Sys d (Some p)) H)|].
      * exact fine_mb.
      * apply lookup_insert.
      * discriminate.
      * unfold k_trace. repeat constructor.
      * cbn [map app replicate]. eapply wsteps_cons; [apply (V_end _ _ _ _ _ _ _ _ (MB (Sys d None)) m1 1 []); [apply lookup_insert| |apply fine_mb]|].
        { apply M_blocking. pose proof (Y_kill 16 4096 f_hash (fun l => l) x_ford true d p Hd) as Hk. rewrite Hw in Hk. exact Hk. }
        eapply wsteps_cons; [apply (V_create _ _ _ _ _ _ _ _ _ 2); reflexivity|].
        eapply wsteps_cons; [apply (V_lock _ _ _ _ _ _ _ _ _ 2 true); [apply lookup_insert|]|].
        { subst m1 m0. intros j x Hj. apply set_other in Hj as [[-> ->]|[_ Hj]]; [reflexivity|]. apply lookup_delete_Some in Hj as [Hj1 Hj].
          repeat (apply set_other in Hj as [[-> ->]|[_ Hj]]; [first [reflexivity | congruence]|]). now rewrite lookup_empty in Hj. }
        apply wsteps_one. apply (V_made _ _ _ _ _ _ _ _ _ 2 false); [apply lookup_insert|reflexivity].
  - unfold k_sees in Hn. destruct (umadb_read _ _ _ _ _ _ _ _ _) as [[evs h]|]; [|discriminate Hn]. exists evs, h. split; [reflexivity|]. injection Hn as Hn1 Hn2. now destruct evs.
Qed.

(** *** Examples *)
Lemma calm_known f f' (m : gmap N lphase) i x y : m !! i = Some y -> calm_start (World f m) (World f' (<[i := x]> m)).
Proof. intros Hi j Hj [z Hz] k u Hk. cbn in *. apply set_other in Hz as [[-> _]|[_ Hz]]; congruence. Qed.
Lemma calm_same f f' (m : gmap N lphase) : calm_start (World f m) (World f' m).
Proof. intros j Hj [z Hz]. cbn in *. congruence. Qed.
Section examples.
  Context (C : msys -> msys -> Prop).
  Notation csteps := (csteps 16 4096 f_hash (fun l => l) x_ford true C).
  Lemma lift_calm i m tr y y' w0 tr0 : Mvcc.steps 16 4096 f_hash (fun l => l) x_ford true y tr y' -> (forall a b, C (MB a) (MB b)) -> m !! i = Some Running -> y_proc y <> None ->
    Forall (fun l => match l with LCrash _ | LKill _ | LOpen => False | _ => True end) tr -> csteps w0 tr0 (World (Data (MB y)) m) ->
    csteps w0 (tr0 ++ map (WDb i) tr) (World (Data (MB y')) m) /\ y_proc y' <> None.
  Proof.
    intros H HC Hi. induction H as [y|y tr y1 l y2 H IH Hst]; intros Hy Hf H0; [split; [now rewrite app_nil_r|exact Hy]|]. apply Forall_app in Hf as [Hf1 Hf2]. apply Forall_inv in Hf2.
    destruct (IH Hy Hf1 H0) as [I1 I2]. assert (Hy2 : y_proc y2 <> None) by (inversion Hst; subst; cbn in *; try contradiction; discriminate).
    split; [|exact Hy2]. rewrite map_app, app_assoc. eapply csteps_snoc; [exact I1| |apply calm_same]. apply V_run; [exact Hi|now apply M_blocking|apply HC| |].
    - destruct y1 as [d1 [p1|]]; [reflexivity|contradiction].
    - destruct y2 as [d1 [p1|]]; [reflexivity|contradiction].
  Qed.
End examples.
(** A second process is refused while the first one runs; when that has ended a third opens the file and finds the event. *)
Example processes_example : exists tr w s st w' s' st', csteps 16 dps f_hash (fun l => l) x_ford true (healthy 16) (World Nothing ∅) tr w /\ v_file w = Data s /\ mshows f_hash (fun l => l) s st /\
  wsteps 16 dps f_hash (fun l => l) x_ford true (healthy 16) w [WTau; WTau; WRefused 2; WDb 1 (LKill []); WTau; WTau; WTau; WDb 3 LOpen] w' /\
  v_file w' = Data s' /\ mshows f_hash (fun l => l) s' st' /\ map fst (s_hist st') = [1] /\ db_trace tr = k_trace.
Proof.
  destruct k_states as (d & p & d' & p' & H & Hw & Hd & Ho & Hs & _).
  pose (m0 := <[1 := HasFile true]> (<[1 := Looked true]> (∅ : gmap N lphase))).
  pose (m1 := <[1 := Running]> (<[1 := Locked true]> m0)).
  pose (m2 := delete 1 (delete 2 (<[2 := HasFile false]> (<[2 := Looked false]> m1)))).
  pose (m3 := <[3 := Running]> (<[3 := Locked false]> (<[3 := HasFile false]> (<[3 := Looked false]> m2)))).
  assert (HC : forall a b, healthy 16 (MB a) (MB b)) by (intros; exact I).
  assert (H1 : csteps 16 4096 f_hash (fun l => l) x_ford true (healthy 16) (World Nothing ∅) ([WTau; WTau; WTau; WTau] ++ map (WDb 1) k_trace) (World (Data (MB (Sys d (Some p)))) m1)).
  { refine (proj1 (lift_calm _ 1 m1 k_trace (init_sys 16 4096) (Sys d (Some p)) _ _ H HC _ _ _ _)); [apply lookup_insert|discriminate|unfold k_trace; repeat constructor|].
    change [WTau; WTau; WTau; WTau] with (((([] ++ [WTau]) ++ [WTau]) ++ [WTau]) ++ [WTau]).
    eapply csteps_snoc; [|apply (V_made _ _ _ _ _ _ _ NoBytes (<[1 := Locked true]> m0) 1 false); [apply lookup_insert|reflexivity]|eapply calm_known; apply lookup_insert].
    eapply csteps_snoc; [|apply (V_lock _ _ _ _ _ _ _ NoBytes m0 1 true); [apply lookup_insert|]; subst m0; no_lock|eapply calm_known; apply lookup_insert].
    eapply csteps_snoc; [|apply (V_create _ _ _ _ _ _ _ Nothing (<[1 := Looked true]> ∅) 1); apply lookup_insert|eapply calm_known; apply lookup_insert].
    eapply csteps_snoc; [constructor|apply (V_look _ _ _ _ _ _ _ Nothing ∅ 1); apply lookup_empty|].
    intros i _ _ j x Hj. cbn in Hj. now rewrite lookup_empty in Hj. }
  assert (Hr : mrun f_hash (fun l => l) x_ford true (healthy 16) (db_trace ([WTau; WTau; WTau; WTau] ++ map (WDb 1) k_trace)) (MB (Sys d (Some p)))) by (eapply (calm_creation 4096 _ _ _ _ (healthy 16)); [exact H1|reflexivity]).
  assert (H2 : wsteps 16 4096 f_hash (fun l => l) x_ford true (healthy 16) (World (Data (MB (Sys d (Some p)))) m1) [WTau; WTau; WRefused 2; WDb 1 (LKill []); WTau; WTau; WTau; WDb 3 LOpen] (World (Data (MB (Sys d' (Some p')))) m3)).
  { eapply wsteps_cons; [apply (V_look _ _ _ _ _ _ _ _ m1 2); reflexivity|]. cbn [is_file negb].
    eapply wsteps_cons; [apply (V_found _ _ _ _ _ _ _ _ _ 2); [apply lookup_insert|reflexivity]|].
    eapply wsteps_cons; [apply (V_locked _ _ _ _ _ _ _ _ _ 2 1 false Running); reflexivity|].
    eapply wsteps_cons; [apply (V_end _ _ _ _ _ _ _ _ (MB (Sys d None)) _ 1 []); [reflexivity| |apply HC]|]; [|fold m2].
    { apply M_blocking. pose proof (Y_kill 16 4096 f_hash (fun l => l) x_ford true d p Hd) as Hk. rewrite Hw in Hk. exact Hk. }
    eapply wsteps_cons; [apply (V_look _ _ _ _ _ _ _ _ m2 3); reflexivity|]. cbn [is_file negb].
    eapply wsteps_cons; [apply (V_found _ _ _ _ _ _ _ _ _ 3); [apply lookup_insert|reflexivity]|].
    eapply wsteps_cons; [apply (V_lock _ _ _ _ _ _ _ _ _ 3 false); [apply lookup_insert|]|].
    { subst m2 m1 m0. intros j x Hj. repeat (apply set_other in Hj as [[-> ->]|[_ Hj]]; [reflexivity|]). apply lookup_delete_Some in Hj as [Hj1 Hj]. apply lookup_delete_Some in Hj as [Hj2 Hj].
      repeat (apply set_other in Hj as [[-> ->]|[_ Hj]]; [congruence|]). now rewrite lookup_empty in Hj. }
    apply wsteps_one. apply (V_opened _ _ _ _ _ _ _ _ _ 3 false d d' p'); [apply lookup_insert|reflexivity|exact Ho|apply HC]. }
  destruct (pipelined_gapless f_hash (fun l => l) x_ford true x_ord x_ford_ok _ _ Hr) as (st & Hst & _); [eexists; reflexivity|].
  assert (Hm : settled_in (World (Data (MB (Sys d (Some p)))) m1)).
  { split; cbn; [eauto|]. subst m1 m0. intros j x Hj. apply set_other in Hj as [[-> ->]|[N1 Hj]]; [auto|]. repeat (apply set_other in Hj as [[-> ->]|[_ Hj]]; [congruence|]). now rewrite lookup_empty in Hj. }
  destruct (there_steps 4096 f_hash (fun l => l) x_ford true (healthy 16) (MB (Sys d (Some p))) (World (Data (MB (Sys d (Some p)))) m1) _ _ eq_refl Hm H2) as (_ & s' & Es & M).
  cbn in Es. injection Es as <-.
  assert (Hr' : exists tr, mrun f_hash (fun l => l) x_ford true (healthy 16) tr (MB (Sys d' (Some p')))).
  { destruct Hr as [Hr|Hr]; eexists; [left|right]; eapply msteps_app; eassumption. }
  destruct Hr' as [tr' Hr']. destruct (pipelined_gapless f_hash (fun l => l) x_ford true x_ord x_ford_ok _ _ Hr') as (st' & Hst' & _); [eexists; reflexivity|].
  eexists _, _, _, st, _, _, st'. split; [exact H1|]. split; [reflexivity|]. split; [exact Hst|]. split; [exact H2|]. split; [reflexivity|]. split; [exact Hst'|]. split; [|reflexivity].
  destruct Hst' as (p1 & E1 & Hq & _). injection E1 as <-. unfold k_sees in Hs. cbn [msys_of y_disk] in Hq. rewrite (Hq [] None false None false) in Hs. rewrite read_all in Hs. now injection Hs as Hs _.
Qed.

Print Assumptions one_process.
Print Assumptions existing_file_shared.
Print Assumptions calm_creation.
Print Assumptions processes_keep_events.
Print Assumptions start_race_refuted.
Print Assumptions new_file_race_refuted.
