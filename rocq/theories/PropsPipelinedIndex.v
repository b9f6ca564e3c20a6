(** C107 for the pipelining writer: the tag index on the disk is exact at every moment, also while a commit is being written. *)
From Verif Require Import MvccProofs SpecProofs StoreProofs ReadProofs TagsProofs PropsPages PropsStore PropsPipelined PipelineSys PipelineProofs PipelineRefine PropsFindings PropsIndex.
Local Open Scope N_scope.

Section props.
  Context (hash : bytes -> bytes) (order : list bytes -> list bytes) (ford : gset N -> list N) (caching : bool).
  Context (Hord : forall l t, t ∈ order l <-> t ∈ l) (Hford : forall s, ford s ≡ₚ elements s).
  Notation mrun := (mrun hash order ford caching).
  Notation mshows := (mshows hash order).
  Notation minv := (minv 16 dps hash caching).
  Notation healthy := (healthy 16).

  Lemma minv_held er s sy : minv er s sy -> mup s -> exists p G, y_proc (msys_of s) = Some p /\ cur_ok (y_disk (msys_of s)) /\ held 16 dps hash (y_disk (msys_of s)) (p_cache p) G /\ (latest p).2 = g_hdr G.
  Proof.
    assert (Ht : forall d p pi, thread_inv 16 dps hash caching d (view er p) pi sy -> exists G, cur_ok d /\ held 16 dps hash d (p_cache p) G /\ (latest p).2 = g_hdr G).
    { intros d p pi (g & [H|(f & db & w & todo & H)]); exists (gh_cur g).
      - pose proof (a_u _ _ _ _ _ _ _ _ _ H) as Hu. split; [exact (u_cur _ _ _ _ _ _ _ _ Hu)|].
        split; [rewrite <- (view_cache er p); exact (u_held _ _ _ _ _ _ _ _ Hu)|rewrite <- (view_latest er p); exact (u_latest _ _ _ _ _ _ _ _ Hu)].
      - pose proof (b_u _ _ _ _ _ _ _ _ _ _ _ _ _ H) as Hu. split; [exact (fly_cur_ok _ _ _ _ _ _ _ _ _ _ _ _ _ H)|].
        split; [rewrite <- (view_cache er p); eapply (fly_held 16 dps hash caching dps32 ltac:(lia)); [exact H|]; apply prot_cur; exact (u_held _ _ _ _ _ _ _ _ Hu)|rewrite <- (view_latest er p); exact (u_latest _ _ _ _ _ _ _ _ Hu)]. }
    destruct s as [y|d p|[d p pi]]; cbn; intros H Hu.
    - destruct H as (sy0 & H & ->). destruct Hu as (p & Hp). cbn in Hp. unfold inv in H. rewrite Hp in H. destruct H as (g & H). exists p, (gh_cur g). split; [exact Hp|].
      split; [exact (u_cur _ _ _ _ _ _ _ _ H)|]. split; [exact (u_held _ _ _ _ _ _ _ _ H)|exact (u_latest _ _ _ _ _ _ _ _ H)].
    - destruct (Ht _ _ _ H) as (G & HG). exists p, G. auto.
    - destruct H as [H|[_ H]]; destruct (Ht _ _ _ H) as (G & HG); exists p, G; auto.
  Qed.
  Theorem pipelined_index_exact tr s st p k pos : mrun healthy tr s -> mshows s st -> y_proc (msys_of s) = Some p ->
    filed (on_disk (y_disk (msys_of s))) (h_tags_root (latest p).2) k pos <-> exists r t, (pos, r) ∈ s_hist st /\ t ∈ er_tags r /\ hash t = k.
  Proof.
    intros Hr (p' & Hp' & Hs & _) Hp. rewrite Hp in Hp'. injection Hp' as <-. destruct (mrun_inv hash order ford caching Hord Hford true tr s Hr) as (sy & _ & Hi & _).
    destruct (minv_held true s sy Hi ltac:(now exists p)) as (p' & G & Hp' & Hc & Hh & El). rewrite Hp in Hp'. injection Hp' as <-.
    destruct (held_index dps hash order ford dps_ok dps32 Hord Hford _ p G Hc Hh) as (hist & hd & ht & P & ts & Hrd & _ & Hsh & Hsrt & Hidx).
    specialize (Hs [] None false None false). rewrite read_all in Hs. cbn [y_disk] in Hrd. rewrite El in *. rewrite Hrd in Hs. injection Hs as -> _.
    rewrite (index_filed _ _ _ _ _ _ _ k pos Hsh Hsrt). apply Hidx.
  Qed.
End props.
(** The pages and the header of a second commit are being written: the index says what the first one stored. *)
Example pipelined_index_example c : exists tr s p, mrun f_hash (fun l => l) x_ford c (healthy 16) tr s /\ mshows f_hash (fun l => l) s p_first /\ y_proc (msys_of s) = Some p /\
  filed (on_disk (y_disk (msys_of s))) (h_tags_root (latest p).2) (f_hash [97]) 1 /\ ~ filed (on_disk (y_disk (msys_of s))) (h_tags_root (latest p).2) (f_hash [97]) 2.
Proof.
  destruct (pipelined_crash_example c) as (tr & s & _ & H & Hs & _). pose proof Hs as (p & Hp & _). exists tr, s, p.
  assert (Hm : mrun f_hash (fun l => l) x_ford c (healthy 16) tr s) by (right; clear -H; induction H; [constructor|]; econstructor; [eassumption|eassumption|apply H1]).
  split; [exact Hm|]. split; [exact Hs|]. split; [exact Hp|]. rewrite !(pipelined_index_exact f_hash (fun l => l) x_ford c x_ord x_ford_ok tr s p_first p _ _ Hm Hs Hp).
  assert (E : exists r, s_hist p_first = [(1, r)] /\ er_tags r = [[97]]) by (eexists; split; [vm_compute; reflexivity|reflexivity]). destruct E as (r & -> & Er). split.
  - exists r, [97]. split; [now left|]. rewrite Er. split; [now left|reflexivity].
  - intros (r' & t & Hin & _). apply elem_of_list_singleton in Hin. discriminate Hin.
Qed.
Print Assumptions pipelined_index_exact.
