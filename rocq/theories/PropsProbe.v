(** C110: what umadb-check says of missing events (Probe.v). *)
From Verif Require Import Probe MvccProofs StoreProofs Exec PropsStore PropsPages PropsFits PropsCrash PropsCheck PropsCheckExact.
Local Open Scope N_scope.

(** Page [q] is within the file as the tool goes through it, and is a leaf of events with the positions [ks]. *)
Definition holds (d : disk) (h : header) (q : N) (ks : list N) : Prop :=
  (exists vs, fetch 16 ∅ d q = Ok (NEvLeaf (EvLeaf ks vs))) /\ (q < h_next_page h \/ forall y, h_next_page h <= y <= q -> written d y).
(** [m]: the positions of [ks], in their order, that the header counts and that come after the events found. *)
Definition absent (h : header) (evs : list seq_event) (k : N) : Prop := from_option fst 0 (last evs) < k /\ k < h_next_pos h.

Lemma past_exact d q l : past d q l -> forall x, x ∈ l <-> q <= x /\ forall y, q <= y <= x -> written d y.
Proof.
  intros H. induction H as [q E|q b E Ez|q b l E Ez _ IH]; intros x.
  - split; [intros Hx; inversion Hx|]. intros (Hq & Hw). destruct (Hw q ltac:(lia)) as (b & c & E' & _). congruence.
  - split; [intros Hx; inversion Hx|]. intros (Hq & Hw). destruct (Hw q ltac:(lia)) as (b' & c & E' & Hc). assert (b' = b) as -> by congruence.
    assert (zero_page b = false) by (apply zero_page_spec; eauto). congruence.
  - apply zero_page_spec in Ez as (c & Hc). assert (Hq : written d q) by (exists b, c; auto). rewrite elem_of_cons, IH. split.
    + intros [-> | [H1 H2]]; [split; [lia|]; intros y Hy; now replace y with q by lia|]. split; [lia|]. intros y Hy. destruct (decide (y = q)) as [->|Hne]; [exact Hq|apply H2; lia].
    + intros [H1 H2]. destruct (decide (x = q)) as [->|Hne]; [now left|right]. split; [lia|]. intros y Hy. apply H2. lia.
Qed.
(** Whatever the file holds: a page is named exactly if it holds a missing position; the number is that of the missing positions on it, and those
    shown are the ten smallest, in order. *)
Theorem probe_exact hash order d h evs fs : probes 16 hash order d h evs (Some fs) ->
  (forall q n s, (q, n, s) ∈ fs -> exists ks m rest, holds d h q ks /\ m `sublist_of` ks /\ (forall k, k ∈ m <-> k ∈ ks /\ absent h evs k) /\
     n = nlen m /\ 0 < n /\ s ++ rest ≡ₚ m /\ nlen s = N.min n 10 /\ Sorted N.le (s ++ rest)) /\
  (forall q ks k, holds d h q ks -> k ∈ ks -> absent h evs k -> exists n s, (q, n, s) ∈ fs).
Proof.
  intros H. inversion H as [|l E1 E2 Hp E]; subst. clear H. set (lo := from_option fst 0 (last evs) + 1) in *. set (hi := h_next_pos h - 1) in *.
  assert (HA : forall k, absent h evs k <-> lo <= k <= hi) by (intros k; unfold absent, lo, hi in *; lia).
  assert (HF : forall ks k, k ∈ List.filter (fun k => (lo <=? k) && (k <=? hi)) ks <-> k ∈ ks /\ absent h evs k).
  { intros ks k. rewrite elem_of_list_In, filter_In, <- elem_of_list_In, andb_true_iff, !N.leb_le, HA. reflexivity. }
  assert (HI : forall q, q ∈ seqN 2 (N.to_nat (h_next_page h - 2)) ++ l <-> 2 <= q < h_next_page h \/ (h_next_page h <= q /\ forall y, h_next_page h <= y <= q -> written d y)).
  { intros q. rewrite elem_of_app, elem_of_seqN, (past_exact _ _ _ Hp). split; (intros [?|?]; [left; lia|now right]). }
  assert (Hsub : forall ks, List.filter (fun k => (lo <=? k) && (k <=? hi)) ks `sublist_of` ks).
  { induction ks as [|k ks IH]; cbn [List.filter]; [constructor|]. destruct (_ && _); now constructor. }
  split.
  - intros q n s Hf. apply elem_of_list_omap in Hf as (q' & Hq & Hm). apply HI in Hq. unfold find_missing in Hm. destruct (fetch 16 ∅ d q') as [[]|] eqn:Ef; try discriminate Hm.
    match type of Ef with _ = Ok (NEvLeaf ?z) => destruct z as [ks vs] end. cbn [ev_keys] in Hm.
    destruct (List.filter _ ks) as [|k0 m0] eqn:Em; [discriminate Hm|]. set (m := k0 :: m0) in *. injection Hm as <- <- <-.
    exists ks, m, (drop (N.to_nat (N.min (nlen m) 10)) (merge_sort N.le m)). rewrite take_drop. split; [split; [eauto|]|].
    { destruct (decide (q' < h_next_page h)); [now left|]. destruct Hq as [Hq|[_ Hq]]; [lia|right; exact Hq]. }
    split; [rewrite <- Em; apply Hsub|]. split; [intros k; rewrite <- Em; apply HF|]. split; [reflexivity|]. split; [unfold m, nlen; cbn [length]; lia|]. split; [apply merge_sort_Permutation|]. split.
    + unfold nlen at 1. rewrite take_length, merge_sort_Permutation. unfold nlen in *. lia.
    + apply Sorted_merge_sort. intros a b. lia.
  - intros q ks k [[vs Ef] Hq] Hk Ha. assert (Hin : k ∈ List.filter (fun k => (lo <=? k) && (k <=? hi)) ks) by (apply HF; auto).
    destruct (List.filter _ ks) as [|k0 m0] eqn:Em; [inversion Hin|]. exists (nlen (k0 :: m0)), (take (N.to_nat (N.min (nlen (k0 :: m0)) 10)) (merge_sort N.le (k0 :: m0))).
    apply elem_of_list_omap. exists q. split.
    + assert (2 <= q) by (unfold fetch in Ef; destruct (N.ltb_spec q 2); [discriminate Ef|assumption]). apply HI. destruct (decide (q < h_next_page h)); [left; lia|right]. destruct Hq as [Hq|Hq]; [lia|]. split; [lia|exact Hq].
    + unfold find_missing. rewrite Ef. cbn [ev_keys]. now rewrite Em.
Qed.
(** It looks for them exactly if there are any. *)
Theorem probe_when hash order d h evs fs : probes 16 hash order d h evs fs -> (fs <> None <-> exists k, absent h evs k).
Proof.
  unfold absent. intros [H|l E1 E2 Hp].
  - split; [intros X; now exfalso|]. intros (k & H1 & H2). exfalso. destruct H as [H|H]; [|lia]. unfold events_ok in H. cbv zeta in H. rewrite !andb_true_iff in H. destruct H as [[H _] _]. apply N.eqb_eq in H. lia.
  - split; [|discriminate]. intros _. exists (from_option fst 0 (last evs) + 1). lia.
Qed.
(** The search comes to its end, as the file does. *)
Theorem probe_ends hash order d h evs m : h_next_page h <= m -> d_cur d m = None -> exists fs, probes 16 hash order d h evs fs.
Proof.
  intros Hm E. assert (Hp : exists l, past d (h_next_page h) l).
  { remember (N.to_nat (m - h_next_page h)) as n eqn:En. generalize dependent (h_next_page h). induction n as [|n IH]; intros q Hq En; [replace q with m by lia; eauto using past_end|].
    destruct (d_cur d q) as [b|] eqn:Eb; [|eauto using past_end]. destruct (zero_page b) eqn:Ez; [eauto using past_zero|]. destruct (IH (q + 1)) as [l Hl]; [lia|lia|]. eauto using past_more. }
  destruct Hp as [l Hl]. destruct (events_ok h evs (check_read 16 hash order d h None true 1)) eqn:Ee; [exists None; apply probes_not; now left|].
  destruct (N.lt_ge_cases (h_next_pos h - 1) (from_option fst 0 (last evs) + 1)) as [H|H]; [exists None; apply probes_not; now right|]. eexists. eapply probes_done; eassumption.
Qed.
(** On a file that only the store has written, whatever it has been through, nothing is missing and nothing is looked for. *)
Section store.
  Context (ps : N) (hash : bytes -> bytes) (order : list bytes -> list bytes) (ford : gset N -> list N) (caching : bool).
  Context (Hps : TreeLaws.ps_ok ps) (Hps32 : ps < U32) (Hord : forall l t, t ∈ order l <-> t ∈ l) (Hford : forall s, ford s ≡ₚ elements s).
  Theorem nothing_missing tr d d' p r fs : run ps hash order ford caching tr (Sys d None) -> check 16 ps hash order d d' (Ok r) -> open_db 16 ps d = Ok (d', p) ->
    probes 16 hash order d' (latest p).2 (c_events r) fs -> fs = None.
  Proof.
    intros Hrun Hc Eo Hp. destruct (check_finds_all ps hash order ford caching Hps Hps32 Hord Hford _ _ _ _ Hrun Hc) as (p' & st & r' & P & F & _ & _ & Er & _ & _ & _ & Hx & _). injection Er as <-.
    destruct Hp as [|l E1 E2 _]; [reflexivity|]. exfalso. inversion Hc as [|d0 p0 l0 evs r0 Eo' Hb Hs Ea Eb]; subst. rewrite Eo in Eo'. injection Eo' as <-. cbn [c_events c_problems] in *.
    destruct (Hx (QEnd (from_option fst 0 (last evs)))) as [(q & E & _)|[(q & E & _)|[E _]]]; try discriminate E.
    rewrite !elem_of_app. do 3 right. unfold judge. cbv zeta. rewrite !elem_of_app. right. right. left. rewrite (proj2 (N.eqb_neq _ _)) by lia. left.
  Qed.
End store.
(** What it calls missing need not be.  One page of a longer event is damaged; the event is the third of four.  The first two and the fourth can be read one
    by one.  The tool reads 1024 at a time, gives up all of them for the one error, says that the events end at 0, and reports all four
    on the leaf they are on, and a copy of the first on a page no longer in use. *)
Theorem missing_events_refuted : exists tr d q d' p r, x_run tr (Sys d None) /\ check 16 1024 x_hash (fun l => l) (r_put q (Some [0; 7]) d) d' (Ok r) /\
  open_db 16 1024 (r_put q (Some [0; 7]) d) = Ok (d', p) /\ let h := (latest p).2 in
  (forall k, k ∈ [1; 2; 4] -> exists e, check_read 16 x_hash (fun l => l) d' h (Some k) false 1 = Ok [e] /\ e.1 = k) /\
  c_events r = [] /\ QEnd 0 ∈ c_problems r /\ probes 16 x_hash (fun l => l) d' h (c_events r) (Some [(3, 4, [1; 2; 3; 4]); (6, 1, [1])]).
Proof.
  set (reads1 := fun (d : disk) (h : header) (k : N) => match check_read 16 x_hash (fun l => l) d h (Some k) false 1 with Ok [e] => e.1 =? k | _ => false end).
  destruct (stop_found c_script (fun d => match check_x 1024 x_hash (r_put 4 (Some [0; 7]) d), open_db 16 1024 (r_put 4 (Some [0; 7]) d) with
    | Some (d', r), Ok (d'', p) => let h := (latest p).2 in forallb (reads1 d'' h) [1; 2; 4] && bool_decide (c_events r = []) && bool_decide (QEnd 0 ∈ c_problems r) &&
        bool_decide (d_cur d'' (h_next_page h) = None) && (h_next_pos h =? 5) &&
        bool_decide (omap (find_missing 16 d'' 1 4) ([0; 1] ++ seqN 2 (N.to_nat (h_next_page h - 2)) ++ []) = [(3, 4, [1; 2; 3; 4]); (6, 1, [1])])
    | _, _ => false end)) as (tr & d & H & HP & _); [vm_compute; reflexivity|].
  destruct (check_x 1024 x_hash _) as [[d' r]|] eqn:E; [|discriminate]. destruct (open_db 16 1024 _) as [[d'' p]|] eqn:Eo; [|discriminate].
  cbv zeta in HP. rewrite !andb_true_iff in HP. destruct HP as (((((H1 & H2) & H3) & H4) & H5) & H6). apply bool_decide_eq_true in H2, H3, H4, H6. apply N.eqb_eq in H5.
  apply check_x_ok in E. assert (d'' = d') as -> by (inversion E; congruence).
  exists tr, d, 4, d', p, r. split; [exact H|]. split; [exact E|]. split; [exact Eo|]. cbv zeta. split; [|split; [exact H2|split; [exact H3|]]].
  - intros k Hk. assert (Hr : reads1 d' (latest p).2 k = true) by (apply (proj1 (forallb_forall _ _) H1), elem_of_list_In, Hk). unfold reads1 in Hr.
    destruct (check_read _ _ _ _ _ _ _ _) as [[|e [|? ?]]|]; try discriminate Hr. exists e. split; [reflexivity|now apply N.eqb_eq].
  - rewrite H2, <- H6. pose proof (probes_done 16 x_hash (fun l => l) d' (latest p).2 [] []) as X. cbn [last from_option] in X. rewrite H5 in X. apply X; [|discriminate|now apply past_end].
    unfold events_ok. rewrite H5. reflexivity.
Qed.
Example nothing_missing_example : exists tr d d' p r, x_run tr (Sys d None) /\ check 16 1024 x_hash (fun l => l) d d' (Ok r) /\ open_db 16 1024 d = Ok (d', p) /\ map fst (c_events r) = [1; 2; 3; 4] /\
  probes 16 x_hash (fun l => l) d' (latest p).2 (c_events r) None.
Proof.
  destruct (stop_found c_script (fun d => match check_x 1024 x_hash d, open_db 16 1024 d with
    | Some (d', r), Ok (d'', p) => bool_decide (map fst (c_events r) = [1; 2; 3; 4]) && (from_option fst 0 (last (c_events r)) =? 4) && (h_next_pos (latest p).2 =? 5)
    | _, _ => false end)) as (tr & d & H & HP & _); [vm_compute; reflexivity|].
  destruct (check_x 1024 x_hash d) as [[d' r]|] eqn:E; [|discriminate]. destruct (open_db 16 1024 d) as [[d'' p]|] eqn:Eo; [|discriminate].
  rewrite !andb_true_iff in HP. destruct HP as ((H1 & H2) & H3). apply bool_decide_eq_true in H1. apply N.eqb_eq in H2, H3.
  apply check_x_ok in E. assert (d'' = d') as -> by (inversion E; congruence).
  exists tr, d, d', p, r. split; [exact H|]. split; [exact E|]. split; [reflexivity || exact Eo|]. split; [exact H1|]. apply probes_not. right. rewrite H2, H3. reflexivity.
Qed.
Print Assumptions probe_exact.
Print Assumptions probe_when.
Print Assumptions probe_ends.
Print Assumptions nothing_missing.
Print Assumptions missing_events_refuted.
