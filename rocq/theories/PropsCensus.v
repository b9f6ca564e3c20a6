(** C111: the pages umadb-check counts, and what it calls them (Census.v). *)
From Coq Require Import String.
From stdpp Require Import strings.
From Verif Require Import Census MvccProofs StoreProofs Exec PropsStore PropsPages PropsFits PropsCrash PropsCheck PropsCheckExact PropsProbe.
Local Open Scope N_scope.

(** ** The count *)
(** The pages looked at: the headers that are there, all below the high-water mark, and the written run past it. *)
Definition looked_at (d : disk) (h : header) (q : N) : Prop :=
  (q < 2 /\ d_cur d q <> None) \/ 2 <= q < h_next_page h \/ (h_next_page h <= q /\ forall y, h_next_page h <= y <= q -> written d y).
Fixpoint times (s : string) (l : list string) : N := match l with [] => 0 | x :: l' => (if decide (x = s) then 1 else 0) + times s l' end.
Lemma count_fold l : forall m s, default 0 (fold_left count_one l m !! s) = default 0 (m !! s) + times s l /\ (fold_left count_one l m !! s = None <-> m !! s = None /\ times s l = 0).
Proof.
  induction l as [|x l IH]; intros m s; cbn [fold_left times]; [split; [lia|intuition]|]. destruct (IH (count_one m x) s) as [E1 E2]. rewrite E1, E2. unfold count_one.
  destruct (decide (x = s)) as [->|Hne]; [rewrite lookup_insert|rewrite lookup_insert_ne by exact Hne]; cbn [from_option]; [|split; [lia|reflexivity]].
  unfold default, from_option, id. split; [lia|]. split; [intros [? _]; discriminate|intros [_ ?]; lia].
Qed.
Lemma times_filter (f : N -> string) s ps : times s (map f ps) = nlen (List.filter (fun q => bool_decide (f q = s)) ps).
Proof.
  induction ps as [|q ps IH]; [reflexivity|]. cbn [map times List.filter]. rewrite IH. case_bool_decide as E; [rewrite decide_True by exact E|rewrite decide_False by exact E]; unfold nlen; cbn [length]; lia.
Qed.
(** A type is in the list with a number exactly if that many of these pages, and at least one, are counted under it. *)
Theorem counts_exact d h l s n : 2 <= h_next_page h -> past d (h_next_page h) l ->
  (counts 16 d h l !! s = Some n <-> 0 < n /\ exists ps, NoDup ps /\ nlen ps = n /\ forall q, q ∈ ps <-> looked_at d h q /\ counted_as 16 (d_cur d q) = s).
Proof.
  intros H2 Hp. unfold counts. set (all := _ ++ _ ++ l).
  assert (Hall : forall q, q ∈ all <-> looked_at d h q).
  { intros q. unfold all, looked_at. rewrite !elem_of_app, elem_of_seqN, (past_exact _ _ _ Hp), elem_of_list_In, filter_In, <- elem_of_list_In, !elem_of_cons, elem_of_nil.
    assert (X : (q = 0 \/ q = 1 \/ False) <-> q < 2) by lia. rewrite X. assert (Y : match d_cur d q with Some _ => true | None => false end = true <-> d_cur d q <> None) by (destruct (d_cur d q); split; congruence). rewrite Y.
    assert (Z : 2 <= q < 2 + N.of_nat (N.to_nat (h_next_page h - 2)) <-> 2 <= q < h_next_page h) by lia. rewrite Z. reflexivity. }
  assert (Hnd : NoDup all).
  { unfold all. apply NoDup_app. split; [|split].
    - apply NoDup_ListNoDup, List.NoDup_filter, NoDup_ListNoDup. repeat constructor; set_solver.
    - intros q Hq. rewrite elem_of_list_In, filter_In, <- elem_of_list_In, !elem_of_cons, elem_of_nil in Hq. rewrite elem_of_app, elem_of_seqN, (past_exact _ _ _ Hp). lia.
    - apply NoDup_app. split; [apply NoDup_seqN|]. split; [intros q; rewrite elem_of_seqN, (past_exact _ _ _ Hp); lia|].
      clear - Hp. induction Hp as [| |q b l E Ez Hp IH]; [constructor|constructor|]. constructor; [|exact IH]. rewrite (past_exact _ _ _ Hp). lia. }
  destruct (count_fold (map (fun q => counted_as 16 (d_cur d q)) all) ∅ s) as [E1 E2]. rewrite lookup_empty in E1, E2. cbn [from_option] in E1. rewrite times_filter in E1, E2.
  set (ps := List.filter _ all) in *. assert (Hps : forall q, q ∈ ps <-> looked_at d h q /\ counted_as 16 (d_cur d q) = s).
  { intros q. unfold ps. rewrite elem_of_list_In, filter_In, <- elem_of_list_In, Hall, bool_decide_eq_true. reflexivity. }
  assert (Hpn : NoDup ps) by (unfold ps; apply NoDup_ListNoDup, List.NoDup_filter, NoDup_ListNoDup, Hnd).
  split.
  - intros E. rewrite E in E1, E2. unfold default, from_option, id in E1. assert (nlen ps <> 0) by (intros E0; destruct E2 as [_ E2]; discriminate E2; auto). split; [lia|]. exists ps. split; [exact Hpn|]. split; [lia|exact Hps].
  - intros (Hn & qs & Hqn & <- & Hqs). assert (P : qs ≡ₚ ps) by (apply NoDup_Permutation; [assumption|assumption|intros q; now rewrite Hqs, Hps]).
    assert (Pl : nlen qs = nlen ps) by (unfold nlen; now rewrite P). rewrite Pl in *. destruct (fold_left _ _ _ !! s) as [k|]; [unfold default, from_option, id in E1; rewrite N.add_0_l in E1; f_equal; exact E1|]. exfalso. destruct E2 as [E2 _]. destruct (E2 eq_refl). lia.
Qed.

(** ** The names *)
Lemma node_de_type kw c b n : node_de kw c b = Ok n -> type_byte n = c.
Proof.
  unfold node_de.
  repeat (match goal with |- context [if ?x =? ?y then _ else _] => destruct (N.eqb_spec x y) as [->|_] end; [unfold res_map; match goal with |- context [match ?r with Ok _ => _ | Err _ => _ end] => destruct r end; intros [= <-]; reflexivity|]).
  discriminate.
Qed.
Lemma page_de_type kw c b n : page_de kw (c :: b) = Ok n -> type_byte n = c.
Proof.
  unfold page_de. destruct (_ <? _); [discriminate|]. replace (slice_range 0 1 (c :: b)) with (@Ok bytes [c]) by reflexivity. cbn [rbind].
  destruct (slice_range 1 5 _) as [?|?]; cbn [rbind]; [|discriminate]. destruct (slice_range 5 9 _) as [?|?]; cbn [rbind]; [|discriminate].
  destruct (_ <? _); [discriminate|]. destruct (slice_range 9 _ _) as [?|?]; cbn [rbind]; [|discriminate]. destruct (_ =? _); [|discriminate].
  intros E%node_de_type. rewrite E. cbn. lia.
Qed.
Lemma name_of_type n n' : type_byte n = type_byte n' -> type_name n = type_name n'.
Proof. destruct n, n'; cbn; congruence. Qed.
(** Of a page written as [n] whatever is left, as long as its first byte is: it is counted as what it was. *)
Theorem damaged_page_named kw ps n b b' : page_ser kw ps n = Ok b -> head b' = head b -> (forall i, n <> NTrkInt i) -> counted_as kw (Some b') = type_name n.
Proof.
  unfold page_ser. destruct (node_ser kw n) as [body|]; cbn [rbind]; [|discriminate]. destruct (_ <? _); [discriminate|]. intros [= <-] Hh Hn. cbn [app head] in Hh.
  destruct b' as [|c b']; [discriminate|]. injection Hh as ->. unfold counted_as, dec. destruct (page_de kw _) as [n'|] eqn:E.
  - apply page_de_type in E. now apply name_of_type.
  - destruct n; try reflexivity. now destruct (Hn n).
Qed.
(** An undamaged page is counted as what it is, of all types. *)
Theorem page_named kw n b : page_de kw b = Ok n -> counted_as kw (Some b) = type_name n.
Proof. intros E. unfold counted_as, dec. now rewrite E. Qed.
(** Not so the inner pages of the tracking tree: damaged, they are counted as unknown, although the first byte says what they are. *)
Theorem damaged_page_named_refuted : exists ps n b b', page_ser 16 ps n = Ok b /\ head b' = head b /\ length b' = length b /\ type_name n = "TrackingInternal"%string /\ counted_as 16 (Some b) = type_name n /\ counted_as 16 (Some b') = "unknown"%string.
Proof.
  exists 60, (NTrkInt (INode [[98;99]] [5;6])). eexists. exists (101 :: replicate 59 7). split; [vm_compute; reflexivity|]. repeat split; vm_compute; reflexivity.
Qed.
Example damaged_page_example : exists b, page_ser 16 60 (NTrkLeaf (TrkLeaf [] [])) = Ok b /\ b <> 100 :: replicate 59 7 /\ head (100 :: replicate 59 7) = head b /\ counted_as 16 (Some (100 :: replicate 59 7)) = "TrackingLeaf"%string.
Proof. eexists. split; [vm_compute; reflexivity|]. split; [discriminate|]. split; vm_compute; reflexivity. Qed.
(** A file with four events, one of its pages overwritten and another put past its end. *)
Example counts_example : exists tr d p d', x_run tr (Sys d None) /\ open_db 16 1024 (r_put 4 (Some [0; 7]) d) = Ok (d', p) /\ let h := (latest p).2 in let d2 := r_put (h_next_page h) (Some [52; 7]) d' in
  2 <= h_next_page h /\ past d2 (h_next_page h) [h_next_page h] /\ counts 16 d2 h [h_next_page h] !! "Header"%string = Some 2 /\ counts 16 d2 h [h_next_page h] !! "unknown"%string = Some 1 /\
  exists n, counts 16 d' h [] !! "EventLeaf"%string = Some n /\ counts 16 d2 h [h_next_page h] !! "EventLeaf"%string = Some (n + 1).
Proof.
  destruct (stop_found c_script (fun d => match open_db 16 1024 (r_put 4 (Some [0; 7]) d) with
    | Ok (d', p) => let h := (latest p).2 in let d2 := r_put (h_next_page h) (Some [52; 7]) d' in (2 <=? h_next_page h) && bool_decide (d_cur d2 (h_next_page h) = Some [52; 7]) && bool_decide (d_cur d2 (h_next_page h + 1) = None) &&
      bool_decide (counts 16 d2 h [h_next_page h] !! "Header"%string = Some 2) && bool_decide (counts 16 d2 h [h_next_page h] !! "unknown"%string = Some 1) &&
      match counts 16 d' h [] !! "EventLeaf"%string with Some n => bool_decide (counts 16 d2 h [h_next_page h] !! "EventLeaf"%string = Some (n + 1)) | None => false end
    | _ => false end)) as (tr & d & H & HP & _); [vm_compute; reflexivity|].
  destruct (open_db 16 1024 _) as [[d' p]|] eqn:Eo; [|discriminate]. cbv zeta in HP. rewrite !andb_true_iff in HP. destruct HP as (((((H1 & H2) & H3) & H4) & H5) & H6). apply N.leb_le in H1. apply bool_decide_eq_true in H2, H3, H4, H5.
  exists tr, d, p, d'. split; [exact H|]. split; [exact Eo|]. cbv zeta. split; [exact H1|]. split; [eapply past_more; [exact H2|reflexivity|apply past_end, H3]|]. split; [exact H4|]. split; [exact H5|].
  destruct (counts 16 d' _ [] !! _) as [n|]; [|discriminate]. exists n. split; [reflexivity|]. now apply bool_decide_eq_true in H6.
Qed.
Print Assumptions counts_exact.
Print Assumptions damaged_page_named.
Print Assumptions page_named.
Print Assumptions damaged_page_named_refuted.
