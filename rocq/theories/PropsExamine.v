(** C112: which pages umadb-check examines in stage 4, and what it gets from them (Examine.v). *)
From Verif Require Import Examine Census MvccProofs StoreProofs CodecProofs Exec PropsStore PropsPages PropsFits PropsCrash PropsCheck PropsCheckExact PropsProbe PropsForensic PropsIndex PropsCensus.
Local Open Scope N_scope.

(** The page is there, its first byte is that of a leaf of the tag index, and it cannot be decoded. *)
Definition failed_leaf (d : disk) (q : N) : Prop := on_disk d q = None /\ exists r, d_cur d q = Some (54 :: r).
Lemma failed_spec d q : failed_tags_leaf 16 d q = true <-> failed_leaf d q.
Proof.
  unfold failed_tags_leaf, failed_leaf, on_disk, dec. destruct (d_cur d q) as [[|b r]|]; [split; [discriminate|intros [_ [? ?]]; discriminate]| |split; [discriminate|intros [_ [? ?]]; discriminate]].
  rewrite andb_true_iff, negb_true_iff, N.eqb_eq. destruct (page_de 16 (b :: r)); cbn [is_ok]; split.
  - intros [_ ?]; discriminate.
  - intros [? _]; discriminate.
  - intros [-> _]. eauto.
  - intros [_ [r' [= -> ->]]]. auto.
Qed.
(** Exactly these are examined, of the pages that are not headers; once each, and it is said right whether they lie past the mark. *)
Theorem examined_exact d h l : 2 <= h_next_page h -> past d (h_next_page h) l ->
  NoDup (map fst (examined 16 d h l)) /\
  forall q b, (q, b) ∈ examined 16 d h l <-> 2 <= q /\ looked_at d h q /\ failed_leaf d q /\ b = (h_next_page h <=? q).
Proof.
  intros H2 Hp. pose proof (past_exact _ _ _ Hp) as Hl.
  assert (F : forall (L : list N) q, q ∈ List.filter (failed_tags_leaf 16 d) L <-> q ∈ L /\ failed_leaf d q) by (intros L q; rewrite elem_of_list_In, filter_In, <- elem_of_list_In, failed_spec; reflexivity).
  unfold examined. split.
  - rewrite map_app, !map_map. cbn [fst]. rewrite !map_id. apply NoDup_app. split; [apply NoDup_ListNoDup, List.NoDup_filter, NoDup_ListNoDup, NoDup_seqN|]. split.
    + intros q. rewrite !F, elem_of_seqN, Hl. lia.
    + apply NoDup_ListNoDup, List.NoDup_filter, NoDup_ListNoDup. clear - Hp. induction Hp as [| |q b l E Ez Hp IH]; [constructor|constructor|]. constructor; [|exact IH]. rewrite (past_exact _ _ _ Hp). lia.
  - intros q b. rewrite elem_of_app. unfold looked_at.
    assert (M : forall c L, (q, b) ∈ map (fun x : N => (x, c)) L <-> q ∈ L /\ b = c).
    { intros c L. rewrite elem_of_list_fmap. split; [intros (x & [= -> ->] & Hx); auto|intros [Hx ->]; eauto]. }
    rewrite !M, !F, elem_of_seqN, Hl. split.
    + intros [[[Hq Hf] ->]|[[[Hq Hw] Hf] ->]].
      * split; [lia|]. split; [right; left; lia|]. split; [exact Hf|]. symmetry. apply N.leb_gt. lia.
      * split; [lia|]. split; [right; right; auto|]. split; [exact Hf|]. symmetry. now apply N.leb_le.
    + intros (Hq & [[Hx _]|[Hx|[Hx Hw]]] & Hf & ->); [lia|left|right].
      * split; [split; [lia|exact Hf]|apply N.leb_gt; lia].
      * split; [split; [split; [exact Hx|exact Hw]|exact Hf]|now apply N.leb_le].
Qed.
(** If the tool finds nothing wrong, there is nothing to examine; and it names every page it examines. *)
Theorem examined_named ps hash order d d' p r l q (b : bool) : check 16 ps hash order d d' (Ok r) -> open_db 16 ps d = Ok (d', p) -> 2 <= h_next_page (latest p).2 -> past d' (h_next_page (latest p).2) l ->
  (q, b) ∈ examined 16 d' (latest p).2 l -> (if b then QBeyond q else QPage q) ∈ c_problems r.
Proof.
  intros Hc Eo H2 Hp Hx. apply examined_exact in Hx as (Hq & Hl & [Hf _] & ->); [|exact H2|exact Hp]. destruct (check_pages_exact _ _ _ _ _ _ _ q Hc Eo) as [E1 E2].
  destruct (N.leb_spec (h_next_page (latest p).2) q) as [H|H].
  - apply E1. destruct Hl as [[? _]|[?|[_ Hw]]]; [lia|lia|auto].
  - apply E2. split; [lia|]. unfold fetch. rewrite (proj2 (N.ltb_ge _ _)) by lia. rewrite lookup_empty. unfold on_disk in Hf. destruct (dec 16 (d_cur d' q)); [discriminate|eauto].
Qed.
Corollary pass_nothing_examined ps hash order d d' p r l : check 16 ps hash order d d' (Ok r) -> open_db 16 ps d = Ok (d', p) -> 2 <= h_next_page (latest p).2 -> past d' (h_next_page (latest p).2) l ->
  passes r -> examined 16 d' (latest p).2 l = [].
Proof.
  intros Hc Eo H2 Hp Hr. destruct (examined 16 d' _ l) as [|[q b] L] eqn:E; [reflexivity|]. exfalso. pose proof (examined_named _ _ _ _ _ _ _ _ q b Hc Eo H2 Hp) as H. rewrite E in H. specialize (H (elem_of_list_here _ _)).
  unfold passes in Hr. rewrite Hr in H. inversion H.
Qed.
(** A leaf of the tag index, written by the store, of whose page header anything but the first byte is damaged: it can still be read as a leaf, or it is examined, and
    every entry of it is found. *)
Theorem damaged_leaf_recovered ps n b hdr d h l q events : page_ser 16 ps (NTagsLeaf n) = Ok b -> tags_leaf_ok 16 n -> length hdr = 8%nat -> 2 <= q -> 2 <= h_next_page h -> past d (h_next_page h) l -> looked_at d h q ->
  d_cur d q = Some (54 :: hdr ++ drop 9 b) ->
  (exists n', on_disk d q = Some (NTagsLeaf n')) \/
  (q, h_next_page h <=? q) ∈ examined 16 d h l /\ exists x, forensic_page (54 :: hdr ++ drop 9 b) 16 events = Ok (analyze_entries 16 events (entries_of n), x).
Proof.
  intros E Hn Hh Hq H2 Hp Hl Eq. unfold page_ser in E. cbn [node_ser rbind] in E. destruct (_ <? _); [discriminate|]. injection E as <-.
  destruct (on_disk d q) as [n'|] eqn:Ed.
  - left. unfold on_disk, dec in Ed. rewrite Eq in Ed. destruct (page_de 16 _) as [n2|] eqn:Ep; [|discriminate]. injection Ed as <-. apply page_de_type in Ep. destruct n2; try discriminate Ep. eauto.
  - right. split; [apply examined_exact; [exact H2|exact Hp|]; split; [exact Hq|]; split; [exact Hl|]; split; [split; [exact Ed|eauto]|reflexivity]|].
    change (54 :: hdr ++ ?x) with ((54 :: hdr) ++ x). set (t := _ ++ replicate _ 0).
    match goal with |- context [drop 9 ?y] => replace (drop 9 y) with (tags_leaf_ser 16 n ++ replicate (N.to_nat (ps - PAGE_HEADER_SIZE - nlen (tags_leaf_ser 16 n))) 0) by reflexivity end.
    apply forensic_page_exact; [lia|cbn [length]; lia|exact Hn].
Qed.
(** The reading with keys of eight bytes: of a leaf of the older form everything is counted, whatever its page header and whatever is after it. *)
Theorem core_legacy_exact hdr n pad : length hdr = 9%nat -> tags_leaf_ok 8 n ->
  core_legacy (hdr ++ tags_leaf_ser 8 n ++ pad) = Some (nlen (tl_keys n), nlen (pairs (entries_of n))).
Proof.
  intros Hh Hn. unfold core_legacy. rewrite (proj2 (Nat.leb_le _ _)) by (rewrite app_length; lia). rewrite drop_app_alt by (symmetry; exact Hh).
  rewrite (leaf_steady 8 _ n pad); [|apply tags_leaf_rt; [lia|exact Hn]]. f_equal. f_equal. destruct Hn as (_ & _ & Hlen & _). unfold entries_of, pairs.
  destruct n as [ks vs]. cbn [tl_keys tl_values] in *. revert ks Hlen. induction vs as [|v vs IH]; intros [|k ks] Hlen; try discriminate Hlen; [reflexivity|].
  cbn [map foldr zip zip_with flat_map fst snd]. unfold nlen in *. rewrite app_length, map_length, (IH ks) by (cbn in Hlen; congruence). lia.
Qed.
(** Whatever the page holds: the two readings with keys of eight bytes report the same numbers, and the strict one fails exactly when the tolerant one has something to note. *)
Lemma read_list_len {A} (rd : reader A) n s l r : read_list rd n s = Ok (l, r) -> length l = n.
Proof.
  revert s l. induction n as [|n IH]; intros s l; cbn [read_list]; [intros [= <- _]; reflexivity|]. destruct (rd s) as [[x s']|]; [|discriminate]. cbn [rbind].
  destruct (read_list rd n s') as [[xs s'']|] eqn:E; [|discriminate]. cbn [rbind]. intros [= <- <-]. cbn. f_equal. exact (IH _ _ E).
Qed.
Theorem legacy_readings_agree hdr body : length hdr = 9%nat ->
  exists es notes, forensic_parse_tags_leaf body 8 = Ok (es, notes) /\
    (notes = [] -> core_legacy (hdr ++ body) = Some (nlen es, nlen (pairs es))) /\ (notes <> [] -> core_legacy (hdr ++ body) = None).
Proof.
  intros Hh. unfold core_legacy. rewrite (proj2 (Nat.leb_le _ _)) by (rewrite app_length; lia). rewrite drop_app_alt by (symmetry; exact Hh).
  pose proof (forensic_exact body 8 ltac:(lia)) as F. destruct (tags_leaf_de 8 body) as [n|] eqn:E; [|destruct F as (es & nt & F); exists es, [nt]; split; [exact F|split; [discriminate|reflexivity]]].
  exists (entries_of n), []. split; [exact F|]. split; [|congruence]. intros _.
  assert (Hlen : length (tl_keys n) = length (tl_values n)).
  { unfold tags_leaf_de in E. destruct (read_u16 body) as [[m s]|]; [|discriminate]. cbn [rbind] in E. destruct (read_list (read_tag_hash 8) (N.to_nat m) s) as [[ks s']|] eqn:E1; [|discriminate]. cbn [rbind] in E.
    destruct (read_list read_tags_value (N.to_nat m) s') as [[vs s'']|] eqn:E2; [|discriminate]. cbn [rbind] in E. injection E as <-. cbn [tl_keys tl_values]. rewrite (read_list_len _ _ _ _ _ E1). symmetry. exact (read_list_len _ _ _ _ _ E2). }
  clear - Hlen. f_equal. unfold entries_of, pairs. destruct n as [ks vs]. cbn [tl_keys tl_values] in *. f_equal.
  - unfold nlen. f_equal. rewrite zip_with_length, map_length. lia.
  - revert ks Hlen. induction vs as [|v vs IH]; intros [|k ks] Hlen; try discriminate Hlen; [reflexivity|].
    cbn [map foldr zip zip_with flat_map fst snd]. unfold nlen in *. rewrite app_length, map_length, (IH ks) by (cbn in Hlen; congruence). lia.
Qed.
(** A file with four events: the page header of an older copy of the leaf of the tag index is overwritten, and the leaf itself is found once more past the end, damaged in the
    same way.  Both are examined and named; the one past the end still shows all entries. *)
Definition hurt (d : disk) (q q' : N) : disk := match d_cur d q with Some b => r_put q' (Some (54 :: replicate 8 0 ++ drop 9 b)) d | None => d end.
Example examined_example : exists tr d d' p r, x_run tr (Sys d None) /\ check 16 1024 x_hash (fun l => l) (hurt (hurt d 5 5) 2 11) d' (Ok r) /\ open_db 16 1024 (hurt (hurt d 5 5) 2 11) = Ok (d', p) /\
  h_next_page (latest p).2 = 11 /\ past d' 11 [11] /\ examined 16 d' (latest p).2 [11] = [(5, false); (11, true)] /\ c_problems r = [QPage 5; QBeyond 11] /\
  exists n b x, on_disk d' 2 = Some (NTagsLeaf n) /\ tl_keys n <> [] /\ d_cur d' 11 = Some b /\ forensic_page b 16 (fun _ => None) = Ok (analyze_entries 16 (fun _ => None) (entries_of n), x) /\ 0 < a_total (analyze_entries 16 (fun _ => None) (entries_of n)).
Proof.
  destruct (stop_found c_script (fun d => match check_x 1024 x_hash (hurt (hurt d 5 5) 2 11), open_db 16 1024 (hurt (hurt d 5 5) 2 11) with
    | Some (d', r), Ok (d'', p) => (h_next_page (latest p).2 =? 11) && match d_cur d'' 11 with Some b => negb (zero_page b) | None => false end && bool_decide (d_cur d'' 12 = None) &&
        bool_decide (examined 16 d'' (latest p).2 [11] = [(5, false); (11, true)]) && bool_decide (c_problems r = [QPage 5; QBeyond 11]) &&
        match on_disk d'' 2, d_cur d'' 11 with
        | Some (NTagsLeaf n), Some b => negb (bool_decide (tl_keys n = [])) && (0 <? a_total (analyze_entries 16 (fun _ => None) (entries_of n))) &&
            match forensic_parse_tags_leaf (drop 9 b) 16 with Ok (es, _) => bool_decide (es = entries_of n) && (9 <=? length b)%nat | Err _ => false end
        | _, _ => false end
    | _, _ => false end)) as (tr & d & H & HP & _); [vm_compute; reflexivity|].
  destruct (check_x 1024 x_hash _) as [[d' r]|] eqn:E; [|discriminate]. destruct (open_db 16 1024 _) as [[d'' p]|] eqn:Eo; [|discriminate].
  apply check_x_ok in E. assert (d'' = d') as -> by (inversion E; congruence).
  rewrite !andb_true_iff in HP. destruct HP as (((((H1 & H2) & H3) & H4) & H5) & H6). apply N.eqb_eq in H1. apply bool_decide_eq_true in H3, H4, H5.
  exists tr, d, d', p, r. split; [exact H|]. split; [exact E|]. split; [exact Eo|]. split; [exact H1|].
  destruct (d_cur d' 11) as [b|] eqn:Eb; [|discriminate]. apply negb_true_iff in H2.
  split; [eapply past_more; [exact Eb|exact H2|apply past_end, H3]|]. split; [exact H4|]. split; [exact H5|].
  destruct (on_disk d' 2) as [[| | | | | |n| | | | | | |]|]; try discriminate H6. rewrite !andb_true_iff in H6. destruct H6 as ((H6 & H7) & H8). apply negb_true_iff, bool_decide_eq_false in H6. apply N.ltb_lt in H7.
  destruct (forensic_parse_tags_leaf (drop 9 b) 16) as [[es nt]|] eqn:Ef; [|discriminate]. rewrite andb_true_iff in H8. destruct H8 as [H8 H9]. apply bool_decide_eq_true in H8. subst es.
  pose proof (forensic_exact (drop 9 b) 8 ltac:(lia)) as F8.
  assert (exists es nt, forensic_parse_tags_leaf (drop 9 b) 8 = Ok (es, nt)) as (es & nt' & E8) by (destruct (tags_leaf_de 8 (drop 9 b)); [eauto|destruct F8 as (? & ? & ->); eauto]).
  exists n, b, (analyze_entries 8 (fun _ => None) es). split; [reflexivity|]. split; [exact H6|]. split; [reflexivity|]. split; [|exact H7]. unfold forensic_page. rewrite H9, Ef. cbn [rbind]. rewrite E8. reflexivity.
Qed.
Example core_legacy_example : tags_leaf_ok 8 f_leaf /\ core_legacy (replicate 9 0 ++ tags_leaf_ser 8 f_leaf ++ [1; 2; 3]) = Some (2, 4).
Proof. split; [apply forensic_example|vm_compute; reflexivity]. Qed.
Example legacy_readings_example :
  forensic_parse_tags_leaf (tags_leaf_ser 8 f_leaf ++ [1; 2; 3]) 8 = Ok (entries_of f_leaf, []) /\ (nlen (entries_of f_leaf), nlen (pairs (entries_of f_leaf))) = (2, 4) /\
  forensic_parse_tags_leaf (take 65 (tags_leaf_ser 8 f_leaf)) 8 = Ok ([(tag_to_hash 8 [97], [1; 2]); (tag_to_hash 8 [98], [3])], [PositionsTruncated 1]) /\ core_legacy (replicate 9 0 ++ take 65 (tags_leaf_ser 8 f_leaf)) = None.
Proof. repeat split; vm_compute; reflexivity. Qed.
Print Assumptions legacy_readings_agree.
Print Assumptions examined_exact.
Print Assumptions examined_named.
Print Assumptions pass_nothing_examined.
Print Assumptions damaged_leaf_recovered.
Print Assumptions core_legacy_exact.
