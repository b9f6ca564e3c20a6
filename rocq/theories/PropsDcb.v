(** Requests built with the library's builders say what was put in: C103.  What becomes of an error that is serialised: C104. *)
From Coq Require Import Strings.String Strings.Ascii.
From Verif Require Import Dcb AppendProofs Spec.
Local Open Scope N_scope.

(** ** Builders *)
(** The last thing said about a field, the calls given last first. *)
Fixpoint said {A} (f : ev_call -> option A) (rcs : list ev_call) : option A :=
  match rcs with [] => None | c :: rcs' => match f c with Some a => Some a | None => said f rcs' end end.
Definition says_type c := match c with BType t => Some t | _ => None end.
Definition says_data c := match c with BData d => Some d | _ => None end.
Definition says_tags c := match c with BTags l => Some l | _ => None end.
Definition says_uuid c := match c with BUuid u => Some u | _ => None end.
(** The value of a key in a list of entries, and the last thing said about it: an entry for the key, or a whole list. *)
Fixpoint value_of (k : bytes) (m : list (bytes * bytes)) : option bytes :=
  match m with [] => None | (k', v) :: m' => if decide (k' = k) then Some v else value_of k m' end.
Definition says_key (k : bytes) c : option (option bytes) := match c with BMeta m => Some (value_of k m) | BEntry k' v => if decide (k' = k) then Some (Some v) else None | _ => None end.
(** No list of entries was given that has a key twice. *)
Definition lists_once (c : ev_call) : Prop := match c with BMeta m => NoDup (map fst m) | _ => True end.

Lemma build_snoc cs c : ev_build (cs ++ [c]) = ev_do (ev_build cs) c.
Proof. unfold ev_build. rewrite fold_left_app. reflexivity. Qed.
Lemma entry_value k v m k' : value_of k' (metadata_entry k v m) = if decide (k = k') then Some v else value_of k' m.
Proof.
  induction m as [|[a b] m IH]; cbn [metadata_entry value_of]; [reflexivity|]. unfold bytes_eqb. case_bool_decide as E; cbn [value_of].
  - subst a. destruct (decide (k = k')); reflexivity.
  - rewrite IH. destruct (decide (a = k')) as [->|], (decide (k = k')) as [->|]; try reflexivity. congruence.
Qed.
Lemma entry_keys k v m k' : k' ∈ map fst (metadata_entry k v m) <-> k' = k \/ k' ∈ map fst m.
Proof.
  induction m as [|[a b] m IH]; cbn [metadata_entry map fst]; [rewrite elem_of_list_singleton, elem_of_nil; tauto|].
  unfold bytes_eqb. case_bool_decide as E; cbn [map fst]; rewrite !elem_of_cons; [subst; tauto|rewrite IH; tauto].
Qed.
Lemma entry_once k v m : NoDup (map fst m) -> NoDup (map fst (metadata_entry k v m)).
Proof.
  induction m as [|[a b] m IH]; cbn [metadata_entry map fst]; intros H; [constructor; [apply not_elem_of_nil|constructor]|].
  apply NoDup_cons in H as [H1 H2]. unfold bytes_eqb. case_bool_decide as E; cbn [map fst]; apply NoDup_cons; (split; [|auto]); [exact H1|]. rewrite entry_keys. intros [->|H]; [now apply E|contradiction].
Qed.
(** The event has what was said last, and nothing of what was not said. *)
Theorem built_event cs : let e := ev_build cs in
  ne_type e = default [] (said says_type (rev cs)) /\ ne_data e = default [] (said says_data (rev cs)) /\ ne_tags e = default [] (said says_tags (rev cs)) /\ ne_uuid e = said says_uuid (rev cs) /\
  forall k, value_of k (ne_meta e) = default None (said (says_key k) (rev cs)).
Proof.
  cbv zeta. induction cs as [|c cs IH] using rev_ind; [repeat split|]. rewrite build_snoc, rev_app_distr. cbn [rev app said]. destruct IH as (I1 & I2 & I3 & I4 & I5).
  destruct c; cbn [ev_do ne_type ne_data ne_tags ne_uuid ne_meta says_type says_data says_tags says_uuid says_key]; (repeat split; try assumption; try reflexivity).
  intros k'. rewrite entry_value. destruct (decide (k = k')); [reflexivity|apply I5].
Qed.
(** Metadata given entry by entry is never refused for a key that comes twice. *)
Theorem built_metadata_unique cs : Forall lists_once cs -> NoDup (map fst (ne_meta (ev_build cs))) /\ has_duplicate_key (ne_meta (ev_build cs)) = false.
Proof.
  intros H. rewrite has_dup_ok. assert (NoDup (map fst (ne_meta (ev_build cs)))); [|auto]. induction cs as [|c cs IH] using rev_ind; [constructor|].
  apply Forall_app in H as [H Hc]. apply (proj1 (Forall_singleton _ _)) in Hc. specialize (IH H). rewrite build_snoc. destruct c; try exact IH; [exact Hc|]. now apply entry_once.
Qed.
(** An entry given later does not move one given before. *)
Theorem entry_in_place k v m i : m.*1 !! i = Some k -> NoDup (m.*1) -> metadata_entry k v m = <[i := (k, v)]> m.
Proof.
  revert i. induction m as [|[a b] m IH]; intros i Hi Hn; [discriminate|]. cbn in Hi, Hn |- *. apply NoDup_cons in Hn as [H1 H2]. unfold bytes_eqb. destruct i as [|i]; cbn in Hi |- *.
  - injection Hi as ->. rewrite bool_decide_eq_true_2 by reflexivity. reflexivity.
  - rewrite bool_decide_eq_false_2; [now rewrite (IH i Hi H2)|]. intros ->. apply H1. eapply elem_of_list_lookup_2, Hi.
Qed.
(** Of two entries for one key given in one list the first is the one that [metadata_entry] changes, and the event is refused. *)
Example built_example : let e := ev_build [BType [116]; BEntry [1] [2]; BEntry [3] [4]; BTags [[7]]; BEntry [1] [5]; BType [117]] in
  e = NE [117] [] [[7]] None [([1], [5]); ([3], [4])] /\ Forall lists_once [BType [116]; BEntry [1] [2]; BEntry [3] [4]; BTags [[7]]; BEntry [1] [5]; BType [117]] /\
  validate_metadata (ne_meta e) = Ok tt /\ validate_metadata (ne_meta (ev_build [BMeta [([1], [2]); ([1], [5])]])) = Err EInvalidArgument.
Proof. split; [reflexivity|]. split; [repeat constructor|]. split; reflexivity. Qed.

(** The items a query was given. *)
Definition added (c : q_call) : list query_item := match c with QAdd it => [it] | QAddAll l => l end.
Lemma q_build_items cs : q_build cs = concat (map added cs).
Proof.
  induction cs as [|c cs IH] using rev_ind; [reflexivity|]. unfold q_build in *. rewrite fold_left_app, map_app, concat_app. cbn [fold_left map concat]. rewrite IH, app_nil_r. destruct c; reflexivity.
Qed.
(** A query matches what one of its items matches; without items it matches everything. *)
Theorem built_query cs r : q_matches (q_build cs) r <->
  (exists c it, c ∈ cs /\ it ∈ added c /\ item_matches it r) \/ (forall c, c ∈ cs -> added c = []).
Proof.
  rewrite q_build_items. unfold q_matches. rewrite Exists_exists. split.
  - intros [E|(it & Hit & Hm)].
    + right. intros c Hc. destruct (added c) as [|it l] eqn:Ea; [reflexivity|]. exfalso. assert (Hin : it ∈ concat (map added cs)); [|rewrite E in Hin; now apply elem_of_nil in Hin].
      apply elem_of_list_In, in_concat. exists (added c). split; [apply in_map, elem_of_list_In, Hc|rewrite Ea; now left].
    + left. apply elem_of_list_In, in_concat in Hit as (l & Hl & Hit). apply in_map_iff in Hl as (c & <- & Hc). exists c, it. rewrite !elem_of_list_In. auto.
  - intros [(c & it & Hc & Hit & Hm)|H].
    + right. exists it. split; [|exact Hm]. apply elem_of_list_In, in_concat. exists (added c). split; [apply in_map|]; now apply elem_of_list_In.
    + left. induction cs as [|c cs IH]; [reflexivity|]. cbn. rewrite (H c) by now left. apply IH. intros c' Hc'. apply H. now right.
Qed.
(** An item matches the types said last (any type if none were) and all the tags said last. *)
Fixpoint said_it {A} (f : it_call -> option A) (rcs : list it_call) : option A :=
  match rcs with [] => None | c :: rcs' => match f c with Some a => Some a | None => said_it f rcs' end end.
Definition says_types c := match c with ITypes l => Some l | _ => None end.
Definition says_its_tags c := match c with ITags l => Some l | _ => None end.
Theorem built_item cs r : item_matches (it_build cs) r <->
  (default [] (said_it says_types (rev cs)) = [] \/ er_type r ∈ default [] (said_it says_types (rev cs))) /\ forall t, t ∈ default [] (said_it says_its_tags (rev cs)) -> t ∈ er_tags r.
Proof.
  assert (E : it_build cs = QItem (default [] (said_it says_types (rev cs))) (default [] (said_it says_its_tags (rev cs)))).
  { induction cs as [|c cs IH] using rev_ind; [reflexivity|]. unfold it_build in *. rewrite fold_left_app, IH, rev_app_distr. destruct c; reflexivity. }
  rewrite E. unfold item_matches. cbn [qi_types qi_tags]. rewrite Forall_forall. tauto.
Qed.
(** Adding an item to a query that has one only adds matches; adding one to the empty query takes matches away. *)
Corollary added_item_widens cs it r : q_build cs <> [] -> q_matches (q_build cs) r -> q_matches (q_build (cs ++ [QAdd it])) r.
Proof.
  intros Hne [H|H]; [contradiction|]. right. rewrite q_build_items, map_app, concat_app, <- q_build_items. apply Exists_app. now left.
Qed.
Example built_query_example : let r := EventRecord [116] [] [[7]; [8]] None [] None in let it := it_build [ITypes [[117]]; ITags [[8]]; ITypes [[116]]] in
  q_matches (q_build [QAdd (it_build [ITypes [[117]]]); QAddAll [it]]) r /\ q_matches (q_build []) r /\ ~ q_matches (q_build [QAdd (it_build [ITypes [[117]]])]) r.
Proof. cbv zeta. split; [apply (bool_decide_eq_true_1 _); vm_compute; reflexivity|]. split; [now left|apply (bool_decide_eq_false_1 _); vm_compute; reflexivity]. Qed.

(** ** Errors, serialised *)
Definition io_back (e : io_error) : io_error := io_deserialize (io_serialize e).
Definition dcb_back (e : dcb_error) : dcb_error := dcb_deserialize (dcb_serialize e).
Lemma kind_back k : kind_named (kind_name k) = match k with KUnnamed => KOther | _ => k end.
Proof. destruct k; reflexivity. Qed.
(** The kind of an I/O error stays, those without a name in the format become "other"; the text of an error made with a text stays. *)
Theorem serialized_io_error e :
  io_kind_of (io_back e) = match io_kind_of e with KUnnamed => KOther | k => k end /\
  io_text (io_back e) = match e with IoCustom _ t => t | _ => text "unknown error" end.
Proof. split; [unfold io_back, io_deserialize, io_serialize; cbn [io_kind_of if_kind]; rewrite kind_back; destruct (io_kind_of e); reflexivity|destruct e; reflexivity]. Qed.
(** Names are not shared. *)
Theorem kind_names_differ k k' s : kind_name k = Some s -> kind_name k' = Some s -> k = k'.
Proof.
  intros H H'. pose proof (kind_back k) as B. pose proof (kind_back k') as B'. rewrite H in B. rewrite H' in B'. rewrite B in B'. destruct k; try discriminate H; destruct k'; try discriminate H'; try reflexivity; discriminate B'.
Qed.
(** Every other error stays what it is, with its text. *)
Theorem serialized_error_same e : (forall x, e = DIo x -> exists t k, x = IoCustom k t /\ k <> KUnnamed) -> dcb_back e = e /\ dcb_text (dcb_back e) = dcb_text e.
Proof.
  intros H. assert (dcb_back e = e) as ->; [|auto]. destruct e as [x|k t]; [|reflexivity]. destruct (H x eq_refl) as (t & k & -> & Hk). unfold dcb_back. cbn. unfold io_deserialize. cbn. rewrite kind_back. destruct k; try reflexivity. now destruct Hk.
Qed.
(** Handing an error on twice is as handing it on once. *)
Theorem serialized_twice e : dcb_back (dcb_back e) = dcb_back e.
Proof. destruct e as [[k t|k t|k t]|k t]; [destruct k; reflexivity..|reflexivity]. Qed.
(** But the errors of the operating system, which are those that a failing disk gives, lose their text, and those without a name, as EIO, their kind as well. *)
Theorem serialized_error_refuted : exists e, io_kind_of e = KStorageFull /\ dcb_text (DIo e) = text "io error: No space left on device (os error 28)" /\
  dcb_text (dcb_back (DIo e)) = text "io error: unknown error".
Proof. exists (IoOs KStorageFull (text "No space left on device (os error 28)")). split; [reflexivity|]. split; reflexivity. Qed.
Theorem serialized_eio_refuted : exists e, io_kind_of e = KUnnamed /\ dcb_text (DIo e) = text "io error: Input/output error (os error 5)" /\
  io_kind_of (io_back e) = KOther /\ dcb_text (dcb_back (DIo e)) = text "io error: unknown error".
Proof. exists (IoOs KUnnamed (text "Input/output error (os error 5)")). repeat (split; [reflexivity|]). reflexivity. Qed.
Example serialized_example : dcb_back (DIo (IoCustom KWouldBlock (text "Database is locked"))) = DIo (IoCustom KWouldBlock (text "Database is locked")) /\
  dcb_back (DErr EIntegrity (text "x")) = DErr EIntegrity (text "x").
Proof. split; reflexivity. Qed.

Print Assumptions built_event.
Print Assumptions built_metadata_unique.
Print Assumptions entry_in_place.
Print Assumptions built_query.
Print Assumptions built_item.
Print Assumptions added_item_widens.
Print Assumptions serialized_io_error.
Print Assumptions kind_names_differ.
Print Assumptions serialized_error_same.
Print Assumptions serialized_twice.
Print Assumptions serialized_error_refuted.
Print Assumptions serialized_eio_refuted.
