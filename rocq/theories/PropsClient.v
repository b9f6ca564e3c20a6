(** What a program gets from the client library. *)
From Coq Require Import Strings.String.
From Verif Require Import Exec PropsStore PropsFindings PropsCrash ServerLive ServerExec PropsServer PropsWire ClientProofs Client.
Local Open Scope N_scope.

(** ** C38: the response to a read *)
(** A stream of the batches [out], which ends or fails with [fin], arrives.  The program calls the methods of the response in any
    order and number.  Each answer is right given those before it: the events handed out so far are the beginning of the stream;
    the end is announced only when all of them have been, unless the program cancelled the response or was told of an
    error; an error is the one with which the stream failed, a timeout of a call that has one, or a cancellation somebody asked
    for; the head is that of a message. *)
Theorem sync_stream_exact out fin s cs xs g : batches_ok out fin -> stream_of out fin s -> calls sync_call cs (new_eng s) = (xs, g) ->
  length xs = length cs /\ forall i c x, cs !! i = Some c -> xs !! i = Some x ->
    allowed out fin (concat (map brings (take i xs)))
      ((exists y e, y ∈ take i xs /\ says_err y e /\ over fin e) \/ CCancel ∈ take i cs) (exists c', c' ∈ take i cs /\ cancels c' = true) c x.
Proof.
  intros Hb Hs Hc. destruct (calls_ok out fin sync_call (ok_eng out fin) sync_cuts (fun del exc can c g x g' => ClientProofs.sync_step out fin Hb del exc can c g x g')
    cs [] False False (new_eng s) xs g (new_ok out fin s Hs) Hc) as [Hl H]. split; [exact Hl|]. intros i c x Hi Hx. destruct (H i c x Hi Hx) as [A1 A2 A3 A4 A5]. cbn [app] in *.
  assert (Hexc : (False \/ (exists y e, y ∈ take i xs /\ says_err y e /\ over fin e) \/ exists c', c' ∈ take i cs /\ sync_cuts c') ->
    (exists y e, y ∈ take i xs /\ says_err y e /\ over fin e) \/ CCancel ∈ take i cs).
  { intros [[]|[?|(c' & Hc' & E)]]; [now left|right]. unfold sync_cuts in E. now subst c'. }
  split; [exact A1| | | |].
  - intros Hx'. destruct (A2 Hx'); [left; auto|now right].
  - intros e He. destruct (A3 e He) as [?|[[? [[]|?]]|?]]; auto.
  - intros h Hh. destruct (A4 h Hh) as [[? [?|?]]|?]; auto.
  - intros l h Hh. destruct (A5 l h Hh); auto.
Qed.
Theorem async_stream_exact out fin s cs xs a : batches_ok out fin -> stream_of out fin s -> calls async_call cs (new_ar s) = (xs, a) ->
  length xs = length cs /\ forall i c x, cs !! i = Some c -> xs !! i = Some x ->
    allowed out fin (concat (map brings (take i xs)))
      (exists y e, y ∈ take i xs /\ says_err y e /\ over fin e) (exists c', c' ∈ take i cs /\ cancels c' = true) c x.
Proof.
  intros Hb Hs Hc. destruct (calls_ok out fin async_call (ok_ar out fin) async_cuts (fun del exc can c g x g' => ClientProofs.async_step out fin Hb del exc can c g x g')
    cs [] False False (new_ar s) xs a (new_ok out fin s Hs) Hc) as [Hl H]. split; [exact Hl|]. intros i c x Hi Hx. destruct (H i c x Hi Hx) as [A1 A2 A3 A4 A5]. cbn [app] in *.
  assert (Hexc : (False \/ (exists y e, y ∈ take i xs /\ says_err y e /\ over fin e) \/ exists c', c' ∈ take i cs /\ async_cuts c') ->
    exists y e, y ∈ take i xs /\ says_err y e /\ over fin e).
  { intros [[]|[?|(c' & _ & [])]]; assumption. }
  split; [exact A1| | | |].
  - intros Hx'. destruct (A2 Hx'); [left; auto|now right].
  - intros e He. destruct (A3 e He) as [?|[[? [[]|?]]|?]]; auto.
  - intros h Hh. destruct (A4 h Hh) as [[? [?|?]]|?]; auto.
  - intros l h Hh. destruct (A5 l h Hh); auto.
Qed.
(** A stream that ends is collected. *)
Theorem stream_collected out s : batches_ok out None -> stream_of out None s ->
  (collect_with_head (new_eng s)).1 = Ok (events_of out, default None (snd <$> last out)) /\
  (ar_collect_with_head (new_ar s)).1 = Ok (events_of out, default None (snd <$> last out)).
Proof.
  intros Hb Hs. split.
  - destruct (collect_with_head (new_eng s)) as [x g] eqn:Ec. cbn [fst].
    assert (Hc : calls sync_call [CCollect] (new_eng s) = ([AAll x], g)) by (cbn [calls sync_call]; now rewrite Ec).
    destruct (sync_stream_exact _ _ _ _ _ _ Hb Hs Hc) as [_ H]. destruct (H 0%nat CCollect (AAll x) eq_refl eq_refl) as [A1 A2 A3 A4 A5]. cbn [take map concat app brings] in *.
    destruct x as [[l h]|e].
    + destruct (A2 I) as [[(y & e & Hy & _)|Hy]|[E _]]; [now apply elem_of_nil in Hy|now apply elem_of_nil in Hy|].
      destruct (A5 l h eq_refl) as [[(y & e & Hy & _)|Hy]|E']; [now apply elem_of_nil in Hy|now apply elem_of_nil in Hy|]. congruence.
    + destruct (A3 e eq_refl) as [[_ []]|[[_ (c & Hc' & _)]|(st & ? & _)]]; [now apply elem_of_nil in Hc'|discriminate].
  - destruct (ar_collect_with_head (new_ar s)) as [x a] eqn:Ec. cbn [fst].
    assert (Hc : calls async_call [CCollect] (new_ar s) = ([AAll x], a)) by (cbn [calls async_call]; now rewrite Ec).
    destruct (async_stream_exact _ _ _ _ _ _ Hb Hs Hc) as [_ H]. destruct (H 0%nat CCollect (AAll x) eq_refl eq_refl) as [A1 A2 A3 A4 A5]. cbn [take map concat app brings] in *.
    destruct x as [[l h]|e].
    + destruct (A2 I) as [(y & e & Hy & _)|[E _]]; [now apply elem_of_nil in Hy|].
      destruct (A5 l h eq_refl) as [(y & e & Hy & _)|E']; [now apply elem_of_nil in Hy|]. congruence.
    + destruct (A3 e eq_refl) as [[_ []]|[[_ (c & Hc' & _)]|(st & ? & _)]]; [now apply elem_of_nil in Hc'|discriminate].
Qed.
(** One that fails is not. *)
Theorem failure_reported out st s : batches_ok out (Some st) -> stream_of out (Some st) s ->
  (collect_with_head (new_eng s)).1 = Err (status_kind st) /\ (ar_collect_with_head (new_ar s)).1 = Err (status_kind st).
Proof.
  intros Hb Hs. split.
  - destruct (collect_with_head (new_eng s)) as [x g] eqn:Ec. cbn [fst].
    assert (Hc : calls sync_call [CCollect] (new_eng s) = ([AAll x], g)) by (cbn [calls sync_call]; now rewrite Ec).
    destruct (sync_stream_exact _ _ _ _ _ _ Hb Hs Hc) as [_ H]. destruct (H 0%nat CCollect (AAll x) eq_refl eq_refl) as [A1 A2 A3 A4 A5]. cbn [take map concat app brings] in *.
    destruct x as [[l h]|e].
    + destruct (A2 I) as [[(y & e & Hy & _)|Hy]|[_ E]]; [now apply elem_of_nil in Hy|now apply elem_of_nil in Hy|discriminate].
    + destruct (A3 e eq_refl) as [[_ []]|[[_ (c & Hc' & _)]|(st' & E1 & E2)]]; [now apply elem_of_nil in Hc'|]. congruence.
  - destruct (ar_collect_with_head (new_ar s)) as [x a] eqn:Ec. cbn [fst].
    assert (Hc : calls async_call [CCollect] (new_ar s) = ([AAll x], a)) by (cbn [calls async_call]; now rewrite Ec).
    destruct (async_stream_exact _ _ _ _ _ _ Hb Hs Hc) as [_ H]. destruct (H 0%nat CCollect (AAll x) eq_refl eq_refl) as [A1 A2 A3 A4 A5]. cbn [take map concat app brings] in *.
    destruct x as [[l h]|e].
    + destruct (A2 I) as [(y & e & Hy & _)|[_ E]]; [now apply elem_of_nil in Hy|discriminate].
    + destruct (A3 e eq_refl) as [[_ []]|[[_ (c & Hc' & _)]|(st' & E1 & E2)]]; [now apply elem_of_nil in Hc'|]. congruence.
Qed.

(** Three events in two messages; the program takes one, asks for the head, takes the rest of the batch, gives up waiting once, and
    goes on to the end. *)
Definition c_event (n : N) : seq_event := (n, EventRecord [116] [n] [[97]] None [] None).
Definition c_out : list (list seq_event * option N) := [([c_event 1; c_event 2], Some 3); ([c_event 3], Some 3)].
Definition c_stream : list sitem := map (fun o => arrives (response_to_pb o)) c_out.
Definition c_calls : list call := [CNext; CHead; CBatch; CBatchTimeout true; CNextTimeout false; CNext; CBatch].
Example stream_example : batches_ok c_out None /\ stream_of c_out None c_stream /\
  let answers := [AItem (Some (Ok (c_event 1))); AHead (Ok (Some 3)); ABatch (Ok [c_event 2]); ABatch (Err ETimeout); AItem (Some (Ok (c_event 3))); AItem None; ABatch (Ok [])] in
  (calls sync_call c_calls (new_eng c_stream)).1 = answers /\ (calls async_call c_calls (new_ar c_stream)).1 = answers.
Proof.
  split; [left; repeat constructor; discriminate|]. split; [|vm_compute; split; reflexivity].
  assert (E : c_stream = [SMsg (response_to_pb ([c_event 1; c_event 2], Some 3)); SMsg (response_to_pb ([c_event 3], Some 3))]) by (vm_compute; reflexivity).
  rewrite E. unfold c_out. apply (ClientProofs.st_msg (response_to_pb ([c_event 1; c_event 2], Some 3))); [vm_compute; reflexivity|].
  apply (ClientProofs.st_msg (response_to_pb ([c_event 3], Some 3))); [vm_compute; reflexivity|]. constructor.
Qed.
Definition c_failure : status := status_from_dcb_error (Error ECorruption []).
Example failure_example : let s := [SMsg (response_to_pb ([c_event 1], Some 3)); SFail c_failure] in
  stream_of [([c_event 1], Some 3)] (Some c_failure) s /\ status_kind c_failure = ECorruption /\
  (calls sync_call [CNext; CNext; CNext] (new_eng s)).1 = [AItem (Some (Ok (c_event 1))); AItem (Some (Err ECorruption)); AItem None].
Proof.
  cbn zeta. split; [|vm_compute; split; reflexivity]. apply (ClientProofs.st_msg (response_to_pb ([c_event 1], Some 3))); [vm_compute; reflexivity|]. constructor.
Qed.

(** From the file to the program: a remote read that has ended is collected as the answer in one state of the store, the same
    as a local read gives.  The texts must be UTF-8, as Rust's strings are, and no response longer than what the client accepts (see
    default_batch_refuted). *)
Definition fits (o : list seq_event * option N) : Prop := nlen (put_fields (fields_response (response_to_pb o))) <= MAX_RECV.
Lemma sent_arrives out : Forall (fun o => Forall stored_text o.1 /\ opt_all (fun n => n < U64) o.2 /\ fits o) out -> stream_of out None (map (fun o => arrives (response_to_pb o)) out).
Proof.
  induction 1 as [|[evs hd] out (H1 & H2 & H3) Hf IH]; [constructor|]. cbn [map]. pose proof (response_arrives evs hd H1 H2) as H. unfold arrives_as in H.
  unfold arrives. cbn [fst snd] in *. destruct (receive _ _ _) as [m| |]; [|unfold fits in H3; lia|contradiction]. injection H as E1 E2. rewrite <- E2. constructor; [exact E1|exact IH].
Qed.
(** When the client refuses a response because of its length, it does not take what came before for all there is.  (tonic yields
    nothing after an error.) *)
Fixpoint until_failure (s : list sitem) : list sitem := match s with SMsg m :: r => SMsg m :: until_failure r | SFail st :: _ => [SFail st] | [] => [] end.
Theorem long_response_reported out : Forall (fun o => o.1 <> [] /\ Forall stored_text o.1 /\ opt_all (fun n => n < U64) o.2) out -> ~ Forall fits out ->
  let s := until_failure (map (fun o => arrives (response_to_pb o)) out) in
  (collect_with_head (new_eng s)).1 = Err EIo /\ (ar_collect_with_head (new_ar s)).1 = Err EIo.
Proof.
  intros Hall Hnot s. assert (exists pre, Forall (fun o => o.1 <> []) pre /\ stream_of pre (Some (Status COutOfRange [] [])) s) as (pre & Hne & Hs).
  { subst s. induction Hall as [|[evs hd] out (H0 & H1 & H2) Hf IH]; [exfalso; apply Hnot; constructor|]. cbn [map]. pose proof (response_arrives evs hd H1 H2) as H. unfold arrives_as in H.
    unfold arrives at 1. cbn [fst snd] in *. destruct (receive _ _ _) as [m| |] eqn:Er; [| |contradiction].
    - injection H as E1 E2. destruct IH as (pre & Hne & Hs).
      { intros Hfit. apply Hnot. constructor; [|exact Hfit]. unfold fits. unfold receive in Er. destruct (N.ltb_spec MAX_RECV (nlen (put_fields (fields_response (response_to_pb (evs, hd)))))); [discriminate|assumption]. }
      exists ((evs, px_head m) :: pre). split; [constructor; [exact H0|exact Hne]|]. cbn [until_failure]. constructor; [exact E1|exact Hs].
    - exists []. split; [constructor|]. cbn [until_failure]. constructor. }
  exact (failure_reported pre (Status COutOfRange [] []) s (or_introl Hne) Hs).
Qed.
Lemma last_events (out : list (list seq_event * option N)) : Forall (fun o => o.1 <> []) out -> last (events_of out) = match last out with Some o => last o.1 | None => None end.
Proof.
  induction out as [|o out IH]; intros H; [reflexivity|]. inversion H as [|? ? Ho Hout]; subst. cbn [map concat]. rewrite last_app, IH by assumption.
  destruct out as [|o' out]; [reflexivity|]. rewrite (last_cons o (o' :: out)). destruct (last (o' :: out)) as [l|] eqn:El; [|apply last_None in El; discriminate].
  destruct (last l.1) as [e|] eqn:Ee; [reflexivity|]. apply last_None in Ee. exfalso. rewrite Forall_forall in Hout. apply (Hout l); [|exact Ee]. apply last_Some in El as [l' ->]. apply elem_of_app. right. left.
Qed.
Lemma read_in h q start bw limit e : e ∈ spec_read h q start bw limit -> e ∈ h.
Proof.
  assert (H : e ∈ spec_read h q start bw None -> e ∈ h) by (intros H; now apply read_elem in H). destruct limit as [k|]; [|exact H]. rewrite SpecProofs.read_limit. intros Hk. apply H.
  apply elem_of_take in Hk as (i & Hi & _). now apply elem_of_list_lookup_2 in Hi.
Qed.
(** The client's library on the stream of a read that was answered in the state [s]. *)
Lemma collect_answer r s : gapless (s_hist s) ->
  concat (map fst (rr_out r)) = spec_read (s_hist s) (rr_q r) (rr_start r) (rr_bw r) (rr_limit r) -> (rr_limit r <> Some 0 -> rr_out r <> []) ->
  Forall (fun o => o.2 = (match rr_limit r with None => spec_head s | Some _ => fst <$> last o.1 end) /\ nlen o.1 <= rr_batch r) (rr_out r) ->
  (Forall (fun o => o.1 <> []) (rr_out r) \/ exists hd, rr_out r = [([], hd)]) ->
  Forall stored_text (s_hist s) -> Forall fits (rr_out r) ->
  let stream := map (fun o => arrives (response_to_pb o)) (rr_out r) in
  let answer := spec_read (s_hist s) (rr_q r) (rr_start r) (rr_bw r) (rr_limit r) in
  let result := Ok (answer, spec_read_head s (rr_limit r) answer) in
  (collect_with_head (new_eng stream)).1 = result /\ (ar_collect_with_head (new_ar stream)).1 = result.
Proof.
  intros Hg Hall Hne Hheads Hb Htext Hfits. cbn zeta.
  set (answer := spec_read (s_hist s) (rr_q r) (rr_start r) (rr_bw r) (rr_limit r)) in *.
  assert (Htext' : Forall stored_text answer) by (apply Forall_forall; intros e He; exact (proj1 (Forall_forall _ _) Htext e (read_in _ _ _ _ _ _ He))).
  assert (Hst : stream_of (rr_out r) None (map (fun o => arrives (response_to_pb o)) (rr_out r))).
  { apply sent_arrives. rewrite Forall_forall in Hheads, Hfits. apply Forall_forall. assert (Ht := proj1 (Forall_forall _ _) Htext). assert (Ht' := proj1 (Forall_forall _ _) Htext'). intros o Ho. split; [|split; [|now apply Hfits]].
    - apply Forall_forall. intros e He. apply Ht'. rewrite <- Hall. apply elem_of_list_In, in_concat. exists o.1. split; [apply in_map|]; now apply elem_of_list_In.
    - intros n En. destruct (Hheads o Ho) as [Eh _]. rewrite En in Eh. destruct (rr_limit r).
      + destruct (last o.1) as [e|] eqn:El; [|discriminate]. injection Eh as ->. apply last_Some in El as [l El].
        assert (He : e ∈ answer). { rewrite <- Hall. apply elem_of_list_In, in_concat. exists o.1. split; [apply in_map|]; apply elem_of_list_In; [exact Ho|]. rewrite El. apply elem_of_app. right. left. }
        now apply (Ht' e He).
      + unfold spec_head in Eh. destruct (s_hist s) as [|e0 l0] eqn:Es; [discriminate|]. injection Eh as ->. rewrite <- Es in *.
        destruct (last (s_hist s)) as [e|] eqn:El; [|apply last_None in El; congruence]. pose proof (last_Some (s_hist s) e) as [Hl _]. destruct (Hl El) as [l Hl'].
        assert (He : e ∈ s_hist s) by (rewrite Hl'; apply elem_of_app; right; left). destruct (Ht e He) as [Hlt _].
        unfold gapless in Hg. rewrite Hl' in Hg at 1. rewrite map_app in Hg. apply (f_equal last) in Hg. cbn [map] in Hg. rewrite last_snoc in Hg.
        assert (Hn : nlen (s_hist s) = e.1); [|lia]. clear -Hg Es. unfold nlen. destruct (length (s_hist s)) as [|n] eqn:En; [rewrite Es in En; discriminate|].
        replace (S n) with (n + 1)%nat in Hg by lia. rewrite seqN_app, last_app in Hg. cbn [seqN last] in Hg. injection Hg as ->. lia. }
  assert (Hbo : batches_ok (rr_out r) None) by (destruct Hb as [Hb|Hb]; [now left|right; auto]).
  destruct (stream_collected _ _ Hbo Hst) as [E1 E2]. rewrite E1, E2, Hall.
  assert (Eh : default None (snd <$> last (rr_out r)) = spec_read_head s (rr_limit r) answer); [|now rewrite Eh].
  rewrite <- Hall. unfold spec_read_head. destruct (rr_limit r) as [n|] eqn:El.
  - assert (Ho : default None (snd <$> last (rr_out r)) = match last (rr_out r) with Some o => fst <$> last o.1 | None => None end).
    { destruct (last (rr_out r)) as [o|] eqn:Eo; [|reflexivity]. rewrite Forall_forall in Hheads. apply last_Some in Eo as [l Eo]. cbn. apply Hheads. rewrite Eo. apply elem_of_app. right. left. }
    rewrite Ho. destruct Hb as [Hb|[hd Hb]]; [rewrite last_events by exact Hb; now destruct (last (rr_out r))|now rewrite Hb].
  - destruct (last (rr_out r)) as [o|] eqn:Eo; [|apply last_None in Eo; now contradiction (Hne ltac:(discriminate))].
    rewrite Forall_forall in Hheads. apply last_Some in Eo as [l Eo]. cbn. apply Hheads. rewrite Eo. apply elem_of_app. right. left.
Qed.
(** And on that of a subscription. *)
Lemma deliver_prefix s st cs :
  concat (su_out s) `prefix_of` filter (fun e => (match su_after s with Some a => a < e.1 | None => True end) /\ q_matches (su_q s) e.2) (s_hist st) ->
  Forall (fun b => b <> []) (su_out s) -> Forall stored_text (s_hist st) -> Forall (fun b => fits (b, None)) (su_out s) ->
  let stream := map (fun b => arrives (response_to_pb (b, None))) (su_out s) in
  let wanted := filter (fun e => (match su_after s with Some a => a < e.1 | None => True end) /\ q_matches (su_q s) e.2) (s_hist st) in
  concat (map brings (calls sync_call cs (new_eng stream)).1) `prefix_of` wanted /\ concat (map brings (calls async_call cs (new_ar stream)).1) `prefix_of` wanted.
Proof.
  intros Hp Hne Ht Hf. cbn zeta.
  set (wanted := filter _ _) in *. set (out := map (fun b => (b, @None N)) (su_out s)).
  assert (Eo : events_of out = concat (su_out s)) by (unfold out; rewrite map_map; cbn [fst]; now rewrite map_id).
  assert (Hst : stream_of out None (map (fun b => arrives (response_to_pb (b, None))) (su_out s))).
  { replace (map (fun b => arrives (response_to_pb (b, None))) (su_out s)) with (map (fun o => arrives (response_to_pb o)) out) by (unfold out; now rewrite map_map).
    apply sent_arrives. unfold out. apply Forall_fmap. assert (Ht' := proj1 (Forall_forall _ _) Ht). assert (Hf' := proj1 (Forall_forall _ _) Hf). apply Forall_forall. intros b Hb. cbn.
    split; [|split; [intros ? [=]|now apply Hf']]. apply Forall_forall. intros e He. apply Ht'. assert (Hw : e ∈ wanted).
    { destruct Hp as [l ->]. apply elem_of_app. left. apply elem_of_list_In, in_concat. exists b. split; now apply elem_of_list_In. }
    now apply elem_of_list_filter in Hw. }
  assert (Hb : batches_ok out None).
  { left. unfold out. apply Forall_fmap. eapply Forall_impl; [exact Hne|]. intros b Hb. exact Hb. }
  assert (Hall : forall (cs : list call) (xs : list answer), length xs = length cs -> (forall i c y, cs !! i = Some c -> xs !! i = Some y -> (concat (map brings (take i xs)) ++ brings y) `prefix_of` events_of out) ->
    concat (map brings xs) `prefix_of` events_of out).
  { clear. intros cs xs Hl Hi. destruct xs as [|y xs _] using rev_ind; [apply prefix_nil|]. rewrite app_length in Hl. cbn in Hl.
    destruct (cs !! length xs) as [c|] eqn:Ec; [|apply lookup_ge_None in Ec; lia]. specialize (Hi (length xs) c y Ec). rewrite take_app in Hi.
    rewrite map_app, concat_app. cbn [map concat]. rewrite app_nil_r. apply Hi. rewrite lookup_app_r by lia. now rewrite Nat.sub_diag. }
  rewrite <- Eo in Hp. split; (etrans; [|exact Hp]).
  - destruct (calls sync_call cs _) as [xs g] eqn:Ec. destruct (sync_stream_exact _ _ _ _ _ _ Hb Hst Ec) as [Hl Ha]. apply (Hall cs xs Hl). intros i c y Hi Hy. exact (al_prefix _ _ _ _ _ _ _ (Ha i c y Hi Hy)).
  - destruct (calls async_call cs _) as [xs g] eqn:Ec. destruct (async_stream_exact _ _ _ _ _ _ Hb Hst Ec) as [Hl Ha]. apply (Hall cs xs Hl). intros i c y Hi Hy. exact (al_prefix _ _ _ _ _ _ _ (Ha i c y Hi Hy)).
Qed.
Section remote.
  Context (ps : N) (hash : bytes -> bytes) (order : list bytes -> list bytes) (ford : gset N -> list N) (caching : bool) (max_events : N).
  Context (Hps : ps_ok ps) (Hps32 : ps < U32) (Hord : forall l t, t ∈ order l <-> t ∈ l) (Hford : forall s, ford s ≡ₚ elements s).
  Notation serves := (serves 16 ps hash order ford caching max_events).
  Context (tr0 : list label) (d : disk) (p : proc) (h : option N) (Hrun : run ps hash order ford caching tr0 (Sys d (Some p))).
  Lemma serves_back v vs tr w : serves d p h (v :: vs) tr -> w ∈ v :: vs -> exists ws tr', serves d p h (w :: ws) tr'.
  Proof.
    revert v tr. induction vs as [|u vs IH]; intros v tr H Hw.
    - apply elem_of_list_singleton in Hw as ->. eauto.
    - apply elem_of_cons in Hw as [->|Hw]; [eauto|]. inversion H; subst. eapply IH; eassumption.
  Qed.
  Lemma seen_gapless v vs tr w s : serves d p h (v :: vs) tr -> w ∈ v :: vs -> shows hash order (v_sys w) s -> gapless (s_hist s).
  Proof.
    intros H Hw Hs. destruct (serves_back _ _ _ _ H Hw) as (ws & tr' & H'). eapply (run_shows ps hash order ford caching Hps Hps32 Hord Hford); [|exact Hs].
    eapply serves_run; eassumption.
  Qed.
  Theorem remote_collect v vs tr k r : serves d p h (v :: vs) tr -> v_rpcs v !! k = Some (QRd r QEnd) -> k ∉ v_lost v ->
    exists s, (exists w y, w ∈ v :: vs /\ v_rpcs w !! k = Some y /\ unsent y /\ shows hash order (v_sys w) s) /\
      (Forall stored_text (s_hist s) -> Forall fits (rr_out r) ->
       let stream := map (fun o => arrives (response_to_pb o)) (rr_out r) in
       let answer := spec_read (s_hist s) (rr_q r) (rr_start r) (rr_bw r) (rr_limit r) in
       let result := Ok (answer, spec_read_head s (rr_limit r) answer) in
       (collect_with_head (new_eng stream)).1 = result /\ (ar_collect_with_head (new_ar stream)).1 = result).
  Proof.
    intros H Hk Hlost. destruct (remote_read_snapshot ps hash order ford caching max_events Hps Hps32 Hord Hford tr0 d p h Hrun v vs tr k r QEnd H Hk Hlost) as (_ & s & Hseen & Hans).
    cbn zeta in Hans. destruct Hans as (_ & Hend & Hheads). destruct (Hend eq_refl) as [Hall Hne]. clear Hend.
    pose proof (remote_read_batches ps hash order ford caching max_events Hps Hps32 Hord Hford tr0 d p h Hrun v vs tr k r QEnd H Hk Hlost) as Hb.
    exists s. split; [exact Hseen|]. intros Htext Hfits. cbn zeta.
    assert (Hg : gapless (s_hist s)) by (destruct Hseen as (w & y & Hw & _ & _ & Hsh); exact (seen_gapless _ _ _ _ _ H Hw Hsh)).
    exact (collect_answer _ _ Hg Hall Hne Hheads Hb Htext Hfits).
  Qed.
  (** A subscription: the events handed out, by whatever calls on what has arrived so far, are the beginning of the list of stored events
      that match and come after the given position. *)
  Theorem subscription_delivered v vs tr k s x st cs : serves d p h (v :: vs) tr -> v_rpcs v !! k = Some (QSub s x) -> k ∉ v_lost v -> shows hash order (v_sys v) st ->
    Forall stored_text (s_hist st) -> Forall (fun b => fits (b, None)) (su_out s) ->
    let stream := map (fun b => arrives (response_to_pb (b, None))) (su_out s) in
    let wanted := filter (fun e => (match su_after s with Some a => a < e.1 | None => True end) /\ q_matches (su_q s) e.2) (s_hist st) in
    concat (map brings (calls sync_call cs (new_eng stream)).1) `prefix_of` wanted /\ concat (map brings (calls async_call cs (new_ar stream)).1) `prefix_of` wanted.
  Proof.
    intros H Hk Hlost Hs Ht Hf. cbn zeta. destruct (subscription_exact ps hash order ford caching max_events Hps Hps32 Hord Hford tr0 d p h Hrun v vs tr k s x st H Hk Hlost Hs) as (_ & _ & Hp).
    exact (deliver_prefix s st cs Hp (subscription_batches ps hash order ford caching max_events d p h v vs tr k s x H Hk) Ht Hf).
  Qed.
End remote.

(** The read of remote_read_example, at the client. *)
Example remote_collect_example : exists v vs tr r, e_serves (v :: vs) tr /\ v_rpcs v !! 7%nat = Some (QRd r QEnd) /\ Forall fits (rr_out r) /\ length (rr_out r) = 2%nat /\
  let stream := map (fun o => arrives (response_to_pb o)) (rr_out r) in
  match (collect_with_head (new_eng stream)).1 with Ok (l, hd) => map fst l = [1; 2; 3] /\ hd = Some 3 | Err _ => False end.
Proof.
  destruct (e_found e_reading (fun v _ => match v_rpcs v !! 7%nat with
    | Some (QRd r QEnd) => forallb (fun o => nlen (put_fields (fields_response (response_to_pb o))) <=? MAX_RECV) (rr_out r) && Nat.eqb (length (rr_out r)) 2 &&
        match (collect_with_head (new_eng (map (fun o => arrives (response_to_pb o)) (rr_out r)))).1 with Ok (l, hd) => bool_decide (map fst l = [1; 2; 3]) && bool_decide (hd = Some 3) | Err _ => false end
    | _ => false end)) as (v & vs & tr & H & HP); [vm_compute; reflexivity|].
  destruct (v_rpcs v !! 7%nat) as [[r []|]|] eqn:Eq; try discriminate. exists v, vs, tr, r. split; [exact H|]. split; [exact Eq|]. clear H.
  apply andb_prop in HP as [HP H3]. apply andb_prop in HP as [H1 H2]. split; [|split].
  - apply Forall_forall. intros o Ho. rewrite forallb_forall in H1. apply elem_of_list_In in Ho. apply H1, N.leb_le in Ho. exact Ho.
  - now apply Nat.eqb_eq.
  - cbn zeta. destruct (collect_with_head _).1 as [[l hd]|]; [|discriminate]. apply andb_prop in H3 as [H3 H4]. apply bool_decide_eq_true in H3. apply bool_decide_eq_true in H4. auto.
Qed.

(** ** C48: a read is complete or reported as failed *)
(** False: a server that is told to shut down leaves the loop of a read (umadb-server/src/lib.rs:502-505) without telling the client,
    whose stream just ends: it collects a part of the answer and takes it for all of it. *)
Definition e_stopped : list sact := [VArrive 0 e_three] ++ e_batch 3 ++ [VRead 7 [] None false None (Some 2)] ++ e_round 7.
Theorem truncation_reported_refuted : exists v vs tr r s l hd, e_serves (v :: vs) tr /\ v_rpcs v !! 7%nat = Some (QRd r QGone) /\
  (exists w y, w ∈ v :: vs /\ v_rpcs w !! 7%nat = Some y /\ unsent y /\ shows f_hash (fun l => l) (v_sys w) s) /\
  let stream := map (fun o => arrives (response_to_pb o)) (rr_out r) in
  (collect_with_head (new_eng stream)).1 = Ok (l, hd) /\ (ar_collect_with_head (new_ar stream)).1 = Ok (l, hd) /\
  map fst l = [1; 2] /\ map fst (spec_read (s_hist s) (rr_q r) (rr_start r) (rr_bw r) (rr_limit r)) = [1; 2; 3].
Proof.
  destruct (e_found e_stopped (fun v _ => match v_rpcs v !! 7%nat with
    | Some (QRd r QLoop) => 
        match rr_q r, rr_start r, rr_bw r, rr_limit r, map snd (rr_out r), (collect_with_head (new_eng (map (fun o => arrives (response_to_pb o)) (rr_out r)))).1, (ar_collect_with_head (new_ar (map (fun o => arrives (response_to_pb o)) (rr_out r)))).1 with
        | [], None, false, None, [Some 3], Ok x, Ok y => bool_decide (x = y) && bool_decide (map fst x.1 = [1; 2]) | _, _, _, _, _, _, _ => false end
    | _ => false end)) as (v & vs & tr & H & HP); [vm_compute; reflexivity|].
  destruct (v_rpcs v !! 7%nat) as [[r []|]|] eqn:Eq; try discriminate.
  assert (Hs := V_close 16 4096 f_hash (fun l => l) x_ford true 1000 v 7 (QRd r QLoop) Eq I). cbn [set_phase] in Hs.
  assert (H' := serves_step 16 4096 f_hash (fun l => l) x_ford true 1000 _ _ _ _ _ _ _ _ H Hs). cbn [app] in H'. rewrite app_nil_r in H'.
  set (v' := v_set_rpc 7 (QRd r QGone) v) in *. assert (Eq' : v_rpcs v' !! 7%nat = Some (QRd r QGone)) by apply lookup_insert.
  assert (Hlost : 7%nat ∉ v_lost v') by (eapply scan_not_lost; [exact H'|exact Eq'|]; left; cbn; now destruct (rr_q r)).
  destruct (remote_read_snapshot 4096 f_hash (fun l => l) x_ford true 1000 f_ps f_ps32 x_ord x_ford_ok _ _ _ _ e_start _ _ _ _ _ _ H' Eq' Hlost) as (_ & s & Hseen & _ & _ & Hh).
  exists v', (v :: vs), tr, r, s. clear H Hs.
  destruct (rr_q r) eqn:Eq1; [|discriminate]. destruct (rr_start r) eqn:Eq2; [discriminate|]. destruct (rr_bw r) eqn:Eq3; [discriminate|]. destruct (rr_limit r) eqn:Eq4; [discriminate|].
  destruct (collect_with_head _).1 as [[l hd]|] eqn:Ec1; [|now repeat case_match]. destruct (ar_collect_with_head _).1 as [y|] eqn:Ec2; [|now repeat case_match].
  destruct (rr_out r) as [|[evs h0] [|]] eqn:Eo; cbn [map snd] in HP; try discriminate; [|now repeat case_match].
  assert (h0 = Some 3 /\ Ok (l, hd) = Ok y /\ map fst l = [1; 2]) as (-> & E1 & E2).
  { repeat case_match; try discriminate; subst; apply andb_prop in HP as [H1 H2]; apply bool_decide_eq_true in H1; apply bool_decide_eq_true in H2; subst; auto. }
  exists l, hd. split; [exact H'|]. split; [exact Eq'|]. split; [exact Hseen|]. cbn zeta. split; [exact Ec1|]. split; [congruence|]. split; [exact E2|].
  rewrite Forall_forall in Hh. destruct (Hh (evs, Some 3) ltac:(left)) as [Hh' _]. cbn [snd] in Hh'. rewrite read_all.
  destruct Hseen as (w & y' & Hw & _ & _ & Hsh). assert (Hg := seen_gapless 4096 f_hash (fun l => l) x_ford true 1000 f_ps f_ps32 x_ord x_ford_ok _ _ _ _ e_start _ _ _ _ _ H' Hw Hsh).
  unfold gapless in Hg. rewrite Hg. unfold spec_head in Hh'. destruct (s_hist s) as [|e0 l0] eqn:Es; [discriminate|]. rewrite <- Es in *. injection Hh' as Hn. unfold nlen in Hn.
  replace (length (s_hist s)) with 3%nat by lia. reflexivity.
Qed.

(** ** C49: cancelling *)
(** Once a response is cancelled, in whatever way, nothing more is fetched from the stream: later calls hand out events that had
    arrived before, each once and in order, and change nothing else. *)
Definition stopped (a : ar) : Prop := a_ended a = true \/ a_global a || a_local a = true.
Lemma stopped_fetch late a x a' : stopped a -> fetch_next late a = (x, a') -> stopped a' /\ a_buf a' = a_buf a /\ a_in a' = a_in a.
Proof.
  intros Hs. unfold fetch_next. destruct (a_buf a) as [|e b] eqn:Eb; [|intros [= _ <-]; auto]. destruct (a_ended a) eqn:Ee; [intros [= _ <-]; auto|].
  destruct (a_global a) eqn:Eg; [intros [= _ <-]; cbn; split; [left; reflexivity|auto]|]. destruct (a_local a) eqn:El; [intros [= _ <-]; cbn; split; [left; reflexivity|auto]|].
  destruct Hs as [Hs|Hs]; [congruence|]. rewrite Eg, El in Hs. discriminate.
Qed.
Lemma stopped_batch late a x a' : stopped a -> next_batch late a = (x, a') -> stopped a' /\ a_in a' = a_in a /\
  match x with Ok b => b = a_buf a /\ a_buf a' = [] | Err _ => a_buf a = [] /\ a_buf a' = [] end.
Proof.
  intros Hs. unfold next_batch. destruct (a_buf a) as [|e b] eqn:Eb.
  - destruct (fetch_next late a) as [[[]|e] a1] eqn:Ef; intros [= <- <-]; destruct (stopped_fetch _ _ _ _ Hs Ef) as (H1 & H2 & H3); rewrite Eb in H2; auto.
  - intros [= <- <-]. auto.
Qed.
Lemma stopped_head a x a' : stopped a -> ar_head a = (x, a') -> stopped a' /\ a_in a' = a_in a /\ a_buf a' = a_buf a.
Proof.
  intros Hs. unfold ar_head. destruct (a_head a); [intros [= _ <-]; auto|]. destruct (fetch_next false a) as [[[]|e] a1] eqn:Ef; intros [= _ <-]; destruct (stopped_fetch _ _ _ _ Hs Ef) as (H1 & H2 & H3); auto.
Qed.
(* what is buffered, in the order in which it is handed out *)
Definition held (g : eng) : list seq_event := g_buf g ++ a_buf (g_resp g).
Definition still (g g' : eng) (got : list seq_event) : Prop := stopped (g_resp g') /\ a_in (g_resp g') = a_in (g_resp g) /\ (got ++ held g') `sublist_of` held g.
Lemma stopped_item late g x g' : stopped (g_resp g) -> next_item_timeout late g = (x, g') -> still g g' (brings (AItem x)).
Proof.
  intros Hs H. destruct g as [fi gb a]. unfold next_item_timeout in H. cbn [g_fin g_buf g_resp] in *.
  assert (Hgo : forall x g', (match gb with
    | [] => if fi then (None, Eng fi gb a)
            else let '(x, a) := next_batch late a in
                 match x with Err e => (Some (Err e), Eng fi [] a) | Ok b => pop (keep_batch (Eng fi gb a) b a) end
    | _ => pop (Eng fi gb a) end) = (x, g') -> still (Eng fi gb a) g' (brings (AItem x))).
  { clear H. intros y g1. destruct gb as [|e b].
    - destruct fi; [intros [= <- <-]; repeat split; auto|]. destruct (next_batch late a) as [z a1] eqn:Eb. destruct (stopped_batch _ _ _ _ Hs Eb) as (H1 & H2 & H3). destruct z as [b|e].
      + destruct H3 as [-> H3]. unfold keep_batch. destruct (a_buf a) as [|e b] eqn:Ea; cbn [pop g_buf g_fin g_resp]; intros [= <- <-]; repeat split; auto; cbn [held g_buf g_resp brings app]; rewrite H3, Ea, ?app_nil_r; reflexivity.
      + destruct H3 as [H3 H4]. intros [= <- <-]. repeat split; auto. cbn [held g_buf g_resp brings app]. rewrite H3, H4. reflexivity.
    - cbn [pop g_buf g_fin g_resp]. intros [= <- <-]. repeat split; auto. }
  destruct fi; [now apply Hgo|]. unfold evaluate_shutdown in H. destruct (a_global a || a_local a).
  - injection H as <- <-. repeat split; auto. cbn [held g_buf g_resp brings app]. now apply sublist_inserts_l.
  - destruct (a_ended a) eqn:Ee; [|now apply Hgo]. injection H as <- <-. repeat split; auto. cbn [held g_buf g_resp brings app]. now apply sublist_inserts_l.
Qed.
Lemma still_trans g g1 g2 l1 l2 : still g g1 l1 -> still g1 g2 l2 -> still g g2 (l1 ++ l2).
Proof.
  intros (H1 & H2 & H3) (H4 & H5 & H6). split; [exact H4|]. split; [congruence|]. rewrite <- app_assoc. etrans; [|exact H3]. now apply sublist_app.
Qed.
Lemma stopped_collect fuel : forall acc g x g', stopped (g_resp g) -> collect_items fuel acc g = (x, g') ->
  exists l, still g g' l /\ match x with Ok evs => evs = acc ++ l | Err _ => True end.
Proof.
  induction fuel as [|fuel IH]; intros acc g x g' Hs; cbn [collect_items].
  { intros [= <- <-]. exists []. split; [repeat split; auto|auto]. }
  destruct (next_item g) as [[[e|e]|] g1] eqn:En; (assert (H1 := stopped_item false g _ g1 Hs En)); cbn [brings] in H1.
  - intros H. destruct (IH _ _ _ _ (proj1 H1) H) as (l & H2 & H3). exists ([e] ++ l). split; [eapply still_trans; eassumption|]. destruct x; [now rewrite H3, <- app_assoc|auto].
  - intros [= <- <-]. exists []. auto.
  - intros [= <- <-]. exists []. split; [exact H1|]. now rewrite app_nil_r.
Qed.
Lemma still_head g x g' : stopped (g_resp g) -> engine_head g = (x, g') -> still g g' [].
Proof.
  intros Hs. unfold engine_head. destruct (ar_head (g_resp g)) as [y a] eqn:Ea. intros [= <- <-]. destruct (stopped_head _ _ _ Hs Ea) as (H1 & H2 & H3). repeat split; auto.
  cbn [app held g_buf g_resp]. now rewrite H3.
Qed.
Theorem sync_cancel_stops cs : forall g xs g', stopped (g_resp g) -> calls sync_call cs g = (xs, g') -> still g g' (concat (map brings xs)).
Proof.
  induction cs as [|c cs IH]; intros g xs g' Hs; cbn [calls]; [intros [= <- <-]; repeat split; auto|].
  destruct (sync_call c g) as [x g1] eqn:Ec. destruct (calls sync_call cs g1) as [xs1 g2] eqn:Ecs. intros [= <- <-]. cbn [map concat].
  assert (H1 : still g g1 (brings x)); [|eapply still_trans; [exact H1|]; eapply IH; [exact (proj1 H1)|exact Ecs]]. clear IH Ecs. destruct c; cbn [sync_call] in Ec.
  - destruct (next_item g) as [y g3] eqn:En. injection Ec as <- <-. exact (stopped_item false _ _ _ Hs En).
  - destruct (next_item_timeout late g) as [y g3] eqn:En. injection Ec as <- <-. exact (stopped_item late _ _ _ Hs En).
  - destruct (engine_next_batch false g) as [y g3] eqn:En. injection Ec as <- <-. revert En. unfold engine_next_batch. destruct g as [fi [|e b] a]; cbn [g_buf g_fin g_resp] in *.
    + destruct (next_batch false a) as [z a1] eqn:Eb. destruct (stopped_batch _ _ _ _ Hs Eb) as (H1 & H2 & H3). destruct z as [b|e].
      * destruct H3 as [-> H3]. destruct (a_buf a) as [|e b] eqn:Ea; cbn [keep_batch g_buf g_fin g_resp]; intros [= <- <-]; repeat split; auto; cbn [brings app held g_buf g_resp]; rewrite H3, Ea, ?app_nil_r; reflexivity.
      * destruct H3 as [H3 H4]. intros [= <- <-]. repeat split; auto. cbn [held g_buf g_resp brings app]. rewrite H3, H4. reflexivity.
    + intros [= <- <-]. repeat split; auto.
  - destruct (engine_next_batch late g) as [y g3] eqn:En. injection Ec as <- <-. revert En. unfold engine_next_batch. destruct g as [fi [|e b] a]; cbn [g_buf g_fin g_resp] in *.
    + destruct (next_batch late a) as [z a1] eqn:Eb. destruct (stopped_batch _ _ _ _ Hs Eb) as (H1 & H2 & H3). destruct z as [b|e].
      * destruct H3 as [-> H3]. destruct (a_buf a) as [|e b] eqn:Ea; cbn [keep_batch g_buf g_fin g_resp]; intros [= <- <-]; repeat split; auto; cbn [brings app held g_buf g_resp]; rewrite H3, Ea, ?app_nil_r; reflexivity.
      * destruct H3 as [H3 H4]. intros [= <- <-]. repeat split; auto. cbn [held g_buf g_resp brings app]. rewrite H3, H4. reflexivity.
    + intros [= <- <-]. repeat split; auto.
  - destruct (engine_head g) as [y g3] eqn:En. injection Ec as <- <-. replace (brings (AHead y)) with (@nil seq_event) by now destruct y. eapply still_head; eassumption.
  - destruct (collect_with_head g) as [y g3] eqn:En. injection Ec as <- <-. revert En. unfold collect_with_head.
    destruct (collect_items _ [] g) as [z g4] eqn:Ei. destruct (stopped_collect _ _ _ _ _ Hs Ei) as (l & H1 & H2). destruct z as [evs|e].
    + subst evs. cbn [app] in *. destruct (engine_head g4) as [hd g5] eqn:Eh. intros [= <- <-]. pose proof (still_head _ _ _ (proj1 H1) Eh) as H3.
      assert (H4 := still_trans _ _ _ _ _ H1 H3). rewrite app_nil_r in H4. destruct hd; [exact H4|]. cbn [brings]. destruct H4 as (? & ? & H4). repeat split; auto. cbn [app]. etrans; [|exact H4]. now apply sublist_inserts_l.
    + intros [= <- <-]. cbn [brings]. destruct H1 as (? & ? & H4). repeat split; auto. cbn [app]. etrans; [|exact H4]. now apply sublist_inserts_l.
  - injection Ec as <- <-. split; [right; cbn; apply orb_true_r|]. split; [reflexivity|]. reflexivity.
  - injection Ec as <- <-. split; [right; cbn; apply orb_true_r|]. split; [reflexivity|]. reflexivity.
  - injection Ec as <- <-. split; [right; reflexivity|]. split; [reflexivity|]. reflexivity.
Qed.
Definition still_ar (a a' : ar) (got : list seq_event) : Prop := stopped a' /\ a_in a' = a_in a /\ (got ++ a_buf a') `sublist_of` a_buf a.
Lemma still_ar_trans a a1 a2 l1 l2 : still_ar a a1 l1 -> still_ar a1 a2 l2 -> still_ar a a2 (l1 ++ l2).
Proof.
  intros (H1 & H2 & H3) (H4 & H5 & H6). split; [exact H4|]. split; [congruence|]. rewrite <- app_assoc. etrans; [|exact H3]. now apply sublist_app.
Qed.
Lemma stopped_poll a x a' : stopped a -> poll_next a = (x, a') -> still_ar a a' (brings (AItem x)).
Proof.
  intros Hs. unfold poll_next, evaluate_shutdown. destruct (a_global a || a_local a) eqn:Ef.
  - intros [= <- <-]. split; [exact Hs|]. split; [reflexivity|]. cbn [brings app take_buf a_buf]. apply sublist_nil_l.
  - destruct (a_ended a) eqn:Ee; [|destruct Hs; congruence]. intros [= <- <-]. split; [exact Hs|]. split; [reflexivity|]. cbn [brings app take_buf a_buf]. apply sublist_nil_l.
Qed.
Lemma stopped_poll_all fuel : forall acc a x a', stopped a -> poll_all fuel acc a = (x, a') ->
  exists l, still_ar a a' l /\ match x with Ok evs => evs = acc ++ l | Err _ => True end.
Proof.
  induction fuel as [|fuel IH]; intros acc a x a' Hs; cbn [poll_all].
  { intros [= <- <-]. exists []. split; [repeat split; auto|auto]. }
  destruct (poll_next a) as [[[e|e]|] a1] eqn:En; (assert (H1 := stopped_poll a _ a1 Hs En)); cbn [brings] in H1.
  - intros H. destruct (IH _ _ _ _ (proj1 H1) H) as (l & H2 & H3). exists ([e] ++ l). split; [eapply still_ar_trans; eassumption|]. destruct x; [now rewrite H3, <- app_assoc|auto].
  - intros [= <- <-]. exists []. auto.
  - intros [= <- <-]. exists []. split; [exact H1|]. now rewrite app_nil_r.
Qed.
Theorem async_cancel_stops cs : forall a xs a', stopped a -> calls async_call cs a = (xs, a') -> still_ar a a' (concat (map brings xs)).
Proof.
  induction cs as [|c cs IH]; intros a xs a' Hs; cbn [calls]; [intros [= <- <-]; repeat split; auto|].
  destruct (async_call c a) as [x a1] eqn:Ec. destruct (calls async_call cs a1) as [xs1 a2] eqn:Ecs. intros [= <- <-]. cbn [map concat].
  assert (H1 : still_ar a a1 (brings x)); [|eapply still_ar_trans; [exact H1|]; eapply IH; [exact (proj1 H1)|exact Ecs]]. clear IH Ecs.
  assert (Hb : forall late y a3, next_batch late a = (y, a3) -> still_ar a a3 (brings (ABatch y))).
  { intros late y a3 En. destruct (stopped_batch _ _ _ _ Hs En) as (H1 & H2 & H3). split; [exact H1|]. split; [exact H2|]. destruct y as [b|e]; cbn [brings app].
    - destruct H3 as [-> ->]. now rewrite app_nil_r.
    - destruct H3 as [_ ->]. apply sublist_nil_l. }
  assert (Hh : forall b y b', stopped b -> ar_head b = (y, b') -> still_ar b b' []).
  { intros b y b' Hsb En. destruct (stopped_head _ _ _ Hsb En) as (H1 & H2 & H3). split; [exact H1|]. split; [exact H2|]. cbn [app]. now rewrite H3. }
  destruct c; cbn [async_call] in Ec.
  - destruct (poll_next a) as [y a3] eqn:En. injection Ec as <- <-. exact (stopped_poll _ _ _ Hs En).
  - destruct (poll_next a) as [y a3] eqn:En. injection Ec as <- <-. exact (stopped_poll _ _ _ Hs En).
  - destruct (next_batch false a) as [y a3] eqn:En. injection Ec as <- <-. exact (Hb _ _ _ En).
  - destruct (next_batch late a) as [y a3] eqn:En. injection Ec as <- <-. exact (Hb _ _ _ En).
  - destruct (ar_head a) as [y a3] eqn:En. injection Ec as <- <-. replace (brings (AHead y)) with (@nil seq_event) by now destruct y. exact (Hh _ _ _ Hs En).
  - destruct (ar_collect_with_head a) as [y a3] eqn:En. injection Ec as <- <-. revert En. unfold ar_collect_with_head.
    destruct (poll_all _ [] a) as [z a4] eqn:Ei. destruct (stopped_poll_all _ _ _ _ _ Hs Ei) as (l & H1 & H2). destruct z as [evs|e].
    + subst evs. cbn [app] in *. destruct (ar_head a4) as [hd a5] eqn:Eh. intros [= <- <-]. pose proof (Hh _ _ _ (proj1 H1) Eh) as H3.
      assert (H4 := still_ar_trans _ _ _ _ _ H1 H3). rewrite app_nil_r in H4. destruct hd; [exact H4|]. cbn [brings]. destruct H4 as (? & ? & H4). repeat split; auto. cbn [app]. etrans; [|exact H4]. now apply sublist_inserts_l.
    + intros [= <- <-]. cbn [brings]. destruct H1 as (? & ? & H4). repeat split; auto. cbn [app]. etrans; [|exact H4]. now apply sublist_inserts_l.
  - injection Ec as <- <-. split; [right; cbn; apply orb_true_r|]. split; [reflexivity|]. reflexivity.
  - injection Ec as <- <-. split; [right; cbn; apply orb_true_r|]. split; [reflexivity|]. reflexivity.
  - injection Ec as <- <-. split; [right; reflexivity|]. split; [reflexivity|]. reflexivity.
Qed.
Lemma cancel_stopped c g a : cancels c = true -> stopped (g_resp (sync_call c g).2) /\ stopped (async_call c a).2.
Proof. unfold stopped. destruct c; try discriminate; intros _; cbn; rewrite ?orb_true_r; auto. Qed.
(** Cancelled after the first event of two batches: the second is never fetched. *)
Example cancel_example : let '(xs, g) := calls sync_call [CNext; CCancel; CBatch; CBatch; CNext] (new_eng c_stream) in
  xs = [AItem (Some (Ok (c_event 1))); AUnit; ABatch (Ok [c_event 2]); ABatch (Err ECancelled); AItem None] /\ length (a_in (g_resp g)) = 1%nat.
Proof. vm_compute. split; reflexivity. Qed.

(** But not with the answers the documentation promises.  Of the response to a read (umadb-dcb/src/lib.rs:108-114): "the
    iterator/next_batch() will stop yielding new events (returning None/an empty Vec)".  False: next_batch fails. *)
Theorem read_cancel_documented_refuted : exists out s, batches_ok out None /\ stream_of out None s /\
  (calls sync_call [CCancel; CBatch] (new_eng s)).1 = [AUnit; ABatch (Err ECancelled)] /\
  (* and on the asynchronous side the end is never reached *)
  forall n, (calls async_call (CCancel :: replicate n CNext) (new_ar s)).1 = AUnit :: replicate n (AItem (Some (Err ECancelled))).
Proof.
  destruct stream_example as (H1 & H2 & _). exists c_out, c_stream. split; [exact H1|]. split; [exact H2|]. split; [vm_compute; reflexivity|].
  intros n. cbn [calls async_call]. assert (H : forall n a, a_local a = true -> (calls async_call (replicate n CNext) a).1 = replicate n (AItem (Some (Err ECancelled)))).
  { clear. induction n as [|n IH]; intros a Ha; [reflexivity|]. cbn [replicate calls async_call]. unfold poll_next, evaluate_shutdown. rewrite Ha, orb_true_r.
    specialize (IH (take_buf a) Ha). destruct (calls async_call (replicate n CNext) (take_buf a)) as [ys a']. cbn [fst] in *. now rewrite IH. }
  specialize (H n (ar_cancel (new_ar c_stream)) eq_refl). destruct (calls async_call (replicate n CNext) (ar_cancel (new_ar c_stream))) as [ys a']. cbn [fst] in *. now rewrite H.
Qed.
(** Of a subscription (139-144): "the iterator/next_batch() will return Err(CancelledByUser)".  False: next_batch hands out what had
    arrived, and the iterator fails once and then ends.  cancel() of a subscription is [CHandle]. *)
Theorem subscription_cancel_documented_refuted : exists out s, batches_ok out None /\ stream_of out None s /\
  (calls sync_call [CNext; CHandle; CBatch] (new_eng s)).1 = [AItem (Some (Ok (c_event 1))); AUnit; ABatch (Ok [c_event 2])] /\
  (calls sync_call [CNext; CHandle; CNext; CNext] (new_eng s)).1 = [AItem (Some (Ok (c_event 1))); AUnit; AItem (Some (Err ECancelled)); AItem None].
Proof.
  destruct stream_example as (H1 & H2 & _). exists c_out, c_stream. split; [exact H1|]. split; [exact H2|]. vm_compute. split; reflexivity.
Qed.

(** ** C50: the API key leaves the client over TLS only, and opens the server it is meant for *)
Lemma starts_with_spec p url : starts_with p url = true <-> exists rest, url = p ++ rest.
Proof.
  unfold starts_with. rewrite bool_decide_eq_true. split.
  - intros H. exists (drop (length p) url). rewrite <- H at 1. symmetry. apply take_drop.
  - intros [rest ->]. apply take_app.
Qed.
Theorem api_key_over_tls k url md md' : add_auth (Some k) (tls_enabled url) md = Ok md' -> exists rest, url = text "https://" ++ rest \/ url = text "grpcs://" ++ rest.
Proof.
  unfold add_auth. destruct (tls_enabled url) eqn:E; [|discriminate]. intros _. apply orb_prop in E as [E|E]; apply starts_with_spec in E as [rest E]; exists rest; auto.
Qed.
Theorem api_key_sent k k' md : 
  (Forall (fun b => visible b = true) k -> exists md', add_auth (Some k) true md = Ok md' /\ (enforce_api_key (Some k') md' = Ok tt <-> k = k')) /\
  (~ Forall (fun b => visible b = true) k -> add_auth (Some k) true md = Err ETransport).
Proof.
  assert (Hv : forallb visible (BEARER ++ k) = true <-> Forall (fun b => visible b = true) k).
  { rewrite forallb_app. change (forallb visible BEARER) with true. cbn [andb]. rewrite forallb_forall, Forall_forall. setoid_rewrite elem_of_list_In. reflexivity. }
  unfold add_auth, to_str. cbn [negb]. destruct (forallb visible (BEARER ++ k)) eqn:E; split; intros H.
  - eexists. split; [reflexivity|]. rewrite api_key_exact. cbn [md_get]. rewrite decide_True by reflexivity. split.
    + intros [Hk _]. apply (f_equal (fun o => match o with Some b => drop (length BEARER) b | None => [] end)) in Hk. rewrite !drop_app in Hk. exact Hk.
    + intros <-. auto.
  - exfalso. apply H. now apply Hv.
  - exfalso. apply Hv in H. congruence.
  - reflexivity.
Qed.
(** Whatever was set before, the key is sent once. *)
Theorem api_key_once k tls md md' : add_auth (Some k) tls md = Ok md' -> filter (fun kv => kv.1 = AUTHORIZATION) md' = [(AUTHORIZATION, BEARER ++ k)] /\
  filter (fun kv => kv.1 <> AUTHORIZATION) md' = filter (fun kv => kv.1 <> AUTHORIZATION) md.
Proof.
  unfold add_auth, to_str. destruct tls; [|discriminate]. cbn [negb]. destruct (forallb visible (BEARER ++ k)); [|discriminate]. intros E. assert (forall x y : metadata, Ok x = Ok y -> x = y) as Hinj by congruence.
  apply Hinj in E. subst md'. split.
  - rewrite filter_cons_True by reflexivity. f_equal. induction md as [|kv md IH]; [reflexivity|]. cbn [List.filter]. case_bool_decide; cbn [negb]; [exact IH|]. now rewrite filter_cons_False.
  - rewrite filter_cons_False by (intros H; now apply H). induction md as [|kv md IH]; [reflexivity|]. cbn [List.filter]. case_bool_decide as H; cbn [negb].
    + rewrite IH. rewrite filter_cons_False; [reflexivity|]. intros H'. now apply H'.
    + rewrite !filter_cons_True by exact H. now rewrite IH.
Qed.
Theorem no_api_key url md : add_auth None (tls_enabled url) md = Ok md.
Proof. reflexivity. Qed.
Example api_key_client_example : (exists md, add_auth (Some [107; 49]) (tls_enabled (text "https://localhost:50051")) [] = Ok md /\ enforce_api_key (Some [107; 49]) md = Ok tt) /\
  add_auth (Some [107; 49]) (tls_enabled (text "http://localhost:50051")) [] = Err ETransport.
Proof. vm_compute. split; [eexists; split; reflexivity|reflexivity]. Qed.

Print Assumptions sync_stream_exact.
Print Assumptions async_stream_exact.
Print Assumptions stream_collected.
Print Assumptions failure_reported.
Print Assumptions remote_collect.
Print Assumptions subscription_delivered.
Print Assumptions truncation_reported_refuted.
Print Assumptions sync_cancel_stops.
Print Assumptions async_cancel_stops.
Print Assumptions read_cancel_documented_refuted.
Print Assumptions subscription_cancel_documented_refuted.
Print Assumptions api_key_over_tls.
Print Assumptions api_key_sent.
Print Assumptions long_response_reported.
Print Assumptions api_key_once.
