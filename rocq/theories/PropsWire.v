(** Properties of the messages between client and server: C36, C37, C46 and C47. *)
From Coq Require Import Strings.String.
From Verif Require Import ProtoProofs ServerReads Client.
Local Open Scope N_scope.

(** ** C36: errors keep their kind *)
(** The kinds a client can act upon arrive as what they are; the three kinds of damaged data arrive as one; everything else is
    an input or output error. *)
Definition seen_as (k : err) : err :=
  match k with
  | EIntegrity | EInvalidArgument | EAuth | ESerialization | EInternal | ECorruption => k
  | EDatabaseCorrupted | EDeserialization => ECorruption
  | _ => EIo
  end.
Theorem error_kind_kept e : utf8_ok (e_text e) = true -> nlen (e_text e) < U32 ->
  e_kind (dcb_error_from_status (status_from_dcb_error e)) = seen_as (e_kind e).
Proof. intros H1 H2. rewrite error_crosses by assumption. destruct e as [k t]. destruct k; reflexivity. Qed.
(** No error is taken for a failed condition, a missing key or a wrong request that is none. *)
Theorem error_kind_exact e k : utf8_ok (e_text e) = true -> nlen (e_text e) < U32 -> k ∈ [EIntegrity; EInvalidArgument; EAuth; ESerialization; EInternal] ->
  e_kind (dcb_error_from_status (status_from_dcb_error e)) = k <-> e_kind e = k.
Proof.
  intros H1 H2 Hk. rewrite error_kind_kept by assumption. repeat (apply elem_of_cons in Hk as [->|Hk]); [..|now apply elem_of_nil in Hk]; destruct (e_kind e); cbn; split; congruence.
Qed.
Example error_kind_example : let e := Error EIntegrity (text "condition: x") in
  dcb_error_from_status (status_from_dcb_error e) = Error EIntegrity (text "integrity error: condition failed: condition: x") /\
  e_kind (dcb_error_from_status (status_from_dcb_error (Error EDeserialization (text "Invalid UUID in Event")))) = ECorruption.
Proof. split; reflexivity. Qed.

(** ** C46: an error reads the same at the client *)
(** False: its text comes back with the description of the kind in front of it, which is then put in front of it again. *)
Theorem error_text_kept_refuted : exists e, utf8_ok (e_text e) = true /\ dcb_error_from_status (status_from_dcb_error e) <> e /\
  err_text (dcb_error_from_status (status_from_dcb_error e)) = text "invalid argument: invalid argument: no events".
Proof. exists (Error EInvalidArgument (text "no events")). split; [reflexivity|]. split; [discriminate|reflexivity]. Qed.
Theorem error_text_doubled e : utf8_ok (e_text e) = true -> nlen (e_text e) < U32 -> e_kind e = seen_as (e_kind e) ->
  err_text (dcb_error_from_status (status_from_dcb_error e)) = err_prefix (e_kind e) ++ err_prefix (e_kind e) ++ e_text e.
Proof. intros H1 H2 H3. rewrite error_crosses by assumption. destruct e as [k t]. destruct k; try discriminate H3; reflexivity. Qed.

(** ** C37: values keep their meaning *)
(** What one side encodes is what the other side decodes and converts, unless the message is longer than a receiver accepts;
    then it gets none. *)
Definition arrives_as {M A} (step : N -> wval -> M -> option M) (dflt : M) (sent : list field) (conv : M -> A) (x : A) : Prop :=
  match receive step dflt (put_fields sent) with
  | Received m => conv m = x
  | TooLong => MAX_RECV < nlen (put_fields sent)
  | Malformed => False
  end.
Lemma arrives_codec {M A} step (dflt : M) fields wf m (conv : M -> A) x : codec step dflt fields wf -> wf m -> conv m = x -> arrives_as step dflt (fields m) conv x.
Proof.
  intros H1 H2 H3. unfold arrives_as. rewrite (codec_receive _ _ _ _ _ H1 H2). destruct (N.ltb_spec MAX_RECV (nlen (put_fields (fields m)))); assumption.
Qed.
Theorem append_arrives r : request_text r -> arrives_as step_append no_append (fields_append (append_to_pb r)) append_of_pb (Ok r).
Proof.
  intros H. eapply arrives_codec; [exact codec_append|now apply wf_append_to_pb|]. apply append_rt. destruct H as (H & _). eapply Forall_impl; [exact H|]. now intros e (_ & _ & Hu & _).
Qed.
Theorem read_arrives batch q start bw limit : opt_all query_text q -> opt_all (fun n => n < U64) start -> opt_all (fun n => n < U32) limit -> opt_all (fun n => n < U32) batch ->
  arrives_as step_read no_read (fields_read (read_to_pb batch q start bw limit)) read_of_pb (Ok (q, start, bw, limit, batch)).
Proof.
  intros H1 H2 H3 H4. eapply arrives_codec; [exact codec_read| |].
  - unfold wf_read, read_to_pb. cbn [pr_query pr_start pr_backwards pr_limit pr_subscribe pr_batch]. split; [eapply opt_map; [|exact H1]; apply wf_query_to_pb|]. auto.
  - unfold read_of_pb, read_to_pb. cbn. now rewrite (opt_rt _ _ _ query_rt).
Qed.
Theorem subscribe_arrives batch q after : opt_all query_text q -> opt_all (fun n => n < U64) after -> opt_all (fun n => n < U32) batch ->
  arrives_as step_subscribe no_subscribe (fields_subscribe (subscribe_to_pb batch q after)) subscribe_of_pb (q, after, batch).
Proof.
  intros H1 H2 H3. eapply arrives_codec; [exact codec_subscribe| |].
  - unfold wf_subscribe, subscribe_to_pb. cbn [pu_query pu_after pu_batch]. split; [|auto]. eapply opt_map; [|exact H1]; apply wf_query_to_pb.
  - unfold subscribe_of_pb, subscribe_to_pb. cbn. now rewrite (opt_rt _ _ _ query_rt).
Qed.
(** Events of a response and the head that comes with them. *)
Lemma wf_response_to_pb o : Forall stored_text o.1 -> opt_all (fun n => n < U64) o.2 -> wf_response (response_to_pb o).
Proof. intros H1 H2. split; [|exact H2]. apply Forall_fmap. eapply Forall_impl; [exact H1|]. intros e. apply wf_seq_event_to_pb. Qed.
Theorem response_arrives evs hd : Forall stored_text evs -> opt_all (fun n => n < U64) hd ->
  arrives_as step_response no_response (fields_response (response_to_pb (evs, hd))) (fun m => (convert_sequenced_events (px_events m), px_head m)) (Ok evs, hd).
Proof.
  intros H1 H2. eapply arrives_codec; [exact codec_response|now apply wf_response_to_pb|]. cbn [response_to_pb px_events px_head fst snd]. f_equal. apply seq_event_rt.
  eapply Forall_impl; [exact H1|]. now intros e (_ & (_ & _ & Hu & _) & _).
Qed.
(** Answers to append, head and get_tracking_info, and the request of the latter. *)
Theorem position_arrives n : n < U64 -> arrives_as step_position 0 (fields_position n) id n.
Proof. intros H. eapply arrives_codec; [exact codec_position|exact H|reflexivity]. Qed.
Theorem opt_position_arrives o : opt_all (fun n => n < U64) o -> arrives_as step_opt_position None (fields_opt_position o) id o.
Proof. intros H. eapply arrives_codec; [exact codec_opt_position|exact H|reflexivity]. Qed.
Theorem source_arrives s : utf8_ok s = true -> arrives_as step_source [] (fields_source s) id s.
Proof. intros H. eapply arrives_codec; [exact codec_source|exact H|reflexivity]. Qed.
(** Ids that are none are refused, all others become what they name: whatever the message. *)
Theorem ids_checked m : match append_of_pb m with
  | Ok r => Forall2 (fun pe e => match ne_uuid e with None => pe_uuid pe = [] | Some u => pe_uuid pe <> [] /\ names_uuid (pe_uuid pe) u end) (pa_events m) (rq_events r)
  | Err e => e = EDeserialization /\ exists pe, pe ∈ pa_events m /\ pe_uuid pe <> [] /\ forall u, ~ names_uuid (pe_uuid pe) u
  end.
Proof.
  unfold append_of_pb. assert (H : match collect event_of_pb (pa_events m) with
    | Ok evs => Forall2 (fun pe e => match ne_uuid e with None => pe_uuid pe = [] | Some u => pe_uuid pe <> [] /\ names_uuid (pe_uuid pe) u end) (pa_events m) evs
    | Err e => e = EDeserialization /\ exists pe, pe ∈ pa_events m /\ pe_uuid pe <> [] /\ forall u, ~ names_uuid (pe_uuid pe) u
    end).
  { induction (pa_events m) as [|pe l IH]; cbn [collect]; [constructor|]. unfold event_of_pb at 1. destruct (pe_uuid pe) as [|c s] eqn:Eu.
    - cbn [rbind]. destruct (collect event_of_pb l) as [evs|e]; cbn [rbind].
      + constructor; [exact Eu|exact IH].
      + destruct IH as (-> & x & H1 & H2). split; [reflexivity|]. exists x. split; [now right|exact H2].
    - destruct (parse_uuid (c :: s)) as [u|] eqn:Ep.
      + cbn [rbind]. destruct (collect event_of_pb l) as [evs|e]; cbn [rbind].
        * constructor; [|exact IH]. cbn [ne_uuid]. rewrite Eu. split; [discriminate|]. now apply parse_uuid_iff.
        * destruct IH as (-> & x & H1 & H2). split; [reflexivity|]. exists x. split; [now right|exact H2].
      + cbn [rbind]. split; [reflexivity|]. exists pe. split; [left|]. rewrite Eu. split; [discriminate|]. intros u Hu. apply parse_uuid_iff in Hu. congruence. }
  destruct (collect event_of_pb (pa_events m)); cbn [rbind]; exact H.
Qed.
Ltac txt := repeat first [reflexivity|apply Forall_nil_2|apply Forall_cons_2|match goal with |- _ /\ _ => split end|progress unfold event_text, query_text, item_text, meta_text, uuid_ok].
Definition t_event : new_event := NE [116] [0; 255] [[97]; [195; 164]] (Some (map N.of_nat (seq 1 16))) [([107], [118]); ([107], [])].
Definition t_request : request := Req [t_event] (Some (ACond [QItem [[116]] [[97]]; QItem [] []] (Some 0))) (Some (Tracking [115] (U64 - 1))).
Example append_arrives_example : request_text t_request /\
  receive step_append no_append (put_fields (fields_append (append_to_pb t_request))) = Received (append_to_pb t_request) /\
  nlen (put_fields (fields_append (append_to_pb t_request))) = 99.
Proof.
  split; [|split; vm_compute; reflexivity]. split; [|split].
  - txt. intros u [= <-]. split; [reflexivity|]. repeat constructor.
  - intros c [= <-]. split; [txt|]. intros n [= <-]. reflexivity.
  - intros t [= <-]. split; reflexivity.
Qed.
Example ids_example :
  event_of_pb (PbEvent [] [] [] (text "{0102030405060708-090a-0b0c-0d0e0f10}") []) = Err EDeserialization /\
  parse_uuid (text "{01020304-0506-0708-090A-0b0c0d0e0f10}") = Some (map N.of_nat (seq 1 16)) /\ parse_uuid (text "01020304-0506-0708-090a-0b0c0d0e0f1") = None.
Proof. repeat split; vm_compute; reflexivity. Qed.

(** ** C47: what was accepted can be sent back *)
Lemma put_fields_in f fs : f ∈ fs -> nlen (put_field f) <= nlen (put_fields fs).
Proof.
  induction fs as [|g fs IH]; intros H; [now apply elem_of_nil in H|]. unfold put_fields in *. cbn [map concat]. rewrite nlen_app. apply elem_of_cons in H as [<-|H]; [lia|]. specialize (IH H). lia.
Qed.
Lemma put_len k b : nlen (put_field (k, WLen b)) = nlen (put_varint (8 * k + 2)) + nlen (put_varint (nlen b)) + nlen b.
Proof. unfold put_field. cbn [fst snd]. rewrite !nlen_app. lia. Qed.
Lemma varint_pos n : 1 <= nlen (put_varint n) <= 10.
Proof. pose proof (varint_length 9 n) as H. lia. Qed.
Lemma varint_two n : 128 <= n -> 2 <= nlen (put_varint n).
Proof.
  intros H. change (varint 9 n) with (if n <? 128 then [n] else (n mod 128 + 128) :: varint 8 (n / 128)). destruct (N.ltb_spec n 128); [lia|]. pose proof (varint_length 8 (n / 128)) as Hl. rewrite nlen_cons. lia.
Qed.
(** A response takes more room than each of its events, and than the data of them all. *)
Lemma response_event_size m x pe : x ∈ px_events m -> ps_event x = Some pe -> 128 <= nlen (put_fields (fields_event pe)) -> nlen (put_fields (fields_event pe)) + 6 <= nlen (put_fields (fields_response m)).
Proof.
  intros Hx Hpe Hn. unfold fields_response. rewrite put_fields_app, nlen_app.
  assert (H1 := put_fields_in _ _ (in_rep 1 w_seq_event _ _ Hx)). unfold w_seq_event in H1 at 1. rewrite put_len in H1.
  assert (H2 : nlen (put_field (2, w_event pe)) <= nlen (put_fields (fields_seq_event x))).
  { apply put_fields_in. unfold fields_seq_event. rewrite Hpe. rewrite !elem_of_app. right. left. left. }
  unfold w_event in H2. rewrite put_len in H2. pose proof (varint_pos (8 * 1 + 2)). pose proof (varint_pos (8 * 2 + 2)).
  pose proof (varint_two _ Hn). assert (Hn' : 128 <= nlen (put_fields (fields_seq_event x))) by lia. pose proof (varint_two _ Hn'). lia.
Qed.
Lemma put_num_pos k n : 1 <= nlen (put_field (k, WVar n)).
Proof. unfold put_field. cbn [fst snd]. rewrite nlen_app. pose proof (varint_pos (8 * k)). lia. Qed.
Lemma event_data_size pe : nlen (pe_data pe) <= nlen (put_fields (fields_event pe)).
Proof.
  destruct (pe_data pe) as [|b l] eqn:E; [unfold nlen; cbn; lia|]. apply (field_in_length _ 3). unfold fields_event. rewrite E. rewrite !elem_of_app. right. right. left. left.
Qed.

(** False for one event: the client may send an event in a request of 4 MiB, but no client can get it back. *)
Lemma huge_event D : nlen D = 4194294 -> let e := NE [] D [] None [] in
  nlen (put_fields (fields_event (event_to_pb e))) = 4194299 /\ nlen (put_fields (fields_append (append_to_pb (Req [e] None None)))) = 4194304.
Proof.
  intros HD. cbn zeta. assert (H1 : nlen (put_fields (fields_event (event_to_pb (NE [] D [] None [])))) = 4194299).
  { unfold fields_event, event_to_pb. cbn [pe_type pe_tags pe_data pe_uuid pe_meta ne_type ne_tags ne_data ne_uuid ne_meta f_rep map].
    assert (E : f_str 3 D = [(3, WLen D)]) by (destruct D; [discriminate HD|reflexivity]). rewrite E. cbn [f_str app]. unfold put_fields. cbn [map concat]. rewrite app_nil_r, put_len, HD. reflexivity. }
  split; [exact H1|]. unfold fields_append, append_to_pb. cbn [pa_events pa_condition pa_trk rq_events rq_cond rq_trk map f_rep f_opt app fmap option_fmap option_map].
  unfold put_fields at 1. cbn [map concat]. rewrite app_nil_r. unfold w_event. rewrite put_len, H1. reflexivity.
Qed.
Theorem event_returns_refuted : exists e : new_event, request_text (Req [e] None None) /\
  (exists m, receive step_append no_append (put_fields (fields_append (append_to_pb (Req [e] None None)))) = Received m /\ append_of_pb m = Ok (Req [e] None None)) /\
  forall response x, x ∈ px_events response -> ps_event x = Some (event_to_pb e) ->
    receive step_response no_response (put_fields (fields_response response)) = TooLong.
Proof.
  assert (HD : exists D : bytes, nlen D = 4194294) by (exists (replicate (N.to_nat 4194294) 0); unfold nlen; rewrite replicate_length; apply N2Nat.id).
  destruct HD as [D HD]. exists (NE [] D [] None []). assert (Ht : request_text (Req [NE [] D [] None []] None None)).
  { split; [|split; intros ? [=]]. cbn [rq_events]. txt. intros u [=]. }
  destruct (huge_event D HD) as [H1 H2]. split; [exact Ht|]. split.
  - pose proof (append_arrives _ Ht) as H. unfold arrives_as in H. destruct (receive _ _ _) as [m| |]; [eauto|rewrite H2 in H; exfalso; now apply N.lt_irrefl in H|contradiction].
  - intros m x Hx Hpe. unfold receive. pose proof (response_event_size m x _ Hx Hpe) as H. rewrite H1 in H. specialize (H ltac:(lia)).
    destruct (N.ltb_spec MAX_RECV (nlen (put_fields (fields_response m)))) as [L|L]; [reflexivity|]. unfold MAX_RECV in L. lia.
Qed.

(** False also for events each of which can be sent: a read in batches of the usual size puts them into one response. *)
Lemma rep_at_least {A} k (enc : A -> bytes) n (l : list A) : Forall (fun x => n <= nlen (enc x)) l -> nlen l * n <= nlen (put_fields (f_rep k (fun x => WLen (enc x)) l)).
Proof.
  induction 1 as [|x l Hx Hl IH]; [cbn; lia|]. rewrite nlen_cons. unfold put_fields, f_rep in *. cbn [map concat]. rewrite nlen_app, put_len. lia.
Qed.
Lemma rep_at_most {A} k (enc : A -> bytes) n (l : list A) : Forall (fun x => nlen (enc x) <= n) l -> nlen (put_fields (f_rep k (fun x => WLen (enc x)) l)) <= nlen l * (n + 20).
Proof.
  induction 1 as [|x l Hx Hl IH]; [cbn; lia|]. rewrite nlen_cons. unfold put_fields, f_rep in *. cbn [map concat]. rewrite nlen_app, put_len.
  pose proof (varint_pos (8 * k + 2)). pose proof (varint_pos (nlen (enc x))). lia.
Qed.
Definition event_size (e : seq_event) : N := nlen (put_fields (fields_seq_event (seq_event_to_pb e))).
Lemma event_size_data e : nlen (er_data e.2) <= event_size e.
Proof.
  unfold event_size. etrans; [apply (event_data_size (event_to_pb (NE (er_type e.2) (er_data e.2) (er_tags e.2) (er_uuid e.2) (er_meta e.2))))|].
  apply (field_in_length _ 2). unfold fields_seq_event, seq_event_to_pb. cbn [ps_pos ps_event ps_trk f_opt]. rewrite !elem_of_app. right. left. left.
Qed.
Lemma response_at_least n l hd : Forall (fun e => n <= event_size e) l -> nlen l * n <= nlen (put_fields (fields_response (response_to_pb (l, hd)))).
Proof.
  intros H. unfold fields_response, response_to_pb. cbn [px_events px_head fst snd]. rewrite put_fields_app, nlen_app.
  assert (Hl : nlen l = nlen (map seq_event_to_pb l)) by (unfold nlen; now rewrite map_length). rewrite Hl.
  assert (H' : Forall (fun x => n <= nlen (put_fields (fields_seq_event x))) (map seq_event_to_pb l)) by (apply Forall_fmap; exact H).
  apply (rep_at_least 1) in H'. unfold w_seq_event. lia.
Qed.
(** Small events do arrive: with [B] events of at most [n] bytes in a response. *)
Theorem small_responses_arrive n evs hd : Forall stored_text evs -> opt_all (fun n => n < U64) hd -> Forall (fun e => event_size e <= n) evs -> nlen evs * (n + 20) + 20 <= MAX_RECV ->
  exists m, receive step_response no_response (put_fields (fields_response (response_to_pb (evs, hd)))) = Received m /\ convert_sequenced_events (px_events m) = Ok evs /\ px_head m = hd.
Proof.
  intros H1 H2 H3 H4. pose proof (response_arrives evs hd H1 H2) as H. unfold arrives_as in H. destruct (receive _ _ _) as [m| |]; [|exfalso|contradiction].
  { exists m. split; [reflexivity|]. injection H as <- <-. auto. }
  revert H. unfold fields_response, response_to_pb. cbn [px_events px_head fst snd]. rewrite put_fields_app, nlen_app.
  assert (Hl : nlen evs = nlen (map seq_event_to_pb evs)) by (unfold nlen; now rewrite map_length).
  assert (H' : Forall (fun x => nlen (put_fields (fields_seq_event x)) <= n) (map seq_event_to_pb evs)) by (apply Forall_fmap; exact H3).
  apply (rep_at_most 1) in H'. unfold w_seq_event. rewrite Hl in H4.
  assert (Hh : nlen (put_fields (f_opt 2 WVar hd)) <= 20).
  { destruct hd as [h|]; cbn [f_opt]; unfold put_fields; cbn [map concat]; [|unfold nlen; cbn; lia]. rewrite app_nil_r. unfold put_field. cbn [fst snd]. rewrite nlen_app.
    pose proof (varint_pos (8 * 2)). pose proof (varint_pos h). lia. }
  lia.
Qed.
Definition big_record (D : bytes) : event_record := EventRecord [116] D [] None [] None.
Lemma big_record_size D i : nlen D = 5000 -> i < U64 -> stored_text (i, big_record D) /\ 5000 <= event_size (i, big_record D) <= 5100.
Proof.
  intros HD Hi. split; [|split].
  - split; [exact Hi|]. split; [|intros ? [=]]. cbn. txt. intros u [=].
  - etrans; [|apply event_size_data]. cbn. lia.
  - unfold event_size, fields_seq_event, seq_event_to_pb. cbn [ps_pos ps_event ps_trk f_opt fst snd big_record er_type er_data er_tags er_uuid er_meta er_tracking fmap option_fmap option_map].
    rewrite !put_fields_app, !nlen_app.
    assert (H1 : nlen (put_fields (f_num 1 i)) <= 20).
    { unfold f_num. destruct (i =? 0); [unfold nlen; cbn; lia|]. unfold put_fields. cbn [map concat]. rewrite app_nil_r. unfold put_field. cbn [fst snd]. rewrite nlen_app.
      pose proof (varint_pos (8 * 1)). pose proof (varint_pos i). lia. }
    assert (H2 : nlen (put_fields (fields_event (event_to_pb (NE [116] D [] None [])))) <= 5030).
    { unfold fields_event, event_to_pb. cbn [pe_type pe_tags pe_data pe_uuid pe_meta ne_type ne_tags ne_data ne_uuid ne_meta f_rep map app].
      assert (E : f_str 3 D = [(3, WLen D)]) by (destruct D; [discriminate HD|reflexivity]). rewrite E. cbn [f_str app]. unfold put_fields. cbn [map concat app]. rewrite !nlen_app, !put_len, HD.
      pose proof (varint_pos (8 * 3 + 2)). pose proof (varint_pos 5000). assert (nlen (put_varint (8 * 1 + 2)) + nlen (put_varint (nlen [116])) + nlen [116] = 3) by reflexivity. rewrite H2. change (nlen (@nil N)) with 0. lia. }
    assert (H3 : nlen (put_fields [(2, w_event (event_to_pb (NE [116] D [] None [])))]) <= 5050).
    { unfold put_fields at 1. cbn [map concat]. rewrite app_nil_r. unfold w_event. rewrite put_len. pose proof (varint_pos (8 * 2 + 2)). pose proof (varint_pos (nlen (put_fields (fields_event (event_to_pb (NE [116] D [] None [])))))). lia. }
    change (nlen (put_fields [])) with 0. lia.
Qed.
Theorem default_batch_refuted : exists (evs : list seq_event) hd, gapless evs /\ Forall stored_text evs /\ Forall (fun e => event_size e <= 5100) evs /\
  rr_out (read_iter (new_read [] None false None None) evs hd).1 = [(evs, hd)] /\
  receive step_response no_response (put_fields (fields_response (response_to_pb (evs, hd)))) = TooLong.
Proof.
  assert (HD : exists D : bytes, nlen D = 5000) by (exists (replicate (N.to_nat 5000) 0); unfold nlen; rewrite replicate_length; apply N2Nat.id).
  destruct HD as [D HD]. set (evs := map (fun i => (i, big_record D)) (seqN 1 (N.to_nat 1024))).
  assert (Hl : nlen evs = 1024) by (unfold nlen, evs; rewrite map_length, length_seqN; apply N2Nat.id).
  assert (Hin : forall e, e ∈ evs -> 1 <= e.1 <= 1024 /\ e.2 = big_record D).
  { intros e He. apply elem_of_list_fmap in He as (i & -> & Hi). apply elem_of_seqN in Hi. cbn [fst snd]. split; [lia|reflexivity]. }
  assert (Hok : forall e, e ∈ evs -> stored_text e /\ 5000 <= event_size e <= 5100).
  { intros [i r] He. apply Hin in He as [Hi Hr]. cbn [fst snd] in *. subst r. apply big_record_size; [exact HD|]. unfold U64. lia. }
  exists evs, (Some 1024). split; [|split; [|split; [|split]]].
  - unfold gapless, evs. rewrite map_map, map_length, length_seqN. cbn [fst]. apply map_id.
  - apply Forall_forall. intros e He. now apply Hok.
  - apply Forall_forall. intros e He. apply Hok in He. lia.
  - assert (Hf : List.filter (fun e : seq_event => e.1 <=? 1024) evs = evs).
    { clearbody evs. clear Hok Hl. induction evs as [|e l IH]; [reflexivity|]. cbn [List.filter]. destruct (N.leb_spec e.1 1024) as [L|L].
      - f_equal. apply IH. intros x Hx. apply Hin. now right.
      - assert (He := Hin e ltac:(left)). lia. }
    unfold read_iter. cbn [rr_head new_read rr_out rr_limit is_someb rr_q rr_start rr_bw rr_batch rr_next rr_remaining]. rewrite Hf.
    destruct (last evs) as [e|] eqn:E; [|apply last_None in E; rewrite E in Hl; discriminate Hl].
    destruct (_ || _); reflexivity.
  - unfold receive. pose proof (response_at_least 5000 evs (Some 1024)) as H. rewrite Hl in H.
    destruct (N.ltb_spec MAX_RECV (nlen (put_fields (fields_response (response_to_pb (evs, Some 1024)))))) as [L|L]; [reflexivity|].
    exfalso. assert (H' : 1024 * 5000 <= MAX_RECV) by (etrans; [apply H|exact L]; apply Forall_forall; intros e He; apply Hok in He; lia). unfold MAX_RECV in H'. lia.
Qed.

Print Assumptions error_kind_kept.
Print Assumptions error_kind_exact.
Print Assumptions error_text_kept_refuted.
Print Assumptions append_arrives.
Print Assumptions read_arrives.
Print Assumptions subscribe_arrives.
Print Assumptions response_arrives.
Print Assumptions position_arrives.
Print Assumptions opt_position_arrives.
Print Assumptions source_arrives.
Print Assumptions ids_checked.
Print Assumptions event_returns_refuted.
Print Assumptions small_responses_arrive.
Print Assumptions default_batch_refuted.
