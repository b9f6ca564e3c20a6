(** The messages of the service and their encoding: umadb-proto/proto/v1/umadb.proto, in the way the code that prost 0.14
    generates from it encodes and decodes Protocol Buffers.

    Simplified: fields are parsed before any is looked at (prost looks at each as it goes; both give up on the same inputs);
    of the wire types, groups (3 and 4), which Protocol Buffers of version 3 do not have, are refused also in unknown fields
    (prost skips them there). *)
From Verif Require Export Query.
Local Open Scope N_scope.

(** ** Fields *)
(* prost::encoding::encode_varint: seven bits in each byte, at most ten bytes *)
(* the crate prost, behind umadb-proto/src/lib.rs *)
Fixpoint varint (fuel : nat) (n : N) : bytes :=
  match fuel with
  | O => [n]
  | S f => if n <? 128 then [n] else (n mod 128 + 128) :: varint f (n / 128)
  end.
Notation put_varint := (varint 9).
(* prost::encoding::decode_varint *)
(* the crate prost, behind umadb-proto/src/lib.rs *)
Fixpoint get_varint_aux (fuel : nat) (l : bytes) : option (N * bytes) :=
  match l with
  | [] => None
  | b :: l' =>
    match fuel with
    | O => if b <? 2 then Some (b, l') else None
    | S f =>
      if b <? 128 then Some (b, l')
      else match get_varint_aux f l' with Some (v, r) => Some (b - 128 + 128 * v, r) | None => None end
    end
  end.
Notation get_varint := (get_varint_aux 9).

(* [WFix]: the 4 or 8 bytes of a number of fixed length, which no message of this service has *)
(* wire types of https://protobuf.dev/programming-guides/encoding, of umadb-proto/proto/v1/umadb.proto *)
Inductive wval := WVar (n : N) | WLen (b : bytes) | WFix (b : bytes).
Notation field := (N * wval)%type.
(* prost::encoding::encode_key, and the value *)
(* the crate prost, behind umadb-proto/src/lib.rs *)
Definition put_field (f : field) : bytes :=
  match f.2 with
  | WVar n => put_varint (8 * f.1) ++ put_varint n
  | WLen b => put_varint (8 * f.1 + 2) ++ put_varint (nlen b) ++ b
  | WFix b => put_varint (8 * f.1 + if nlen b =? 8 then 1 else 5) ++ b
  end.
Definition put_fields (fs : list field) : bytes := concat (map put_field fs).
(* prost::encoding::decode_key and the values *)
(* the crate prost, behind umadb-proto/src/lib.rs *)
Fixpoint get_fields_aux (fuel : nat) (l : bytes) : option (list field) :=
  match l with
  | [] => Some []
  | _ :: _ =>
    match fuel with
    | O => None
    | S f =>
      match get_varint l with
      | None => None
      | Some (key, l1) =>
        if (U32 <=? key) || (key / 8 =? 0) then None
        else if key mod 8 =? 0 then
          match get_varint l1 with
          | Some (n, l2) => match get_fields_aux f l2 with Some fs => Some ((key / 8, WVar n) :: fs) | None => None end
          | None => None
          end
        else if key mod 8 =? 2 then
          match get_varint l1 with
          | Some (n, l2) =>
            if nlen l2 <? n then None
            else match get_fields_aux f (drop (N.to_nat n) l2) with
                 | Some fs => Some ((key / 8, WLen (take (N.to_nat n) l2)) :: fs)
                 | None => None
                 end
          | None => None
          end
        else if (key mod 8 =? 1) || (key mod 8 =? 5) then
          let n := if key mod 8 =? 1 then 8%nat else 4%nat in
          if (length l1 <? n)%nat then None
          else match get_fields_aux f (drop n l1) with
               | Some fs => Some ((key / 8, WFix (take n l1)) :: fs)
               | None => None
               end
        else None
      end
    end
  end.
(* all fields of a message, prost::Message::decode *)
Definition get_fields (l : bytes) : option (list field) := get_fields_aux (length l) l.

(** A message is decoded by merging its fields one after the other into a value, at first the default one (prost::Message::
    merge); a message inside a message is merged into the value it already has. *)
(* prost::Message::merge, for the messages of umadb-proto/proto/v1/umadb.proto *)
Fixpoint merge {M} (step : N -> wval -> M -> option M) (fs : list field) (m : M) : option M :=
  match fs with [] => Some m | (k, v) :: fs' => match step k v m with Some m' => merge step fs' m' | None => None end end.
Definition merge_bytes {M} (step : N -> wval -> M -> option M) (b : bytes) (m : M) : option M :=
  match get_fields b with Some fs => merge step fs m | None => None end.
Definition get_msg {M} (step : N -> wval -> M -> option M) (v : wval) (m : M) : option M :=
  match v with WLen b => merge_bytes step b m | _ => None end.
(* strings have to be UTF-8 *)
(* prost::encoding::string, bytes, uint64, uint32 and bool, for the fields of umadb-proto/proto/v1/umadb.proto *)
Definition get_str (v : wval) : option bytes := match v with WLen b => if utf8_ok b then Some b else None | _ => None end.
Definition get_bytes (v : wval) : option bytes := match v with WLen b => Some b | _ => None end.
Definition get_u64 (v : wval) : option N := match v with WVar n => Some n | _ => None end.
(* also int32, as which enumerations are encoded: the value [as u32] *)
(* prost::encoding::uint32 and int32, for the fields of umadb-proto/proto/v1/umadb.proto *)
Definition get_u32 (v : wval) : option N := match v with WVar n => Some (n mod U32) | _ => None end.
Definition get_bool (v : wval) : option bool := match v with WVar n => Some (negb (n =? 0)) | _ => None end.

(* fields without explicit presence are left out when they have the default value; [optional] and repeated ones are not *)
(* prost::Message::encode, for the fields of umadb-proto/proto/v1/umadb.proto *)
Definition f_str (k : N) (s : bytes) : list field := match s with [] => [] | _ => [(k, WLen s)] end.
Definition f_num (k : N) (n : N) : list field := if n =? 0 then [] else [(k, WVar n)].
Definition f_opt {A} (k : N) (enc : A -> wval) (o : option A) : list field := match o with Some x => [(k, enc x)] | None => [] end.
Definition f_rep {A} (k : N) (enc : A -> wval) (l : list A) : list field := map (fun x => (k, enc x)) l.
Definition bit (b : bool) : N := if b then 1 else 0.

(** ** The messages *)
(* umadb.proto:20-23 *)
Record pb_meta := PbMeta { pm_key : bytes; pm_value : bytes }.
Definition fields_meta (m : pb_meta) : list field := f_str 1 (pm_key m) ++ f_str 2 (pm_value m).
Definition step_meta (k : N) (v : wval) (m : pb_meta) : option pb_meta :=
  match k with
  | 1 => s ← get_str v; Some (PbMeta s (pm_value m))
  | 2 => s ← get_str v; Some (PbMeta (pm_key m) s)
  | _ => Some m
  end.
(* umadb.proto:6-17 *)
Record pb_event := PbEvent { pe_type : bytes; pe_tags : list bytes; pe_data : bytes; pe_uuid : bytes; pe_meta : list pb_meta }.
Definition fields_event (e : pb_event) : list field :=
  f_str 1 (pe_type e) ++ f_rep 2 WLen (pe_tags e) ++ f_str 3 (pe_data e) ++ f_str 4 (pe_uuid e) ++
  f_rep 5 (fun m => WLen (put_fields (fields_meta m))) (pe_meta e).
Definition step_event (k : N) (v : wval) (e : pb_event) : option pb_event :=
  match k with
  | 1 => s ← get_str v; Some (PbEvent s (pe_tags e) (pe_data e) (pe_uuid e) (pe_meta e))
  | 2 => s ← get_str v; Some (PbEvent (pe_type e) (pe_tags e ++ [s]) (pe_data e) (pe_uuid e) (pe_meta e))
  | 3 => b ← get_bytes v; Some (PbEvent (pe_type e) (pe_tags e) b (pe_uuid e) (pe_meta e))
  | 4 => s ← get_str v; Some (PbEvent (pe_type e) (pe_tags e) (pe_data e) s (pe_meta e))
  | 5 => m ← get_msg step_meta v (PbMeta [] []); Some (PbEvent (pe_type e) (pe_tags e) (pe_data e) (pe_uuid e) (pe_meta e ++ [m]))
  | _ => Some e
  end.
(* the default of Event, umadb.proto:6-17 *)
Definition no_event : pb_event := PbEvent [] [] [] [] [].
(* umadb.proto:99-104 *)
Record pb_tracking := PbTracking { pt_source : bytes; pt_pos : N }.
Definition fields_tracking (t : pb_tracking) : list field := f_str 1 (pt_source t) ++ f_num 2 (pt_pos t).
Definition step_tracking (k : N) (v : wval) (t : pb_tracking) : option pb_tracking :=
  match k with
  | 1 => s ← get_str v; Some (PbTracking s (pt_pos t))
  | 2 => n ← get_u64 v; Some (PbTracking (pt_source t) n)
  | _ => Some t
  end.
Definition no_tracking : pb_tracking := PbTracking [] 0.
Definition w_tracking (t : pb_tracking) : wval := WLen (put_fields (fields_tracking t)).
(* umadb.proto:26-33 *)
Record pb_seq_event := PbSeqEvent { ps_pos : N; ps_event : option pb_event; ps_trk : option pb_tracking }.
Definition w_event (e : pb_event) : wval := WLen (put_fields (fields_event e)).
Definition fields_seq_event (e : pb_seq_event) : list field :=
  f_num 1 (ps_pos e) ++ f_opt 2 w_event (ps_event e) ++ f_opt 3 w_tracking (ps_trk e).
Definition step_seq_event (k : N) (v : wval) (e : pb_seq_event) : option pb_seq_event :=
  match k with
  | 1 => n ← get_u64 v; Some (PbSeqEvent n (ps_event e) (ps_trk e))
  | 2 => x ← get_msg step_event v (default no_event (ps_event e)); Some (PbSeqEvent (ps_pos e) (Some x) (ps_trk e))
  | 3 => t ← get_msg step_tracking v (default no_tracking (ps_trk e)); Some (PbSeqEvent (ps_pos e) (ps_event e) (Some t))
  | _ => Some e
  end.
Definition w_seq_event (e : pb_seq_event) : wval := WLen (put_fields (fields_seq_event e)).
(* umadb.proto:36-41 *)
Record pb_item := PbItem { pi_types : list bytes; pi_tags : list bytes }.
Definition fields_item (i : pb_item) : list field := f_rep 1 WLen (pi_types i) ++ f_rep 2 WLen (pi_tags i).
Definition step_item (k : N) (v : wval) (i : pb_item) : option pb_item :=
  match k with
  | 1 => s ← get_str v; Some (PbItem (pi_types i ++ [s]) (pi_tags i))
  | 2 => s ← get_str v; Some (PbItem (pi_types i) (pi_tags i ++ [s]))
  | _ => Some i
  end.
(* umadb.proto:44-47 *)
Record pb_query := PbQuery { pq_items : list pb_item }.
Definition fields_query (q : pb_query) : list field := f_rep 1 (fun i => WLen (put_fields (fields_item i))) (pq_items q).
Definition step_query (k : N) (v : wval) (q : pb_query) : option pb_query :=
  match k with
  | 1 => i ← get_msg step_item v (PbItem [] []); Some (PbQuery (pq_items q ++ [i]))
  | _ => Some q
  end.
Definition no_query : pb_query := PbQuery [].
Definition w_query (q : pb_query) : wval := WLen (put_fields (fields_query q)).
(* umadb.proto:50-57 *)
Record pb_condition := PbCondition { pc_query : option pb_query; pc_after : option N }.
Definition fields_condition (c : pb_condition) : list field := f_opt 1 w_query (pc_query c) ++ f_opt 2 WVar (pc_after c).
Definition step_condition (k : N) (v : wval) (c : pb_condition) : option pb_condition :=
  match k with
  | 1 => q ← get_msg step_query v (default no_query (pc_query c)); Some (PbCondition (Some q) (pc_after c))
  | 2 => n ← get_u64 v; Some (PbCondition (pc_query c) (Some n))
  | _ => Some c
  end.
Definition no_condition : pb_condition := PbCondition None None.
Definition w_condition (c : pb_condition) : wval := WLen (put_fields (fields_condition c)).
(* umadb.proto:60-73 *)
Record pb_read := PbRead {
  pr_query : option pb_query; pr_start : option N; pr_backwards : option bool; pr_limit : option N;
  pr_subscribe : option bool; pr_batch : option N }.
Definition fields_read (r : pb_read) : list field :=
  f_opt 1 w_query (pr_query r) ++ f_opt 2 WVar (pr_start r) ++ f_opt 3 (fun b => WVar (bit b)) (pr_backwards r) ++
  f_opt 4 WVar (pr_limit r) ++ f_opt 5 (fun b => WVar (bit b)) (pr_subscribe r) ++ f_opt 6 WVar (pr_batch r).
Definition step_read (k : N) (v : wval) (r : pb_read) : option pb_read :=
  match k with
  | 1 => q ← get_msg step_query v (default no_query (pr_query r)); Some (PbRead (Some q) (pr_start r) (pr_backwards r) (pr_limit r) (pr_subscribe r) (pr_batch r))
  | 2 => n ← get_u64 v; Some (PbRead (pr_query r) (Some n) (pr_backwards r) (pr_limit r) (pr_subscribe r) (pr_batch r))
  | 3 => b ← get_bool v; Some (PbRead (pr_query r) (pr_start r) (Some b) (pr_limit r) (pr_subscribe r) (pr_batch r))
  | 4 => n ← get_u32 v; Some (PbRead (pr_query r) (pr_start r) (pr_backwards r) (Some n) (pr_subscribe r) (pr_batch r))
  | 5 => b ← get_bool v; Some (PbRead (pr_query r) (pr_start r) (pr_backwards r) (pr_limit r) (Some b) (pr_batch r))
  | 6 => n ← get_u32 v; Some (PbRead (pr_query r) (pr_start r) (pr_backwards r) (pr_limit r) (pr_subscribe r) (Some n))
  | _ => Some r
  end.
(* the default of ReadRequest, umadb.proto:60-73 *)
Definition no_read : pb_read := PbRead None None None None None None.
(* umadb.proto:76-81; SubscribeResponse, 94-96, has the first field only *)
Record pb_response := PbResponse { px_events : list pb_seq_event; px_head : option N }.
Definition fields_response (r : pb_response) : list field := f_rep 1 w_seq_event (px_events r) ++ f_opt 2 WVar (px_head r).
Definition step_response (k : N) (v : wval) (r : pb_response) : option pb_response :=
  match k with
  | 1 => e ← get_msg step_seq_event v (PbSeqEvent 0 None None); Some (PbResponse (px_events r ++ [e]) (px_head r))
  | 2 => n ← get_u64 v; Some (PbResponse (px_events r) (Some n))
  | _ => Some r
  end.
Definition no_response : pb_response := PbResponse [] None.
(* umadb.proto:84-91 *)
Record pb_subscribe := PbSubscribe { pu_query : option pb_query; pu_after : option N; pu_batch : option N }.
Definition fields_subscribe (r : pb_subscribe) : list field :=
  f_opt 1 w_query (pu_query r) ++ f_opt 2 WVar (pu_after r) ++ f_opt 3 WVar (pu_batch r).
Definition step_subscribe (k : N) (v : wval) (r : pb_subscribe) : option pb_subscribe :=
  match k with
  | 1 => q ← get_msg step_query v (default no_query (pu_query r)); Some (PbSubscribe (Some q) (pu_after r) (pu_batch r))
  | 2 => n ← get_u64 v; Some (PbSubscribe (pu_query r) (Some n) (pu_batch r))
  | 3 => n ← get_u32 v; Some (PbSubscribe (pu_query r) (pu_after r) (Some n))
  | _ => Some r
  end.
Definition no_subscribe : pb_subscribe := PbSubscribe None None None.
(* umadb.proto:107-114 *)
Record pb_append := PbAppend { pa_events : list pb_event; pa_condition : option pb_condition; pa_trk : option pb_tracking }.
Definition fields_append (r : pb_append) : list field :=
  f_rep 1 w_event (pa_events r) ++ f_opt 2 w_condition (pa_condition r) ++ f_opt 3 w_tracking (pa_trk r).
Definition step_append (k : N) (v : wval) (r : pb_append) : option pb_append :=
  match k with
  | 1 => e ← get_msg step_event v no_event; Some (PbAppend (pa_events r ++ [e]) (pa_condition r) (pa_trk r))
  | 2 => c ← get_msg step_condition v (default no_condition (pa_condition r)); Some (PbAppend (pa_events r) (Some c) (pa_trk r))
  | 3 => t ← get_msg step_tracking v (default no_tracking (pa_trk r)); Some (PbAppend (pa_events r) (pa_condition r) (Some t))
  | _ => Some r
  end.
Definition no_append : pb_append := PbAppend [] None None.
(* umadb.proto:117-120 *)
Definition fields_position (n : N) : list field := f_num 1 n.
Definition step_position (k : N) (v : wval) (n : N) : option N := match k with 1 => get_u64 v | _ => Some n end.
(* umadb.proto:127-130 and 139-142 *)
Definition fields_opt_position (o : option N) : list field := f_opt 1 WVar o.
Definition step_opt_position (k : N) (v : wval) (o : option N) : option (option N) :=
  match k with 1 => n ← get_u64 v; Some (Some n) | _ => Some o end.
(* umadb.proto:133-136 *)
Definition fields_source (s : bytes) : list field := f_str 1 s.
Definition step_source (k : N) (v : wval) (s : bytes) : option bytes := match k with 1 => get_str v | _ => Some s end.
(* umadb.proto:145-168; an enumeration is kept as its number *)
Record pb_error := PbError { px_message : bytes; px_type : N }.
Definition fields_error (e : pb_error) : list field := f_str 1 (px_message e) ++ f_num 2 (px_type e).
Definition step_error (k : N) (v : wval) (e : pb_error) : option pb_error :=
  match k with
  | 1 => s ← get_str v; Some (PbError s (px_type e))
  | 2 => n ← get_u32 v; Some (PbError (px_message e) n)
  | _ => Some e
  end.

(** ** Sending a message *)
(* tonic: Grpc::new sets max_decoding_message_size to DEFAULT_MAX_RECV_MESSAGE_SIZE, 4 MiB; neither umadb-server nor
   umadb-client changes it.  A longer message is refused with Code::OutOfRange.  What is sent is not limited. *)
(* tonic::codec::DEFAULT_MAX_RECV_MESSAGE_SIZE; umadb-server/src/lib.rs:300-375 does not change it *)
Definition MAX_RECV : N := 4194304.
(* tonic, before umadb-server/src/lib.rs:449-945 *)
Inductive received (M : Type) := Received (m : M) | TooLong | Malformed.
Arguments Received {M} m.
Arguments TooLong {M}.
Arguments Malformed {M}.
Definition receive {M} (step : N -> wval -> M -> option M) (dflt : M) (b : bytes) : received M :=
  if MAX_RECV <? nlen b then TooLong
  else match merge_bytes step b dflt with Some m => Received m | None => Malformed end.
