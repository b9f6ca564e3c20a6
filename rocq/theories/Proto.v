(** Conversions between the types of the API and those of the messages: umadb-proto/src/lib.rs, and what umadb-client/src/lib.rs
    and umadb-server/src/lib.rs do with them. *)
From Coq Require Import Strings.String Strings.Ascii.
From Verif Require Export Wire SpecSys.
Local Open Scope N_scope.

(* a literal, as bytes: e.g. umadb-proto/src/lib.rs:44 *)
Fixpoint text (s : string) : bytes := match s with EmptyString => [] | String c s' => N_of_ascii c :: text s' end.

(** ** Event ids *)
(* uuid::fmt: lower case digits *)
(* umadb-proto/src/lib.rs:79 *)
Definition hex (n : N) : N := if n <? 10 then 48 + n else 87 + n.
Definition hex_bytes (l : bytes) : bytes := concat (map (fun b => [hex (b / 16); hex (b mod 16)]) l).
(* Uuid::to_string: the hyphenated form *)
(* umadb-proto/src/lib.rs:79 *)
Definition uuid_text (u : bytes) : bytes :=
  hex_bytes (take 4 u) ++ [45] ++ hex_bytes (take 2 (drop 4 u)) ++ [45] ++ hex_bytes (take 2 (drop 6 u)) ++ [45] ++
  hex_bytes (take 2 (drop 8 u)) ++ [45] ++ hex_bytes (drop 10 u).
(* uuid::parser: digits of either case *)
(* umadb-proto/src/lib.rs:43 *)
Definition unhex (c : N) : option N :=
  if (48 <=? c) && (c <=? 57) then Some (c - 48)
  else if (97 <=? c) && (c <=? 102) then Some (c - 87)
  else if (65 <=? c) && (c <=? 70) then Some (c - 55)
  else None.
(* uuid::parser, for umadb-proto/src/lib.rs:43 *)
Fixpoint parse_hex (l : bytes) : option bytes :=
  match l with
  | [] => Some []
  | [_] => None
  | a :: b :: l' =>
    match unhex a, unhex b, parse_hex l' with
    | Some x, Some y, Some r => Some (16 * x + y :: r)
    | _, _, _ => None
    end
  end.
(* uuid::parser, for umadb-proto/src/lib.rs:43 *)
Definition hyphen_at (s : bytes) (i : nat) : bool := bool_decide (s !! i = Some 45).
Definition parse_hyphenated (s : bytes) : option bytes :=
  if hyphen_at s 8 && hyphen_at s 13 && hyphen_at s 18 && hyphen_at s 23
  then parse_hex (take 8 s ++ take 4 (drop 9 s) ++ take 4 (drop 14 s) ++ take 4 (drop 19 s) ++ drop 24 s)
  else None.
(* uuid::parser, for umadb-proto/src/lib.rs:43 *)
Definition URN : bytes := text "urn:uuid:".
(* Uuid::parse_str *)
(* umadb-proto/src/lib.rs:43 *)
Definition parse_uuid (s : bytes) : option bytes :=
  let n := nlen s in
  if n =? 32 then parse_hex s
  else if n =? 36 then parse_hyphenated s
  else if (n =? 38) && bool_decide (head s = Some 123) && bool_decide (last s = Some 125) then parse_hyphenated (take 36 (drop 1 s))
  else if (n =? 45) && bool_decide (take 9 s = URN) then parse_hyphenated (drop 9 s)
  else None.

(** ** Values *)
(* lib.rs:26-33; also lib.rs:135-138, and umadb-client/src/lib.rs:1163-1166 *)
Definition tracking_to_pb (t : tracking) : pb_tracking := PbTracking (tr_source t) (tr_pos t).
(* lib.rs:17-24; also umadb-server/src/lib.rs:886-889 and umadb-client/src/lib.rs:107-112 *)
Definition tracking_of_pb (t : pb_tracking) : tracking := Tracking (pt_source t) (pt_pos t).
(* lib.rs:35-64 *)
Definition event_of_pb (e : pb_event) : res new_event :=
  let mk u := NE (pe_type e) (pe_data e) (pe_tags e) u (map (fun m => (pm_key m, pm_value m)) (pe_meta e)) in
  match pe_uuid e with
  | [] => Ok (mk None)
  | s => match parse_uuid s with Some u => Ok (mk (Some u)) | None => Err EDeserialization end
  end.
(* lib.rs:66-83 *)
Definition event_to_pb (e : new_event) : pb_event :=
  PbEvent (ne_type e) (ne_tags e) (ne_data e) (match ne_uuid e with Some u => uuid_text u | None => [] end)
    (map (fun kv => PbMeta kv.1 kv.2) (ne_meta e)).
(* lib.rs:85-92 *)
Definition item_of_pb (i : pb_item) : query_item := QItem (pi_types i) (pi_tags i).
(* lib.rs:94-101 *)
Definition item_to_pb (i : query_item) : pb_item := PbItem (qi_types i) (qi_tags i).
(* lib.rs:103-109 *)
Definition query_of_pb (q : pb_query) : query := map item_of_pb (pq_items q).
(* lib.rs:111-117 *)
Definition query_to_pb (q : query) : pb_query := PbQuery (map item_to_pb q).
(* lib.rs:119-128 *)
Definition condition_of_pb (c : pb_condition) : append_condition :=
  ACond (match pc_query c with Some q => query_of_pb q | None => [] end) (pc_after c).
(* umadb-client/src/lib.rs:1159-1162 *)
Definition condition_to_pb (c : append_condition) : pb_condition := PbCondition (Some (query_to_pb (ac_query c))) (ac_after c).
(* lib.rs:130-141; the record of an event holds its tracking info *)
Definition seq_event_to_pb (e : seq_event) : pb_seq_event :=
  PbSeqEvent e.1 (Some (event_to_pb (NE (er_type e.2) (er_data e.2) (er_tags e.2) (er_uuid e.2) (er_meta e.2))))
    (tracking_to_pb <$> er_tracking e.2).
(* umadb-client/src/lib.rs:95-118: events without an event are left out; the first that cannot be converted ends it *)
Fixpoint convert_sequenced_events (l : list pb_seq_event) : res (list seq_event) :=
  match l with
  | [] => Ok []
  | x :: l' =>
    match ps_event x with
    | None => convert_sequenced_events l'
    | Some ev =>
      let? e := event_of_pb ev in
      let? r := convert_sequenced_events l' in
      Ok ((ps_pos x, to_record (tracking_of_pb <$> ps_trk x) e) :: r)
    end
  end.

(** ** Requests *)
(* the client: umadb-client/src/lib.rs:1155-1171 *)
Definition append_to_pb (r : request) : pb_append :=
  PbAppend (map event_to_pb (rq_events r)) (condition_to_pb <$> rq_cond r) (tracking_to_pb <$> rq_trk r).
Fixpoint collect {A B} (f : A -> res B) (l : list A) : res (list B) :=
  match l with [] => Ok [] | x :: l' => let? y := f x in let? r := collect f l' in Ok (y :: r) end.
(* the server: umadb-server/src/lib.rs:856-864 and 880-892 *)
Definition append_of_pb (r : pb_append) : res request :=
  let? evs := collect event_of_pb (pa_events r) in
  Ok (Req evs (condition_of_pb <$> pa_condition r) (tracking_of_pb <$> pa_trk r)).
(* umadb-client/src/lib.rs:1103-1112 *)
Definition read_to_pb (batch : option N) (q : option query) (start : option N) (bw : bool) (limit : option N) : pb_read :=
  PbRead (query_to_pb <$> q) start (Some bw) limit None batch.
(* umadb-server/src/lib.rs:457-477: query, start, backwards, limit and requested batch size *)
Definition read_of_pb (r : pb_read) : res (option query * option N * bool * option N * option N) :=
  if default false (pr_subscribe r) then Err EInvalidArgument
  else Ok (query_of_pb <$> pr_query r, pr_start r, default false (pr_backwards r), pr_limit r, pr_batch r).
(* umadb-client/src/lib.rs:1028-1034 *)
Definition subscribe_to_pb (batch : option N) (q : option query) (after : option N) : pb_subscribe :=
  PbSubscribe (query_to_pb <$> q) after batch.
(* umadb-server/src/lib.rs:673-689 *)
Definition subscribe_of_pb (r : pb_subscribe) : option query * option N * option N :=
  (query_of_pb <$> pu_query r, pu_after r, pu_batch r).

(** ** Errors *)
(** An error with the text it carries; the numbers of the kinds that carry numbers are in the text too. *)
(* umadb-dcb/src/lib.rs:487-533 *)
Record error := Error { e_kind : err; e_text : bytes }.
(* #[error(...)], umadb-dcb/src/lib.rs:484-533 *)
Definition err_prefix (k : err) : bytes := text
  match k with
  | EIo => "io error: " | EIntegrity => "integrity error: condition failed: " | ECorruption => "corruption detected: "
  | EInvalidArgument => "invalid argument: " | EInit => "initialization error: " | EPageNotFound => "page not found: "
  | EDirtyPageNotFound => "dirty page not found: " | ERootIdMismatch => "root ID mismatched: " | EDatabaseCorrupted => "database corrupted: "
  | EInternal => "internal error: " | ESerialization => "serialization error: " | EDeserialization => "deserialization error: "
  | EPageAlreadyFreed => "page already freed: " | EPageAlreadyDirty => "page already dirty: " | ETransport => "transport error: "
  | ECancelled => "cancelled by user" | ETimeout => "timeout" | EAuth => "authentication error: "
  | Panic => "panic" | Fuel => "fuel"
  end.
Definition err_text (e : error) : bytes := err_prefix (e_kind e) ++ e_text e.
(* tonic::Code, as far as it matters here *)
Inductive code := CUnauthenticated | CInvalidArgument | CFailedPrecondition | CDataLoss | CInternal | COutOfRange | COther.
(* tonic::Status, umadb-proto/src/lib.rs:170-267 *)
Record status := Status { st_code : code; st_msg : bytes; st_details : bytes }.
(* umadb.proto:152-167 *)
Definition T_IO : N := 0.
Definition T_SERIALIZATION : N := 1.
Definition T_INTEGRITY : N := 2.
Definition T_CORRUPTION : N := 3.
Definition T_INTERNAL : N := 4.
Definition T_AUTHENTICATION : N := 5.
Definition T_INVALID_ARGUMENT : N := 6.
(* lib.rs:144-181; the pair of a code and a type *)
Definition classify (k : err) : code * N :=
  match k with
  | EAuth => (CUnauthenticated, T_AUTHENTICATION)
  | EInvalidArgument => (CInvalidArgument, T_INVALID_ARGUMENT)
  | EIntegrity => (CFailedPrecondition, T_INTEGRITY)
  | ECorruption | EDatabaseCorrupted | EDeserialization => (CDataLoss, T_CORRUPTION)
  | ESerialization => (CInvalidArgument, T_SERIALIZATION)
  | EInternal => (CInternal, T_INTERNAL)
  | _ => (CInternal, T_IO)
  end.
Definition status_from_dcb_error (e : error) : status :=
  let '(c, t) := classify (e_kind e) in
  Status c (err_text e) (put_fields (fields_error (PbError (err_text e) t))).
(* lib.rs:184-224; in the last case the text is really that of the status, with its code and details *)
Definition dcb_error_from_status (s : status) : error :=
  match (if 0 <? nlen (st_details s) then merge_bytes step_error (st_details s) (PbError [] 0) else None) with
  | Some (PbError m t) =>
    if t =? T_AUTHENTICATION then Error EAuth m
    else if t =? T_INVALID_ARGUMENT then Error EInvalidArgument m
    else if t =? T_INTEGRITY then Error EIntegrity m
    else if t =? T_CORRUPTION then Error ECorruption m
    else if t =? T_SERIALIZATION then Error ESerialization m
    else if t =? T_INTERNAL then Error EInternal m
    else Error EIo m
  | None =>
    match st_code s with
    | CUnauthenticated => Error EAuth (st_msg s)
    | CInvalidArgument => Error EInvalidArgument (st_msg s)
    | CFailedPrecondition => Error EIntegrity (st_msg s)
    | CDataLoss => Error ECorruption (st_msg s)
    | CInternal => Error EInternal (st_msg s)
    | _ => Error EIo (text "gRPC error: " ++ st_msg s)
    end
  end.
