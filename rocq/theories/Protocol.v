(** What the published protocol, umadb-proto/proto/v1/umadb.proto, says that the fields of a message mean.  Written from that
    file and the Protocol Buffers specification (version 3), without looking at how the code encodes or decodes.

    The fields may come in any order, those of one repeated field in the order of its values.  A field that is not in the file is
    of no meaning.  A field without explicit presence may be left out if it has the default value, and may also be sent with it.
    Not said: what a message means in which a field that is not repeated comes more than once (the last one counts). *)
From Verif Require Export Wire.
Local Open Scope N_scope.

(** The values of the fields with number [k], in the order in which they come. *)
(* https://protobuf.dev/programming-guides/encoding *)
Definition vals (k : N) (fs : list field) : list wval := map snd (filter (fun f : field => f.1 = k) fs).

(** Kinds of values. *)
(* umadb.proto: string, bytes, uint64, uint32 and enumerations, bool, messages *)
Definition v_string (v : wval) (s : bytes) : Prop := v = WLen s /\ utf8_ok s = true.
Definition v_bytes (v : wval) (s : bytes) : Prop := v = WLen s.
Definition v_u64 (v : wval) (n : N) : Prop := v = WVar n.
Definition v_u32 (v : wval) (n : N) : Prop := v = WVar n /\ n < U32.
Definition v_bool (v : wval) (b : bool) : Prop := exists n, v = WVar n /\ (b = true <-> n <> 0).
Definition v_msg {A} (P : list field -> A -> Prop) (v : wval) (x : A) : Prop := exists b fs, v = WLen b /\ get_fields b = Some fs /\ P fs x.
(** Kinds of fields. *)
(* umadb.proto: fields without label, optional ones and messages, repeated ones *)
Definition single {A} (d : A) (R : wval -> A -> Prop) (vs : list wval) (x : A) : Prop := (vs = [] /\ x = d) \/ exists v, vs = [v] /\ R v x.
Definition opt {A} (R : wval -> A -> Prop) (vs : list wval) (o : option A) : Prop := match o with None => vs = [] | Some x => exists v, vs = [v] /\ R v x end.
Definition repeated {A} (R : wval -> A -> Prop) (vs : list wval) (l : list A) : Prop := Forall2 R vs l.

(** umadb.proto, message by message. *)
(* umadb.proto:20-23 *)
Definition p_metadata_entry (fs : list field) (m : pb_meta) : Prop :=
  single [] v_string (vals 1 fs) (pm_key m) /\ single [] v_string (vals 2 fs) (pm_value m).
(* umadb.proto:6-17 *)
Definition p_event (fs : list field) (e : pb_event) : Prop :=
  single [] v_string (vals 1 fs) (pe_type e) /\ repeated v_string (vals 2 fs) (pe_tags e) /\ single [] v_bytes (vals 3 fs) (pe_data e) /\
  single [] v_string (vals 4 fs) (pe_uuid e) /\ repeated (v_msg p_metadata_entry) (vals 5 fs) (pe_meta e).
(* umadb.proto:99-104 *)
Definition p_tracking_info (fs : list field) (t : pb_tracking) : Prop :=
  single [] v_string (vals 1 fs) (pt_source t) /\ single 0 v_u64 (vals 2 fs) (pt_pos t).
(* umadb.proto:26-33 *)
Definition p_sequenced_event (fs : list field) (e : pb_seq_event) : Prop :=
  single 0 v_u64 (vals 1 fs) (ps_pos e) /\ opt (v_msg p_event) (vals 2 fs) (ps_event e) /\ opt (v_msg p_tracking_info) (vals 3 fs) (ps_trk e).
(* umadb.proto:36-41 *)
Definition p_query_item (fs : list field) (i : pb_item) : Prop :=
  repeated v_string (vals 1 fs) (pi_types i) /\ repeated v_string (vals 2 fs) (pi_tags i).
(* umadb.proto:44-47 *)
Definition p_query (fs : list field) (q : pb_query) : Prop := repeated (v_msg p_query_item) (vals 1 fs) (pq_items q).
(* umadb.proto:50-57 *)
Definition p_append_condition (fs : list field) (c : pb_condition) : Prop :=
  opt (v_msg p_query) (vals 1 fs) (pc_query c) /\ opt v_u64 (vals 2 fs) (pc_after c).
(* umadb.proto:60-73 *)
Definition p_read_request (fs : list field) (r : pb_read) : Prop :=
  opt (v_msg p_query) (vals 1 fs) (pr_query r) /\ opt v_u64 (vals 2 fs) (pr_start r) /\ opt v_bool (vals 3 fs) (pr_backwards r) /\
  opt v_u32 (vals 4 fs) (pr_limit r) /\ opt v_bool (vals 5 fs) (pr_subscribe r) /\ opt v_u32 (vals 6 fs) (pr_batch r).
(* umadb.proto:76-81, and SubscribeResponse without head, 94-96 *)
Definition p_read_response (fs : list field) (r : pb_response) : Prop :=
  repeated (v_msg p_sequenced_event) (vals 1 fs) (px_events r) /\ opt v_u64 (vals 2 fs) (px_head r).
(* umadb.proto:84-91 *)
Definition p_subscribe_request (fs : list field) (r : pb_subscribe) : Prop :=
  opt (v_msg p_query) (vals 1 fs) (pu_query r) /\ opt v_u64 (vals 2 fs) (pu_after r) /\ opt v_u32 (vals 3 fs) (pu_batch r).
(* umadb.proto:107-114 *)
Definition p_append_request (fs : list field) (r : pb_append) : Prop :=
  repeated (v_msg p_event) (vals 1 fs) (pa_events r) /\ opt (v_msg p_append_condition) (vals 2 fs) (pa_condition r) /\
  opt (v_msg p_tracking_info) (vals 3 fs) (pa_trk r).
(* umadb.proto:117-120 *)
Definition p_append_response (fs : list field) (n : N) : Prop := single 0 v_u64 (vals 1 fs) n.
(* umadb.proto:127-130 *)
Definition p_head_response (fs : list field) (o : option N) : Prop := opt v_u64 (vals 1 fs) o.
(* umadb.proto:133-136 *)
Definition p_tracking_request (fs : list field) (s : bytes) : Prop := single [] v_string (vals 1 fs) s.
(* umadb.proto:139-142 *)
Definition p_tracking_response (fs : list field) (o : option N) : Prop := opt v_u64 (vals 1 fs) o.
(* umadb.proto:145-168 *)
Definition p_error_response (fs : list field) (e : pb_error) : Prop :=
  single [] v_string (vals 1 fs) (px_message e) /\ single 0 v_u32 (vals 2 fs) (px_type e).
