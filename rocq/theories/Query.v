(** Request and response types of the API: umadb-dcb/src/lib.rs. *)
From Verif Require Export Nodes.

(* DcbQueryItem: empty [types] matches any type; all tags must be present *)
Record query_item := QItem { qi_types : list bytes; qi_tags : list bytes }.
(* DcbQuery: matches if any item matches; no items matches all *)
Notation query := (list query_item).
(* DcbAppendCondition *)
Record append_condition := ACond { ac_query : query; ac_after : option N }.
(* DcbSequencedEvent: a position, the DcbEvent and its tracking info (the record) *)
Notation seq_event := (N * event_record)%type.
(* DcbEvent: an event as submitted *)
Record new_event := NE { ne_type : bytes; ne_data : bytes; ne_tags : list bytes; ne_uuid : option bytes; ne_meta : list (bytes * bytes) }.
(* db.rs:885-893: the tracking information of the request is stored with each of its events *)
Definition to_record (trk : option tracking) (e : new_event) : event_record :=
  EventRecord (ne_type e) (ne_data e) (ne_tags e) (ne_uuid e) (ne_meta e) trk.
