(** What the event store is meant to do, stated without pages or trees.

    The state is the list of events appended so far, in order, and the last position recorded for each
    tracking source. *)
From Verif Require Export Query.
Local Open Scope N_scope.

Definition item_matches (it : query_item) (r : event_record) : Prop :=
  (qi_types it = [] \/ er_type r ∈ qi_types it) /\ Forall (fun t => t ∈ er_tags r) (qi_tags it).
Definition q_matches (q : query) (r : event_record) : Prop :=
  q = [] \/ Exists (fun it => item_matches it r) q.
(** Positions from [start] on (inclusive), upwards or downwards. *)
Definition in_range (start : option N) (bw : bool) (pos : N) : Prop :=
  match start with
  | None => True
  | Some s => if bw then pos <= s else s <= pos
  end.

Global Instance item_matches_dec it r : Decision (item_matches it r).
Proof. unfold item_matches. apply _. Defined.
Global Instance q_matches_dec q r : Decision (q_matches q r).
Proof. unfold q_matches. destruct q as [|it q]; [left; now left|]. destruct (decide (Exists (fun it => item_matches it r) (it :: q))) as [H|H]; [left; now right|right; intros [?|?]; [discriminate|contradiction]]. Defined.
Global Instance in_range_dec s bw p : Decision (in_range s bw p).
Proof. unfold in_range. destruct s; [destruct bw|]; apply _. Defined.

Definition cut (limit : option N) {A} (l : list A) : list A :=
  match limit with Some k => take (N.to_nat k) l | None => l end.

(** The answer to a read over the history [h] of (position, event). *)
Definition spec_read (h : list seq_event) (q : query) (start : option N) (bw : bool) (limit : option N) : list seq_event :=
  let sel := filter (fun e => in_range start bw e.1 /\ q_matches q e.2) h in
  cut limit (if bw then rev sel else sel).

(** ** Appending *)
Record spec_state := SState { s_hist : list seq_event; s_track : bytes -> option N }.
Definition spec_empty : spec_state := SState [] (fun _ => None).

(** Room the parts of an event kept in a leaf page need: type, tags, id, source of the tracking information. *)
Definition tags_room (tags : list bytes) : N := foldr (fun t acc => 2 + nlen t + acc) 0 tags.
Definition meta_room (m : list (bytes * bytes)) : N :=
  match m with [] => 0 | _ => 2 + foldr (fun kv acc => 4 + nlen kv.1 + nlen kv.2 + acc) 0 m end.
Definition fixed_room (r : event_record) : N :=
  24 + nlen (er_type r) + tags_room (er_tags r) + match er_uuid r with Some _ => 16 | None => 0 end
  + match er_tracking r with Some t => 12 + nlen (tr_source t) | None => 0 end.
(** An event is accepted when its tags and metadata can be counted, the metadata keys are distinct, and it fits a
    page either whole or with data and metadata moved out. *)
Definition event_ok (page_size : N) (r : event_record) : Prop :=
  nlen (er_tags r) <= 65535 /\ nlen (er_meta r) <= 65535 /\ NoDup (map fst (er_meta r)) /\
  Forall (fun kv => nlen kv.1 <= 65535 /\ nlen kv.2 <= 65535) (er_meta r) /\
  (fixed_room r + 2 + nlen (er_data r) + meta_room (er_meta r) <= page_size \/
   fixed_room r + 16 + (match er_meta r with [] => 0 | _ => 8 end) <= page_size).
Global Instance event_ok_dec ps r : Decision (event_ok ps r).
Proof. unfold event_ok. apply _. Defined.

Fixpoint number (pos : N) (rs : list event_record) : list seq_event :=
  match rs with [] => [] | r :: rs' => (pos, r) :: number (pos + 1) rs' end.

Definition events_after (h : list seq_event) (c : append_condition) (limit : N) : list seq_event :=
  spec_read h (ac_query c) (match ac_after c with Some a => Some (a + 1) | None => None end) false (Some limit).

(** The request repeats an earlier one: every event has an id, and the first matching events are those. *)
Definition is_retry (h : list seq_event) (evs : list new_event) (c : append_condition) : Prop :=
  evs <> [] /\ Forall (fun e => is_Some (ne_uuid e)) evs /\
  map (fun e => er_uuid e.2) (events_after h c (nlen evs)) = map ne_uuid evs.
Global Instance is_retry_dec h evs c : Decision (is_retry h evs c).
Proof. unfold is_retry. destruct evs; apply _. Defined.
Definition last_pos (l : list seq_event) : N := match last l with Some e => e.1 | None => 0 end.

(** The tracking part of a request. *)
Definition spec_track (t : bytes -> option N) (trk : option tracking) : res (bytes -> option N) :=
  match trk with
  | None => Ok t
  | Some (Tracking src pos) =>
    if 255 <? nlen src then Err EInvalidArgument
    else match t src with
         | Some e => if pos <=? e then Err EIntegrity else Ok (fun s => if decide (s = src) then Some pos else t s)
         | None => Ok (fun s => if decide (s = src) then Some pos else t s)
         end
  end.

(** One append request: the answer and the state after. *)
Definition spec_append (page_size : N) (s : spec_state) (evs : list new_event) (cond : option append_condition)
  (trk : option tracking) : res N * spec_state :=
  let accept :=
    let rs := map (to_record trk) evs in
    if decide (Forall (event_ok page_size) rs) then
      match spec_track (s_track s) trk with
      | Err e => (Err e, s)
      | Ok t => let new := number (1 + nlen (s_hist s)) rs in
                (Ok (last_pos new), SState (s_hist s ++ new) t)
      end
    else (Err EInvalidArgument, s) in
  match cond with
  | None => accept
  | Some c =>
    match events_after (s_hist s) c 1 with
    | [] => accept
    | _ => if decide (is_retry (s_hist s) evs c) then (Ok (last_pos (events_after (s_hist s) c (nlen evs))), s)
           else (Err EIntegrity, s)
    end
  end.
