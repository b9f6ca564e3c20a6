(** What the store may do when pages cannot be read, over the abstract states of Spec.v. *)
From Verif Require Export SpecSys.
Local Open Scope N_scope.

(** A query all items of which have tags is answered by the tag index; every other by a scan. *)
Definition by_tags (q : query) : Prop := q <> [] /\ forall it, it ∈ q -> qi_tags it <> [].
(** The answer to a read: an error, the right answer or, by the tag index, a part of it: some of the matching events, each once and
    in order. *)
Definition part (h : list seq_event) (q : query) (start : option N) (bw : bool) (limit : option N) (evs : list seq_event) : Prop :=
  evs = spec_read h q start bw limit \/
  (by_tags q /\ evs `sublist_of` spec_read h q start bw None /\ match limit with Some k => nlen evs <= k | None => True end).
Definition patchy_read (s : spec_state) (q : query) (start : option N) (bw : bool) (limit : option N) (r : res (list seq_event * option N)) : Prop :=
  (exists e, r = Err e) \/ exists evs, r = Ok (evs, spec_read_head s limit evs) /\ part (s_hist s) q start bw limit evs.

(** All events that fail the condition. *)
Definition all_after (h : list seq_event) (c : append_condition) : list seq_event :=
  spec_read h (ac_query c) (match ac_after c with Some a => Some (a + 1) | None => None end) false None.
(** One request: as it should be; or, if its condition is about tags and fails,
    - as if it had no condition,
    - rejected, although it is a retry,
    - taken for a retry of events that are there, all of them and in this order, with the position of the last one. *)
Definition lax_append (ps : N) (s : spec_state) (r : request) (a : res N) (s' : spec_state) : Prop :=
  spec_append ps s (rq_events r) (rq_cond r) (rq_trk r) = (a, s') \/
  exists c, rq_cond r = Some c /\ by_tags (ac_query c) /\ all_after (s_hist s) c <> [] /\
    (spec_append ps s (rq_events r) None (rq_trk r) = (a, s') \/
     (s' = s /\ a = Err EIntegrity) \/
     (s' = s /\ rq_events r <> [] /\ Forall (fun e => is_Some (ne_uuid e)) (rq_events r) /\
      exists l, l `sublist_of` all_after (s_hist s) c /\ map (fun e => er_uuid e.2) l = map ne_uuid (rq_events r) /\ a = Ok (last_pos l))).
Inductive lax_batch (ps : N) : spec_state -> list request -> list (res N) -> spec_state -> Prop :=
  | lax_nil s : lax_batch ps s [] [] s
  | lax_cons s r a s1 reqs ans s2 : lax_append ps s r a s1 -> lax_batch ps s1 reqs ans s2 -> lax_batch ps s (r :: reqs) (a :: ans) s2.

(** As in SpecSys.v, with such batches and answers. *)
Inductive lax_step (ps : N) : spec_sys -> label -> spec_sys -> Prop :=
  | LX_same y l y' : spec_step ps y l y' -> lax_step ps y l y'
  | LX_commit s calls open reqs ans s' : lax_batch ps s reqs ans s' ->
      lax_step ps (SSys s None true calls open) (LCommit reqs ans) (SSys s' None true (cons s' <$> calls) open)
  | LX_unsure s calls open reqs ans s' : lax_batch ps s reqs ans s' ->
      lax_step ps (SSys s None true calls open) (LUnsure reqs) (SSys s (Some s') true calls open)
  | LX_crash y reqs ans s' : lax_batch ps (sp_cur y) reqs ans s' -> lax_step ps y (LCrash reqs) (SSys s' None false ∅ ∅)
  | LX_kill y reqs ans s' : lax_batch ps (sp_cur y) reqs ans s' -> lax_step ps y (LKill reqs) (SSys s' None false ∅ ∅)
  | LX_read y i s0 q start bw limit r : sp_open y !! i = Some s0 -> patchy_read s0 q start bw limit r ->
      lax_step ps y (LRead i q start bw limit r) y
  | LX_track y i s0 src r : sp_open y !! i = Some s0 -> (exists e, r = Err e) \/ r = Ok (s_track s0 src) -> lax_step ps y (LTrack i src r) y.
Inductive lax_steps (ps : N) : spec_sys -> list label -> spec_sys -> Prop :=
  | lax_steps_nil y : lax_steps ps y [] y
  | lax_steps_snoc y tr y' l y'' : lax_steps ps y tr y' -> lax_step ps y' l y'' -> lax_steps ps y (tr ++ [l]) y''.
