(** What the store is meant to do over time: batches of requests, readers, crashes and restarts.  Stated over the
    abstract states of Spec.v only. *)
From Verif Require Export Spec.
Local Open Scope N_scope.

(** One append request as put into the channel of the writer thread (writer_thread_request.rs). *)
Record request := Req { rq_events : list new_event; rq_cond : option append_condition; rq_trk : option tracking }.

(** What can be observed. *)
Inductive label :=
  | LTau
  (* a batch of requests was committed, with these answers *)
  | LCommit (reqs : list request) (ans : list (res N))
  (* a batch was given up; all its requests get an error *)
  | LAbort (reqs : list request)
  (* whether a batch took effect will be known after a restart only; all its requests get an error *)
  | LUnsure (reqs : list request)
  (* the machine crashes, or the process ends; [reqs]: a batch whose commit is being written *)
  | LCrash (reqs : list request)
  | LKill (reqs : list request)
  | LOpen
  (* a reader: requested, provided, dropped *)
  | LCall (i : nat) | LReady (i : nat) | LClose (i : nat)
  (* what it returns *)
  (* (a reader that only asks for the head is dropped with the answer) *)
  | LRead (i : nat) (q : query) (start : option N) (bw : bool) (limit : option N) (r : res (list seq_event * option N))
  | LHead (i : nat) (r : option N)
  | LTrack (i : nat) (source : bytes) (r : res (option N)).

(** A batch: each request is judged in the state its predecessors left. *)
Fixpoint spec_batch (ps : N) (s : spec_state) (reqs : list request) : list (res N) * spec_state :=
  match reqs with
  | [] => ([], s)
  | r :: reqs' =>
    let x := spec_append ps s (rq_events r) (rq_cond r) (rq_trk r) in
    let y := spec_batch ps x.2 reqs' in
    (x.1 :: y.1, y.2)
  end.

(** [sp_cur]: the committed state; [sp_alt]: a state that may turn out to be the committed one after a restart;
    [sp_calls]: for each reader asked for, the states committed since; [sp_open]: the state each reader shows. *)
Record spec_sys := SSys {
  sp_cur : spec_state; sp_alt : option spec_state; sp_up : bool;
  sp_calls : gmap nat (list spec_state); sp_open : gmap nat spec_state }.
Definition spec_init : spec_sys := SSys spec_empty None true ∅ ∅.

Definition spec_head (s : spec_state) : option N := match s_hist s with [] => None | h => Some (nlen h) end.

(** The head reported with a read: that of the store, or the last event returned when there is a limit. *)
Definition spec_read_head (s : spec_state) (limit : option N) (evs : list seq_event) : option N :=
  match limit with None => spec_head s | Some _ => fst <$> last evs end.

(** Which state is found after a crash. *)
Definition survives (ps : N) (y : spec_sys) (reqs : list request) (s : spec_state) : Prop :=
  s = sp_cur y \/ sp_alt y = Some s \/ s = (spec_batch ps (sp_cur y) reqs).2.

Inductive spec_step (ps : N) : spec_sys -> label -> spec_sys -> Prop :=
  | SS_tau y : spec_step ps y LTau y
  | SS_commit s calls open reqs ans s' : spec_batch ps s reqs = (ans, s') ->
      spec_step ps (SSys s None true calls open) (LCommit reqs ans) (SSys s' None true (cons s' <$> calls) open)
  | SS_abort s a calls open reqs :
      spec_step ps (SSys s a true calls open) (LAbort reqs) (SSys s a true calls open)
  | SS_unsure s calls open reqs :
      spec_step ps (SSys s None true calls open) (LUnsure reqs) (SSys s (Some (spec_batch ps s reqs).2) true calls open)
  | SS_crash y reqs s' : survives ps y reqs s' -> spec_step ps y (LCrash reqs) (SSys s' None false ∅ ∅)
  | SS_kill y reqs s' : survives ps y reqs s' -> spec_step ps y (LKill reqs) (SSys s' None false ∅ ∅)
  | SS_open s : spec_step ps (SSys s None false ∅ ∅) LOpen (SSys s None true ∅ ∅)
  | SS_call s a calls open i : calls !! i = None -> open !! i = None ->
      spec_step ps (SSys s a true calls open) (LCall i) (SSys s a true (<[i := [s]]> calls) open)
  | SS_ready s a calls open i l s0 : calls !! i = Some l -> s0 ∈ l ->
      spec_step ps (SSys s a true calls open) (LReady i) (SSys s a true (delete i calls) (<[i := s0]> open))
  | SS_close s a calls open i s0 : open !! i = Some s0 ->
      spec_step ps (SSys s a true calls open) (LClose i) (SSys s a true calls (delete i open))
  | SS_read y i s0 q start bw limit : sp_open y !! i = Some s0 ->
      let evs := spec_read (s_hist s0) q start bw limit in
      spec_step ps y (LRead i q start bw limit (Ok (evs, spec_read_head s0 limit evs))) y
  | SS_head s a calls open i l s0 : calls !! i = Some l -> s0 ∈ l ->
      spec_step ps (SSys s a true calls open) (LHead i (spec_head s0)) (SSys s a true (delete i calls) open)
  | SS_track y i s0 src : sp_open y !! i = Some s0 -> spec_step ps y (LTrack i src (Ok (s_track s0 src))) y.

Inductive spec_steps (ps : N) : spec_sys -> list label -> spec_sys -> Prop :=
  | spec_steps_nil y : spec_steps ps y [] y
  | spec_steps_snoc y tr y' l y'' : spec_steps ps y tr y' -> spec_step ps y' l y'' -> spec_steps ps y (tr ++ [l]) y''.
