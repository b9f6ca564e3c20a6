(** The Python module: umadb-python/src/lib.rs.

    A Python object holds its response behind a mutex; calls of several threads take turns, so that the calls on one response are
    a sequence.  What PyO3 does with arguments and results (texts, numbers, lists) is taken to be the identity. *)
From Verif Require Export Client.
Local Open Scope N_scope.

(** ** Exceptions *)
(* lib.rs:15-20; [PyOther] is a plain Exception, [PySignal] what a signal handler raises *)
Inductive pyexn := PyValueError | PyIntegrity | PyTransport | PyCorruption | PyAuthentication | PyCancelled | PyOther | PySignal.
(* lib.rs:22-33 *)
Definition dcb_error_to_py_err (e : err) : pyexn :=
  match e with
  | EInvalidArgument => PyValueError
  | EIntegrity => PyIntegrity
  | ETransport => PyTransport
  | ECorruption => PyCorruption
  | ECancelled => PyCancelled
  | EAuth => PyAuthentication
  | _ => PyOther
  end.
(* the classes an application catches; bases as in lib.rs:15-20 and in Python (PermissionError is an OSError) *)
Inductive pyclass := KException | KValueError | KRuntimeError | KOSError | KIntegrityError | KTransportError | KCorruptionError | KAuthenticationError | KCancelledByUserError.
Definition catches (k : pyclass) (x : pyexn) : bool :=
  match k, x with
  | _, PySignal => false
  | KException, _ => true
  | KValueError, (PyValueError | PyIntegrity) => true
  | KRuntimeError, (PyTransport | PyCorruption) => true
  | KOSError, PyAuthentication => true
  | KIntegrityError, PyIntegrity => true
  | KTransportError, PyTransport => true
  | KCorruptionError, PyCorruption => true
  | KAuthenticationError, PyAuthentication => true
  | KCancelledByUserError, PyCancelled => true
  | _, _ => false
  end.

(** ** Metadata: a dict *)
(* lib.rs:46-63: from a dict, whose keys differ, through a HashMap, which is gone through in some order *)
Definition event_metadata (horder : gmap bytes bytes -> list (bytes * bytes)) (d : gmap bytes bytes) : list (bytes * bytes) := horder d.
(* lib.rs:87-90; an entry replaces one before it with the same key *)
Definition metadata_dict (m : list (bytes * bytes)) : gmap bytes bytes := fold_left (fun d kv => <[kv.1 := kv.2]> d) m ∅.

(** ** Responses *)
(* [PWaits]: the call has not returned yet *)
(* umadb-python/src/lib.rs:291-440 *)
Inductive pyanswer := PYield (e : seq_event) | PStop | PRaise (x : pyexn) | PList (l : list seq_event) | PHeadIs (h : option N) | PAllIs (l : list seq_event) (h : option N) | PNone | PWaits.
(* One round of the loops waits for at most 100 ms; [late] says that nothing came, [sig] that a signal arrived meanwhile whose
   handler raises an exception. *)
(* umadb-python/src/lib.rs:291-319 *)
Record poll := Poll { late : bool; sig : bool }.
(* lib.rs:291-319; Subscription 394-417 *)
Fixpoint py_next (ps : list poll) (g : eng) : pyanswer * eng :=
  match ps with
  | [] => (PWaits, g)
  | p :: ps' =>
    let '(x, g') := next_item_timeout (late p) g in
    if sig p then (PRaise PySignal, g')
    else match x with
         | Some (Ok e) => (PYield e, g')
         | Some (Err ETimeout) => py_next ps' g'
         | Some (Err e) => (PRaise (dcb_error_to_py_err e), g')
         | None => (PStop, g')
         end
  end.
(* lib.rs:420-446 *)
Fixpoint py_sub_batch (ps : list poll) (g : eng) : pyanswer * eng :=
  match ps with
  | [] => (PWaits, g)
  | p :: ps' =>
    let '(x, g') := engine_next_batch (late p) g in
    if sig p then (PRaise PySignal, g')
    else match x with
         | Ok l => (PList l, g')
         | Err ETimeout => py_sub_batch ps' g'
         | Err e => (PRaise (dcb_error_to_py_err e), g')
         end
  end.
Definition py_result {A} (f : A -> pyanswer) (x : res A) : pyanswer := match x with Ok a => f a | Err e => PRaise (dcb_error_to_py_err e) end.
(* the methods of ReadResponse, lib.rs:285-378, and of Subscription, 388-463; [PClose] is close(), the end of a with block or
   the end of the client (641-672), [PCancelAll] the function cancel_all_stream_responses (674-685) *)
Inductive pycall := PNext (ps : list poll) | PBatch (ps : list poll) | PHead | PCollect | PCancel | PClose | PCancelAll.
Definition read_call (c : pycall) (g : eng) : pyanswer * eng :=
  match c with
  | PNext ps => py_next ps g
  | PBatch _ => let '(x, g') := engine_next_batch false g in (py_result PList x, g')
  | PHead => let '(x, g') := engine_head g in (py_result PHeadIs x, g')
  | PCollect => let '(x, g') := collect_with_head g in (py_result (fun lh => PAllIs lh.1 lh.2) x, g')
  | PCancel => (PNone, engine_stop g)
  | PClose => (PNone, engine_cancel g)
  | PCancelAll => (PNone, engine_cancel_all g)
  end.
Definition subscription_call (c : pycall) (g : eng) : pyanswer * eng :=
  match c with
  | PNext ps => py_next ps g
  | PBatch ps => py_sub_batch ps g
  (* no such methods *)
  | PHead | PCollect => (PRaise PyOther, g)
  | PCancel | PClose => (PNone, engine_cancel g)
  | PCancelAll => (PNone, engine_cancel_all g)
  end.
(* for statements: a program that uses umadb-python/src/lib.rs *)
Fixpoint pycalls (do : pycall -> eng -> pyanswer * eng) (cs : list pycall) (g : eng) : list pyanswer * eng :=
  match cs with
  | [] => ([], g)
  | c :: cs' => let '(x, g1) := do c g in let '(xs, g2) := pycalls do cs' g1 in (x :: xs, g2)
  end.
