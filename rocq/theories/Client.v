(** The client library: umadb-client/src/lib.rs.

    Of a stream the model has what is still to arrive ([a_in]), decoded; the end of the list is the end of the stream.  What a
    call does while it waits is left out: a call that can give up because of a timeout is told whether it does ([late]), and
    a cancellation that comes while a call waits is one that came before it, except that [poll_next] does not notice it (no
    waker waits for the cancel channels), so that there it is one that comes after it.  A subscription differs from the response
    to a read only in not keeping the head (lib.rs:339-495), so that both are [ar]. *)
From Coq Require Import Strings.String.
From Verif Require Export Proto Auth.
Local Open Scope N_scope.

(** ** The asynchronous response *)
(* what tonic::Streaming yields: a decoded message or the status with which the stream ends *)
(* umadb-client/src/lib.rs:148-210, 363-393 *)
Inductive sitem := SMsg (m : pb_response) | SFail (s : status).
(* lib.rs:121-130 and 339-347; [a_head]: last_head; [a_global] and [a_local]: the cancel channels have a change not seen *)
Record ar := AR {
  a_in : list sitem; a_buf : list seq_event; a_head : option (option N); a_ended : bool; a_global : bool; a_local : bool }.
(* lib.rs:133-145, 349-361 *)
Definition new_ar (s : list sitem) : ar := AR s [] None false false false.
Definition status_kind (s : status) : err := e_kind (dcb_error_from_status s).

(* lib.rs:148-176 and 178-208 ([late] only in the latter); for a subscription 363-392 *)
Definition fetch_next (late : bool) (a : ar) : res unit * ar :=
  match a_buf a with
  | _ :: _ => (Ok tt, a)
  | [] =>
    if a_ended a then (Ok tt, a)
    else if a_global a then (Err ECancelled, AR (a_in a) [] (a_head a) true false (a_local a))
    else if a_local a then (Err ECancelled, AR (a_in a) [] (a_head a) true false false)
    else if late then (Err ETimeout, a)
    else match a_in a with
         | [] => (Ok tt, AR [] [] (a_head a) true false false)
         | SMsg m :: r =>
           match convert_sequenced_events (px_events m) with
           | Ok evs => (Ok tt, AR r evs (Some (px_head m)) false false false)
           | Err e => (Err e, AR r [] (Some (px_head m)) false false false)
           end
         (* tonic ends a stream after an error *)
         | SFail s :: _ => (Err (status_kind s), AR [] [] (a_head a) false false false)
         end
  end.
(* umadb-client/src/lib.rs:236-243: drain(..) *)
Definition take_buf (a : ar) : ar := AR (a_in a) [] (a_head a) (a_ended a) (a_global a) (a_local a).
(* lib.rs:235-247, 249-262; 409-430 *)
Definition next_batch (late : bool) (a : ar) : res (list seq_event) * ar :=
  match a_buf a with
  | _ :: _ => (Ok (a_buf a), take_buf a)
  | [] => let '(x, a') := fetch_next late a in
          match x with Err e => (Err e, a') | Ok _ => (Ok (a_buf a'), take_buf a') end
  end.
(* lib.rs:226-233 *)
Definition ar_head (a : ar) : res (option N) * ar :=
  match a_head a with
  | Some h => (Ok h, a)
  | None => let '(x, a') := fetch_next false a in
            match x with Err e => (Err e, a') | Ok _ => (Ok (default None (a_head a')), a') end
  end.
(* lib.rs:70-85 *)
Inductive shutdown := NotStopped | StoppedGracefully | CancelledByUser.
Definition evaluate_shutdown (a : ar) : shutdown :=
  if a_global a || a_local a then CancelledByUser else if a_ended a then StoppedGracefully else NotStopped.
(* lib.rs:283-335; 451-495.  The loop goes round for each empty message. *)
Fixpoint poll_stream (s : list sitem) (h : option (option N)) : option (res seq_event) * ar :=
  match s with
  | [] => (None, AR [] [] h true false false)
  | SMsg m :: r =>
    match convert_sequenced_events (px_events m) with
    | Err e => (Some (Err e), AR r [] (Some (px_head m)) false false false)
    | Ok [] => poll_stream r (Some (px_head m))
    | Ok (e :: b) => (Some (Ok e), AR r b (Some (px_head m)) false false false)
    end
  | SFail s :: _ => (Some (Err (status_kind s)), AR [] [] h true false false)
  end.
Definition poll_next (a : ar) : option (res seq_event) * ar :=
  match evaluate_shutdown a with
  | CancelledByUser => (Some (Err ECancelled), take_buf a)
  | StoppedGracefully => (None, take_buf a)
  | NotStopped =>
    match a_buf a with
    | e :: b => (Some (Ok e), AR (a_in a) b (a_head a) (a_ended a) (a_global a) (a_local a))
    | [] => poll_stream (a_in a) (a_head a)
    end
  end.
(* lib.rs:264-266 and 432-434; also through a handle (268-273, 436-441), and for each stream of the client in close (815-820, 1055-1057) *)
Definition ar_cancel (a : ar) : ar := AR (a_in a) (a_buf a) (a_head a) (a_ended a) (a_global a) true.
(* lib.rs:43-47 *)
Definition ar_cancel_all (a : ar) : ar := AR (a_in a) (a_buf a) (a_head a) (a_ended a) true (a_local a).

(** ** The synchronous response *)
(* lib.rs:548-553 *)
Record eng := Eng { g_fin : bool; g_buf : list seq_event; g_resp : ar }.
Definition new_eng (s : list sitem) : eng := Eng false [] (new_ar s).
Definition pop (g : eng) : option (res seq_event) * eng :=
  match g_buf g with
  | e :: b => (Some (Ok e), Eng (g_fin g) b (g_resp g))
  | [] => (None, g)
  end.
(* the batch is kept, or the stream is over: lib.rs:588-592, 632-636, 653-657 and 673-677 *)
Definition keep_batch (g : eng) (b : list seq_event) (a : ar) : eng :=
  match b with [] => Eng true (g_buf g) a | _ => Eng (g_fin g) b a end.
(* lib.rs:566-599; the loop is left after one round *)
Definition next_item (g : eng) : option (res seq_event) * eng :=
  let go g :=
    match g_buf g with
    | [] => if g_fin g then (None, g)
            else let '(x, a) := next_batch false (g_resp g) in
                 match x with Err e => (Some (Err e), Eng (g_fin g) [] a) | Ok b => pop (keep_batch g b a) end
    | _ => pop g
    end in
  if g_fin g then go g
  else match evaluate_shutdown (g_resp g) with
       | CancelledByUser => (Some (Err ECancelled), Eng true [] (g_resp g))
       | StoppedGracefully => (None, Eng true [] (g_resp g))
       | NotStopped => go g
       end.
(* lib.rs:602-644 *)
Definition next_item_timeout (late : bool) (g : eng) : option (res seq_event) * eng :=
  let go g :=
    match g_buf g with
    | [] => if g_fin g then (None, g)
            else let '(x, a) := next_batch late (g_resp g) in
                 match x with Err e => (Some (Err e), Eng (g_fin g) [] a) | Ok b => pop (keep_batch g b a) end
    | _ => pop g
    end in
  if g_fin g then go g
  else match evaluate_shutdown (g_resp g) with
       | CancelledByUser => (Some (Err ECancelled), Eng true [] (g_resp g))
       | StoppedGracefully => (None, Eng true [] (g_resp g))
       | NotStopped => go g
       end.
(* lib.rs:646-659 and 662-679 *)
Definition engine_next_batch (late : bool) (g : eng) : res (list seq_event) * eng :=
  match g_buf g with
  | _ :: _ => (Ok (g_buf g), Eng (g_fin g) [] (g_resp g))
  | [] => let '(x, a) := next_batch late (g_resp g) in
          match x with
          | Err e => (Err e, Eng (g_fin g) [] a)
          | Ok b => let g' := keep_batch g b a in (Ok (g_buf g'), Eng (g_fin g') [] a)
          end
  end.
(* lib.rs:682-685, 734-736: cancel() of the response to a read *)
Definition engine_stop (g : eng) : eng := Eng true (g_buf g) (ar_cancel (g_resp g)).
(* lib.rs:780-782: cancel() of a subscription; also a handle or close(), for both *)
Definition engine_cancel (g : eng) : eng := Eng (g_fin g) (g_buf g) (ar_cancel (g_resp g)).
Definition engine_cancel_all (g : eng) : eng := Eng (g_fin g) (g_buf g) (ar_cancel_all (g_resp g)).
(* lib.rs:718-720 *)
Definition engine_head (g : eng) : res (option N) * eng :=
  let '(x, a) := ar_head (g_resp g) in (x, Eng (g_fin g) (g_buf g) a).
(** lib.rs:722-728.  An iteration takes an event, or ends the loop. *)
Fixpoint collect_items (fuel : nat) (acc : list seq_event) (g : eng) : res (list seq_event) * eng :=
  match fuel with
  | O => (Err Fuel, g)
  | S f =>
    match next_item g with
    | (None, g') => (Ok acc, g')
    | (Some (Err e), g') => (Err e, g')
    | (Some (Ok e), g') => collect_items f (acc ++ [e]) g'
    end
  end.
Definition msg_size (i : sitem) : nat := match i with SMsg m => length (px_events m) | SFail _ => 0 end.
Definition events_left (a : ar) : nat := (length (a_buf a) + foldr (fun i n => msg_size i + n) 0 (a_in a))%nat.
Definition collect_with_head (g : eng) : res (list seq_event * option N) * eng :=
  let '(x, g') := collect_items (S (length (g_buf g) + events_left (g_resp g))) [] g in
  match x with
  | Err e => (Err e, g')
  | Ok evs => let '(h, g'') := engine_head g' in
              (match h with Err e => Err e | Ok h => Ok (evs, h) end, g'')
  end.
(* the same for the asynchronous response: umadb-dcb/src/lib.rs:214-222 *)
Fixpoint poll_all (fuel : nat) (acc : list seq_event) (a : ar) : res (list seq_event) * ar :=
  match fuel with
  | O => (Err Fuel, a)
  | S f =>
    match poll_next a with
    | (None, a') => (Ok acc, a')
    | (Some (Err e), a') => (Err e, a')
    | (Some (Ok e), a') => poll_all f (acc ++ [e]) a'
    end
  end.
Definition ar_collect_with_head (a : ar) : res (list seq_event * option N) * ar :=
  let '(x, a') := poll_all (S (events_left a)) [] a in
  match x with
  | Err e => (Err e, a')
  | Ok evs => let '(h, a'') := ar_head a' in (match h with Err e => Err e | Ok h => Ok (evs, h) end, a'')
  end.

(** ** The calls a program makes on a response, in any order *)
(* the methods of umadb-client/src/lib.rs:225-335, 408-495, 700-790 *)
Inductive call := CNext | CNextTimeout (late : bool) | CBatch | CBatchTimeout (late : bool) | CHead | CCollect | CCancel | CHandle | CCancelAll.
Inductive answer :=
  | AItem (x : option (res seq_event)) | ABatch (x : res (list seq_event)) | AHead (x : res (option N))
  | AAll (x : res (list seq_event * option N)) | AUnit.
(* a subscription has no CHead and no CCollect, and its CCancel is CHandle *)
(* umadb-client/src/lib.rs:566-790 *)
Definition sync_call (c : call) (g : eng) : answer * eng :=
  match c with
  | CNext => let '(x, g') := next_item g in (AItem x, g')
  | CNextTimeout late => let '(x, g') := next_item_timeout late g in (AItem x, g')
  | CBatch => let '(x, g') := engine_next_batch false g in (ABatch x, g')
  | CBatchTimeout late => let '(x, g') := engine_next_batch late g in (ABatch x, g')
  | CHead => let '(x, g') := engine_head g in (AHead x, g')
  | CCollect => let '(x, g') := collect_with_head g in (AAll x, g')
  | CCancel => (AUnit, engine_stop g)
  | CHandle => (AUnit, engine_cancel g)
  | CCancelAll => (AUnit, engine_cancel_all g)
  end.
(* umadb-client/src/lib.rs:225-335, 408-495 *)
Definition async_call (c : call) (a : ar) : answer * ar :=
  match c with
  (* the stream has no poll with a timeout *)
  | CNext | CNextTimeout _ => let '(x, a') := poll_next a in (AItem x, a')
  | CBatch => let '(x, a') := next_batch false a in (ABatch x, a')
  | CBatchTimeout late => let '(x, a') := next_batch late a in (ABatch x, a')
  | CHead => let '(x, a') := ar_head a in (AHead x, a')
  | CCollect => let '(x, a') := ar_collect_with_head a in (AAll x, a')
  | CCancel | CHandle => (AUnit, ar_cancel a)
  | CCancelAll => (AUnit, ar_cancel_all a)
  end.
(* for statements: a program that uses umadb-client/src/lib.rs *)
Fixpoint calls {S} (do : call -> S -> answer * S) (cs : list call) (s : S) : list answer * S :=
  match cs with
  | [] => ([], s)
  | c :: cs' => let '(x, s1) := do c s in let '(xs, s2) := calls do cs' s1 in (x :: xs, s2)
  end.

(** ** What arrives *)
(* tonic decodes each message; one that is too long ends the stream with OutOfRange, one that cannot be decoded with Internal *)
(* below umadb-client/src/lib.rs:148-210 *)
Definition arrives (m : pb_response) : sitem :=
  match receive step_response no_response (put_fields (fields_response m)) with
  | Received x => SMsg x
  | TooLong => SFail (Status COutOfRange [] [])
  | Malformed => SFail (Status CInternal [] [])
  end.
(* umadb-server/src/lib.rs:564-575, 584-591 and 602-609; of a subscription 794-802, without a head *)
Definition response_to_pb (o : list seq_event * option N) : pb_response := PbResponse (map seq_event_to_pb o.1) o.2.

(** ** The API key: lib.rs:1078-1091 *)
Definition starts_with (p url : bytes) : bool := bool_decide (take (length p) url = p).
(* lib.rs:1065 *)
Definition tls_enabled (url : bytes) : bool := starts_with (text "https://") url || starts_with (text "grpcs://") url.
Definition add_auth (api_key : option bytes) (tls : bool) (md : metadata) : res metadata :=
  match api_key with
  | None => Ok md
  | Some key =>
    if negb tls then Err ETransport
    else match to_str (BEARER ++ key) with
         | None => Err ETransport
         (* MetadataMap::insert replaces *)
         | Some token => Ok ((AUTHORIZATION, token) :: List.filter (fun kv => negb (bool_decide (kv.1 = AUTHORIZATION))) md)
         end
  end.
