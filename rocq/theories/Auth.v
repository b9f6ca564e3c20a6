(** The API key: umadb-server/src/lib.rs. *)
From Verif Require Export Base.
Local Open Scope N_scope.

(** HTTP metadata: names and values in the order in which they were sent. *)
Notation metadata := (list (bytes * bytes)).
(* tonic::metadata::MetadataMap::get: the first value under the name; names come in lower case *)
(* umadb-server/src/lib.rs:429 *)
Fixpoint md_get (name : bytes) (md : metadata) : option bytes :=
  match md with [] => None | (n, v) :: md' => if decide (n = name) then Some v else md_get name md' end.
(* http::HeaderValue::to_str: visible characters, blanks and tabs only *)
(* umadb-server/src/lib.rs:431-436; RFC 9110, 5.5 *)
Definition visible (b : N) : bool := ((32 <=? b) && (b <? 127)) || (b =? 9).
Definition to_str (v : bytes) : option bytes := if forallb visible v then Some v else None.
(* "authorization" and "Bearer " *)
(* umadb-server/src/lib.rs:429-430, umadb-client/src/lib.rs:1085-1087 *)
Definition AUTHORIZATION : bytes := [97;117;116;104;111;114;105;122;97;116;105;111;110].
Definition BEARER : bytes := [66;101;97;114;101;114;32].
(* lib.rs:427-442 *)
Definition enforce_api_key (api_key : option bytes) (md : metadata) : res unit :=
  match api_key with
  | None => Ok tt
  | Some expected =>
    let expected_val := BEARER ++ expected in
    let ok := match md_get AUTHORIZATION md with
              | Some m => match to_str m with Some s => bool_decide (s = expected_val) | None => false end
              | None => false end in
    if ok then Ok tt else Err EAuth
  end.

(** The calls of the service.  Each begins with the check: read lib.rs:454, subscribe 670, append 852, head 905,
    get_tracking_info 927.  [perform] is what follows it: a change of the state of the server and an answer. *)
Inductive method := MRead | MSubscribe | MAppendCall | MHead | MTrackingInfo.
Definition handle_call {S A} (api_key : option bytes) (md : metadata) (perform : method -> S -> S * res A) (m : method) (s : S) : S * res A :=
  match enforce_api_key api_key md with
  | Err e => (s, Err e)
  | Ok _ => perform m s
  end.
