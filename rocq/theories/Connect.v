(** How the client connects: umadb-client/src/lib.rs:915-1091, 1314-1371. *)
From Coq Require Import Strings.String Strings.Ascii.
From Verif Require Export Client.
Local Open Scope N_scope.

(* replacen(p, q, 1) of a text that starts with [p]: umadb-client/src/lib.rs:928-930 *)
Definition alias (url : bytes) : bytes :=
  if starts_with (text "grpcs://") url then text "https://" ++ drop (length (text "grpcs://")) url else url.
(** The parts of tonic and http (below lib.rs:932 and 961).  http reads schemes without regard to case; [well_formed] is what else it asks of a URI. *)
(* ASCII, as eq_ignore_ascii_case of http's scheme.rs, below lib.rs:932 *)
Definition lower (b : N) : N := if (65 <=? b) && (b <=? 90) then b + 32 else b.
(* Uri::scheme, below lib.rs:932 *)
Definition is_https (url : bytes) : bool := bool_decide (map lower (take (length (text "https://")) url) = text "https://").
(* lib.rs:916-920; the contents matter only to the handshake *)
Record tls_options := TlsOptions { o_domain : option bytes; o_ca_pem : option bytes }.
(* what Endpoint keeps of it: the configuration of TLS, if any, lib.rs:940-951 *)
Inductive tls_config := TlsConfig (domain ca : option bytes).
(* lib.rs:932-953, as far as it matters to the channel *)
Record endpoint := Endpoint { p_uri : bytes; p_tls : option tls_config }.
Section connect.
  Context (well_formed : bytes -> bool).
  (** [usable c]: the certificate in it can be read *)
  Context (usable : tls_config -> bool).
  (* lib.rs:922-954 *)
  Definition new_endpoint (url : bytes) (tls : option tls_options) : option endpoint :=
    let uri := alias url in
    if negb (well_formed uri) then None
    else match tls with
         | Some o => let c := TlsConfig (o_domain o) (o_ca_pem o) in if usable c then Some (Endpoint uri (Some c)) else None
         | None => if starts_with (text "https://") url then (let c := TlsConfig None None in if usable c then Some (Endpoint uri (Some c)) else None) else Some (Endpoint uri None)
         end.
  (* Endpoint::connect (tonic, transport/channel/service/connector.rs): TLS is used for https only, and asked for then.  [reached]: the server was reached, and the handshake, if there is one, succeeded with this configuration *)
  Definition channel (e : endpoint) (reached : option tls_config -> bool) : option bool :=
    if is_https (p_uri e) then match p_tls e with Some c => if reached (Some c) then Some true else None | None => None end
    else if reached None then Some false else None.
  (* lib.rs:956-961 *)
  Definition new_channel (url : bytes) (tls : option tls_options) (reached : option tls_config -> bool) : option bool :=
    match new_endpoint url tls with Some e => channel e reached | None => None end.
  (* lib.rs:964-971; [c_encrypted] is what the channel is, [c_tls] the field tls_enabled *)
  Record client := Cl { c_encrypted : bool; c_batch : option N; c_tls : bool; c_key : option bytes }.
  (* lib.rs:1059-1076 *)
  Definition connect_with_tls_options (url : bytes) (tls : option tls_options) (batch : option N) (key : option bytes) (reached : option tls_config -> bool) : res client :=
    match new_channel url tls reached with
    | Some b => Ok (Cl b batch (tls_enabled url) key)
    | None => Err ETransport
    end.
  (* lib.rs:1000 *)
  Definition max_attempts : nat := 50.
  (* lib.rs:1000-1020: [left] more attempts may follow the [i]-th; with the result how many were made *)
  Fixpoint attempt (left : nat) (i : nat) (f : nat -> res client) : nat * res client :=
    match f i with
    | Ok c => (S i, Ok c)
    | Err e => match left with O => (S i, Err e) | S l => attempt l (S i) f end
    end.
  (* lib.rs:974-1021; [reached i]: how the world is at the [i]-th attempt; [read_file] is fs::read, a failure of which is a panic *)
  Definition connect (read_file : bytes -> option bytes) (url : bytes) (ca_path : option bytes) (batch : option N) (key : option bytes) (reached : nat -> option tls_config -> bool) : nat * res client :=
    let go ca := attempt (max_attempts - 1) 0 (fun i => connect_with_tls_options url (Some (TlsOptions None ca)) batch key (reached i)) in
    match ca_path with
    | None => go None
    | Some p => match read_file p with Some b => go (Some b) | None => (0%nat, Err Panic) end
    end.
  (* UmaDbClient, lib.rs:1314-1350 *)
  Inductive setting := CaPath (p : bytes) | ApiKey (k : bytes) | BatchSize (n : N).
  (* lib.rs:1315-1319 *)
  Record settings := Settings { s_ca : option bytes; s_batch : option N; s_key : option bytes }.
  (* lib.rs:1331-1350 *)
  Definition set (s : settings) (c : setting) : settings :=
    match c with CaPath p => Settings (Some p) (s_batch s) (s_key s) | BatchSize n => Settings (s_ca s) (Some n) (s_key s) | ApiKey k => Settings (s_ca s) (s_batch s) (Some k) end.
  (* lib.rs:1322-1329, 1352-1369; the synchronous client wraps the asynchronous one (1197-1211) *)
  Definition client_connect (read_file : bytes -> option bytes) (url : bytes) (cs : list setting) (reached : nat -> option tls_config -> bool) : nat * res client :=
    let s := fold_left set cs (Settings None None None) in connect read_file url (s_ca s) (s_batch s) (s_key s) reached.
  (* lib.rs:1078-1091, of a client *)
  Definition send_auth (c : client) (md : metadata) : res metadata := add_auth (c_key c) (c_tls c) md.
End connect.
