(** Command line, start of the server, names of the calls: umadb/src/lib.rs and umadb-server/src/lib.rs. *)
From Coq Require Import Strings.String Strings.Ascii.
From Verif Require Export Auth.
Local Open Scope N_scope.

(** Text as bytes. *)
(* literals, e.g. umadb-server/src/lib.rs:110-111 *)
Definition txt (s : string) : bytes := map N_of_ascii (list_ascii_of_string s).

(** ** Names of the calls *)

(* str::starts_with *)
(* umadb-server/src/lib.rs:110 *)
Fixpoint starts_with (pat s : bytes) : bool :=
  match pat, s with
  | [], _ => true
  | a :: pat', b :: s' => (a =? b) && starts_with pat' s'
  | _ :: _, [] => false
  end.
(* str::replace: from the left, matches that do not overlap; the fuel is the length of the text *)
(* umadb-server/src/lib.rs:111 *)
Fixpoint replace_loop (fuel : nat) (pat rep s : bytes) : bytes :=
  match fuel, s with
  | O, _ | _, [] => s
  | S fuel', b :: s' =>
    if starts_with pat s then rep ++ replace_loop fuel' pat rep (drop (length pat) s) else b :: replace_loop fuel' pat rep s'
  end.
(* umadb-server/src/lib.rs:111 *)
Definition replace_all (pat rep s : bytes) : bytes := replace_loop (length s) pat rep s.

(* umadb-server/src/lib.rs:110-111 *)
Definition UNVERSIONED : bytes := txt "/umadb.UmaDBService/".
Definition VERSION_1 : bytes := txt "/umadb.v1.DCB/".
(* The address of a request as far as the server looks at it. *)
(* http::Uri, umadb-server/src/lib.rs:105-125 *)
Record uri := Uri { u_path : bytes; u_query : option bytes }.
(* PathRewriterService::call, lib.rs:105-137.  The new address is built from the path alone; as all characters of the new path
   were allowed in the old one and it is not longer, building it succeeds. *)
Definition rewrite_path (u : uri) : uri :=
  if starts_with UNVERSIONED (u_path u) then Uri (replace_all UNVERSIONED VERSION_1 (u_path u)) None else u.

(* umadb-proto/proto/v1/umadb.proto:171-187; the generated server compares paths *)
Definition method_name (m : method) : bytes :=
  match m with
  | MRead => txt "Read" | MSubscribe => txt "Subscribe" | MAppendCall => txt "Append" | MHead => txt "Head"
  | MTrackingInfo => txt "GetTrackingInfo"
  end.
Definition METHODS : list method := [MRead; MSubscribe; MAppendCall; MHead; MTrackingInfo].
Definition find_method (p : bytes) : option method := List.find (fun m => bool_decide (p = VERSION_1 ++ method_name m)) METHODS.
(* lib.rs:343-349: the layer comes before the router, the router has the health service and the service above *)
Definition HEALTH : bytes := txt "/grpc.health.v1.Health/".
Inductive reply (A : Type) := Handled (r : res A) | HealthService | Unimplemented.
Arguments Handled {A} r. Arguments HealthService {A}. Arguments Unimplemented {A}.
Definition serve {S A} (api_key : option bytes) (perform : method -> S -> S * res A) (u : uri) (md : metadata) (s : S) : S * reply A :=
  let p := u_path (rewrite_path u) in
  if starts_with HEALTH p then (s, HealthService)
  else match find_method p with
       | Some m => let '(s', r) := handle_call api_key md perform m s in (s', Handled r)
       | None => (s, Unimplemented)
       end.

(** ** Command line *)

(* pager.rs:18-36; str::to_lowercase: besides the capital ASCII letters nothing becomes one of the letters of the two names *)
Inductive read_method := FileIo | Mmap.
Global Instance read_method_eq_dec : EqDecision read_method. Proof. solve_decision. Defined.
Definition lower (b : N) : N := if (65 <=? b) && (b <=? 90) then b + 32 else b.
Definition parse_read_method (s : bytes) : option read_method :=
  let l := map lower s in
  if decide (l = txt "fileio") then Some FileIo else if decide (l = txt "mmap") then Some Mmap else None.

(* umadb/src/lib.rs:34-109: what clap makes of the command line and the environment; numbers and truth values that it cannot
   read make it exit *)
Record args := Args {
  a_listen : bytes; a_db_path : bytes; a_cert : option bytes; a_key : option bytes; a_api_key : option bytes;
  a_read_method : bytes; a_cache_pages : N; a_cache_mb : N; a_zero_fill : bool; a_pipelined : bool; a_blocking : N }.
(* lib.rs:111-124 *)
Record cli := Cli {
  o_listen : bytes; o_db_path : bytes; o_cert : option bytes; o_key : option bytes; o_api_key : option bytes;
  o_read_method : read_method; o_cache_pages : N; o_cache_mb : N; o_zero_fill : bool; o_pipelined : bool; o_blocking : N }.
(* CliOptions::from_args, lib.rs:144-158 *)
Definition from_args (a : args) : cli :=
  Cli (a_listen a) (a_db_path a) (a_cert a) (a_key a) (a_api_key a)
      (match parse_read_method (a_read_method a) with Some m => m | None => Mmap end)
      (a_cache_pages a) (a_cache_mb a) (a_zero_fill a) (a_pipelined a) (a_blocking a).
(* CliOptions::validate, lib.rs:162-167 *)
Definition validate (o : cli) : bool := Bool.eqb (bool_decide (is_Some (o_cert o))) (bool_decide (is_Some (o_key o))).

(* mvcc.rs:38-47 and umadb-server/src/lib.rs:27-34 *)
Record storage_options := Storage {
  t_db_path : bytes; t_page_size : N; t_read_method : read_method; t_cache_pages : N; t_cache_mb : N; t_zero_fill : bool; t_pipelined : bool }.
Record server_options := Serving { s_listen : bytes; s_tls : option (bytes * bytes); s_api_key : option bytes; s_storage : storage_options }.

(* The machine the server starts on: directories, contents of files, what can be parsed and bound as an address, whether a
   database opens, certificates and keys the TLS library takes, UMADB_READER_THREADS, the number of processors if known. *)
(* for umadb-server/src/lib.rs:268-420, mvcc.rs:64-72 *)
Record machine := Machine {
  k_is_dir : bytes -> bool; k_file : bytes -> option bytes; k_binds : bytes -> bool; k_opens : storage_options -> bool;
  k_pem : bytes -> bytes -> bool; k_reader_threads : option bytes; k_cpus : option N }.

(* Path::join with a relative name *)
(* mvcc.rs:66 *)
Definition SLASH : N := 47.
Definition join (d n : bytes) : bytes := if decide (last d = Some SLASH) then d ++ n else d ++ SLASH :: n.
(* StorageOptions::db_path, mvcc.rs:64-72 *)
Definition db_path (k : machine) (p : bytes) : bytes := if k_is_dir k p then join p (txt "uma.db") else p.
(* ServerTlsOptions::from_path_strings, umadb-server/src/lib.rs:44-58 *)
Definition from_path_strings (k : machine) (cert key : option bytes) : option (option (bytes * bytes)) :=
  match cert, key with
  | Some c, Some q => match k_file k c with
                      | Some cp => match k_file k q with Some kp => Some (Some (cp, kp)) | None => None end
                      | None => None
                      end
  | None, None => Some None
  | _, _ => None
  end.
(* CliOptions::to_server_options, umadb/src/lib.rs:169-190; DEFAULT_PAGE_SIZE, mvcc.rs:34 *)
Definition to_server_options (k : machine) (o : cli) : option server_options :=
  match from_path_strings k (o_cert o) (o_key o) with
  | None => None
  | Some tls => Some (Serving (o_listen o) tls (o_api_key o)
      (Storage (db_path k (o_db_path o)) 4096 (o_read_method o) (o_cache_pages o) (o_cache_mb o) (o_zero_fill o) (o_pipelined o)))
  end.

(* str::parse::<usize>: an optional plus sign, then at least one digit, no overflow *)
(* umadb-server/src/lib.rs:386 *)
Definition digit (b : N) : bool := (48 <=? b) && (b <=? 57).
Fixpoint digits (acc : N) (s : bytes) : option N :=
  match s with
  | [] => Some acc
  | b :: s' => if digit b then let v := acc * 10 + (b - 48) in if v <? U64 then digits v s' else None else None
  end.
(* umadb-server/src/lib.rs:386 *)
Definition parse_usize (s : bytes) : option N :=
  let t := match s with b :: (_ :: _) as s' => if b =? 43 then s' else s | _ => s end in
  match t with [] => None | _ => digits 0 t end.
(* readers_concurrency_limit, umadb-server/src/lib.rs:382-396 *)
Definition PER_CORE : N := 4.
Definition readers_concurrency_limit (k : machine) : N :=
  let dflt := N.max PER_CORE (N.min (U64 - 1) (match k_cpus k with Some n => n | None => 4 end * PER_CORE)) in
  match k_reader_threads k with
  | Some s => match parse_usize s with Some n => if 0 <? n then n else dflt | None => dflt end
  | None => dflt
  end.
(* tokio::sync::Semaphore::new panics beyond MAX_PERMITS *)
Definition MAX_PERMITS : N := 2 ^ 61 - 1.

(* main, parse_cli_options, start_server_with_cli_options, umadb/src/lib.rs:12-32, 193-224; start_server_with_options,
   umadb-server/src/lib.rs:273-352, as far as it can end the program: an error message and exit status 1, a panic (in tokio's
   runtime builder for no blocking threads, in the semaphore, in [expect] for the TLS configuration, lib.rs:188), or service. *)
Inductive started := Refused | Panicked | Runs (o : server_options) (permits : N).
Definition start (k : machine) (a : args) : started :=
  let o := from_args a in
  if negb (validate o) then Refused else
  match to_server_options k o with
  | None => Refused
  | Some s =>
    if o_blocking o =? 0 then Panicked else
    if negb (k_binds k (s_listen s)) then Refused else
    if negb (k_opens k (s_storage s)) then Refused else
    if MAX_PERMITS <? readers_concurrency_limit k then Panicked else
    if match s_tls s with Some (c, q) => negb (k_pem k c q) | None => false end then Panicked else
    Runs s (readers_concurrency_limit k)
  end.

(** ** Open files *)

(* libc::RLIM_INFINITY, umadb-server/src/lib.rs:227-237 *)
Definition INFINITY : N := U64 - 1.
(* raise_open_file_limit_inner, umadb-server/src/lib.rs:217-266: [takes] says which soft limits the kernel accepts, the result
   is the soft limit afterwards *)
Fixpoint try_limits (takes : N -> bool) (previous : N) (candidates : list N) : N :=
  match candidates with
  | [] => previous
  | t :: l => if t <=? previous then try_limits takes previous l else if takes t then t else try_limits takes previous l
  end.
Definition raise_open_file_limit (takes : N -> bool) (soft hard : N) : N :=
  if negb (hard =? INFINITY) && (hard <=? soft) then soft
  else try_limits takes soft (if hard =? INFINITY then [1048576; 65536] else [hard]).
