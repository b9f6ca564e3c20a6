(** The types of the API (umadb-dcb/src/lib.rs): the builders of events, queries and conditions, and the serialised form of errors (feature "serde"). *)
From Coq Require Import Strings.String Strings.Ascii.
From Verif Require Export Query Proto.
Local Open Scope N_scope.

(** ** Builders *)
(* umadb-dcb/src/lib.rs:392-402 *)
Definition ev_new : new_event := NE [] [] [] None [].
(* lib.rs:447-464: the first entry with the key is changed, or a new one is added at the end *)
Fixpoint metadata_entry (k v : bytes) (m : list (bytes * bytes)) : list (bytes * bytes) :=
  match m with
  | [] => [(k, v)]
  | (k', v') :: m' => if bytes_eqb k' k then (k', v) :: m' else (k', v') :: metadata_entry k v m'
  end.
(* the calls: lib.rs:405-408, 411-414, 417-424, 427-430, 433-444, 447-464 *)
Inductive ev_call := BType (t : bytes) | BData (d : bytes) | BTags (l : list bytes) | BUuid (u : bytes) | BMeta (m : list (bytes * bytes)) | BEntry (k v : bytes).
(* lib.rs:405-464 *)
Definition ev_do (e : new_event) (c : ev_call) : new_event :=
  match c with
  | BType t => NE t (ne_data e) (ne_tags e) (ne_uuid e) (ne_meta e)
  | BData d => NE (ne_type e) d (ne_tags e) (ne_uuid e) (ne_meta e)
  | BTags l => NE (ne_type e) (ne_data e) l (ne_uuid e) (ne_meta e)
  | BUuid u => NE (ne_type e) (ne_data e) (ne_tags e) (Some u) (ne_meta e)
  | BMeta m => NE (ne_type e) (ne_data e) (ne_tags e) (ne_uuid e) m
  | BEntry k v => NE (ne_type e) (ne_data e) (ne_tags e) (ne_uuid e) (metadata_entry k v (ne_meta e))
  end.
(* a chain of calls that begins with lib.rs:394 *)
Definition ev_build (cs : list ev_call) : new_event := fold_left ev_do cs ev_new.

(* DcbQueryItem: lib.rs:275-303 *)
Inductive it_call := ITypes (l : list bytes) | ITags (l : list bytes).
(* lib.rs:285-302 *)
Definition it_do (it : query_item) (c : it_call) : query_item :=
  match c with ITypes l => QItem l (qi_tags it) | ITags l => QItem (qi_types it) l end.
(* begins with lib.rs:277-282 *)
Definition it_build (cs : list it_call) : query_item := fold_left it_do cs (QItem [] []).
(* DcbQuery: lib.rs:313-343; [with_items l] is [items l] of the new query *)
Inductive q_call := QAdd (it : query_item) | QAddAll (l : list query_item).
(* lib.rs:320-327, 330-333, 336-342 *)
Definition q_do (q : query) (c : q_call) : query := match c with QAdd it => q ++ [it] | QAddAll l => q ++ l end.
(* begins with lib.rs:315-317 *)
Definition q_build (cs : list q_call) : query := fold_left q_do cs [].

(** ** Errors, serialised *)
(* std::io::ErrorKind as of the names in lib.rs:554-592; [KUnnamed]: the others ("Uncategorized", which EIO has, and the unstable ones) *)
Inductive io_kind :=
  | KNotFound | KPermissionDenied | KConnectionRefused | KConnectionReset | KHostUnreachable
  | KNetworkUnreachable | KConnectionAborted | KNotConnected | KAddrInUse | KAddrNotAvailable
  | KNetworkDown | KBrokenPipe | KAlreadyExists | KWouldBlock | KNotADirectory
  | KIsADirectory | KDirectoryNotEmpty | KReadOnlyFilesystem | KStaleNetworkFileHandle | KInvalidInput
  | KInvalidData | KTimedOut | KWriteZero | KStorageFull | KNotSeekable
  | KQuotaExceeded | KFileTooLarge | KResourceBusy | KExecutableFileBusy | KDeadlock
  | KCrossesDevices | KTooManyLinks | KInvalidFilename | KArgumentListTooLong | KInterrupted
  | KUnsupported | KUnexpectedEof | KOutOfMemory | KOther
  | KUnnamed.
(** std::io::Error, with the text [Display] gives: from an error code of the operating system ([from_raw_os_error], [last_os_error], every failed call of std), of a bare kind, or with a
    payload ([Error::new]).  Of these only the last has [get_ref]. *)
Inductive io_error := IoOs (k : io_kind) (t : bytes) | IoSimple (k : io_kind) (t : bytes) | IoCustom (k : io_kind) (t : bytes).
(* std::io::Error::kind, as used in lib.rs:553 *)
Definition io_kind_of (e : io_error) : io_kind := match e with IoOs k _ | IoSimple k _ | IoCustom k _ => k end.
(* Display, as used in lib.rs:489 *)
Definition io_text (e : io_error) : bytes := match e with IoOs _ t | IoSimple _ t | IoCustom _ t => t end.
(* std::io::Error::get_ref, as used in lib.rs:598 *)
Definition get_ref (e : io_error) : option bytes := match e with IoCustom _ t => Some t | _ => None end.
(* lib.rs:553-594 *)
Definition kind_name (k : io_kind) : option string :=
  match k with
  | KNotFound => Some "NotFound"%string | KPermissionDenied => Some "PermissionDenied"%string | KConnectionRefused => Some "ConnectionRefused"%string
  | KConnectionReset => Some "ConnectionReset"%string | KHostUnreachable => Some "HostUnreachable"%string | KNetworkUnreachable => Some "NetworkUnreachable"%string
  | KConnectionAborted => Some "ConnectionAborted"%string | KNotConnected => Some "NotConnected"%string | KAddrInUse => Some "AddrInUse"%string
  | KAddrNotAvailable => Some "AddrNotAvailable"%string | KNetworkDown => Some "NetworkDown"%string | KBrokenPipe => Some "BrokenPipe"%string
  | KAlreadyExists => Some "AlreadyExists"%string | KWouldBlock => Some "WouldBlock"%string | KNotADirectory => Some "NotADirectory"%string
  | KIsADirectory => Some "IsADirectory"%string | KDirectoryNotEmpty => Some "DirectoryNotEmpty"%string | KReadOnlyFilesystem => Some "ReadOnlyFilesystem"%string
  | KStaleNetworkFileHandle => Some "StaleNetworkFileHandle"%string | KInvalidInput => Some "InvalidInput"%string | KInvalidData => Some "InvalidData"%string
  | KTimedOut => Some "TimedOut"%string | KWriteZero => Some "WriteZero"%string | KStorageFull => Some "StorageFull"%string
  | KNotSeekable => Some "NotSeekable"%string | KQuotaExceeded => Some "QuotaExceeded"%string | KFileTooLarge => Some "FileTooLarge"%string
  | KResourceBusy => Some "ResourceBusy"%string | KExecutableFileBusy => Some "ExecutableFileBusy"%string | KDeadlock => Some "Deadlock"%string
  | KCrossesDevices => Some "CrossesDevices"%string | KTooManyLinks => Some "TooManyLinks"%string | KInvalidFilename => Some "InvalidFilename"%string
  | KArgumentListTooLong => Some "ArgumentListTooLong"%string | KInterrupted => Some "Interrupted"%string | KUnsupported => Some "Unsupported"%string
  | KUnexpectedEof => Some "UnexpectedEof"%string | KOutOfMemory => Some "OutOfMemory"%string | KOther => Some "Other"%string
  | KUnnamed => None
  end.
(* lib.rs:608-649 *)
Definition kind_named (s : option string) : io_kind :=
  match s with
  | Some "NotFound"%string => KNotFound | Some "PermissionDenied"%string => KPermissionDenied | Some "ConnectionRefused"%string => KConnectionRefused
  | Some "ConnectionReset"%string => KConnectionReset | Some "HostUnreachable"%string => KHostUnreachable | Some "NetworkUnreachable"%string => KNetworkUnreachable
  | Some "ConnectionAborted"%string => KConnectionAborted | Some "NotConnected"%string => KNotConnected | Some "AddrInUse"%string => KAddrInUse
  | Some "AddrNotAvailable"%string => KAddrNotAvailable | Some "NetworkDown"%string => KNetworkDown | Some "BrokenPipe"%string => KBrokenPipe
  | Some "AlreadyExists"%string => KAlreadyExists | Some "WouldBlock"%string => KWouldBlock | Some "NotADirectory"%string => KNotADirectory
  | Some "IsADirectory"%string => KIsADirectory | Some "DirectoryNotEmpty"%string => KDirectoryNotEmpty | Some "ReadOnlyFilesystem"%string => KReadOnlyFilesystem
  | Some "StaleNetworkFileHandle"%string => KStaleNetworkFileHandle | Some "InvalidInput"%string => KInvalidInput | Some "InvalidData"%string => KInvalidData
  | Some "TimedOut"%string => KTimedOut | Some "WriteZero"%string => KWriteZero | Some "StorageFull"%string => KStorageFull
  | Some "NotSeekable"%string => KNotSeekable | Some "QuotaExceeded"%string => KQuotaExceeded | Some "FileTooLarge"%string => KFileTooLarge
  | Some "ResourceBusy"%string => KResourceBusy | Some "ExecutableFileBusy"%string => KExecutableFileBusy | Some "Deadlock"%string => KDeadlock
  | Some "CrossesDevices"%string => KCrossesDevices | Some "TooManyLinks"%string => KTooManyLinks | Some "InvalidFilename"%string => KInvalidFilename
  | Some "ArgumentListTooLong"%string => KArgumentListTooLong | Some "Interrupted"%string => KInterrupted | Some "Unsupported"%string => KUnsupported
  | Some "UnexpectedEof"%string => KUnexpectedEof | Some "OutOfMemory"%string => KOutOfMemory | Some "Other"%string => KOther
  | _ => KOther
  end.
(* struct IoError, lib.rs:543-547; the data format gives back what it was given *)
Record io_form := IoForm { if_kind : option string; if_message : option bytes }.
(* lib.rs:549-601 *)
Definition io_serialize (e : io_error) : io_form := IoForm (kind_name (io_kind_of e)) (get_ref e).
(* lib.rs:603-657 *)
Definition io_deserialize (f : io_form) : io_error :=
  IoCustom (kind_named (if_kind f)) (default (text "unknown error") (if_message f)).
(* DcbError, lib.rs:485-533: the other kinds are derived, their fields are strings and numbers *)
Inductive dcb_error := DIo (e : io_error) | DErr (k : err) (t : bytes).
(* derive(Serialize, Deserialize), lib.rs:486 *)
Inductive dcb_form := FIo (f : io_form) | FErr (k : err) (t : bytes).
(* lib.rs:486, 490 *)
Definition dcb_serialize (e : dcb_error) : dcb_form := match e with DIo e => FIo (io_serialize e) | DErr k t => FErr k t end.
(* lib.rs:486, 490 *)
Definition dcb_deserialize (f : dcb_form) : dcb_error := match f with FIo f => DIo (io_deserialize f) | FErr k t => DErr k t end.
(* #[error(...)], lib.rs:484-533 *)
Definition dcb_text (e : dcb_error) : bytes := match e with DIo e => err_text (Error EIo (io_text e)) | DErr k t => err_text (Error k t) end.
