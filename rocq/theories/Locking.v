(** Several processes that are started on one database path: Pager::new, umadb-core/src/pager.rs:62-103, and the choice
    Mvcc::new makes with what it found, umadb-core/src/mvcc.rs:239-533.  A process looks whether there is a file (line 63),
    opens or creates it (65-83), asks for the lock without waiting (88-103), and then either makes a new database in it or
    reads the one there is, according to what it saw when it looked.  The lock is that of flock: it belongs to the open file,
    is had by one at a time and goes when the process ends.

    Simplified: nobody deletes, renames or replaces the file, and every process asks for the lock; the pages of a new database
    are all written and synced in one step (for a crash meanwhile see C40); a refused opening leaves the file as it was (a header
    page may have been repaired). *)
From Verif Require Export PipelineSys.
Local Open Scope N_scope.

(** What is found under the path; [NoBytes]: a file of no bytes.  The process in [Data], if there is one, is the one that has the lock. *)
(* pager.rs:63-83 *)
Inductive file := Nothing | NoBytes | Data (s : msys).
(** How far a process has come; [new]: pager.rs:63, there was no file when it looked.  [Locked]: in Mvcc::new. *)
Inductive lphase := Looked (new : bool) | HasFile (new : bool) | Locked (new : bool) | Running.
Definition has_lock (x : lphase) : bool := match x with Locked _ | Running => true | _ => false end.
Record world := World { v_file : file; v_procs : gmap N lphase }.
(** What is observed; [WDb]: what the process that runs does with the database; [WCrash]: the machine crashes; [WReset]: so it does, but
    there is no database yet. *)
Inductive wlabel := WTau | WRefused (i : N) | WDb (i : N) (l : label) | WEnds (i : N) | WCrash (reqs : list request) | WReset.

(* pager.rs:63 *)
Definition is_file (f : file) : bool := match f with Nothing => false | _ => true end.
(* for pager.rs:52-59 and 88-103: whether the lock is had *)
Definition is_up (s : msys) : bool := match s with MB (Sys _ None) => false | _ => true end.
(** Nothing has been written yet. *)
(* pager.rs:65-83, before mvcc.rs:250-398 *)
Definition no_pages : disk := Disk (fun _ => None) (fun _ c => c = None) (fun _ => false).
(** The bytes, if no process works on them. *)
(* for pager.rs:62-103 *)
Definition at_rest (f : file) : option disk :=
  match f with NoBytes => Some no_pages | Data (MB (Sys d None)) => Some d | _ => None end.
(* handler.rs:33-45: which thread the database is opened for *)
Definition with_thread (pipelined : bool) (d : disk) (p : proc) : msys := if pipelined then MOpen d p else MB (Sys d (Some p)).

Section locking.
  Context (kw : nat) (ps : N) (hash : bytes -> bytes) (order : list bytes -> list bytes) (ford : gset N -> list N) (caching : bool).
  Notation mstep := (mstep kw ps hash order ford caching).

  (* mvcc.rs:290-375: pages 2, 3 and 4, a sync, the header pages 1 and 0, a sync *)
  Definition put_init (q : N) (d : disk) : disk := match init_file kw ps q with Some b => d_write kw q b d | None => d end.
  Definition make_new (d : disk) : disk := d_synced (put_init 0 (put_init 1 (d_synced (put_init 4 (put_init 3 (put_init 2 d)))))).
  (** Of an empty file this makes [init_disk] (C40, [creation_complete]). *)
  Definition made (f : file) : option disk :=
    match f with NoBytes => Some (init_disk kw ps) | _ => make_new <$> at_rest f end.
  Definition first_proc : proc := Proc (0, init_header) (1, init_header) ∅ ∅ ∅ WIdle.

  (** [C] is a condition on what the running process does, as in PipelineSys.v. *)
  (* pager.rs:62-103, mvcc.rs:239-533, as cited at the constructors *)
  Inductive wstep (C : msys -> msys -> Prop) : world -> wlabel -> world -> Prop :=
    (* pager.rs:63 *)
    | V_look f m i : m !! i = None -> wstep C (World f m) WTau (World f (<[i := Looked (negb (is_file f))]> m))
    (* pager.rs:66-72: create, but do not truncate *)
    | V_create f m i : m !! i = Some (Looked true) ->
        wstep C (World f m) WTau (World (match f with Nothing => NoBytes | _ => f end) (<[i := HasFile true]> m))
    (* pager.rs:73-75 *)
    | V_found f m i : m !! i = Some (Looked false) -> is_file f = true ->
        wstep C (World f m) WTau (World f (<[i := HasFile false]> m))
    | V_gone f m i : m !! i = Some (Looked false) -> is_file f = false -> wstep C (World f m) (WRefused i) (World f (delete i m))
    (* pager.rs:88 *)
    | V_lock f m i new : m !! i = Some (HasFile new) -> (forall j x, m !! j = Some x -> has_lock x = false) ->
        wstep C (World f m) WTau (World f (<[i := Locked new]> m))
    (* pager.rs:89-103 *)
    | V_locked f m i j new x : m !! i = Some (HasFile new) -> m !! j = Some x -> has_lock x = true ->
        wstep C (World f m) (WRefused i) (World f (delete i m))
    (* mvcc.rs:306-377 *)
    | V_made f m i pipelined d : m !! i = Some (Locked true) -> made f = Some d ->
        wstep C (World f m) WTau (World (Data (with_thread pipelined d first_proc)) (<[i := Running]> m))
    (* mvcc.rs:378-533 *)
    | V_opened f m i pipelined d d' p : m !! i = Some (Locked false) -> at_rest f = Some d -> open_db kw ps d = Ok (d', p) ->
        C (MB (Sys d None)) (with_thread pipelined d' p) ->
        wstep C (World f m) (WDb i LOpen) (World (Data (with_thread pipelined d' p)) (<[i := Running]> m))
    | V_refused f m i d e : m !! i = Some (Locked false) -> at_rest f = Some d -> open_db kw ps d = Err e ->
        wstep C (World f m) (WRefused i) (World f (delete i m))
    | V_run s s' m i l : m !! i = Some Running -> mstep s l s' -> C s s' -> is_up s = true -> is_up s' = true ->
        wstep C (World (Data s) m) (WDb i l) (World (Data s') m)
    (** the process ends, or is killed; then its lock goes *)
    | V_end s s' m i r : m !! i = Some Running -> mstep s (LKill r) s' -> C s s' ->
        wstep C (World (Data s) m) (WDb i (LKill r)) (World (Data s') (delete i m))
    | V_end_early f m i x : m !! i = Some x -> x <> Running -> wstep C (World f m) (WEnds i) (World f (delete i m))
    (** the machine crashes; the name of a file to which nothing was written may be lost *)
    | V_crash s s' m r : mstep s (LCrash r) s' -> C s s' -> wstep C (World (Data s) m) (WCrash r) (World (Data s') ∅)
    | V_crash_empty f f' m : is_file f = false \/ f = NoBytes -> is_file f' = false \/ f' = f -> wstep C (World f m) WReset (World f' ∅).

  (* executions of pager.rs:62-103 by several processes *)
  Inductive wsteps (C : msys -> msys -> Prop) : world -> list wlabel -> world -> Prop :=
    | wsteps_nil w : wsteps C w [] w
    | wsteps_snoc w tr w' l w'' : wsteps C w tr w' -> wstep C w' l w'' -> wsteps C w (tr ++ [l]) w''.

  (** The executions in which no process looks for the file while another, which found none, is still on its way to the lock. *)
  (* for statements; between pager.rs:63 and 103 *)
  Definition on_its_way (x : lphase) : bool := match x with Looked true | HasFile true => true | _ => false end.
  Definition calm_start (w w' : world) : Prop :=
    forall i, v_procs w !! i = None -> is_Some (v_procs w' !! i) -> forall j x, v_procs w !! j = Some x -> on_its_way x = false.
  (* executions, for statements *)
  Inductive csteps (C : msys -> msys -> Prop) : world -> list wlabel -> world -> Prop :=
    | csteps_nil w : csteps C w [] w
    | csteps_snoc w tr w' l w'' : csteps C w tr w' -> wstep C w' l w'' -> calm_start w' w'' -> csteps C w (tr ++ [l]) w''.
End locking.

(** What happened to the database, by whichever process. *)
(* for statements *)
Definition db_label (l : wlabel) : option label := match l with WDb _ l => Some l | WCrash r => Some (LCrash r) | _ => None end.
Definition db_trace (tr : list wlabel) : list label := omap db_label tr.
