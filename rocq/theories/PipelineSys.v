(** The whole with the pipelining writer thread: a process that opens the database with either writer thread, crashes and
    restarts (umadb-server/src/handler.rs:29-95 chooses the thread). *)
From Verif Require Export Pipeline.
Local Open Scope N_scope.

(** [MB]: down, or up with the blocking thread; [MOpen]: opened with the option [pipelined_writer], the thread is not running yet;
    [MP]: it runs. *)
(* mvcc.rs:239-533 with writer_thread_blocking.rs or writer_thread_pipelining.rs *)
Inductive msys := MB (y : sys) | MOpen (d : disk) (p : proc) | MP (s : psys).
(** The batch whose header may have reached the disk. *)
(* for statements; io_shell.rs:36-111 *)
Definition pipe_in_flight (pi : pipe) : list request :=
  match l_fly pi with
  | Some f => match y_io f with IPages _ | IHeader | IFailed false => [] | _ => y_done f end
  | None => []
  end.

Section system.
  Context (kw : nat) (ps : N) (hash : bytes -> bytes) (order : list bytes -> list bytes) (ford : gset N -> list N) (caching : bool).
  Notation pstep := (pstep kw ps hash order ford caching).
  Notation step := (step kw ps hash order ford caching).
  Notation lstep := (lstep kw ps hash order ford caching).
  Notation fetch := (fetch kw).

  (* as cited at the constructors; handler.rs:28-79 *)
  Inductive mstep : msys -> label -> msys -> Prop :=
    | M_blocking y l y' : step y l y' -> mstep (MB y) l (MB y')
    (* handler.rs:33-45: as for the other thread *)
    | M_open d d' p : open_db kw ps d = Ok (d', p) -> mstep (MB (Sys d None)) LOpen (MOpen d' p)
    (** readers and the cache, before the thread runs *)
    | M_read d p l p' : pstep d p l d p' -> p_writer p = WIdle -> p_writer p' = WIdle -> mstep (MOpen d p) l (MOpen d p')
    (* handler.rs:45-76 *)
    | M_start d p s : starts kw d p s -> mstep (MOpen d p) LTau (MP s)
    | M_pipe s l s' : lstep s l s' -> mstep (MP s) l (MP s')
    (** as in Mvcc.v *)
    | M_open_crash d p d' : d_crashed d d' -> mstep (MOpen d p) (LCrash []) (MB (Sys d' None))
    | M_open_kill d p : d_settled d -> mstep (MOpen d p) (LKill []) (MB (Sys d None))
    | M_crash d p pi d' : d_crashed d d' -> mstep (MP (PSys d p pi)) (LCrash (pipe_in_flight pi)) (MB (Sys d' None))
    | M_kill d p pi : d_settled d -> mstep (MP (PSys d p pi)) (LKill (pipe_in_flight pi)) (MB (Sys d None)).

  (** ** Conditions on the steps of the thread *)
  (** A batch, or the commit before it, is given up. *)
  (* for statements; writer_thread_pipelining.rs:73-87, 243-271 *)
  Definition gives_up (pi : pipe) : Prop :=
    match l_fly pi, l_phase pi with Some f, _ => y_io f = IFailed false | None, PBuilt _ _ _ => True | _, _ => False end.
  (** Its input and output succeed, with this exception: pages of a commit may fail to be written or synced; then no page in the cache has
      been overwritten (by default there is no cache).  No header fails to be written or synced, and when a batch is given up the
      writer can be made anew. *)
  (* for statements: what is asked of io_shell.rs:36-111 and of rollback, writer_thread_pipelining.rs:91-102 *)
  Definition healthy (s s' : msys) : Prop :=
    match s, s' with
    | MP (PSys d p pi), MP (PSys d' p' pi') =>
      (forall f, l_fly pi' = Some f -> y_io f <> IFailed true) /\
      (forall f f', l_fly pi = Some f -> l_fly pi' = Some f' -> y_io f <> IFailed false -> y_io f' = IFailed false ->
        forall q n, 2 <= q -> p_cache p !! q = Some n -> dec kw (d_cur d' q) = Ok n) /\
      (gives_up pi -> l_phase pi' = PFetch -> l_fly pi' = None ->
        mvcc_writer (fetch (p_cache p) d) (reg_min (p_regs p)) (latest p).2 = (Ok tt, l_w pi') /\ l_header pi' = latest p)
    | _, _ => True
    end.
  (** While a batch is being built on one that is still being written, no reader registers, unless one of the same or
      an older version is registered already. *)
  (* for statements: when Mvcc::reader, mvcc.rs:688-720, is called *)
  Definition undisturbed (s s' : msys) : Prop :=
    match s, s' with
    | MP (PSys d p pi), MP (PSys d' p' pi') =>
      l_fly pi <> None -> l_phase pi <> PFetch -> forall i a, p_readers p !! i = Some (RSeen a) -> p_readers p' !! i = Some (RReg a) ->
        exists t, reg_min (p_regs p) = Some t /\ t <= h_tsn a.2
    | _, _ => True
    end.

  (** Executions every step of which meets [C]. *)
  (* executions, for statements *)
  Inductive msteps (C : msys -> msys -> Prop) : msys -> list label -> msys -> Prop :=
    | msteps_nil s : msteps C s [] s
    | msteps_snoc s tr s' l s'' : msteps C s tr s' -> mstep s' l s'' -> C s' s'' -> msteps C s (tr ++ [l]) s''.
End system.
(** A new database, opened for either thread. *)
(* mvcc.rs:239-398 *)
Definition pipelined_new (ps : N) : msys := MOpen (init_disk 16 ps) (Proc (0, init_header) (1, init_header) ∅ ∅ ∅ WIdle).
