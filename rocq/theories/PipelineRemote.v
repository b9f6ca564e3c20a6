(** The server with the pipelining writer thread and its remote reads and subscriptions: the threads of PipelineServer.v, the tasks
    of Server.v (umadb-server/src/lib.rs:449-661, 665-845; handler.rs:81-142), which are the same for both writer threads. *)
From Verif Require Export PipelineServer.
Local Open Scope N_scope.

(** [w_ver]: the version of the watched head; [w_rpcs]: the tasks; [w_unread], [w_lost]: as in Server.v. *)
(* umadb-server/src/handler.rs:14-79 and lib.rs:449-845 *)
Record wsrv := Wsrv { w_z : zsrv; w_ver : nat; w_rpcs : gmap nat rpc; w_unread : list nat; w_lost : list nat }.
(** The server as its tasks see it: a database, and a watch that they wait for.  [TStop]: Server.v's writer thread does not run. *)
(* umadb-server/src/handler.rs:81-142, 181 *)
Definition w_tasks (v : wsrv) : srv :=
  Srv (s_disk (z_sys (w_z v))) (s_proc (z_sys (w_z v))) [] TStop [] [] [] (w_ver v) None (w_rpcs v) (w_unread v) (w_lost v).
(* the same, the other way round: umadb-server/src/handler.rs:81-142, and writer_thread_pipelining.rs *)
Definition w_put (u : srv) (v : wsrv) : wsrv :=
  Wsrv (z_set_sys (PSys (v_disk u) (v_proc u) (z_pipe (w_z v))) (w_z v)) (v_ver u) (v_rpcs u) (v_unread u) (v_lost u).
Definition w_set_z (z : zsrv) (v : wsrv) : wsrv := Wsrv z (w_ver v) (w_rpcs v) (w_unread v) (w_lost v).
(* writer_thread_pipelining.rs:64-68: watch::Sender::send, see v_publish in Server.v *)
Definition w_notify (v : wsrv) : wsrv :=
  if has_listener (w_tasks v) then Wsrv (w_z v) (S (w_ver v)) (w_rpcs v) (w_unread v) (w_lost v) else v.
(** The reader a step is about. *)
Definition reader_of (l : label) : option nat :=
  match l with LCall i | LReady i | LClose i | LHead i _ | LTrack i _ _ | LRead i _ _ _ _ _ => Some i | _ => None end.

Section server.
  Context (kw : nat) (ps : N) (hash : bytes -> bytes) (order : list bytes -> list bytes) (ford : gset N -> list N) (caching : bool)
    (max_events : N).

  (* as cited at the constructors; umadb-server/src/lib.rs:449-845 *)
  Inductive wstep : wsrv -> option label -> wsrv -> Prop :=
    (** clients that append, the writer thread, the I/O thread, the cache, and readers that are not those of tasks *)
    | W_writer v ol z : zstep kw ps hash order ford caching max_events (w_z v) ol z ->
        (forall l i, ol = Some l -> reader_of l = Some i -> w_rpcs v !! i = None) ->
        (forall h next, z_thread (w_z v) = ZSend [] (Some h) next -> z_thread z = z_thread (w_z v)) ->
        wstep v ol (w_set_z z v)
    (* writer_thread_pipelining.rs:64-68 *)
    | W_publish v h next : z_thread (w_z v) = ZSend [] (Some h) next ->
        wstep v None (w_notify (w_set_z (z_publish (Some h) (z_set_thread next (w_z v))) v))
    (** remote reads and subscriptions (and readers and the cache again), as in Server.v *)
    | W_task v ol u : sstep kw ps hash order ford caching max_events (w_tasks v) ol u -> v_gone u = [] -> v_queue u = [] ->
        v_disk u = s_disk (z_sys (w_z v)) -> p_writer (s_proc (z_sys (w_z v))) = WIdle -> p_writer (v_proc u) = WIdle ->
        wstep v ol (w_put u v).

  (** From a thread that has just started. *)
  (* umadb-server/src/handler.rs:30-79 *)
  Definition w_init (s : psys) (head : option N) : wsrv := Wsrv (z_init s head) 0 ∅ [] [].
  (** [vs]: the states so far, latest first; [tr]: the steps of the database. *)
  (* executions of umadb-server/src/lib.rs:449-845 *)
  Inductive wserves (s : psys) (head : option N) : list wsrv -> list label -> Prop :=
    | wserves_init : wserves s head [w_init s head] []
    | wserves_step v vs tr ol v' : wserves s head (v :: vs) tr -> wstep v ol v' ->
        wserves s head (v' :: v :: vs) (tr ++ match ol with Some l => [l] | None => [] end).
End server.
