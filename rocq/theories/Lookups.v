(** The permit that get_tracking_info takes for the time of one lookup: umadb-server/src/lib.rs:922-953, handler.rs:175-178.
    It is of the same semaphore as those of Permits.v, and is given back when the closure that does the lookup returns. *)
From Verif Require Export Permits.
Local Open Scope N_scope.

Section lookups.
  Context (kw : nat) (ps : N) (hash : bytes -> bytes) (order : list bytes -> list bytes) (ford : gset N -> list N) (caching : bool) (max_events : N).
  Context (n : nat).
  (** The server, and the lookups that have a permit; each has the number of the reader it is going to use, which is that of no other call. *)
  Definition lookups : Type := srv * gset nat.
  Inductive tstep : lookups -> option label -> lookups -> Prop :=
    (* lib.rs:932-939 *)
    | T_take v T i : i ∉ T -> v_rpcs v !! i = None -> p_readers (v_proc v) !! i = None -> (holders v + size T < n)%nat ->
        tstep (v, T) None (v, {[i]} ∪ T)
    (* lib.rs:942: the closure returns, its reader has been dropped *)
    | T_back v T i : i ∈ T -> p_readers (v_proc v) !! i = None ->
        tstep (v, T) None (v, T ∖ {[i]})
    (* everything else (lib.rs:449-845); lib.rs:943: lookups are made by those who have a permit *)
    | T_serve v T ol v' : sstep kw ps hash order ford caching max_events v ol v' -> ((holders v < holders v')%nat -> (holders v + size T < n)%nat) ->
        (forall i s r, ol = Some (LTrack i s r) -> i ∈ T) -> (forall i, i ∈ T -> v_rpcs v' !! i = None) ->
        tstep (v, T) ol (v', T).
  (* executions of lib.rs:449-953 *)
  Inductive tserves (d : disk) (p : proc) (h : option N) : lookups -> list label -> Prop :=
    | tserves_start : tserves d p h (new_srv d p h, ∅) []
    | tserves_step w tr ol w' : tserves d p h w tr -> tstep w ol w' -> tserves d p h w' (tr ++ match ol with Some l => [l] | None => [] end).
End lookups.
