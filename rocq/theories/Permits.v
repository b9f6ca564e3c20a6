(** The semaphore that limits how many batches are read at once: umadb-server/src/lib.rs:404-419, 515-526, 733-753.
    A permit is moved into the blocking closure, so it is given back when the batch has been read and before it is sent.
    The permit that get_tracking_info takes for the time of one lookup (lib.rs:930-945) is added in Lookups.v. *)
From Verif Require Export Server.
Local Open Scope N_scope.

(** Task [x] has a permit. *)
(* lib.rs:404-419, 515-526, 733-753 *)
Definition holds (x : rpc) : bool := match rpc_phase x with QBorrow | QCall | QOpen | QRead _ => true | _ => false end.
Definition held_by (m : gmap nat rpc) : nat := size (filter (fun kx : nat * rpc => holds kx.2 = true) m).
Definition holders (v : srv) : nat := held_by (v_rpcs v).

Section permits.
  Context (kw : nat) (ps : N) (hash : bytes -> bytes) (order : list bytes -> list bytes) (ford : gset N -> list N) (caching : bool) (max_events : N).
  (** [n]: the number of permits; who wants one waits until there is one *)
  Context (n : nat).
  (* lib.rs:515-526, 733-753: acquire *)
  Definition lstep (v : srv) (ol : option label) (v' : srv) : Prop :=
    sstep kw ps hash order ford caching max_events v ol v' /\ ((holders v < holders v')%nat -> (holders v < n)%nat).
  (* executions of lib.rs:449-845 *)
  Inductive lserves (d : disk) (p : proc) (h : option N) : list srv -> list label -> Prop :=
    | lserves_start : lserves d p h [new_srv d p h] []
    | lserves_step v vs tr ol v' : lserves d p h (v :: vs) tr -> lstep v ol v' ->
        lserves d p h (v' :: v :: vs) (tr ++ match ol with Some l => [l] | None => [] end).
End permits.
