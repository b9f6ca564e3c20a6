(** The responses of a client and its close(): umadb-client/src/lib.rs:788-914, 1009-1057, 1095-1127, 1181-1187.

    Several clients in one process, used by several threads.  The map of handles is behind a mutex and the number of the next
    response is atomic; between taking a number and entering the handle other threads may act.  What a response does when it is
    used or cancelled is that of Client.v (the synchronous client; the asynchronous one has the same registry). *)
From Verif Require Export Client.
Local Open Scope N_scope.

(* lib.rs:794-798: StreamRegistry; a handle is given by the response it belongs to *)
Record registry := Registry { next_id : N; active : gmap N nat }.
Definition empty_registry : registry := Registry 0 ∅.
(* lib.rs:823-827, 837-840, 880-883: a response with the number in its StreamGuard; [shown]: the handle has been entered and the response
   returned to the caller *)
Record response := Response { owner : nat; number : N; shown : bool; engine : eng }.
(* [alive]: clients not dropped yet; the registry of one that is dropped lives on in the guards *)
Record world := World { registries : gmap nat registry; alive : gset nat; responses : gmap nat response }.
Definition w_empty : world := World ∅ ∅ ∅.

(* what the threads of the process do; [WTake] and [WReturn] are read() or subscribe() after the server has answered *)
(* umadb-client/src/lib.rs:795-915, 1023-1057 *)
Inductive wlabel :=
  | WConnect (c : nat) | WTake (c r : nat) (s : list sitem) | WReturn (r : nat) | WUse (r : nat) (k : call) | WDrop (r : nat)
  | WClose (c : nat) | WEnd (c : nat).
(* umadb-client/src/lib.rs:842-915: the calls are passed on *)
Definition use (k : call) (x : response) : response := Response (owner x) (number x) (shown x) (sync_call k (engine x)).2.
(* the handle's closure, lib.rs:268-273, 436-441 *)
Definition cancel_handle (x : response) : response := Response (owner x) (number x) (shown x) (engine_cancel (engine x)).
(* lib.rs:815-820 *)
Definition cancel_active (a : gmap N nat) (rs : gmap nat response) : gmap nat response :=
  fold_left (fun rs r => alter cancel_handle r rs) (map snd (map_to_list a)) rs.
Definition wstep (w : world) (l : wlabel) : option world :=
  match l with
  | WConnect c =>                                        (* lib.rs:1066-1072 *)
    match registries w !! c with
    | Some _ => None
    | None => Some (World (<[c := empty_registry]> (registries w)) ({[c]} ∪ alive w) (responses w))
    end
  | WTake c r s =>                                       (* lib.rs:804 *)
    match registries w !! c, responses w !! r with
    | Some g, None => if bool_decide (c ∈ alive w)
                      then Some (World (<[c := Registry ((next_id g + 1) mod U64) (active g)]> (registries w)) (alive w) (<[r := Response c (next_id g) false (new_eng s)]> (responses w)))
                      else None
    | _, _ => None
    end
  | WReturn r =>                                         (* lib.rs:805-811, 1043-1047, 1122-1126 *)
    match responses w !! r with
    | Some x => if shown x then None else
      match registries w !! owner x with
      | Some g => Some (World (<[owner x := Registry (next_id g) (<[number x := r]> (active g))]> (registries w)) (alive w) (<[r := Response (owner x) (number x) true (engine x)]> (responses w)))
      | None => None
      end
    | None => None
    end
  | WUse r k =>
    match responses w !! r with
    | Some x => if shown x then Some (World (registries w) (alive w) (<[r := use k x]> (responses w))) else None
    | None => None
    end
  | WDrop r =>                                           (* lib.rs:829-833 *)
    match responses w !! r with
    | Some x => if shown x then
      match registries w !! owner x with
      | Some g => Some (World (<[owner x := Registry (next_id g) (delete (number x) (active g))]> (registries w)) (alive w) (delete r (responses w)))
      | None => None
      end else None
    | None => None
    end
  | WClose c =>                                          (* lib.rs:1055-1057 *)
    match registries w !! c with
    | Some g => if bool_decide (c ∈ alive w) then Some (World (<[c := Registry (next_id g) ∅]> (registries w)) (alive w) (cancel_active (active g) (responses w))) else None
    | None => None
    end
  | WEnd c =>                                            (* lib.rs:1181-1187; not while a call of the client is underway *)
    match registries w !! c with
    | Some g => if bool_decide (c ∈ alive w) && forallb (fun rx => negb (bool_decide (owner rx.2 = c)) || shown rx.2) (map_to_list (responses w))
                then Some (World (<[c := Registry (next_id g) ∅]> (registries w)) (alive w ∖ {[c]}) (cancel_active (active g) (responses w))) else None
    | None => None
    end
  end.
Fixpoint wrun (w : world) (ls : list wlabel) : option world :=
  match ls with [] => Some w | l :: ls' => match wstep w l with Some w' => wrun w' ls' | None => None end end.
