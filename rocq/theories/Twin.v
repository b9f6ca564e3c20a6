(** Several databases in one process (library use): the width of the stored tag hashes is a variable of the process,
    umadb-core/src/tags_tree_nodes.rs:14-25, which each opening sets for all of them. *)
From Verif Require Export Mvcc.
Local Open Scope N_scope.

(* tags_tree_nodes.rs:14-25 *)
Record twin := Twin { tw_width : nat; tw_sys : bool -> sys }.
(* tags_tree_nodes.rs:14-25: one of the two databases changes *)
Definition tw_set (i : bool) (y : sys) (f : bool -> sys) (j : bool) : sys := if Bool.eqb i j then y else f j.
Section twin.
  Context (ps : N) (hash : nat -> bytes -> bytes) (order : list bytes -> list bytes) (ford : gset N -> list N) (caching : bool).
  (** Events carry the database they belong to and the width in force. *)
  (* tags_tree_nodes.rs:14-25, as cited at the constructors *)
  Inductive twin_step : twin -> bool * nat * label -> twin -> Prop :=
    (* whatever database [i] does, it does with the present width: slice_reader.rs:83, tags_tree_nodes.rs:29-163, db.rs:958-965 *)
    | TW_step t i l y : l <> LOpen -> step (tw_width t) ps (hash (tw_width t)) order ford caching (tw_sys t i) l y ->
        twin_step t (i, tw_width t, l) (Twin (tw_width t) (tw_set i y (tw_sys t)))
    (* opening a file sets the width its header asks for, mvcc.rs:452-470 (the headers themselves read the same under both) *)
    | TW_open t i w y : step w ps (hash w) order ford caching (tw_sys t i) LOpen y ->
        twin_step t (i, w, LOpen) (Twin w (tw_set i y (tw_sys t))).
  Inductive twin_steps : twin -> list (bool * nat * label) -> twin -> Prop :=
    | TW_nil t : twin_steps t [] t
    | TW_cons t x t' tr t'' : twin_step t x t' -> twin_steps t' tr t'' -> twin_steps t (x :: tr) t''.
  (** What one of them did. *)
  Fixpoint tw_trace (i : bool) (tr : list (bool * nat * label)) : list label :=
    match tr with
    | [] => []
    | (j, _, l) :: tr' => if Bool.eqb i j then l :: tw_trace i tr' else tw_trace i tr'
    end.
End twin.
