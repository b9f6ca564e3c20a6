(** The name of the database file.

    Everywhere else the file, once created, is there.  Here a file that has just been created has a name in its directory only in
    memory: the code syncs the file (pager.rs:544-575; mvcc.rs:390, 396, 828, 844) but never the directory, and POSIX lets a name
    that was not synced disappear in a crash of the machine, with the whole file.

    Simplified: the creation of the file with its first five pages (mvcc.rs:300-398) is one step (a crash meanwhile is C40); one
    file, which nobody else removes. *)
From Verif Require Export Mvcc.
Local Open Scope N_scope.

Section entry.
  Context (kw : nat) (ps : N) (hash : bytes -> bytes) (order : list bytes -> list bytes) (ford : gset N -> list N) (caching : bool).
  Notation step := (step kw ps hash order ford caching).

  (** The file with the process that has it open, if there is one; whether its name is safely stored. *)
  (* pager.rs:62-80, 544-575 *)
  Record esys := ESys { e_file : option sys; e_named : bool }.
  (* pager.rs:62-80, 544-575, as cited at the constructors *)
  Inductive estep : esys -> label -> esys -> Prop :=
    (* pager.rs:62-70, mvcc.rs:300-398: there is no such file, it is created *)
    | E_create b : estep (ESys None b) LOpen (ESys (Some (init_sys kw ps)) false)
    (* everything else is as in Mvcc.v; after a crash that the file survived its name is stored *)
    | E_step y b l y' : step y l y' -> estep (ESys (Some y) b) l (ESys (Some y') (match l with LCrash _ => true | _ => b end))
    (* the operating system stores the name when it likes *)
    | E_name y : estep (ESys (Some y) false) LTau (ESys (Some y) true)
    (* a crash of the machine before that: the file is gone *)
    | E_lost y l y' reqs : step y l y' -> l = LCrash reqs -> estep (ESys (Some y) false) l (ESys None false).
  Inductive esteps : esys -> list label -> esys -> Prop :=
    | esteps_nil z : esteps z [] z
    | esteps_snoc z tr z' l z'' : esteps z tr z' -> estep z' l z'' -> esteps z (tr ++ [l]) z''.
  (** At first there is no file. *)
  Definition no_file : esys := ESys None false.
End entry.
