(** umadb-check, the count of pages by type (umadb-tools/src/bin/umadb-check.rs:17-34, 128, 149, 172, 265, 289, 376, 385, 427-430). *)
From Coq Require Import String.
From stdpp Require Import strings.
From Verif Require Export Probe.
Local Open Scope N_scope.

(* umadb-core/src/node.rs:65-82 *)
Definition type_name (n : node) : string :=
  match n with
  | NHeader _ => "Header" | NFreeLeaf _ => "FreeListLeaf" | NFreeInt _ => "FreeListInternal" | NEvLeaf _ => "EventLeaf" | NEvInt _ => "EventInternal"
  | NEvOverflow _ => "EventOverflow" | NTagsLeaf _ => "TagsLeaf" | NTagsInt _ => "TagsInternal" | NTagLeaf _ => "TagLeaf" | NTagInt _ => "TagInternal"
  | NTsnLeaf _ => "FreeListTsnLeaf" | NTsnInt _ => "FreeListTsnInternal" | NTrkLeaf _ => "TrackingLeaf" | NTrkInt _ => "TrackingInternal"
  end%string.
(* umadb-check.rs:17-34 *)
Definition type_name_from_byte (b : N) : option string :=
  if b =? 49 then Some "Header"%string else if b =? 50 then Some "FreeListLeaf"%string else if b =? 51 then Some "FreeListInternal"%string
  else if b =? 52 then Some "EventLeaf"%string else if b =? 53 then Some "EventInternal"%string else if b =? 54 then Some "TagsLeaf"%string
  else if b =? 55 then Some "TagsInternal"%string else if b =? 56 then Some "TagLeaf"%string else if b =? 57 then Some "TagInternal"%string
  else if b =? 97 then Some "EventOverflow"%string else if b =? 98 then Some "FreeListTsnLeaf"%string else if b =? 99 then Some "FreeListTsnInternal"%string
  else if b =? 100 then Some "TrackingLeaf"%string else None.
(* 148-149 and 171-172; 263-265 and 280-289 (a page that is not there at all is unknown); 373-376 and 383-385 *)
Definition counted_as (kw : nat) (c : option bytes) : string :=
  match dec kw c with
  | Ok n => type_name n
  | Err _ => default "unknown"%string (match c with Some (b :: _) => type_name_from_byte b | _ => None end)
  end.
(* 149 and the like *)
Definition count_one (m : gmap string N) (s : string) : gmap string N := <[s := default 0 (m !! s) + 1]> m.
(* 143-203: a header page that is not there is not counted; 258-312; 328-412.  [l]: the pages past the mark, as in Probe.v *)
Definition counts (kw : nat) (d : disk) (h : header) (l : list N) : gmap string N :=
  fold_left count_one (map (fun q => counted_as kw (d_cur d q)) (List.filter (fun q => match d_cur d q with Some _ => true | None => false end) [0; 1] ++ seqN 2 (N.to_nat (h_next_page h - 2)) ++ l)) ∅.
