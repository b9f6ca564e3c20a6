(** Reading page by page.

    In Mvcc.v a read is one step.  In the code it asks for one page after the other (Mvcc::read_page, mvcc.rs:603-625) while
    the writer, the I/O thread and other readers go on.  With a page cache, a page that is not in it is read from the file and put
    into the cache afterwards, whatever the cache has got meanwhile (moka's [try_get_with]: the closure is run, then its value is
    inserted; who asks for the same page in between waits for that value).

    Simplified: the order of the pages.  The code's tag iterators are lazy, those here are run one after the other.  The theorems of
    PropsPageReads.v are about every program that only asks for pages it was referred to. *)
From Verif Require Export Walk Mvcc PipelineSys.
Local Open Scope N_scope.

(** ** Programs that ask for pages *)
(* the functions of db.rs, events_tree.rs and tags_tree.rs that call mvcc.rs:603-625 *)
Inductive prog (A : Type) : Type := Ret (a : A) | Ask (q : N) (k : res node -> prog A).
Arguments Ret {A} a.
Arguments Ask {A} q k.
(* sequence and [?], e.g. db.rs:530-822 *)
Fixpoint pbind {A B} (t : prog A) (f : A -> prog B) : prog B :=
  match t with Ret a => f a | Ask q k => Ask q (fun r => pbind (k r) f) end.
(** with the error left to the caller, as Rust's [?] *)
(* e.g. db.rs:560 *)
Definition pq {A B} (t : prog (res A)) (f : A -> prog (res B)) : prog (res B) :=
  pbind t (fun r => match r with Ok a => f a | Err e => Ret (Err e) end).
Notation "'let$' x := t 'in' u" := (pq t (fun x => u)) (at level 200, x name, t at level 100, u at level 200).
Notation "'let$' ' p := t 'in' u" := (pq t (fun p => u)) (at level 200, p strict pattern, t at level 100, u at level 200).
(* mvcc.rs:603-625 *)
Definition page (q : N) : prog (res node) := Ask q Ret.
(** All pages are taken from one snapshot. *)
(* the reads of Iter.v (db.rs:530-822) *)
Fixpoint at_once {A} (rd : snapshot) (t : prog A) : A := match t with Ret a => a | Ask q k => at_once rd (k (rd q)) end.
(** The program asks for the pages [K] only, and those referred to by pages it got; its result meets [Q]. *)
(* for statements *)
Fixpoint follows {A} (Q : (N -> Prop) -> A -> Prop) (K : N -> Prop) (t : prog A) : Prop :=
  match t with
  | Ret a => Q K a
  | Ask q k => K q /\ forall r, follows Q (fun x => K x \/ match r with Ok n => x ∈ refs n | Err _ => False end) (k r)
  end.

(** ** The reads of the code as programs; see EventsTree.v, TrackingTree.v and Iter.v for the same as functions *)
(* events_tree.rs:58-77 *)
Fixpoint chain_prog (fuel : nat) (p : N) : prog (res bytes) :=
  if p =? 0 then Ret (Ok [])
  else match fuel with
  | O => Ret (Err Fuel)
  | S fuel' =>
    let$ n := page p in
    match n with
    | NEvOverflow o => let$ rest := chain_prog fuel' (ov_next o) in Ret (Ok (ov_data o ++ rest))
    | _ => Ret (Err EDatabaseCorrupted)
    end
  end.
(* events_tree.rs:127-168 *)
Definition materialize_prog (fuel : nat) (v : event_value) : prog (res event_record) :=
  match v with
  | Inline r => Ret (Ok r)
  | Overflow ty dl tags root uuid ml trk =>
    let$ all := chain_prog fuel root in
    Ret (if negb (nlen all =? (dl + ml) mod U64) then Err EDatabaseCorrupted
    else
      let? mpart := slice_range 0 (N.to_nat ml) all in
      let? m := (if 0 <? ml then meta_de mpart else Ok []) in
      Ok (EventRecord ty (drop (N.to_nat ml) all) tags uuid m trk))
  end.
(* events_tree.rs:492-545 *)
Fixpoint event_lookup_prog (fuel cfuel : nat) (p pos : N) : prog (res event_record) :=
  match fuel with
  | O => Ret (Err Fuel)
  | S fuel' =>
    let$ n := page p in
    match n with
    | NEvInt nd =>
      match in_children nd !! bs_child (bs_N pos (in_keys nd)) with
      | Some c => event_lookup_prog fuel' cfuel c pos
      | None => Ret (Err EDatabaseCorrupted)
      end
    | NEvLeaf l =>
      match bs_N pos (ev_keys l) with
      | inl i => match ev_values l !! i with
                 | Some v => materialize_prog cfuel v
                 | None => Ret (Err Panic)
                 end
      | inr _ => Ret (Err EDatabaseCorrupted)
      end
    | _ => Ret (Err EDatabaseCorrupted)
    end
  end.
(* db.rs:45-76 *)
Fixpoint tracking_lookup_prog (fuel : nat) (p : N) (source : bytes) : prog (res (option N)) :=
  match fuel with
  | O => Ret (Err Fuel)
  | S fuel' =>
    let$ n := page p in
    match n with
    | NTrkLeaf l => Ret (trk_get source l)
    | NTrkInt nd =>
      match in_children nd !! bs_child (bs_bytes source (in_keys nd)) with
      | Some c => tracking_lookup_prog fuel' c source
      | None => Ret (Err EDatabaseCorrupted)
      end
    | _ => Ret (Err EDatabaseCorrupted)
    end
  end.
(* db.rs:45-80 *)
Definition tracking_prog (fuel : nat) (root : N) (source : bytes) : prog (res (option N)) :=
  if root =? 0 then Ret (Ok None) else tracking_lookup_prog fuel root source.

(* events_tree.rs:597-771 *)
Definition ei_step_prog (cfuel : nat) (start : option N) (bw : bool) (it : item) : prog (res (list (N * event_record) * list item)) :=
  let '(p, oi) := it in
  let$ n := page p in
  match n with
  | NEvInt nd =>
    match (match oi with
           | Some i => Some i
           | None => match in_keys nd with [] => None | _ => Some (first_child start bw nd) end
           end) with
    | None => Ret (Ok ([], []))
    | Some i => match in_children nd !! i with
                | Some c => Ret (Ok ([], push_children bw p nd i c))
                | None => Ret (Err Panic)
                end
    end
  | NEvLeaf l =>
    match (match oi with Some i => Some i | None => first_value start bw l end) with
    | None => Ret (Ok ([], []))
    | Some i =>
      match ev_values l !! i with
      | None => Ret (Ok ([], []))
      | Some v =>
        match ev_keys l !! i with
        | None => Ret (Err Panic)
        | Some pos =>
          let$ r := materialize_prog cfuel v in
          Ret (Ok ([(pos, r)],
              if bw then match i with O => [] | S i' => [(p, Some i')] end
              else if (S i <? length (ev_values l))%nat then [(p, Some (S i))] else []))
        end
      end
    end
  | _ => Ret (Err EDatabaseCorrupted)
  end.
(* events_tree.rs:574-776 *)
Fixpoint ei_loop_prog (cfuel : nat) (start : option N) (bw : bool) (fuel : nat) (room : nat) (st : list item)
  : prog (res (list (N * event_record) * list item)) :=
  match room, st with
  | O, _ | _, [] => Ret (Ok ([], st))
  | _, it :: st' =>
    match fuel with
    | O => Ret (Err Fuel)
    | S fuel' =>
      let$ '(out, push) := ei_step_prog cfuel start bw it in
      let$ '(rest, st'') := ei_loop_prog cfuel start bw fuel' (room - length out) (push ++ st') in
      Ret (Ok (out ++ rest, st''))
    end
  end.
(* events_tree.rs:573-600 *)
Definition ei_next_prog (cfuel : nat) (start : option N) (bw : bool) (fuel : nat) (batch_size : N) (st : list item)
  : prog (res (list (N * event_record) * list item)) :=
  if batch_size =? 0 then Ret (Ok ([], st))
  else if bw && match start with Some 0 => true | _ => false end then Ret (Ok ([], st))
  else ei_loop_prog cfuel start bw fuel (N.to_nat batch_size) st.

(* tags_tree.rs:753-878 *)
Definition ti_step_prog (start : option N) (bw : bool) (it : item) : prog (res (list N * list item)) :=
  let '(p, oi) := it in
  let$ n := page p in
  match n with
  | NTagInt nd =>
    let i := match oi with
             | Some i => i
             | None => match in_keys nd with
                       | [] => if bw then (length (in_children nd) - 1)%nat else 0%nat
                       | _ => first_child start bw nd
                       end
             end in
    match in_children nd !! i with
    | Some c => Ret (Ok ([], push_children bw p nd i c))
    | None => Ret (Ok ([], []))
    end
  | NTagLeaf l => Ret (Ok (pos_batch start bw l, []))
  | _ => Ret (Ok ([], []))
  end.
(* tags_tree.rs:678-884 *)
Fixpoint ti_loop_prog (start : option N) (bw : bool) (fuel : nat) (st : list item) : prog (list N) :=
  match st with
  | [] => Ret []
  | it :: st' =>
    match fuel with
    | O => Ret []
    | S fuel' => pbind (ti_step_prog start bw it) (fun r => match r with
                 | Ok (out, push) => pbind (ti_loop_prog start bw fuel' (push ++ st')) (fun rest => Ret (out ++ rest))
                 | Err _ => Ret []
                 end)
    end
  end.
(* tags_tree.rs:688-750 *)
Fixpoint ti_find_prog (fuel : nat) (p : N) (tag : bytes) : prog (option tags_value) :=
  match fuel with
  | O => Ret None
  | S fuel' => pbind (page p) (fun r => match r with
    | Ok (NTagsInt nd) =>
      match in_children nd !! bs_child (bs_bytes tag (in_keys nd)) with
      | Some c => ti_find_prog fuel' c tag
      | None => Ret None
      end
    | Ok (NTagsLeaf l) =>
      Ret (match bs_bytes tag (tl_keys l) with
      | inl i => tl_values l !! i
      | inr _ => None
      end)
    | _ => Ret None
    end)
  end.
(* tags_tree.rs:648-760 *)
Definition tag_positions_prog (start : option N) (bw : bool) (fuel np : nat) (root : N) (tag : bytes) : prog (list N) :=
  pbind (ti_find_prog np root tag) (fun r => match r with
  | None => Ret []
  | Some v => if tv_root v =? 0 then Ret (pos_batch start bw (tv_positions v))
              else ti_loop_prog start bw fuel [(tv_root v, None)]
  end).
(* db.rs:680-703 *)
Fixpoint map_prog {A B} (f : A -> prog B) (l : list A) : prog (list B) :=
  match l with [] => Ret [] | a :: l' => pbind (f a) (fun b => pbind (map_prog f l') (fun bs => Ret (b :: bs))) end.

(* db.rs:550-582 and 605-640 *)
Fixpoint scan_prog (fuel : nat) (next : list item -> prog (res (list (N * event_record) * list item)))
  (limit : option N) (keep : event_record -> bool) (st : list item) (out : list (N * event_record)) : prog (res (list (N * event_record))) :=
  match fuel with
  | O => Ret (Err Fuel)
  | S fuel' =>
    let$ '(batch, st') := next st in
    match batch with
    | [] => Ret (Ok out)
    | _ =>
      let '(out', stop) := push_batch limit keep batch out in
      if stop then Ret (Ok out') else scan_prog fuel' next limit keep st' out'
    end
  end.
(* db.rs:772-820 *)
Fixpoint index_prog (lookup : N -> prog (res event_record)) (q : query) (limit : option N)
  (gs : list (N * list bytes * list nat)) (out : list (N * event_record)) : prog (res (list (N * event_record))) :=
  match gs with
  | [] => Ret (Ok out)
  | (pos, tags, qiis) :: gs' =>
    let matching := List.filter (fun i => match q !! i with
                                          | Some it => subset_tags (qi_tags it) tags
                                          | None => false
                                          end) qiis in
    match matching with
    | [] => index_prog lookup q limit gs' out
    | _ =>
      let$ r := lookup pos in
      if check_match q matching r then
        let out' := out ++ [(pos, r)] in
        if limit_reached limit out' then Ret (Ok out') else index_prog lookup q limit gs' out'
      else index_prog lookup q limit gs' out
    end
  end.
(* db.rs:530-822; [fuel] bounds the turns of the loops *)
Definition read_conditional_prog (fuel np : nat) (hash : bytes -> bytes) (order : list bytes -> list bytes) (events_root tags_root : N)
  (q : query) (start : option N) (bw : bool) (limit : option N) (force_sequential : bool) : prog (res (list (N * event_record))) :=
  match limit with
  | Some 0 => Ret (Ok [])
  | _ =>
    let next bs := ei_next_prog np start bw fuel bs in
    match q with
    | [] =>
      scan_prog (S fuel) (next (match limit with Some l => l | None => SCAN_BATCH_SIZE end)) limit
        (fun _ => true) [(events_root, None)] []
    | _ =>
      if negb (forallb (fun it => match qi_tags it with [] => false | _ => true end) q) || force_sequential
      then scan_prog (S fuel) (next SCAN_BATCH_SIZE) limit (matches_item q) [(events_root, None)] []
      else
        let tags := order (concat (map qi_tags q)) in
        pbind (map_prog (fun t => pbind (tag_positions_prog start bw fuel np tags_root (hash t)) (fun l => Ret (map (fun p => (p, t, tag_qiids q t)) l))) tags)
          (fun lists => let merged := kmerge (length (concat lists)) bw lists in
            index_prog (event_lookup_prog np np events_root) q limit (group_from None merged) [])
    end
  end.
(* db.rs:151-197 *)
Definition read_prog (fuel : nat) (hash : bytes -> bytes) (order : list bytes -> list bytes) (h : header)
  (q : query) (start : option N) (bw : bool) (limit : option N) (force : bool) : prog (res (list seq_event * option N)) :=
  let$ evs := read_conditional_prog fuel (N.to_nat (h_next_page h)) hash order (h_events_root h) (h_tags_root h) q start bw limit force in
  Ret (Ok (evs, match limit with None => header_head h | Some _ => fst <$> last evs end)).

(** ** Readers at work *)
(** A program of a reader: at a page, or with a page read from the file that is not in the cache yet. *)
(** What a page of the file holds. *)
(* pager.rs:161-175 with page.rs:42-78 *)
Definition stored (kw : nat) (d : disk) (q : N) : option node := match dec kw (d_cur d q) with Ok n => Some n | Err _ => None end.
(* mvcc.rs:603-625 under way *)
Inductive task := Running (t : prog label) | Loading (q : N) (n : node) (k : res node -> prog label).

Section pages.
  (** Over any system of Mvcc.v or PipelineSys.v: its steps, disk and process, the change of the cache, [others s s']: the step was not
      one of the writer thread. *)
  Context {St : Type} (kw : nat) (hash : bytes -> bytes) (order : list bytes -> list bytes) (caching : bool).
  Context (sstep : St -> label -> St -> Prop) (view : St -> option (disk * proc)) (put_cache : gmap N node -> St -> St)
    (others : St -> St -> Prop).

  (** The tasks of the readers, and a page the writer thread is loading. *)
  (* mvcc.rs:215-236 with reads under way *)
  Record xsys := XSys { x_sys : St; x_tasks : gmap nat task; x_load : option (N * node) }.
  (** What reader [i] with header [h] can be asked, and the answer were all pages taken from [rd]. *)
  (* db.rs:45-80, 530-822 *)
  Definition asks (rd : snapshot) (i : nat) (h : header) (l : label) : Prop :=
    (exists q start bw limit force, l = LRead i q start bw limit (umadb_read hash order rd h q start bw limit force)) \/
    (exists src, l = LTrack i src (get_tracking_info (N.to_nat (h_next_page h)) rd (h_tracking_root h) src)).
  (* for statements *)
  Definition answer (l : label) : bool := match l with LRead _ _ _ _ _ _ | LTrack _ _ _ => true | _ => false end.
  (** [n] is being loaded as page [q] by someone. *)
  (* mvcc.rs:603-625 *)
  Definition loading (x : xsys) (q : N) (n : node) : Prop := x_load x = Some (q, n) \/ exists j k, x_tasks x !! j = Some (Loading q n k).

  (* mvcc.rs:603-625, as cited at the constructors *)
  Inductive xstep : xsys -> label -> xsys -> Prop :=
    (** any step but the answer of a read; a reader is not closed while it reads; while the writer thread loads a page it does
        nothing else *)
    | X_sys s l s' T W : sstep s l s' -> answer l = false -> (forall i, is_Some (T !! i) -> l <> LClose i) ->
        (is_Some W -> view s' = None \/ others s s') ->
        xstep (XSys s T W) l (match view s' with Some _ => XSys s' T W | None => XSys s' ∅ None end)
    (** a call begins: a program that asks only for pages referred to, and which at rest gives the answer of the function *)
    | X_begin s T W d p i a t : view s = Some (d, p) -> p_readers p !! i = Some (ROpen a) -> T !! i = None ->
        follows (fun _ _ => True) (fun x => x ∈ refs (NHeader a.2)) t ->
        asks (fetch kw (p_cache p) d) i a.2 (at_once (fetch kw (p_cache p) d) t) ->
        xstep (XSys s T W) LTau (XSys s (<[i := Running t]> T) W)
    (* mvcc.rs:605-607 *)
    | X_bad s T W i q k : T !! i = Some (Running (Ask q k)) -> q < 2 ->
        xstep (XSys s T W) LTau (XSys s (<[i := Running (k (Err EInternal))]> T) W)
    (* mvcc.rs:611: found in the cache *)
    | X_hit s T W d p i q n k : view s = Some (d, p) -> T !! i = Some (Running (Ask q k)) -> 2 <= q -> p_cache p !! q = Some n ->
        xstep (XSys s T W) LTau (XSys s (<[i := Running (k (Ok n))]> T) W)
    (* mvcc.rs:612-616: not found *)
    | X_miss s T W d p i q n k : view s = Some (d, p) -> T !! i = Some (Running (Ask q k)) -> 2 <= q -> p_cache p !! q = None ->
        caching = true -> dec kw (d_cur d q) = Ok n ->
        xstep (XSys s T W) LTau (XSys s (<[i := Loading q n k]> T) W)
    | X_loaded s T W d p i q n k : view s = Some (d, p) -> T !! i = Some (Loading q n k) ->
        xstep (XSys s T W) LTau (XSys (put_cache (<[q := n]> (p_cache p)) s) (<[i := Running (k (Ok n))]> T) W)
    (** another one loads it *)
    | X_shared s T W i q n k : T !! i = Some (Running (Ask q k)) -> loading (XSys s T W) q n ->
        xstep (XSys s T W) LTau (XSys s (<[i := Running (k (Ok n))]> T) W)
    (* mvcc.rs:617-618 (error), 619-621 (no cache) *)
    | X_direct s T W d p i q k : view s = Some (d, p) -> T !! i = Some (Running (Ask q k)) -> 2 <= q -> p_cache p !! q = None ->
        (caching = false \/ forall n, dec kw (d_cur d q) <> Ok n) ->
        xstep (XSys s T W) LTau (XSys s (<[i := Running (k (dec kw (d_cur d q)))]> T) W)
    (** the writer thread loads a page of the last committed state *)
    | X_wmiss s T d p P F q n : view s = Some (d, p) -> walks (stored kw d) (refs (NHeader (latest p).2)) P F -> q ∈ P ->
        p_cache p !! q = None -> caching = true -> dec kw (d_cur d q) = Ok n ->
        xstep (XSys s T None) LTau (XSys s T (Some (q, n)))
    | X_wloaded s T d p q n : view s = Some (d, p) ->
        xstep (XSys s T (Some (q, n))) LTau (XSys (put_cache (<[q := n]> (p_cache p)) s) T None)
    (** the answer *)
    | X_end s T W i l : T !! i = Some (Running (Ret l)) ->
        xstep (XSys s T W) l (XSys s (delete i T) W)
    (** the client has gone *)
    | X_drop s T W i t : T !! i = Some (Running t) ->
        xstep (XSys s T W) LTau (XSys s (delete i T) W).
  (** Executions; each change of the system meets [C]. *)
  (* executions, for statements *)
  Inductive xsteps (C : St -> St -> Prop) : xsys -> list label -> xsys -> Prop :=
    | xsteps_nil x : xsteps C x [] x
    | xsteps_snoc x tr x' l x'' : xsteps C x tr x' -> xstep x' l x'' -> C (x_sys x') (x_sys x'') -> xsteps C x (tr ++ [l]) x''.
End pages.

(** *** The two systems *)
(* the parts of either system (mvcc.rs:215-236) *)
Definition view_sys (y : sys) : option (disk * proc) := match y_proc y with Some p => Some (y_disk y, p) | None => None end.
Definition put_sys (c : gmap N node) (y : sys) : sys := Sys (y_disk y) (set_cache c <$> y_proc y).
(** The blocking writer thread is where it was. *)
(* for statements *)
Definition others_sys (y y' : sys) : Prop := p_writer <$> y_proc y' = p_writer <$> y_proc y.
(* the parts of either system (mvcc.rs:215-236) *)
Definition msys_view (s : msys) : option (disk * proc) :=
  match s with MB y => view_sys y | MOpen d p => Some (d, p) | MP s => Some (s_disk s, s_proc s) end.
Definition msys_put (c : gmap N node) (s : msys) : msys :=
  match s with MB y => MB (put_sys c y) | MOpen d p => MOpen d (set_cache c p) | MP s => MP (PSys (s_disk s) (set_cache c (s_proc s)) (s_pipe s)) end.
(** The pipelining writer thread is where it was; the I/O thread may have done something. *)
(* for statements *)
Definition msys_others (s s' : msys) : Prop :=
  match s, s' with
  | MB y, MB y' => others_sys y y'
  | MOpen _ _, MOpen _ _ => True
  | MP s, MP s' => (exists x, s_pipe s' = set_fly x (s_pipe s)) /\
      match l_fly (s_pipe s), l_fly (s_pipe s') with
      | None, None => True
      | Some f, Some f' => y_io f' = ICached -> y_io f = ICached
      | _, _ => False
      end
  | _, _ => False
  end.
