(** The pager: umadb-core/src/pager.rs, and Mvcc::write_pages (mvcc.rs:759-808).  Mvcc.v has pages that are there or not; here
    they are bytes of a file that has a length, read through file I/O or through memory maps.

    The file is that of POSIX: a write past the end makes it longer, what was never written reads as 0, and a memory map shows
    what the file holds.  Simplified: the file is not shortened by others while it is open; file names, locks and the
    variants for other systems than Linux are left out; of the two looks at the table of maps in [read_page_mmap_slice] the
    second is the one that counts. *)
From Verif Require Export Page.
Local Open Scope N_scope.

(** ** The file *)
(* pager.rs:39-50 *)
Record file := File { f_len : N; f_byte : N -> N }.
(* bytes beyond the end are 0 once the file is longer *)
(* POSIX pwrite and posix_fallocate, pager.rs:410, 469 *)
Definition f_at (f : file) (o : N) : N := if o <? f_len f then f_byte f o else 0.
(* pwrite, all of the bytes *)
(* pager.rs:410, 427 *)
Definition f_write (o : N) (b : bytes) (f : file) : file :=
  match b with
  | [] => f
  | _ => File (N.max (f_len f) (o + nlen b))
           (fun i => if (o <=? i) && (i <? o + nlen b) then nth (N.to_nat (i - o)) b 0 else f_at f i)
  end.
(* posix_fallocate *)
(* pager.rs:469 *)
Definition f_allocate (o n : N) (f : file) : file := File (N.max (f_len f) (o + n)) (f_at f).
(* [n] bytes from [o] on *)
(* for pager.rs:164 *)
Definition f_bytes (o n : N) (f : file) : bytes := map (fun i => f_byte f (o + N.of_nat i)) (seq 0 (N.to_nat n)).
(* pread: fewer at the end of the file *)
(* pager.rs:164 *)
Definition f_read (o n : N) (f : file) : bytes := f_bytes o (N.min n (f_len f - o)) f.

(** ** The pager *)
(* pager.rs:135-142 *)
Fixpoint gcd_loop (fuel : nat) (a b : N) : N :=
  match fuel with
  | O => a
  | S k => if b =? 0 then a else gcd_loop k b (a mod b)
  end.
Definition gcd (a b : N) : N := gcd_loop (S (N.to_nat b)) a b.
Definition div_ceil (a b : N) : N := (a + b - 1) / b.
(* pager.rs:108: the comments say 10 MiB *)
Definition MIN_WINDOW : N := 268435456.
(* pager.rs:101-117 *)
Definition pages_per_map (os_ps page_size : N) : N :=
  let g := gcd os_ps page_size in
  let align_pages := N.max 1 (os_ps / g) in
  let min_pages := div_ceil MIN_WINDOW page_size in
  let k := if min_pages =? 0 then 1 else div_ceil min_pages align_pages in
  align_pages * N.max 1 k.
(* pager.rs:38-49; [g_maps]: the windows that are mapped, each in its full length (pager.rs:348-353) *)
Record pager := Pager { g_ps : N; g_ppm : N; g_len : N; g_maps : gset N }.
Definition window (p : pager) : N := g_ppm p * g_ps p.
(* pager.rs:60-133 *)
Definition open_pager (os_ps page_size : N) (f : file) : pager := Pager page_size (pages_per_map os_ps page_size) (f_len f) ∅.
(* pager.rs:157-168 *)
Definition read_page_from_file (p : pager) (f : file) (q : N) : res bytes :=
  let page := f_read (q * g_ps p) (g_ps p) f in
  if nlen page <? g_ps p then Err EIo else Ok page.
(* pager.rs:264-386 *)
Definition read_page_mmap (p : pager) (f : file) (q : N) : res bytes * pager :=
  let offset := q * g_ps p in
  let map_id := q / g_ppm p in
  let map_offset := map_id * g_ppm p * g_ps p in
  let within := offset - map_offset in
  let max_len := g_ppm p * g_ps p in
  let view := if max_len <? within + g_ps p then Err EIo else Ok (f_bytes (map_offset + within) (g_ps p) f) in
  if decide (map_id ∈ g_maps p) then (view, p)
  else if f_len f <? offset + g_ps p then (Err EIo, p)
  else if f_len f <? map_offset + max_len then (Err EIo, p)
  else (view, Pager (g_ps p) (g_ppm p) (g_len p) ({[map_id]} ∪ g_maps p)).
(* pager.rs:438-540; the file length the pager knows is raised *)
Definition preallocate (current extra : N) (p : pager) (f : file) : pager * file :=
  (Pager (g_ps p) (g_ppm p) (N.max (g_len p) (current + extra)) (g_maps p), f_allocate current extra f).
(* pager.rs:413-429; [room]: there is space for the preallocation *)
Definition write_contiguous_pages (room : bool) (p : pager) (f : file) (start : N) (data : bytes) : res unit * (pager * file) :=
  let page_count := nlen data / g_ps p in
  let need := g_len p <? g_ps p * (start + page_count) in
  if need && negb room then (Err EIo, (p, f))
  else let '(p', f') := if need then preallocate (g_len p) (window p) p f else (p, f) in
       (Ok tt, (p', f_write (start * g_ps p) data f')).
(* pager.rs:388-411 *)
Definition write_page_data (room : bool) (p : pager) (f : file) (q : N) (data : bytes) : res unit * (pager * file) :=
  if negb (nlen data =? g_ps p) then (Err EInternal, (p, f))
  else let need := g_len p <? g_ps p * (q + 1) in
       if need && negb room then (Err EIo, (p, f))
       else let '(p', f') := if need then preallocate (g_len p) (window p) p f else (p, f) in
            (Ok tt, (p', f_write (q * g_ps p) data f')).

(** ** Writing the pages of a commit *)
(* mvcc.rs:772: sort_unstable_by_key *)
Definition by_id (a b : N * node) : Prop := a.1 <= b.1.
Global Instance by_id_dec a b : Decision (by_id a b). Proof. unfold by_id. apply _. Defined.
(* mvcc.rs:778: chunk_by *)
Fixpoint chunks (l : list (N * node)) : list (list (N * node)) :=
  match l with
  | [] => []
  | a :: l' =>
    match chunks l' with
    | (b :: c) :: r => if a.1 + 1 =? b.1 then (a :: b :: c) :: r else [a] :: (b :: c) :: r
    | r => [a] :: r
    end
  end.
(* mvcc.rs:787-797 *)
Fixpoint serialize_all (kw : nat) (ps : N) (l : list (N * node)) : res bytes :=
  match l with
  | [] => Ok []
  | (_, n) :: l' => let? b := page_ser kw ps n in let? r := serialize_all kw ps l' in Ok (b ++ r)
  end.
(* mvcc.rs:781-807 *)
Fixpoint put_chunks (kw : nat) (room : bool) (l : list (list (N * node))) (p : pager) (f : file) : res unit * (pager * file) :=
  match l with
  | [] => (Ok tt, (p, f))
  | c :: l' =>
    match head c with
    | None => (Err Panic, (p, f))
    | Some a =>
      match serialize_all kw (g_ps p) c with
      | Err e => (Err e, (p, f))
      | Ok data =>
        match write_contiguous_pages room p f a.1 data with
        | (Err e, s) => (Err e, s)
        | (Ok _, (p', f')) => put_chunks kw room l' p' f'
        end
      end
    end
  end.
(* mvcc.rs:759-808 *)
Definition write_pages (kw : nat) (room : bool) (l : list (N * node)) (p : pager) (f : file) : res unit * (pager * file) :=
  put_chunks kw room (chunks (merge_sort by_id l)) p f.

(** ** Without filling pages with zeros *)
(* page.rs:205-232 over a buffer that holds something: the header page is written from a buffer that is kept (mvcc.rs:196-207);
   [zero]: the option zero_fill_pages *)
Definition page_into (kw : nat) (zero : bool) (buf : bytes) (n : node) : res bytes :=
  let? body := node_ser kw n in
  if nlen buf <? PAGE_HEADER_SIZE + nlen body then Err EIo
  else let rest := drop (9 + length body) buf in
       Ok ([type_byte n] ++ w32 (calc_crc body) ++ w32 (as_u32 (nlen body)) ++ body ++ (if zero then map (fun _ => 0) rest else rest)).

(** ** The I/O thread of the pipelining writer *)
(* io_shell.rs:41-56: nothing is allocated; the number of bytes that were written, [n], is not looked at (a short write is no
   error: tokio_uring's write_at, as opposed to write_all_at) *)
Definition uring_write_at (n : N) (ps : N) (q : N) (data : bytes) (f : file) : res N * file :=
  (Ok (N.min n (nlen data)), f_write (q * ps) (take (N.to_nat n) data) f).
(* the part of the result that counts, io_shell.rs:50-53 *)
Fixpoint uring_writes (l : list (N * bytes * N)) (ps : N) (f : file) : res unit * file :=
  match l with
  | [] => (Ok tt, f)
  | (q, data, n) :: l' =>
    match uring_write_at n ps q data f with
    | (Err e, f') => (Err e, f')
    | (Ok _, f') => uring_writes l' ps f'
    end
  end.
(* io_shell.rs:36-70; syncing succeeds *)
Definition do_uring_commit (pages : list (N * bytes * N)) (header : N * bytes * N) (ps : N) (f : file) : res unit * file :=
  match uring_writes pages ps f with
  | (Err e, f') => (Err e, f')
  | (Ok _, f') => uring_writes [header] ps f'
  end.
