(** Opening a file by its bytes: Mvcc::new for a file that exists (mvcc.rs:399-533), with the page size it is told.  The page size is
    stored nowhere; Mvcc.v has files that are opened with the page size they were created with.  Pages are read with file I/O, the
    default (pager.rs:18-23). *)
From Verif Require Export Mvcc Pager.
Local Open Scope N_scope.

Section reopen.
  Context (kw : nat) (os : N).
  (* mvcc.rs:184-196 *)
  Definition file_node (ps : N) (f : file) (q : N) : res node := let? b := read_page_from_file (open_pager os ps f) f q in page_de kw b.
  (* mvcc.rs:198-207; the buffer was filled with zeros (mvcc.rs:302); [room]: there is space if the file has to grow *)
  Definition file_put (room : bool) (ps : N) (f : file) (q : N) (n : node) : res unit * file :=
    match page_ser kw ps n with
    | Err e => (Err e, f)
    | Ok b => let '(r, (_, f')) := write_page_data room (open_pager os ps f) f q b in (r, f')
    end.
  (* mvcc.rs:399-533: the two headers, and the file afterwards *)
  Definition open_file (room : bool) (ps : N) (f : file) : res (hpage * hpage) * file :=
    match read_headers (file_node ps f 0) (file_node ps f 1) with
    | Err e => (Err e, f)
    | Ok (n0, n1, fix_) =>
      match match fix_ with None => (Ok tt, f) | Some (q, n) => file_put room ps f q n end with
      | (Err e, f') => (Err e, f')
      | (Ok _, f') =>
        ((let? h0 := as_header n0.2 in
          let? h1 := as_header n1.2 in
          let? _ := check_roots kw (fun q => if q <? 2 then Err EInternal else file_node ps f' q) (latest_of (n0.1, h0) (n1.1, h1)).2 in
          Ok ((n0.1, h0), (n1.1, h1))), f')
      end
    end.
  (* umadb-check.rs:46-76, 104-120: the page size is an argument, a multiple of 512; what follows only reads *)
  Definition tool_accepts (ps : N) : bool := negb ((ps =? 0) || negb (ps mod 512 =? 0)).
End reopen.
