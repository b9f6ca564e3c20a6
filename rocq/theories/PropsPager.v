(** Properties C51 to C53, and more of C17: pages in a file. *)
From Verif Require Import Mvcc MvccProofs Pager PagerProofs PageProofs CodecProofs PropsPage.
Local Open Scope N_scope.

(** ** C51: the pages of a commit are read back, and no others change *)
(** The two ways to read a page. *)
Definition read_by (mmap : bool) (p : pager) (f : file) (q : N) : res bytes := if mmap then (read_page_mmap p f q).1 else read_page_from_file p f q.
(** Windows start where the operating system can map, for every page size and page size of the system. *)
Theorem windows_aligned os ps f m : 0 < os -> 0 < ps -> let p := open_pager os ps f in (os | m * window p) /\ MIN_WINDOW <= window p.
Proof.
  intros Ho Hp p. split; [|now apply window_large]. apply N.divide_mul_r. now apply window_aligned.
Qed.
(** A commit, written in runs of neighbouring pages, puts each page in its place and changes no other. *)
Theorem commit_pages_read_back kw p f l : pager_ok p f -> NoDup (map fst l) -> Forall (fun x => exists b, page_ser kw (g_ps p) x.2 = Ok b) l ->
  exists p' f', write_pages kw true l p f = (Ok tt, (p', f')) /\ pager_ok p' f' /\
    (forall q n b, (q, n) ∈ l -> page_ser kw (g_ps p) n = Ok b -> read_by false p' f' q = Ok b) /\
    (forall q b, q ∉ map fst l -> read_by false p f q = Ok b -> read_by false p' f' q = Ok b).
Proof.
  intros Hok Hnd Hser. unfold write_pages. pose proof (merge_sort_Permutation by_id l) as HP. set (l' := merge_sort by_id l) in *.
  destruct (put_chunks_ok kw (chunks l') p f Hok (chunks_runs l')) as (p' & f' & E & E1 & E2 & Hok' & Hin & Hout).
  - rewrite chunks_concat. now rewrite HP.
  - rewrite chunks_concat. now rewrite HP.
  - rewrite chunks_concat in Hin, Hout. exists p', f'. split; [exact E|]. split; [exact Hok'|]. assert (Hp : 0 < g_ps p) by apply Hok. cbn [read_by]. split.
    + intros q n b Hq Hb. rewrite read_file_ok, E1 by (rewrite E1; exact Hp). assert (page_of (g_ps p) f' q = Some b) as ->; [|reflexivity]. apply (Hin (q, n) b); [now rewrite HP|exact Hb].
    + intros q b Hq Hb. rewrite read_file_ok in Hb by exact Hp. rewrite read_file_ok, E1 by (rewrite E1; exact Hp). destruct (page_of (g_ps p) f q) as [c|] eqn:Ec; [|discriminate]. injection Hb as ->.
      rewrite (Hout q b); [reflexivity|now rewrite HP|exact Ec].
Qed.
(** Whether or not there is room: success is reported only if every page is in the file. *)
Lemma contiguous_room room p f start data s : write_contiguous_pages room p f start data = (Ok tt, s) -> write_contiguous_pages true p f start data = (Ok tt, s).
Proof. unfold write_contiguous_pages. cbn [negb]. rewrite andb_false_r. case_match eqn:E; [discriminate|]. exact (fun h => h). Qed.
Lemma ser_all_inv kw ps l : forall data, serialize_all kw ps l = Ok data -> Forall (fun x => exists b, page_ser kw ps x.2 = Ok b) l.
Proof.
  induction l as [|[q n] l IH]; intros data; cbn [serialize_all]; [constructor|]. destruct (page_ser kw ps n) as [b|] eqn:Eb; [|discriminate]. cbn [rbind].
  destruct (serialize_all kw ps l) as [r|] eqn:Er; [|discriminate]. intros _. constructor; [exists b; exact Eb|exact (IH _ eq_refl)].
Qed.
Lemma put_chunks_room kw room l : forall p f s, pager_ok p f -> put_chunks kw room l p f = (Ok tt, s) ->
  put_chunks kw true l p f = (Ok tt, s) /\ Forall (fun x => exists b, page_ser kw (g_ps p) x.2 = Ok b) (concat l).
Proof.
  induction l as [|c l IH]; intros p f s Hok; cbn [put_chunks concat]; [intros H; split; [exact H|constructor]|].
  destruct (head c) as [a|] eqn:Eh; [|discriminate]. destruct (serialize_all kw (g_ps p) c) as [data|] eqn:Es; [|discriminate].
  destruct (write_contiguous_pages room p f a.1 data) as [[[]|e] [p1 f1]] eqn:Ew; [|discriminate]. apply contiguous_room in Ew. rewrite Ew. intros H.
  assert (data <> []) as Hne.
  { intros ->. destruct c as [|[q n] c]; [discriminate|]. apply serialize_all_ok in Es as [Ld _]. unfold nlen in Ld. cbn in Ld. assert (0 < g_ps p) by apply Hok. nia. }
  destruct (contiguous_ok _ _ _ _ _ _ Hok Hne Ew) as (E1 & _ & Hok1 & _). destruct (IH _ _ _ Hok1 H) as [H1 H2]. split; [exact H1|].
  apply Forall_app. split; [exact (ser_all_inv _ _ _ _ Es)|]. rewrite <- E1. exact H2.
Qed.
Theorem commit_success_written kw room p f l p' f' : pager_ok p f -> NoDup (map fst l) -> write_pages kw room l p f = (Ok tt, (p', f')) ->
  forall q n, (q, n) ∈ l -> exists b, page_ser kw (g_ps p) n = Ok b /\ read_by false p' f' q = Ok b.
Proof.
  intros Hok Hnd E q n Hq. unfold write_pages in E. destruct (put_chunks_room _ _ _ _ _ _ Hok E) as [E' Hser]. rewrite chunks_concat, merge_sort_Permutation in Hser.
  destruct (commit_pages_read_back kw p f l Hok Hnd Hser) as (p1 & f1 & E1 & _ & Hin & _). unfold write_pages in E1. rewrite E' in E1.
  pose proof (f_equal (fun x => x.2.1) E1) as Ep. pose proof (f_equal (fun x => x.2.2) E1) as Ef. cbn [fst snd] in Ep, Ef. subst p1 f1.
  destruct (proj1 (Forall_forall _ _) Hser _ Hq) as [b Hb]. exists b. split; [exact Hb|]. exact (Hin q n b Hq Hb).
Qed.
(** As nodes. *)
Theorem commit_nodes_read_back kw p f l : (kw <= 16)%nat -> g_ps p < U32 -> pager_ok p f -> NoDup (map fst l) ->
  Forall (fun x => node_ok kw x.2 /\ node_bytes x.2 /\ exists b, page_ser kw (g_ps p) x.2 = Ok b) l ->
  exists p' f', write_pages kw true l p f = (Ok tt, (p', f')) /\ (forall q n, (q, n) ∈ l -> rbind (read_by false p' f' q) (page_de kw) = Ok n) /\
    (forall q n, q ∉ map fst l -> rbind (read_by false p f q) (page_de kw) = Ok n -> rbind (read_by false p' f' q) (page_de kw) = Ok n).
Proof.
  intros Hkw Hps Hok Hnd Hall. destruct (commit_pages_read_back kw p f l Hok Hnd) as (p' & f' & E & _ & Hin & Hout).
  { eapply List.Forall_impl; [|exact Hall]. intros x Hx. apply Hx. }
  exists p', f'. split; [exact E|]. split.
  - intros q n Hq. destruct (proj1 (Forall_forall _ _) Hall _ Hq) as (Hn & Hb & b & Eb). cbn [snd] in *. rewrite (Hin q n b Hq Eb). cbn [rbind]. eapply page_rt; [exact Hkw|exact Hps|exact Hn| |exact Eb].
    intros x. now apply node_ser_bytes.
  - intros q n Hq H. destruct (read_by false p f q) as [b|] eqn:Eb; [|discriminate]. cbn [rbind] in H. rewrite (Hout q b Hq Eb). exact H.
Qed.
(** What was allocated and not written cannot be taken for a page. *)
Lemma page_de_zeros kw k : exists e, page_de kw (replicate k 0) = Err e.
Proof.
  do 9 (destruct k as [|k]; [eexists; reflexivity|]). change (replicate (S (S (S (S (S (S (S (S (S k))))))))) 0) with (page_layout 0 0 0 [] (replicate k 0)).
  rewrite page_de_layout by (reflexivity || (unfold U32; lia)). case_match; eexists; reflexivity.
Qed.
(** ** C52: memory maps show the same pages *)
(** Memory maps never show anything else than file I/O. *)
Theorem mmap_never_wrong p f q b p' : pager_ok p f -> read_page_mmap p f q = (Ok b, p') -> read_page_from_file p f q = Ok b /\ pager_ok p' f.
Proof.
  intros Hok E. destruct (read_mmap_ok _ _ _ _ _ Hok E) as [Hb Hok']. split; [|exact Hok']. rewrite read_file_ok by apply Hok. now rewrite Hb.
Qed.

(** The file consists of whole windows, and the pager knows its length. *)
Definition whole (p : pager) (f : file) : Prop := pager_ok p f /\ (window p | f_len f) /\ g_len p = f_len f.
(** A single page is written as a run of one page is. *)
Theorem single_page_write room p f q data : 0 < g_ps p -> nlen data = g_ps p -> write_page_data room p f q data = write_contiguous_pages room p f q data.
Proof. intros Hp Hl. unfold write_page_data, write_contiguous_pages. rewrite Hl, N.eqb_refl, N.div_same by lia. reflexivity. Qed.
(** An operation of the blocking writer: a run of pages, or one page (a header), of at most one window from the end of the file on; or a read. *)
Inductive pager_step : pager * file -> pager * file -> Prop :=
  | PG_write p f start data p' f' : data <> [] -> (g_ps p | nlen data) -> start * g_ps p + nlen data <= f_len f + window p ->
      write_contiguous_pages true p f start data = (Ok tt, (p', f')) -> pager_step (p, f) (p', f')
  | PG_page p f q data p' f' : q * g_ps p + g_ps p <= f_len f + window p -> write_page_data true p f q data = (Ok tt, (p', f')) -> pager_step (p, f) (p', f')
  | PG_read p f q x p' : read_page_mmap p f q = (x, p') -> pager_step (p, f) (p', f).
Lemma page_is_run p f q data p' f' : 0 < g_ps p -> write_page_data true p f q data = (Ok tt, (p', f')) -> data <> [] /\ nlen data = g_ps p /\ write_contiguous_pages true p f q data = (Ok tt, (p', f')).
Proof.
  intros Hp E. assert (Hl : nlen data = g_ps p) by (unfold write_page_data in E; destruct (N.eqb_spec (nlen data) (g_ps p)); [assumption|discriminate]).
  split; [intros ->; cbn in Hl; lia|]. split; [exact Hl|]. now rewrite <- single_page_write.
Qed.
Lemma pager_step_whole s s' : pager_step s s' -> whole s.1 s.2 -> whole s'.1 s'.2 /\ g_ps s'.1 = g_ps s.1 /\ g_ppm s'.1 = g_ppm s.1.
Proof.
  assert (Hrun : forall p f start data p' f', data <> [] -> (g_ps p | nlen data) -> start * g_ps p + nlen data <= f_len f + window p ->
    write_contiguous_pages true p f start data = (Ok tt, (p', f')) -> whole p f -> whole p' f' /\ g_ps p' = g_ps p /\ g_ppm p' = g_ppm p).
  { intros p f start data p' f' Hne [k Hk] Hend E (Hok & Hw & Hl).
    destruct (contiguous_ok _ _ _ _ _ _ Hok Hne E) as (E1 & E2 & Hok' & _). split; [|split; [exact E1|exact E2]]. split; [exact Hok'|]. unfold window. rewrite E1, E2. fold (window p).
    assert (Hps : 0 < g_ps p) by apply Hok. revert E. unfold write_contiguous_pages. cbn [negb]. rewrite andb_false_r. rewrite Hk, N.div_mul by lia.
    destruct (N.ltb_spec (g_len p) (g_ps p * (start + k))) as [Hn|Hn]; cbn [preallocate]; intros [= <- <-]; rewrite f_write_len by exact Hne; cbn [f_len f_allocate g_len]; rewrite Hk, Hl in *.
    + generalize dependent (window p). intros w. intros. assert (N.max (N.max (f_len f) (f_len f + w)) (start * g_ps p + k * g_ps p) = f_len f + w) as -> by lia.
      split; [apply N.divide_add_r; [assumption|exists 1; lia]|lia].
    + rewrite N.max_l by nia. split; [exact Hw|reflexivity]. }
  intros [p f start data p' f' Hne Hk Hend E|p f q data p' f' Hend E|p f q x p' E] Hw0; cbn [fst snd] in *; [eauto| |destruct Hw0 as (Hok & Hw & Hl)].
  - assert (Hp : 0 < g_ps p) by apply Hw0. destruct (page_is_run _ _ _ _ _ _ Hp E) as (Hne & Hl & E'). eapply Hrun; [exact Hne| | |exact E'|exact Hw0]; rewrite Hl; [reflexivity|exact Hend].
  - destruct (read_mmap_keeps _ _ _ _ _ Hok E) as (Hok' & E1 & E2 & E3). split; [|split; [exact E1|exact E2]]. split; [exact Hok'|]. unfold window. rewrite E1, E2, E3. split; [exact Hw|exact Hl].
Qed.
(** As long as no commit adds more than one window, memory maps show every page. *)
Theorem mmap_reads_partial os ps p f : 0 < os -> 0 < ps -> rtc pager_step (open_pager os ps (File 0 (fun _ => 0)), File 0 (fun _ => 0)) (p, f) ->
  forall q, read_by true p f q = read_by false p f q.
Proof.
  intros Ho Hp Hrun. assert (Hw : whole p f).
  { remember (open_pager os ps (File 0 (fun _ => 0)), File 0 (fun _ => 0)) as s eqn:Es. remember (p, f) as s' eqn:Es'.
    assert (whole s.1 s.2) as H0 by (subst s; split; [now apply open_pager_ok|split; [exists 0; reflexivity|reflexivity]]). clear Es.
    assert (whole s'.1 s'.2) as H1; [|now subst s']. clear Es'. induction Hrun as [s|s s1 s2 Hst _ IH]; [exact H0|]. apply IH. eapply pager_step_whole; eassumption. }
  intros q. destruct Hw as (Hok & Hw & _). cbn [read_by]. rewrite read_file_ok by apply Hok. destruct (page_of (g_ps p) f q) as [b|] eqn:Eb.
  - destruct (read_mmap_whole _ _ _ _ Hok Hw Eb) as [p' ->]. reflexivity.
  - destruct (read_page_mmap p f q) as [[b|e] p'] eqn:E; [destruct (read_mmap_ok _ _ _ _ _ Hok E); congruence|]. cbn. revert E. unfold read_page_mmap.
    destruct (page_in_window (g_ps p) (g_ppm p) q) as [_ E2]; [apply Hok|apply Hok|]. rewrite (proj2 (N.ltb_ge (g_ppm p * _) _)) by lia. repeat case_match; congruence.
Qed.
(** A new file of one window, after the first page was written. *)
Definition one_window : pager * file := (write_page_data true (open_pager 4096 4096 (File 0 (fun _ => 0))) (File 0 (fun _ => 0)) 0 (replicate 4096 1)).2.
Example one_window_example : f_len one_window.2 = 65536 * 4096 /\ read_by true one_window.1 one_window.2 0 = Ok (replicate 4096 1) /\
  read_by true one_window.1 one_window.2 65535 = Ok (replicate 4096 0).
Proof. split_and!; vm_compute; reflexivity. Qed.
(** The I/O thread of the pipelining writer lets the file grow page by page.  The first page after a window is written,
    completely; file I/O reads it, a memory map does not. *)
Theorem pipelined_mmap_refuted : exists data f', nlen data = 4096 /\
  uring_writes [(65536, data, 4096)] 4096 one_window.2 = (Ok tt, f') /\ read_by false one_window.1 f' 65536 = Ok data /\ read_by true one_window.1 f' 65536 = Err EIo.
Proof.
  exists (replicate 4096 7). eexists. split; [reflexivity|]. split; [cbn [uring_writes uring_write_at]; reflexivity|]. split; vm_compute; reflexivity.
Qed.
(** The blocking writer, when a commit adds more than a window: of [65536] new pages the first two are for the second
    window, the file gets one more window and is then written beyond it. *)
Theorem large_commit_mmap_refuted : exists p f start data p' f', pager_ok p f /\ start * 4096 <= f_len f /\ write_contiguous_pages true p f start data = (Ok tt, (p', f')) /\
  exists q b, start <= q /\ q < start + nlen data / 4096 /\ read_by false p' f' q = Ok b /\ read_by true p' f' q = Err EIo.
Proof.
  assert (exists data : bytes, nlen data = 65537 * 4096) as [data Ld] by (exists (replicate (N.to_nat (65537 * 4096)) 7); unfold nlen; rewrite replicate_length; apply N2Nat.id).
  set (f := File (65536 * 4096) (fun _ => 0)). set (p := open_pager 4096 4096 f).
  assert (Hok : pager_ok p f) by (apply open_pager_ok; lia).
  assert (Hne : data <> []) by (intros E; rewrite E in Ld; discriminate Ld). assert (Hppm : g_ppm p = 65536) by (vm_compute; reflexivity).
  destruct (write_contiguous_pages true p f 65536 data) as [x [p' f']] eqn:E. assert (x = Ok tt) as -> by (revert E; unfold write_contiguous_pages; cbn [negb]; rewrite andb_false_r; case_match; congruence).
  destruct (contiguous_ok _ _ _ _ _ _ Hok Hne E) as (E1 & E2 & Hok' & Hin & _). change (g_ps p) with 4096 in *.
  exists p, f, 65536, data, p', f'. split; [exact Hok|]. split; [cbn [f_len f]; lia|]. split; [exact E|]. assert (Hq : 65536 < nlen data / 4096) by (rewrite Ld, N.div_mul by lia; lia).
  specialize (Hin 65536 Hq). exists (65536 + 65536). eexists. split; [lia|]. split; [lia|]. split.
  - cbn [read_by]. rewrite read_file_ok by (rewrite E1; lia). rewrite E1, Hin. reflexivity.
  - cbn [read_by]. revert E. unfold write_contiguous_pages. cbn [negb]. rewrite andb_false_r. change (g_ps p) with 4096. rewrite Ld, N.div_mul by lia. change (g_len p) with (65536 * 4096).
    rewrite (proj2 (N.ltb_lt _ _)) by lia. intros E3. pose proof (f_equal (fun x => x.2.1) E3) as Ep. pose proof (f_equal (fun x => x.2.2) E3) as Ef. cbn [fst snd preallocate] in Ep, Ef. assert (f_len f' = 65536 * 4096 + 65537 * 4096) as Lf.
    { rewrite <- Ef. rewrite f_write_len, Ld by exact Hne. unfold window. rewrite Hppm. cbn [f_len f f_allocate]. reflexivity. }
    assert (g_maps p' = ∅) as Em by (rewrite <- Ep; reflexivity).
    unfold read_page_mmap. rewrite E1, E2, Hppm, Lf, Em. clear. vm_compute. reflexivity.
Qed.

(** ** C53: a batch is acknowledged only when its pages are written *)
(** The number of bytes written is not looked at. *)
Theorem short_write_reported_refuted : exists q n b pages header f f', page_ser 16 4096 n = Ok b /\ (q, b, 1) ∈ pages /\
  do_uring_commit pages header 4096 f = (Ok tt, f') /\ exists e, dec 16 (page_of 4096 f' q) = Err e.
Proof.
  set (n := NTagLeaf [1]). destruct (page_ser 16 4096 n) as [b|] eqn:Eb; [|exfalso; revert Eb; vm_compute; discriminate].
  exists 6, n, b, [(6, b, 1)], (1, b, 4096), (File 40960 (fun _ => 0)). eexists. split; [exact Eb|]. split; [apply elem_of_list_here|]. split; [reflexivity|].
  assert (match page_ser 16 4096 n with Ok b => match dec 16 (page_of 4096 (do_uring_commit [(6, b, 1)] (1, b, 4096) 4096 (File 40960 (fun _ => 0))).2 6) with Err _ => true | _ => false end | _ => false end = true) as H by (vm_compute; reflexivity).
  rewrite Eb in H. destruct (dec 16 _) as [|e] eqn:E in H; [discriminate|]. exists e. exact E.
Qed.
(** Complete writes put every page in its place. *)
Lemma take_all {A} (b : list A) : take (N.to_nat (nlen b)) b = b. Proof. apply take_ge. unfold nlen. lia. Qed.
Lemma uring_writes_ok ps l : forall f, 0 < ps -> NoDup (map (fun x => x.1.1) l) -> Forall (fun x => nlen x.1.2 = ps /\ x.2 = ps) l ->
  exists f', uring_writes l ps f = (Ok tt, f') /\ (forall q b n, (q, b, n) ∈ l -> page_of ps f' q = Some b) /\
    (forall q b, q ∉ map (fun x => x.1.1) l -> page_of ps f q = Some b -> page_of ps f' q = Some b).
Proof.
  induction l as [|[[q b] n] l IH]; intros f Hp Hnd Hall.
  - exists f. cbn. split_and!; auto. intros q b n H. set_solver.
  - inversion Hnd as [|? ? Hq Hnd']; subst. apply Forall_cons in Hall as [[Hb Hn] Hall']. cbn in Hb, Hn. subst n. cbn [uring_writes uring_write_at].
    assert (take (N.to_nat ps) b = b) as -> by (rewrite <- Hb; apply take_all).
    destruct (IH (f_write (q * ps) b f) Hp Hnd' Hall') as (f' & E & Hin & Hout). exists f'. split; [exact E|].
    assert (Hne : b <> []) by (intros ->; cbn in Hb; lia). split.
    + intros q' b' n' H. apply elem_of_cons in H as [H|H]; [|eauto]. injection H as -> -> ->. apply Hout; [exact Hq|]. unfold page_of. rewrite f_write_len, Hb by exact Hne.
      rewrite (proj2 (N.leb_le _ _)) by lia. f_equal. replace (q * ps) with (q * ps + 0) at 1 by lia. rewrite f_write_in by lia. rewrite drop_0. rewrite <- Hb. apply take_all.
    + intros q' b' Hq' Hb'. cbn [map] in Hq'. apply not_elem_of_cons in Hq' as [Hq1 Hq2]. cbn in Hq1. apply Hout; [exact Hq2|]. eapply page_of_keep; [exact Hb'|rewrite f_write_len by exact Hne; lia|].
      intros i Hi Hl. apply f_write_out; [|exact Hl]. rewrite Hb. destruct (N.lt_total q q') as [|[|]]; [right|congruence|left]; nia.
Qed.
Theorem complete_writes_partial ps l header f : 0 < ps -> NoDup (map fst (map fst (l ++ [header]))) -> Forall (fun x => nlen x.1.2 = ps /\ x.2 = ps) (l ++ [header]) ->
  exists f', do_uring_commit l header ps f = (Ok tt, f') /\ forall q b, (q, b) ∈ map fst (l ++ [header]) -> page_of ps f' q = Some b.
Proof.
  intros Hp Hnd Hall. rewrite map_map in Hnd. destruct (uring_writes_ok ps _ f Hp Hnd Hall) as (f' & E & Hin & _). exists f'. split.
  - unfold do_uring_commit. rewrite map_app in Hnd. apply NoDup_app in Hnd as (Hnd & _). apply Forall_app in Hall as [Hall _]. destruct (uring_writes_ok ps l f Hp Hnd Hall) as (f1 & E1 & _).
    rewrite E1, <- E. clear - E1. revert f E1. induction l as [|[[q b] n] l IH]; intros f; cbn [app uring_writes]; [intros [= ->]; reflexivity|]. destruct (uring_write_at n ps q b f) as [[x|e] g]; [apply IH|discriminate].
  - intros q b H. apply elem_of_list_fmap in H as ([[q' b'] n] & [= -> ->] & Hx). eapply Hin, Hx.
Qed.

(** ** C17: pages that are not filled with zeros *)
(** Whatever the buffer held before, and whether or not the rest of a page is filled with zeros, the page is read back. *)
Theorem any_buffer_round_trip kw zero buf n b : (kw <= 16)%nat -> nlen buf < U32 -> node_ok kw n -> node_bytes n -> page_into kw zero buf n = Ok b ->
  nlen b = nlen buf /\ page_de kw b = Ok n.
Proof.
  intros Hkw Hlen Hn Hby. unfold page_into. destruct (node_rt kw n Hkw Hn) as (body & Eb & D). rewrite Eb. cbn [rbind].
  destruct (N.ltb_spec (nlen buf) (PAGE_HEADER_SIZE + nlen body)) as [|Hfit]; [discriminate|]. intros E. assert (forall x y : bytes, Ok x = Ok y -> x = y) as Hinj by congruence. apply Hinj in E. subst b.
  assert (L4 : forall x, length (w32 x) = 4%nat) by (intros; apply le_bytes_length). unfold PAGE_HEADER_SIZE in Hfit. split.
  - unfold nlen in *. rewrite app_length, app_length, app_length, app_length, !L4. cbn [length]. destruct zero; rewrite ?map_length, drop_length; lia.
  - assert (as_u32 (nlen body) = nlen body) as -> by (unfold as_u32; apply N.mod_small; unfold U32 in *; lia).
    pose proof (page_de_layout kw (type_byte n) (calc_crc body) (nlen body) body (if zero then map (fun _ => 0) (drop (9 + length body) buf) else drop (9 + length body) buf)) as H.
    unfold page_layout in H. rewrite H; [|apply calc_crc_lt, (node_ser_bytes kw n body Hby Eb)|reflexivity|unfold U32 in *; lia]. rewrite N.eqb_refl. exact D.
Qed.

(** ** Examples *)
Definition ex_pages : list (N * node) := [(7, NTagLeaf [1; 2]); (3, NTagLeaf [5]); (4, NTagLeaf [6])].
Definition ex_file : file := File 0 (fun _ => 0).
(** Two runs of pages in a new file. *)
Example commit_example : pager_ok (open_pager 4096 4096 ex_file) ex_file /\ NoDup (map fst ex_pages) /\
  Forall (fun x => node_ok 16 x.2 /\ node_bytes x.2 /\ exists b, page_ser 16 4096 x.2 = Ok b) ex_pages /\
  map (map fst) (chunks (merge_sort by_id ex_pages)) = [[3; 4]; [7]] /\
  let y := write_pages 16 true ex_pages (open_pager 4096 4096 ex_file) ex_file in
  y.1 = Ok tt /\ map (fun q => rbind (read_by false y.2.1 y.2.2 q) (page_de 16)) [3; 4; 7] = [Ok (NTagLeaf [5]); Ok (NTagLeaf [6]); Ok (NTagLeaf [1; 2])].
Proof.
  split; [apply open_pager_ok; lia|]. split; [apply (bool_decide_unpack _); vm_compute; reflexivity|]. split.
  { apply Forall_forall. intros x Hx. repeat (apply elem_of_cons in Hx as [->|Hx]); [..|now apply elem_of_nil in Hx].
    all: split_and!; [apply (bool_decide_unpack _); vm_compute; exact I..|]. all: eexists; vm_compute; reflexivity. }
  split; [vm_compute; reflexivity|]. cbv zeta. split; vm_compute; reflexivity.
Qed.
(** A page is written, the map of its window made, and the next window allocated. *)
Example pager_steps_example : exists p f, rtc pager_step (open_pager 4096 4096 ex_file, ex_file) (p, f) /\ f_len f = 2 * (65536 * 4096) /\
  read_by true p f 65537 = Ok (replicate 4096 9) /\ elements (g_maps p) = [0].
Proof.
  pose (s1 := (write_contiguous_pages true (open_pager 4096 4096 ex_file) ex_file 1 (replicate 4096 3)).2).
  pose (s2 := ((read_page_mmap s1.1 s1.2 2).2, s1.2)).
  pose (s3 := (write_contiguous_pages true s2.1 s2.2 65537 (replicate 4096 9)).2). exists s3.1, s3.2. split.
  - eapply rtc_l; [eapply (PG_write _ _ 1 (replicate 4096 3) s1.1 s1.2)|eapply rtc_l; [eapply (PG_read _ _ 2 _ s2.1)|eapply rtc_l; [eapply (PG_write _ _ 65537 (replicate 4096 9) s3.1 s3.2)|]]].
    + discriminate.
    + exists 1. vm_compute. reflexivity.
    + vm_compute. discriminate.
    + reflexivity.
    + apply surjective_pairing.
    + discriminate.
    + exists 1. vm_compute. reflexivity.
    + vm_compute. discriminate.
    + reflexivity.
    + destruct s3. apply rtc_refl.
  - split_and!; vm_compute; reflexivity.
Qed.
Example complete_writes_example : NoDup (map fst (map fst [(3, replicate 4096 1, 4096); (2, replicate 4096 2, 4096)])) /\
  Forall (fun x : N * bytes * N => nlen x.1.2 = 4096 /\ x.2 = 4096) [(3, replicate 4096 1, 4096); (2, replicate 4096 2, 4096)].
Proof. split; [apply (bool_decide_unpack _); vm_compute; exact I|]. repeat constructor. Qed.
(** A buffer full of something else, not cleared. *)
Example any_buffer_example : exists b, page_into 16 false (replicate 64 255) (NTagLeaf [3]) = Ok b /\ last b = Some 255 /\ page_de 16 b = Ok (NTagLeaf [3]).
Proof. eexists. split; [vm_compute; reflexivity|]. split; vm_compute; reflexivity. Qed.

Print Assumptions windows_aligned.
Print Assumptions commit_pages_read_back.
Print Assumptions commit_success_written.
Print Assumptions commit_nodes_read_back.
Print Assumptions mmap_never_wrong.
Print Assumptions single_page_write.
Print Assumptions mmap_reads_partial.
Print Assumptions pipelined_mmap_refuted.
Print Assumptions large_commit_mmap_refuted.
Print Assumptions short_write_reported_refuted.
Print Assumptions complete_writes_partial.
Print Assumptions any_buffer_round_trip.
