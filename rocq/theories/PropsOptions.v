(** C67-C70: names of the calls, the command line, the start of the server. *)
From Coq Require Import Strings.String Strings.Ascii.
From Verif Require Import Options.
Local Open Scope N_scope.

(** ** C67: every call has its two names and no other; the API key covers both *)

Lemma starts_with_app pat s : starts_with pat (pat ++ s) = true.
Proof. induction pat as [|a pat IH]; cbn; [reflexivity|]. now rewrite N.eqb_refl, IH. Qed.
Lemma starts_with_inv pat s : starts_with pat s = true -> exists r, s = pat ++ r.
Proof.
  revert s. induction pat as [|a pat IH]; intros s; cbn; [eauto|]. destruct s as [|b s]; [discriminate|].
  intros (E & H)%andb_prop. apply N.eqb_eq in E as <-. apply IH in H as (r & ->). now exists r.
Qed.
(** Without the first character of the pattern nothing is replaced, and what is put in shows in the result. *)
Lemma replace_clean c pat rep fuel s : (length s <= fuel)%nat -> c ∈ rep -> c ∉ replace_loop fuel pat rep s -> replace_loop fuel pat rep s = s.
Proof.
  intros Hf Hc. revert s Hf. induction fuel as [|fuel IH]; intros s Hf Hn; [reflexivity|].
  destruct s as [|b s]; [reflexivity|]. cbn [replace_loop] in *. case_match.
  - exfalso. apply Hn. apply elem_of_app. now left.
  - f_equal. apply IH; [cbn in Hf; lia|]. set_solver.
Qed.
Lemma replace_absent c pat rep fuel s : c ∉ s -> replace_loop fuel (c :: pat) rep s = s.
Proof.
  revert s. induction fuel as [|fuel IH]; intros s Hn; [reflexivity|]. destruct s as [|b s]; [reflexivity|]. cbn [replace_loop].
  case_match eqn:E.
  - cbn in E. apply andb_prop in E as [E%N.eqb_eq _]. subst b. exfalso. apply Hn. left.
  - f_equal. apply IH. set_solver.
Qed.
Lemma replace_prefix pat rep s : pat <> [] -> replace_all pat rep (pat ++ s) = rep ++ replace_loop (length pat + length s - 1) pat rep s.
Proof.
  intros Hne. unfold replace_all. rewrite app_length. destruct pat as [|a pat]; [done|].
  assert (E : forall f t, replace_loop (S f) (a :: pat) rep ((a :: pat) ++ t) = rep ++ replace_loop f (a :: pat) rep t).
  { intros f t. pose proof (starts_with_app (a :: pat) t) as Hs. pose proof (drop_app (a :: pat) t) as Hd.
    cbn [app] in *. cbn [replace_loop]. now rewrite Hs, Hd. }
  cbn [length Nat.add]. rewrite E. cbn [Nat.sub]. now rewrite Nat.sub_0_r.
Qed.
Lemma method_plain m : SLASH ∉ method_name m.
Proof. destruct m; apply (bool_decide_unpack _); vm_compute; exact I. Qed.
Lemma find_method_spec p m : find_method p = Some m <-> p = VERSION_1 ++ method_name m.
Proof.
  split.
  - intros H. apply List.find_some in H as [_ H]. now apply bool_decide_eq_true in H.
  - intros ->. destruct m; vm_compute; reflexivity.
Qed.
(** The call that a path stands for. *)
Definition stands_for (p : bytes) (m : method) : Prop := p = txt "/umadb.v1.DCB/" ++ method_name m \/ p = txt "/umadb.UmaDBService/" ++ method_name m.
Lemma rewritten_method u m : find_method (u_path (rewrite_path u)) = Some m <-> stands_for (u_path u) m.
Proof.
  rewrite find_method_spec. unfold stands_for, rewrite_path. change (txt "/umadb.v1.DCB/") with VERSION_1. change (txt "/umadb.UmaDBService/") with UNVERSIONED.
  destruct (starts_with UNVERSIONED (u_path u)) eqn:E.
  - apply starts_with_inv in E as (r & E). rewrite E. cbn [u_path]. rewrite replace_prefix by (vm_compute; discriminate). split.
    + intros H. right. f_equal. apply app_inv_head in H. rewrite <- H. symmetry.
      assert (Hl : (length r <= length UNVERSIONED + length r - 1)%nat) by (change (length UNVERSIONED) with 20%nat; lia).
      apply (replace_clean SLASH _ _ _ _ Hl); [vm_compute; left|]. rewrite H. apply method_plain.
    + intros [H|H].
      * exfalso. assert (K : nth 7 (UNVERSIONED ++ r) 0 = nth 7 (VERSION_1 ++ method_name m) 0) by (now rewrite H). vm_compute in K. discriminate.
      * apply app_inv_head in H as ->. f_equal. change UNVERSIONED with (SLASH :: drop 1 UNVERSIONED). apply replace_absent. apply method_plain.
  - split; [intros ->; now left|]. intros [H|H]; [exact H|]. rewrite H, starts_with_app in E. discriminate.
Qed.
Lemma not_health u m : stands_for (u_path u) m -> starts_with HEALTH (u_path (rewrite_path u)) = false.
Proof. intros H. apply rewritten_method, find_method_spec in H. rewrite H. destruct m; vm_compute; reflexivity. Qed.

Theorem calls_by_both_names {S A} api_key (perform : method -> S -> S * res A) u md s m : stands_for (u_path u) m ->
  serve api_key perform u md s = let '(s', r) := handle_call api_key md perform m s in (s', Handled r).
Proof. intros H. unfold serve. rewrite (not_health u m H). now apply rewritten_method in H as ->. Qed.

Theorem other_names_nothing {S A} api_key (perform : method -> S -> S * res A) u md s : (forall m, ~ stands_for (u_path u) m) ->
  (serve api_key perform u md s).1 = s /\ forall r, (serve api_key perform u md s).2 <> Handled r.
Proof.
  intros H. unfold serve. destruct (starts_with HEALTH _); [split; [reflexivity|discriminate]|].
  destruct (find_method _) as [m|] eqn:E; [apply rewritten_method in E; now apply H in E|]. split; [reflexivity|discriminate].
Qed.

Theorem no_path_around_key {S A} k (perform : method -> S -> S * res A) u md s : md_get AUTHORIZATION md <> Some (BEARER ++ k) ->
  (serve (Some k) perform u md s).1 = s /\ forall r, (serve (Some k) perform u md s).2 = Handled r -> r = Err EAuth.
Proof.
  intros Hk. unfold serve. destruct (starts_with HEALTH _); [split; [reflexivity|discriminate]|].
  destruct (find_method _) as [m|]; [|split; [reflexivity|discriminate]].
  assert (E : handle_call (Some k) md perform m s = (s, Err EAuth)).
  { unfold handle_call, enforce_api_key. destruct (md_get AUTHORIZATION md) as [v|]; [|reflexivity].
    unfold to_str. destruct (forallb visible v); [|reflexivity]. rewrite bool_decide_eq_false_2; [reflexivity|]. intros ->. now apply Hk. }
  rewrite E. split; [reflexivity|]. now intros r [= <-].
Qed.

Example old_name_example : let perform (m : method) (s : N) := (s + 1, @Ok N s) in
  serve None perform (Uri (txt "/umadb.UmaDBService/Append") (Some (txt "x=1"))) [] 5 = (6, Handled (Ok 5)) /\
  serve None perform (Uri (txt "/umadb.v1.DCB/Append") None) [] 5 = (6, Handled (Ok 5)) /\
  serve (Some (txt "k")) perform (Uri (txt "/umadb.UmaDBService/Append") None) [] 5 = (5, Handled (Err EAuth)) /\
  serve (Some (txt "k")) perform (Uri (txt "/umadb.UmaDBService/Append") None) [(AUTHORIZATION, txt "Bearer k")] 5 = (6, Handled (Ok 5)) /\
  serve None perform (Uri (txt "/umadb.UmaDBService/umadb.UmaDBService/Append") None) [] 5 = (5, Unimplemented) /\
  serve None perform (Uri (txt "/x/umadb.UmaDBService/Append") None) [] 5 = (5, Unimplemented) /\
  serve None perform (Uri (txt "/umadb.UmaDBService/") None) [] 5 = (5, Unimplemented) /\
  rewrite_path (Uri (txt "/umadb.UmaDBService/a/umadb.UmaDBService/b") None) = Uri (txt "/umadb.v1.DCB/a/umadb.v1.DCB/b") None.
Proof. vm_compute. auto 20. Qed.

(** ** C68: a server that runs has the options it was given *)

(** What the user asked for, read off the command line. *)
Definition spelt (s w : bytes) : Prop := Forall2 (fun b c => b = c \/ (97 <= c <= 122 /\ b = c - 32)) s w.
Lemma lower_spelt s w : Forall (fun c => ~ (65 <= c <= 90)) w -> map lower s = w <-> spelt s w.
Proof.
  unfold spelt. intros Hw. split.
  - intros <-. clear Hw. induction s as [|b s IH]; cbn; constructor; auto. unfold lower. case_match; [right|left]; lia.
  - intros H. induction H as [|b c s w H _ IH]; cbn; [reflexivity|]. inversion Hw as [|? ? Hc Hw']; subst. f_equal; [|now apply IH].
    unfold lower. destruct H as [->|[Hc' ->]]; case_match; lia.
Qed.
Definition names (s : bytes) (m : read_method) : Prop := match m with FileIo => spelt s (txt "fileio") | Mmap => spelt s (txt "mmap") end.
Lemma parse_names s m : parse_read_method s = Some m <-> names s m.
Proof.
  assert (H1 : map lower s = txt "fileio" <-> spelt s (txt "fileio")) by (apply lower_spelt; apply (bool_decide_unpack _); vm_compute; exact I).
  assert (H2 : map lower s = txt "mmap" <-> spelt s (txt "mmap")) by (apply lower_spelt; apply (bool_decide_unpack _); vm_compute; exact I).
  unfold parse_read_method, names. destruct (decide (map lower s = txt "fileio")) as [E|E].
  - destruct m; [tauto|]. rewrite <- H2, E. split; [discriminate|]. intros X. vm_compute in X. discriminate.
  - destruct (decide (map lower s = txt "mmap")) as [F|F]; destruct m; split; intros X; try discriminate; try reflexivity; tauto.
Qed.

(** The server options that the user asked for. *)
Record as_asked (k : machine) (a : args) (o : server_options) : Prop := {
  ask_listen : s_listen o = a_listen a;
  ask_api_key : s_api_key o = a_api_key a;
  ask_tls : match a_cert a, a_key a with
            | Some c, Some q => exists cp kp, k_file k c = Some cp /\ k_file k q = Some kp /\ k_pem k cp kp = true /\ s_tls o = Some (cp, kp)
            | None, None => s_tls o = None
            | _, _ => False
            end;
  ask_path : if k_is_dir k (a_db_path a) then exists d, (d = a_db_path a \/ d = a_db_path a ++ txt "/") /\ t_db_path (s_storage o) = d ++ txt "uma.db" /\ last d = Some SLASH
             else t_db_path (s_storage o) = a_db_path a;
  ask_page_size : t_page_size (s_storage o) = 4096;
  ask_read : forall m, names (a_read_method a) m -> t_read_method (s_storage o) = m;
  ask_pages : t_cache_pages (s_storage o) = a_cache_pages a;
  ask_mb : t_cache_mb (s_storage o) = a_cache_mb a;
  ask_zero : t_zero_fill (s_storage o) = a_zero_fill a;
  ask_pipelined : t_pipelined (s_storage o) = a_pipelined a }.

Theorem options_honoured k a o n : start k a = Runs o n -> as_asked k a o.
Proof.
  unfold start, validate, to_server_options. intros H. destruct (negb _) eqn:Ev; [discriminate|].
  destruct (from_path_strings k _ _) as [tls|] eqn:Et; [|discriminate]. cbn [s_listen s_storage s_tls] in H.
  destruct (o_blocking _ =? 0); [discriminate|]. destruct (negb (k_binds _ _)); [discriminate|]. destruct (negb (k_opens _ _)); [discriminate|].
  destruct (MAX_PERMITS <? _); [discriminate|].
  destruct (match tls with Some (c, q) => negb (k_pem k c q) | None => false end) eqn:Ep; [discriminate|].
  injection H as <- _. constructor; cbn; try reflexivity.
  - cbn in Et. unfold from_path_strings in Et. destruct (a_cert a) as [c|], (a_key a) as [q|]; try discriminate; [|congruence].
    destruct (k_file k c) as [cp|]; [|discriminate]. destruct (k_file k q) as [kp|]; [|discriminate]. injection Et as <-.
    exists cp, kp. repeat split. now apply negb_false_iff in Ep.
  - unfold db_path, join. destruct (k_is_dir k (a_db_path a)); [|reflexivity]. case_decide.
    + exists (a_db_path a). auto.
    + exists (a_db_path a ++ txt "/"). split; [auto|]. split; [now rewrite <- app_assoc|]. apply (last_snoc SLASH (a_db_path a)).
  - intros m Hm. apply parse_names in Hm. now rewrite Hm.
Qed.

(** Asked for half of TLS, or for TLS or a key that cannot be had, the server does not run without. *)
Theorem never_less_protected k a o n : start k a = Runs o n ->
  (a_cert a <> None \/ a_key a <> None -> s_tls o <> None) /\ (forall key, a_api_key a = Some key -> s_api_key o = Some key).
Proof.
  intros H. apply options_honoured in H as []. split; [|congruence]. destruct (a_cert a), (a_key a); try contradiction.
  - destruct ask_tls0 as (cp & kp & _ & _ & _ & ->). discriminate.
  - now intros [|].
Qed.

(** The reads of a running server can always go on: there is at least one permit, and as many as asked for. *)
Theorem readers_never_locked_out k a o n : start k a = Runs o n -> 1 <= n <= 2305843009213693951 /\
  (forall s v, k_reader_threads k = Some s -> parse_usize s = Some v -> 0 < v -> n = v).
Proof.
  unfold start. intros H. destruct (negb (validate _)); [discriminate|]. destruct (to_server_options _ _); [|discriminate].
  destruct (o_blocking _ =? 0); [discriminate|]. destruct (negb (k_binds _ _)); [discriminate|]. destruct (negb (k_opens _ _)); [discriminate|].
  destruct (MAX_PERMITS <? _) eqn:Em; [discriminate|]. apply N.ltb_ge in Em. change MAX_PERMITS with 2305843009213693951 in Em.
  match type of H with (if ?b then _ else _) = _ => destruct b; [discriminate|] end. injection H as _ <-.
  revert Em. unfold readers_concurrency_limit, PER_CORE. intros Em. split; [split; [|exact Em]|].
  - destruct (k_reader_threads k) as [t|]; [destruct (parse_usize t); [case_match|]|]; lia.
  - intros t v -> -> Hv. now rewrite (proj2 (N.ltb_lt 0 v)).
Qed.

(** Numbers in decimal are read as what they say. *)
Fixpoint decimal (s : bytes) : N := match s with [] => 0 | b :: s' => (b - 48) * 10 ^ nlen s' + decimal s' end.
Lemma digits_spec s acc v : digits acc s = Some v -> Forall (fun b => 48 <= b <= 57) s /\ v = acc * 10 ^ nlen s + decimal s.
Proof.
  revert acc. induction s as [|b s IH]; intros acc; cbn [digits decimal].
  - intros [= <-]. split; [constructor|]. rewrite nlen_nil. cbn. lia.
  - unfold digit. destruct ((48 <=? b) && (b <=? 57)) eqn:Ed; [|discriminate]. destruct (acc * 10 + (b - 48) <? U64); [|discriminate].
    intros (Hs & ->)%IH. split; [constructor; [lia|assumption]|]. rewrite nlen_cons, N.pow_add_r. change (10 ^ 1) with 10. lia.
Qed.
Theorem number_read s v : parse_usize s = Some v -> exists d, (s = d \/ s = txt "+" ++ d) /\ d <> [] /\ Forall (fun b => 48 <= b <= 57) d /\ v = decimal d.
Proof.
  unfold parse_usize. intros H.
  match type of H with match ?t with _ => _ end = _ => assert (Ht : s = t \/ s = txt "+" ++ t); [|remember t as d eqn:Ed; clear Ed] end.
  { destruct s as [|b [|c s]]; try (left; reflexivity). destruct (N.eqb_spec b 43) as [->|]; [right|left]; reflexivity. }
  exists d. split; [exact Ht|]. destruct d as [|b d]; [discriminate|]. apply digits_spec in H as [H ->]. split; [discriminate|]. split; [exact H|]. lia.
Qed.

Definition quiet_machine : machine := Machine (fun p => bool_decide (p = txt "/data")) (fun p => if decide (p = txt "c.pem") then Some [1; 2] else if decide (p = txt "k.pem") then Some [3] else None)
  (fun _ => true) (fun _ => true) (fun _ _ => true) (Some (txt "12")) (Some 2).
Definition some_args (rm : string) (cert key : option bytes) (blocking : N) : args := Args (txt "127.0.0.1:50051") (txt "/data") cert key (Some (txt "secret")) (txt rm) 7 0 true true blocking.
Example options_example :
  start quiet_machine (some_args "FileIO" (Some (txt "c.pem")) (Some (txt "k.pem")) 512) =
    Runs (Serving (txt "127.0.0.1:50051") (Some ([1; 2], [3])) (Some (txt "secret")) (Storage (txt "/data/uma.db") 4096 FileIo 7 0 true true)) 12 /\
  start quiet_machine (some_args "mmap" (Some (txt "c.pem")) None 512) = Refused /\
  start quiet_machine (some_args "mmap" (Some (txt "c.pem")) (Some (txt "other.pem")) 512) = Refused /\
  names (txt "FileIO") FileIo /\ parse_usize (txt "+18446744073709551615") = Some 18446744073709551615 /\ parse_usize (txt "18446744073709551616") = None /\ parse_usize (txt "+") = None.
Proof. repeat split; try (vm_compute; reflexivity). apply parse_names. vm_compute. reflexivity. Qed.

(** ** C69: options that cannot be used are refused with a message *)

Theorem bad_options_refused_refuted :
  (exists k a o n, (forall m, ~ names (a_read_method a) m) /\ start k a = Runs o n /\ t_read_method (s_storage o) = Mmap) /\
  (exists k a, a_blocking a = 0 /\ start k a = Panicked) /\
  (exists k a n, k_reader_threads k = Some n /\ start k a = Panicked) /\
  (exists k a, (forall c q, k_pem k c q = false) /\ start k a = Panicked).
Proof.
  split; [|split; [|split]].
  - exists quiet_machine, (some_args "file-io" None None 512), (Serving (txt "127.0.0.1:50051") None (Some (txt "secret")) (Storage (txt "/data/uma.db") 4096 Mmap 7 0 true true)), 12.
    split; [intros m Hm; apply parse_names in Hm; vm_compute in Hm; discriminate|]. split; vm_compute; reflexivity.
  - exists quiet_machine, (some_args "mmap" None None 0). split; vm_compute; reflexivity.
  - exists (Machine (fun _ => false) (fun _ => None) (fun _ => true) (fun _ => true) (fun _ _ => true) (Some (txt "3000000000000000000")) None), (some_args "mmap" None None 1), (txt "3000000000000000000").
    split; vm_compute; reflexivity.
  - exists (Machine (fun _ => false) (fun _ => Some []) (fun _ => true) (fun _ => true) (fun _ _ => false) None None), (some_args "mmap" (Some []) (Some []) 1).
    split; [reflexivity|]. vm_compute. reflexivity.
Qed.

(** These are the only ways: nothing else panics, and only the read method is replaced. *)
Theorem start_panics_partial k a : start k a = Panicked ->
  a_blocking a = 0 \/ (exists s v, k_reader_threads k = Some s /\ parse_usize s = Some v /\ MAX_PERMITS < v) \/
  (exists n, k_cpus k = Some n /\ MAX_PERMITS < n * 4) \/
  (exists c q cp kp, a_cert a = Some c /\ a_key a = Some q /\ k_file k c = Some cp /\ k_file k q = Some kp /\ k_pem k cp kp = false).
Proof.
  unfold start, to_server_options. intros H. destruct (negb (validate _)); [discriminate|].
  destruct (from_path_strings k _ _) as [tls|] eqn:Et; [|discriminate]. cbn [s_listen s_storage s_tls] in H.
  destruct (o_blocking _ =? 0) eqn:Eb; [left; now apply N.eqb_eq in Eb|]. destruct (negb (k_binds _ _)); [discriminate|]. destruct (negb (k_opens _ _)); [discriminate|].
  destruct (MAX_PERMITS <? _) eqn:Em.
  - apply N.ltb_lt in Em. unfold readers_concurrency_limit, PER_CORE in Em. clear - Em. right.
    assert (Hd : MAX_PERMITS < N.max 4 (N.min (U64 - 1) (match k_cpus k with Some n => n | None => 4 end * 4)) -> exists n, k_cpus k = Some n /\ MAX_PERMITS < n * 4).
    { change MAX_PERMITS with 2305843009213693951. destruct (k_cpus k) as [n|]; [|lia]. intros K. exists n. split; [reflexivity|lia]. }
    destruct (k_reader_threads k) as [s|]; [|right; left; now apply Hd].
    destruct (parse_usize s) as [v|] eqn:Ev; [|right; left; now apply Hd]. destruct (0 <? v); [|right; left; now apply Hd].
    left. exists s, v. auto.
  - right; right; right. destruct tls as [[c q]|]; [|discriminate]. destruct (negb (k_pem k c q)) eqn:Ep; [|discriminate].
    cbn in Et. unfold from_path_strings in Et. destruct (a_cert a) as [cp|], (a_key a) as [kp|]; try discriminate.
    destruct (k_file k cp) eqn:E1; [|discriminate]. destruct (k_file k kp) eqn:E2; [|discriminate]. injection Et as <- <-.
    exists cp, kp, l, l0. repeat split; auto. now apply negb_true_iff in Ep.
Qed.

(** ** C70: the limit on open files is raised, never lowered *)

Theorem open_files_limit takes soft hard : soft <= hard -> let soft' := raise_open_file_limit takes soft hard in
  soft <= soft' <= hard /\ (soft' <> soft -> takes soft' = true) /\
  ((forall n, takes n = true) -> N.min hard 1048576 <= soft').
Proof.
  intros Hle. unfold raise_open_file_limit, INFINITY. change (U64 - 1) with 18446744073709551615.
  destruct (N.eqb_spec hard 18446744073709551615) as [->|Hne]; cbn [negb andb try_limits].
  - repeat case_match; repeat split; try lia; auto; intros K; try lia; try (rewrite K in *; discriminate).
  - destruct (N.leb_spec hard soft) as [Hs|Hs]; cbn [try_limits].
    + repeat split; try lia.
    + repeat case_match; repeat split; try lia; auto; intros K; try lia; try (rewrite K in *; discriminate).
Qed.
Example open_files_example : raise_open_file_limit (fun _ => true) 1024 524288 = 524288 /\ raise_open_file_limit (fun n => n <=? 100000) 1024 18446744073709551615 = 65536 /\
  raise_open_file_limit (fun _ => false) 1024 4096 = 1024.
Proof. vm_compute. auto. Qed.

Print Assumptions calls_by_both_names.
Print Assumptions other_names_nothing.
Print Assumptions no_path_around_key.
Print Assumptions options_honoured.
Print Assumptions never_less_protected.
Print Assumptions readers_never_locked_out.
Print Assumptions number_read.
Print Assumptions bad_options_refused_refuted.
Print Assumptions start_panics_partial.
Print Assumptions open_files_limit.
