(** Connecting: C105. *)
From Coq Require Import Strings.String Strings.Ascii.
From Verif Require Import Connect.
Local Open Scope N_scope.

Section props.
  Context (well_formed : bytes -> bool) (usable : tls_config -> bool).
  Notation new_channel := (new_channel well_formed usable).
  Notation connect_with_tls_options := (connect_with_tls_options well_formed usable).
  Notation connect := (connect well_formed usable).
  Notation client_connect := (client_connect well_formed usable).

  Lemma starts_with_app p url : starts_with p url = true <-> exists rest, url = p ++ rest.
  Proof.
    unfold starts_with. rewrite bool_decide_eq_true. split; [intros E; exists (drop (length p) url); rewrite <- E at 1; symmetry; apply take_drop|]. intros (rest & ->). apply take_app_alt. reflexivity.
  Qed.
  Lemma https_is rest : is_https (text "https://" ++ rest) = true.
  Proof. unfold is_https. apply bool_decide_eq_true. rewrite take_app_alt by reflexivity. reflexivity. Qed.
  Lemma alias_grpcs rest : alias (text "grpcs://" ++ rest) = text "https://" ++ rest.
  Proof. unfold alias. rewrite (proj2 (starts_with_app _ _)) by (now exists rest). now rewrite drop_app. Qed.
  Lemma alias_other url : (forall rest, url <> text "grpcs://" ++ rest) -> alias url = url.
  Proof. intros H. unfold alias. destruct (starts_with _ url) eqn:E; [|reflexivity]. apply starts_with_app in E as (rest & E). now apply H in E. Qed.
  Lemma channel_is url tls reached b : new_channel url tls reached = Some b -> b = is_https (alias url).
  Proof.
    unfold Connect.new_channel. destruct (new_endpoint _ _ url tls) as [e|] eqn:Ee; [|discriminate]. assert (Eu : p_uri e = alias url).
    { unfold new_endpoint in Ee. destruct (negb _); [discriminate|]. destruct tls; [destruct (usable _)|destruct (starts_with _ url); [destruct (usable _)|]]; try discriminate; injection Ee as <-; reflexivity. }
    unfold channel. rewrite Eu. destruct (is_https (alias url)); [destruct (p_tls e) as [c|]; [destruct (reached (Some c))|]|destruct (reached None)]; intros [= <-]; reflexivity.
  Qed.
  Lemma attempt_ok {left i f n c} : attempt left i f = (n, Ok c) -> (i < n <= i + S left)%nat /\ f (pred n) = Ok c /\ forall j, (i <= j < pred n)%nat -> exists e, f j = Err e.
  Proof.
    revert i. induction left as [|l IH]; intros i; cbn [attempt]; destruct (f i) as [c'|e] eqn:E.
    - intros [= <- <-]. split; [lia|]. split; [exact E|]. cbn. intros j Hj. lia.
    - discriminate.
    - intros [= <- <-]. split; [lia|]. split; [exact E|]. cbn. intros j Hj. lia.
    - intros H. destruct (IH _ H) as (H1 & H2 & H3). split; [lia|]. split; [exact H2|]. intros j Hj. destruct (decide (j = i)) as [->|]; [eauto|]. apply H3. lia.
  Qed.
  Lemma attempt_err {left i f n e} : attempt left i f = (n, Err e) -> n = (i + S left)%nat /\ f (pred n) = Err e /\ forall j, (i <= j < n)%nat -> exists e', f j = Err e'.
  Proof.
    revert i. induction left as [|l IH]; intros i; cbn [attempt]; destruct (f i) as [c'|e'] eqn:E; try discriminate.
    - intros [= <- <-]. split; [lia|]. split; [exact E|]. intros j Hj. assert (j = i) as -> by lia. eauto.
    - intros H. destruct (IH _ H) as (H1 & H2 & H3). split; [lia|]. split; [exact H2|]. intros j Hj. destruct (decide (j = i)) as [->|]; [eauto|]. apply H3. lia.
  Qed.

  (** Whatever the options are, a client that gives its key away has an encrypted connection; one that connected to an https or grpcs address has one as well. *)
  Theorem key_only_encrypted url tls batch k reached c md md' : connect_with_tls_options url tls batch (Some k) reached = Ok c -> send_auth c md = Ok md' -> c_encrypted c = true.
  Proof.
    unfold Connect.connect_with_tls_options. destruct (new_channel url tls reached) as [b|] eqn:Ec; [|discriminate]. intros [= <-]. unfold send_auth. cbn [c_key c_tls c_encrypted add_auth].
    destruct (tls_enabled url) eqn:Et; [|discriminate]. intros _. rewrite (channel_is _ _ _ _ Ec). unfold tls_enabled in Et. apply orb_true_iff in Et as [Et|Et]; apply starts_with_app in Et as (rest & ->).
    - rewrite alias_other; [apply https_is|]. intros rest' E. discriminate E.
    - rewrite alias_grpcs. apply https_is.
  Qed.
  Theorem secure_address url tls batch key reached c : (exists rest, url = text "https://" ++ rest \/ url = text "grpcs://" ++ rest) ->
    connect_with_tls_options url tls batch key reached = Ok c -> c_encrypted c = true /\ c_tls c = true.
  Proof.
    intros (rest & Hu). unfold Connect.connect_with_tls_options. destruct (new_channel url tls reached) as [b|] eqn:Ec; [|discriminate]. intros [= <-]. cbn [c_encrypted c_tls]. rewrite (channel_is _ _ _ _ Ec). destruct Hu as [-> | ->].
    - split; [rewrite alias_other; [apply https_is|intros rest' E; discriminate E]|]. unfold tls_enabled. rewrite (proj2 (starts_with_app _ _)) by (now exists rest). reflexivity.
    - split; [rewrite alias_grpcs; apply https_is|]. unfold tls_enabled. rewrite (proj2 (starts_with_app (text "grpcs://") _)) by (now exists rest). apply orb_true_r.
  Qed.
  (** An address in clear is never encrypted, and the key stays with the client. *)
  Theorem clear_address rest tls batch key reached c : connect_with_tls_options (text "http://" ++ rest) tls batch key reached = Ok c ->
    c_encrypted c = false /\ forall k md, key = Some k -> send_auth c md = Err ETransport.
  Proof.
    unfold Connect.connect_with_tls_options. destruct (new_channel _ tls reached) as [b|] eqn:Ec; [|discriminate]. intros [= <-]. cbn [c_encrypted]. rewrite (channel_is _ _ _ _ Ec).
    rewrite alias_other by (intros rest' E; discriminate E). split; [destruct rest; reflexivity|]. intros k md ->. unfold send_auth. cbn [c_key c_tls]. destruct rest; reflexivity.
  Qed.
  (** With the builder, grpcs and https are the same, however the server is reached. *)
  Theorem grpcs_is_https read_file rest cs reached :
    client_connect read_file (text "grpcs://" ++ rest) cs reached = client_connect read_file (text "https://" ++ rest) cs reached.
  Proof.
    assert (H : forall o batch key b, connect_with_tls_options (text "grpcs://" ++ rest) (Some o) batch key b = connect_with_tls_options (text "https://" ++ rest) (Some o) batch key b).
    { intros o batch key b. unfold Connect.connect_with_tls_options, Connect.new_channel, new_endpoint. rewrite alias_grpcs, alias_other by (intros rest' E; discriminate E).
      replace (tls_enabled (text "grpcs://" ++ rest)) with true; [replace (tls_enabled (text "https://" ++ rest)) with true; [reflexivity|]|]; symmetry; unfold tls_enabled; apply orb_true_iff; [left|right]; apply starts_with_app; now exists rest. }
    assert (Ha : forall left i f g, (forall j, f j = g j) -> attempt left i f = attempt left i g).
    { induction left as [|l IH]; intros i f g E; cbn [attempt]; rewrite E; destruct (g i); try reflexivity. now apply IH. }
    unfold Connect.client_connect, Connect.connect. destruct (s_ca _) as [p|]; [destruct (read_file p)|]; try reflexivity; apply Ha; intros j; apply H.
  Qed.
  (** Connecting takes between one and 50 attempts and gives the first client that could be had; an error only if all 50 failed. *)
  Theorem attempts read_file url ca batch key reached n x : connect read_file url ca batch key reached = (n, x) -> x <> Err Panic ->
    let o := TlsOptions None (ca ≫= read_file) in let try j := connect_with_tls_options url (Some o) batch key (reached j) in
    match x with
    | Ok c => (1 <= n <= 50)%nat /\ try (pred n) = Ok c /\ forall j, (j < pred n)%nat -> exists e, try j = Err e
    | Err e => n = 50%nat /\ try 49%nat = Err e /\ forall j, (j < 50)%nat -> exists e', try j = Err e'
    end.
  Proof.
    unfold Connect.connect. intros H Hx. cbv zeta. remember (max_attempts - 1)%nat as m eqn:Em. assert (Hg : attempt m 0 (fun i => connect_with_tls_options url (Some (TlsOptions None (ca ≫= read_file))) batch key (reached i)) = (n, x)).
    { destruct ca as [p|]; cbn [option_bind mbind]; [destruct (read_file p) as [b|]; [refine H|injection H as <- <-; now destruct Hx]|refine H]. }
    subst m. destruct x as [c|e].
    - destruct (attempt_ok Hg) as (H1 & H2 & H3). change (S (max_attempts - 1)) with 50%nat in H1. split; [lia|]. split; [exact H2|]. intros j Hj. apply H3. lia.
    - destruct (attempt_err Hg) as (H1 & H2 & H3). change (0 + S (max_attempts - 1))%nat with 50%nat in H1. subst n. split; [reflexivity|]. split; [exact H2|]. intros j Hj. apply H3. lia.
  Qed.
  (** The client has the settings given last. *)
  Fixpoint chosen {A} (f : setting -> option A) (rcs : list setting) : option A :=
    match rcs with [] => None | c :: rcs' => match f c with Some a => Some a | None => chosen f rcs' end end.
  Theorem settings_kept read_file url cs reached n c : client_connect read_file url cs reached = (n, Ok c) ->
    c_key c = chosen (fun s => match s with ApiKey k => Some k | _ => None end) (rev cs) /\ c_batch c = chosen (fun s => match s with BatchSize b => Some b | _ => None end) (rev cs).
  Proof.
    unfold Connect.client_connect. set (s := fold_left set cs (Settings None None None)).
    assert (Hs : s_key s = chosen (fun s => match s with ApiKey k => Some k | _ => None end) (rev cs) /\ s_batch s = chosen (fun s => match s with BatchSize b => Some b | _ => None end) (rev cs)).
    { subst s. induction cs as [|c' cs IH] using rev_ind; [split; reflexivity|]. rewrite fold_left_app, rev_app_distr. destruct c'; cbn; tauto. }
    destruct Hs as [<- <-]. intros H. destruct (attempts _ _ _ _ _ _ _ _ H ltac:(discriminate)) as (_ & H2 & _). unfold Connect.connect_with_tls_options in H2. destruct (new_channel _ _ _); [|discriminate]. injection H2 as <-. auto.
  Qed.
  (** A server that only accepts those who trust a certificate is reached with a [ca_path] to it, at the first attempt, and is not reached without. *)
  Theorem own_certificate read_file url p b cs reached : (exists rest, url = text "https://" ++ rest \/ url = text "grpcs://" ++ rest) ->
    well_formed (alias url) = true -> (forall c, usable c = true) -> read_file p = Some b ->
    (forall i c, reached i (Some c) = true <-> c = TlsConfig None (Some b)) ->
    (exists c, client_connect read_file url (cs ++ [CaPath p]) reached = (1%nat, Ok c) /\ c_encrypted c = true) /\
    ((forall p', CaPath p' ∈ cs -> read_file p' <> Some b) -> forall n c, client_connect read_file url cs reached <> (n, Ok c)).
  Proof.
    intros Hurl Hw Hu Hf Hr. assert (Hs : is_https (alias url) = true).
    { destruct Hurl as (rest & [-> | ->]); [rewrite alias_other; [apply https_is|intros rest' E; discriminate E]|rewrite alias_grpcs; apply https_is]. }
    assert (Hc : forall o batch key i, o_domain o = None -> connect_with_tls_options url (Some o) batch key (reached i) = if decide (o_ca_pem o = Some b) then Ok (Cl true batch (tls_enabled url) key) else Err ETransport).
    { intros o batch key i Ho. unfold Connect.connect_with_tls_options, Connect.new_channel, new_endpoint. rewrite Hw. cbn [negb]. rewrite Hu. unfold channel. cbn [p_uri p_tls]. rewrite Hs, Ho. destruct (decide _) as [E'|E']; [rewrite E'; now rewrite (proj2 (Hr i _) eq_refl)|]. destruct (reached i _) eqn:Er; [|reflexivity]. apply Hr in Er. congruence. }
    split.
    - unfold Connect.client_connect. rewrite fold_left_app. cbn [fold_left set s_ca s_batch s_key]. eexists. unfold Connect.connect. rewrite Hf. destruct (max_attempts - 1)%nat; cbn [attempt]; rewrite Hc by reflexivity; (rewrite decide_True by reflexivity); (split; [reflexivity|]); reflexivity.
    - intros Hno n c H. unfold Connect.client_connect in H. destruct (attempts _ _ _ _ _ _ _ _ H ltac:(discriminate)) as (_ & H2 & _). rewrite Hc in H2 by reflexivity. destruct (decide _) as [E|]; [|discriminate]. cbn [o_ca_pem] in E. clear H H2.
      assert (Hin : forall q, s_ca (fold_left set cs (Settings None None None)) = Some q -> CaPath q ∈ cs).
      { clear -cs. induction cs as [|c cs IH] using rev_ind; [discriminate|]. intros q. rewrite fold_left_app. cbn [fold_left]. destruct c; cbn [set s_ca]; intros E; apply elem_of_app; [injection E as ->; right; now left|left; auto..]. }
      destruct (s_ca _) as [q|] eqn:Eq; [|discriminate]. exact (Hno q (Hin q eq_refl) E).
  Qed.
End props.

(** But grpcs is no alias of https where no options for TLS are given: such an address is never connected to. *)
Theorem grpcs_alias_refuted : exists rest, forall well_formed usable batch key reached,
  connect_with_tls_options well_formed usable (text "grpcs://" ++ rest) None batch key reached = Err ETransport /\
  (well_formed (text "https://" ++ rest) = true -> usable (TlsConfig None None) = true -> connect_with_tls_options well_formed usable (text "https://" ++ rest) None batch key (fun _ => true) = Ok (Cl true batch true key)).
Proof.
  exists (text "localhost:50051"). intros wf us batch key reached. unfold connect_with_tls_options, new_channel, new_endpoint.
  change (alias (text "grpcs://" ++ text "localhost:50051")) with (text "https://localhost:50051"). change (alias (text "https://" ++ text "localhost:50051")) with (text "https://localhost:50051").
  change (text "https://" ++ text "localhost:50051") with (text "https://localhost:50051").
  split; [destruct (wf (text "https://localhost:50051")); reflexivity|]. intros -> Hu. change (starts_with (text "https://") (text "https://localhost:50051")) with true. cbn [negb]. rewrite Hu. reflexivity.
Qed.
(** An address whose scheme is in capitals is connected to with TLS, and the client refuses to send its key for want of TLS. *)
Theorem capital_scheme_refuted : exists url, forall well_formed usable reached k md, well_formed url = true -> usable (TlsConfig None None) = true -> reached 0%nat (Some (TlsConfig None None)) = true ->
  exists c, client_connect well_formed usable (fun _ => None) url [ApiKey k] reached = (1%nat, Ok c) /\ c_encrypted c = true /\ send_auth c md = Err ETransport.
Proof.
  exists (text "HTTPS://localhost:50051"). intros wf us reached k md Hw Hu Hr. exists (Cl true None false (Some k)). split; [|split; reflexivity].
  unfold client_connect, connect. cbn [fold_left set s_ca s_batch s_key]. unfold max_attempts. cbn [Nat.sub attempt]. unfold connect_with_tls_options at 1, new_channel, new_endpoint. change (alias (text "HTTPS://localhost:50051")) with (text "HTTPS://localhost:50051").
  rewrite Hw. cbn [negb o_domain o_ca_pem]. rewrite Hu. unfold channel. cbn [p_uri p_tls]. rewrite Hr. reflexivity.
Qed.
(** A certificate that cannot be read does not make connecting fail but panic. *)
Theorem connect_panics_refuted : exists p, forall well_formed usable url reached, client_connect well_formed usable (fun _ => None) url [CaPath p] reached = (0%nat, Err Panic).
Proof. exists (text "missing.pem"). reflexivity. Qed.

Example connect_example : client_connect (fun _ => true) (fun _ => true) (fun _ => Some [1]) (text "grpcs://localhost:50051") [ApiKey [107]; CaPath [112]; BatchSize 5] (fun i c => (3 <=? i)%nat && match c with Some (TlsConfig _ (Some [1])) => true | _ => false end) = (4%nat, Ok (Cl true (Some 5) true (Some [107]))) /\
  (exists md, send_auth (Cl true (Some 5) true (Some [107])) [] = Ok md) /\
  client_connect (fun _ => true) (fun _ => true) (fun _ => None) (text "http://localhost:50051") [] (fun i c => false) = (50%nat, Err ETransport).
Proof. split; [vm_compute; reflexivity|]. split; [eexists; reflexivity|vm_compute; reflexivity]. Qed.
Print Assumptions key_only_encrypted.
Print Assumptions secure_address.
Print Assumptions clear_address.
Print Assumptions grpcs_is_https.
Print Assumptions attempts.
Print Assumptions settings_kept.
Print Assumptions own_certificate.
Print Assumptions grpcs_alias_refuted.
Print Assumptions capital_scheme_refuted.
Print Assumptions connect_panics_refuted.
