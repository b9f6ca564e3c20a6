(** What a Python program gets: C73, C74, C75. *)
From Coq Require Import Strings.String.
From Verif Require Import AppendProofs ClientProofs PropsWire PropsClient Python.
Local Open Scope N_scope.

(** ** C73: iteration in Python *)
Definition pybrings (x : pyanswer) : list seq_event := match x with PYield e => [e] | PList l => l | PAllIs l _ => l | _ => [] end.
Definition pysays_end (x : pyanswer) : Prop := match x with PStop => True | PList [] => True | PAllIs _ _ => True | _ => False end.
Definition pycancels (c : pycall) : bool := match c with PCancel | PClose | PCancelAll => true | _ => false end.
(* no signal handler raises an exception during the call *)
Definition quiet (c : pycall) : Prop := match c with PNext ps | PBatch ps => Forall (fun p => sig p = false) ps | _ => True end.
(** What may be answered to call [c] of a program that got the events [del] so far; as [allowed] for Rust programs, but no
    call ever ends with a timeout, and errors are exceptions. *)
Record py_allowed (out : list (list seq_event * option N)) (fin : option status) (del : list seq_event) (exc can : Prop) (x : pyanswer) : Prop := PyAllowed {
  pa_prefix : (del ++ pybrings x) `prefix_of` events_of out;
  pa_end : pysays_end x -> exc \/ del ++ pybrings x = events_of out /\ fin = None;
  pa_raise : forall e, x = PRaise e -> e = PyCancelled /\ can \/ exists st, fin = Some st /\ e = dcb_error_to_py_err (status_kind st);
  pa_head : forall h, x = PHeadIs h -> h = None /\ (exc \/ out = []) \/ exists o, o ∈ out /\ h = o.2;
  pa_all : forall l h, x = PAllIs l h -> exc \/ h = default None (snd <$> last out) }.

Lemma status_not_timeout st : status_kind st <> ETimeout.
Proof.
  unfold status_kind, dcb_error_from_status. destruct (if 0 <? nlen (st_details st) then _ else None) as [[m t]|].
  - repeat (match goal with |- context [if ?b then _ else _] => destruct b end; [discriminate|]). discriminate.
  - destruct (st_code st); discriminate.
Qed.
Section python.
Context (out : list (list seq_event * option N)) (fin : option status) (Hb : batches_ok out fin).
Notation ok := (ok_eng out fin).
Definition stops (sub : bool) (c : pycall) : Prop := sub = false /\ c = PCancel.
Definition py_exc (sub : bool) (exc : Prop) (c : pycall) (x : pyanswer) : Prop := exc \/ stops sub c \/ exists e, x = PRaise e.
Definition py_can (can : Prop) (c : pycall) : Prop := can \/ pycancels c = true.
Notation do sub := (if sub : bool then subscription_call else read_call).

(* one answer of the synchronous client becomes one of Python's *)
Definition as_python (y : answer) : pyanswer :=
  match y with
  | AItem (Some (Ok e)) => PYield e | AItem None => PStop | AItem (Some (Err e)) => PRaise (dcb_error_to_py_err e)
  | ABatch x => py_result PList x | AHead x => py_result PHeadIs x | AAll x => py_result (fun lh => PAllIs lh.1 lh.2) x | AUnit => PNone
  end.
Lemma as_python_ok del (exc can : Prop) c y : allowed out fin del exc can c y -> ~ says_err y ETimeout -> py_allowed out fin del exc can (as_python y) /\ pybrings (as_python y) = brings y.
Proof.
  intros [A1 A2 A3 A4 A5] Ht. assert (Eb : pybrings (as_python y) = brings y) by (destruct y as [[[e|e]|]|[l|e]|[h|e]|[[l h]|e]|]; reflexivity).
  split; [|exact Eb]. split.
  - now rewrite Eb.
  - intros He. rewrite Eb. apply A2. destruct y as [[[e|e]|]|[l|e]|[h|e]|[[l h]|e]|]; cbn in *; auto.
  - assert (H : forall e, says_err y e -> as_python y = PRaise (dcb_error_to_py_err e) -> forall e', as_python y = PRaise e' -> e' = PyCancelled /\ can \/ exists st, fin = Some st /\ e' = dcb_error_to_py_err (status_kind st)).
    { intros e He E e' E'. rewrite E in E'. injection E' as <-. destruct (A3 e He) as [[-> _]|[[-> Hc]|(st & -> & ->)]]; [contradiction|now left|right; eauto]. }
    intros e' E'. destruct y as [[[e|e]|]|[l|e]|[h|e]|[[l h]|e]|]; try discriminate E'; (eapply (H e); [reflexivity|reflexivity|exact E']).
  - intros h E. destruct y as [[[e|e]|]|[l|e]|[h'|e]|[[l h']|e]|]; try discriminate E. apply A4. cbn in E. congruence.
  - intros l h E. destruct y as [[[e|e]|]|[l'|e]|[h'|e]|[[l' h']|e]|]; try discriminate E. apply (A5 l h). cbn in E. congruence.
Qed.
Lemma not_over_timeout : ~ over fin ETimeout.
Proof. intros [?|(st & _ & H)]; [discriminate|]. symmetry in H. now apply status_not_timeout in H. Qed.
Lemma waits_ok del (exc can : Prop) g : ok del exc can g -> py_allowed out fin del exc can PWaits.
Proof.
  intros H. assert (Hp := good_prefix _ _ _ _ _ _ _ (proj2 H)). split; cbn [pybrings pysays_end]; rewrite ?app_nil_r; try discriminate; try contradiction; auto.
Qed.
(* a call of the synchronous client that did not time out *)
Lemma one_ok sub pc del (exc can : Prop) c g y g' : ok del exc can g -> sync_call c g = (y, g') -> ~ says_err y ETimeout -> (c = CCancel -> stops sub pc) -> (cancels c = true -> pycancels pc = true) ->
  py_allowed out fin del exc can (as_python y) /\ ok (del ++ pybrings (as_python y)) (py_exc sub exc pc (as_python y)) (py_can can pc) g'.
Proof.
  intros Hok Ec Ht Hs Hc. destruct (ClientProofs.sync_step out fin Hb _ _ _ _ _ _ _ Hok Ec) as [Ha Hok']. destruct (as_python_ok _ _ _ _ _ Ha Ht) as [H1 ->]. split; [exact H1|].
  eapply ok_mono; [| |exact Hok'].
  - unfold exc_after, sync_cuts, py_exc. intros [?|[?|(e & He & _)]]; auto. right; right. destruct y as [[[e'|e']|]|[l|e']|[h|e']|[[l h]|e']|]; try contradiction; eexists; reflexivity.
  - unfold can_after, py_can. intros [?|?]; auto.
Qed.
Lemma timeout_ok del (exc can : Prop) c g y g' : ok del exc can g -> sync_call c g = (y, g') -> says_err y ETimeout -> c <> CCancel -> cancels c = false -> ok del exc can g'.
Proof.
  intros Hok Ec Ht Hs Hc. destruct (ClientProofs.sync_step out fin Hb _ _ _ _ _ _ _ Hok Ec) as [_ Hok'].
  assert (Eb : brings y = []) by (destruct y as [[[e'|e']|]|[l|e']|[h|e']|[[l h]|e']|]; try contradiction; reflexivity). rewrite Eb, app_nil_r in Hok'.
  eapply ok_mono; [| |exact Hok'].
  - unfold exc_after, sync_cuts. intros [?|[?|(e & He & Ho)]]; [auto|contradiction|]. exfalso. assert (e = ETimeout) as ->; [|now apply not_over_timeout].
    destruct y as [[[e'|e']|]|[l|e']|[h|e']|[[l h]|e']|]; try contradiction; cbn in *; congruence.
  - unfold can_after. intros [?|?]; congruence.
Qed.
Lemma next_ok sub ps : forall del (exc can : Prop) g x g', ok del exc can g -> Forall (fun p => sig p = false) ps -> py_next ps g = (x, g') ->
  py_allowed out fin del exc can x /\ ok (del ++ pybrings x) (py_exc sub exc (PNext ps) x) (py_can can (PNext ps)) g'.
Proof.
  induction ps as [|p ps IH]; intros del exc can g x g' Hok Hq; cbn [py_next].
  - intros [= <- <-]. split; [eapply waits_ok; exact Hok|]. cbn [pybrings]. rewrite app_nil_r. eapply ok_mono; [| |exact Hok]; unfold py_exc, py_can; auto.
  - inversion Hq as [|? ? Hp Hq']; subst. destruct (next_item_timeout (late p) g) as [y g1] eqn:En. rewrite Hp. 
    assert (Ec : sync_call (CNextTimeout (late p)) g = (AItem y, g1)) by (cbn [sync_call]; now rewrite En).
    assert (Hone : ~ says_err (AItem y) ETimeout -> py_allowed out fin del exc can (as_python (AItem y)) /\
      ok (del ++ pybrings (as_python (AItem y))) (py_exc sub exc (PNext (p :: ps)) (as_python (AItem y))) (py_can can (PNext (p :: ps))) g1)
      by (intros Ht; eapply one_ok; [exact Hok|exact Ec|exact Ht|discriminate|discriminate]).
    assert (Hwait : says_err (AItem y) ETimeout -> py_next ps g1 = (x, g') -> py_allowed out fin del exc can x /\ ok (del ++ pybrings x) (py_exc sub exc (PNext (p :: ps)) x) (py_can can (PNext (p :: ps))) g').
    { intros Ht E. assert (H1 : ok del exc can g1) by (eapply timeout_ok; [exact Hok|exact Ec|exact Ht|discriminate|reflexivity]).
      destruct (IH _ _ _ _ _ _ H1 Hq' E) as [H2 H3]. split; [exact H2|]. eapply ok_mono; [| |exact H3]; unfold py_exc, py_can, stops; intuition discriminate. }
    destruct y as [[e|e]|].
    + intros [= <- <-]. apply Hone. intros [].
    + destruct (decide (e = ETimeout)) as [->|Hne]; [now apply Hwait|]. intros E. assert (E' : (PRaise (dcb_error_to_py_err e), g1) = (x, g')) by (destruct e; (congruence || exact E)).
      injection E' as <- <-. now apply Hone.
    + intros [= <- <-]. apply Hone. intros [].
Qed.
Lemma sub_batch_ok ps : forall del (exc can : Prop) g x g', ok del exc can g -> Forall (fun p => sig p = false) ps -> py_sub_batch ps g = (x, g') ->
  py_allowed out fin del exc can x /\ ok (del ++ pybrings x) (py_exc true exc (PBatch ps) x) (py_can can (PBatch ps)) g'.
Proof.
  induction ps as [|p ps IH]; intros del exc can g x g' Hok Hq; cbn [py_sub_batch].
  - intros [= <- <-]. split; [eapply waits_ok; exact Hok|]. cbn [pybrings]. rewrite app_nil_r. eapply ok_mono; [| |exact Hok]; unfold py_exc, py_can; auto.
  - inversion Hq as [|? ? Hp Hq']; subst. destruct (engine_next_batch (late p) g) as [y g1] eqn:En. rewrite Hp.
    assert (Ec : sync_call (CBatchTimeout (late p)) g = (ABatch y, g1)) by (cbn [sync_call]; now rewrite En).
    assert (Hone : ~ says_err (ABatch y) ETimeout -> py_allowed out fin del exc can (as_python (ABatch y)) /\
      ok (del ++ pybrings (as_python (ABatch y))) (py_exc true exc (PBatch (p :: ps)) (as_python (ABatch y))) (py_can can (PBatch (p :: ps))) g1)
      by (intros Ht; eapply one_ok; [exact Hok|exact Ec|exact Ht|discriminate|discriminate]).
    assert (Hwait : says_err (ABatch y) ETimeout -> py_sub_batch ps g1 = (x, g') -> py_allowed out fin del exc can x /\ ok (del ++ pybrings x) (py_exc true exc (PBatch (p :: ps)) x) (py_can can (PBatch (p :: ps))) g').
    { intros Ht E. assert (H1 : ok del exc can g1) by (eapply timeout_ok; [exact Hok|exact Ec|exact Ht|discriminate|reflexivity]).
      destruct (IH _ _ _ _ _ _ H1 Hq' E) as [H2 H3]. split; [exact H2|]. eapply ok_mono; [| |exact H3]; unfold py_exc, py_can, stops; intuition discriminate. }
    destruct y as [l|e].
    + intros [= <- <-]. apply Hone. auto.
    + destruct (decide (e = ETimeout)) as [->|Hne]; [now apply Hwait|]. intros E. assert (E' : (PRaise (dcb_error_to_py_err e), g1) = (x, g')) by (destruct e; (congruence || exact E)).
      injection E' as <- <-. now apply Hone.
Qed.
Lemma never_late c g y g' : sync_call c g = (y, g') -> ok [] True True g \/ True -> match c with CBatch | CHead | CCollect => True | _ => False end -> forall del (exc can : Prop), ok del exc can g -> ~ says_err y ETimeout.
Proof.
  intros E _ Hc del exc can Hok Ht. destruct (ClientProofs.sync_step out fin Hb _ _ _ _ _ _ _ Hok E) as [[_ _ A3 _ _] _].
  destruct (A3 ETimeout Ht) as [[_ Hg]|[[? _]|(st & _ & H)]]; [destruct c; contradiction|discriminate|]. symmetry in H. now apply status_not_timeout in H.
Qed.
(* subscriptions have no head() and no collect_with_head() *)
Definition has_method (sub : bool) (c : pycall) : Prop := match c with PHead | PCollect => sub = false | _ => True end.
Lemma py_step sub del (exc can : Prop) c g x g' : ok del exc can g -> quiet c -> has_method sub c -> do sub c g = (x, g') ->
  py_allowed out fin del exc can x /\ ok (del ++ pybrings x) (py_exc sub exc c x) (py_can can c) g'.
Proof.
  intros Hok Hq Hm E.
  assert (Hplain : forall c1 y, sync_call c1 g = (y, g') -> as_python y = x -> match c1 with CBatch | CHead | CCollect => True | _ => False end -> py_allowed out fin del exc can x /\ ok (del ++ pybrings x) (py_exc sub exc c x) (py_can can c) g').
  { intros c1 y E1 <- Hc. assert (Ht := never_late _ _ _ _ E1 (or_intror I) Hc _ _ _ Hok). eapply one_ok; [exact Hok|exact E1|exact Ht| |]; destruct c1; (contradiction || discriminate). }
  assert (Hcancel : forall c1, sync_call c1 g = (AUnit, g') -> x = PNone -> (c1 = CCancel -> stops sub c) -> pycancels c = true -> py_allowed out fin del exc can x /\ ok (del ++ pybrings x) (py_exc sub exc c x) (py_can can c) g').
  { intros c1 E1 -> H1 H2. change PNone with (as_python AUnit). eapply one_ok; [exact Hok|exact E1|auto|exact H1|auto]. }
  destruct sub; destruct c as [ps|ps| | | | |]; cbn [read_call subscription_call] in E; try discriminate Hm.
  - now apply (next_ok _ ps _ _ _ g).
  - now apply (sub_batch_ok ps _ _ _ g).
  - injection E as <- <-. apply (Hcancel CHandle); try reflexivity. discriminate.
  - injection E as <- <-. apply (Hcancel CHandle); try reflexivity. discriminate.
  - injection E as <- <-. apply (Hcancel CCancelAll); try reflexivity. discriminate.
  - now apply (next_ok _ ps _ _ _ g).
  - destruct (engine_next_batch false g) as [y g1] eqn:En. injection E as <- <-. apply (Hplain CBatch (ABatch y)); [cbn [sync_call]; now rewrite En|reflexivity|exact I].
  - destruct (engine_head g) as [y g1] eqn:En. injection E as <- <-. apply (Hplain CHead (AHead y)); [cbn [sync_call]; now rewrite En|reflexivity|exact I].
  - destruct (collect_with_head g) as [y g1] eqn:En. injection E as <- <-. apply (Hplain CCollect (AAll y)); [cbn [sync_call]; now rewrite En|reflexivity|exact I].
  - injection E as <- <-. apply (Hcancel CCancel); try reflexivity. unfold stops. auto.
  - injection E as <- <-. apply (Hcancel CHandle); try reflexivity. discriminate.
  - injection E as <- <-. apply (Hcancel CCancelAll); try reflexivity. discriminate.
Qed.
Lemma pycalls_ok sub cs : forall del (exc can : Prop) g xs g', ok del exc can g -> Forall quiet cs -> Forall (has_method sub) cs -> pycalls (do sub) cs g = (xs, g') ->
  length xs = length cs /\ forall i c x, cs !! i = Some c -> xs !! i = Some x ->
    py_allowed out fin (del ++ concat (map pybrings (take i xs)))
      (exc \/ (exists e, PRaise e ∈ take i xs) \/ exists c', c' ∈ take i cs /\ stops sub c') (can \/ exists c', c' ∈ take i cs /\ pycancels c' = true) x.
Proof.
  induction cs as [|c cs IH]; intros del exc can g xs g' Hok Hq Hm E; cbn [pycalls] in E.
  { injection E as <- _. split; [reflexivity|]. intros i c x Hi. discriminate Hi. }
  inversion Hq as [|? ? Hq1 Hq2]; subst. inversion Hm as [|? ? Hm1 Hm2]; subst.
  destruct (do sub c g) as [x g1] eqn:Ed. destruct (pycalls (do sub) cs g1) as [xs1 g2] eqn:Ec. injection E as <- <-.
  destruct (py_step sub _ _ _ _ _ _ _ Hok Hq1 Hm1 Ed) as [Ha Hok1]. destruct (IH _ _ _ _ _ _ Hok1 Hq2 Hm2 Ec) as [Hl Hall]. split; [cbn; congruence|].
  assert (Hmono : forall del (e1 c1 e2 c2 : Prop) y, (e1 -> e2) -> (c1 -> c2) -> py_allowed out fin del e1 c1 y -> py_allowed out fin del e2 c2 y).
  { intros d e1 c1 e2 c2 y He Hc [B1 B2 B3 B4 B5]. split; [exact B1|intros H; destruct (B2 H); auto|intros e H; destruct (B3 e H) as [[? ?]|?]; auto|
      intros h H; destruct (B4 h H) as [[? [?|?]]|?]; auto|intros l h H; destruct (B5 l h H); auto]. }
  intros [|i] c' x' Hci Hxi; cbn in Hci, Hxi.
  - injection Hci as <-. injection Hxi as <-. cbn [take map concat]. rewrite app_nil_r. eapply Hmono; [| |exact Ha]; auto.
  - cbn [take map concat]. specialize (Hall i c' x' Hci Hxi). rewrite <- app_assoc in Hall. eapply Hmono; [| |exact Hall].
    + unfold py_exc. intros [[?|[?|(e & ->)]]|[(e & He)|(c2 & H1 & H2)]]; auto.
      * right; right. exists c. split; [left|assumption].
      * right; left. exists e. left.
      * right; left. exists e. now right.
      * right; right. exists c2. split; [now right|assumption].
    + unfold py_can. intros [[?|?]|(c2 & H1 & H2)]; auto; right; [exists c; split; [left|assumption]|exists c2; split; [now right|assumption]].
Qed.
End python.

(** As long as no signal handler raises an exception, the answers a program gets, whatever it calls and in whatever order, are
    right: the events are those of the stream, each once and in order; the end is announced when all have been handed out, unless the
    program was told of an error or cancelled the response; exceptions other than that come from the server, and none says that
    100 ms are over. *)
Theorem python_stream_exact_partial sub out fin s cs xs g : batches_ok out fin -> stream_of out fin s -> Forall quiet cs -> Forall (has_method sub) cs ->
  pycalls (if sub then subscription_call else read_call) cs (new_eng s) = (xs, g) ->
  length xs = length cs /\ forall i c x, cs !! i = Some c -> xs !! i = Some x ->
    py_allowed out fin (concat (map pybrings (take i xs))) ((exists e, PRaise e ∈ take i xs) \/ sub = false /\ PCancel ∈ take i cs) (exists c', c' ∈ take i cs /\ pycancels c' = true) x.
Proof.
  intros Hb Hs Hq Hm E. destruct (pycalls_ok out fin Hb sub cs [] False False (new_eng s) xs g (new_ok out fin s Hs) Hq Hm E) as [Hl H]. split; [exact Hl|].
  intros i c x Hi Hx. destruct (H i c x Hi Hx) as [B1 B2 B3 B4 B5]. cbn [app] in *.
  assert (He : False \/ (exists e, PRaise e ∈ take i xs) \/ (exists c', c' ∈ take i cs /\ stops sub c') -> (exists e, PRaise e ∈ take i xs) \/ sub = false /\ PCancel ∈ take i cs).
  { intros [[]|[?|(c' & H1 & H2 & ->)]]; auto. }
  split; [exact B1|intros H'; destruct (B2 H'); auto|intros e H'; destruct (B3 e H') as [[? [[]|?]]|?]; auto|intros h H'; destruct (B4 h H') as [[? [?|?]]|?]; auto|intros l h H'; destruct (B5 l h H'); auto].
Qed.
(** A for loop over the response to a read in which nothing comes in time twice; the whole answer arrives. *)
Definition soon : poll := Poll false false.
Definition not_yet : poll := Poll true false.
Example python_stream_example : let '(xs, _) := pycalls read_call [PNext [soon]; PHead; PNext [soon]; PNext [not_yet; not_yet; soon]; PNext [soon]] (new_eng c_stream) in
  xs = [PYield (c_event 1); PHeadIs (Some 3); PYield (c_event 2); PYield (c_event 3); PStop].
Proof. vm_compute. reflexivity. Qed.
Example python_subscription_example : let '(xs, _) := pycalls subscription_call [PBatch [not_yet; soon]; PNext [not_yet]; PNext [soon]; PClose; PNext [soon]] (new_eng c_stream) in
  xs = [PList [c_event 1; c_event 2]; PWaits; PYield (c_event 3); PNone; PRaise PyCancelled].
Proof. vm_compute. reflexivity. Qed.

(** In general it is false: a signal that arrives while an event is fetched, and whose handler raises an exception (an alarm, say,
    to limit the time), makes the event disappear.  Both for loops and batches go on with what comes after it, to the end. *)
Definition struck : poll := Poll false true.
Theorem python_stream_exact_refuted : exists out s, batches_ok out None /\ stream_of out None s /\ events_of out = [c_event 1; c_event 2; c_event 3] /\
  (pycalls read_call [PNext [struck]; PNext [soon]; PNext [soon]; PNext [soon]] (new_eng s)).1 = [PRaise PySignal; PYield (c_event 2); PYield (c_event 3); PStop] /\
  (pycalls subscription_call [PBatch [struck]; PBatch [soon]] (new_eng s)).1 = [PRaise PySignal; PList [c_event 3]].
Proof. destruct stream_example as (H1 & H2 & _). exists c_out, c_stream. split; [exact H1|]. split; [exact H2|]. vm_compute. repeat split. Qed.

(** ** C74: exceptions *)
(** What the server refuses is raised as what it is: *)
Theorem python_exceptions e : utf8_ok (e_text e) = true -> nlen (e_text e) < U32 ->
  let x := dcb_error_to_py_err (e_kind (dcb_error_from_status (status_from_dcb_error e))) in
  (catches KIntegrityError x = true <-> e_kind e = EIntegrity) /\ (catches KAuthenticationError x = true <-> e_kind e = EAuth) /\
  (catches KCorruptionError x = true <-> e_kind e ∈ [ECorruption; EDatabaseCorrupted; EDeserialization]) /\
  (catches KValueError x = true <-> e_kind e ∈ [EIntegrity; EInvalidArgument]) /\ catches KException x = true.
Proof.
  intros H1 H2. cbn zeta. rewrite error_kind_kept by assumption. rewrite !elem_of_cons, !elem_of_nil.
  destruct (e_kind e); cbn; intuition (try discriminate; auto).
Qed.
(** Handlers written for Python's own classes catch these errors too (umadb-python/src/lib.rs:15-20): *)
Theorem python_bases x : (catches KIntegrityError x = true -> catches KValueError x = true) /\ (catches KTransportError x = true -> catches KRuntimeError x = true) /\
  (catches KCorruptionError x = true -> catches KRuntimeError x = true) /\ (catches KAuthenticationError x = true -> catches KOSError x = true).
Proof. destruct x; repeat split; vm_compute; intros; (discriminate || reflexivity). Qed.
Example python_bases_example : catches KCorruptionError (dcb_error_to_py_err ECorruption) = true /\ catches KTransportError (dcb_error_to_py_err ETransport) = true.
Proof. split; reflexivity. Qed.
(** Documented (umadb-python/README.md:459-470): "Transport/connection errors: TransportError", "Other internal errors: RuntimeError or
    OSError".  False: a connection that breaks (tonic's status Unavailable, without details) and an internal error of the server are
    plain exceptions. *)
Theorem python_exceptions_documented_refuted : exists lost internal, status_kind lost = EIo /\ internal = Error EInternal (text "x") /\
  (forall k, catches k (dcb_error_to_py_err (status_kind lost)) = true -> k = KException) /\
  (forall k, catches k (dcb_error_to_py_err (e_kind (dcb_error_from_status (status_from_dcb_error internal)))) = true -> k = KException).
Proof.
  exists (Status COther (text "connection reset") []), (Error EInternal (text "x")). repeat split; intros k; destruct k; vm_compute; (discriminate || reflexivity).
Qed.

(** Cancelling: "After calling cancel(), iterating over this response (or calling next_batch()) will raise a CancelledByUserError"
    (umadb-python/src/lib.rs:363-368, 448-453).  False: iterating over the response to a read goes on with the events that have
    arrived and then just ends, as after a complete answer; of a subscription, the batch that has arrived is handed out. *)
Theorem python_cancel_documented_refuted : exists out s, batches_ok out None /\ stream_of out None s /\
  (pycalls read_call [PNext [soon]; PCancel; PNext [soon]; PNext [soon]] (new_eng s)).1 = [PYield (c_event 1); PNone; PYield (c_event 2); PStop] /\
  (pycalls subscription_call [PNext [soon]; PCancel; PBatch [soon]; PBatch [soon]] (new_eng s)).1 = [PYield (c_event 1); PNone; PList [c_event 2]; PRaise PyCancelled].
Proof. destruct stream_example as (H1 & H2 & _). exists c_out, c_stream. split; [exact H1|]. split; [exact H2|]. vm_compute. repeat split. Qed.
(** But with close(), or cancel() of a subscription, the next step of an iteration raises it, unless the end was reached before. *)
Theorem python_cancel_raises c g p : c = PClose \/ c = PCancelAll -> g_fin g = false ->
  (py_next [p] (read_call c g).2).1 = PRaise (if sig p then PySignal else PyCancelled).
Proof.
  intros Hc Hf. destruct g as [f b a]. cbn in Hf. subst f. destruct Hc as [-> | ->]; cbn [read_call snd py_next]; unfold next_item_timeout, engine_cancel, engine_cancel_all, evaluate_shutdown, ar_cancel, ar_cancel_all;
    cbn [g_fin g_resp a_global a_local]; rewrite ?orb_true_r, ?orb_true_l; destruct (sig p); reflexivity.
Qed.
Example python_cancel_example : g_fin (pycalls read_call [PNext [soon]] (new_eng c_stream)).2 = false.
Proof. vm_compute. reflexivity. Qed.

(** ** C75: metadata is a dict *)
(** The metadata of an event made from a dict is never refused for a key that occurs twice, and is the same dict when it is read. *)
Theorem python_metadata (horder : gmap bytes bytes -> list (bytes * bytes)) d : (forall d, horder d ≡ₚ map_to_list d) ->
  has_duplicate_key (event_metadata horder d) = false /\ metadata_dict (event_metadata horder d) = d.
Proof.
  intros Hh. unfold event_metadata. assert (Hn : NoDup (map fst (horder d))) by (rewrite Hh; apply NoDup_fst_map_to_list).
  split; [now apply has_dup_ok|]. rewrite <- (list_to_map_to_list d) at 2. rewrite <- (list_to_map_proper (horder d)); [|exact Hn|apply Hh].
  assert (H : forall (l : list (bytes * bytes)) (m : gmap bytes bytes), NoDup (l.*1) -> (forall k, k ∈ l.*1 -> m !! k = None) -> fold_left (fun d kv => <[kv.1 := kv.2]> d) l m = list_to_map l ∪ m).
  { clear. induction l as [|[k v] l IH]; intros m Hn Hm; cbn [fold_left fmap list_fmap fst snd list_to_map foldr]; [now rewrite (left_id_L ∅ (∪))|].
    inversion Hn as [|? ? Hk Hn']; subst. rewrite IH.
    - rewrite <- insert_union_r; [now rewrite insert_union_l|]. now apply not_elem_of_list_to_map_1.
    - exact Hn'.
    - intros k' Hk'. rewrite lookup_insert_ne by (intros ->; contradiction). apply Hm. now right. }
  unfold metadata_dict. rewrite H; [apply (right_id_L ∅ (∪))|exact Hn|]. intros k _. apply lookup_empty.
Qed.
Example python_metadata_example : map_to_list (metadata_dict [([108], [2]); ([107], [1])]) ≡ₚ [([107], [1]); ([108], [2])] /\ map_to_list (metadata_dict [([107], [1]); ([107], [2])]) = [([107], [2])].
Proof. split; vm_compute; [apply perm_swap || reflexivity|reflexivity]. Qed.

Print Assumptions python_stream_exact_partial.
Print Assumptions python_stream_exact_refuted.
Print Assumptions python_exceptions.
Print Assumptions python_bases.
Print Assumptions python_exceptions_documented_refuted.
Print Assumptions python_cancel_documented_refuted.
Print Assumptions python_cancel_raises.
Print Assumptions python_metadata.
