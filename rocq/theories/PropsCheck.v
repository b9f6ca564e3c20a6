(** C59-C61: the tool umadb-check (Check.v), run on a database no process has open. *)
From Verif Require Import PropsPage Walk WalkProofs MvccProofs SpecProofs StoreProofs Exec PropsStore PropsPages PropsFindings PropsCrash.
From Verif Require Export Check.
Local Open Scope N_scope.

(** ** The history, 1024 events at a time *)
Lemma read_from h k n : gapless h -> 1 <= k -> spec_read h [] (Some k) false (Some n) = take (N.to_nat n) (drop (N.to_nat (k - 1)) h).
Proof.
  intros Hg Hk. unfold spec_read. cbn [cut]. f_equal. unfold gapless in Hg.
  assert (G : forall h a, map fst h = seqN a (length h) -> a <= k -> filter (fun e : seq_event => Spec.in_range (Some k) false e.1 /\ q_matches [] e.2) h = drop (N.to_nat (k - a)) h).
  { clear h Hg Hk. induction h as [|e h IH]; intros a E Ha; [now rewrite drop_nil|]. cbn in E. injection E as E1 E2. destruct (N.eq_dec a k) as [->|Hne].
    - replace (N.to_nat (k - k)) with 0%nat by lia. cbn [drop]. cut (forall x, x ∈ e :: h -> Spec.in_range (Some k) false x.1 /\ q_matches [] x.2).
      + intros Hx. clear -Hx. induction (e :: h) as [|x l IHl]; [reflexivity|]. rewrite filter_cons_True by (apply Hx; left). f_equal. apply IHl. intros y Hy. apply Hx. now right.
      + intros x Hx. split; [|now left]. cbn. apply elem_of_cons in Hx as [->|Hx]; [lia|]. assert (Hin : x.1 ∈ map fst h) by (apply elem_of_list_fmap; eauto).
        rewrite E2 in Hin. apply elem_of_seqN in Hin. lia.
    - rewrite filter_cons_False by (cbn; intros [Hr _]; lia). rewrite (IH (a + 1) E2) by lia. replace (N.to_nat (k - a)) with (S (N.to_nat (k - (a + 1)))) by lia. reflexivity. }
  now apply G.
Qed.
Lemma gapless_at h i e : gapless h -> h !! i = Some e -> e.1 = N.of_nat i + 1.
Proof.
  intros Hg He. assert (E : map fst h !! i = Some e.1) by (change map with (@fmap list _); rewrite list_lookup_fmap, He; reflexivity). rewrite Hg, seqN_at in E by (now apply lookup_lt_Some in He). injection E as E. lia.
Qed.
Lemma gapless_last h : gapless h -> from_option fst 0 (last h) = nlen h.
Proof.
  intros Hg. destruct (last h) as [e|] eqn:El.
  - rewrite last_lookup in El. cbn. rewrite (gapless_at _ _ _ Hg El). apply lookup_lt_Some in El. unfold nlen. lia.
  - apply last_None in El as ->. reflexivity.
Qed.

Section props.
  Context (ps : N) (hash : bytes -> bytes) (order : list bytes -> list bytes) (ford : gset N -> list N) (caching : bool).
  Context (Hps : ps_ok ps) (Hps32 : ps < U32) (Hord : forall l t, t ∈ order l <-> t ∈ l) (Hford : forall s, ford s ≡ₚ elements s).
  Notation run := (run ps hash order ford caching).
  Notation shows := (shows hash order).
  Notation check := (check 16 ps hash order).

  Lemma scan_all d h hist : gapless hist ->
    (forall start bw limit, check_read 16 hash order d h start bw limit = Ok (spec_read hist [] start bw (Some limit))) ->
    forall k evs r, 1 <= k -> scan 16 hash order d h k evs r -> evs = drop (N.to_nat (k - 1)) hist /\ r = None.
  Proof.
    intros Hg Hr k evs r Hk H. revert Hk. induction H as [k H|k evs e evs' r H Hl H' IH|k e H]; intros Hk; rewrite Hr in H.
    - rewrite read_from in H by assumption. split; [|reflexivity]. destruct (drop _ hist) as [|x l] eqn:E; [reflexivity|]. exfalso. clear -H. assert (E : forall m, (0 < m)%nat -> Ok (take m (x :: l)) = Ok [] -> False) by (intros [|m] Hm [=]; lia).
      apply (E (N.to_nat 1024)); [lia|exact H].
    - rewrite read_from in H by assumption. assert (H0 : forall a b : list seq_event, Ok a = Ok b -> a = b) by (intros a b [=]; assumption). apply H0 in H. clear H0. set (D := drop (N.to_nat (k - 1)) hist) in *. subst evs.
      assert (He : e.1 = k - 1 + N.of_nat (length (take (N.to_nat 1024) D))).
      { rewrite last_lookup in Hl. assert (length (take (N.to_nat 1024) D) <> 0)%nat as Hn by (intros E0; apply lookup_lt_Some in Hl; lia).
        rewrite lookup_take in Hl by (rewrite take_length in *; lia). unfold D in Hl. rewrite lookup_drop in Hl. rewrite (gapless_at _ _ _ Hg Hl). fold D. lia. }
      destruct (IH ltac:(lia)) as [-> ->]. split; [|reflexivity]. rewrite <- (take_drop (N.to_nat 1024) D) at 2. f_equal.
      unfold D. rewrite drop_drop. fold D. rewrite He, take_length. replace (N.to_nat (k - 1 + N.of_nat (Init.Nat.min (N.to_nat 1024) (length D)) + 1 - 1)) with (N.to_nat (k - 1) + Init.Nat.min (N.to_nat 1024) (length D))%nat by lia.
      destruct (Nat.min_spec (N.to_nat 1024) (length D)) as [[_ ->]|[Hle ->]]; [reflexivity|].
      rewrite !drop_ge; [reflexivity| |]; unfold D in *; rewrite drop_length in *; lia.
    - discriminate.
  Qed.
  (** A file with an end: the scan past the high-water mark ends. *)
  Lemma beyond_ends d m : (forall q, m <= q -> d_cur d q = None) -> forall q, exists l, beyond 16 d q l.
  Proof.
    intros Hm. assert (G : forall n q, m <= q + N.of_nat n -> exists l, beyond 16 d q l).
    { induction n as [|n IH]; intros q Hq; [exists []; apply beyond_end, Hm; lia|]. destruct (d_cur d q) as [b|] eqn:E; [|exists []; now apply beyond_end].
      destruct (zero_page b) eqn:Ez; [exists []; eapply beyond_zero; eassumption|]. destruct (IH (q + 1) ltac:(lia)) as [l Hl]. destruct (page_de 16 b) as [n0|e] eqn:Eb; [exists l; eapply beyond_ok; eassumption|exists (q :: l); eapply beyond_bad; eassumption]. }
    intros q. apply (G (N.to_nat m)). lia.
  Qed.
  Lemma scan_ends d h hist : gapless hist ->
    (forall start bw limit, check_read 16 hash order d h start bw limit = Ok (spec_read hist [] start bw (Some limit))) ->
    forall k, 1 <= k -> exists evs, scan 16 hash order d h k evs None.
  Proof.
    intros Hg Hr. assert (G : forall n k, 1 <= k -> (length hist <= N.to_nat (k - 1) + n)%nat -> exists evs, scan 16 hash order d h k evs None).
    { induction n as [|n IH]; intros k Hk Hn.
      - exists []. apply scan_end. rewrite Hr, read_from by assumption. rewrite drop_ge by lia. now rewrite take_nil.
      - destruct (decide (length hist <= N.to_nat (k - 1))%nat) as [Hle|Hgt]; [exists []; apply scan_end; rewrite Hr, read_from by assumption; rewrite drop_ge by lia; now rewrite take_nil|].
        set (evs := take (N.to_nat 1024) (drop (N.to_nat (k - 1)) hist)). assert (Hlen : (0 < length evs)%nat) by (unfold evs; rewrite take_length, drop_length; lia).
        destruct (last evs) as [e|] eqn:El; [|apply last_None in El; rewrite El in Hlen; cbn in Hlen; lia].
        assert (He : k <= e.1).
        { rewrite last_lookup in El. unfold evs in El. rewrite lookup_take in El by (fold evs; unfold evs in *; rewrite take_length in *; lia). rewrite lookup_drop in El. rewrite (gapless_at _ _ _ Hg El). lia. }
        destruct (IH (e.1 + 1) ltac:(lia) ltac:(lia)) as [evs' H']. exists (evs ++ evs'). eapply scan_more; [rewrite Hr, read_from by assumption; reflexivity|exact El|exact H']. }
    intros k Hk. apply (G (length hist)); [exact Hk|lia].
  Qed.

  Lemma opened_headers d d' p G sy : dinv 16 ps hash d G sy -> open_db 16 ps d = Ok (d', p) -> forall q, q < 2 -> exists n, dec 16 (d_cur d' q) = Ok n.
  Proof.
    intros [Hc Hst (hid & Hs1 & Hs2 & Hs3) Hh Hheld _] Eo. pose proof Hh as [Hsto _].
    assert (exists b, page_ser 16 ps (NHeader (g_hdr G)) = Ok b) as (b & Eb).
    { destruct (page_ser 16 ps (NHeader (g_hdr G))) as [b|] eqn:E; [eauto|]. exfalso. unfold open_db in Eo. pose proof (Hs2 _ (Hc hid)) as E1.
      destruct (page_size_safe 16 ps (NHeader (g_hdr G))) as (b & Eb); [lia|exact (proj1 Hsto)| |congruence].
      unfold page_size_of, PAGE_HEADER_SIZE. cbn [node_size]. assert (header_size (g_hdr G) <= 62) by (unfold header_size; destruct (_ =? _); lia). unfold ps_ok in Hps. lia. }
    pose proof (stored 16 ps Hps32 ltac:(lia) _ _ Hsto Eb) as Hb. pose proof (Hs2 _ (Hc hid)) as E1. unfold open_db in Eo.
    assert (hid = 0 \/ hid = 1) as [-> | ->] by lia; rewrite E1 in Eo.
    - destruct (dec 16 (d_cur d 1)) as [n1|e] eqn:E2; cbn [read_headers rbind] in Eo.
      + repeat (match type of Eo with context [as_header ?n] => destruct (as_header n); [|discriminate]; cbn [rbind] in Eo end). destruct (check_roots _ _ _); [|discriminate]. cbn [rbind] in Eo. injection Eo as <- _.
        intros q Hq. assert (q = 0 \/ q = 1) as [-> | ->] by lia; eauto.
      + rewrite Eb in Eo. cbn [rbind] in Eo. repeat (match type of Eo with context [as_header ?n] => destruct (as_header n); [|discriminate]; cbn [rbind] in Eo end). destruct (check_roots _ _ _); [|discriminate]. cbn [rbind] in Eo. injection Eo as <- _.
        intros q Hq. assert (q = 0 \/ q = 1) as [-> | ->] by lia; cbn; [|exists (NHeader (g_hdr G)); exact Hb]. exists (NHeader (g_hdr G)). exact E1.
    - destruct (dec 16 (d_cur d 0)) as [n1|e] eqn:E2; cbn [read_headers rbind] in Eo.
      + repeat (match type of Eo with context [as_header ?n] => destruct (as_header n); [|discriminate]; cbn [rbind] in Eo end). destruct (check_roots _ _ _); [|discriminate]. cbn [rbind] in Eo. injection Eo as <- _.
        intros q Hq. assert (q = 0 \/ q = 1) as [-> | ->] by lia; eauto.
      + rewrite Eb in Eo. cbn [rbind] in Eo. repeat (match type of Eo with context [as_header ?n] => destruct (as_header n); [|discriminate]; cbn [rbind] in Eo end). destruct (check_roots _ _ _); [|discriminate]. cbn [rbind] in Eo. injection Eo as <- _.
        intros q Hq. assert (q = 0 \/ q = 1) as [-> | ->] by lia; cbn; [exists (NHeader (g_hdr G)); exact Hb|]. exists (NHeader (g_hdr G)). exact E1.
  Qed.

  (** What the tool finds in a file that was only ever written by the store, crashes included. *)
  Lemma check_run tr d : run tr (Sys d None) -> exists d' p st, open_db 16 ps d = Ok (d', p) /\ run (tr ++ [LOpen]) (Sys d' (Some p)) /\ shows (Sys d' (Some p)) st /\ gapless (s_hist st) /\
    (forall q, q < 2 -> exists n, dec 16 (d_cur d' q) = Ok n) /\ h_next_pos (latest p).2 - 1 = nlen (s_hist st) /\ p_cache p = ∅ /\
    forall start bw limit, check_read 16 hash order d' (latest p).2 start bw limit = Ok (spec_read (s_hist st) [] start bw (Some limit)).
  Proof.
    intros H. destruct (run_inv ps hash order ford caching Hps Hps32 Hord Hford _ _ H) as (sy & _ & (G & HG) & _).
    destruct (open_ok 16 ps hash order ford caching Hps Hps32 ltac:(lia) Hord Hford _ _ _ HG) as (d' & p & Eo & Hu). exists d', p.
    assert (Hr : run (tr ++ [LOpen]) (Sys d' (Some p))) by (eapply run_app; [exact H|]; change [LOpen] with ([] ++ [LOpen]); econstructor; [constructor|now constructor]).
    destruct (run_inv ps hash order ford caching Hps Hps32 Hord Hford _ _ Hr) as (sy' & _ & Hi' & Hg').
    pose proof (inv_shows ps hash order ford caching Hps Hps32 Hord Hford _ _ Hi' ltac:(now eexists)) as Hsh. cbn in Hi'. destruct Hi' as (g & Hu').
    exists (sp_cur sy'). split; [exact Eo|]. split; [exact Hr|]. split; [exact Hsh|]. split; [exact (proj1 Hg')|]. split; [exact (opened_headers _ _ _ _ _ HG Eo)|].
    assert (Hc : p_cache p = ∅).
    { unfold open_db in Eo. destruct (read_headers _ _) as [[[n0 n1] fx]|]; [|discriminate]. cbn [rbind] in Eo. destruct (match fx with None => _ | Some _ => _ end) as [d1|]; [|discriminate]. cbn [rbind] in Eo.
      destruct (as_header n0.2); [|discriminate]. cbn [rbind] in Eo. destruct (as_header n1.2); [|discriminate]. cbn [rbind] in Eo. destruct (check_roots _ _ _); [|discriminate]. cbn [rbind] in Eo. now injection Eo as _ <-. }
    split; [rewrite (u_latest _ _ _ _ _ _ _ _ Hu'), (u_pos _ _ _ _ _ _ _ _ Hu' _ (u_in _ _ _ _ _ _ _ _ Hu')), (u_spec _ _ _ _ _ _ _ _ Hu'); lia|]. split; [exact Hc|].
    intros start bw limit. destruct Hsh as (p0 & [= <-] & Hsh & _). specialize (Hsh [] start bw (Some limit) false). rewrite Hc in Hsh. cbn [y_disk] in Hsh. unfold umadb_read in Hsh. unfold check_read.
    destruct (read_conditional _ _ _ _ _ _ _ _ _ _ _) as [evs|]; [|discriminate Hsh]. cbn [rbind] in Hsh. now injection Hsh as ->.
  Qed.

  Lemma judge_run h hist : gapless hist -> h_next_pos h - 1 = nlen hist ->
    judge h hist None (Ok (spec_read hist [] None true (Some 1))) = if decide (hist = []) then [QNone] else [].
  Proof.
    intros Hg Hn. assert (E : fst <$> last (spec_read hist [] None true (Some 1)) = if decide (hist = []) then None else Some (nlen hist)).
    { unfold spec_read. cbn [cut]. assert (Ef : filter (fun e : seq_event => Spec.in_range None true e.1 /\ q_matches [] e.2) hist = hist).
      { clear. induction hist as [|e l IH]; [reflexivity|]. rewrite filter_cons_True by (split; [exact I|now left]). now rewrite IH. }
      rewrite Ef. pose proof (gapless_last _ Hg) as Hl. destruct hist as [|e0 hist0] using rev_ind; [reflexivity|]. clear IHhist0. rewrite last_snoc in Hl. rewrite rev_app_distr. cbn [rev app]. change (N.to_nat 1) with 1%nat. cbn [take last fmap].
      rewrite decide_False by (intros E; now destruct hist0). cbn [from_option] in Hl. change (Some e0.1 = Some (nlen (hist0 ++ [e0]))). now rewrite Hl. }
    unfold judge. rewrite E, (gapless_last _ Hg), Hn, N.eqb_refl. cbn [app]. destruct (decide (hist = [])); [reflexivity|]. now rewrite N.eqb_refl.
  Qed.

  (** ** C59: what the tool reports *)
  (** Whatever the store has been through: the tool finds exactly the events that are stored.  What it reports besides is
      that the database is empty, and pages that cannot be decoded and are free or past the high-water mark.  Header pages are never found damaged. *)
  Theorem check_finds_all tr d d' out : run tr (Sys d None) -> check d d' out -> exists p st r P F,
    open_db 16 ps d = Ok (d', p) /\ shows (Sys d' (Some p)) st /\ out = Ok r /\ c_events r = s_hist st /\ c_headers r = [] /\
    walks (on_disk d') (refs (NHeader (latest p).2)) P F /\
    (forall x, x ∈ c_problems r -> (exists q, x = QPage q /\ q ∈ F) \/ (exists q, x = QBeyond q /\ h_next_page (latest p).2 <= q) \/ (x = QNone /\ s_hist st = [])) /\
    (passes r <-> s_hist st <> [] /\ (forall q, 2 <= q < h_next_page (latest p).2 -> is_Some (on_disk d' q)) /\ beyond 16 d' (h_next_page (latest p).2) []).
  Proof.
    intros H Hc. destruct (check_run _ _ H) as (d0 & p & st & Eo & Hr & Hsh & Hg & Hh & Hn & Hca & Hrd). destruct Hc as [e He|d' p' l evs r Eo' Hb Hs]; [congruence|].
    rewrite Eo in Eo'. injection Eo' as <- <-. destruct (scan_all _ _ _ Hg Hrd 1 evs r ltac:(lia) Hs) as [-> ->]. change (N.to_nat (1 - 1)) with 0%nat in *. rewrite drop_0 in *.
    rewrite Hrd, (judge_run _ _ Hg Hn).
    assert (Hl0 : lost_headers d0 = []).
    { unfold lost_headers. cbn. destruct (Hh 0 ltac:(lia)) as (n0 & E0). destruct (Hh 1 ltac:(lia)) as (n1 & E1). destruct (d_cur d0 0); [|discriminate]. destruct (d_cur d0 1); [|discriminate]. reflexivity. }
    assert (Hb0 : bad_headers 16 d0 = []).
    { unfold bad_headers. cbn [List.filter]. destruct (Hh 0 ltac:(lia)) as (n0 & E0). destruct (Hh 1 ltac:(lia)) as (n1 & E1). destruct (d_cur d0 0); [|discriminate]. destruct (d_cur d0 1); [|discriminate]. cbn in E0, E1. rewrite E0, E1. reflexivity. }
    rewrite Hl0, Hb0. cbn [map app].
    destruct (pages_in_use_readable ps hash order ford caching Hps Hps32 Hord Hford _ _ _ (latest p).2 Hr eq_refl ltac:(now left)) as (P & F & Hw & HP).
    destruct (pages_used_once ps hash order ford caching Hps Hps32 Hord Hford _ _ _ _ _ Hr eq_refl Hw) as (_ & _ & _ & HPF). cbn [y_disk] in *.
    assert (Hbp : forall q, q ∈ bad_pages 16 d0 (latest p).2 <-> 2 <= q < h_next_page (latest p).2 /\ on_disk d0 q = None).
    { intros q. unfold bad_pages. rewrite elem_of_list_In, filter_In, <- elem_of_list_In, elem_of_seqN. unfold fetch, on_disk. rewrite lookup_empty.
      split; intros [Hq Hx].
      - split; [lia|]. rewrite (proj2 (N.ltb_ge _ _)) in Hx by lia. destruct (dec 16 (d_cur d0 q)); [discriminate|reflexivity].
      - split; [lia|]. rewrite (proj2 (N.ltb_ge _ _)) by lia. destruct (dec 16 (d_cur d0 q)); [discriminate|reflexivity]. }
    assert (Hby : forall q l, beyond 16 d0 q l -> forall x, x ∈ l -> q <= x).
    { clear. intros q l Hb. induction Hb as [q ?|q b ? ?|q b n l ? ? ? ? IH|q b e l ? ? ? ? IH]; intros x Hx; [now apply elem_of_nil in Hx|now apply elem_of_nil in Hx| |].
      - specialize (IH x Hx). lia.
      - apply elem_of_cons in Hx as [->|Hx]; [lia|]. specialize (IH x Hx). lia. }
    eexists p, st, _, P, F. split; [exact Eo|]. split; [exact Hsh|]. split; [reflexivity|]. cbn [c_events c_headers c_problems]. split; [reflexivity|]. split; [reflexivity|]. split; [exact Hw|]. split.
    - intros x Hx. rewrite !elem_of_app in Hx. destruct Hx as [Hx|[Hx|Hx]].
      + left. apply elem_of_list_fmap in Hx as (q & -> & Hq). exists q. split; [reflexivity|]. apply Hbp in Hq as [Hq Hx]. apply HPF in Hq as [Hq|Hq]; [|exact Hq].
        destruct (HP q Hq) as (n & Hn' & _). congruence.
      + right. left. apply elem_of_list_fmap in Hx as (q & -> & Hq). exists q. split; [reflexivity|]. exact (Hby _ _ Hb q Hq).
      + right. right. destruct (decide (s_hist st = [])); [|now apply elem_of_nil in Hx]. apply elem_of_list_singleton in Hx. auto.
    - unfold passes. cbn [c_problems]. split.
      + intros E. apply app_eq_nil in E as [E1 E]. apply app_eq_nil in E as [E2 E3]. apply map_eq_nil in E1. apply map_eq_nil in E2. subst l. split; [intros E; rewrite decide_True in E3 by exact E; discriminate|].
        split; [|exact Hb]. intros q Hq. destruct (on_disk d0 q) eqn:Eq; [eauto|]. exfalso. assert (Hin : q ∈ bad_pages 16 d0 (latest p).2) by (apply Hbp; auto). rewrite E1 in Hin. now apply elem_of_nil in Hin.
      + intros (E3 & E1 & E2). rewrite decide_False by exact E3. assert (bad_pages 16 d0 (latest p).2 = []) as ->.
        { destruct (bad_pages 16 d0 (latest p).2) as [|q l0] eqn:El; [reflexivity|]. exfalso. destruct (proj1 (Hbp q) ltac:(left)) as [Hq Hx]. destruct (E1 q Hq) as [n En]. congruence. }
        assert (l = []) as ->; [|reflexivity]. clear -Hb E2. revert E2. induction Hb as [q ?|q b ? ?|q b n l ? ? ? ? IH|q b e l ? ? ? ? IH]; intros E2; [reflexivity|reflexivity| |].
        * apply IH. inversion E2; subst; congruence.
        * inversion E2; subst; congruence.
  Qed.
  (** It comes to an end, if the file has one. *)
  Theorem check_ends tr d m : run tr (Sys d None) -> (forall q, m <= q -> d_cur d q = None) -> exists d' r, check d d' (Ok r).
  Proof.
    intros H Hm. destruct (check_run _ _ H) as (d' & p & st & Eo & Hr & Hsh & Hg & Hh & Hn & Hca & Hrd).
    assert (Hm' : forall q, m + 2 <= q -> d_cur d' q = None).
    { intros q Hq. unfold open_db in Eo. destruct (read_headers _ _) as [[[n0 n1] fx]|] eqn:Er; [|discriminate]. cbn [rbind] in Eo.
      assert (Hfx : forall x n, fx = Some (x, n) -> x < 2) by (intros x n ->; unfold read_headers in Er; repeat case_match; try discriminate; injection Er as <- <- <- <-; lia).
      destruct fx as [[x n]|].
      - destruct (page_ser 16 ps n) as [b|]; [|discriminate]. cbn [rbind] in Eo. repeat (match type of Eo with context [as_header ?n] => destruct (as_header n); [|discriminate]; cbn [rbind] in Eo end).
        destruct (check_roots _ _ _); [|discriminate]. cbn [rbind] in Eo. injection Eo as <- _. cbn. specialize (Hfx x n eq_refl). rewrite (proj2 (N.eqb_neq _ _)) by lia. apply Hm. lia.
      - cbn [rbind] in Eo. repeat (match type of Eo with context [as_header ?n] => destruct (as_header n); [|discriminate]; cbn [rbind] in Eo end).
        destruct (check_roots _ _ _); [|discriminate]. cbn [rbind] in Eo. injection Eo as <- _. apply Hm. lia. }
    destruct (beyond_ends d' (m + 2) Hm' (h_next_page (latest p).2)) as [l Hl]. destruct (scan_ends _ _ _ Hg Hrd 1 ltac:(lia)) as [evs Hs]. eexists d', _. eapply check_done; eassumption.
  Qed.
End props.

(** ** Running the tool *)
Fixpoint beyond_x (fuel : nat) (d : disk) (q : N) : option (list N) :=
  match fuel with
  | O => None
  | S f => match d_cur d q with
    | None => Some []
    | Some b => if zero_page b then Some [] else
      match page_de 16 b with Ok _ => beyond_x f d (q + 1) | Err _ => cons q <$> beyond_x f d (q + 1) end
    end
  end.
Fixpoint scan_x (fuel : nat) (hash : bytes -> bytes) (d : disk) (h : header) (k : N) : option (list seq_event * option err) :=
  match fuel with
  | O => None
  | S f => match check_read 16 hash (fun l => l) d h (Some k) false 1024 with
    | Err e => Some ([], Some e)
    | Ok evs => match last evs with
      | None => Some ([], None)
      | Some e => '(evs', r) ← scan_x f hash d h (e.1 + 1); Some (evs ++ evs', r)
      end
    end
  end.
Definition check_x (ps : N) (hash : bytes -> bytes) (d : disk) : option (disk * report) :=
  match open_db 16 ps d with
  | Err _ => None
  | Ok (d', p) =>
    l ← beyond_x 200 d' (h_next_page (latest p).2);
    '(evs, r) ← scan_x 5 hash d' (latest p).2 1;
    Some (d', Report (bad_headers 16 d') (map QHeader (lost_headers d') ++ map QPage (bad_pages 16 d' (latest p).2) ++ map QBeyond l ++
      judge (latest p).2 evs r (check_read 16 hash (fun l => l) d' (latest p).2 None true 1)) evs)
  end.
Lemma beyond_x_ok f : forall d q l, beyond_x f d q = Some l -> beyond 16 d q l.
Proof.
  induction f as [|f IH]; intros d q l; cbn [beyond_x]; [discriminate|]. destruct (d_cur d q) as [b|] eqn:E; [|intros [= <-]; now apply beyond_end].
  destruct (zero_page b) eqn:Ez; [intros [= <-]; eapply beyond_zero; eassumption|]. destruct (page_de 16 b) as [n|e] eqn:Eb.
  - intros H. eapply beyond_ok; eauto.
  - destruct (beyond_x f d (q + 1)) as [l'|] eqn:El; [|discriminate]. intros [= <-]. eapply beyond_bad; eauto.
Qed.
Lemma scan_x_ok f hash : forall d h k evs r, scan_x f hash d h k = Some (evs, r) -> scan 16 hash (fun l => l) d h k evs r.
Proof.
  induction f as [|f IH]; intros d h k evs r; cbn [scan_x]; [discriminate|]. destruct (check_read _ _ _ _ _ _ _ _) as [evs0|e] eqn:E; [|intros H; assert (evs = [] /\ r = Some e) as [-> ->] by (split; congruence); now apply scan_fails].
  destruct (last evs0) as [e|] eqn:El.
  - destruct (scan_x f hash d h (e.1 + 1)) as [[evs' r']|] eqn:E'; [|discriminate]. cbn. intros H. assert (evs = evs0 ++ evs' /\ r = r') as [-> ->] by (split; congruence). eapply scan_more; eauto.
  - intros H. assert (evs = [] /\ r = None) as [-> ->] by (split; congruence). apply last_None in El. subst. now apply scan_end.
Qed.
Lemma check_x_ok ps hash d d' r : check_x ps hash d = Some (d', r) -> check 16 ps hash (fun l => l) d d' (Ok r).
Proof.
  unfold check_x. destruct (open_db 16 ps d) as [[d0 p]|] eqn:Eo; [|discriminate]. destruct (beyond_x _ _ _) as [l|] eqn:Eb; [|discriminate]. cbn [mbind option_bind].
  destruct (scan_x _ _ _ _ _) as [[evs r0]|] eqn:Es; [|discriminate]. cbn [mbind option_bind]. intros H. injection H as <- <-. eapply check_done; [exact Eo|eapply beyond_x_ok; exact Eb|eapply scan_x_ok; exact Es].
Qed.
(** A schedule that ends with the process stopped, and what can be computed of the file. *)
Lemma stop_found s (P : disk -> bool) : match x_exec (s ++ [ACrash]) with Some (_, Sys d None) => P d | _ => false end = true ->
  exists tr d, x_run tr (Sys d None) /\ P d = true /\ option_map fst (x_exec (s ++ [ACrash])) = Some tr.
Proof.
  destruct (x_exec (s ++ [ACrash])) as [[tr [d [p|]]]|] eqn:E; try discriminate. intros HP. destruct (x_runs (s ++ [ACrash]) tr) as (y' & H & E'); [now rewrite E|].
  exists tr, d. split; [|split; [exact HP|reflexivity]]. congruence.
Qed.
Global Instance problem_eq_dec : EqDecision problem. Proof. solve_decision. Defined.

(** C59: four events, one large, in two commits, with a reader open over both; the tool has nothing to report. *)
Definition c_script : list act := x_batch [xr1; xr2] 3 ++ [ADone] ++ x_reader 0 ++ x_batch [xr3; xr4; xr5] 6 ++ [ADone].
Example check_example : exists tr d d' r, x_run tr (Sys d None) /\ check 16 1024 x_hash (fun l => l) d d' (Ok r) /\ passes r /\ map fst (c_events r) = [1; 2; 3; 4].
Proof.
  destruct (stop_found c_script (fun d => match check_x 1024 x_hash d with Some (_, r) => bool_decide (c_problems r = []) && bool_decide (map fst (c_events r) = [1; 2; 3; 4]) | None => false end))
    as (tr & d & H & HP & _); [vm_compute; reflexivity|]. destruct (check_x 1024 x_hash d) as [[d' r]|] eqn:E; [|discriminate]. apply andb_prop in HP as [H1 H2]. apply bool_decide_eq_true in H1, H2.
  exists tr, d, d', r. split; [exact H|]. split; [now apply check_x_ok|]. split; assumption.
Qed.

(** ** C60: it does not pass every healthy database *)
(** A new database fails. *)
Theorem check_new_refuted : exists d d' r, x_run [LCrash []] (Sys d None) /\ check 16 1024 x_hash (fun l => l) d d' (Ok r) /\ ~ passes r.
Proof.
  destruct (stop_found [] (fun d => match check_x 1024 x_hash d with Some (_, r) => bool_decide (c_problems r = [QNone]) | None => false end)) as (tr & d & H & HP & Et); [vm_compute; reflexivity|].
  destruct (check_x 1024 x_hash d) as [[d' r]|] eqn:E; [|discriminate]. apply bool_decide_eq_true in HP. assert (tr = [LCrash []]) as -> by (vm_compute in Et; congruence).
  exists d, d', r. split; [exact H|]. split; [now apply check_x_ok|]. unfold passes. now rewrite HP.
Qed.
(** Twenty-eight commits of an event each, all successful; a reader is open over all but the first and the last.  The last event is large:
    pages for the free list are taken from the end of the file and given up in the same transaction.  They are never written, and stay
    below the high-water mark.  The process is stopped in good order; the tool fails. *)
Definition c_small := Req [NE [1] [7] [[97]] None []] None None.
Definition c_large := Req [NE [1] (replicate (N.to_nat 80000) 7) [[97]] None []] None None.
Definition c_unwritten : list act := x_batch [c_small] 3 ++ [ADone] ++ x_reader 0 ++ concat (map (fun n => x_batch [c_small] n ++ [ADone]) (replicate 24 3%nat ++ [5%nat; 4%nat])) ++ [AClose 0] ++ x_batch [c_large] 83 ++ [ADone].
Definition c_calm (l : label) : bool := match l with LAbort _ | LUnsure _ | LCrash (_ :: _) | LOpen => false | _ => true end.
Theorem check_healthy_refuted : exists tr d d' r, x_run (tr ++ [LCrash []]) (Sys d None) /\ Forall (fun l => c_calm l = true) tr /\ LCommit [c_large] [Ok 28] ∈ tr /\
  check 16 1024 x_hash (fun l => l) d d' (Ok r) /\ c_problems r = [QPage 89; QPage 90].
Proof.
  destruct (stop_found c_unwritten (fun d => match check_x 1024 x_hash d with Some (_, r) => bool_decide (c_problems r = [QPage 89; QPage 90]) | None => false end)) as (tr & d & H & HP & Et); [vm_compute; reflexivity|].
  assert (Ht : match option_map fst (x_exec (c_unwritten ++ [ACrash])) with Some tr => forallb c_calm (removelast tr) && bool_decide (list.last tr = Some (LCrash [])) && bool_decide (LCommit [c_large] [Ok 28] ∈ removelast tr) | None => false end = true) by (vm_compute; reflexivity).
  rewrite Et in Ht. clear Et. apply andb_prop in Ht as [Ht H3]. apply andb_prop in Ht as [H1 H2]. apply bool_decide_eq_true in H2, H3.
  destruct tr as [|l tr _] using rev_ind; [discriminate|]. rewrite removelast_last in H1, H3. rewrite last_snoc in H2. injection H2 as ->.
  destruct (check_x 1024 x_hash d) as [[d' r]|] eqn:E; [|discriminate]. apply bool_decide_eq_true in HP. exists tr, d, d', r. split; [exact H|]. split; [|split; [exact H3|split; [now apply check_x_ok|exact HP]]].
  apply Forall_forall. intros x Hx. rewrite forallb_forall in H1. apply H1. now apply elem_of_list_In.
Qed.
Lemma x_ran s tr y : x_exec s = Some (tr, y) -> x_run tr y.
Proof. intros E. destruct (x_runs s tr) as (y' & H & E'); [now rewrite E|]. congruence. Qed.
(** After a crash, a page half written: it is free, or past the high-water mark, and the tool fails although nothing was lost. *)
Definition torn (q : N) (d : disk) : disk := Disk (fun i => if i =? q then Some [1; 2] else d_cur d i) (fun i c => c = if i =? q then Some [1; 2] else d_cur d i) (fun _ => false).
Lemma crash_torn d q b : cur_ok d -> d_crashed (d_write 16 q b d) (torn q d).
Proof.
  intros H. exists (fun i => if i =? q then Some [1; 2] else d_cur d i). split; [|reflexivity]. intros i. cbn. destruct (N.eqb_spec i q) as [->|_]; [|apply H].
  right. unfold may_hold. destruct (q <? 2); [|exact I]. intros n E. vm_compute in E. discriminate.
Qed.
Definition c_page : list act := x_batch [xr1; xr2] 3 ++ [ADone; ABegin; ARequest c_small; ACommit].
Theorem check_crashed_refuted : exists tr d d' r p st q, x_run (tr ++ [LCrash []]) (Sys d None) /\ LCommit [xr1; xr2] [Ok 1; Err EIntegrity] ∈ tr /\ check 16 1024 x_hash (fun l => l) d d' (Ok r) /\
  open_db 16 1024 d = Ok (d', p) /\ x_shows (Sys d' (Some p)) st /\ map fst (s_hist st) = [1] /\ c_problems r = [QPage q].
Proof.
  assert (Hx : match x_exec c_page with
    | Some (tr, Sys d (Some p)) => bool_decide (LCommit [xr1; xr2] [Ok 1; Err EIntegrity] ∈ tr) &&
      match p_writer p with
      | WPages w ((q, n) :: todo) done ans => bool_decide (done = [c_small]) && is_ok (page_ser 16 1024 n) &&
        match check_x 1024 x_hash (torn q d) with Some (_, r) => bool_decide (c_problems r = [QPage q]) && bool_decide (map fst (c_events r) = [1]) | None => false end
      | _ => false end
    | _ => false end = true) by (vm_compute; reflexivity).
  destruct (x_exec c_page) as [[tr [d [p|]]]|] eqn:E; [|discriminate Hx|discriminate Hx]. apply x_ran in E as H. clear E.
  apply andb_prop in Hx as [Ht Hx]. apply bool_decide_eq_true in Ht. destruct (p_writer p) as [| |w [|[q n] todo] done ans| | |] eqn:Ew; try discriminate. apply andb_prop in Hx as [Hx Hr]. apply andb_prop in Hx as [Hd Hb]. apply bool_decide_eq_true in Hd. subst done.
  destruct (page_ser 16 1024 n) as [b|] eqn:Eb; [|discriminate]. destruct (check_x 1024 x_hash (torn q d)) as [[d' r]|] eqn:Ec; [|discriminate]. apply andb_prop in Hr as [H1 H2]. apply bool_decide_eq_true in H1, H2.
  pose proof (run_cur 1024 x_hash (fun l => l) x_ford true x_ps x_ps32 x_ord x_ford_ok _ _ H p eq_refl) as Hc. cbn in Hc.
  assert (Hrun : x_run ((tr ++ [LTau]) ++ [LCrash []]) (Sys (torn q d) None)).
  { eapply run_step; [eapply run_step; [exact H|apply Y_proc; eapply S_page; eassumption]|]. change (LCrash []) with (LCrash (in_flight (p_writer (set_writer (WPages w todo [c_small] ans) p)))). apply Y_crash, crash_torn. exact Hc. }
  pose proof (check_x_ok _ _ _ _ _ Ec) as Hck.
  destruct (check_finds_all 1024 x_hash (fun l => l) x_ford true x_ps x_ps32 x_ord x_ford_ok _ _ _ _ Hrun Hck) as (p' & st & r' & P & F & Eo & Hs & Er & Hev & _). injection Er as <-.
  exists (tr ++ [LTau]), (torn q d), d', r, p', st, q. split; [exact Hrun|]. split; [apply elem_of_app; now left|]. split; [exact Hck|]. split; [exact Eo|]. split; [exact Hs|]. split; [now rewrite <- Hev|exact H1].
Qed.

(** ** C61: what passing does not mean *)
(** The tool says that it never modifies the file.  A header page lost in a crash: opening the file, the tool writes it anew, and finds nothing wrong with the headers. *)
Definition c_header : list act := x_batch [xr1; xr2] 3 ++ [ADone; ABegin; ARequest c_small; ACommit; APage; APage; APage; ASync].
Theorem check_readonly_refuted : exists tr d d' r q, x_run tr (Sys d None) /\ check 16 1024 x_hash (fun l => l) d d' (Ok r) /\ q < 2 /\
  (exists e, dec 16 (d_cur d q) = Err e) /\ d_cur d' q <> d_cur d q /\ c_headers r = [] /\ passes r.
Proof.
  assert (Hx : match x_exec c_header with
    | Some (tr, Sys d (Some p)) =>
      match p_writer p with
      | WHeader w done ans => is_ok (page_ser 16 1024 (NHeader (next_header (h_schema (latest p).2) w))) &&
        match check_x 1024 x_hash (torn (other_slot (latest p).1) d) with Some (d', r) => bool_decide (d_cur d' (other_slot (latest p).1) <> Some [1; 2]) && bool_decide (c_problems r = []) && bool_decide (c_headers r = []) && (other_slot (latest p).1 <? 2) | None => false end
      | _ => false end
    | _ => false end = true) by (vm_compute; reflexivity).
  destruct (x_exec c_header) as [[tr [d [p|]]]|] eqn:E; [|discriminate Hx|discriminate Hx]. apply x_ran in E as H. clear E.
  destruct (p_writer p) as [| | |w done ans| |] eqn:Ew; try discriminate. apply andb_prop in Hx as [Hb Hr]. set (q := other_slot (latest p).1) in *.
  destruct (page_ser 16 1024 _) as [b|] eqn:Eb; [|discriminate]. destruct (check_x 1024 x_hash (torn q d)) as [[d' r]|] eqn:Ec; [|discriminate]. apply andb_prop in Hr as [Hr H4]. apply andb_prop in Hr as [Hr H3]. apply andb_prop in Hr as [H1 H2].
  apply bool_decide_eq_true in H1, H2, H3. apply N.ltb_lt in H4.
  pose proof (run_cur 1024 x_hash (fun l => l) x_ford true x_ps x_ps32 x_ord x_ford_ok _ _ H p eq_refl) as Hc. cbn in Hc.
  assert (Eq : d_cur (torn q d) q = Some [1; 2]) by (cbn; now rewrite N.eqb_refl).
  exists ((tr ++ [LTau]) ++ [LCrash done]), (torn q d), d', r, q. rewrite Eq. split; [|split; [now apply check_x_ok|split; [exact H4|split; [eexists; vm_compute; reflexivity|auto]]]].
  eapply run_step; [eapply run_step; [exact H|apply Y_proc; eapply S_header; eassumption]|]. change (LCrash done) with (LCrash (in_flight (p_writer (set_writer (WSync w done ans) p)))). apply Y_crash, crash_torn. exact Hc.
Qed.
(** Files the store did not write as they are: a page was replaced by an older one, or by one of another file.  The page is intact, and the tool passes the file.
    First: the index of the tags is empty.  Reads by tag find nothing.  Second: the first of four events is gone. *)
Definition put_node (q : N) (n : node) (d : disk) : disk := match page_ser 16 1024 n with Ok b => r_put q (Some b) d | _ => d end.
Definition c_tags (d : disk) : disk := match open_db 16 1024 d with Ok (_, p) => put_node (h_tags_root (latest p).2) (NTagsLeaf (TagsLeaf [] [])) d | _ => d end.
Definition c_first (d : disk) : disk := match open_db 16 1024 d with Ok (_, p) =>
  match dec 16 (d_cur d (h_events_root (latest p).2)) with Ok (NEvLeaf n) => put_node (h_events_root (latest p).2) (NEvLeaf (EvLeaf (tail (ev_keys n)) (tail (ev_values n)))) d | _ => d end | _ => d end.
Theorem check_pass_refuted : exists tr d, x_run tr (Sys d None) /\
  (exists d' p r, check 16 1024 x_hash (fun l => l) (c_tags d) d' (Ok r) /\ passes r /\ open_db 16 1024 (c_tags d) = Ok (d', p) /\ map fst (spec_read (c_events r) [QItem [] [xa]] None false None) = [1; 2] /\
     umadb_read x_hash (fun l => l) (fetch 16 ∅ d') (latest p).2 [QItem [] [xa]] None false None false = Ok ([], Some 4)) /\
  (exists d' r, check 16 1024 x_hash (fun l => l) (c_first d) d' (Ok r) /\ passes r /\ map fst (c_events r) = [2; 3; 4]).
Proof.
  destruct (stop_found c_script (fun d =>
    match check_x 1024 x_hash (c_tags d), open_db 16 1024 (c_tags d) with
    | Some (d', r), Ok (d'', p) => bool_decide (c_problems r = []) && bool_decide (map fst (spec_read (c_events r) [QItem [] [xa]] None false None) = [1; 2]) &&
        bool_decide (umadb_read x_hash (fun l => l) (fetch 16 ∅ d'') (latest p).2 [QItem [] [xa]] None false None false = Ok ([], Some 4))
    | _, _ => false end &&
    match check_x 1024 x_hash (c_first d) with Some (_, r) => bool_decide (c_problems r = []) && bool_decide (map fst (c_events r) = [2; 3; 4]) | None => false end))
    as (tr & d & H & HP & _); [vm_compute; reflexivity|].
  apply andb_prop in HP as [HP1 HP2]. exists tr, d. split; [exact H|]. split.
  - destruct (check_x 1024 x_hash (c_tags d)) as [[d' r]|] eqn:E; [|discriminate]. destruct (open_db 16 1024 (c_tags d)) as [[d'' p]|] eqn:Eo; [|discriminate].
    apply andb_prop in HP1 as [HP H3]. apply andb_prop in HP as [H1 H2]. apply bool_decide_eq_true in H1, H2, H3.
    assert (d'' = d') as ->. { apply check_x_ok in E. inversion E; congruence. }
    exists d', p, r. split; [now apply check_x_ok|]. auto.
  - destruct (check_x 1024 x_hash (c_first d)) as [[d' r]|] eqn:E; [|discriminate]. apply andb_prop in HP2 as [H1 H2]. apply bool_decide_eq_true in H1, H2. exists d', r. split; [now apply check_x_ok|]. auto.
Qed.

Print Assumptions check_finds_all.
Print Assumptions check_ends.
Print Assumptions check_new_refuted.
Print Assumptions check_healthy_refuted.
Print Assumptions check_crashed_refuted.
Print Assumptions check_readonly_refuted.
Print Assumptions check_pass_refuted.
