(** The conversions are inverse to each other; which texts are event ids. *)
From Verif Require Export Proto WireProofs.
Local Open Scope N_scope.

(** ** Texts *)
Lemma utf8_ascii_app a b : Forall (fun c => c < 128) a -> forall f, (length (a ++ b) < f)%nat -> utf8_aux f (a ++ b) = utf8_aux (f - length a) b.
Proof.
  induction 1 as [|c a Hc Ha IH]; intros f Hf; [cbn; now rewrite Nat.sub_0_r|].
  cbn [app length] in *. destruct f as [|f]; [lia|]. cbn [utf8_aux]. destruct (N.ltb_spec c 128); [|lia]. rewrite IH by lia. reflexivity.
Qed.
Lemma utf8_aux_fuel l : forall f f', (length l < f)%nat -> (length l < f')%nat -> utf8_aux f l = utf8_aux f' l.
Proof.
  induction l as [l IH] using (induction_ltof1 _ (@length N)). unfold ltof in IH. intros f f' Hf Hf'.
  destruct f as [|f]; [lia|]. destruct f' as [|f']; [lia|]. destruct l as [|c l]; [reflexivity|]. cbn [utf8_aux]. cbn [length] in *.
  destruct (c <? 128); [apply IH; cbn; lia|].
  destruct (in_range 194 223 c).
  { destruct l as [|c1 l]; [reflexivity|]. f_equal. cbn [length] in *. apply IH; cbn; lia. }
  destruct (in_range 224 239 c).
  { destruct l as [|c1 [|c2 l]]; [reflexivity..|]. f_equal. cbn [length] in *. apply IH; cbn; lia. }
  destruct (in_range 240 244 c); [|reflexivity].
  destruct l as [|c1 [|c2 [|c3 l]]]; [reflexivity..|]. f_equal. cbn [length] in *. apply IH; cbn; lia.
Qed.
Lemma utf8_app_ascii a b : Forall (fun c => c < 128) a -> utf8_ok b = true -> utf8_ok (a ++ b) = true.
Proof.
  intros Ha Hb. unfold utf8_ok in *. rewrite utf8_ascii_app; [|exact Ha|lia]. rewrite <- Hb. apply utf8_aux_fuel; [|lia].
  rewrite app_length. lia.
Qed.
Lemma utf8_ascii a : Forall (fun c => c < 128) a -> utf8_ok a = true.
Proof. intros H. rewrite <- (app_nil_r a). now apply utf8_app_ascii. Qed.

(** ** Event ids *)
Lemma unhex_hex n : n < 16 -> unhex (hex n) = Some n.
Proof.
  intros H. unfold hex, unhex. destruct (N.ltb_spec n 10).
  - destruct ((48 <=? 48 + n) && (48 + n <=? 57)) eqn:E1; [f_equal; lia|lia].
  - destruct ((48 <=? 87 + n) && (87 + n <=? 57)) eqn:E1; [lia|]. destruct ((97 <=? 87 + n) && (87 + n <=? 102)) eqn:E2; [f_equal; lia|lia].
Qed.
Lemma hex_ascii n : n < 16 -> hex n < 128.
Proof. intros H. unfold hex. destruct (n <? 10); lia. Qed.
Lemma div16 b : b < 256 -> b / 16 < 16.
Proof. intros H. apply N.div_lt_upper_bound; lia. Qed.
Lemma mod16 b : b mod 16 < 16.
Proof. apply N.mod_lt. discriminate. Qed.
Lemma parse_hex_bytes l : is_bytes l -> parse_hex (hex_bytes l) = Some l.
Proof.
  induction 1 as [|b l Hb Hl IH]; [reflexivity|]. unfold hex_bytes in *. cbn [map concat app parse_hex].
  rewrite unhex_hex by now apply div16. rewrite unhex_hex by apply mod16. rewrite IH. f_equal. f_equal. pose proof (N.div_mod b 16 ltac:(discriminate)). lia.
Qed.
Lemma hex_bytes_ascii l : is_bytes l -> Forall (fun c => c < 128) (hex_bytes l).
Proof.
  induction 1 as [|b l Hb Hl IH]; [constructor|]. unfold hex_bytes in *. cbn [map concat app].
  constructor; [apply hex_ascii, div16, Hb|]. constructor; [apply hex_ascii, mod16|exact IH].
Qed.
Lemma uuid_text_utf8 u : is_bytes u -> utf8_ok (uuid_text u) = true.
Proof.
  intros H. apply utf8_ascii. unfold uuid_text.
  assert (forall i, is_bytes (drop i u)) by (intros; now apply Forall_drop). assert (forall i j, is_bytes (take i (drop j u))) by (intros; now apply Forall_take, Forall_drop).
  repeat (apply Forall_app; split); try (apply hex_bytes_ascii; auto; now apply Forall_take); (constructor; [reflexivity|constructor]).
Qed.
Ltac explode u H := repeat match type of H with length u = S _ => destruct u as [|? u]; [discriminate H|]; injection H as H end; destruct u; [clear H|discriminate H].
Lemma uuid_text_rt u : length u = 16%nat -> is_bytes u -> parse_uuid (uuid_text u) = Some u.
Proof.
  intros Hl Hb. explode u Hl. rewrite <- (parse_hex_bytes _ Hb). reflexivity.
Qed.
Lemma uuid_text_nonempty u : uuid_text u <> [].
Proof. unfold uuid_text. intros E. apply app_eq_nil in E as [_ E]. discriminate E. Qed.

(* a letter in lower case *)
Definition lower (c : N) : N := if (65 <=? c) && (c <=? 90) then c + 32 else c.
Lemma unhex_iff c n : unhex c = Some n <-> lower c = hex n /\ n < 16.
Proof.
  unfold unhex, lower, hex. split.
  - destruct ((48 <=? c) && (c <=? 57)) eqn:E1.
    { intros [= <-]. destruct ((65 <=? c) && (c <=? 90)) eqn:E; [lia|]. destruct (N.ltb_spec (c - 48) 10); lia. }
    destruct ((97 <=? c) && (c <=? 102)) eqn:E2.
    { intros [= <-]. destruct ((65 <=? c) && (c <=? 90)) eqn:E; [lia|]. destruct (N.ltb_spec (c - 87) 10); lia. }
    destruct ((65 <=? c) && (c <=? 70)) eqn:E3; [|discriminate].
    intros [= <-]. destruct ((65 <=? c) && (c <=? 90)) eqn:E; [|lia]. destruct (N.ltb_spec (c - 55) 10); lia.
  - intros [E Hn]. destruct ((48 <=? c) && (c <=? 57)) eqn:E1.
    { f_equal. destruct ((65 <=? c) && (c <=? 90)) eqn:E4; destruct (N.ltb_spec n 10); lia. }
    destruct ((97 <=? c) && (c <=? 102)) eqn:E2.
    { f_equal. destruct ((65 <=? c) && (c <=? 90)) eqn:E4; destruct (N.ltb_spec n 10); lia. }
    destruct ((65 <=? c) && (c <=? 70)) eqn:E3.
    { f_equal. destruct ((65 <=? c) && (c <=? 90)) eqn:E4; destruct (N.ltb_spec n 10); lia. }
    exfalso. destruct ((65 <=? c) && (c <=? 90)) eqn:E4; destruct (N.ltb_spec n 10); lia.
Qed.
Lemma hex_inj a b : a < 16 -> b < 16 -> hex a = hex b -> a = b.
Proof. unfold hex. destruct (N.ltb_spec a 10), (N.ltb_spec b 10); lia. Qed.
Lemma parse_hex_iff s : forall u, parse_hex s = Some u <-> map lower s = hex_bytes u /\ is_bytes u.
Proof.
  induction s as [s IH] using (induction_ltof1 _ (@length N)). unfold ltof in IH. intros u. destruct s as [|a [|b s]].
  - cbn. split; [intros [= <-]; split; [reflexivity|constructor]|]. intros [E _]. destruct u; [reflexivity|discriminate E].
  - cbn. split; [discriminate|]. intros [E _]. destruct u; discriminate E.
  - cbn [parse_hex map]. destruct u as [|c u].
    { split; [|intros [E _]; discriminate E]. destruct (unhex a), (unhex b), (parse_hex s); discriminate. }
    unfold hex_bytes. cbn [map concat app]. split.
    + destruct (unhex a) as [x|] eqn:Ea; [|discriminate]. destruct (unhex b) as [y|] eqn:Eb; [|discriminate].
      destruct (parse_hex s) as [r|] eqn:Es; [|discriminate]. intros E. assert (c = 16 * x + y /\ u = r) as [-> ->] by (split; congruence). clear E.
      apply unhex_iff in Ea as [Ea Hx]. apply unhex_iff in Eb as [Eb Hy]. apply IH in Es as [Es Hr]; [|cbn; lia].
      replace ((16 * x + y) / 16) with x by (rewrite (N.mul_comm 16), N.div_add_l, N.div_small; lia).
      replace ((16 * x + y) mod 16) with y by (rewrite N.add_comm, (N.mul_comm 16), N.mod_add, N.mod_small; lia).
      split; [rewrite Ea, Eb, Es; reflexivity|]. constructor; [lia|exact Hr].
    + intros [E Hc]. inversion Hc as [|? ? Hc1 Hc2]; subst. injection E as E1 E2 E3.
      assert (Ea : unhex a = Some (c / 16)) by (apply unhex_iff; split; [exact E1|now apply div16]).
      assert (Eb : unhex b = Some (c mod 16)) by (apply unhex_iff; split; [exact E2|apply mod16]).
      assert (Es : parse_hex s = Some u) by (apply IH; [cbn; lia|split; [exact E3|exact Hc2]]).
      rewrite Ea, Eb, Es. f_equal. f_equal. pose proof (N.div_mod c 16 ltac:(discriminate)). lia.
Qed.
Lemma hex_bytes_length u : length (hex_bytes u) = (2 * length u)%nat.
Proof. unfold hex_bytes. induction u as [|b u IH]; [reflexivity|]. cbn [map concat app length]. rewrite IH. lia. Qed.
Lemma uuid_text_length u : length u = 16%nat -> length (uuid_text u) = 36%nat.
Proof. intros H. explode u H. reflexivity. Qed.
Lemma lower_hyphen c : lower c = 45 <-> c = 45.
Proof. unfold lower. destruct ((65 <=? c) && (c <=? 90)) eqn:E; lia. Qed.
Lemma parse_hyphenated_iff s u : length s = 36%nat -> parse_hyphenated s = Some u <-> map lower s = uuid_text u /\ is_bytes u /\ length u = 16%nat.
Proof.
  intros Hl. unfold parse_hyphenated.
  assert (Hpos : forall P Q : Prop, (P <-> Q) -> P <-> Q) by tauto. split.
  - destruct (hyphen_at s 8 && hyphen_at s 13 && hyphen_at s 18 && hyphen_at s 23) eqn:Eh; [|discriminate].
    intros E. apply parse_hex_iff in E as [E Hb].
    assert (Hu : length u = 16%nat). { apply (f_equal length) in E. rewrite map_length, hex_bytes_length in E. explode s Hl. cbn in E. lia. }
    split; [|split; assumption]. unfold hyphen_at in Eh. rewrite !andb_true_iff, !bool_decide_eq_true in Eh. destruct Eh as [[[H8 H13] H18] H23].
    explode s Hl. explode u Hu. cbn in H8, H13, H18, H23. injection H8 as ->. injection H13 as ->. injection H18 as ->. injection H23 as ->.
    cbn [take drop app map hex_bytes concat] in E. injection E. intros. cbn [map uuid_text take drop hex_bytes concat app]. change (lower 45) with 45. repeat (apply (f_equal2 cons); [assumption || reflexivity|]). reflexivity.
  - intros (E & Hb & Hu). pose proof Hb as Hb'. explode s Hl. explode u Hu. cbn [map uuid_text take drop hex_bytes concat app] in E.
    injection E. clear E. intros. assert (Eh : forall x, lower x = 45 -> x = 45) by (intros; now apply lower_hyphen).
    repeat match goal with H : lower _ = 45 |- _ => apply Eh in H; subst end. unfold hyphen_at. cbn [lookup list_lookup]. cbn [take drop app].
    rewrite !bool_decide_true by reflexivity. cbn [andb]. apply parse_hex_iff. split; [|exact Hb']. cbn [map hex_bytes concat app].
    repeat (apply (f_equal2 cons); [assumption|]). reflexivity.
Qed.
(** The texts that stand for an event id: 32 hexadecimal digits, or with hyphens; with hyphens also in braces or as URN. *)
Definition names_uuid (s u : bytes) : Prop :=
  is_bytes u /\ length u = 16%nat /\
  (map lower s = hex_bytes u \/
   exists b, map lower b = uuid_text u /\ (s = b \/ s = [123] ++ b ++ [125] \/ s = URN ++ b)).
Lemma parse_uuid_iff s u : parse_uuid s = Some u <-> names_uuid s u.
Proof.
  unfold parse_uuid, names_uuid. split.
  - destruct (N.eqb_spec (nlen s) 32) as [Hn|Hn].
    { intros E. apply parse_hex_iff in E as [E Hb]. split; [exact Hb|]. split; [|now left]. apply (f_equal length) in E. rewrite map_length, hex_bytes_length in E. unfold nlen in Hn. lia. }
    destruct (N.eqb_spec (nlen s) 36) as [Hn1|Hn1].
    { intros E. apply parse_hyphenated_iff in E as (E & Hb & Hu); [|unfold nlen in Hn1; lia]. split; [exact Hb|]. split; [exact Hu|]. right. exists s. tauto. }
    destruct ((nlen s =? 38) && bool_decide (head s = Some 123) && bool_decide (last s = Some 125)) eqn:E2.
    { rewrite !andb_true_iff, !bool_decide_eq_true, N.eqb_eq in E2. destruct E2 as [[Hl Hh] Ht]. intros E.
      destruct s as [|c s]; [discriminate|]. cbn in Hh. injection Hh as ->. apply last_Some in Ht as [l Hs].
      destruct l as [|c' b]; cbn [app] in Hs; [injection Hs as _ ->; discriminate Hl|]. injection Hs as <- ->.
      unfold nlen in Hl. cbn [length] in Hl. rewrite app_length in Hl. cbn [length] in Hl.
      cbn [drop] in E. rewrite drop_0, take_app_alt in E by lia. apply parse_hyphenated_iff in E as (E & Hb & Hu); [|lia].
      split; [exact Hb|]. split; [exact Hu|]. right. exists b. split; [exact E|]. right. left. reflexivity. }
    destruct ((nlen s =? 45) && bool_decide (take 9 s = URN)) eqn:E3; [|discriminate].
    rewrite !andb_true_iff, !bool_decide_eq_true, N.eqb_eq in E3. destruct E3 as [Hl Ht]. intros E.
    apply parse_hyphenated_iff in E as (E & Hb & Hu); [|rewrite drop_length; unfold nlen in Hl; lia]. split; [exact Hb|]. split; [exact Hu|]. right.
    exists (drop 9 s). split; [exact E|]. right. right. rewrite <- Ht. now rewrite take_drop.
  - intros (Hb & Hu & [E|(b & E & Hs)]).
    + assert (Hl : length s = 32%nat) by (apply (f_equal length) in E; rewrite map_length, hex_bytes_length in E; lia).
      unfold nlen. rewrite Hl. cbn [N.of_nat]. change (N.of_nat 32 =? 32) with true. cbv iota. now apply parse_hex_iff.
    + assert (Hl : length b = 36%nat) by (apply (f_equal length) in E; rewrite map_length, uuid_text_length in E by exact Hu; exact E).
      destruct Hs as [->|[->| ->]].
      * unfold nlen. rewrite Hl. change (N.of_nat 36 =? 32) with false. change (N.of_nat 36 =? 36) with true. cbv iota. now apply parse_hyphenated_iff.
      * unfold nlen. rewrite !app_length, Hl. cbn [length]. change (N.of_nat (1 + (36 + 1)) =? 32) with false. change (N.of_nat (1 + (36 + 1)) =? 36) with false.
        change (N.of_nat (1 + (36 + 1)) =? 38) with true. cbv iota. cbn [app head]. rewrite bool_decide_true by reflexivity.
        rewrite bool_decide_true by (rewrite app_comm_cons, last_snoc; reflexivity). cbn [andb drop]. rewrite drop_0, take_app_alt by lia. now apply parse_hyphenated_iff.
      * unfold nlen. rewrite !app_length, Hl. change (length URN) with 9%nat. change (N.of_nat (9 + 36) =? 32) with false. change (N.of_nat (9 + 36) =? 36) with false.
        change (N.of_nat (9 + 36) =? 38) with false. change (N.of_nat (9 + 36) =? 45) with true. cbn [andb]. rewrite take_app_alt by reflexivity. rewrite bool_decide_true by reflexivity.
        rewrite drop_app_alt by reflexivity. now apply parse_hyphenated_iff.
Qed.

(** ** Values *)
Definition uuid_ok (o : option bytes) : Prop := forall u, o = Some u -> length u = 16%nat /\ is_bytes u.
Lemma event_rt e : uuid_ok (ne_uuid e) -> event_of_pb (event_to_pb e) = Ok e.
Proof.
  intros H. destruct e as [t d g u m]. unfold event_of_pb, event_to_pb. cbn [pe_uuid pe_type pe_data pe_tags pe_meta ne_uuid ne_type ne_data ne_tags ne_meta].
  rewrite map_map. cbn [pm_key pm_value]. assert (Em : map (fun x : bytes * bytes => (x.1, x.2)) m = m) by (rewrite <- (map_id m) at 2; apply map_ext; now intros []).
  rewrite Em. destruct u as [u|]; [|reflexivity]. destruct (H u eq_refl) as [Hl Hb]. pose proof (uuid_text_rt u Hl Hb) as Hrt.
  destruct (uuid_text u) as [|c l] eqn:Et; [exfalso; exact (uuid_text_nonempty _ Et)|]. now rewrite Hrt.
Qed.
Lemma tracking_rt t : tracking_of_pb (tracking_to_pb t) = t.
Proof. now destruct t. Qed.
Lemma query_rt q : query_of_pb (query_to_pb q) = q.
Proof. unfold query_of_pb, query_to_pb. cbn [pq_items]. rewrite map_map. rewrite <- (map_id q) at 2. apply map_ext. now intros []. Qed.
Lemma condition_rt c : condition_of_pb (condition_to_pb c) = c.
Proof. destruct c as [q a]. exact (f_equal (fun q => ACond q a) (query_rt q)). Qed.
Lemma collect_rt {A B} (f : A -> res B) (g : B -> A) (P : B -> Prop) l : (forall x, P x -> f (g x) = Ok x) -> Forall P l -> collect f (map g l) = Ok l.
Proof. intros H. induction 1 as [|x l Hx Hl IH]; [reflexivity|]. cbn [map collect]. rewrite (H x Hx). cbn [rbind]. now rewrite IH. Qed.
Lemma opt_rt {A B} (f : A -> B) (g : B -> A) (o : option B) : (forall x, f (g x) = x) -> f <$> (g <$> o) = o.
Proof. intros H. destruct o; cbn; [now rewrite H|reflexivity]. Qed.
Lemma append_rt r : Forall (fun e => uuid_ok (ne_uuid e)) (rq_events r) -> append_of_pb (append_to_pb r) = Ok r.
Proof.
  intros H. destruct r as [evs c t]. cbn in H. unfold append_of_pb, append_to_pb. cbn [pa_events pa_condition pa_trk rq_events rq_cond rq_trk].
  rewrite (collect_rt _ _ _ _ event_rt H). cbn [rbind]. rewrite !opt_rt by (apply condition_rt || apply tracking_rt). reflexivity.
Qed.
Lemma seq_event_rt l : Forall (fun e => uuid_ok (er_uuid e.2)) l -> convert_sequenced_events (map seq_event_to_pb l) = Ok l.
Proof.
  induction 1 as [|[p r] l Hx Hl IH]; [reflexivity|]. cbn [map convert_sequenced_events seq_event_to_pb ps_event ps_pos ps_trk fst snd].
  rewrite event_rt by exact Hx. cbn [rbind]. rewrite IH. cbn [rbind]. rewrite opt_rt by apply tracking_rt. destruct r. reflexivity.
Qed.

(** The texts of a request, an event or a query are Rust strings; numbers are in the range of their types. *)
Definition meta_text (m : list (bytes * bytes)) : Prop := Forall (fun kv => utf8_ok kv.1 = true /\ utf8_ok kv.2 = true) m.
Definition event_text (e : new_event) : Prop :=
  utf8_ok (ne_type e) = true /\ Forall (fun t => utf8_ok t = true) (ne_tags e) /\ uuid_ok (ne_uuid e) /\ meta_text (ne_meta e).
Definition tracking_text (t : tracking) : Prop := utf8_ok (tr_source t) = true /\ tr_pos t < U64.
Definition item_text (i : query_item) : Prop := Forall (fun t => utf8_ok t = true) (qi_types i) /\ Forall (fun t => utf8_ok t = true) (qi_tags i).
Definition query_text (q : query) : Prop := Forall item_text q.
Definition condition_text (c : append_condition) : Prop := query_text (ac_query c) /\ opt_all (fun n => n < U64) (ac_after c).
Definition request_text (r : request) : Prop :=
  Forall event_text (rq_events r) /\ opt_all condition_text (rq_cond r) /\ opt_all tracking_text (rq_trk r).
Definition stored_text (e : seq_event) : Prop :=
  e.1 < U64 /\ event_text (NE (er_type e.2) (er_data e.2) (er_tags e.2) (er_uuid e.2) (er_meta e.2)) /\ opt_all tracking_text (er_tracking e.2).
Lemma wf_event_to_pb e : event_text e -> wf_event (event_to_pb e).
Proof.
  intros (Ht & Hg & Hu & Hm). split; [exact Ht|]. split; [exact Hg|]. split.
  - cbn. destruct (ne_uuid e) as [u|]; [|reflexivity]. apply uuid_text_utf8. now apply (Hu u).
  - cbn. apply Forall_fmap. eapply Forall_impl; [exact Hm|]. intros [k v] [Hk Hv]. split; assumption.
Qed.
Lemma wf_tracking_to_pb t : tracking_text t -> wf_tracking (tracking_to_pb t).
Proof. exact id. Qed.
Lemma wf_query_to_pb q : query_text q -> wf_query (query_to_pb q).
Proof. intros H. unfold wf_query. cbn. apply Forall_fmap. eapply Forall_impl; [exact H|]. intros [t g] [Ht Hg]. split; assumption. Qed.
Lemma opt_map {A B} (f : A -> B) (P : A -> Prop) (Q : B -> Prop) (o : option A) : (forall x, P x -> Q (f x)) -> opt_all P o -> opt_all Q (f <$> o).
Proof. intros H Ho y Hy. destruct o as [x|]; [|discriminate]. cbn in Hy. injection Hy as <-. apply H. now apply Ho. Qed.
Lemma wf_condition_to_pb c : condition_text c -> wf_condition (condition_to_pb c).
Proof. intros [Hq Ha]. split; [|exact Ha]. cbn. intros q [= <-]. now apply wf_query_to_pb. Qed.
Lemma wf_append_to_pb r : request_text r -> wf_append (append_to_pb r).
Proof.
  intros (He & Hc & Ht). split; [|split]; cbn.
  - apply Forall_fmap. eapply Forall_impl; [exact He|]. intros e. apply wf_event_to_pb.
  - eapply opt_map; [|exact Hc]. apply wf_condition_to_pb.
  - eapply opt_map; [|exact Ht]. apply wf_tracking_to_pb.
Qed.
Lemma wf_seq_event_to_pb e : stored_text e -> wf_seq_event (seq_event_to_pb e).
Proof.
  intros (Hn & He & Ht). split; [exact Hn|]. split; cbn.
  - intros x [= <-]. now apply wf_event_to_pb.
  - eapply opt_map; [|exact Ht]. apply wf_tracking_to_pb.
Qed.

(** ** Errors *)
Lemma prefix_ascii k : Forall (fun c => c < 128) (err_prefix k).
Proof. destruct k; cbn; repeat constructor. Qed.
Lemma err_text_utf8 e : utf8_ok (e_text e) = true -> utf8_ok (err_text e) = true.
Proof. intros H. apply utf8_app_ascii; [apply prefix_ascii|exact H]. Qed.
Lemma prefix_nonempty k : err_prefix k <> [].
Proof. destruct k; discriminate. Qed.
Definition type_kind (t : N) : err :=
  if t =? T_AUTHENTICATION then EAuth else if t =? T_INVALID_ARGUMENT then EInvalidArgument else if t =? T_INTEGRITY then EIntegrity
  else if t =? T_CORRUPTION then ECorruption else if t =? T_SERIALIZATION then ESerialization else if t =? T_INTERNAL then EInternal else EIo.
Lemma error_crosses e : utf8_ok (e_text e) = true -> nlen (e_text e) < U32 ->
  dcb_error_from_status (status_from_dcb_error e) = Error (type_kind (classify (e_kind e)).2) (err_text e).
Proof.
  intros Hu Hl. unfold status_from_dcb_error. destruct (classify (e_kind e)) as [c t] eqn:Ec. unfold dcb_error_from_status. cbn [st_details st_code st_msg snd].
  assert (Ht : t < 7) by (unfold classify in Ec; destruct (e_kind e); injection Ec as _ <-; reflexivity).
  assert (Hne : err_text e <> []). { unfold err_text. intros E. apply app_eq_nil in E as [E _]. exact (prefix_nonempty _ E). }
  assert (Hsmall : nlen (put_fields (fields_error (PbError (err_text e) t))) < U64).
  { unfold fields_error. cbn [px_message px_type]. destruct (err_text e) as [|a l] eqn:Ea; [contradiction|]. cbn [f_str]. rewrite <- Ea. unfold put_fields. cbn [app map concat].
    rewrite nlen_app. unfold put_field at 1. cbn [fst snd]. rewrite !nlen_app. unfold err_text. rewrite nlen_app.
    pose proof (varint_length 9 (8 * 1 + 2)). pose proof (varint_length 9 (nlen (err_prefix (e_kind e)) + nlen (e_text e))).
    assert (nlen (err_prefix (e_kind e)) < 100) by (destruct (e_kind e); reflexivity).
    assert (nlen (concat (map put_field (f_num 2 t))) <= 20).
    { unfold f_num. destruct (t =? 0); [cbn [map concat]; rewrite (nlen_nil (A:=N)); lia|]. cbn [map concat]. rewrite app_nil_r. unfold put_field. cbn [fst snd]. rewrite nlen_app.
      pose proof (varint_length 9 (8 * 2)). pose proof (varint_length 9 t). lia. }
    unfold U32, U64 in *. lia. }
  assert (Hpos : 0 <? nlen (put_fields (fields_error (PbError (err_text e) t))) = true).
  { apply N.ltb_lt. unfold fields_error. cbn [px_message px_type]. destruct (err_text e) as [|a l]; [contradiction|]. cbn [f_str app]. unfold put_fields. cbn [map concat]. rewrite nlen_app.
    pose proof (put_field_length (1, WLen (a :: l))). lia. }
  rewrite Hpos, (codec_bytes _ _ _ _ (PbError (err_text e) t) codec_error).
  - unfold type_kind. repeat (destruct (t =? _); [reflexivity|]). reflexivity.
  - split; [now apply err_text_utf8|]. cbn. unfold U32. lia.
  - exact Hsmall.
Qed.
