(** Property C54: bytes from a client that does not keep to the rules. *)
From Coq Require Import Strings.String.
From Verif Require Import PropsWire ProtoProofs WireProofs EventsProofs Mvcc.
Local Open Scope N_scope.

(** ** What decoding can yield *)
Lemma get_varint_aux_lt fuel : forall l n r, is_bytes l -> get_varint_aux fuel l = Some (n, r) -> n < 2 * 128 ^ N.of_nat fuel /\ is_bytes r /\ (length r < length l)%nat.
Proof.
  induction fuel as [|f IH]; intros l n r Hl E; (destruct l as [|b l]; [discriminate E|]); inversion Hl as [|? ? Hb Hl']; subst; cbn [get_varint_aux] in E.
  - destruct (N.ltb_spec b 2); [|discriminate]. injection E as <- <-. split; [|split; [exact Hl'|cbn; lia]]. change (128 ^ N.of_nat 0) with 1. lia.
  - rewrite Nat2N.inj_succ, N.pow_succ_r'. assert (0 < 128 ^ N.of_nat f) by (apply N.neq_0_lt_0, N.pow_nonzero; lia). destruct (N.ltb_spec b 128).
    + injection E as <- <-. split; [nia|]. split; [exact Hl'|cbn; lia].
    + destruct (get_varint_aux f l) as [[v r']|] eqn:Ev; [|discriminate]. injection E as <- <-. destruct (IH _ _ _ Hl' Ev) as (Hv & Hr & Hlen). split; [|split; [exact Hr|cbn; lia]].
      nia.
Qed.
Lemma get_varint_lt l n r : is_bytes l -> get_varint l = Some (n, r) -> n < U64 /\ is_bytes r /\ (length r < length l)%nat.
Proof. intros Hl E. exact (get_varint_aux_lt 9 l n r Hl E). Qed.
Definition field_in (len : nat) (f : field) : Prop := match f.2 with WVar n => n < U64 | WLen b => is_bytes b /\ (length b < len)%nat | WFix _ => True end.
Lemma get_fields_in fuel : forall l fs, is_bytes l -> get_fields_aux fuel l = Some fs -> Forall (field_in (length l)) fs /\ (length fs <= length l)%nat.
Proof.
  induction fuel as [|fuel IH]; intros l fs Hl E; (destruct l as [|c l]; [injection E as <-; split; [constructor|cbn; lia]|]); [discriminate E|].
  cbn [get_fields_aux] in E. destruct (get_varint (c :: l)) as [[key l1]|] eqn:E1; [|discriminate]. destruct (get_varint_lt _ _ _ Hl E1) as (Hk & Hl1 & L1).
  destruct ((U32 <=? key) || (key / 8 =? 0)); [discriminate|].
  assert (Hm : forall len len' fs, (len <= len')%nat -> Forall (field_in len) fs -> Forall (field_in len') fs).
  { intros len len' fs' Hle H. eapply List.Forall_impl; [|exact H]. intros [k v]. unfold field_in. cbn [fst snd]. destruct v; [easy| |easy]. intros [? ?]. split; [assumption|lia]. }
  assert (Hdone : forall r fs' f, is_bytes r -> (length r < length (c :: l))%nat -> get_fields_aux fuel r = Some fs' -> field_in (length (c :: l)) f ->
    Forall (field_in (length (c :: l))) (f :: fs') /\ (length (f :: fs') <= length (c :: l))%nat).
  { intros r fs' f Hr Lr E' Hf. destruct (IH _ _ Hr E') as [H1 H2]. split; [|cbn in *; lia]. constructor; [exact Hf|]. eapply Hm; [|exact H1]. lia. }
  destruct (key mod 8 =? 0); [|destruct (key mod 8 =? 2); [|destruct ((key mod 8 =? 1) || (key mod 8 =? 5)); [|discriminate]]].
  - destruct (get_varint l1) as [[n l2]|] eqn:E2; [|discriminate]. destruct (get_varint_lt _ _ _ Hl1 E2) as (Hn & Hl2 & L2).
    destruct (get_fields_aux fuel l2) as [fs'|] eqn:E3; [|discriminate]. injection E as <-. apply (Hdone l2); [exact Hl2|lia|exact E3|exact Hn].
  - destruct (get_varint l1) as [[n l2]|] eqn:E2; [|discriminate]. destruct (get_varint_lt _ _ _ Hl1 E2) as (Hn & Hl2 & L2).
    destruct (N.ltb_spec (nlen l2) n) as [|Hle]; [discriminate|].
    destruct (get_fields_aux fuel (drop (N.to_nat n) l2)) as [fs'|] eqn:E3; [|discriminate]. injection E as <-.
    apply (Hdone (drop (N.to_nat n) l2)); [now apply Forall_drop|rewrite drop_length; lia|exact E3|]. split; [now apply Forall_take|]. rewrite take_length. lia.
  - set (j := if key mod 8 =? 1 then 8%nat else 4%nat) in *. destruct (Nat.ltb_spec (length l1) j); [discriminate|].
    destruct (get_fields_aux fuel (drop j l1)) as [fs'|] eqn:E3; [|discriminate]. injection E as <-.
    apply (Hdone (drop j l1)); [now apply Forall_drop|rewrite drop_length; lia|exact E3|exact I].
Qed.
(** A message type whose values keep [wf], whatever is merged. *)
Definition decodes {M} (step : N -> wval -> M -> option M) (wf : M -> Prop) : Prop :=
  forall k v m m', field_in (N.to_nat MAX_RECV + 1) (k, v) -> wf m -> step k v m = Some m' -> wf m'.
Lemma merge_wf {M} step (wf : M -> Prop) : decodes step wf -> forall fs m m', Forall (field_in (N.to_nat MAX_RECV + 1)) fs -> wf m -> Wire.merge step fs m = Some m' -> wf m'.
Proof.
  intros H. induction fs as [|[k v] fs IH]; intros m m' Hf Hm E; [now injection E as <-|]. inversion Hf; subst. cbn [Wire.merge] in E. destruct (step k v m) as [m1|] eqn:E1; [|discriminate]. eauto.
Qed.
Lemma merge_bytes_wf {M} step (wf : M -> Prop) b m m' : decodes step wf -> is_bytes b -> (length b <= N.to_nat MAX_RECV)%nat -> wf m -> merge_bytes step b m = Some m' -> wf m'.
Proof.
  intros H Hb Hl Hm. unfold merge_bytes. destruct (get_fields b) as [fs|] eqn:E; [|discriminate]. intros E'. eapply merge_wf; [exact H| |exact Hm|exact E'].
  destruct (get_fields_in _ _ _ Hb E) as [Hf _]. eapply List.Forall_impl; [|exact Hf]. intros [k v]. unfold field_in. cbn [fst snd]. destruct v; [easy| |easy]. intros [? ?]. split; [assumption|lia].
Qed.
Lemma get_msg_wf {M} step (wf : M -> Prop) k v m m' : decodes step wf -> field_in (N.to_nat MAX_RECV + 1) (k, v) -> wf m -> get_msg step v m = Some m' -> wf m'.
Proof. intros H Hf Hm. destruct v as [n|b|b]; [discriminate| |discriminate]. cbn [get_msg]. apply merge_bytes_wf; [exact H|apply Hf| |exact Hm]. destruct Hf as [_ Hf]. lia. Qed.
Lemma get_str_wf v s : get_str v = Some s -> utf8_ok s = true.
Proof. destruct v as [n|b|b]; [discriminate| |discriminate]. unfold get_str. destruct (utf8_ok b) eqn:E; [|discriminate]. now intros [= <-]. Qed.
Lemma get_u64_wf k v n : field_in (N.to_nat MAX_RECV + 1) (k, v) -> get_u64 v = Some n -> n < U64.
Proof. destruct v as [m|b|b]; [|discriminate..]. intros H [= <-]. exact H. Qed.
Lemma get_u32_wf v n : get_u32 v = Some n -> n < U32.
Proof. destruct v as [m|b|b]; [|discriminate..]. intros [= <-]. apply N.mod_lt. discriminate. Qed.

(* the field is none of the known ones, or the known one with number [k] *)
Ltac field k := destruct k as [|k]; [intros [= <-]; assumption|repeat (destruct k as [k|k|]; try (intros [= <-]; assumption))].
Lemma Forall_snoc {A} (P : A -> Prop) l x : Forall P l -> P x -> Forall P (l ++ [x]).
Proof. intros H1 H2. apply Forall_app. split; [exact H1|]. constructor; [exact H2|constructor]. Qed.
Ltac got :=
  match goal with
  | |- (?o ≫= _) = Some _ -> _ => let E := fresh "E" in destruct o eqn:E; [|discriminate]; intros [= <-]
  end.
Lemma dec_meta : decodes step_meta wf_meta.
Proof.
  intros k v m m' Hf Hw. unfold step_meta. field k; got; destruct Hw; split; cbn; try assumption; eapply get_str_wf; eassumption.
Qed.
Lemma dec_event : decodes step_event wf_event.
Proof.
  intros k v m m' Hf Hw. unfold step_event. field k; got; destruct Hw as (H1 & H2 & H3 & H4); split_and!; cbn; try assumption; try (eapply get_str_wf; eassumption).
  - apply Forall_snoc; [assumption|]. eapply get_msg_wf; [exact dec_meta|exact Hf| |eassumption]. split; reflexivity.
  - apply Forall_snoc; [assumption|]. eapply get_str_wf; eassumption.
Qed.
Lemma dec_tracking : decodes step_tracking wf_tracking.
Proof.
  intros k v m m' Hf Hw. unfold step_tracking. field k; got; destruct Hw; split; cbn; try assumption; try (eapply get_str_wf; eassumption). eapply get_u64_wf; eassumption.
Qed.
Lemma dec_item : decodes step_item wf_item.
Proof.
  intros k v m m' Hf Hw. unfold step_item. field k; got; destruct Hw; split; cbn; try assumption; (apply Forall_snoc; [assumption|]; eapply get_str_wf; eassumption).
Qed.
Lemma dec_query : decodes step_query wf_query.
Proof.
  intros k v m m' Hf Hw. unfold step_query. field k; got. unfold wf_query in *. cbn. apply Forall_snoc; [assumption|]. eapply get_msg_wf; [exact dec_item|exact Hf| |eassumption]. split; constructor.
Qed.
Lemma opt_some {A} (P : A -> Prop) x : P x -> opt_all P (Some x). Proof. intros H y [= <-]. exact H. Qed.
Lemma opt_default {A} (P : A -> Prop) o d : opt_all P o -> P d -> P (default d o). Proof. intros H Hd. destruct o as [x|]; [now apply H|exact Hd]. Qed.
Lemma wf_no_query : wf_query no_query. Proof. constructor. Qed.
Lemma dec_condition : decodes step_condition wf_condition.
Proof.
  intros k v m m' Hf Hw. unfold step_condition. field k; got; destruct Hw; split; cbn; try assumption; apply opt_some.
  - eapply get_u64_wf; eassumption.
  - eapply get_msg_wf; [exact dec_query|exact Hf| |eassumption]. apply opt_default; [assumption|apply wf_no_query].
Qed.
Lemma dec_append : decodes step_append wf_append.
Proof.
  intros k v m m' Hf Hw. unfold step_append. field k; got; destruct Hw as (H1 & H2 & H3); split_and!; cbn; try assumption.
  - apply opt_some. eapply get_msg_wf; [exact dec_tracking|exact Hf| |eassumption]. apply opt_default; [assumption|split; reflexivity].
  - apply opt_some. eapply get_msg_wf; [exact dec_condition|exact Hf| |eassumption]. apply opt_default; [assumption|split; intros ? [=]].
  - apply Forall_snoc; [assumption|]. eapply get_msg_wf; [exact dec_event|exact Hf| |eassumption]. split_and!; try reflexivity; constructor.
Qed.
Lemma dec_read : decodes step_read wf_read.
Proof.
  intros k v m m' Hf Hw. unfold step_read. field k; got; destruct Hw as (H1 & H2 & H3 & H4); split_and!; cbn; try assumption; apply opt_some; try (eapply get_u64_wf; eassumption); try (eapply get_u32_wf; eassumption).
  eapply get_msg_wf; [exact dec_query|exact Hf| |eassumption]. apply opt_default; [assumption|apply wf_no_query].
Qed.
Lemma dec_subscribe : decodes step_subscribe wf_subscribe.
Proof.
  intros k v m m' Hf Hw. unfold step_subscribe. field k; got; destruct Hw as (H1 & H2 & H3); split_and!; cbn; try assumption; apply opt_some; try (eapply get_u64_wf; eassumption); try (eapply get_u32_wf; eassumption).
  eapply get_msg_wf; [exact dec_query|exact Hf| |eassumption]. apply opt_default; [assumption|apply wf_no_query].
Qed.
(** How much there can be. *)
Definition small_meta (m : pb_meta) : Prop := nlen (pm_key m) <= MAX_RECV /\ nlen (pm_value m) <= MAX_RECV.
Definition small_event (e : pb_event) : Prop := nlen (pe_data e) <= MAX_RECV /\ Forall small_meta (pe_meta e).
Lemma get_str_small k v s : field_in (N.to_nat MAX_RECV + 1) (k, v) -> get_str v = Some s -> nlen s <= MAX_RECV.
Proof. destruct v as [n|b|b]; [discriminate| |discriminate]. unfold get_str. intros [_ H]. destruct (utf8_ok b); [|discriminate]. intros [= <-]. unfold nlen. lia. Qed.
Lemma dec_small_meta : decodes step_meta small_meta.
Proof.
  intros k v m m' Hf Hw. unfold step_meta. field k; got; destruct Hw; split; cbn [pm_key pm_value]; try assumption; eapply get_str_small; eassumption.
Qed.
Lemma dec_small_event : decodes step_event small_event.
Proof.
  intros k v m m' Hf Hw. unfold step_event. field k; got; destruct Hw as (H1 & H2); split; cbn [pe_data pe_meta]; try assumption.
  - apply Forall_snoc; [assumption|]. eapply get_msg_wf; [exact dec_small_meta|exact Hf| |eassumption]. split; cbn; apply N.le_0_l.
  - destruct v as [n|x|x]; [discriminate| |discriminate]. injection E as <-. destruct Hf as [_ Hf]. unfold nlen. lia.
Qed.
Lemma merge_count {M} (step : N -> wval -> M -> option M) (cnt : M -> nat) : (forall k v m m', step k v m = Some m' -> (cnt m' <= S (cnt m))%nat) ->
  forall fs m m', Wire.merge step fs m = Some m' -> (cnt m' <= cnt m + length fs)%nat.
Proof.
  intros H. induction fs as [|[k v] fs IH]; intros m m' E; [injection E as <-; lia|]. cbn [Wire.merge length] in *. destruct (step k v m) as [m1|] eqn:E1; [|discriminate].
  specialize (H _ _ _ _ E1). specialize (IH _ _ E). lia.
Qed.
Lemma merge_bytes_count {M} (step : N -> wval -> M -> option M) (cnt : M -> nat) b m m' : (forall k v m m', step k v m = Some m' -> (cnt m' <= S (cnt m))%nat) ->
  is_bytes b -> merge_bytes step b m = Some m' -> (cnt m' <= cnt m + length b)%nat.
Proof.
  intros H Hb. unfold merge_bytes. destruct (get_fields b) as [fs|] eqn:E; [|discriminate]. intros E'. pose proof (merge_count step cnt H _ _ _ E'). destruct (get_fields_in _ _ _ Hb E). lia.
Qed.
Ltac count k := destruct k as [|k]; [intros [= <-]; lia|repeat (destruct k as [k|k|]; try (intros [= <-]; lia))].
Definition few_meta (e : pb_event) : Prop := nlen (pe_meta e) <= MAX_RECV.
Lemma dec_event_full k v e e' : field_in (N.to_nat MAX_RECV + 1) (k, v) -> e = no_event -> get_msg step_event v e = Some e' -> small_event e' /\ few_meta e'.
Proof.
  intros Hf -> E. split.
  - eapply get_msg_wf; [exact dec_small_event|exact Hf| |exact E]. split; [cbn; apply N.le_0_l|constructor].
  - destruct v as [n|b|b]; [discriminate| |discriminate]. cbn [get_msg] in E. destruct Hf as [Hb Hl]. unfold few_meta.
    pose proof (merge_bytes_count step_event (fun e => length (pe_meta e)) b no_event e') as H. apply H in E; [clear H; rename E into H| |exact Hb].
    2:{ clear. intros k v m m'. unfold step_event. count k; got; cbn [pe_meta]; rewrite ?app_length; cbn [length]; lia. }
    cbn [no_event pe_meta length] in H. unfold nlen. lia.
Qed.
Lemma dec_append_small : decodes step_append (fun r => Forall (fun e => small_event e /\ few_meta e) (pa_events r)).
Proof.
  intros k v m m' Hf Hw. unfold step_append. field k; got; cbn [pa_events]; try assumption. apply Forall_snoc; [exact Hw|]. eapply dec_event_full; [exact Hf|reflexivity|exact E].
Qed.

(** ** Requests that arrive *)
Lemma collect_all {A B} (f : A -> res B) (P : A -> Prop) (Q : B -> Prop) l r : (forall x y, P x -> f x = Ok y -> Q y) -> Forall P l -> collect f l = Ok r -> Forall Q r /\ length r = length l.
Proof.
  intros H Hl. revert r. induction Hl as [|x l Hx Hl IH]; intros r E; [injection E as <-; split; [constructor|reflexivity]|]. cbn [collect] in E.
  destruct (f x) as [y|] eqn:E1; [|discriminate]. cbn [rbind] in E. destruct (collect f l) as [ys|] eqn:E2; [|discriminate]. injection E as <-. destruct (IH _ eq_refl) as [I1 I2]. split; [constructor; eauto|cbn; lia].
Qed.
Lemma event_of_pb_text e x : wf_event e -> event_of_pb e = Ok x -> event_text x.
Proof.
  intros (H1 & H2 & H3 & H4) E. unfold event_of_pb in E. assert (Hm : meta_text (map (fun m => (pm_key m, pm_value m)) (pe_meta e))).
  { apply Forall_fmap. eapply List.Forall_impl; [|exact H4]. intros m [Hk Hv]. split; assumption. }
  destruct (pe_uuid e) as [|c u] eqn:Eu; [injection E as <-; split_and!; try assumption; intros ? [=]|]. destruct (parse_uuid (c :: u)) as [y|] eqn:Ey; [|discriminate]. injection E as <-.
  split_and!; try assumption. intros z [= <-]. apply parse_uuid_iff in Ey. destruct Ey as (Hb & Hl & _). auto.
Qed.
Lemma query_of_pb_text q : wf_query q -> query_text (query_of_pb q).
Proof. intros H. apply Forall_fmap. eapply List.Forall_impl; [|exact H]. intros i [Hi1 Hi2]. split; assumption. Qed.
Lemma append_of_pb_text m r : wf_append m -> append_of_pb m = Ok r -> request_text r.
Proof.
  intros (H1 & H2 & H3) E. unfold append_of_pb in E. destruct (collect event_of_pb (pa_events m)) as [evs|] eqn:Ec; [|discriminate]. injection E as <-. split_and!.
  - eapply collect_all; [exact event_of_pb_text|exact H1|exact Ec].
  - intros c Hc. cbn [rq_cond] in Hc. destruct (pa_condition m) as [x|]; [|discriminate]. injection Hc as <-. destruct (H2 x eq_refl) as [Hq Ha]. split; [|exact Ha]. cbn.
    destruct (pc_query x) as [q|]; [apply query_of_pb_text; now apply Hq|constructor].
  - intros t Ht. cbn [rq_trk] in Ht. destruct (pa_trk m) as [x|]; [|discriminate]. injection Ht as <-. exact (H3 x eq_refl).
Qed.
Lemma meta_size_small l : Forall (fun kv : bytes * bytes => nlen kv.1 <= MAX_RECV /\ nlen kv.2 <= MAX_RECV) l -> meta_size l <= 2 + nlen l * (2 * MAX_RECV + 4).
Proof.
  intros H. unfold meta_size. apply N.add_le_mono_l. induction H as [|[k v] l [H1 H2] Hl IH]; [reflexivity|]. rewrite nlen_cons. cbn [foldr fst snd] in *. unfold MAX_RECV in *. lia.
Qed.

(** Whatever bytes arrive: an append request that is accepted for processing has text where text is asked for, numbers of 64 bits,
    ids of 16 bytes, fewer than 2^32 events, and sizes that the store can add up. *)
Theorem received_append_ok b m r : is_bytes b -> receive step_append no_append b = Received m -> append_of_pb m = Ok r ->
  request_text r /\ Forall rec_wf (map (to_record (rq_trk r)) (rq_events r)) /\ nlen (rq_events r) <= MAX_RECV.
Proof.
  intros Hb. unfold receive. destruct (N.ltb_spec MAX_RECV (nlen b)) as [|Hl]; [discriminate|]. destruct (merge_bytes step_append b no_append) as [x|] eqn:E; [|discriminate]. intros [= <-] Er.
  assert (Hlen : (length b <= N.to_nat MAX_RECV)%nat) by (unfold nlen in Hl; lia).
  assert (Hw : wf_append x) by (eapply merge_bytes_wf; [exact dec_append|exact Hb|exact Hlen| |exact E]; split_and!; [constructor|intros ? [=]..]).
  assert (Hs : Forall (fun e => small_event e /\ few_meta e) (pa_events x)).
  { exact (merge_bytes_wf _ (fun r => Forall (fun e => small_event e /\ few_meta e) (pa_events r)) _ no_append _ dec_append_small Hb Hlen (Forall_nil_2 _) E). }
  assert (Hc : (length (pa_events x) <= length b)%nat).
  { pose proof (merge_bytes_count step_append (fun r => length (pa_events r)) b no_append x) as H. apply H in E; [cbn in E; exact E| |exact Hb].
    clear. intros k v m m'. unfold step_append. count k; got; cbn [pa_events]; rewrite ?app_length; cbn [length]; lia. }
  pose proof (append_of_pb_text _ _ Hw Er) as Ht. split; [exact Ht|]. unfold append_of_pb in Er. destruct (collect event_of_pb (pa_events x)) as [evs|] eqn:Ec; [|discriminate]. injection Er as <-. cbn [rq_events rq_trk] in *.
  destruct (collect_all event_of_pb (fun e => small_event e /\ few_meta e) (fun e => nlen (ne_data e) + meta_size (ne_meta e) < U64) (pa_events x) evs) as [Hsz Hn].
  2:exact Hs. 2:exact Ec.
  { intros e y [[Hd Hm] Hf] Ey. assert (ne_data y = pe_data e /\ ne_meta y = map (fun m => (pm_key m, pm_value m)) (pe_meta e)) as [-> ->].
    { unfold event_of_pb in Ey. destruct (pe_uuid e) as [|c u]; [injection Ey as <-; auto|]. destruct (parse_uuid (c :: u)); [|discriminate]. injection Ey as <-. auto. }
    pose proof (meta_size_small (map (fun m => (pm_key m, pm_value m)) (pe_meta e))) as H. rewrite nlen_map in H. unfold few_meta in Hf.
    assert (meta_size (map (fun m => (pm_key m, pm_value m)) (pe_meta e)) <= 2 + nlen (pe_meta e) * (2 * MAX_RECV + 4)) as Hms by (apply H; apply Forall_fmap; exact Hm).
    unfold MAX_RECV, U64 in *. nia. }
  split; [|unfold nlen in *; lia]. destruct Ht as (He & _ & Htr). cbn [rq_events rq_trk] in *. apply Forall_fmap. apply Forall_forall. intros e Hin.
  destruct (proj1 (Forall_forall _ _) He e Hin) as (T1 & T2 & T3 & T4). pose proof (proj1 (Forall_forall _ _) Hsz e Hin) as T5. unfold compose, rec_wf. cbn [to_record er_type er_tags er_uuid er_meta er_tracking er_data]. split_and!; try assumption.
  - destruct (ne_uuid e) as [u|]; [|exact I]. now apply T3.
  - destruct (pa_trk x) as [t|]; [|exact I]. exact (Htr _ eq_refl).
Qed.
(** So such a request meets the guard of the store's theorems, but for the two kinds of request that are known to be dangerous (findings F1 and F2), and as
    long as there are positions left. *)
Theorem received_append_guard w b m r : is_bytes b -> receive step_append no_append b = Received m -> append_of_pb m = Ok r ->
  (forall c, rq_cond r = Some c -> rq_events r <> [] /\ ac_after c <> Some (U64 - 1)) -> w_next_pos w + MAX_RECV < U64 -> req_wf w r.
Proof.
  intros H1 H2 H3 H4 H5. destruct (received_append_ok _ _ _ H1 H2 H3) as ((_ & Hc & _) & Hr & Hn). unfold MAX_RECV in *. split_and!; [exact Hr|lia| | |lia].
  - intros c a Ec Ea. destruct (H4 c Ec) as [_ Hne]. destruct (Hc c Ec) as [_ Ha]. specialize (Ha a Ea). assert (a <> U64 - 1) by congruence. lia.
  - intros c Ec. now apply (H4 c Ec).
Qed.
(** Reads and subscriptions. *)
Theorem received_read_ok b m x : is_bytes b -> receive step_read no_read b = Received m -> read_of_pb m = Ok x ->
  opt_all query_text x.1.1.1.1 /\ opt_all (fun n => n < U64) x.1.1.1.2 /\ opt_all (fun n => n < U32) x.1.2 /\ pr_subscribe m <> Some true.
Proof.
  intros Hb. unfold receive. destruct (N.ltb_spec MAX_RECV (nlen b)) as [|Hl]; [discriminate|]. destruct (merge_bytes step_read b no_read) as [y|] eqn:E; [|discriminate]. intros [= <-] Er.
  assert (Hlen : (length b <= N.to_nat MAX_RECV)%nat) by (unfold nlen in Hl; lia).
  assert (Hw : wf_read y) by (eapply merge_bytes_wf; [exact dec_read|exact Hb|exact Hlen| |exact E]; split_and!; intros ? [=]).
  unfold read_of_pb in Er. destruct (default false (pr_subscribe y)) eqn:Es; [discriminate|]. injection Er as <-. destruct Hw as (W1 & W2 & W3 & W4). cbn. split_and!; try assumption.
  - intros q Hq. destruct (pr_query y) as [q'|]; [|discriminate]. injection Hq as <-. apply query_of_pb_text. now apply W1.
  - intros E'. rewrite E' in Es. discriminate.
Qed.
Theorem received_subscribe_ok b m : is_bytes b -> receive step_subscribe no_subscribe b = Received m ->
  opt_all query_text (subscribe_of_pb m).1.1 /\ opt_all (fun n => n < U64) (subscribe_of_pb m).1.2.
Proof.
  intros Hb. unfold receive. destruct (N.ltb_spec MAX_RECV (nlen b)) as [|Hl]; [discriminate|]. destruct (merge_bytes step_subscribe b no_subscribe) as [y|] eqn:E; [|discriminate]. intros [= <-].
  assert (Hlen : (length b <= N.to_nat MAX_RECV)%nat) by (unfold nlen in Hl; lia).
  assert (Hw : wf_subscribe y) by (eapply merge_bytes_wf; [exact dec_subscribe|exact Hb|exact Hlen| |exact E]; split_and!; intros ? [=]).
  destruct Hw as (W1 & W2 & _). cbn. split; [|exact W2]. intros q Hq. destruct (pu_query y) as [q'|]; [|discriminate]. injection Hq as <-. apply query_of_pb_text. now apply W1.
Qed.

(** ** Messages that are cut off *)
Lemma varint_cut f : forall n k, (k < length (varint f n))%nat -> get_varint_aux f (take k (varint f n)) = None.
Proof.
  induction f as [|f IH]; intros n k Hk; cbn [varint] in *.
  - cbn in Hk. replace k with 0%nat by lia. reflexivity.
  - destruct (N.ltb_spec n 128) as [L|L]; [cbn in Hk; replace k with 0%nat by lia; reflexivity|]. destruct k as [|k]; [reflexivity|]. cbn [take get_varint_aux length] in *.
    rewrite (proj2 (N.ltb_ge _ _)) by lia. rewrite IH by lia. reflexivity.
Qed.
Lemma field_cut f fuel k : field_ok f -> (0 < k < length (put_field f))%nat -> get_fields_aux fuel (take k (put_field f)) = None.
Proof.
  intros [[H0 H1] H2] [Hk0 Hk]. assert (HU : U32 < U64) by reflexivity. destruct (take k (put_field f)) as [|c l] eqn:El.
  { apply (f_equal length) in El. rewrite take_length in El. cbn in El. lia. }
  destruct fuel as [|fuel]; [reflexivity|]. cbn [get_fields_aux]. rewrite <- El. clear El c l. destruct f as [q v]. unfold put_field in *. cbn [fst snd] in *.
  set (typ := match v with WVar _ => 0 | WLen _ => 2 | WFix b => if nlen b =? 8 then 1 else 5 end). assert (Ht : typ <= 5) by (unfold typ; destruct v as [?|?|b]; [lia|lia|destruct (nlen b =? 8); lia]).
  set (val := match v with WVar n => put_varint n | WLen b => put_varint (nlen b) ++ b | WFix b => b end).
  assert (E : (match v with WVar n => put_varint (8 * q) ++ put_varint n | WLen b => put_varint (8 * q + 2) ++ put_varint (nlen b) ++ b | WFix b => put_varint (8 * q + if nlen b =? 8 then 1 else 5) ++ b end) = put_varint (8 * q + typ) ++ val)
    by (destruct v; [unfold typ; now rewrite N.add_0_r|reflexivity|reflexivity]).
  rewrite E in *. clear E. rewrite app_length in Hk. destruct (Nat.lt_ge_cases k (length (put_varint (8 * q + typ)))) as [L|L].
  { rewrite take_app_le by lia. now rewrite varint_cut. }
  rewrite take_app_ge by exact L. rewrite put_get_varint by lia. set (j := (k - length (put_varint (8 * q + typ)))%nat). assert (Hj : (j < length val)%nat) by (unfold j; lia).
  case_match; [reflexivity|]. assert (Em : (8 * q + typ) mod 8 = typ) by (rewrite N.add_comm, (N.mul_comm 8), N.mod_add by lia; apply N.mod_small; lia). rewrite Em.
  destruct v as [n|b|b]; cbn [val_ok] in H2.
  - change (typ =? 0) with true. cbv iota. unfold val. rewrite varint_cut by exact Hj. reflexivity.
  - change (typ =? 0) with false. change (typ =? 2) with true. cbv iota. unfold val in *. rewrite app_length in Hj. destruct (Nat.lt_ge_cases j (length (put_varint (nlen b)))) as [L2|L2].
    + rewrite take_app_le by lia. now rewrite varint_cut.
    + rewrite take_app_ge by exact L2. rewrite put_get_varint by exact H2.
      rewrite (proj2 (N.ltb_lt _ _)); [reflexivity|]. set (u := length (put_varint (nlen b))) in *. clearbody u. unfold nlen. rewrite take_length. lia.
  - assert (Hn : (if typ =? 1 then 8%nat else 4%nat) = length b /\ (typ =? 0) = false /\ (typ =? 2) = false /\ (typ =? 1) || (typ =? 5) = true).
    { unfold typ. unfold nlen in H2 |- *. destruct (N.eqb_spec (N.of_nat (length b)) 8) as [E|E]; repeat split; cbn; lia. }
    destruct Hn as (-> & -> & -> & ->). unfold val in *. rewrite take_length. destruct (Nat.ltb_spec (j `min` length b) (length b)) as [L2|L2]; [reflexivity|lia].
Qed.
(** A message that ends within a field is refused. *)
Theorem cut_message_refused {M} (step : N -> wval -> M -> option M) dflt fs f k : Forall field_ok fs -> field_ok f -> (0 < k < length (put_field f))%nat ->
  forall m, receive step dflt (put_fields fs ++ take k (put_field f)) <> Received m.
Proof.
  intros Hfs Hf Hk m. unfold receive. case_match; [discriminate|]. unfold merge_bytes. assert (get_fields (put_fields fs ++ take k (put_field f)) = None) as ->; [|discriminate].
  clear H. unfold get_fields. generalize (length (put_fields fs ++ take k (put_field f))). induction Hfs as [|x fs Hx Hfs IH]; intros fuel; [exact (field_cut f fuel k Hf Hk)|].
  unfold put_fields. cbn [map concat]. rewrite <- app_assoc. destruct fuel as [|fuel].
  - destruct (put_field x) as [|c l] eqn:E; [|reflexivity]. pose proof (put_field_length x) as Hp. rewrite E in Hp. cbn in Hp. lia.
  - rewrite get_field_app by exact Hx. fold (put_fields fs). rewrite IH; reflexivity.
Qed.

(** ** Examples *)
(* an event of type "a" with an id in capital letters, a field that is not known, and the number of the condition before its query *)
Definition odd_bytes : bytes := put_fields [(1, WLen (put_fields [(1, WLen [97]); (4, WLen (text "0123456789ABCDEF0123456789ABCDEF"%string))])); (9, WVar 7);
  (2, WLen (put_fields [(2, WVar 5)])); (2, WLen (put_fields [(1, WLen (put_fields [(1, WLen (put_fields [(2, WLen [98])]))]))]))].
Example received_example : exists m r, is_bytes odd_bytes /\ receive step_append no_append odd_bytes = Received m /\ append_of_pb m = Ok r /\
  rq_cond r = Some (ACond [QItem [] [[98]]] (Some 5)) /\ map ne_type (rq_events r) = [[97]].
Proof.
  eexists _, _. split; [apply (bool_decide_unpack _); vm_compute; exact I|]. split; [vm_compute; reflexivity|]. split; [vm_compute; reflexivity|]. split; reflexivity.
Qed.
(** Not UTF-8; a number of more than 64 bits; the retired flag; an event that is cut off. *)
Example refused_example : receive step_append no_append (put_fields [(1, WLen (put_fields [(1, WLen [255])]))]) = Malformed /\
  receive step_subscribe no_subscribe [16; 255; 255; 255; 255; 255; 255; 255; 255; 255; 2] = Malformed /\
  (exists m, receive step_read no_read (put_fields [(5, WVar 1)]) = Received m /\ read_of_pb m = Err EInvalidArgument) /\
  receive step_append no_append (take 5 (put_fields [(1, WLen (put_fields [(1, WLen [97; 98])]))])) = Malformed.
Proof. split; [reflexivity|]. split; [reflexivity|]. split; [eexists; split; reflexivity|]. reflexivity. Qed.
Example cut_example : Forall field_ok [(1, WLen [97])] /\ field_ok (3, WLen [1; 2; 3]) /\ (0 < 4 < length (put_field (3%N, WLen [1; 2; 3]%N)))%nat.
Proof. split; [repeat constructor|]. split; [repeat constructor|]. split; apply Nat.ltb_lt; vm_compute; reflexivity. Qed.

Print Assumptions received_append_ok.
Print Assumptions received_append_guard.
Print Assumptions received_read_ok.
Print Assumptions received_subscribe_ok.
Print Assumptions cut_message_refused.
