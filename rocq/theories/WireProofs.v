(** What is encoded is decoded again. *)
From Verif Require Export Wire.
Local Open Scope N_scope.

(** ** Numbers *)
Lemma varint_rt f n r : n < 2 * 128 ^ N.of_nat f -> get_varint_aux f (varint f n ++ r) = Some (n, r).
Proof.
  revert n r. induction f as [|f IH]; intros n r Hn.
  - cbn. change (128 ^ N.of_nat 0) with 1 in Hn. destruct (N.ltb_spec n 2); [reflexivity|lia].
  - cbn [varint]. destruct (N.ltb_spec n 128) as [L|L].
    + cbn. destruct (N.ltb_spec n 128); [reflexivity|lia].
    + cbn [get_varint_aux app]. pose proof (N.mod_lt n 128 ltac:(lia)) as Hm. destruct (N.ltb_spec (n mod 128 + 128) 128); [lia|].
      rewrite IH.
      * f_equal. f_equal. pose proof (N.div_mod n 128 ltac:(lia)). lia.
      * rewrite Nat2N.inj_succ, N.pow_succ_r' in Hn. apply N.div_lt_upper_bound; lia.
Qed.
Lemma put_get_varint n r : n < U64 -> get_varint (put_varint n ++ r) = Some (n, r).
Proof. intros H. apply varint_rt. exact H. Qed.
Lemma varint_nonempty f n : varint f n <> [].
Proof. destruct f; cbn; [discriminate|]. destruct (n <? 128); discriminate. Qed.
Lemma varint_length f n : 1 <= nlen (varint f n) <= N.of_nat f + 1.
Proof.
  revert n. induction f as [|f IH]; intros n; cbn [varint]; [rewrite nlen_cons, nlen_nil; lia|].
  destruct (n <? 128); rewrite nlen_cons; [rewrite nlen_nil; lia|]. specialize (IH (n / 128)). lia.
Qed.

(** ** Fields *)
Definition val_ok (v : wval) : Prop := match v with WVar n => n < U64 | WLen b => nlen b < U64 | WFix b => nlen b = 4 \/ nlen b = 8 end.
Definition key_ok (k : N) : Prop := 0 < k /\ 8 * k + 5 < U32.
Definition field_ok (f : field) : Prop := key_ok f.1 /\ val_ok f.2.
(* all but the length of what is inside *)
Definition num_ok (f : field) : Prop := key_ok f.1 /\ match f.2 with WVar n => n < U64 | WLen _ => True | WFix b => nlen b = 4 \/ nlen b = 8 end.

Lemma put_field_length f : 0 < nlen (put_field f).
Proof.
  unfold put_field. destruct f.2 as [n|b|b]; rewrite nlen_app; [pose proof (varint_length 9 (8 * f.1))|pose proof (varint_length 9 (8 * f.1 + 2))|pose proof (varint_length 9 (8 * f.1 + if nlen b =? 8 then 1 else 5))]; lia.
Qed.
Lemma get_field_app f fuel r : field_ok f ->
  get_fields_aux (S fuel) (put_field f ++ r) = match get_fields_aux fuel r with Some fs => Some (f :: fs) | None => None end.
Proof.
  intros [[H0 H1] H2]. destruct f as [k v]. cbn [fst snd] in *. unfold put_field. cbn [fst snd].
  assert (HU : U32 < U64) by reflexivity.
  assert (HK : forall t, t < 8 -> (8 * k + t) / 8 = k /\ (8 * k + t) mod 8 = t).
  { intros t Ht. split; [rewrite (N.mul_comm 8), N.div_add_l by lia; rewrite N.div_small by exact Ht; lia|]. rewrite N.add_comm, (N.mul_comm 8), N.mod_add by lia. now apply N.mod_small. }
  destruct v as [n|b|b]; cbn [val_ok] in H2.
  - rewrite <- app_assoc. destruct (varint 9 (8 * k) ++ varint 9 n ++ r) as [|c l] eqn:El.
    { apply app_eq_nil in El. destruct El as [El _]. exfalso. exact (varint_nonempty _ _ El). }
    cbn [get_fields_aux]. rewrite <- El. rewrite put_get_varint by lia. destruct (HK 0) as [K1 K2]; [lia|]. rewrite N.add_0_r in K1, K2. rewrite K1, K2.
    destruct (N.leb_spec U32 (8 * k)); [lia|]. destruct (N.eqb_spec k 0); [lia|]. cbn [orb]. change (0 =? 0) with true. cbv iota. rewrite put_get_varint by exact H2. reflexivity.
  - rewrite <- !app_assoc. destruct (varint 9 (8 * k + 2) ++ varint 9 (nlen b) ++ b ++ r) as [|c l] eqn:El.
    { apply app_eq_nil in El. destruct El as [El _]. exfalso. exact (varint_nonempty _ _ El). }
    cbn [get_fields_aux]. rewrite <- El. rewrite put_get_varint by lia. destruct (HK 2) as [K1 K2]; [lia|]. rewrite K1, K2.
    destruct (N.leb_spec U32 (8 * k + 2)); [lia|]. destruct (N.eqb_spec k 0); [lia|]. cbn [orb]. change (2 =? 0) with false. change (2 =? 2) with true. cbv iota. rewrite put_get_varint by exact H2.
    destruct (N.ltb_spec (nlen (b ++ r)) (nlen b)) as [L|L]; [rewrite nlen_app in L; lia|].
    unfold nlen. rewrite Nat2N.id, drop_app, take_app. reflexivity.
  - set (t := if nlen b =? 8 then 1 else 5). assert (Ht : t < 8 /\ t <= 5) by (unfold t; destruct (nlen b =? 8); lia).
    rewrite <- !app_assoc. destruct (varint 9 (8 * k + t) ++ b ++ r) as [|c l] eqn:El.
    { apply app_eq_nil in El. destruct El as [El _]. exfalso. exact (varint_nonempty _ _ El). }
    cbn [get_fields_aux]. rewrite <- El. rewrite put_get_varint by lia. destruct (HK t) as [K1 K2]; [lia|]. rewrite K1, K2.
    destruct (N.leb_spec U32 (8 * k + t)); [lia|]. destruct (N.eqb_spec k 0); [lia|]. cbn [orb].
    assert (Hn : (if t =? 1 then 8%nat else 4%nat) = length b /\ (t =? 0) = false /\ (t =? 2) = false /\ (t =? 1) || (t =? 5) = true).
    { unfold t. unfold nlen in H2 |- *. destruct (N.eqb_spec (N.of_nat (length b)) 8) as [E|E]; repeat split; cbn; lia. }
    destruct Hn as (-> & -> & -> & ->). rewrite app_length. destruct (Nat.ltb_spec (length b + length r) (length b)) as [L|L]; [lia|].
    rewrite drop_app, take_app. reflexivity.
Qed.
Lemma get_put_fields_aux fs : Forall field_ok fs -> forall fuel, (length (put_fields fs) <= fuel)%nat -> get_fields_aux fuel (put_fields fs) = Some fs.
Proof.
  induction 1 as [|f fs Hf Hfs IH]; intros fuel Hl; [destruct fuel; reflexivity|].
  unfold put_fields in *. cbn [map concat] in *. rewrite app_length in Hl. pose proof (put_field_length f) as Hp. unfold nlen in Hp.
  destruct fuel as [|fuel]; [lia|]. rewrite (get_field_app _ _ _ Hf), IH; [reflexivity|lia].
Qed.
Lemma get_put_fields fs : Forall field_ok fs -> get_fields (put_fields fs) = Some fs.
Proof. intros H. apply get_put_fields_aux; [exact H|lia]. Qed.

Lemma put_fields_app fs1 fs2 : put_fields (fs1 ++ fs2) = put_fields fs1 ++ put_fields fs2.
Proof. unfold put_fields. now rewrite map_app, concat_app. Qed.
Lemma field_in_length fs k b : (k, WLen b) ∈ fs -> nlen b <= nlen (put_fields fs).
Proof.
  induction fs as [|f fs IH]; intros H; [now apply elem_of_nil in H|].
  unfold put_fields. cbn [map concat]. rewrite nlen_app. apply elem_of_cons in H as [<-|H].
  - unfold put_field. cbn [fst snd]. rewrite !nlen_app. lia.
  - specialize (IH H). unfold put_fields in IH. lia.
Qed.
Lemma fields_fit fs : Forall num_ok fs -> nlen (put_fields fs) < U64 -> Forall field_ok fs.
Proof.
  intros H Hl. apply Forall_forall. intros [k v] Hin. rewrite Forall_forall in H. destruct (H _ Hin) as [Hk Hv].
  split; [exact Hk|]. destruct v as [n|b|b]; [exact Hv| |exact Hv]. cbn [snd val_ok]. pose proof (field_in_length _ _ _ Hin). lia.
Qed.

(** ** Messages *)
Section messages.
  Context {M : Type} (step : N -> wval -> M -> option M).
  Lemma merge_cons k v fs m m' : step k v m = Some m' -> merge step ((k, v) :: fs) m = merge step fs m'.
  Proof. intros E. cbn [merge]. now rewrite E. Qed.
  Lemma merge_str k s fs m m' : step k (WLen s) m = Some m' -> (s = [] -> m' = m) -> merge step (f_str k s ++ fs) m = merge step fs m'.
  Proof. intros E E0. destruct s as [|c s]; [now rewrite (E0 eq_refl)|]. cbn [f_str app]. now apply merge_cons. Qed.
  Lemma merge_num k n fs m m' : step k (WVar n) m = Some m' -> (n = 0 -> m' = m) -> merge step (f_num k n ++ fs) m = merge step fs m'.
  Proof. intros E E0. unfold f_num. destruct (N.eqb_spec n 0) as [->|Hn]; [now rewrite (E0 eq_refl)|]. cbn [app]. now apply merge_cons. Qed.
  Lemma merge_opt {A} k (enc : A -> wval) o fs m m' : (forall x, o = Some x -> step k (enc x) m = Some m') -> (o = None -> m' = m) ->
    merge step (f_opt k enc o ++ fs) m = merge step fs m'.
  Proof. intros E E0. destruct o as [x|]; [|now rewrite (E0 eq_refl)]. cbn [f_opt app]. apply merge_cons. now apply E. Qed.
  Lemma merge_rep {A} k (enc : A -> wval) (set : list A -> M) l fs : (forall acc x, x ∈ l -> step k (enc x) (set acc) = Some (set (acc ++ [x]))) ->
    forall acc, merge step (f_rep k enc l ++ fs) (set acc) = merge step fs (set (acc ++ l)).
  Proof.
    induction l as [|x l IH]; intros E acc; [now rewrite app_nil_r|]. cbn [f_rep map app].
    rewrite (merge_cons _ _ _ _ (set (acc ++ [x]))).
    - rewrite IH; [now rewrite <- app_assoc|]. intros acc' y Hy. apply E. now right.
    - apply E. now left.
  Qed.
  Lemma get_msg_put fs m : Forall field_ok fs -> get_msg step (WLen (put_fields fs)) m = merge step fs m.
  Proof. intros H. cbn [get_msg]. unfold merge_bytes. now rewrite get_put_fields. Qed.
End messages.

(** A message type: every value that satisfies [wf] and whose encoding is not too long is decoded from its encoding. *)
Definition codec {M} (step : N -> wval -> M -> option M) (dflt : M) (fields : M -> list field) (wf : M -> Prop) : Prop :=
  forall x, wf x -> nlen (put_fields (fields x)) < U64 -> Forall field_ok (fields x) /\ merge step (fields x) dflt = Some x.
Lemma codec_msg {M} step (dflt : M) fields wf x : codec step dflt fields wf -> wf x -> nlen (put_fields (fields x)) < U64 ->
  get_msg step (WLen (put_fields (fields x))) dflt = Some x.
Proof. intros H Hw Hl. destruct (H x Hw Hl) as [H1 H2]. now rewrite get_msg_put. Qed.
Lemma codec_bytes {M} step (dflt : M) fields wf x : codec step dflt fields wf -> wf x -> nlen (put_fields (fields x)) < U64 ->
  merge_bytes step (put_fields (fields x)) dflt = Some x.
Proof. exact (codec_msg step dflt fields wf x). Qed.
Lemma codec_receive {M} step (dflt : M) fields wf x : codec step dflt fields wf -> wf x ->
  receive step dflt (put_fields (fields x)) = if MAX_RECV <? nlen (put_fields (fields x)) then TooLong else Received x.
Proof.
  intros H Hw. unfold receive. destruct (N.ltb_spec MAX_RECV (nlen (put_fields (fields x)))) as [L|L]; [reflexivity|].
  rewrite (codec_bytes _ _ _ _ _ H Hw); [reflexivity|]. eapply N.le_lt_trans; [exact L|]. reflexivity.
Qed.

Lemma get_str_ok s : utf8_ok s = true -> get_str (WLen s) = Some s.
Proof. intros H. unfold get_str. now rewrite H. Qed.
Lemma num_str k s : key_ok k -> Forall num_ok (f_str k s).
Proof. intros H. destruct s; cbn; [constructor|]. constructor; [|constructor]. split; [exact H|exact I]. Qed.
Lemma num_num k n : key_ok k -> n < U64 -> Forall num_ok (f_num k n).
Proof. intros H Hn. unfold f_num. destruct (n =? 0); [constructor|]. constructor; [|constructor]. split; [exact H|exact Hn]. Qed.
Lemma num_opt {A} k (enc : A -> wval) o : key_ok k -> (forall x b, enc x <> WFix b) -> (forall x n, o = Some x -> enc x = WVar n -> n < U64) -> Forall num_ok (f_opt k enc o).
Proof.
  intros H Hx Hn. destruct o as [x|]; cbn; [|constructor]. constructor; [|constructor]. split; [exact H|]. cbn [snd].
  destruct (enc x) eqn:Ee; [|exact I|now apply Hx in Ee]. eapply Hn; [reflexivity|exact Ee].
Qed.
Lemma num_rep {A} k (enc : A -> wval) (l : list A) : key_ok k -> (forall x, exists b, enc x = WLen b) -> Forall num_ok (f_rep k enc l).
Proof.
  intros H Hn. unfold f_rep. apply Forall_forall. intros f Hf. apply elem_of_list_fmap in Hf as (x & -> & _). split; [exact H|]. cbn [snd].
  destruct (Hn x) as [b ->]. exact I.
Qed.
Lemma in_rep {A} k (enc : A -> wval) l x : x ∈ l -> (k, enc x) ∈ f_rep k enc l.
Proof. intros H. apply elem_of_list_fmap. eauto. Qed.
Lemma in_opt {A} k (enc : A -> wval) (o : option A) x : o = Some x -> (k, enc x) ∈ f_opt k enc o.
Proof. intros ->. now left. Qed.

Ltac key := split; [lia|reflexivity].
Ltac nums := repeat first
  [ apply Forall_app; split
  | apply num_str; key
  | apply num_num; [key|]
  | apply num_rep; [key|intros ?; eexists; reflexivity]
  | apply num_opt; [key|intros ? ?; discriminate|intros ? ? ? ?] ].
Ltac inside := repeat rewrite elem_of_app; repeat (first [left; solve [eauto using in_rep, in_opt] | right]); eauto using in_rep, in_opt.
Ltac short H := match goal with |- nlen ?x < U64 => eapply N.le_lt_trans; [eapply (field_in_length _ _ x)|exact H] end.

(** ** The messages of the service *)
Notation utf8 s := (utf8_ok s = true).
Definition wf_meta (m : pb_meta) : Prop := utf8 (pm_key m) /\ utf8 (pm_value m).
Lemma codec_meta : codec step_meta (PbMeta [] []) fields_meta wf_meta.
Proof.
  intros [k v] [Hk Hv] Hl. cbn in Hk, Hv. split; [apply fields_fit; [nums|exact Hl]|]. unfold fields_meta. cbn [pm_key pm_value].
  rewrite <- (app_nil_r (f_str 2 v)).
  erewrite merge_str; [| cbn [step_meta]; rewrite get_str_ok by exact Hk; reflexivity | intros ->; reflexivity].
  erewrite merge_str; [| cbn [step_meta]; rewrite get_str_ok by exact Hv; reflexivity | intros ->; reflexivity].
  reflexivity.
Qed.

Definition wf_event (e : pb_event) : Prop :=
  utf8 (pe_type e) /\ Forall (fun t => utf8 t) (pe_tags e) /\ utf8 (pe_uuid e) /\ Forall wf_meta (pe_meta e).
Lemma codec_event : codec step_event no_event fields_event wf_event.
Proof.
  intros [t g d u m] (Ht & Hg & Hu & Hm) Hl. cbn in Ht, Hg, Hu, Hm. split; [apply fields_fit; [nums|exact Hl]|].
  unfold fields_event in *. cbn [pe_type pe_tags pe_data pe_uuid pe_meta] in *. unfold no_event.
  erewrite merge_str; [| cbn [step_event]; rewrite get_str_ok by exact Ht; reflexivity | intros ->; reflexivity]. cbn [pe_type pe_tags pe_data pe_uuid pe_meta].
  rewrite (merge_rep _ 2 WLen (fun acc => PbEvent t acc [] [] [])).
  2:{ intros acc x Hx. cbn [step_event pe_type pe_tags pe_data pe_uuid pe_meta]. rewrite Forall_forall in Hg. rewrite get_str_ok by (apply Hg; exact Hx). reflexivity. }
  erewrite merge_str; [| cbn [step_event get_bytes]; reflexivity | intros ->; reflexivity]. cbn [pe_type pe_tags pe_data pe_uuid pe_meta].
  erewrite merge_str; [| cbn [step_event]; rewrite get_str_ok by exact Hu; reflexivity | intros ->; reflexivity]. cbn [pe_type pe_tags pe_data pe_uuid pe_meta].
  rewrite <- (app_nil_r (f_rep 5 _ m)). rewrite (merge_rep _ 5 _ (fun acc => PbEvent t g d u acc)); [reflexivity|].
  intros acc x Hx. cbn [step_event pe_type pe_tags pe_data pe_uuid pe_meta].
  rewrite (codec_msg _ _ _ _ _ codec_meta).
  - reflexivity.
  - rewrite Forall_forall in Hm. now apply Hm.
  - short Hl. rewrite !elem_of_app. do 4 right. apply (in_rep 5 (fun m => WLen (put_fields (fields_meta m)))). exact Hx.
Qed.

Definition wf_tracking (t : pb_tracking) : Prop := utf8 (pt_source t) /\ pt_pos t < U64.
Lemma codec_tracking : codec step_tracking no_tracking fields_tracking wf_tracking.
Proof.
  intros [s n] [Hs Hn] Hl. cbn in Hs, Hn. split; [apply fields_fit; [nums; exact Hn|exact Hl]|]. unfold fields_tracking, no_tracking. cbn [pt_source pt_pos].
  rewrite <- (app_nil_r (f_num 2 n)).
  erewrite merge_str; [| cbn [step_tracking]; rewrite get_str_ok by exact Hs; reflexivity | intros ->; reflexivity].
  erewrite merge_num; [| cbn [step_tracking get_u64]; reflexivity | intros ->; reflexivity].
  reflexivity.
Qed.

Notation opt_all P o := (forall x, o = Some x -> P x).
Definition wf_seq_event (e : pb_seq_event) : Prop :=
  ps_pos e < U64 /\ opt_all wf_event (ps_event e) /\ opt_all wf_tracking (ps_trk e).
Lemma codec_seq_event : codec step_seq_event (PbSeqEvent 0 None None) fields_seq_event wf_seq_event.
Proof.
  intros [n e t] (Hn & He & Ht) Hl. cbn in Hn, He, Ht. split; [apply fields_fit; [nums; try discriminate; exact Hn|exact Hl]|].
  unfold fields_seq_event in *. cbn [ps_pos ps_event ps_trk] in *.
  erewrite merge_num; [| cbn [step_seq_event get_u64]; reflexivity | intros ->; reflexivity]. cbn [ps_pos ps_event ps_trk].
  rewrite (merge_opt _ 2 w_event e _ _ (PbSeqEvent n e None)).
  - rewrite <- (app_nil_r (f_opt 3 _ t)). rewrite (merge_opt _ 3 w_tracking t _ _ (PbSeqEvent n e t)); [reflexivity| |intros ->; reflexivity].
    intros x ->. cbn [step_seq_event ps_pos ps_event ps_trk default]. unfold w_tracking. rewrite (codec_msg _ _ _ _ _ codec_tracking); [reflexivity|now apply Ht|].
    short Hl. rewrite !elem_of_app. do 2 right. now left.
  - intros x ->. cbn [step_seq_event ps_pos ps_event ps_trk default]. unfold w_event. rewrite (codec_msg _ _ _ _ _ codec_event); [reflexivity|now apply He|].
    short Hl. rewrite !elem_of_app. right. left. now left.
  - intros ->. reflexivity.
Qed.

Definition wf_item (i : pb_item) : Prop := Forall (fun t => utf8 t) (pi_types i) /\ Forall (fun t => utf8 t) (pi_tags i).
Lemma codec_item : codec step_item (PbItem [] []) fields_item wf_item.
Proof.
  intros [t g] [Ht Hg] Hl. cbn in Ht, Hg. split; [apply fields_fit; [nums|exact Hl]|]. unfold fields_item. cbn [pi_types pi_tags].
  rewrite Forall_forall in Ht. rewrite Forall_forall in Hg.
  rewrite (merge_rep _ 1 WLen (fun acc => PbItem acc [])).
  2:{ intros acc x Hx. cbn [step_item]. rewrite get_str_ok by (apply Ht; exact Hx). reflexivity. }
  rewrite <- (app_nil_r (f_rep 2 WLen g)). rewrite (merge_rep _ 2 WLen (fun acc => PbItem t acc)); [reflexivity|].
  intros acc x Hx. cbn [step_item]. rewrite get_str_ok by (apply Hg; exact Hx). reflexivity.
Qed.
Definition wf_query (q : pb_query) : Prop := Forall wf_item (pq_items q).
Lemma codec_query : codec step_query no_query fields_query wf_query.
Proof.
  intros [l] Hq Hl. unfold wf_query in Hq. cbn in Hq. split; [apply fields_fit; [nums|exact Hl]|]. unfold fields_query in *. cbn [pq_items] in *.
  rewrite <- (app_nil_r (f_rep 1 _ l)). unfold no_query. rewrite (merge_rep _ 1 _ (fun acc => PbQuery acc)); [reflexivity|].
  intros acc x Hx. cbn [step_query pq_items]. rewrite (codec_msg _ _ _ _ _ codec_item); [reflexivity|rewrite Forall_forall in Hq; now apply Hq|].
  short Hl. apply (in_rep 1 (fun i => WLen (put_fields (fields_item i)))). exact Hx.
Qed.
Definition wf_condition (c : pb_condition) : Prop := opt_all wf_query (pc_query c) /\ opt_all (fun n => n < U64) (pc_after c).
Lemma codec_condition : codec step_condition no_condition fields_condition wf_condition.
Proof.
  intros [q a] [Hq Ha] Hl. cbn in Hq, Ha. split; [apply fields_fit; [nums; try discriminate; cbn in *; simplify_eq; now apply Ha|exact Hl]|].
  unfold fields_condition, no_condition in *. cbn [pc_query pc_after] in *.
  rewrite (merge_opt _ 1 w_query q _ _ (PbCondition q None)).
  - rewrite <- (app_nil_r (f_opt 2 _ a)). rewrite (merge_opt _ 2 WVar a _ _ (PbCondition q a)); [reflexivity| |intros ->; reflexivity].
    intros x ->. reflexivity.
  - intros x ->. cbn [step_condition pc_query pc_after default]. unfold w_query. rewrite (codec_msg _ _ _ _ _ codec_query); [reflexivity|now apply Hq|].
    short Hl. rewrite !elem_of_app. left. now left.
  - intros ->. reflexivity.
Qed.

Definition wf_append (r : pb_append) : Prop :=
  Forall wf_event (pa_events r) /\ opt_all wf_condition (pa_condition r) /\ opt_all wf_tracking (pa_trk r).
Lemma codec_append : codec step_append no_append fields_append wf_append.
Proof.
  intros [e c t] (He & Hc & Ht) Hl. cbn in He, Hc, Ht. split; [apply fields_fit; [nums; discriminate|exact Hl]|].
  unfold fields_append, no_append in *. cbn [pa_events pa_condition pa_trk] in *.
  rewrite (merge_rep _ 1 w_event (fun acc => PbAppend acc None None)).
  2:{ intros acc x Hx. cbn [step_append pa_events pa_condition pa_trk]. unfold w_event. rewrite (codec_msg _ _ _ _ _ codec_event); [reflexivity|rewrite Forall_forall in He; now apply He|].
      short Hl. rewrite !elem_of_app. left. apply (in_rep 1 w_event). exact Hx. }
  cbn [app]. rewrite (merge_opt _ 2 w_condition c _ _ (PbAppend e c None)).
  - rewrite <- (app_nil_r (f_opt 3 _ t)). rewrite (merge_opt _ 3 w_tracking t _ _ (PbAppend e c t)); [reflexivity| |intros ->; reflexivity].
    intros x ->. cbn [step_append pa_events pa_condition pa_trk default]. unfold w_tracking. rewrite (codec_msg _ _ _ _ _ codec_tracking); [reflexivity|now apply Ht|].
    short Hl. rewrite !elem_of_app. do 2 right. now left.
  - intros x ->. cbn [step_append pa_events pa_condition pa_trk default]. unfold w_condition. rewrite (codec_msg _ _ _ _ _ codec_condition); [reflexivity|now apply Hc|].
    short Hl. rewrite !elem_of_app. right. left. now left.
  - intros ->. reflexivity.
Qed.

Definition wf_response (r : pb_response) : Prop := Forall wf_seq_event (px_events r) /\ opt_all (fun n => n < U64) (px_head r).
Lemma codec_response : codec step_response no_response fields_response wf_response.
Proof.
  intros [e h] [He Hh] Hl. cbn in He, Hh. split; [apply fields_fit; [nums; cbn in *; simplify_eq; now apply Hh|exact Hl]|].
  unfold fields_response, no_response in *. cbn [px_events px_head] in *.
  rewrite (merge_rep _ 1 w_seq_event (fun acc => PbResponse acc None)).
  2:{ intros acc x Hx. cbn [step_response px_events px_head]. unfold w_seq_event. rewrite (codec_msg _ _ _ _ _ codec_seq_event); [reflexivity|rewrite Forall_forall in He; now apply He|].
      short Hl. rewrite !elem_of_app. left. apply (in_rep 1 w_seq_event). exact Hx. }
  rewrite <- (app_nil_r (f_opt 2 _ h)). rewrite (merge_opt _ 2 WVar h _ _ (PbResponse e h)); [reflexivity| |intros ->; reflexivity].
  intros x ->. reflexivity.
Qed.

Lemma mod_u32 n : n < U32 -> n mod U32 = n.
Proof. apply N.mod_small. Qed.
Definition wf_read (r : pb_read) : Prop :=
  opt_all wf_query (pr_query r) /\ opt_all (fun n => n < U64) (pr_start r) /\ opt_all (fun n => n < U32) (pr_limit r) /\ opt_all (fun n => n < U32) (pr_batch r).
Lemma codec_read : codec step_read no_read fields_read wf_read.
Proof.
  intros [q s b l u z] (Hq & Hs & Hli & Hz) Hl. cbn in Hq, Hs, Hli, Hz. assert (HU : U32 < U64) by reflexivity.
  split.
  { apply fields_fit; [|exact Hl]. nums; cbn in *; try discriminate; simplify_eq.
    - now apply Hs.
    - unfold bit. destruct x; reflexivity.
    - specialize (Hli _ eq_refl). lia.
    - unfold bit. destruct x; reflexivity.
    - specialize (Hz _ eq_refl). lia. }
  unfold fields_read, no_read in *. cbn [pr_query pr_start pr_backwards pr_limit pr_subscribe pr_batch] in *.
  rewrite (merge_opt _ 1 w_query q _ _ (PbRead q None None None None None)); [| |intros ->; reflexivity].
  2:{ intros x ->. cbn [step_read pr_query default]. unfold w_query. rewrite (codec_msg _ _ _ _ _ codec_query); [reflexivity|now apply Hq|].
      short Hl. rewrite !elem_of_app. left. now left. }
  rewrite (merge_opt _ 2 WVar s _ _ (PbRead q s None None None None)); [|intros x ->; reflexivity|intros ->; reflexivity].
  rewrite (merge_opt _ 3 _ b _ _ (PbRead q s b None None None)); [|intros [] ->; reflexivity|intros ->; reflexivity].
  rewrite (merge_opt _ 4 WVar l _ _ (PbRead q s b l None None)); [| |intros ->; reflexivity].
  2:{ intros x ->. cbn [step_read get_u32]. rewrite mod_u32 by now apply Hli. reflexivity. }
  rewrite (merge_opt _ 5 _ u _ _ (PbRead q s b l u None)); [|intros [] ->; reflexivity|intros ->; reflexivity].
  rewrite <- (app_nil_r (f_opt 6 _ z)). rewrite (merge_opt _ 6 WVar z _ _ (PbRead q s b l u z)); [reflexivity| |intros ->; reflexivity].
  intros x ->. cbn [step_read get_u32]. rewrite mod_u32 by now apply Hz. reflexivity.
Qed.
Definition wf_subscribe (r : pb_subscribe) : Prop :=
  opt_all wf_query (pu_query r) /\ opt_all (fun n => n < U64) (pu_after r) /\ opt_all (fun n => n < U32) (pu_batch r).
Lemma codec_subscribe : codec step_subscribe no_subscribe fields_subscribe wf_subscribe.
Proof.
  intros [q a z] (Hq & Ha & Hz) Hl. cbn in Hq, Ha, Hz. assert (HU : U32 < U64) by reflexivity.
  split.
  { apply fields_fit; [|exact Hl]. nums; cbn in *; try discriminate; simplify_eq; [now apply Ha|]. specialize (Hz _ eq_refl). lia. }
  unfold fields_subscribe, no_subscribe in *. cbn [pu_query pu_after pu_batch] in *.
  rewrite (merge_opt _ 1 w_query q _ _ (PbSubscribe q None None)); [| |intros ->; reflexivity].
  2:{ intros x ->. cbn [step_subscribe pu_query default]. unfold w_query. rewrite (codec_msg _ _ _ _ _ codec_query); [reflexivity|now apply Hq|].
      short Hl. rewrite !elem_of_app. left. now left. }
  rewrite (merge_opt _ 2 WVar a _ _ (PbSubscribe q a None)); [|intros x ->; reflexivity|intros ->; reflexivity].
  rewrite <- (app_nil_r (f_opt 3 _ z)). rewrite (merge_opt _ 3 WVar z _ _ (PbSubscribe q a z)); [reflexivity| |intros ->; reflexivity].
  intros x ->. cbn [step_subscribe get_u32]. rewrite mod_u32 by now apply Hz. reflexivity.
Qed.
Lemma codec_position : codec step_position 0 fields_position (fun n => n < U64).
Proof.
  intros n Hn Hl. split; [apply fields_fit; [nums; exact Hn|exact Hl]|]. unfold fields_position. rewrite <- (app_nil_r (f_num 1 n)).
  erewrite merge_num; [reflexivity|reflexivity|now intros ->].
Qed.
Lemma codec_opt_position : codec step_opt_position None fields_opt_position (fun o => opt_all (fun n => n < U64) o).
Proof.
  intros n Hn Hl. split; [apply fields_fit; [nums; cbn in *; simplify_eq; now apply Hn|exact Hl]|]. unfold fields_opt_position. rewrite <- (app_nil_r (f_opt 1 _ n)).
  rewrite (merge_opt _ 1 WVar n _ _ n); [reflexivity|intros x ->; reflexivity|intros ->; reflexivity].
Qed.
Lemma codec_source : codec step_source [] fields_source (fun s => utf8 s).
Proof.
  intros s Hs Hl. split; [apply fields_fit; [nums|exact Hl]|]. unfold fields_source. rewrite <- (app_nil_r (f_str 1 s)).
  erewrite merge_str; [reflexivity|cbn [step_source]; now apply get_str_ok|now intros ->].
Qed.
Definition wf_error (e : pb_error) : Prop := utf8 (px_message e) /\ px_type e < U32.
Lemma codec_error : codec step_error (PbError [] 0) fields_error wf_error.
Proof.
  intros [s n] [Hs Hn] Hl. cbn in Hs, Hn. assert (HU : U32 < U64) by reflexivity. split; [apply fields_fit; [nums; cbn; lia|exact Hl]|]. unfold fields_error. cbn [px_message px_type].
  rewrite <- (app_nil_r (f_num 2 n)).
  erewrite merge_str; [| cbn [step_error]; rewrite get_str_ok by exact Hs; reflexivity | intros ->; reflexivity].
  rewrite (merge_num _ 2 n [] _ (PbError s n)); [reflexivity| |intros ->; reflexivity].
  cbn [step_error get_u32]. rewrite mod_u32 by exact Hn. reflexivity.
Qed.
