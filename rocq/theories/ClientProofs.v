(** What a program gets from the response to a read or from a subscription, whatever it calls and in whatever order. *)
From Verif Require Export Client ProtoProofs.
Local Open Scope N_scope.

(** ** Streams *)
(* [s] brings the batches [out] with their heads and then ends, or fails with a status *)
Inductive stream_of : list (list seq_event * option N) -> option status -> list sitem -> Prop :=
  | st_end : stream_of [] None []
  | st_fail st : stream_of [] (Some st) [SFail st]
  | st_msg m evs out fin s : convert_sequenced_events (px_events m) = Ok evs -> stream_of out fin s -> stream_of ((evs, px_head m) :: out) fin (SMsg m :: s).
Notation events_of out := (concat (map fst out)).
(* what the server sends: no batch is empty, unless it is all there is *)
Definition batches_ok (out : list (list seq_event * option N)) (fin : option status) : Prop :=
  Forall (fun o => o.1 <> []) out \/ (exists h, out = [([], h)]) /\ fin = None.

(* answers: the events in it, whether it says that there is no more, the error in it *)
Definition brings (x : answer) : list seq_event :=
  match x with AItem (Some (Ok e)) => [e] | ABatch (Ok b) => b | AAll (Ok (l, _)) => l | _ => [] end.
Definition says_end (x : answer) : Prop :=
  match x with AItem None => True | ABatch (Ok []) => True | AAll (Ok _) => True | _ => False end.
Definition says_err (x : answer) (e : err) : Prop :=
  match x with AItem (Some (Err f)) => f = e | ABatch (Err f) => f = e | AHead (Err f) => f = e | AAll (Err f) => f = e | _ => False end.
Definition cancels (c : call) : bool := match c with CCancel | CHandle | CCancelAll => true | _ => false end.
Definition gives_up (c : call) : Prop := match c with CNextTimeout late | CBatchTimeout late => late = true | _ => False end.

(** What may be answered to call [c] of a program that got the events [del] so far from a stream of the batches [out]: [exc] is
    that it was told that the stream is cut short, or cut it short itself; [can] that the response was cancelled. *)
Record allowed (out : list (list seq_event * option N)) (fin : option status) (del : list seq_event) (exc can : Prop) (c : call) (x : answer) : Prop := Allowed {
  al_prefix : (del ++ brings x) `prefix_of` events_of out;
  al_end : says_end x -> exc \/ del ++ brings x = events_of out /\ fin = None;
  al_err : forall e, says_err x e -> e = ETimeout /\ gives_up c \/ e = ECancelled /\ can \/ exists st, fin = Some st /\ e = status_kind st;
  al_head : forall h, x = AHead (Ok h) -> h = None /\ (exc \/ out = []) \/ exists o, o ∈ out /\ h = o.2;
  al_all : forall l h, x = AAll (Ok (l, h)) -> exc \/ h = default None (snd <$> last out) }.
(* an error after which the stream is over *)
Definition over (fin : option status) (e : err) : Prop := e = ECancelled \/ exists st, fin = Some st /\ e = status_kind st.

Section client.
Variable out : list (list seq_event * option N).
Variable fin : option status.
Hypothesis Hout : batches_ok out fin.

Notation all := (events_of out).
Definition flagged (a : ar) : bool := a_global a || a_local a.
(* nothing more is fetched *)
Definition dead (a : ar) : Prop := a_ended a = true \/ flagged a = true \/ a_in a = [].
Definition live (del : list seq_event) (a : ar) (gbuf : list seq_event) (gfin : bool) : Prop := exists d r,
  out = d ++ r /\ stream_of r fin (a_in a) /\ del ++ gbuf ++ a_buf a = events_of d /\ a_head a = snd <$> last d /\
  (gbuf = [] \/ a_buf a = []) /\ (a_ended a = true \/ gfin = true -> r = [] /\ fin = None /\ gbuf = [] /\ a_buf a = []).
Record cut (del : list seq_event) (a : ar) (gbuf : list seq_event) : Prop := Cut {
  ct_del : (del ++ gbuf ++ a_buf a) `prefix_of` all;
  ct_dead : dead a;
  ct_head : a_head a = None \/ exists o, o ∈ out /\ a_head a = Some o.2;
  ct_buf : gbuf = [] \/ a_buf a = [] }.
Definition ok_state (del : list seq_event) (exc can : Prop) (a : ar) (gbuf : list seq_event) (gfin : bool) : Prop :=
  (flagged a = true -> can) /\ (live del a gbuf gfin \/ exc /\ cut del a gbuf).

(* what may be answered: [exc] that the stream was known to be cut short, [can] that it was cancelled, [c] that the call may give up *)
Definition fatal (can : Prop) (e : err) : Prop := e = ECancelled /\ can \/ exists st, fin = Some st /\ e = status_kind st.
Definition end_ok (exc : Prop) (del : list seq_event) : Prop := exc \/ del = all /\ fin = None.

Lemma live_prefix del a gbuf gfin : live del a gbuf gfin -> (del ++ gbuf ++ a_buf a) `prefix_of` all.
Proof. intros (d & r & Ho & _ & Hd & _). rewrite Hd, Ho, map_app, concat_app. eexists. reflexivity. Qed.
Lemma live_head del a gbuf gfin : live del a gbuf gfin -> a_head a = None \/ exists o, o ∈ out /\ a_head a = Some o.2.
Proof.
  intros (d & r & Ho & _ & _ & Hh & _). rewrite Hh. destruct (last d) as [o|] eqn:El; [|now left]. right. exists o. split; [|reflexivity].
  rewrite Ho. apply elem_of_app. left. apply last_Some in El as [l ->]. set_solver.
Qed.
Lemma live_cut del a gbuf gfin : live del a gbuf gfin -> dead a -> cut del a gbuf.
Proof. intros Hl Hd. split; [exact (live_prefix _ _ _ _ Hl)|exact Hd|exact (live_head _ _ _ _ Hl)|]. now destruct Hl as (d & r & _ & _ & _ & _ & Hb & _). Qed.
(** A batch that is empty is the only one. *)
Lemma empty_batch d h r : out = d ++ ([], h) :: r -> d = [] /\ r = [] /\ fin = None.
Proof.
  intros E. destruct Hout as [H|[[h' H] Hf]].
  - rewrite E in H. apply Forall_app in H as [_ H]. inversion H as [|? ? Hx]. now contradiction Hx.
  - rewrite H in E. destruct d as [|x d]; [injection E as _ <-; auto|]. injection E as _ E. destruct d; discriminate E.
Qed.
Lemma events_snoc (d : list (list seq_event * option N)) o : events_of (d ++ [o]) = events_of d ++ o.1.
Proof. rewrite map_app, concat_app. cbn. now rewrite app_nil_r. Qed.

Lemma fetch_live late del gfin (can : Prop) a : live del a [] gfin -> a_buf a = [] -> (flagged a = true -> can) ->
  match fetch_next late a with
  | (Ok _, a') => (flagged a' = true -> can) /\ live del a' [] gfin /\ (a_buf a' = [] -> end_ok False del /\ live del a' [] true)
                  /\ (a_head a' = None -> out = [] /\ a_buf a' = [])
  | (Err e, a') => a_buf a' = [] /\ (flagged a' = true -> can) /\
       (e = ETimeout /\ late = true /\ a' = a \/ fatal can e /\ cut del a' [])
  end.
Proof.
  intros Hl Hb Hf. unfold fetch_next. rewrite Hb. destruct Hl as (d & r & Ho & Hi & Hd & Hh & Hbf & He).
  rewrite Hb in Hd, Hbf, He. cbn [app] in Hd. rewrite app_nil_r in Hd.
  assert (Hhead : a_head a = None \/ exists o, o ∈ out /\ a_head a = Some o.2).
  { apply (live_head del a [] gfin). exists d, r. rewrite Hb, !app_nil_r. repeat (split; [solve [auto]|]). auto. }
  assert (Hcut : forall a', a_ended a' = true \/ a_in a' = [] -> a_buf a' = [] -> a_head a' = a_head a -> cut del a' []).
  { intros a' H1 H2 H3. split; rewrite ?H2, ?H3.
    - rewrite !app_nil_r. rewrite Hd, Ho, map_app, concat_app. eexists. reflexivity.
    - destruct H1; [now left|now right; right].
    - exact Hhead.
    - now left. }
  assert (Hall : r = [] -> fin = None -> end_ok False del) by (intros -> Hfin; right; rewrite Ho, app_nil_r; auto).
  assert (Hnone : r = [] -> a_head a = None -> out = []).
  { intros -> H. rewrite Hh in H. destruct (last d) eqn:El; [discriminate|]. apply last_None in El. rewrite Ho, El. reflexivity. }
  destruct (a_ended a) eqn:Ee.
  { destruct (He (or_introl eq_refl)) as (Hr & Hfin & _). split; [exact Hf|]. split; [|split].
    - exists d, r. rewrite Hb, !app_nil_r. repeat (split; [solve [auto]|]). auto.
    - intros _. split; [auto|]. exists d, r. rewrite Hb, !app_nil_r. repeat (split; [solve [auto]|]). auto.
    - auto. }
  destruct (a_global a) eqn:Eg.
  { cbn [a_buf]. split; [reflexivity|]. assert (Hc : can) by (apply Hf; unfold flagged; now rewrite Eg). split; [auto|]. right. split; [left; auto|]. apply Hcut; auto. }
  destruct (a_local a) eqn:El.
  { cbn [a_buf]. split; [reflexivity|]. assert (Hc : can) by (apply Hf; unfold flagged; now rewrite El, orb_true_r). split; [auto|]. right. split; [left; auto|]. apply Hcut; auto. }
  destruct late; [auto 10|]. inversion Hi as [E1 E2 E3|st E1 E2 E3|m evs o f s Hc Hs E1 E2 E3]; subst r; try subst f.
  - rewrite app_nil_r in Ho. cbn [a_buf a_head flagged a_global a_local orb].
    assert (HL : live del (AR [] [] (a_head a) true false false) [] true).
    { exists d, []. cbn [a_buf a_in a_head a_ended app]. rewrite !app_nil_r. split; [exact Ho|]. split; [rewrite <- E2; constructor|]. auto 10. }
    split; [discriminate|]. split; [|split].
    + destruct HL as (d' & r' & HL). exists d', r'. cbn [a_ended] in *. tauto.
    + intros _. split; [now apply Hall|]. exact HL.
    + intros H. split; [now apply Hnone|reflexivity].
  - cbn [a_buf]. split; [reflexivity|]. split; [discriminate|]. right. split; [right; eauto|]. apply Hcut; auto.
  - rewrite Hc. cbn [a_buf a_head flagged a_global a_local orb]. split; [discriminate|].
    assert (Ho' : out = (d ++ [(evs, px_head m)]) ++ o) by (rewrite Ho, <- app_assoc; reflexivity).
    assert (Hd' : del ++ [] ++ evs = events_of (d ++ [(evs, px_head m)])) by (rewrite events_snoc, <- Hd; reflexivity).
    assert (Hh' : Some (px_head m) = snd <$> last (d ++ [(evs, px_head m)])) by (rewrite last_snoc; reflexivity).
    assert (Hng : gfin = true -> False) by (intros Eg'; destruct (He (or_intror Eg')) as [? _]; discriminate).
    split; [|split; [|intros ?; discriminate]].
    + exists (d ++ [(evs, px_head m)]), o. cbn [a_in a_buf a_head a_ended]. split; [exact Ho'|]. split; [exact Hs|]. split; [exact Hd'|]. split; [exact Hh'|]. split; [now left|].
      intros [?|?]; [discriminate|tauto].
    + intros ->. destruct (empty_batch _ _ _ Ho) as (-> & -> & Hfin). cbn [app] in Ho. cbn in Hd. subst del. split; [right; rewrite Ho; auto|].
      exists ([] ++ [([], px_head m)]), []. cbn [a_in a_buf a_head a_ended]. split; [exact Ho|]. split; [exact Hs|]. split; [exact Hd'|]. split; [exact Hh'|]. auto.
Qed.
Lemma fetch_cut late del gbuf (can : Prop) a : cut del a gbuf -> a_buf a = [] -> (flagged a = true -> can) ->
  match fetch_next late a with
  | (Ok _, a') => (flagged a' = true -> can) /\ cut del a' gbuf /\ a_buf a' = []
  | (Err e, a') => a_buf a' = [] /\ (flagged a' = true -> can) /\ cut del a' gbuf /\ (e = ETimeout /\ late = true \/ e = ECancelled /\ can)
  end.
Proof.
  intros [H1 H2 H3 H4] Hb Hf. unfold fetch_next. rewrite Hb in *.
  assert (Hcut : forall a', a_ended a' = true \/ a_in a' = [] -> a_buf a' = [] -> a_head a' = a_head a -> cut del a' gbuf).
  { intros a' E1 E2 E3. split; rewrite ?E2, ?E3; auto. destruct E1; [now left|now right; right]. }
  destruct (a_ended a) eqn:Ee. { split; [exact Hf|]. split; [|exact Hb]. apply Hcut; auto. }
  destruct (a_global a) eqn:Eg.
  { cbn [a_buf]. assert (Hc : can) by (apply Hf; unfold flagged; now rewrite Eg). split; [reflexivity|]. split; [auto|]. split; [apply Hcut; auto|auto]. }
  destruct (a_local a) eqn:El.
  { cbn [a_buf]. assert (Hc : can) by (apply Hf; unfold flagged; now rewrite El, orb_true_r). split; [reflexivity|]. split; [auto|]. split; [apply Hcut; auto|auto]. }
  destruct late.
  { split; [exact Hb|]. split; [exact Hf|]. split; [|auto]. split; rewrite ?Hb; auto. }
  destruct H2 as [H2|[H2|H2]]; [congruence|unfold flagged in H2; rewrite Eg, El in H2; discriminate|].
  rewrite H2. cbn [a_buf]. split; [discriminate|]. split; [|reflexivity]. apply Hcut; auto.
Qed.
Lemma live_take del a gfin : live del a [] gfin -> live del (take_buf a) (a_buf a) gfin.
Proof.
  intros (d & r & Ho & Hi & Hd & Hh & Hb & He). exists d, r. cbn [take_buf a_in a_buf a_head a_ended]. rewrite app_nil_r. cbn [app] in Hd.
  repeat (split; [solve [auto]|]). intros H. destruct (He H) as (? & ? & ? & ?). auto.
Qed.
Lemma cut_take del a : cut del a [] -> cut del (take_buf a) (a_buf a).
Proof.
  intros [H1 H2 H3 H4]. split; cbn [take_buf a_head a_buf]; [|exact H2|exact H3|now right]. rewrite app_nil_r. exact H1.
Qed.
Notation good del exc a gbuf gfin := (live del a gbuf gfin \/ exc /\ cut del a gbuf).
Lemma batch_step late del (exc can : Prop) a gfin : ok_state del exc can a [] gfin ->
  match next_batch late a with
  | (Ok b, a') => a_buf a' = [] /\ ok_state del exc can a' b gfin /\ (b = [] -> end_ok exc del /\ ok_state del exc can a' [] true)
  | (Err e, a') => a_buf a' = [] /\ (e = ETimeout /\ late = true /\ ok_state del exc can a' [] gfin \/ fatal can e /\ (flagged a' = true -> can) /\ cut del a' [])
  end.
Proof.
  intros [Hf Hg]. unfold next_batch. destruct (a_buf a) as [|e0 b0] eqn:Eb.
  - destruct Hg as [Hl|[Hx Hc]].
    + pose proof (fetch_live late del gfin can a Hl Eb Hf) as H. destruct (fetch_next late a) as [[[]|e] a'].
      * destruct H as (H1 & H2 & H3 & H4). split; [reflexivity|]. split; [split; [exact H1|left; now apply live_take]|].
        intros E. destruct (H3 E) as [H5 H6]. split; [destruct H5; [contradiction|now right]|]. split; [exact H1|left]. apply live_take in H6. now rewrite E in H6.
      * destruct H as (H1 & H2 & [(-> & -> & ->)|[H3 H4]]); (split; [exact H1|]).
        -- left. split; [reflexivity|]. split; [reflexivity|]. split; [exact Hf|now left].
        -- right. auto.
    + pose proof (fetch_cut late del [] can a Hc Eb Hf) as H. destruct (fetch_next late a) as [[[]|e] a'].
      * destruct H as (H1 & H2 & H3). split; [reflexivity|]. assert (Hc' := cut_take _ _ H2). rewrite H3 in *. split; [split; [exact H1|right; auto]|].
        intros _. split; [now left|]. split; [exact H1|right; auto].
      * destruct H as (H1 & H2 & H3 & H4). split; [exact H1|]. destruct H4 as [[-> ->]|[-> H4]].
        -- left. split; [reflexivity|]. split; [reflexivity|]. split; [exact H2|right; auto].
        -- right. split; [left; auto|auto].
  - split; [reflexivity|]. assert (Hok : ok_state del exc can (take_buf a) (a_buf a) gfin).
    { split; [exact Hf|]. destruct Hg as [Hl|[Hx Hc]]; [left; now apply live_take|right]. split; [exact Hx|now apply cut_take]. }
    rewrite Eb in Hok. split; [exact Hok|]. discriminate.
Qed.
Lemma good_pop del (exc : Prop) a e b gfin : good del exc a (e :: b) gfin -> good (del ++ [e]) exc a b gfin.
Proof.
  intros [(d & r & Ho & Hi & Hd & Hh & Hb & He)|[Hx [H1 H2 H3 H4]]].
  - left. exists d, r. rewrite <- app_assoc. repeat (split; [solve [auto]|]). split; [destruct Hb; [discriminate|now right]|].
    intros H. destruct (He H) as (? & ? & ? & ?). discriminate.
  - right. split; [exact Hx|]. split; [rewrite <- app_assoc; exact H1|exact H2|exact H3|]. destruct H4; [discriminate|now right].
Qed.
(* all of the buffer at once *)
Lemma good_pop_all del (exc : Prop) a b gfin : good del exc a b gfin -> good (del ++ b) exc a [] gfin.
Proof.
  revert del. induction b as [|e b IH]; intros del H; [now rewrite app_nil_r|]. apply good_pop, IH in H. now rewrite <- app_assoc in H.
Qed.
(* the buffer is thrown away *)
Lemma good_clear del (exc : Prop) a gbuf gfin : good del exc a gbuf gfin -> flagged a = true -> cut del a [].
Proof.
  intros H Hf. assert (Hc : cut del a gbuf) by (destruct H as [H|[_ H]]; [apply (live_cut _ _ _ _ H); right; now left|exact H]).
  destruct Hc as [H1 H2 H3 H4]. split; [|exact H2|exact H3|now left]. destruct H4 as [->|E]; [exact H1|]. rewrite E, !app_nil_r in *. etrans; [|exact H1]. eexists. reflexivity.
Qed.
Definition ok_eng (del : list seq_event) (exc can : Prop) (g : eng) : Prop := ok_state del exc can (g_resp g) (g_buf g) (g_fin g).
Lemma item_step late del (exc can : Prop) g : ok_eng del exc can g ->
  match next_item_timeout late g with
  | (None, g') => end_ok exc del /\ ok_eng del exc can g'
  | (Some (Ok e), g') => ok_eng (del ++ [e]) exc can g'
  | (Some (Err e), g') => e = ETimeout /\ late = true /\ ok_eng del exc can g' \/
      fatal can e /\ (flagged (g_resp g') = true -> can) /\ cut del (g_resp g') (g_buf g') /\
      (g_buf g' = [] /\ a_buf (g_resp g') = [] \/ flagged (g_resp g) = true /\ g_fin g = false)
  end.
Proof.
  intros [Hf Hg]. unfold next_item_timeout.
  assert (Hgo : match (match g_buf g with
    | [] => if g_fin g then (None, g)
            else let '(x, a) := next_batch late (g_resp g) in
                 match x with Err e => (Some (Err e), Eng (g_fin g) [] a) | Ok b => pop (keep_batch g b a) end
    | _ => pop g
    end) with
    | (None, g') => end_ok exc del /\ ok_eng del exc can g'
    | (Some (Ok e), g') => ok_eng (del ++ [e]) exc can g'
    | (Some (Err e), g') => e = ETimeout /\ late = true /\ ok_eng del exc can g' \/
      fatal can e /\ (flagged (g_resp g') = true -> can) /\ cut del (g_resp g') (g_buf g') /\
      (g_buf g' = [] /\ a_buf (g_resp g') = [] \/ flagged (g_resp g) = true /\ g_fin g = false)
    end).
  { destruct g as [fi gb a]. cbn [g_buf g_fin g_resp] in *. destruct gb as [|e b].
    - destruct fi.
      { split; [|split; assumption]. destruct Hg as [(d & r & Ho & Hi & Hd & Hh & Hb & He)|[Hx Hc]]; [right|now left].
        destruct (He (or_intror eq_refl)) as (Hr & Hfin & _ & Hab). rewrite Hab, !app_nil_r in Hd. rewrite Ho, Hr, app_nil_r. auto. }
      pose proof (batch_step late del exc can a false (conj Hf Hg)) as H. destruct (next_batch late a) as [[b|e] a'].
      + destruct H as (H1 & H2 & H3). destruct b as [|e b]; cbn [keep_batch pop g_buf g_fin g_resp].
        * destruct (H3 eq_refl) as [H4 H5]. split; [exact H4|exact H5].
        * destruct H2 as [H2 H4]. split; [exact H2|]. cbn [g_resp g_buf g_fin]. now apply good_pop.
      + cbn [g_buf g_fin g_resp]. destruct H as (H1 & [(-> & -> & H2)|(H2 & H3 & H4)]); [left; auto|right; auto 10].
    - cbn [pop g_buf g_fin g_resp]. split; [exact Hf|]. now apply good_pop. }
  destruct (g_fin g) eqn:Ef; [exact Hgo|]. unfold evaluate_shutdown. destruct (a_global (g_resp g) || a_local (g_resp g)) eqn:Efl.
  - right. cbn [g_resp g_buf]. assert (Hc : can) by (apply Hf; exact Efl). split; [left; auto|]. split; [auto|]. split; [exact (good_clear _ _ _ _ _ Hg Efl)|]. right. auto.
  - destruct (a_ended (g_resp g)) eqn:Ee; [|exact Hgo]. destruct Hg as [(d & r & Ho & Hi & Hd & Hh & Hb & He)|[Hx [H1 H2 H3 H4]]].
    + destruct (He (or_introl Ee)) as (Hr & Hfin & Hgb & Hab). split.
      { right. rewrite Hgb, Hab, !app_nil_r in Hd. rewrite Ho, Hr, app_nil_r. auto. }
      split; [exact Hf|]. left. exists d, r. cbn [g_resp g_buf g_fin]. rewrite Hgb in Hd. repeat (split; [solve [auto]|]). auto.
    + split; [now left|]. split; [exact Hf|]. right. split; [exact Hx|]. cbn [g_resp g_buf]. split; [|exact H2|exact H3|now left].
      destruct H4 as [E|E]; [now rewrite E in H1|]. rewrite E, !app_nil_r in *. etrans; [|exact H1]. eexists. reflexivity.
Qed.
(** *** The head *)
Lemma live_head_last del a gbuf gfin : live del a gbuf gfin -> del = all -> a_head a <> None -> a_head a = snd <$> last out.
Proof.
  intros (d & r & Ho & Hi & Hd & Hh & _) Ha Hn. rewrite Hh. destruct r as [|o r]; [rewrite app_nil_r in Ho; now rewrite Ho|]. exfalso.
  assert (Hr : events_of (o :: r) = []).
  { rewrite Ho, map_app, concat_app in Ha. rewrite <- Hd in Ha. apply (f_equal length) in Ha. rewrite !app_length in Ha.
    destruct (events_of (o :: r)); [reflexivity|]. cbn [length] in Ha. lia. }
  destruct Hout as [HF|[[h E] _]].
  - rewrite Ho in HF. apply Forall_app in HF as [_ HF]. inversion HF as [|? ? Hx _]. apply Hx. cbn in Hr. now apply app_eq_nil in Hr.
  - rewrite E in Ho. destruct d as [|x d]; [rewrite Hh in Hn; now apply Hn|]. injection Ho as _ Ho. destruct d; discriminate Ho.
Qed.
Lemma head_step del (exc can : Prop) a gbuf gfin : ok_state del exc can a gbuf gfin ->
  match ar_head a with
  | (Ok h, a') => ok_state del exc can a' gbuf gfin /\ (h = None /\ (exc \/ out = []) \/ exists o, o ∈ out /\ h = o.2) /\
                  (del = all -> exc \/ h = default None (snd <$> last out))
  | (Err e, a') => fatal can e /\ (flagged a' = true -> can) /\ a_buf a' = [] /\ cut del a' gbuf
  end.
Proof.
  intros [Hf Hg]. unfold ar_head. destruct (a_head a) as [h|] eqn:Eh.
  - split; [split; assumption|]. split.
    + right. assert (H : a_head a = None \/ exists o, o ∈ out /\ a_head a = Some o.2) by (destruct Hg as [Hg|[_ Hg]]; [exact (live_head _ _ _ _ Hg)|exact (ct_head _ _ _ Hg)]).
      destruct H as [H|(o & H1 & H2)]; [congruence|]. exists o. split; [exact H1|congruence].
    + intros Ha. destruct Hg as [Hg|[Hx _]]; [right|now left]. assert (Hl := live_head_last _ _ _ _ Hg Ha). rewrite Eh in Hl. rewrite <- Hl by discriminate. reflexivity.
  - destruct Hg as [Hl|[Hx Hc]].
    + assert (Hb : gbuf = [] /\ a_buf a = []).
      { destruct Hl as (d & r & Ho & Hi & Hd & Hh & _). rewrite Eh in Hh. destruct (last d) eqn:El; [discriminate|]. apply last_None in El as ->.
        cbn in Hd. apply app_eq_nil in Hd as [_ Hd]. now apply app_eq_nil in Hd. }
      destruct Hb as [-> Hb]. pose proof (fetch_live false del gfin can a Hl Hb Hf) as H. destruct (fetch_next false a) as [[[]|e] a'].
      * destruct H as (H1 & H2 & H3 & H4). split; [split; [exact H1|now left]|]. destruct (a_head a') as [h|] eqn:Eh'; cbn [default].
        -- split.
           ++ right. destruct (live_head _ _ _ _ H2) as [E|(o & E1 & E2)]; [congruence|]. exists o. split; [exact E1|]. rewrite Eh' in E2. injection E2 as ->. reflexivity.
           ++ intros Ha. right. assert (Hll := live_head_last _ _ _ _ H2 Ha). rewrite Eh' in Hll. rewrite <- Hll by discriminate. reflexivity.
        -- destruct (H4 eq_refl) as [-> _]. split; [left; auto|]. intros _. now right.
      * destruct H as (H1 & H2 & [(_ & ? & _)|[H3 H4]]); [discriminate|]. auto.
    + destruct (a_buf a) as [|e0 b0] eqn:Eb.
      * pose proof (fetch_cut false del gbuf can a Hc Eb Hf) as H. destruct (fetch_next false a) as [[[]|e] a'].
        -- destruct H as (H1 & H2 & H3). split; [split; [exact H1|right; auto]|]. split; [|now left].
           destruct (ct_head _ _ _ H2) as [->|(o & E1 & ->)]; [left; auto|right; eauto].
        -- destruct H as (H1 & H2 & H3 & [[_ ?]|[-> H4]]); [discriminate|]. split; [left; auto|auto].
      * unfold fetch_next. rewrite Eb, Eh. split; [split; [exact Hf|right; auto]|]. split; [left; auto|auto].
Qed.

(** *** The synchronous response *)
Definition size (g : eng) : nat := (length (g_buf g) + events_left (g_resp g))%nat.
Lemma convert_length l : forall evs, convert_sequenced_events l = Ok evs -> (length evs <= length l)%nat.
Proof.
  induction l as [|x l IH]; intros evs H; cbn [convert_sequenced_events] in H; [injection H as <-; reflexivity|].
  destruct (ps_event x) as [ev|]; [|specialize (IH _ H); cbn; lia]. destruct (event_of_pb ev) as [e|]; [|discriminate]. cbn [rbind] in H.
  destruct (convert_sequenced_events l) as [r|]; [|discriminate]. cbn [rbind] in H. injection H as <-. specialize (IH _ eq_refl). cbn. lia.
Qed.
Lemma fetch_left late a x a' : fetch_next late a = (x, a') -> (events_left a' <= events_left a)%nat /\ (flagged a = false -> flagged a' = false).
Proof.
  unfold fetch_next. destruct (a_buf a) as [|e b] eqn:Eb; [|intros [= _ <-]; auto]. destruct (a_ended a); [intros [= _ <-]; auto|].
  unfold events_left, flagged. destruct (a_global a) eqn:Eg; [intros [= _ <-]; rewrite Eb; cbn; split; [lia|discriminate]|].
  destruct (a_local a) eqn:El; [intros [= _ <-]; rewrite Eb; cbn; split; [lia|discriminate]|]. destruct late; [intros [= _ <-]; rewrite Eb, Eg, El; auto|].
  destruct (a_in a) as [|[m|st] r] eqn:Ei; [intros [= _ <-]; rewrite Eb; cbn; auto| |intros [= _ <-]; rewrite Eb; cbn; split; [lia|auto]].
  destruct (convert_sequenced_events (px_events m)) as [evs|e] eqn:Ec; intros [= _ <-]; rewrite Eb; cbn; (split; [|auto]).
  - apply convert_length in Ec. lia.
  - lia.
Qed.
Lemma batch_left late a b a' : next_batch late a = (Ok b, a') -> (length b + events_left a' <= events_left a)%nat /\ (flagged a = false -> flagged a' = false).
Proof.
  unfold next_batch. destruct (a_buf a) as [|e0 b0] eqn:Eb.
  - destruct (fetch_next late a) as [[[]|e] a1] eqn:Ef; [|discriminate]. apply fetch_left in Ef as [H1 H2]. intros [= <- <-].
    split; [|exact H2]. unfold events_left in *. cbn [take_buf a_buf a_in length]. lia.
  - intros [= <- <-]. split; [|auto]. unfold events_left. cbn [take_buf a_buf a_in length]. rewrite Eb. cbn. lia.
Qed.
Lemma item_left g e g' : next_item g = (Some (Ok e), g') -> (size g' < size g)%nat /\ (flagged (g_resp g) = true -> g_fin g = true) /\
  (flagged (g_resp g) = false \/ g_fin g = true -> flagged (g_resp g') = false \/ g_fin g' = true).
Proof.
  unfold next_item. intros H.
  assert (Hgo : forall y, (match g_buf g with
    | [] => if g_fin g then (None, g)
            else let '(x, a) := next_batch false (g_resp g) in
                 match x with Err e => (Some (Err e), Eng (g_fin g) [] a) | Ok b => pop (keep_batch g b a) end
    | _ => pop g
    end) = (Some (Ok y), g') -> (size g' < size g)%nat /\ (flagged (g_resp g) = false \/ g_fin g = true -> flagged (g_resp g') = false \/ g_fin g' = true)).
  { clear. intros y. destruct g as [fi gb a]. cbn [g_buf g_fin g_resp]. destruct gb as [|e0 b0].
    - destruct fi; [discriminate|]. destruct (next_batch false a) as [[b|e] a'] eqn:Eb; [|discriminate]. apply batch_left in Eb as [H1 H2].
      destruct b as [|e b]; cbn [keep_batch pop g_buf g_fin g_resp]; [discriminate|]. intros [= _ <-]. unfold size. cbn [g_buf g_resp g_fin length] in *. split; [lia|]. intros [H|H]; [left; auto|discriminate].
    - cbn [pop g_buf g_fin g_resp]. intros [= _ <-]. unfold size. cbn [g_buf g_resp length]. split; [lia|auto]. }
  destruct (g_fin g) eqn:Ef.
  - destruct (Hgo _ H) as [H1 H2]. auto.
  - unfold evaluate_shutdown in H. destruct (a_global (g_resp g) || a_local (g_resp g)) eqn:Efl; [discriminate|]. destruct (a_ended (g_resp g)); [discriminate|].
    destruct (Hgo _ H) as [H1 H2]. split; [exact H1|]. split; [|exact H2]. unfold flagged. congruence.
Qed.
Lemma item_none g g' : next_item g = (None, g') -> g_buf g' = [].
Proof.
  unfold next_item. destruct g as [fi gb a]. cbn [g_buf g_fin g_resp]. intros H.
  assert (Hgo : forall y, (match gb with
    | [] => if fi then (None, Eng fi gb a)
            else let '(x, a) := next_batch false a in
                 match x with Err e => (Some (Err e), Eng fi [] a) | Ok b => pop (keep_batch (Eng fi gb a) b a) end
    | _ => pop (Eng fi gb a)
    end) = (@None (res seq_event), y) -> g_buf y = []).
  { clear. intros y. destruct gb as [|e0 b0].
    - destruct fi; [intros [= <-]; reflexivity|]. destruct (next_batch false a) as [[b|e] a']; [|discriminate].
      destruct b as [|e b]; cbn [keep_batch pop g_buf g_fin g_resp]; [intros [= <-]; reflexivity|discriminate].
    - cbn [pop g_buf g_fin g_resp]. discriminate. }
  destruct fi; [now apply Hgo|]. destruct (evaluate_shutdown a); [now apply Hgo|injection H as <-; reflexivity|discriminate].
Qed.
Lemma collect_step fuel del (exc can : Prop) : forall acc g, ok_eng (del ++ acc) exc can g -> (acc = [] \/ flagged (g_resp g) = false \/ g_fin g = true) -> (size g < fuel)%nat ->
  match collect_items fuel acc g with
  | (Ok evs, g') => end_ok exc (del ++ evs) /\ ok_eng (del ++ evs) exc can g' /\ g_buf g' = []
  | (Err e, g') => fatal can e /\ (flagged (g_resp g') = true -> can) /\ cut del (g_resp g') (g_buf g')
  end.
Proof.
  induction fuel as [|fuel IH]; intros acc g Hok Hacc Hs; [lia|]. cbn [collect_items].
  pose proof (item_step false (del ++ acc) exc can g Hok) as H. change (next_item_timeout false g) with (next_item g) in H.
  destruct (next_item g) as [[[e|e]|] g'] eqn:En.
  - apply item_left in En as (H1 & H2 & H3). apply IH; [rewrite app_assoc; exact H| |lia].
    right. apply H3. destruct (flagged (g_resp g)); auto.
  - destruct H as [(_ & ? & _)|(H1 & H2 & H3 & H4)]; [discriminate|]. split; [exact H1|]. split; [exact H2|]. destruct H3 as [C1 C2 C3 C4]. split; [|exact C2|exact C3|exact C4].
    destruct Hacc as [->|Hacc]; [now rewrite app_nil_r in C1|]. destruct H4 as [[E1 E2]|[E1 E2]]; [|destruct Hacc; congruence].
    rewrite E1, E2, !app_nil_r in *. etrans; [|exact C1]. eexists. reflexivity.
  - destruct H as [H1 H2]. split; [exact H1|]. split; [exact H2|]. now apply item_none in En.
Qed.
(** *** One call *)
(* sent by the response to a read, CCancel ends the iterator by itself *)
Definition sync_cuts (c : call) : Prop := c = CCancel.
Definition async_cuts (c : call) : Prop := False.
Definition exc_after (exc : Prop) (cuts : call -> Prop) (c : call) (x : answer) : Prop := exc \/ cuts c \/ exists e, says_err x e /\ over fin e.
Definition can_after (can : Prop) (c : call) : Prop := can \/ cancels c = true.
Lemma good_prefix del (exc : Prop) a gbuf gfin : live del a gbuf gfin \/ exc /\ cut del a gbuf -> del `prefix_of` all.
Proof.
  intros [H|[_ H]]; [apply live_prefix in H|apply ct_del in H]; (etrans; [|exact H]); eexists; reflexivity.
Qed.
Lemma good_mono del (exc exc' : Prop) a gbuf gfin : (exc -> exc') -> live del a gbuf gfin \/ exc /\ cut del a gbuf -> live del a gbuf gfin \/ exc' /\ cut del a gbuf.
Proof. tauto. Qed.
Lemma ok_mono del (exc can exc' can' : Prop) a gbuf gfin : (exc -> exc') -> (can -> can') -> ok_state del exc can a gbuf gfin -> ok_state del exc' can' a gbuf gfin.
Proof. unfold ok_state. tauto. Qed.
Lemma fatal_err (can c : Prop) e : fatal can e -> e = ETimeout /\ c \/ e = ECancelled /\ can \/ exists st, fin = Some st /\ e = status_kind st.
Proof. unfold fatal. tauto. Qed.
Lemma fatal_over can e : fatal can e -> over fin e.
Proof. unfold fatal, over. tauto. Qed.
(* an answer that is not an event, and no end *)
Lemma allowed_err del (exc can : Prop) c x e : del `prefix_of` all -> brings x = [] -> ~ says_end x -> (forall f, says_err x f -> f = e) ->
  (forall h, x <> AHead (Ok h)) -> (forall y, x <> AAll (Ok y)) ->
  e = ETimeout /\ gives_up c \/ fatal can e -> allowed out fin del exc can c x.
Proof.
  intros Hp Hb He Hs Hh Ha H. split.
  - now rewrite Hb, app_nil_r.
  - contradiction.
  - intros f Hf. apply Hs in Hf as ->. unfold fatal in H. tauto.
  - intros h E. now apply Hh in E.
  - intros l h E. now apply Ha in E.
Qed.
Ltac noans := first [reflexivity|intros ? ?; discriminate|intros ?; discriminate|cbn; tauto|cbn; intros; congruence].
Ltac failed e H := apply (allowed_err _ _ _ _ _ e); [exact H|noans|noans|noans|noans|noans|].
Lemma good_flag del (exc : Prop) a a' gbuf gfin : live del a gbuf gfin \/ exc /\ cut del a gbuf ->
  a_in a' = a_in a -> a_buf a' = a_buf a -> a_head a' = a_head a -> a_ended a' = a_ended a -> (flagged a = true -> flagged a' = true) ->
  live del a' gbuf gfin \/ exc /\ cut del a' gbuf.
Proof.
  intros H E1 E2 E3 E4 E5. destruct H as [(d & r & H)|[Hx [H1 H2 H3 H4]]].
  - left. exists d, r. now rewrite E1, E2, E3, E4.
  - right. split; [exact Hx|]. split; rewrite ?E2, ?E3; auto. destruct H2 as [H2|[H2|H2]]; [left; congruence|right; left; auto|right; right; congruence].
Qed.
Lemma sync_step del (exc can : Prop) c g x g' : ok_eng del exc can g -> sync_call c g = (x, g') ->
  allowed out fin del exc can c x /\ ok_eng (del ++ brings x) (exc_after exc sync_cuts c x) (can_after can c) g'.
Proof.
  intros Hok. assert (Hp : del `prefix_of` all) by exact (good_prefix _ _ _ _ _ (proj2 Hok)).
  assert (Hitem : forall late, (c = CNext /\ late = false \/ c = CNextTimeout late) -> forall y, next_item_timeout late g = (y, g') ->
    allowed out fin del exc can c (AItem y) /\ ok_eng (del ++ brings (AItem y)) (exc_after exc sync_cuts c (AItem y)) (can_after can c) g').
  { intros late Hc y Hy. pose proof (item_step late del exc can g Hok) as H. rewrite Hy in H. destruct y as [[e|e]|]; cbn [brings].
    - split; [|eapply ok_mono; [| |exact H]; unfold exc_after, can_after; tauto]. assert (Hp' := good_prefix _ _ _ _ _ (proj2 H)).
      split; cbn [brings says_end says_err]; try discriminate; try tauto.
    - rewrite app_nil_r. destruct H as [(-> & -> & H)|(H1 & H2 & H3 & _)].
      + split; [|eapply ok_mono; [| |exact H]; unfold exc_after, can_after; tauto]. failed ETimeout Hp.
        left. split; [reflexivity|]. destruct Hc as [ [_ Hl] | Hl]; [discriminate Hl|rewrite Hl; reflexivity].
      + split; [failed e Hp; now right|]. split; [unfold can_after; tauto|]. right. split; [|exact H3].
        right. right. exists e. split; [reflexivity|exact (fatal_over _ _ H1)].
    - rewrite app_nil_r. destruct H as [H1 H2]. split; [|eapply ok_mono; [| |exact H2]; unfold exc_after, can_after; tauto].
      split; cbn [brings says_end says_err]; try discriminate; try tauto; rewrite app_nil_r; [exact Hp|]. intros _. exact H1. }
  assert (Hbatch : forall late, (c = CBatch /\ late = false \/ c = CBatchTimeout late) -> forall y, engine_next_batch late g = (y, g') ->
    allowed out fin del exc can c (ABatch y) /\ ok_eng (del ++ brings (ABatch y)) (exc_after exc sync_cuts c (ABatch y)) (can_after can c) g').
  { intros late Hc y Hy. clear Hitem. destruct g as [fi gb a]. unfold engine_next_batch in Hy. cbn [g_buf g_fin g_resp] in Hy.
    destruct Hok as [Hf Hg]. cbn [g_buf g_fin g_resp] in Hf, Hg. destruct gb as [|e0 b0].
    - pose proof (batch_step late del exc can a fi (conj Hf Hg)) as H. destruct (next_batch late a) as [[b|e] a'].
      + destruct H as (H1 & [H2 H2'] & H3). assert (Hb : keep_batch (Eng fi [] a) b a' = Eng (match b with [] => true | _ => fi end) b a') by now destruct b.
        rewrite Hb in Hy. cbn [g_buf g_fin] in Hy. injection Hy as <- <-. cbn [brings]. apply good_pop_all in H2'. assert (Hp' := good_prefix _ _ _ _ _ H2'). split.
        * split; cbn [brings says_end says_err]; try discriminate; try tauto. destruct b; [|tauto]. intros _. rewrite app_nil_r. exact (proj1 (H3 eq_refl)).
        * destruct b as [|e b].
          -- rewrite app_nil_r. destruct (H3 eq_refl) as [_ H4]. eapply ok_mono; [| |exact H4]; unfold exc_after, can_after; tauto.
          -- split; cbn [g_resp g_buf g_fin]; [unfold can_after; tauto|]. eapply good_mono; [|exact H2']. unfold exc_after. tauto.
      + injection Hy as <- <-. cbn [brings]. rewrite app_nil_r. destruct H as (H1 & [(-> & -> & H)|(H2 & H3 & H4)]).
        * split; [|eapply ok_mono; [| |exact H]; unfold exc_after, can_after; tauto]. failed ETimeout Hp.
          left. split; [reflexivity|]. destruct Hc as [ [_ Hl] | Hl]; [discriminate Hl|rewrite Hl; reflexivity].
        * split; [failed e Hp; now right|]. split; [unfold can_after; cbn; tauto|]. right. split; [|exact H4].
          right. right. exists e. split; [reflexivity|exact (fatal_over _ _ H2)].
    - injection Hy as <- <-. cbn [brings]. apply good_pop_all in Hg. assert (Hp' := good_prefix _ _ _ _ _ Hg). split.
      + split; cbn [brings says_end says_err]; try discriminate; try tauto.
      + split; cbn [g_resp g_buf g_fin]; [unfold can_after; tauto|]. eapply good_mono; [|exact Hg]. unfold exc_after. tauto. }
  intros Hx. destruct c as [|late| |late| | | | |]; cbn [sync_call] in Hx.
  - change (next_item g) with (next_item_timeout false g) in Hx. destruct (next_item_timeout false g) as [y g1] eqn:E. injection Hx as <- <-. apply (Hitem false); auto.
  - destruct (next_item_timeout late g) as [y g1] eqn:E. injection Hx as <- <-. apply (Hitem late); auto.
  - destruct (engine_next_batch false g) as [y g1] eqn:E. injection Hx as <- <-. apply (Hbatch false); auto.
  - destruct (engine_next_batch late g) as [y g1] eqn:E. injection Hx as <- <-. apply (Hbatch late); auto.
  - clear Hitem Hbatch. unfold engine_head in Hx. pose proof (head_step del exc can _ _ _ Hok) as H. destruct (ar_head (g_resp g)) as [[h|e] a]; injection Hx as <- <-; cbn [brings]; rewrite app_nil_r.
    + destruct H as (H1 & H2 & _). split; [|eapply ok_mono; [| |exact H1]; unfold exc_after, can_after; tauto].
      split; cbn [brings says_end says_err]; try discriminate; try tauto; [now rewrite app_nil_r|]. intros h' [= <-]. exact H2.
    + destruct H as (H1 & H2 & H3 & H4). split; [failed e Hp; now right|]. split; [unfold can_after; cbn; tauto|]. right. split; [|exact H4].
      right. right. exists e. split; [reflexivity|exact (fatal_over _ _ H1)].
  - clear Hitem Hbatch. unfold collect_with_head in Hx. pose proof (collect_step (S (size g)) del exc can [] g ltac:(rewrite app_nil_r; exact Hok) (or_introl eq_refl) ltac:(lia)) as H.
    unfold size in H. destruct (collect_items _ [] g) as [[evs|e] g1].
    + destruct H as (H1 & H2 & H3). unfold engine_head in Hx. pose proof (head_step _ exc can _ _ _ H2) as Hh. destruct (ar_head (g_resp g1)) as [[h|e] a]; injection Hx as <- <-; cbn [brings].
      * destruct Hh as (Hh1 & Hh2 & Hh3). assert (Hp' := good_prefix _ _ _ _ _ (proj2 H2)). split; [|eapply ok_mono; [| |exact Hh1]; unfold exc_after, can_after; tauto].
        split; cbn [brings says_end says_err]; try discriminate; try tauto. intros l h' [= <- <-]. destruct H1 as [H1|[H1 _]]; [now left|]. now apply Hh3.
      * rewrite app_nil_r. destruct Hh as (Hh1 & Hh2 & Hh3 & Hh4). split; [failed e Hp; now right|]. split; [unfold can_after; cbn; tauto|]. right.
        split; [right; right; exists e; split; [reflexivity|exact (fatal_over _ _ Hh1)]|]. cbn [g_resp g_buf]. destruct Hh4 as [C1 C2 C3 C4]. rewrite H3 in *. split; [|exact C2|exact C3|exact C4].
        rewrite Hh3 in *. rewrite !app_nil_r in *. exact Hp.
    + injection Hx as <- <-. cbn [brings]. rewrite app_nil_r. destruct H as (H1 & H2 & H3). split; [failed e Hp; now right|]. split; [unfold can_after; cbn; tauto|]. right.
      split; [right; right; exists e; split; [reflexivity|exact (fatal_over _ _ H1)]|exact H3].
  - clear Hitem Hbatch. injection Hx as <- <-. cbn [brings]. rewrite app_nil_r. split; [split; cbn [brings says_end says_err]; try discriminate; try tauto; now rewrite app_nil_r|].
    split; [unfold can_after; cbn; auto|]. right. split; [right; left; reflexivity|]. cbn [engine_stop g_resp g_buf].
    assert (Hg : live del (ar_cancel (g_resp g)) (g_buf g) (g_fin g) \/ exc /\ cut del (ar_cancel (g_resp g)) (g_buf g)).
    { eapply good_flag; [exact (proj2 Hok)|reflexivity..|]. intros _. unfold flagged, ar_cancel. cbn. apply orb_true_r. }
    destruct Hg as [Hg|[_ Hg]]; [|exact Hg]. apply (live_cut _ _ _ _ Hg). right. left. unfold flagged, ar_cancel. cbn. apply orb_true_r.
  - clear Hitem Hbatch. injection Hx as <- <-. cbn [brings]. rewrite app_nil_r. split; [split; cbn [brings says_end says_err]; try discriminate; try tauto; now rewrite app_nil_r|].
    split; [unfold can_after; cbn; auto|]. eapply good_mono; [|eapply good_flag; [exact (proj2 Hok)|reflexivity..|]]; [unfold exc_after; tauto|]. intros _. unfold flagged, ar_cancel. cbn. apply orb_true_r.
  - clear Hitem Hbatch. injection Hx as <- <-. cbn [brings]. rewrite app_nil_r. split; [split; cbn [brings says_end says_err]; try discriminate; try tauto; now rewrite app_nil_r|].
    split; [unfold can_after; cbn; auto|]. eapply good_mono; [|eapply good_flag; [exact (proj2 Hok)|reflexivity..|]]; [unfold exc_after; tauto|]. intros _. reflexivity.
Qed.
(** *** The asynchronous response *)
Definition ok_ar (del : list seq_event) (exc can : Prop) (a : ar) : Prop := ok_state del exc can a [] false.
Lemma poll_stream_live del : forall r d s, stream_of r fin s -> out = d ++ r -> events_of d = del ->
  match poll_stream s (snd <$> last d) with
  | (None, a') => fin = None /\ del = all /\ live del a' [] false /\ flagged a' = false
  | (Some (Ok e), a') => live (del ++ [e]) a' [] false /\ flagged a' = false
  | (Some (Err e), a') => (exists st, fin = Some st /\ e = status_kind st) /\ flagged a' = false /\ a_buf a' = [] /\ cut del a' []
  end.
Proof.
  induction r as [|o r IH]; intros d s Hs Ho Hd; inversion Hs as [E1 E2 E3|st E1 E2 E3|m evs o' f s' Hc Hs' E1 E2 E3]; cbn [poll_stream].
  - rewrite app_nil_r in Ho. split; [reflexivity|]. split; [congruence|]. split; [|reflexivity]. exists d, []. cbn [a_in a_buf a_head a_ended app]. rewrite !app_nil_r.
    split; [exact Ho|]. split; [rewrite <- E2; constructor|]. split; [congruence|]. split; [reflexivity|]. split; [now left|]. rewrite <- E2. auto.
  - rewrite app_nil_r in Ho. split; [eauto|]. split; [reflexivity|]. split; [reflexivity|]. split; cbn [a_buf a_head]; [| | |now left].
    + rewrite !app_nil_r, <- Hd, Ho. reflexivity.
    + right. now right.
    + destruct (last d) as [o|] eqn:El; [right|now left]. exists o. split; [|reflexivity]. rewrite Ho. apply last_Some in El as [l ->]. set_solver.
  - rewrite Hc. destruct evs as [|e b].
    + assert (Hl : Some (px_head m) = snd <$> last (d ++ [([], px_head m)])) by (rewrite last_snoc; reflexivity). rewrite Hl. apply IH; [exact Hs'| |].
      * rewrite <- app_assoc. cbn. now rewrite E1.
      * rewrite events_snoc, app_nil_r. exact Hd.
    + split; [|reflexivity]. exists (d ++ [(e :: b, px_head m)]), r. cbn [a_in a_buf a_head a_ended app]. split; [rewrite <- app_assoc; cbn; now rewrite E1|].
      split; [exact Hs'|]. split; [rewrite events_snoc, Hd, <- app_assoc; reflexivity|]. split; [rewrite last_snoc; reflexivity|]. split; [now left|]. intros [?|?]; discriminate.
Qed.
Lemma cut_none del a : cut del a [] -> cut del (take_buf a) [].
Proof.
  intros [H1 H2 H3 H4]. split; cbn [take_buf a_head a_buf]; [|exact H2|exact H3|now left]. rewrite !app_nil_r. etrans; [|exact H1]. eexists. reflexivity.
Qed.
Lemma poll_step del (exc can : Prop) a : ok_ar del exc can a ->
  match poll_next a with
  | (None, a') => end_ok exc del /\ ok_ar del exc can a'
  | (Some (Ok e), a') => ok_ar (del ++ [e]) exc can a'
  | (Some (Err e), a') => fatal can e /\ (flagged a' = true -> can) /\ a_buf a' = [] /\ cut del a' []
  end.
Proof.
  intros [Hf Hg]. unfold poll_next, evaluate_shutdown. destruct (a_global a || a_local a) eqn:Efl.
  { assert (Hc : can) by now apply Hf. split; [left; auto|]. split; [auto|]. split; [reflexivity|]. apply cut_none. exact (good_clear _ _ _ _ _ Hg Efl). }
  destruct (a_ended a) eqn:Ee.
  { destruct Hg as [Hl|[Hx Hc]].
    - assert (Hl' := live_take _ _ _ Hl). destruct Hl as (d & r & Ho & Hi & Hd & Hh & Hb & He). destruct (He (or_introl Ee)) as (Hr & Hfin & _ & Hab). rewrite Hab in *. split.
      + right. rewrite Ho, Hr, app_nil_r, <- Hd, !app_nil_r. auto.
      + split; [exact Hf|now left].
    - split; [now left|]. split; [exact Hf|]. right. split; [exact Hx|]. now apply cut_none. }
  destruct (a_buf a) as [|e b] eqn:Eb.
  - destruct Hg as [(d & r & Ho & Hi & Hd & Hh & Hb & He)|[Hx [H1 H2 H3 H4]]].
    + rewrite Eb, !app_nil_r in Hd. pose proof (poll_stream_live del r d _ Hi Ho (eq_sym Hd)) as H. rewrite Hh. destruct (poll_stream _ _) as [[[e|e]|] a'].
      * destruct H as [H1 H2]. split; [congruence|now left].
      * destruct H as (H1 & H2 & H3 & H4). split; [now right|]. split; [congruence|]. auto.
      * destruct H as (H1 & H2 & H3 & H4). split; [now right|]. split; [congruence|now left].
    + destruct H2 as [H2|[H2|H2]]; [congruence|unfold flagged in H2; congruence|]. rewrite H2. cbn [poll_stream]. split; [now left|]. split; [discriminate|]. right. split; [exact Hx|].
      split; cbn [a_buf a_head]; [now rewrite Eb in H1|now left|exact H3|now left].
  - split; [exact Hf|]. destruct Hg as [(d & r & Ho & Hi & Hd & Hh & Hb & He)|[Hx [H1 H2 H3 H4]]].
    + left. exists d, r. cbn [a_in a_buf a_head a_ended]. rewrite <- app_assoc. cbn [app]. rewrite Eb in Hd. split; [exact Ho|]. split; [exact Hi|]. split; [exact Hd|]. split; [exact Hh|]. split; [now left|].
      intros [H|H]; [|discriminate]. congruence.
    + right. split; [exact Hx|]. split; cbn [a_buf a_head]; [|unfold dead in H2; rewrite Ee in H2; exact H2|exact H3|now left]. rewrite <- app_assoc. rewrite Eb in H1. exact H1.
Qed.
Lemma poll_left a e a' : poll_next a = (Some (Ok e), a') -> (events_left a' < events_left a)%nat.
Proof.
  unfold poll_next. destruct (evaluate_shutdown a); [|discriminate|discriminate]. destruct (a_buf a) as [|e0 b] eqn:Eb; unfold events_left; rewrite Eb.
  - clear Eb. cbn [length plus]. generalize (a_head a). induction (a_in a) as [|[m|st] s IH]; intros h; cbn [poll_stream]; [discriminate| |discriminate].
    destruct (convert_sequenced_events (px_events m)) as [[|e1 b]|f] eqn:Ec; [|intros [= <- <-]|discriminate].
    + intros H. apply IH in H. cbn [foldr]. lia.
    + apply convert_length in Ec. cbn in *. lia.
  - intros [= <- <-]. cbn. lia.
Qed.
Lemma poll_all_step fuel del (exc can : Prop) : forall acc a, ok_ar (del ++ acc) exc can a -> (events_left a < fuel)%nat ->
  match poll_all fuel acc a with
  | (Ok evs, a') => end_ok exc (del ++ evs) /\ ok_ar (del ++ evs) exc can a'
  | (Err e, a') => fatal can e /\ (flagged a' = true -> can) /\ cut del a' []
  end.
Proof.
  induction fuel as [|fuel IH]; intros acc a Hok Hs; [lia|]. cbn [poll_all].
  pose proof (poll_step (del ++ acc) exc can a Hok) as H. destruct (poll_next a) as [[[e|e]|] a'] eqn:En.
  - apply poll_left in En. apply IH; [rewrite app_assoc; exact H|lia].
  - destruct H as (H1 & H2 & H3 & [C1 C2 C3 C4]). split; [exact H1|]. split; [exact H2|]. split; [|exact C2|exact C3|exact C4].
    rewrite H3, !app_nil_r in *. etrans; [|exact C1]. eexists. reflexivity.
  - exact H.
Qed.
Lemma async_step del (exc can : Prop) c a x a' : ok_ar del exc can a -> async_call c a = (x, a') ->
  allowed out fin del exc can c x /\ ok_ar (del ++ brings x) (exc_after exc async_cuts c x) (can_after can c) a'.
Proof.
  intros Hok. assert (Hp : del `prefix_of` all) by exact (good_prefix _ _ _ _ _ (proj2 Hok)).
  assert (Hitem : forall y, poll_next a = (y, a') ->
    allowed out fin del exc can c (AItem y) /\ ok_ar (del ++ brings (AItem y)) (exc_after exc async_cuts c (AItem y)) (can_after can c) a').
  { intros y Hy. pose proof (poll_step del exc can a Hok) as H. rewrite Hy in H. destruct y as [[e|e]|]; cbn [brings].
    - split; [|eapply ok_mono; [| |exact H]; unfold exc_after, can_after; tauto]. assert (Hp' := good_prefix _ _ _ _ _ (proj2 H)).
      split; cbn [brings says_end says_err]; try discriminate; try tauto.
    - rewrite app_nil_r. destruct H as (H1 & H2 & H3 & H4).
      split; [failed e Hp; now right|]. split; [unfold can_after; tauto|]. right. split; [|exact H4].
      right. right. exists e. split; [reflexivity|exact (fatal_over _ _ H1)].
    - rewrite app_nil_r. destruct H as [H1 H2]. split; [|eapply ok_mono; [| |exact H2]; unfold exc_after, can_after; tauto].
      split; cbn [brings says_end says_err]; try discriminate; try tauto; rewrite app_nil_r; [exact Hp|]. intros _. exact H1. }
  assert (Hbatch : forall late, (c = CBatch /\ late = false \/ c = CBatchTimeout late) -> forall y, next_batch late a = (y, a') ->
    allowed out fin del exc can c (ABatch y) /\ ok_ar (del ++ brings (ABatch y)) (exc_after exc async_cuts c (ABatch y)) (can_after can c) a').
  { intros late Hc y Hy. clear Hitem. pose proof (batch_step late del exc can a false Hok) as H. rewrite Hy in H. destruct y as [b|e].
    - destruct H as (H1 & [H2 H2'] & H3). cbn [brings]. apply good_pop_all in H2'. assert (Hp' := good_prefix _ _ _ _ _ H2'). split.
      + split; cbn [brings says_end says_err]; try discriminate; try tauto. destruct b; [|tauto]. intros _. rewrite app_nil_r. exact (proj1 (H3 eq_refl)).
      + split; [unfold can_after; tauto|]. eapply good_mono; [|exact H2']. unfold exc_after. tauto.
    - cbn [brings]. rewrite app_nil_r. destruct H as (H1 & [(-> & -> & H)|(H2 & H3 & H4)]).
      + split; [|eapply ok_mono; [| |exact H]; unfold exc_after, can_after; tauto]. failed ETimeout Hp.
        left. split; [reflexivity|]. destruct Hc as [ [_ Hl] | Hl]; [discriminate Hl|rewrite Hl; reflexivity].
      + split; [failed e Hp; now right|]. split; [unfold can_after; cbn; tauto|]. right. split; [|exact H4].
        right. right. exists e. split; [reflexivity|exact (fatal_over _ _ H2)]. }
  assert (Hflag : forall a1, a_in a1 = a_in a -> a_buf a1 = a_buf a -> a_head a1 = a_head a -> a_ended a1 = a_ended a -> flagged a1 = true -> cancels c = true ->
    allowed out fin del exc can c AUnit /\ ok_ar (del ++ brings AUnit) (exc_after exc async_cuts c AUnit) (can_after can c) a1).
  { intros a1 E1 E2 E3 E4 E5 E6. cbn [brings]. rewrite app_nil_r. split; [split; cbn [brings says_end says_err]; try discriminate; try tauto; now rewrite app_nil_r|].
    split; [unfold can_after; auto|]. eapply good_mono; [|eapply good_flag; [exact (proj2 Hok)|assumption..|auto]]. unfold exc_after. tauto. }
  intros Hx. destruct c as [|late| |late| | | | |]; cbn [async_call] in Hx.
  - destruct (poll_next a) as [y a1] eqn:E. injection Hx as <- <-. apply Hitem; auto.
  - destruct (poll_next a) as [y a1] eqn:E. injection Hx as <- <-. apply Hitem; auto.
  - destruct (next_batch false a) as [y a1] eqn:E. injection Hx as <- <-. apply (Hbatch false); auto.
  - destruct (next_batch late a) as [y a1] eqn:E. injection Hx as <- <-. apply (Hbatch late); auto.
  - clear Hitem Hbatch Hflag. pose proof (head_step del exc can _ _ _ Hok) as H. destruct (ar_head a) as [[h|e] a1]; injection Hx as <- <-; cbn [brings]; rewrite app_nil_r.
    + destruct H as (H1 & H2 & _). split; [|eapply ok_mono; [| |exact H1]; unfold exc_after, can_after; tauto].
      split; cbn [brings says_end says_err]; try discriminate; try tauto; [now rewrite app_nil_r|]. intros h' [= <-]. exact H2.
    + destruct H as (H1 & H2 & H3 & H4). split; [failed e Hp; now right|]. split; [unfold can_after; cbn; tauto|]. right. split; [|exact H4].
      right. right. exists e. split; [reflexivity|exact (fatal_over _ _ H1)].
  - clear Hitem Hbatch Hflag. unfold ar_collect_with_head in Hx.
    pose proof (poll_all_step (S (events_left a)) del exc can [] a ltac:(rewrite app_nil_r; exact Hok) ltac:(lia)) as H.
    destruct (poll_all _ [] a) as [[evs|e] a1].
    + destruct H as (H1 & H2). pose proof (head_step _ exc can _ _ _ H2) as Hh. destruct (ar_head a1) as [[h|e] a2]; injection Hx as <- <-; cbn [brings].
      * destruct Hh as (Hh1 & Hh2 & Hh3). assert (Hp' := good_prefix _ _ _ _ _ (proj2 H2)). split; [|eapply ok_mono; [| |exact Hh1]; unfold exc_after, can_after; tauto].
        split; cbn [brings says_end says_err]; try discriminate; try tauto. intros l h' [= <- <-]. destruct H1 as [H1|[H1 _]]; [now left|]. now apply Hh3.
      * rewrite app_nil_r. destruct Hh as (Hh1 & Hh2 & Hh3 & Hh4). split; [failed e Hp; now right|]. split; [unfold can_after; cbn; tauto|]. right.
        split; [right; right; exists e; split; [reflexivity|exact (fatal_over _ _ Hh1)]|]. destruct Hh4 as [C1 C2 C3 C4]. split; [|exact C2|exact C3|exact C4].
        rewrite Hh3 in *. rewrite !app_nil_r in *. exact Hp.
    + injection Hx as <- <-. cbn [brings]. rewrite app_nil_r. destruct H as (H1 & H2 & H3). split; [failed e Hp; now right|]. split; [unfold can_after; cbn; tauto|]. right.
      split; [right; right; exists e; split; [reflexivity|exact (fatal_over _ _ H1)]|exact H3].
  - injection Hx as <- <-. apply Hflag; try reflexivity. unfold flagged, ar_cancel. cbn. apply orb_true_r.
  - injection Hx as <- <-. apply Hflag; try reflexivity. unfold flagged, ar_cancel. cbn. apply orb_true_r.
  - injection Hx as <- <-. apply Hflag; reflexivity.
Qed.

(** *** Any sequence of calls *)
Lemma calls_ok {S} (do : call -> S -> answer * S) (okS : list seq_event -> Prop -> Prop -> S -> Prop) (cuts : call -> Prop) :
  (forall del (exc can : Prop) c s x s', okS del exc can s -> do c s = (x, s') ->
    allowed out fin del exc can c x /\ okS (del ++ brings x) (exc_after exc cuts c x) (can_after can c) s') ->
  forall cs del (exc can : Prop) s xs s', okS del exc can s -> calls do cs s = (xs, s') ->
  length xs = length cs /\
  (forall i c x, cs !! i = Some c -> xs !! i = Some x ->
    allowed out fin (del ++ concat (map brings (take i xs)))
      (exc \/ (exists y e, y ∈ take i xs /\ says_err y e /\ over fin e) \/ exists c', c' ∈ take i cs /\ cuts c')
      (can \/ exists c', c' ∈ take i cs /\ cancels c' = true) c x).
Proof.
  intros Hstep. induction cs as [|c cs IH]; intros del exc can s xs s' Hok Hc; cbn [calls] in Hc.
  { injection Hc as <- _. split; [reflexivity|]. intros i c x Hi. discriminate Hi. }
  destruct (do c s) as [x s1] eqn:Ed. destruct (calls do cs s1) as [xs1 s2] eqn:Ec. injection Hc as <- <-.
  destruct (Hstep _ _ _ _ _ _ _ Hok Ed) as [Ha Hok1]. destruct (IH _ _ _ _ _ _ Hok1 Ec) as [Hl Hall]. split; [cbn; congruence|].
  intros [|i] c' x' Hci Hxi; cbn in Hci, Hxi.
  - injection Hci as <-. injection Hxi as <-. cbn. rewrite app_nil_r. destruct Ha as [A1 A2 A3 A4 A5]. split; [exact A1| | | |].
    + intros H. destruct (A2 H); [left; now left|now right].
    + intros e H. destruct (A3 e H) as [?|[[? ?]|?]]; [now left|right; left; split; [assumption|now left]|now right; right].
    + intros h H. destruct (A4 h H) as [[? [?|?]]|?]; [left; split; [assumption|left; now left]|left; split; [assumption|now right]|now right].
    + intros l h H. destruct (A5 l h H); [left; now left|now right].
  - specialize (Hall i c' x' Hci Hxi). cbn [take map concat]. rewrite <- app_assoc in Hall.
    assert (Hexc : (exc_after exc cuts c x \/ (exists y e, y ∈ take i xs1 /\ says_err y e /\ over fin e) \/ exists c', c' ∈ take i cs /\ cuts c') ->
      exc \/ (exists y e, y ∈ x :: take i xs1 /\ says_err y e /\ over fin e) \/ exists c', c' ∈ c :: take i cs /\ cuts c').
    { intros [[H|[H|(e & H)]]|[(y & e & H1 & H2)|(c1 & H1 & H2)]]; [now left| | | |].
      - right. right. exists c. split; [left|exact H].
      - right. left. exists x, e. split; [left|exact H].
      - right. left. exists y, e. split; [now right|exact H2].
      - right. right. exists c1. split; [now right|exact H2]. }
    assert (Hcan : (can_after can c \/ exists c', c' ∈ take i cs /\ cancels c' = true) -> can \/ exists c', c' ∈ c :: take i cs /\ cancels c' = true).
    { intros [[H|H]|(c1 & H1 & H2)]; [now left|right; exists c; split; [left|exact H]|right; exists c1; split; [now right|exact H2]]. }
    destruct Hall as [A1 A2 A3 A4 A5]. split; [exact A1| | | |].
    + intros H. destruct (A2 H); [left; auto|now right].
    + intros e H. destruct (A3 e H) as [?|[[? ?]|?]]; [now left|right; left; auto|now right; right].
    + intros h H. destruct (A4 h H) as [[? [?|?]]|?]; [left; split; [assumption|left; auto]|left; split; [assumption|now right]|now right].
    + intros l h H. destruct (A5 l h H); [left; auto|now right].
Qed.
Lemma new_ok s : stream_of out fin s -> ok_ar [] False False (new_ar s).
Proof. intros H. split; [discriminate|]. left. exists [], out. cbn. split; [reflexivity|]. split; [exact H|]. split; [reflexivity|]. split; [reflexivity|]. split; [now left|]. intros [?|?]; discriminate. Qed.
End client.
