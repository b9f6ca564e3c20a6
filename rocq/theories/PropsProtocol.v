(** C90: client and server keep to the published protocol, Protocol.v. *)
From Verif Require Import Client PropsWire ProtoProofs WireProofs Protocol.
From Verif Require Import Wire.
Local Open Scope N_scope.

(** ** The order of fields *)
Lemma vals_app k a b : vals k (a ++ b) = vals k a ++ vals k b.
Proof. unfold vals. now rewrite filter_app, map_app. Qed.
Lemma vals_cons k j v fs : vals k ((j, v) :: fs) = if j =? k then v :: vals k fs else vals k fs.
Proof. unfold vals. rewrite filter_cons. cbn [fst]. destruct (decide (j = k)) as [->|Hn]; [now rewrite N.eqb_refl|]. now rewrite (proj2 (N.eqb_neq _ _) Hn). Qed.
Lemma vals_keys k j l : Forall (fun f : field => f.1 = j) l -> vals k l = if j =? k then map snd l else [].
Proof.
  induction 1 as [|[j' v] l Hj Hl IH]; [now destruct (j =? k)|]. cbn in Hj. subst j'. rewrite vals_cons, IH. now destruct (j =? k).
Qed.
Definition chunk (k : N) (fs : list field) : list field := map (pair k) (vals k fs).
Definition chunks (ks : list N) (fs : list field) : list field := flat_map (fun k => chunk k fs) ks.

Section order.
  Context {M : Type} (step : N -> wval -> M -> option M) (ks : list N).
  Context (Hcomm : forall k1 v1 k2 v2 m, k1 <> k2 -> (m' ← step k1 v1 m; step k2 v2 m') = (m' ← step k2 v2 m; step k1 v1 m')).
  Context (Hunk : forall k v m, k ∉ ks -> step k v m = Some m).
  Lemma merge_move k v r : forall l m, Forall (fun f : field => f.1 <> k) l -> merge step (l ++ (k, v) :: r) m = (m' ← step k v m; merge step (l ++ r) m').
  Proof.
    induction l as [|[j w] l IH]; intros m Hl; [cbn; now destruct (step k v m)|]. inversion Hl as [|? ? Hj Hl']; subst. cbn in Hj. cbn [app merge].
    pose proof (Hcomm j w k v m Hj) as Hc. cbn in Hc. destruct (step j w m) as [m1|] eqn:E1.
    - rewrite IH by exact Hl'. cbn [mbind option_bind] in *. rewrite Hc. destruct (step k v m) as [m2|]; [|reflexivity]. cbn. destruct (step j w m2); reflexivity.
    - cbn in Hc. destruct (step k v m) as [m2|]; [|reflexivity]. cbn in *. now rewrite <- Hc.
  Qed.
  Lemma chunks_keys l fs k : k ∉ l -> Forall (fun f : field => f.1 <> k) (chunks l fs).
  Proof.
    intros Hk. unfold chunks. apply Forall_forall. intros f Hf. apply elem_of_list_In, in_flat_map in Hf as (j & Hj & Hf). unfold chunk in Hf. apply in_map_iff in Hf as (v & <- & _).
    cbn. intros ->. apply Hk. now apply elem_of_list_In.
  Qed.
  Lemma chunks_skip l fs k v : k ∉ l -> chunks l ((k, v) :: fs) = chunks l fs.
  Proof.
    unfold chunks. induction l as [|j l IH]; [reflexivity|]. intros (Hj & Hk)%not_elem_of_cons. cbn [flat_map]. rewrite IH by exact Hk. unfold chunk. rewrite vals_cons.
    now rewrite (proj2 (N.eqb_neq _ _) Hj).
  Qed.
  Lemma chunks_app a b fs : chunks (a ++ b) fs = chunks a fs ++ chunks b fs.
  Proof. unfold chunks. apply flat_map_app. Qed.
  (** Only the order among the fields of one number matters, and fields of other numbers than [ks] do not. *)
  Lemma merge_chunks fs m : NoDup ks -> merge step fs m = merge step (chunks ks fs) m.
  Proof.
    intros Hd. revert m. induction fs as [|[k v] fs IH]; intros m.
    - assert (chunks ks [] = []) as ->; [|reflexivity]. unfold chunks. clear. induction ks; [reflexivity|exact IHl].
    - destruct (decide (k ∈ ks)) as [Hk|Hk].
      + apply elem_of_list_split in Hk as (a & b & E). rewrite E in Hd |- *. rewrite chunks_app. cbn [chunks flat_map]. fold (chunks b ((k, v) :: fs)).
        apply NoDup_app in Hd as (_ & Ha & Hb). apply NoDup_cons in Hb as [Hb _]. assert (Ha' : k ∉ a) by (intros H; apply (Ha k H); now left).
        rewrite !chunks_skip by assumption. unfold chunk at 1. rewrite vals_cons, N.eqb_refl. cbn [map app]. rewrite merge_move by now apply chunks_keys.
        cbn [merge]. destruct (step k v m) as [m'|]; [|reflexivity]. cbn. rewrite IH, E. rewrite chunks_app. reflexivity.
      + cbn [merge]. rewrite Hunk by exact Hk. rewrite chunks_skip by exact Hk. apply IH.
  Qed.
End order.

(** ** Fields *)
Section fields.
  Context {M : Type} (step : N -> wval -> M -> option M).
  Lemma merge_single {A} (d : A) R k vs x r m m' : single d R vs x -> (forall v, R v x -> step k v m = Some m') -> (x = d -> m' = m) ->
    merge step (map (pair k) vs ++ r) m = merge step r m'.
  Proof. intros [[-> ->]|(v & -> & Hv)] H H0; [now rewrite (H0 eq_refl)|]. cbn. now rewrite (H v Hv). Qed.
  Lemma merge_optional {A} (R : wval -> A -> Prop) k vs o r m m' : opt R vs o -> (forall v x, o = Some x -> R v x -> step k v m = Some m') -> (o = None -> m' = m) ->
    merge step (map (pair k) vs ++ r) m = merge step r m'.
  Proof. intros Ho H H0. destruct o as [x|]; cbn in Ho; [destruct Ho as (v & -> & Hv)|subst vs; now rewrite (H0 eq_refl)]. cbn. now rewrite (H v x eq_refl Hv). Qed.
  Lemma merge_repeated {A} (R : wval -> A -> Prop) k (set : list A -> M) vs l r : repeated R vs l -> (forall acc v x, R v x -> step k v (set acc) = Some (set (acc ++ [x]))) ->
    forall acc, merge step (map (pair k) vs ++ r) (set acc) = merge step r (set (acc ++ l)).
  Proof.
    intros Hr H. induction Hr as [|v x vs l Hv Hr IH]; intros acc; [now rewrite app_nil_r|]. cbn [map app merge]. rewrite (H acc v x Hv). rewrite IH. now rewrite <- app_assoc.
  Qed.
End fields.
(** Whatever the published protocol calls a message with contents [x] is decoded as [x]. *)
Definition reads {M} (step : N -> wval -> M -> option M) (dflt : M) (P : list field -> M -> Prop) : Prop := forall fs x, P fs x -> merge step fs dflt = Some x.
Lemma reads_msg {M} step (dflt : M) P v x : reads step dflt P -> v_msg P v x -> get_msg step v dflt = Some x.
Proof. intros H (b & fs & -> & Hb & Hp). cbn. unfold merge_bytes. rewrite Hb. now apply H. Qed.
Lemma string_read v s : v_string v s -> get_str v = Some s.
Proof. intros [-> H]. unfold get_str. now rewrite H. Qed.
Lemma bool_read v b : v_bool v b -> get_bool v = Some b.
Proof. intros (n & -> & H). cbn. f_equal. destruct b; [|destruct (N.eqb_spec n 0) as [->|Hn]; [reflexivity|now apply H in Hn]]. destruct (N.eqb_spec n 0) as [->|]; [|reflexivity]. now destruct (proj1 H eq_refl). Qed.
Lemma u32_read v n : v_u32 v n -> get_u32 v = Some n.
Proof. intros [-> H]. unfold get_u32. now rewrite N.mod_small. Qed.
Lemma u64_read v n : v_u64 v n -> get_u64 v = Some n.
Proof. now intros ->. Qed.
Lemma bytes_read v s : v_bytes v s -> get_bytes v = Some s.
Proof. now intros ->. Qed.


(** ** What is received *)
Ltac comm_all :=
  let H := fresh in intros k1 v1 k2 v2 m H; destruct k1 as [|[[[p|p|]|[p|p|]|]|[[p|p|]|[p|p|]|]|]], k2 as [|[[[q|q|]|[q|q|]|]|[[q|q|]|[q|q|]|]|]]; try (now destruct H); cbn -[from_option];
  repeat match goal with
  | |- context [get_str ?v] => destruct (get_str v); cbn -[from_option]
  | |- context [get_bytes ?v] => destruct (get_bytes v); cbn -[from_option]
  | |- context [get_u64 ?v] => destruct (get_u64 v); cbn -[from_option]
  | |- context [get_u32 ?v] => destruct (get_u32 v); cbn -[from_option]
  | |- context [get_bool ?v] => destruct (get_bool v); cbn -[from_option]
  | H : get_msg ?s ?v ?m = _ |- context [get_msg ?s ?v ?m] => rewrite H; cbn -[from_option]
  | |- context [get_msg ?s ?v ?m] => destruct (get_msg s v m) eqn:?; cbn -[from_option]
  end; try reflexivity.
Ltac unk_all :=
  let H := fresh in intros k v m H; destruct k as [|[[[p|p|]|[p|p|]|]|[[p|p|]|[p|p|]|]|]]; try reflexivity; exfalso; apply H, elem_of_list_In; cbn; auto 10.
Ltac open_chunks l :=
  rewrite (merge_chunks _ l); [|comm_all|unk_all|repeat constructor; rewrite elem_of_list_In; cbn; intuition discriminate]; cbn [chunks flat_map]; unfold chunk; unfold no_query, no_response, no_append.
Lemma reads_meta : reads step_meta (PbMeta [] []) p_metadata_entry.
Proof.
  intros fs [x1 x2] (H1 & H2). cbn in *. open_chunks [1; 2].
  rewrite (merge_single step_meta _ _ 1 _ _ _ (PbMeta [] []) (PbMeta x1 []) H1); [|intros v Hv; cbn; now rewrite (string_read _ _ Hv)|now intros ->].
  rewrite (merge_single step_meta _ _ 2 _ _ _ (PbMeta x1 []) (PbMeta x1 x2) H2); [|intros v Hv; cbn; now rewrite (string_read _ _ Hv)|now intros ->].
  reflexivity.
Qed.
Lemma reads_event : reads step_event no_event p_event.
Proof.
  intros fs [x1 x2 x3 x4 x5] (H1 & H2 & H3 & H4 & H5). cbn in *. open_chunks [1; 2; 3; 4; 5].
  rewrite (merge_single step_event _ _ 1 _ _ _ (PbEvent [] [] [] [] []) (PbEvent x1 [] [] [] []) H1); [|intros v Hv; cbn; now rewrite (string_read _ _ Hv)|now intros ->].
  rewrite (merge_repeated step_event _ 2 (fun l => (PbEvent x1 l [] [] [])) _ _ _ H2); [|intros acc v x Hv; cbn; now rewrite (string_read _ _ Hv)]. cbn [app].
  rewrite (merge_single step_event _ _ 3 _ _ _ (PbEvent x1 x2 [] [] []) (PbEvent x1 x2 x3 [] []) H3); [|intros v Hv; cbn; now rewrite (bytes_read _ _ Hv)|now intros ->].
  rewrite (merge_single step_event _ _ 4 _ _ _ (PbEvent x1 x2 x3 [] []) (PbEvent x1 x2 x3 x4 []) H4); [|intros v Hv; cbn; now rewrite (string_read _ _ Hv)|now intros ->].
  rewrite (merge_repeated step_event _ 5 (fun l => (PbEvent x1 x2 x3 x4 l)) _ _ _ H5); [|intros acc v x Hv; cbn; now rewrite (reads_msg _ _ _ _ _ reads_meta Hv)]. cbn [app].
  reflexivity.
Qed.
Lemma reads_tracking : reads step_tracking no_tracking p_tracking_info.
Proof.
  intros fs [x1 x2] (H1 & H2). cbn in *. open_chunks [1; 2].
  rewrite (merge_single step_tracking _ _ 1 _ _ _ (PbTracking [] 0) (PbTracking x1 0) H1); [|intros v Hv; cbn; now rewrite (string_read _ _ Hv)|now intros ->].
  rewrite (merge_single step_tracking _ _ 2 _ _ _ (PbTracking x1 0) (PbTracking x1 x2) H2); [|intros v Hv; cbn; now rewrite (u64_read _ _ Hv)|now intros ->].
  reflexivity.
Qed.
Lemma reads_seq_event : reads step_seq_event (PbSeqEvent 0 None None) p_sequenced_event.
Proof.
  intros fs [x1 x2 x3] (H1 & H2 & H3). cbn in *. open_chunks [1; 2; 3].
  rewrite (merge_single step_seq_event _ _ 1 _ _ _ (PbSeqEvent 0 None None) (PbSeqEvent x1 None None) H1); [|intros v Hv; cbn; now rewrite (u64_read _ _ Hv)|now intros ->].
  rewrite (merge_optional step_seq_event _ 2 _ _ _ (PbSeqEvent x1 None None) (PbSeqEvent x1 x2 None) H2); [|intros v x -> Hv; cbn; now rewrite (reads_msg _ _ _ _ _ reads_event Hv)|now intros ->].
  rewrite (merge_optional step_seq_event _ 3 _ _ _ (PbSeqEvent x1 x2 None) (PbSeqEvent x1 x2 x3) H3); [|intros v x -> Hv; cbn; now rewrite (reads_msg _ _ _ _ _ reads_tracking Hv)|now intros ->].
  reflexivity.
Qed.
Lemma reads_item : reads step_item (PbItem [] []) p_query_item.
Proof.
  intros fs [x1 x2] (H1 & H2). cbn in *. open_chunks [1; 2].
  rewrite (merge_repeated step_item _ 1 (fun l => (PbItem l [])) _ _ _ H1); [|intros acc v x Hv; cbn; now rewrite (string_read _ _ Hv)]. cbn [app].
  rewrite (merge_repeated step_item _ 2 (fun l => (PbItem x1 l)) _ _ _ H2); [|intros acc v x Hv; cbn; now rewrite (string_read _ _ Hv)]. cbn [app].
  reflexivity.
Qed.
Lemma reads_query : reads step_query no_query p_query.
Proof.
  intros fs [x1] H1. cbn in *. open_chunks [1].
  rewrite (merge_repeated step_query _ 1 (fun l => (PbQuery l)) _ _ _ H1); [|intros acc v x Hv; cbn; now rewrite (reads_msg _ _ _ _ _ reads_item Hv)]. cbn [app].
  reflexivity.
Qed.
Lemma reads_condition : reads step_condition no_condition p_append_condition.
Proof.
  intros fs [x1 x2] (H1 & H2). cbn in *. open_chunks [1; 2].
  rewrite (merge_optional step_condition _ 1 _ _ _ (PbCondition None None) (PbCondition x1 None) H1); [|intros v x -> Hv; cbn; now rewrite (reads_msg _ _ _ _ _ reads_query Hv)|now intros ->].
  rewrite (merge_optional step_condition _ 2 _ _ _ (PbCondition x1 None) (PbCondition x1 x2) H2); [|intros v x -> Hv; cbn; now rewrite (u64_read _ _ Hv)|now intros ->].
  reflexivity.
Qed.
Lemma reads_read : reads step_read no_read p_read_request.
Proof.
  intros fs [x1 x2 x3 x4 x5 x6] (H1 & H2 & H3 & H4 & H5 & H6). cbn in *. open_chunks [1; 2; 3; 4; 5; 6].
  rewrite (merge_optional step_read _ 1 _ _ _ (PbRead None None None None None None) (PbRead x1 None None None None None) H1); [|intros v x -> Hv; cbn; now rewrite (reads_msg _ _ _ _ _ reads_query Hv)|now intros ->].
  rewrite (merge_optional step_read _ 2 _ _ _ (PbRead x1 None None None None None) (PbRead x1 x2 None None None None) H2); [|intros v x -> Hv; cbn; now rewrite (u64_read _ _ Hv)|now intros ->].
  rewrite (merge_optional step_read _ 3 _ _ _ (PbRead x1 x2 None None None None) (PbRead x1 x2 x3 None None None) H3); [|intros v x -> Hv; cbn; now rewrite (bool_read _ _ Hv)|now intros ->].
  rewrite (merge_optional step_read _ 4 _ _ _ (PbRead x1 x2 x3 None None None) (PbRead x1 x2 x3 x4 None None) H4); [|intros v x -> Hv; cbn; now rewrite (u32_read _ _ Hv)|now intros ->].
  rewrite (merge_optional step_read _ 5 _ _ _ (PbRead x1 x2 x3 x4 None None) (PbRead x1 x2 x3 x4 x5 None) H5); [|intros v x -> Hv; cbn; now rewrite (bool_read _ _ Hv)|now intros ->].
  rewrite (merge_optional step_read _ 6 _ _ _ (PbRead x1 x2 x3 x4 x5 None) (PbRead x1 x2 x3 x4 x5 x6) H6); [|intros v x -> Hv; cbn; now rewrite (u32_read _ _ Hv)|now intros ->].
  reflexivity.
Qed.
Lemma reads_response : reads step_response no_response p_read_response.
Proof.
  intros fs [x1 x2] (H1 & H2). cbn in *. open_chunks [1; 2].
  rewrite (merge_repeated step_response _ 1 (fun l => (PbResponse l None)) _ _ _ H1); [|intros acc v x Hv; cbn; now rewrite (reads_msg _ _ _ _ _ reads_seq_event Hv)]. cbn [app].
  rewrite (merge_optional step_response _ 2 _ _ _ (PbResponse x1 None) (PbResponse x1 x2) H2); [|intros v x -> Hv; cbn; now rewrite (u64_read _ _ Hv)|now intros ->].
  reflexivity.
Qed.
Lemma reads_subscribe : reads step_subscribe no_subscribe p_subscribe_request.
Proof.
  intros fs [x1 x2 x3] (H1 & H2 & H3). cbn in *. open_chunks [1; 2; 3].
  rewrite (merge_optional step_subscribe _ 1 _ _ _ (PbSubscribe None None None) (PbSubscribe x1 None None) H1); [|intros v x -> Hv; cbn; now rewrite (reads_msg _ _ _ _ _ reads_query Hv)|now intros ->].
  rewrite (merge_optional step_subscribe _ 2 _ _ _ (PbSubscribe x1 None None) (PbSubscribe x1 x2 None) H2); [|intros v x -> Hv; cbn; now rewrite (u64_read _ _ Hv)|now intros ->].
  rewrite (merge_optional step_subscribe _ 3 _ _ _ (PbSubscribe x1 x2 None) (PbSubscribe x1 x2 x3) H3); [|intros v x -> Hv; cbn; now rewrite (u32_read _ _ Hv)|now intros ->].
  reflexivity.
Qed.
Lemma reads_append : reads step_append no_append p_append_request.
Proof.
  intros fs [x1 x2 x3] (H1 & H2 & H3). cbn in *. open_chunks [1; 2; 3].
  rewrite (merge_repeated step_append _ 1 (fun l => (PbAppend l None None)) _ _ _ H1); [|intros acc v x Hv; cbn; now rewrite (reads_msg _ _ _ _ _ reads_event Hv)]. cbn [app].
  rewrite (merge_optional step_append _ 2 _ _ _ (PbAppend x1 None None) (PbAppend x1 x2 None) H2); [|intros v x -> Hv; cbn; now rewrite (reads_msg _ _ _ _ _ reads_condition Hv)|now intros ->].
  rewrite (merge_optional step_append _ 3 _ _ _ (PbAppend x1 x2 None) (PbAppend x1 x2 x3) H3); [|intros v x -> Hv; cbn; now rewrite (reads_msg _ _ _ _ _ reads_tracking Hv)|now intros ->].
  reflexivity.
Qed.
Lemma reads_error : reads step_error (PbError [] 0) p_error_response.
Proof.
  intros fs [x1 x2] (H1 & H2). cbn in *. open_chunks [1; 2].
  rewrite (merge_single step_error _ _ 1 _ _ _ (PbError [] 0) (PbError x1 0) H1); [|intros v Hv; cbn; now rewrite (string_read _ _ Hv)|now intros ->].
  rewrite (merge_single step_error _ _ 2 _ _ _ (PbError x1 0) (PbError x1 x2) H2); [|intros v Hv; cbn; now rewrite (u32_read _ _ Hv)|now intros ->].
  reflexivity.
Qed.
Lemma reads_position : reads step_position 0 p_append_response.
Proof.
  intros fs x H. open_chunks [1]. rewrite (merge_single step_position _ _ 1 _ _ _ 0 x H); [reflexivity| |now intros ->]. intros v Hv. cbn. now rewrite (u64_read _ _ Hv).
Qed.
Lemma reads_head : reads step_opt_position None p_head_response.
Proof.
  intros fs o H. open_chunks [1]. rewrite (merge_optional step_opt_position _ 1 _ _ _ None o H); [reflexivity| |now intros ->]. intros v x -> Hv. cbn. now rewrite (u64_read _ _ Hv).
Qed.
Lemma reads_tracked : reads step_opt_position None p_tracking_response.
Proof. exact reads_head. Qed.
Lemma reads_source : reads step_source [] p_tracking_request.
Proof.
  intros fs x H. open_chunks [1]. rewrite (merge_single step_source _ _ 1 _ _ _ [] x H); [reflexivity| |now intros ->]. intros v Hv. cbn. now rewrite (string_read _ _ Hv).
Qed.

(** ** What is sent *)
Lemma keys_str k s : Forall (fun f : field => f.1 = k) (f_str k s).
Proof. unfold f_str. destruct s; repeat constructor. Qed.
Lemma keys_num k n : Forall (fun f : field => f.1 = k) (f_num k n).
Proof. unfold f_num. destruct (n =? 0); repeat constructor. Qed.
Lemma keys_opt {A} k (enc : A -> wval) o : Forall (fun f : field => f.1 = k) (f_opt k enc o).
Proof. destruct o; repeat constructor. Qed.
Lemma keys_rep {A} k (enc : A -> wval) l : Forall (fun f : field => f.1 = k) (f_rep k enc l).
Proof. unfold f_rep. induction l; repeat constructor. exact IHl. Qed.
Lemma vals_str k j s : vals k (f_str j s) = if j =? k then map snd (f_str j s) else [].
Proof. apply vals_keys, keys_str. Qed.
Lemma vals_num k j n : vals k (f_num j n) = if j =? k then map snd (f_num j n) else [].
Proof. apply vals_keys, keys_num. Qed.
Lemma vals_opt {A} k j (enc : A -> wval) o : vals k (f_opt j enc o) = if j =? k then map snd (f_opt j enc o) else [].
Proof. apply vals_keys, keys_opt. Qed.
Lemma vals_rep {A} k j (enc : A -> wval) l : vals k (f_rep j enc l) = if j =? k then map snd (f_rep j enc l) else [].
Proof. apply vals_keys, keys_rep. Qed.
Lemma str_single k s : utf8 s -> single [] v_string (map snd (f_str k s)) s.
Proof. intros H. unfold f_str. destruct s as [|b s]; [now left|right]. exists (WLen (b :: s)). now repeat split. Qed.
Lemma bytes_single k s : single [] v_bytes (map snd (f_str k s)) s.
Proof. unfold f_str. destruct s as [|b s]; [now left|right]. exists (WLen (b :: s)). now repeat split. Qed.
Lemma num_single k n : single 0 v_u64 (map snd (f_num k n)) n.
Proof. unfold f_num. destruct (N.eqb_spec n 0) as [->|]; [now left|right]. exists (WVar n). now repeat split. Qed.
Lemma u32_single k n : n < U32 -> single 0 v_u32 (map snd (f_num k n)) n.
Proof. unfold f_num. destruct (N.eqb_spec n 0) as [->|]; [now left|right]. exists (WVar n). now repeat split. Qed.
Lemma opt_field {A} k (enc : A -> wval) (R : wval -> A -> Prop) o : (forall x, o = Some x -> R (enc x) x) -> opt R (map snd (f_opt k enc o)) o.
Proof. intros H. destruct o as [x|]; [|reflexivity]. exists (enc x). split; [reflexivity|now apply H]. Qed.
Lemma rep_field {A} k (enc : A -> wval) (R : wval -> A -> Prop) l : (forall x, x ∈ l -> R (enc x) x) -> repeated R (map snd (f_rep k enc l)) l.
Proof.
  intros H. unfold f_rep, repeated. induction l as [|x l IH]; [constructor|]. cbn. constructor; [apply H; now left|]. apply IH. intros y Hy. apply H. now right.
Qed.
(** What is sent for [x] is a message with contents [x], by the published protocol, and nothing else is in its bytes. *)
Definition says {M} (fields : M -> list field) (wf : M -> Prop) (P : list field -> M -> Prop) : Prop :=
  forall x, wf x -> nlen (put_fields (fields x)) < U64 -> P (fields x) x.
Lemma says_msg {M} {step} {dflt : M} {fields wf P} : codec step dflt fields wf -> says fields wf P -> forall x, wf x -> nlen (put_fields (fields x)) < U64 ->
  v_msg P (WLen (put_fields (fields x))) x.
Proof.
  intros Hc Hs x Hw Hl. exists (put_fields (fields x)), (fields x). split; [reflexivity|]. split; [|now apply Hs]. apply get_put_fields. now destruct (Hc x Hw Hl).
Qed.
Ltac open_vals := rewrite ?vals_app, ?vals_str, ?vals_num, ?vals_opt, ?vals_rep; cbn [N.eqb Pos.eqb app]; rewrite ?app_nil_r.
Ltac inl1 x := match goal with
  | |- _ ∈ f_rep ?k ?enc ?l => apply (in_rep k enc l x); assumption
  | |- _ ∈ f_opt ?k ?enc (Some x) => apply (in_opt k enc (Some x) x); reflexivity
  end.
Ltac inl x := rewrite ?elem_of_app; repeat (first [inl1 x | left; inl1 x | right]).
Lemma forall_in {A} (P : A -> Prop) l x : Forall P l -> x ∈ l -> P x.
Proof. intros H Hx. exact (proj1 (Forall_forall _ _) H x Hx). Qed.
Lemma says_meta : says fields_meta wf_meta p_metadata_entry.
Proof.
  intros [x1 x2] (H1 & H2) Hl. unfold fields_meta in Hl. cbn [pm_key pm_value] in *. unfold p_metadata_entry, fields_meta. cbn [pm_key pm_value]. open_vals.
  split_and!.
  - apply str_single; exact H1.
  - apply str_single; exact H2.
Qed.
Lemma says_event : says fields_event wf_event p_event.
Proof.
  intros [x1 x2 x3 x4 x5] (H1 & H2 & H4 & H5) Hl. unfold fields_event in Hl. cbn [pe_type pe_tags pe_data pe_uuid pe_meta] in *. unfold p_event, fields_event. cbn [pe_type pe_tags pe_data pe_uuid pe_meta]. open_vals.
  split_and!.
  - apply str_single; exact H1.
  - apply rep_field; intros x Hx; split; [reflexivity|exact (forall_in _ _ x H2 Hx)].
  - apply bytes_single.
  - apply str_single; exact H4.
  - apply rep_field; intros x Hx; apply (says_msg codec_meta says_meta); [exact (forall_in _ _ x H5 Hx)|]; short Hl; inl x.
Qed.
Lemma says_tracking : says fields_tracking wf_tracking p_tracking_info.
Proof.
  intros [x1 x2] (H1 & H2) Hl. unfold fields_tracking in Hl. cbn [pt_source pt_pos] in *. unfold p_tracking_info, fields_tracking. cbn [pt_source pt_pos]. open_vals.
  split_and!.
  - apply str_single; exact H1.
  - apply num_single.
Qed.
Lemma says_seq_event : says fields_seq_event wf_seq_event p_sequenced_event.
Proof.
  intros [x1 x2 x3] (H1 & H2 & H3) Hl. unfold fields_seq_event in Hl. cbn [ps_pos ps_event ps_trk] in *. unfold p_sequenced_event, fields_seq_event. cbn [ps_pos ps_event ps_trk]. open_vals.
  split_and!.
  - apply num_single.
  - apply opt_field; intros x ->; apply (says_msg codec_event says_event); [now apply H2|]; short Hl; inl x.
  - apply opt_field; intros x ->; apply (says_msg codec_tracking says_tracking); [now apply H3|]; short Hl; inl x.
Qed.
Lemma says_item : says fields_item wf_item p_query_item.
Proof.
  intros [x1 x2] (H1 & H2) Hl. unfold fields_item in Hl. cbn [pi_types pi_tags] in *. unfold p_query_item, fields_item. cbn [pi_types pi_tags]. open_vals.
  split_and!.
  - apply rep_field; intros x Hx; split; [reflexivity|exact (forall_in _ _ x H1 Hx)].
  - apply rep_field; intros x Hx; split; [reflexivity|exact (forall_in _ _ x H2 Hx)].
Qed.
Lemma says_query : says fields_query wf_query p_query.
Proof.
  intros [x1] H1 Hl. unfold fields_query in Hl. cbn [pq_items] in *. unfold p_query, fields_query. cbn [pq_items]. open_vals.
  apply rep_field; intros x Hx; apply (says_msg codec_item says_item); [exact (forall_in _ _ x H1 Hx)|]; short Hl; inl x.
Qed.
Lemma says_condition : says fields_condition wf_condition p_append_condition.
Proof.
  intros [x1 x2] (H1 & H2) Hl. unfold fields_condition in Hl. cbn [pc_query pc_after] in *. unfold p_append_condition, fields_condition. cbn [pc_query pc_after]. open_vals.
  split_and!.
  - apply opt_field; intros x ->; apply (says_msg codec_query says_query); [now apply H1|]; short Hl; inl x.
  - apply opt_field; intros x ->; reflexivity.
Qed.
Lemma says_read : says fields_read wf_read p_read_request.
Proof.
  intros [x1 x2 x3 x4 x5 x6] (H1 & H2 & H4 & H6) Hl. unfold fields_read in Hl. cbn [pr_query pr_start pr_backwards pr_limit pr_subscribe pr_batch] in *. unfold p_read_request, fields_read. cbn [pr_query pr_start pr_backwards pr_limit pr_subscribe pr_batch]. open_vals.
  split_and!.
  - apply opt_field; intros x ->; apply (says_msg codec_query says_query); [now apply H1|]; short Hl; inl x.
  - apply opt_field; intros x ->; reflexivity.
  - apply opt_field; intros x ->; eexists; split; [reflexivity|now destruct x].
  - apply opt_field; intros x ->; split; [reflexivity|now apply H4].
  - apply opt_field; intros x ->; eexists; split; [reflexivity|now destruct x].
  - apply opt_field; intros x ->; split; [reflexivity|now apply H6].
Qed.
Lemma says_response : says fields_response wf_response p_read_response.
Proof.
  intros [x1 x2] (H1 & H2) Hl. unfold fields_response in Hl. cbn [px_events px_head] in *. unfold p_read_response, fields_response. cbn [px_events px_head]. open_vals.
  split_and!.
  - apply rep_field; intros x Hx; apply (says_msg codec_seq_event says_seq_event); [exact (forall_in _ _ x H1 Hx)|]; short Hl; inl x.
  - apply opt_field; intros x ->; reflexivity.
Qed.
Lemma says_subscribe : says fields_subscribe wf_subscribe p_subscribe_request.
Proof.
  intros [x1 x2 x3] (H1 & H2 & H3) Hl. unfold fields_subscribe in Hl. cbn [pu_query pu_after pu_batch] in *. unfold p_subscribe_request, fields_subscribe. cbn [pu_query pu_after pu_batch]. open_vals.
  split_and!.
  - apply opt_field; intros x ->; apply (says_msg codec_query says_query); [now apply H1|]; short Hl; inl x.
  - apply opt_field; intros x ->; reflexivity.
  - apply opt_field; intros x ->; split; [reflexivity|now apply H3].
Qed.
Lemma says_append : says fields_append wf_append p_append_request.
Proof.
  intros [x1 x2 x3] (H1 & H2 & H3) Hl. unfold fields_append in Hl. cbn [pa_events pa_condition pa_trk] in *. unfold p_append_request, fields_append. cbn [pa_events pa_condition pa_trk]. open_vals.
  split_and!.
  - apply rep_field; intros x Hx; apply (says_msg codec_event says_event); [exact (forall_in _ _ x H1 Hx)|]; short Hl; inl x.
  - apply opt_field; intros x ->; apply (says_msg codec_condition says_condition); [now apply H2|]; short Hl; inl x.
  - apply opt_field; intros x ->; apply (says_msg codec_tracking says_tracking); [now apply H3|]; short Hl; inl x.
Qed.
Lemma says_error : says fields_error wf_error p_error_response.
Proof.
  intros [x1 x2] (H1 & H2) Hl. unfold fields_error in Hl. cbn [px_message px_type] in *. unfold p_error_response, fields_error. cbn [px_message px_type]. open_vals.
  split_and!.
  - apply str_single; exact H1.
  - apply u32_single; exact H2.
Qed.
Lemma says_position : says fields_position (fun n => n < U64) p_append_response.
Proof. intros n _ _. unfold p_append_response, fields_position. open_vals. apply num_single. Qed.
Lemma says_head : says fields_opt_position (fun o => opt_all (fun n => n < U64) o) p_head_response.
Proof. intros o _ _. unfold p_head_response, fields_opt_position. open_vals. apply opt_field. now intros x ->. Qed.
Lemma says_source : says fields_source (fun s => utf8 s) p_tracking_request.
Proof. intros s H _. unfold p_tracking_request, fields_source. open_vals. now apply str_single. Qed.

(** ** C90 *)
(** What the messages mean: the values of the interface that they stand for. *)
Definition both {A B} (R : A -> B -> Prop) (o : option A) (o' : option B) : Prop :=
  match o, o' with None, None => True | Some x, Some y => R x y | _, _ => False end.
Definition means_event (m : pb_event) (e : new_event) : Prop :=
  pe_type m = ne_type e /\ pe_tags m = ne_tags e /\ pe_data m = ne_data e /\
  Forall2 (fun kv p => pm_key kv = p.1 /\ pm_value kv = p.2) (pe_meta m) (ne_meta e) /\
  match ne_uuid e with None => pe_uuid m = [] | Some u => names_uuid (pe_uuid m) u end.
Definition means_tracking (m : pb_tracking) (t : tracking) : Prop := pt_source m = tr_source t /\ pt_pos m = tr_pos t.
Definition means_query (m : pb_query) (q : query) : Prop := Forall2 (fun i j => pi_types i = qi_types j /\ pi_tags i = qi_tags j) (pq_items m) q.
(* a condition without a query is one with the query that any event meets *)
Definition means_condition (m : pb_condition) (c : append_condition) : Prop :=
  match pc_query m with None => ac_query c = [] | Some q => means_query q (ac_query c) end /\ pc_after m = ac_after c.
Definition means_request (m : pb_append) (r : request) : Prop :=
  Forall2 means_event (pa_events m) (rq_events r) /\ both means_condition (pa_condition m) (rq_cond r) /\ both means_tracking (pa_trk m) (rq_trk r).
Definition means_read (m : pb_read) (q : option query) (start : option N) (bw : bool) (limit batch : option N) : Prop :=
  both means_query (pr_query m) q /\ pr_start m = start /\ (pr_backwards m = Some true <-> bw = true) /\ pr_limit m = limit /\ pr_subscribe m <> Some true /\ pr_batch m = batch.
Definition means_subscribe (m : pb_subscribe) (q : option query) (after batch : option N) : Prop :=
  both means_query (pu_query m) q /\ pu_after m = after /\ pu_batch m = batch.
Definition means_stored (m : pb_seq_event) (e : seq_event) : Prop :=
  ps_pos m = e.1 /\ (exists pe, ps_event m = Some pe /\ means_event pe (NE (er_type e.2) (er_data e.2) (er_tags e.2) (er_uuid e.2) (er_meta e.2))) /\
  both means_tracking (ps_trk m) (er_tracking e.2).
(* umadb.proto:152-167 *)
Definition error_numbers : list (N * err) := [(0, EIo); (1, ESerialization); (2, EIntegrity); (3, ECorruption); (4, EInternal); (5, EAuth); (6, EInvalidArgument)].

Lemma both_map {A B} (R : A -> B -> Prop) (f : A -> B) o o' : (forall x y, R x y -> f x = y) -> both R o o' -> f <$> o = o'.
Proof. intros H. destruct o, o'; cbn; try easy. intros Hr. f_equal. now apply H. Qed.
Lemma both_of {A B} (R : A -> B -> Prop) (f : B -> A) o : (forall x, o = Some x -> R (f x) x) -> both R (f <$> o) o.
Proof. intros H. destruct o as [x|]; cbn; [now apply H|easy]. Qed.
Lemma Forall2_map_eq {A B} (R : A -> B -> Prop) (f : A -> B) l l' : (forall x y, R x y -> f x = y) -> Forall2 R l l' -> map f l = l'.
Proof. intros H. induction 1 as [|x y l l' Hr Hl IH]; [reflexivity|]. cbn. now rewrite (H _ _ Hr), IH. Qed.
Lemma Forall2_map_of {A B} (R : A -> B -> Prop) (f : B -> A) l : Forall (fun x => R (f x) x) l -> Forall2 R (map f l) l.
Proof. induction 1; constructor; assumption. Qed.
Lemma event_meaning m e : means_event m e -> event_of_pb m = Ok e.
Proof.
  destruct m as [t g d u l], e as [t' d' g' u' l']. intros (H1 & H2 & H3 & H4 & H5). cbn in *. subst t' g' d'. unfold event_of_pb. cbn.
  assert (El : map (fun m => (pm_key m, pm_value m)) l = l'). { eapply Forall2_map_eq; [|exact H4]. intros x [a b] [Ha Hb]. cbn in *. now subst. }
  rewrite El. destruct u' as [u'|]; [|now rewrite H5]. apply parse_uuid_iff in H5. destruct u as [|c u]; [discriminate H5|]. now rewrite H5.
Qed.
Lemma event_means e : event_text e -> means_event (event_to_pb e) e.
Proof.
  intros (_ & _ & Hu & _). unfold means_event, event_to_pb. cbn. split_and!; try reflexivity.
  - apply Forall2_map_of, Forall_forall. now intros [k v] _.
  - destruct (ne_uuid e) as [u|] eqn:E; [|reflexivity]. destruct (Hu u eq_refl) as [Hl Hb]. apply parse_uuid_iff. now apply uuid_text_rt.
Qed.
Lemma tracking_meaning m t : means_tracking m t -> tracking_of_pb m = t.
Proof. destruct m, t. intros [H1 H2]. cbn in *. now subst. Qed.
Lemma query_meaning m q : means_query m q -> query_of_pb m = q.
Proof. intros H. eapply Forall2_map_eq; [|exact H]. intros [a b] [a' b'] [H1 H2]. cbn in *. now subst. Qed.
Lemma query_means q : means_query (query_to_pb q) q.
Proof. unfold means_query, query_to_pb. cbn. apply Forall2_map_of, Forall_forall. now intros [a b] _. Qed.
Lemma condition_meaning m c : means_condition m c -> condition_of_pb m = c.
Proof.
  destruct m as [q a], c as [q' a']. intros [H1 H2]. cbn in *. subst a'. unfold condition_of_pb. cbn. f_equal. destruct q as [q|]; [now apply query_meaning|now symmetry].
Qed.
Lemma request_meaning m r : means_request m r -> append_of_pb m = Ok r.
Proof.
  destruct m as [l c t], r as [l' c' t']. intros (H1 & H2 & H3). cbn in *. unfold append_of_pb. cbn.
  assert (El : collect event_of_pb l = Ok l'). { induction H1 as [|x y l l' Hx Hl IH]; [reflexivity|]. cbn. rewrite (event_meaning _ _ Hx). cbn. now rewrite IH. }
  rewrite El. cbn. rewrite (both_map _ _ _ _ condition_meaning H2), (both_map _ _ _ _ tracking_meaning H3). reflexivity.
Qed.
Lemma request_means r : request_text r -> means_request (append_to_pb r) r.
Proof.
  intros (H1 & H2 & H3). unfold means_request, append_to_pb. cbn. split_and!.
  - apply Forall2_map_of. eapply List.Forall_impl; [|exact H1]. intros e. apply event_means.
  - apply both_of. intros c Hc. split; [apply query_means|reflexivity].
  - apply both_of. now intros t Ht.
Qed.
Lemma stored_meaning l l' : Forall2 means_stored l l' -> convert_sequenced_events l = Ok l'.
Proof.
  induction 1 as [|[n ev t] [n' r] l l' (H1 & (pe & H2 & H3) & H4) Hl IH]; [reflexivity|]. cbn in *. subst n' ev. rewrite (event_meaning _ _ H3). cbn. rewrite IH. cbn.
  rewrite (both_map _ _ _ _ tracking_meaning H4). now destruct r.
Qed.

(** Any bytes that are a message by the published protocol, no longer than what is accepted, are taken for what they mean; by the
    server, if requests, and by the client, if answers. *)
Lemma understood {M} step (dflt : M) P b fs m : reads step dflt P -> get_fields b = Some fs -> P fs m -> nlen b <= MAX_RECV -> receive step dflt b = Received m.
Proof.
  intros H Hb Hp Hl. unfold receive, merge_bytes. destruct (N.ltb_spec MAX_RECV (nlen b)); [lia|]. rewrite Hb. cbn. now rewrite (H fs m Hp).
Qed.
Theorem append_understood b fs m r : get_fields b = Some fs -> p_append_request fs m -> means_request m r -> nlen b <= MAX_RECV ->
  receive step_append no_append b = Received m /\ append_of_pb m = Ok r.
Proof. intros Hb Hp Hm Hl. split; [exact (understood _ _ _ _ _ _ reads_append Hb Hp Hl)|now apply request_meaning]. Qed.
Theorem read_understood b fs m q start bw limit batch : get_fields b = Some fs -> p_read_request fs m -> means_read m q start bw limit batch -> nlen b <= MAX_RECV ->
  receive step_read no_read b = Received m /\ read_of_pb m = Ok (q, start, bw, limit, batch).
Proof.
  intros Hb Hp (H1 & H2 & H3 & H4 & H5 & H6) Hl. split; [exact (understood _ _ _ _ _ _ reads_read Hb Hp Hl)|]. unfold read_of_pb.
  assert (Es : default false (pr_subscribe m) = false) by (destruct (pr_subscribe m) as [[]|]; [now destruct H5|reflexivity..]). rewrite Es.
  assert (Eb : default false (pr_backwards m) = bw). { destruct (pr_backwards m) as [[]|], bw; cbn; try reflexivity; destruct H3 as [H31 H32]; first [discriminate (H31 eq_refl)|discriminate (H32 eq_refl)]. }
  rewrite Eb, (both_map _ _ _ _ query_meaning H1). now subst.
Qed.
Theorem subscribe_understood b fs m q after batch : get_fields b = Some fs -> p_subscribe_request fs m -> means_subscribe m q after batch -> nlen b <= MAX_RECV ->
  receive step_subscribe no_subscribe b = Received m /\ subscribe_of_pb m = (q, after, batch).
Proof.
  intros Hb Hp (H1 & H2 & H3) Hl. split; [exact (understood _ _ _ _ _ _ reads_subscribe Hb Hp Hl)|]. unfold subscribe_of_pb. rewrite (both_map _ _ _ _ query_meaning H1). now subst.
Qed.
Theorem response_understood b fs m evs : get_fields b = Some fs -> p_read_response fs m -> Forall2 means_stored (px_events m) evs -> nlen b <= MAX_RECV ->
  receive step_response no_response b = Received m /\ convert_sequenced_events (px_events m) = Ok evs.
Proof. intros Hb Hp Hm Hl. split; [exact (understood _ _ _ _ _ _ reads_response Hb Hp Hl)|now apply stored_meaning]. Qed.
Theorem answers_understood b fs : get_fields b = Some fs -> nlen b <= MAX_RECV ->
  (forall n, p_append_response fs n -> receive step_position 0 b = Received n) /\
  (forall o, p_head_response fs o -> receive step_opt_position None b = Received o) /\
  (forall o, p_tracking_response fs o -> receive step_opt_position None b = Received o) /\
  (forall s, p_tracking_request fs s -> receive step_source [] b = Received s).
Proof.
  intros Hb Hl. split_and!; intros x Hx; eapply understood; eauto.
  - exact reads_position.
  - exact reads_head.
  - exact reads_tracked.
  - exact reads_source.
Qed.
Theorem error_understood s fs msg n k : get_fields (st_details s) = Some fs -> p_error_response fs (PbError msg n) -> st_details s <> [] -> (n, k) ∈ error_numbers ->
  dcb_error_from_status s = Error k msg.
Proof.
  intros Hb Hp Hn Hk. unfold dcb_error_from_status, merge_bytes. rewrite Hb. cbn [mbind option_bind]. rewrite (reads_error fs _ Hp).
  destruct (st_details s) as [|c d]; [now destruct Hn|]. destruct (N.ltb_spec 0 (nlen (c :: d))) as [_|H]; [|rewrite nlen_cons in H; lia].
  repeat (apply elem_of_cons in Hk as [Hk|Hk]; [injection Hk as -> ->; reflexivity|]). now apply elem_of_nil in Hk.
Qed.

(** What they send is such a message. *)
Lemma spoken {M} step (dflt : M) fields wf P x : codec step dflt fields wf -> says fields wf P -> wf x -> nlen (put_fields (fields x)) < U64 ->
  exists fs, get_fields (put_fields (fields x)) = Some fs /\ P fs x.
Proof. intros Hc Hs Hw Hl. exists (fields x). split; [|now apply Hs]. apply get_put_fields. now destruct (Hc x Hw Hl). Qed.
Theorem append_spoken r : request_text r -> let b := put_fields (fields_append (append_to_pb r)) in nlen b < U64 ->
  exists fs m, get_fields b = Some fs /\ p_append_request fs m /\ means_request m r.
Proof.
  intros H b Hl. destruct (spoken _ _ _ _ _ _ codec_append says_append (wf_append_to_pb r H) Hl) as (fs & H1 & H2). exists fs, (append_to_pb r).
  split_and!; [exact H1|exact H2|now apply request_means].
Qed.
Theorem read_spoken batch q start bw limit : opt_all query_text q -> opt_all (fun n => n < U64) start -> opt_all (fun n => n < U32) limit -> opt_all (fun n => n < U32) batch ->
  let b := put_fields (fields_read (read_to_pb batch q start bw limit)) in nlen b < U64 ->
  exists fs m, get_fields b = Some fs /\ p_read_request fs m /\ means_read m q start bw limit batch.
Proof.
  intros H1 H2 H3 H4 b Hl. assert (Hw : wf_read (read_to_pb batch q start bw limit)).
  { unfold wf_read, read_to_pb. cbn [pr_query pr_start pr_backwards pr_limit pr_subscribe pr_batch]. split; [eapply opt_map; [|exact H1]; apply wf_query_to_pb|]. auto. }
  destruct (spoken _ _ _ _ _ _ codec_read says_read Hw Hl) as (fs & E1 & E2). exists fs, (read_to_pb batch q start bw limit). split_and!; [exact E1|exact E2|].
  unfold means_read, read_to_pb. cbn. split_and!; try reflexivity; [apply both_of; intros x _; apply query_means| |discriminate]. split; congruence.
Qed.
Theorem subscribe_spoken batch q after : opt_all query_text q -> opt_all (fun n => n < U64) after -> opt_all (fun n => n < U32) batch ->
  let b := put_fields (fields_subscribe (subscribe_to_pb batch q after)) in nlen b < U64 ->
  exists fs m, get_fields b = Some fs /\ p_subscribe_request fs m /\ means_subscribe m q after batch.
Proof.
  intros H1 H2 H3 b Hl. assert (Hw : wf_subscribe (subscribe_to_pb batch q after)).
  { unfold wf_subscribe, subscribe_to_pb. cbn [pu_query pu_after pu_batch]. split; [|auto]. eapply opt_map; [|exact H1]; apply wf_query_to_pb. }
  destruct (spoken _ _ _ _ _ _ codec_subscribe says_subscribe Hw Hl) as (fs & E1 & E2). exists fs, (subscribe_to_pb batch q after). split_and!; [exact E1|exact E2|].
  unfold means_subscribe, subscribe_to_pb. cbn. split_and!; try reflexivity. apply both_of; intros x _; apply query_means.
Qed.
Theorem response_spoken evs hd : Forall stored_text evs -> opt_all (fun n => n < U64) hd -> let b := put_fields (fields_response (response_to_pb (evs, hd))) in nlen b < U64 ->
  exists fs m, get_fields b = Some fs /\ p_read_response fs m /\ Forall2 means_stored (px_events m) evs /\ px_head m = hd.
Proof.
  intros H1 H2 b Hl. destruct (spoken _ _ _ _ _ _ codec_response says_response (wf_response_to_pb (evs, hd) H1 H2) Hl) as (fs & E1 & E2). exists fs, (response_to_pb (evs, hd)).
  split_and!; [exact E1|exact E2| |reflexivity]. cbn. apply Forall2_map_of. eapply List.Forall_impl; [|exact H1]. intros e (_ & He & _). unfold means_stored, seq_event_to_pb. cbn.
  split_and!; [reflexivity| |apply both_of; now intros t _]. eexists. split; [reflexivity|]. now apply event_means.
Qed.
Theorem answers_spoken :
  (forall n, n < U64 -> exists fs, get_fields (put_fields (fields_position n)) = Some fs /\ p_append_response fs n) /\
  (forall o, opt_all (fun n => n < U64) o -> exists fs, get_fields (put_fields (fields_opt_position o)) = Some fs /\ p_head_response fs o /\ p_tracking_response fs o) /\
  (forall s, utf8_ok s = true -> nlen s < U32 -> exists fs, get_fields (put_fields (fields_source s)) = Some fs /\ p_tracking_request fs s).
Proof.
  split_and!.
  - intros n Hn. eapply (spoken step_position 0); [exact codec_position|exact says_position|exact Hn|]. unfold fields_position, f_num. destruct (n =? 0); [reflexivity|].
    unfold put_fields. cbn [map concat]. rewrite app_nil_r. unfold put_field. cbn [fst snd]. rewrite nlen_app. pose proof (varint_pos (8 * 1)). pose proof (varint_pos n). unfold U64. lia.
  - intros o Ho. destruct (spoken step_opt_position None fields_opt_position _ p_head_response o codec_opt_position says_head Ho) as (fs & H1 & H2); [|exists fs; tauto].
    unfold fields_opt_position. destruct o as [n|]; cbn [f_opt]; [|reflexivity]. unfold put_fields. cbn [map concat]. rewrite app_nil_r. unfold put_field. cbn [fst snd]. rewrite nlen_app.
    pose proof (varint_pos (8 * 1)). pose proof (varint_pos n). unfold U64. lia.
  - intros s Hs Hn. eapply (spoken step_source []); [exact codec_source|exact says_source|exact Hs|]. unfold fields_source, f_str. destruct s as [|c s]; [reflexivity|].
    unfold put_fields. cbn [map concat]. rewrite app_nil_r, put_len. pose proof (varint_pos (8 * 1 + 2)). pose proof (varint_pos (nlen (c :: s))). unfold U32, U64 in *. lia.
Qed.
Theorem error_spoken e : utf8_ok (e_text e) = true -> nlen (e_text e) < U32 ->
  exists fs n, get_fields (st_details (status_from_dcb_error e)) = Some fs /\ p_error_response fs (PbError (err_text e) n) /\ (n, seen_as (e_kind e)) ∈ error_numbers.
Proof.
  intros Hu Hl. unfold status_from_dcb_error. destruct (classify (e_kind e)) as [c t] eqn:Ec. cbn [st_details].
  assert (Ht : t < U32) by (unfold classify in Ec; destruct (e_kind e); injection Ec as _ <-; reflexivity).
  assert (Hsmall : nlen (put_fields (fields_error (PbError (err_text e) t))) < U64).
  { unfold fields_error. cbn [px_message px_type]. rewrite put_fields_app, nlen_app. assert (nlen (err_prefix (e_kind e)) < 100) by (destruct (e_kind e); reflexivity).
    assert (nlen (put_fields (f_str 1 (err_text e))) <= 20 + nlen (err_text e)).
    { destruct (err_text e) as [|a l] eqn:Ea; [cbn; lia|]. unfold f_str, put_fields. cbn [map concat]. rewrite app_nil_r, put_len. pose proof (varint_pos (8 * 1 + 2)). pose proof (varint_pos (nlen (a :: l))). lia. }
    assert (nlen (put_fields (f_num 2 t)) <= 20).
    { unfold f_num. destruct (t =? 0); [cbn; lia|]. unfold put_fields. cbn [map concat]. rewrite app_nil_r. unfold put_field. cbn [fst snd]. rewrite nlen_app.
      pose proof (varint_pos (8 * 2)). pose proof (varint_pos t). lia. }
    assert (nlen (err_text e) = nlen (err_prefix (e_kind e)) + nlen (e_text e)) by (unfold err_text; apply nlen_app). unfold U32, U64 in *. lia. }
  destruct (spoken _ _ _ _ _ (PbError (err_text e) t) codec_error says_error) as (fs & H1 & H2); [split; [now apply err_text_utf8|exact Ht]|exact Hsmall|].
  exists fs, t. split_and!; [exact H1|exact H2|]. apply elem_of_list_In. unfold classify in Ec. destruct (e_kind e); injection Ec as _ <-; cbn; auto 10.
Qed.

(** Bytes written by an encoder made from umadb.proto alone. *)
Definition g_append : request := Req [NE [116;121;112;101] [0;255] [[97];[98;99]] (Some [1;2;3;4;5;6;7;8;9;10;11;12;13;14;15;16]) [([107],[118]);([107],[])]; NE [101] [] [] None []] (Some (ACond [QItem [[116];[117]] [[120]]; QItem [] [[121]]] (Some 0))) (Some (Tracking [115] 300)).
Definition g_append_bytes : bytes := [10;68;10;4;116;121;112;101;18;1;97;18;2;98;99;26;2;0;255;34;36;48;49;48;50;48;51;48;52;45;48;53;48;54;45;48;55;48;56;45;48;57;48;97;45;48;98;48;99;48;100;48;101;48;102;49;48;42;6;10;1;107;18;1;118;42;3;10;1;107;10;3;10;1;101;18;20;10;16;10;9;10;1;116;10;1;117;18;1;120;10;3;18;1;121;16;0;26;6;10;1;115;16;172;2].
Definition g_query : query := [QItem [[116];[117]] [[120]]; QItem [] [[121]]].
Definition g_read_bytes : bytes := [10;16;10;9;10;1;116;10;1;117;18;1;120;10;3;18;1;121;16;7;24;1;32;0;48;128;1].
Definition g_subscribe_bytes : bytes := [10;16;10;9;10;1;116;10;1;117;18;1;120;10;3;18;1;121;16;255;255;255;255;255;255;255;255;255;1;24;172;2].
Definition g_events : list seq_event := [(1, EventRecord [116;121;112;101] [0;255] [[97];[98;99]] (Some [1;2;3;4;5;6;7;8;9;10;11;12;13;14;15;16]) [([107],[118]);([107],[])] (Some (Tracking [115] 300))); (300, EventRecord [101] [] [] None [] None)].
Definition g_response_bytes : bytes := [10;80;8;1;18;68;10;4;116;121;112;101;18;1;97;18;2;98;99;26;2;0;255;34;36;48;49;48;50;48;51;48;52;45;48;53;48;54;45;48;55;48;56;45;48;57;48;97;45;48;98;48;99;48;100;48;101;48;102;49;48;42;6;10;1;107;18;1;118;42;3;10;1;107;26;6;10;1;115;16;172;2;10;8;8;172;2;18;3;10;1;101;16;173;2].
Definition g_odd_bytes : bytes := [26;6;16;172;2;10;1;115;72;5;10;80;42;6;18;1;118;10;1;107;18;1;97;233;4;49;50;51;52;53;54;55;56;26;2;0;255;34;36;48;49;48;50;48;51;48;52;45;48;53;48;54;45;48;55;48;56;45;48;57;48;65;45;48;66;48;67;48;68;48;69;48;70;49;48;42;5;18;0;10;1;107;18;2;98;99;10;4;116;121;112;101;125;97;98;99;100;18;22;16;0;10;18;10;9;18;1;120;10;1;116;10;1;117;10;5;18;1;121;24;1;162;1;1;63;10;7;34;0;26;0;10;1;101].
(** Each is what is sent, and is understood; the last ones are the same request with its fields in another order, fields that are
    not in umadb.proto, of all kinds, and fields that could have been left out. *)
Theorem message_vectors_hold :
  put_fields (fields_append (append_to_pb g_append)) = g_append_bytes /\
  put_fields (fields_read (read_to_pb (Some 128) (Some g_query) (Some 7) true (Some 0))) = g_read_bytes /\
  put_fields (fields_subscribe (subscribe_to_pb (Some 300) (Some g_query) (Some (U64 - 1)))) = g_subscribe_bytes /\
  put_fields (fields_response (response_to_pb (g_events, Some 301))) = g_response_bytes /\
  receive step_append no_append g_append_bytes = Received (append_to_pb g_append) /\ append_of_pb (append_to_pb g_append) = Ok g_append /\
  (exists m, receive step_append no_append g_odd_bytes = Received m /\ append_of_pb m = Ok g_append) /\
  (exists m, receive step_response no_response g_response_bytes = Received m /\ convert_sequenced_events (px_events m) = Ok g_events /\ px_head m = Some 301).
Proof. split_and!; [vm_compute; reflexivity..| |]; eexists; split_and!; vm_compute; reflexivity. Qed.
(** The hypotheses of [append_understood] are met by the bytes in another order. *)
Definition odd_message : pb_append := match receive step_append no_append g_odd_bytes with Received m => m | _ => no_append end.
Definition odd_fields : list field := match get_fields g_odd_bytes with Some fs => fs | None => [] end.
Ltac comp x := let y := eval vm_compute in x in change x with y.
Ltac sgl := match goal with |- single _ _ ?vs ?x => comp vs; comp x end; first [left; split; reflexivity | right; eexists; split; [reflexivity|]; first [split; reflexivity | reflexivity]].
Ltac rpt t := match goal with |- repeated _ ?vs ?x => comp vs; comp x | |- Forall2 _ ?vs ?x => comp vs; comp x end; repeat first [apply Forall2_nil_2 | apply Forall2_cons_2; [t|]].
Ltac msg t := match goal with |- v_msg _ (WLen ?b) _ => let fs := eval vm_compute in (default [] (get_fields b)) in exists b, fs end; split; [reflexivity|]; split; [vm_compute; reflexivity|]; t.
Ltac opts t := match goal with |- opt _ ?vs ?x => comp vs; comp x end; eexists; split; [reflexivity|]; t.
Ltac str := split; reflexivity.
Example append_understood_example :
  get_fields g_odd_bytes = Some odd_fields /\ p_append_request odd_fields odd_message /\ means_request odd_message g_append /\ nlen g_odd_bytes <= MAX_RECV /\
  vals 9 odd_fields = [WVar 5] /\ vals 15 odd_fields = [WFix [97; 98; 99; 100]].
Proof.
  split; [vm_compute; reflexivity|]. split; [|split; [|split; [vm_compute; discriminate|split; vm_compute; reflexivity]]].
  - split_and!.
    + rpt ltac:(msg ltac:(split_and!; [sgl|rpt str|sgl|sgl|rpt ltac:(msg ltac:(split_and!; sgl))])).
    + opts ltac:(msg ltac:(split_and!; [opts ltac:(msg ltac:(unfold p_query; rpt ltac:(msg ltac:(split_and!; rpt str))))|opts ltac:(reflexivity)])).
    + opts ltac:(msg ltac:(split_and!; sgl)).
  - comp odd_message. unfold g_append. split_and!; cbn [pa_events pa_condition pa_trk rq_events rq_cond rq_trk both].
    + rpt ltac:(split_and!; cbn [pe_type pe_tags pe_data pe_uuid pe_meta ne_type ne_data ne_tags ne_uuid ne_meta]; [reflexivity..|rpt ltac:(split; reflexivity)|first [reflexivity|apply parse_uuid_iff; vm_compute; reflexivity]]).
    + split; [|reflexivity]. cbn [pc_query ac_query]. unfold means_query. cbn [pq_items]. rpt ltac:(split; reflexivity).
    + split; reflexivity.
Qed.
Print Assumptions append_understood.
Print Assumptions read_understood.
Print Assumptions subscribe_understood.
Print Assumptions response_understood.
Print Assumptions answers_understood.
Print Assumptions error_understood.
Print Assumptions append_spoken.
Print Assumptions read_spoken.
Print Assumptions subscribe_spoken.
Print Assumptions response_spoken.
Print Assumptions answers_spoken.
Print Assumptions error_spoken.
Print Assumptions message_vectors_hold.
