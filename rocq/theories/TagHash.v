(** The hash of a tag: umadb-core/src/db.rs:919-966.  Everything else is stated for an arbitrary hash function; this file has
    the two that the code uses. *)
From Verif Require Export Page.
Local Open Scope N_scope.

(** ** SHA-1 (FIPS 180-4), which the crate uuid uses for version 5 *)
Definition rotl (n x : N) : N := N.lor (N.modulo (N.shiftl x n) U32) (N.shiftr x (32 - n)).
Definition be_val (l : bytes) : N := fold_left (fun a b => a * 256 + b) l 0.
Fixpoint be_bytes (k : nat) (v : N) : bytes := match k with O => [] | S k' => be_bytes k' (v / 256) ++ [v mod 256] end.
(* padding to a multiple of 64 bytes *)
Definition sha_pad (m : bytes) : bytes :=
  let l := nlen m in m ++ [128] ++ replicate (N.to_nat ((119 - l mod 64) mod 64)) 0 ++ be_bytes 8 (8 * l).
Fixpoint chunks (fuel k : nat) (l : bytes) : list bytes :=
  match fuel, l with O, _ | _, [] => [] | S f, _ => take k l :: chunks f k (drop k l) end.
(* the message schedule, newest word first *)
Fixpoint schedule (n : nat) (w : list N) : list N :=
  match n with
  | O => w
  | S n' => schedule n' (rotl 1 (N.lxor (N.lxor (nth 2 w 0) (nth 7 w 0)) (N.lxor (nth 13 w 0) (nth 15 w 0))) :: w)
  end.
(* FIPS 180-4, 4.1.1, 4.2.1 and 6.1.2 *)
Definition sha_f (t : N) (b c d : N) : N * N :=
  if t <? 20 then (N.lor (N.land b c) (N.land (N.lxor b 4294967295) d), 1518500249)
  else if t <? 40 then (N.lxor (N.lxor b c) d, 1859775393)
  else if t <? 60 then (N.lor (N.lor (N.land b c) (N.land b d)) (N.land c d), 2400959708)
  else (N.lxor (N.lxor b c) d, 3395469782).
Definition sha_state : Type := N * N * N * N * N.
Definition sha_round (x : N * sha_state) (w : N) : N * sha_state :=
  let '(t, (a, b, c, d, e)) := x in
  let '(f, k) := sha_f t b c d in
  (t + 1, (N.modulo (rotl 5 a + f + e + k + w) U32, a, rotl 30 b, c, d)).
(* FIPS 180-4, 6.1.2 *)
Definition sha_block (h : sha_state) (block : bytes) : sha_state :=
  let w := rev (schedule 64 (rev (map be_val (chunks 16 4 block)))) in
  let '(a, b, c, d, e) := (fold_left sha_round w (0, h)).2 in
  let '(h0, h1, h2, h3, h4) := h in
  (N.modulo (h0 + a) U32, N.modulo (h1 + b) U32, N.modulo (h2 + c) U32, N.modulo (h3 + d) U32, N.modulo (h4 + e) U32).
(* FIPS 180-4, 5.3.1 and 6.1.2 *)
Definition sha1 (m : bytes) : bytes :=
  let p := sha_pad m in
  let '(a, b, c, d, e) := fold_left sha_block (chunks (length p) 64 p) (1732584193, 4023233417, 2562383102, 271733878, 3285377520) in
  be_bytes 4 a ++ be_bytes 4 b ++ be_bytes 4 c ++ be_bytes 4 d ++ be_bytes 4 e.

(** ** The two hashes *)
(* Uuid::NAMESPACE_URL *)
(* RFC 9562, 6.6; db.rs:925 *)
Definition NAMESPACE_URL : bytes := [107;167;184;17;157;173;17;209;128;180;0;192;79;212;48;200].
(* Uuid::new_v5: the first 16 bytes of the digest, with version and variant set; db.rs:921-926 *)
Definition set_at (i : nat) (f : N -> N) (l : bytes) : bytes := take i l ++ match drop i l with b :: r => f b :: r | [] => [] end.
Definition tag_to_hash_v5uuid (tag : bytes) : bytes :=
  set_at 8 (fun b => b mod 64 + 128) (set_at 6 (fun b => b mod 16 + 80) (take 16 (sha1 (NAMESPACE_URL ++ tag)))).
(* db.rs:929-955 *)
Definition SALT : bytes := [158; 55; 121; 185].
Definition tag_to_hash_crc64 (tag : bytes) : bytes := w64 (calc_crc tag * U32 + calc_crc (tag ++ SALT)) ++ replicate 8 0.
(* db.rs:958-965 *)
Definition tag_to_hash (kw : nat) (tag : bytes) : bytes := if Nat.eqb kw 16 then tag_to_hash_v5uuid tag else tag_to_hash_crc64 tag.

(** ** They are hashes of the width they are stored with *)
Lemma be_bytes_ok k v : length (be_bytes k v) = k /\ is_bytes (be_bytes k v).
Proof.
  revert v. induction k as [|k IH]; intros v; cbn [be_bytes]; [split; [reflexivity|constructor]|]. destruct (IH (v / 256)) as [H1 H2].
  rewrite app_length, H1. split; [cbn; lia|]. apply Forall_app. split; [exact H2|]. constructor; [apply N.mod_lt; lia|constructor].
Qed.
Lemma sha1_ok m : length (sha1 m) = 20%nat /\ is_bytes (sha1 m).
Proof.
  unfold sha1. destruct (fold_left _ _ _) as [[[[a b] c] d] e]. rewrite !app_length, !(fun v => proj1 (be_bytes_ok 4 v)). split; [reflexivity|].
  unfold is_bytes. rewrite !Forall_app. repeat split; apply be_bytes_ok.
Qed.
Lemma set_at_ok i f l : (forall b, b < 256 -> f b < 256) -> is_bytes l -> length (set_at i f l) = length l /\ is_bytes (set_at i f l).
Proof.
  intros Hf Hl. unfold set_at. rewrite <- (take_drop i l) in Hl at 1. apply Forall_app in Hl as [H1 H2]. split.
  - rewrite app_length. rewrite <- (take_drop i l) at 3. rewrite app_length. f_equal. now destruct (drop i l).
  - apply Forall_app. split; [exact H1|]. destruct (drop i l) as [|b r]; [constructor|]. inversion H2; subst. constructor; auto.
Qed.
Lemma v5uuid_ok t : length (tag_to_hash_v5uuid t) = 16%nat /\ is_bytes (tag_to_hash_v5uuid t).
Proof.
  unfold tag_to_hash_v5uuid. destruct (sha1_ok (NAMESPACE_URL ++ t)) as [H1 H2]. set (s := take 16 _).
  assert (Hs : length s = 16%nat /\ is_bytes s) by (split; [unfold s; rewrite take_length; lia|apply Forall_take; exact H2]).
  assert (M : forall b n k, n <> 0 -> n + k <= 256 -> b mod n + k < 256) by (intros b n k Hn Hk; pose proof (N.mod_lt b n Hn); lia).
  destruct (set_at_ok 6 (fun b => b mod 16 + 80) s) as [L1 B1]; [intros; apply M; lia|apply Hs|].
  destruct (set_at_ok 8 (fun b => b mod 64 + 128) _ ltac:(intros; apply M; lia) B1) as [L2 B2]. split; [rewrite L2, L1; apply Hs|exact B2].
Qed.
