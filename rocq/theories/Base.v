(** Common definitions: results, errors, byte strings, integers.

    [DcbError] is umadb-dcb/src/lib.rs:487-533.  The string payloads of errors
    are dropped (simplification), except that the variants are kept apart.
    [Panic] is not a value of the Rust type: it stands for a Rust panic
    (slice index out of bounds, unwrap on None, debug arithmetic overflow);
    [Fuel] is not in the Rust code either: it is returned when a recursion that is a
    loop in Rust runs out of the explicit fuel. *)
From stdpp Require Export base list gmap fin_maps numbers sorting.
From Coq Require Export Lia.
From Coq Require Export ZifyBool ZifyNat ZifyN.

Global Open Scope N_scope.
Global Arguments N.pow : simpl never.
Global Arguments N.mul : simpl never.
Global Arguments N.add : simpl never.
Global Arguments N.sub : simpl never.
Global Arguments N.modulo : simpl never.
Global Arguments N.div : simpl never.

(* umadb-dcb/src/lib.rs:487-533; [Panic] and [Fuel]: see above *)
Inductive err : Type :=
| EIo | EIntegrity | ECorruption | EInvalidArgument | EInit
| EPageNotFound | EDirtyPageNotFound | ERootIdMismatch
| EDatabaseCorrupted | EInternal | ESerialization | EDeserialization
| EPageAlreadyFreed | EPageAlreadyDirty
| ETransport | ECancelled | ETimeout | EAuth
| Panic | Fuel.

Global Instance err_eq_dec : EqDecision err.
Proof. solve_decision. Defined.

(** Rust's [Result<T, DcbError>] (umadb-dcb/src/lib.rs:535). *)
Inductive res (A : Type) : Type := Ok (a : A) | Err (e : err).
Arguments Ok {A} a.
Arguments Err {A} e.

(** The [?] operator. *)
(* Rust's [?], e.g. umadb-core/src/mvcc.rs:1345 *)
Definition rbind {A B} (r : res A) (f : A -> res B) : res B :=
  match r with Ok a => f a | Err e => Err e end.

Notation "'let?' x := r 'in' k" := (rbind r (fun x => k))
  (at level 200, x name, r at level 100, k at level 200, right associativity).
Notation "'let?' ' x := r 'in' k" := (rbind r (fun x => k))
  (at level 200, x strict pattern, r at level 100, k at level 200, right associativity).

(* Result::map, e.g. umadb-core/src/slice_reader.rs:55-65 *)
Definition res_map {A B} (f : A -> B) (r : res A) : res B :=
  match r with Ok a => Ok (f a) | Err e => Err e end.

(* Result::is_ok, for statements *)
Definition is_ok {A} (r : res A) : bool := match r with Ok _ => true | Err _ => false end.

Lemma rbind_ok {A B} (r : res A) (f : A -> res B) b :
  rbind r f = Ok b <-> exists a, r = Ok a /\ f a = Ok b.
Proof.
  destruct r as [a|e]; cbn; split.
  - intros H; eauto.
  - intros (a' & [= <-] & H); exact H.
  - discriminate.
  - intros (a' & H & _); discriminate.
Qed.

(** Byte strings: each element is meant to be < 256 ([is_bytes]). *)
Notation bytes := (list N).

(* the values of [u8], umadb-core/src/slice_reader.rs:29-32; for statements *)
Definition is_bytes (l : bytes) : Prop := Forall (fun b => b < 256) l.

(* one more than the largest u8, u16, u32 and u64: umadb-core/src/slice_reader.rs:29-47 *)
Definition U8  : N := 256.
Definition U16 : N := 65536.
Definition U32 : N := 4294967296.
Definition U64 : N := 18446744073709551616.

Lemma U16_pow : U16 = 256 ^ 2. Proof. reflexivity. Qed.
Lemma U32_pow : U32 = 256 ^ 4. Proof. reflexivity. Qed.
Lemma U64_pow : U64 = 256 ^ 8. Proof. reflexivity. Qed.

(** Length as an [N]. *)
(* Vec::len and slice::len, e.g. umadb-core/src/slice_reader.rs:17-23 *)
Definition nlen {A} (l : list A) : N := N.of_nat (length l).

Lemma nlen_nil {A} : nlen (@nil A) = 0.
Proof. reflexivity. Qed.
Lemma nlen_cons {A} (x : A) l : nlen (x :: l) = 1 + nlen l.
Proof. unfold nlen; cbn [length]; lia. Qed.
Lemma nlen_app {A} (l1 l2 : list A) : nlen (l1 ++ l2) = nlen l1 + nlen l2.
Proof. unfold nlen; rewrite app_length; lia. Qed.
Lemma nlen_map {A B} (f : A -> B) l : nlen (map f l) = nlen l.
Proof. unfold nlen; rewrite map_length; lia. Qed.

(** [u64::to_le_bytes] and friends: [n] bytes, little endian. *)
(* e.g. umadb-core/src/events_tree_nodes.rs:233-243 *)
Fixpoint le_bytes (n : nat) (x : N) : bytes :=
  match n with
  | O => []
  | S n' => (x mod 256) :: le_bytes n' (x / 256)
  end.

(** [u64::from_le_bytes] and friends. *)
(* umadb-core/src/slice_reader.rs:34-47 *)
Fixpoint le_val (l : bytes) : N :=
  match l with
  | [] => 0
  | b :: l' => b + 256 * le_val l'
  end.

Lemma le_bytes_length n x : length (le_bytes n x) = n.
Proof. revert x; induction n as [|n IH]; intros x; cbn; [reflexivity|]; now rewrite IH. Qed.

Lemma le_bytes_is_bytes n x : is_bytes (le_bytes n x).
Proof.
  revert x; induction n as [|n IH]; intros x; cbn; constructor; [|apply IH].
  apply N.mod_lt; discriminate.
Qed.

Lemma le_val_bytes n x : x < 256 ^ N.of_nat n -> le_val (le_bytes n x) = x.
Proof.
  revert x; induction n as [|n IH]; intros x Hx.
  - cbn in *. change (256 ^ 0) with 1 in Hx. lia.
  - cbn [le_bytes le_val]. rewrite IH.
    + pose proof (N.div_mod x 256 ltac:(discriminate)). lia.
    + rewrite Nat2N.inj_succ, N.pow_succ_r' in Hx.
      apply N.div_lt_upper_bound; [discriminate|exact Hx].
Qed.

Lemma le_val_bound l : is_bytes l -> le_val l < 256 ^ nlen l.
Proof.
  induction 1 as [|b l Hb Hl IH].
  - reflexivity.
  - cbn [le_val]. rewrite nlen_cons, N.add_1_l, N.pow_succ_r'. lia.
Qed.

Lemma le_bytes_val l : is_bytes l -> le_bytes (length l) (le_val l) = l.
Proof.
  induction 1 as [|b l Hb Hl IH]; [reflexivity|].
  cbn [length le_bytes le_val].
  replace ((b + 256 * le_val l) mod 256) with b.
  2:{ rewrite (N.mul_comm 256), N.mod_add by discriminate. symmetry. apply N.mod_small; exact Hb. }
  replace ((b + 256 * le_val l) / 256) with (le_val l).
  2:{ rewrite (N.mul_comm 256), N.div_add by discriminate. rewrite N.div_small by exact Hb. lia. }
  now rewrite IH.
Qed.

Lemma le_bytes_inj n x y :
  x < 256 ^ N.of_nat n -> y < 256 ^ N.of_nat n -> le_bytes n x = le_bytes n y -> x = y.
Proof. intros Hx Hy H. rewrite <- (le_val_bytes n x), <- (le_val_bytes n y) by assumption. now f_equal. Qed.

(** Rust's [as u16] on lengths: truncation. *)
(* e.g. umadb-core/src/events_tree_nodes.rs:232-243 *)
Definition as_u16 (n : N) : N := n mod U16.
(* umadb-core/src/page.rs:205-232 *)
Definition as_u32 (n : N) : N := n mod U32.

(** Well-formed UTF-8 (Unicode table 3-7), what [std::str::from_utf8] accepts. *)
Definition in_range (lo hi b : N) : bool := (lo <=? b) && (b <=? hi).

(* std::str::from_utf8, umadb-core/src/slice_reader.rs:68-80 (RFC 3629) *)
Fixpoint utf8_aux (fuel : nat) (l : bytes) : bool :=
  match fuel with
  | O => false
  | S fuel' =>
    match l with
    | [] => true
    | b0 :: l0 =>
      if b0 <? 128 then utf8_aux fuel' l0
      else if in_range 194 223 b0 then
        match l0 with
        | b1 :: l1 => in_range 128 191 b1 && utf8_aux fuel' l1
        | _ => false
        end
      else if in_range 224 239 b0 then
        match l0 with
        | b1 :: b2 :: l2 =>
          (if b0 =? 224 then in_range 160 191 b1
           else if b0 =? 237 then in_range 128 159 b1
           else in_range 128 191 b1)
          && in_range 128 191 b2 && utf8_aux fuel' l2
        | _ => false
        end
      else if in_range 240 244 b0 then
        match l0 with
        | b1 :: b2 :: b3 :: l3 =>
          (if b0 =? 240 then in_range 144 191 b1
           else if b0 =? 244 then in_range 128 143 b1
           else in_range 128 191 b1)
          && in_range 128 191 b2 && in_range 128 191 b3 && utf8_aux fuel' l3
        | _ => false
        end
      else false
    end
  end.

Definition utf8_ok (l : bytes) : bool := utf8_aux (S (length l)) l.

(** Lexicographic order on byte strings: Rust's [Ord] on [str] and [u8; 16]. *)
(* Ord of str and of [u8; N]: umadb-core/src/db.rs:340, tags_tree.rs:48 *)
Fixpoint bytes_cmp (a b : bytes) : comparison :=
  match a, b with
  | [], [] => Eq
  | [], _ => Lt
  | _, [] => Gt
  | x :: a', y :: b' =>
    match N.compare x y with Eq => bytes_cmp a' b' | c => c end
  end.

(* Eq of byte strings, e.g. umadb-core/src/db.rs:588-601 *)
Definition bytes_eqb (a b : bytes) : bool := bool_decide (a = b).

Lemma bytes_cmp_eq a b : bytes_cmp a b = Eq <-> a = b.
Proof.
  revert b; induction a as [|x a IH]; intros [|y b]; cbn.
  - split; reflexivity.
  - split; discriminate.
  - split; discriminate.
  - destruct (N.compare_spec x y) as [->|H|H].
    + rewrite IH. split; [intros ->; reflexivity|congruence].
    + split; [discriminate|intros [= -> ->]; lia].
    + split; [discriminate|intros [= -> ->]; lia].
Qed.

Lemma bytes_cmp_refl a : bytes_cmp a a = Eq.
Proof. now apply bytes_cmp_eq. Qed.

Lemma bytes_cmp_antisym a b : bytes_cmp b a = CompOpp (bytes_cmp a b).
Proof.
  revert b; induction a as [|x a IH]; intros [|y b]; cbn; try reflexivity.
  rewrite N.compare_antisym. destruct (N.compare x y); cbn; auto.
Qed.

Lemma bytes_cmp_lt_trans a b c : bytes_cmp a b = Lt -> bytes_cmp b c = Lt -> bytes_cmp a c = Lt.
Proof.
  revert b c; induction a as [|x a IH]; intros [|y b] [|z c]; cbn; try congruence.
  destruct (N.compare_spec x y) as [Exy|H|H]; destruct (N.compare_spec y z) as [Eyz|H'|H']; try congruence; intros H1 H2.
  - subst. rewrite N.compare_refl. eapply IH; eassumption.
  - rewrite (proj2 (N.compare_lt_iff x z)) by lia; reflexivity.
  - rewrite (proj2 (N.compare_lt_iff x z)) by lia; reflexivity.
  - rewrite (proj2 (N.compare_lt_iff x z)) by lia; reflexivity.
Qed.
