(** C109: the hashes of tags (TagHash.v), those of databases of schema version 0 (umadb-core/src/db.rs:929-955) and the newer ones. *)
From Verif Require Import TagHash PageProofs PropsLegacy.
Local Open Scope N_scope.

(** The code says of the older hash that it "creates 64-bit hashes" (db.rs:931-934), "combining two crc32 hashes" of which the second is salted.
    But the salt comes after the tag, and the checksum of a tag followed by a constant is a function of the checksum of the tag: the hash
    tells two tags apart exactly if their 32-bit checksums differ. *)
Lemma crc_app a b : crc_update crc_mask (a ++ b) = crc_update (N.lxor (calc_crc a) crc_mask) b.
Proof. unfold crc_update, calc_crc. rewrite fold_left_app. f_equal. unfold crc_update. now rewrite N.lxor_assoc, N.lxor_nilpotent, N.lxor_0_r. Qed.
Theorem old_hash_32 t u : is_bytes t -> is_bytes u -> (tag_to_hash_crc64 t = tag_to_hash_crc64 u <-> calc_crc t = calc_crc u).
Proof.
  intros Ht Hu. split.
  - intros H. unfold tag_to_hash_crc64 in H. apply app_inv_tail in H. assert (Hs : is_bytes SALT) by (unfold SALT; repeat constructor).
    pose proof (calc_crc_lt t Ht). pose proof (calc_crc_lt u Hu). pose proof (calc_crc_lt (t ++ SALT) ltac:(now apply Forall_app)). pose proof (calc_crc_lt (u ++ SALT) ltac:(now apply Forall_app)).
    apply le_bytes_inj in H; unfold U32 in *; [lia| |]; change (256 ^ N.of_nat 8) with 18446744073709551616; lia.
  - intros H. unfold tag_to_hash_crc64. assert (E : calc_crc (t ++ SALT) = calc_crc (u ++ SALT)) by (unfold calc_crc at 1 2; rewrite !crc_app; now rewrite H). now rewrite H, E.
Qed.
(** Two words with the same checksum, as an instance: the salted half is the same as well.  With the newer hash they differ. *)
Theorem old_hash_64_refuted : exists t u, t <> u /\ calc_crc t = calc_crc u /\ tag_to_hash 8 t = tag_to_hash 8 u /\ tag_to_hash 16 t <> tag_to_hash 16 u.
Proof. exists [112; 108; 117; 109; 108; 101; 115; 115], [98; 117; 99; 107; 101; 114; 111; 111]. repeat split; vm_compute; (discriminate || reflexivity). Qed.
(** Tags that differ only within four bytes are always told apart. *)
Theorem old_hash_apart p s w w' : is_bytes p -> is_bytes s -> is_bytes w -> is_bytes w' -> length w = length w' -> (length w <= 4)%nat -> w <> w' ->
  tag_to_hash 8 (p ++ w ++ s) <> tag_to_hash 8 (p ++ w' ++ s).
Proof.
  intros. unfold tag_to_hash. cbn [Nat.eqb]. rewrite old_hash_32 by (unfold is_bytes; rewrite !Forall_app; auto). eauto using crc_burst.
Qed.
(** Computed elsewhere (the CRC-32 of zlib; SHA-1 of a name in the URL namespace, version and variant bits set): *)
Example old_hash_example : tag_to_hash 8 [116; 97; 103; 49] = [147; 5; 178; 217; 154; 180; 110; 247; 0; 0; 0; 0; 0; 0; 0; 0] /\ tag_to_hash 8 [] = [9; 115; 191; 17; 0; 0; 0; 0; 0; 0; 0; 0; 0; 0; 0; 0].
Proof. split; vm_compute; reflexivity. Qed.
Print Assumptions old_hash_32.
Print Assumptions old_hash_64_refuted.
Print Assumptions old_hash_apart.
