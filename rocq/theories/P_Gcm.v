(** What AES256GCM.Decrypt (crypto/aes.go:62-88) accepts after a change to the ciphertext or to the
    associated data. *)
From Verif Require Import Bytes Go Aes Gcm GcmSpec GcmAuth GcmCase.
Local Open Scope N_scope.

(** C64.  A key accepts two different messages that carry the same nonce only if its subkey is one of
    at most (number of blocks + 1) values out of 2^128: among any keys with pairwise different
    subkeys, no more than that many accept both.  The two messages may differ in the associated data,
    in the encrypted data, in the tag, and in any number of bytes and in length. *)
Theorem C64_few_keys (keys : list bytes) (aad body tag aad' body' tag' nonce : bytes) :
  length tag = 16%nat -> length tag' = 16%nat -> length nonce = 12%nat ->
  blen aad < 2 ^ 61 -> blen body < 2 ^ 61 -> blen aad' < 2 ^ 61 -> blen body' < 2 ^ 61 ->
  (aad, framed body tag nonce) <> (aad', framed body' tag' nonce) ->
  List.NoDup (map subkey keys) ->
  (forall key, In key keys -> opens key aad (framed body tag nonce) /\ opens key aad' (framed body' tag' nonce)) ->
  (length keys <= Nat.max (blocks aad + blocks body) (blocks aad' + blocks body') + 1)%nat.
Proof. exact (few_keys keys aad body tag aad' body' tag' nonce). Qed.
Print Assumptions C64_few_keys.

(** Whatever the key, unless its subkey is zero: after a change of the associated data inside one
    16-byte block, Decrypt refuses the message. *)
Theorem C64_aad_block (key aad aad' body tag nonce : bytes) :
  length tag = 16%nat -> length nonce = 12%nat -> subkey key <> zeros 16 ->
  opens key aad (framed body tag nonce) -> differ_in_one_block aad aad' ->
  aes_gcm_decrypt (framed body tag nonce) aad' key = Err EAesAuth.
Proof. exact (aad_block_rejected key aad aad' body tag nonce). Qed.
Print Assumptions C64_aad_block.

(** The same for a change of the encrypted data. *)
Theorem C64_body_block (key aad body body' tag nonce : bytes) :
  length tag = 16%nat -> length nonce = 12%nat -> subkey key <> zeros 16 ->
  opens key aad (framed body tag nonce) -> differ_in_one_block body body' ->
  aes_gcm_decrypt (framed body' tag nonce) aad key = Err EAesAuth.
Proof. exact (body_block_rejected key aad body body' tag nonce). Qed.
Print Assumptions C64_body_block.

(** And for a change of the tag alone, with any subkey. *)
Theorem C64_tag (key aad body tag tag' nonce : bytes) :
  length tag = 16%nat -> length tag' = 16%nat -> length nonce = 12%nat ->
  opens key aad (framed body tag nonce) -> tag <> tag' ->
  aes_gcm_decrypt (framed body tag' nonce) aad key = Err EAesAuth.
Proof. exact (tag_rejected key aad body tag tag' nonce). Qed.
Print Assumptions C64_tag.

(** There are such messages: a key with a nonzero subkey that accepts two messages with one nonce. *)
Example C64_case : exists body tag body' tag',
  length tag = 16%nat /\ length tag' = 16%nat /\ subkey (zeros 32) <> zeros 16 /\
  opens (zeros 32) [x01] (framed body tag (zeros 12)) /\
  opens (zeros 32) [x02] (framed body' tag' (zeros 12)) /\
  length body = 2%nat /\ length body' = 3%nat /\ differ_in_one_block [x01] [x02].
Proof. exact two_messages. Qed.
Print Assumptions C64_case.
