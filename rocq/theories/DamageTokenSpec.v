(** Damage to tokens. *)
From Verif Require Import Bytes Go Json Time Types World Gcm GcmSpec Cryptor Id Data D1 Standalone.
Local Open Scope N_scope.

(** The parts of a token: the JSON text of its expiry, its ciphertext (data, tag and nonce) and its wrapped key. *)
Definition token_parts (t : sealed_token) (expiry body tag nonce wk : bytes) : Prop :=
  (exists j, enc_time (st_exp t) = Some j /\ print j = expiry) /\
  slice_bytes (st_ct t) = framed body tag nonce /\ slice_bytes (st_wk t) = wk.
(** A token is altered if its tag is another, if its data or the text of its expiry differ inside one block, and nothing else. *)
Inductive altered : sealed_token -> sealed_token -> Prop :=
| alt_tag t t' expiry body tag tag' nonce wk : token_parts t expiry body tag nonce wk -> token_parts t' expiry body tag' nonce wk ->
    length tag = 16%nat -> length tag' = 16%nat -> length nonce = 12%nat -> tag <> tag' -> altered t t'
| alt_data t t' expiry body body' tag nonce wk : token_parts t expiry body tag nonce wk -> token_parts t' expiry body' tag nonce wk ->
    length tag = 16%nat -> length nonce = 12%nat -> differ_in_one_block body body' -> altered t t'
| alt_expiry t t' expiry expiry' body tag nonce wk : token_parts t expiry body tag nonce wk -> token_parts t' expiry' body tag nonce wk ->
    length tag = 16%nat -> length nonce = 12%nat -> differ_in_one_block expiry expiry' -> altered t t'.
