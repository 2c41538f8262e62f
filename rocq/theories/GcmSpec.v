(** What authenticated encryption promises about the associated data and the ciphertext. *)
From Verif Require Import Bytes Go Aes Gcm.
Local Open Scope N_scope.

(** What Encrypt returns: the encrypted data, a 16-byte tag and the 12-byte nonce. *)
Definition framed (body tag nonce : bytes) : bytes := body ++ tag ++ nonce.

(** Decrypt returns data instead of an error. *)
Definition opens (key aad ciphertext : bytes) : Prop := exists pt, aes_gcm_decrypt ciphertext aad key = Ok pt.

(** The value SP 800-38D calls the hash subkey: the encryption of sixteen zero bytes. *)
Definition subkey (key : bytes) : bytes := aes_encrypt key (zeros 16).

(** Number of 16-byte blocks, the last one possibly incomplete. *)
Definition blocks (b : bytes) : nat := Nat.div (length b + 15) 16.

(** Two strings of the same length that differ inside one 16-byte block and nowhere else. *)
Definition differ_in_one_block (a b : bytes) : Prop :=
  exists before x y after, a = before ++ x ++ after /\ b = before ++ y ++ after /\ x <> y /\
    length x = length y /\ (length x <= 16)%nat /\ Nat.modulo (length before) 16 = 0%nat.
