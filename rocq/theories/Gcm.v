(** AES-GCM with 96-bit nonces and 128-bit tags, and the AES256GCM wrapper of
    /repo/crypto/aes.go.

    cipher.NewGCM is Go's standard library; it is re-specified here from NIST SP 800-38D
    (GHASH, GCTR) over an arbitrary block function [E], and validated against the vector in
    /repo/crypto/aes_test.go:24-29. *)
From Verif Require Import Bytes Go Aes.
Local Open Scope bool_scope.
Local Open Scope N_scope.

Definition blockN := 16%nat.

(** Splitting into 16-byte blocks, the last one zero padded. *)
Fixpoint chunks16 (fuel : nat) (l : bytes) : list bytes :=
  match fuel, l with
  | O, _ => []
  | _, [] => []
  | S f, _ => let h := firstn 16 l in
              (h ++ zeros (16 - length h)) :: chunks16 f (skipn 16 l)
  end.

(** GF(2^128) multiplication, SP 800-38D section 6.3. *)
Fixpoint gf_mul_loop (bits : nat) (x z v : N) : N :=
  match bits with
  | O => z
  | S b =>
      let z' := if N.testbit x (N.of_nat b) then N.lxor z v else z in
      let v' := if N.odd v
                then N.lxor (N.div2 v) (N.shiftl 225 120)
                else N.div2 v in
      gf_mul_loop b x z' v'
  end.
Definition gf_mul (x y : N) : N := gf_mul_loop 128 x 0 y.
Definition ghash (h : N) (blocks : list bytes) : N :=
  fold_left (fun acc b => gf_mul (N.lxor acc (be_to_N b)) h) blocks 0.

Section GCM.
  Context (E : bytes -> bytes).

  Definition gctr_block (nonce : bytes) (ctr : N) : bytes := E (nonce ++ N_to_be 4 ctr).
  (** Key stream for [n] blocks starting at counter [ctr] (32-bit wrap-around). *)
  Fixpoint keystream (n : nat) (nonce : bytes) (ctr : N) : bytes :=
    match n with
    | O => []
    | S n' => gctr_block nonce ctr ++ keystream n' nonce ((ctr + 1) mod 2 ^ 32)
    end.
  Definition gctr (nonce data : bytes) : bytes :=
    xor_bytes data (keystream (Nat.div (length data + 15) 16) nonce 2).

  Definition gcm_tag (nonce aad ct : bytes) : bytes :=
    let h := be_to_N (E (zeros 16)) in
    let s := ghash h (chunks16 (S (length aad)) aad ++ chunks16 (S (length ct)) ct ++
                      [N_to_be 8 (8 * blen aad) ++ N_to_be 8 (8 * blen ct)]) in
    xor_bytes (N_to_be 16 s) (gctr_block nonce 1).

  (** aead.Seal(nil, nonce, data, aad): ciphertext followed by the 16-byte tag. *)
  Definition gcm_seal (nonce aad pt : bytes) : bytes :=
    let ct := gctr nonce pt in ct ++ gcm_tag nonce aad ct.
  (** aead.Open: checks the tag before decrypting; needs at least 16 bytes. *)
  Definition gcm_open (nonce aad data : bytes) : option bytes :=
    if Nat.ltb (length data) 16 then None
    else
      let ct := firstn (length data - 16) data in
      let tag := skipn (length data - 16) data in
      if bytes_eqb tag (gcm_tag nonce aad ct) then Some (gctr nonce ct) else None.
End GCM.

(** crypto/aes.go:30-33 *)
Definition keyLength := 32%nat.
Definition nonceLength := 12%nat.
Definition tagLength := 16%nat.
Definition Overhead := 28%nat.

(** AES256GCM.Encrypt, crypto/aes.go:35-60, as a function of the nonce drawn at line 41.
    In-place use of the plaintext's backing array (line 40) is not modelled here; it is not
    observable through Cryptor, whose plaintext is a fresh json.Marshal result. *)
Definition aes_gcm_encrypt (pt aad key nonce : bytes) : res bytes :=
  if negb (Nat.eqb (length key) keyLength) then Err EAesKeyLength
  else Ok (gcm_seal (aes_encrypt key) nonce aad pt ++ nonce).

(** AES256GCM.Decrypt, crypto/aes.go:62-88.  Open decrypts in place: the slice returned at line 87 holds
    the plaintext. *)
Definition aes_gcm_decrypt (ciphertext aad key : bytes) : res bytes :=
  if negb (Nat.eqb (length key) keyLength) then Err EAesKeyLength
  else if Nat.ltb (length ciphertext) Overhead then Err EAesCiphertextLength
  else
    res_bind (go_to (go_len ciphertext - Z.of_nat nonceLength) ciphertext) (fun data =>
    res_bind (go_from (go_len ciphertext - Z.of_nat nonceLength) ciphertext) (fun nonce =>
    match gcm_open (aes_encrypt key) nonce aad data with
    | None => Err EAesAuth
    | Some p => res_bind (go_to (go_len ciphertext - Z.of_nat Overhead) ciphertext) (fun _ => Ok p)
    end)).
