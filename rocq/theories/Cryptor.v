(** crypto/cryptor.go and crypto/tagger.go. *)
From Verif Require Import Bytes Go Json World Gcm Kwp Kmac Types.
Local Open Scope bool_scope.
Local Open Scope N_scope.
Local Open Scope go_scope.

Definition EncryptionKeyLength := 32.
Definition WrapperKeyLength := 32.

(** Cryptor.Encrypt, crypto/cryptor.go:54-81, from JSON values; none of the values the
    library encrypts makes json.Marshal fail except an expiry time (see data/token.go). *)
Definition encrypt_json {W} (c : cryptor W) (plaintext data : json) : prog W (res (bytes * bytes)) :=
  c_enc c (print plaintext) (print data).
(** Cryptor.Decrypt, crypto/cryptor.go:83-103: decryption followed by json.Unmarshal. *)
Definition decrypt_json {W A} (c : cryptor W) (dec : json -> option A) (data : json) (wk ct : gslice)
  : prog W (res A) :=
  let! pt := c_dec c (print data) (slice_bytes wk) (slice_bytes ct) in
  match unmarshal dec pt with Some a => Ret (Ok a) | None => Ret (Err EJson) end.

(** What Decrypt computes: Unwrap, then aead.Decrypt (crypto/cryptor.go:84-100). *)
Definition aes_open (kek aad wk ct : bytes) : res bytes :=
  res_bind (aes_kwp_unwrap kek wk) (fun key => aes_gcm_decrypt ct aad key).

Definition entry_eqb (kek aad wk ct : bytes) (x : entry) : bool :=
  bytes_eqb kek (e_kek x) && bytes_eqb aad (e_aad x) && bytes_eqb wk (e_wk x) && bytes_eqb ct (e_ct x).
Definition is_ok {A} (r : res A) : bool := match r with Ok _ => true | _ => false end.

Section AES.
  Context {S I : Type} (e : env).
  Notation W := (world S I).

  (** The Cryptor built by NewAESCryptor, crypto/cryptor.go:37-52: a key-encryption key. *)
  Definition aes_enc (kek pt aad : bytes) : prog W (res (bytes * bytes)) :=
    let! key := get_bytes e EncryptionKeyLength in
    let! nonce := get_bytes e (N.of_nat nonceLength) in
    let! ct := lift (aes_gcm_encrypt pt aad key nonce) in
    let! wk := lift (aes_kwp_wrap kek key) in
    (* ghost *)
    let* _ := act (fun w : W => (tt, set_log w (mkEntry kek aad wk ct pt :: w_log w))) in
    Ret (Ok (wk, ct)).
  Definition aes_dec (kek aad wk ct : bytes) : prog W (res bytes) :=
    act (fun w : W =>
      let r := aes_open kek aad wk ct in
      (* ghost *)
      (r, if is_ok r && negb (existsb (entry_eqb kek aad wk ct) (w_log w)) then set_forged w true else w)).
  Definition aes_cryptor (kek : bytes) : cryptor W := mkCryptor (aes_enc kek) (aes_dec kek).
End AES.

(** NewAESCryptor's validation; the result is the key-encryption key. *)
Definition new_aes_cryptor (kek : bytes) : res bytes :=
  if negb (blen kek =? WrapperKeyLength) then Err EInvalidKeyLength else new_kwp kek.

(** Tagger, crypto/tagger.go:31-49. *)
Definition TagLength := 32%nat.
Definition TaggerKeyLength := 32.
Definition new_tagger (key : bytes) : res bytes :=
  if negb (blen key =? TaggerKeyLength) then Err EInvalidKeyLength else Ok key.
(** Tag of a []byte. *)
Definition tag (key : bytes) (data : gslice) : res bytes :=
  kmac256 key TagLength (print (jbytes data)) [].
