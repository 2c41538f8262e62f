(** Properties of the crypto package: key wrapping, AES-GCM framing, the cryptor, KMAC and
    passwords. *)
From Verif Require Import Bytes Go Json Gcm Kwp Types World Cryptor CryptorProofs Data Kmac KmacSpec KmacProofs Password CryptoFacts.
Local Open Scope N_scope.

(** C23.  Whatever key NewKWP accepted, wrapping is inverted by unwrapping for key material of 16 to
    8192 bytes, the result is the length padded to a multiple of 8, plus 8; other sizes are refused. *)
Theorem C23_wrap_roundtrip (key kek data : bytes) :
  new_kwp key = Ok kek -> 16 <= blen data <= 8192 ->
  exists y, aes_kwp_wrap kek data = Ok y /\ aes_kwp_unwrap kek y = Ok data /\
    blen y = 8 * ((blen data + 7) / 8) + 8.
Proof. intros _. exact (wrap_roundtrip kek data). Qed.
Print Assumptions C23_wrap_roundtrip.
Theorem C23_other_sizes_refused (key kek data : bytes) :
  new_kwp key = Ok kek -> blen data < 16 \/ 8192 < blen data ->
  aes_kwp_wrap kek data = Err EKwpTooSmall \/ aes_kwp_wrap kek data = Err EKwpTooLarge.
Proof. intros _. exact (kwp_wrap_refuses kek data). Qed.
Print Assumptions C23_other_sizes_refused.
Example C23_case : new_kwp (zeros 32) = Ok (zeros 32) /\ 16 <= blen (zeros 17) <= 8192 /\
  8 * ((blen (zeros 17) + 7) / 8) + 8 = 32.
Proof. vm_compute. repeat split; discriminate. Qed.

(** C24.  No two wrapped keys unwrap to the same key material. *)
Theorem C24_unwrap_injective (kek y y' k : bytes) :
  aes_kwp_unwrap kek y = Ok k -> aes_kwp_unwrap kek y' = Ok k -> y = y'.
Proof. exact (unwrap_unique kek y y' k). Qed.
Print Assumptions C24_unwrap_injective.
(** Anything that unwraps to material of a legal size is what Wrap returns for it. *)
Theorem C24_unwrap_only_wrapped (kek y k : bytes) :
  aes_kwp_unwrap kek y = Ok k -> 16 <= blen k -> aes_kwp_wrap kek k = Ok y.
Proof. exact (unwrap_is_wrap kek y k). Qed.
Print Assumptions C24_unwrap_only_wrapped.
(** The sizes Unwrap can return. *)
Theorem C24_unwrap_sizes (kek y k : bytes) :
  aes_kwp_unwrap kek y = Ok k -> 9 <= blen k <= 8192 /\ blen y = 8 * ((blen k + 7) / 8) + 8.
Proof. exact (unwrap_size kek y k). Qed.
Print Assumptions C24_unwrap_sizes.
(** The minimum size is not enforced: under every key, every string of 9 to 15 bytes has a wrapping
    that Unwrap accepts, although Wrap refuses that string. *)
Theorem C24_minimum_size_refuted (kek k : bytes) :
  9 <= blen k <= 15 ->
  exists y, aes_kwp_unwrap kek y = Ok k /\ aes_kwp_wrap kek k = Err EKwpTooSmall.
Proof. exact (unwrap_short kek k). Qed.
Print Assumptions C24_minimum_size_refuted.
Example C24_case : exists y, aes_kwp_unwrap (zeros 32) y = Ok (zeros 32) /\ 16 <= blen (zeros 32) /\
  exists y', aes_kwp_unwrap (zeros 32) y' = Ok (zeros 9) /\ blen y' = 24.
Proof.
  destruct (wrap_roundtrip (zeros 32) (zeros 32)) as (y & _ & H & _); [vm_compute; split; discriminate|].
  exists y. split; [exact H|]. split; [vm_compute; discriminate|].
  destruct (unwrap_short (zeros 32) (zeros 9)) as (y' & H' & _); [vm_compute; split; discriminate|].
  exists y'. split; [exact H'|]. apply unwrap_size in H' as [_ H']. exact H'.
Qed.

(** C25.  Decrypting with the same key and associated data gives the plaintext back. *)
Theorem C25_gcm_roundtrip (pt aad key nonce ct : bytes) :
  length nonce = 12%nat -> aes_gcm_encrypt pt aad key nonce = Ok ct -> aes_gcm_decrypt ct aad key = Ok pt.
Proof. exact (GcmProofs.aes_gcm_roundtrip pt aad key nonce ct). Qed.
Print Assumptions C25_gcm_roundtrip.
(** Ciphertext, tag and nonce in this order: 28 bytes more than the plaintext. *)
Theorem C25_gcm_frame (pt aad key nonce ct : bytes) :
  length nonce = 12%nat -> aes_gcm_encrypt pt aad key nonce = Ok ct ->
  exists body tag, ct = body ++ tag ++ nonce /\ length body = length pt /\ length tag = 16%nat.
Proof. exact (gcm_frame pt aad key nonce ct). Qed.
Print Assumptions C25_gcm_frame.
(** Keys of the wrong length and inputs that cannot hold tag and nonce are refused; all keys of 32
    bytes are good for encryption. *)
Theorem C25_gcm_refuses (ct aad key : bytes) :
  length key <> 32%nat \/ (length ct < 28)%nat -> exists x, aes_gcm_decrypt ct aad key = Err x.
Proof. exact (gcm_refuses ct aad key). Qed.
Print Assumptions C25_gcm_refuses.
Theorem C25_gcm_encrypt_total (pt aad key nonce : bytes) :
  (length key = 32%nat -> exists ct, aes_gcm_encrypt pt aad key nonce = Ok ct) /\
  (length key <> 32%nat -> exists x, aes_gcm_encrypt pt aad key nonce = Err x).
Proof. exact (conj (aes_gcm_total pt aad key nonce) (gcm_refuses_key pt aad key nonce)). Qed.
Print Assumptions C25_gcm_encrypt_total.
(** Whatever is accepted is the encryption of what is returned. *)
Theorem C25_gcm_accepts_only_encryptions (ct aad key pt : bytes) :
  aes_gcm_decrypt ct aad key = Ok pt ->
  exists nonce, length nonce = 12%nat /\ length key = 32%nat /\ aes_gcm_encrypt pt aad key nonce = Ok ct.
Proof. exact (GcmProofs.aes_gcm_decrypt_ok ct aad key pt). Qed.
Print Assumptions C25_gcm_accepts_only_encryptions.
Example C25_case : exists ct, aes_gcm_encrypt (zeros 5) (zeros 3) (zeros 32) (zeros 12) = Ok ct /\
  aes_gcm_decrypt ct (zeros 3) (zeros 32) = Ok (zeros 5).
Proof.
  destruct (aes_gcm_total (zeros 5) (zeros 3) (zeros 32) (zeros 12)) as [ct H]; [reflexivity|].
  exists ct. split; [exact H|]. exact (GcmProofs.aes_gcm_roundtrip (zeros 5) (zeros 3) (zeros 32) (zeros 12) ct eq_refl H).
Qed.

(** C26.  A Cryptor gives back every []byte value under the same associated data, in whatever
    state the process is by then. *)
Theorem C26_cryptor_roundtrip {S I} (e : env) (kek : bytes) (s : gslice) (d : json) wk ct (w w' w2 : world S I) :
  run (encrypt_json (aes_cryptor e kek) (jbytes s) d) w = (Ok (wk, ct), w') ->
  fst (run (decrypt_json (aes_cryptor e kek) dec_bytes d (Some wk) (Some ct)) w2) = Ok s.
Proof. exact (cryptor_roundtrip e kek s d wk ct w w' w2). Qed.
Print Assumptions C26_cryptor_roundtrip.
(** What Decrypt accepts for associated data [d] is an output of Encrypt for the same [d]: there is a
    data key and a nonce with which Encrypt produces exactly this wrapped key and ciphertext. *)
Theorem C26_cryptor_binds {S I A} (e : env) (kek : bytes) (dec : json -> option A) (d : json) (wk ct : gslice) (a : A) (w w' : world S I) :
  run (decrypt_json (aes_cryptor e kek) dec d wk ct) w = (Ok a, w') ->
  exists pt key nonce, unmarshal dec pt = Some a /\ length key = 32%nat /\ length nonce = 12%nat /\
    aes_kwp_wrap kek key = Ok (slice_bytes wk) /\ aes_gcm_encrypt pt (print d) key nonce = Ok (slice_bytes ct).
Proof. exact (cryptor_accepts e kek dec d wk ct a w w'). Qed.
Print Assumptions C26_cryptor_binds.
(** Size of an object's ciphertext. *)
Theorem C26_ciphertext_size {S I} (e : env) (kek : bytes) (o : object) oid wk so (w w' : world S I) :
  run (object_seal (aes_cryptor e kek) o oid) w = (Ok (wk, so), w') ->
  exists ct, so_ct so = Some ct /\ length ct =
    match o_pt o with Some b => 4 * ((length b + 2) / 3) + 30 | None => 32 end%nat.
Proof. exact (object_ciphertext_size e kek o oid wk so w w'). Qed.
Print Assumptions C26_ciphertext_size.
(** d1.go:114-115 promises 48 bytes more than the plaintext; an empty and a 100-byte object, for
    instance, never have that size. *)
Theorem C26_documented_size_refuted {S I} (e : env) (kek b : bytes) ad oid wk so (w w' : world S I) :
  length b = 0%nat \/ length b = 100%nat ->
  run (object_seal (aes_cryptor e kek) (mkObject (Some b) ad) oid) w = (Ok (wk, so), w') ->
  exists ct, so_ct so = Some ct /\ length ct <> (length b + 48)%nat.
Proof.
  intros L H. apply object_ciphertext_size in H as (ct & E & Lc). exists ct. split; [exact E|].
  cbn [o_pt] in Lc. rewrite Lc. destruct L as [-> | ->]; vm_compute; discriminate.
Qed.
Print Assumptions C26_documented_size_refuted.
(** Encryption succeeds whenever the random source does. *)
Example C26_case (kek : bytes) (v d : json) : exists e wk ct (w' : world unit unit),
  run (encrypt_json (aes_cryptor e kek) v d) (mkWorld tt tt 0 0 [] false) = (Ok (wk, ct), w').
Proof.
  exists (mkEnv (fun _ n => Some (zeros (N.to_nat n))) (fun _ => Time.time_zero) (fun _ _ => [])).
  apply cryptor_total. vm_compute. reflexivity.
Qed.

(** C28.  left_encode and right_encode are those of SP 800-185 for every uint64. *)
Theorem C28_left_encode (x : N) : x < 2 ^ 64 -> left_encode x (leftEncode x).
Proof. exact (leftEncode_ok x). Qed.
Print Assumptions C28_left_encode.
Theorem C28_right_encode (x : N) : x < 2 ^ 64 -> right_encode x (rightEncode x).
Proof. exact (rightEncode_ok x). Qed.
Print Assumptions C28_right_encode.
(** The string absorbed by KMAC determines key, tag length, customization string and message. *)
Theorem C28_framing_injective (rate : nat) (key : bytes) (tl : nat) (S msg key' : bytes) (tl' : nat) (S' msg' : bytes) :
  8 * blen key < 2 ^ 64 -> 8 * blen key' < 2 ^ 64 -> 8 * blen S < 2 ^ 64 -> 8 * blen S' < 2 ^ 64 ->
  8 * N.of_nat tl < 2 ^ 64 -> 8 * N.of_nat tl' < 2 ^ 64 ->
  kmac_input rate key tl S msg = kmac_input rate key' tl' S' msg' ->
  key = key' /\ tl = tl' /\ S = S' /\ msg = msg'.
Proof. exact (kmac_input_inj rate key tl S msg key' tl' S' msg'). Qed.
Print Assumptions C28_framing_injective.
(** bytepad is the standard's unless the unpadded string already fills whole blocks ... *)
Theorem C28_bytepad (x : bytes) (w : nat) : (0 < w)%nat -> N.of_nat w < 2 ^ 64 ->
  ((length (leftEncode (N.of_nat w)) + length x) mod w <> 0)%nat -> pads x w (bytepad x w).
Proof. exact (bytepad_standard x w). Qed.
Print Assumptions C28_bytepad.
(** ... in which case a whole block of zeros too much is appended: *)
Theorem C28_bytepad_refuted (x : bytes) (w : nat) : (0 < w)%nat -> N.of_nat w < 2 ^ 64 ->
  ((length (leftEncode (N.of_nat w)) + length x) mod w = 0)%nat ->
  exists out, pads x w out /\ bytepad x w = out ++ zeros w /\ ~ pads x w (bytepad x w).
Proof.
  intros Hw Hw2 H. destruct (bytepad_extra x w Hw Hw2 H) as (out & P & E). exists out. split; [exact P|].
  split; [exact E|]. intros Q. pose proof (pads_unique _ _ _ _ P Q) as F. rewrite E in F.
  apply (f_equal (@length byte)) in F. rewrite app_length, zeros_length in F. lia.
Qed.
Print Assumptions C28_bytepad_refuted.
(** a KMAC256 key of 131 bytes is such a case. *)
Example C28_bytepad_case (key : bytes) : length key = 131%nat ->
  ((length (leftEncode (N.of_nat 136)) + length (leftEncode (8 * blen key) ++ key)) mod 136 = 0)%nat.
Proof. unfold blen. rewrite app_length. intros ->. vm_compute. reflexivity. Qed.
(** With keys up to 128 bytes and customization strings up to 120 bytes (the library uses 32-byte
    keys and strings of at most 16 bytes) the absorbed string is exactly the standard's. *)
Theorem C28_standard_in_use (rate : nat) (key : bytes) (tl : nat) (S msg : bytes) :
  rate = 136%nat \/ rate = 168%nat ->
  (length key <= 128)%nat -> (length S <= 120)%nat -> 8 * N.of_nat tl < 2 ^ 64 ->
  kmac_string rate key tl S msg (kmac_input rate key tl S msg).
Proof. exact (kmac_input_standard_short rate key tl S msg). Qed.
Print Assumptions C28_standard_in_use.

(** C29.  With one context string, key, size, label and context are all recoverable from what is
    absorbed; KMACKDF is a function of that string ([kmac] = sponge of [kmac_input]). *)
Theorem C29_kdf_single_context_partial (kik : bytes) (size : nat) (label ctx kik' : bytes) (size' : nat) (label' ctx' : bytes) :
  8 * blen kik < 2 ^ 64 -> 8 * blen kik' < 2 ^ 64 -> 8 * blen label < 2 ^ 64 -> 8 * blen label' < 2 ^ 64 ->
  8 * N.of_nat size < 2 ^ 64 -> 8 * N.of_nat size' < 2 ^ 64 ->
  kmac_input 136 kik size label (concat [ctx]) = kmac_input 136 kik' size' label' (concat [ctx']) ->
  kik = kik' /\ size = size' /\ label = label' /\ ctx = ctx'.
Proof. cbn [concat]. rewrite !app_nil_r. exact (kmac_input_inj 136 kik size label ctx kik' size' label' ctx'). Qed.
Print Assumptions C29_kdf_single_context_partial.
(** With several context strings the boundaries are lost: splitting a context differently derives the
    same key. *)
Theorem C29_kdf_context_list_refuted (kik : bytes) (size : nat) (label a b : bytes) (rest : list bytes) :
  kmackdf size kik label (a :: b :: rest) = kmackdf size kik label ((a ++ b) :: rest).
Proof. unfold kmackdf. cbn [concat]. rewrite app_assoc. reflexivity. Qed.
Print Assumptions C29_kdf_context_list_refuted.
(** Two separate derivations of the index (index/index.go:325,330) never absorb the same string. *)
Example C29_case (iek keyword keyword' : bytes) : 8 * blen iek < 2 ^ 64 ->
  kmac_input 136 iek 32 (str "label") keyword <> kmac_input 136 iek 32 (str "id") keyword'.
Proof. intros H E. apply kmac_input_inj in E as (_ & _ & E & _); [discriminate E|assumption|assumption|reflexivity..]. Qed.

(** C30.  The generated password matches the record generated with it. *)
Theorem C30_generated_password_accepted {S I} (e : env) p r (w w' : world S I) :
  run (generate_password e) w = (Ok (p, r), w') -> compare_password e p (Some r) = Ok true.
Proof.
  intros H. apply generate_ok in H as (salt & L & ->). rewrite compare_exact by exact L.
  now rewrite bytes_eqb_refl.
Qed.
Print Assumptions C30_generated_password_accepted.
(** For such a record, Compare never panics and accepts exactly the passwords with the stored PBKDF2
    value under the stored salt (the first 8 bytes). *)
Theorem C30_compare_exact {S I} (e : env) p r (w w' : world S I) :
  run (generate_password e) w = (Ok (p, r), w') ->
  exists salt hash, r = salt ++ hash /\ length salt = 8%nat /\
    forall p', compare_password e p' (Some r) <> Panic /\
      (compare_password e p' (Some r) = Ok true <-> pwhash e p' salt = hash).
Proof.
  intros H. apply generate_ok in H as (salt & L & ->). exists salt, (pwhash e p salt). split; [reflexivity|].
  split; [exact L|]. intros p'. rewrite compare_exact by exact L. split; [discriminate|].
  rewrite <- bytes_eqb_eq. split; [intros E; now injection E|now intros ->].
Qed.
Print Assumptions C30_compare_exact.
(** A record shorter than the salt, which GeneratePassword never produces, makes Compare panic. *)
Theorem C30_short_record_panics (e : env) p r : (length (slice_bytes r) < 8)%nat -> compare_password e p r = Panic.
Proof. exact (compare_short e p r). Qed.
Print Assumptions C30_short_record_panics.
Example C30_case : exists (e : env) p r (w' : world unit unit),
  run (generate_password e) (mkWorld tt tt 0 0 [] false) = (Ok (p, r), w') /\ length r = 40%nat.
Proof.
  exists (mkEnv (fun i n => Some (repeat (Nb (N.of_nat i + 1)) (N.to_nat n))) (fun _ => Time.time_zero) (fun p s => firstn 32 (p ++ s))).
  eexists _, _, _. split; [vm_compute; reflexivity|reflexivity].
Qed.
