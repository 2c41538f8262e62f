(** Facts about the crypto package behind P_Crypto.v. *)
From Coq Require Import ZifyN ZifyNat.
From Verif Require Import Bytes Base64 Base64Proofs Go Json JsonProofs Aes AesProofs Gcm GcmProofs Kwp KwpProofs Types TypesProofs World Cryptor CryptorProofs Data Kmac KmacSpec KmacProofs Password.
Local Open Scope bool_scope.
Local Open Scope N_scope.
Ltac Zify.zify_post_hook ::= Z.to_euclidean_division_equations.

Lemma new_kwp_ok key kek : new_kwp key = Ok kek -> kek = key /\ (length key = 16%nat \/ length key = 32%nat).
Proof.
  unfold new_kwp, blen. destruct (_ || _) eqn:E; [|discriminate]. intros H. injection H as <-.
  split; [reflexivity|]. apply Bool.orb_true_iff in E. rewrite !N.eqb_eq in E. lia.
Qed.
Lemma kwp_wrap_refuses kek data : blen data < 16 \/ 8192 < blen data ->
  aes_kwp_wrap kek data = Err EKwpTooSmall \/ aes_kwp_wrap kek data = Err EKwpTooLarge.
Proof.
  unfold aes_kwp_wrap, kwp_wrap, MinWrapSize, MaxWrapSize.
  destruct (N.ltb_spec (blen data) 16); [auto|].
  destruct (N.ltb_spec 8192 (blen data)); [auto|]. lia.
Qed.
Lemma wrap_roundtrip kek data : 16 <= blen data <= 8192 ->
  exists y, aes_kwp_wrap kek data = Ok y /\ aes_kwp_unwrap kek y = Ok data /\
    blen y = 8 * ((blen data + 7) / 8) + 8.
Proof.
  intros H. destruct (aes_kwp_roundtrip kek data) as (y & A & B & C); [unfold MinWrapSize, MaxWrapSize; lia..|].
  exists y. split; [exact A|]. split; [exact C|]. rewrite wrappingSize_eq in B. lia.
Qed.
Lemma unwrap_unique kek y y' k : aes_kwp_unwrap kek y = Ok k -> aes_kwp_unwrap kek y' = Ok k -> y = y'.
Proof. intros A B. apply aes_kwp_unwrap_canonical in A as (_ & _ & _ & A), B as (_ & _ & _ & B). congruence. Qed.
Lemma unwrap_is_wrap kek y k : aes_kwp_unwrap kek y = Ok k -> 16 <= blen k -> aes_kwp_wrap kek k = Ok y.
Proof.
  intros A L. apply aes_kwp_unwrap_canonical in A as (_ & A1 & _ & A). unfold aes_kwp_wrap, kwp_wrap, MinWrapSize.
  destruct (N.ltb_spec (blen k) 16); [lia|].
  destruct (N.ltb_spec MaxWrapSize (blen k)); [lia|]. exact A.
Qed.
Lemma unwrap_short kek k : 9 <= blen k <= 15 -> exists y, aes_kwp_unwrap kek y = Ok k /\ aes_kwp_wrap kek k = Err EKwpTooSmall.
Proof.
  intros H.
  assert (exists y, computeW (aes_encrypt kek) (kwp_iv (blen k)) k = Ok y) as (y & Hy).
  { apply (computeW_total (aes_encrypt kek) (aes_decrypt kek));
      auto using aes_encrypt_length, aes_decrypt_length, aes_decrypt_encrypt, aes_encrypt_decrypt, kwp_iv_length; lia. }
  exists y. split.
  - unfold aes_kwp_unwrap.
    apply (kwp_unwrap_computeW (aes_encrypt kek) (aes_decrypt kek));
      auto using aes_encrypt_length, aes_decrypt_length, aes_decrypt_encrypt, aes_encrypt_decrypt.
    unfold MaxWrapSize. lia.
  - unfold aes_kwp_wrap, kwp_wrap, MinWrapSize. destruct (N.ltb_spec (blen k) 16); [reflexivity|lia].
Qed.
Lemma unwrap_size kek y k : aes_kwp_unwrap kek y = Ok k -> 9 <= blen k <= 8192 /\ blen y = 8 * ((blen k + 7) / 8) + 8.
Proof.
  intros A. apply aes_kwp_unwrap_canonical in A as (A1 & A2 & A3 & _). rewrite wrappingSize_eq in A3.
  unfold MaxWrapSize in *. lia.
Qed.

(** GCM *)
Lemma gcm_frame pt aad key nonce ct : length nonce = 12%nat -> aes_gcm_encrypt pt aad key nonce = Ok ct ->
  exists body tag, ct = body ++ tag ++ nonce /\ length body = length pt /\ length tag = 16%nat.
Proof.
  intros Hn. unfold aes_gcm_encrypt. destruct (negb _); [discriminate|]. intros H. injection H as <-.
  unfold gcm_seal. eexists _, _. rewrite <- app_assoc. split; [reflexivity|].
  assert (HE : forall b, length (aes_encrypt key b) = 16%nat) by (intros; apply aes_encrypt_length).
  pose proof (gcm_seal_length _ HE nonce aad pt) as L. unfold gcm_seal in L. rewrite app_length in L.
  assert (length (gctr (aes_encrypt key) nonce pt) = length pt) by (apply gctr_length; auto). lia.
Qed.
Lemma gcm_refuses ct aad key : (length key <> 32 \/ length ct < 28)%nat -> exists x, aes_gcm_decrypt ct aad key = Err x.
Proof.
  intros H. rewrite aes_gcm_decrypt_eq. unfold keyLength, Overhead. destruct (Nat.eqb_spec (length key) 32); cbn [negb]; [|eauto].
  destruct (Nat.ltb_spec (length ct) 28); [eauto|lia].
Qed.
Lemma gcm_refuses_key pt aad key nonce : length key <> 32%nat -> exists x, aes_gcm_encrypt pt aad key nonce = Err x.
Proof. intros H. unfold aes_gcm_encrypt, keyLength. destruct (Nat.eqb_spec (length key) 32); cbn [negb]; [lia|eauto]. Qed.

(** Cryptor *)
Section Cryptor.
  Context {S I : Type} (e : env).
  Notation W := (world S I).

  Lemma cryptor_enc_ok kek v d wk ct (w w' : W) :
    run (encrypt_json (aes_cryptor e kek) v d) w = (Ok (wk, ct), w') ->
    aes_open kek (print d) wk ct = Ok (print v) /\ length wk = 40%nat /\ length ct = (length (print v) + 28)%nat.
  Proof.
    unfold encrypt_json. cbn [c_enc aes_cryptor].
    destruct (aes_enc_run e kek (print v) (print d) w) as (w1 & _ & H).
    destruct (draws2 e (w_draws w)).
    - destruct H as (wk' & ct' & -> & A & B & C & _). intros E. injection E as <- <- _. auto.
    - destruct H as (-> & _). discriminate.
  Qed.
  Lemma cryptor_roundtrip kek s d wk ct (w w' w2 : W) :
    run (encrypt_json (aes_cryptor e kek) (jbytes s) d) w = (Ok (wk, ct), w') ->
    fst (run (decrypt_json (aes_cryptor e kek) dec_bytes d (Some wk) (Some ct)) w2) = Ok s.
  Proof.
    intros H. apply cryptor_enc_ok in H as (A & _).
    destruct (decrypt_json_run e kek dec_bytes d (Some wk) (Some ct) w2) as (w3 & -> & _). cbn [fst].
    unfold open_json. cbn [slice_bytes]. rewrite A. cbn [res_bind].
    rewrite unmarshal_print, dec_bytes_jbytes by apply jbytes_wf. reflexivity.
  Qed.
  Lemma cryptor_accepts {A} kek (dec : json -> option A) d wk ct a (w w' : W) :
    run (decrypt_json (aes_cryptor e kek) dec d wk ct) w = (Ok a, w') ->
    exists pt key nonce, unmarshal dec pt = Some a /\ length key = 32%nat /\ length nonce = 12%nat /\
      aes_kwp_wrap kek key = Ok (slice_bytes wk) /\ aes_gcm_encrypt pt (print d) key nonce = Ok (slice_bytes ct).
  Proof.
    destruct (decrypt_json_run e kek dec d wk ct w) as (w3 & -> & _). intros H. injection H as H _.
    unfold open_json in H. destruct (aes_open _ _ _ _) as [pt| |] eqn:E; cbn [res_bind] in H; try discriminate.
    destruct (unmarshal dec pt) as [a'|] eqn:U; [|discriminate]. injection H as ->.
    apply aes_open_inv in E as (key & nonce & Hk & Hn & Hw & Hg). exists pt, key, nonce. repeat split; auto.
    apply unwrap_is_wrap; [exact Hw|unfold blen; lia].
  Qed.
  Lemma cryptor_total kek v d (w : W) :
    draws2 e (w_draws w) = true ->
    exists wk ct w', run (encrypt_json (aes_cryptor e kek) v d) w = (Ok (wk, ct), w').
  Proof.
    intros D. unfold encrypt_json. cbn [c_enc aes_cryptor].
    destruct (aes_enc_run e kek (print v) (print d) w) as (w1 & _ & H). rewrite D in H.
    destruct H as (wk & ct & H & _). eauto.
  Qed.
  Lemma print_jbytes_length s : length (print (jbytes s)) =
    match s with Some b => 4 * ((length b + 2) / 3) + 2 | None => 4 end%nat.
  Proof.
    destruct s as [b|]; [|reflexivity]. cbn [jbytes print]. rewrite quote_b64. cbn [length]. rewrite app_length. cbn [length].
    pose proof (b64std_length b) as H. unfold blen in H. lia.
  Qed.
  Lemma object_ciphertext_size kek o oid wk so (w w' : W) :
    run (object_seal (aes_cryptor e kek) o oid) w = (Ok (wk, so), w') ->
    exists ct, so_ct so = Some ct /\ length ct =
      match o_pt o with Some b => 4 * ((length b + 2) / 3) + 30 | None => 32 end%nat.
  Proof.
    unfold object_seal. rewrite run_bindR.
    destruct (run (encrypt_json _ _ _) w) as [r w1] eqn:E. destruct r as [[wk' ct]|x|]; [|discriminate..].
    rewrite run_ret. intros H. injection H as <- <- _. exists ct. split; [reflexivity|].
    apply cryptor_enc_ok in E as (_ & _ & L). rewrite print_jbytes_length in L. destruct (o_pt o); lia.
  Qed.

  (** Passwords *)
  Lemma generate_ok p r (w w' : W) : run (generate_password e) w = (Ok (p, r), w') ->
    exists salt, length salt = 8%nat /\ r = salt ++ pwhash e p salt.
  Proof.
    unfold generate_password, get_bytes. rewrite run_bindR, run_act.
    destruct (draw_cases e (w_draws w) passwordLength) as [(raw & Er & Lr)|Er]; rewrite Er; [|discriminate].
    rewrite run_bindR, run_act.
    destruct (draw_cases e (w_draws (set_draws w (w_draws w + 1))) (N.of_nat saltLength)) as [(salt & Es & Ls)|Es]; rewrite Es; [|discriminate].
    rewrite run_ret. intros H. injection H as <- <- _. exists salt. split; [exact Ls|reflexivity].
  Qed.
  Lemma compare_exact p salt h : length salt = 8%nat ->
    compare_password e p (Some (salt ++ h)) = Ok (bytes_eqb (pwhash e p salt) h).
  Proof.
    intros L. unfold compare_password, saltLength. cbn [slice_bytes]. 
    rewrite go_to_ok by (rewrite app_length; lia). cbn [res_bind]. rewrite go_from_ok by (rewrite app_length; lia). cbn [res_bind].
    now rewrite firstn_app_exact, skipn_app_exact.
  Qed.
  Lemma compare_short p r : (length (slice_bytes r) < 8)%nat -> compare_password e p r = Panic.
  Proof.
    intros H. unfold compare_password, saltLength, go_to, go_slice.
    destruct (Z.leb_spec (Z.of_nat 8) (Z.of_nat (length (slice_bytes r)))); [lia|]. now rewrite Bool.andb_false_r.
  Qed.
End Cryptor.
