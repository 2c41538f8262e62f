(** GCM: decryption inverts encryption; whatever is accepted is an encryption. *)
From Coq Require Import ZifyN ZifyNat.
From Verif Require Import Bytes Go Aes AesProofs Gcm.
Local Open Scope N_scope.
Ltac Zify.zify_post_hook ::= Z.to_euclidean_division_equations.

Section Gcm.
  Context (E : bytes -> bytes) (HE : forall b, length (E b) = 16%nat).

  Lemma keystream_length n : forall nonce c, length (keystream E n nonce c) = (16 * n)%nat.
  Proof.
    induction n as [|n IH]; intros nonce c; [reflexivity|].
    cbn [keystream]. rewrite app_length, IH. unfold gctr_block. rewrite HE. lia.
  Qed.
  Lemma gctr_length nonce d : length (gctr E nonce d) = length d.
  Proof.
    unfold gctr. rewrite xor_bytes_length, keystream_length. lia.
  Qed.
  Lemma gctr_invol nonce d : gctr E nonce (gctr E nonce d) = d.
  Proof.
    unfold gctr at 1. rewrite gctr_length. unfold gctr. apply xor_bytes_invol.
    rewrite keystream_length. lia.
  Qed.
  Lemma gcm_tag_length nonce aad ct : length (gcm_tag E nonce aad ct) = 16%nat.
  Proof. unfold gcm_tag. rewrite xor_bytes_length, N_to_be_length. unfold gctr_block. now rewrite HE. Qed.
  Lemma gcm_seal_length nonce aad pt : length (gcm_seal E nonce aad pt) = (length pt + 16)%nat.
  Proof. unfold gcm_seal. now rewrite app_length, gctr_length, gcm_tag_length. Qed.

  Lemma gcm_open_seal nonce aad pt : gcm_open E nonce aad (gcm_seal E nonce aad pt) = Some pt.
  Proof.
    unfold gcm_open. rewrite gcm_seal_length.
    destruct (Nat.ltb_spec (length pt + 16) 16); [lia|].
    replace (length pt + 16 - 16)%nat with (length pt) by lia.
    unfold gcm_seal. rewrite firstn_app_exact, skipn_app_exact by apply gctr_length.
    rewrite bytes_eqb_refl. now rewrite gctr_invol.
  Qed.
  Lemma gcm_seal_open nonce aad data pt : gcm_open E nonce aad data = Some pt -> data = gcm_seal E nonce aad pt.
  Proof.
    unfold gcm_open. destruct (Nat.ltb_spec (length data) 16); [discriminate|].
    destruct (bytes_eqb _ _) eqn:Ht; [|discriminate]. intros Hp; injection Hp as <-.
    apply bytes_eqb_eq in Ht. unfold gcm_seal. rewrite gctr_invol, <- Ht. symmetry. apply firstn_skipn.
  Qed.
End Gcm.

Lemma aes_gcm_encrypt_ok pt aad key nonce ct :
  aes_gcm_encrypt pt aad key nonce = Ok ct ->
  length key = 32%nat /\ length ct = (length pt + 16 + length nonce)%nat.
Proof.
  unfold aes_gcm_encrypt. destruct (Nat.eqb_spec (length key) keyLength); [|discriminate].
  cbn [negb]. intros H; injection H as <-. split; [assumption|].
  rewrite app_length, gcm_seal_length; [lia|]. intros; apply aes_encrypt_length.
Qed.

(** None of Decrypt's slice expressions panics. *)
Lemma aes_gcm_decrypt_eq ciphertext aad key : aes_gcm_decrypt ciphertext aad key =
  if negb (Nat.eqb (length key) keyLength) then Err EAesKeyLength
  else if Nat.ltb (length ciphertext) Overhead then Err EAesCiphertextLength
  else
    let data := firstn (length ciphertext - nonceLength) ciphertext in
    let nonce := skipn (length ciphertext - nonceLength) ciphertext in
    match gcm_open (aes_encrypt key) nonce aad data with
    | None => Err EAesAuth
    | Some p => Ok p
    end.
Proof.
  unfold aes_gcm_decrypt. destruct (negb _); [reflexivity|]. destruct (Nat.ltb_spec (length ciphertext) Overhead) as [|L]; [reflexivity|].
  unfold Overhead in L. cbn zeta.
  replace (go_len ciphertext - Z.of_nat nonceLength)%Z with (Z.of_nat (length ciphertext - nonceLength)) by (unfold go_len, nonceLength; lia).
  replace (go_len ciphertext - Z.of_nat Overhead)%Z with (Z.of_nat (length ciphertext - Overhead)) by (unfold go_len, Overhead; lia).
  rewrite go_to_ok by lia. cbn [res_bind]. rewrite go_from_ok by lia. cbn [res_bind]. rewrite go_to_ok by lia. cbn [res_bind].
  reflexivity.
Qed.
Lemma aes_gcm_roundtrip pt aad key nonce ct :
  length nonce = 12%nat ->
  aes_gcm_encrypt pt aad key nonce = Ok ct -> aes_gcm_decrypt ct aad key = Ok pt.
Proof.
  intros Hn. rewrite aes_gcm_decrypt_eq. unfold aes_gcm_encrypt.
  destruct (Nat.eqb_spec (length key) keyLength); [|discriminate]. cbn [negb].
  intros H; injection H as <-.
  assert (HE : forall b, length (aes_encrypt key b) = 16%nat) by (intros; apply aes_encrypt_length).
  rewrite app_length, gcm_seal_length, Hn by assumption.
  destruct (Nat.ltb_spec (length pt + 16 + 12) Overhead); [unfold Overhead in *; lia|].
  unfold nonceLength. replace (length pt + 16 + 12 - 12)%nat with (length pt + 16)%nat by lia.
  rewrite firstn_app_exact, skipn_app_exact by now apply gcm_seal_length.
  rewrite gcm_open_seal by assumption. reflexivity.
Qed.

Lemma aes_gcm_decrypt_ok ct aad key pt :
  aes_gcm_decrypt ct aad key = Ok pt ->
  exists nonce, length nonce = 12%nat /\ length key = 32%nat /\ aes_gcm_encrypt pt aad key nonce = Ok ct.
Proof.
  rewrite aes_gcm_decrypt_eq. unfold aes_gcm_encrypt.
  destruct (Nat.eqb_spec (length key) keyLength); [|discriminate]. cbn [negb].
  destruct (Nat.ltb_spec (length ct) Overhead); [discriminate|]. unfold Overhead, nonceLength in *.
  destruct (gcm_open _ _ _ _) as [p|] eqn:Ho; [|discriminate].
  intros Hp; injection Hp as ->.
  apply gcm_seal_open in Ho; [|intros; apply aes_encrypt_length].
  exists (skipn (length ct - 12) ct). repeat split; auto.
  - rewrite skipn_length. lia.
  - rewrite <- Ho. f_equal. apply firstn_skipn.
Qed.
