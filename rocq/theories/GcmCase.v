(** Messages that meet the hypotheses of P_Gcm. *)
From Verif Require Import Bytes Go Aes AesProofs Gcm GcmProofs GcmSpec GcmAuth.
Local Open Scope N_scope.

Lemma tag_rejected key aad body tag tag' nonce :
  length tag = 16%nat -> length tag' = 16%nat -> length nonce = 12%nat ->
  opens key aad (framed body tag nonce) -> tag <> tag' ->
  aes_gcm_decrypt (framed body tag' nonce) aad key = Err EAesAuth.
Proof.
  intros Ht Ht' Hn Ho Hne. apply rejected; try assumption; [now apply opens_key in Ho|].
  apply opens_tag in Ho; [|assumption..]. congruence.
Qed.

Lemma encrypts (key aad pt nonce : bytes) : length key = 32%nat -> length nonce = 12%nat -> exists body tag,
  length tag = 16%nat /\ length body = length pt /\ opens key aad (framed body tag nonce).
Proof.
  intros Hk Hn. exists (gctr (aes_encrypt key) nonce pt), (gcm_tag (aes_encrypt key) nonce aad (gctr (aes_encrypt key) nonce pt)).
  split; [apply gcm_tag_length; apply aes_len|]. split; [apply gctr_length; apply aes_len|].
  exists pt. apply (aes_gcm_roundtrip pt aad key nonce); [assumption|].
  unfold aes_gcm_encrypt. rewrite Hk. change (negb (Nat.eqb 32 keyLength)) with false. cbn iota.
  unfold gcm_seal, framed. now rewrite <- app_assoc.
Qed.

Lemma zero_key_subkey : negb (bytes_eqb (subkey (zeros 32)) (zeros 16)) = true.
Proof. vm_cast_no_check (eq_refl true). Qed.
Lemma zero_key_nonzero : subkey (zeros 32) <> zeros 16.
Proof.
  assert (H := zero_key_subkey). revert H. generalize (subkey (zeros 32)) as s. intros s H ->.
  rewrite bytes_eqb_refl in H. discriminate.
Qed.
Lemma two_messages : exists body tag body' tag',
  length tag = 16%nat /\ length tag' = 16%nat /\ subkey (zeros 32) <> zeros 16 /\
  opens (zeros 32) [x01] (framed body tag (zeros 12)) /\
  opens (zeros 32) [x02] (framed body' tag' (zeros 12)) /\
  length body = 2%nat /\ length body' = 3%nat /\ differ_in_one_block [x01] [x02].
Proof.
  destruct (encrypts (zeros 32) [x01] [x0a; x0b] (zeros 12) (zeros_length 32) (zeros_length 12)) as (b & t & H1 & H2 & H3).
  destruct (encrypts (zeros 32) [x02] [x0c; x0d; x0e] (zeros 12) (zeros_length 32) (zeros_length 12)) as (b' & t' & H1' & H2' & H3').
  exists b, t, b', t'. split; [exact H1|]. split; [exact H1'|]. split; [exact zero_key_nonzero|].
  split; [exact H3|]. split; [exact H3'|]. split; [exact H2|]. split; [exact H2'|].
  exists [], [x01], [x02], []. repeat split; [discriminate|cbn; lia].
Qed.
