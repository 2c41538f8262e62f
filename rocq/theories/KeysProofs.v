(** Which keys the constructors accept. *)
From Coq Require Import ZifyN.
From Verif Require Import Bytes Go World Kwp Cryptor D1 Index Standalone.
Local Open Scope bool_scope.
Local Open Scope N_scope.

Lemma new_aes k : new_aes_cryptor k = if blen k =? 32 then Ok k else Err EInvalidKeyLength.
Proof.
  unfold new_aes_cryptor, WrapperKeyLength, new_kwp. destruct (N.eqb_spec (blen k) 32) as [->|]; reflexivity.
Qed.
Definition key32 (k : bytes) : Prop := length k = 32%nat.
Lemma key32_eq k : key32 k <-> blen k = 32.
Proof. unfold key32, blen. lia. Qed.

Lemma d1_new_iff ks d : d1_new ks = Ok d <->
  exists k, ks = Ok k /\ key32 (k_kek k) /\ key32 (k_aek k) /\ key32 (k_tek k) /\ d = mkD1 (k_kek k) (k_aek k) (k_tek k).
Proof.
  unfold d1_new. split.
  - destruct ks as [k|x|]; cbn [res_bind]; try discriminate. rewrite !new_aes. intros H. exists k. rewrite !key32_eq.
    destruct (N.eqb_spec (blen (k_kek k)) 32); cbn [res_bind] in H; [|discriminate].
    destruct (N.eqb_spec (blen (k_aek k)) 32); cbn [res_bind] in H; [|discriminate].
    destruct (N.eqb_spec (blen (k_tek k)) 32); cbn [res_bind] in H; [|discriminate]. injection H as <-. auto.
  - intros (k & -> & H1 & H2 & H3 & ->). apply key32_eq in H1, H2, H3. cbn [res_bind]. rewrite !new_aes, H1, H2, H3. reflexivity.
Qed.
Lemma d1_new_fails ks : (forall d, d1_new ks <> Ok d) ->
  (exists x, ks = Err x /\ d1_new ks = Err x) \/ ks = Panic \/ (exists k, ks = Ok k) /\ d1_new ks = Err EInvalidKeyLength.
Proof.
  intros H. destruct ks as [k|x|]; [right; right|left; eauto|auto]. split; [eauto|]. revert H. unfold d1_new. cbn [res_bind]. rewrite !new_aes.
  destruct (blen (k_kek k) =? 32); cbn [res_bind]; [|reflexivity]. destruct (blen (k_aek k) =? 32); cbn [res_bind]; [|reflexivity].
  destruct (blen (k_tek k) =? 32); cbn [res_bind]; [|reflexivity]. intros H. now destruct (H _ eq_refl).
Qed.
Lemma ix_new_iff ks iek : ix_new ks = Ok iek <-> exists k, ks = Ok k /\ key32 (k_iek k) /\ iek = k_iek k.
Proof.
  unfold ix_new, MasterKeyLength. split.
  - destruct ks as [k|x|]; cbn [res_bind]; try discriminate. destruct (N.eqb_spec (blen (k_iek k)) 32); cbn [negb]; [|discriminate].
    intros [= <-]. exists k. rewrite key32_eq. auto.
  - intros (k & -> & H & ->). apply key32_eq in H. cbn [res_bind]. now rewrite H.
Qed.
Lemma ix_new_fails ks : (forall iek, ix_new ks <> Ok iek) ->
  (exists x, ks = Err x /\ ix_new ks = Err x) \/ ks = Panic \/ (exists k, ks = Ok k) /\ ix_new ks = Err EIxInvalidMasterKeyLength.
Proof.
  intros H. destruct ks as [k|x|]; [right; right|left; eauto|auto]. split; [eauto|]. revert H. unfold ix_new. cbn [res_bind].
  destruct (blen (k_iek k) =? MasterKeyLength); cbn [negb]; [|reflexivity]. intros H. now destruct (H _ eq_refl).
Qed.
Lemma sa_new_iff k k' : sa_new k = Ok k' <-> key32 (s_uek k) /\ key32 (s_gek k) /\ key32 (s_tek k) /\ k' = k.
Proof.
  unfold sa_new. rewrite !new_aes, !key32_eq. split.
  - destruct (N.eqb_spec (blen (s_uek k)) 32); cbn [res_bind]; [|discriminate].
    destruct (N.eqb_spec (blen (s_gek k)) 32); cbn [res_bind]; [|discriminate].
    destruct (N.eqb_spec (blen (s_tek k)) 32); cbn [res_bind]; [|discriminate]. intros [= <-]. destruct k; auto.
  - intros (-> & -> & -> & ->). now destruct k.
Qed.
Lemma sa_new_fails k : (forall k', sa_new k <> Ok k') -> sa_new k = Err EInvalidKeyLength.
Proof.
  unfold sa_new. rewrite !new_aes. destruct (blen (s_uek k) =? 32); cbn [res_bind]; [|reflexivity]. destruct (blen (s_gek k) =? 32); cbn [res_bind]; [|reflexivity].
  destruct (blen (s_tek k) =? 32); cbn [res_bind]; [|reflexivity]. intros H. now destruct (H _ eq_refl).
Qed.
