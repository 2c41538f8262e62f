(** W is a permutation; Wrap/Unwrap round trip and canonicality, generic in the block
    permutation and instantiated with AES. *)
From Coq Require Import ZifyN ZifyNat.
From Verif Require Import Bytes Go Aes AesProofs Kwp.
Local Open Scope N_scope.
Ltac Zify.zify_post_hook ::= Z.to_euclidean_division_equations.

Definition len8 (b : bytes) := length b = 8%nat.

Lemma xor_const_length a rc : length a = 8%nat -> length (xor_const a rc) = 8%nat.
Proof.
  intros H. unfold xor_const. rewrite xor_bytes_length, app_length, N_to_be_length, H. reflexivity.
Qed.
Lemma xor_const_invol a rc : length a = 8%nat -> xor_const (xor_const a rc) rc = a.
Proof.
  intros H. unfold xor_const. apply xor_bytes_invol.
  rewrite app_length, N_to_be_length, H. simpl. lia.
Qed.

Section Perm.
  Context (E D : bytes -> bytes).
  Context (HE : forall b, length b = 16%nat -> length (E b) = 16%nat).
  Context (HD : forall b, length b = 16%nat -> length (D b) = 16%nat).
  Context (DE : forall b, length b = 16%nat -> D (E b) = b).
  Context (ED : forall b, length b = 16%nat -> E (D b) = b).

  Lemma w_round_shape bs : forall a rc, length a = 8%nat -> Forall len8 bs ->
    length (fst (w_round E a rc bs)) = 8%nat /\
    length (snd (w_round E a rc bs)) = length bs /\ Forall len8 (snd (w_round E a rc bs)).
  Proof.
    induction bs as [|b bs IH]; intros a rc Ha Hb; [simpl; auto|].
    inversion Hb as [|? ? Hb1 Hb2]; subst. cbn [w_round].
    assert (Hl : length (E (a ++ b)) = 16%nat) by (apply HE; rewrite app_length, Ha, Hb1; reflexivity).
    specialize (IH (xor_const (firstn 8 (E (a ++ b))) rc) (rc + 1)).
    destruct (w_round E (xor_const (firstn 8 (E (a ++ b))) rc) (rc + 1) bs) as [a2 out].
    simpl in IH. destruct IH as (H1 & H2 & H3); auto.
    { apply xor_const_length. rewrite firstn_length, Hl. reflexivity. }
    cbn [fst snd length]. repeat split; auto.
    constructor; auto. unfold len8. rewrite skipn_length, Hl. reflexivity.
  Qed.
  Lemma inv_round_shape bs : forall a rc, length a = 8%nat -> Forall len8 bs ->
    length (fst (inv_round D a rc bs)) = 8%nat /\
    length (snd (inv_round D a rc bs)) = length bs /\ Forall len8 (snd (inv_round D a rc bs)).
  Proof.
    induction bs as [|b bs IH]; intros a rc Ha Hb; [simpl; auto|].
    inversion Hb as [|? ? Hb1 Hb2]; subst. cbn [inv_round].
    specialize (IH a (rc + 1)).
    destruct (inv_round D a (rc + 1) bs) as [a1 out].
    simpl in IH. destruct IH as (H1 & H2 & H3); auto.
    assert (Hl : length (D (xor_const a1 rc ++ b)) = 16%nat).
    { apply HD. rewrite app_length, xor_const_length, Hb1 by assumption. reflexivity. }
    cbn [fst snd length]. repeat split; auto.
    - rewrite firstn_length, Hl. reflexivity.
    - constructor; auto. unfold len8. rewrite skipn_length, Hl. reflexivity.
  Qed.

  Lemma inv_w_round bs : forall a rc, length a = 8%nat -> Forall len8 bs ->
    inv_round D (fst (w_round E a rc bs)) rc (snd (w_round E a rc bs)) = (a, bs).
  Proof.
    induction bs as [|b bs IH]; intros a rc Ha Hb; [reflexivity|].
    inversion Hb as [|? ? Hb1 Hb2]; subst. cbn [w_round].
    assert (H16 : length (a ++ b) = 16%nat) by (rewrite app_length, Ha, Hb1; reflexivity).
    assert (Hl : length (E (a ++ b)) = 16%nat) by now apply HE.
    assert (Hx : length (firstn 8 (E (a ++ b))) = 8%nat) by (rewrite firstn_length, Hl; reflexivity).
    specialize (IH (xor_const (firstn 8 (E (a ++ b))) rc) (rc + 1)).
    destruct (w_round E (xor_const (firstn 8 (E (a ++ b))) rc) (rc + 1) bs) as [a2 out].
    cbn [fst snd inv_round] in *. rewrite IH; auto using xor_const_length.
    rewrite xor_const_invol by assumption. rewrite firstn_skipn, DE by assumption.
    rewrite firstn_app_exact, skipn_app_exact by assumption. reflexivity.
  Qed.
  Lemma w_inv_round bs : forall a rc, length a = 8%nat -> Forall len8 bs ->
    w_round E (fst (inv_round D a rc bs)) rc (snd (inv_round D a rc bs)) = (a, bs).
  Proof.
    induction bs as [|b bs IH]; intros a rc Ha Hb; [reflexivity|].
    inversion Hb as [|? ? Hb1 Hb2]; subst. cbn [inv_round].
    pose proof (inv_round_shape bs a (rc + 1) Ha Hb2) as Hs.
    specialize (IH a (rc + 1) Ha Hb2).
    destruct (inv_round D a (rc + 1) bs) as [a1 out]. cbn [fst snd] in *.
    destruct Hs as (H1 & H2 & H3).
    assert (H16 : length (xor_const a1 rc ++ b) = 16%nat).
    { rewrite app_length, xor_const_length, Hb1 by assumption. reflexivity. }
    cbn [w_round]. rewrite firstn_skipn, ED by assumption.
    rewrite firstn_app_exact, skipn_app_exact by now apply xor_const_length.
    rewrite xor_const_invol by assumption. rewrite IH. reflexivity.
  Qed.

  Lemma w_rounds_shape r : forall i a bs, length a = 8%nat -> Forall len8 bs ->
    length (fst (w_rounds E r i a bs)) = 8%nat /\
    length (snd (w_rounds E r i a bs)) = length bs /\ Forall len8 (snd (w_rounds E r i a bs)).
  Proof.
    induction r as [|r IH]; intros i a bs Ha Hb; [simpl; auto|].
    cbn [w_rounds]. pose proof (w_round_shape bs a (i * N.of_nat (length bs) + 1) Ha Hb) as Hs.
    destruct (w_round E a (i * N.of_nat (length bs) + 1) bs) as [a1 bs1]. cbn [fst snd] in Hs.
    destruct Hs as (H1 & H2 & H3). destruct (IH (i+1) a1 bs1 H1 H3) as (Q1 & Q2 & Q3).
    repeat split; auto. congruence.
  Qed.
  Lemma inv_rounds_shape r : forall a bs, length a = 8%nat -> Forall len8 bs ->
    length (fst (inv_rounds D r a bs)) = 8%nat /\
    length (snd (inv_rounds D r a bs)) = length bs /\ Forall len8 (snd (inv_rounds D r a bs)).
  Proof.
    induction r as [|r IH]; intros a bs Ha Hb; [simpl; auto|].
    cbn [inv_rounds].
    pose proof (inv_round_shape bs a (N.of_nat r * N.of_nat (length bs) + 1) Ha Hb) as Hs.
    destruct (inv_round D a (N.of_nat r * N.of_nat (length bs) + 1) bs) as [a1 bs1]. cbn [fst snd] in Hs.
    destruct Hs as (H1 & H2 & H3). destruct (IH a1 bs1 H1 H3) as (Q1 & Q2 & Q3).
    repeat split; auto. congruence.
  Qed.

  Lemma w_rounds_snoc r : forall i a bs, length a = 8%nat -> Forall len8 bs ->
    w_rounds E (S r) i a bs =
    w_round E (fst (w_rounds E r i a bs)) ((i + N.of_nat r) * N.of_nat (length bs) + 1)
              (snd (w_rounds E r i a bs)).
  Proof.
    induction r as [|r IH]; intros i a bs Ha Hb.
    - cbn [w_rounds fst snd]. rewrite N.add_0_r. now destruct (w_round E a _ bs).
    - cbn [w_rounds].
      pose proof (w_round_shape bs a (i * N.of_nat (length bs) + 1) Ha Hb) as Hs.
      destruct (w_round E a (i * N.of_nat (length bs) + 1) bs) as [a1 bs1].
      cbn [fst snd] in Hs. destruct Hs as (H1 & H2 & H3).
      specialize (IH (i + 1) a1 bs1 H1 H3). cbn [w_rounds] in IH. rewrite IH, H2.
      replace (i + 1 + N.of_nat r) with (i + N.of_nat (S r)) by lia. reflexivity.
  Qed.

  Lemma inv_w_rounds r a bs : length a = 8%nat -> Forall len8 bs ->
    inv_rounds D r (fst (w_rounds E r 0 a bs)) (snd (w_rounds E r 0 a bs)) = (a, bs).
  Proof.
    induction r as [|r IH]; intros Ha Hb; [reflexivity|].
    rewrite w_rounds_snoc by assumption. rewrite N.add_0_l.
    destruct (w_rounds_shape r 0 a bs Ha Hb) as (H1 & H2 & H3).
    destruct (w_rounds E r 0 a bs) as [a1 bs1]. cbn [fst snd] in *.
    pose proof (w_round_shape bs1 a1 (N.of_nat r * N.of_nat (length bs) + 1) H1 H3) as (_ & L & _).
    pose proof (inv_w_round bs1 a1 (N.of_nat r * N.of_nat (length bs) + 1) H1 H3) as Hinv.
    destruct (w_round E a1 _ bs1) as [a2 bs2]. cbn [fst snd] in *.
    cbn [inv_rounds]. rewrite L, H2, Hinv. auto.
  Qed.
  Lemma w_inv_rounds r : forall a bs, length a = 8%nat -> Forall len8 bs ->
    w_rounds E r 0 (fst (inv_rounds D r a bs)) (snd (inv_rounds D r a bs)) = (a, bs).
  Proof.
    induction r as [|r IH]; intros a bs Ha Hb; [reflexivity|].
    cbn [inv_rounds].
    pose proof (inv_round_shape bs a (N.of_nat r * N.of_nat (length bs) + 1) Ha Hb) as (H1 & H2 & H3).
    pose proof (w_inv_round bs a (N.of_nat r * N.of_nat (length bs) + 1) Ha Hb) as Hinv.
    destruct (inv_round D a _ bs) as [a1 bs1]. cbn [fst snd] in *.
    destruct (inv_rounds_shape r a1 bs1 H1 H3) as (Q1 & Q2 & Q3).
    rewrite w_rounds_snoc by assumption. rewrite IH by assumption. cbn [fst snd].
    rewrite N.add_0_l, Q2, H2. exact Hinv.
  Qed.

  (** Blocks. *)
  Lemma blocks8_spec fuel : forall l m, length l = (8 * m)%nat -> (m <= fuel)%nat ->
    concat (blocks8 fuel l) = l /\ Forall len8 (blocks8 fuel l) /\ length (blocks8 fuel l) = m.
  Proof.
    induction fuel as [|f IH]; intros l m Hl Hm.
    - assert (m = 0)%nat by lia. subst. destruct l; [|discriminate]. simpl; auto.
    - destruct l as [|x l'].
      + simpl in *. assert (m = 0)%nat by lia. subst. auto.
      + destruct m as [|m]; [discriminate|].
        cbn [blocks8]. remember (x :: l') as l.
        destruct (IH (skipn 8 l) m) as (A & B & C).
        { rewrite skipn_length. lia. } { lia. }
        cbn [concat length]. rewrite A, C, firstn_skipn. repeat split; auto.
        constructor; auto. unfold len8. rewrite firstn_length. lia.
  Qed.
  Lemma concat_len8 bs : Forall len8 bs -> length (concat bs) = (8 * length bs)%nat.
  Proof.
    induction 1 as [|b bs Hb _ IH]; [reflexivity|].
    cbn [concat length]. rewrite app_length, IH, Hb. lia.
  Qed.
  Lemma blocks8_concat bs fuel : Forall len8 bs -> (length bs <= fuel)%nat -> blocks8 fuel (concat bs) = bs.
  Proof.
    revert bs. induction fuel as [|f IH]; intros bs Hb Hf.
    - destruct bs; [reflexivity|simpl in Hf; lia].
    - destruct Hb as [|b bs Hb Hbs]; [reflexivity|].
      cbn [blocks8 concat]. destruct (b ++ concat bs) as [|x l] eqn:Hl.
      { assert (length (b ++ concat bs) = 0)%nat by now rewrite Hl.
        rewrite app_length, Hb in H. lia. }
      rewrite <- Hl. rewrite firstn_app_exact, skipn_app_exact by assumption.
      rewrite IH; auto. simpl in Hf; lia.
  Qed.

  (** computeW and invertW are inverse on their domains. *)
  Definition padded (key : bytes) : bytes :=
    key ++ zeros (N.to_nat (wrappingSize (blen key) - 8 - blen key)).

  Lemma wrappingSize_eq n : wrappingSize n = n + (7 - (n + 7) mod 8) + 8.
  Proof. reflexivity. Qed.
  Lemma wrappingSize_bounds n : n + 8 <= wrappingSize n /\ wrappingSize n <= n + 15 /\ wrappingSize n mod 8 = 0.
  Proof. rewrite wrappingSize_eq. lia. Qed.

  Lemma padded_length key : blen (padded key) = wrappingSize (blen key) - 8.
  Proof.
    unfold padded, blen. rewrite app_length, zeros_length.
    pose proof (wrappingSize_bounds (N.of_nat (length key))). lia.
  Qed.
  Lemma padded_mult key : exists m, length (padded key) = (8 * m)%nat /\
     N.of_nat m = (wrappingSize (blen key) - 8) / 8.
  Proof.
    pose proof (padded_length key) as H. unfold blen in *.
    pose proof (wrappingSize_bounds (N.of_nat (length key))).
    exists (N.to_nat ((wrappingSize (N.of_nat (length key)) - 8) / 8)). lia.
  Qed.

  Lemma computeW_ok iv key y :
    computeW E iv key = Ok y ->
    8 < blen key /\ length iv = 8%nat /\
    invertW D y = Ok (iv ++ padded key) /\ blen y = wrappingSize (blen key).
  Proof.
    unfold computeW. destruct (orb _ _) eqn:G; [discriminate|].
    apply Bool.orb_false_iff in G as [G G3]. apply Bool.orb_false_iff in G as [G1 G2].
    apply N.leb_gt in G1. apply N.ltb_ge in G2. apply Bool.negb_false_iff, N.eqb_eq in G3.
    fold (padded key).
    destruct (padded_mult key) as (m & Hm & Hm2).
    destruct (blocks8_spec (length (padded key)) (padded key) m Hm) as (B1 & B2 & B3); [lia|].
    assert (Hiv : length iv = 8%nat) by (unfold blen in G3; lia).
    pose proof (inv_w_rounds roundCount iv _ Hiv B2) as Hinv.
    destruct (w_rounds_shape roundCount 0 iv _ Hiv B2) as (S1 & S2 & S3).
    destruct (w_rounds E roundCount 0 iv _) as [a bs]. cbn [fst snd] in *.
    intros H; injection H as <-. repeat split; auto.
    - unfold invertW.
      assert (Hlen : length (a ++ concat bs) = (8 + 8 * m)%nat).
      { rewrite app_length, S1, concat_len8 by assumption. lia. }
      pose proof (wrappingSize_bounds (blen key)).
      destruct (orb _ _) eqn:G.
      { exfalso. apply Bool.orb_true_iff in G as [G|G].
        - apply N.ltb_lt in G. unfold blen in *. rewrite Hlen in G. lia.
        - apply Bool.negb_true_iff, N.eqb_neq in G. unfold blen in *. rewrite Hlen in G. lia. }
      rewrite firstn_app_exact, skipn_app_exact by assumption.
      rewrite blocks8_concat; auto.
      2:{ rewrite concat_len8 by assumption. lia. }
      rewrite Hinv, B1. reflexivity.
    - unfold blen at 1. rewrite app_length, S1, concat_len8, S2, B3 by assumption.
      pose proof (wrappingSize_bounds (blen key)). lia.
  Qed.

  Lemma invertW_ok y u : invertW D y = Ok u ->
    length u = length y /\ exists a bs, u = a ++ concat bs /\ length a = 8%nat /\ Forall len8 bs /\
      y = fst (w_rounds E roundCount 0 a bs) ++ concat (snd (w_rounds E roundCount 0 a bs)).
  Proof.
    unfold invertW. destruct (orb _ _) eqn:G; [discriminate|].
    apply Bool.orb_false_iff in G as [G1 G2].
    apply N.ltb_ge in G1. apply Bool.negb_false_iff, N.eqb_eq in G2.
    unfold blen in *.
    assert (Ha : length (firstn 8 y) = 8%nat) by (rewrite firstn_length; lia).
    destruct (blocks8_spec (length (skipn 8 y)) (skipn 8 y) (length y / 8 - 1)) as (B1 & B2 & B3).
    { rewrite skipn_length. lia. } { rewrite skipn_length. lia. }
    pose proof (w_inv_rounds roundCount _ _ Ha B2) as Hinv.
    destruct (inv_rounds_shape roundCount _ _ Ha B2) as (S1 & S2 & S3).
    destruct (inv_rounds D roundCount _ _) as [a bs]. cbn [fst snd] in *.
    intros H; injection H as <-. split.
    - rewrite app_length, S1, concat_len8, S2, B3 by assumption. lia.
    - exists a, bs. repeat split; auto. rewrite Hinv. cbn [fst snd]. rewrite B1. symmetry. apply firstn_skipn.
  Qed.

  (** None of Unwrap's slice expressions panics. *)
  Lemma kwp_unwrap_eq data : kwp_unwrap D data =
    if blen data <? wrappingSize MinWrapSize then Err EKwpWrappedTooSmall
    else if wrappingSize MaxWrapSize <? blen data then Err EKwpWrappedTooLarge
    else if negb (blen data mod 8 =? 0) then Err EKwpNotMultiple
    else
      res_bind (invertW D data) (fun unwrapped =>
        if negb (be_to_N (firstn 4 unwrapped) =? ivPrefix) then Err EKwpIntegrity
        else
          let encodedSize := be_to_N (firstn 4 (skipn 4 unwrapped)) in
          if negb (wrappingSize encodedSize =? blen unwrapped) then Err EKwpIntegrity
          else
            let rest := skipn 8 unwrapped in
            let key := firstn (N.to_nat encodedSize) rest in
            let pad := skipn (N.to_nat encodedSize) rest in
            if forallb (fun b => byte_eqb b x00) pad then Ok key else Err EKwpIntegrity).
  Proof.
    unfold kwp_unwrap. destruct (N.ltb_spec (blen data) (wrappingSize MinWrapSize)) as [|L]; [reflexivity|].
    change (wrappingSize MinWrapSize) with 24 in L.
    destruct (_ <? _); [reflexivity|]. destruct (negb _); [reflexivity|].
    destruct (invertW D data) as [u| |] eqn:Hu; [|reflexivity..]. cbn [res_bind].
    destruct (invertW_ok _ _ Hu) as (Hlen & _). unfold blen in L.
    rewrite (go_to_ok 4) by lia. cbn [res_bind]. destruct (negb _); [reflexivity|].
    rewrite (go_slice_ok 4 4) by lia. cbn [res_bind]. cbn zeta.
    set (n := be_to_N (firstn 4 (skipn 4 u))).
    destruct (N.eqb_spec (wrappingSize n) (blen u)) as [Hn|]; cbn [negb]; [|reflexivity].
    pose proof (wrappingSize_bounds n) as (W1 & W2 & W3). unfold blen in Hn.
    replace (8 + Z.of_N n)%Z with (Z.of_nat (8 + N.to_nat n)) by lia. change 8%Z with (Z.of_nat 8).
    rewrite (go_slice_ok 8 (N.to_nat n)) by lia.
    rewrite stdpp.list.drop_drop. reflexivity.
  Qed.

  Definition kwp_iv (n : N) : bytes := N_to_be 4 ivPrefix ++ N_to_be 4 n.
  Lemma kwp_iv_length n : length (kwp_iv n) = 8%nat.
  Proof. unfold kwp_iv. now rewrite app_length, !N_to_be_length. Qed.

  Lemma computeW_total iv key : 8 < blen key -> blen key <= 2147483631 -> length iv = 8%nat ->
    exists y, computeW E iv key = Ok y.
  Proof.
    intros H1 H2 H3. unfold computeW.
    destruct (orb _ _) eqn:G.
    { exfalso. apply Bool.orb_true_iff in G as [G|G]. 1: apply Bool.orb_true_iff in G as [G|G].
      - apply N.leb_le in G. lia.
      - apply N.ltb_lt in G. lia.
      - apply Bool.negb_true_iff, N.eqb_neq in G. unfold blen in G. lia. }
    destruct (w_rounds E roundCount 0 iv _). eauto.
  Qed.

  (** Unwrap inverts W on the canonical encoding, for every size from 9 on. *)
  Lemma kwp_unwrap_computeW data y : blen data <= MaxWrapSize ->
    computeW E (kwp_iv (blen data)) data = Ok y -> kwp_unwrap D y = Ok data.
  Proof.
    unfold MaxWrapSize. intros Hmax Hy.
    destruct (computeW_ok _ _ _ Hy) as (Hmin & _ & Hinv & Hl).
    pose proof (wrappingSize_bounds (blen data)) as (W1 & W2 & W3).
    pose proof (padded_length data) as Hp.
    rewrite kwp_unwrap_eq.
    change (wrappingSize MinWrapSize) with 24. change (wrappingSize MaxWrapSize) with 8200.
    destruct (N.ltb_spec (blen y) 24); [lia|].
    destruct (N.ltb_spec 8200 (blen y)); [lia|].
    destruct (N.eqb_spec (blen y mod 8) 0); [|lia]. cbn [negb].
    rewrite Hinv. cbn [res_bind].
    unfold kwp_iv. rewrite <- !app_assoc.
    rewrite (firstn_app_exact (N_to_be 4 ivPrefix)) by apply N_to_be_length.
    rewrite be_to_N_to_be. change (ivPrefix mod 256 ^ N.of_nat 4) with ivPrefix.
    rewrite N.eqb_refl. cbn [negb].
    rewrite (skipn_app_exact (N_to_be 4 ivPrefix)) by apply N_to_be_length.
    rewrite (firstn_app_exact (N_to_be 4 (blen data))) by apply N_to_be_length.
    rewrite be_to_N_to_be.
    assert (Hm : blen data mod 256 ^ N.of_nat 4 = blen data).
    { apply N.mod_small. change (256 ^ N.of_nat 4) with 4294967296. lia. }
    rewrite Hm.
    assert (Hu : blen (N_to_be 4 ivPrefix ++ N_to_be 4 (blen data) ++ padded data) = wrappingSize (blen data)).
    { unfold blen. rewrite !app_length, !N_to_be_length. fold (blen data). unfold blen in Hp at 1. lia. }
    rewrite Hu, N.eqb_refl. cbn [negb].
    rewrite app_assoc. rewrite (skipn_app_exact (_ ++ _)) by (now rewrite app_length, !N_to_be_length).
    unfold blen. rewrite Nat2N.id. unfold padded.
    rewrite firstn_app_exact, skipn_app_exact by reflexivity.
    match goal with |- context [forallb _ (zeros ?n)] => assert (Hz : forallb (fun b => byte_eqb b x00) (zeros n) = true) end.
    { apply forallb_forall. intros b Hb. unfold zeros in Hb. apply repeat_spec in Hb. now subst. }
    rewrite Hz. reflexivity.
  Qed.

  (** Round trip. *)
  Lemma kwp_roundtrip data : MinWrapSize <= blen data -> blen data <= MaxWrapSize ->
    exists y, kwp_wrap E data = Ok y /\ blen y = wrappingSize (blen data) /\ kwp_unwrap D y = Ok data.
  Proof.
    unfold MinWrapSize. intros H1 H2.
    assert (exists y, kwp_wrap E data = Ok y) as (y & Hy).
    { unfold kwp_wrap, MinWrapSize, MaxWrapSize in *.
      destruct (N.ltb_spec (blen data) 16); [lia|].
      destruct (N.ltb_spec 8192 (blen data)); [lia|].
      apply computeW_total; [lia|lia|apply kwp_iv_length]. }
    exists y. split; [exact Hy|].
    unfold kwp_wrap, MinWrapSize in Hy.
    destruct (N.ltb_spec (blen data) 16); [lia|].
    destruct (N.ltb_spec MaxWrapSize (blen data)); [lia|].
    fold (kwp_iv (blen data)) in Hy.
    destruct (computeW_ok _ _ _ Hy) as (_ & _ & Hinv & Hl). split; [exact Hl|].
    now apply kwp_unwrap_computeW.
  Qed.

  Lemma zeros_of_forallb l : forallb (fun b => byte_eqb b x00) l = true -> l = zeros (length l).
  Proof.
    induction l as [|b l IH]; [reflexivity|]. simpl. rewrite Bool.andb_true_iff, byte_eqb_eq.
    intros [-> H]. unfold zeros. simpl. f_equal. now apply IH.
  Qed.

  (** Everything Unwrap accepts is the image of W on the canonical encoding of its result. *)
  Lemma kwp_unwrap_canonical y k : kwp_unwrap D y = Ok k ->
    9 <= blen k /\ blen k <= MaxWrapSize /\ blen y = wrappingSize (blen k) /\
    computeW E (kwp_iv (blen k)) k = Ok y.
  Proof.
    rewrite kwp_unwrap_eq.
    change (wrappingSize MinWrapSize) with 24. change (wrappingSize MaxWrapSize) with 8200.
    destruct (N.ltb_spec (blen y) 24); [discriminate|].
    destruct (N.ltb_spec 8200 (blen y)); [discriminate|].
    destruct (N.eqb_spec (blen y mod 8) 0) as [Hy8|]; [|discriminate]. cbn [negb].
    destruct (invertW D y) as [u|e|] eqn:Hu; try discriminate. cbn [res_bind].
    destruct (N.eqb_spec (be_to_N (firstn 4 u)) ivPrefix) as [Hiv|]; [|discriminate]. cbn [negb].
    set (n := be_to_N (firstn 4 (skipn 4 u))).
    destruct (N.eqb_spec (wrappingSize n) (blen u)) as [Hn|]; [|discriminate]. cbn [negb].
    destruct (forallb _ _) eqn:Hz; [|discriminate].
    intros Hk; injection Hk as Hk.
    destruct (invertW_ok _ _ Hu) as (Hlen & a & bs & Hua & Ha & Hbs & Hyw).
    assert (Hbl : blen u = blen y) by (unfold blen; congruence).
    pose proof (wrappingSize_bounds n) as (W1 & W2 & W3).
    assert (Hrest : length (skipn 8 u) = (length u - 8)%nat) by apply skipn_length.
    assert (Hkl : blen k = n).
    { rewrite <- Hk. unfold blen. rewrite firstn_length, Hrest. unfold blen in *. lia. }
    assert (Hpad : u = kwp_iv n ++ padded k).
    { apply zeros_of_forallb in Hz.
      rewrite <- (firstn_skipn 8 u). f_equal.
      - unfold kwp_iv. rewrite <- (firstn_skipn 4 u) at 1.
        assert (L4 : length (firstn 4 u) = 4%nat) by (rewrite firstn_length; unfold blen in *; lia).
        assert (L4' : length (firstn 4 (skipn 4 u)) = 4%nat)
          by (rewrite firstn_length, skipn_length; unfold blen in *; lia).
        rewrite firstn_app, L4. change (8 - 4)%nat with 4%nat.
        rewrite firstn_all2 by lia. f_equal.
        + pose proof (N_to_be_to_N (firstn 4 u)) as Q. rewrite L4, Hiv in Q. now symmetry.
        + pose proof (N_to_be_to_N (firstn 4 (skipn 4 u))) as Q. rewrite L4' in Q. now symmetry.
      - rewrite <- (firstn_skipn (N.to_nat n) (skipn 8 u)). unfold padded.
        rewrite Hk. f_equal. rewrite Hz. f_equal. rewrite skipn_length, Hrest, Hkl.
        rewrite Hn. unfold blen. lia. }
    change MaxWrapSize with 8192.
    split; [|split; [|split]].
    - rewrite Hkl. lia.
    - rewrite Hkl. lia.
    - rewrite Hkl. congruence.
    - assert (Hk9 : 8 < blen k) by lia.
      destruct (computeW_total (kwp_iv (blen k)) k) as (y' & Hy'); [lia|lia|apply kwp_iv_length|].
      rewrite Hy'. f_equal. unfold computeW in Hy'.
      destruct (orb _ _); [discriminate|]. fold (padded k) in Hy'.
      assert (Hab : a = kwp_iv n /\ concat bs = padded k).
      { rewrite Hua in Hpad. apply app_eq_len in Hpad; [exact Hpad|]. rewrite Ha, kwp_iv_length. reflexivity. }
      destruct Hab as [-> Hc].
      rewrite <- Hc in Hy'. rewrite blocks8_concat in Hy'; auto.
      2:{ rewrite concat_len8 by assumption. lia. }
      rewrite Hkl in Hy'.
      destruct (w_rounds E roundCount 0 (kwp_iv n) bs) as [a' bs']. cbn [fst snd] in *.
      congruence.
  Qed.
End Perm.
