(** base64: decoding inverts encoding; lengths. *)
From Coq Require Import ZifyN ZifyNat.
From Verif Require Import Bytes Base64.
Local Open Scope bool_scope.
Local Open Scope N_scope.
Ltac Zify.zify_post_hook ::= Z.to_euclidean_division_equations.

(** Induction three bytes at a time. *)
Lemma triple_ind (P : bytes -> Prop) :
  P [] -> (forall a, P [a]) -> (forall a b, P [a; b]) ->
  (forall a b c t, P t -> P (a :: b :: c :: t)) -> forall l, P l.
Proof.
  intros H0 H1 H2 H3. fix IH 1. intros [|a [|b [|c t]]]; [exact H0|apply H1|apply H2|apply H3, IH].
Qed.

Definition sextets : list N := map N.of_nat (seq 0 64).
Lemma sextets_In n : n < 64 -> In n sextets.
Proof.
  intros H. unfold sextets. apply in_map_iff. exists (N.to_nat n). split; [lia|]. apply in_seq. lia.
Qed.
Lemma sx_forall (P : N -> bool) : forallb P sextets = true -> forall n, n < 64 -> P n = true.
Proof. intros H n Hn. rewrite forallb_forall in H. apply H, sextets_In, Hn. Qed.

Definition opt_is (o : option N) (n : N) : bool := match o with Some m => m =? n | None => false end.
Lemma opt_is_eq o n : opt_is o n = true -> o = Some n.
Proof. destruct o; simpl; [|discriminate]. intros H. apply N.eqb_eq in H. now subst. Qed.

Lemma ux_std n : n < 64 -> unsextet_std (sextet_std n) = Some n.
Proof. intros H. apply opt_is_eq. revert n H. apply sx_forall. vm_compute. reflexivity. Qed.
Lemma ux_url n : n < 64 -> unsextet_url (sextet_url n) = Some n.
Proof. intros H. apply opt_is_eq. revert n H. apply sx_forall. vm_compute. reflexivity. Qed.
Lemma sx_std_plain n : n < 64 -> not_crlf (sextet_std n) && negb (byte_eqb (sextet_std n) pad_char) = true.
Proof. revert n. apply sx_forall. vm_compute. reflexivity. Qed.
Lemma sx_url_plain n : n < 64 -> not_crlf (sextet_url n) && negb (byte_eqb (sextet_url n) pad_char) = true.
Proof. revert n. apply sx_forall. vm_compute. reflexivity. Qed.

Section RT.
  Context (sx : N -> byte) (ux : byte -> option N) (padded : bool).
  Context (Hux : forall n, n < 64 -> ux (sx n) = Some n).
  Context (Hpl : forall n, n < 64 -> not_crlf (sx n) && negb (byte_eqb (sx n) pad_char) = true).

  Lemma b64_no_crlf l : List.filter not_crlf (b64_encode sx padded l) = b64_encode sx padded l.
  Proof.
    assert (Hf : forall n, n < 64 -> not_crlf (sx n) = true).
    { intros n Hn. specialize (Hpl n Hn). now apply Bool.andb_true_iff in Hpl. }
    induction l as [|a|a b|a b c t IH] using triple_ind; [reflexivity| | |];
      cbn [b64_encode];
      pose proof (bN_lt a); try pose proof (bN_lt b); try pose proof (bN_lt c).
    - cbn [List.filter]. rewrite !Hf by lia. destruct padded; reflexivity.
    - cbn [List.filter]. rewrite !Hf by lia. destruct padded; reflexivity.
    - cbn [List.filter]. rewrite !Hf by lia. now rewrite IH.
  Qed.

  Lemma b64_roundtrip l : b64_dec ux padded (b64_encode sx padded l) = Some l.
  Proof.
    assert (Hp : forall n, n < 64 -> byte_eqb (sx n) pad_char = false).
    { intros n Hn. specialize (Hpl n Hn). apply Bool.andb_true_iff in Hpl as [_ H].
      now apply Bool.negb_true_iff in H. }
    induction l as [|a|a b|a b c t IH] using triple_ind; [reflexivity| | |];
      cbn [b64_encode];
      pose proof (bN_lt a); try pose proof (bN_lt b); try pose proof (bN_lt c).
    - assert (G : dec2 ux (sx (bN a * 65536 / 262144)) (sx (bN a * 65536 / 4096 mod 64)) = Some [a]).
      { unfold dec2. rewrite !Hux by lia. do 2 f_equal. apply bN_inj. rewrite bN_Nb; lia. }
      destruct padded.
      + cbn [b64_dec andb]. rewrite byte_eqb_refl. cbn [andb]. exact G.
      + exact G.
    - assert (G : dec3 ux (sx ((bN a * 65536 + bN b * 256) / 262144))
                    (sx ((bN a * 65536 + bN b * 256) / 4096 mod 64))
                    (sx ((bN a * 65536 + bN b * 256) / 64 mod 64)) = Some [a; b]).
      { unfold dec3. rewrite !Hux by lia. f_equal. f_equal; [|f_equal]; apply bN_inj.
        - rewrite bN_Nb; lia.
        - rewrite bN_Nb_mod; lia. }
      destruct padded.
      + cbn [b64_dec andb]. rewrite byte_eqb_refl. rewrite Hp by lia. exact G.
      + exact G.
    - cbn [b64_dec]. rewrite Hp by lia. rewrite Bool.andb_false_r, IH.
      unfold dec4. rewrite !Hux by lia. cbn [app]. f_equal.
      f_equal; [|f_equal; [|f_equal]]; apply bN_inj.
      + rewrite bN_Nb; lia.
      + rewrite bN_Nb_mod; lia.
      + rewrite bN_Nb_mod; lia.
  Qed.
End RT.

Lemma b64std_roundtrip l : b64std_decode (b64std_encode l) = Some l.
Proof.
  unfold b64std_decode, b64std_encode. rewrite b64_no_crlf by apply sx_std_plain.
  apply b64_roundtrip; [apply ux_std|apply sx_std_plain].
Qed.
Lemma b64url_roundtrip l : b64url_decode (b64url_encode l) = Some l.
Proof.
  unfold b64url_decode, b64url_encode. rewrite b64_no_crlf by apply sx_url_plain.
  apply b64_roundtrip; [apply ux_url|apply sx_url_plain].
Qed.
Lemma b64std_inj a b : b64std_encode a = b64std_encode b -> a = b.
Proof. intros H. pose proof (b64std_roundtrip a) as R. rewrite H, b64std_roundtrip in R. congruence. Qed.
Lemma b64url_inj a b : b64url_encode a = b64url_encode b -> a = b.
Proof. intros H. pose proof (b64url_roundtrip a) as R. rewrite H, b64url_roundtrip in R. congruence. Qed.

Lemma b64std_length l : blen (b64std_encode l) = 4 * ((blen l + 2) / 3).
Proof.
  unfold b64std_encode, blen. induction l as [|a|a b|a b c t IH] using triple_ind; try reflexivity.
  cbn [b64_encode length]. lia.
Qed.
Lemma b64url_length l : blen (b64url_encode l) = (4 * blen l + 2) / 3.
Proof.
  unfold b64url_encode, blen. induction l as [|a|a b|a b c t IH] using triple_ind; try reflexivity.
  cbn [b64_encode length]. lia.
Qed.

(** The alphabet of encoded text: printable ASCII without quotes, backslash, <, > or &. *)
Definition b64_char (b : byte) : bool :=
  let c := bN b in
  ((65 <=? c) && (c <=? 90)) || ((97 <=? c) && (c <=? 122)) || ((48 <=? c) && (c <=? 57))
  || (c =? 43) || (c =? 47) || (c =? 45) || (c =? 95) || (c =? 61).
Lemma b64_chars sx padded l :
  (forall n, n < 64 -> b64_char (sx n) = true) -> forallb b64_char (b64_encode sx padded l) = true.
Proof.
  intros Hs. induction l as [|a|a b|a b c t IH] using triple_ind; [reflexivity| | |];
    cbn [b64_encode forallb]; pose proof (bN_lt a); try pose proof (bN_lt b); try pose proof (bN_lt c);
    rewrite !Hs by lia.
  - destruct padded; reflexivity.
  - destruct padded; reflexivity.
  - exact IH.
Qed.
Lemma b64std_chars l : forallb b64_char (b64std_encode l) = true.
Proof. apply b64_chars. apply sx_forall. vm_compute. reflexivity. Qed.
Lemma b64url_chars l : forallb b64_char (b64url_encode l) = true.
Proof. apply b64_chars. apply sx_forall. vm_compute. reflexivity. Qed.
