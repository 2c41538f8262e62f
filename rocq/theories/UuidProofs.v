(** UUID text round trip, hex injectivity. *)
From Coq Require Import ZifyN ZifyNat.
From Verif Require Import Bytes Json JsonProofs Uuid.
Local Open Scope bool_scope.
Local Open Scope N_scope.

Lemma unhex_hexdigit n : n < 16 -> unhexdigit (hexdigit n) = Some n.
Proof.
  intros H. assert (G : forallb (fun n => match unhexdigit (hexdigit n) with Some m => m =? n | None => false end)
    (map N.of_nat (seq 0 16)) = true) by reflexivity.
  rewrite forallb_forall in G. specialize (G n).
  rewrite in_map_iff in G. destruct (unhexdigit (hexdigit n)) as [m|].
  - f_equal. apply N.eqb_eq, G. exists (N.to_nat n). rewrite in_seq. lia.
  - discriminate G. exists (N.to_nat n). rewrite in_seq. lia.
Qed.

Lemma hex_decode_encode l : hex_decode (hex_encode l) = Some l.
Proof.
  induction l as [|b l IH]; [reflexivity|]. cbn [hex_encode hex_decode].
  pose proof (bN_lt b).
  rewrite !unhex_hexdigit by (try apply N.mod_lt; try apply N.div_lt_upper_bound; lia).
  rewrite IH. do 2 f_equal. rewrite N.mul_comm, <- N.div_mod by discriminate. apply Nb_bN.
Qed.
Lemma hex_encode_inj a b : hex_encode a = hex_encode b -> a = b.
Proof. intros H. pose proof (hex_decode_encode a) as E. rewrite H, hex_decode_encode in E. congruence. Qed.
Lemma hex_encode_length l : length (hex_encode l) = (2 * length l)%nat.
Proof. induction l; cbn [hex_encode length]; lia. Qed.

(** Lower-case hexadecimal digits and dashes. *)
Definition hex_char (b : byte) : bool := inr 48 57 b || inr 97 102 b.
Definition uuid_char (b : byte) : bool := hex_char b || byte_eqb b x2d.
Lemma hexdigit_char n : n < 16 -> hex_char (hexdigit n) = true.
Proof.
  intros H. assert (G : forallb (fun n => hex_char (hexdigit n)) (map N.of_nat (seq 0 16)) = true) by reflexivity.
  rewrite forallb_forall in G. apply G. apply in_map_iff. exists (N.to_nat n). rewrite in_seq. lia.
Qed.
Lemma hex_encode_chars l : forallb hex_char (hex_encode l) = true.
Proof.
  induction l as [|b l IH]; [reflexivity|]. cbn [hex_encode forallb]. pose proof (bN_lt b).
  rewrite !hexdigit_char by (try apply N.mod_lt; try apply N.div_lt_upper_bound; lia). exact IH.
Qed.

Lemma uuid_parse_text u : uuid_wf u -> uuid_parse (uuid_text u) = Some u.
Proof.
  unfold uuid_wf. intros H.
  do 16 (destruct u as [|? u]; [discriminate H|]). destruct u; [|discriminate H].
  unfold uuid_parse, uuid_text. change (str "-") with [x2d]. cbn [firstn skipn hex_encode app length Nat.eqb orb].
  unfold uuid_plain. cbn [length Nat.eqb].
  match goal with |- (if ?c then _ else _) = _ => replace c with true by reflexivity end.
  match goal with |- hex_decode ?x = Some ?y => change x with (hex_encode y) end.
  apply hex_decode_encode.
Qed.
Lemma uuid_text_inj u v : uuid_wf u -> uuid_wf v -> uuid_text u = uuid_text v -> u = v.
Proof. intros Hu Hv H. pose proof (uuid_parse_text u Hu) as E. rewrite H, uuid_parse_text in E by assumption. congruence. Qed.
Lemma uuid_text_length u : uuid_wf u -> length (uuid_text u) = 36%nat.
Proof.
  unfold uuid_wf. intros H. unfold uuid_text. rewrite !app_length, !hex_encode_length, !firstn_length, !skipn_length.
  change (length (str "-")) with 1%nat. lia.
Qed.
Lemma uuid_text_chars u : forallb uuid_char (uuid_text u) = true.
Proof.
  assert (G : forall l, forallb uuid_char (hex_encode l) = true).
  { intros l. pose proof (hex_encode_chars l) as H. rewrite forallb_forall in *. intros b Hb.
    unfold uuid_char. now rewrite H. }
  unfold uuid_text. rewrite !forallb_app, !G. reflexivity.
Qed.
Lemma uuid_text_valid u : valid_utf8 (uuid_text u) = true.
Proof.
  apply ascii_valid. pose proof (uuid_text_chars u) as H. rewrite forallb_forall in *. intros b Hb.
  specialize (H b Hb). clear - H. destruct b; vm_compute in H; try discriminate H; reflexivity.
Qed.
Lemma uuid_text_sanitize u : sanitize (uuid_text u) = uuid_text u.
Proof. apply sanitize_valid, uuid_text_valid. Qed.
Lemma uuid_v4_wf r : length r = 16%nat -> uuid_wf (uuid_v4 r).
Proof.
  unfold uuid_wf, uuid_v4. intros H. rewrite !app_length, !firstn_length, !skipn_length. cbn [length]. lia.
Qed.
