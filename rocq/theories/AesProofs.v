(** AES is a permutation of 16-byte blocks for every key: decryption inverts encryption
    and encryption inverts decryption. *)
From Coq Require Import Btauto.
From Verif Require Import Bytes Aes.
Local Open Scope N_scope.

Lemma inv_sbox_sbox b : inv_sbox (sbox b) = b.
Proof. destruct b; reflexivity. Qed.
Lemma sbox_inv_sbox b : sbox (inv_sbox b) = b.
Proof. destruct b; reflexivity. Qed.

Lemma xtime_spec b : bN (xtime b) =
  N.lxor (N.land (2 * bN b) 255) (if N.testbit (bN b) 7 then 27 else 0).
Proof. destruct b; vm_compute; reflexivity. Qed.

Lemma xtime_bxor a b : xtime (bxor a b) = bxor (xtime a) (xtime b).
Proof.
  apply bN_inj. rewrite bN_bxor, !xtime_spec, bN_bxor.
  rewrite N.lxor_spec.
  apply N.bits_inj; intros n.
  rewrite !N.lxor_spec, !N.land_spec.
  assert (Hd : forall x, 2 * x = N.shiftl x 1) by (intros; rewrite N.shiftl_mul_pow2; lia).
  rewrite !Hd.
  assert (Hx : forall x y, N.testbit (N.shiftl (N.lxor x y) 1) n =
    xorb (N.testbit (N.shiftl x 1) n) (N.testbit (N.shiftl y 1) n)).
  { intros. rewrite N.shiftl_lxor. apply N.lxor_spec. }
  rewrite Hx.
  destruct (N.testbit (bN a) 7), (N.testbit (bN b) 7); cbn [xorb];
  destruct (N.testbit (N.shiftl (bN a) 1) n), (N.testbit (N.shiftl (bN b) 1) n),
    (N.testbit 255 n), (N.testbit 27 n); rewrite ?N.bits_0; reflexivity.
Qed.


Lemma bxor_0_r a : bxor a x00 = a.
Proof. destruct a; reflexivity. Qed.
Lemma bxor_0_l a : bxor x00 a = a.
Proof. destruct a; reflexivity. Qed.

Ltac bits := apply bN_inj; rewrite !bN_bxor; apply N.bits_inj; intros ?n;
  rewrite !N.lxor_spec; btauto.

Lemma comb4 a1 x1 a2 x2 a3 x3 a4 x4 :
  bxor (bxor a1 x1) (bxor (bxor a2 x2) (bxor (bxor a3 x3) (bxor a4 x4))) =
  bxor (bxor a1 (bxor a2 (bxor a3 a4))) (bxor x1 (bxor x2 (bxor x3 x4))).
Proof. bits. Qed.
Lemma regroup a1 b1 c1 d1 a2 b2 c2 d2 a3 b3 c3 d3 a4 b4 c4 d4 :
  bxor (bxor a1 (bxor b1 (bxor c1 d1)))
   (bxor (bxor a2 (bxor b2 (bxor c2 d2)))
     (bxor (bxor a3 (bxor b3 (bxor c3 d3)))
           (bxor a4 (bxor b4 (bxor c4 d4))))) =
  bxor (bxor a1 (bxor a2 (bxor a3 a4)))
   (bxor (bxor b1 (bxor b2 (bxor b3 b4)))
     (bxor (bxor c1 (bxor c2 (bxor c3 c4)))
           (bxor d1 (bxor d2 (bxor d3 d4))))).
Proof.
  rewrite (comb4 a1 _ a2 _ a3 _ a4 _), (comb4 b1 _ b2 _ b3 _ b4 _), (comb4 c1 _ c2 _ c3 _ c4 _).
  reflexivity.
Qed.

Lemma g2_bxor a b : g2 (bxor a b) = bxor (g2 a) (g2 b).
Proof. apply xtime_bxor. Qed.
Lemma g3_bxor a b : g3 (bxor a b) = bxor (g3 a) (g3 b).
Proof. unfold g3. rewrite xtime_bxor. bits. Qed.
Lemma g9_bxor a b : g9 (bxor a b) = bxor (g9 a) (g9 b).
Proof. unfold g9. rewrite !xtime_bxor. bits. Qed.
Lemma g11_bxor a b : g11 (bxor a b) = bxor (g11 a) (g11 b).
Proof. unfold g11. rewrite !xtime_bxor. bits. Qed.
Lemma g13_bxor a b : g13 (bxor a b) = bxor (g13 a) (g13 b).
Proof. unfold g13. rewrite !xtime_bxor. bits. Qed.
Lemma g14_bxor a b : g14 (bxor a b) = bxor (g14 a) (g14 b).
Proof. unfold g14. rewrite !xtime_bxor. bits. Qed.

Lemma four_l x y z w a : x = a -> y = x00 -> z = x00 -> w = x00 -> bxor x (bxor y (bxor z w)) = a.
Proof. intros -> -> -> ->. now rewrite !bxor_0_r. Qed.
Lemma four_2 x y z w a : x = x00 -> y = a -> z = x00 -> w = x00 -> bxor x (bxor y (bxor z w)) = a.
Proof. intros -> -> -> ->. now rewrite bxor_0_l, !bxor_0_r. Qed.
Lemma four_3 x y z w a : x = x00 -> y = x00 -> z = a -> w = x00 -> bxor x (bxor y (bxor z w)) = a.
Proof. intros -> -> -> ->. now rewrite !bxor_0_l, !bxor_0_r. Qed.
Lemma four_4 x y z w a : x = x00 -> y = x00 -> z = x00 -> w = a -> bxor x (bxor y (bxor z w)) = a.
Proof. intros -> -> -> ->. now rewrite !bxor_0_l. Qed.

Lemma lin4 (g : byte -> byte) (H : forall a b, g (bxor a b) = bxor (g a) (g b)) a b c d :
  g (bxor a (bxor b (bxor c d))) = bxor (g a) (bxor (g b) (bxor (g c) (g d))).
Proof. now rewrite !H. Qed.

(** One row of a product of two 4x4 matrices of linear maps. *)
Lemma row_prod (p q r s p1 p2 p3 p4 q1 q2 q3 q4 r1 r2 r3 r4 s1 s2 s3 s4 : byte -> byte) a b c d :
  (forall a b, p (bxor a b) = bxor (p a) (p b)) -> (forall a b, q (bxor a b) = bxor (q a) (q b)) ->
  (forall a b, r (bxor a b) = bxor (r a) (r b)) -> (forall a b, s (bxor a b) = bxor (s a) (s b)) ->
  bxor (p (bxor (p1 a) (bxor (p2 b) (bxor (p3 c) (p4 d)))))
   (bxor (q (bxor (q1 a) (bxor (q2 b) (bxor (q3 c) (q4 d)))))
    (bxor (r (bxor (r1 a) (bxor (r2 b) (bxor (r3 c) (r4 d)))))
          (s (bxor (s1 a) (bxor (s2 b) (bxor (s3 c) (s4 d))))))) =
  bxor (bxor (p (p1 a)) (bxor (q (q1 a)) (bxor (r (r1 a)) (s (s1 a)))))
   (bxor (bxor (p (p2 b)) (bxor (q (q2 b)) (bxor (r (r2 b)) (s (s2 b)))))
    (bxor (bxor (p (p3 c)) (bxor (q (q3 c)) (bxor (r (r3 c)) (s (s3 c)))))
          (bxor (p (p4 d)) (bxor (q (q4 d)) (bxor (r (r4 d)) (s (s4 d))))))).
Proof.
  intros Hp Hq Hr Hs.
  rewrite (lin4 p Hp), (lin4 q Hq), (lin4 r Hr), (lin4 s Hs).
  apply regroup.
Qed.

Definition gid (b : byte) := b.
Lemma gid_bxor a b : gid (bxor a b) = bxor (gid a) (gid b).
Proof. reflexivity. Qed.

Lemma inv_mix_mix k : inv_mix_col (mix_col k) = k.
Proof.
  destruct k as [a b c d]. unfold mix_col, inv_mix_col. f_equal.
  - transitivity (bxor (bxor (g14 (g2 a)) (bxor (g11 (gid a)) (bxor (g13 (gid a)) (g9 (g3 a)))))
     (bxor (bxor (g14 (g3 b)) (bxor (g11 (g2 b)) (bxor (g13 (gid b)) (g9 (gid b)))))
     (bxor (bxor (g14 (gid c)) (bxor (g11 (g3 c)) (bxor (g13 (g2 c)) (g9 (gid c)))))
           (bxor (g14 (gid d)) (bxor (g11 (gid d)) (bxor (g13 (g3 d)) (g9 (g2 d)))))))).
    + apply (row_prod g14 g11 g13 g9
        g2 g3 gid gid gid g2 g3 gid gid gid g2 g3 g3 gid gid g2 a b c d (g14_bxor) (g11_bxor) (g13_bxor) (g9_bxor)).
    + apply four_l; [sweep a|sweep b|sweep c|sweep d].
  - transitivity (bxor (bxor (g9 (g2 a)) (bxor (g14 (gid a)) (bxor (g11 (gid a)) (g13 (g3 a)))))
     (bxor (bxor (g9 (g3 b)) (bxor (g14 (g2 b)) (bxor (g11 (gid b)) (g13 (gid b)))))
     (bxor (bxor (g9 (gid c)) (bxor (g14 (g3 c)) (bxor (g11 (g2 c)) (g13 (gid c)))))
           (bxor (g9 (gid d)) (bxor (g14 (gid d)) (bxor (g11 (g3 d)) (g13 (g2 d)))))))).
    + apply (row_prod g9 g14 g11 g13
        g2 g3 gid gid gid g2 g3 gid gid gid g2 g3 g3 gid gid g2 a b c d (g9_bxor) (g14_bxor) (g11_bxor) (g13_bxor)).
    + apply four_2; [sweep a|sweep b|sweep c|sweep d].
  - transitivity (bxor (bxor (g13 (g2 a)) (bxor (g9 (gid a)) (bxor (g14 (gid a)) (g11 (g3 a)))))
     (bxor (bxor (g13 (g3 b)) (bxor (g9 (g2 b)) (bxor (g14 (gid b)) (g11 (gid b)))))
     (bxor (bxor (g13 (gid c)) (bxor (g9 (g3 c)) (bxor (g14 (g2 c)) (g11 (gid c)))))
           (bxor (g13 (gid d)) (bxor (g9 (gid d)) (bxor (g14 (g3 d)) (g11 (g2 d)))))))).
    + apply (row_prod g13 g9 g14 g11
        g2 g3 gid gid gid g2 g3 gid gid gid g2 g3 g3 gid gid g2 a b c d (g13_bxor) (g9_bxor) (g14_bxor) (g11_bxor)).
    + apply four_3; [sweep a|sweep b|sweep c|sweep d].
  - transitivity (bxor (bxor (g11 (g2 a)) (bxor (g13 (gid a)) (bxor (g9 (gid a)) (g14 (g3 a)))))
     (bxor (bxor (g11 (g3 b)) (bxor (g13 (g2 b)) (bxor (g9 (gid b)) (g14 (gid b)))))
     (bxor (bxor (g11 (gid c)) (bxor (g13 (g3 c)) (bxor (g9 (g2 c)) (g14 (gid c)))))
           (bxor (g11 (gid d)) (bxor (g13 (gid d)) (bxor (g9 (g3 d)) (g14 (g2 d)))))))).
    + apply (row_prod g11 g13 g9 g14
        g2 g3 gid gid gid g2 g3 gid gid gid g2 g3 g3 gid gid g2 a b c d (g11_bxor) (g13_bxor) (g9_bxor) (g14_bxor)).
    + apply four_4; [sweep a|sweep b|sweep c|sweep d].
Qed.

Lemma mix_inv_mix k : mix_col (inv_mix_col k) = k.
Proof.
  destruct k as [a b c d]. unfold mix_col, inv_mix_col. f_equal.
  - transitivity (bxor (bxor (g2 (g14 a)) (bxor (g3 (g9 a)) (bxor (gid (g13 a)) (gid (g11 a)))))
     (bxor (bxor (g2 (g11 b)) (bxor (g3 (g14 b)) (bxor (gid (g9 b)) (gid (g13 b)))))
     (bxor (bxor (g2 (g13 c)) (bxor (g3 (g11 c)) (bxor (gid (g14 c)) (gid (g9 c)))))
           (bxor (g2 (g9 d)) (bxor (g3 (g13 d)) (bxor (gid (g11 d)) (gid (g14 d)))))))).
    + apply (row_prod g2 g3 gid gid
        g14 g11 g13 g9 g9 g14 g11 g13 g13 g9 g14 g11 g11 g13 g9 g14 a b c d (g2_bxor) (g3_bxor) (gid_bxor) (gid_bxor)).
    + apply four_l; [sweep a|sweep b|sweep c|sweep d].
  - transitivity (bxor (bxor (gid (g14 a)) (bxor (g2 (g9 a)) (bxor (g3 (g13 a)) (gid (g11 a)))))
     (bxor (bxor (gid (g11 b)) (bxor (g2 (g14 b)) (bxor (g3 (g9 b)) (gid (g13 b)))))
     (bxor (bxor (gid (g13 c)) (bxor (g2 (g11 c)) (bxor (g3 (g14 c)) (gid (g9 c)))))
           (bxor (gid (g9 d)) (bxor (g2 (g13 d)) (bxor (g3 (g11 d)) (gid (g14 d)))))))).
    + apply (row_prod gid g2 g3 gid
        g14 g11 g13 g9 g9 g14 g11 g13 g13 g9 g14 g11 g11 g13 g9 g14 a b c d (gid_bxor) (g2_bxor) (g3_bxor) (gid_bxor)).
    + apply four_2; [sweep a|sweep b|sweep c|sweep d].
  - transitivity (bxor (bxor (gid (g14 a)) (bxor (gid (g9 a)) (bxor (g2 (g13 a)) (g3 (g11 a)))))
     (bxor (bxor (gid (g11 b)) (bxor (gid (g14 b)) (bxor (g2 (g9 b)) (g3 (g13 b)))))
     (bxor (bxor (gid (g13 c)) (bxor (gid (g11 c)) (bxor (g2 (g14 c)) (g3 (g9 c)))))
           (bxor (gid (g9 d)) (bxor (gid (g13 d)) (bxor (g2 (g11 d)) (g3 (g14 d)))))))).
    + apply (row_prod gid gid g2 g3
        g14 g11 g13 g9 g9 g14 g11 g13 g13 g9 g14 g11 g11 g13 g9 g14 a b c d (gid_bxor) (gid_bxor) (g2_bxor) (g3_bxor)).
    + apply four_3; [sweep a|sweep b|sweep c|sweep d].
  - transitivity (bxor (bxor (g3 (g14 a)) (bxor (gid (g9 a)) (bxor (gid (g13 a)) (g2 (g11 a)))))
     (bxor (bxor (g3 (g11 b)) (bxor (gid (g14 b)) (bxor (gid (g9 b)) (g2 (g13 b)))))
     (bxor (bxor (g3 (g13 c)) (bxor (gid (g11 c)) (bxor (gid (g14 c)) (g2 (g9 c)))))
           (bxor (g3 (g9 d)) (bxor (gid (g13 d)) (bxor (gid (g11 d)) (g2 (g14 d)))))))).
    + apply (row_prod g3 gid gid g2
        g14 g11 g13 g9 g9 g14 g11 g13 g13 g9 g14 g11 g11 g13 g9 g14 a b c d (g3_bxor) (gid_bxor) (gid_bxor) (g2_bxor)).
    + apply four_4; [sweep a|sweep b|sweep c|sweep d].
Qed.

Lemma map_col_inv f g k : (forall b, f (g b) = b) -> map_col f (map_col g k) = k.
Proof. intros H; destruct k; simpl; now rewrite !H. Qed.
Lemma map_st_inv f g s : (forall b, f (g b) = b) -> map_st f (map_st g s) = s.
Proof. intros H; destruct s; simpl; now rewrite !H. Qed.

Lemma inv_sub_sub s : inv_sub_bytes (sub_bytes s) = s.
Proof. apply map_st_inv; intros; apply map_col_inv, inv_sbox_sbox. Qed.
Lemma sub_inv_sub s : sub_bytes (inv_sub_bytes s) = s.
Proof. apply map_st_inv; intros; apply map_col_inv, sbox_inv_sbox. Qed.
Lemma inv_mixc_mixc s : inv_mix_columns (mix_columns s) = s.
Proof. apply map_st_inv, inv_mix_mix. Qed.
Lemma mixc_inv_mixc s : mix_columns (inv_mix_columns s) = s.
Proof. apply map_st_inv, mix_inv_mix. Qed.
Lemma inv_shift_shift s : inv_shift_rows (shift_rows s) = s.
Proof. destruct s as [[] [] [] []]; reflexivity. Qed.
Lemma shift_inv_shift s : shift_rows (inv_shift_rows s) = s.
Proof. destruct s as [[] [] [] []]; reflexivity. Qed.
Lemma ark_invol k s : add_round_key k (add_round_key k s) = s.
Proof.
  destruct s as [[] [] [] []], k as [[] [] [] []]; cbn [add_round_key xor_col].
  now rewrite !bxor_invol.
Qed.

Lemma dec_enc_rounds ks : forall s, dec_rounds ks (enc_rounds ks s) = s.
Proof.
  induction ks as [|k [|k' ks] IH]; intros s; [reflexivity| |].
  - cbn [enc_rounds dec_rounds]. now rewrite ark_invol, inv_shift_shift, inv_sub_sub.
  - cbn [enc_rounds dec_rounds] in *. rewrite IH.
    now rewrite ark_invol, inv_mixc_mixc, inv_shift_shift, inv_sub_sub.
Qed.
Lemma enc_dec_rounds ks : forall s, enc_rounds ks (dec_rounds ks s) = s.
Proof.
  induction ks as [|k [|k' ks] IH]; intros s; [reflexivity| |].
  - cbn [enc_rounds dec_rounds]. now rewrite sub_inv_sub, shift_inv_shift, ark_invol.
  - cbn [enc_rounds dec_rounds] in *.
    rewrite sub_inv_sub, shift_inv_shift, mixc_inv_mixc, ark_invol. apply IH.
Qed.

Lemma block_bytes_of l : length l = 16%nat -> block_bytes (block_of l) = l.
Proof. intros H. do 17 (destruct l as [|? l]; try discriminate). reflexivity. Qed.
Lemma block_of_bytes s : block_of (block_bytes s) = s.
Proof. destruct s as [[] [] [] []]; reflexivity. Qed.
Lemma block_bytes_length s : length (block_bytes s) = 16%nat.
Proof. destruct s as [[] [] [] []]; reflexivity. Qed.

Lemma aes_encrypt_length k b : length (aes_encrypt k b) = 16%nat.
Proof. apply block_bytes_length. Qed.
Lemma aes_decrypt_length k b : length (aes_decrypt k b) = 16%nat.
Proof. apply block_bytes_length. Qed.

Lemma aes_decrypt_encrypt k b : length b = 16%nat -> aes_decrypt k (aes_encrypt k b) = b.
Proof.
  intros H. unfold aes_decrypt, aes_encrypt. rewrite block_of_bytes.
  destruct (round_keys k) as [|r ks]; cbn [enc_state dec_state].
  - now apply block_bytes_of.
  - rewrite dec_enc_rounds, ark_invol. now apply block_bytes_of.
Qed.
Lemma aes_encrypt_decrypt k b : length b = 16%nat -> aes_encrypt k (aes_decrypt k b) = b.
Proof.
  intros H. unfold aes_decrypt, aes_encrypt. rewrite block_of_bytes.
  destruct (round_keys k) as [|r ks]; cbn [enc_state dec_state].
  - now apply block_bytes_of.
  - rewrite ark_invol, enc_dec_rounds. now apply block_bytes_of.
Qed.
