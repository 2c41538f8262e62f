(** KMAC framing: injectivity, and agreement with SP 800-185. *)
From Coq Require Import ZifyN ZifyNat.
From Verif Require Import Bytes Go Kmac KmacSpec.
Local Open Scope bool_scope.
Local Open Scope N_scope.
Ltac Zify.zify_post_hook ::= Z.to_euclidean_division_equations.

Lemma pow256_S n : 256 ^ N.of_nat (S n) = 256 * 256 ^ N.of_nat n.
Proof. rewrite Nat2N.inj_succ, N.pow_succ_r'. reflexivity. Qed.
Lemma pow256_pos n : 0 < 256 ^ N.of_nat n.
Proof. apply N.neq_0_lt_0, N.pow_nonzero. discriminate. Qed.
Lemma N_to_be_S k n : N_to_be (S k) n = Nb (n / 256 ^ N.of_nat k) :: N_to_be k n.
Proof.
  revert n. induction k as [|k IH]; intros n.
  - cbn. now rewrite N.div_1_r.
  - change (N_to_be (S (S k)) n) with (N_to_be (S k) (n / 256) ++ [Nb n]). rewrite IH. cbn [app].
    change (N_to_be (S k) n) with (N_to_be k (n / 256) ++ [Nb n]).
    rewrite N.div_div, <- pow256_S by (try discriminate; apply N.neq_0_lt_0, pow256_pos). reflexivity.
Qed.
Lemma byte_div_zero k n : n < 256 ^ N.of_nat (S k) -> Nb (n / 256 ^ N.of_nat k) = x00 <-> n < 256 ^ N.of_nat k.
Proof.
  intros H. rewrite pow256_S in H. pose proof (pow256_pos k) as P.
  assert (B : n / 256 ^ N.of_nat k < 256) by (apply N.div_lt_upper_bound; lia).
  split.
  - intros E. apply (f_equal bN) in E. rewrite bN_Nb in E by assumption. change (bN x00) with 0 in E.
    apply N.div_small_iff in E; lia.
  - intros L. rewrite N.div_small by assumption. reflexivity.
Qed.

Lemma least_unique x n m : least_bytes x n -> least_bytes x m -> n = m.
Proof. intros (A & B & C) (A' & B' & C'). specialize (C m A' B'). specialize (C' n A B). lia. Qed.

Lemma trim_least k : forall x, x < 256 ^ N.of_nat (S k) ->
  exists n, least_bytes x n /\ (n <= S k)%nat /\ trim_zeros k (N_to_be (S k) x) = N_to_be n x.
Proof.
  induction k as [|k IH]; intros x Hx.
  - exists 1%nat. unfold least_bytes. repeat split; auto; lia.
  - rewrite N_to_be_S. cbn [trim_zeros].
    destruct (byte_eqb (Nb (x / 256 ^ N.of_nat (S k))) x00) eqn:E.
    + apply byte_eqb_eq, byte_div_zero in E; [|assumption].
      destruct (IH x E) as (n & L & Hn & T). exists n. split; [exact L|]. split; [lia|exact T].
    + exists (S (S k)). rewrite <- N_to_be_S. split; [|split; [lia|reflexivity]]. split; [lia|]. split; [exact Hx|].
      intros m Hm Hxm. destruct (le_lt_dec (S (S k)) m) as [|Hlt]; [assumption|exfalso].
      assert (x < 256 ^ N.of_nat (S k)).
      { eapply N.lt_le_trans; [exact Hxm|]. apply N.pow_le_mono_r; [discriminate|lia]. }
      apply (byte_div_zero (S k)) in H; [|assumption]. rewrite H in E. discriminate.
Qed.

Lemma trim8 x : x < 2 ^ 64 -> exists n, least_bytes x n /\ (n <= 8)%nat /\ trim_zeros 7 (N_to_be 8 x) = N_to_be n x.
Proof. intros H. apply (trim_least 7). exact H. Qed.

Lemma leftEncode_ok x : x < 2 ^ 64 -> left_encode x (leftEncode x).
Proof.
  intros H. destruct (trim8 x H) as (n & L & _ & E). exists n. split; [exact L|].
  unfold leftEncode. rewrite E. unfold blen. now rewrite N_to_be_length.
Qed.
Lemma rightEncode_ok x : x < 2 ^ 64 -> right_encode x (rightEncode x).
Proof.
  intros H. destruct (trim8 x H) as (n & L & _ & E). exists n. split; [exact L|].
  unfold rightEncode. rewrite E. unfold blen. now rewrite N_to_be_length.
Qed.
Lemma left_encode_unique x o o' : left_encode x o -> left_encode x o' -> o = o'.
Proof. intros (n & L & ->) (m & L' & ->). now rewrite (least_unique _ _ _ L L'). Qed.
Lemma right_encode_unique x o o' : right_encode x o -> right_encode x o' -> o = o'.
Proof. intros (n & L & ->) (m & L' & ->). now rewrite (least_unique _ _ _ L L'). Qed.

(** Prefix- and suffix-freeness. *)
Lemma Nb_small_inj a b : a < 256 -> b < 256 -> Nb a = Nb b -> a = b.
Proof. intros A B E. apply (f_equal bN) in E. rewrite !bN_Nb in E by assumption. exact E. Qed.
Lemma N_to_be_inj n a b : a < 256 ^ N.of_nat n -> b < 256 ^ N.of_nat n -> N_to_be n a = N_to_be n b -> a = b.
Proof.
  intros A B E. apply (f_equal be_to_N) in E. rewrite !be_to_N_to_be, !N.mod_small in E by assumption. exact E.
Qed.
Lemma leftEncode_prefix x y r r' : x < 2 ^ 64 -> y < 2 ^ 64 ->
  leftEncode x ++ r = leftEncode y ++ r' -> x = y /\ r = r'.
Proof.
  intros Hx Hy E. destruct (trim8 x Hx) as (n & (Ln & Bn & _) & Hn & En). destruct (trim8 y Hy) as (m & (Lm & Bm & _) & Hm & Em).
  unfold leftEncode in E. rewrite En, Em in E. unfold blen in E. rewrite !N_to_be_length in E. cbn [app] in E.
  injection E as E1 E2. apply Nb_small_inj in E1; [|lia..]. assert (n = m) by lia. subst m.
  apply app_eq_len in E2 as [E2 ->]; [|now rewrite !N_to_be_length].
  apply N_to_be_inj in E2; auto.
Qed.
Lemma leftEncode_inj x y : x < 2 ^ 64 -> y < 2 ^ 64 -> leftEncode x = leftEncode y -> x = y.
Proof. intros Hx Hy E. apply (leftEncode_prefix x y [] []); auto. now rewrite !app_nil_r. Qed.
Lemma rightEncode_suffix x y r r' : x < 2 ^ 64 -> y < 2 ^ 64 ->
  r ++ rightEncode x = r' ++ rightEncode y -> x = y /\ r = r'.
Proof.
  intros Hx Hy E. destruct (trim8 x Hx) as (n & (Ln & Bn & _) & Hn & En). destruct (trim8 y Hy) as (m & (Lm & Bm & _) & Hm & Em).
  unfold rightEncode in E. rewrite En, Em in E. unfold blen in E. rewrite !N_to_be_length in E.
  rewrite !app_assoc in E. apply app_inj_tail in E as [E E1].
  apply Nb_small_inj in E1; [|lia..]. assert (n = m) by lia. subst m.
  assert (length r = length r') by (apply (f_equal (@length byte)) in E; rewrite !app_length, !N_to_be_length in E; lia).
  apply app_eq_len in E as [-> E]; [|assumption]. apply N_to_be_inj in E; auto.
Qed.

(** [bytepad X w] determines [X] when [X] is a concatenation of self-delimiting strings. *)
Lemma encode_string_prefix s t r r' : 8 * blen s < 2 ^ 64 -> 8 * blen t < 2 ^ 64 ->
  encode_string s ++ r = encode_string t ++ r' -> s = t /\ r = r'.
Proof.
  intros Hs Ht E. unfold encode_string in E. rewrite <- !app_assoc in E.
  apply leftEncode_prefix in E as [E1 E]; auto.
  apply app_eq_len in E; auto. unfold blen in E1. lia.
Qed.
Lemma bytepad_encoded s t w r r' : 8 * blen s < 2 ^ 64 -> 8 * blen t < 2 ^ 64 ->
  bytepad (encode_string s) w ++ r = bytepad (encode_string t) w ++ r' -> s = t /\ r = r'.
Proof.
  intros Hs Ht E. unfold bytepad in E. rewrite <- !app_assoc in E.
  apply app_inv_head in E.
  assert (s = t) as ->. { apply encode_string_prefix in E as [-> _]; auto. }
  split; [reflexivity|]. rewrite !app_assoc in E. now apply app_inv_head in E.
Qed.
Lemma cshake_prefix_free s t w r r' : 8 * blen s < 2 ^ 64 -> 8 * blen t < 2 ^ 64 ->
  cshake_prefix s w ++ r = cshake_prefix t w ++ r' -> s = t /\ r = r'.
Proof.
  intros Hs Ht E. unfold cshake_prefix, bytepad in E. rewrite <- !app_assoc in E.
  do 2 apply app_inv_head in E.
  assert (s = t) as ->. { apply encode_string_prefix in E as [-> _]; auto. }
  split; [reflexivity|]. rewrite !app_assoc in E. now apply app_inv_head in E.
Qed.

Definition short (s : bytes) : Prop := 8 * blen s < 2 ^ 64.
Lemma kmac_input_inj rate key tl S msg key' tl' S' msg' :
  short key -> short key' -> short S -> short S' -> 8 * N.of_nat tl < 2 ^ 64 -> 8 * N.of_nat tl' < 2 ^ 64 ->
  kmac_input rate key tl S msg = kmac_input rate key' tl' S' msg' ->
  key = key' /\ tl = tl' /\ S = S' /\ msg = msg'.
Proof.
  unfold short, kmac_input. intros K K' A A' L L' E.
  apply cshake_prefix_free in E as [-> E]; auto.
  apply (bytepad_encoded key key') in E as [-> E]; auto.
  apply rightEncode_suffix in E as [E ->]; auto. split; [reflexivity|]. split; [lia|auto].
Qed.

(** bytepad against the standard. *)
Lemma leftEncode_length x : x < 2 ^ 64 -> (2 <= length (leftEncode x) <= 9)%nat.
Proof.
  intros H. destruct (trim8 x H) as (n & (L & _) & Hn & E). unfold leftEncode. rewrite E. cbn [length].
  rewrite N_to_be_length. lia.
Qed.
Lemma bytepad_standard x w : (0 < w)%nat -> N.of_nat w < 2 ^ 64 ->
  ((length (leftEncode (N.of_nat w)) + length x) mod w <> 0)%nat -> pads x w (bytepad x w).
Proof.
  intros Hw Hw2 H. unfold bytepad. rewrite app_length in *.
  set (n := (length (leftEncode (N.of_nat w)) + length x)%nat) in *.
  exists (leftEncode (N.of_nat w)), (w - n mod w)%nat. split; [now apply leftEncode_ok|].
  split; [now rewrite app_assoc|]. split; [|lia].
  rewrite !app_length, zeros_length. fold n.
  pose proof (Nat.mod_upper_bound n w ltac:(lia)). pose proof (Nat.div_mod_eq n w).
  assert (E : (n + (w - n mod w) = (n / w + 1) * w)%nat) by nia. rewrite E.
  apply Nat.mod_mul. lia.
Qed.
Lemma bytepad_extra x w : (0 < w)%nat -> N.of_nat w < 2 ^ 64 ->
  ((length (leftEncode (N.of_nat w)) + length x) mod w = 0)%nat ->
  exists out, pads x w out /\ bytepad x w = out ++ zeros w.
Proof.
  intros Hw Hw2 H. exists (leftEncode (N.of_nat w) ++ x). split.
  - exists (leftEncode (N.of_nat w)), 0%nat. split; [now apply leftEncode_ok|].
    split; [cbn; now rewrite app_nil_r|]. split; [now rewrite app_length|lia].
  - unfold bytepad. rewrite app_length, H, Nat.sub_0_r. reflexivity.
Qed.
Lemma pads_unique x w o o' : pads x w o -> pads x w o' -> o = o'.
Proof.
  intros (l & k & L & -> & M & K) (l' & k' & L' & -> & M' & K'). rewrite (left_encode_unique _ _ _ L L') in *.
  rewrite !app_length, !zeros_length in M, M'. do 2 f_equal.
  set (n := (length l' + length x)%nat) in *.
  replace (length l' + (length x + k))%nat with (n + k)%nat in M by lia.
  replace (length l' + (length x + k'))%nat with (n + k')%nat in M' by lia.
  apply Nat.mod_divides in M as [q M], M' as [q' M']; try lia. f_equal.
  assert (q = q') as ->; [|lia].
  destruct (Nat.lt_trichotomy q q') as [H|[H|H]]; [exfalso|exact H|exfalso].
  - pose proof (Nat.mul_le_mono_l (q + 1) q' w ltac:(lia)). lia.
  - pose proof (Nat.mul_le_mono_l (q' + 1) q w ltac:(lia)). lia.
Qed.

Lemma encode_string_ok s : short s -> encodes_string s (encode_string s).
Proof. intros H. exists (leftEncode (8 * blen s)). split; [now apply leftEncode_ok|reflexivity]. Qed.
(** KMAC as the library uses it: short customization strings and 32-byte keys. *)
Lemma leftEncode_rate rate : rate = 136%nat \/ rate = 168%nat -> length (leftEncode (N.of_nat rate)) = 2%nat.
Proof. intros [-> | ->]; reflexivity. Qed.
Lemma leftEncode_small x : x < 65536 -> (length (leftEncode x) <= 3)%nat.
Proof.
  intros H. destruct (trim8 x) as (n & (_ & _ & L) & _ & E); [eapply N.lt_trans; [exact H|reflexivity]|].
  specialize (L 2%nat ltac:(lia) H). unfold leftEncode. rewrite E. cbn [length]. rewrite N_to_be_length. lia.
Qed.
Lemma kmac_input_standard rate key tl S msg : rate = 136%nat \/ rate = 168%nat ->
  short key -> short S -> 8 * N.of_nat tl < 2 ^ 64 ->
  ((8 + length (encode_string S)) mod rate <> 0)%nat ->
  ((2 + length (encode_string key)) mod rate <> 0)%nat ->
  kmac_string rate key tl S msg (kmac_input rate key tl S msg).
Proof.
  intros Hr K A L M1 M2. pose proof (leftEncode_rate rate Hr) as HL.
  exists (encode_string (str "KMAC")), (encode_string S), (encode_string key),
    (cshake_prefix S rate), (bytepad (encode_string key) rate), (rightEncode (8 * N.of_nat tl)).
  split; [now apply encode_string_ok|]. split; [now apply encode_string_ok|]. split; [now apply encode_string_ok|].
  split.
  { unfold cshake_prefix. apply bytepad_standard; [lia|lia|]. rewrite HL, app_length.
    change (length (encode_string (str "KMAC"))) with 6%nat. exact M1. }
  split.
  { apply bytepad_standard; [lia|lia|]. now rewrite HL. }
  split; [now apply rightEncode_ok|]. reflexivity.
Qed.
Lemma kmac_input_standard_short rate key tl S msg : rate = 136%nat \/ rate = 168%nat ->
  (length key <= 128)%nat -> (length S <= 120)%nat -> 8 * N.of_nat tl < 2 ^ 64 ->
  kmac_string rate key tl S msg (kmac_input rate key tl S msg).
Proof.
  intros Hr K A L.
  assert (SK : short key) by (unfold short, blen; lia). assert (SA : short S) by (unfold short, blen; lia).
  pose proof (leftEncode_small (8 * blen key)) as LK. pose proof (leftEncode_small (8 * blen S)) as LS.
  pose proof (leftEncode_length (8 * blen key) SK) as LK'. pose proof (leftEncode_length (8 * blen S) SA) as LS'.
  unfold blen in LK, LS, LK', LS'.
  apply kmac_input_standard; auto; unfold encode_string; rewrite app_length; unfold blen;
    (rewrite Nat.mod_small; lia).
Qed.
