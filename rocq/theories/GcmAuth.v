(** GCM's tag is a polynomial in the hash subkey; few subkeys accept two different messages. *)
From Coq Require Import ZifyN ZifyNat.
From Verif Require Import Bytes Go Aes AesProofs Gcm GcmProofs Gf128 GcmSpec.
Local Open Scope N_scope.
Ltac Zify.zify_post_hook ::= Z.to_euclidean_division_equations.
Local Opaque gf_mul.

(** ** Big-endian numbers and exclusive or *)
Lemma shift_add a b : b < 256 -> a * 256 + b = N.shiftl a 8 ⊕ b.
Proof.
  intros Hb. rewrite N.shiftl_mul_pow2. change (2 ^ 8) with 256. apply N.add_nocarry_lxor.
  apply N.bits_inj. intros i. rewrite N.land_spec, N.bits_0.
  destruct (N.lt_ge_cases i 8) as [Hi|Hi].
  - change 256 with (2 ^ 8). rewrite N.mul_pow2_bits_low by assumption. reflexivity.
  - replace (N.testbit b i) with false; [apply Bool.andb_false_r|]. symmetry.
    destruct (N.eq_dec b 0) as [->|Hn]; [apply N.bits_0|]. apply N.bits_above_log2.
    apply N.lt_le_trans with 8; [|assumption]. apply N.log2_lt_pow2; [lia|exact Hb].
Qed.
Lemma xor_bytes_snoc a : forall b x y, length a = length b ->
  xor_bytes (a ++ [x]) (b ++ [y]) = xor_bytes a b ++ [bxor x y].
Proof.
  induction a as [|u a IH]; intros [|v b] x y H; cbn in *; try lia; [reflexivity|].
  f_equal. apply IH. lia.
Qed.
Lemma be_to_N_xor a : forall b, length a = length b -> be_to_N (xor_bytes a b) = be_to_N a ⊕ be_to_N b.
Proof.
  induction a as [|x a IH] using rev_ind; intros b H.
  - destruct b; [reflexivity|cbn in H; lia].
  - destruct b as [|y b _] using rev_ind; [rewrite app_length in H; cbn in H; lia|].
    rewrite !app_length in H. cbn in H. rewrite xor_bytes_snoc, !be_to_N_app by lia.
    rewrite IH, !shift_add, bN_bxor by (try apply bN_lt; lia).
    rewrite N.shiftl_lxor. apply lxor_swap.
Qed.
Lemma small_be l : length l = 16%nat -> small (be_to_N l).
Proof. intros H. unfold small. assert (L := be_to_N_lt l). rewrite H in L. exact L. Qed.
Lemma be_to_be16 s : small s -> be_to_N (N_to_be 16 s) = s.
Proof. intros H. rewrite be_to_N_to_be. apply N.mod_small. exact H. Qed.

Lemma app_split {A} (a : list A) : forall b c d, length a = length c -> a ++ b = c ++ d -> a = c /\ b = d.
Proof.
  induction a as [|x a IH]; intros b [|y c] d L E; cbn in *; try lia; [now split|].
  injection E as -> E. destruct (IH b c d) as [-> ->]; [lia|assumption|]. now split.
Qed.

(** ** Blocks *)
Lemma chunks_length f : forall l, (length l < f)%nat -> length (chunks16 f l) = blocks l.
Proof.
  unfold blocks. induction f as [|f IH]; intros l H; [lia|]. cbn [chunks16]. destruct l as [|b l]; [reflexivity|].
  cbn [length]. rewrite IH; [|rewrite skipn_length; cbn [length] in *; lia].
  rewrite skipn_length. cbn [length]. lia.
Qed.
Lemma chunks_16 f : forall l, Forall (fun c => length c = 16%nat) (chunks16 f l).
Proof.
  induction f as [|f IH]; intros l; [constructor|]. cbn [chunks16]. destruct l as [|b l]; [constructor|].
  constructor; [|apply IH]. rewrite app_length, zeros_length, firstn_length. lia.
Qed.
Lemma chunks_concat f : forall l, (length l < f)%nat -> firstn (length l) (concat (chunks16 f l)) = l.
Proof.
  induction f as [|f IH]; intros l H; [lia|]. cbn [chunks16]. destruct l as [|b l]; [reflexivity|].
  set (m := b :: l) in *. cbn [concat]. rewrite firstn_app, app_length, zeros_length, firstn_length.
  destruct (le_lt_dec 16 (length m)) as [Hm|Hm].
  - replace (16 - Nat.min 16 (length m))%nat with 0%nat by lia. cbn [zeros repeat]. rewrite app_nil_r.
    replace (length m - (Nat.min 16 (length m) + 0))%nat with (length (skipn 16 m)) by (rewrite skipn_length; lia).
    rewrite IH by (rewrite skipn_length; lia). rewrite (firstn_all2 (firstn 16 m)) by (rewrite firstn_length; lia).
    apply firstn_skipn.
  - rewrite (skipn_all2 m) by lia. replace (length m - _)%nat with 0%nat by lia. rewrite firstn_O, app_nil_r.
    rewrite (firstn_all2 m) by lia. apply firstn_app_exact. reflexivity.
Qed.
Lemma chunks_inj l m : length l = length m ->
  chunks16 (S (length l)) l = chunks16 (S (length m)) m -> l = m.
Proof.
  intros H E. rewrite <- (chunks_concat (S (length l)) l), <- (chunks_concat (S (length m)) m) by lia.
  now rewrite E, H.
Qed.

(** The blocks hashed for associated data and ciphertext. *)
Definition hashed (aad ct : bytes) : list bytes :=
  chunks16 (S (length aad)) aad ++ chunks16 (S (length ct)) ct ++
  [N_to_be 8 (8 * blen aad) ++ N_to_be 8 (8 * blen ct)].
Lemma hashed_16 aad ct : Forall (fun c => length c = 16%nat) (hashed aad ct).
Proof.
  unfold hashed. apply Forall_app. split; [apply chunks_16|]. apply Forall_app. split; [apply chunks_16|].
  constructor; [|constructor]. now rewrite app_length, !N_to_be_length.
Qed.
Lemma hashed_length aad ct : length (hashed aad ct) = (blocks aad + blocks ct + 1)%nat.
Proof. unfold hashed. rewrite !app_length, !chunks_length by lia. cbn. lia. Qed.
Lemma to_be8_inj a b : a < 2 ^ 61 -> b < 2 ^ 61 -> N_to_be 8 (8 * a) = N_to_be 8 (8 * b) -> a = b.
Proof.
  intros Ha Hb E. apply (f_equal be_to_N) in E. rewrite !be_to_N_to_be in E.
  change (256 ^ N.of_nat 8) with (2 ^ 64) in E.
  rewrite !N.mod_small in E by (change (2 ^ 61) with 2305843009213693952 in *; change (2 ^ 64) with 18446744073709551616; lia).
  lia.
Qed.
Lemma last_block aad ct aad' ct' :
  blen aad < 2 ^ 61 -> blen ct < 2 ^ 61 -> blen aad' < 2 ^ 61 -> blen ct' < 2 ^ 61 ->
  N_to_be 8 (8 * blen aad) ++ N_to_be 8 (8 * blen ct) = N_to_be 8 (8 * blen aad') ++ N_to_be 8 (8 * blen ct') ->
  length aad = length aad' /\ length ct = length ct'.
Proof.
  intros H1 H2 H3 H4 E.
  assert (E1 := f_equal (firstn 8) E). assert (E2 := f_equal (skipn 8) E).
  rewrite !firstn_app_exact in E1 by apply N_to_be_length. rewrite !skipn_app_exact in E2 by apply N_to_be_length.
  apply to_be8_inj in E1; [|assumption..]. apply to_be8_inj in E2; [|assumption..].
  unfold blen in *. lia.
Qed.
Lemma hashed_inj aad ct aad' ct' : length aad = length aad' -> length ct = length ct' ->
  hashed aad ct = hashed aad' ct' -> aad = aad' /\ ct = ct'.
Proof.
  intros Ha Hc E. unfold hashed in E.
  assert (La : length (chunks16 (S (length aad)) aad) = length (chunks16 (S (length aad')) aad'))
    by (rewrite !chunks_length by lia; unfold blocks; now rewrite Ha).
  assert (Lc : length (chunks16 (S (length ct)) ct) = length (chunks16 (S (length ct')) ct'))
    by (rewrite !chunks_length by lia; unfold blocks; now rewrite Hc).
  apply app_split in E; [|exact La]. destruct E as [E1 E]. apply app_split in E; [|exact Lc]. destruct E as [E2 _].
  split; now apply chunks_inj.
Qed.

(** ** GHASH as a polynomial *)
Lemma ghash_horner h bs : ghash h bs = horner h (map be_to_N bs ++ [0]).
Proof.
  rewrite horner_snoc, N.lxor_0_r. induction bs as [|b bs IH] using rev_ind.
  - symmetry. apply mul_0_l.
  - unfold ghash in *. rewrite fold_left_app. cbn [fold_left]. rewrite map_app. cbn [map].
    rewrite horner_snoc, IH. reflexivity.
Qed.
Lemma small_blocks bs : Forall (fun c => length c = 16%nat) bs -> Forall small (map be_to_N bs).
Proof. intros H. apply Forall_map. revert H. apply Forall_impl. intros c Hc. now apply small_be. Qed.
Lemma small_ghash h bs : small h -> Forall (fun c => length c = 16%nat) bs -> small (ghash h bs).
Proof.
  intros Hh H. rewrite ghash_horner. apply small_horner; [assumption|]. apply Forall_app.
  split; [now apply small_blocks|]. constructor; [exact small_0|constructor].
Qed.

(** Polynomials with the constant term first. *)
Fixpoint ev (h : N) (cs : list N) : N := match cs with [] => 0 | c :: cs' => ev h cs' ⊗ h ⊕ c end.
Lemma ev_horner h cs : horner h cs = ev h (rev cs).
Proof. induction cs as [|c cs IH] using rev_ind; [reflexivity|]. rewrite horner_snoc, rev_unit, IH. reflexivity. Qed.
Fixpoint padd (a b : list N) : list N :=
  match a, b with
  | [], _ => b
  | _, [] => a
  | x :: a', y :: b' => x ⊕ y :: padd a' b'
  end.
Lemma ev_padd h a : forall b, ev h (padd a b) = ev h a ⊕ ev h b.
Proof.
  induction a as [|x a IH]; intros [|y b]; cbn [padd ev].
  - reflexivity.
  - now rewrite N.lxor_0_l.
  - now rewrite N.lxor_0_r.
  - rewrite IH, mul_lin_l. rewrite <- lxor_swap. reflexivity.
Qed.
Lemma padd_length a : forall b, length (padd a b) = Nat.max (length a) (length b).
Proof. induction a as [|x a IH]; intros [|y b]; cbn [padd length]; rewrite ?IH; lia. Qed.
Lemma small_padd a : forall b, Forall small a -> Forall small b -> Forall small (padd a b).
Proof.
  induction a as [|x a IH]; intros [|y b] Ha Hb; cbn [padd]; auto.
  inversion Ha; inversion Hb; subst. constructor; [now apply small_lxor|auto].
Qed.
Lemma padd_zero a : forall b, length a = length b -> Forall (eq 0) (padd a b) -> a = b.
Proof.
  induction a as [|x a IH]; intros [|y b] L H; cbn in L; try lia; [reflexivity|].
  cbn [padd] in H. inversion H as [|? ? E H']; subst. f_equal; [|apply IH; [lia|assumption]].
  apply lxor_eq_0. now symmetry.
Qed.
Lemma map_be_inj l : forall m, Forall (fun c => length c = 16%nat) l -> Forall (fun c => length c = 16%nat) m ->
  map be_to_N l = map be_to_N m -> l = m.
Proof.
  induction l as [|x l IH]; intros [|y m] Hl Hm E; cbn in E; try discriminate; [reflexivity|].
  inversion Hl; inversion Hm; subst. injection E as E1 E2. f_equal; [apply be_to_N_inj; congruence|auto].
Qed.

(** The difference of two hashes, as a polynomial with constant term [d]. *)
Definition diff_poly (d : N) (b b' : list bytes) : list N :=
  d :: padd (rev (map be_to_N b)) (rev (map be_to_N b')).
Lemma diff_root d b b' h : ghash h b ⊕ ghash h b' = d -> ev h (diff_poly d b b') = 0.
Proof.
  intros E. unfold diff_poly. cbn [ev]. rewrite ev_padd, mul_lin_l.
  rewrite !ghash_horner, !horner_snoc, !N.lxor_0_r, !ev_horner in E. rewrite E. apply N.lxor_nilpotent.
Qed.
Lemma diff_nonzero d aad ct aad' ct' :
  blen aad < 2 ^ 61 -> blen ct < 2 ^ 61 -> blen aad' < 2 ^ 61 -> blen ct' < 2 ^ 61 ->
  Forall (eq 0) (diff_poly d (hashed aad ct) (hashed aad' ct')) -> d = 0 /\ aad = aad' /\ ct = ct'.
Proof.
  intros H1 H2 H3 H4 Z. unfold diff_poly in Z. inversion Z as [|? ? Ed Z']; subst. split; [reflexivity|].
  assert (Hl : length aad = length aad' /\ length ct = length ct').
  { apply last_block; try assumption. unfold hashed in Z'.
    rewrite !app_assoc, !map_app, !rev_app_distr in Z'. cbn [map rev app padd] in Z'.
    apply Forall_inv in Z'. rename Z' into E. apply be_to_N_inj; [now rewrite !app_length, !N_to_be_length|].
    apply lxor_eq_0. now symmetry. }
  destruct Hl as [La Lc]. apply hashed_inj; [assumption..|].
  apply map_be_inj; [apply hashed_16|apply hashed_16|].
  rewrite <- (rev_involutive (map be_to_N (hashed aad ct))), <- (rev_involutive (map be_to_N (hashed aad' ct'))).
  f_equal. apply padd_zero; [|assumption].
  rewrite !rev_length, !map_length, !hashed_length. unfold blocks. now rewrite La, Lc.
Qed.

(** ** The tag *)
Section Tag.
  Context (E : bytes -> bytes) (HE : forall b, length (E b) = 16%nat).
  Lemma tag_hash nonce aad ct :
    be_to_N (gcm_tag E nonce aad ct) = ghash (be_to_N (E (zeros 16))) (hashed aad ct) ⊕ be_to_N (gctr_block E nonce 1).
  Proof using HE.
    unfold gcm_tag. fold (hashed aad ct). rewrite be_to_N_xor.
    - rewrite be_to_be16; [reflexivity|]. apply small_ghash; [now apply small_be|apply hashed_16].
    - rewrite N_to_be_length. unfold gctr_block. now rewrite HE.
  Qed.
  Lemma open_tag nonce aad body tag : length tag = 16%nat -> gcm_open E nonce aad (body ++ tag) <> None ->
    tag = gcm_tag E nonce aad body.
  Proof using.
    clear HE. intros Ht. unfold gcm_open. rewrite app_length, Ht.
    destruct (Nat.ltb_spec (length body + 16) 16); [lia|].
    replace (length body + 16 - 16)%nat with (length body) by lia.
    rewrite firstn_app_exact, skipn_app_exact by reflexivity.
    destruct (bytes_eqb _ _) eqn:B; [|contradiction]. intros _. now apply bytes_eqb_eq.
  Qed.
  Lemma tags_hash nonce aad ct aad' ct' :
    ghash (be_to_N (E (zeros 16))) (hashed aad ct) ⊕ ghash (be_to_N (E (zeros 16))) (hashed aad' ct') =
    be_to_N (gcm_tag E nonce aad ct) ⊕ be_to_N (gcm_tag E nonce aad' ct').
  Proof using HE. rewrite !tag_hash, lxor_swap, N.lxor_nilpotent. now rewrite N.lxor_0_r. Qed.
End Tag.

Lemma aes_len key b : length (aes_encrypt key b) = 16%nat.
Proof. apply aes_encrypt_length. Qed.
Lemma decrypt_framed key aad body tag nonce : length tag = 16%nat -> length nonce = 12%nat ->
  aes_gcm_decrypt (framed body tag nonce) aad key =
  if negb (Nat.eqb (length key) keyLength) then Err EAesKeyLength
  else match gcm_open (aes_encrypt key) nonce aad (body ++ tag) with None => Err EAesAuth | Some p => Ok p end.
Proof.
  intros Ht Hn. rewrite aes_gcm_decrypt_eq. destruct (negb _); [reflexivity|]. unfold framed.
  assert (L : length (body ++ tag ++ nonce) = (length body + 28)%nat) by (rewrite !app_length; lia).
  rewrite L. destruct (Nat.ltb_spec (length body + 28) Overhead) as [H|_]; [unfold Overhead in H; lia|].
  replace (length body + 28 - nonceLength)%nat with (length (body ++ tag)) by (rewrite app_length; unfold nonceLength; lia).
  cbn zeta. rewrite app_assoc. rewrite firstn_app_exact, skipn_app_exact by reflexivity. reflexivity.
Qed.
Lemma opens_tag key aad body tag nonce : length tag = 16%nat -> length nonce = 12%nat ->
  opens key aad (framed body tag nonce) -> tag = gcm_tag (aes_encrypt key) nonce aad body.
Proof.
  intros Ht Hn [pt H]. rewrite decrypt_framed in H by assumption. destruct (negb _); [discriminate|].
  apply open_tag; [assumption|]. intros E. rewrite E in H. discriminate.
Qed.

Lemma few_keys (keys : list bytes) aad body tag aad' body' tag' nonce :
  length tag = 16%nat -> length tag' = 16%nat -> length nonce = 12%nat ->
  blen aad < 2 ^ 61 -> blen body < 2 ^ 61 -> blen aad' < 2 ^ 61 -> blen body' < 2 ^ 61 ->
  (aad, framed body tag nonce) <> (aad', framed body' tag' nonce) ->
  List.NoDup (map subkey keys) ->
  (forall key, In key keys -> opens key aad (framed body tag nonce) /\ opens key aad' (framed body' tag' nonce)) ->
  (length keys <= Nat.max (blocks aad + blocks body) (blocks aad' + blocks body') + 1)%nat.
Proof.
  intros Ht Ht' Hn Ba Bb Ba' Bb' Hne Hd Ho.
  set (d := be_to_N tag ⊕ be_to_N tag').
  set (P := diff_poly d (hashed aad body) (hashed aad' body')).
  assert (LP : length (rev P) = (Nat.max (blocks aad + blocks body) (blocks aad' + blocks body') + 2)%nat).
  { unfold P, diff_poly. rewrite rev_length. cbn [length]. rewrite padd_length, !rev_length, !map_length, !hashed_length. lia. }
  assert (HR : (length (map (fun k => be_to_N (subkey k)) keys) < length (rev P))%nat).
  { apply (roots_bound (length (rev P))).
    - lia.
    - apply Forall_rev. unfold P, diff_poly. constructor.
      + unfold d. apply small_lxor; now apply small_be.
      + apply small_padd; apply Forall_rev; apply small_blocks; apply hashed_16.
    - intros Z. apply Forall_rev in Z. rewrite rev_involutive in Z.
      apply diff_nonzero in Z; [|assumption..]. destruct Z as (Zd & -> & ->). apply Hne. f_equal. unfold framed. f_equal. f_equal.
      apply be_to_N_inj; [congruence|]. now apply lxor_eq_0.
    - clear - Hd. induction keys as [|k keys IH]; [constructor|]. cbn [map] in *. inversion Hd as [|? ? Hni Hd']; subst.
      constructor; [|auto]. intros Hi. apply Hni. apply in_map_iff in Hi. destruct Hi as (k' & E & Hi).
      apply in_map_iff. exists k'. split; [|assumption]. apply be_to_N_inj; [unfold subkey; now rewrite !aes_len|assumption].
    - intros h Hh. apply in_map_iff in Hh. destruct Hh as (k & <- & Hk). destruct (Ho k Hk) as [O1 O2].
      split; [apply small_be; apply aes_len|].
      rewrite ev_horner, rev_involutive. apply diff_root.
      apply opens_tag in O1; [|assumption..]. apply opens_tag in O2; [|assumption..].
      unfold subkey. rewrite (tags_hash (aes_encrypt k) (aes_len k) nonce). unfold d. now rewrite <- O1, <- O2. }
  rewrite map_length in HR. lia.
Qed.

(** ** A change inside one block *)
Lemma xor_cancel_r a b c : a ⊕ c = b ⊕ c -> a = b.
Proof. intros E. apply (f_equal (fun z => z ⊕ c)) in E. rewrite !N.lxor_assoc, N.lxor_nilpotent, !N.lxor_0_r in E. exact E. Qed.
Lemma xor_cancel_l a b c : c ⊕ a = c ⊕ b -> a = b.
Proof. rewrite !(N.lxor_comm c). apply xor_cancel_r. Qed.
Lemma horner_app h a b : horner h (a ++ b) = fold_left (fun acc c => acc ⊗ h ⊕ c) b (horner h a).
Proof. unfold horner. apply fold_left_app. Qed.
Lemma fold_inj_gen (P : N -> Prop) (st : N -> N -> N) cs :
  (forall u c, P u -> P c -> P (st u c)) -> (forall u v c, P u -> P v -> P c -> st u c = st v c -> u = v) ->
  Forall P cs -> forall u v, P u -> P v -> fold_left st cs u = fold_left st cs v -> u = v.
Proof.
  intros Hp Hi. induction cs as [|c cs IH]; intros Hs u v Hu Hv E; [exact E|]. inversion Hs; subst.
  apply (Hi u v c); [assumption..|]. apply IH; auto.
Qed.
Lemma fold_inj h cs : small h -> h <> 0 -> Forall small cs -> forall u v, small u -> small v ->
  fold_left (fun acc c => acc ⊗ h ⊕ c) cs u = fold_left (fun acc c => acc ⊗ h ⊕ c) cs v -> u = v.
Proof.
  intros Hh Hn. apply fold_inj_gen.
  - intros u c Hu Hc. apply small_lxor; [now apply small_mul|assumption].
  - intros u v c Hu Hv Hc E. apply xor_cancel_r in E. revert E. now apply mul_cancel.
Qed.
Lemma horner_mid h a c b : horner h (a ++ c :: b) = fold_left (fun acc c => acc ⊗ h ⊕ c) b (horner h a ⊗ h ⊕ c).
Proof. rewrite <- horner_snoc, <- horner_app, <- app_assoc. reflexivity. Qed.
Lemma ghash_one_block h a x y b : small h -> h <> 0 ->
  Forall (fun c => length c = 16%nat) a -> length x = 16%nat -> length y = 16%nat ->
  Forall (fun c => length c = 16%nat) b -> ghash h (a ++ x :: b) = ghash h (a ++ y :: b) -> x = y.
Proof.
  intros Hh Hn Ha Hx Hy Hb E. rewrite !ghash_horner, !map_app in E. cbn [map] in E. rewrite <- !app_assoc, <- !app_comm_cons, !horner_mid in E.
  assert (Sa : small (horner h (map be_to_N a))) by (apply small_horner; [assumption|now apply small_blocks]).
  apply fold_inj in E; try assumption.
  - apply be_to_N_inj; [congruence|]. exact (xor_cancel_l _ _ _ E).
  - apply Forall_app. split; [now apply small_blocks|]. constructor; [exact small_0|constructor].
  - apply small_lxor; [now apply small_mul|now apply small_be].
  - apply small_lxor; [now apply small_mul|now apply small_be].
Qed.

Lemma chunks_fuel f : forall g l, (length l < f)%nat -> (length l < g)%nat -> chunks16 f l = chunks16 g l.
Proof.
  induction f as [|f IH]; intros [|g] l H H'; try lia. cbn [chunks16]. destruct l as [|b l]; [reflexivity|].
  f_equal. apply IH; rewrite skipn_length; cbn [length] in *; lia.
Qed.
Lemma chunks_cons f l : l <> [] -> chunks16 (S f) l =
  (firstn 16 l ++ zeros (16 - length (firstn 16 l))) :: chunks16 f (skipn 16 l).
Proof. intros H. cbn [chunks16]. destruct l; [contradiction|reflexivity]. Qed.
(** Cutting at a block boundary. *)
Lemma chunks_app n : forall a b f, length a = (16 * n)%nat -> (length (a ++ b) < f)%nat ->
  chunks16 f (a ++ b) = chunks16 f a ++ chunks16 f b.
Proof.
  induction n as [|n IH]; intros a b f La Lf.
  - destruct a; [|cbn in La; lia]. destruct f; reflexivity.
  - destruct f as [|f]; [lia|]. rewrite app_length in Lf.
    rewrite (chunks_cons f (a ++ b)) by (destruct a; [cbn in La; lia|discriminate]).
    rewrite (chunks_cons f a) by (destruct a; [cbn in La; lia|discriminate]).
    rewrite firstn_app, skipn_app. replace (16 - length a)%nat with 0%nat by lia. rewrite firstn_O, app_nil_r, skipn_O.
    rewrite IH.
    + rewrite (chunks_fuel f (S f) b) by lia. reflexivity.
    + rewrite skipn_length. lia.
    + rewrite app_length, skipn_length. lia.
Qed.
Definition pad16 (x : bytes) : bytes := x ++ zeros (16 - length x).
Lemma pad16_inj x y : length x = length y -> pad16 x = pad16 y -> x = y.
Proof. unfold pad16. intros H E. apply app_split in E; [tauto|assumption]. Qed.
(** Changing something inside one block changes exactly one of the blocks. *)
Lemma one_block_chunks a b : differ_in_one_block a b -> length a = length b /\
  exists pre x y post, chunks16 (S (length a)) a = pre ++ x :: post /\ chunks16 (S (length b)) b = pre ++ y :: post /\
    x <> y /\ length x = 16%nat /\ length y = 16%nat.
Proof.
  intros (pre & x & y & post & -> & -> & Hne & Lxy & Lx & Hm).
  assert (L : length (pre ++ x ++ post) = length (pre ++ y ++ post)) by (rewrite !app_length; lia).
  split; [exact L|]. rewrite <- L. set (f := S (length (pre ++ x ++ post))).
  assert (Hp : length pre = (16 * (length pre / 16))%nat) by lia.
  assert (Hx : x <> []) by (intros ->; apply Hne; destruct y; [reflexivity|cbn in Lxy; lia]).
  assert (Hy : y <> []) by (intros ->; apply Hx; destruct x; [reflexivity|cbn in Lxy; lia]).
  rewrite (chunks_app _ pre (x ++ post) f Hp) by (unfold f; lia).
  rewrite (chunks_app _ pre (y ++ post) f Hp) by (unfold f; lia).
  set (c1 := firstn 16 (x ++ post)). set (c2 := firstn 16 (y ++ post)).
  exists (chunks16 f pre), (c1 ++ zeros (16 - length c1)), (c2 ++ zeros (16 - length c2)),
    (chunks16 (length (pre ++ x ++ post)) (skipn (16 - length x) post)).
  assert (Lc : length c1 = length c2) by (unfold c1, c2; rewrite !firstn_length, !app_length; lia).
  split; [|split; [|split; [|split]]].
  - f_equal. unfold f. rewrite chunks_cons by (destruct x; [contradiction|discriminate]). f_equal. f_equal.
    rewrite skipn_app, (skipn_all2 x) by lia. reflexivity.
  - f_equal. unfold f. rewrite chunks_cons by (destruct y; [contradiction|discriminate]). f_equal. f_equal.
    rewrite skipn_app, (skipn_all2 y), Lxy by lia. reflexivity.
  - intros E. apply app_split in E; [|exact Lc]. destruct E as [E _]. apply Hne. unfold c1, c2 in E.
    rewrite !firstn_app, (firstn_all2 x), (firstn_all2 y) in E by lia.
    apply app_split in E; [tauto|exact Lxy].
  - rewrite app_length, zeros_length. assert (length c1 <= 16)%nat by (unfold c1; rewrite firstn_length; lia). lia.
  - rewrite app_length, zeros_length. assert (length c2 <= 16)%nat by (unfold c2; rewrite firstn_length; lia). lia.
Qed.

Lemma subkey_small key : small (be_to_N (subkey key)).
Proof. apply small_be. apply aes_len. Qed.
Lemma subkey_nonzero key : subkey key <> zeros 16 -> be_to_N (subkey key) <> 0.
Proof.
  intros H E. apply H. apply be_to_N_inj; [unfold subkey; rewrite aes_len; reflexivity|].
  rewrite E. reflexivity.
Qed.
Lemma rejected key aad body tag nonce : length key = 32%nat -> length tag = 16%nat -> length nonce = 12%nat ->
  tag <> gcm_tag (aes_encrypt key) nonce aad body -> aes_gcm_decrypt (framed body tag nonce) aad key = Err EAesAuth.
Proof.
  intros Hk Ht Hn Hne. rewrite decrypt_framed by assumption. rewrite Hk. change (negb (Nat.eqb 32 keyLength)) with false. cbn iota.
  destruct (gcm_open _ _ _ _) eqn:O; [|reflexivity]. exfalso. apply Hne. apply open_tag; [assumption|]. rewrite O. discriminate.
Qed.
Lemma same_tag_same_hash key nonce aad body aad' body' :
  gcm_tag (aes_encrypt key) nonce aad body = gcm_tag (aes_encrypt key) nonce aad' body' ->
  ghash (be_to_N (subkey key)) (hashed aad body) = ghash (be_to_N (subkey key)) (hashed aad' body').
Proof.
  intros E. apply lxor_eq_0. unfold subkey. rewrite (tags_hash (aes_encrypt key) (aes_len key) nonce).
  rewrite E. apply N.lxor_nilpotent.
Qed.
Lemma opens_key key aad c : opens key aad c -> length key = 32%nat.
Proof.
  intros [pt H]. apply aes_gcm_decrypt_ok in H. destruct H as (n & _ & H & _). exact H.
Qed.
Lemma aad_block_rejected key aad aad' body tag nonce :
  length tag = 16%nat -> length nonce = 12%nat -> subkey key <> zeros 16 ->
  opens key aad (framed body tag nonce) -> differ_in_one_block aad aad' ->
  aes_gcm_decrypt (framed body tag nonce) aad' key = Err EAesAuth.
Proof.
  intros Ht Hn Hk Ho Hd. apply rejected; try assumption; [now apply opens_key in Ho|].
  apply opens_tag in Ho; [|assumption..]. intros E. rewrite Ho in E. apply same_tag_same_hash in E.
  destruct (one_block_chunks _ _ Hd) as (L & pre & x & y & post & E1 & E2 & Hne & Lx & Ly).
  unfold hashed in E. rewrite E1, E2 in E. unfold blen in E. rewrite <- L, <- !app_assoc in E. cbn [app] in E. apply Hne.
  assert (F := chunks_16 (S (length aad)) aad). rewrite E1 in F. apply Forall_app in F. destruct F as [F1 F2].
  refine (ghash_one_block _ _ _ _ _ (subkey_small key) (subkey_nonzero key Hk) F1 Lx Ly _ E).
  inversion F2; subst. apply Forall_app. split; [assumption|]. apply Forall_app. split; [apply chunks_16|].
  constructor; [now rewrite app_length, !N_to_be_length|constructor].
Qed.
Lemma body_block_rejected key aad body body' tag nonce :
  length tag = 16%nat -> length nonce = 12%nat -> subkey key <> zeros 16 ->
  opens key aad (framed body tag nonce) -> differ_in_one_block body body' ->
  aes_gcm_decrypt (framed body' tag nonce) aad key = Err EAesAuth.
Proof.
  intros Ht Hn Hk Ho Hd. apply rejected; try assumption; [now apply opens_key in Ho|].
  apply opens_tag in Ho; [|assumption..]. intros E. rewrite Ho in E. apply same_tag_same_hash in E.
  destruct (one_block_chunks _ _ Hd) as (L & pre & x & y & post & E1 & E2 & Hne & Lx & Ly).
  unfold hashed in E. rewrite E1, E2 in E. unfold blen in E. rewrite <- L, <- !app_assoc, !(app_assoc (chunks16 (S (length aad)) aad)) in E. cbn [app] in E. apply Hne.
  assert (F := chunks_16 (S (length body)) body). rewrite E1 in F. apply Forall_app in F. destruct F as [F1 F2].
  refine (ghash_one_block _ _ _ _ _ (subkey_small key) (subkey_nonzero key Hk) _ Lx Ly _ E).
  - apply Forall_app. split; [apply chunks_16|assumption].
  - inversion F2; subst. apply Forall_app. split; [assumption|].
    constructor; [now rewrite app_length, !N_to_be_length|constructor].
Qed.
