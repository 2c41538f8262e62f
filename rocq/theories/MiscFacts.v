(** Scopes and counters. *)
From Coq Require Import ZifyN ZifyNat.
From Verif Require Import Bytes Go Json JsonProofs Types Cryptor Data Id Kmac KmacProofs CryptoFacts.
Local Open Scope bool_scope.
Local Open Scope N_scope.

Lemma contains_bits s t : scope_contains s t = true <-> forall i, N.testbit t i = true -> N.testbit s i = true.
Proof.
  unfold scope_contains. rewrite N.eqb_eq. split.
  - intros H i Hi. rewrite <- H, N.land_spec in Hi. now apply Bool.andb_true_iff in Hi.
  - intros H. apply N.bits_inj. intros i. rewrite N.land_spec. specialize (H i). destruct (N.testbit t i); [|apply Bool.andb_false_r].
    now rewrite H.
Qed.
Lemma union_loop l : forall a i, N.testbit (fold_left N.lor l a) i = N.testbit a i || existsb (fun s => N.testbit s i) l.
Proof.
  induction l as [|s l IH]; intros a i; cbn [fold_left existsb]; [now rewrite Bool.orb_false_r|].
  now rewrite IH, N.lor_spec, Bool.orb_assoc.
Qed.
Lemma union_bits l i : N.testbit (scope_union l) i = true <-> exists s, In s l /\ N.testbit s i = true.
Proof. unfold scope_union. rewrite union_loop, N.bits_0. cbn [orb]. apply existsb_exists. Qed.
Lemma union_lub l s : scope_contains s (scope_union l) = true <-> forall t, In t l -> scope_contains s t = true.
Proof.
  rewrite contains_bits. split.
  - intros H t Ht. apply contains_bits. intros i Hi. apply H. apply union_bits. eauto.
  - intros H i Hi. apply union_bits in Hi as (t & Ht & Hi). specialize (H t Ht). rewrite contains_bits in H. auto.
Qed.
Lemma none_contains t : scope_contains ScopeNone t = true <-> t = ScopeNone.
Proof. unfold scope_contains, ScopeNone. rewrite N.land_0_l, N.eqb_eq. split; congruence. Qed.
Lemma all_bits i : N.testbit ScopeAll i = (i <? 9).
Proof.
  change ScopeAll with (N.ones 9). destruct (N.ltb_spec i 9); [now apply N.ones_spec_low|now apply N.ones_spec_high].
Qed.
Lemma contains_refl_trans : (forall s, scope_contains s s = true) /\
  forall a b c, scope_contains a b = true -> scope_contains b c = true -> scope_contains a c = true.
Proof.
  split; [intros s; apply contains_bits; auto|]. intros a b c. rewrite !contains_bits. auto.
Qed.

(** ** Counters *)
Lemma uvarint_loop_inj f : forall a b, a < 128 ^ N.of_nat f -> b < 128 ^ N.of_nat f -> uvarint_loop f a = uvarint_loop f b -> a = b.
Proof.
  induction f as [|f IH]; intros a b Ha Hb H.
  - cbn in *. lia.
  - rewrite Nat2N.inj_succ, N.pow_succ_r' in Ha, Hb. cbn [uvarint_loop] in H.
    assert (Hor : forall n, 128 <= n -> bN (Nb (N.lor (n mod 256) 128)) = 128 + n mod 128).
    { intros n _. assert (E : N.lor (n mod 256) 128 = 128 + n mod 128).
      { assert (G : forallb (fun m => N.lor m 128 =? 128 + m mod 128) (map N.of_nat (seq 0 256)) = true) by (vm_compute; reflexivity).
        rewrite forallb_forall in G. specialize (G (n mod 256)).
        rewrite N.eqb_eq in G. rewrite G.
        - f_equal. change 256 with (128 * 2). rewrite N.mod_mul_r by lia. rewrite (N.mul_comm 128), N.mod_add, N.mod_mod by lia. reflexivity.
        - apply in_map_iff. exists (N.to_nat (n mod 256)). rewrite N2Nat.id, in_seq. split; [reflexivity|].
          pose proof (N.mod_lt n 256 ltac:(lia)). lia. }
      rewrite E. apply bN_Nb. pose proof (N.mod_lt n 128 ltac:(lia)). lia. }
    destruct (N.ltb_spec a 128) as [La|La], (N.ltb_spec b 128) as [Lb|Lb].
    + injection H as H. apply Nb_small_inj in H; lia.
    + injection H as H _. apply (f_equal bN) in H. rewrite Hor, bN_Nb in H by lia. lia.
    + injection H as H _. apply (f_equal bN) in H. rewrite Hor, bN_Nb in H by lia. lia.
    + injection H as H1 H2. apply (f_equal bN) in H1. rewrite !Hor in H1 by lia.
      apply IH in H2; [|apply N.div_lt_upper_bound; lia..].
      pose proof (N.div_mod a 128 ltac:(lia)). pose proof (N.div_mod b 128 ltac:(lia)). lia.
Qed.
Lemma uvarint_inj a b : a < 2 ^ 64 -> b < 2 ^ 64 -> uvarint a = uvarint b -> a = b.
Proof.
  intros Ha Hb. apply uvarint_loop_inj; (eapply N.lt_trans; [eassumption|vm_compute; reflexivity]).
Qed.
Lemma uvarint_length n : (length (uvarint n) <= 10)%nat.
Proof.
  unfold uvarint. generalize 10%nat. intros f. revert n. induction f as [|f IH]; intros n; cbn; [lia|].
  destruct (n <? 128); cbn [length]; [lia|]. specialize (IH (n / 128)). lia.
Qed.

Lemma label_collision (key key' id id' : bytes) (a b : N) :
  length key = 32%nat -> length key' = 32%nat -> a < 2 ^ 64 -> b < 2 ^ 64 -> a <> b ->
  exists x y, next_label key (mkNode id a) = Ok (sponge 136 x04 x 32) /\
              next_label key' (mkNode id' b) = Ok (sponge 136 x04 y 32) /\ x <> y.
Proof.
  intros K K' A B N. unfold next_label, tag, kmac256, TagLength. cbn [n_next].
  assert (Hk : blen key <? 32 = false) by (unfold blen; rewrite K; reflexivity).
  assert (Hk' : blen key' <? 32 = false) by (unfold blen; rewrite K'; reflexivity).
  rewrite Hk, Hk'. change (Nat.ltb 32 8) with false. cbv iota. unfold kmac.
  eexists _, _. split; [reflexivity|]. split; [reflexivity|]. intros E. apply N.
  assert (L : forall n, 8 * blen (print (jbytes (Some (uvarint n)))) < 2 ^ 64).
  { intros n. unfold blen. rewrite print_jbytes_length. pose proof (uvarint_length n) as U.
    assert (D : (((length (uvarint n)) + 2) / 3 <= 4)%nat) by (change 4%nat with (12 / 3)%nat; apply Nat.div_le_mono; lia).
    eapply N.le_lt_trans with (m := 8 * 18); [lia|reflexivity]. }
  apply kmac_input_inj in E as (_ & _ & E & _); try (unfold short, blen; rewrite ?K, ?K'; reflexivity); try apply L; try reflexivity.
  apply print_jbytes_inj in E. injection E as E. now apply uvarint_inj in E.
Qed.
