(** Lemmas about damaged tokens, for P_DamageToken.v. *)
From stdpp Require Import gmap.
From Verif Require Import Bytes Go Json Time Types World Kwp Gcm GcmSpec GcmAuth GcmCase Cryptor CryptorProofs Id Data D1 Standalone Damage DamageTokenSpec.
Local Open Scope N_scope.

Section Token.
  Context {S I : Type} (e : env).
  Notation W := (world S I).
  Lemma unseal_ok kek t (w : W) p : fst (run (token_unseal e (aes_cryptor e kek) t) w) = Ok p ->
    exists j key pt, enc_time (st_exp t) = Some j /\ aes_kwp_unwrap kek (slice_bytes (st_wk t)) = Ok key /\
      aes_gcm_decrypt (slice_bytes (st_ct t)) (print j) key = Ok pt.
  Proof.
    unfold token_unseal. rewrite run_bind. destruct (run (time_now e) w) as [now w1]. cbn [fst snd].
    destruct (time_before (st_exp t) now); [discriminate|]. destruct (enc_time (st_exp t)) as [j|]; [|discriminate].
    rewrite run_bindR. destruct (decrypt_json_run e kek dec_bytes j (st_wk t) (st_ct t) w1) as (w2 & E & _). rewrite E.
    destruct (open_json kek dec_bytes j (st_wk t) (st_ct t)) as [b|x|] eqn:O; try discriminate. intros _.
    apply open_json_ok in O. destruct O as (key & pt & K & G & _). eauto 8.
  Qed.
  Lemma altered_refused kek t t' (w w' : W) p p' : altered t t' ->
    (forall key, aes_kwp_unwrap kek (slice_bytes (st_wk t)) = Ok key -> subkey key <> zeros 16) ->
    fst (run (token_unseal e (aes_cryptor e kek) t) w) = Ok p -> fst (run (token_unseal e (aes_cryptor e kek) t') w') = Ok p' -> False.
  Proof.
    intros A Z H H'. apply unseal_ok in H, H'. destruct H as (j & key & pt & E1 & E2 & E3), H' as (j' & key' & pt' & F1 & F2 & F3).
    specialize (Z key E2).
    destruct A as [t t' x b g g' n wk ((k & K1 & K2) & P1 & P2) ((k' & K1' & K2') & P1' & P2') L1 L2 L3 N
      |t t' x b b' g n wk ((k & K1 & K2) & P1 & P2) ((k' & K1' & K2') & P1' & P2') L1 L3 N
      |t t' x x' b g n wk ((k & K1 & K2) & P1 & P2) ((k' & K1' & K2') & P1' & P2') L1 L3 N];
      rewrite K1 in E1; injection E1 as <-; rewrite K1' in F1; injection F1 as <-; rewrite P2 in E2; rewrite P2', E2 in F2; injection F2 as <-;
      rewrite P1, K2 in E3; rewrite P1', K2' in F3.
    - rewrite (tag_rejected key x b g g' n L1 L2 L3 (ex_intro _ pt E3) N) in F3. discriminate.
    - rewrite (body_block_rejected key x b b' g n L1 L3 Z (ex_intro _ pt E3) N) in F3. discriminate.
    - rewrite (aad_block_rejected key x x' b g n L1 L3 Z (ex_intro _ pt E3) N) in F3. discriminate.
  Qed.
  Lemma contents_refused io idp d t t' (w w' : W) r r' : altered t t' ->
    (forall key, aes_kwp_unwrap (d_tek d) (slice_bytes (st_wk t)) = Ok key -> subkey key <> zeros 16) ->
    fst (run (d1_aes e io idp d (CGetTokenContents t)) w) = Ok r -> fst (run (d1_aes e io idp d (CGetTokenContents t')) w') <> Ok r'.
  Proof.
    intros A Z H H'. unfold d1_aes, d1_do, ret_map, d1_get_token_contents in H, H'. rewrite run_bind, run_bindR in H, H'.
    destruct (run (token_unseal e (aes_cryptor e (d_tek d)) t) w) as [[p|x|] w1] eqn:E; try discriminate.
    destruct (run (token_unseal e (aes_cryptor e (d_tek d)) t') w') as [[p'|x|] w1'] eqn:E'; try discriminate.
    refine (altered_refused (d_tek d) t t' w w' p p' A Z _ _); [now rewrite E|now rewrite E'].
  Qed.
  Lemma identity_unseals io L tok (w : W) i : fst (run (sa_idp e io L tok) w) = Ok i ->
    exists t p, token_from_string tok = Ok t /\ fst (run (token_unseal e (aes_cryptor e (s_tek L)) t) w) = Ok p.
  Proof.
    intros H. unfold sa_idp, sa_get_identity in H. rewrite run_bindR in H. unfold any_err, map_err in H. rewrite run_bind in H. cbn [run lift] in H.
    destruct (token_from_string tok) as [t|x|]; try discriminate. exists t. cbn [run] in H. rewrite run_bindR, run_bind in H.
    destruct (run (token_unseal e (aes_cryptor e (s_tek L)) t) w) as [[p|x|] w1]; try discriminate. eauto.
  Qed.
  Lemma identity_refused io L tok tok' t t' (w w' : W) i i' : token_from_string tok = Ok t -> token_from_string tok' = Ok t' -> altered t t' ->
    (forall key, aes_kwp_unwrap (s_tek L) (slice_bytes (st_wk t)) = Ok key -> subkey key <> zeros 16) ->
    fst (run (sa_idp e io L tok) w) = Ok i -> fst (run (sa_idp e io L tok') w') <> Ok i'.
  Proof.
    intros T T' A Z H H'. apply identity_unseals in H, H'. destruct H as (t0 & p & E & R), H' as (t0' & p' & E' & R').
    rewrite T in E. injection E as <-. rewrite T' in E'. injection E' as <-. exact (altered_refused _ _ _ _ _ _ _ A Z R R').
  Qed.
End Token.
