(** Tokens: round trip, expiry and string form. *)
From stdpp Require Import gmap.
From Verif Require Import Bytes Base64 Base64Proofs Go Json JsonProofs Time TimeProofs Types TypesProofs World Cryptor CryptorProofs CryptoFacts Data Id D1 D1Proofs.
From Coq Require Import ZArith Lia.
Local Open Scope bool_scope.
Local Open Scope Z_scope.

(** Nanoseconds since the epoch. *)
Definition instant (t : gtime) : Z := t_sec t * 1000000000 + t_ns t.
Lemma time_before_instant a b : time_wf a -> time_wf b -> time_before a b = true <-> instant a < instant b.
Proof.
  intros [A _] [B _]. unfold time_before, instant.
  rewrite Bool.orb_true_iff, Bool.andb_true_iff, !Z.ltb_lt, Z.eqb_eq. nia.
Qed.
Lemma time_add_wf t s : time_wf t -> time_wf (time_add t s).
Proof. intros H. exact H. Qed.
Lemma instant_add t s : instant (time_add t s) = instant t + s * 1000000000.
Proof. unfold instant, time_add. cbn. lia. Qed.

Section Tokens.
  Context {S I : Type} (e : env) (io : provider S) (idp : bytes -> prog (world S I) (res identity)) (d : d1).
  Notation W := (world S I).
  Notation call := (d1_aes e io idp d).

  Lemma ret_map_run {A B} (f : A -> B) (p : prog W (res A)) w :
    run (ret_map f p) w = (res_map f (fst (run p w)), snd (run p w)).
  Proof. unfold ret_map. rewrite run_bind. destruct (run p w). reflexivity. Qed.
  Lemma create_token_run pt (w : W) :
    let exp := time_add (clock e (w_ticks w)) 3600 in
    match enc_time exp with
    | None => fst (run (call (CCreateToken pt)) w) = Err EJson
    | Some aad =>
        if draws2 e (w_draws w)
        then exists wk ct, fst (run (call (CCreateToken pt)) w) = Ok (RToken (mkSealedToken exp (Some ct) (Some wk))) /\
               aes_open (d_tek d) (print aad) wk ct = Ok (print (jbytes pt))
        else fst (run (call (CCreateToken pt)) w) = Err ERandom
    end.
  Proof.
    cbn zeta. unfold d1_aes, d1_do. rewrite ret_map_run. unfold d1_create_token, new_token, time_now.
    rewrite !run_bind, run_act, run_ret. unfold TokenValidity, token_seal. cbn [t_exp t_pt].
    destruct (enc_time _) as [aad|]; [|reflexivity].
    rewrite run_bindR. unfold encrypt_json. cbn [c_enc aes_cryptor].
    destruct (aes_enc_run e (d_tek d) (print (jbytes pt)) (print aad) (set_ticks w (w_ticks w + 1))) as (w1 & _ & H).
    cbn [w_draws set_ticks] in H. destruct (draws2 e (w_draws w)).
    - destruct H as (wk & ct & -> & A & _). rewrite run_ret. exists wk, ct. split; [reflexivity|exact A].
    - destruct H as (-> & _). reflexivity.
  Qed.
  Lemma get_contents_run exp aad wk ct pt (w : W) :
    enc_time exp = Some aad -> aes_open (d_tek d) (print aad) wk ct = Ok (print (jbytes pt)) ->
    fst (run (call (CGetTokenContents (mkSealedToken exp (Some ct) (Some wk)))) w) =
      if time_before exp (clock e (w_ticks w)) then Err ETokenExpired else Ok (RBytes pt).
  Proof.
    intros Ha Ho. unfold d1_aes, d1_do. rewrite ret_map_run. unfold d1_get_token_contents, token_unseal, time_now.
    rewrite run_bindR, run_bind, run_act. cbn [st_exp st_wk st_ct].
    destruct (time_before exp _); [reflexivity|]. rewrite Ha. rewrite run_bindR.
    destruct (decrypt_json_run e (d_tek d) dec_bytes aad (Some wk) (Some ct) (set_ticks w (w_ticks w + 1))) as (w1 & -> & _).
    unfold open_json. cbn [slice_bytes]. rewrite Ho. cbn [res_bind].
    rewrite unmarshal_print, dec_bytes_jbytes by apply jbytes_wf. rewrite !run_ret. reflexivity.
  Qed.

  Lemma token_lifecycle pt t (w w1 : W) : (forall n, time_wf (clock e n)) ->
    run (call (CCreateToken pt)) w = (Ok (RToken t), w1) ->
    instant (st_exp t) = instant (clock e (w_ticks w)) + 3600 * 1000000000 /\
    (forall w2 : W,
      (instant (clock e (w_ticks w2)) <= instant (st_exp t) ->
        fst (run (call (CGetTokenContents t)) w2) = Ok (RBytes pt)) /\
      (instant (st_exp t) < instant (clock e (w_ticks w2)) ->
        fst (run (call (CGetTokenContents t)) w2) = Err ETokenExpired)) /\
    exists s, token_string t = Ok s /\ token_from_string s = Ok t.
  Proof.
    intros Hc H. pose proof (create_token_run pt w) as R. cbn zeta in R. rewrite H in R. cbn [fst] in R.
    destruct (enc_time _) as [aad|] eqn:Ea; [|discriminate]. destruct (draws2 e (w_draws w)); [|discriminate].
    destruct R as (wk & ct & E & Ho). injection E as ->. cbn [st_exp].
    split; [apply instant_add|]. split.
    - intros w2. rewrite (get_contents_run _ _ _ _ _ w2 Ea Ho).
      pose proof (time_before_instant _ _ (time_add_wf _ 3600 (Hc (w_ticks w))) (Hc (w_ticks w2))) as T.
      destruct (time_before _ _); split; intros L; try reflexivity; exfalso.
      + pose proof (proj1 T eq_refl). lia.
      + pose proof (proj2 T L). discriminate.
    - unfold token_string, token_from_string. unfold enc_sealed_token. cbn [st_exp st_ct st_wk]. rewrite Ea.
      eexists. split; [reflexivity|]. rewrite b64url_roundtrip.
      rewrite (sealed_token_roundtrip (mkSealedToken (time_add (clock e (w_ticks w)) 3600) (Some ct) (Some wk))); [reflexivity|apply time_add_wf, Hc|].
      unfold enc_sealed_token. cbn [st_exp st_ct st_wk]. now rewrite Ea.
  Qed.
End Tokens.

Lemma token_string_lossless t s : time_wf (st_exp t) -> token_string t = Ok s -> token_from_string s = Ok t.
Proof.
  intros W. unfold token_string, token_from_string. destruct (enc_sealed_token t) as [j|] eqn:E; [|discriminate].
  intros H. injection H as <-. rewrite b64url_roundtrip. now rewrite (sealed_token_roundtrip t j W E).
Qed.
Lemma token_string_total t : token_string t = Err EJson \/ exists s, token_string t = Ok s.
Proof. unfold token_string. destruct (enc_sealed_token t); eauto. Qed.
Lemma token_string_ok t x : time_text (st_exp t) = Some x -> exists s, token_string t = Ok s.
Proof. intros H. unfold token_string, enc_sealed_token, enc_time. rewrite H. eauto. Qed.
Lemma from_string_total s : (exists t, token_from_string s = Ok t) \/ exists x, token_from_string s = Err x.
Proof. unfold token_from_string. destruct (b64url_decode s); [|eauto]. destruct (unmarshal _ _); eauto. Qed.
Lemma from_string_newline s t : token_from_string s = Ok t ->
  token_from_string (s ++ [x0a]) = Ok t /\ token_from_string (x0d :: s) = Ok t.
Proof.
  unfold token_from_string, b64url_decode. intros H. split.
  - rewrite List.filter_app. change (List.filter not_crlf [x0a]) with (@nil byte). rewrite app_nil_r. exact H.
  - cbn [List.filter]. change (not_crlf x0d) with false. exact H.
Qed.
