(** Properties of tokens. *)
From stdpp Require Import gmap.
From Verif Require Import Bytes Go Time Types World Data Id D1 TokenFacts Demo.
From Coq Require Import ZArith.
Local Open Scope Z_scope.

(** C19.  A token expires one hour after the clock reading of CreateToken.  GetTokenContents, in
    whatever state the process is by then, returns the payload while its clock reading is not later
    than the expiry and refuses the token afterwards.  The token's string form gives the same token
    back. *)
Theorem C19_token_roundtrip_and_expiry {S I} (e : env) (io : provider S) (idp : bytes -> prog (world S I) (res identity)) (d : d1)
  (p : gslice) (t : sealed_token) (w w1 : world S I) :
  (forall n, time_wf (clock e n)) ->
  run (d1_aes e io idp d (CCreateToken p)) w = (Ok (RToken t), w1) ->
  instant (st_exp t) = instant (clock e (w_ticks w)) + 3600 * 1000000000 /\
  (forall w2 : world S I,
    (instant (clock e (w_ticks w2)) <= instant (st_exp t) ->
      fst (run (d1_aes e io idp d (CGetTokenContents t)) w2) = Ok (RBytes p)) /\
    (instant (st_exp t) < instant (clock e (w_ticks w2)) ->
      fst (run (d1_aes e io idp d (CGetTokenContents t)) w2) = Err ETokenExpired)) /\
  exists s, token_string t = Ok s /\ token_from_string s = Ok t.
Proof. exact (token_lifecycle e io idp d p t w w1). Qed.
Print Assumptions C19_token_roundtrip_and_expiry.

(** CreateToken succeeds when the random source does and the expiry year has four digits; the hypothesis
    above is therefore met. *)
Example C19_case (p : gslice) : exists t w1,
  run (d1_aes demo_env Io.Mem demo_idp demo_d1 (CCreateToken p)) demo_w = (Ok (RToken t), w1) /\
  (forall n, time_wf (clock demo_env n)).
Proof.
  pose proof (create_token_run demo_env Io.Mem demo_idp demo_d1 p demo_w) as H. cbn zeta in H.
  destruct (Types.enc_time _) as [aad|] eqn:Ea; [|exfalso; vm_compute in Ea; discriminate Ea].
  assert (Hd : CryptorProofs.draws2 demo_env (w_draws demo_w) = true) by (vm_compute; reflexivity). rewrite Hd in H.
  destruct H as (wk & ct & H & _). destruct (run _ _) as [r w1]. cbn [fst] in H. subst r.
  eexists _, w1. split; [reflexivity|]. intros n. vm_compute. repeat split; discriminate.
Qed.

(** C21.  The string form loses nothing ... *)
Theorem C21_token_string_lossless (t : sealed_token) (s : bytes) :
  time_wf (st_exp t) -> token_string t = Ok s -> token_from_string s = Ok t.
Proof. exact (token_string_lossless t s). Qed.
Print Assumptions C21_token_string_lossless.
(** ... exists for every token whose expiry can be written in RFC 3339 ... *)
Theorem C21_token_string_exists (t : sealed_token) x : time_text (st_exp t) = Some x -> exists s, token_string t = Ok s.
Proof. exact (token_string_ok t x). Qed.
Print Assumptions C21_token_string_exists.
(** ... and every string whatsoever gives a token or an error, never a panic. *)
Theorem C21_token_from_string_total (s : bytes) :
  (exists t, token_from_string s = Ok t) \/ exists x, token_from_string s = Err x.
Proof. exact (from_string_total s). Qed.
Print Assumptions C21_token_from_string_total.
Example C21_case : let t := mkSealedToken (mkT 1700000000 5 60) (Some [x01]) None in
  time_wf (st_exp t) /\ (exists x, time_text (st_exp t) = Some x) /\
  exists s, token_string t = Ok s /\ token_from_string s = Ok t /\ token_from_string (str "!") = Err EBase64.
Proof.
  cbv zeta. split; [vm_compute; repeat split; discriminate|]. split; [eexists; vm_compute; reflexivity|].
  eexists. split; [vm_compute; reflexivity|]. split; vm_compute; reflexivity.
Qed.

(** C22 is false: line breaks in a token string are ignored, so every accepted string has further
    accepted spellings. *)
Theorem C22_single_string_form_refuted (s : bytes) (t : sealed_token) :
  token_from_string s = Ok t ->
  token_from_string (s ++ [x0a]) = Ok t /\ token_from_string (x0d :: s) = Ok t.
Proof. exact (from_string_newline s t). Qed.
Print Assumptions C22_single_string_form_refuted.
(** What does hold: the strings the library itself produces for different tokens differ. *)
Theorem C22_produced_strings_differ_partial (t t' : sealed_token) (s : bytes) :
  time_wf (st_exp t) -> time_wf (st_exp t') -> token_string t = Ok s -> token_string t' = Ok s -> t = t'.
Proof.
  intros W W' H H'. pose proof (token_string_lossless t s W H) as A. pose proof (token_string_lossless t' s W' H') as B. congruence.
Qed.
Print Assumptions C22_produced_strings_differ_partial.
(** Case of member names and white space inside the encoded document are not significant either. *)
Example C22_case : exists s s' t, s <> s' /\ forallb Base64.not_crlf s' = true /\ token_from_string s = Ok t /\ token_from_string s' = Ok t.
Proof.
  exists (Base64.b64url_encode (str "{""ExpiryTime"":""2023-11-14T22:13:20Z"",""Ciphertext"":null,""WrappedKey"":null}")).
  exists (Base64.b64url_encode (str "{""wrappedkey"":null, ""EXPIRYTIME"":""2023-11-14T22:13:20Z"" }")).
  eexists. split; [vm_compute; discriminate|]. split; [vm_compute; reflexivity|]. split; vm_compute; reflexivity.
Qed.
