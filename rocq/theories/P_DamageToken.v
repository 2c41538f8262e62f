(** C83: an altered token is refused.  Only property theorems here; the definitions are in DamageTokenSpec.v and the
    proofs in DamageToken.v and DamageTokenDemo.v. *)
From stdpp Require Import gmap.
From Verif Require Import Bytes Go Json Time Types World Kwp Gcm GcmSpec Cryptor Io Id Data D1 Demo Standalone StandaloneDemo LibDemo DamageTokenSpec DamageToken DamageTokenDemo.
Local Open Scope N_scope.

(** A token that GetTokenContents has accepted once, then altered in its tag, its data or its expiry, is not accepted
    at any time, whatever the state of things; the key of the token is not one of those whose subkey is zero. *)
Theorem C83_contents {S I} (e : env) (io : provider S) (idp : bytes -> prog (world S I) (res identity)) (d : d1) (t t' : sealed_token) (w w' : world S I) (r r' : d1_reply)
  (change : altered t t') (subkeys : forall key, aes_kwp_unwrap (d_tek d) (slice_bytes (st_wk t)) = Ok key -> subkey key <> zeros 16)
  (accepted : fst (run (d1_aes e io idp d (CGetTokenContents t)) w) = Ok r) :
  fst (run (d1_aes e io idp d (CGetTokenContents t')) w') <> Ok r'.
Proof. exact (contents_refused e io idp d t t' w w' r r' change subkeys accepted). Qed.
Print Assumptions C83_contents.

(** The same for login tokens and the identity provider. *)
Theorem C83_identity {S I} (e : env) (io : provider S) (L : sa_keys) (tok tok' : bytes) (t t' : sealed_token) (w w' : world S I) (i i' : identity)
  (reads : token_from_string tok = Ok t) (reads' : token_from_string tok' = Ok t')
  (change : altered t t') (subkeys : forall key, aes_kwp_unwrap (s_tek L) (slice_bytes (st_wk t)) = Ok key -> subkey key <> zeros 16)
  (accepted : fst (run (sa_idp e io L tok) w) = Ok i) :
  fst (run (sa_idp e io L tok') w') <> Ok i'.
Proof. exact (identity_refused e io L tok tok' t t' w w' i i' reads reads' change subkeys accepted). Qed.
Print Assumptions C83_identity.

(** There are such tokens: made by CreateToken and LoginUser, with another tag, other data and a later expiry. *)
Example C83_contents_case : exists t w q t1 t2 t3, fst (run (d1_aes demo_env Mem demo_idp demo_d1 (CGetTokenContents t)) w) = Ok q /\
  (forall key, aes_kwp_unwrap (d_tek demo_d1) (slice_bytes (st_wk t)) = Ok key -> subkey key <> zeros 16) /\
  altered t t1 /\ altered t t2 /\ altered t t3 /\ st_exp t3 = time_add (st_exp t) 3600.
Proof. exact demo_token. Qed.
Example C83_identity_case : exists t i tok1 t1 tok2 t2 tok3 t3, fst (run (sa_idp sa_env Mem lib_sa lib_tok) lt_w) = Ok i /\
  token_from_string lib_tok = Ok t /\ token_from_string tok1 = Ok t1 /\ token_from_string tok2 = Ok t2 /\ token_from_string tok3 = Ok t3 /\
  (forall key, aes_kwp_unwrap (s_tek lib_sa) (slice_bytes (st_wk t)) = Ok key -> subkey key <> zeros 16) /\
  altered t t1 /\ altered t t2 /\ altered t t3.
Proof. exact demo_login_token. Qed.
