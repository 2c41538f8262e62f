(** Properties of the constructors. *)
From Coq Require Import List.
From Verif Require Import Bytes Go World Cryptor D1 Index Standalone KeysProofs.
Import ListNotations.

(** C48.  [key32 k] says that [k] has 32 bytes.  New succeeds exactly when the key provider does and
    the three keys it uses have 32 bytes, and uses each of them in its place; otherwise it reports
    the provider's error or the wrong key length.  The index key may be anything. *)
Theorem C48_new_checks_keys (ks : res keys) (d : d1) :
  d1_new ks = Ok d <->
  exists k, ks = Ok k /\ key32 (k_kek k) /\ key32 (k_aek k) /\ key32 (k_tek k) /\ d = mkD1 (k_kek k) (k_aek k) (k_tek k).
Proof. exact (d1_new_iff ks d). Qed.
Print Assumptions C48_new_checks_keys.
Theorem C48_new_errors (ks : res keys) :
  (forall d, d1_new ks <> Ok d) ->
  (exists x, ks = Err x /\ d1_new ks = Err x) \/ ks = Panic \/ (exists k, ks = Ok k) /\ d1_new ks = Err EInvalidKeyLength.
Proof. exact (d1_new_fails ks). Qed.
Print Assumptions C48_new_errors.
Example C48_new_case : exists k d, d1_new (Ok k) = Ok d /\ length (k_iek k) = 5.
Proof. exists (mkKeys (repeat x01 32) (repeat x02 32) (repeat x03 32) (repeat x04 5)). eexists. split; reflexivity. Qed.
Example C48_new_errors_case : forall d, d1_new (Ok (mkKeys (repeat x01 32) (repeat x02 16) (repeat x03 32) [])) <> Ok d.
Proof. intros d. discriminate. Qed.

(** NewSecureIndex: the index key alone. *)
Theorem C48_index_checks_key (ks : res keys) (iek : bytes) :
  ix_new ks = Ok iek <-> exists k, ks = Ok k /\ key32 (k_iek k) /\ iek = k_iek k.
Proof. exact (ix_new_iff ks iek). Qed.
Print Assumptions C48_index_checks_key.
Theorem C48_index_errors (ks : res keys) :
  (forall iek, ix_new ks <> Ok iek) ->
  (exists x, ks = Err x /\ ix_new ks = Err x) \/ ks = Panic \/ (exists k, ks = Ok k) /\ ix_new ks = Err EIxInvalidMasterKeyLength.
Proof. exact (ix_new_fails ks). Qed.
Print Assumptions C48_index_errors.
Example C48_index_case : exists k iek, ix_new (Ok k) = Ok iek /\ forall d, d1_new (Ok k) <> Ok d.
Proof. exists (mkKeys [] [] [] (repeat x04 32)). eexists. split; [reflexivity|discriminate]. Qed.

(** NewStandalone: its three keys. *)
Theorem C48_standalone_checks_keys (k k' : sa_keys) :
  sa_new k = Ok k' <-> key32 (s_uek k) /\ key32 (s_gek k) /\ key32 (s_tek k) /\ k' = k.
Proof. exact (sa_new_iff k k'). Qed.
Print Assumptions C48_standalone_checks_keys.
Theorem C48_standalone_errors (k : sa_keys) : (forall k', sa_new k <> Ok k') -> sa_new k = Err EInvalidKeyLength.
Proof. exact (sa_new_fails k). Qed.
Print Assumptions C48_standalone_errors.
Example C48_standalone_case : exists k, sa_new k = Ok k.
Proof. now exists (mkSaKeys (repeat x01 32) (repeat x02 32) (repeat x03 32)). Qed.
