(** C71: the KMAC hash object. *)
From Verif Require Import Bytes Go Kmac KmacSpec KmacObj KmacObjSpec KmacProofs KmacObjProofs.
Local Open Scope N_scope.

(** C71.  Whatever calls are made on an object of NewKMAC256, in whatever order and with the data cut
    into whatever pieces, none panics and each Sum appends to its argument the KMAC256 of the bytes
    written since the object was made or last reset; Sum itself changes nothing. *)
Theorem C71_kmac256 (key : bytes) (tagSize : nat) (S : bytes) (calls : list hash_op) :
  32 <= blen key -> (8 <= tagSize)%nat ->
  exists k, new_kmac256 key tagSize S = Ok k /\
            km_run k calls = Ok (answers (kmac 136 key tagSize S) tagSize 136 [] calls).
Proof. exact (object256 key tagSize S calls). Qed.
Print Assumptions C71_kmac256.
Theorem C71_kmac128 (key : bytes) (tagSize : nat) (S : bytes) (calls : list hash_op) :
  16 <= blen key -> (8 <= tagSize)%nat ->
  exists k, new_kmac128 key tagSize S = Ok k /\
            km_run k calls = Ok (answers (kmac 168 key tagSize S) tagSize 168 [] calls).
Proof. exact (object128 key tagSize S calls). Qed.
Print Assumptions C71_kmac128.
(** A key below the security strength, or a tag of less than 8 bytes, is refused by a panic. *)
Theorem C71_refused256 (key : bytes) (tagSize : nat) (S : bytes) :
  blen key < 32 \/ (tagSize < 8)%nat -> new_kmac256 key tagSize S = Panic.
Proof. exact (refused256 key tagSize S). Qed.
Print Assumptions C71_refused256.
Theorem C71_refused128 (key : bytes) (tagSize : nat) (S : bytes) :
  blen key < 16 \/ (tagSize < 8)%nat -> new_kmac128 key tagSize S = Panic.
Proof. exact (refused128 key tagSize S). Qed.
Print Assumptions C71_refused128.
(** The function is the standard's KMAC: cSHAKE's sponge over the string of SP 800-185, for keys up to
    128 bytes and customization strings up to 120 (beyond, see C28_bytepad_refuted). *)
Theorem C71_standard (rate : nat) (key : bytes) (tagSize : nat) (S m : bytes) :
  rate = 136%nat \/ rate = 168%nat ->
  (length key <= 128)%nat -> (length S <= 120)%nat -> 8 * N.of_nat tagSize < 2 ^ 64 ->
  exists s, kmac_string rate key tagSize S m s /\ kmac rate key tagSize S m = sponge rate x04 s tagSize.
Proof.
  intros Hr K C T. exists (kmac_input rate key tagSize S m).
  split; [exact (kmac_input_standard_short rate key tagSize S m Hr K C T)|reflexivity].
Qed.
Print Assumptions C71_standard.
(** The library's two users of the object, call by call: key derivation and tagging. *)
Theorem C71_key_derivation (size : nat) (kik label : bytes) (context : list bytes) :
  kmackdf_calls size kik label context = kmac256 kik size label (concat context).
Proof. exact (kmackdf_calls_eq size kik label context). Qed.
Print Assumptions C71_key_derivation.
Theorem C71_tag (key data : bytes) : tag_calls key data = kmac256 key 32 data [].
Proof. exact (tag_calls_eq key data). Qed.
Print Assumptions C71_tag.
(** An instance: two pieces, a look in between, a restart, and the same bytes in one piece. *)
Example C71_case (key a b : bytes) : 32 <= blen key ->
  exists k, new_kmac256 key 32 [] = Ok k /\
    km_run k [HWrite a; HSum [x01]; HWrite b; HSum []; HReset; HWrite (a ++ b); HSum []; HSize] =
    Ok [AWritten (length a); ASum (x01 :: kmac 136 key 32 [] a); AWritten (length b);
        ASum (kmac 136 key 32 [] (a ++ b)); ADone; AWritten (length (a ++ b));
        ASum (kmac 136 key 32 [] (a ++ b)); ANum 32].
Proof. intros K. apply object256; [exact K|]. repeat constructor. Qed.
Print Assumptions C71_case.
