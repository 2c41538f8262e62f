(** NIST SP 800-185: the encodings KMAC is defined with, written from the standard. *)
From Verif Require Import Bytes.
Local Open Scope N_scope.

(** "Let n be the smallest positive integer for which 2^(8n) > x." *)
Definition least_bytes (x : N) (n : nat) : Prop :=
  (0 < n)%nat /\ x < 256 ^ N.of_nat n /\ (forall m, (0 < m)%nat -> x < 256 ^ N.of_nat m -> (n <= m)%nat).
(** left_encode(x) and right_encode(x), section 2.3.1: the n base-256 digits of x, preceded
    (followed) by the byte n. *)
Definition left_encode (x : N) (out : bytes) : Prop :=
  exists n, least_bytes x n /\ out = Nb (N.of_nat n) :: N_to_be n x.
Definition right_encode (x : N) (out : bytes) : Prop :=
  exists n, least_bytes x n /\ out = N_to_be n x ++ [Nb (N.of_nat n)].
(** encode_string(S), section 2.3.2: left_encode(len(S)) || S, the length in bits. *)
Definition encodes_string (s out : bytes) : Prop :=
  exists l, left_encode (8 * blen s) l /\ out = l ++ s.
(** bytepad(X, w), section 2.3.3: left_encode(w) || X, then zero bytes while the length is not a
    multiple of w. *)
Definition pads (x : bytes) (w : nat) (out : bytes) : Prop :=
  exists l k, left_encode (N.of_nat w) l /\ out = l ++ x ++ zeros k /\ (length out mod w = 0)%nat /\ (k < w)%nat.
(** KMAC128/KMAC256(K, X, L, S), section 4.3: the string handed to Keccak[c],
    bytepad(encode_string("KMAC") || encode_string(S), rate) ||
    bytepad(encode_string(K), rate) || X || right_encode(L). *)
Definition kmac_string (rate : nat) (key : bytes) (tagSize : nat) (S msg out : bytes) : Prop :=
  exists n s k pn pk r,
    encodes_string (str "KMAC") n /\ encodes_string S s /\ encodes_string key k /\
    pads (n ++ s) rate pn /\ pads k rate pk /\ right_encode (8 * N.of_nat tagSize) r /\
    out = pn ++ pk ++ msg ++ r.
