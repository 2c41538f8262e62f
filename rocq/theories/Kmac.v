(** Keccak-f[1600], the sponge, cSHAKE and KMAC.

    golang.org/x/crypto/sha3 is outside the repository; it is re-specified from FIPS 202 and
    SP 800-185 and validated against the vectors of /repo/crypto/kmac_test.go and
    kdf_test.go.  KMAC itself is /repo/crypto/kmac.go, modelled line by line, including its
    own bytepad. *)
From Verif Require Import Bytes Go.
Local Open Scope bool_scope.
Local Open Scope N_scope.

(** ** Keccak-f[1600] *)
Definition mask64 : N := 18446744073709551615.
Definition rotl (n r : N) : N :=
  N.lor (N.land (N.shiftl n r) mask64) (N.shiftr n (64 - r)).
Definition not64 (n : N) : N := N.lxor n mask64.

Definition round_constants : list N :=
  [1; 32898; 9223372036854808714; 9223372039002292224; 32907; 2147483649; 9223372039002292353; 9223372036854808585; 138; 136; 2147516425; 2147483658; 2147516555; 9223372036854775947; 9223372036854808713; 9223372036854808579; 9223372036854808578; 9223372036854775936; 32778; 9223372039002259466; 9223372039002292353; 9223372036854808704; 2147483649; 9223372039002292232].
(** Rotation offsets, lane x + 5*y. *)
Definition rho_offsets : list N :=
  [0; 1; 62; 28; 27; 36; 44; 6; 55; 20; 3; 10; 43; 25; 39; 41; 45; 15; 21; 8; 18; 2; 61; 56; 14].

Definition lane (s : list N) (i : nat) : N := nth i s 0.

Definition theta (s : list N) : list N :=
  let c x := N.lxor (lane s x) (N.lxor (lane s (x+5)) (N.lxor (lane s (x+10)) (N.lxor (lane s (x+15)) (lane s (x+20))))) in
  let cs := map c (seq 0 5) in
  let d x := N.lxor (nth ((x + 4) mod 5) cs 0) (rotl (nth ((x + 1) mod 5) cs 0) 1) in
  let ds := map d (seq 0 5) in
  map (fun i => N.lxor (lane s i) (nth (i mod 5) ds 0)) (seq 0 25).

(** rho and pi: B[y, 2x+3y] = rot(A[x,y], r[x,y]); here [i] is the target lane and the source
    is the lane (x', y') with y = i mod 5 ... computed by inversion. *)
Definition pi_src (i : nat) : nat :=
  (* target (X,Y) = (y, 2x+3y); so y = X and x = (X + 3Y) mod 5 *)
  let X := (i mod 5)%nat in let Y := (i / 5)%nat in
  (((X + 3 * Y) mod 5) + 5 * X)%nat.
Definition rho_pi (s : list N) : list N :=
  map (fun i => let j := pi_src i in rotl (lane s j) (nth j rho_offsets 0)) (seq 0 25).
Definition chi (s : list N) : list N :=
  map (fun i =>
    let x := (i mod 5)%nat in let y5 := (i - x)%nat in
    N.lxor (lane s i) (N.land (not64 (lane s (y5 + (x + 1) mod 5))) (lane s (y5 + (x + 2) mod 5))))
    (seq 0 25).
Definition iota (rc : N) (s : list N) : list N :=
  match s with [] => [] | a :: t => N.lxor a rc :: t end.
Definition keccak_f (s : list N) : list N :=
  fold_left (fun s rc => iota rc (chi (rho_pi (theta s)))) round_constants s.


(** ** Sponge with byte-aligned rate *)
Fixpoint lanes_of (n : nat) (l : bytes) : list N :=
  match n with
  | O => []
  | S n' => le_to_N (firstn 8 l) :: lanes_of n' (skipn 8 l)
  end.
Definition absorb_block (s : list N) (block : bytes) : list N :=
  let ls := lanes_of 25 block in
  keccak_f (map (fun i => N.lxor (lane s i) (nth i ls 0)) (seq 0 25)).
Fixpoint absorb (fuel rate : nat) (s : list N) (l : bytes) : list N :=
  match fuel with
  | O => s
  | S f => match l with
           | [] => s
           | _ => absorb f rate (absorb_block s (firstn rate l)) (skipn rate l)
           end
  end.
(** Padding: domain-separation byte, zeros, final bit 0x80. *)
Definition sponge_pad (rate : nat) (ds : byte) (l : bytes) : bytes :=
  let z := (rate - 1 - (length l mod rate))%nat in
  match z with
  | O => l ++ [Nb (N.lor (bN ds) 128)]
  | S z' => l ++ [ds] ++ zeros z' ++ [x80]
  end.
Definition squeeze_block (s : list N) : bytes := concat (map (N_to_le 8) s).
Fixpoint squeeze (fuel rate : nat) (s : list N) : bytes :=
  match fuel with
  | O => []
  | S f => firstn rate (squeeze_block s) ++ squeeze f rate (keccak_f s)
  end.
Definition sponge (rate : nat) (ds : byte) (msg : bytes) (outlen : nat) : bytes :=
  let p := sponge_pad rate ds msg in
  let s := absorb (length p) rate (repeat 0 25) p in
  firstn outlen (squeeze (S (outlen / rate)) rate s).

(** ** SP 800-185 encodings as coded in kmac.go *)

(** Number of leading zero bytes to trim from an 8-byte big-endian number, at most 7: the
    loops at kmac.go:129-131 and 142-144. *)
Fixpoint trim_zeros (k : nat) (l : bytes) : bytes :=
  match k, l with
  | S k', b :: t => if byte_eqb b x00 then trim_zeros k' t else l
  | _, _ => l
  end.

(** leftEncode, kmac.go:124-135; [value] is a uint64. *)
Definition leftEncode (value : N) : bytes :=
  let t := trim_zeros 7 (N_to_be 8 value) in Nb (blen t) :: t.
(** rightEncode, kmac.go:137-148. *)
Definition rightEncode (value : N) : bytes :=
  let t := trim_zeros 7 (N_to_be 8 value) in t ++ [Nb (blen t)].
(** bytepad, kmac.go:115-122. *)
Definition bytepad (input : bytes) (w : nat) : bytes :=
  let buf := leftEncode (N.of_nat w) ++ input in
  let padlen := (w - (length buf mod w))%nat in
  buf ++ zeros padlen.

(** encode_string of SP 800-185, used by x/crypto/sha3's newCShake for N and S
    (leftEncode(len*8) followed by the string). *)
Definition encode_string (s : bytes) : bytes := leftEncode (8 * blen s) ++ s.

(** sha3.NewCShake128/256([]byte("KMAC"), S): the bytes absorbed first. *)
Definition cshake_prefix (S : bytes) (rate : nat) : bytes :=
  bytepad (encode_string (str "KMAC") ++ encode_string S) rate.

(** KMAC.  newKMAC kmac.go:74-87: initBlock = leftEncode(8*len(key)) || key, absorbed through
    bytepad; the message; Sum kmac.go:107-113 absorbs rightEncode(8*tagSize). *)
Definition kmac_input (rate : nat) (key : bytes) (tagSize : nat) (S msg : bytes) : bytes :=
  cshake_prefix S rate ++ bytepad (leftEncode (8 * blen key) ++ key) rate ++ msg ++
  rightEncode (8 * N.of_nat tagSize).
Definition kmac (rate : nat) (key : bytes) (tagSize : nat) (S msg : bytes) : bytes :=
  sponge rate x04 (kmac_input rate key tagSize S msg) tagSize.

(** NewKMAC128 (kmac.go:52-58) and NewKMAC256 (66-72), then Write(msg), Sum(nil): panics on
    short keys or tags (newKMAC, 75-77). *)
Definition kmac128 (key : bytes) (tagSize : nat) (S msg : bytes) : res bytes :=
  if blen key <? 16 then Panic
  else if Nat.ltb tagSize 8 then Panic
  else Ok (kmac 168 key tagSize S msg).
Definition kmac256 (key : bytes) (tagSize : nat) (S msg : bytes) : res bytes :=
  if blen key <? 32 then Panic
  else if Nat.ltb tagSize 8 then Panic
  else Ok (kmac 136 key tagSize S msg).

(** KMACKDF, crypto/kdf.go:22-28: the context strings are written one after the other. *)
Definition kmackdf (size : nat) (kik label : bytes) (context : list bytes) : res bytes :=
  kmac256 kik size label (concat context).

