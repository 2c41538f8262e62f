(** AES-KWP key wrapping, /repo/crypto/kwp.go.

    The data slice after the first eight bytes is represented as the list of its
    8-byte blocks; buf[:8] is the register [a]. *)
From Verif Require Import Bytes Go Aes.
Local Open Scope bool_scope.
Local Open Scope N_scope.

(** kwp.go:44-52 *)
Definition MinWrapSize : N := 16.
Definition MaxWrapSize : N := 8192.
Definition roundCount : nat := 6.
Definition ivPrefix : N := 2790873510. (* 0xA65959A6 *)

(** wrappingSize, kwp.go:82-85.  int is 64 bits wide; the arguments are at most 2^32-1. *)
Definition wrappingSize (inputSize : N) : N :=
  let paddingSize := 7 - (inputSize + 7) mod 8 in
  inputSize + paddingSize + 8.

(** Splitting a slice whose length is a multiple of eight. *)
Fixpoint blocks8 (fuel : nat) (l : bytes) : list bytes :=
  match fuel with
  | O => []
  | S f => match l with [] => [] | _ => firstn 8 l :: blocks8 f (skipn 8 l) end
  end.

(** "xor the round constant in big endian order to the left half of the buffer",
    kwp.go:108-114 and 144-150: bytes 7,6,5,4 get the four low bytes of the constant. *)
Definition xor_const (a : bytes) (rc : N) : bytes :=
  xor_bytes a (zeros 4 ++ N_to_be 4 rc).

Section KWP.
  Context (E D : bytes -> bytes).

  (** Inner loop of computeW, kwp.go:104-117, for one value of i; [rc] is
      i*blockCount + j + 1. *)
  Fixpoint w_round (a : bytes) (rc : N) (bs : list bytes) : bytes * list bytes :=
    match bs with
    | [] => (a, [])
    | b :: bs' =>
        let buf := E (a ++ b) in
        let a1 := xor_const (firstn 8 buf) rc in
        let '(a2, out) := w_round a1 (rc + 1) bs' in
        (a2, skipn 8 buf :: out)
    end.
  (** Outer loop of computeW, kwp.go:103-118: i = first, first+1, ... *)
  Fixpoint w_rounds (rounds : nat) (i : N) (a : bytes) (bs : list bytes) : bytes * list bytes :=
    match rounds with
    | O => (a, bs)
    | S r => let '(a1, bs1) := w_round a (i * N.of_nat (length bs) + 1) bs in
             w_rounds r (i + 1) a1 bs1
    end.

  (** computeW, kwp.go:89-122. *)
  Definition computeW (iv key : bytes) : res bytes :=
    if (blen key <=? 8) || (2147483647 - 16 <? blen key) || negb (blen iv =? 8) then Err EKwpParams
    else
      let body := key ++ zeros (N.to_nat (wrappingSize (blen key) - 8 - blen key)) in
      let '(a, bs) := w_rounds roundCount 0 iv (blocks8 (length body) body) in
      Ok (a ++ concat bs).

  (** Inner loop of invertW, kwp.go:140-155, j counting down. *)
  Fixpoint inv_round (a : bytes) (rc : N) (bs : list bytes) : bytes * list bytes :=
    match bs with
    | [] => (a, [])
    | b :: bs' =>
        let '(a1, out) := inv_round a (rc + 1) bs' in
        let buf := D (xor_const a1 rc ++ b) in
        (firstn 8 buf, skipn 8 buf :: out)
    end.
  (** Outer loop of invertW, kwp.go:139-156: i = rounds-1 downto 0. *)
  Fixpoint inv_rounds (rounds : nat) (a : bytes) (bs : list bytes) : bytes * list bytes :=
    match rounds with
    | O => (a, bs)
    | S r => let '(a1, bs1) := inv_round a (N.of_nat r * N.of_nat (length bs) + 1) bs in
             inv_rounds r a1 bs1
    end.

  (** invertW, kwp.go:126-160. *)
  Definition invertW (wrapped : bytes) : res bytes :=
    if (blen wrapped <? 24) || negb (blen wrapped mod 8 =? 0) then Err EKwpDataSize
    else
      let a0 := firstn 8 wrapped in
      let body := skipn 8 wrapped in
      let '(a, bs) := inv_rounds roundCount a0 (blocks8 (length body) body) in
      Ok (a ++ concat bs).

  (** KWP.Wrap, kwp.go:163-176. *)
  Definition kwp_wrap (data : bytes) : res bytes :=
    if blen data <? MinWrapSize then Err EKwpTooSmall
    else if MaxWrapSize <? blen data then Err EKwpTooLarge
    else
      let iv := N_to_be 4 ivPrefix ++ N_to_be 4 (blen data) in
      computeW iv data.

  (** KWP.Unwrap, kwp.go:181-219. *)
  Definition kwp_unwrap (data : bytes) : res bytes :=
    if blen data <? wrappingSize MinWrapSize then Err EKwpWrappedTooSmall
    else if wrappingSize MaxWrapSize <? blen data then Err EKwpWrappedTooLarge
    else if negb (blen data mod 8 =? 0) then Err EKwpNotMultiple
    else
      res_bind (invertW data) (fun unwrapped =>
        (* binary.BigEndian.Uint32 panics on fewer than four bytes *)
        res_bind (go_to 4 unwrapped) (fun prefix =>
        if negb (be_to_N prefix =? ivPrefix) then Err EKwpIntegrity
        else
          res_bind (go_slice 4 8 unwrapped) (fun size =>
          let encodedSize := be_to_N size in
          if negb (wrappingSize encodedSize =? blen unwrapped) then Err EKwpIntegrity
          else
            let pad := skipn (8 + N.to_nat encodedSize) unwrapped in
            if forallb (fun b => byte_eqb b x00) pad then go_slice 8 (8 + Z.of_N encodedSize) unwrapped
            else Err EKwpIntegrity))).
End KWP.

(** NewKWP, kwp.go:67-78: a KWP value is its (validated) wrapping key. *)
Definition new_kwp (key : bytes) : res bytes :=
  if (blen key =? 16) || (blen key =? 32) then Ok key else Err EKwpKeySize.

Definition aes_kwp_wrap (kek data : bytes) : res bytes := kwp_wrap (aes_encrypt kek) data.
Definition aes_kwp_unwrap (kek data : bytes) : res bytes := kwp_unwrap (aes_decrypt kek) data.
