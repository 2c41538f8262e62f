(** encoding/base64 as used by the repository: StdEncoding (inside JSON, for every []byte
    field; json-iterator's base64Codec) and RawURLEncoding (crypto/password.go:45,
    data/token.go:97,102).  Go's standard library, re-specified from RFC 4648 with Go's
    decoder conventions: CR and LF are ignored, trailing bits are not checked. *)
From Verif Require Import Bytes.
Local Open Scope bool_scope.
Local Open Scope N_scope.

Definition sextet_std (n : N) : byte :=
  Nb (if n <? 26 then 65 + n else if n <? 52 then 71 + n else if n <? 62 then n - 4
      else if n =? 62 then 43 else 47).
Definition sextet_url (n : N) : byte :=
  Nb (if n <? 26 then 65 + n else if n <? 52 then 71 + n else if n <? 62 then n - 4
      else if n =? 62 then 45 else 95).

Definition unsextet_common (c : N) : option N :=
  if (65 <=? c) && (c <=? 90) then Some (c - 65)
  else if (97 <=? c) && (c <=? 122) then Some (c - 71)
  else if (48 <=? c) && (c <=? 57) then Some (c + 4)
  else None.
Definition unsextet_std (b : byte) : option N :=
  let c := bN b in
  if c =? 43 then Some 62 else if c =? 47 then Some 63 else unsextet_common c.
Definition unsextet_url (b : byte) : option N :=
  let c := bN b in
  if c =? 45 then Some 62 else if c =? 95 then Some 63 else unsextet_common c.

Definition pad_char : byte := x3d.

Section Enc.
  Context (sx : N -> byte) (ux : byte -> option N) (padded : bool).

  Fixpoint b64_encode (l : bytes) : bytes :=
    match l with
    | [] => []
    | [a] =>
        let n := bN a * 65536 in
        sx (n / 262144) :: sx ((n / 4096) mod 64) :: (if padded then [pad_char; pad_char] else [])
    | [a; b] =>
        let n := bN a * 65536 + bN b * 256 in
        sx (n / 262144) :: sx ((n / 4096) mod 64) :: sx ((n / 64) mod 64) ::
        (if padded then [pad_char] else [])
    | a :: b :: c :: t =>
        let n := bN a * 65536 + bN b * 256 + bN c in
        sx (n / 262144) :: sx ((n / 4096) mod 64) :: sx ((n / 64) mod 64) :: sx (n mod 64) ::
        b64_encode t
    end.

  Definition dec2 (a b : byte) : option bytes :=
    match ux a, ux b with
    | Some p, Some q => Some [Nb ((p * 64 + q) / 16)]
    | _, _ => None
    end.
  Definition dec3 (a b c : byte) : option bytes :=
    match ux a, ux b, ux c with
    | Some p, Some q, Some r =>
        let n := (p * 64 + q) * 64 + r in Some [Nb (n / 1024); Nb (n / 4)]
    | _, _, _ => None
    end.
  Definition dec4 (a b c d : byte) : option bytes :=
    match ux a, ux b, ux c, ux d with
    | Some p, Some q, Some r, Some s =>
        let n := ((p * 64 + q) * 64 + r) * 64 + s in Some [Nb (n / 65536); Nb (n / 256); Nb n]
    | _, _, _, _ => None
    end.

  Fixpoint b64_dec (l : bytes) : option bytes :=
    match l with
    | [] => Some []
    | [_] => None
    | [a; b] => if padded then None else dec2 a b
    | [a; b; c] => if padded then None else dec3 a b c
    | a :: b :: c :: d :: t =>
        if padded && byte_eqb d pad_char then
          match t with
          | [] => if byte_eqb c pad_char then dec2 a b else dec3 a b c
          | _ => None
          end
        else
          match dec4 a b c d, b64_dec t with
          | Some x, Some y => Some (x ++ y)
          | _, _ => None
          end
    end.
End Enc.

Definition not_crlf (b : byte) : bool := negb (byte_eqb b x0a || byte_eqb b x0d).

(** base64.StdEncoding.EncodeToString / DecodeString *)
Definition b64std_encode (l : bytes) : bytes := b64_encode sextet_std true l.
Definition b64std_decode (l : bytes) : option bytes := b64_dec unsextet_std true (List.filter not_crlf l).
(** base64.RawURLEncoding.EncodeToString / DecodeString *)
Definition b64url_encode (l : bytes) : bytes := b64_encode sextet_url false l.
Definition b64url_decode (l : bytes) : option bytes := b64_dec unsextet_url false (List.filter not_crlf l).
