(** UUIDs (github.com/gofrs/uuid v4.3.0, outside the repository) and hexadecimal text.

    A uuid.UUID is a [16]byte; here a byte list that is 16 long in every use. *)
From Verif Require Import Bytes Json.
Local Open Scope bool_scope.
Local Open Scope N_scope.

Definition uuid := bytes.
Definition uuid_wf (u : uuid) : Prop := length u = 16%nat.

(** encoding/hex, and the %x verb of io/mem.go:35. *)
Definition hex_byte (b : byte) : bytes := [hexdigit (bN b / 16); hexdigit (bN b mod 16)].
Fixpoint hex_encode (l : bytes) : bytes :=
  match l with [] => [] | b :: t => hexdigit (bN b / 16) :: hexdigit (bN b mod 16) :: hex_encode t end.
Fixpoint hex_decode (l : bytes) : option bytes :=
  match l with
  | [] => Some []
  | h :: lo :: t =>
      match unhexdigit h, unhexdigit lo, hex_decode t with
      | Some p, Some q, Some r => Some (Nb (p * 16 + q) :: r)
      | _, _, _ => None
      end
  | _ => None
  end.

(** uuid.NewV4, d1.go:127, id/standalone.go:136,302: 16 random bytes with version and
    variant bits forced. *)
Definition uuid_v4 (r : bytes) : uuid :=
  firstn 6 r ++
  [Nb (N.lor (N.land (bN (nth 6 r x00)) 15) 64)] ++
  firstn 1 (skipn 7 r) ++
  [Nb (N.lor (N.land (bN (nth 8 r x00)) 63) 128)] ++
  firstn 7 (skipn 9 r).

(** UUID.String / MarshalText: 8-4-4-4-12 lower-case digits. *)
Definition uuid_text (u : uuid) : bytes :=
  hex_encode (firstn 4 u) ++ str "-" ++ hex_encode (firstn 2 (skipn 4 u)) ++ str "-" ++
  hex_encode (firstn 2 (skipn 6 u)) ++ str "-" ++ hex_encode (firstn 2 (skipn 8 u)) ++ str "-" ++
  hex_encode (skipn 10 u).

(** UUID.UnmarshalText: canonical, hash-like, braced and URN forms. *)
Definition is_dash (l : bytes) (i : nat) : bool := byte_eqb (nth i l x00) x2d.
Definition uuid_plain (t : bytes) : option uuid :=
  if Nat.eqb (length t) 32 then hex_decode t
  else if Nat.eqb (length t) 36 then
    if is_dash t 8 && is_dash t 13 && is_dash t 18 && is_dash t 23
    then hex_decode (firstn 8 t ++ firstn 4 (skipn 9 t) ++ firstn 4 (skipn 14 t) ++
                     firstn 4 (skipn 19 t) ++ skipn 24 t)
    else None
  else None.
Definition uuid_parse (t : bytes) : option uuid :=
  let n := length t in
  if Nat.eqb n 32 || Nat.eqb n 36 then uuid_plain t
  else if Nat.eqb n 34 || Nat.eqb n 38 then
    if byte_eqb (nth 0 t x00) x7b && byte_eqb (nth (n - 1) t x00) x7d
    then uuid_plain (firstn (n - 2) (skipn 1 t)) else None
  else if Nat.eqb n 41 || Nat.eqb n 45 then
    if bytes_eqb (firstn 9 t) (str "urn:uuid:") then uuid_plain (skipn 9 t) else None
  else None.
