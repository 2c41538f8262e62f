(** crypto/password.go.  NewPasswordHasher (36-38) takes the random source of World.v; passwordHash (64-66) is
    the function [pwhash] of the environment. *)
From Verif Require Import Bytes Base64 Go World.
Local Open Scope bool_scope.
Local Open Scope N_scope.
Local Open Scope go_scope.

(** crypto/password.go:26-29 *)
Definition passwordLength := 32.
Definition saltLength := 8%nat.

Section Password.
  Context {S I : Type} (e : env).
  Notation W := (world S I).

  (** GeneratePassword, crypto/password.go:40-56: the password and its salted hash.  PBKDF2
      itself is not modelled: it is the arbitrary function [pwhash] of the environment. *)
  Definition generate_password : prog W (res (bytes * bytes)) :=
    let! raw := get_bytes e passwordLength in
    let password := b64url_encode raw in
    let! salt := get_bytes e (N.of_nat saltLength) in
    Ret (Ok (password, salt ++ pwhash e password salt)).

  (** Compare, crypto/password.go:58-62: slicing panics on a record shorter than the salt;
      ConstantTimeCompare is equality of byte strings. *)
  Definition compare_password (password : bytes) (saltAndHash : gslice) : res bool :=
    let r := slice_bytes saltAndHash in
    res_bind (go_to (Z.of_nat saltLength) r) (fun salt =>
    res_bind (go_from (Z.of_nat saltLength) r) (fun hash =>
    Ok (bytes_eqb (pwhash e password salt) hash))).
End Password.
