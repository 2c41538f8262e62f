(** The world the library runs in.

    [world S I]: [S] is the state behind the io.Provider, [I] private state of the
    id.Provider.  Randomness and time are read from an arbitrary but fixed environment
    [env]: the n-th draw of the process is [tape n], the n-th reading of the clock is [clock n].

    [w_log] and [w_forged] are ghost state; no program reads them.  [w_log] lists every
    encryption performed by a Cryptor, and [w_forged] records whether a Cryptor has ever
    accepted a (key, associated data, wrapped key, ciphertext) that no Cryptor produced. *)
From Verif Require Import Bytes Go Time.
Local Open Scope bool_scope.
Local Open Scope N_scope.

Record entry := mkEntry { e_kek : bytes; e_aad : bytes; e_wk : bytes; e_ct : bytes; e_pt : bytes }.

Record world (S I : Type) := mkWorld {
  w_io : S; w_id : I; w_draws : nat; w_ticks : nat; w_log : list entry; w_forged : bool }.
Arguments mkWorld {S I}.
Arguments w_io {S I}. Arguments w_id {S I}. Arguments w_draws {S I}. Arguments w_ticks {S I}.
Arguments w_log {S I}. Arguments w_forged {S I}.

Record env := mkEnv {
  tape : nat -> N -> option bytes;   (* None: the random source fails *)
  clock : nat -> gtime;
  pwhash : bytes -> bytes -> bytes   (* pbkdf2.Key(password, salt, 10000, 32, sha3.New256) *)
}.

(** io/io.go:56-72: what an io.Provider offers. *)
Record provider (S : Type) := mkProvider {
  io_put : bytes -> N -> bytes -> prog S (res unit);
  io_get : bytes -> N -> prog S (res bytes);
  io_update : bytes -> N -> bytes -> prog S (res unit);
  io_delete : bytes -> N -> prog S (res unit) }.
Arguments mkProvider {S}.
Arguments io_put {S}. Arguments io_get {S}. Arguments io_update {S}. Arguments io_delete {S}.

(** crypto/interfaces.go CryptorInterface, after JSON encoding of plaintext and associated data:
    encryption takes plaintext and associated data and returns (wrapped key, ciphertext);
    decryption takes associated data, wrapped key and ciphertext. *)
Record cryptor (W : Type) := mkCryptor {
  c_enc : bytes -> bytes -> prog W (res (bytes * bytes));
  c_dec : bytes -> bytes -> bytes -> prog W (res bytes) }.
Arguments mkCryptor {W}.
Arguments c_enc {W}. Arguments c_dec {W}.

Section World.
  Context {S I : Type}.
  Notation W := (world S I).

  Definition set_io (w : W) (s : S) : W := mkWorld s (w_id w) (w_draws w) (w_ticks w) (w_log w) (w_forged w).
  Definition set_id (w : W) (i : I) : W := mkWorld (w_io w) i (w_draws w) (w_ticks w) (w_log w) (w_forged w).
  Definition set_draws (w : W) (n : nat) : W := mkWorld (w_io w) (w_id w) n (w_ticks w) (w_log w) (w_forged w).
  Definition set_ticks (w : W) (n : nat) : W := mkWorld (w_io w) (w_id w) (w_draws w) n (w_log w) (w_forged w).
  Definition set_log (w : W) (l : list entry) : W := mkWorld (w_io w) (w_id w) (w_draws w) (w_ticks w) l (w_forged w).
  Definition set_forged (w : W) (b : bool) : W := mkWorld (w_io w) (w_id w) (w_draws w) (w_ticks w) (w_log w) b.

  (** A storage operation of a program. *)
  Fixpoint on_io {A} (p : prog S A) : prog W A :=
    match p with
    | Ret a => Ret a
    | Step f k => Step (fun w => let '(x, s) := f (w_io w) in (x, set_io w s)) (fun x => on_io (k x))
    end.

  Context (e : env).

  (** NativeRandom.GetBytes, crypto/random.go:27-33. *)
  Definition draw (i : nat) (n : N) : res bytes :=
    match tape e i n with
    | Some b => if blen b =? n then Ok b else Err ERandom
    | None => Err ERandom
    end.
  Definition get_bytes (n : N) : prog W (res bytes) :=
    act (fun w => (draw (w_draws w) n, set_draws w (w_draws w + 1))).
  (** time.Now, data/token.go:52,77. *)
  Definition time_now : prog W gtime :=
    act (fun w => (clock e (w_ticks w), set_ticks w (w_ticks w + 1))).
End World.
