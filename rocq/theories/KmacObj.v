(** The KMAC hash object: crypto/kmac.go as a stateful hash.Hash, on top of the sponge object of
    golang.org/x/crypto/sha3 (v0.0.0-20220919173607, sha3.go, shake.go; outside the repository,
    re-specified here).  Kmac.v gives KMAC as one function of the whole message; here the bytes
    arrive in any number of Write calls, Sum may be asked for at any time, and Reset starts anew.

    Simplifications: an object is a value and each method returns the next value.  That is faithful
    because nothing is shared: newKMAC copies the key into initBlock (kmac.go:82-84), Clone copies the
    sponge with its storage array, and Sum only ever writes to that clone and to a fresh slice.  The
    methods Read and Clone that *kmac inherits from the embedded ShakeHash are not part of hash.Hash,
    which is what NewKMAC128 and NewKMAC256 return, and are not offered. *)
From Verif Require Import Bytes Go Kmac.
Local Open Scope bool_scope.
Local Open Scope N_scope.

(** sha3 [state]: the 25 lanes, the bytes not yet absorbed (or not yet read), the direction and the
    rate.  The domain byte of cSHAKE is 0x04. *)
Record sponge_obj := Sponge { sp_a : list N; sp_buf : bytes; sp_squeezing : bool; sp_rate : nat }.

(** state.permute. *)
Definition sp_permute (d : sponge_obj) : sponge_obj :=
  if sp_squeezing d then
    let a := keccak_f (sp_a d) in Sponge a (firstn (sp_rate d) (squeeze_block a)) true (sp_rate d)
  else Sponge (absorb_block (sp_a d) (sp_buf d)) [] false (sp_rate d).

(** The loop of state.Write; [fuel] bounds its rounds (each takes at least one byte of [p]). *)
Fixpoint sp_write_loop (fuel : nat) (d : sponge_obj) (p : bytes) : sponge_obj :=
  match fuel, p with
  | O, _ | _, [] => d
  | S f, _ =>
    if (Nat.eqb (length (sp_buf d)) 0 && Nat.leb (sp_rate d) (length p))%bool then
      sp_write_loop f
        (Sponge (absorb_block (sp_a d) (firstn (sp_rate d) p)) (sp_buf d) false (sp_rate d))
        (skipn (sp_rate d) p)
    else
      let todo := Nat.min (sp_rate d - length (sp_buf d)) (length p) in
      let d' := Sponge (sp_a d) (sp_buf d ++ firstn todo p) false (sp_rate d) in
      sp_write_loop f
        (if Nat.eqb (length (sp_buf d')) (sp_rate d) then sp_permute d' else d') (skipn todo p)
  end.
(** state.Write: panics once the sponge has been read. *)
Definition sp_write (d : sponge_obj) (p : bytes) : res sponge_obj :=
  if sp_squeezing d then Panic else Ok (sp_write_loop (length p) d p).

(** The last byte of the block has its top bit flipped: d.buf[d.rate-1] ^= 0x80. *)
Definition flip_last (l : bytes) : bytes :=
  firstn (length l - 1) l ++
  match skipn (length l - 1) l with [b] => [Nb (N.lxor (bN b) 128)] | r => r end.
(** state.padAndPermute(0x04). *)
Definition sp_pad (d : sponge_obj) : sponge_obj :=
  let buf := sp_buf d ++ [x04] in
  let block := flip_last (buf ++ zeros (sp_rate d - length buf)) in
  let a := absorb_block (sp_a d) block in
  Sponge a (firstn (sp_rate d) (squeeze_block a)) true (sp_rate d).

(** The loop of state.Read for [n] bytes; [fuel] bounds its rounds. *)
Fixpoint sp_read_loop (fuel : nat) (d : sponge_obj) (n : nat) : bytes * sponge_obj :=
  match fuel, n with
  | O, _ | _, O => ([], d)
  | S f, _ =>
    let k := Nat.min n (length (sp_buf d)) in
    let d' := Sponge (sp_a d) (skipn k (sp_buf d)) true (sp_rate d) in
    let d'' := if Nat.eqb (length (sp_buf d')) 0 then sp_permute d' else d' in
    let '(out, e) := sp_read_loop f d'' (n - k) in
    (firstn k (sp_buf d) ++ out, e)
  end.
(** state.Read. *)
Definition sp_read (d : sponge_obj) (n : nat) : bytes * sponge_obj :=
  sp_read_loop n (if sp_squeezing d then d else sp_pad d) n.

(** sha3 cshakeState: the sponge and the encoded function name and customization string. *)
Record cshake_obj := CShake { cs_sponge : sponge_obj; cs_init : bytes }.
Definition cs_write (c : cshake_obj) (p : bytes) : res cshake_obj :=
  match sp_write (cs_sponge c) p with
  | Ok d => Ok (CShake d (cs_init c)) | Err e => Err e | Panic => Panic end.
(** cshakeState.Reset (state.Reset, then the prefix again); also what newCShake does first. *)
Definition cs_reset (c : cshake_obj) : res cshake_obj :=
  let rate := sp_rate (cs_sponge c) in
  cs_write (CShake (Sponge (repeat 0 25) [] false rate) (cs_init c)) (bytepad (cs_init c) rate).
(** sha3.NewCShake128/256([]byte("KMAC"), S). *)
Definition new_cshake (S : bytes) (rate : nat) : res cshake_obj :=
  cs_reset (CShake (Sponge (repeat 0 25) [] false rate) (encode_string (str "KMAC") ++ encode_string S)).

(** The kmac struct, kmac.go:34-44. *)
Record kmac_obj := Kmac { km_hash : cshake_obj; km_tag_size : nat; km_init : bytes; km_block : nat }.

(** Write, promoted from the embedded ShakeHash (kmac.go:35). *)
Definition km_write (k : kmac_obj) (p : bytes) : res kmac_obj :=
  match cs_write (km_hash k) p with
  | Ok c => Ok (Kmac c (km_tag_size k) (km_init k) (km_block k)) | Err e => Err e | Panic => Panic end.
(** Size, kmac.go:101-103. *)
Definition km_size (k : kmac_obj) : nat := km_tag_size k.
(** BlockSize, kmac.go:96-98. *)
Definition km_block_size (k : kmac_obj) : nat := km_block k.
(** newKMAC, kmac.go:74-87. *)
Definition new_kmac (key : bytes) (tagSize : nat) (c : cshake_obj) (blockSize : nat) : res kmac_obj :=
  if Nat.ltb tagSize 8 then Panic
  else
    let init := leftEncode (8 * blen key) ++ key in
    let k := Kmac c tagSize init blockSize in
    km_write k (bytepad init (km_block_size k)).
(** NewKMAC128, kmac.go:52-58. *)
Definition new_kmac128 (key : bytes) (tagSize : nat) (S : bytes) : res kmac_obj :=
  if blen key <? 16 then Panic
  else match new_cshake S 168 with
       | Ok c => new_kmac key tagSize c 168 | Err e => Err e | Panic => Panic end.
(** NewKMAC256, kmac.go:66-72. *)
Definition new_kmac256 (key : bytes) (tagSize : nat) (S : bytes) : res kmac_obj :=
  if blen key <? 32 then Panic
  else match new_cshake S 136 with
       | Ok c => new_kmac key tagSize c 136 | Err e => Err e | Panic => Panic end.
(** Reset, kmac.go:90-93. *)
Definition km_reset (k : kmac_obj) : res kmac_obj :=
  match cs_reset (km_hash k) with
  | Ok c => km_write (Kmac c (km_tag_size k) (km_init k) (km_block k)) (bytepad (km_init k) (km_block_size k))
  | Err e => Err e | Panic => Panic end.
(** Sum, kmac.go:107-113: on a clone of the sponge. *)
Definition km_sum (k : kmac_obj) (b : bytes) : res (bytes * kmac_obj) :=
  let dup := km_hash k in
  match cs_write dup (rightEncode (8 * N.of_nat (km_tag_size k))) with
  | Ok dup => Ok (b ++ fst (sp_read (cs_sponge dup) (km_tag_size k)), k)
  | Err e => Err e | Panic => Panic end.

(** The methods of hash.Hash as one operation, and a sequence of calls. *)
Inductive hash_op := HWrite (p : bytes) | HSum (b : bytes) | HReset | HSize | HBlockSize.
Inductive hash_ans := AWritten (n : nat) | ASum (out : bytes) | ADone | ANum (n : nat).
Definition km_do (k : kmac_obj) (o : hash_op) : res (hash_ans * kmac_obj) :=
  match o with
  | HWrite p => match km_write k p with Ok k => Ok (AWritten (length p), k) | Err e => Err e | Panic => Panic end
  | HSum b => match km_sum k b with Ok (out, k) => Ok (ASum out, k) | Err e => Err e | Panic => Panic end
  | HReset => match km_reset k with Ok k => Ok (ADone, k) | Err e => Err e | Panic => Panic end
  | HSize => Ok (ANum (km_size k), k)
  | HBlockSize => Ok (ANum (km_block_size k), k)
  end.
Fixpoint km_run (k : kmac_obj) (os : list hash_op) : res (list hash_ans) :=
  match os with
  | [] => Ok []
  | o :: os => match km_do k o with
               | Ok (a, k) => match km_run k os with Ok l => Ok (a :: l) | Err e => Err e | Panic => Panic end
               | Err e => Err e | Panic => Panic end
  end.

(** KMACKDF, crypto/kdf.go:22-28, call by call. *)
Fixpoint kdf_writes (k : kmac_obj) (context : list bytes) : res kmac_obj :=
  match context with
  | [] => Ok k
  | c :: cs => match km_write k c with Ok k => kdf_writes k cs | Err e => Err e | Panic => Panic end
  end.
Definition kmackdf_calls (size : nat) (kik label : bytes) (context : list bytes) : res bytes :=
  match new_kmac256 kik size label with
  | Ok k => match kdf_writes k context with
            | Ok k => match km_sum k [] with Ok (out, _) => Ok out | Err e => Err e | Panic => Panic end
            | Err e => Err e | Panic => Panic end
  | Err e => Err e | Panic => Panic end.
(** The KMAC part of Tagger.Tag, crypto/tagger.go:45-46: the data is the customization string and
    nothing is written. *)
Definition tag_calls (key data : bytes) : res bytes :=
  match new_kmac256 key 32 data with
  | Ok k => match km_sum k [] with Ok (out, _) => Ok out | Err e => Err e | Panic => Panic end
  | Err e => Err e | Panic => Panic end.
