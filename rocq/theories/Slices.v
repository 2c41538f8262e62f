(** Go slices over shared backing arrays, and the calls of the library that take slices from the
    caller or hand slices out: Encrypt, AddGroupsToAccess and RemoveGroupsFromAccess of d1.go, the
    providers of io/mem.go and io/bolt.go, crypto/aes.go and crypto/cryptor.go.  Everywhere else in the
    model a slice is the list of its elements; here it is a window on an array others may share. *)
From stdpp Require Import gmap.
From Verif Require Import Bytes Go Json Uuid World Types Aes Gcm Kwp Cryptor Id Data D1 Io.
Local Open Scope bool_scope.
Local Open Scope N_scope.
Local Open Scope go_scope.

(** ** Memory.  Arrays are numbered in the order of their allocation and never freed. *)
Notation heap A := (list (list A)) (only parsing).
(** Slice types, The Go Programming Language Specification: array, offset, length and capacity. *)
Record slice := mkSlice { sl_arr : nat; sl_off : nat; sl_len : nat; sl_cap : nat }.
Definition nil_slice : slice := mkSlice 0 0 0 0.

Section Heap.
  Context {A : Type}.
  (** The array a slice looks at. *)
  Definition cells (h : heap A) (a : nat) : list A := match h !! a with Some l => l | None => [] end.
  (** The elements s[0], ..., s[len(s)-1]. *)
  Definition contents (h : heap A) (s : slice) : list A := firstn (sl_len s) (skipn (sl_off s) (cells h (sl_arr s))).
  (** A slice the runtime can have made: its capacity lies within its array. *)
  Definition sl_ok (h : heap A) (s : slice) : Prop :=
    (sl_len s <= sl_cap s)%nat /\ (sl_off s + sl_cap s <= length (cells h (sl_arr s)))%nat.
  (** No room behind the last element. *)
  Definition sl_full (s : slice) : Prop := sl_len s = sl_cap s.

  (** copy(s[i:], xs), for xs that fits. *)
  Definition write_at (l : list A) (i : nat) (xs : list A) : list A := firstn i l ++ xs ++ skipn (i + length xs) l.
  Definition sl_write (h : heap A) (s : slice) (i : nat) (xs : list A) : heap A :=
    alter (fun l => write_at l (sl_off s + i) xs) (sl_arr s) h.
  (** A new array holding [xs] and, behind the slice's length, [spare]. *)
  Definition sl_make (h : heap A) (xs spare : list A) : slice * heap A :=
    (mkSlice (length h) 0 (length xs) (length xs + length spare), h ++ [xs ++ spare]).
  (** append(s, xs...): in place if the capacity suffices, else in a new array.  How much larger than
      needed the new array is, and what lies there, is the runtime's choice [spare]. *)
  Definition sl_append (spare : list A) (h : heap A) (s : slice) (xs : list A) : slice * heap A :=
    if Nat.leb (sl_len s + length xs) (sl_cap s)
    then (mkSlice (sl_arr s) (sl_off s) (sl_len s + length xs) (sl_cap s), sl_write h s (sl_len s) xs)
    else sl_make h (contents h s ++ xs) spare.
  (** s[:n] for n <= cap(s). *)
  Definition sl_to (s : slice) (n : nat) : slice := mkSlice (sl_arr s) (sl_off s) n (sl_cap s).
End Heap.

(** Programs over memory and something else. *)
Section Pair.
  Context {H W : Type}.
  Fixpoint on_fst {A} (p : prog H A) : prog (H * W) A :=
    match p with
    | Ret a => Ret a
    | Step f k => Step (fun hw => let '(x, h) := f (fst hw) in (x, (h, snd hw))) (fun x => on_fst (k x))
    end.
  Fixpoint on_snd {A} (p : prog W A) : prog (H * W) A :=
    match p with
    | Ret a => Ret a
    | Step f k => Step (fun hw => let '(x, w) := f (snd hw) in (x, (fst hw, w))) (fun x => on_snd (k x))
    end.
End Pair.

(** Reading the n elements from s[i] on one after the other; reading outside the array panics. *)
Fixpoint read_from {A} (s : slice) (i n : nat) (acc : list A) : prog (heap A) (res (list A)) :=
  match n with
  | O => Ret (Ok acc)
  | S n' =>
      Step (fun h : heap A => (cells h (sl_arr s) !! (sl_off s + i)%nat, h))
        (fun o => match o with None => Ret Panic | Some x => read_from s (S i) n' (acc ++ [x]) end)
  end.
(** for _, id := range ids, data/access.go:69-80. *)
Definition read_all {A} (s : slice) : prog (heap A) (res (list A)) := read_from s 0 (sl_len s) [].

(** ** d1.go on slices.  Strings are values: memory holds the strings of the groups slices. *)
Inductive slice_call :=
| SEncrypt (tok : bytes) (obj : object) (groups : slice)
| SAddGroups (tok : bytes) (oid : uuid) (groups : slice)
| SRemoveGroups (tok : bytes) (oid : uuid) (groups : slice)
| SCall (c : d1_call).

Section D1.
  Context {S I : Type} (e : env) (io : provider S) (idp : bytes -> prog (world S I) (res identity)).
  Context (oc ac tc : cryptor (world S I)).
  Notation W := (world S I).
  Notation HW := (heap bytes * world S I)%type.
  (** What the runtime leaves behind the elements of the array it grows to hold n of them. *)
  Context (room : nat -> list bytes).

  (** Encrypt, d1.go:119-159.  Line 142 appends the caller's id to the slice it was given; AddGroups then
      reads the result element by element, data/access.go:69-73. *)
  Definition d1_encrypt_s (tok : bytes) (obj : object) (groups : slice) : prog HW (res uuid) :=
    let! i := on_snd (verify_access idp tok ScopeEncrypt) in
    let! oid := on_snd (new_v4 e) in
    let! sealed := on_snd (object_seal oc obj oid) in
    let '(dek, so) := sealed in
    let a0 := new_access dek in
    let* ids := on_fst (act (fun h => sl_append (room (sl_len groups + 1)) h groups [i_id i])) in
    let! l := on_fst (read_all ids) in
    let! gs := lift (add_groups (a_groups a0) l) in
    on_snd (
      let! sa := access_seal ac (mkAccess gs (a_dek a0)) oid in
      let! _ := put_sealed_object io so false in
      let! _ := put_sealed_access io sa false in
      Ret (Ok oid)).
  (** AddGroupsToAccess, d1.go:383-413. *)
  Definition d1_add_groups_s (tok : bytes) (oid : uuid) (groups : slice) : prog HW (res unit) :=
    let! i := on_snd (verify_access idp tok ScopeModifyAccessGroups) in
    let! sa := on_snd (get_sealed_access io oid) in
    let! a := on_snd (authorize_access ac i ScopeModifyAccessGroups sa) in
    let! l := on_fst (read_all groups) in
    let! gs := lift (add_groups (a_groups a) l) in
    on_snd (
      let! sa' := access_seal ac (mkAccess gs (a_dek a)) oid in
      put_sealed_access io sa' true).
  (** RemoveGroupsFromAccess, d1.go:422-452. *)
  Definition d1_remove_groups_s (tok : bytes) (oid : uuid) (groups : slice) : prog HW (res unit) :=
    let! i := on_snd (verify_access idp tok ScopeModifyAccessGroups) in
    let! sa := on_snd (get_sealed_access io oid) in
    let! a := on_snd (authorize_access ac i ScopeModifyAccessGroups sa) in
    let! l := on_fst (read_all groups) in
    on_snd (
      let! sa' := access_seal ac (mkAccess (remove_groups (a_groups a) l) (a_dek a)) oid in
      put_sealed_access io sa' true).

  Definition d1_do_s (c : slice_call) : prog HW (res d1_reply) :=
    match c with
    | SEncrypt tok obj s => bind (d1_encrypt_s tok obj s) (fun r => Ret (res_map ROid r))
    | SAddGroups tok oid s => bind (d1_add_groups_s tok oid s) (fun r => Ret (res_map (fun _ => RUnit) r))
    | SRemoveGroups tok oid s => bind (d1_remove_groups_s tok oid s) (fun r => Ret (res_map (fun _ => RUnit) r))
    | SCall c => on_snd (d1_do e io idp oc ac tc c)
    end.
End D1.

(** ** io/mem.go on slices.  The map holds slices: Store keeps the caller's slice (lines 44, 63), and Load
    hands it out again (line 53-55). *)
Section MemS.
  Notation HM := (heap byte * gmap bytes slice)%type.
  (** newKey, io/mem.go:34-37: reads the id. *)
  Definition mem_key_s (id : slice) (dt : N) : prog HM bytes := act (fun x => (mem_key (contents (fst x) id) dt, x)).
  Definition mem_load_s (k : bytes) : prog HM (option slice) := act (fun x => (snd x !! k, x)).
  Definition mem_store_s (k : bytes) (d : slice) : prog HM unit := act (fun x => (tt, (fst x, <[k := d]> (snd x)))).
  (** Mem.Put, io/mem.go:39-46. *)
  Definition mem_put_s (id : slice) (dt : N) (d : slice) : prog HM (res unit) :=
    let* k := mem_key_s id dt in
    let* o := mem_load_s k in
    match o with
    | Some _ => Ret (Err EIoAlreadyExists)
    | None => let* _ := mem_store_s k d in Ret (Ok tt)
    end.
  (** Mem.Get, io/mem.go:48-56. *)
  Definition mem_get_s (id : slice) (dt : N) : prog HM (res slice) :=
    let* k := mem_key_s id dt in
    let* o := mem_load_s k in
    Ret match o with Some d => Ok d | None => Err EIoNotFound end.
  (** Mem.Update, io/mem.go:58-65. *)
  Definition mem_update_s (id : slice) (dt : N) (d : slice) : prog HM (res unit) :=
    let* k := mem_key_s id dt in
    let* o := mem_load_s k in
    match o with
    | None => Ret (Err EIoNotFound)
    | Some _ => let* _ := mem_store_s k d in Ret (Ok tt)
    end.
  (** Mem.Delete, io/mem.go:67-71. *)
  Definition mem_delete_s (id : slice) (dt : N) : prog HM (res unit) :=
    let* k := mem_key_s id dt in
    let* _ := act (fun x : HM => (tt, (fst x, delete k (snd x)))) in Ret (Ok tt).
End MemS.

(** ** io/bolt.go on slices.  The database holds bytes: bbolt writes the value to its pages before the
    transaction ends. *)
Section BoltS.
  Context (room : nat -> list byte).
  Notation HB := (heap byte * gmap bytes bytes)%type.
  (** key := append(id, dataType.Bytes()...), io/bolt.go:56,67,84,95. *)
  Definition bolt_key_s (id : slice) (dt : N) : prog HB slice :=
    on_fst (act (fun h => sl_append (room (sl_len id + 3)) h id (dt_bytes dt))).
  (** Bolt.Put, io/bolt.go:55-64. *)
  Definition bolt_put_s (id : slice) (dt : N) (d : slice) : prog HB (res unit) :=
    let* key := bolt_key_s id dt in
    act (fun x => let k := contents (fst x) key in
                  match snd x !! k with
                  | Some _ => (Err EIoAlreadyExists, x)
                  | None => (Ok tt, (fst x, <[k := contents (fst x) d]> (snd x)))
                  end).
  (** Bolt.Get, io/bolt.go:66-81: line 71 appends the value to a nil slice. *)
  Definition bolt_get_s (id : slice) (dt : N) : prog HB (res slice) :=
    let* key := bolt_key_s id dt in
    act (fun x => match snd x !! contents (fst x) key with
                  | None | Some [] => (Err EIoNotFound, x)
                  | Some d => let '(out, h) := sl_append (room (length d)) (fst x) nil_slice d in (Ok out, (h, snd x))
                  end).
  (** Bolt.Update, io/bolt.go:83-92. *)
  Definition bolt_update_s (id : slice) (dt : N) (d : slice) : prog HB (res unit) :=
    let* key := bolt_key_s id dt in
    act (fun x => let k := contents (fst x) key in
                  match snd x !! k with
                  | None => (Err EIoNotFound, x)
                  | Some _ => (Ok tt, (fst x, <[k := contents (fst x) d]> (snd x)))
                  end).
  (** Bolt.Delete, io/bolt.go:94-100. *)
  Definition bolt_delete_s (id : slice) (dt : N) : prog HB (res unit) :=
    let* key := bolt_key_s id dt in
    act (fun x => (Ok tt, (fst x, delete (contents (fst x) key) (snd x)))).
End BoltS.

(** ** crypto/aes.go and crypto/cryptor.go on slices. *)
Section Aead.
  Context {S I : Type} (e : env).
  Notation W := (world S I).
  Notation HW := (heap byte * world S I)%type.
  (** What the runtime leaves behind the elements of a grown array. *)
  Context (room : nat -> list byte).
  (** What a failing cipher.AEAD.Open leaves in dst, up to its capacity ("may be overwritten"). *)
  Context (spoil : list byte -> list byte).

  (** AES256GCM.Encrypt, crypto/aes.go:34-60.  Line 39 appends Overhead zeros, in place if there is room;
      line 44 copies the nonce behind the space for the tag; line 57 encrypts in place. *)
  Definition aead_encrypt_s (pt aad key : slice) : prog HW (res slice) :=
    let* kl := on_fst (act (fun h : heap byte => (length (contents h key), h))) in
    if negb (Nat.eqb kl keyLength) then Ret (Err EAesKeyLength)
    else
      let* ct := on_fst (act (fun h => sl_append (room (sl_len pt + Overhead)%nat) h pt (zeros Overhead))) in
      let! nonce := on_snd (get_bytes e (N.of_nat nonceLength)) in
      let* _ := on_fst (act (fun h => (tt, sl_write h ct (sl_len pt + tagLength)%nat nonce))) in
      let data := sl_to ct (sl_len pt) in
      let* _ := on_fst (act (fun h => (tt, sl_write h data 0
                  (gcm_seal (aes_encrypt (contents h key)) nonce (contents h aad) (contents h data))))) in
      Ret (Ok ct).
  (** AES256GCM.Decrypt, crypto/aes.go:62-88: line 82 decrypts in place. *)
  Definition aead_decrypt_s (ct aad key : slice) : prog HW (res slice) :=
    let* kl := on_fst (act (fun h : heap byte => (length (contents h key), h))) in
    if negb (Nat.eqb kl keyLength) then Ret (Err EAesKeyLength)
    else if Nat.ltb (sl_len ct) Overhead then Ret (Err EAesCiphertextLength)
    else
      let data := sl_to ct (sl_len ct - nonceLength) in
      let* o := on_fst (act (fun h : heap byte =>
        let nonce := skipn (sl_len ct - nonceLength) (contents h ct) in
        match gcm_open (aes_encrypt (contents h key)) nonce (contents h aad) (contents h data) with
        | None => (false, sl_write h data 0 (firstn (sl_cap ct) (spoil (firstn (sl_cap ct) (skipn (sl_off ct) (cells h (sl_arr ct)))))))
        | Some p => (true, sl_write h data 0 p)
        end)) in
      if o then Ret (Ok (sl_to ct (sl_len ct - Overhead))) else Ret (Err EAesAuth).

  (** Cryptor.Decrypt, crypto/cryptor.go:83-103, up to json.Unmarshal; lines 94-96 copy the ciphertext.
      [dataBytes] are the JSON bytes of the associated data; Unwrap copies its input (crypto/kwp.go:199-219).
      The key and the associated data are new arrays with whatever room. *)
  Definition cryptor_decrypt_s (kek aad : bytes) (wk ct : slice) : prog HW (res bytes) :=
    let! key := on_fst (act (fun h : heap byte => (aes_kwp_unwrap kek (contents h wk), h))) in
    let* ks := on_fst (act (fun h => sl_make h key (room (length key)))) in
    let* ad := on_fst (act (fun h => sl_make h aad (room (length aad)))) in
    let* copy := on_fst (act (fun h => sl_make h (contents h ct) [])) in
    let! out := aead_decrypt_s copy ad ks in
    let* p := on_fst (act (fun h : heap byte => (contents h out, h))) in
    Ret (Ok p).
  (** Cryptor.Encrypt, crypto/cryptor.go:54-81, from the JSON bytes [pt] and [aad], which json.Marshal puts
      into new arrays with whatever room.  Wrap works on a new array (crypto/kwp.go:104-122,185-196). *)
  Definition cryptor_encrypt_s (kek pt aad : bytes) : prog HW (res (slice * slice)) :=
    let* ps := on_fst (act (fun h => sl_make h pt (room (length pt)))) in
    let* ad := on_fst (act (fun h => sl_make h aad (room (length aad)))) in
    let! key := on_snd (get_bytes e EncryptionKeyLength) in
    let* ks := on_fst (act (fun h => sl_make h key (room (length key)))) in
    let! ct := aead_encrypt_s ps ad ks in
    let* wrapped := on_fst (act (fun h : heap byte => (aes_kwp_wrap kek (contents h ks), h))) in
    let! wk := lift wrapped in
    let* ws := on_fst (act (fun h => sl_make h wk (room (length wk)))) in
    Ret (Ok (ws, ct)).
End Aead.

(** The calls of d1.go with the cryptors New builds, d1.go:66-99. *)
Definition d1_aes_s {S I} (e : env) (io : provider S) (idp : bytes -> prog (world S I) (res identity)) (d : d1)
  (room : nat -> list bytes) (c : slice_call) : prog (heap bytes * world S I) (res d1_reply) :=
  d1_do_s e io idp (aes_cryptor e (d_kek d)) (aes_cryptor e (d_aek d)) (aes_cryptor e (d_tek d)) room c.
