(** index/index.go: the secure index.

    The three loops of the code have no bound; here they count down from [fuel] and return [EFuel],
    which is no error of the code, when it runs out.  The theorems say how much suffices. *)
From stdpp Require Import gmap.
From Verif Require Import Bytes Go Json Types World Kmac Cryptor Id Data D1.
Local Open Scope bool_scope.
Local Open Scope N_scope.
Local Open Scope go_scope.

(** index/index.go:34 *)
Definition MasterKeyLength : N := 32.
(** uint64 addition, index/index.go:106. *)
Definition u64_succ (n : N) : N := (n + 1) mod 2 ^ 64.
(** data.Node{} *)
Definition node_zero : node := mkNode [] 0.

(** The calls of the public interface, and what they return. *)
Inductive ix_call :=
| IAdd (tok keyword identifier : bytes)
| ISearch (tok keyword : bytes)
| IDelete (tok keyword identifier : bytes).
Inductive ix_reply :=
| IRUnit
| IRIds (l : list bytes).

(** NewSecureIndex, index/index.go:59-77, given what the key provider returned: only the index key
    is looked at. *)
Definition ix_new (ks : res keys) : res bytes :=
  res_bind ks (fun k => if negb (blen (k_iek k) =? MasterKeyLength) then Err EIxInvalidMasterKeyLength else Ok (k_iek k)).

(** getTaggerAndCryptor, index/index.go:324-338: the key of the tagger and the key-encryption key of
    the cryptor. *)
Definition ix_keys (iek keyword : bytes) : res (bytes * bytes) :=
  res_bind (kmackdf 32 iek (str "label") [keyword]) (fun k1 =>
  res_bind (kmackdf 32 iek (str "id") [keyword]) (fun k2 =>
  res_bind (new_tagger k1) (fun t =>
  res_bind (new_aes_cryptor k2) (fun c => Ok (t, c))))).

Section Index.
  Context {S I : Type} (e : env).
  Notation W := (world S I).
  Context (io : provider S) (idp : bytes -> prog W (res identity)).

  (** verifyAccess, index/index.go:303-319. *)
  Definition ix_verify (tok : bytes) : prog W (res unit) :=
    let* r := idp tok in
    match r with
    | Ok i => if scope_contains (i_scopes i) ScopeIndex then Ret (Ok tt) else Ret (Err EIxNotAuthorized)
    | Err _ => Ret (Err EIxNotAuthenticated)
    | Panic => Ret Panic
    end.

  (** putSealedNode, index/index.go:346-369. *)
  Definition put_sealed_node (label : bytes) (sn : sealed_node) (update : bool) : prog W (res unit) :=
    let b := print (enc_sealed_node sn) in
    if update then map_err (replace_err EIoNotFound EIxNodeNotFound) (on_io (io_update io label DataTypeSealedNode b))
    else map_err (replace_err EIoAlreadyExists EIxNodeAlreadyExists) (on_io (io_put io label DataTypeSealedNode b)).
  (** getSealedNode, index/index.go:372-389. *)
  Definition get_sealed_node (label : bytes) : prog W (res sealed_node) :=
    let! b := map_err (replace_err EIoNotFound EIxNodeNotFound) (on_io (io_get io label DataTypeSealedNode)) in
    match unmarshal dec_sealed_node b with
    | None => Ret (Err EJson)
    | Some sn => Ret (Ok sn)
    end.
  (** deleteSealedNode, index/index.go:392-395. *)
  Definition delete_sealed_node (label : bytes) : prog W (res unit) := on_io (io_delete io label DataTypeSealedNode).

  Section Keyword.
    Context (tk kek : bytes).
    Notation c := (aes_cryptor e kek).

    (** getNextNode, index/index.go:278-299. *)
    Definition get_next_node (current : node) : prog W (res node) :=
      let! label := lift (next_label tk current) in
      let! sn := get_sealed_node label in
      node_unseal c sn label.

    (** getLastNode, index/index.go:255-275. *)
    Fixpoint get_last_node (fuel : nat) (current : node) : prog W (res node) :=
      match fuel with
      | O => Ret (Err EFuel)
      | Datatypes.S f =>
          let* r := get_next_node current in
          match r with
          | Ok next => get_last_node f next
          | Err EIxNodeNotFound => Ret (Ok current)
          | Err x => Ret (Err x)
          | Panic => Ret Panic
          end
      end.

    (** The loop of Search, index/index.go:141-153. *)
    Fixpoint search_loop (fuel : nat) (current : node) (found : list bytes) : prog W (res (list bytes)) :=
      match fuel with
      | O => Ret (Err EFuel)
      | Datatypes.S f =>
          let* r := get_next_node current in
          match r with
          | Ok next => search_loop f next (found ++ [n_id next])
          | Err EIxNodeNotFound => Ret (Ok found)
          | Err x => Ret (Err x)
          | Panic => Ret Panic
          end
      end.

    (** deleteNode, index/index.go:212-251. *)
    Definition delete_node (label : bytes) (n : node) : prog W (res unit) :=
      let* r := get_next_node n in
      match r with
      | Ok next =>
          let! sn := node_seal c next label in
          let! _ := put_sealed_node label sn true in
          let! next_label := lift (next_label tk n) in
          delete_sealed_node next_label
      | Err EIxNodeNotFound => delete_sealed_node label
      | Err x => Ret (Err x)
      | Panic => Ret Panic
      end.

    (** The loop of Delete, index/index.go:178-204. *)
    Fixpoint delete_loop (fuel : nat) (current : node) (identifier : bytes) : prog W (res unit) :=
      match fuel with
      | O => Ret (Err EFuel)
      | Datatypes.S f =>
          let* r := get_next_node current in
          match r with
          | Ok next =>
              if bytes_eqb (n_id next) identifier then
                let! label := lift (next_label tk current) in
                let! _ := delete_node label next in
                delete_loop f current identifier
              else delete_loop f next identifier
          | Err EIxNodeNotFound => Ret (Ok tt)
          | Err x => Ret (Err x)
          | Panic => Ret Panic
          end
      end.
  End Keyword.

  Context (iek : bytes) (fuel : nat).

  (** Add, index/index.go:80-118. *)
  Definition ix_add (tok keyword identifier : bytes) : prog W (res unit) :=
    let! _ := ix_verify tok in
    let! ks := lift (ix_keys iek keyword) in
    let '(tk, kek) := ks in
    let! last := get_last_node tk kek fuel node_zero in
    let! label := lift (next_label tk last) in
    let! sn := node_seal (aes_cryptor e kek) (mkNode identifier (u64_succ (n_next last))) label in
    put_sealed_node label sn false.
  (** Search, index/index.go:121-156. *)
  Definition ix_search (tok keyword : bytes) : prog W (res (list bytes)) :=
    let! _ := ix_verify tok in
    let! ks := lift (ix_keys iek keyword) in
    let '(tk, kek) := ks in
    search_loop tk kek fuel node_zero [].
  (** Delete, index/index.go:159-206. *)
  Definition ix_delete (tok keyword identifier : bytes) : prog W (res unit) :=
    let! _ := ix_verify tok in
    let! ks := lift (ix_keys iek keyword) in
    let '(tk, kek) := ks in
    delete_loop tk kek fuel node_zero identifier.

  (** Any call. *)
  Definition ix_do (c : ix_call) : prog W (res ix_reply) :=
    match c with
    | IAdd tok kw x => ret_map (fun _ => IRUnit) (ix_add tok kw x)
    | ISearch tok kw => ret_map IRIds (ix_search tok kw)
    | IDelete tok kw x => ret_map (fun _ => IRUnit) (ix_delete tok kw x)
    end.
End Index.
