(** d1.go and utility.go.

    Not modelled: context values.  Logging is in Log.v.  Every other statement of the methods is here, in
    the order of the code. *)
From stdpp Require Import gmap.
From Verif Require Import Bytes Go Json Uuid Time Types World Cryptor Id Data.
Local Open Scope bool_scope.
Local Open Scope N_scope.
Local Open Scope go_scope.

(** io/io.go:36-41 *)
Definition DataTypeSealedObject : N := 0.
Definition DataTypeSealedAccess : N := 1.
Definition DataTypeSealedNode : N := 2.
Definition DataTypeEnd : N := 3.

(** uuid.NewV4 over rand.Reader. *)
Definition new_v4 {S I} (e : env) : prog (world S I) (res uuid) :=
  let! b := get_bytes e 16 in Ret (Ok (uuid_v4 b)).

(** errors.Is(err, from) => to, otherwise err: utility.go:86,94,106,138,146,158. *)
Definition replace_err (from to : err) (x : err) : err := if decide (x = from) then to else x.

(** The calls of the public interface, and what they return. *)
Inductive d1_call :=
| CEncrypt (tok : bytes) (obj : object) (groups : list bytes)
| CUpdate (tok : bytes) (oid : uuid) (obj : object)
| CDecrypt (tok : bytes) (oid : uuid)
| CDelete (tok : bytes) (oid : uuid)
| CGetAccessGroups (tok : bytes) (oid : uuid)
| CAddGroups (tok : bytes) (oid : uuid) (groups : list bytes)
| CRemoveGroups (tok : bytes) (oid : uuid) (groups : list bytes)
| CAuthorize (tok : bytes) (oid : uuid)
| CCreateToken (plaintext : gslice)
| CGetTokenContents (t : sealed_token).
Inductive d1_reply :=
| ROid (oid : uuid)
| RObject (o : object)
| RUnit
| RGroups (g : option (gset bytes))
| RToken (t : sealed_token)
| RBytes (b : gslice).

Section D1.
  Context {S I : Type} (e : env).
  Notation W := (world S I).
  Context (io : provider S) (idp : bytes -> prog W (res identity)).
  Context (oc ac tc : cryptor W).

  (** verifyAccess, utility.go:33-49. *)
  Definition verify_access (tok : bytes) (scope : N) : prog W (res identity) :=
    let* r := idp tok in
    match r with
    | Ok i => if scope_contains (i_scopes i) scope then Ret (Ok i) else Ret (Err ED1NotAuthorized)
    | Err _ => Ret (Err ED1NotAuthenticated)
    | Panic => Ret Panic
    end.

  (** utility.go:67-72: the loop over identity.GetIDs() in map order; it returns the same access
      whichever id matches first. *)
  Definition authorized (i : identity) (scopes : N) (a : access) : bool :=
    existsb (fun gid => contains_groups (a_groups a) [gid] && scope_contains (get_id_scope i gid) scopes)
            (elements (get_ids i)).
  (** authorizeAccess, utility.go:59-73. *)
  Definition authorize_access (i : identity) (scopes : N) (sa : sealed_access) : prog W (res access) :=
    let! a := access_unseal ac sa in
    if authorized i scopes a then Ret (Ok a) else Ret (Err ED1NotAuthorized).

  (** putSealedObject, utility.go:77-98. *)
  Definition put_sealed_object (so : sealed_object) (update : bool) : prog W (res unit) :=
    let b := print (enc_sealed_object so) in
    if update then map_err (replace_err EIoNotFound ED1ObjectNotFound) (on_io (io_update io (so_oid so) DataTypeSealedObject b))
    else map_err (replace_err EIoAlreadyExists ED1ObjectAlreadyExists) (on_io (io_put io (so_oid so) DataTypeSealedObject b)).
  (** getSealedObject, utility.go:101-119. *)
  Definition get_sealed_object (oid : uuid) : prog W (res sealed_object) :=
    let! b := map_err (replace_err EIoNotFound ED1ObjectNotFound) (on_io (io_get io oid DataTypeSealedObject)) in
    match unmarshal dec_sealed_object b with
    | None => Ret (Err EJson)
    | Some so => Ret (Ok (mkSealedObject (so_ct so) (so_ad so) oid))
    end.
  (** deleteSealedObject, utility.go:122-125. *)
  Definition delete_sealed_object (oid : uuid) : prog W (res unit) := on_io (io_delete io oid DataTypeSealedObject).
  (** putSealedAccess, utility.go:129-150. *)
  Definition put_sealed_access (sa : sealed_access) (update : bool) : prog W (res unit) :=
    let b := print (enc_sealed_access sa) in
    if update then map_err (replace_err EIoNotFound ED1AccessNotFound) (on_io (io_update io (sa_oid sa) DataTypeSealedAccess b))
    else map_err (replace_err EIoAlreadyExists ED1AccessAlreadyExists) (on_io (io_put io (sa_oid sa) DataTypeSealedAccess b)).
  (** getSealedAccess, utility.go:153-171. *)
  Definition get_sealed_access (oid : uuid) : prog W (res sealed_access) :=
    let! b := map_err (replace_err EIoNotFound ED1AccessNotFound) (on_io (io_get io oid DataTypeSealedAccess)) in
    match unmarshal dec_sealed_access b with
    | None => Ret (Err EJson)
    | Some sa => Ret (Ok (mkSealedAccess oid (sa_ct sa) (sa_wk sa)))
    end.
  (** deleteSealedAccess, utility.go:174-177. *)
  Definition delete_sealed_access (oid : uuid) : prog W (res unit) := on_io (io_delete io oid DataTypeSealedAccess).

  (** Encrypt, d1.go:119-159.  The append of line 142 is modelled on lists here and on slices
      with backing arrays in Slices.v. *)
  Definition d1_encrypt (tok : bytes) (obj : object) (groups : list bytes) : prog W (res uuid) :=
    let! i := verify_access tok ScopeEncrypt in
    let! oid := new_v4 e in
    let! sealed := object_seal oc obj oid in
    let '(dek, so) := sealed in
    let a0 := new_access dek in
    let! gs := lift (add_groups (a_groups a0) (groups ++ [i_id i])) in
    let! sa := access_seal ac (mkAccess gs (a_dek a0)) oid in
    let! _ := put_sealed_object so false in
    let! _ := put_sealed_access sa false in
    Ret (Ok oid).

  (** Update, d1.go:169-211. *)
  Definition d1_update (tok : bytes) (oid : uuid) (obj : object) : prog W (res unit) :=
    let! i := verify_access tok ScopeUpdate in
    let! sa := get_sealed_access oid in
    let! a := authorize_access i ScopeUpdate sa in
    let! sealed := object_seal oc obj oid in
    let '(dek, so) := sealed in
    let! sa' := access_seal ac (mkAccess (a_groups a) (Some dek)) oid in
    let! _ := put_sealed_object so true in
    let! _ := put_sealed_access sa' true in
    Ret (Ok tt).

  (** Decrypt, d1.go:222-249. *)
  Definition d1_decrypt (tok : bytes) (oid : uuid) : prog W (res object) :=
    let! i := verify_access tok ScopeDecrypt in
    let! sa := get_sealed_access oid in
    let! a := authorize_access i ScopeDecrypt sa in
    let! so := get_sealed_object oid in
    object_unseal oc so (a_dek a).

  (** Delete, d1.go:258-305. *)
  Definition d1_delete (tok : bytes) (oid : uuid) : prog W (res unit) :=
    let! i := verify_access tok ScopeDelete in
    let* r := get_sealed_access oid in
    match r with
    | Err ED1AccessNotFound => Ret (Ok tt)
    | Err x => Ret (Err x)
    | Panic => Ret Panic
    | Ok sa =>
        let! _ := authorize_access i ScopeDelete sa in
        let! _ := delete_sealed_object oid in
        let! _ := delete_sealed_access oid in
        Ret (Ok tt)
    end.

  (** CreateToken, d1.go:315-323. *)
  Definition d1_create_token (plaintext : gslice) : prog W (res sealed_token) :=
    let* t := new_token e plaintext in
    token_seal tc t.
  (** GetTokenContents, d1.go:327-337. *)
  Definition d1_get_token_contents (t : sealed_token) : prog W (res gslice) :=
    let! p := token_unseal e tc t in
    Ret (Ok (t_pt p)).

  (** GetAccessGroups, d1.go:353-374. *)
  Definition d1_get_access_groups (tok : bytes) (oid : uuid) : prog W (res (option (gset bytes))) :=
    let! i := verify_access tok ScopeGetAccessGroups in
    let! sa := get_sealed_access oid in
    let! a := authorize_access i ScopeGetAccessGroups sa in
    Ret (Ok (a_groups a)).

  (** AddGroupsToAccess, d1.go:383-413. *)
  Definition d1_add_groups (tok : bytes) (oid : uuid) (groups : list bytes) : prog W (res unit) :=
    let! i := verify_access tok ScopeModifyAccessGroups in
    let! sa := get_sealed_access oid in
    let! a := authorize_access i ScopeModifyAccessGroups sa in
    let! gs := lift (add_groups (a_groups a) groups) in
    let! sa' := access_seal ac (mkAccess gs (a_dek a)) oid in
    put_sealed_access sa' true.

  (** RemoveGroupsFromAccess, d1.go:422-452. *)
  Definition d1_remove_groups (tok : bytes) (oid : uuid) (groups : list bytes) : prog W (res unit) :=
    let! i := verify_access tok ScopeModifyAccessGroups in
    let! sa := get_sealed_access oid in
    let! a := authorize_access i ScopeModifyAccessGroups sa in
    let! sa' := access_seal ac (mkAccess (remove_groups (a_groups a) groups) (a_dek a)) oid in
    put_sealed_access sa' true.

  (** AuthorizeIdentity, d1.go:462-479. *)
  Definition d1_authorize (tok : bytes) (oid : uuid) : prog W (res unit) :=
    let! i := verify_access tok ScopeGetAccessGroups in
    let! sa := get_sealed_access oid in
    let! _ := authorize_access i ScopeGetAccessGroups sa in
    Ret (Ok tt).

  Definition ret_map {A B} (f : A -> B) (p : prog W (res A)) : prog W (res B) := bind p (fun r => Ret (res_map f r)).

  (** One call of the public interface. *)
  Definition d1_do (c : d1_call) : prog W (res d1_reply) :=
    match c with
    | CEncrypt tok obj gs => ret_map ROid (d1_encrypt tok obj gs)
    | CUpdate tok oid obj => ret_map (fun _ => RUnit) (d1_update tok oid obj)
    | CDecrypt tok oid => ret_map RObject (d1_decrypt tok oid)
    | CDelete tok oid => ret_map (fun _ => RUnit) (d1_delete tok oid)
    | CGetAccessGroups tok oid => ret_map RGroups (d1_get_access_groups tok oid)
    | CAddGroups tok oid gs => ret_map (fun _ => RUnit) (d1_add_groups tok oid gs)
    | CRemoveGroups tok oid gs => ret_map (fun _ => RUnit) (d1_remove_groups tok oid gs)
    | CAuthorize tok oid => ret_map (fun _ => RUnit) (d1_authorize tok oid)
    | CCreateToken pt => ret_map RToken (d1_create_token pt)
    | CGetTokenContents t => ret_map RBytes (d1_get_token_contents t)
    end.
End D1.

(** key.Keys, key/key.go:25-37.  The provider Static, key/static.go:28-35, is the constant of these keys. *)
Record keys := mkKeys { k_kek : bytes; k_aek : bytes; k_tek : bytes; k_iek : bytes }.
(** A D1 value holds three cryptors, i.e. three key-encryption keys. *)
Record d1 := mkD1 { d_kek : bytes; d_aek : bytes; d_tek : bytes }.
(** New, d1.go:66-99, given what the key provider returned. *)
Definition d1_new (ks : res keys) : res d1 :=
  res_bind ks (fun k =>
  res_bind (new_aes_cryptor (k_kek k)) (fun o =>
  res_bind (new_aes_cryptor (k_aek k)) (fun a =>
  res_bind (new_aes_cryptor (k_tek k)) (fun t => Ok (mkD1 o a t))))).

(** The D1 value built by New with the shipped AES cryptors. *)
Definition d1_aes {S I} (e : env) (io : provider S) (idp : bytes -> prog (world S I) (res identity))
  (d : d1) (c : d1_call) : prog (world S I) (res d1_reply) :=
  d1_do e io idp (aes_cryptor e (d_kek d)) (aes_cryptor e (d_aek d)) (aes_cryptor e (d_tek d)) c.
