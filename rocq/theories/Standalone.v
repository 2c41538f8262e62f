(** id/standalone.go, id/standalone_user.go, id/standalone_group.go.

    Not modelled: context values.  Logging is in Log.v.  The verify methods of sealed users and groups
    (id/standalone_user.go:140-143, id/standalone_group.go:62-65) and User.containsGroups are not called
    outside tests. *)
From stdpp Require Import gmap.
From Verif Require Import Bytes Go Json Uuid Time Types World Cryptor Id Data D1 Password.
Local Open Scope bool_scope.
Local Open Scope N_scope.
Local Open Scope go_scope.

(** id/standalone.go:46-49: io.DataTypeEnd + 1 and the next. *)
Definition DataTypeSealedUser : N := 4.
Definition DataTypeSealedGroup : N := 5.

(** The calls of the Standalone provider and what they return. *)
Inductive sa_call :=
| SNewUser (scopes : list N)
| SLogin (uid password : bytes)
| SChangePassword (uid old : bytes)
| SAddUser (tok uid : bytes) (gids : list bytes)
| SRemoveUser (tok uid : bytes) (gids : list bytes)
| SDeleteUser (tok uid : bytes)
| SNewGroup (tok : bytes) (scopes : list N)
| SGetIdentity (tok : bytes).
Inductive sa_reply :=
| SRUser (uid password : bytes)
| SRToken (token : bytes) (expiry : Z)
| SRPassword (password : bytes)
| SRUnit
| SRGroup (gid : bytes)
| SRIdentity (i : identity).

Section Standalone.
  Context {S I : Type} (e : env).
  Notation W := (world S I).
  Context (io : provider S) (uc gc tc : cryptor W).

  (** newUser, id/standalone_user.go:51-64. *)
  Definition new_user (scopes : list N) : prog W (res (user * bytes)) :=
    let! pr := generate_password e in
    let '(pwd, record) := pr in
    Ret (Ok (mkUser (Some record) (scope_union scopes) (Some ∅), pwd)).
  (** authenticate, id/standalone_user.go:67-72. *)
  Definition authenticate (u : user) (password : bytes) : res unit :=
    res_bind (compare_password e password (u_hash u)) (fun ok => if ok then Ok tt else Err EIdNotAuthenticated).
  (** changePassword, id/standalone_user.go:76-89: the changed user and the new password. *)
  Definition change_password (u : user) (old : bytes) : prog W (res (user * bytes)) :=
    let! _ := lift (authenticate u old) in
    let! pr := generate_password e in
    let '(pwd, record) := pr in
    Ret (Ok (mkUser (Some record) (u_scopes u) (u_groups u), pwd)).
  (** seal, id/standalone_user.go:92-98. *)
  Definition user_seal (u : user) (uid : bytes) : prog W (res sealed_user) :=
    let! wc := encrypt_json uc (enc_user u) (JStr uid) in
    let '(wk, ct) := wc in
    Ret (Ok (mkSealedUser uid (Some ct) (Some wk))).
  (** unseal, id/standalone_user.go:131-137. *)
  Definition user_unseal (su : sealed_user) : prog W (res user) :=
    decrypt_json uc dec_user (JStr (su_uid su)) (su_wk su) (su_ct su).
  (** newGroup, id/standalone_group.go:38-40. *)
  Definition new_group (scopes : list N) : group := mkGroup (scope_union scopes).
  (** seal, id/standalone_group.go:43-50. *)
  Definition group_seal (g : group) (gid : bytes) : prog W (res sealed_group) :=
    let! wc := encrypt_json gc (enc_group g) (JStr gid) in
    let '(wk, ct) := wc in
    Ret (Ok (mkSealedGroup gid (Some ct) (Some wk))).
  (** unseal, id/standalone_group.go:53-59. *)
  Definition group_unseal (sg : sealed_group) : prog W (res group) :=
    decrypt_json gc dec_group (JStr (sg_gid sg)) (sg_wk sg) (sg_ct sg).

  (** putUser, id/standalone.go:332-359. *)
  Definition put_user (uid : bytes) (u : user) (update : bool) : prog W (res unit) :=
    let! su := user_seal u uid in
    let b := print (enc_sealed_user su) in
    if update then map_err (replace_err EIoNotFound EIdUserNotFound) (on_io (io_update io (su_uid su) DataTypeSealedUser b))
    else map_err (replace_err EIoAlreadyExists EIdUserAlreadyExists) (on_io (io_put io (su_uid su) DataTypeSealedUser b)).
  (** getUser, id/standalone.go:362-384: the record is unsealed under the UID found inside it. *)
  Definition get_user (uid : bytes) : prog W (res user) :=
    let! b := map_err (replace_err EIoNotFound EIdUserNotFound) (on_io (io_get io uid DataTypeSealedUser)) in
    match unmarshal dec_sealed_user b with
    | None => Ret (Err EJson)
    | Some su => user_unseal su
    end.
  (** putGroup, id/standalone.go:387-405. *)
  Definition put_group (gid : bytes) (g : group) : prog W (res unit) :=
    let! sg := group_seal g gid in
    let b := print (enc_sealed_group sg) in
    map_err (replace_err EIoAlreadyExists EIdGroupAlreadyExists) (on_io (io_put io (sg_gid sg) DataTypeSealedGroup b)).
  (** getGroup, id/standalone.go:408-430. *)
  Definition get_group (gid : bytes) : prog W (res group) :=
    let! b := map_err (replace_err EIoNotFound EIdGroupNotFound) (on_io (io_get io gid DataTypeSealedGroup)) in
    match unmarshal dec_sealed_group b with
    | None => Ret (Err EJson)
    | Some sg => group_unseal sg
    end.

  (** The loop of GetIdentity, id/standalone.go:113-122: ranging over a map, in the model in the order
      of [elements]; the order shows only in which of several errors is reported. *)
  Fixpoint get_groups (gids : list bytes) (acc : gmap bytes N) : prog W (res (gmap bytes N)) :=
    match gids with
    | [] => Ret (Ok acc)
    | gid :: rest =>
        let! g := get_group gid in
        get_groups rest (<[gid := g_scopes g]> acc)
    end.
  (** Every error replaced by the same one. *)
  Definition any_err {A} (x : err) (p : prog W (res A)) : prog W (res A) := map_err (fun _ => x) p.

  (** GetIdentity, id/standalone.go:91-129. *)
  Definition sa_get_identity (tok : bytes) : prog W (res identity) :=
    let! st := any_err EIdNotAuthenticated (lift (token_from_string tok)) in
    let! t := any_err EIdNotAuthenticated (token_unseal e tc st) in
    let id := slice_bytes (t_pt t) in
    let! u := get_user id in
    let! gs := get_groups (match u_groups u with Some s => elements s | None => [] end) ∅ in
    Ret (Ok (mkIdentity id (u_scopes u) gs)).

  (** NewUser, id/standalone.go:132-152. *)
  Definition sa_new_user (scopes : list N) : prog W (res (bytes * bytes)) :=
    let! uid := new_v4 e in
    let! up := new_user scopes in
    let '(u, pwd) := up in
    let! _ := put_user (uuid_text uid) u false in
    Ret (Ok (uuid_text uid, pwd)).

  (** LoginUser, id/standalone.go:156-183. *)
  Definition sa_login (uid password : bytes) : prog W (res (bytes * Z)) :=
    any_err EIdNotAuthenticated (
      let! u := get_user uid in
      let! _ := lift (authenticate u password) in
      let* t := new_token e (Some uid) in
      let! st := token_seal tc t in
      let! s := lift (token_string st) in
      Ret (Ok (s, time_unix (st_exp st)))).

  (** ChangeUserPassword, id/standalone.go:187-206. *)
  Definition sa_change_password (uid old : bytes) : prog W (res bytes) :=
    let! u := any_err EIdNotAuthenticated (get_user uid) in
    let! up := any_err EIdNotAuthenticated (change_password u old) in
    let '(u', pwd) := up in
    let! _ := put_user uid u' true in
    Ret (Ok pwd).

  (** id/standalone.go:221-227, 256-262: every named group is an id of the caller. *)
  Definition member_of_all (i : identity) (gids : list bytes) : bool :=
    forallb (fun g => bool_decide (g ∈ get_ids i)) gids.

  (** AddUserToGroups, id/standalone.go:210-242. *)
  Definition sa_add_user (tok uid : bytes) (gids : list bytes) : prog W (res unit) :=
    let! i := sa_get_identity tok in
    if negb (member_of_all i gids) then Ret (Err EIdNotAuthorized)
    else
      let! u := get_user uid in
      let! gs := lift (add_groups (u_groups u) gids) in
      put_user uid (mkUser (u_hash u) (u_scopes u) gs) true.

  (** RemoveUserFromGroups, id/standalone.go:246-277. *)
  Definition sa_remove_user (tok uid : bytes) (gids : list bytes) : prog W (res unit) :=
    let! i := sa_get_identity tok in
    if negb (member_of_all i gids) then Ret (Err EIdNotAuthorized)
    else
      let! u := get_user uid in
      put_user uid (mkUser (u_hash u) (u_scopes u) (remove_groups (u_groups u) gids)) true.

  (** DeleteUser, id/standalone.go:280-291. *)
  Definition sa_delete_user (tok uid : bytes) : prog W (res unit) :=
    let! _ := sa_get_identity tok in
    on_io (io_delete io uid DataTypeSealedUser).

  (** NewGroup, id/standalone.go:294-328. *)
  Definition sa_new_group (tok : bytes) (scopes : list N) : prog W (res bytes) :=
    let! i := sa_get_identity tok in
    let! gid := new_v4 e in
    let! _ := put_group (uuid_text gid) (new_group scopes) in
    let! u := get_user (i_id i) in
    let! gs := lift (add_groups (u_groups u) [uuid_text gid]) in
    let! _ := put_user (i_id i) (mkUser (u_hash u) (u_scopes u) gs) true in
    Ret (Ok (uuid_text gid)).

  (** One call. *)
  Definition sa_do (c : sa_call) : prog W (res sa_reply) :=
    match c with
    | SNewUser scopes => ret_map (fun p => SRUser (fst p) (snd p)) (sa_new_user scopes)
    | SLogin uid pw => ret_map (fun p => SRToken (fst p) (snd p)) (sa_login uid pw)
    | SChangePassword uid old => ret_map SRPassword (sa_change_password uid old)
    | SAddUser tok uid gids => ret_map (fun _ => SRUnit) (sa_add_user tok uid gids)
    | SRemoveUser tok uid gids => ret_map (fun _ => SRUnit) (sa_remove_user tok uid gids)
    | SDeleteUser tok uid => ret_map (fun _ => SRUnit) (sa_delete_user tok uid)
    | SNewGroup tok scopes => ret_map SRGroup (sa_new_group tok scopes)
    | SGetIdentity tok => ret_map SRIdentity (sa_get_identity tok)
    end.
End Standalone.

(** StandaloneConfig, id/standalone.go:51-56, and the three cryptors of a Standalone value. *)
Record sa_keys := mkSaKeys { s_uek : bytes; s_gek : bytes; s_tek : bytes }.
(** NewStandalone, id/standalone.go:69-89. *)
Definition sa_new (k : sa_keys) : res sa_keys :=
  res_bind (new_aes_cryptor (s_uek k)) (fun u =>
  res_bind (new_aes_cryptor (s_gek k)) (fun g =>
  res_bind (new_aes_cryptor (s_tek k)) (fun t => Ok (mkSaKeys u g t)))).

(** A Standalone value built by NewStandalone. *)
Definition sa_aes {S I} (e : env) (io : provider S) (k : sa_keys) (c : sa_call) : prog (world S I) (res sa_reply) :=
  sa_do e io (aes_cryptor e (s_uek k)) (aes_cryptor e (s_gek k)) (aes_cryptor e (s_tek k)) c.
Definition sa_idp {S I} (e : env) (io : provider S) (k : sa_keys) (tok : bytes) : prog (world S I) (res identity) :=
  sa_get_identity e io (aes_cryptor e (s_uek k)) (aes_cryptor e (s_gek k)) (aes_cryptor e (s_tek k)) tok.
