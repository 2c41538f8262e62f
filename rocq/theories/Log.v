(** log/log.go, and d1.go, utility.go, index/index.go and id/standalone.go with the lines they log.

    The methods are those of D1.v, Index.v and Standalone.v with the calls of package log in the places
    where the code has them.  zerolog v1.28.0 is re-specified as far as the library uses it: a Logger is a
    level and a slice of bytes, the fields of its context; UpdateContext appends to the slice
    (zerolog.Logger.UpdateContext, zerolog.Context.Str); a line is written with what the slice holds at
    that moment.  Not modelled: the text of the rest of a line, and the writer. *)
From stdpp Require Import gmap.
From Verif Require Import Bytes Go Json Uuid Time World Types Cryptor Id Data D1 Index Password Standalone Slices Lib LibSpec.
Local Open Scope bool_scope.
Local Open Scope N_scope.
Local Open Scope go_scope.

(** The messages, with the lines that log them. *)
Inductive msg :=
(* utility.go:34,37,42,44,60,84,92,102,123,136,144,154,175; index/index.go:304,307,312,314 *)
| MAuthenticatingCaller | MAuthenticationFailed | MAuthorizingCaller | MScopeMissing | MAuthorizingAccess
| MUpdatingStoredObject | MStoringNewObject | MGettingStoredObject | MDeletingStoredObject
| MUpdatingStoredAccess | MStoringNewAccess | MGettingStoredAccess | MDeletingStoredAccess
(* d1.go:134,140,144,189,195,247,273,320,321,331,403,406,442,445 *)
| MSealingObject | MCreatingAccess | MSealingAccess | MUnsealingObject | MObjectNotFound | MTokenCreated
| MSealingToken | MUnsealingToken | MAddingGroups | MRemovingGroups
(* index/index.go:101,140,177,213,220,231,241,256,279,347,355,363,373,393 *)
| MAddingNewNode | MSearchingIndex | MDeletingEntries | MDeletingNode | MLastNode | MOverwriting | MDeletingNext
| MGettingLastNode | MGettingNextNode | MStoringNode | MUpdatingStoredNode | MCreatingNewNode
| MGettingStoredNode | MDeletingStoredNode
(* id/standalone.go:100,113,142,165,170,196,221,235,257,270,289,309,316,333,345,353,363,377,388,399,409,423 *)
| MFetchingGroups | MCreatingNewUser | MAuthenticating | MCreatingToken | MUpdatingPassword | MCheckingMembership
| MAddingUser | MRemovingUser | MDeletingUser | MCreatingNewGroup | MAddingCaller | MSealingUser
| MUpdatingStoredUser | MStoringNewUser | MGettingStoredUser | MUnsealingUser | MStoringNewGroup
| MGettingStoredGroup | MUnsealingGroup.
(** What a line says beside its message: Strs("groups"), Err, Stringer("scope"), Time("expiry") or the %d of Msgf. *)
Inductive detail :=
| DNone | DGroups (l : list bytes) | DErr (x : err) | DScope (s : N) | DExpiry (t : gtime) | DCount (n : nat).

(** A logger, zerolog.Logger: the slice of its context, and whether debug lines are written. *)
Record logger := mkLogger { lg_ctx : slice; lg_debug : bool }.
(** A line: the call that wrote it (ghost), the context, the message and the detail. *)
Record line := mkLine { l_who : nat; l_ctx : bytes; l_msg : msg; l_detail : detail }.
(** Memory, and the lines written so far, newest first. *)
Record logs := mkLogs { g_heap : heap byte; g_lines : list line }.

Section Field.
  (** zerolog's text of a JSON string. *)
  Context (txt : bytes -> bytes).
  (** UpdateContext, AppendKey and AppendString of zerolog: the opening brace if the context is empty, a
      comma unless it is the first field, then key and value.  zerolog appends them piece by piece; here it
      is one append, so that either all of it or nothing is written in place. *)
  Definition field_text (l k v : bytes) : bytes :=
    (match list.last l with Some x => if byte_eqb x x7b then [] else [x2c] | None => [x7b] end) ++ txt k ++ [x3a] ++ txt v.
  Definition add_field (l : bytes) (f : bytes * bytes) : bytes := l ++ field_text l (fst f) (snd f).
End Field.

Section Log.
  Context {S I : Type} (txt : bytes -> bytes).
  (** What the runtime leaves behind the elements of the array it grows to hold n of them. *)
  Context (room : nat -> list byte) (who : nat).
  Notation LW := (logs * world S I)%type.

  (** UpdateContext of zerolog, on a copied logger. *)
  Definition field_step (lg : logger) (f : bytes * bytes) (x : LW) : option logger * LW :=
    let h := g_heap (fst x) in
    let '(s, h') := sl_append (room (sl_len (lg_ctx lg))) h (lg_ctx lg) (field_text txt (contents h (lg_ctx lg)) (fst f) (snd f)) in
    (Some (mkLogger s (lg_debug lg)), (mkLogs h' (g_lines (fst x)), snd x)).
  (** log.Ctx(ctx).Debug()...Msg(...). *)
  Definition say_step (lg : logger) (m : msg) (d : detail) (x : LW) : unit * LW :=
    (tt, (mkLogs (g_heap (fst x)) (mkLine who (contents (g_heap (fst x)) (lg_ctx lg)) m d :: g_lines (fst x)), snd x)).

  (** CopyCtxLogger, log/log.go:25-30: the Logger struct is copied, and with it the slice, but not the array
      behind it.  [None]: the context holds no logger, or a disabled one. *)
  Definition copy_ctx_logger (ctx : option logger) : option logger := ctx.
  (** WithMethod, WithUserID, WithObjectID, log/log.go:37-55. *)
  Definition with_field (ctx : option logger) (k v : bytes) : prog LW (option logger) :=
    match ctx with None => Ret None | Some lg => Step (field_step lg (k, v)) Ret end.
  Definition with_method (ctx : option logger) (m : bytes) := with_field ctx (str "method") m.
  Definition with_user_id (ctx : option logger) (id : bytes) := with_field ctx (str "uid") id.
  Definition with_object_id (ctx : option logger) (id : uuid) := with_field ctx (str "oid") (uuid_text id).
  (** Ctx, log/log.go:32-35, and a line at debug level. *)
  Definition say (ctx : option logger) (m : msg) (d : detail) : prog LW unit :=
    match ctx with
    | Some lg => if lg_debug lg then Step (say_step lg m d) Ret else Ret tt
    | None => Ret tt
    end.

  Context (e : env) (io : provider S).
  Notation W := (world S I).

  Section Objects.
    Context (idp : option logger -> bytes -> prog LW (res identity)) (oc ac tc : cryptor W).

    (** verifyAccess, utility.go:33-49.  Also hands back the logger, which line 40 changes. *)
    Definition verify_access_l (ctx : option logger) (tok : bytes) (scope : N) : prog LW (res (identity * option logger)) :=
      let* _ := say ctx MAuthenticatingCaller DNone in
      let* r := idp ctx tok in
      match r with
      | Ok i =>
          let* ctx := with_user_id ctx (i_id i) in
          let* _ := say ctx MAuthorizingCaller DNone in
          if scope_contains (i_scopes i) scope then Ret (Ok (i, ctx))
          else let* _ := say ctx MScopeMissing (DScope scope) in Ret (Err ED1NotAuthorized)
      | Err x => let* _ := say ctx MAuthenticationFailed (DErr x) in Ret (Err ED1NotAuthenticated)
      | Panic => Ret Panic
      end.
    (** authorizeAccess, utility.go:59-73. *)
    Definition authorize_access_l (ctx : option logger) (i : identity) (scopes : N) (sa : sealed_access) : prog LW (res access) :=
      let* _ := say ctx MAuthorizingAccess DNone in
      on_snd (authorize_access ac i scopes sa).
    (** putSealedObject, utility.go:77-98. *)
    Definition put_sealed_object_l (ctx : option logger) (so : sealed_object) (update : bool) : prog LW (res unit) :=
      let* _ := say ctx (if update then MUpdatingStoredObject else MStoringNewObject) DNone in
      on_snd (put_sealed_object io so update).
    (** getSealedObject, utility.go:101-119. *)
    Definition get_sealed_object_l (ctx : option logger) (oid : uuid) : prog LW (res sealed_object) :=
      let* _ := say ctx MGettingStoredObject DNone in on_snd (get_sealed_object io oid).
    (** deleteSealedObject, utility.go:122-125. *)
    Definition delete_sealed_object_l (ctx : option logger) (oid : uuid) : prog LW (res unit) :=
      let* _ := say ctx MDeletingStoredObject DNone in on_snd (delete_sealed_object io oid).
    (** putSealedAccess, utility.go:129-150. *)
    Definition put_sealed_access_l (ctx : option logger) (sa : sealed_access) (update : bool) : prog LW (res unit) :=
      let* _ := say ctx (if update then MUpdatingStoredAccess else MStoringNewAccess) DNone in
      on_snd (put_sealed_access io sa update).
    (** getSealedAccess, utility.go:153-171. *)
    Definition get_sealed_access_l (ctx : option logger) (oid : uuid) : prog LW (res sealed_access) :=
      let* _ := say ctx MGettingStoredAccess DNone in on_snd (get_sealed_access io oid).
    (** deleteSealedAccess, utility.go:174-177. *)
    Definition delete_sealed_access_l (ctx : option logger) (oid : uuid) : prog LW (res unit) :=
      let* _ := say ctx MDeletingStoredAccess DNone in on_snd (delete_sealed_access io oid).

    (** Encrypt, d1.go:119-159. *)
    Definition d1_encrypt_l (ctx : option logger) (tok : bytes) (obj : object) (groups : list bytes) : prog LW (res uuid) :=
      let* ctx := with_method (copy_ctx_logger ctx) (str "encrypt") in
      let! v := verify_access_l ctx tok ScopeEncrypt in
      let '(i, ctx) := v in
      let! oid := on_snd (new_v4 e) in
      let* ctx := with_object_id ctx oid in
      let* _ := say ctx MSealingObject DNone in
      let! sealed := on_snd (object_seal oc obj oid) in
      let '(dek, so) := sealed in
      let* _ := say ctx MCreatingAccess (DGroups groups) in
      let a0 := new_access dek in
      let! gs := lift (add_groups (a_groups a0) (groups ++ [i_id i])) in
      let* _ := say ctx MSealingAccess DNone in
      let! sa := on_snd (access_seal ac (mkAccess gs (a_dek a0)) oid) in
      let! _ := put_sealed_object_l ctx so false in
      let! _ := put_sealed_access_l ctx sa false in
      Ret (Ok oid).
    (** Update, d1.go:169-211. *)
    Definition d1_update_l (ctx : option logger) (tok : bytes) (oid : uuid) (obj : object) : prog LW (res unit) :=
      let* ctx := with_method (copy_ctx_logger ctx) (str "update") in
      let* ctx := with_object_id ctx oid in
      let! v := verify_access_l ctx tok ScopeUpdate in
      let '(i, ctx) := v in
      let! sa := get_sealed_access_l ctx oid in
      let! a := authorize_access_l ctx i ScopeUpdate sa in
      let* _ := say ctx MSealingObject DNone in
      let! sealed := on_snd (object_seal oc obj oid) in
      let '(dek, so) := sealed in
      let* _ := say ctx MSealingAccess DNone in
      let! sa' := on_snd (access_seal ac (mkAccess (a_groups a) (Some dek)) oid) in
      let! _ := put_sealed_object_l ctx so true in
      let! _ := put_sealed_access_l ctx sa' true in
      Ret (Ok tt).
    (** Decrypt, d1.go:222-249. *)
    Definition d1_decrypt_l (ctx : option logger) (tok : bytes) (oid : uuid) : prog LW (res object) :=
      let* ctx := with_method (copy_ctx_logger ctx) (str "decrypt") in
      let* ctx := with_object_id ctx oid in
      let! v := verify_access_l ctx tok ScopeDecrypt in
      let '(i, ctx) := v in
      let! sa := get_sealed_access_l ctx oid in
      let! a := authorize_access_l ctx i ScopeDecrypt sa in
      let! so := get_sealed_object_l ctx oid in
      let* _ := say ctx MUnsealingObject DNone in
      on_snd (object_unseal oc so (a_dek a)).
    (** Delete, d1.go:258-305. *)
    Definition d1_delete_l (ctx : option logger) (tok : bytes) (oid : uuid) : prog LW (res unit) :=
      let* ctx := with_method (copy_ctx_logger ctx) (str "delete") in
      let* ctx := with_object_id ctx oid in
      let! v := verify_access_l ctx tok ScopeDelete in
      let '(i, ctx) := v in
      let* r := get_sealed_access_l ctx oid in
      match r with
      | Err ED1AccessNotFound => let* _ := say ctx MObjectNotFound DNone in Ret (Ok tt)
      | Err x => Ret (Err x)
      | Panic => Ret Panic
      | Ok sa =>
          let! _ := authorize_access_l ctx i ScopeDelete sa in
          let! _ := delete_sealed_object_l ctx oid in
          let! _ := delete_sealed_access_l ctx oid in
          Ret (Ok tt)
      end.
    (** CreateToken, d1.go:315-323. *)
    Definition d1_create_token_l (ctx : option logger) (plaintext : gslice) : prog LW (res sealed_token) :=
      let* ctx := with_method (copy_ctx_logger ctx) (str "create token") in
      let* t := on_snd (new_token e plaintext) in
      let* _ := say ctx MTokenCreated (DExpiry (t_exp t)) in
      let* _ := say ctx MSealingToken DNone in
      on_snd (token_seal tc t).
    (** GetTokenContents, d1.go:327-337. *)
    Definition d1_get_token_contents_l (ctx : option logger) (t : sealed_token) : prog LW (res gslice) :=
      let* ctx := with_method (copy_ctx_logger ctx) (str "get token contents") in
      let* _ := say ctx MUnsealingToken (DExpiry (st_exp t)) in
      let! p := on_snd (token_unseal e tc t) in
      Ret (Ok (t_pt p)).
    (** GetAccessGroups, d1.go:353-374. *)
    Definition d1_get_access_groups_l (ctx : option logger) (tok : bytes) (oid : uuid) : prog LW (res (option (gset bytes))) :=
      let* ctx := with_method (copy_ctx_logger ctx) (str "get access groups") in
      let* ctx := with_object_id ctx oid in
      let! v := verify_access_l ctx tok ScopeGetAccessGroups in
      let '(i, ctx) := v in
      let! sa := get_sealed_access_l ctx oid in
      let! a := authorize_access_l ctx i ScopeGetAccessGroups sa in
      Ret (Ok (a_groups a)).
    (** AddGroupsToAccess, d1.go:383-413. *)
    Definition d1_add_groups_l (ctx : option logger) (tok : bytes) (oid : uuid) (groups : list bytes) : prog LW (res unit) :=
      let* ctx := with_method (copy_ctx_logger ctx) (str "add groups to access") in
      let* ctx := with_object_id ctx oid in
      let! v := verify_access_l ctx tok ScopeModifyAccessGroups in
      let '(i, ctx) := v in
      let! sa := get_sealed_access_l ctx oid in
      let! a := authorize_access_l ctx i ScopeModifyAccessGroups sa in
      let* _ := say ctx MAddingGroups (DGroups groups) in
      let! gs := lift (add_groups (a_groups a) groups) in
      let* _ := say ctx MSealingAccess DNone in
      let! sa' := on_snd (access_seal ac (mkAccess gs (a_dek a)) oid) in
      put_sealed_access_l ctx sa' true.
    (** RemoveGroupsFromAccess, d1.go:422-452. *)
    Definition d1_remove_groups_l (ctx : option logger) (tok : bytes) (oid : uuid) (groups : list bytes) : prog LW (res unit) :=
      let* ctx := with_method (copy_ctx_logger ctx) (str "remove groups from access") in
      let* ctx := with_object_id ctx oid in
      let! v := verify_access_l ctx tok ScopeModifyAccessGroups in
      let '(i, ctx) := v in
      let! sa := get_sealed_access_l ctx oid in
      let! a := authorize_access_l ctx i ScopeModifyAccessGroups sa in
      let* _ := say ctx MRemovingGroups (DGroups groups) in
      let* _ := say ctx MSealingAccess DNone in
      let! sa' := on_snd (access_seal ac (mkAccess (remove_groups (a_groups a) groups) (a_dek a)) oid) in
      put_sealed_access_l ctx sa' true.
    (** AuthorizeIdentity, d1.go:462-479. *)
    Definition d1_authorize_l (ctx : option logger) (tok : bytes) (oid : uuid) : prog LW (res unit) :=
      let* ctx := with_method (copy_ctx_logger ctx) (str "authorize identity") in
      let* ctx := with_object_id ctx oid in
      let! v := verify_access_l ctx tok ScopeGetAccessGroups in
      let '(i, ctx) := v in
      let! sa := get_sealed_access_l ctx oid in
      let! _ := authorize_access_l ctx i ScopeGetAccessGroups sa in
      Ret (Ok tt).

    Definition map_l {A B} (f : A -> B) (p : prog LW (res A)) : prog LW (res B) := bind p (fun r => Ret (res_map f r)).
    Definition d1_do_l (ctx : option logger) (c : d1_call) : prog LW (res d1_reply) :=
      match c with
      | CEncrypt tok obj gs => map_l ROid (d1_encrypt_l ctx tok obj gs)
      | CUpdate tok oid obj => map_l (fun _ => RUnit) (d1_update_l ctx tok oid obj)
      | CDecrypt tok oid => map_l RObject (d1_decrypt_l ctx tok oid)
      | CDelete tok oid => map_l (fun _ => RUnit) (d1_delete_l ctx tok oid)
      | CGetAccessGroups tok oid => map_l RGroups (d1_get_access_groups_l ctx tok oid)
      | CAddGroups tok oid gs => map_l (fun _ => RUnit) (d1_add_groups_l ctx tok oid gs)
      | CRemoveGroups tok oid gs => map_l (fun _ => RUnit) (d1_remove_groups_l ctx tok oid gs)
      | CAuthorize tok oid => map_l (fun _ => RUnit) (d1_authorize_l ctx tok oid)
      | CCreateToken pt => map_l RToken (d1_create_token_l ctx pt)
      | CGetTokenContents t => map_l RBytes (d1_get_token_contents_l ctx t)
      end.
  End Objects.

  Section Indexes.
    Context (idp : option logger -> bytes -> prog LW (res identity)).

    (** verifyAccess, index/index.go:303-319. *)
    Definition ix_verify_l (ctx : option logger) (tok : bytes) : prog LW (res (option logger)) :=
      let* _ := say ctx MAuthenticatingCaller DNone in
      let* r := idp ctx tok in
      match r with
      | Ok i =>
          let* ctx := with_user_id ctx (i_id i) in
          let* _ := say ctx MAuthorizingCaller DNone in
          if scope_contains (i_scopes i) ScopeIndex then Ret (Ok ctx)
          else let* _ := say ctx MScopeMissing (DScope ScopeIndex) in Ret (Err EIxNotAuthorized)
      | Err x => let* _ := say ctx MAuthenticationFailed (DErr x) in Ret (Err EIxNotAuthenticated)
      | Panic => Ret Panic
      end.
    (** putSealedNode, index/index.go:346-369. *)
    Definition put_sealed_node_l (ctx : option logger) (label : bytes) (sn : sealed_node) (update : bool) : prog LW (res unit) :=
      let* _ := say ctx MStoringNode DNone in
      let* _ := say ctx (if update then MUpdatingStoredNode else MCreatingNewNode) DNone in
      on_snd (put_sealed_node io label sn update).
    (** getSealedNode, index/index.go:372-389. *)
    Definition get_sealed_node_l (ctx : option logger) (label : bytes) : prog LW (res sealed_node) :=
      let* _ := say ctx MGettingStoredNode DNone in on_snd (get_sealed_node io label).
    (** deleteSealedNode, index/index.go:392-395. *)
    Definition delete_sealed_node_l (ctx : option logger) (label : bytes) : prog LW (res unit) :=
      let* _ := say ctx MDeletingStoredNode DNone in on_snd (delete_sealed_node io label).

    Section Keyword.
      Context (tk kek : bytes).
      Notation c := (aes_cryptor e kek).
      (** getNextNode, index/index.go:278-299. *)
      Definition get_next_node_l (ctx : option logger) (current : node) : prog LW (res node) :=
        let* _ := say ctx MGettingNextNode DNone in
        let! label := lift (next_label tk current) in
        let! sn := get_sealed_node_l ctx label in
        on_snd (node_unseal c sn label).
      (** The loop of getLastNode, index/index.go:259-274. *)
      Fixpoint get_last_node_l (ctx : option logger) (fuel : nat) (current : node) : prog LW (res node) :=
        match fuel with
        | O => Ret (Err EFuel)
        | Datatypes.S f =>
            let* r := get_next_node_l ctx current in
            match r with
            | Ok next => get_last_node_l ctx f next
            | Err EIxNodeNotFound => Ret (Ok current)
            | Err x => Ret (Err x)
            | Panic => Ret Panic
            end
        end.
      (** The loop of Search, index/index.go:141-153. *)
      Fixpoint search_loop_l (ctx : option logger) (fuel : nat) (current : node) (found : list bytes) : prog LW (res (list bytes)) :=
        match fuel with
        | O => Ret (Err EFuel)
        | Datatypes.S f =>
            let* r := get_next_node_l ctx current in
            match r with
            | Ok next => search_loop_l ctx f next (found ++ [n_id next])
            | Err EIxNodeNotFound => Ret (Ok found)
            | Err x => Ret (Err x)
            | Panic => Ret Panic
            end
        end.
      (** deleteNode, index/index.go:212-251. *)
      Definition delete_node_l (ctx : option logger) (label : bytes) (n : node) : prog LW (res unit) :=
        let* _ := say ctx MDeletingNode DNone in
        let* r := get_next_node_l ctx n in
        match r with
        | Ok next =>
            let* _ := say ctx MOverwriting DNone in
            let! sn := on_snd (node_seal c next label) in
            let! _ := put_sealed_node_l ctx label sn true in
            let* _ := say ctx MDeletingNext DNone in
            let! next_label := lift (next_label tk n) in
            delete_sealed_node_l ctx next_label
        | Err EIxNodeNotFound => let* _ := say ctx MLastNode DNone in delete_sealed_node_l ctx label
        | Err x => Ret (Err x)
        | Panic => Ret Panic
        end.
      (** The loop of Delete, index/index.go:178-204. *)
      Fixpoint delete_loop_l (ctx : option logger) (fuel : nat) (current : node) (identifier : bytes) : prog LW (res unit) :=
        match fuel with
        | O => Ret (Err EFuel)
        | Datatypes.S f =>
            let* r := get_next_node_l ctx current in
            match r with
            | Ok next =>
                if bytes_eqb (n_id next) identifier then
                  let! label := lift (next_label tk current) in
                  let! _ := delete_node_l ctx label next in
                  delete_loop_l ctx f current identifier
                else delete_loop_l ctx f next identifier
            | Err EIxNodeNotFound => Ret (Ok tt)
            | Err x => Ret (Err x)
            | Panic => Ret Panic
            end
        end.
    End Keyword.

    Context (iek : bytes) (fuel : nat).
    (** Add, index/index.go:80-118. *)
    Definition ix_add_l (ctx : option logger) (tok keyword identifier : bytes) : prog LW (res unit) :=
      let* ctx := with_method (copy_ctx_logger ctx) (str "add") in
      let! ctx := ix_verify_l ctx tok in
      let! ks := lift (ix_keys iek keyword) in
      let '(tk, kek) := ks in
      let* _ := say ctx MGettingLastNode DNone in
      let! last := get_last_node_l tk kek ctx fuel node_zero in
      let* _ := say ctx MAddingNewNode DNone in
      let! label := lift (next_label tk last) in
      let! sn := on_snd (node_seal (aes_cryptor e kek) (mkNode identifier (u64_succ (n_next last))) label) in
      put_sealed_node_l ctx label sn false.
    (** Search, index/index.go:121-156. *)
    Definition ix_search_l (ctx : option logger) (tok keyword : bytes) : prog LW (res (list bytes)) :=
      let* ctx := with_method (copy_ctx_logger ctx) (str "search") in
      let! ctx := ix_verify_l ctx tok in
      let! ks := lift (ix_keys iek keyword) in
      let '(tk, kek) := ks in
      let* _ := say ctx MSearchingIndex DNone in
      search_loop_l tk kek ctx fuel node_zero [].
    (** Delete, index/index.go:159-206. *)
    Definition ix_delete_l (ctx : option logger) (tok keyword identifier : bytes) : prog LW (res unit) :=
      let* ctx := with_method (copy_ctx_logger ctx) (str "delete") in
      let! ctx := ix_verify_l ctx tok in
      let! ks := lift (ix_keys iek keyword) in
      let '(tk, kek) := ks in
      let* _ := say ctx MDeletingEntries DNone in
      delete_loop_l tk kek ctx fuel node_zero identifier.
    Definition ix_do_l (ctx : option logger) (c : ix_call) : prog LW (res ix_reply) :=
      match c with
      | IAdd tok kw x => map_l (fun _ => IRUnit) (ix_add_l ctx tok kw x)
      | ISearch tok kw => map_l IRIds (ix_search_l ctx tok kw)
      | IDelete tok kw x => map_l (fun _ => IRUnit) (ix_delete_l ctx tok kw x)
      end.
  End Indexes.

  Section Identities.
    Context (uc gc tc : cryptor W).
    Notation any_err_l x p := (map_err (fun _ => x) p).

    (** putUser, id/standalone.go:332-359. *)
    Definition put_user_l (ctx : option logger) (uid : bytes) (u : user) (update : bool) : prog LW (res unit) :=
      let* _ := say ctx MSealingUser DNone in
      let! su := on_snd (user_seal uc u uid) in
      let b := print (enc_sealed_user su) in
      if update then
        let* _ := say ctx MUpdatingStoredUser DNone in
        on_snd (map_err (replace_err EIoNotFound EIdUserNotFound) (on_io (io_update io (su_uid su) DataTypeSealedUser b)))
      else
        let* _ := say ctx MStoringNewUser DNone in
        on_snd (map_err (replace_err EIoAlreadyExists EIdUserAlreadyExists) (on_io (io_put io (su_uid su) DataTypeSealedUser b))).
    (** getUser, id/standalone.go:362-384. *)
    Definition get_user_l (ctx : option logger) (uid : bytes) : prog LW (res user) :=
      let* _ := say ctx MGettingStoredUser DNone in
      let! b := on_snd (map_err (replace_err EIoNotFound EIdUserNotFound) (on_io (io_get io uid DataTypeSealedUser))) in
      match unmarshal dec_sealed_user b with
      | None => Ret (Err EJson)
      | Some su => let* _ := say ctx MUnsealingUser DNone in on_snd (user_unseal uc su)
      end.
    (** putGroup, id/standalone.go:387-405; line 388 says "sealing user". *)
    Definition put_group_l (ctx : option logger) (gid : bytes) (g : group) : prog LW (res unit) :=
      let* _ := say ctx MSealingUser DNone in
      let! sg := on_snd (group_seal gc g gid) in
      let b := print (enc_sealed_group sg) in
      let* _ := say ctx MStoringNewGroup DNone in
      on_snd (map_err (replace_err EIoAlreadyExists EIdGroupAlreadyExists) (on_io (io_put io (sg_gid sg) DataTypeSealedGroup b))).
    (** getGroup, id/standalone.go:408-430. *)
    Definition get_group_l (ctx : option logger) (gid : bytes) : prog LW (res group) :=
      let* _ := say ctx MGettingStoredGroup DNone in
      let! b := on_snd (map_err (replace_err EIoNotFound EIdGroupNotFound) (on_io (io_get io gid DataTypeSealedGroup))) in
      match unmarshal dec_sealed_group b with
      | None => Ret (Err EJson)
      | Some sg => let* _ := say ctx MUnsealingGroup DNone in on_snd (group_unseal gc sg)
      end.
    (** The loop of GetIdentity, id/standalone.go:115-122. *)
    Fixpoint get_groups_l (ctx : option logger) (gids : list bytes) (acc : gmap bytes N) : prog LW (res (gmap bytes N)) :=
      match gids with
      | [] => Ret (Ok acc)
      | gid :: rest =>
          let! g := get_group_l ctx gid in
          get_groups_l ctx rest (<[gid := g_scopes g]> acc)
      end.

    (** GetIdentity, id/standalone.go:91-129. *)
    Definition sa_get_identity_l (ctx : option logger) (tok : bytes) : prog LW (res identity) :=
      let* ctx := with_method (copy_ctx_logger ctx) (str "get identity") in
      let! st := any_err_l EIdNotAuthenticated (lift (token_from_string tok)) in
      let* _ := say ctx MUnsealingToken DNone in
      let! t := any_err_l EIdNotAuthenticated (on_snd (token_unseal e tc st)) in
      let id := slice_bytes (t_pt t) in
      let! u := get_user_l ctx id in
      let gids := match u_groups u with Some s => elements s | None => [] end in
      let* _ := say ctx MFetchingGroups (DCount (length gids)) in
      let! gs := get_groups_l ctx gids ∅ in
      Ret (Ok (mkIdentity id (u_scopes u) gs)).
    (** NewUser, id/standalone.go:132-152. *)
    Definition sa_new_user_l (ctx : option logger) (scopes : list N) : prog LW (res (bytes * bytes)) :=
      let* ctx := with_method (copy_ctx_logger ctx) (str "new user") in
      let! uid := on_snd (new_v4 e) in
      let* _ := say ctx MCreatingNewUser DNone in
      let! up := on_snd (new_user e scopes) in
      let '(u, pwd) := up in
      let! _ := put_user_l ctx (uuid_text uid) u false in
      Ret (Ok (uuid_text uid, pwd)).
    (** LoginUser, id/standalone.go:156-183. *)
    Definition sa_login_l (ctx : option logger) (uid password : bytes) : prog LW (res (bytes * Z)) :=
      let* ctx := with_method (copy_ctx_logger ctx) (str "login user") in
      any_err_l EIdNotAuthenticated (
        let! u := get_user_l ctx uid in
        let* _ := say ctx MAuthenticating DNone in
        let! _ := lift (authenticate e u password) in
        let* _ := say ctx MCreatingToken DNone in
        let* t := on_snd (new_token e (Some uid)) in
        let! st := on_snd (token_seal tc t) in
        let! s := lift (token_string st) in
        Ret (Ok (s, time_unix (st_exp st)))).
    (** ChangeUserPassword, id/standalone.go:187-206. *)
    Definition sa_change_password_l (ctx : option logger) (uid old : bytes) : prog LW (res bytes) :=
      let* ctx := with_method (copy_ctx_logger ctx) (str "change password") in
      let! u := any_err_l EIdNotAuthenticated (get_user_l ctx uid) in
      let* _ := say ctx MUpdatingPassword DNone in
      let! up := any_err_l EIdNotAuthenticated (on_snd (change_password e u old)) in
      let '(u', pwd) := up in
      let! _ := put_user_l ctx uid u' true in
      Ret (Ok pwd).
    (** AddUserToGroups, id/standalone.go:210-242. *)
    Definition sa_add_user_l (ctx : option logger) (tok uid : bytes) (gids : list bytes) : prog LW (res unit) :=
      let* ctx := with_method (copy_ctx_logger ctx) (str "add user to group") in
      let! i := sa_get_identity_l ctx tok in
      let* _ := say ctx MCheckingMembership (DCount (length gids)) in
      if negb (member_of_all i gids) then Ret (Err EIdNotAuthorized)
      else
        let! u := get_user_l ctx uid in
        let* _ := say ctx MAddingUser (DCount (length gids)) in
        let! gs := lift (add_groups (u_groups u) gids) in
        put_user_l ctx uid (mkUser (u_hash u) (u_scopes u) gs) true.
    (** RemoveUserFromGroups, id/standalone.go:246-277. *)
    Definition sa_remove_user_l (ctx : option logger) (tok uid : bytes) (gids : list bytes) : prog LW (res unit) :=
      let* ctx := with_method (copy_ctx_logger ctx) (str "remove user from group") in
      let! i := sa_get_identity_l ctx tok in
      let* _ := say ctx MCheckingMembership (DCount (length gids)) in
      if negb (member_of_all i gids) then Ret (Err EIdNotAuthorized)
      else
        let! u := get_user_l ctx uid in
        let* _ := say ctx MRemovingUser (DCount (length gids)) in
        put_user_l ctx uid (mkUser (u_hash u) (u_scopes u) (remove_groups (u_groups u) gids)) true.
    (** DeleteUser, id/standalone.go:280-291. *)
    Definition sa_delete_user_l (ctx : option logger) (tok uid : bytes) : prog LW (res unit) :=
      let* ctx := with_method (copy_ctx_logger ctx) (str "delete user") in
      let! _ := sa_get_identity_l ctx tok in
      let* _ := say ctx MDeletingUser DNone in
      on_snd (on_io (io_delete io uid DataTypeSealedUser)).
    (** NewGroup, id/standalone.go:294-328. *)
    Definition sa_new_group_l (ctx : option logger) (tok : bytes) (scopes : list N) : prog LW (res bytes) :=
      let* ctx := with_method (copy_ctx_logger ctx) (str "new group") in
      let! i := sa_get_identity_l ctx tok in
      let! gid := on_snd (new_v4 e) in
      let* _ := say ctx MCreatingNewGroup DNone in
      let! _ := put_group_l ctx (uuid_text gid) (new_group scopes) in
      let* _ := say ctx MAddingCaller DNone in
      let! u := get_user_l ctx (i_id i) in
      let! gs := lift (add_groups (u_groups u) [uuid_text gid]) in
      let! _ := put_user_l ctx (i_id i) (mkUser (u_hash u) (u_scopes u) gs) true in
      Ret (Ok (uuid_text gid)).
    Definition sa_do_l (ctx : option logger) (c : sa_call) : prog LW (res sa_reply) :=
      match c with
      | SNewUser scopes => map_l (fun p => SRUser (fst p) (snd p)) (sa_new_user_l ctx scopes)
      | SLogin uid pw => map_l (fun p => SRToken (fst p) (snd p)) (sa_login_l ctx uid pw)
      | SChangePassword uid old => map_l SRPassword (sa_change_password_l ctx uid old)
      | SAddUser tok uid gids => map_l (fun _ => SRUnit) (sa_add_user_l ctx tok uid gids)
      | SRemoveUser tok uid gids => map_l (fun _ => SRUnit) (sa_remove_user_l ctx tok uid gids)
      | SDeleteUser tok uid => map_l (fun _ => SRUnit) (sa_delete_user_l ctx tok uid)
      | SNewGroup tok scopes => map_l SRGroup (sa_new_group_l ctx tok scopes)
      | SGetIdentity tok => map_l SRIdentity (sa_get_identity_l ctx tok)
      end.
  End Identities.

  (** Any call of the assembled library, see Lib.v. *)
  Context (L : lib) (fuel : nat).
  Definition lib_idp_l : option logger -> bytes -> prog LW (res identity) :=
    sa_get_identity_l (aes_cryptor e (s_uek (l_sa L))) (aes_cryptor e (s_gek (l_sa L))) (aes_cryptor e (s_tek (l_sa L))).
  Definition lib_do_l (ctx : option logger) (c : lib_call) : prog LW lib_reply :=
    match c with
    | OnObject c => bind (d1_do_l lib_idp_l (aes_cryptor e (d_kek (l_d1 L))) (aes_cryptor e (d_aek (l_d1 L))) (aes_cryptor e (d_tek (l_d1 L))) ctx c)
                      (fun r => Ret (LObject r))
    | OnIndex c => bind (ix_do_l lib_idp_l (l_iek L) fuel ctx c) (fun r => Ret (LIndex r))
    | OnIdentity c => bind (sa_do_l (aes_cryptor e (s_uek (l_sa L))) (aes_cryptor e (s_gek (l_sa L))) (aes_cryptor e (s_tek (l_sa L))) ctx c)
                        (fun r => Ret (LIdentity r))
    end.
End Log.
