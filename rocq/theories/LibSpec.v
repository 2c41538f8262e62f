(** Specification of the assembled library, D1 and SecureIndex with a Standalone as identity provider: a
    directory of users and groups, a map of objects and an index, side by side.  What a token is worth in an
    object or index call is what the directory says at that moment.  No keys, ciphertexts, encodings or
    storage. *)
From stdpp Require Import gmap.
From Verif Require Import Bytes Go Uuid Time Id D1 Spec Standalone StandaloneSpec Index IndexSpec Lib.
Local Open Scope N_scope.

Record lib_state := mkLibState { ls_dir : directory; ls_objects : objects; ls_index : index }.
Definition lib_empty : lib_state := mkLibState dir_empty ∅ index_empty.

Inductive lib_call := OnObject (c : d1_call) | OnIndex (c : ix_call) | OnIdentity (c : sa_call).

(** The identity in an object or index call: a token is looked up in the directory as it is. *)
Definition caller (x : surroundings) (d : directory) (tok : option bytes) (who : res identity) : Prop :=
  match tok with Some t => resolves d (x_now x) t who | None => who = Err ED1NotAuthenticated end.

(** One call.  The id of a new object is the first thing drawn from the random source. *)
Definition lib_step (x : surroundings) (c : lib_call) (s : lib_state) (r : lib_reply) (s' : lib_state) : Prop :=
  match c, r with
  | OnObject c, LObject r =>
      exists who, caller x (ls_dir s) (call_token c) who /\
        spec_step (mkOutside who (x_rng_fails x) (res_map uuid_v4 (x_draw x 0 16))) c (ls_objects s) r (ls_objects s') /\
        ls_dir s' = ls_dir s /\ ls_index s' = ls_index s
  | OnIndex c, LIndex r =>
      exists who, caller x (ls_dir s) (Some (ix_token c)) who /\
        ix_step (mkIxOutside who (x_rng_fails x)) c (ls_index s) r (ls_index s') /\
        ls_dir s' = ls_dir s /\ ls_objects s' = ls_objects s
  | OnIdentity c, LIdentity r =>
      sa_step x c (ls_dir s) r (ls_dir s') /\ ls_objects s' = ls_objects s /\ ls_index s' = ls_index s
  | _, _ => False
  end.

(** A history. *)
Record lib_event := mkLibEvent { lv_x : surroundings; lv_call : lib_call; lv_reply : lib_reply }.
Inductive lib_history : lib_state -> list lib_event -> lib_state -> Prop :=
| lh_nil s : lib_history s [] s
| lh_cons s ev s1 evs s2 :
    lib_step (lv_x ev) (lv_call ev) s (lv_reply ev) s1 -> lib_history s1 evs s2 -> lib_history s (ev :: evs) s2.

(** The index calls of a history. *)
Definition ix_calls (evs : list lib_event) : list ix_call :=
  flat_map (fun ev => match lv_call ev with OnIndex c => [c] | _ => [] end) evs.

(** ** What the replies say *)
(** [tok] was handed to [uid] by a login. *)
Definition token_of (uid tok : bytes) (evs : list lib_event) : Prop :=
  exists ev pw s n, In ev evs /\ lv_call ev = OnIdentity (SLogin uid pw) /\ lv_reply ev = LIdentity (Ok (SRToken s n)) /\ same_token s tok.
(** A call that made [uid] a member of [g]. *)
Definition joins (uid g : bytes) (ev : lib_event) : Prop :=
  match lv_call ev, lv_reply ev with
  | OnIdentity (SAddUser _ uid' gids), LIdentity (Ok _) => uid' = uid /\ In g gids
  | OnIdentity (SNewGroup _ _), LIdentity (Ok (SRGroup gid)) => gid = g
  | _, _ => False
  end.
(** [uid] was taken out of [g] and not put back. *)
Definition removed (uid g : bytes) (evs : list lib_event) : Prop :=
  exists pre ev mid tok gids, evs = pre ++ ev :: mid /\
    lv_call ev = OnIdentity (SRemoveUser tok uid gids) /\ lv_reply ev = LIdentity (Ok SRUnit) /\ In g gids /\
    forall ev', In ev' mid -> ~ joins uid g ev'.
(** Going by the replies, [uid] is not in [g]: never put into it, or taken out and not put back. *)
Definition not_in (uid g : bytes) (evs : list lib_event) : Prop :=
  (forall ev, In ev evs -> ~ joins uid g ev) \/ removed uid g evs.
(** A call that makes a user with this id. *)
Definition enrols (uid : bytes) (ev : lib_event) : Prop :=
  exists scopes pw, lv_call ev = OnIdentity (SNewUser scopes) /\ lv_reply ev = LIdentity (Ok (SRUser uid pw)).
(** [uid] was deleted and no new user got this id. *)
Definition deleted (uid : bytes) (evs : list lib_event) : Prop :=
  exists pre ev mid tok, evs = pre ++ ev :: mid /\
    lv_call ev = OnIdentity (SDeleteUser tok uid) /\ lv_reply ev = LIdentity (Ok SRUnit) /\
    forall ev', In ev' mid -> ~ enrols uid ev'.
(** Calls that only look. *)
Definition only_reads (c : d1_call) : Prop :=
  match c with CDecrypt _ _ | CGetAccessGroups _ _ | CAuthorize _ _ => True | _ => False end.
(** A successful answer to the question who is on the list of [oid], and since then no call about [oid] but ones that only look. *)
Definition listed (oid : uuid) (acl : gset bytes) (evs : list lib_event) : Prop :=
  exists pre ev mid tok, evs = pre ++ ev :: mid /\
    lv_call ev = OnObject (CGetAccessGroups tok oid) /\ lv_reply ev = LObject (Ok (RGroups (Some acl))) /\
    forall ev' c, In ev' mid -> lv_call ev' = OnObject c -> call_oid c = Some oid -> only_reads c.
(** GetIdentity said [i] for [tok], and no user, group or password was touched since. *)
Definition identified (tok : bytes) (i : identity) (evs : list lib_event) : Prop :=
  exists pre ev mid, evs = pre ++ ev :: mid /\
    lv_call ev = OnIdentity (SGetIdentity tok) /\ lv_reply ev = LIdentity (Ok (SRIdentity i)) /\
    forall ev' c, In ev' mid -> lv_call ev' = OnIdentity c -> exists t, c = SGetIdentity t.
(** The login that gave [tok] is less than an hour ago. *)
Definition current (tok : bytes) (now : gtime) (evs : list lib_event) : Prop :=
  forall ev uid pw s n, In ev evs -> lv_call ev = OnIdentity (SLogin uid pw) -> lv_reply ev = LIdentity (Ok (SRToken s n)) ->
    same_token s tok -> (nanos now <= nanos (time_add (x_now (lv_x ev)) 3600))%Z.
(** The token of a call. *)
Definition lib_token (c : lib_call) : option bytes :=
  match c with
  | OnObject c => call_token c
  | OnIndex c => Some (ix_token c)
  | OnIdentity (SAddUser t _ _) | OnIdentity (SRemoveUser t _ _) | OnIdentity (SDeleteUser t _) | OnIdentity (SNewGroup t _)
  | OnIdentity (SGetIdentity t) => Some t
  | OnIdentity _ => None
  end.
(** The errors of a call whose token stands for nobody. *)
Definition turned_away (r : lib_reply) : Prop :=
  match r with
  | LObject r => r = Err ED1NotAuthenticated
  | LIndex r => r = Err EIxNotAuthenticated
  | LIdentity r => r = Err EIdUserNotFound \/ r = Err EIdNotAuthenticated
  end.
(** What a call about an object needs of the caller. *)
Definition call_need (c : d1_call) : N :=
  match c with
  | CEncrypt _ _ _ => ScopeEncrypt
  | CUpdate _ _ _ => ScopeUpdate
  | CDecrypt _ _ => ScopeDecrypt
  | CDelete _ _ => ScopeDelete
  | CGetAccessGroups _ _ | CAuthorize _ _ => ScopeGetAccessGroups
  | CAddGroups _ _ _ | CRemoveGroups _ _ _ => ScopeModifyAccessGroups
  | CCreateToken _ | CGetTokenContents _ => 0
  end.
(** Every token presented was handed out before: by a login, or, for GetTokenContents, by CreateToken. *)
Definition own_tokens (evs : list lib_event) : Prop :=
  forall pre ev post, evs = pre ++ ev :: post ->
    (forall tok, lib_token (lv_call ev) = Some tok -> exists uid, token_of uid tok pre) /\
    (forall t, lv_call ev = OnObject (CGetTokenContents t) -> exists ev', In ev' pre /\ lv_reply ev' = LObject (Ok (RToken t))).
