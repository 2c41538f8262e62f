(** Where what calls return comes from, when calls overlap, going by the calls made and the answers given. *)
From stdpp Require Import gmap.
From Verif Require Import Bytes Go Uuid Types World Id Data D1 Spec Standalone StandaloneSpec Index IndexSpec Lib LibSpec LibConcSpec LibConcUseSpec LibReadSpec.

(** One of the calls in [all] did this: it was made, and if it has been answered, then in a way that says that it did this. *)
Definition came_from (all : list lib_obs) (did : lib_call -> lib_reply -> Prop) : Prop :=
  exists m c r, nth_error (lib_calls all) m = Some c /\ did c r /\ forall r', In (LReply m r') all -> r' = r.

(** A call that made the user [uid] with the scopes [s]. *)
Definition makes_user (uid : bytes) (s : N) (c : lib_call) (r : lib_reply) : Prop :=
  match c, r with
  | OnIdentity (SNewUser scopes), LIdentity (Ok (SRUser uid' _)) => uid' = uid /\ all_of scopes s
  | _, _ => False
  end.
(** A call that gave [uid] the password [pw]. *)
Definition gives_password (uid pw : bytes) (c : lib_call) (r : lib_reply) : Prop :=
  match c, r with
  | OnIdentity (SNewUser _), LIdentity (Ok (SRUser uid' pw')) => uid' = uid /\ pw' = pw
  | OnIdentity (SChangePassword uid' _), LIdentity (Ok (SRPassword pw')) => uid' = uid /\ pw' = pw
  | _, _ => False
  end.
(** [pw] is a password that [uid] was given, or has the same hash. *)
Definition own_password (e : env) (all : list lib_obs) (uid pw : bytes) : Prop :=
  exists pw0 salt, came_from all (gives_password uid pw0) /\ pwhash e pw salt = pwhash e pw0 salt.
(** [tok] is from a LoginUser of [uid] with a password of theirs. *)
Definition token_from (e : env) (all : list lib_obs) (uid tok : bytes) : Prop :=
  came_from all (fun c r => exists pw t x, c = OnIdentity (SLogin uid pw) /\ r = LIdentity (Ok (SRToken t x)) /\ same_token t tok /\ own_password e all uid pw).
(** A call that made [uid] a member of [g]: AddUserToGroups, or NewGroup by themselves. *)
Definition puts_in (e : env) (all : list lib_obs) (uid g : bytes) (c : lib_call) (r : lib_reply) : Prop :=
  match c, r with
  | OnIdentity (SAddUser _ uid' gids), LIdentity (Ok SRUnit) => uid' = uid /\ In g gids
  | OnIdentity (SNewGroup tok _), LIdentity (Ok (SRGroup g')) => g' = g /\ token_from e all uid tok
  | _, _ => False
  end.
(** A call that made the group [g] with the scopes [s].  When the random source fails late, the group stays although the call reports the failure. *)
Definition makes_group (g : bytes) (s : N) (c : lib_call) (r : lib_reply) : Prop :=
  match c with
  | OnIdentity (SNewGroup _ scopes) => (r = LIdentity (Ok (SRGroup g)) \/ r = LIdentity (Err ERandom)) /\ all_of scopes s
  | _ => False
  end.
(** A call that put [g] on the list of [oid]: Encrypt with this group or by this user, or AddGroupsToAccess. *)
Definition puts_on (e : env) (all : list lib_obs) (oid : uuid) (g : bytes) (c : lib_call) (r : lib_reply) : Prop :=
  match c, r with
  | OnObject (CEncrypt tok _ gs), LObject (Ok (ROid oid')) => oid' = oid /\ (In g (map as_text gs) \/ token_from e all g tok)
  | OnObject (CAddGroups _ oid' gs), LObject (Ok RUnit) => oid' = oid /\ In g (map as_text gs)
  | _, _ => False
  end.
(** A call that added [y] to the identifiers of [kw]. *)
Definition puts_under (kw y : bytes) (c : lib_call) (r : lib_reply) : Prop :=
  match c, r with
  | OnIndex (IAdd _ kw' y'), LIndex (Ok IRUnit) => kw' = kw /\ as_text y' = y
  | _, _ => False
  end.
