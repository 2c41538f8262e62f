(** Who may act as whom with the Standalone identity provider, in terms of the calls that were made: the
    vocabulary of the theorems about concurrent calls over storage controlled by an adversary. *)
From stdpp Require Import gmap.
From Verif Require Import Bytes Base64 Go Uuid Types World Time Id Data D1 Spec Standalone StandaloneSpec.
Local Open Scope N_scope.

(** What identifies the thing a call made: the password of a new user or of a password change, the id of
    a new group, the expiry of a login token. *)
Inductive sa_stamp := MPassword (pw : bytes) | MGroup (gid : bytes) | MExpiry (t : gtime).
(** The answer does not contradict the stamp. *)
Definition sa_stamped (s : sa_stamp) (r : res sa_reply) : Prop :=
  match r with
  | Ok (SRUser _ pw) | Ok (SRPassword pw) => s = MPassword pw
  | Ok (SRGroup gid) => s = MGroup gid
  | Ok (SRToken tok t) => exists st, token_from_string tok = Ok st /\ s = MExpiry (st_exp st) /\ t = time_unix (st_exp st)
  | Ok _ => False
  | Err _ | Panic => True
  end.

Section Authority.
  Context (e : env) (calls : list sa_call).
  (** [made t s]: call number [t] made the thing with stamp [s]. *)
  Context (made : nat -> sa_stamp -> Prop).

  (** Passwords and ids of users and groups come from the random source. *)
  Definition random_password (pw : bytes) : Prop := exists i raw, draw e i 32 = Ok raw /\ pw = b64url_encode raw.
  Definition random_id (x : bytes) : Prop := exists i raw, draw e i 16 = Ok raw /\ x = uuid_text (uuid_v4 raw).
  (** The two passwords have the same hash under some salt of 8 bytes. *)
  Definition pw_match (pw pw' : bytes) : Prop := exists salt, length salt = 8%nat /\ pwhash e pw salt = pwhash e pw' salt.
  (** The password was made for the account that call number [t] opened: by that NewUser, or by a
      ChangeUserPassword that was given such a password. *)
  Inductive issued (t : nat) : bytes -> Prop :=
  | is_new scopes pw : calls !! t = Some (SNewUser scopes) -> made t (MPassword pw) -> random_password pw -> issued t pw
  | is_change t' uid old pw0 pw : issued t pw0 -> pw_match old pw0 ->
      calls !! t' = Some (SChangePassword uid old) -> made t' (MPassword pw) -> random_password pw -> issued t pw.
  (** It is the password of an account. *)
  Definition known (pw : bytes) : Prop := exists t pw0, issued t pw0 /\ pw_match pw pw0.
  (** The string is a token with the expiry of one made by a LoginUser for [uid] that was given the
      password of an account. *)
  Definition logged_in (tok uid : bytes) : Prop :=
    exists st t pw, token_from_string tok = Ok st /\ calls !! t = Some (SLogin uid pw) /\ made t (MExpiry (st_exp st)) /\ known pw.
  (** The id can be in the group list of a user: it was made by NewGroup, called with the token of a
      login, or somebody logged in under this id and named it in AddUserToGroups. *)
  Definition group_id (g : bytes) : Prop :=
    (exists t tok scopes uid, calls !! t = Some (SNewGroup tok scopes) /\ made t (MGroup g) /\ random_id g /\ logged_in tok uid) \/
    (exists tok uid gids x, In (SAddUser tok uid gids) calls /\ In x gids /\ logged_in tok x /\ g = as_text x).
  (** The scopes were given to a NewUser, or to a NewGroup called with the token of a login. *)
  Definition user_scopes (s : N) : Prop := exists scopes, In (SNewUser scopes) calls /\ all_of scopes s.
  Definition group_scopes (s : N) : Prop := exists tok scopes uid, In (SNewGroup tok scopes) calls /\ logged_in tok uid /\ all_of scopes s.
  (** What a token may resolve to. *)
  Definition resolves (tok : bytes) (i : identity) : Prop :=
    logged_in tok (i_id i) /\ user_scopes (i_scopes i) /\
    forall g s, i_groups i !! g = Some s -> group_id g /\ group_scopes s.

  (** What a successful answer to a call implies. *)
  Definition sa_justified (c : sa_call) (r : sa_reply) : Prop :=
    match c, r with
    | SNewUser _, SRUser _ _ => True
    | SLogin uid pw, SRToken _ _ => known pw
    | SChangePassword uid old, SRPassword _ => known old
    | SAddUser tok uid gids, SRUnit | SRemoveUser tok uid gids, SRUnit =>
        exists i, resolves tok i /\ forall g, In g gids -> g = i_id i \/ exists s, i_groups i !! g = Some s
    | SDeleteUser tok uid, SRUnit => exists i, resolves tok i
    | SNewGroup tok scopes, SRGroup _ => exists i, resolves tok i
    | SGetIdentity tok, SRIdentity i => resolves tok i
    | _, _ => False
    end.
End Authority.

(** In a pool of calls as it stands, call [t] has not answered anything but [s]. *)
Definition sa_answered_only {S I} (pool : list (prog (world S I) (res sa_reply))) (t : nat) (s : sa_stamp) : Prop :=
  forall r, pool !! t = Some (Ret r) -> sa_stamped s r.
(** The keys of a Standalone. *)
Definition sa_key (k : sa_keys) (x : bytes) : Prop := x = s_uek k \/ x = s_gek k \/ x = s_tek k.
