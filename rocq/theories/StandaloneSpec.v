(** Specification of the Standalone identity provider, independent of how it computes: a directory
    of users and groups and a list of sessions.  No keys, ciphertexts, encodings or storage. *)
From stdpp Require Import gmap.
From Verif Require Import Bytes Base64 Go Uuid Time Id Data Spec Standalone.
Local Open Scope N_scope.

Record account := mkAccount { ac_scopes : N; ac_salt : bytes; ac_hash : bytes; ac_groups : gset bytes }.
(** A session: the token handed out by a login, for whom, and until when. *)
Record session := mkSession { se_token : bytes; se_uid : bytes; se_exp : gtime }.
Record directory := mkDirectory { d_users : gmap bytes account; d_groups : gmap bytes N; d_sessions : list session }.
Definition dir_empty : directory := mkDirectory ∅ ∅ [].
Definition set_users (d : directory) u := mkDirectory u (d_groups d) (d_sessions d).
Definition set_groups (d : directory) g := mkDirectory (d_users d) g (d_sessions d).
Definition add_session (d : directory) s := mkDirectory (d_users d) (d_groups d) (s :: d_sessions d).

(** An instant in nanoseconds. *)
Definition nanos (t : gtime) : Z := (t_sec t * 1000000000 + t_ns t)%Z.
(** Two strings that decode to the same token. *)
Definition same_token (a b : bytes) : Prop := exists t, token_from_string a = Ok t /\ token_from_string b = Ok t.
(** The string stands for a session of [uid] that ends at [exp]. *)
Definition says (d : directory) (tok uid : bytes) (exp : gtime) : Prop :=
  exists s, In s (d_sessions d) /\ same_token (se_token s) tok /\ se_uid s = uid /\ se_exp s = exp.

(** The identity of a user: their scopes, and their groups with the groups' scopes. *)
Definition describes (d : directory) (uid : bytes) (a : account) (i : identity) : Prop :=
  i_id i = uid /\ i_scopes i = ac_scopes a /\
  (forall g, g ∈ ac_groups a -> exists s, d_groups d !! g = Some s) /\
  (forall g s, i_groups i !! g = Some s <-> g ∈ ac_groups a /\ d_groups d !! g = Some s).
(** Resolving a token at time [now]. *)
Definition resolves (d : directory) (now : gtime) (tok : bytes) (r : res identity) : Prop :=
  (exists uid exp, says d tok uid exp /\ (nanos now <= nanos exp)%Z /\
     match d_users d !! uid with
     | None => r = Err EIdUserNotFound
     | Some a => (exists i, describes d uid a i /\ r = Ok i) \/
                 (exists g, g ∈ ac_groups a /\ d_groups d !! g = None /\ r = Err EIdGroupNotFound)
     end) \/
  ((forall uid exp, says d tok uid exp -> (nanos exp < nanos now)%Z) /\ r = Err EIdNotAuthenticated).

(** The scopes whose bits are those of the given ones. *)
Definition all_of (scopes : list N) (s : N) : Prop :=
  forall b, N.testbit s b = true <-> exists x, In x scopes /\ N.testbit x b = true.

(** What the environment contributes to a call: the time, what the random source gives on the first,
    second, ... request of the call (the number is the size asked for), whether it failed during the
    call, and the password hash function. *)
Record surroundings := mkSurroundings {
  x_now : gtime; x_draw : nat -> N -> res bytes; x_rng_fails : Prop; x_hash : bytes -> bytes -> bytes }.

Definition knows (x : surroundings) (a : account) (password : bytes) : Prop :=
  x_hash x password (ac_salt a) = ac_hash a.
(** The caller is, or is a member of, each of the ids. *)
Definition holds_all (i : identity) (gids : list bytes) : Prop :=
  forall g, In g gids -> g = i_id i \/ exists s, i_groups i !! g = Some s.

(** A call that needs a token. *)
Definition as_caller (x : surroundings) (tok : bytes) (d : directory) (r : res sa_reply) (d' : directory)
  (body : identity -> Prop) : Prop :=
  (exists i, resolves d (x_now x) tok (Ok i) /\ body i) \/
  (exists y, resolves d (x_now x) tok (Err y) /\ r = Err y /\ d' = d).
(** A call that changes the groups of a user. *)
Definition change_membership (x : surroundings) (tok uid : bytes) (gids : list bytes) (f : gset bytes -> gset bytes)
  (d : directory) (r : res sa_reply) (d' : directory) : Prop :=
  as_caller x tok d r d' (fun i =>
    (~ holds_all i gids /\ r = Err EIdNotAuthorized /\ d' = d) \/
    (holds_all i gids /\
      match d_users d !! uid with
      | None => r = Err EIdUserNotFound /\ d' = d
      | Some a =>
          (x_rng_fails x /\ r = Err ERandom /\ d' = d) \/
          (r = Ok SRUnit /\
           d' = set_users d (<[uid := mkAccount (ac_scopes a) (ac_salt a) (ac_hash a) (f (ac_groups a))]> (d_users d)))
      end)).

(** The first three requests to the random source, for an id, a key and a nonce, succeed. *)
Definition three_draws (x : surroundings) : Prop :=
  exists a b c, x_draw x 0 16 = Ok a /\ x_draw x 1 32 = Ok b /\ x_draw x 2 12 = Ok c.

(** One call. *)
Definition sa_step (x : surroundings) (c : sa_call) (d : directory) (r : res sa_reply) (d' : directory) : Prop :=
  match c with
  | SNewUser scopes =>
      (x_rng_fails x /\ r = Err ERandom /\ d' = d) \/
      (exists b raw salt s, x_draw x 0 16 = Ok b /\ x_draw x 1 32 = Ok raw /\ x_draw x 2 8 = Ok salt /\ all_of scopes s /\
        let uid := uuid_text (uuid_v4 b) in
        let pw := b64url_encode raw in
        match d_users d !! uid with
        | Some _ => r = Err EIdUserAlreadyExists /\ d' = d
        | None => r = Ok (SRUser uid pw) /\ d' = set_users d (<[uid := mkAccount s salt (x_hash x pw salt) ∅]> (d_users d))
        end)
  | SLogin uid pw =>
      match d_users d !! uid with
      | None => r = Err EIdNotAuthenticated /\ d' = d
      | Some a =>
          (~ knows x a pw /\ r = Err EIdNotAuthenticated /\ d' = d) \/
          (knows x a pw /\
            let exp := time_add (x_now x) 3600 in
            ((x_rng_fails x \/ time_text exp = None) /\ r = Err EIdNotAuthenticated /\ d' = d) \/
            (exists s, time_text exp <> None /\ r = Ok (SRToken s (time_unix exp)) /\ d' = add_session d (mkSession s uid exp) /\
              (forall uid' exp', says d' s uid' exp' <-> uid' = uid /\ exp' = exp)))
      end
  | SChangePassword uid old =>
      match d_users d !! uid with
      | None => r = Err EIdNotAuthenticated /\ d' = d
      | Some a =>
          (~ knows x a old /\ r = Err EIdNotAuthenticated /\ d' = d) \/
          (knows x a old /\
            ((x_rng_fails x /\ (r = Err EIdNotAuthenticated \/ r = Err ERandom) /\ d' = d) \/
             (exists raw salt, x_draw x 0 32 = Ok raw /\ x_draw x 1 8 = Ok salt /\
               let pw := b64url_encode raw in
               r = Ok (SRPassword pw) /\
               d' = set_users d (<[uid := mkAccount (ac_scopes a) salt (x_hash x pw salt) (ac_groups a)]> (d_users d)))))
      end
  | SAddUser tok uid gids => change_membership x tok uid gids (fun g => g ∪ list_to_set gids) d r d'
  | SRemoveUser tok uid gids => change_membership x tok uid gids (fun g => g ∖ list_to_set gids) d r d'
  | SDeleteUser tok uid => as_caller x tok d r d' (fun _ => r = Ok SRUnit /\ d' = set_users d (delete uid (d_users d)))
  | SNewGroup tok scopes =>
      as_caller x tok d r d' (fun i =>
        (* the first three requests are for the group: if the random source fails only after them,
           the group stays, without members *)
        (x_rng_fails x /\ r = Err ERandom /\ ~ three_draws x /\ d' = d) \/
        (x_rng_fails x /\ r = Err ERandom /\ three_draws x /\
          exists b s, x_draw x 0 16 = Ok b /\ all_of scopes s /\ d_groups d !! uuid_text (uuid_v4 b) = None /\
            d' = set_groups d (<[uuid_text (uuid_v4 b) := s]> (d_groups d))) \/
        (exists b s, x_draw x 0 16 = Ok b /\ all_of scopes s /\
          let gid := uuid_text (uuid_v4 b) in
          match d_groups d !! gid with
          | Some _ => r = Err EIdGroupAlreadyExists /\ d' = d
          | None => exists a, d_users d !! i_id i = Some a /\ r = Ok (SRGroup gid) /\
              d' = mkDirectory (<[i_id i := mkAccount (ac_scopes a) (ac_salt a) (ac_hash a) (ac_groups a ∪ {[gid]})]> (d_users d))
                               (<[gid := s]> (d_groups d)) (d_sessions d)
          end))
  | SGetIdentity tok => exists q, resolves d (x_now x) tok q /\ r = res_map SRIdentity q /\ d' = d
  end.

(** A history. *)
Record sa_event := mkSaEvent { sv_x : surroundings; sv_call : sa_call; sv_reply : res sa_reply }.
Inductive sa_history : directory -> list sa_event -> directory -> Prop :=
| sah_nil d : sa_history d [] d
| sah_cons d ev d1 evs d2 :
    sa_step (sv_x ev) (sv_call ev) d (sv_reply ev) d1 -> sa_history d1 evs d2 -> sa_history d (ev :: evs) d2.

(** What a call may have done when it is cut off, or when storage fails. *)
Definition sa_cut (x : surroundings) (c : sa_call) (d d' : directory) : Prop :=
  d' = d \/ (exists r, sa_step x c d (Ok r) d') \/
  (exists tok scopes b s i, c = SNewGroup tok scopes /\ resolves d (x_now x) tok (Ok i) /\ x_draw x 0 16 = Ok b /\ all_of scopes s /\
     d_groups d !! uuid_text (uuid_v4 b) = None /\ d' = set_groups d (<[uuid_text (uuid_v4 b) := s]> (d_groups d))).

(** A history in which calls may be cut off at any point, and (if [F]) storage may fail. *)
Inductive sa_happening := SDone (ev : sa_event) | SCut (x : surroundings) (c : sa_call).
Definition sa_happens (F : Prop) (h : sa_happening) (d d' : directory) : Prop :=
  match h with
  | SDone ev =>
      sa_step (sv_x ev) (sv_call ev) d (sv_reply ev) d' \/
      (F /\ (exists y, sv_reply ev = Err y) /\ sa_cut (sv_x ev) (sv_call ev) d d')
  | SCut x c => sa_cut x c d d'
  end.
Inductive sa_xhistory (F : Prop) : directory -> list sa_happening -> directory -> Prop :=
| sax_nil d : sa_xhistory F d [] d
| sax_cons d h d1 hs d2 : sa_happens F h d d1 -> sa_xhistory F d1 hs d2 -> sa_xhistory F d (h :: hs) d2.
