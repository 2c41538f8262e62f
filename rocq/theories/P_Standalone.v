(** Properties of the Standalone identity provider.  [observed] histories start without users, groups
    and tokens, interleave calls with anything else that leaves users, groups and the token key alone,
    and end without a forged ciphertext having been accepted.  The directory is that of
    StandaloneSpec.v; it is determined by the events. *)
From stdpp Require Import gmap.
From Verif Require Import Bytes Go Time World Io IoSpec IoProofs Id Data D1 D1Proofs Standalone StandaloneSpec
  StandaloneRefine StandaloneHist StandaloneFacts StandaloneDemo.
Local Open Scope N_scope.

(** C36.  Every history of calls is a history of the directory. *)
Theorem C36_standalone_refines_directory {S I} (e : env) (v : view S) (io : provider S) (k : sa_keys) (evs : list sa_event) :
  io_spec False v io -> (forall n, time_wf (clock e n)) ->
  @observed S I e v io k evs -> exists d, sa_history dir_empty evs d.
Proof. intros Hio Hc. exact (obs_history e v io k Hio Hc evs). Qed.
Print Assumptions C36_standalone_refines_directory.

(** The events determine the directory, and the directory determines every reply: up to the token
    string of a login, and up to failures of the random source. *)
Theorem C36_directory_determined (evs : list sa_event) (d1 d2 : directory) :
  sa_history dir_empty evs d1 -> sa_history dir_empty evs d2 -> d1 = d2.
Proof. exact (history_next dir_empty evs d1 d2 unique_empty). Qed.
Print Assumptions C36_directory_determined.
Theorem C36_replies_determined (evs : list sa_event) (d d1 d2 : directory) (x : surroundings) (c : sa_call) (r1 r2 : res sa_reply) :
  sa_history dir_empty evs d -> ~ x_rng_fails x -> sa_step x c d r1 d1 -> sa_step x c d r2 d2 ->
  match r1, r2 with Ok (SRToken _ t1), Ok (SRToken _ t2) => t1 = t2 | _, _ => r1 = r2 end.
Proof. intros H. exact (step_reply x c d r1 r2 d1 d2 (obs_unique evs d H)). Qed.
Print Assumptions C36_replies_determined.

(** Nothing is ever forged if only tokens of earlier logins are presented: the exception in
    [observed] concerns strings the provider did not hand out. *)
Theorem C36_no_forgery_without_foreign_tokens {S I} (e : env) (v : view S) (io : provider S) (k : sa_keys) (w w' : world S I) (evs : list sa_event) :
  io_spec False v io -> (forall n, time_wf (clock e n)) ->
  sa_fresh v k w -> sa_run e io k (sa_quiet v k) w evs w' ->
  (forall evs1 ev evs2 d1, evs = evs1 ++ ev :: evs2 -> sa_history dir_empty evs1 d1 ->
     match sv_call ev with
     | SAddUser tok _ _ | SRemoveUser tok _ _ | SDeleteUser tok _ | SNewGroup tok _ | SGetIdentity tok => exists uid exp, says d1 tok uid exp
     | _ => True
     end) ->
  w_forged w' = false /\ exists d, sa_history dir_empty evs d.
Proof. exact (honest_fresh e v io k w w' evs). Qed.
Print Assumptions C36_no_forgery_without_foreign_tokens.
Example C36_case : exists evs, @observed _ unit sa_env mem_view Mem sa_k evs /\ length evs = 9%nat /\ io_spec False mem_view Mem /\ forall n, time_wf (clock sa_env n).
Proof.
  destruct (demo_life sa_k) as (x1 & x2 & x3 & x4 & x5 & x6 & x7 & x8 & x9 & p1 & p2 & p3 & t1 & t2 & t3 & gid & i & H & _).
  eexists. split; [exact H|]. split; [reflexivity|]. split; [exact (mem_spec False)|exact sa_clock].
Qed.

(** C35.  LoginUser succeeds exactly when the user exists and the password hashes to the stored hash
    (unless the random source fails or the expiry cannot be written); otherwise it says only "not
    authenticated". *)
Theorem C35_login_exact {S I} (e : env) (v : view S) (io : provider S) (k : sa_keys) (evs1 evs2 : list sa_event) (ev : sa_event) (d : directory) (uid pw : bytes) :
  io_spec False v io -> (forall n, time_wf (clock e n)) ->
  @observed S I e v io k (evs1 ++ ev :: evs2) -> sa_history dir_empty evs1 d -> sv_call ev = SLogin uid pw ->
  ((exists tok t, sv_reply ev = Ok (SRToken tok t)) -> exists a, d_users d !! uid = Some a /\ pwhash e pw (ac_salt a) = ac_hash a) /\
  (forall a, d_users d !! uid = Some a -> pwhash e pw (ac_salt a) = ac_hash a -> ~ mishap ev ->
     exists tok, sv_reply ev = Ok (SRToken tok (time_unix (expiry_of ev)))) /\
  ((exists tok t, sv_reply ev = Ok (SRToken tok t)) \/ sv_reply ev = Err EIdNotAuthenticated).
Proof. intros Hio Hc. exact (login_exact e v io k Hio Hc evs1 ev evs2 d uid pw). Qed.
Print Assumptions C35_login_exact.
(** The token of a login resolves, for one hour, to that user with their current scopes and exactly
    their current groups; after that it is refused. *)
Theorem C35_token_resolves_to_current_account {S I} (e : env) (v : view S) (io : provider S) (k : sa_keys) (evs1 evs2 evs3 : list sa_event) (lg gi : sa_event)
  (d : directory) (uid pw tok : bytes) (t : Z) :
  io_spec False v io -> (forall n, time_wf (clock e n)) ->
  @observed S I e v io k (evs1 ++ lg :: evs2 ++ gi :: evs3) ->
  sv_call lg = SLogin uid pw -> sv_reply lg = Ok (SRToken tok t) -> sv_call gi = SGetIdentity tok ->
  sa_history dir_empty (evs1 ++ lg :: evs2) d ->
  t = time_unix (expiry_of lg) /\
  (forall i, (nanos (x_now (sv_x gi)) <= nanos (expiry_of lg))%Z -> sv_reply gi = Ok (SRIdentity i) -> exists a, d_users d !! uid = Some a /\ describes d uid a i) /\
  ((nanos (x_now (sv_x gi)) <= nanos (expiry_of lg))%Z ->
    match d_users d !! uid with
    | None => sv_reply gi = Err EIdUserNotFound
    | Some a => (forall g, g ∈ ac_groups a -> is_Some (d_groups d !! g)) -> exists i, sv_reply gi = Ok (SRIdentity i)
    end) /\
  ((nanos (expiry_of lg) < nanos (x_now (sv_x gi)))%Z -> sv_reply gi = Err EIdNotAuthenticated).
Proof. intros Hio Hc. exact (token_means e v io k Hio Hc evs1 lg evs2 gi evs3 d uid pw tok t). Qed.
Print Assumptions C35_token_resolves_to_current_account.
Example C35_case : exists evs1 lg evs2 gi evs3 uid pw tok t i,
  @observed _ unit sa_env mem_view Mem sa_k (evs1 ++ lg :: evs2 ++ gi :: evs3) /\
  sv_call lg = SLogin uid pw /\ sv_reply lg = Ok (SRToken tok t) /\ sv_call gi = SGetIdentity tok /\ sv_reply gi = Ok (SRIdentity i) /\
  (nanos (x_now (sv_x gi)) <= nanos (expiry_of lg))%Z /\ ~ mishap lg.
Proof.
  destruct (demo_life sa_k) as (x1 & x2 & x3 & x4 & x5 & x6 & x7 & x8 & x9 & p1 & p2 & p3 & t1 & t2 & t3 & gid & i & H & _ & _ & C4 & C7 & _).
  exists [mkSaEvent x1 (SNewUser [ScopeAll]) (Ok (SRUser u1 p1)); mkSaEvent x2 (SNewUser [ScopeAll]) (Ok (SRUser u2 p2));
    mkSaEvent x3 (SLogin u1 p1) (Ok (SRToken t1 (time_unix T1)))].
  eexists. exists [mkSaEvent x5 (SNewGroup t1 [ScopeAll]) (Ok (SRGroup gid)); mkSaEvent x6 (SAddUser t1 u2 [gid]) (Ok SRUnit)].
  eexists. eexists. exists u2, p2, t2. do 2 eexists. split; [exact H|]. do 4 (split; [reflexivity|]). cbn [sv_x].
  unfold expiry_of, mishap, expiry_of. cbn [sv_x]. destruct C4 as (C41 & C42 & _), C7 as (C71 & _). rewrite C41, C71. split; [exact T0_T1|].
  intros [X|X]; [exact (C42 X)|exact (T1_text X)].
Qed.

(** C37.  A successful ChangeUserPassword replaces salt and hash and nothing else; an unsuccessful one
    replaces nothing; a wrong old password is refused. *)
Theorem C37_change_effect {S I} (e : env) (v : view S) (io : provider S) (k : sa_keys) (evs1 evs2 : list sa_event) (ev : sa_event) (d d' : directory) (uid old : bytes) :
  io_spec False v io -> (forall n, time_wf (clock e n)) ->
  @observed S I e v io k (evs1 ++ ev :: evs2) -> sv_call ev = SChangePassword uid old ->
  sa_history dir_empty evs1 d -> sa_history dir_empty (evs1 ++ [ev]) d' ->
  (forall x, sv_reply ev = Ok x -> exists a pw salt,
     x = SRPassword pw /\ d_users d !! uid = Some a /\ pwhash e old (ac_salt a) = ac_hash a /\
     d' = set_users d (<[uid := mkAccount (ac_scopes a) salt (pwhash e pw salt) (ac_groups a)]> (d_users d))) /\
  ((forall x, sv_reply ev <> Ok x) -> d' = d) /\
  (forall a, d_users d !! uid = Some a -> pwhash e old (ac_salt a) <> ac_hash a -> sv_reply ev = Err EIdNotAuthenticated).
Proof. intros Hio Hc. exact (change_effect e v io k Hio Hc evs1 ev evs2 d d' uid old). Qed.
Print Assumptions C37_change_effect.
(** Until the password is changed again or the user deleted, exactly the passwords that hash like the
    new one under the new salt log in: the new one does; the old one does only if it collides. *)
Theorem C37_password_change {S I} (e : env) (v : view S) (io : provider S) (k : sa_keys) (evs1 evs2 evs3 : list sa_event) (ch lg : sa_event) (uid old pw pw' : bytes) :
  io_spec False v io -> (forall n, time_wf (clock e n)) ->
  @observed S I e v io k (evs1 ++ ch :: evs2 ++ lg :: evs3) ->
  sv_call ch = SChangePassword uid old -> sv_reply ch = Ok (SRPassword pw) ->
  Forall (leaves_password uid) evs2 -> sv_call lg = SLogin uid pw' ->
  exists salt,
    ((exists tok t, sv_reply lg = Ok (SRToken tok t)) -> pwhash e pw' salt = pwhash e pw salt) /\
    (pwhash e pw' salt = pwhash e pw salt -> ~ mishap lg -> exists tok t, sv_reply lg = Ok (SRToken tok t)).
Proof. intros Hio Hc. exact (change_then_login e v io k Hio Hc evs1 ch evs2 lg evs3 uid old pw pw'). Qed.
Print Assumptions C37_password_change.
Example C37_case : exists evs1 ch evs2 lg evs3 uid old pw,
  @observed _ unit sa_env mem_view Mem sa_k (evs1 ++ ch :: evs2 ++ lg :: evs3) /\
  sv_call ch = SChangePassword uid old /\ sv_reply ch = Ok (SRPassword pw) /\ Forall (leaves_password uid) evs2 /\
  sv_call lg = SLogin uid pw /\ exists tok t, sv_reply lg = Ok (SRToken tok t).
Proof.
  destruct (demo_life sa_k) as (x1 & x2 & x3 & x4 & x5 & x6 & x7 & x8 & x9 & p1 & p2 & p3 & t1 & t2 & t3 & gid & i & H & _).
  exists [mkSaEvent x1 (SNewUser [ScopeAll]) (Ok (SRUser u1 p1)); mkSaEvent x2 (SNewUser [ScopeAll]) (Ok (SRUser u2 p2));
    mkSaEvent x3 (SLogin u1 p1) (Ok (SRToken t1 (time_unix T1))); mkSaEvent x4 (SLogin u2 p2) (Ok (SRToken t2 (time_unix T1)));
    mkSaEvent x5 (SNewGroup t1 [ScopeAll]) (Ok (SRGroup gid)); mkSaEvent x6 (SAddUser t1 u2 [gid]) (Ok SRUnit);
    mkSaEvent x7 (SGetIdentity t2) (Ok (SRIdentity i))].
  eexists. exists []. eexists. eexists. exists u2, p2, p3. split; [exact H|]. split; [reflexivity|]. split; [reflexivity|]. split; [constructor|].
  split; [reflexivity|]. cbn [sv_reply]. eauto.
Qed.

(** C38.  Partial: AddUserToGroups and RemoveUserFromGroups succeed only if each named id is a group of
    the caller, or the caller's own user id; and then they change exactly the named memberships of the
    one user.  Otherwise nothing changes.  The full property, without "or the caller's own user id", is
    false: see C38_only_members_refuted. *)
Theorem C38_only_members_partial {S I} (e : env) (v : view S) (io : provider S) (k : sa_keys) (evs1 evs2 : list sa_event) (ev : sa_event) (d d' : directory)
  (tok uid : bytes) (gids : list bytes) :
  io_spec False v io -> (forall n, time_wf (clock e n)) ->
  @observed S I e v io k (evs1 ++ ev :: evs2) -> sv_call ev = SAddUser tok uid gids \/ sv_call ev = SRemoveUser tok uid gids ->
  sa_history dir_empty evs1 d -> sa_history dir_empty (evs1 ++ [ev]) d' ->
  (forall x, sv_reply ev = Ok x -> exists caller exp ac a,
     says d tok caller exp /\ (nanos (x_now (sv_x ev)) <= nanos exp)%Z /\ d_users d !! caller = Some ac /\
     (forall g, In g gids -> g = caller \/ (g ∈ ac_groups ac /\ is_Some (d_groups d !! g))) /\
     d_users d !! uid = Some a /\
     exists gs, d' = set_users d (<[uid := mkAccount (ac_scopes a) (ac_salt a) (ac_hash a) gs]> (d_users d)) /\
       forall g, g ∈ gs <-> match sv_call ev with SAddUser _ _ _ => g ∈ ac_groups a \/ In g gids | _ => g ∈ ac_groups a /\ ~ In g gids end) /\
  ((forall x, sv_reply ev <> Ok x) -> d' = d).
Proof. intros Hio Hc. exact (membership_by_members e v io k Hio Hc evs1 ev evs2 d d' tok uid gids). Qed.
Print Assumptions C38_only_members_partial.
Example C38_case : exists evs1 ev evs2 tok uid gids,
  @observed _ unit sa_env mem_view Mem sa_k (evs1 ++ ev :: evs2) /\ sv_call ev = SAddUser tok uid gids /\ gids <> [] /\ sv_reply ev = Ok SRUnit.
Proof.
  destruct (demo_life sa_k) as (x1 & x2 & x3 & x4 & x5 & x6 & x7 & x8 & x9 & p1 & p2 & p3 & t1 & t2 & t3 & gid & i & H & _).
  exists [mkSaEvent x1 (SNewUser [ScopeAll]) (Ok (SRUser u1 p1)); mkSaEvent x2 (SNewUser [ScopeAll]) (Ok (SRUser u2 p2));
    mkSaEvent x3 (SLogin u1 p1) (Ok (SRToken t1 (time_unix T1))); mkSaEvent x4 (SLogin u2 p2) (Ok (SRToken t2 (time_unix T1)));
    mkSaEvent x5 (SNewGroup t1 [ScopeAll]) (Ok (SRGroup gid))].
  eexists. eexists. exists t1, u2, [gid]. split; [exact H|]. split; [reflexivity|]. split; [discriminate|reflexivity].
Qed.
(** C38 and C39 are false.  User 1, a member of no group at all, names their own user id as a group of
    user 2; the call succeeds, and user 2, whose token was fine just before, can no longer be resolved
    to an identity. *)
Theorem C38_only_members_refuted : exists x1 x2 x3 x4 x5 x6 x7 p1 p2 t1 t2 i,
  @observed _ unit sa_env mem_view Mem sa_k
   [mkSaEvent x1 (SNewUser [ScopeAll]) (Ok (SRUser u1 p1)); mkSaEvent x2 (SNewUser [ScopeAll]) (Ok (SRUser u2 p2));
    mkSaEvent x3 (SLogin u1 p1) (Ok (SRToken t1 (time_unix T1))); mkSaEvent x4 (SLogin u2 p2) (Ok (SRToken t2 (time_unix T1)));
    mkSaEvent x5 (SGetIdentity t2) (Ok (SRIdentity i)); mkSaEvent x6 (SAddUser t1 u2 [u1]) (Ok SRUnit);
    mkSaEvent x7 (SGetIdentity t2) (Err EIdGroupNotFound)] /\ i_id i = u2 /\ u1 <> u2.
Proof.
  destruct (demo_lockout sa_k) as (x1 & x2 & x3 & x4 & x5 & x6 & x7 & p1 & p2 & t1 & t2 & i & H & Hi).
  exists x1, x2, x3, x4, x5, x6, x7, p1, p2, t1, t2, i. split; [exact H|]. split; [exact Hi|exact u12].
Qed.
Print Assumptions C38_only_members_refuted.
Theorem C39_no_lockout_refuted : exists evs1 before add after victim attacker tok tok' i,
  @observed _ unit sa_env mem_view Mem sa_k (evs1 ++ [before; add; after]) /\
  sv_call before = SGetIdentity tok /\ sv_reply before = Ok (SRIdentity i) /\ i_id i = victim /\
  (exists lg pw t, In lg evs1 /\ sv_call lg = SLogin attacker pw /\ sv_reply lg = Ok (SRToken tok' t)) /\ attacker <> victim /\
  sv_call add = SAddUser tok' victim [attacker] /\ sv_reply add = Ok SRUnit /\
  sv_call after = SGetIdentity tok /\ sv_reply after = Err EIdGroupNotFound.
Proof.
  destruct (demo_lockout sa_k) as (x1 & x2 & x3 & x4 & x5 & x6 & x7 & p1 & p2 & t1 & t2 & i & H & Hi).
  exists [mkSaEvent x1 (SNewUser [ScopeAll]) (Ok (SRUser u1 p1)); mkSaEvent x2 (SNewUser [ScopeAll]) (Ok (SRUser u2 p2));
     mkSaEvent x3 (SLogin u1 p1) (Ok (SRToken t1 (time_unix T1))); mkSaEvent x4 (SLogin u2 p2) (Ok (SRToken t2 (time_unix T1)))].
  do 3 eexists. exists u2, u1, t2, t1, i. split; [exact H|]. split; [reflexivity|]. split; [reflexivity|]. split; [exact Hi|].
  split; [exists (mkSaEvent x3 (SLogin u1 p1) (Ok (SRToken t1 (time_unix T1)))), p1, (time_unix T1); split; [right; right; now left|split; reflexivity]|].
  split; [exact u12|]. repeat split.
Qed.
Print Assumptions C39_no_lockout_refuted.
(** What does hold: adding a user to groups that exist locks nobody out. *)
Theorem C39_existing_groups_no_lockout_partial {S I} (e : env) (v : view S) (io : provider S) (k : sa_keys) (evs1 evs2 : list sa_event) (before add after : sa_event)
  (d : directory) (tok tok' uid : bytes) (gids : list bytes) (i : identity) :
  io_spec False v io -> (forall n, time_wf (clock e n)) ->
  @observed S I e v io k (evs1 ++ before :: add :: after :: evs2) ->
  sv_call before = SGetIdentity tok -> sv_reply before = Ok (SRIdentity i) -> sv_call add = SAddUser tok' uid gids -> sv_call after = SGetIdentity tok ->
  sa_history dir_empty evs1 d -> (forall g, In g gids -> is_Some (d_groups d !! g)) ->
  (exists i', sv_reply after = Ok (SRIdentity i') /\ i_id i' = i_id i) \/ sv_reply after = Err EIdNotAuthenticated.
Proof. intros Hio Hc. exact (groups_exist_no_lockout e v io k Hio Hc evs1 before add after evs2 d tok tok' uid gids i). Qed.
Print Assumptions C39_existing_groups_no_lockout_partial.

(** C40 is false: exchanging the stored records of two users is never detected, and lets the one log in
    with the password of the other. *)
Theorem C40_records_bound_to_ids_refuted {S I} (e : env) (v : view S) (io : provider S) (k : sa_keys) (w0 w w' w'' : world S I)
  (evs : list sa_event) (d : directory) (uid1 uid2 : bytes) (a1 a2 : account) (pw2 : bytes) (r : res sa_reply) :
  io_spec False v io -> (forall n, time_wf (clock e n)) ->
  sa_fresh v k w0 -> sa_run e io k (sa_elsewhere v k) w0 evs w -> w_forged w = false -> sa_history dir_empty evs d ->
  d_users d !! uid1 = Some a1 -> d_users d !! uid2 = Some a2 -> uid1 <> uid2 -> swapped v w w' uid1 uid2 ->
  pwhash e pw2 (ac_salt a2) = ac_hash a2 -> run (sa_aes e io k (SLogin uid1 pw2)) w' = (r, w'') ->
  ~ rng_failed e w'' -> time_text (time_add (clock e (w_ticks w')) 3600) <> None ->
  w_forged w'' = false /\ exists tok t, r = Ok (SRToken tok t).
Proof. intros Hio Hc. exact (swap_login v k e io Hio Hc w0 w w' evs d uid1 uid2 a1 a2 pw2 r w''). Qed.
Print Assumptions C40_records_bound_to_ids_refuted.
Example C40_refuted_case : exists evs d w w' a1 a2 p2,
  sa_fresh mem_view sa_k sa_w /\ sa_run sa_env Mem sa_k (sa_elsewhere mem_view sa_k) sa_w evs w /\ w_forged w = false /\ sa_history dir_empty evs d /\
  d_users d !! u1 = Some a1 /\ d_users d !! u2 = Some a2 /\ u1 <> u2 /\ swapped mem_view w w' u1 u2 /\
  pwhash sa_env p2 (ac_salt a2) = ac_hash a2 /\ ~ rng_failed sa_env (snd (run (sa_aes sa_env Mem sa_k (SLogin u1 p2)) w')) /\
  time_text (time_add (clock sa_env (w_ticks w')) 3600) <> None.
Proof.
  destruct (demo_swap sa_k) as (x1 & x2 & x3 & x4 & p1 & p2 & t1 & t2 & d & w & w' & a1 & a2 & H).
  eexists. exists d, w, w', a1, a2, p2. exact H.
Qed.

(** C41, second half.  A new user and a new group have exactly the union of the given scopes. *)
Theorem C41_new_user_scopes {S I} (e : env) (v : view S) (io : provider S) (k : sa_keys) (evs1 evs2 : list sa_event) (ev : sa_event) (d d' : directory)
  (scopes : list N) (uid pw : bytes) :
  io_spec False v io -> (forall n, time_wf (clock e n)) ->
  @observed S I e v io k (evs1 ++ ev :: evs2) -> sv_call ev = SNewUser scopes -> sv_reply ev = Ok (SRUser uid pw) ->
  sa_history dir_empty evs1 d -> sa_history dir_empty (evs1 ++ [ev]) d' ->
  d_users d !! uid = None /\ exists a, d' = set_users d (<[uid := a]> (d_users d)) /\
    (forall b, N.testbit (ac_scopes a) b = true <-> exists x, In x scopes /\ N.testbit x b = true) /\ ac_groups a = ∅ /\
    pwhash e pw (ac_salt a) = ac_hash a.
Proof. intros Hio Hc. exact (new_user_scopes e v io k Hio Hc evs1 ev evs2 d d' scopes uid pw). Qed.
Print Assumptions C41_new_user_scopes.
Theorem C41_new_group_scopes {S I} (e : env) (v : view S) (io : provider S) (k : sa_keys) (evs1 evs2 : list sa_event) (ev : sa_event) (d d' : directory)
  (tok : bytes) (scopes : list N) (gid : bytes) :
  io_spec False v io -> (forall n, time_wf (clock e n)) ->
  @observed S I e v io k (evs1 ++ ev :: evs2) -> sv_call ev = SNewGroup tok scopes -> sv_reply ev = Ok (SRGroup gid) ->
  sa_history dir_empty evs1 d -> sa_history dir_empty (evs1 ++ [ev]) d' ->
  d_groups d !! gid = None /\ exists s, d_groups d' = <[gid := s]> (d_groups d) /\
    (forall b, N.testbit s b = true <-> exists x, In x scopes /\ N.testbit x b = true).
Proof. intros Hio Hc. exact (new_group_scopes e v io k Hio Hc evs1 ev evs2 d d' tok scopes gid). Qed.
Print Assumptions C41_new_group_scopes.
Example C41_standalone_case : exists evs1 ev evs2 tok gid,
  @observed _ unit sa_env mem_view Mem sa_k (evs1 ++ ev :: evs2) /\ sv_call ev = SNewGroup tok [ScopeAll] /\ sv_reply ev = Ok (SRGroup gid).
Proof.
  destruct (demo_life sa_k) as (x1 & x2 & x3 & x4 & x5 & x6 & x7 & x8 & x9 & p1 & p2 & p3 & t1 & t2 & t3 & gid & i & H & _).
  exists [mkSaEvent x1 (SNewUser [ScopeAll]) (Ok (SRUser u1 p1)); mkSaEvent x2 (SNewUser [ScopeAll]) (Ok (SRUser u2 p2));
    mkSaEvent x3 (SLogin u1 p1) (Ok (SRToken t1 (time_unix T1))); mkSaEvent x4 (SLogin u2 p2) (Ok (SRToken t2 (time_unix T1)))].
  eexists. eexists. exists t1, gid. split; [exact H|]. split; reflexivity.
Qed.

(** C51.  Calls that are cut off after any number of steps, or hit by failing storage ([F]), have all of
    their effect or none, except that a NewGroup may leave the group without adding the caller to it
    (see [sa_cut]).  Everything afterwards again behaves as the directory says. *)
Theorem C51_interrupted_standalone_calls {S I} (e : env) (F : Prop) (v : view S) (io : provider S) (k : sa_keys) (w w' : world S I) (hs : list sa_happening) :
  io_spec F v io -> (forall n, time_wf (clock e n)) ->
  sa_fresh v k w -> sa_xrun e v io k w hs w' -> w_forged w' = false ->
  exists d, sa_xhistory F dir_empty hs d.
Proof. exact (cut_fresh e F v io k w w' hs). Qed.
Print Assumptions C51_interrupted_standalone_calls.
Example C51_case : exists hs w', sa_xrun sa_env mem_view Mem sa_k sa_w hs w' /\ w_forged w' = false /\ length hs = 2%nat /\ (exists x c, In (SCut x c) hs).
Proof.
  destruct (run (sa_aes sa_env Mem sa_k (SNewUser [ScopeAll])) sa_w) as [r w1] eqn:E1.
  destruct (run_n 7 (sa_aes sa_env Mem sa_k (SLogin u1 [x00])) w1) as [p w2] eqn:E2.
  destruct (call_cases sa_env mem_view Mem (mem_spec False) sa_k sa_clock false _ _ _ _ _ (all_lt : sa_call_wf (SNewUser [ScopeAll])) (fresh_WR mem_view sa_k sa_w (sa_w_fresh sa_k)) E1) as [[_ []]|(d1 & W1 & _)].
  pose proof (Logic.wpc_cut _ _ _ _ (sa_wpc sa_env False mem_view Mem (mem_spec False) sa_k false sa_clock (SLogin u1 [x00]) d1 w1 Logic.I W1) 7) as X. rewrite E2 in X. cbn [snd] in X.
  destruct X as [[_ []]|(d2 & W2 & _)].
  do 2 eexists. split; [eapply sx_call; [|exact E1|eapply sx_cut; [|exact E2|constructor]]; [exact all_lt|exact Logic.I]|].
  split; [apply W2|]. split; [reflexivity|]. do 2 eexists. right. now left.
Qed.
