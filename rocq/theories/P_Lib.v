(** Properties C57, C58, C59: the Standalone identity provider, and the library as a whole, under an
    adversary who controls storage and the schedule.

    As in P_Sched.v, [exec] interleaves the steps of any number of calls with each other and with steps of
    an adversary who rewrites storage, clock and random source at will and encrypts under any keys but
    those in use.  Nothing is assumed about the storage provider [io].  [pool'] is the pool of calls at the
    moment of observation.  [w_forged w' = false]: no decryption so far accepted a ciphertext that the
    library did not itself produce under that key and with that associated data. *)
From stdpp Require Import gmap.
From Verif Require Import Bytes Go Uuid Time Types World Io IoSpec IoProofs Id Data D1 D1Proofs Spec Demo Sched Authority D1Sched Standalone StandaloneSpec StandaloneRefine
  StandaloneHist StandaloneDemo IdAuthority SaSched Index IndexSpec IndexConcSpec IndexSched Lib LibSched SharedTek LibDemo.
Local Open Scope N_scope.

(** C57.  A token that resolves to an identity has the expiry of one made by a LoginUser for that very id,
    which was given the password of an account; the identity's scopes are those given to some NewUser, and
    its groups were made by NewGroup, or are ids of users who logged in and named themselves; the groups'
    scopes are those given to some NewGroup, called by someone logged in. *)
Theorem C57_identity_authentic {S I} (e : env) (io : provider S) (k : sa_keys) (calls : list sa_call) (w w' : world S I) (pool' : list (prog (world S I) (res sa_reply))) :
  forall (users_groups_differ : s_uek k <> s_gek k) (clock_wf : forall n, time_wf (clock e n)) (calls_wf : Forall sa_call_wf calls)
    (log_new : Forall (fun x => ~ sa_key k (e_kek x)) (w_log w))
    (run : exec (sa_key k) (map (sa_aes e io k) calls) w pool' w') (no_forgery : w_forged w' = false)
    (t : nat) (tok : bytes) (i : identity),
  calls !! t = Some (SGetIdentity tok) -> pool' !! t = Some (Ret (Ok (SRIdentity i))) ->
  logged_in e calls (sa_answered_only pool') tok (i_id i) /\
  user_scopes calls (i_scopes i) /\
  forall g s, i_groups i !! g = Some s -> group_id e calls (sa_answered_only pool') g /\ group_scopes e calls (sa_answered_only pool') s.
Proof. intros A B C D F G t tok i Hc Hr. exact (sa_sched e io k calls w w' pool' A B C D F G t _ _ Hc Hr). Qed.
Print Assumptions C57_identity_authentic.
(** LoginUser and ChangeUserPassword succeed only with the password of an account; the calls that take a
    token only with one that resolves, and AddUserToGroups and RemoveUserFromGroups only for groups of the
    caller. *)
Theorem C57_calls_justified {S I} (e : env) (io : provider S) (k : sa_keys) (calls : list sa_call) (w w' : world S I) (pool' : list (prog (world S I) (res sa_reply))) :
  forall (users_groups_differ : s_uek k <> s_gek k) (clock_wf : forall n, time_wf (clock e n)) (calls_wf : Forall sa_call_wf calls)
    (log_new : Forall (fun x => ~ sa_key k (e_kek x)) (w_log w))
    (run : exec (sa_key k) (map (sa_aes e io k) calls) w pool' w') (no_forgery : w_forged w' = false)
    (t : nat) (c : sa_call) (r : sa_reply),
  calls !! t = Some c -> pool' !! t = Some (Ret (Ok r)) -> sa_justified e calls (sa_answered_only pool') c r.
Proof. exact (sa_sched e io k calls w w' pool'). Qed.
Print Assumptions C57_calls_justified.
(** Two users; the first makes a group and takes the second into it, who is then seen to be in it and
    changes their password. *)
Example C57_case : exists p1 p2 p3 t1 t2 gid i pool' w',
  let calls := [SNewUser [ScopeAll]; SNewUser [ScopeAll]; SLogin u1 p1; SLogin u2 p2; SNewGroup t1 [ScopeAll]; SAddUser t1 u2 [gid];
                SGetIdentity t2; SChangePassword u2 p2; SLogin u2 p3] in
  s_uek lib_sa <> s_gek lib_sa /\ (forall n, time_wf (clock sa_env n)) /\ Forall sa_call_wf calls /\
  Forall (fun x => ~ sa_key lib_sa (e_kek x)) (w_log lib_w) /\
  exec (sa_key lib_sa) (map (sa_aes sa_env Mem lib_sa) calls) lib_w pool' w' /\ w_forged w' = false /\
  pool' !! 6%nat = Some (Ret (Ok (SRIdentity i))) /\ i_id i = u2 /\ is_Some (i_groups i !! gid).
Proof. exact demo_identities. Qed.

(** C58.  Everything together: calls of a D1, of a SecureIndex and of the Standalone that is the identity
    provider of both, over one storage. *)
Section Together.
  Context {S I : Type} (e : env) (io : provider S) (L : lib) (fuel : nat).
  Context (ds : list d1_call) (is : list ix_call) (ss : list sa_call) (w w' : world S I) (pool' : list (prog (world S I) lib_reply)).
  Context (clock_wf : forall n, time_wf (clock e n)) (iek_length : blen (l_iek L) = 32).
  Context (apart : keys_apart L is) (differ : ix_keys_differ (l_iek L) (map ix_keyword is)).
  Context (ds_wf : Forall call_wf ds) (ss_wf : Forall sa_call_wf ss).
  Context (log_new : Forall (fun x => ~ lib_key L is (e_kek x)) (w_log w)).
  Context (run : exec (lib_key L is) (lib_pool e io L fuel ds is ss) w pool' w') (no_forgery : w_forged w' = false).
  Notation known := (lib_known e ds is ss pool').
  Notation logged_in := (lib_logged_in e ds is ss pool').
  Notation resolves := (lib_resolves e ds is ss pool').
  Notation granted := (lib_granted e ds is ss pool').
  Notation written := (lib_written e ds is ss pool').

  (** What Decrypt returns was written under that id, by the Encrypt that made it or by an Update by
      someone with access; and it is returned to someone whose token stems from a login with a password,
      and who, or one of whose groups, was granted access. *)
  Theorem C58_decrypt_end_to_end : forall t tok oid o,
    ds !! t = Some (CDecrypt tok oid) -> said_object ds pool' t (Ok (RObject o)) ->
    (exists o', written oid o' /\ same_object o o') /\
    exists i, resolves tok i /\ logged_in tok (i_id i) /\ scope_has (i_scopes i) ScopeDecrypt /\
      (granted oid (i_id i) \/ exists g s, i_groups i !! g = Some s /\ granted oid g /\ scope_has s ScopeDecrypt).
  Proof.
    intros t tok oid o Hc [_ Hr].
    destruct (object_result e io L fuel ds is ss w w' pool' clock_wf iek_length apart differ ds_wf ss_wf log_new run no_forgery t _ _ Hc Hr) as ((i & Hi & Hs & Hm) & Hw).
    split; [exact Hw|]. exists i. split; [exact Hi|]. split; [exact (proj1 Hi)|]. split; [exact Hs|exact Hm].
  Qed.
  (** Every successful call on an object is justified by the calls made, of D1 and of the identity
      provider. *)
  Theorem C58_object_calls : forall t c r,
    ds !! t = Some c -> said_object ds pool' t (Ok r) -> justified ds resolves (object_made ds pool') c r.
  Proof.
    intros t c r Hc [_ Hr]. exact (object_result e io L fuel ds is ss w w' pool' clock_wf iek_length apart differ ds_wf ss_wf log_new run no_forgery t _ _ Hc Hr).
  Qed.
  (** Index calls succeed only for callers who logged in and have the Index scope, and Search returns only
      what such callers added for the keyword. *)
  Theorem C58_index_calls : forall t c r,
    is !! t = Some c -> said_index ds is pool' t (Ok r) ->
    (exists i, resolves (ix_token c) i /\ logged_in (ix_token c) (i_id i) /\ scope_has (i_scopes i) ScopeIndex) /\
    forall tok kw l x, c = ISearch tok kw -> r = IRIds l -> In x l -> ix_added is resolves kw x.
  Proof.
    intros t c r Hc [_ Hr]. pose proof (index_result e io L fuel ds is ss w w' pool' clock_wf iek_length apart differ ds_wf ss_wf log_new run no_forgery t _ _ Hc Hr _ eq_refl) as [(i & Hi & Hs) H].
    split; [exists i; split; [exact Hi|]; split; [exact (proj1 Hi)|exact Hs]|]. intros tok kw l x -> -> Hx. exact (H x Hx).
  Qed.
  (** And calls of the identity provider are justified as in C57. *)
  Theorem C58_identity_calls : forall t c r,
    ss !! t = Some c -> said_identity ds is ss pool' t (Ok r) -> sa_justified e ss (identity_made ds is ss pool') c r.
  Proof.
    intros t c r Hc [_ Hr]. exact (identity_result e io L fuel ds is ss w w' pool' clock_wf iek_length apart differ ds_wf ss_wf log_new run no_forgery t _ _ Hc Hr).
  Qed.
End Together.
Print Assumptions C58_decrypt_end_to_end.
Print Assumptions C58_object_calls.
Print Assumptions C58_index_calls.
Print Assumptions C58_identity_calls.
(** Someone gets an account, logs in, encrypts an object and decrypts it; an Add and a Search have not begun. *)
Example C58_case :
  (forall n, time_wf (clock sa_env n)) /\ blen (l_iek lib_demo) = 32 /\ keys_apart lib_demo lib_is /\ ix_keys_differ (l_iek lib_demo) (map ix_keyword lib_is) /\
  Forall call_wf lib_ds /\ Forall sa_call_wf lib_ss /\ Forall (fun x => ~ lib_key lib_demo lib_is (e_kek x)) (w_log lib_w) /\
  exists pool' w', exec (lib_key lib_demo lib_is) (lib_pool sa_env Mem lib_demo 9 lib_ds lib_is lib_ss) lib_w pool' w' /\
    w_forged w' = false /\ said_object lib_ds pool' 1 (Ok (RObject demo_obj)).
Proof. exact demo_lib. Qed.

(** C59 is false.  If the D1 and the Standalone have the same token key (both read it from a setting named
    "tek"), then CreateToken, which anybody may call, turns the id of any user into a token as which
    GetIdentity resolves to that user: no password is needed. *)
Theorem C59_tokens_from_login_refuted {S I} (e : env) (v : view S) (io : provider S) (k : sa_keys) (idp : bytes -> prog (world S I) (res identity)) (dd : d1)
    (w0 w w1 w2 : world S I) (evs : list sa_event) (d : directory) (uid : bytes) (a : account) (r1 : res d1_reply) :
  io_spec False v io -> (forall n, time_wf (clock e n)) -> d_tek dd = s_tek k ->
  sa_fresh v k w0 -> sa_run e io k (sa_elsewhere v k) w0 evs w -> w_forged w = false -> sa_history dir_empty evs d ->
  d_users d !! uid = Some a -> (forall g, g ∈ ac_groups a -> is_Some (d_groups d !! g)) ->
  run (d1_aes e io idp dd (CCreateToken (Some uid))) w = (r1, w1) -> ~ rng_failed e w1 -> time_text (time_add (clock e (w_ticks w)) 3600) <> None ->
  exists st tok, r1 = Ok (RToken st) /\ token_string st = Ok tok /\
    forall r2, (nanos (clock e (w_ticks w1)) <= nanos (time_add (clock e (w_ticks w)) 3600))%Z ->
    run (sa_aes e io k (SGetIdentity tok)) w1 = (r2, w2) -> w_forged w2 = false /\ exists i, describes d uid a i /\ r2 = Ok (SRIdentity i).
Proof. intros Hio Hc Hs. exact (shared_login e v io Hio k Hc idp dd Hs w0 w w1 w2 evs d uid a r1). Qed.
Print Assumptions C59_tokens_from_login_refuted.
Example C59_refuted_case : exists k dd w0 w w1 evs d a r1,
  d_tek dd = s_tek k /\ s_uek k <> s_gek k /\ sa_fresh mem_view k w0 /\ sa_run sa_env Mem k (sa_elsewhere mem_view k) w0 evs w /\ w_forged w = false /\ sa_history dir_empty evs d /\
  d_users d !! u1 = Some a /\ (forall g, g ∈ ac_groups a -> is_Some (d_groups d !! g)) /\
  run (d1_aes sa_env Mem (sa_idp sa_env Mem k) dd (CCreateToken (Some u1)) : prog DW _) w = (r1, w1) /\ ~ rng_failed sa_env w1 /\
  time_text (time_add (clock sa_env (w_ticks w)) 3600) <> None /\
  (nanos (clock sa_env (w_ticks w1)) <= nanos (time_add (clock sa_env (w_ticks w)) 3600))%Z.
Proof. exact demo_shared. Qed.
(** Partial: with keys that are used for one purpose only, whatever resolves was made by LoginUser for this
    user, given the password of an account; that CreateToken is called any number of times, with any
    contents, makes no difference. *)
Theorem C59_tokens_from_login_partial {S I} (e : env) (io : provider S) (L : lib) (fuel : nat) (ds : list d1_call) (is : list ix_call) (ss : list sa_call)
    (w w' : world S I) (pool' : list (prog (world S I) lib_reply)) :
  forall (clock_wf : forall n, time_wf (clock e n)) (iek_length : blen (l_iek L) = 32)
    (apart : keys_apart L is) (differ : ix_keys_differ (l_iek L) (map ix_keyword is)) (ds_wf : Forall call_wf ds) (ss_wf : Forall sa_call_wf ss)
    (log_new : Forall (fun x => ~ lib_key L is (e_kek x)) (w_log w))
    (run : exec (lib_key L is) (lib_pool e io L fuel ds is ss) w pool' w') (no_forgery : w_forged w' = false)
    (t : nat) (tok : bytes) (i : identity),
  ss !! t = Some (SGetIdentity tok) -> said_identity ds is ss pool' t (Ok (SRIdentity i)) -> lib_logged_in e ds is ss pool' tok (i_id i).
Proof.
  intros A B C D F G H R N t tok i Hc [_ Hr]. exact (proj1 (identity_result e io L fuel ds is ss w w' pool' A B C D F G H R N t _ _ Hc Hr)).
Qed.
Print Assumptions C59_tokens_from_login_partial.
