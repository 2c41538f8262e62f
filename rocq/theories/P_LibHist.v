(** Properties C65 and C66: the library as it is put together, D1 and SecureIndex with a Standalone as
    identity provider, all three on one storage.

    [lib_run e v io L fuel w evs w']: from the world [w] on, calls of all three kinds were made one after the
    other, [evs] being the calls and the replies of the code; in between, anything may happen to the clock,
    the random source and the storage except to the entries the library keeps there.  The specification is
    LibSpec.v: a directory of users and groups, a map of objects and an index, where a token in an object or
    index call is worth what the directory says at that moment.

    [io_spec]: storage is a map and does not fail; Mem and Bolt are (C65_storage).  [token_key_apart]: the
    key of the Standalone's tokens is no key of D1 or of the index (C59 shows why).  [labels_differ]: the
    KMAC labels of the keywords and numbers in use differ.  [set_up] (LibHist.v) says both, that fewer than
    2^64 Adds were made, and that storage was empty. *)
From stdpp Require Import gmap.
From Verif Require Import Bytes Go Uuid Time Types World Io IoSpec IoProofs Id Data D1 D1Proofs Spec Demo Standalone StandaloneSpec StandaloneRefine StandaloneHist
  SaConcDemo Index IndexSpec IndexConcSpec IndexRefine IndexHist IndexDemo Foot Lib LibSpec LibHist LibCor LibHonest LibHistDemo LibDemo.
Local Open Scope N_scope.

Section Library.
  Context {S I : Type} (e : env) (v : view S) (io : provider S) (L : lib) (fuel : nat) (w w' : world S I).
  Context (storage : io_spec False v io) (clock_wf : forall n, time_wf (clock e n)) (index_key : blen (l_iek L) = 32).

  (** C65.  From empty storage, the replies of the whole library are replies of the specification. *)
  Theorem C65_library : forall evs, set_up v L fuel w evs -> lib_run e v io L fuel w evs w' -> w_forged w' = false ->
    exists s, lib_history lib_empty evs s.
  Proof. intros evs (A & B & C & D & F). exact (library_refines e v io L fuel w evs w' storage clock_wf index_key A B C D F). Qed.
  (** No assumption about forgeries is needed if nobody presents a token that the library did not hand out. *)
  Theorem C65_own_tokens : forall evs, set_up v L fuel w evs -> lib_quiet_run e v io L fuel w evs w' -> own_tokens evs ->
    w_forged w' = false /\ exists s, lib_history lib_empty evs s.
  Proof. intros evs (A & B & C & D & F). exact (library_own_tokens e v io L fuel w evs w' storage clock_wf index_key A B C D F). Qed.

  (** C66.  For a moment of the run, after [evs1], when the call [ev] is made. *)
  Context (evs1 evs2 : list lib_event) (ev : lib_event).
  Context (setting : set_up v L fuel w (evs1 ++ ev :: evs2)) (calls : lib_run e v io L fuel w (evs1 ++ ev :: evs2) w') (no_forgery : w_forged w' = false).
  (** The user who got [tok] is not on the list of [oid], and not in any group on it, going by the replies
      so far: every call about [oid] with [tok] is refused. *)
  Theorem C66_revoked : forall uid tok oid acl c r,
    lv_call ev = OnObject c -> lv_reply ev = LObject r -> call_token c = Some tok -> call_oid c = Some oid ->
    token_of uid tok evs1 -> listed oid acl evs1 -> uid ∉ acl -> (forall g, g ∈ acl -> not_in uid g evs1) ->
    r = Err ED1NotAuthenticated \/ r = Err ED1NotAuthorized.
  Proof. exact (code_revoked evs1 evs2 ev (C65_library _ setting calls no_forgery)). Qed.
  (** The user who got [tok] has been deleted: every call with [tok], of any kind, is refused. *)
  Theorem C66_deleted : forall uid tok,
    lib_token (lv_call ev) = Some tok -> token_of uid tok evs1 -> deleted uid evs1 -> turned_away (lv_reply ev).
  Proof. exact (code_deleted evs1 evs2 ev (C65_library _ setting calls no_forgery)). Qed.
  (** What GetIdentity has said about [tok] and what GetAccessGroups has said about [oid] decide what a call
      with [tok] about [oid] gets, as long as nobody changed either and the login is less than an hour old. *)
  Theorem C66_identity_decides : forall tok i oid acl c r,
    lv_call ev = OnObject c -> lv_reply ev = LObject r -> call_token c = Some tok -> call_oid c = Some oid ->
    identified tok i evs1 -> current tok (x_now (lv_x ev)) evs1 -> listed oid acl evs1 ->
    let allowed := scope_has (i_scopes i) (call_need c) /\ on_list i (call_need c) acl in
    (allowed -> (exists y, r = Ok y) \/ (x_rng_fails (lv_x ev) /\ r = Err ERandom)) /\
    (~ allowed -> r = Err ED1NotAuthorized).
  Proof. exact (code_decides evs1 evs2 ev (C65_library _ setting calls no_forgery)). Qed.
End Library.

(** Mem and Bolt are storage of the kind assumed, and a Standalone on either of them is an identity provider
    as the theorems about D1 (C01 to C12) and the index assume: it leaves what is stored as it is. *)
Theorem C65_storage : forall F, io_spec F mem_view Mem /\ io_spec F bolt_view Bolt.
Proof. intros F. exact (conj (mem_spec F) (bolt_spec F)). Qed.
Theorem C65_identity_provider : forall {S I} (e : env) (v : view S) (io : provider S) (k : sa_keys), io_spec False v io ->
  idp_reads v (sa_idp e io k : bytes -> prog (world S I) _).
Proof. intros S I e v io k H. exact (identity_reads e False v io H k). Qed.

(** Fourteen calls: two users, a group, an object for the group; the member may decrypt; is taken out of the
    group and may not; is deleted and is turned away. *)
Example C65_C66_case : exists w' evs1 ev1 x11 ev2 x13 ev3 u1 t1 t2 g oid acl i (c := CDecrypt t1 oid),
  let evs2 := evs1 ++ [ev1; mkLibEvent x11 (OnIdentity (SRemoveUser t2 u1 [g])) (LIdentity (Ok SRUnit))] in
  let evs3 := evs2 ++ [ev2; mkLibEvent x13 (OnIdentity (SDeleteUser t2 u1)) (LIdentity (Ok SRUnit))] in
  let evs := evs3 ++ [ev3] in
  set_up mem_view lib_demo 9 demo_w evs /\ lib_quiet_run ov_env mem_view Mem lib_demo 9 demo_w evs w' /\ own_tokens evs /\ w_forged w' = false /\
  lv_call ev1 = OnObject c /\ lv_reply ev1 = LObject (Ok (RObject demo_obj)) /\ identified t1 i evs1 /\ current t1 (x_now (lv_x ev1)) evs1 /\ listed oid acl evs1 /\
    (scope_has (i_scopes i) (call_need c) /\ on_list i (call_need c) acl) /\
  lv_call ev2 = OnObject c /\ lv_reply ev2 = LObject (Err ED1NotAuthorized) /\ token_of u1 t1 evs2 /\ listed oid acl evs2 /\ u1 ∉ acl /\ (forall x, x ∈ acl -> not_in u1 x evs2) /\
  lib_token (lv_call ev3) = Some t1 /\ token_of u1 t1 evs3 /\ deleted u1 evs3 /\ lv_reply ev3 = LIndex (Err EIxNotAuthenticated).
Proof. exact lib_case. Qed.

Print Assumptions C65_library.
Print Assumptions C65_own_tokens.
Print Assumptions C65_storage.
Print Assumptions C65_identity_provider.
Print Assumptions C66_revoked.
Print Assumptions C66_deleted.
Print Assumptions C66_identity_decides.
Print Assumptions C65_C66_case.
