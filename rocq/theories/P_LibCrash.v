(** Property C73: the whole library, when calls of any kind die at any point and storage fails at any operation.

    [lib_xrun e v L fuel w hs w'] (LibCrash.v): from the world [w] on, calls to the identity provider, to D1 and to
    SecureIndex were made one after the other, each through a storage provider that may fail whenever it likes; [hs]
    lists those that were answered, with the answer of the code, and those that died, after any number of steps.  In
    between, anything may happen to the clock, the random source and the storage except to the entries the library
    keeps there.  The specification is LibCrashSpec.v.

    [x_set_up]: the key of the Standalone's tokens is no key of D1 or of the index (C59 shows why), the KMAC labels of the
    keywords and numbers in use differ, fewer than 2^64 Adds were made and storage was empty. *)
From stdpp Require Import gmap.
From Verif Require Import Bytes Go Uuid Time Types World Io IoSpec IoProofs Id Data D1 D1Proofs Spec Demo Standalone StandaloneSpec SaConcDemo
  Index IndexSpec CrashSpec Lib LibSpec LibDemo LibCrashSpec LibCrash LibCrashFacts LibCrashDemo.
Local Open Scope N_scope.

Section Library.
  Context {S I : Type} (e : env) (v : view S) (L : lib) (fuel : nat) (w w' : world S I).
  Context (clock_wf : forall n, time_wf (clock e n)) (index_key : blen (l_iek L) = 32).

  (** Whatever died or failed, the answers are answers of the specification. *)
  Theorem C73_library : forall hs, x_set_up v L fuel w hs -> lib_xrun e v L fuel w hs w' -> w_forged w' = false ->
    exists s, lib_xhistory lib_x_empty hs s.
  Proof. intros hs. exact (library_survives e v L fuel w hs w' clock_wf index_key). Qed.

  (** For a moment of the run, after [hs1], when the call [h] is made. *)
  Context (hs1 hs2 : list lib_happening) (h : lib_happening).
  Context (setting : x_set_up v L fuel w (hs1 ++ h :: hs2)) (calls : lib_xrun e v L fuel w (hs1 ++ h :: hs2) w') (no_forgery : w_forged w' = false).
  (** The user who got [tok] is not on the list of [oid], and not in any group on it, going by the answers so far and
      counting calls that died or failed against it: a call about [oid] with [tok] changes nothing, whether it is
      answered or dies, and an answer refuses it or reports a storage failure. *)
  Theorem C73_revoked : forall uid tok oid acl c,
    lh_call h = OnObject c -> call_token c = Some tok -> call_oid c = Some oid ->
    x_token_of uid tok hs1 -> x_listed oid acl hs1 -> uid ∉ acl -> (forall g, g ∈ acl -> x_not_in uid g hs1) ->
    (exists s1 s2 s, lib_xhistory lib_x_empty hs1 s1 /\ lib_x_step h s1 s2 /\ lib_xhistory s2 hs2 s /\ no_effect s1 s2) /\
    (forall odd ev, h = LDone odd ev -> exists r, lv_reply ev = LObject r /\
      (r = Err ED1NotAuthenticated \/ r = Err ED1NotAuthorized \/ exists y, r = Err y /\ fault y)).
  Proof.
    intros uid tok oid acl c Hc Ht Ho A B C D. destruct (C73_library _ setting calls no_forgery) as (s & H).
    destruct (x_revoked _ _ _ _ _ _ _ _ _ H Hc Ht Ho A B C D) as [(s1 & s2 & E) F]. split; [exists s1, s2, s; exact E|exact F].
  Qed.
  (** The user who got [tok] has been deleted: every call with [tok], of any kind, changes nothing, whether it is
      answered or dies, and an answer turns it away. *)
  Theorem C73_deleted : forall uid tok,
    lib_token (lh_call h) = Some tok -> x_token_of uid tok hs1 -> x_deleted uid hs1 ->
    (exists s1 s2 s, lib_xhistory lib_x_empty hs1 s1 /\ lib_x_step h s1 s2 /\ lib_xhistory s2 hs2 s /\ no_effect s1 s2) /\
    (forall odd ev, h = LDone odd ev -> x_turned_away (lv_reply ev)).
  Proof.
    intros uid tok Ht A B. destruct (C73_library _ setting calls no_forgery) as (s & H).
    destruct (x_deleted_refused _ _ _ _ _ _ H Ht A B) as [(s1 & s2 & E) F]. split; [exists s1, s2, s; exact E|exact F].
  Qed.
End Library.
Print Assumptions C73_library.
Print Assumptions C73_revoked.
Print Assumptions C73_deleted.

(** Fifteen calls.  Two users, a group, an object for the group; the member decrypts and is taken out of the group,
    then starts a Decrypt that dies just before it would be answered and an Update that dies at once; is deleted, searches
    and is turned away. *)
Example C73_case : exists hs2 w' u1 t1 t2 g (oid : uuid) acl x x' x13 odd13 oddl evl,
  let h1 := LDied x (OnObject (CDecrypt t1 oid)) in
  let h2 := LDied x' (OnObject (CUpdate t1 oid demo_obj)) in
  let hs3 := hs2 ++ [h1; h2; LDone odd13 (mkLibEvent x13 (OnIdentity (SDeleteUser t2 u1)) (LIdentity (Ok SRUnit)))] in
  let hs := hs3 ++ [LDone oddl evl] in
  x_set_up mem_view lib_demo 9 demo_w hs /\ lib_xrun ov_env mem_view lib_demo 9 demo_w hs w' /\ w_forged w' = false /\
  (exists odd ev, In (LDone odd ev) hs2 /\ lv_call ev = OnObject (CDecrypt t1 oid) /\ lv_reply ev = LObject (Ok (RObject demo_obj))) /\
  (exists odd ev, In (LDone odd ev) hs2 /\ lv_call ev = OnIdentity (SRemoveUser t2 u1 [g]) /\ lv_reply ev = LIdentity (Ok SRUnit)) /\
  x_token_of u1 t1 hs2 /\ u1 ∉ acl /\ x_listed oid acl hs2 /\ (forall y, y ∈ acl -> x_not_in u1 y hs2) /\
  x_token_of u1 t1 (hs2 ++ [h1]) /\ x_listed oid acl (hs2 ++ [h1]) /\ (forall y, y ∈ acl -> x_not_in u1 y (hs2 ++ [h1])) /\
  lib_token (lv_call evl) = Some t1 /\ x_token_of u1 t1 hs3 /\ x_deleted u1 hs3 /\ lv_reply evl = LIndex (Err EIxNotAuthenticated).
Proof. exact x_case. Qed.
Print Assumptions C73_case.
