(** C75: taking a user out of a group, or deleting one, is in force for every call made after it was answered,
    whatever else is going on.  C76: a call that is already going on is another matter.  Only property theorems
    here; the definitions are in LibConcSpec.v and LibConcUseSpec.v and the proofs in LibConcMerge.v,
    LibConcUse.v and LibRevokeCase.v. *)
From stdpp Require Import gmap.
From Verif Require Import Bytes Go Uuid Time Types World Io IoSpec IoProofs Id Data D1 Spec D1ConcSpec D1Conc Standalone StandaloneSpec SaConcSpec
  Index IndexSpec IndexConcSpec IndexOwnSpec Lib LibSpec LibHist LibConcSpec LibConcUseSpec LibTouch LibConcMerge LibConcUse LibPart
  Demo StandaloneDemo SaConcDemo IndexDemo LibDemo LibHistDemo LibConcDemo LibRevokeDemo LibRevokeCase.
Local Open Scope N_scope.

Section C75.
  (** The call in question is [c]: made after [tra] had been observed, answered with [r] by the end of [trb]; [trc] is what came after, and calls made then do not matter (in the cases below nothing came after). *)
  Context {S I : Type} (e : env) (v : view S) (io : provider S) (L : lib) (ks : res keys) (fuel : nat) (w w' : world S I) (tra trb trc : list lib_obs) (c : lib_call) (r : lib_reply) (pool' : list (prog (world S I) lib_reply)).
  Notation tr := (tra ++ LCall c :: trb ++ trc).
  Notation seen := (tra ++ LCall c :: trb).
  Context (storage : cell_storage v io) (entries : entrywise v io) (clock_wf : forall n, time_wf (clock e n)) (index_key : ix_new ks = Ok (l_iek L)).
  Context (empty : lib_vacant v w) (calls : lib_conc e v io L fuel [] w tr pool' w').
  Context (wf : lib_wf tr) (in_order : lib_orderly tr) (ids : ids_differ e (w_draws w) (w_draws w')) (guess : lib_no_guess e (w_draws w) (w_draws w') tr) (forgery : unforged (l_sa L) (id_part tr)).
  Context (few : N.of_nat (count_adds (index_calls (lib_calls tr))) < 2 ^ 64) (enough : (count_adds (index_calls (lib_calls tr)) < fuel)%nat)
    (labels : labels_differ (l_iek L) (map ix_keyword (index_calls (lib_calls tr))) (N.of_nat (count_adds (index_calls (lib_calls tr))))).
  Context (answered : In (LReply (length (lib_calls tra)) r) trb).

  (** If the user had been deleted when the call was made, the call is turned away, whichever it is. *)
  Theorem C75_deleted uid tok : lib_token c = Some tok -> logged_in uid tok tra -> user_deleted uid seen tra -> turned_away r.
  Proof. exact (overlap_deleted e tra trb c r (acts_part e tra trb trc c (library_overlaps e v io L ks fuel w w' tr pool' storage entries clock_wf index_key empty calls wf in_order ids guess forgery few enough labels)) answered uid tok). Qed.

  (** If, when a call about an object was made, nobody on its list was the user or a group the user was in, the call is refused. *)
  Theorem C75_revoked uid tok oid acl c0 r0 : c = OnObject c0 -> r = LObject r0 -> call_token c0 = Some tok -> call_oid c0 = Some oid ->
    logged_in uid tok tra -> list_seen oid acl (length (lib_calls tra)) seen tra -> uid ∉ acl -> (forall g, g ∈ acl -> user_not_in uid g seen tra) ->
    r0 = Err ED1NotAuthenticated \/ r0 = Err ED1NotAuthorized.
  Proof. exact (overlap_revoked e tra trb c r (acts_part e tra trb trc c (library_overlaps e v io L ks fuel w w' tr pool' storage entries clock_wf index_key empty calls wf in_order ids guess forgery few enough labels)) answered uid tok oid acl c0 r0). Qed.

  (** If, when GetIdentity was called, the user was not in a group, the identity does not have that group. *)
  Theorem C75_identity uid tok g i : c = OnIdentity (SGetIdentity tok) -> r = LIdentity (Ok (SRIdentity i)) ->
    logged_in uid tok tra -> user_not_in uid g seen tra -> i_id i = uid /\ i_groups i !! g = None.
  Proof. exact (overlap_identity e tra trb c r (acts_part e tra trb trc c (library_overlaps e v io L ks fuel w w' tr pool' storage entries clock_wf index_key empty calls wf in_order ids guess forgery few enough labels)) answered uid tok g i). Qed.
End C75.

(** Both happen to a user one of whose calls has been going on since before. *)
Example C75_case : exists u1 u2 p1 p2 t1 t2 g x oid i pool' w',
  let removed := revoke_start u1 u2 p1 p2 t1 t2 g oid i ++ revoke_removed u1 u2 t1 t2 g x oid in
  let gone := removed ++ revoke_deleted u1 t1 t2 oid in
  let tr := revoke_tr u1 u2 p1 p2 t1 t2 g x oid i in
  (cell_storage mem_view Mem /\ entrywise mem_view Mem /\ (forall n, time_wf (clock ov_env n)) /\ ix_new (Ok demo_ix_keys) = Ok (l_iek lib_demo)) /\
  (lib_vacant mem_view demo_w /\ lib_conc ov_env mem_view Mem lib_demo 9 [] demo_w tr pool' w' /\ lib_wf tr /\ lib_orderly tr /\
  ids_differ ov_env (w_draws demo_w) (w_draws w') /\ lib_no_guess ov_env (w_draws demo_w) (w_draws w') tr /\ unforged (l_sa lib_demo) (id_part tr) /\
  N.of_nat (count_adds (index_calls (lib_calls tr))) < 2 ^ 64 /\ (count_adds (index_calls (lib_calls tr)) < 9)%nat /\
  labels_differ (l_iek lib_demo) (map ix_keyword (index_calls (lib_calls tr))) (N.of_nat (count_adds (index_calls (lib_calls tr))))) /\
  (exists trb, tr = removed ++ LCall (OnObject (CDecrypt t1 oid)) :: trb /\ In (LReply (length (lib_calls removed)) (LObject (Err ED1NotAuthorized))) trb /\
     logged_in u1 t1 removed /\ list_seen oid {[u2; g; x]} (length (lib_calls removed)) tr removed /\ u1 ∉ ({[u2; g; x]} : gset bytes) /\ forall g', g' ∈ ({[u2; g; x]} : gset bytes) -> user_not_in u1 g' tr removed) /\
  (exists trb, tr = gone ++ LCall (OnObject (CDecrypt t1 oid)) :: trb /\ In (LReply (length (lib_calls gone)) (LObject (Err ED1NotAuthenticated))) trb /\
     logged_in u1 t1 gone /\ user_deleted u1 tr gone).
Proof. exact revoke_facts. Qed.

(** C76: calls of all three kinds do not act at one single moment each.  In this run, which meets everything
    that C74 asks for, a user who has been taken out of the only group that gave access, and then deleted,
    is told what somebody else put on the access list after that; and there is no way to assign to each call
    a moment between being made and being answered at which it acts as in a sequence of calls. *)
Theorem C76_one_moment_refuted : exists (L : lib) (u1 u2 p1 p2 t1 t2 g x : bytes) (oid : uuid) (i : identity) pool' w', let tr := revoke_tr u1 u2 p1 p2 t1 t2 g x oid i in
  (cell_storage mem_view Mem /\ entrywise mem_view Mem /\ (forall n, time_wf (clock ov_env n)) /\ ix_new (Ok demo_ix_keys) = Ok (l_iek L)) /\
  (lib_vacant mem_view demo_w /\ lib_conc ov_env mem_view Mem L 9 [] demo_w tr pool' w' /\ lib_wf tr /\ lib_orderly tr /\
  ids_differ ov_env (w_draws demo_w) (w_draws w') /\ lib_no_guess ov_env (w_draws demo_w) (w_draws w') tr /\ unforged (l_sa L) (id_part tr) /\
  N.of_nat (count_adds (index_calls (lib_calls tr))) < 2 ^ 64 /\ (count_adds (index_calls (lib_calls tr)) < 9)%nat /\
  labels_differ (l_iek L) (map ix_keyword (index_calls (lib_calls tr))) (N.of_nat (count_adds (index_calls (lib_calls tr))))) /\
  ~ exists ds s, lib_one_moment tr ds s.
Proof. exact revoke_refutes. Qed.

Print Assumptions C75_deleted.
Print Assumptions C75_revoked.
Print Assumptions C75_identity.
Print Assumptions C75_case.
Print Assumptions C76_one_moment_refuted.
