(** C78: access lists when calls overlap, told from what had been observed when a call was made.  Only property
    theorems here; the definitions are in LibConcSpec.v, LibConcUseSpec.v and LibListSpec.v and the proofs in
    LibConcMerge.v, LibList.v and LibListDemo.v. *)
From stdpp Require Import gmap.
From Verif Require Import Bytes Go Uuid Time Types World Io IoSpec IoProofs Id Data D1 Spec D1ConcSpec D1Conc Standalone StandaloneSpec SaConcSpec
  Index IndexSpec IndexConcSpec IndexOwnSpec Lib LibSpec LibHist LibConcSpec LibConcUseSpec LibReadSpec LibListSpec LibTouch LibConcMerge LibList LibPart
  Demo StandaloneDemo SaConcDemo IndexDemo LibDemo LibHistDemo LibConcDemo LibRevokeDemo LibReadDemo LibReadCase LibListDemo.
Local Open Scope N_scope.

Section C78.
  (** The call in question is [c]: made after [tra] had been observed, answered with [r] by the end of [trb]; [trc] is what came after, and calls made then do not matter (in the cases below nothing came after). *)
  Context {S I : Type} (e : env) (v : view S) (io : provider S) (L : lib) (ks : res keys) (fuel : nat) (w w' : world S I) (tra trb trc : list lib_obs) (c : lib_call) (r : lib_reply) (pool' : list (prog (world S I) lib_reply)).
  Notation tr := (tra ++ LCall c :: trb ++ trc).
  Notation seen := (tra ++ LCall c :: trb).
  Context (storage : cell_storage v io) (entries : entrywise v io) (clock_wf : forall n, time_wf (clock e n)) (index_key : ix_new ks = Ok (l_iek L)).
  Context (empty : lib_vacant v w) (calls : lib_conc e v io L fuel [] w tr pool' w').
  Context (wf : lib_wf tr) (in_order : lib_orderly tr) (ids : ids_differ e (w_draws w) (w_draws w')) (guess : lib_no_guess e (w_draws w) (w_draws w') tr) (forgery : unforged (l_sa L) (id_part tr)).
  Context (few : N.of_nat (count_adds (index_calls (lib_calls tr))) < 2 ^ 64) (enough : (count_adds (index_calls (lib_calls tr)) < fuel)%nat)
    (labels : labels_differ (l_iek L) (map ix_keyword (index_calls (lib_calls tr))) (N.of_nat (count_adds (index_calls (lib_calls tr))))).
  Context (answered : In (LReply (length (lib_calls tra)) r) trb).

  Notation n := (length (lib_calls tra)).

  (** A group that was on the list when GetAccessGroups was called, and that nothing since may have taken off, is shown; or the caller is refused. *)
  Theorem C78_present tok oid g r0 : c = OnObject (CGetAccessGroups tok oid) -> r = LObject r0 -> group_on oid g n seen tra ->
    (exists acl, r0 = Ok (RGroups (Some acl)) /\ g ∈ acl) \/ r0 = Err ED1NotAuthenticated \/ r0 = Err ED1NotAuthorized.
  Proof. exact (list_has e tra trb c r (acts_part e tra trb trc c (library_overlaps e v io L ks fuel w w' tr pool' storage entries clock_wf index_key empty calls wf in_order ids guess forgery few enough labels)) answered tok oid g r0). Qed.

  (** A group that was off the list, and that nothing since may have put there, is not shown. *)
  Theorem C78_absent tok oid g l : c = OnObject (CGetAccessGroups tok oid) -> r = LObject (Ok (RGroups l)) -> group_off oid g n seen tra ->
    exists acl, l = Some acl /\ g ∉ acl.
  Proof. exact (list_lacks e tra trb c r (acts_part e tra trb trc c (library_overlaps e v io L ks fuel w w' tr pool' storage entries clock_wf index_key empty calls wf in_order ids guess forgery few enough labels)) answered tok oid g l). Qed.

  (** A user who is off the list of an object, and in no group that is on it, is refused whatever they ask of that object.  (Delete of an object that is gone succeeds: it does nothing.) *)
  Theorem C78_refused uid tok oid c0 r0 : c = OnObject c0 -> r = LObject r0 -> call_token c0 = Some tok -> call_oid c0 = Some oid -> logged_in uid tok tra ->
    group_off oid uid n seen tra -> (forall g, group_off oid g n seen tra \/ user_not_in uid g seen tra) ->
    r0 = Err ED1NotAuthenticated \/ r0 = Err ED1NotAuthorized \/ r0 = Err ED1AccessNotFound \/ c0 = CDelete tok oid /\ r0 = Ok RUnit.
  Proof. exact (off_refused e tra trb c r (acts_part e tra trb trc c (library_overlaps e v io L ks fuel w w' tr pool' storage entries clock_wf index_key empty calls wf in_order ids guess forgery few enough labels)) answered uid tok oid c0 r0). Qed.
End C78.

(** Somebody puts another group on the list while a member of a group that is there asks for the list. *)
Example C78_present_case : exists u1 u2 p1 p2 t1 t2 g x oid i pool' w', let tr := revoke_tr u1 u2 p1 p2 t1 t2 g x oid i in
  (cell_storage mem_view Mem /\ entrywise mem_view Mem /\ (forall n, time_wf (clock ov_env n)) /\ ix_new (Ok demo_ix_keys) = Ok (l_iek lib_demo)) /\
  demo_setting tr pool' w' /\
  exists tra trb, tr = tra ++ LCall (OnObject (CGetAccessGroups t1 oid)) :: trb /\ In (LReply (length (lib_calls tra)) (LObject (Ok (RGroups (Some {[u2; g; x]}))))) trb /\ group_on oid g (length (lib_calls tra)) tr tra.
Proof. exact on_facts. Qed.
(** A user is taken off a list; the list no longer shows them, and they may not decrypt. *)
Example C78_off_case : exists u1 u2 p1 p2 t1 t2 oid pool' w', let start := off_start u1 u2 p1 p2 t1 t2 oid in let seen := start ++ off_seen u2 t2 oid in let tr := off_tr u1 u2 p1 p2 t1 t2 oid in
  (cell_storage mem_view Mem /\ entrywise mem_view Mem /\ (forall n, time_wf (clock ov_env n)) /\ ix_new (Ok demo_ix_keys) = Ok (l_iek lib_demo)) /\
  demo_setting tr pool' w' /\
  (exists trb, tr = start ++ LCall (OnObject (CGetAccessGroups t2 oid)) :: trb /\ In (LReply (length (lib_calls start)) (LObject (Ok (RGroups (Some {[u2]}))))) trb /\ group_off oid u1 (length (lib_calls start)) tr start) /\
  exists trb, tr = seen ++ LCall (OnObject (CDecrypt t1 oid)) :: trb /\ In (LReply (length (lib_calls seen)) (LObject (Err ED1NotAuthorized))) trb /\ logged_in u1 t1 seen /\
    group_off oid u1 (length (lib_calls seen)) tr seen /\ forall g, group_off oid g (length (lib_calls seen)) tr seen \/ user_not_in u1 g tr seen.
Proof. exact off_facts. Qed.

Print Assumptions C78_present.
Print Assumptions C78_absent.
Print Assumptions C78_refused.
Print Assumptions C78_present_case.
Print Assumptions C78_off_case.
