(** C77: what Decrypt and Search answer when calls overlap, told from what had been observed when they were
    called.  Only property theorems here; the definitions are in LibConcSpec.v, LibConcUseSpec.v and
    LibReadSpec.v and the proofs in LibConcMerge.v, LibRead.v and LibReadCase.v. *)
From stdpp Require Import gmap.
From Verif Require Import Bytes Go Uuid Time Types World Io IoSpec IoProofs Id Data D1 Spec D1ConcSpec D1Conc Standalone StandaloneSpec SaConcSpec
  Index IndexSpec IndexConcSpec IndexOwnSpec Lib LibSpec LibHist LibConcSpec LibConcUseSpec LibReadSpec LibTouch LibConcMerge LibRead LibPart
  Demo StandaloneDemo SaConcDemo IndexDemo LibDemo LibHistDemo LibConcDemo LibRevokeDemo LibReadDemo LibReadCase.
Local Open Scope N_scope.

Section C77.
  (** The call in question is [c]: made after [tra] had been observed, answered with [r] by the end of [trb]; [trc] is what came after, and calls made then do not matter (in the cases below nothing came after). *)
  Context {S I : Type} (e : env) (v : view S) (io : provider S) (L : lib) (ks : res keys) (fuel : nat) (w w' : world S I) (tra trb trc : list lib_obs) (c : lib_call) (r : lib_reply) (pool' : list (prog (world S I) lib_reply)).
  Notation tr := (tra ++ LCall c :: trb ++ trc).
  Notation seen := (tra ++ LCall c :: trb).
  Context (storage : cell_storage v io) (entries : entrywise v io) (clock_wf : forall n, time_wf (clock e n)) (index_key : ix_new ks = Ok (l_iek L)).
  Context (empty : lib_vacant v w) (calls : lib_conc e v io L fuel [] w tr pool' w').
  Context (wf : lib_wf tr) (in_order : lib_orderly tr) (ids : ids_differ e (w_draws w) (w_draws w')) (guess : lib_no_guess e (w_draws w) (w_draws w') tr) (forgery : unforged (l_sa L) (id_part tr)).
  Context (few : N.of_nat (count_adds (index_calls (lib_calls tr))) < 2 ^ 64) (enough : (count_adds (index_calls (lib_calls tr)) < fuel)%nat)
    (labels : labels_differ (l_iek L) (map ix_keyword (index_calls (lib_calls tr))) (N.of_nat (count_adds (index_calls (lib_calls tr))))).
  Context (answered : In (LReply (length (lib_calls tra)) r) trb).

  (** If an object had been stored when Decrypt was called, and nothing since may have replaced it, Decrypt yields that very object, or refuses the caller. *)
  Theorem C77_decrypt tok oid o r0 : c = OnObject (CDecrypt tok oid) -> r = LObject r0 -> object_stored oid o seen tra ->
    r0 = Ok (RObject o) \/ r0 = Err ED1NotAuthenticated \/ r0 = Err ED1NotAuthorized.
  Proof. exact (decrypt_reads e tra trb c r (acts_part e tra trb trc c (library_overlaps e v io L ks fuel w w' tr pool' storage entries clock_wf index_key empty calls wf in_order ids guess forgery few enough labels)) answered tok oid o r0). Qed.

  (** If it had been deleted when Decrypt was called, nobody gets it. *)
  Theorem C77_deleted_object tok oid r0 : c = OnObject (CDecrypt tok oid) -> r = LObject r0 -> object_deleted oid seen tra ->
    r0 = Err ED1AccessNotFound \/ r0 = Err ED1NotAuthenticated \/ r0 = Err ED1NotAuthorized.
  Proof. exact (decrypt_gone e tra trb c r (acts_part e tra trb trc c (library_overlaps e v io L ks fuel w w' tr pool' storage entries clock_wf index_key empty calls wf in_order ids guess forgery few enough labels)) answered tok oid r0). Qed.

  (** Search lists exactly what the Adds and Deletes answered so far have left for the keyword, in the order of the Adds, or refuses the caller. *)
  Theorem C77_search tok kw r0 : c = OnIndex (ISearch tok kw) -> r = LIndex r0 -> ~ seen_botched tra kw ->
    r0 = Ok (IRIds (seen_listing tra kw)) \/ r0 = Err EIxNotAuthenticated \/ r0 = Err EIxNotAuthorized.
  Proof. exact (search_reads e tra (trb ++ trc) c r (library_overlaps e v io L ks fuel w w' tr pool' storage entries clock_wf index_key empty calls wf in_order ids guess forgery few enough labels) in_order (answered_later tra trb trc r answered) tok kw r0). Qed.
End C77.

(** An object shared with a group is decrypted by a member. *)
Example C77_decrypt_case : exists u1 u2 p1 p2 t1 t2 g x oid i pool' w', let tr := revoke_tr u1 u2 p1 p2 t1 t2 g x oid i in
  (cell_storage mem_view Mem /\ entrywise mem_view Mem /\ (forall n, time_wf (clock ov_env n)) /\ ix_new (Ok demo_ix_keys) = Ok (l_iek lib_demo)) /\
  demo_setting tr pool' w' /\
  exists tra trb, tr = tra ++ LCall (OnObject (CDecrypt t1 oid)) :: trb /\ In (LReply (length (lib_calls tra)) (LObject (Ok (RObject demo_obj)))) trb /\ object_stored oid demo_obj tr tra.
Proof. exact read_facts. Qed.
(** An object is deleted, and its owner asks for it. *)
Example C77_deleted_case : exists u1 u2 p1 p2 t1 t2 oid pool' w', let tra := gone_before u1 u2 p1 p2 t1 t2 oid in let tr := gone_tr u1 u2 p1 p2 t1 t2 oid in
  (cell_storage mem_view Mem /\ entrywise mem_view Mem /\ (forall n, time_wf (clock ov_env n)) /\ ix_new (Ok demo_ix_keys) = Ok (l_iek lib_demo)) /\
  demo_setting tr pool' w' /\
  exists trb, tr = tra ++ LCall (OnObject (CDecrypt t2 oid)) :: trb /\ In (LReply (length (lib_calls tra)) (LObject (Err ED1AccessNotFound))) trb /\ object_deleted oid tr tra.
Proof. exact gone_facts. Qed.
(** Somebody searches the index while somebody else encrypts. *)
Example C77_search_case : exists u1 u2 p1 p2 t1 t2 oid pool' w', let tra := search_before u1 u2 p1 p2 t1 t2 in let tr := search_tr u1 u2 p1 p2 t1 t2 oid in
  (cell_storage mem_view Mem /\ entrywise mem_view Mem /\ (forall n, time_wf (clock ov_env n)) /\ ix_new (Ok demo_ix_keys) = Ok (l_iek lib_demo)) /\
  demo_setting tr pool' w' /\
  exists trb, tr = tra ++ LCall (OnIndex (ISearch t1 dog)) :: trb /\ In (LReply (length (lib_calls tra)) (LIndex (Ok (IRIds [id1])))) trb /\
    ~ seen_botched tra dog /\ seen_listing tra dog = [id1].
Proof. exact search_facts. Qed.

Print Assumptions C77_decrypt.
Print Assumptions C77_deleted_object.
Print Assumptions C77_search.
Print Assumptions C77_decrypt_case.
Print Assumptions C77_deleted_case.
Print Assumptions C77_search_case.
