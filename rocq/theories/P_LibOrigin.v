(** C80: whatever a call returns when calls overlap was put there by a call that had been made by then.  Only
    property theorems here; the definitions are in LibConcSpec.v, LibReadSpec.v and LibOriginSpec.v and the
    proofs in LibConcMerge.v, LibOrigin.v and LibOriginDemo.v. *)
From stdpp Require Import gmap.
From Verif Require Import Bytes Go Uuid Time Types World Io IoSpec IoProofs Id Data D1 Spec SpecProofs D1ConcSpec D1Conc Standalone StandaloneSpec SaConcSpec
  Index IndexSpec IndexConcSpec IndexOwnSpec Lib LibSpec LibHist LibConcSpec LibConcUseSpec LibReadSpec LibOriginSpec LibTouch LibConcMerge LibPart LibOrigin
  Demo StandaloneDemo SaConcDemo IndexDemo LibDemo LibHistDemo LibConcDemo LibRevokeDemo LibReadDemo LibReadCase LibOriginDemo.
Local Open Scope N_scope.

Section C80.
  (** The call in question is [c]: made after [tra] had been observed, answered with [r] by the end of [trb]; [trc] is what came after, and calls made then do not matter. *)
  Context {S I : Type} (e : env) (v : view S) (io : provider S) (L : lib) (ks : res keys) (fuel : nat) (w w' : world S I) (tra trb trc : list lib_obs) (c : lib_call) (r : lib_reply) (pool' : list (prog (world S I) lib_reply)).
  Notation tr := (tra ++ LCall c :: trb ++ trc).
  Notation seen := (tra ++ LCall c :: trb).
  Context (storage : cell_storage v io) (entries : entrywise v io) (clock_wf : forall n, time_wf (clock e n)) (index_key : ix_new ks = Ok (l_iek L)).
  Context (empty : lib_vacant v w) (calls : lib_conc e v io L fuel [] w tr pool' w').
  Context (wf : lib_wf tr) (in_order : lib_orderly tr) (ids : ids_differ e (w_draws w) (w_draws w')) (guess : lib_no_guess e (w_draws w) (w_draws w') tr) (forgery : unforged (l_sa L) (id_part tr)).
  Context (few : N.of_nat (count_adds (index_calls (lib_calls tr))) < 2 ^ 64) (enough : (count_adds (index_calls (lib_calls tr)) < fuel)%nat)
    (labels : labels_differ (l_iek L) (map ix_keyword (index_calls (lib_calls tr))) (N.of_nat (count_adds (index_calls (lib_calls tr))))).
  Context (answered : In (LReply (length (lib_calls tra)) r) trb).

  (** An object that is decrypted was stored as it is, under this id, by Encrypt or Update. *)
  Theorem C80_object tok oid o : c = OnObject (CDecrypt tok oid) -> r = LObject (Ok (RObject o)) -> came_from seen (stores oid o).
  Proof. exact (decrypt_from e tra trb c r (acts_part e tra trb trc c (library_overlaps e v io L ks fuel w w' tr pool' storage entries clock_wf index_key empty calls wf in_order ids guess forgery few enough labels)) answered tok oid o). Qed.

  (** Who is on an access list was put there by AddGroupsToAccess or Encrypt, or has encrypted the object. *)
  Theorem C80_list tok oid acl g : c = OnObject (CGetAccessGroups tok oid) -> r = LObject (Ok (RGroups (Some acl))) -> g ∈ acl -> came_from seen (puts_on e seen oid g).
  Proof. exact (list_from e tra trb c r (acts_part e tra trb trc c (library_overlaps e v io L ks fuel w w' tr pool' storage entries clock_wf index_key empty calls wf in_order ids guess forgery few enough labels)) answered tok oid acl g). Qed.

  (** An identifier that Search lists was added for the keyword, whatever has failed on the way. *)
  Theorem C80_search tok kw l y : c = OnIndex (ISearch tok kw) -> r = LIndex (Ok (IRIds l)) -> In y l -> came_from seen (puts_under kw y).
  Proof. exact (search_from e tra trb c r (acts_part e tra trb trc c (library_overlaps e v io L ks fuel w w' tr pool' storage entries clock_wf index_key empty calls wf in_order ids guess forgery few enough labels)) answered tok kw l y). Qed.

  (** An identity is that of the user whose login gave the token, and nobody else's, with the scopes NewUser was called with; a group in it is one the user was put in or has made, with the scopes NewGroup was called with. *)
  Theorem C80_identity tok i : c = OnIdentity (SGetIdentity tok) -> r = LIdentity (Ok (SRIdentity i)) ->
    token_from e seen (i_id i) tok /\ (forall uid, logged_in uid tok seen -> uid = i_id i) /\ came_from seen (makes_user (i_id i) (i_scopes i)) /\
    forall g sc, i_groups i !! g = Some sc -> came_from seen (puts_in e seen (i_id i) g) /\ came_from seen (makes_group g sc).
  Proof. exact (identity_from e tra trb c r (acts_part e tra trb trc c (library_overlaps e v io L ks fuel w w' tr pool' storage entries clock_wf index_key empty calls wf in_order ids guess forgery few enough labels)) answered tok i). Qed.

  (** A token that is not turned away is from a login with a password that NewUser or ChangeUserPassword gave to that user, or with one of the same hash; no other user was given that token. *)
  Theorem C80_caller tok : lib_token c = Some tok -> ~ turned_away r -> exists uid, token_from e seen uid tok /\ (forall uid', logged_in uid' tok seen -> uid' = uid) /\ exists sc, came_from seen (makes_user uid sc).
  Proof. exact (caller_from e tra trb c r (acts_part e tra trb trc c (library_overlaps e v io L ks fuel w w' tr pool' storage entries clock_wf index_key empty calls wf in_order ids guess forgery few enough labels)) answered tok). Qed.
End C80.

(** A user asks who they are and decrypts what is shared with their group.  While they ask for the list, they are taken out of the group, [x] is put on the list, they are refused, and are deleted; then they get the list. *)
Example C80_case : exists u1 u2 p1 p2 t1 t2 g x oid i pool' w', let tr := revoke_tr u1 u2 p1 p2 t1 t2 g x oid i in
  (cell_storage mem_view Mem /\ entrywise mem_view Mem /\ (forall n, time_wf (clock ov_env n)) /\ ix_new (Ok demo_ix_keys) = Ok (l_iek lib_demo)) /\
  demo_setting tr pool' w' /\
  (exists tra trb trc, tr = tra ++ LCall (OnIdentity (SGetIdentity t1)) :: trb ++ trc /\ In (LReply (length (lib_calls tra)) (LIdentity (Ok (SRIdentity i)))) trb /\ i_groups i !! g = Some ScopeAll) /\
  (exists tra trb trc, tr = tra ++ LCall (OnObject (CDecrypt t1 oid)) :: trb ++ trc /\ In (LReply (length (lib_calls tra)) (LObject (Ok (RObject demo_obj)))) trb) /\
  (exists tra trb trc, tr = tra ++ LCall (OnObject (CDecrypt t1 oid)) :: trb ++ trc /\ In (LReply (length (lib_calls tra)) (LObject (Err ED1NotAuthorized))) trb /\ ~ turned_away (LObject (Err ED1NotAuthorized))) /\
  exists tra trb trc, tr = tra ++ LCall (OnObject (CGetAccessGroups t1 oid)) :: trb ++ trc /\ In (LReply (length (lib_calls tra)) (LObject (Ok (RGroups (Some {[u2; g; x]}))))) trb /\ x ∈ ({[u2; g; x]} : gset bytes).
Proof. exact origin_facts. Qed.
(** Somebody searches the index while somebody else encrypts. *)
Example C80_search_case : exists u1 u2 p1 p2 t1 t2 oid pool' w', let tra := search_before u1 u2 p1 p2 t1 t2 in let tr := search_tr u1 u2 p1 p2 t1 t2 oid in
  (cell_storage mem_view Mem /\ entrywise mem_view Mem /\ (forall n, time_wf (clock ov_env n)) /\ ix_new (Ok demo_ix_keys) = Ok (l_iek lib_demo)) /\
  demo_setting tr pool' w' /\
  exists trb, tr = tra ++ LCall (OnIndex (ISearch t1 dog)) :: trb /\ In (LReply (length (lib_calls tra)) (LIndex (Ok (IRIds [id1])))) trb /\
    ~ seen_botched tra dog /\ seen_listing tra dog = [id1].
Proof. exact search_facts. Qed.

Print Assumptions C80_object.
Print Assumptions C80_list.
Print Assumptions C80_search.
Print Assumptions C80_identity.
Print Assumptions C80_caller.
Print Assumptions C80_case.
Print Assumptions C80_search_case.
