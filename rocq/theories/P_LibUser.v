(** C79: passwords, memberships and shared objects when calls overlap, told from what had been observed when a
    call was made.  Only property theorems here; the definitions are in LibConcSpec.v, LibConcUseSpec.v,
    LibReadSpec.v, LibListSpec.v and LibUserSpec.v and the proofs in LibConcMerge.v, LibUser.v and LibUserDemo.v. *)
From stdpp Require Import gmap.
From Verif Require Import Bytes Go Uuid Time Types World Io IoSpec IoProofs Id Data D1 Spec SpecProofs D1ConcSpec D1Conc Standalone StandaloneSpec SaConcSpec
  Index IndexSpec IndexConcSpec IndexOwnSpec Lib LibSpec LibHist LibConcSpec LibConcUseSpec LibReadSpec LibListSpec LibUserSpec LibTouch LibConcMerge LibPart LibUser
  Demo StandaloneDemo SaConcDemo IndexDemo LibDemo LibHistDemo LibConcDemo LibRevokeDemo LibReadDemo LibReadCase LibUserDemo.
Local Open Scope N_scope.

Section C79.
  (** The call in question is [c]: made after [tra] had been observed, answered with [r] by the end of [trb]; [trc] is what came after, and calls made then do not matter. *)
  Context {S I : Type} (e : env) (v : view S) (io : provider S) (L : lib) (ks : res keys) (fuel : nat) (w w' : world S I) (tra trb trc : list lib_obs) (c : lib_call) (r : lib_reply) (pool' : list (prog (world S I) lib_reply)).
  Notation tr := (tra ++ LCall c :: trb ++ trc).
  Notation seen := (tra ++ LCall c :: trb).
  Context (storage : cell_storage v io) (entries : entrywise v io) (clock_wf : forall n, time_wf (clock e n)) (index_key : ix_new ks = Ok (l_iek L)).
  Context (empty : lib_vacant v w) (calls : lib_conc e v io L fuel [] w tr pool' w').
  Context (wf : lib_wf tr) (in_order : lib_orderly tr) (ids : ids_differ e (w_draws w) (w_draws w')) (guess : lib_no_guess e (w_draws w) (w_draws w') tr) (forgery : unforged (l_sa L) (id_part tr)).
  Context (few : N.of_nat (count_adds (index_calls (lib_calls tr))) < 2 ^ 64) (enough : (count_adds (index_calls (lib_calls tr)) < fuel)%nat)
    (labels : labels_differ (l_iek L) (map ix_keyword (index_calls (lib_calls tr))) (N.of_nat (count_adds (index_calls (lib_calls tr))))).
  Context (answered : In (LReply (length (lib_calls tra)) r) trb).

  Notation n := (length (lib_calls tra)).

  (** The password that an answer has shown to be the user's, and that nothing since may have changed, logs in, as long as the random source works and the clock is not beyond the year 9999. *)
  Theorem C79_password uid pw r0 : c = OnIdentity (SLogin uid pw) -> r = LIdentity r0 -> password_is uid pw n seen tra ->
    (forall i m, draw e i m <> Err ERandom) -> (forall m, time_text (time_add (clock e m) 3600) <> None) -> exists t x, r0 = Ok (SRToken t x).
  Proof. exact (login_right e tra trb c r (acts_part e tra trb trc c (library_overlaps e v io L ks fuel w w' tr pool' storage entries clock_wf index_key empty calls wf in_order ids guess forgery few enough labels)) answered uid pw r0). Qed.

  (** Any other password neither logs in nor changes the password, unless its hash is the same. *)
  Theorem C79_other_password uid pw pw' r0 : c = OnIdentity (SLogin uid pw') \/ c = OnIdentity (SChangePassword uid pw') -> r = LIdentity r0 -> password_is uid pw n seen tra ->
    (forall salt, pwhash e pw' salt <> pwhash e pw salt) -> r0 = Err EIdNotAuthenticated.
  Proof. exact (login_wrong e tra trb c r (acts_part e tra trb trc c (library_overlaps e v io L ks fuel w w' tr pool' storage entries clock_wf index_key empty calls wf in_order ids guess forgery few enough labels)) answered uid pw pw' r0). Qed.

  (** A group that the user was put in, and that nothing since may have taken them out of, is in their identity; or the token has expired, or some group of theirs does not exist. *)
  Theorem C79_member uid g tok r0 : c = OnIdentity (SGetIdentity tok) -> r = LIdentity r0 -> logged_in uid tok tra -> member_of uid g n seen tra ->
    (exists i, r0 = Ok (SRIdentity i) /\ i_id i = uid /\ is_Some (i_groups i !! g)) \/ r0 = Err EIdNotAuthenticated \/ r0 = Err EIdGroupNotFound.
  Proof. exact (member_seen e tra trb c r (acts_part e tra trb trc c (library_overlaps e v io L ks fuel w w' tr pool' storage entries clock_wf index_key empty calls wf in_order ids guess forgery few enough labels)) answered uid g tok r0). Qed.

  (** A user with the scopes, in a group with the scopes, which is on the list of an object, may do to the object what the scopes say. *)
  Theorem C79_allowed uid g tok oid c0 r0 : c = OnObject c0 -> r = LObject r0 -> call_token c0 = Some tok -> call_oid c0 = Some oid -> logged_in uid tok tra ->
    entitled uid g (call_need c0) n seen tra -> group_on oid g n seen tra -> (exists y, r0 = Ok y) \/ r0 = Err ED1NotAuthenticated \/ r0 = Err ERandom.
  Proof. exact (allowed e tra trb c r (acts_part e tra trb trc c (library_overlaps e v io L ks fuel w w' tr pool' storage entries clock_wf index_key empty calls wf in_order ids guess forgery few enough labels)) answered uid g tok oid c0 r0). Qed.

  (** And if such a user decrypts, they get the very object that was stored. *)
  Theorem C79_shared uid g tok oid o r0 : c = OnObject (CDecrypt tok oid) -> r = LObject r0 -> logged_in uid tok tra ->
    entitled uid g ScopeDecrypt n seen tra -> group_on oid g n seen tra -> object_stored oid o seen tra -> r0 = Ok (RObject o) \/ r0 = Err ED1NotAuthenticated.
  Proof. exact (shared_read e tra trb c r (acts_part e tra trb trc c (library_overlaps e v io L ks fuel w w' tr pool' storage entries clock_wf index_key empty calls wf in_order ids guess forgery few enough labels)) answered uid g tok oid o r0). Qed.
End C79.

(** A user changes their password, logs in with the new one and fails with the old one. *)
Example C79_password_case : exists u p u2 p2 p' t pool' w', let tr := pass_tr u p u2 p2 p' t in
  (cell_storage mem_view Mem /\ entrywise mem_view Mem /\ (forall n, time_wf (clock ov_env n)) /\ ix_new (Ok demo_ix_keys) = Ok (l_iek lib_demo)) /\
  demo_setting tr pool' w' /\ (forall i m, draw ov_env i m <> Err ERandom) /\ (forall m, time_text (time_add (clock ov_env m) 3600) <> None) /\ (forall salt, pwhash ov_env p salt <> pwhash ov_env p' salt) /\
  (exists tra trb trc, tr = tra ++ LCall (OnIdentity (SLogin u p')) :: trb ++ trc /\ In (LReply (length (lib_calls tra)) (LIdentity (Ok (SRToken t (time_unix T1))))) trb /\
    password_is u p' (length (lib_calls tra)) (tra ++ LCall (OnIdentity (SLogin u p')) :: trb) tra) /\
  exists tra trb trc, tr = tra ++ LCall (OnIdentity (SLogin u p)) :: trb ++ trc /\ In (LReply (length (lib_calls tra)) (LIdentity (Err EIdNotAuthenticated))) trb /\
    password_is u p' (length (lib_calls tra)) (tra ++ LCall (OnIdentity (SLogin u p)) :: trb) tra.
Proof. exact pass_facts. Qed.
(** A user is put in a group, asks who they are, and decrypts what is shared with the group; later they are taken out and deleted. *)
Example C79_shared_case : exists u1 u2 p1 p2 t1 t2 g x oid i pool' w', let tr := revoke_tr u1 u2 p1 p2 t1 t2 g x oid i in
  (cell_storage mem_view Mem /\ entrywise mem_view Mem /\ (forall n, time_wf (clock ov_env n)) /\ ix_new (Ok demo_ix_keys) = Ok (l_iek lib_demo)) /\
  demo_setting tr pool' w' /\
  (exists tra trb trc, tr = tra ++ LCall (OnIdentity (SGetIdentity t1)) :: trb ++ trc /\ In (LReply (length (lib_calls tra)) (LIdentity (Ok (SRIdentity i)))) trb /\
    logged_in u1 t1 tra /\ member_of u1 g (length (lib_calls tra)) (tra ++ LCall (OnIdentity (SGetIdentity t1)) :: trb) tra) /\
  exists tra trb trc, let all := tra ++ LCall (OnObject (CDecrypt t1 oid)) :: trb in
    tr = tra ++ LCall (OnObject (CDecrypt t1 oid)) :: trb ++ trc /\ In (LReply (length (lib_calls tra)) (LObject (Ok (RObject demo_obj)))) trb /\ logged_in u1 t1 tra /\
    entitled u1 g ScopeDecrypt (length (lib_calls tra)) all tra /\ group_on oid g (length (lib_calls tra)) all tra /\ object_stored oid demo_obj all tra.
Proof. exact shared_facts. Qed.

Print Assumptions C79_password.
Print Assumptions C79_other_password.
Print Assumptions C79_member.
Print Assumptions C79_allowed.
Print Assumptions C79_shared.
Print Assumptions C79_password_case.
Print Assumptions C79_shared_case.
