(** Property theorems C01-C12: sequential use, refusals, crashes and faults of the object calls.

    The setting of every theorem: any provider [io] that implements the documented map
    ([IoSpec.io_spec]; proved for Mem and Bolt in IoProofs), any identity provider [idp] that does
    not write object storage, any keys [d], any random source and clock [e].  Crash and fault
    theorems also use a provider [iof] that may fail at any operation. *)
From stdpp Require Import gmap.
From Verif Require Import Bytes Go Uuid Types World Io IoSpec IoProofs Id D1 D1Proofs Spec SpecProofs History D1Refine Claims
  D1Local D1Props D1Crash Demo.
Local Open Scope N_scope.

Section Objects.
  Context {S I : Type} (e : env) (v : view S) (io : provider S) (Hio : io_spec False v io).
  Notation W := (world S I).
  Context (idp : bytes -> prog W (res identity)) (Hidp : idp_reads v idp) (d : d1).
  Notation call c := (d1_aes e io idp d c).
  Notation history D := (history e v io idp d D).
  Notation stored w oid dt := (v_map v (w_io w) oid dt).

  (** C01.  Encrypt succeeded; then any activity, including any calls not about [oid]; then a caller
      who may decrypt gets exactly the object that was passed in.  (The ids that may decrypt are those of
      the caller and the named groups as they are stored: [as_text g = g] if [g] is UTF-8.) *)
  Theorem C01_roundtrip : forall tok obj groups w oid w1 evs w2 tok' i,
    v_inv v (w_io w) ->
    run (call (CEncrypt tok obj groups)) w = (Ok (ROid oid), w1) ->
    whois idp w tok = Ok i ->
    history (only oid) w1 evs w2 -> Forall event_ok evs -> Forall (fun ev => ~ about oid ev) evs ->
    allowed (whois idp w2 tok') ScopeDecrypt (list_to_set (map as_text (i_id i :: groups))) ->
    fst (run (call (CDecrypt tok' oid)) w2) = Ok (RObject obj).
  Proof. exact (roundtrip e v io Hio idp Hidp d). Qed.

  (** C02.  From a store without objects, the replies of any sequence of calls (with any other
      activity in between) are replies of the object map of Spec.v. *)
  Theorem C02_object_map : forall w evs w',
    fresh v all_ids w -> history all_ids w evs w' -> Forall event_ok evs ->
    exists m, spec_history ∅ evs m.
  Proof.
    intros w evs w' HF HH Hok. destruct (refine_fresh e v io Hio idp Hidp d all_ids w evs w' HF HH Hok) as (m & Hm & _).
    exists m. now rewrite (filter_all evs) in Hm.
  Qed.
  (** The map allows no other replies: who is asking, the random source and the map determine the reply. *)
  Theorem C02_replies_determined : forall x c m r1 m1 r2 m2,
    spec_step x c m r1 m1 -> spec_step x c m r2 m2 ->
    call_token c <> None -> ~ o_rng_fails x -> r1 = r2 /\ m1 = m2.
  Proof. exact spec_step_functional. Qed.

  (** C03.  At any moment of any history: the call is served exactly when it is allowed. *)
  Theorem C03_access_exact : forall D w evs1 ev evs2 w' m oid o acl need,
    fresh v D w -> history D w (evs1 ++ ev :: evs2) w' -> Forall event_ok (evs1 ++ ev :: evs2) ->
    D oid = true -> about oid ev -> call_scope (ev_call ev) = Some need ->
    spec_history ∅ (List.filter (ev_in D) evs1) m -> m !! oid = Some (o, acl) ->
    (allowed (o_who (ev_outside ev)) need acl -> served (ev_reply ev)) /\
    (~ allowed (o_who (ev_outside ev)) need acl -> refused (o_who (ev_outside ev)) (ev_reply ev)).
  Proof. exact (decision_exact e v io Hio idp Hidp d). Qed.

  (** C05. *)
  Theorem C05_revocation : forall D w evs1 tok oid G out evs2 ev evs3 w' (X : bytes -> Prop) i,
    fresh v D w ->
    let rem := mkEvent out (CRemoveGroups tok oid G) (Ok RUnit) in
    history D w (evs1 ++ rem :: evs2 ++ ev :: evs3) w' -> Forall event_ok (evs1 ++ rem :: evs2 ++ ev :: evs3) ->
    D oid = true ->
    (* [X]: a set of ids none of which is left on the list by the removal *)
    (forall x, X x -> In x G \/ forall m o acl, spec_history ∅ (List.filter (ev_in D) evs1) m -> m !! oid = Some (o, acl) -> x ∉ acl) ->
    Forall (fun ev => ~ adds_to oid X ev /\ ~ creates oid ev) evs2 ->
    about oid ev -> o_who (ev_outside ev) = Ok i -> (forall x, has_id i x -> X x) ->
    ev_reply ev = Err ED1NotAuthorized \/
    (Exists (deletes oid) evs2 /\ (ev_reply ev = Err ED1AccessNotFound \/
                                   (ev_reply ev = Ok RUnit /\ exists t, ev_call ev = CDelete t oid))).
  Proof. exact (revocation e v io Hio idp Hidp d). Qed.

  (** C06. *)
  Theorem C06_locked : forall D w evs1 evs2 w' m oid o,
    fresh v D w -> history D w (evs1 ++ evs2) w' -> Forall event_ok (evs1 ++ evs2) -> D oid = true ->
    spec_history ∅ (List.filter (ev_in D) evs1) m -> m !! oid = Some (o, ∅) ->
    Forall (fun ev => about oid ev -> refused (o_who (ev_outside ev)) (ev_reply ev)) evs2 /\
    exists m', spec_history ∅ (List.filter (ev_in D) (evs1 ++ evs2)) m' /\ m' !! oid = Some (o, ∅).
  Proof. exact (locked e v io Hio idp Hidp d). Qed.

  (** C07.  One call on another object, even failing or cut short, does not change the reply of a
      call on [oid], whatever is stored there. *)
  Theorem C07_isolation : forall iof cA w n oid c tok,
    io_spec True v iof -> v_inv v (w_io w) ->
    (forall o, call_oid cA = Some o -> uuid_wf o) -> call_oid cA <> Some oid ->
    o_id (outside_of e idp w cA w) <> Ok oid \/ stored w oid DataTypeSealedObject <> None ->
    uuid_wf oid -> call_oid c = Some oid -> call_token c = Some tok ->
    let w1 := snd (run_n n (d1_aes e iof idp d cA) w) in
    whois idp w1 tok = whois idp w tok ->
    let r := fst (run (call c) w) in
    let r1 := fst (run (call c) w1) in
    r1 = r \/ r1 = Err ERandom \/ r = Err ERandom.
  Proof. exact (isolation e v io Hio idp Hidp d). Qed.
  (** Histories: the replies to the calls about a set of objects are those of the object map
      restricted to those calls, whatever the other calls are. *)
  Theorem C07_histories : forall D w evs w',
    fresh v D w -> history D w evs w' -> Forall event_ok evs ->
    exists m, spec_history ∅ (List.filter (ev_in D) evs) m.
  Proof.
    intros D w evs w' HF HH Hok. destruct (refine_fresh e v io Hio idp Hidp d D w evs w' HF HH Hok) as (m & Hm & _). eauto.
  Qed.

  (** C08. *)
  Theorem C08_collision : forall tok obj groups w r w' oid i,
    v_inv v (w_io w) -> run (call (CEncrypt tok obj groups)) w = (r, w') ->
    whois idp w tok = Ok i -> scope_has (i_scopes i) ScopeEncrypt ->
    o_id (outside_of e idp w (CEncrypt tok obj groups) w') = Ok oid ->
    (stored w oid DataTypeSealedObject <> None -> r = Err ED1ObjectAlreadyExists \/ r = Err ERandom) /\
    (stored w oid DataTypeSealedObject = None -> stored w oid DataTypeSealedAccess <> None ->
       r = Err ED1AccessAlreadyExists \/ r = Err ERandom).
  Proof. exact (encrypt_collision e v io Hio idp Hidp d). Qed.

  (** C09. *)
  Theorem C09_delete_retry : forall D w0 evs w m oid o acl cs w1 tok,
    fresh v D w0 -> history D w0 evs w -> Forall event_ok evs ->
    spec_history ∅ (List.filter (ev_in D) evs) m -> m !! oid = Some (o, acl) ->
    attempts e v idp d (fun c => exists t, c = CDelete t oid) oid w cs w1 ->
    allowed (whois idp w1 tok) ScopeDelete acl ->
    exists w2, run (call (CDelete tok oid)) w1 = (Ok RUnit, w2) /\ fresh v (only oid) w2.
  Proof. exact (delete_crash e v io Hio idp Hidp d). Qed.
  Theorem C09_reads_between : forall D w0 evs w m oid o acl cs w1 tok y,
    fresh v D w0 -> history D w0 evs w -> Forall event_ok evs ->
    spec_history ∅ (List.filter (ev_in D) evs) m -> m !! oid = Some (o, acl) ->
    attempts e v idp d (fun c => exists t, c = CDelete t oid) oid w cs w1 ->
    fst (run (call (CDecrypt tok oid)) w1) = Ok y -> y = RObject o /\ allowed (whois idp w1 tok) ScopeDecrypt acl.
  Proof. exact (delete_crash_read e v io Hio idp Hidp d). Qed.
  Theorem C09_delete_deleted : forall oid w tok i,
    v_inv v (w_io w) -> stored w oid DataTypeSealedAccess = None ->
    whois idp w tok = Ok i -> scope_has (i_scopes i) ScopeDelete ->
    exists w', run (call (CDelete tok oid)) w = (Ok RUnit, w') /\ v_inv v (w_io w') /\
      seq (v_map v (w_io w')) (v_map v (w_io w)).
  Proof. exact (delete_again e v io Hio idp Hidp d). Qed.

  (** C10.  A cut Encrypt leaves the slots of every id as they were, or has drawn that id and left
      the object without an access list, or has finished. *)
  Theorem C10_encrypt_cut : forall iof tok obj groups w n oid,
    io_spec True v iof -> v_inv v (w_io w) ->
    let w1 := snd (run_n n (d1_aes e iof idp d (CEncrypt tok obj groups)) w) in
    (stored w1 oid DataTypeSealedObject = stored w oid DataTypeSealedObject /\
     stored w1 oid DataTypeSealedAccess = stored w oid DataTypeSealedAccess) \/
    (o_id (outside_of e idp w (CEncrypt tok obj groups) w1) = Ok oid /\
     stored w oid DataTypeSealedObject = None /\ stored w1 oid DataTypeSealedObject <> None /\
      (stored w1 oid DataTypeSealedAccess = stored w oid DataTypeSealedAccess \/
       (* finished: from here on everything is as after a successful Encrypt *)
       (stored w oid DataTypeSealedAccess = None /\ exists i, whois idp w tok = Ok i /\
          (forall evs w2, history (only oid) w1 evs w2 -> Forall event_ok evs ->
             exists m, spec_history {[oid := (obj, list_to_set (map as_text (i_id i :: groups)))]} (List.filter (ev_in (only oid)) evs) m)))).
  Proof. exact (encrypt_cut_histories e v io Hio idp Hidp d). Qed.
  (** In the middle case no later call ever succeeds on that id, except Delete (which does nothing),
      and Encrypt never returns that id. *)
  Theorem C10_orphan_unreachable : forall oid w evs w',
    history (only oid) w evs w' ->
    v_inv v (w_io w) -> stored w oid DataTypeSealedObject <> None -> stored w oid DataTypeSealedAccess = None ->
    Forall event_ok evs ->
    Forall (fun ev => (about oid ev -> forall y, ev_reply ev = Ok y -> y = RUnit /\ deletes oid ev) /\ ~ creates oid ev) evs.
  Proof. intros oid w evs w' HH Hi HO HA Hok. exact (proj2 (orphan_history e v io Hio idp Hidp d oid w evs w' HH (conj Hi (conj HO HA)) Hok)). Qed.

  (** C12.  After any number of failed, interrupted or successful Updates: *)
  Theorem C12_update_reads : forall D w0 evs w m oid o acl cs w1 tok,
    fresh v D w0 -> history D w0 evs w -> Forall event_ok evs ->
    spec_history ∅ (List.filter (ev_in D) evs) m -> m !! oid = Some (o, acl) ->
    attempts e v idp d (fun c => exists t o, c = CUpdate t oid o) oid w cs w1 ->
    (allowed (whois idp w1 tok) ScopeDecrypt acl ->
      (exists o', In o' (o :: updates cs) /\ fst (run (call (CDecrypt tok oid)) w1) = Ok (RObject o')) \/
      (exists x, fst (run (call (CDecrypt tok oid)) w1) = Err x) \/ two_keys oid (stored w1 oid DataTypeSealedObject)) /\
    (~ allowed (whois idp w1 tok) ScopeDecrypt acl ->
      refused (whois idp w1 tok) (fst (run (call (CDecrypt tok oid)) w1))).
  Proof.
    intros D w0 evs w m oid o acl cs w1 tok HF HH Hok Hm Ho Hat.
    exact (updating_decrypt e v io Hio idp Hidp d oid _ acl w1 tok (proj1 (update_crash e v io Hio idp Hidp d D w0 evs w m oid o acl cs w1 HF HH Hok Hm Ho Hat))).
  Qed.
  Theorem C12_access_unchanged : forall D w0 evs w m oid o acl cs w1 tok,
    fresh v D w0 -> history D w0 evs w -> Forall event_ok evs ->
    spec_history ∅ (List.filter (ev_in D) evs) m -> m !! oid = Some (o, acl) ->
    attempts e v idp d (fun c => exists t o, c = CUpdate t oid o) oid w cs w1 ->
    allowed (whois idp w1 tok) ScopeGetAccessGroups acl ->
    fst (run (call (CGetAccessGroups tok oid)) w1) = Ok (RGroups (Some acl)).
  Proof.
    intros D w0 evs w m oid o acl cs w1 tok HF HH Hok Hm Ho Hat.
    exact (updating_groups e v io Hio idp Hidp d oid _ acl w1 tok (proj1 (update_crash e v io Hio idp Hidp d D w0 evs w m oid o acl cs w1 HF HH Hok Hm Ho Hat))).
  Qed.
  Theorem C12_update_repairs : forall D w0 evs w m oid o acl cs w1 tok o2,
    fresh v D w0 -> history D w0 evs w -> Forall event_ok evs ->
    spec_history ∅ (List.filter (ev_in D) evs) m -> m !! oid = Some (o, acl) ->
    attempts e v idp d (fun c => exists t o, c = CUpdate t oid o) oid w cs w1 ->
    allowed (whois idp w1 tok) ScopeUpdate acl ->
    exists r w2, run (call (CUpdate tok oid o2)) w1 = (r, w2) /\
      ((r = Err ERandom /\ rng_failed e w2) \/
       (r = Ok RUnit /\ forall evs' w3 tok', history (only oid) w2 evs' w3 -> evs' = [] ->
          allowed (whois idp w3 tok') ScopeDecrypt acl ->
          fst (run (call (CDecrypt tok' oid)) w3) = Ok (RObject o2))).
  Proof. exact (update_crash_retry e v io Hio idp Hidp d). Qed.
End Objects.

Section Refusals.
  Context {S I : Type} (e : env).
  Notation W := (world S I).
  Context (idp : bytes -> prog W (res identity)) (d : d1).
  (** C04.  Also on a provider that fails. *)
  Theorem C04_refused_unchanged : forall F (v : view S) io, io_spec F v io -> idp_reads v idp ->
    forall c w r w', v_inv v (w_io w) -> (forall oid, call_oid c = Some oid -> uuid_wf oid) ->
    run (d1_aes e io idp d c) w = (r, w') -> r = Err ED1NotAuthenticated \/ r = Err ED1NotAuthorized ->
    seq (v_map v (w_io w')) (v_map v (w_io w)).
  Proof. intros F v io Hio Hidp. exact (refused_unchanged e F v io Hio idp Hidp d). Qed.
  (** Whatever the provider is, and even if it records being called: after a call refused because of
      the caller's own identity or scopes, the world is what resolving the token left. *)
  Theorem C04_refused_no_io : forall (io : provider S) c w tok need,
    call_token c = Some tok -> call_scope c = Some need ->
    (forall i, whois idp w tok = Ok i -> ~ scope_has (i_scopes i) need) ->
    exists r, run (d1_aes e io idp d c) w = (r, snd (run (idp tok) w)) /\ refused (whois idp w tok) r.
  Proof. intros io. exact (refused_early e io idp d). Qed.
  (** C08.  Nothing that is stored is changed, wherever Encrypt is cut and whatever fails. *)
  Theorem C08_never_overwrites : forall (v : view S) iof, io_spec True v iof -> idp_reads v idp ->
    forall tok obj groups w n oid dt b, v_inv v (w_io w) -> v_map v (w_io w) oid dt = Some b ->
    v_map v (w_io (snd (run_n n (d1_aes e iof idp d (CEncrypt tok obj groups)) w))) oid dt = Some b.
  Proof. intros v iof Hio Hidp. exact (encrypt_keeps e True v iof Hio idp Hidp d). Qed.
End Refusals.


(** ** Concrete cases: the hypotheses of the theorems are met *)
Ltac demo_text := repeat first [apply List.Forall_nil | apply List.Forall_cons; [apply Utf8_iff; reflexivity|]].
Ltac demo_events := repeat first [apply List.Forall_nil | apply List.Forall_cons; [apply demo_ev_ok; intros ? [=]; subst; assumption|]].
Ltac demo_calls := repeat first [apply h_nil | eapply demo_history_call; [eassumption|]].

Example C01_case : exists oid w1 evs w2,
  demo_run (CEncrypt tok_alice demo_obj [staff]) demo_w = (Ok (ROid oid), w1) /\
  demo_history (only oid) w1 evs w2 /\ Forall event_ok evs /\ Forall (fun ev => ~ about oid ev) evs /\ length evs = 2%nat /\
  allowed (whois demo_idp w2 tok_carol) ScopeDecrypt (list_to_set [str "alice"; staff]) /\
  fst (demo_run (CDecrypt tok_carol oid) w2) = Ok (RObject demo_obj).
Proof.
  destruct demo_encrypt as (oid & w1 & E1 & Hoid & R1 & _).
  destruct (demo_run (CEncrypt tok_bob demo_obj2 []) w1) as [r2 w2] eqn:E2.
  destruct (demo_run (CCreateToken None) w2) as [r3 w3] eqn:E3.
  exists oid, w1, [demo_ev w1 (CEncrypt tok_bob demo_obj2 []) r2 w2; demo_ev w2 (CCreateToken None) r3 w3], w3.
  assert (HH : demo_history (only oid) w1 [demo_ev w1 (CEncrypt tok_bob demo_obj2 []) r2 w2; demo_ev w2 (CCreateToken None) r3 w3] w3) by demo_calls.
  assert (Hok : Forall event_ok [demo_ev w1 (CEncrypt tok_bob demo_obj2 []) r2 w2; demo_ev w2 (CCreateToken None) r3 w3]) by demo_events.
  assert (Hab : Forall (fun ev => ~ about oid ev) [demo_ev w1 (CEncrypt tok_bob demo_obj2 []) r2 w2; demo_ev w2 (CCreateToken None) r3 w3]).
  { repeat constructor; discriminate. }
  split; [exact E1|]. split; [exact HH|]. split; [exact Hok|]. split; [exact Hab|]. split; [reflexivity|]. split; [exact demo_carol_decrypt|].
  refine (C01_roundtrip demo_env mem_view Mem (mem_spec False) demo_idp (demo_idp_reads mem_view) demo_d1
    tok_alice demo_obj [staff] demo_w oid w1 _ w3 tok_carol alice Logic.I E1 eq_refl HH Hok Hab demo_carol_decrypt).
Qed.

(** A history for C02, C03, C05 and C06: seven calls, some refused. *)
Definition story_events oid w1 w2 w3 w4 w5 w6 w7 : list event :=
  [demo_ev demo_w (CEncrypt tok_alice demo_obj [staff]) (Ok (ROid oid)) w1;
   demo_ev w1 (CDecrypt tok_carol oid) (Ok (RObject demo_obj)) w2;
   demo_ev w2 (CUpdate tok_carol oid demo_obj2) (Err ED1NotAuthorized) w3;
   demo_ev w3 (CUpdate tok_alice oid demo_obj2) (Ok RUnit) w4;
   demo_ev w4 (CRemoveGroups tok_alice oid [staff]) (Ok RUnit) w5;
   demo_ev w5 (CDecrypt tok_carol oid) (Err ED1NotAuthorized) w6;
   demo_ev w6 (CRemoveGroups tok_alice oid [str "alice"]) (Ok RUnit) w7].
Example C02_C03_C05_C06_case : exists oid w1 w2 w3 w4 w5 w6 w7,
  let evs := story_events oid w1 w2 w3 w4 w5 w6 w7 in
  fresh mem_view all_ids demo_w /\ demo_history all_ids demo_w evs w7 /\ Forall event_ok evs /\
  (* C03: the state before the second call, with the object in it *)
  spec_history ∅ (firstn 1 evs) {[oid := (demo_obj, demo_acl)]} /\
  allowed (demo_who tok_carol) ScopeDecrypt demo_acl /\ ~ allowed (demo_who tok_carol) ScopeUpdate demo_acl /\
  (* C05: carol's ids are not on the list after the removal *)
  (forall x, has_id carol x -> In x [staff] \/ forall m o acl, spec_history ∅ (firstn 4 evs) m -> m !! oid = Some (o, acl) -> x ∉ acl) /\
  (* C06: at the end the list is empty *)
  exists m, spec_history ∅ evs m /\ m !! oid = Some (demo_obj2, ∅).
Proof.
  destruct demo_story as (oid & w1 & w2 & w3 & w4 & w5 & w6 & w7 & Hoid & E1 & E2 & E3 & E4 & E5 & E6 & E7 & S1 & R1 & R4 & R7).
  exists oid, w1, w2, w3, w4, w5, w6, w7. cbn zeta.
  assert (HH : demo_history all_ids demo_w (story_events oid w1 w2 w3 w4 w5 w6 w7) w7) by (unfold story_events; demo_calls).
  assert (HH4 : demo_history all_ids demo_w (firstn 4 (story_events oid w1 w2 w3 w4 w5 w6 w7)) w4) by (unfold story_events; cbn [firstn]; demo_calls).
  assert (Hok : Forall event_ok (story_events oid w1 w2 w3 w4 w5 w6 w7)) by (unfold story_events; demo_events).
  assert (Hok4 : Forall event_ok (firstn 4 (story_events oid w1 w2 w3 w4 w5 w6 w7))) by (unfold story_events; cbn [firstn]; demo_events).
  split; [apply demo_fresh|]. split; [exact HH|]. split; [exact Hok|]. split; [exact S1|].
  split; [exact demo_carol_decrypt|]. split; [exact demo_carol_update|]. split.
  - intros x [->|Hx].
    + right. intros m o acl Hm Ho.
      destruct (refine_fresh demo_env mem_view Mem (mem_spec False) demo_idp (demo_idp_reads mem_view) demo_d1 all_ids _ _ _ (demo_fresh _) HH4 Hok4) as (m' & Hm' & R' & _).
      rewrite (filter_all _) in Hm'. rewrite (history_det _ _ _ _ Hm Hm') in Ho.
      pose proof (rep_agree demo_d1 all_ids _ _ _ oid R' R4 eq_refl Hoid) as Hag. rewrite Ho in Hag. rewrite lookup_singleton in Hag.
      destruct Hag as [_ ->]. intros Hin. apply elem_of_list_to_set, elem_of_cons in Hin as [Hin|Hin]; [discriminate|].
      apply elem_of_list_singleton in Hin. discriminate.
    + left. left. destruct (decide (x = staff)) as [->|Hne]; [reflexivity|]. exfalso. apply Hx. exact (lookup_singleton_ne staff x ScopeDecrypt (fun E => Hne (eq_sym E))).
  - destruct (refine_fresh demo_env mem_view Mem (mem_spec False) demo_idp (demo_idp_reads mem_view) demo_d1 all_ids _ _ _ (demo_fresh _) HH Hok) as (m' & Hm' & R' & _).
    rewrite (filter_all _) in Hm'. exists m'. split; [exact Hm'|].
    pose proof (rep_agree demo_d1 all_ids _ _ _ oid R' R7 eq_refl Hoid) as Hag. rewrite lookup_singleton in Hag.
    destruct (m' !! oid) as [[o acl]|]; [|contradiction]. destruct Hag as [-> ->]. reflexivity.
Qed.

(** C04: bob has every scope but is not on the list; an unknown token is refused by a provider
    that panics on every access. *)
Definition panicking : provider (gmap bytes bytes) :=
  mkProvider (fun _ _ _ => Ret Panic) (fun _ _ => Ret Panic) (fun _ _ _ => Ret Panic) (fun _ _ => Ret Panic).
Example C04_case :
  (exists oid w1 w2, demo_run (CEncrypt tok_alice demo_obj [staff]) demo_w = (Ok (ROid oid), w1) /\
     demo_run (CDelete tok_bob oid) w1 = (Err ED1NotAuthorized, w2)) /\
  fst (run (d1_aes demo_env panicking demo_idp demo_d1 (CDelete (str "unknown") (repeat x07 16))) demo_w) = Err ED1NotAuthenticated.
Proof.
  split; [|reflexivity]. destruct demo_encrypt as (oid & w1 & E1 & Hoid & R1 & _).
  destruct (demo_refused _ w1 (CDelete tok_bob oid) oid demo_obj demo_acl tok_bob ScopeDelete R1 Hoid (lookup_singleton _ _)) as (r & w2 & E & Hr & _); auto using demo_bob_not; [constructor|].
  change (r = Err ED1NotAuthorized) in Hr. subst r. exists oid, w1, w2. split; [exact E1|exact E].
Qed.

(** C07, C08, C09, C12: calls cut after any number of steps, on the object of the story. *)
Example C07_C09_C12_case : exists oid w1, fresh mem_view all_ids demo_w /\
  demo_history all_ids demo_w [demo_ev demo_w (CEncrypt tok_alice demo_obj [staff]) (Ok (ROid oid)) w1] w1 /\
  spec_history ∅ [demo_ev demo_w (CEncrypt tok_alice demo_obj [staff]) (Ok (ROid oid)) w1] {[oid := (demo_obj, demo_acl)]} /\
  v_map mem_view (w_io w1) oid DataTypeSealedObject <> None /\
  forall n n' : nat,
    let w2 := snd (run_n n (d1_aes demo_env Mem demo_idp demo_d1 (CDelete tok_alice oid)) w1) in
    attempts demo_env mem_view demo_idp demo_d1 (fun c => exists t, c = CDelete t oid) oid w1
      [CDelete tok_alice oid; CDelete tok_bob oid] (snd (run_n n' (d1_aes demo_env Mem demo_idp demo_d1 (CDelete tok_bob oid)) w2)) /\
    allowed (demo_who tok_alice) ScopeDelete demo_acl /\ allowed (demo_who tok_alice) ScopeUpdate demo_acl.
Proof.
  destruct demo_encrypt as (oid & w1 & E1 & Hoid & R1 & S1). exists oid, w1. split; [apply demo_fresh|].
  split; [demo_calls|]. split; [econstructor; [exact S1|constructor]|]. split.
  { destruct R1 as [R1 _]. specialize (R1 oid eq_refl Hoid). rewrite lookup_singleton in R1. destruct R1 as [(bo & ba & dk & H & _) _]. congruence. }
  intros n n' w2. split; [|split; now apply demo_alice_allowed].
  eapply at_try; [exact (mem_spec True)|now exists tok_alice|]. eapply at_try; [exact (mem_spec True)|now exists tok_bob|]. apply at_nil.
Qed.

(** C10: an Encrypt that has written the object but not the access list leaves such an id. *)
Example C10_case : exists oid n,
  let w := snd (run_n n (d1_aes demo_env Mem demo_idp demo_d1 (CEncrypt tok_alice demo_obj [staff])) demo_w) in
  v_map mem_view (w_io w) oid DataTypeSealedObject <> None /\ v_map mem_view (w_io w) oid DataTypeSealedAccess = None.
Proof. exists (match draw demo_env 0 16 with Ok b => uuid_v4 b | _ => [] end), 9%nat. vm_compute. split; [discriminate|reflexivity]. Qed.

Print Assumptions C01_roundtrip.
Print Assumptions C02_object_map.
Print Assumptions C02_replies_determined.
Print Assumptions C03_access_exact.
Print Assumptions C04_refused_unchanged.
Print Assumptions C04_refused_no_io.
Print Assumptions C05_revocation.
Print Assumptions C06_locked.
Print Assumptions C07_isolation.
Print Assumptions C07_histories.
Print Assumptions C08_collision.
Print Assumptions C08_never_overwrites.
Print Assumptions C09_delete_retry.
Print Assumptions C09_reads_between.
Print Assumptions C09_delete_deleted.
Print Assumptions C10_encrypt_cut.
Print Assumptions C10_orphan_unreachable.
Print Assumptions C12_update_reads.
Print Assumptions C12_access_unchanged.
Print Assumptions C12_update_repairs.
