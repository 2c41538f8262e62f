(** C72.  Histories in which any call may die at any point and storage may fail at any operation.  The
    specification is CrashSpec.v; the words used for what a call was asked to do are in CrashFacts.v. *)
From stdpp Require Import gmap.
From Verif Require Import Bytes Go Uuid Types World Io IoSpec IoProofs Id D1 D1Proofs Spec History Claims
  CrashSpec CrashProofs CrashFacts Demo P_UpdateCrash.
Local Open Scope N_scope.

Section C72.
  Context {S I : Type} (e : env) (v : view S).
  Notation W := (world S I).
  Context (idp : bytes -> prog W (res identity)) (Hidp : idp_reads v idp) (d : d1).
  Notation runs := (x_run e v idp d).

  (** From a store without objects, whatever is answered and whatever dies, and however storage fails, the
      replies are those of the shelf of CrashSpec.v and what dies has one of the effects listed there. *)
  Theorem C72_history : forall w hs w', fresh v all_ids w -> runs w hs w' -> Forall hap_ok hs ->
    exists s, x_history shelf_empty hs s.
  Proof.
    intros w hs w' HF HR Hok. destruct (run_shelved e v idp Hidp d w hs w' HR shelf_empty (proj1 HF) (shelved_empty v d w HF) Hok) as (s & H & _).
    eauto.
  Qed.
  (** Decrypt only returns what somebody who may make such calls asked to have stored under that id, in a
      call that was answered or in one that died. *)
  Theorem C72_reads_written : forall w hs1 odd ev hs2 w' tok oid o,
    fresh v all_ids w -> runs w (hs1 ++ Answered odd ev :: hs2) w' -> Forall hap_ok (hs1 ++ Answered odd ev :: hs2) ->
    ev_call ev = CDecrypt tok oid -> ev_reply ev = Ok (RObject o) -> Exists (writes oid o) hs1 \/ odd.
  Proof.
    intros w hs1 odd ev hs2 w' tok oid o HF HR Hok. destruct (C72_history w _ w' HF HR Hok) as (s & H). exact (reads_written _ _ _ _ _ _ _ _ H).
  Qed.
  (** Revocation survives: all ids of a caller were removed from the access list of [oid], and no call since,
      answered or not, named one of them.  Then whatever else died or failed, a call of that caller on [oid] is not
      served (a Delete may find nothing to delete), and it has no effect: the history without it ends in the same state. *)
  Theorem C72_revoked : forall w hs1 odd rem hs2 h hs3 w' tok oid G i,
    fresh v all_ids w -> runs w (hs1 ++ Answered odd rem :: hs2 ++ h :: hs3) w' ->
    Forall hap_ok (hs1 ++ Answered odd rem :: hs2 ++ h :: hs3) ->
    ev_call rem = CRemoveGroups tok oid G -> ev_reply rem = Ok RUnit ->
    call_oid (hap_call h) = Some oid -> o_who (hap_outside h) = Ok i ->
    (forall x, has_id i x -> In x G /\ Forall (fun h => ~ names oid x h) hs2) ->
    (exists s, x_history shelf_empty (hs1 ++ Answered odd rem :: hs2 ++ h :: hs3) s /\ x_history shelf_empty (hs1 ++ Answered odd rem :: hs2 ++ hs3) s) /\
    (forall odd' ev, h = Answered odd' ev ->
      ev_reply ev = Err ED1NotAuthorized \/ ev_reply ev = Err ED1AccessNotFound \/ (exists y, ev_reply ev = Err y /\ fault y) \/
      (ev_reply ev = Ok RUnit /\ exists t, ev_call ev = CDelete t oid)).
  Proof.
    intros w hs1 odd rem hs2 h hs3 w' tok oid G i HF HR Hok Hc Hr Ho Hw HX. destruct (C72_history w _ w' HF HR Hok) as (s & H).
    destruct (revoked _ _ _ _ _ _ _ _ _ _ _ H Hc Hr Ho Hw HX) as [H1 H2]. eauto.
  Qed.
  (** What was stored stays: after an Encrypt or Update that succeeded, and as long as nobody asks for [oid] to be
      updated or deleted, Decrypt returns exactly that object, refuses the caller or reports a storage failure; and
      it does not refuse a caller entitled by Encrypt's list if nobody asked for that list to be cut down. *)
  Theorem C72_durable : forall w hs1 odd wr hs2 odd' rd hs3 w' tok oid o,
    fresh v all_ids w -> runs w (hs1 ++ Answered odd wr :: hs2 ++ Answered odd' rd :: hs3) w' ->
    Forall hap_ok (hs1 ++ Answered odd wr :: hs2 ++ Answered odd' rd :: hs3) ->
    wrote oid o wr -> Forall (fun h => ~ replaces oid h) hs2 -> ev_call rd = CDecrypt tok oid ->
    (ev_reply rd = Ok (RObject o) \/ refused (o_who (ev_outside rd)) (ev_reply rd) \/ exists y, ev_reply rd = Err y /\ fault y) /\
    (forall t gs i, ev_call wr = CEncrypt t o gs -> o_who (ev_outside wr) = Ok i -> Forall (fun h => ~ narrows oid h) hs2 ->
       allowed (o_who (ev_outside rd)) ScopeDecrypt (list_to_set (map as_text (i_id i :: gs))) ->
       ev_reply rd = Ok (RObject o) \/ exists y, ev_reply rd = Err y /\ fault y).
  Proof.
    intros w hs1 odd wr hs2 odd' rd hs3 w' tok oid o HF HR Hok. destruct (C72_history w _ w' HF HR Hok) as (s & H). exact (durable _ _ _ _ _ _ _ _ _ _ _ H).
  Qed.
End C72.
Print Assumptions C72_history.
Print Assumptions C72_reads_written.
Print Assumptions C72_revoked.
Print Assumptions C72_durable.

(** alice encrypts; alice's Update dies between its two writes; alice's Decrypt then fails: a run, and
    the history it stands for, in which the object is torn. *)
Example C72_case : exists oid hs w' s,
  fresh mem_view all_ids demo_w /\ x_run demo_env mem_view demo_idp demo_d1 demo_w hs w' /\ Forall hap_ok hs /\
  map hap_call hs = [CEncrypt tok_alice demo_obj [staff]; CUpdate tok_alice oid demo_obj2; CDecrypt tok_alice oid] /\
  (exists odd1 ev1 x c odd2 ev2 y, hs = [Answered odd1 ev1; Died x c; Answered odd2 ev2] /\ wrote oid demo_obj ev1 /\ ev_reply ev2 = Err y) /\
  x_history shelf_empty hs s.
Proof.
  destruct C11_update_atomic_refuted as (oid & w1 & n & x & E1 & _ & E2). cbn zeta in E2.
  assert (Hoid : uuid_wf oid).
  { destruct demo_encrypt as (oid' & w1' & E1' & Hoid & _). rewrite E1 in E1'. injection E1' as -> _. exact Hoid. }
  destruct (run_three demo_env mem_view demo_idp demo_d1 Mem demo_w _ _ w1 (CUpdate tok_alice oid demo_obj2) n (CDecrypt tok_alice oid) (Err x) (mem_spec True) E1 E2)
    as (odd1 & x1 & odd2 & x2 & w3 & HR).
  clear E1 E2. revert HR.
  generalize (outside_of demo_env demo_idp demo_w (CEncrypt tok_alice demo_obj [staff]) w1). intros x0 HR.
  assert (Hok : Forall hap_ok [Answered odd1 (mkEvent x0 (CEncrypt tok_alice demo_obj [staff]) (Ok (ROid oid))); Died x1 (CUpdate tok_alice oid demo_obj2);
    Answered odd2 (mkEvent x2 (CDecrypt tok_alice oid) (Err x))]).
  { repeat (constructor; [intros o; cbn [hap_call ev_call call_oid]; first [discriminate|intros [= <-]; exact Hoid]|]). constructor. }
  destruct (C72_history _ _ _ (demo_idp_reads mem_view) demo_d1 demo_w _ w3 (demo_fresh all_ids) HR Hok) as (s & Hs).
  eexists oid, _, w3, s. split; [apply demo_fresh|]. split; [exact HR|]. split; [exact Hok|]. split; [reflexivity|]. split; [|exact Hs].
  do 7 eexists. split; [reflexivity|]. split; [|reflexivity]. left. eexists _, _. split; reflexivity.
Qed.
