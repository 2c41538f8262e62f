(** Runs for C80: an identity, an object and a list that are returned while calls overlap. *)
From Coq Require Import ZifyN ZifyNat.
From stdpp Require Import gmap.
From Verif Require Import Bytes Go Uuid Time Types World Io IoSpec IoProofs Id Data D1 Spec SpecProofs D1ConcSpec D1Conc Demo Standalone StandaloneSpec SaConcSpec StandaloneDemo SaConcDemo
  Index IndexSpec IndexConcSpec IndexOwnSpec IndexDemo Lib LibSpec LibHist LibDemo LibHistDemo LibConcSpec LibTouch LibConcDemo LibConcUseSpec LibRevokeDemo LibRevokeCase LibReadSpec LibReadDemo LibReadCase LibOriginSpec.
Local Open Scope N_scope.

Lemma origin_facts : exists u1 u2 p1 p2 t1 t2 g x oid i pool' w', let tr := revoke_tr u1 u2 p1 p2 t1 t2 g x oid i in
  (cell_storage mem_view Mem /\ entrywise mem_view Mem /\ (forall n, time_wf (clock ov_env n)) /\ ix_new (Ok demo_ix_keys) = Ok (l_iek lib_demo)) /\
  demo_setting tr pool' w' /\
  (exists tra trb trc, tr = tra ++ LCall (OnIdentity (SGetIdentity t1)) :: trb ++ trc /\ In (LReply (length (lib_calls tra)) (LIdentity (Ok (SRIdentity i)))) trb /\ i_groups i !! g = Some ScopeAll) /\
  (exists tra trb trc, tr = tra ++ LCall (OnObject (CDecrypt t1 oid)) :: trb ++ trc /\ In (LReply (length (lib_calls tra)) (LObject (Ok (RObject demo_obj)))) trb) /\
  (exists tra trb trc, tr = tra ++ LCall (OnObject (CDecrypt t1 oid)) :: trb ++ trc /\ In (LReply (length (lib_calls tra)) (LObject (Err ED1NotAuthorized))) trb /\ ~ turned_away (LObject (Err ED1NotAuthorized))) /\
  exists tra trb trc, tr = tra ++ LCall (OnObject (CGetAccessGroups t1 oid)) :: trb ++ trc /\ In (LReply (length (lib_calls tra)) (LObject (Ok (RGroups (Some {[u2; g; x]}))))) trb /\ x ∈ ({[u2; g; x]} : gset bytes).
Proof.
  destruct revoke_case as (u1 & u2 & p1 & p2 & t1 & t2 & g & x & oid & i & pool' & w' & H & St & _ & _ & _ & _ & _ & I1 & I2 & I3). exists u1, u2, p1, p2, t1, t2, g, x, oid, i, pool', w'. cbn zeta in *.
  split; [exact ground|]. split; [exact H|]. set (st := revoke_start u1 u2 p1 p2 t1 t2 g oid i). split; [|split; [|split]].
  - exists (firstn 16 st), [LReply 8 (LIdentity (Ok (SRIdentity i)))]. eexists. split; [reflexivity|]. split; [find_in|exact I3].
  - exists (firstn 18 st), [LReply 9 (LObject (Ok (RObject demo_obj)))]. eexists. split; [reflexivity|]. find_in.
  - exists (st ++ revoke_removed u1 u2 t1 t2 g x oid), [LReply 14 (LObject (Err ED1NotAuthorized))]. eexists. split; [reflexivity|]. split; [find_in|]. intros [=].
  - exists st. eexists. exists []. split; [rewrite app_nil_r; reflexivity|]. split; [find_in|]. clear. set_solver.
Qed.
