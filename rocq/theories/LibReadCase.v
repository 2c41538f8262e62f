(** The runs of LibReadDemo.v and LibRevokeDemo.v meet what C77 asks for. *)
From stdpp Require Import gmap.
From Verif Require Import Bytes Go Uuid Time Types World Io IoSpec IoProofs Id Data D1 Spec D1ConcSpec D1Conc Standalone StandaloneSpec SaConcSpec
  Index IndexSpec IndexConcSpec IndexOwnSpec Lib LibSpec LibHist LibConcSpec LibConcUseSpec LibReadSpec LibTouch
  Demo StandaloneDemo SaConcDemo IndexDemo LibDemo LibHistDemo LibConcDemo LibRevokeDemo LibRevokeCase LibReadDemo.
Local Open Scope N_scope.

Lemma ground : cell_storage mem_view Mem /\ entrywise mem_view Mem /\ (forall n, time_wf (clock ov_env n)) /\ ix_new (Ok demo_ix_keys) = Ok (l_iek lib_demo).
Proof. exact (conj D1Conc.mem_cells (conj mem_entrywise (conj ov_clock eq_refl))). Qed.

Lemma read_facts : exists u1 u2 p1 p2 t1 t2 g x oid i pool' w', let tr := revoke_tr u1 u2 p1 p2 t1 t2 g x oid i in
  (cell_storage mem_view Mem /\ entrywise mem_view Mem /\ (forall n, time_wf (clock ov_env n)) /\ ix_new (Ok demo_ix_keys) = Ok (l_iek lib_demo)) /\
  demo_setting tr pool' w' /\
  exists tra trb, tr = tra ++ LCall (OnObject (CDecrypt t1 oid)) :: trb /\ In (LReply (length (lib_calls tra)) (LObject (Ok (RObject demo_obj)))) trb /\ object_stored oid demo_obj tr tra.
Proof.
  destruct revoke_case as (u1 & u2 & p1 & p2 & t1 & t2 & g & x & oid & i & pool' & w' & H & _). exists u1, u2, p1, p2, t1, t2, g, x, oid, i, pool', w'. cbn zeta in *.
  split; [exact ground|]. split; [exact H|]. exists (firstn 18 (revoke_start u1 u2 p1 p2 t1 t2 g oid i)). eexists. split; [reflexivity|]. split; [find_in|].
  exists (firstn 12 (revoke_start u1 u2 p1 p2 t1 t2 g oid i)), (OnObject (CEncrypt t2 demo_obj [g])), (LObject (Ok (ROid oid))).
  split; [eexists; split; [reflexivity|find_in]|]. split; [split; reflexivity|].
  intros m c Hm _ Hk. do 17 (destruct m as [|m]; cbn [nth_error revoke_tr revoke_start revoke_removed revoke_deleted revoke_end app lib_calls] in Hm; [injection Hm as <-; solve [destruct Hk]|]).
  destruct m; discriminate Hm.
Qed.
Lemma gone_facts : exists u1 u2 p1 p2 t1 t2 oid pool' w', let tra := gone_before u1 u2 p1 p2 t1 t2 oid in let tr := gone_tr u1 u2 p1 p2 t1 t2 oid in
  (cell_storage mem_view Mem /\ entrywise mem_view Mem /\ (forall n, time_wf (clock ov_env n)) /\ ix_new (Ok demo_ix_keys) = Ok (l_iek lib_demo)) /\
  demo_setting tr pool' w' /\
  exists trb, tr = tra ++ LCall (OnObject (CDecrypt t2 oid)) :: trb /\ In (LReply (length (lib_calls tra)) (LObject (Err ED1AccessNotFound))) trb /\ object_deleted oid tr tra.
Proof.
  destruct gone_case as (u1 & u2 & p1 & p2 & t1 & t2 & oid & pool' & w' & H). exists u1, u2, p1, p2, t1, t2, oid, pool', w'. cbn zeta.
  split; [exact ground|]. split; [exact H|]. eexists. split; [reflexivity|]. split; [find_in|]. exists (firstn 10 (gone_before u1 u2 p1 p2 t1 t2 oid)), t2. split; [eexists; split; [reflexivity|find_in]|].
  intros m c Hm Hk. do 7 (destruct m as [|m]; cbn [nth_error gone_tr gone_before app lib_calls] in Hm; [injection Hm as <-; first [solve [destruct Hk]|eexists; left; find_in]|]).
  destruct m; discriminate Hm.
Qed.
Lemma search_facts : exists u1 u2 p1 p2 t1 t2 oid pool' w', let tra := search_before u1 u2 p1 p2 t1 t2 in let tr := search_tr u1 u2 p1 p2 t1 t2 oid in
  (cell_storage mem_view Mem /\ entrywise mem_view Mem /\ (forall n, time_wf (clock ov_env n)) /\ ix_new (Ok demo_ix_keys) = Ok (l_iek lib_demo)) /\
  demo_setting tr pool' w' /\
  exists trb, tr = tra ++ LCall (OnIndex (ISearch t1 dog)) :: trb /\ In (LReply (length (lib_calls tra)) (LIndex (Ok (IRIds [id1])))) trb /\
    ~ seen_botched tra dog /\ seen_listing tra dog = [id1].
Proof.
  destruct search_case as (u1 & u2 & p1 & p2 & t1 & t2 & oid & pool' & w' & H). exists u1, u2, p1, p2, t1, t2, oid, pool', w'. cbn zeta.
  split; [exact ground|]. split; [exact H|]. eexists. split; [reflexivity|]. split; [find_in|]. split; [|reflexivity].
  intros (n & tok & y & Hn & _). do 6 (destruct n as [|n]; [discriminate Hn|]). destruct n; discriminate Hn.
Qed.
