(** A run for C78: a user is taken off an access list and refused from then on. *)
From Coq Require Import ZifyN ZifyNat.
From stdpp Require Import gmap.
From Verif Require Import Bytes Go Json JsonProofs Uuid UuidProofs Time Types World Logic Cryptor Io IoSpec IoProofs Id Data D1 D1Proofs D1Props Spec D1Refine D1ConcSpec D1Conc Demo
  Standalone StandaloneSpec SaConcSpec StandaloneRefine StandaloneHist StandaloneDemo SaConcDemo IdAuthority History Sched Authority
  Index IndexSpec IndexConcSpec IndexOwnSpec IndexProofs IndexRefine IndexHist IndexDemo Foot Lib LibSpec LibHist LibCor LibDemo LibHonest LibHistDemo LibConcSpec LibTouch LibConcDemo LibConcUseSpec LibConcUse LibSeq LibRevokeDemo LibRevokeCase SpecProofs LibReadSpec LibReadDemo LibReadCase LibListSpec.
Local Open Scope bool_scope.
Local Open Scope N_scope.

Definition off_start (u1 u2 p1 p2 t1 t2 : bytes) (oid : uuid) : list lib_obs :=
  [LCall (OnIdentity (SNewUser [ScopeAll])); LReply 0 (LIdentity (Ok (SRUser u1 p1)));
   LCall (OnIdentity (SLogin u1 p1)); LReply 1 (LIdentity (Ok (SRToken t1 (time_unix T1))));
   LCall (OnIdentity (SNewUser [ScopeAll])); LReply 2 (LIdentity (Ok (SRUser u2 p2)));
   LCall (OnIdentity (SLogin u2 p2)); LReply 3 (LIdentity (Ok (SRToken t2 (time_unix T1))));
   LCall (OnObject (CEncrypt t2 demo_obj [u1])); LReply 4 (LObject (Ok (ROid oid)));
   LCall (OnObject (CRemoveGroups t2 oid [u1])); LReply 5 (LObject (Ok RUnit))].
Definition off_seen (u2 t2 : bytes) (oid : uuid) : list lib_obs := [LCall (OnObject (CGetAccessGroups t2 oid)); LReply 6 (LObject (Ok (RGroups (Some {[u2]}))))].
Definition off_tr (u1 u2 p1 p2 t1 t2 : bytes) (oid : uuid) : list lib_obs :=
  off_start u1 u2 p1 p2 t1 t2 oid ++ off_seen u2 t2 oid ++ [LCall (OnObject (CDecrypt t1 oid)); LReply 7 (LObject (Err ED1NotAuthorized))].
Lemma off_run : exists u1 u2 p1 p2 t1 t2 oid pool' (w' : DW), lib_conc ov_env mem_view Mem lib_demo 9 [] demo_w (off_tr u1 u2 p1 p2 t1 t2 oid) pool' w' /\
  (w_draws w' <= 256)%nat /\ same_token t1 t1 /\ same_token t2 t2 /\ uuid_wf oid /\ u1 <> u2.
Proof.
  destruct lib_two as (x1 & x2 & x3 & x4 & u1 & u2 & p1 & p2 & t1 & t2 & s & w & a1 & a2 & b0 & R & C2 & C4 & Hb0 & Eu1 & Tu2 & N12 & Dr & Y1 & Y2 & A1 & A2 & G1 & G2 & Z1 & Z2 & Gr & Ob).
  assert (Tu1 : as_text u1 = u1) by (rewrite Eu1; apply text_of).
  set (evs := [_; _; _; _] : list lib_event) in *.
  assert (K1 : token_of u1 t1 evs) by exact (token_later _ _ _ [_; _] (login_token x2 u1 p1 t1 (time_unix T1) [_] _ Y1)).
  assert (K2 : token_of u2 t2 evs) by exact (login_token x4 u2 p2 t2 (time_unix T1) [_; _; _] _ Y2).
  pose proof (fun l => token_later _ _ _ l K1) as L1. pose proof (fun l => token_later _ _ _ l K2) as L2.
  assert (V1 : forall g, g ∈ ac_groups a1 -> is_Some (d_groups (ls_dir s) !! g)) by (rewrite G1; intros g Hg; now apply elem_of_empty in Hg).
  assert (V2 : forall g, g ∈ ac_groups a2 -> is_Some (d_groups (ls_dir s) !! g)) by (rewrite G2; intros g Hg; now apply elem_of_empty in Hg).
  pose proof (lreach_unique _ _ _ R) as U.
  destruct (lreach_obj _ _ _ (CEncrypt t2 demo_obj [u1]) R ltac:(discriminate) ltac:(intros tok [= <-]; eauto) ltac:(discriminate)) as (r4 & w4 & s4 & who4 & R4 & W4 & S4 & D4). cbn zeta in *.
  destruct (caller_is _ _ _ _ _ _ _ U Y2 A2 V2 W4) as (i4 & (I1 & I2 & _) & ->). rewrite Z2 in I2. rewrite Ob in S4.
  destruct (ov_id w w4) as (bo & Xo & Yo). cbn [spec_step o_who o_rng_fails o_id with_scope] in S4. rewrite Xo in S4. cbn [res_map] in S4.
  destruct S4 as [(N & _)|(_ & [(X & _)|(oid & Eo & S4)])]; [destruct (N (may_all _ ScopeEncrypt I2 eq_refl))|destruct (ov_rng _ X)|]. assert (Eo' : uuid_v4 bo = oid) by congruence. clear Eo. rewrite lookup_empty in S4. destruct S4 as [-> O4].
  assert (Wo : uuid_wf oid) by (rewrite <- Eo'; apply uuid_v4_wf; rewrite (ov_len _ _ _ Yo); reflexivity).
  assert (AC : list_to_set (map as_text [i_id i4; u1]) = ({[u2; u1]} : gset bytes)) by (cbn [map]; rewrite I1, Tu2, Tu1; cbn; clear; set_solver). rewrite AC in O4.
  destruct (lreach_obj _ _ _ (CRemoveGroups t2 oid [u1]) R4 ltac:(intros o [= <-]; exact Wo) ltac:(intros tok [= <-]; eauto) ltac:(discriminate)) as (r5 & w5 & s5 & who5 & R5 & W5 & S5 & D5). cbn zeta in *.
  rewrite <- app_assoc in R5. cbn [app] in R5. rewrite D4 in W5, D5. destruct (caller_is _ _ _ _ _ _ _ U Y2 A2 V2 W5) as (i5 & (J1 & J2 & _) & ->). rewrite Z2 in J2. rewrite O4 in S5.
  cbn [spec_step o_who o_rng_fails o_id] in S5. unfold with_access, with_scope, or_random in S5. rewrite lookup_insert in S5.
  destruct S5 as [(N & _)|(_ & [(N & _)|(_ & [(N & _)|(-> & O5)])])]; [destruct (N (may_all _ ScopeModifyAccessGroups J2 eq_refl))| |destruct (ov_rng _ N)|].
  { destruct N. left. split; [rewrite J1; clear; set_solver|now apply may_all]. }
  assert (AD : ({[u2; u1]} ∖ list_to_set [u1] : gset bytes) = {[u2]}) by (clear -N12; set_solver). rewrite AD, insert_insert in O5.
  destruct (lreach_obj _ _ _ (CGetAccessGroups t2 oid) R5 ltac:(intros o [= <-]; exact Wo) ltac:(intros tok [= <-]; eauto) ltac:(discriminate)) as (r6 & w6 & s6 & who6 & R6 & W6 & S6 & D6). cbn zeta in *.
  rewrite <- app_assoc in R6. cbn [app] in R6. rewrite D5 in W6, D6. destruct (caller_is _ _ _ _ _ _ _ U Y2 A2 V2 W6) as (i6 & (Q1 & Q2 & _) & ->). rewrite Z2 in Q2. rewrite O5 in S6.
  cbn [spec_step o_who o_rng_fails o_id] in S6. unfold with_access, with_scope in S6. rewrite lookup_insert in S6.
  destruct S6 as [(N & _)|(_ & [(N & _)|(_ & -> & O6)])]; [destruct (N (may_all _ ScopeGetAccessGroups Q2 eq_refl))| |].
  { destruct N. left. split; [rewrite Q1; clear; set_solver|now apply may_all]. }
  destruct (lreach_obj _ _ _ (CDecrypt t1 oid) R6 ltac:(intros o [= <-]; exact Wo) ltac:(intros tok [= <-]; eauto) ltac:(discriminate)) as (r7 & w7 & s7 & who7 & R7 & W7 & S7 & D7). cbn zeta in *.
  rewrite <- app_assoc in R7. cbn [app] in R7. rewrite D6 in W7. destruct (caller_is _ _ _ _ _ _ _ U Y1 A1 V1 W7) as (i7 & (P1 & P2 & _ & P4) & ->). rewrite Z1 in P2. rewrite O6 in S7.
  cbn [spec_step o_who o_rng_fails o_id] in S7. unfold with_access, with_scope in S7. rewrite lookup_insert in S7.
  destruct S7 as [(N & _)|(_ & [(_ & -> & _)|(N & _)])]; [destruct (N (may_all _ ScopeDecrypt P2 eq_refl))| |].
  2:{ exfalso. destruct N as [[N _]|(g & sc & Hg & _)]; [rewrite P1 in N; clear -N N12; set_solver|]. apply P4 in Hg as [Hg _]. rewrite G1 in Hg. now apply elem_of_empty in Hg. }
  pose proof R7 as (_ & _ & _ & PL). pose proof (plain_conc _ _ PL) as PC.
  pose proof (plain_draws _ _ PL ltac:(intros ev Hin; repeat (destruct Hin as [<-|Hin]; [exact Logic.I|]); destruct Hin)) as PD.
  exists u1, u2, p1, p2, t1, t2, oid. do 2 eexists. split; [exact PC|]. split; [unfold evs in PD; cbn [length app] in PD; lia|].
  split; [destruct Y1 as (z & _ & (y & _ & Et) & _); exists y; auto|]. split; [destruct Y2 as (z & _ & (y & _ & Et) & _); exists y; auto|auto].
Qed.
Ltac off_calls E := cbn [off_tr off_start off_seen id_part flat_map app id_call call_token ix_token before_calls lib_before map fst snd In] in E.
Lemma off_orderly u1 u2 p1 p2 t1 t2 oid : lib_orderly (off_tr u1 u2 p1 p2 t1 t2 oid).
Proof.
  split.
  - intros tr1 c tr2 E n c' Hn Ho. apply before_calls_in in E. off_calls E.
    repeat (destruct E as [E|E]; [injection E as <- <-; cbn [id_calls] in Hn; repeat (destruct n as [|n]; cbn [nth_error] in Hn; [injection Hn as <-; first [destruct (lookup_no_odds _ _ _ Ho)|eexists; find_in]|]); try discriminate Hn; destruct n; discriminate Hn|]). destruct E.
  - intros tr1 c tr2 E n c' Hn Ho. apply lib_before_in in E. off_calls E.
    repeat (destruct E as [E|E]; [injection E as <- <-; cbn [lib_calls] in Hn; repeat (destruct n as [|n]; cbn [nth_error] in Hn; [injection Hn as <-; eexists; find_in|]); try discriminate Hn; destruct n; discriminate Hn|]). destruct E.
Qed.
Lemma off_case : exists u1 u2 p1 p2 t1 t2 oid pool' w', demo_setting (off_tr u1 u2 p1 p2 t1 t2 oid) pool' w' /\ same_token t1 t1 /\ u1 <> u2.
Proof.
  destruct off_run as (u1 & u2 & p1 & p2 & t1 & t2 & oid & pool' & w' & H & Hd & St1 & St2 & Wo & N12). exists u1, u2, p1, p2, t1, t2, oid, pool', w'. split; [|auto].
  split; [split; [exact Logic.I|]; intros id dt Hl; now apply (proj1 (proj2 demo_fresh))|]. split; [exact H|]. split; [split|].
  { intros c Hc. cbn in Hc. repeat (destruct Hc as [<-|Hc]; [first [exact Logic.I|exact all_lt]|]). destruct Hc. }
  { intros c o Hc Ho. cbn in Hc. repeat (destruct Hc as [Hc|Hc]; [first [discriminate Hc|injection Hc as <-; first [discriminate Ho|injection Ho as <-; exact Wo]]|]). destruct Hc. }
  split; [apply off_orderly|]. split; [apply ov_ids; exact Hd|]. split; [split|].
  { intros tr1 c tr2 j bb E _ _ Hnm. apply before_calls_in in E. off_calls E.
    repeat (destruct E as [E|E]; [injection E as <- <-; cbn [sa_names] in Hnm; first [discriminate Hnm|injection Hnm as <-; first [exists 0%nat; left; exists p1; find_in|exists 2%nat; left; exists p2; find_in]]|]). destruct E. }
  { intros tr1 c tr2 j b E _ _ Ho. apply lib_before_in in E. off_calls E.
    repeat (destruct E as [E|E]; [first [discriminate E|injection E as <- <-; first [discriminate Ho|injection Ho as <-; exists 4%nat; find_in]]|]). destruct E. }
  split; [|split; [reflexivity|]; split; [cbn; lia|intros a b c c' []]].
  intros tr1 c tr2 tk E Htk _. apply before_calls_in in E. off_calls E.
  repeat (destruct E as [E|E]; [injection E as <- <-; cbn [sa_token] in Htk; first [discriminate Htk|injection Htk as <-; first
    [exists u1, t1, 1%nat, p1, t1, (time_unix T1); split; [reflexivity|]; split; [reflexivity|]; split; [find_in|exact St1]
    |exists u2, t2, 3%nat, p2, t2, (time_unix T1); split; [reflexivity|]; split; [reflexivity|]; split; [find_in|exact St2]]]|]). destruct E.
Qed.

Lemma off_facts : exists u1 u2 p1 p2 t1 t2 oid pool' w', let start := off_start u1 u2 p1 p2 t1 t2 oid in let seen := start ++ off_seen u2 t2 oid in let tr := off_tr u1 u2 p1 p2 t1 t2 oid in
  (cell_storage mem_view Mem /\ entrywise mem_view Mem /\ (forall n, time_wf (clock ov_env n)) /\ ix_new (Ok demo_ix_keys) = Ok (l_iek lib_demo)) /\
  demo_setting tr pool' w' /\
  (exists trb, tr = start ++ LCall (OnObject (CGetAccessGroups t2 oid)) :: trb /\ In (LReply (length (lib_calls start)) (LObject (Ok (RGroups (Some {[u2]}))))) trb /\ group_off oid u1 (length (lib_calls start)) tr start) /\
  exists trb, tr = seen ++ LCall (OnObject (CDecrypt t1 oid)) :: trb /\ In (LReply (length (lib_calls seen)) (LObject (Err ED1NotAuthorized))) trb /\ logged_in u1 t1 seen /\
    group_off oid u1 (length (lib_calls seen)) tr seen /\ forall g, group_off oid g (length (lib_calls seen)) tr seen \/ user_not_in u1 g tr seen.
Proof.
  destruct off_case as (u1 & u2 & p1 & p2 & t1 & t2 & oid & pool' & w' & H & St & N12). exists u1, u2, p1, p2, t1, t2, oid, pool', w'. cbn zeta.
  assert (Ov : forall n g k, (10 <= k <= 14)%nat -> over n (off_tr u1 u2 p1 p2 t1 t2 oid) (firstn k (off_tr u1 u2 p1 p2 t1 t2 oid)) (may_put oid g) (not_put oid)).
  { intros n g k Hk m c Hm _ Hp. do 8 (destruct m as [|m]; cbn [nth_error off_tr off_start off_seen app lib_calls] in Hm;
      [injection Hm as <-; first [solve [destruct Hp]|eexists; left; do 10 (destruct k as [|k]; [lia|]); find_in]|]). destruct m; discriminate Hm. }
  split; [exact ground|]. split; [exact H|]. split.
  - eexists. split; [reflexivity|]. split; [find_in|]. exists (firstn 10 (off_tr u1 u2 p1 p2 t1 t2 oid)), (OnObject (CRemoveGroups t2 oid [u1])), (LObject (Ok RUnit)).
    split; [eexists; split; [reflexivity|find_in]|]. split; [split; [reflexivity|now left]|]. apply Ov. lia.
  - eexists. split; [reflexivity|]. split; [find_in|]. split; [exists 1%nat, p1, t1, (time_unix T1); (split; [reflexivity|]; split; [find_in|exact St])|]. split.
    + exists (firstn 10 (off_tr u1 u2 p1 p2 t1 t2 oid)), (OnObject (CRemoveGroups t2 oid [u1])), (LObject (Ok RUnit)).
      split; [eexists; split; [reflexivity|find_in]|]. split; [split; [reflexivity|now left]|]. apply Ov. lia.
    + intros g. destruct (decide (g = u2)) as [->|Ng].
      * right. right. intros m c Hm Hp. do 8 (destruct m as [|m]; cbn [nth_error off_tr off_start off_seen app lib_calls] in Hm; [injection Hm as <-; solve [destruct Hp]|]). destruct m; discriminate Hm.
      * left. exists (firstn 12 (off_tr u1 u2 p1 p2 t1 t2 oid)), (OnObject (CGetAccessGroups t2 oid)), (LObject (Ok (RGroups (Some {[u2]})))).
        split; [eexists; split; [reflexivity|find_in]|]. split; [split; [reflexivity|clear -Ng; set_solver]|]. apply Ov. lia.
Qed.
Lemma on_facts : exists u1 u2 p1 p2 t1 t2 g x oid i pool' w', let tr := revoke_tr u1 u2 p1 p2 t1 t2 g x oid i in
  (cell_storage mem_view Mem /\ entrywise mem_view Mem /\ (forall n, time_wf (clock ov_env n)) /\ ix_new (Ok demo_ix_keys) = Ok (l_iek lib_demo)) /\
  demo_setting tr pool' w' /\
  exists tra trb, tr = tra ++ LCall (OnObject (CGetAccessGroups t1 oid)) :: trb /\ In (LReply (length (lib_calls tra)) (LObject (Ok (RGroups (Some {[u2; g; x]}))))) trb /\ group_on oid g (length (lib_calls tra)) tr tra.
Proof.
  destruct revoke_case as (u1 & u2 & p1 & p2 & t1 & t2 & g & x & oid & i & pool' & w' & H & _). exists u1, u2, p1, p2, t1, t2, g, x, oid, i, pool', w'. cbn zeta in *.
  split; [exact ground|]. split; [exact H|]. exists (revoke_start u1 u2 p1 p2 t1 t2 g oid i). eexists. split; [reflexivity|]. split; [find_in|].
  exists (firstn 14 (revoke_start u1 u2 p1 p2 t1 t2 g oid i)), (OnObject (CGetAccessGroups t2 oid)), (LObject (Ok (RGroups (Some {[u2; g]})))).
  split; [eexists; split; [reflexivity|find_in]|]. split; [split; [reflexivity|clear; set_solver]|].
  intros m c Hm _ Hk. do 17 (destruct m as [|m]; cbn [nth_error revoke_tr revoke_start revoke_removed revoke_deleted revoke_end app lib_calls] in Hm; [injection Hm as <-; solve [destruct Hk]|]).
  destruct m; discriminate Hm.
Qed.
