(** Runs for C79: a password is changed; an object is shared with a group. *)
From Coq Require Import ZifyN ZifyNat.
From stdpp Require Import gmap.
From Verif Require Import Bytes Base64 Base64Proofs Go Json JsonProofs Uuid UuidProofs Time Types World Logic Cryptor Io IoSpec IoProofs Id Data D1 D1Proofs D1Props Spec D1Refine D1ConcSpec D1Conc Demo
  Standalone StandaloneSpec SaConcSpec StandaloneRefine StandaloneHist StandaloneDemo SaConcDemo IdAuthority History Sched Authority
  Index IndexSpec IndexConcSpec IndexOwnSpec IndexProofs IndexRefine IndexHist IndexDemo Foot Lib LibSpec LibHist LibCor LibDemo LibHonest LibHistDemo LibConcSpec LibTouch LibConcDemo LibConcUseSpec LibConcUse LibSeq LibRevokeDemo LibRevokeCase SpecProofs LibReadSpec LibReadDemo LibReadCase LibListSpec LibUserSpec.
Local Open Scope bool_scope.
Local Open Scope N_scope.

Definition pass_tr (u p u2 p2 p' t : bytes) : list lib_obs :=
  [LCall (OnIdentity (SNewUser [ScopeAll])); LReply 0 (LIdentity (Ok (SRUser u p)));
   LCall (OnIdentity (SNewUser [ScopeAll])); LReply 1 (LIdentity (Ok (SRUser u2 p2)));
   LCall (OnIdentity (SChangePassword u p)); LReply 2 (LIdentity (Ok (SRPassword p')));
   LCall (OnIdentity (SLogin u p')); LReply 3 (LIdentity (Ok (SRToken t (time_unix T1))));
   LCall (OnIdentity (SLogin u p)); LReply 4 (LIdentity (Err EIdNotAuthenticated))].
Lemma ov_raw i j n b b' : draw ov_env i n = Ok b -> draw ov_env j n = Ok b' -> (i < j < 255)%nat -> n <> 0 -> b <> b'.
Proof. intros H H' Hij Hn ->. pose proof (ov_byte _ _ _ _ _ H H' eq_refl Hn). lia. Qed.
Lemma pass_run : exists u p u2 p2 p' t pool' (w' : DW), lib_conc ov_env mem_view Mem lib_demo 9 [] demo_w (pass_tr u p u2 p2 p' t) pool' w' /\
  (w_draws w' <= 256)%nat /\ p <> p'.
Proof.
  destruct (lreach_id _ _ _ (SNewUser [ScopeAll]) lreach_start all_lt ltac:(discriminate)) as (r1 & w1 & s1 & R1 & S1 & O1 & E1). cbn zeta in *.
  pose proof (new_user_draws ov_env Mem lib_sa [ScopeAll] demo_w) as L1. rewrite <- E1 in L1. cbn [demo_w w_draws] in L1.
  cbn [sa_step x_rng_fails surr] in S1. destruct S1 as [(X & _)|(b & raw & salt & sc & Xb & Xr & Xs & A1 & S1)]; [destruct (ov_rng _ X)|]. cbn zeta in S1. cbn [ls_dir lib_empty d_users dir_empty] in S1. rewrite lookup_empty in S1. destruct S1 as [-> D1].
  apply all_is in A1 as ->. set (u := uuid_text (uuid_v4 b)) in *. set (p := b64url_encode raw) in *.
  assert (B1 : d_users (ls_dir s1) !! u = Some (mkAccount ScopeAll salt (p ++ salt) ∅)) by (rewrite D1; apply lookup_insert).
  destruct (lreach_id _ _ _ (SNewUser [ScopeAll]) R1 all_lt ltac:(discriminate)) as (r0 & w0 & s0 & R0 & S0 & O0 & E0). cbn zeta in *.
  pose proof (new_user_draws ov_env Mem lib_sa [ScopeAll] w1) as L0. rewrite <- E0 in L0.
  destruct (ov_id w1 w0) as (b2 & X3 & Y3). cbn [x_draw surr] in Xb. rewrite Nat.add_0_r in Xb. pose proof (ov_later w1 b2 b ltac:(lia) Xb Y3) as N12. fold u in N12.
  assert (B0 : d_users (ls_dir s1) !! uuid_text (uuid_v4 b2) = None) by (rewrite D1; cbn [d_users set_users]; rewrite lookup_insert_ne by exact N12; apply lookup_empty).
  destruct (new_ok _ _ _ _ _ b2 (ov_calm w1 w0) (ov_any _ _) X3 B0 S0) as (p2 & sc2 & salt0 & -> & A2 & D0). set (u2 := uuid_text (uuid_v4 b2)) in *.
  assert (B1' : d_users (ls_dir s0) !! u = Some (mkAccount ScopeAll salt (p ++ salt) ∅)) by (rewrite D0; cbn [d_users set_users]; rewrite lookup_insert_ne by congruence; exact B1).
  clear B1 B0 S0. rename B1' into B1.
  destruct (lreach_id _ _ _ (SChangePassword u p) R0 Logic.I ltac:(discriminate)) as (r2 & w2 & s2 & R2 & S2 & O2 & E2). cbn zeta in *.
  cbn [sa_step] in S2. rewrite B1 in S2. destruct S2 as [(N & _)|(_ & [(X & _)|(raw2 & salt2 & X1 & X2 & S2)])]; [destruct N; reflexivity|destruct (ov_rng _ X)|]. cbn zeta in S2. destruct S2 as [-> D2].
  set (p' := b64url_encode raw2) in *.
  assert (Np : p <> p').
  { intros Ep. apply b64url_inj in Ep. cbn [x_draw surr] in Xr, X1. destruct (decide (w_draws w0 < 255)%nat) as [Lt|Ge].
    - apply (ov_raw _ _ _ _ _ Xr X1 ltac:(cbn [demo_w w_draws]; lia) ltac:(discriminate)). exact Ep.
    - rewrite ov_draw in Xr, X1. injection Xr as <-. injection X1 as <-. injection Ep as Ep. revert Ep. replace (Nat.min (w_draws w0 + 0) 255) with 255%nat by lia. vm_compute. discriminate. }
  assert (B2 : d_users (ls_dir s2) !! u = Some (mkAccount ScopeAll salt2 (p' ++ salt2) ∅)) by (rewrite D2; apply lookup_insert).
  destruct (lreach_id _ _ _ (SLogin u p') R2 Logic.I ltac:(discriminate)) as (r3 & w3 & s3 & R3 & S3 & O3 & E3). cbn zeta in *.
  destruct (login_ok _ _ _ _ _ _ _ (ov_calm _ _) B2 eq_refl S3) as (t & -> & D3 & Z3). clear S3.
  destruct (lreach_id _ _ _ (SLogin u p) R3 Logic.I ltac:(discriminate)) as (r4 & w4 & s4 & R4 & S4 & O4 & E4). cbn zeta in *.
  cbn [sa_step] in S4. rewrite D3 in S4. cbn [d_users add_session] in S4. rewrite B2 in S4. destruct S4 as [(_ & -> & _)|(K & _)]; [|exfalso; unfold knows in K; cbn [x_hash surr pwhash ov_env ac_salt ac_hash] in K; exact (Np (app_inv_tail _ _ _ K))].
  pose proof R4 as (_ & _ & _ & PL). cbn [app] in PL. pose proof (plain_conc _ _ PL) as PC.
  pose proof (plain_draws _ _ PL ltac:(intros ev Hin; repeat (destruct Hin as [<-|Hin]; [exact Logic.I|]); destruct Hin)) as PD.
  exists u, p, u2, p2, p', t. do 2 eexists. split; [exact PC|]. split; [cbn [length app] in PD; lia|exact Np].
Qed.
Ltac pass_calls E := cbn [pass_tr id_part flat_map app id_call call_token ix_token before_calls lib_before map fst snd In] in E.
Lemma pass_orderly u p u2 p2 p' t : lib_orderly (pass_tr u p u2 p2 p' t).
Proof.
  split.
  - intros tr1 c tr2 E n c' Hn Ho. apply before_calls_in in E. pass_calls E.
    repeat (destruct E as [E|E]; [injection E as <- <-; cbn [id_calls] in Hn; repeat (destruct n as [|n]; cbn [nth_error] in Hn; [injection Hn as <-; first [destruct (lookup_no_odds _ _ _ Ho)|eexists; find_in]|]); try discriminate Hn; destruct n; discriminate Hn|]). destruct E.
  - intros tr1 c tr2 E n c' Hn Ho. apply lib_before_in in E. pass_calls E.
    repeat (destruct E as [E|E]; [injection E as <- <-; cbn [lib_calls] in Hn; repeat (destruct n as [|n]; cbn [nth_error] in Hn; [injection Hn as <-; eexists; find_in|]); try discriminate Hn; destruct n; discriminate Hn|]). destruct E.
Qed.
Lemma pass_case : exists u p u2 p2 p' t pool' w', demo_setting (pass_tr u p u2 p2 p' t) pool' w' /\ p <> p'.
Proof.
  destruct pass_run as (u & p & u2 & p2 & p' & t & pool' & w' & H & Hd & Np). exists u, p, u2, p2, p', t, pool', w'. split; [|auto].
  split; [split; [exact Logic.I|]; intros id dt Hl; now apply (proj1 (proj2 demo_fresh))|]. split; [exact H|]. split; [split|].
  { intros c Hc. cbn in Hc. repeat (destruct Hc as [<-|Hc]; [first [exact Logic.I|exact all_lt]|]). destruct Hc. }
  { intros c o Hc Ho. cbn in Hc. repeat (destruct Hc as [Hc|Hc]; [first [discriminate Hc|injection Hc as <-; first [discriminate Ho|injection Ho as <-; exact Logic.I]]|]). destruct Hc. }
  split; [apply pass_orderly|]. split; [apply ov_ids; exact Hd|]. split; [split|].
  { intros tr1 c tr2 j bb E _ _ Hnm. apply before_calls_in in E. pass_calls E.
    repeat (destruct E as [E|E]; [injection E as <- <-; cbn [sa_names] in Hnm; first [discriminate Hnm|injection Hnm as <-; first [exists 0%nat; left; exists p; find_in|exists 1%nat; left; exists p2; find_in]]|]). destruct E. }
  { intros tr1 c tr2 j b E _ _ Ho. apply lib_before_in in E. pass_calls E.
    repeat (destruct E as [E|E]; [first [discriminate E|injection E as <- <-; discriminate Ho]|]). destruct E. }
  split; [|split; [reflexivity|]; split; [cbn; lia|intros a b c c' []]].
  intros tr1 c tr2 tk E Htk _. apply before_calls_in in E. pass_calls E.
  repeat (destruct E as [E|E]; [injection E as <- <-; cbn [sa_token] in Htk; discriminate Htk|]). destruct E.
Qed.

Lemma pass_facts : exists u p u2 p2 p' t pool' w', let tr := pass_tr u p u2 p2 p' t in
  (cell_storage mem_view Mem /\ entrywise mem_view Mem /\ (forall n, time_wf (clock ov_env n)) /\ ix_new (Ok demo_ix_keys) = Ok (l_iek lib_demo)) /\
  demo_setting tr pool' w' /\ (forall i m, draw ov_env i m <> Err ERandom) /\ (forall m, time_text (time_add (clock ov_env m) 3600) <> None) /\ (forall salt, pwhash ov_env p salt <> pwhash ov_env p' salt) /\
  (exists tra trb trc, tr = tra ++ LCall (OnIdentity (SLogin u p')) :: trb ++ trc /\ In (LReply (length (lib_calls tra)) (LIdentity (Ok (SRToken t (time_unix T1))))) trb /\
    password_is u p' (length (lib_calls tra)) (tra ++ LCall (OnIdentity (SLogin u p')) :: trb) tra) /\
  exists tra trb trc, tr = tra ++ LCall (OnIdentity (SLogin u p)) :: trb ++ trc /\ In (LReply (length (lib_calls tra)) (LIdentity (Err EIdNotAuthenticated))) trb /\
    password_is u p' (length (lib_calls tra)) (tra ++ LCall (OnIdentity (SLogin u p)) :: trb) tra.
Proof.
  destruct pass_case as (u & p & u2 & p2 & p' & t & pool' & w' & H & Np). exists u, p, u2, p2, p', t, pool', w'. cbn zeta.
  split; [exact ground|]. split; [exact H|]. split; [intros i m; rewrite ov_draw; discriminate|]. split; [intros m; exact T1_text|]. split; [intros salt K; exact (Np (app_inv_tail _ _ _ K))|].
  split; [exists (firstn 6 (pass_tr u p u2 p2 p' t)), [LReply 3 (LIdentity (Ok (SRToken t (time_unix T1))))]|exists (firstn 8 (pass_tr u p u2 p2 p' t)), [LReply 4 (LIdentity (Err EIdNotAuthenticated))]];
    (eexists; split; [reflexivity|]; split; [find_in|]; exists (firstn 4 (pass_tr u p u2 p2 p' t)), (OnIdentity (SChangePassword u p)), (LIdentity (Ok (SRPassword p')));
     split; [eexists; split; [reflexivity|find_in]|]; split; [split; reflexivity|];
     intros m c Hm N1 N2 Hk; do 5 (destruct m as [|m]; cbn [nth_error pass_tr firstn app lib_calls] in Hm; [try discriminate Hm; injection Hm as <-; first [solve [destruct Hk]|destruct (N2 eq_refl)]|]); destruct m; discriminate Hm).
Qed.

Lemma shared_facts : exists u1 u2 p1 p2 t1 t2 g x oid i pool' w', let tr := revoke_tr u1 u2 p1 p2 t1 t2 g x oid i in
  (cell_storage mem_view Mem /\ entrywise mem_view Mem /\ (forall n, time_wf (clock ov_env n)) /\ ix_new (Ok demo_ix_keys) = Ok (l_iek lib_demo)) /\
  demo_setting tr pool' w' /\
  (exists tra trb trc, tr = tra ++ LCall (OnIdentity (SGetIdentity t1)) :: trb ++ trc /\ In (LReply (length (lib_calls tra)) (LIdentity (Ok (SRIdentity i)))) trb /\
    logged_in u1 t1 tra /\ member_of u1 g (length (lib_calls tra)) (tra ++ LCall (OnIdentity (SGetIdentity t1)) :: trb) tra) /\
  exists tra trb trc, let all := tra ++ LCall (OnObject (CDecrypt t1 oid)) :: trb in
    tr = tra ++ LCall (OnObject (CDecrypt t1 oid)) :: trb ++ trc /\ In (LReply (length (lib_calls tra)) (LObject (Ok (RObject demo_obj)))) trb /\ logged_in u1 t1 tra /\
    entitled u1 g ScopeDecrypt (length (lib_calls tra)) all tra /\ group_on oid g (length (lib_calls tra)) all tra /\ object_stored oid demo_obj all tra.
Proof.
  destruct revoke_case as (u1 & u2 & p1 & p2 & t1 & t2 & g & x & oid & i & pool' & w' & H & St & _ & _ & _ & _ & _ & I1 & I2 & I3). exists u1, u2, p1, p2, t1, t2, g, x, oid, i, pool', w'. cbn zeta in *.
  split; [exact ground|]. split; [exact H|]. set (st := revoke_start u1 u2 p1 p2 t1 t2 g oid i). split.
  - exists (firstn 16 st), [LReply 8 (LIdentity (Ok (SRIdentity i)))]. eexists. split; [reflexivity|]. split; [find_in|].
    split; [exists 1%nat, p1, t1, (time_unix T1); (split; [reflexivity|]; split; [find_in|exact St])|].
    exists (firstn 10 st), (OnIdentity (SAddUser t2 u1 [g])), (LIdentity (Ok SRUnit)). split; [eexists; split; [reflexivity|find_in]|]. split; [split; [reflexivity|now left]|].
    intros m c Hm _ _ Hk. do 9 (destruct m as [|m]; cbn [nth_error st revoke_start firstn app lib_calls] in Hm; [injection Hm as <-; solve [destruct Hk]|]). destruct m; discriminate Hm.
  - exists (firstn 18 st), [LReply 9 (LObject (Ok (RObject demo_obj)))]. eexists. split; [reflexivity|]. split; [find_in|].
    split; [exists 1%nat, p1, t1, (time_unix T1); (split; [reflexivity|]; split; [find_in|exact St])|]. split; [|split].
    + exists (firstn 16 st), t1, i, ScopeAll. split; [eexists; split; [reflexivity|find_in]|]. split; [exact I1|]. split; [apply may_all; [exact I2|reflexivity]|]. split; [exact I3|]. split; [now apply scope_contains_has|].
      intros m c Hm _ _ Hk. do 10 (destruct m as [|m]; cbn [nth_error st revoke_start firstn app lib_calls] in Hm; [injection Hm as <-; solve [destruct Hk]|]). destruct m; discriminate Hm.
    + exists (firstn 14 st), (OnObject (CGetAccessGroups t2 oid)), (LObject (Ok (RGroups (Some {[u2; g]})))). split; [eexists; split; [reflexivity|find_in]|]. split; [split; [reflexivity|clear; set_solver]|].
      intros m c Hm _ Hk. do 10 (destruct m as [|m]; cbn [nth_error st revoke_start firstn app lib_calls] in Hm; [injection Hm as <-; solve [destruct Hk]|]). destruct m; discriminate Hm.
    + exists (firstn 12 st), (OnObject (CEncrypt t2 demo_obj [g])), (LObject (Ok (ROid oid))). split; [eexists; split; [reflexivity|find_in]|]. split; [split; reflexivity|].
      intros m c Hm _ Hk. do 10 (destruct m as [|m]; cbn [nth_error st revoke_start firstn app lib_calls] in Hm; [injection Hm as <-; solve [destruct Hk]|]). destruct m; discriminate Hm.
Qed.
