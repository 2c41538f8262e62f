(** A user is taken out of a group and deleted while one of that user's calls is going on, for C75 and C76. *)
From Coq Require Import ZifyN ZifyNat.
From stdpp Require Import gmap.
From Verif Require Import Bytes Go Json JsonProofs Uuid UuidProofs Time Types World Logic Cryptor Io IoSpec IoProofs Id Data D1 D1Proofs D1Props Spec D1Refine D1ConcSpec D1Conc Demo
  Standalone StandaloneSpec SaConcSpec StandaloneRefine StandaloneHist StandaloneDemo SaConcDemo IdAuthority History Sched Authority
  Index IndexSpec IndexConcSpec IndexOwnSpec IndexProofs IndexRefine IndexHist IndexDemo Foot Lib LibSpec LibHist LibCor LibDemo LibHonest LibHistDemo LibConcSpec LibTouch LibConcDemo LibConcUseSpec LibSeq SpecProofs.
Local Open Scope bool_scope.
Local Open Scope N_scope.

Lemma plain_conc evs w : lplain evs w -> lib_conc ov_env mem_view Mem lib_demo 9 [] demo_w (seq_obs 0 evs) (map (fun ev => Ret (lv_reply ev)) evs) w.
Proof.
  intros H. induction H as [|evs w x c r w' H IH Hn Hr]; [constructor|]. rewrite seq_obs_snoc, map_app. eapply conc_on; [exact IH|]. cbn [lv_call lv_reply map].
  apply lc_call. eapply (lib_runs _ _ _ _ _ (fun q => q)) with (t := length evs); [reflexivity|exact Hr| |].
  - rewrite lookup_app_r by now rewrite map_length. now rewrite map_length, Nat.sub_diag.
  - rewrite insert_app_r_alt by now rewrite map_length. rewrite map_length, Nat.sub_diag. cbn [insert list_insert]. apply lc_reply; [|constructor].
    rewrite lookup_app_r by now rewrite map_length. now rewrite map_length, Nat.sub_diag.
Qed.
Lemma plain_draws evs w : lplain evs w -> (forall ev, In ev evs -> draws_little (lv_call ev)) -> (w_draws w <= 8 * length evs)%nat.
Proof.
  intros H. induction H as [|evs w x c r w' H IH Hn Hr]; intros Hl; [cbn; lia|]. specialize (IH ltac:(intros; apply Hl, in_or_app; now left)). rewrite app_length. cbn [length].
  specialize (Hl _ ltac:(apply in_or_app; right; left; reflexivity)). cbn [lv_call] in Hl.
  assert (W : within 8 (lib_do ov_env Mem lib_demo 9 c : prog DW _)).
  { destruct c as [c|c|c]; [|destruct (Hn _ eq_refl)|]; cbn [lib_do]; (apply (within_bind _ _ 8 0); [|intros; exact Logic.I]).
    - apply within_d1; [intros t; apply within_identity|intros t ->; exact Hl..].
    - apply within_call. }
  pose proof (run_within _ _ _ _ 8 Hr W). lia.
Qed.

(** ** The observations *)
(** User 2 shares an object with a group that user 1 is in.  User 1 asks for the access list and has the token
    looked up; user 1 is taken out of the group; user 2 adds [x] to the list and looks at it; user 1 may not
    decrypt any more; user 1 is deleted and not even known any more; and then the question for the list is
    answered: with the list as it is now. *)
Definition revoke_start (u1 u2 p1 p2 t1 t2 g : bytes) (oid : uuid) (i : identity) : list lib_obs :=
  [LCall (OnIdentity (SNewUser [ScopeAll])); LReply 0 (LIdentity (Ok (SRUser u1 p1)));
   LCall (OnIdentity (SLogin u1 p1)); LReply 1 (LIdentity (Ok (SRToken t1 (time_unix T1))));
   LCall (OnIdentity (SNewUser [ScopeAll])); LReply 2 (LIdentity (Ok (SRUser u2 p2)));
   LCall (OnIdentity (SLogin u2 p2)); LReply 3 (LIdentity (Ok (SRToken t2 (time_unix T1))));
   LCall (OnIdentity (SNewGroup t2 [ScopeAll])); LReply 4 (LIdentity (Ok (SRGroup g)));
   LCall (OnIdentity (SAddUser t2 u1 [g])); LReply 5 (LIdentity (Ok SRUnit));
   LCall (OnObject (CEncrypt t2 demo_obj [g])); LReply 6 (LObject (Ok (ROid oid)));
   LCall (OnObject (CGetAccessGroups t2 oid)); LReply 7 (LObject (Ok (RGroups (Some {[u2; g]}))));
   LCall (OnIdentity (SGetIdentity t1)); LReply 8 (LIdentity (Ok (SRIdentity i)));
   LCall (OnObject (CDecrypt t1 oid)); LReply 9 (LObject (Ok (RObject demo_obj)))].
Definition revoke_removed (u1 u2 t1 t2 g x : bytes) (oid : uuid) : list lib_obs :=
  [LCall (OnObject (CGetAccessGroups t1 oid));
   LCall (OnIdentity (SRemoveUser t2 u1 [g])); LReply 11 (LIdentity (Ok SRUnit));
   LCall (OnObject (CAddGroups t2 oid [x])); LReply 12 (LObject (Ok RUnit));
   LCall (OnObject (CGetAccessGroups t2 oid)); LReply 13 (LObject (Ok (RGroups (Some {[u2; g; x]}))))].
Definition revoke_deleted (u1 t1 t2 : bytes) (oid : uuid) : list lib_obs :=
  [LCall (OnObject (CDecrypt t1 oid)); LReply 14 (LObject (Err ED1NotAuthorized));
   LCall (OnIdentity (SDeleteUser t2 u1)); LReply 15 (LIdentity (Ok SRUnit))].
Definition revoke_end (u2 t1 g x : bytes) (oid : uuid) : list lib_obs :=
  [LCall (OnObject (CDecrypt t1 oid)); LReply 16 (LObject (Err ED1NotAuthenticated));
   LReply 10 (LObject (Ok (RGroups (Some {[u2; g; x]}))))].
Definition revoke_tr (u1 u2 p1 p2 t1 t2 g x : bytes) (oid : uuid) (i : identity) : list lib_obs :=
  revoke_start u1 u2 p1 p2 t1 t2 g oid i ++ revoke_removed u1 u2 t1 t2 g x oid ++ revoke_deleted u1 t1 t2 oid ++ revoke_end u2 t1 g x oid.

Lemma another (a b c : bytes) : exists x : bytes, as_text x = x /\ x <> a /\ x <> b /\ x <> c.
Proof.
  assert (H : exists x : bytes, In x [[Byte.x61]; [Byte.x62]; [Byte.x63]; [Byte.x64]] /\ ~ In x [a; b; c]).
  { destruct (decide (Forall (fun x => In x [a; b; c]) [[Byte.x61]; [Byte.x62]; [Byte.x63]; [Byte.x64]])) as [F|F].
    - exfalso. assert (L : (4 <= 3)%nat).
      { apply (List.NoDup_incl_length (l := [[Byte.x61]; [Byte.x62]; [Byte.x63]; [Byte.x64]]) (l' := [a; b; c])).
        - repeat (apply List.NoDup_cons; [intros K; cbn [In] in K; repeat (destruct K as [K|K]; [discriminate K|]); exact K|]). apply List.NoDup_nil.
        - intros x Hx. rewrite Forall_forall in F. exact (F x Hx). }
      lia.
    - apply not_Forall_Exists in F; [|intros x; apply (in_dec (fun x y => decide (x = y)))]. apply Exists_exists in F as (x & Hx & Hn). exists x. split; [first [exact Hx|now apply elem_of_list_In]|exact Hn]. }
  destruct H as (x & Hx & Hn). exists x. split; [|split; [|split]]; [|intros ->; apply Hn; cbn; tauto..].
  destruct Hx as [<-|[<-|[<-|[<-|[]]]]]; reflexivity.
Qed.

(** The list, once the token has been looked up. *)
Lemma list_rest t oid evs s w i o acl : lreach evs s w -> uuid_wf oid -> ls_objects s !! oid = Some (o, acl) -> scope_has (i_scopes i) ScopeGetAccessGroups -> on_list i ScopeGetAccessGroups acl ->
  exists w', run (obj_from ov_env Mem lib_demo (CGetAccessGroups t oid) (Ret (Ok i))) (w : DW) = (LObject (Ok (RGroups (Some acl))), w').
Proof.
  intros (_ & ((pre & f & (HW & HR & HS & HC) & HH) & _) & _) Wo Ho Hs Hl. unfold obj_from. rewrite run_map.
  destruct (run (d1_aes ov_env Mem (fun _ => Ret (Ok i)) (l_d1 lib_demo) (CGetAccessGroups t oid)) w) as [r w'] eqn:E. cbn [fst snd].
  destruct (spec_sim ov_env mem_view Mem (mem_spec False) (fun _ => Ret (Ok i)) (fun _ _ _ H => conj H Logic.I) (l_d1 lib_demo) all_ids w _ r w' (ls_objects s) E Logic.I HR
    ltac:(intros o' [= <-]; exact Wo) ltac:(unfold ev_in; destruct (ev_oid _); reflexivity)) as (m & S & _).
  unfold outside_of in S. cbn [call_token spec_step o_who o_rng_fails o_id whois run fst snd] in S. unfold with_access, with_scope in S. rewrite Ho in S.
  destruct S as [(N & _)|(_ & [(N & _)|(_ & -> & _)])]; [contradiction..|]. eauto.
Qed.

(** Calls, run on their own. *)
Lemma lreach_ident evs s w c : lreach evs s w -> sa_call_wf c -> (forall tok, lib_token (OnIdentity c) = Some tok -> exists uid, token_of uid tok evs) ->
  exists r w' s', let x := surr ov_env w (rng_failed ov_env w') in
    lreach (evs ++ [mkLibEvent x (OnIdentity c) (LIdentity r)]) s' w' /\ sa_step x c (ls_dir s) r (ls_dir s') /\ ls_objects s' = ls_objects s /\ run (sa_aes ov_env Mem lib_sa c) w = (r, w').
Proof.
  intros H Hwf Ht. destruct (lreach_next evs s w (OnIdentity c) H Hwf ltac:(discriminate) Ht ltac:(discriminate)) as (r & w' & s' & H1 & H2 & H3). cbn zeta in *.
  destruct r as [r|r|r]; cbn [lib_step] in H2; try contradiction. destruct H2 as (S1 & S2 & _).
  cbn [lib_do] in H3. rewrite run_map in H3. destruct (run (sa_aes ov_env Mem (l_sa lib_demo) c) w) as [r0 w0] eqn:E. cbn [fst snd] in H3. injection H3 as <- <-.
  exists r0, w0, s'. auto.
Qed.
Lemma lreach_object evs s w c : lreach evs s w -> (forall o, call_oid c = Some o -> uuid_wf o) -> (forall tok, call_token c = Some tok -> exists uid, token_of uid tok evs) ->
  (forall t, c <> CGetTokenContents t) ->
  exists r w' s' who, let x := surr ov_env w (rng_failed ov_env w') in
    lreach (evs ++ [mkLibEvent x (OnObject c) (LObject r)]) s' w' /\ caller x (ls_dir s) (call_token c) who /\
    spec_step (mkOutside who (x_rng_fails x) (res_map uuid_v4 (x_draw x 0 16))) c (ls_objects s) r (ls_objects s') /\ ls_dir s' = ls_dir s /\ run (lib_do ov_env Mem lib_demo 9 (OnObject c)) w = (LObject r, w').
Proof.
  intros H Hwf Ht Hn. destruct (lreach_next evs s w (OnObject c) H Hwf ltac:(discriminate) Ht ltac:(intros t [= E]; exact (Hn t E))) as (r & w' & s' & H1 & H2 & H3). cbn zeta in *.
  destruct r as [r|r|r]; cbn [lib_step] in H2; try contradiction. destruct H2 as (who & S1 & S2 & S3 & _). exists r, w', s', who. auto.
Qed.

Lemma revoke_run : exists u1 u2 p1 p2 t1 t2 g x oid i pool' (w' : DW), let tr := revoke_tr u1 u2 p1 p2 t1 t2 g x oid i in
  lib_conc ov_env mem_view Mem lib_demo 9 [] demo_w tr pool' w' /\ (w_draws w' <= 256)%nat /\ same_token t1 t1 /\ same_token t2 t2 /\ u1 <> u2 /\ u1 <> g /\ x <> u1 /\ x <> u2 /\ x <> g /\ uuid_wf oid /\
  i_id i = u1 /\ i_scopes i = ScopeAll /\ i_groups i !! g = Some ScopeAll.
Proof.
  destruct lib_shared as (x1 & x2 & x3 & x4 & x5 & x6 & x7 & x8 & x9 & x10 & u1 & u2 & p1 & p2 & t1 & t2 & g & oid & i & s & w & R & C2 & C4 & C10 & N12 & N1g & Wo & I1 & I2 & I3 & Y1 & Y2 & a1 & a2 & A1 & A2 & G1 & G2 & Gg & Z1 & Z2).
  destruct (another u1 u2 g) as (x & Tx & X1 & X2 & X3).
  set (evs1 := life_start x1 x2 x3 x4 x5 x6 x7 x8 x9 u1 u2 p1 p2 t1 t2 g oid i).
  assert (K1 : token_of u1 t1 evs1) by exact (token_later _ _ _ [_; _; _; _; _; _; _] (login_token x2 u1 p1 t1 (time_unix T1) [_] _ Y1)).
  assert (K2 : token_of u2 t2 evs1) by exact (token_later _ _ _ [_; _; _; _; _] (login_token x4 u2 p2 t2 (time_unix T1) [_; _; _] _ Y2)).
  pose proof (fun l => token_later _ _ _ l K1) as L1. pose proof (fun l => token_later _ _ _ l K2) as L2.
  assert (V1 : forall g', g' ∈ ac_groups a1 -> is_Some (d_groups (ls_dir s) !! g')) by (rewrite G1; intros g' Hg; apply elem_of_singleton in Hg as ->; eauto).
  assert (V2 : forall g', g' ∈ ac_groups a2 -> is_Some (d_groups (ls_dir s) !! g')) by (rewrite G2; intros g' Hg; apply elem_of_singleton in Hg as ->; eauto).
  change (lreach (evs1 ++ [CDecrypt t1 oid => Ok (RObject demo_obj) @ x10]) s w) in R.
  assert (LS : listed oid {[u2; g]} (evs1 ++ [CDecrypt t1 oid => Ok (RObject demo_obj) @ x10])).
  { exists (firstn 7 evs1), (CGetAccessGroups t2 oid => Ok (RGroups (Some {[u2; g]})) @ x8), [SGetIdentity t1 ~> Ok (SRIdentity i) @ x9; CDecrypt t1 oid => Ok (RObject demo_obj) @ x10], t2.
    split; [reflexivity|]. split; [reflexivity|]. split; [reflexivity|]. intros ev c [<-|[<-|[]]]; cbn [lv_call]; intros E; try discriminate E. injection E as <-. intros _. exact Logic.I. }
  assert (Ob : exists o, ls_objects s !! oid = Some (o, {[u2; g]})) by (destruct R as (_ & ((pre & f & _ & HH) & _) & _); exact (listed_there _ _ _ _ LS HH)). destruct Ob as [o Ob].
  pose proof (proj2 (proj2 (proj2 R))) as PL.
  (* the lookup of user 1 *)
  destruct (lreach_ident _ _ _ (SGetIdentity t1) R Logic.I ltac:(intros tok [= <-]; eauto)) as (r11 & w11 & s11 & R11 & S11 & O11 & E11). cbn zeta in *. rewrite <- app_assoc in R11. cbn [app] in R11.
  apply identity_run in E11 as (q & E11 & Eq). destruct S11 as (q' & Q11 & Er & D11).
  destruct (caller_is _ _ _ _ _ _ _ (lreach_unique _ _ _ R) Y1 A1 V1 Q11) as (j & (J1 & J2 & _ & J4) & ->). rewrite Er in Eq. destruct q as [q|?|]; try discriminate Eq. injection Eq as <-. clear Q11.
  (* user 1 is taken out of the group *)
  destruct (lreach_ident _ _ _ (SRemoveUser t2 u1 [g]) R11 Logic.I ltac:(intros tok [= <-]; eauto)) as (r12 & w12 & s12 & R12 & S12 & O12 & E12). cbn zeta in *. rewrite <- app_assoc in R12. cbn [app] in R12.
  pose proof (lreach_unique _ _ _ R11) as U11. rewrite D11 in S12, U11. pose proof (fun u t => says_step _ _ _ _ _ t u T1 S12) as P12.
  assert (Q3 : forall g', In g' [g] -> g' = u2 \/ g' ∈ ac_groups a2) by (intros g' [<-|[]]; right; rewrite G2; now apply elem_of_singleton).
  destruct (remove_ok _ _ _ _ _ _ _ _ _ _ (ov_calm _ _) U11 Y2 A2 V2 Q3 A1 S12) as [-> D12]. clear S12.
  set (a1' := mkAccount (ac_scopes a1) (ac_salt a1) (ac_hash a1) (ac_groups a1 ∖ list_to_set [g])) in *.
  assert (E1 : ac_groups a1' = ∅) by (cbn [ac_groups a1']; rewrite G1; clear; set_solver).
  assert (B1 : d_users (ls_dir s12) !! u1 = Some a1') by (rewrite D12; apply lookup_insert).
  assert (B2 : d_users (ls_dir s12) !! u2 = Some a2) by (rewrite D12; cbn [d_users set_users]; rewrite lookup_insert_ne by congruence; exact A2).
  assert (W1 : forall g', g' ∈ ac_groups a1' -> is_Some (d_groups (ls_dir s12) !! g')) by (rewrite E1; intros g' Hg; now apply elem_of_empty in Hg).
  assert (W2 : forall g', g' ∈ ac_groups a2 -> is_Some (d_groups (ls_dir s12) !! g')) by (rewrite D12; exact V2).
  pose proof (lreach_unique _ _ _ R12) as U12.
  (* user 2 adds to the list *)
  destruct (lreach_object _ _ _ (CAddGroups t2 oid [x]) R12 ltac:(intros o' [= <-]; exact Wo) ltac:(intros tok [= <-]; eauto) ltac:(discriminate)) as (r13 & w13 & s13 & who13 & R13 & Q13 & S13 & D13 & E13).
  cbn zeta in *. rewrite <- app_assoc in R13. cbn [app] in R13.
  destruct (caller_is _ _ _ _ _ _ _ U12 (P12 _ _ Y2) B2 W2 Q13) as (i13 & (M1 & M2 & _ & _) & ->).
  assert (Sc : forall i0 need, i_scopes i0 = ac_scopes a2 -> scope_contains ScopeAll need = true -> scope_has (i_scopes i0) need) by (intros i0 need M; apply may_all; congruence).
  cbn [spec_step o_who o_rng_fails o_id] in S13. unfold with_access, with_scope, or_random in S13. rewrite O12, O11, Ob in S13.
  destruct S13 as [(N & _)|(_ & [(N & _)|(_ & [(N & _)|(-> & O13)])])];
    [destruct (N (Sc _ ScopeModifyAccessGroups M2 eq_refl))|destruct N; left; split; [rewrite M1; clear; set_solver|exact (Sc _ ScopeModifyAccessGroups M2 eq_refl)]|destruct (ov_rng _ N)|].
  assert (Ob3 : ls_objects s13 !! oid = Some (o, {[u2; g; x]})) by (rewrite O13, lookup_insert; cbn [map]; rewrite Tx; cbn [list_to_set foldr]; do 2 f_equal; clear; set_solver). clear O13.
  (* and looks at it *)
  destruct (lreach_object _ _ _ (CGetAccessGroups t2 oid) R13 ltac:(intros o' [= <-]; exact Wo) ltac:(intros tok [= <-]; eauto) ltac:(discriminate)) as (r14 & w14 & s14 & who14 & R14 & Q14 & S14 & D14 & E14).
  cbn zeta in *. rewrite <- app_assoc in R14. cbn [app] in R14. rewrite D13 in Q14.
  destruct (caller_is _ _ _ _ _ _ _ U12 (P12 _ _ Y2) B2 W2 Q14) as (i14 & (F1 & F2 & _ & _) & ->).
  cbn [spec_step o_who o_rng_fails o_id] in S14. unfold with_access, with_scope in S14. rewrite Ob3 in S14.
  destruct S14 as [(N & _)|(_ & [(N & _)|(_ & -> & O14)])];
    [destruct (N (Sc _ ScopeGetAccessGroups F2 eq_refl))|destruct N; left; split; [rewrite F1; clear; set_solver|exact (Sc _ ScopeGetAccessGroups F2 eq_refl)]|].
  (* user 1 may not decrypt *)
  destruct (lreach_object _ _ _ (CDecrypt t1 oid) R14 ltac:(intros o' [= <-]; exact Wo) ltac:(intros tok [= <-]; eauto) ltac:(discriminate)) as (r15 & w15 & s15 & who15 & R15 & Q15 & S15 & D15 & E15).
  cbn zeta in *. rewrite <- app_assoc in R15. cbn [app] in R15. rewrite D14, D13 in Q15.
  destruct (caller_is _ _ _ _ _ _ _ U12 (P12 _ _ Y1) B1 W1 Q15) as (i15 & (H1 & _ & _ & H4) & ->).
  cbn [spec_step o_who o_rng_fails o_id] in S15. unfold with_access, with_scope in S15. rewrite O14, Ob3 in S15.
  assert (NL : ~ on_list i15 ScopeDecrypt {[u2; g; x]}).
  { intros [[N _]|(g' & sc & N & _)]; [rewrite H1 in N; clear -N N12 N1g X1; set_solver|]. apply H4 in N as [N _]. rewrite E1 in N. now apply elem_of_empty in N. }
  assert (HE : r15 = Err ED1NotAuthorized /\ ls_objects s15 = ls_objects s13) by (destruct S15 as [(_ & -> & ->)|(_ & [(_ & -> & ->)|(N & _)])]; [now split..|contradiction]). destruct HE as [-> O15]. clear S15.
  (* user 1 is deleted *)
  destruct (lreach_ident _ _ _ (SDeleteUser t2 u1) R15 Logic.I ltac:(intros tok [= <-]; eauto)) as (r16 & w16 & s16 & R16 & S16 & O16 & E16). cbn zeta in *. rewrite <- app_assoc in R16. cbn [app] in R16.
  pose proof (fun u t => says_step _ _ _ _ _ t u T1 S16) as P16. rewrite D15, D14, D13 in S16, P16.
  destruct (caller_ok _ _ _ _ _ _ _ _ (ov_calm _ _) U12 (P12 _ _ Y2) B2 W2 S16) as (i16 & _ & -> & D16). clear S16.
  (* and not known any more *)
  destruct (lreach_object _ _ _ (CDecrypt t1 oid) R16 ltac:(intros o' [= <-]; exact Wo) ltac:(intros tok [= <-]; eauto) ltac:(discriminate)) as (r17 & w17 & s17 & who17 & R17 & Q17 & S17 & D17 & E17).
  cbn zeta in *. rewrite <- app_assoc in R17. cbn [app] in R17.
  assert (HE : r17 = Err ED1NotAuthenticated /\ ls_objects s17 = ls_objects s13).
  { cbn [caller call_token] in Q17. destruct Q17 as [(u & xp & Z & _ & C)|[_ ->]].
    - destruct (lreach_unique _ _ _ R16 _ _ _ _ _ Z (P16 _ _ (P12 _ _ Y1))) as [-> _]. rewrite D16 in C. cbn [d_users set_users] in C. rewrite lookup_delete in C. subst who17.
      cbn [spec_step o_who] in S17. unfold with_access, with_scope, refuse in S17. destruct S17 as [-> ->]. rewrite O16. auto.
    - cbn [spec_step o_who] in S17. unfold with_access, with_scope, refuse in S17. destruct S17 as [-> ->]. rewrite O16. auto. }
  destruct HE as [-> O17].
  (* the answer *)
  assert (Sj : forall need, scope_contains ScopeAll need = true -> scope_has (i_scopes j) need) by (intros need; apply may_all; congruence).
  destruct (list_rest t1 oid _ _ _ j o {[u2; g; x]} R17 Wo ltac:(rewrite O17; exact Ob3) (Sj ScopeGetAccessGroups eq_refl)) as (w18 & E18).
  { right. exists g, ScopeAll. split; [apply J4; split; [rewrite G1; now apply elem_of_singleton|exact Gg]|]. split; [clear; set_solver|now apply scope_contains_has]. }
  pose proof (plain_draws _ _ (proj2 (proj2 (proj2 R17))) ltac:(intros ev Hin; cbn [evs1 life_start app] in Hin; repeat (destruct Hin as [<-|Hin]; [exact Logic.I|]); destruct Hin)) as L17. cbn [evs1 life_start app length] in L17.
  assert (L18 : (w_draws w18 <= w_draws w17 + 8)%nat).
  { refine (proj2 (run_within _ _ _ _ 8 E18 _)). unfold obj_from. apply (within_bind _ _ 8 0); [|intros; exact Logic.I]. apply within_d1; [intros; exact Logic.I|discriminate..]. }
  apply plain_conc in PL.
  exists u1, u2, p1, p2, t1, t2, g, x, oid, i. do 2 eexists. cbn zeta. split; [|split; [|split; [|split]]].
  - unfold revoke_tr. eapply conc_on; [exact PL|]. cbn [evs1 life_start app map lv_reply].
    unfold revoke_removed, revoke_deleted, revoke_end. cbn [app].
    apply lc_call. cbn [app].
    eapply (lib_runs _ _ _ _ _ (obj_from ov_env Mem lib_demo (CGetAccessGroups t1 oid))) with (t := 10%nat); [reflexivity|exact E11|reflexivity|]. cbn [insert list_insert].
    apply lc_call. cbn [app].
    eapply (lib_runs _ _ _ _ _ (fun q => bind q (fun r => Ret (LIdentity r)))) with (t := 11%nat); [reflexivity|exact E12|reflexivity|]. cbn [insert list_insert bind].
    apply lc_reply; [reflexivity|]. apply lc_call. cbn [app].
    eapply (lib_runs _ _ _ _ _ (fun q => q)) with (t := 12%nat); [reflexivity|exact E13|reflexivity|]. cbn [insert list_insert].
    apply lc_reply; [reflexivity|]. apply lc_call. cbn [app].
    eapply (lib_runs _ _ _ _ _ (fun q => q)) with (t := 13%nat); [reflexivity|exact E14|reflexivity|]. cbn [insert list_insert].
    apply lc_reply; [reflexivity|]. apply lc_call. cbn [app].
    eapply (lib_runs _ _ _ _ _ (fun q => q)) with (t := 14%nat); [reflexivity|exact E15|reflexivity|]. cbn [insert list_insert].
    apply lc_reply; [reflexivity|]. apply lc_call. cbn [app].
    eapply (lib_runs _ _ _ _ _ (fun q => bind q (fun r => Ret (LIdentity r)))) with (t := 15%nat); [reflexivity|exact E16|reflexivity|]. cbn [insert list_insert bind].
    apply lc_reply; [reflexivity|]. apply lc_call. cbn [app].
    eapply (lib_runs _ _ _ _ _ (fun q => q)) with (t := 16%nat); [reflexivity|exact E17|reflexivity|]. cbn [insert list_insert].
    apply lc_reply; [reflexivity|].
    eapply (lib_runs _ _ _ _ _ (fun q => q)) with (t := 10%nat); [reflexivity|exact E18|reflexivity|]. cbn [insert list_insert].
    apply lc_reply; [reflexivity|]. apply lc_nil.
  - lia.
  - destruct Y1 as (z & _ & E & _). eapply same_token_trans; [apply same_token_sym; exact E|exact E].
  - destruct Y2 as (z & _ & E & _). eapply same_token_trans; [apply same_token_sym; exact E|exact E].
  - auto 12.
Qed.
