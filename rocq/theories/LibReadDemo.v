(** Two runs for C77: somebody searches the index while somebody else encrypts, and an object is deleted. *)
From Coq Require Import ZifyN ZifyNat.
From stdpp Require Import gmap.
From Verif Require Import Bytes Go Json JsonProofs Uuid UuidProofs Time Types World Logic Cryptor Io IoSpec IoProofs Id Data D1 D1Proofs D1Props Spec D1Refine D1ConcSpec D1Conc Demo
  Standalone StandaloneSpec SaConcSpec StandaloneRefine StandaloneHist StandaloneDemo SaConcDemo IdAuthority History Sched Authority
  Index IndexSpec IndexConcSpec IndexOwnSpec IndexProofs IndexRefine IndexHist IndexDemo Foot Lib LibSpec LibHist LibCor LibDemo LibHonest LibHistDemo LibConcSpec LibTouch LibConcDemo LibConcUseSpec LibConcUse LibSeq LibRevokeDemo SpecProofs LibReadSpec LibRead.
Local Open Scope bool_scope.
Local Open Scope N_scope.

Ltac find_in := solve [repeat first [left; reflexivity|right]].

(** ** What an index call draws *)
Lemma within_ix_verify {S I} (idp : bytes -> prog (world S I) (res identity)) (quiet : forall t, within 0 (idp t)) tok : within 0 (ix_verify idp tok).
Proof. unfold ix_verify. apply (within_bind _ _ 0 0); [apply quiet|]. intros [i|x|]; try exact Logic.I. destruct (scope_contains _ _); exact Logic.I. Qed.
Lemma within_add {S I} (e : env) (io : provider S) (idp : bytes -> prog (world S I) (res identity)) (quiet : forall t, within 0 (idp t)) iek fuel tok kw y :
  within 2 (ix_do e io idp iek fuel (IAdd tok kw y) : prog (world S I) _).
Proof.
  cbn [ix_do]. unfold ret_map. apply (within_bind _ _ 2 0); [|intros; exact Logic.I]. unfold ix_add.
  apply (within_bindR _ _ 0 2); [now apply within_ix_verify|intros _]. apply (within_bindR _ _ 0 2); [apply within_lift|intros [tk kek]].
  apply (within_bindR _ _ 0 2).
  - generalize node_zero. induction fuel as [|n IH]; intros nd; [exact Logic.I|]. cbn [get_last_node].
    apply (within_bind _ _ 0 0); [apply within_next|intros [a|x|]; [apply IH|destruct x; exact Logic.I|exact Logic.I]].
  - intros last. apply (within_bindR _ _ 0 2); [apply within_lift|intros l]. apply (within_bindR _ _ 2 0).
    + unfold node_seal, encrypt_json. apply (within_bindR _ _ 2 0); [apply within_enc|intros [? ?]; exact Logic.I].
    + intros sn. unfold put_sealed_node. apply within_map_err, within_io.
Qed.
Lemma within_look {S I} (e : env) (io : provider S) (idp : bytes -> prog (world S I) (res identity)) (quiet : forall t, within 0 (idp t)) iek fuel tok kw :
  within 0 (ix_do e io idp iek fuel (ISearch tok kw) : prog (world S I) _).
Proof.
  cbn [ix_do]. unfold ret_map. apply (within_bind _ _ 0 0); [|intros; exact Logic.I]. unfold ix_search.
  apply (within_bindR _ _ 0 0); [now apply within_ix_verify|intros _]. apply (within_bindR _ _ 0 0); [apply within_lift|intros [tk kek]].
  generalize node_zero, (@nil bytes). induction fuel as [|n IH]; intros nd l; [exact Logic.I|]. cbn [search_loop].
  apply (within_bind _ _ 0 0); [apply within_next|intros [a|x|]; [apply IH|destruct x; exact Logic.I|exact Logic.I]].
Qed.

(** ** Calls, run on their own *)
(** As [lreach], after [b] additions. *)
Definition ireach (evs : list lib_event) (b : N) (s : lib_state) (w : DW) : Prop := HI mem_view lib_demo two_dogs 1 evs b s w.
Lemma ireach_unique evs b s w : ireach evs b s w -> unique (ls_dir s).
Proof. intros ((pre & f & _ & H) & _). eapply dir_unique, H. Qed.
Lemma ireach_index evs b s w c : ireach evs b s w -> ix_keyword c = dog -> (forall t kw y, c <> IDelete t kw y) -> b + is_add c <= 1 -> (exists uid, token_of uid (ix_token c) evs) ->
  exists r w' s' who, let x := surr ov_env w (rng_failed ov_env w') in
    ireach (evs ++ [mkLibEvent x (OnIndex c) (LIndex r)]) (b + is_add c) s' w' /\ StandaloneSpec.resolves (ls_dir s) (x_now x) (ix_token c) who /\
    ix_step (mkIxOutside who (x_rng_fails x)) c (ls_index s) r (ls_index s') /\ ls_dir s' = ls_dir s /\ ls_objects s' = ls_objects s /\
    run (lib_do ov_env Mem lib_demo 9 (OnIndex c)) w = (LIndex r, w') /\ (w_draws w' <= w_draws w + 2)%nat.
Proof.
  intros H Hk Hn Hb Ht. destruct (run (lib_do ov_env Mem lib_demo 9 (OnIndex c)) w) as [r w'] eqn:Er.
  assert (Hd : token_key_apart lib_demo [c; c]) by (apply apart_dogs; intros i [<-|[<-|[]]]; exact Hk).
  assert (H' : HI mem_view lib_demo [c; c] 1 evs b s w).
  { unfold ireach, HI, LR in *. cbn [map two_dogs ix_keyword] in *. rewrite Hk. exact H. }
  destruct (HI_call ov_env mem_view Mem (mem_spec False) lib_demo 9 ov_clock eq_refl [c; c] Hd 1 eq_refl ltac:(cbn [map]; rewrite Hk; exact dogs_differ) evs b s w (OnIndex c) r w' H' Logic.I
    ltac:(intros i [= <-]; now left) ltac:(exact Hb) ltac:(lia) ltac:(intros tok [= <-]; exact Ht) ltac:(discriminate) Er) as (s' & S & H2).
  destruct r as [r|r|r]; cbn [lib_step] in S; try contradiction. destruct S as (who & S1 & S2 & S3 & S4). exists r, w', s', who. cbn zeta.
  split; [unfold ireach, HI, LR in *; cbn [map two_dogs ix_keyword] in *; rewrite Hk in H2; exact H2|]. split; [exact S1|]. split; [exact S2|]. split; [exact S3|]. split; [exact S4|]. split; [reflexivity|].
  cbn [lib_do] in Er. rewrite run_map in Er. destruct (run (ix_do ov_env Mem (sa_idp ov_env Mem (l_sa lib_demo)) (l_iek lib_demo) 9 c) w) as [r0 w0] eqn:E0. cbn [fst snd] in Er. injection Er as _ <-.
  destruct c as [t kw y|t kw|t kw y]; [| |destruct (Hn _ _ _ eq_refl)].
  - apply (run_within _ _ _ _ 2 E0), within_add. intros t'. apply within_identity.
  - pose proof (run_within _ _ _ _ 0 E0 (within_look _ _ _ ltac:(intros t'; apply within_identity) _ _ _ _)). lia.
Qed.
Lemma ireach_look evs b s w tok : ireach evs b s w -> b <= 1 -> (exists uid, token_of uid tok evs) ->
  exists q w' s', let x := surr ov_env w (rng_failed ov_env w') in
    ireach (evs ++ [mkLibEvent x (OnIdentity (SGetIdentity tok)) (LIdentity (res_map SRIdentity q))]) b s' w' /\ StandaloneSpec.resolves (ls_dir s) (x_now x) tok q /\ ls_dir s' = ls_dir s /\
    ls_objects s' = ls_objects s /\ ls_index s' = ls_index s /\ run (sa_idp ov_env Mem lib_sa tok) w = (q, w') /\ (w_draws w' <= w_draws w + 8)%nat.
Proof.
  intros H Hb Ht. destruct (run (lib_do ov_env Mem lib_demo 9 (OnIdentity (SGetIdentity tok))) w) as [r w'] eqn:Er.
  destruct (HI_call ov_env mem_view Mem (mem_spec False) lib_demo 9 ov_clock eq_refl two_dogs dogs_apart 1 eq_refl dogs_differ evs b s w (OnIdentity (SGetIdentity tok)) r w' H Logic.I
    ltac:(discriminate) ltac:(cbn iota; lia) ltac:(lia) ltac:(intros t [= <-]; exact Ht) ltac:(discriminate) Er) as (s' & S & H2).
  destruct r as [r|r|r]; cbn [lib_step] in S; try contradiction. destruct S as (S1 & S2 & S3).
  cbn [lib_do] in Er. rewrite run_map in Er. destruct (run (sa_aes ov_env Mem (l_sa lib_demo) (SGetIdentity tok)) w) as [r0 w0] eqn:E0. cbn [fst snd] in Er. injection Er as -> ->.
  pose proof (run_within _ _ _ _ 8 E0 (within_call _ _ _ _)) as Hw. apply identity_run in E0 as (q & E0 & ->). destruct S1 as (q' & Q & Eq & D).
  assert (q' = q) as -> by (destruct q, q'; cbn in Eq; congruence).
  exists q, w', s'. cbn zeta. split; [rewrite N.add_0_r in H2; exact H2|]. split; [exact Q|]. split; [exact D|]. split; [exact S2|]. split; [exact S3|]. split; [exact E0|apply Hw].
Qed.
Lemma encrypt_rest t evs b s w i : ireach evs b s w -> ls_objects s = ∅ -> i_scopes i = ScopeAll ->
  exists oid w', run (obj_from ov_env Mem lib_demo (CEncrypt t demo_obj []) (Ret (Ok i))) (w : DW) = (LObject (Ok (ROid oid)), w') /\ (w_draws w' <= w_draws w + 5)%nat.
Proof.
  intros ((pre & f & (_ & HR & _) & _) & _) Ho Hs. destruct (run (obj_from ov_env Mem lib_demo (CEncrypt t demo_obj []) (Ret (Ok i))) w) as [r0 w0] eqn:E0.
  pose proof (run_within _ _ _ _ 5 E0 (within_encrypt ov_env Mem lib_demo _ t demo_obj [])) as L. unfold obj_from in E0. rewrite run_map in E0.
  destruct (run (d1_aes ov_env Mem (fun _ => Ret (Ok i)) (l_d1 lib_demo) (CEncrypt t demo_obj [])) w) as [r w'] eqn:E. cbn [fst snd] in E0. injection E0 as <- <-. rewrite Ho in HR.
  destruct (spec_sim ov_env mem_view Mem (mem_spec False) (fun _ => Ret (Ok i)) (fun _ _ _ H => conj H Logic.I) (l_d1 lib_demo) all_ids w _ r w' ∅ E Logic.I HR
    ltac:(discriminate) ltac:(unfold ev_in; destruct (ev_oid _); reflexivity)) as (m & S & _).
  unfold outside_of in S. cbn [call_token spec_step o_who o_rng_fails o_id with_scope whois run fst snd] in S. rewrite ov_draw in S. cbn [res_map] in S. unfold with_scope in S.
  destruct S as [(N & _)|(_ & [(X & _)|(oid & Eo & S)])]; [destruct (N (may_all i ScopeEncrypt Hs eq_refl))|destruct (ov_rng _ X)|]. rewrite lookup_empty in S. destruct S as [-> _].
  exists oid, w'. split; [reflexivity|apply L].
Qed.

(** ** Searching while somebody encrypts *)
Definition search_before (u1 u2 p1 p2 t1 t2 : bytes) : list lib_obs :=
  [LCall (OnIdentity (SNewUser [ScopeAll])); LReply 0 (LIdentity (Ok (SRUser u1 p1)));
   LCall (OnIdentity (SLogin u1 p1)); LReply 1 (LIdentity (Ok (SRToken t1 (time_unix T1))));
   LCall (OnIdentity (SNewUser [ScopeAll])); LReply 2 (LIdentity (Ok (SRUser u2 p2)));
   LCall (OnIdentity (SLogin u2 p2)); LReply 3 (LIdentity (Ok (SRToken t2 (time_unix T1))));
   LCall (OnIndex (IAdd t1 dog id1)); LReply 4 (LIndex (Ok IRUnit));
   LCall (OnObject (CEncrypt t2 demo_obj []))].
Definition search_after (oid : uuid) : list lib_obs := [LReply 6 (LIndex (Ok (IRIds [id1]))); LReply 5 (LObject (Ok (ROid oid)))].
Definition search_tr (u1 u2 p1 p2 t1 t2 : bytes) (oid : uuid) : list lib_obs := search_before u1 u2 p1 p2 t1 t2 ++ LCall (OnIndex (ISearch t1 dog)) :: search_after oid.
Lemma search_run : exists u1 u2 p1 p2 t1 t2 oid pool' (w' : DW), lib_conc ov_env mem_view Mem lib_demo 9 [] demo_w (search_tr u1 u2 p1 p2 t1 t2 oid) pool' w' /\
  (w_draws w' <= 256)%nat /\ same_token t1 t1 /\ same_token t2 t2.
Proof.
  destruct lib_two as (x1 & x2 & x3 & x4 & u1 & u2 & p1 & p2 & t1 & t2 & s & w & a1 & a2 & b0 & R & C2 & C4 & Hb0 & Eu1 & Tu2 & N12 & Dr & Y1 & Y2 & A1 & A2 & G1 & G2 & Z1 & Z2 & Gr & Ob).
  pose proof R as (_ & HI0 & _ & PL). pose proof (plain_conc _ _ PL) as PC. pose proof (plain_draws _ _ PL ltac:(intros ev Hin; repeat (destruct Hin as [<-|Hin]; [exact Logic.I|]); destruct Hin)) as PD. clear PL. cbn [length] in PD.
  clear R. set (evs := [_; _; _; _] : list lib_event) in *.
  assert (K1 : token_of u1 t1 evs) by exact (token_later _ _ _ [_; _] (login_token x2 u1 p1 t1 (time_unix T1) [_] _ Y1)).
  assert (K2 : token_of u2 t2 evs) by exact (login_token x4 u2 p2 t2 (time_unix T1) [_; _; _] _ Y2).
  pose proof (fun l => token_later _ _ _ l K1) as L1. pose proof (fun l => token_later _ _ _ l K2) as L2.
  assert (V1 : forall d g, g ∈ ac_groups a1 -> is_Some (d_groups d !! g)) by (rewrite G1; intros d g Hg; now apply elem_of_empty in Hg).
  assert (V2 : forall d g, g ∈ ac_groups a2 -> is_Some (d_groups d !! g)) by (rewrite G2; intros d g Hg; now apply elem_of_empty in Hg).
  assert (I0 : ls_index s dog = []).
  { apply nil_length_inv. pose proof HI0 as ((pre & f & (_ & _ & ST & _) & _) & _). pose proof (state_length mem_view (l_iek lib_demo) eq_refl _ 1 eq_refl _ _ _ _ _ dog ST ltac:(left; reflexivity) ltac:(lia)) as SL. lia. }
  (* Add *)
  destruct (ireach_index evs 0 s w (IAdd t1 dog id1) HI0 eq_refl ltac:(discriminate) ltac:(cbn; lia) ltac:(eauto)) as (r5 & w5 & s5 & who5 & R5 & Q5 & S5 & D5 & O5 & E5 & W5). cbn zeta in *.
  pose proof (ireach_unique _ _ _ _ HI0) as U. destruct (caller_is _ _ _ _ _ _ _ U Y1 A1 (V1 _) Q5) as (i5 & (_ & I5 & _) & ->). rewrite Z1 in I5.
  unfold ix_step, ix_allowed in S5. cbn [ix_who ix_rng_fails] in S5.
  destruct S5 as [(N & _)|(_ & [(N & _)|(-> & [M5 _])])]; [destruct (N (may_all i5 ScopeIndex I5 eq_refl))|destruct (ov_rng _ N)|]. rewrite I0 in M5. cbn [app] in M5.
  (* the token of Encrypt *)
  destruct (ireach_look _ _ _ _ t2 R5 ltac:(cbn; lia) ltac:(eauto)) as (q6 & w6 & s6 & R6 & Q6 & D6 & O6 & J6 & E6 & W6). cbn zeta in *. rewrite <- app_assoc in R6. cbn [app] in R6.
  rewrite D5 in Q6. destruct (caller_is _ _ _ _ _ _ _ U Y2 A2 (V2 _) Q6) as (i6 & (_ & I6 & _) & ->). rewrite Z2 in I6.
  (* Search *)
  destruct (ireach_index _ _ _ _ (ISearch t1 dog) R6 eq_refl ltac:(discriminate) ltac:(cbn; lia) ltac:(eauto)) as (r7 & w7 & s7 & who7 & R7 & Q7 & S7 & D7 & O7 & E7 & W7). cbn zeta in *. rewrite <- app_assoc in R7. cbn [app] in R7.
  rewrite D6, D5 in Q7. destruct (caller_is _ _ _ _ _ _ _ U Y1 A1 (V1 _) Q7) as (i7 & (_ & I7 & _) & ->). rewrite Z1 in I7.
  unfold ix_step, ix_allowed in S7. cbn [ix_who ix_rng_fails] in S7. destruct S7 as [(N & _)|(_ & -> & _)]; [destruct (N (may_all i7 ScopeIndex I7 eq_refl))|]. rewrite J6, M5 in E7.
  change [as_text id1] with [id1] in E7.
  (* and the rest of Encrypt *)
  destruct (encrypt_rest t2 _ _ _ _ i6 R7 ltac:(congruence) I6) as (oid & w8 & E8 & W8).
  exists u1, u2, p1, p2, t1, t2, oid. do 2 eexists. split; [|split; [|split]].
  - change (search_tr u1 u2 p1 p2 t1 t2 oid) with (seq_obs 0 evs ++ [LCall (OnIndex (IAdd t1 dog id1)); LReply 4 (LIndex (Ok IRUnit));
      LCall (OnObject (CEncrypt t2 demo_obj [])); LCall (OnIndex (ISearch t1 dog)); LReply 6 (LIndex (Ok (IRIds [id1]))); LReply 5 (LObject (Ok (ROid oid)))]).
    eapply conc_on; [exact PC|]. unfold evs. cbn [map lv_reply app].
    apply lc_call. eapply (lib_runs _ _ _ _ _ (fun q => q)) with (t := 4%nat); [reflexivity|exact E5|reflexivity|]. cbn [app insert list_insert].
    apply lc_reply; [reflexivity|]. apply lc_call. cbn [app].
    eapply (lib_runs _ _ _ _ _ (obj_from ov_env Mem lib_demo (CEncrypt t2 demo_obj []))) with (t := 5%nat); [apply obj_from_step|exact E6|reflexivity|]. cbn [app insert list_insert].
    apply lc_call. cbn [app]. eapply (lib_runs _ _ _ _ _ (fun q => q)) with (t := 6%nat); [reflexivity|exact E7|reflexivity|]. cbn [insert list_insert].
    apply lc_reply; [reflexivity|]. eapply (lib_runs _ _ _ _ _ (fun q => q)) with (t := 5%nat); [reflexivity|exact E8|reflexivity|]. cbn [insert list_insert].
    apply lc_reply; [reflexivity|]. apply lc_nil.
  - lia.
  - destruct Y1 as (z & _ & (y & _ & Et) & _). exists y. auto.
  - destruct Y2 as (z & _ & (y & _ & Et) & _). exists y. auto.
Qed.

(** ** Decrypting what has been deleted *)
Definition gone_before (u1 u2 p1 p2 t1 t2 : bytes) (oid : uuid) : list lib_obs :=
  [LCall (OnIdentity (SNewUser [ScopeAll])); LReply 0 (LIdentity (Ok (SRUser u1 p1)));
   LCall (OnIdentity (SLogin u1 p1)); LReply 1 (LIdentity (Ok (SRToken t1 (time_unix T1))));
   LCall (OnIdentity (SNewUser [ScopeAll])); LReply 2 (LIdentity (Ok (SRUser u2 p2)));
   LCall (OnIdentity (SLogin u2 p2)); LReply 3 (LIdentity (Ok (SRToken t2 (time_unix T1))));
   LCall (OnObject (CEncrypt t2 demo_obj [])); LReply 4 (LObject (Ok (ROid oid)));
   LCall (OnObject (CDelete t2 oid)); LReply 5 (LObject (Ok RUnit))].
Definition gone_tr (u1 u2 p1 p2 t1 t2 : bytes) (oid : uuid) : list lib_obs :=
  gone_before u1 u2 p1 p2 t1 t2 oid ++ [LCall (OnObject (CDecrypt t2 oid)); LReply 6 (LObject (Err ED1AccessNotFound))].
Lemma gone_run : exists u1 u2 p1 p2 t1 t2 oid pool' (w' : DW), lib_conc ov_env mem_view Mem lib_demo 9 [] demo_w (gone_tr u1 u2 p1 p2 t1 t2 oid) pool' w' /\
  (w_draws w' <= 256)%nat /\ same_token t1 t1 /\ same_token t2 t2 /\ uuid_wf oid.
Proof.
  destruct lib_two as (x1 & x2 & x3 & x4 & u1 & u2 & p1 & p2 & t1 & t2 & s & w & a1 & a2 & b0 & R & C2 & C4 & Hb0 & Eu1 & Tu2 & N12 & Dr & Y1 & Y2 & A1 & A2 & G1 & G2 & Z1 & Z2 & Gr & Ob).
  set (evs := [_; _; _; _] : list lib_event) in *.
  assert (K2 : token_of u2 t2 evs) by exact (login_token x4 u2 p2 t2 (time_unix T1) [_; _; _] _ Y2).
  pose proof (fun l => token_later _ _ _ l K2) as L2.
  assert (V2 : forall g, g ∈ ac_groups a2 -> is_Some (d_groups (ls_dir s) !! g)) by (rewrite G2; intros g Hg; now apply elem_of_empty in Hg).
  pose proof (lreach_unique _ _ _ R) as U.
  destruct (lreach_obj _ _ _ (CEncrypt t2 demo_obj []) R ltac:(discriminate) ltac:(intros tok [= <-]; eauto) ltac:(discriminate)) as (r4 & w4 & s4 & who4 & R4 & W4 & S4 & D4). cbn zeta in *.
  destruct (caller_is _ _ _ _ _ _ _ U Y2 A2 V2 W4) as (i4 & (I1 & I2 & _) & ->). rewrite Z2 in I2. rewrite Ob in S4.
  destruct (ov_id w w4) as (bo & Xo & Yo). cbn [spec_step o_who o_rng_fails o_id with_scope] in S4. rewrite Xo in S4. cbn [res_map] in S4.
  destruct S4 as [(N & _)|(_ & [(X & _)|(oid & Eo & S4)])]; [destruct (N (may_all _ ScopeEncrypt I2 eq_refl))|destruct (ov_rng _ X)|]. assert (Eo' : uuid_v4 bo = oid) by congruence. clear Eo. rewrite lookup_empty in S4. destruct S4 as [-> O4].
  assert (Wo : uuid_wf oid) by (rewrite <- Eo'; apply uuid_v4_wf; rewrite (ov_len _ _ _ Yo); reflexivity).
  destruct (lreach_obj _ _ _ (CDelete t2 oid) R4 ltac:(intros o [= <-]; exact Wo) ltac:(intros tok [= <-]; eauto) ltac:(discriminate)) as (r5 & w5 & s5 & who5 & R5 & W5 & S5 & D5). cbn zeta in *.
  rewrite <- app_assoc in R5. cbn [app] in R5. rewrite D4 in W5, D5. destruct (caller_is _ _ _ _ _ _ _ U Y2 A2 V2 W5) as (i5 & (J1 & J2 & _) & ->). rewrite Z2 in J2. rewrite O4 in S5.
  cbn [spec_step o_who o_rng_fails o_id] in S5. unfold with_scope in S5. rewrite lookup_insert in S5.
  destruct S5 as [(N & _)|(_ & [(N & _)|(_ & -> & O5)])]; [destruct (N (may_all _ ScopeDelete J2 eq_refl))| |].
  { destruct N. left. split; [rewrite J1; cbn [map]; rewrite I1, Tu2; cbn; clear; set_solver|now apply may_all]. }
  rewrite delete_insert in O5 by apply lookup_empty.
  destruct (lreach_obj _ _ _ (CDecrypt t2 oid) R5 ltac:(intros o [= <-]; exact Wo) ltac:(intros tok [= <-]; eauto) ltac:(discriminate)) as (r6 & w6 & s6 & who6 & R6 & W6 & S6 & D6). cbn zeta in *.
  rewrite <- app_assoc in R6. cbn [app] in R6. rewrite D5 in W6. destruct (caller_is _ _ _ _ _ _ _ U Y2 A2 V2 W6) as (i6 & (_ & Q2 & _) & ->). rewrite Z2 in Q2. rewrite O5 in S6.
  cbn [spec_step o_who o_rng_fails o_id] in S6. unfold with_access, with_scope in S6. rewrite lookup_empty in S6.
  destruct S6 as [(N & _)|(_ & -> & _)]; [destruct (N (may_all _ ScopeDecrypt Q2 eq_refl))|].
  pose proof R6 as (_ & _ & _ & PL). pose proof (plain_conc _ _ PL) as PC.
  pose proof (plain_draws _ _ PL ltac:(intros ev Hin; repeat (destruct Hin as [<-|Hin]; [exact Logic.I|]); destruct Hin)) as PD.
  exists u1, u2, p1, p2, t1, t2, oid. do 2 eexists. split; [exact PC|]. split; [unfold evs in PD; cbn [length app] in PD; lia|].
  split; [destruct Y1 as (z & _ & (y & _ & Et) & _); exists y; auto|]. split; [destruct Y2 as (z & _ & (y & _ & Et) & _); exists y; auto|exact Wo].
Qed.

(** ** Both runs meet what C77 asks for *)
Ltac no_overlap E := cbn [search_tr search_before search_after gone_tr gone_before id_part flat_map app id_call call_token ix_token before_calls lib_before map fst snd In] in E.
Definition demo_setting (tr : list lib_obs) (pool' : list (prog DW lib_reply)) (w' : DW) : Prop :=
  lib_vacant mem_view demo_w /\ lib_conc ov_env mem_view Mem lib_demo 9 [] demo_w tr pool' w' /\ lib_wf tr /\ lib_orderly tr /\
  ids_differ ov_env (w_draws demo_w) (w_draws w') /\ lib_no_guess ov_env (w_draws demo_w) (w_draws w') tr /\ unforged (l_sa lib_demo) (id_part tr) /\
  N.of_nat (count_adds (index_calls (lib_calls tr))) < 2 ^ 64 /\ (count_adds (index_calls (lib_calls tr)) < 9)%nat /\
  labels_differ (l_iek lib_demo) (map ix_keyword (index_calls (lib_calls tr))) (N.of_nat (count_adds (index_calls (lib_calls tr)))).
Lemma search_orderly u1 u2 p1 p2 t1 t2 oid : lib_orderly (search_tr u1 u2 p1 p2 t1 t2 oid).
Proof.
  split.
  - intros tr1 c tr2 E n c' Hn Ho. apply before_calls_in in E. no_overlap E.
    repeat (destruct E as [E|E]; [injection E as <- <-; cbn [id_calls] in Hn; repeat (destruct n as [|n]; cbn [nth_error] in Hn; [injection Hn as <-; first [destruct (lookup_no_odds _ _ _ Ho)|eexists; find_in]|]); try discriminate Hn; destruct n; discriminate Hn|]). destruct E.
  - intros tr1 c tr2 E n c' Hn Ho. apply lib_before_in in E. no_overlap E.
    repeat (destruct E as [E|E]; [injection E as <- <-; cbn [lib_calls] in Hn; repeat (destruct n as [|n]; cbn [nth_error] in Hn; [injection Hn as <-; first [eexists; find_in|solve [destruct Ho]]|]); try discriminate Hn; destruct n; discriminate Hn|]). destruct E.
Qed.
Lemma gone_orderly u1 u2 p1 p2 t1 t2 oid : lib_orderly (gone_tr u1 u2 p1 p2 t1 t2 oid).
Proof.
  split.
  - intros tr1 c tr2 E n c' Hn Ho. apply before_calls_in in E. no_overlap E.
    repeat (destruct E as [E|E]; [injection E as <- <-; cbn [id_calls] in Hn; repeat (destruct n as [|n]; cbn [nth_error] in Hn; [injection Hn as <-; first [destruct (lookup_no_odds _ _ _ Ho)|eexists; find_in]|]); try discriminate Hn; destruct n; discriminate Hn|]). destruct E.
  - intros tr1 c tr2 E n c' Hn Ho. apply lib_before_in in E. no_overlap E.
    repeat (destruct E as [E|E]; [injection E as <- <-; cbn [lib_calls] in Hn; repeat (destruct n as [|n]; cbn [nth_error] in Hn; [injection Hn as <-; eexists; find_in|]); try discriminate Hn; destruct n; discriminate Hn|]). destruct E.
Qed.
Lemma search_case : exists u1 u2 p1 p2 t1 t2 oid pool' w', demo_setting (search_tr u1 u2 p1 p2 t1 t2 oid) pool' w'.
Proof.
  destruct search_run as (u1 & u2 & p1 & p2 & t1 & t2 & oid & pool' & w' & H & Hd & St1 & St2). exists u1, u2, p1, p2, t1, t2, oid, pool', w'.
  split; [split; [exact Logic.I|]; intros id dt Hl; now apply (proj1 (proj2 demo_fresh))|]. split; [exact H|]. split; [split|].
  { intros c Hc. cbn in Hc. repeat (destruct Hc as [<-|Hc]; [first [exact Logic.I|exact all_lt]|]). destruct Hc. }
  { intros c o Hc Ho. cbn in Hc. repeat (destruct Hc as [Hc|Hc]; [first [discriminate Hc|injection Hc as <-; discriminate Ho]|]). destruct Hc. }
  split; [apply search_orderly|]. split; [apply ov_ids; exact Hd|]. split; [split|].
  { intros tr1 c tr2 j bb E _ _ Hnm. apply before_calls_in in E. no_overlap E.
    repeat (destruct E as [E|E]; [injection E as <- <-; cbn [sa_names] in Hnm; first [discriminate Hnm|injection Hnm as <-; first [exists 0%nat; left; exists p1; find_in|exists 2%nat; left; exists p2; find_in]]|]). destruct E. }
  { intros tr1 c tr2 j b E _ _ Ho. exfalso. apply lib_before_in in E. no_overlap E.
    repeat (destruct E as [E|E]; [first [discriminate E|injection E as <- <-; discriminate Ho]|]). destruct E. }
  split; [|split; [reflexivity|]; split; [cbn; lia|exact dogs_differ]].
  intros tr1 c tr2 tk E Htk _. apply before_calls_in in E. no_overlap E.
  repeat (destruct E as [E|E]; [injection E as <- <-; cbn [sa_token] in Htk; first [discriminate Htk|injection Htk as <-; first
    [exists u1, t1, 1%nat, p1, t1, (time_unix T1); split; [reflexivity|]; split; [reflexivity|]; split; [find_in|exact St1]
    |exists u2, t2, 3%nat, p2, t2, (time_unix T1); split; [reflexivity|]; split; [reflexivity|]; split; [find_in|exact St2]]]|]). destruct E.
Qed.
Lemma gone_case : exists u1 u2 p1 p2 t1 t2 oid pool' w', demo_setting (gone_tr u1 u2 p1 p2 t1 t2 oid) pool' w'.
Proof.
  destruct gone_run as (u1 & u2 & p1 & p2 & t1 & t2 & oid & pool' & w' & H & Hd & St1 & St2 & Wo). exists u1, u2, p1, p2, t1, t2, oid, pool', w'.
  split; [split; [exact Logic.I|]; intros id dt Hl; now apply (proj1 (proj2 demo_fresh))|]. split; [exact H|]. split; [split|].
  { intros c Hc. cbn in Hc. repeat (destruct Hc as [<-|Hc]; [first [exact Logic.I|exact all_lt]|]). destruct Hc. }
  { intros c o Hc Ho. cbn in Hc. repeat (destruct Hc as [Hc|Hc]; [first [discriminate Hc|injection Hc as <-; first [discriminate Ho|injection Ho as <-; exact Wo]]|]). destruct Hc. }
  split; [apply gone_orderly|]. split; [apply ov_ids; exact Hd|]. split; [split|].
  { intros tr1 c tr2 j bb E _ _ Hnm. apply before_calls_in in E. no_overlap E.
    repeat (destruct E as [E|E]; [injection E as <- <-; cbn [sa_names] in Hnm; first [discriminate Hnm|injection Hnm as <-; first [exists 0%nat; left; exists p1; find_in|exists 2%nat; left; exists p2; find_in]]|]). destruct E. }
  { intros tr1 c tr2 j b E _ _ Ho. apply lib_before_in in E. no_overlap E.
    repeat (destruct E as [E|E]; [first [discriminate E|injection E as <- <-; first [discriminate Ho|injection Ho as <-; exists 4%nat; find_in]]|]). destruct E. }
  split; [|split; [reflexivity|]; split; [cbn; lia|intros a b c c' []]].
  intros tr1 c tr2 tk E Htk _. apply before_calls_in in E. no_overlap E.
  repeat (destruct E as [E|E]; [injection E as <- <-; cbn [sa_token] in Htk; first [discriminate Htk|injection Htk as <-; first
    [exists u1, t1, 1%nat, p1, t1, (time_unix T1); split; [reflexivity|]; split; [reflexivity|]; split; [find_in|exact St1]
    |exists u2, t2, 3%nat, p2, t2, (time_unix T1); split; [reflexivity|]; split; [reflexivity|]; split; [find_in|exact St2]]]|]). destruct E.
Qed.
