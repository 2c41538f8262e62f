(** Calls of all three kinds that overlap, for C74: a user encrypts an object, searches the index and is
    deleted, all at the same time. *)
From Coq Require Import ZifyN ZifyNat.
From stdpp Require Import gmap.
From Verif Require Import Bytes Go Json JsonProofs Uuid UuidProofs Time Types World Logic Cryptor Io IoSpec IoProofs Id Data D1 D1Proofs D1Props Spec D1Refine D1ConcSpec D1Conc Demo
  Standalone StandaloneSpec SaConcSpec StandaloneRefine StandaloneHist StandaloneDemo SaConcDemo IdAuthority History Sched Authority
  Index IndexSpec IndexConcSpec IndexOwnSpec IndexProofs IndexRefine IndexHist IndexDemo Foot Lib LibSpec LibHist LibCor LibDemo LibHonest LibHistDemo LibConcSpec LibTouch.
Local Open Scope bool_scope.
Local Open Scope N_scope.

Section Run.
  Context {S I : Type} (e : env) (v : view S) (io : provider S) (L : lib) (fuel : nat).
  Notation W := (world S I).
  (** Part of a call runs to its end. *)
  Lemma lib_runs {A} (C : prog W A -> prog W lib_reply) : (forall X (f : W -> X * W) q, C (Step f q) = Step f (fun x => C (q x))) ->
    forall (p : prog W A) w r w' t, run p w = (r, w') -> forall pool tr pool' w2, pool !! t = Some (C p) ->
    lib_conc e v io L fuel (<[t := C (Ret r)]> pool) w' tr pool' w2 -> lib_conc e v io L fuel pool w tr pool' w2.
  Proof.
    intros HC p. induction p as [a|X f q IH]; intros w r w' t H pool tr pool' w2 Hp HR; cbn [run] in H.
    - injection H as <- <-. now rewrite list_insert_id in HR by exact Hp.
    - rewrite HC in Hp. eapply lc_step; [exact Hp|]. destruct (f w) as [x w1]. cbn [fst snd].
      eapply IH; [exact H|apply list_lookup_insert; eapply lookup_lt_Some; exact Hp|]. now rewrite list_insert_insert.
  Qed.
  (** An object or index call whose token lookup has got to [p]. *)
  Definition obj_from (c : d1_call) (p : prog W (res identity)) : prog W lib_reply := bind (d1_aes e io (fun _ => p) (l_d1 L) c) (fun r => Ret (LObject r)).
  Definition ix_from (c : ix_call) (p : prog W (res identity)) : prog W lib_reply := bind (ix_do e io (fun _ => p) (l_iek L) fuel c) (fun r => Ret (LIndex r)).
  Lemma obj_from_step tok obj gs X (f : W -> X * W) q : obj_from (CEncrypt tok obj gs) (Step f q) = Step f (fun x => obj_from (CEncrypt tok obj gs) (q x)).
  Proof. reflexivity. Qed.
  Lemma ix_from_step tok kw X (f : W -> X * W) q : ix_from (ISearch tok kw) (Step f q) = Step f (fun x => ix_from (ISearch tok kw) (q x)).
  Proof. reflexivity. Qed.
  Lemma tch_run (T : N -> Prop) {A} (p : prog W A) : forall w r w', tch v T p -> v_inv v (w_io w) -> run p w = (r, w') -> shift v T w w'.
  Proof.
    induction p as [a|X f q IH]; intros w r w' H Hi E; cbn [run] in E.
    - injection E as _ <-. split; [exact Hi|]. split; [lia|reflexivity].
    - destruct (H w Hi) as [H1 H2]. destruct (f w) as [x w1]. cbn [fst snd] in *. destruct (IH _ _ _ _ H2 (proj1 H1) E) as (K1 & K2 & K3). destruct H1 as (G1 & G2 & G3).
      split; [exact K1|]. split; [lia|]. intros id dt Hn. now rewrite K3, G3.
  Qed.
  Lemma run_map {A B} (f : A -> B) (p : prog W A) w : run (bind p (fun r => Ret (f r))) w = (f (fst (run p w)), snd (run p w)).
  Proof. rewrite LibHist.run_bind. reflexivity. Qed.
  (** What they draw from the random source. *)
  Lemma within_encrypt q tok obj gs : within 5 (obj_from (CEncrypt tok obj gs) (Ret q)).
  Proof.
    unfold obj_from, d1_aes. cbn [d1_do]. unfold ret_map. apply (within_bind _ _ 5 0); [|intros; exact Logic.I]. apply (within_bind _ _ 5 0); [|intros; exact Logic.I].
    unfold d1_encrypt. apply (within_bindR _ _ 0 5); [unfold verify_access; cbn [bind]; destruct q; try exact Logic.I; destruct (scope_contains _ _); exact Logic.I|intros i].
    apply (within_bindR _ _ 1 4); [apply within_new_v4|intros oid].
    apply (within_bindR _ _ 2 2); [unfold object_seal; apply (within_bindR _ _ 2 0); [apply within_enc|intros [? ?]; exact Logic.I]|intros [dek so]].
    apply (within_bindR _ _ 0 2); [apply within_lift|intros g].
    apply (within_bindR _ _ 2 0); [unfold access_seal, encrypt_json; apply (within_bindR _ _ 2 0); [apply (within_enc)|intros [? ?]; exact Logic.I]|intros sa].
    apply (within_bindR _ _ 0 0); [unfold put_sealed_object; apply within_map_err, within_io|intros]. apply (within_bindR _ _ 0 0); [unfold put_sealed_access; apply within_map_err, within_io|intros]. exact Logic.I.
  Qed.
  Lemma within_next tk kek n : within 0 (get_next_node e io tk kek n : prog W _).
  Proof.
    unfold get_next_node, get_sealed_node, node_unseal. apply (within_bindR _ _ 0 0); [apply within_lift|intros l].
    apply (within_bindR _ _ 0 0); [|intros sn; apply within_dec]. apply (within_bindR _ _ 0 0); [apply within_map_err, within_io|intros b]. destruct (unmarshal _ b); exact Logic.I.
  Qed.
  Lemma within_search q tok kw : within 0 (ix_from (ISearch tok kw) (Ret q)).
  Proof.
    unfold ix_from. cbn [ix_do]. unfold ret_map. apply (within_bind _ _ 0 0); [|intros; exact Logic.I]. apply (within_bind _ _ 0 0); [|intros; exact Logic.I].
    unfold ix_search. apply (within_bindR _ _ 0 0); [unfold ix_verify; cbn [bind]; destruct q; try exact Logic.I; destruct (scope_contains _ _); exact Logic.I|intros _].
    apply (within_bindR _ _ 0 0); [apply within_lift|intros [tk kek]]. generalize node_zero, (@nil bytes). induction fuel as [|n IH]; intros nd l; [exact Logic.I|]. cbn [search_loop].
    apply (within_bind _ _ 0 0); [apply within_next|intros [a|x|]; [apply IH|destruct x; exact Logic.I|exact Logic.I]].
  Qed.
End Run.

(** The observations: the object call and the index call get their token looked up, the user is deleted,
    and both calls go on. *)
Definition overlap_tr (u p t : bytes) (oid : uuid) : list lib_obs :=
  [LCall (OnIdentity (SNewUser [ScopeAll])); LReply 0 (LIdentity (Ok (SRUser u p)));
   LCall (OnIdentity (SLogin u p)); LReply 1 (LIdentity (Ok (SRToken t (time_unix T1))));
   LCall (OnObject (CEncrypt t demo_obj [])); LCall (OnIndex (ISearch t dog)); LCall (OnIdentity (SDeleteUser t u));
   LReply 4 (LIdentity (Ok SRUnit)); LReply 3 (LIndex (Ok (IRIds []))); LReply 2 (LObject (Ok (ROid oid)))].
Lemma overlap_orderly u p t oid : lib_orderly (overlap_tr u p t oid).
Proof.
  split.
  - intros tr1 c tr2 E n c' Hn Ho. apply before_calls_in in E. cbn [overlap_tr id_part flat_map app id_call before_calls map fst snd In] in E.
    destruct E as [E|[E|[E|[E|[E|[]]]]]]; injection E as <- <-; cbn [id_calls] in Hn.
    + destruct n; discriminate.
    + destruct n as [|[|n]]; try discriminate. eexists. right. now left.
    + destruct n as [|[|[|n]]]; try discriminate; eexists; cbn; eauto 20.
    + destruct n as [|[|[|[|n]]]]; try discriminate; [eexists; cbn; eauto 20..|]. injection Hn as <-. exfalso.
      destruct Ho as [(x & [([] & _)|([] & _)])|(x & [([] & _)|([] & _)])].
    + destruct n as [|[|[|[|[|n]]]]]; try discriminate; [eexists; cbn; eauto 20..| |]; injection Hn as <-; exfalso;
        destruct Ho as [(x & [([] & _)|([] & _)])|(x & [(_ & [[]|[]])|(_ & [])])].
  - intros tr1 c tr2 E n c' Hn Ho. exfalso.
    assert (HI : In c' (lib_calls (overlap_tr u p t oid))). { apply nth_error_In in Hn. rewrite E. clear -Hn. induction tr1 as [|[x|k r] tr1 IH]; cbn [app lib_calls] in *; [destruct Hn|destruct Hn; [left|right]; auto|auto]. }
    assert (HJ : In c (lib_calls (overlap_tr u p t oid))). { rewrite E. clear. induction tr1 as [|[x|k r] tr1 IH]; cbn [app lib_calls]; [now left|right; exact IH|exact IH]. }
    cbn [overlap_tr lib_calls In] in HI, HJ.
    destruct HI as [<-|[<-|[<-|[<-|[<-|[]]]]]], HJ as [<-|[<-|[<-|[<-|[<-|[]]]]]]; cbn [lib_odds] in Ho; try exact Ho.
    + destruct Ho as ((o & X & _) & _). discriminate X.
    + destruct Ho as [_ X]. apply X. split; exact Logic.I.
Qed.

Lemma obj_rest t w i : v_inv mem_view (w_io w) -> (forall id dt, d1_writes dt -> v_map mem_view (w_io w) id dt = None) -> i_scopes i = ScopeAll ->
  exists oid w', run (obj_from ov_env Mem lib_demo (CEncrypt t demo_obj []) (Ret (Ok i))) (w : DW) = (LObject (Ok (ROid oid)), w').
Proof.
  intros Hi Hn Hs. unfold obj_from. rewrite run_map. destruct (run (d1_aes ov_env Mem (fun _ => Ret (Ok i)) (l_d1 lib_demo) (CEncrypt t demo_obj [])) w) as [r w'] eqn:E. cbn [fst snd].
  assert (R : rep (l_d1 lib_demo) (fun _ => true) (v_map mem_view (w_io w)) ∅) by (apply fresh_rep; split; [exact Hi|]; intros oid dt _ [-> | ->]; apply Hn; unfold d1_writes; auto).
  destruct (spec_sim ov_env mem_view Mem (mem_spec False) (fun _ => Ret (Ok i)) (fun _ _ _ H => conj H Logic.I) (l_d1 lib_demo) (fun _ => true) w _ r w' ∅ E Hi R ltac:(discriminate) ltac:(unfold ev_in; destruct (ev_oid _); reflexivity)) as (m & S & _).
  unfold outside_of in S. cbn [call_token spec_step o_who o_rng_fails o_id with_scope whois run fst snd] in S. rewrite ov_draw in S. cbn [res_map] in S. unfold with_scope in S.
  destruct S as [(N & _)|(_ & [(X & _)|(oid & Eo & S)])]; [destruct (N (may_all i ScopeEncrypt Hs eq_refl))|destruct (ov_rng _ X)|]. rewrite lookup_empty in S. destruct S as [-> _]. eauto.
Qed.
Lemma ix_rest t w i : ix_fresh mem_view w -> i_scopes i = ScopeAll ->
  exists w', run (ix_from ov_env Mem lib_demo 9 (ISearch t dog) (Ret (Ok i))) (w : DW) = (LIndex (Ok (IRIds [])), w').
Proof.
  intros Hf Hs. unfold ix_from. rewrite run_map. destruct (run (ix_do ov_env Mem (fun _ => Ret (Ok i)) (l_iek lib_demo) 9 (ISearch t dog)) w) as [r w'] eqn:E. cbn [fst snd].
  destruct (fresh_state mem_view (l_iek lib_demo) [dog] 0 w Hf) as [St Cl].
  destruct (run_refines ov_env mem_view (fun _ => Ret (Ok i)) (fun _ _ _ H => conj H Logic.I) (l_iek lib_demo) eq_refl [dog] 0 ltac:(reflexivity) (differ_one dog) Mem (mem_spec False) 9 w _ w'
    (ir_call _ _ _ _ _ _ w _ r w' [] w' E (ir_nil _ _ _ _ _ _ w')) [] 0 _ _ St Cl ltac:(intros ev [<-|[]]; now left) ltac:(reflexivity) ltac:(reflexivity)) as (m & H & _).
  inversion H as [|? ? ? ? ? H1 _]; subst. unfold ix_outside_of in H1. cbn [ix_step ix_who iv_x iv_call iv_reply ix_allowed whois run fst ix_token] in H1. unfold ix_step, ix_allowed in H1. cbn [ix_who] in H1.
  destruct H1 as [(N & _)|(_ & -> & _)]; [destruct (N (may_all i ScopeIndex Hs eq_refl))|]. eauto.
Qed.

(** An identity call, run on its own. *)
Lemma lreach_run evs s w c : lreach evs s w -> sa_call_wf c -> (forall tok, lib_token (OnIdentity c) = Some tok -> exists uid, token_of uid tok evs) ->
  exists r w' s', let x := surr ov_env w (rng_failed ov_env w') in
    lreach (evs ++ [mkLibEvent x (OnIdentity c) (LIdentity r)]) s' w' /\ sa_step x c (ls_dir s) r (ls_dir s') /\ run (sa_aes ov_env Mem lib_sa c) w = (r, w') /\
    (w_draws w' <= w_draws w + 8)%nat /\ shift mem_view sa_writes w w'.
Proof.
  intros H Hwf Ht. destruct (lreach_next evs s w (OnIdentity c) H Hwf ltac:(discriminate) Ht ltac:(discriminate)) as (r & w' & s' & H1 & H2 & H3). cbn zeta in *.
  destruct r as [r|r|r]; cbn [lib_step] in H2; try contradiction. destruct H2 as (S1 & S2 & _).
  cbn [lib_do] in H3. rewrite run_map in H3. destruct (run (sa_aes ov_env Mem (l_sa lib_demo) c) w) as [r0 w0] eqn:E. cbn [fst snd] in H3. injection H3 as <- <-.
  exists r0, w0, s'. split; [exact H1|]. split; [exact S1|]. split; [exact E|]. split; [apply (run_within _ _ _ _ 8 E), within_call|].
  eapply tch_run; [|exact Logic.I|exact E]. apply (tch_sa ov_env mem_view Mem D1Conc.mem_cells mem_entrywise).
Qed.
Lemma identity_run t w r w' : run (sa_aes ov_env Mem lib_sa (SGetIdentity t)) (w : DW) = (r, w') -> exists q, run (sa_idp ov_env Mem lib_sa t) w = (q, w') /\ r = res_map SRIdentity q.
Proof.
  intros H. unfold sa_aes in H. cbn [sa_do] in H. rewrite run_ret_map in H. unfold sa_idp. destruct (run _ w) as [q w0]. cbn [fst snd] in H. injection H as <- <-. eauto.
Qed.
Lemma overlap_run : exists u p t oid pool' (w' : DW), let tr := overlap_tr u p t oid in
  lib_conc ov_env mem_view Mem lib_demo 9 [] demo_w tr pool' w' /\ (w_draws w' <= 256)%nat /\ same_token t t.
Proof.
  destruct (lreach_run _ _ _ (SNewUser [ScopeAll]) lreach_start all_lt ltac:(discriminate)) as (r1 & w1 & s1 & R1 & S1 & E1 & L1 & F1). cbn zeta in *.
  destruct (ov_id demo_w w1) as (b1 & X1 & Y1).
  destruct (new_ok _ _ _ _ _ b1 (ov_calm demo_w w1) (ov_any _ _) X1 (lookup_empty _) S1) as (p & sc1 & salt & -> & A1 & D1). clear S1 X1.
  apply all_is in A1 as ->. set (u := uuid_text (uuid_v4 b1)) in *. set (a := mkAccount ScopeAll salt (p ++ salt) ∅) in *.
  destruct (lreach_run _ _ _ (SLogin u p) R1 Logic.I ltac:(discriminate)) as (r2 & w2 & s2 & R2 & S2 & E2 & L2 & F2). cbn zeta in *.
  assert (B1 : d_users (ls_dir s1) !! u = Some a) by (rewrite D1; apply lookup_insert).
  destruct (login_ok _ _ _ _ _ _ a (ov_calm _ _) B1 eq_refl S2) as (t & -> & D2 & Z2). clear S2.
  assert (B2 : d_users (ls_dir s2) !! u = Some a) by (rewrite D2; exact B1).
  pose proof (login_token (surr ov_env w1 (rng_failed ov_env w2)) u p t (time_unix T1) [mkLibEvent (surr ov_env demo_w (rng_failed ov_env w1)) (OnIdentity (SNewUser [ScopeAll])) (LIdentity (Ok (SRUser u p)))] _ Z2) as K.
  assert (G0 : forall d g, g ∈ ac_groups a -> is_Some (d_groups d !! g)) by (intros d g Hg; cbn in Hg; now apply elem_of_empty in Hg).
  destruct (lreach_run _ _ _ (SGetIdentity t) R2 Logic.I ltac:(intros tok [= <-]; eauto)) as (r3 & w3 & s3 & R3 & S3 & E3 & L3 & F3). cbn zeta in *.
  apply identity_run in E3 as (q3 & E3 & Eq3). destruct S3 as (q & Q3 & Er3 & D3).
  destruct (caller_is _ _ _ _ _ _ _ (lreach_unique _ _ _ R2) Z2 B2 (G0 _) Q3) as (i3 & (_ & I3 & _) & ->). rewrite Er3 in Eq3. destruct q3 as [q3|?|]; try discriminate Eq3. injection Eq3 as <-. clear Q3 Er3.
  apply (token_later _ _ _ [mkLibEvent (surr ov_env w2 (rng_failed ov_env w3)) (OnIdentity (SGetIdentity t)) (LIdentity r3)]) in K.
  destruct (lreach_run _ _ _ (SGetIdentity t) R3 Logic.I ltac:(intros tok [= <-]; eauto)) as (r4 & w4 & s4 & R4 & S4 & E4 & L4 & F4). cbn zeta in *.
  apply identity_run in E4 as (q4 & E4 & Eq4). destruct S4 as (q & Q4 & Er4 & D4). pose proof (lreach_unique _ _ _ R3) as U3. rewrite D3 in Q4, U3.
  destruct (caller_is _ _ _ _ _ _ _ U3 Z2 B2 (G0 _) Q4) as (i4 & (_ & I4 & _) & ->). rewrite Er4 in Eq4. destruct q4 as [q4|?|]; try discriminate Eq4. injection Eq4 as <-. clear Q4 Er4.
  apply (token_later _ _ _ [mkLibEvent (surr ov_env w3 (rng_failed ov_env w4)) (OnIdentity (SGetIdentity t)) (LIdentity r4)]) in K.
  destruct (lreach_run _ _ _ (SDeleteUser t u) R4 Logic.I ltac:(intros tok [= <-]; eauto)) as (r5 & w5 & s5 & R5 & S5 & E5 & L5 & F5). cbn zeta in *.
  pose proof (lreach_unique _ _ _ R4) as U4. rewrite D4, D3 in S5, U4.
  assert (Er5 : r5 = Ok SRUnit).
  { destruct S5 as [(i & _ & -> & _)|(y & Q & _ & _)]; [reflexivity|]. destruct (caller_is w4 w5 _ _ _ _ _ U4 Z2 B2 (G0 _) Q) as (i & _ & [=]). }
  subst r5.
  assert (V : v_inv mem_view (w_io w5) /\ forall id dt, lib_data dt -> ~ sa_writes dt -> v_map mem_view (w_io w5) id dt = None).
  { split; [exact Logic.I|]. intros id dt Hl Hn. destruct F5 as (_ & _ & F5), F4 as (_ & _ & F4), F3 as (_ & _ & F3), F2 as (_ & _ & F2), F1 as (_ & _ & F1).
    rewrite F5, F4, F3, F2, F1 by exact Hn. now apply (proj1 (proj2 demo_fresh)). }
  destruct V as [Vi V].
  destruct (ix_rest t w5 i4) as (w6 & E6); [split; [exact Vi|intros id; apply V; [right; left; reflexivity|intros [X|X]; discriminate X]]|exact I4|].
  assert (F6 : shift mem_view ix_writes w5 w6).
  { eapply (tch_run mem_view ix_writes (ix_from ov_env Mem lib_demo 9 (ISearch t dog) (Ret (Ok i4)))); [|exact Vi|exact E6].
    unfold ix_from. apply tch_bind; [|intros; exact Logic.I]. apply (tch_ix ov_env mem_view Mem); auto using D1Conc.mem_cells, mem_entrywise. }
  destruct (obj_rest t w6 i3) as (oid & w7 & E7); [exact (proj1 F6)| |exact I3|].
  { intros id dt Hd. rewrite (proj2 (proj2 F6)) by (intros ->; destruct Hd as [X|X]; discriminate X). apply V; [now left|]. intros [-> | ->]; destruct Hd as [X|X]; discriminate X. }
  pose proof (run_within _ _ _ _ 0 E6 (within_search ov_env Mem lib_demo 9 _ t dog)) as L6. pose proof (run_within _ _ _ _ 5 E7 (within_encrypt ov_env Mem lib_demo _ t demo_obj [])) as L7.
  exists u, p, t, oid. do 2 eexists. cbn zeta. split; [|split; [|destruct Z2 as (z & _ & (y & _ & Et) & _); exists y; auto]].
  - unfold overlap_tr. apply lc_call.
    eapply (lib_runs _ _ _ _ _ (fun q => bind q (fun r => Ret (LIdentity r)))) with (t := 0%nat); [reflexivity|exact E1|reflexivity|]. cbn [app insert list_insert bind].
    apply lc_reply; [reflexivity|]. apply lc_call.
    eapply (lib_runs _ _ _ _ _ (fun q => bind q (fun r => Ret (LIdentity r)))) with (t := 1%nat); [reflexivity|exact E2|reflexivity|]. cbn [app insert list_insert bind].
    apply lc_reply; [reflexivity|]. apply lc_call. apply lc_call. apply lc_call. cbn [app].
    eapply (lib_runs _ _ _ _ _ (obj_from ov_env Mem lib_demo (CEncrypt t demo_obj []))) with (t := 2%nat); [apply obj_from_step|exact E3|reflexivity|].
    eapply (lib_runs _ _ _ _ _ (ix_from ov_env Mem lib_demo 9 (ISearch t dog))) with (t := 3%nat); [apply ix_from_step|exact E4|reflexivity|].
    eapply (lib_runs _ _ _ _ _ (fun q => bind q (fun r => Ret (LIdentity r)))) with (t := 4%nat); [reflexivity|exact E5|reflexivity|]. cbn [app insert list_insert].
    apply lc_reply; [reflexivity|].
    eapply (lib_runs _ _ _ _ _ (fun q => q)) with (t := 3%nat); [reflexivity|exact E6|reflexivity|]. cbn [insert list_insert].
    apply lc_reply; [reflexivity|].
    eapply (lib_runs _ _ _ _ _ (fun q => q)) with (t := 2%nat); [reflexivity|exact E7|reflexivity|]. cbn [insert list_insert].
    apply lc_reply; [reflexivity|]. apply lc_nil.
  - cbn [demo_w w_draws] in L1. lia.
Qed.
Lemma overlap_case : exists u p t oid pool' (w' : DW), let tr := overlap_tr u p t oid in
  lib_vacant mem_view demo_w /\ lib_conc ov_env mem_view Mem lib_demo 9 [] demo_w tr pool' w' /\ lib_wf tr /\ lib_orderly tr /\
  ids_differ ov_env (w_draws demo_w) (w_draws w') /\ lib_no_guess ov_env (w_draws demo_w) (w_draws w') tr /\ unforged (l_sa lib_demo) (id_part tr) /\
  N.of_nat (count_adds (index_calls (lib_calls tr))) < 2 ^ 64 /\ (count_adds (index_calls (lib_calls tr)) < 9)%nat /\
  labels_differ (l_iek lib_demo) (map ix_keyword (index_calls (lib_calls tr))) (N.of_nat (count_adds (index_calls (lib_calls tr)))).
Proof.
  destruct overlap_run as (u & p & t & oid & pool' & w' & H & Hd & St). exists u, p, t, oid, pool', w'. cbn zeta in *.
  split; [split; [exact Logic.I|]; intros id dt Hl; now apply (proj1 (proj2 demo_fresh))|]. split; [exact H|]. split; [split|].
  { intros c Hc. cbn in Hc. destruct Hc as [<-|[<-|[<-|[<-|[<-|[]]]]]]; try exact Logic.I; exact all_lt. }
  { intros c o Hc Ho. cbn in Hc. destruct Hc as [Hc|[Hc|[Hc|[Hc|[Hc|[]]]]]]; try discriminate Hc. injection Hc as <-. discriminate Ho. }
  split; [apply overlap_orderly|]. split; [apply ov_ids; exact Hd|]. split; [split|].
  { intros tr1 c tr2 i bb E _ _ Hnm. apply before_calls_in in E. cbn [overlap_tr id_part flat_map app id_call call_token ix_token before_calls map fst snd In] in E.
    destruct E as [E|[E|[E|[E|[E|[]]]]]]; injection E as <- <-; cbn [sa_names] in Hnm; try discriminate; injection Hnm as <-; exists 0%nat; left; exists p; cbn; auto 20. }
  { intros tr1 c tr2 i b E _ _ Ho. exfalso. assert (HJ : In (OnObject c) (lib_calls (overlap_tr u p t oid))). { rewrite E. clear. induction tr1 as [|[x|k r] tr1 IH]; cbn [app lib_calls]; [now left|right; exact IH|exact IH]. }
    cbn in HJ. destruct HJ as [HJ|[HJ|[HJ|[HJ|[HJ|[]]]]]]; try discriminate HJ. injection HJ as <-. discriminate Ho. }
  split; [|split; [reflexivity|]; split; [cbn; lia|apply differ_one]].
  intros tr1 c tr2 tk E Htk _. apply before_calls_in in E. cbn [overlap_tr id_part flat_map app id_call call_token ix_token before_calls map fst snd In] in E.
  destruct E as [E|[E|[E|[E|[E|[]]]]]]; injection E as <- <-; cbn [sa_token] in Htk; try discriminate; injection Htk as <-;
    exists u, t, 1%nat, p, t, (time_unix T1); (split; [reflexivity|]; split; [reflexivity|]; split; [cbn; auto 20|exact St]).
Qed.
