(** A concrete history of the assembled library on the in-memory store, for C65 and C66. *)
From Coq Require Import ZifyN ZifyNat.
From stdpp Require Import gmap.
From Verif Require Import Bytes Base64 Go Json JsonProofs Uuid UuidProofs Time Types World Logic Io IoSpec IoProofs Id Data D1 D1Proofs Spec SpecProofs Demo Sched Authority Standalone StandaloneSpec
  StandaloneRefine StandaloneHist StandaloneDemo SaConcDemo IdAuthority Index IndexSpec IndexConcSpec IndexProofs IndexHist IndexDemo Lib LibSpec LibHist LibCor LibDemo LibHonest.
Local Open Scope bool_scope.
Local Open Scope N_scope.

Notation T0 := (mkT 0 0 0).
Notation T1 := (time_add T0 3600).
Notation run_to := (lib_quiet_run ov_env mem_view Mem lib_demo 9).

Lemma demo_fresh : lib_fresh mem_view lib_demo demo_w.
Proof. split; [exact Logic.I|]. split; [intros id dt [[-> | ->]|[-> |[-> | ->]]]; apply lookup_empty|]. split; [constructor|reflexivity]. Qed.
Lemma own_snoc evs ev : own_tokens evs -> (forall tok, lib_token (lv_call ev) = Some tok -> exists uid, token_of uid tok evs) ->
  (forall t, lv_call ev <> OnObject (CGetTokenContents t)) -> own_tokens (evs ++ [ev]).
Proof.
  intros H H1 H2 pre ev' post E. destruct post as [|y post'] using rev_ind; [|clear IHpost'].
  - apply app_inj_tail in E as [-> ->]. split; [exact H1|]. intros t Ht. destruct (H2 t Ht).
  - rewrite app_comm_cons, app_assoc in E. apply app_inj_tail in E as [-> ->]. exact (H _ _ _ eq_refl).
Qed.
Lemma quiet_snoc (w : DW) evs w1 c r w2 : run_to w evs w1 -> lib_call_wf c -> run (lib_do ov_env Mem lib_demo 9 c) w1 = (r, w2) ->
  run_to w (evs ++ [mkLibEvent (surr ov_env w1 (rng_failed ov_env w2)) c r]) w2.
Proof.
  intros H Hwf Hr. induction H as [w|w w0 evs w' HE Hf HR IH|w c' r' w0 evs w' Hwf' Hr' HR IH]; cbn [app].
  - eapply lq_call; [exact Hwf|exact Hr|constructor].
  - eapply lq_env; [exact HE|exact Hf|auto].
  - eapply lq_call; [exact Hwf'|exact Hr'|auto].
Qed.
Lemma token_later uid tok evs evs' : token_of uid tok evs -> token_of uid tok (evs ++ evs').
Proof. intros (ev & pw & s & n & Hin & H). exists ev, pw, s, n. split; [apply in_or_app; now left|exact H]. Qed.
Lemma apart_dog tok : token_key_apart lib_demo [ISearch tok dog].
Proof.
  split; cbn [lib_demo l_d1 l_iek l_sa].
  - intros [E|[E|E]]; vm_compute in E; discriminate E.
  - intros (c & [<-|[]] & H). exact (key_test_sound demo_iek dog fixed_keys _ lib_key_test (sa_fixed _ (or_intror (or_intror eq_refl))) H).
Qed.
(** Room for index calls with this keyword. *)
Definition two_dogs : list ix_call := [ISearch [] dog; ISearch [] dog].
Lemma apart_dogs is : (forall i, In i is -> ix_keyword i = dog) -> token_key_apart lib_demo is.
Proof.
  intros H. split; [apply (apart_dog [])|]. cbn [lib_demo l_d1 l_iek l_sa]. intros (c & Hin & E). rewrite (H c Hin) in E.
  exact (key_test_sound demo_iek dog fixed_keys _ lib_key_test (sa_fixed _ (or_intror (or_intror eq_refl))) E).
Qed.
Lemma dogs_apart : token_key_apart lib_demo two_dogs.
Proof. apply apart_dogs. intros i [<-|[<-|[]]]; reflexivity. Qed.
Lemma dogs_differ : labels_differ demo_iek [dog; dog] 1.
Proof. apply (differ_incl _ _ _ _ _ demo_differ); [intros kw [<-|[<-|[]]]; now left|lia]. Qed.
Lemma differ_one kw : labels_differ demo_iek [kw] 0.
Proof. intros a b c c' [<-|[]] [<-|[]] Hc Hc' _. split; [reflexivity|lia]. Qed.
Lemma all_is s : all_of [ScopeAll] s -> s = ScopeAll.
Proof.
  intros H. apply N.bits_inj. intros b. specialize (H b). destruct (N.testbit s b), (N.testbit ScopeAll b) eqn:E; auto.
  - destruct (proj1 H eq_refl) as (x & [<-|[]] & X). congruence.
  - apply H. exists ScopeAll. split; [now left|exact E].
Qed.
Lemma text_of b : as_text (uuid_text b) = uuid_text b.
Proof. apply sanitize_valid, uuid_text_valid. Qed.

(** Calls one after the other, with nothing in between. *)
Inductive lplain : list lib_event -> DW -> Prop :=
| lp_nil : lplain [] demo_w
| lp_snoc evs w x c r w' : lplain evs w -> (forall i, c <> OnIndex i) -> run (lib_do ov_env Mem lib_demo 9 c) w = (r, w') -> lplain (evs ++ [mkLibEvent x c r]) w'.
(** The events so far, the state and the world they lead to. *)
Definition lreach (evs : list lib_event) (s : lib_state) (w : DW) : Prop :=
  run_to demo_w evs w /\ HI mem_view lib_demo two_dogs 1 evs 0 s w /\ own_tokens evs /\ lplain evs w.
Lemma lreach_start : lreach [] lib_empty demo_w.
Proof.
  split; [constructor|]. split; [apply HI_fresh, demo_fresh|]. split; [|constructor]. intros pre ev post E. destruct pre; discriminate E.
Qed.
Lemma lreach_unique evs s w : lreach evs s w -> unique (ls_dir s).
Proof. intros (_ & ((pre & f & _ & H) & _) & _). eapply dir_unique, H. Qed.
Lemma lreach_next evs s w c : lreach evs s w -> lib_call_wf c -> (forall i, c <> OnIndex i) ->
  (forall tok, lib_token c = Some tok -> exists uid, token_of uid tok evs) -> (forall t, c <> OnObject (CGetTokenContents t)) ->
  exists r w' s', let x := surr ov_env w (rng_failed ov_env w') in
    lreach (evs ++ [mkLibEvent x c r]) s' w' /\ lib_step x c s r s' /\ run (lib_do ov_env Mem lib_demo 9 c) w = (r, w').
Proof.
  intros (H1 & H2 & H3 & H4) Hwf Hni Htok Hnt. destruct (run (lib_do ov_env Mem lib_demo 9 c) w) as [r w'] eqn:Er. exists r, w'.
  destruct (HI_call ov_env mem_view Mem (mem_spec False) lib_demo 9 ov_clock eq_refl two_dogs dogs_apart 1 eq_refl dogs_differ evs 0 s w c r w' H2 Hwf
    ltac:(intros i E; destruct (Hni i E)) ltac:(destruct c; [discriminate|destruct (Hni _ eq_refl)|discriminate]) ltac:(reflexivity) Htok ltac:(intros t E; destruct (Hnt t E)) Er) as (s' & S & H).
  exists s'. cbn zeta. split; [|auto]. split; [now apply quiet_snoc|]. split; [|split; [now apply own_snoc|now apply lp_snoc with (w := w)]].
  destruct c; [exact H|destruct (Hni _ eq_refl)|exact H].
Qed.
(** An identity call. *)
Lemma lreach_id evs s w c : lreach evs s w -> sa_call_wf c -> (forall tok, lib_token (OnIdentity c) = Some tok -> exists uid, token_of uid tok evs) ->
  exists r w' s', let x := surr ov_env w (rng_failed ov_env w') in
    lreach (evs ++ [mkLibEvent x (OnIdentity c) (LIdentity r)]) s' w' /\ sa_step x c (ls_dir s) r (ls_dir s') /\ ls_objects s' = ls_objects s /\
    w' = snd (run (sa_aes ov_env Mem lib_sa c) w).
Proof.
  intros H Hwf Ht. destruct (lreach_next evs s w (OnIdentity c) H Hwf ltac:(discriminate) Ht ltac:(discriminate)) as (r & w' & s' & H1 & H2 & H3). cbn zeta in *.
  destruct r as [r|r|r]; cbn [lib_step] in H2; try contradiction. destruct H2 as (S1 & S2 & _). exists r, w', s'. split; [exact H1|]. split; [exact S1|]. split; [exact S2|].
  cbn [lib_do] in H3. rewrite LibHist.run_bind in H3. cbn [run] in H3. injection H3 as _ <-. reflexivity.
Qed.
(** An object call. *)
Lemma lreach_obj evs s w c : lreach evs s w -> (forall o, call_oid c = Some o -> uuid_wf o) -> (forall tok, call_token c = Some tok -> exists uid, token_of uid tok evs) ->
  (forall t, c <> CGetTokenContents t) ->
  exists r w' s' who, let x := surr ov_env w (rng_failed ov_env w') in
    lreach (evs ++ [mkLibEvent x (OnObject c) (LObject r)]) s' w' /\ caller x (ls_dir s) (call_token c) who /\
    spec_step (mkOutside who (x_rng_fails x) (res_map uuid_v4 (x_draw x 0 16))) c (ls_objects s) r (ls_objects s') /\ ls_dir s' = ls_dir s.
Proof.
  intros H Hwf Ht Hn. destruct (lreach_next evs s w (OnObject c) H Hwf ltac:(discriminate) Ht ltac:(intros t [= E]; exact (Hn t E))) as (r & w' & s' & H1 & H2 & _). cbn zeta in *.
  destruct r as [r|r|r]; cbn [lib_step] in H2; try contradiction. destruct H2 as (who & S1 & S2 & S3 & _). exists r, w', s', who. auto.
Qed.
Lemma login_token x u p t n evs d : says d t u T1 -> token_of u t (evs ++ [mkLibEvent x (OnIdentity (SLogin u p)) (LIdentity (Ok (SRToken t n)))]).
Proof.
  intros (z & _ & E & _). eexists. exists p, t, n. split; [apply in_or_app; right; left; reflexivity|]. split; [reflexivity|]. split; [reflexivity|].
  eapply same_token_trans; [apply same_token_sym; exact E|exact E].
Qed.

(** Two users, both logged in. *)
Notation "c ~> r @ x" := (mkLibEvent x (OnIdentity c) (LIdentity r)) (at level 50).
Notation "c => r @ x" := (mkLibEvent x (OnObject c) (LObject r)) (at level 50).
Lemma ov_id w w' : exists b, x_draw (surr ov_env w (rng_failed ov_env (w' : DW))) 0 16 = Ok b /\ draw ov_env (w_draws (w : DW)) 16 = Ok b.
Proof. rewrite ov_draw. cbn [x_draw surr]. rewrite Nat.add_0_r, ov_draw. eauto. Qed.
Lemma ov_any (w w' : DW) i n : exists b, x_draw (surr ov_env w (rng_failed ov_env w')) i n = Ok b.
Proof. cbn [x_draw surr]. rewrite ov_draw. eauto. Qed.
Lemma ov_later (w : DW) b b0 : (0 < w_draws w)%nat -> draw ov_env 0 16 = Ok b0 -> draw ov_env (w_draws w) 16 = Ok b -> uuid_text (uuid_v4 b0) <> uuid_text (uuid_v4 b).
Proof. intros H H0 Hb. exact (ov_first 0 (w_draws w) b0 b H ltac:(lia) H0 Hb). Qed.

Lemma lib_two : exists x1 x2 x3 x4 u1 u2 p1 p2 t1 t2 s w a1 a2 b0,
  lreach [SNewUser [ScopeAll] ~> Ok (SRUser u1 p1) @ x1; SLogin u1 p1 ~> Ok (SRToken t1 (time_unix T1)) @ x2;
          SNewUser [ScopeAll] ~> Ok (SRUser u2 p2) @ x3; SLogin u2 p2 ~> Ok (SRToken t2 (time_unix T1)) @ x4] s w /\
  calm x2 /\ calm x4 /\ draw ov_env 0 16 = Ok b0 /\ u1 = uuid_text (uuid_v4 b0) /\ as_text u2 = u2 /\ u1 <> u2 /\ (0 < w_draws w)%nat /\
  says (ls_dir s) t1 u1 T1 /\ says (ls_dir s) t2 u2 T1 /\ d_users (ls_dir s) !! u1 = Some a1 /\ d_users (ls_dir s) !! u2 = Some a2 /\
  ac_groups a1 = ∅ /\ ac_groups a2 = ∅ /\ ac_scopes a1 = ScopeAll /\ ac_scopes a2 = ScopeAll /\ d_groups (ls_dir s) = ∅ /\ ls_objects s = ∅.
Proof.
  destruct (lreach_id _ _ _ (SNewUser [ScopeAll]) lreach_start all_lt ltac:(discriminate)) as (r1 & w1 & s1 & R1 & S1 & O1 & E1). cbn zeta in *.
  destruct (ov_id demo_w w1) as (b1 & X1 & Y1).
  destruct (new_ok _ _ _ _ _ b1 (ov_calm demo_w w1) (ov_any _ _) X1 (lookup_empty _) S1) as (p1 & sc1 & salt1 & -> & A1 & D1). clear S1 X1.
  apply all_is in A1 as ->. set (u1 := uuid_text (uuid_v4 b1)) in *. set (a1 := mkAccount ScopeAll salt1 (p1 ++ salt1) ∅) in *.
  pose proof (new_user_draws ov_env Mem lib_sa [ScopeAll] demo_w) as L1. rewrite <- E1 in L1. cbn [demo_w w_draws] in L1.
  destruct (lreach_id _ _ _ (SLogin u1 p1) R1 Logic.I ltac:(discriminate)) as (r2 & w2 & s2 & R2 & S2 & O2 & E2). cbn zeta in *.
  assert (B1 : d_users (ls_dir s1) !! u1 = Some a1) by (rewrite D1; apply lookup_insert).
  destruct (login_ok _ _ _ _ _ _ a1 (ov_calm _ _) B1 eq_refl S2) as (t1 & -> & D2 & Z2). clear S2.
  pose proof (run_grows lib_sa (SLogin u1 p1) w1) as L2. rewrite <- E2 in L2.
  destruct (lreach_id _ _ _ (SNewUser [ScopeAll]) R2 all_lt ltac:(discriminate)) as (r3 & w3 & s3 & R3 & S3 & O3 & E3). cbn zeta in *.
  destruct (ov_id w2 w3) as (b2 & X3 & Y3). pose proof (ov_later w2 b2 b1 ltac:(lia) Y1 Y3) as N12. fold u1 in N12. pose proof S3 as S3'.
  assert (B0 : d_users (ls_dir s2) !! uuid_text (uuid_v4 b2) = None).
  { rewrite D2, D1. cbn [d_users add_session set_users dir_empty]. rewrite lookup_insert_ne by exact N12. apply lookup_empty. }
  destruct (new_ok _ _ _ _ _ b2 (ov_calm w2 w3) (ov_any _ _) X3 B0 S3) as (p2 & sc2 & salt2 & -> & A2 & D3).
  clear S3 X3. apply all_is in A2 as ->. set (u2 := uuid_text (uuid_v4 b2)) in *. set (a2 := mkAccount ScopeAll salt2 (p2 ++ salt2) ∅) in *.
  pose proof (run_grows lib_sa (SNewUser [ScopeAll]) w2) as L3. rewrite <- E3 in L3.
  destruct (lreach_id _ _ _ (SLogin u2 p2) R3 Logic.I ltac:(discriminate)) as (r4 & w4 & s4 & R4 & S4 & O4 & E4). cbn zeta in *. pose proof S4 as S4'.
  assert (B2 : d_users (ls_dir s3) !! u2 = Some a2) by (rewrite D3; apply lookup_insert).
  destruct (login_ok _ _ _ _ _ _ a2 (ov_calm _ _) B2 eq_refl S4) as (t2 & -> & D4 & Z4). clear S4.
  pose proof (run_grows lib_sa (SLogin u2 p2) w3) as L4. rewrite <- E4 in L4.
  exists (surr ov_env demo_w (rng_failed ov_env w1)), (surr ov_env w1 (rng_failed ov_env w2)), (surr ov_env w2 (rng_failed ov_env w3)), (surr ov_env w3 (rng_failed ov_env w4)).
  exists u1, u2, p1, p2, t1, t2, s4, w4, a1, a2, b1.
  split; [exact R4|]. split; [apply ov_calm|]. split; [apply ov_calm|]. split; [exact Y1|]. split; [reflexivity|]. split; [apply text_of|]. split; [exact N12|]. split; [lia|].
  split; [eapply says_step; [exact S4'|]; eapply says_step; [exact S3'|exact Z2]|]. split; [exact Z4|].
  split; [rewrite D4, D3, D2, D1; cbn [d_users add_session set_users dir_empty]; rewrite lookup_insert_ne by congruence; apply lookup_insert|].
  split; [rewrite D4, D3; cbn [d_users add_session set_users dir_empty]; apply lookup_insert|].
  do 4 (split; [reflexivity|]). split; [rewrite D4, D3, D2, D1; reflexivity|]. now rewrite O4, O3, O2, O1.
Qed.

(** What a token is worth to a user with all scopes. *)
Lemma caller_is w w' d tok u a who : unique d -> says d tok u T1 -> d_users d !! u = Some a -> (forall g, g ∈ ac_groups a -> is_Some (d_groups d !! g)) ->
  caller (surr ov_env (w : DW) (rng_failed ov_env (w' : DW))) d (Some tok) who -> exists i, describes d u a i /\ who = Ok i.
Proof.
  intros U Y A G H. cbn [caller x_now surr clock ov_env] in H. destruct (resolve_ok _ _ _ _ _ U Y A H) as [X|(g & G1 & G2 & _)]; [exact X|]. destruct (G g G1). congruence.
Qed.
Lemma may_all i need : i_scopes i = ScopeAll -> scope_contains ScopeAll need = true -> scope_has (i_scopes i) need.
Proof. intros -> H. now apply scope_contains_has. Qed.

(** User 2 makes a group, takes user 1 into it and encrypts for it; user 1 decrypts. *)
Lemma lib_shared : exists x1 x2 x3 x4 x5 x6 x7 x8 x9 x10 u1 u2 p1 p2 t1 t2 g oid i s w,
  lreach [SNewUser [ScopeAll] ~> Ok (SRUser u1 p1) @ x1; SLogin u1 p1 ~> Ok (SRToken t1 (time_unix T1)) @ x2;
          SNewUser [ScopeAll] ~> Ok (SRUser u2 p2) @ x3; SLogin u2 p2 ~> Ok (SRToken t2 (time_unix T1)) @ x4;
          SNewGroup t2 [ScopeAll] ~> Ok (SRGroup g) @ x5; SAddUser t2 u1 [g] ~> Ok SRUnit @ x6;
          CEncrypt t2 demo_obj [g] => Ok (ROid oid) @ x7; CGetAccessGroups t2 oid => Ok (RGroups (Some {[u2; g]})) @ x8;
          SGetIdentity t1 ~> Ok (SRIdentity i) @ x9; CDecrypt t1 oid => Ok (RObject demo_obj) @ x10] s w /\
  calm x2 /\ calm x4 /\ calm x10 /\ u1 <> u2 /\ u1 <> g /\ uuid_wf oid /\ i_id i = u1 /\ i_groups i !! g = Some ScopeAll /\ i_scopes i = ScopeAll /\
  says (ls_dir s) t1 u1 T1 /\ says (ls_dir s) t2 u2 T1 /\
  exists a1 a2, d_users (ls_dir s) !! u1 = Some a1 /\ d_users (ls_dir s) !! u2 = Some a2 /\ ac_groups a1 = {[g]} /\ ac_groups a2 = {[g]} /\ d_groups (ls_dir s) !! g = Some ScopeAll /\ ac_scopes a1 = ScopeAll /\ ac_scopes a2 = ScopeAll.
Proof.
  destruct lib_two as (x1 & x2 & x3 & x4 & u1 & u2 & p1 & p2 & t1 & t2 & s & w & a1 & a2 & b0 & R & C2 & C4 & Hb0 & Eu1 & Tu2 & N12 & Dr & Y1 & Y2 & A1 & A2 & G1 & G2 & Z1 & Z2 & Gr & Ob).
  assert (K1 : token_of u1 t1 [SNewUser [ScopeAll] ~> Ok (SRUser u1 p1) @ x1; SLogin u1 p1 ~> Ok (SRToken t1 (time_unix T1)) @ x2;
          SNewUser [ScopeAll] ~> Ok (SRUser u2 p2) @ x3; SLogin u2 p2 ~> Ok (SRToken t2 (time_unix T1)) @ x4]).
  { exact (token_later _ _ _ [_; _] (login_token x2 u1 p1 t1 (time_unix T1) [_] _ Y1)). }
  assert (K2 : token_of u2 t2 [SNewUser [ScopeAll] ~> Ok (SRUser u1 p1) @ x1; SLogin u1 p1 ~> Ok (SRToken t1 (time_unix T1)) @ x2;
          SNewUser [ScopeAll] ~> Ok (SRUser u2 p2) @ x3; SLogin u2 p2 ~> Ok (SRToken t2 (time_unix T1)) @ x4]).
  { exact (login_token x4 u2 p2 t2 (time_unix T1) [_; _; _] _ Y2). }
  (* the group *)
  destruct (lreach_id _ _ _ (SNewGroup t2 [ScopeAll]) R all_lt ltac:(intros tok [= <-]; eauto)) as (r5 & w5 & s5 & R5 & S5 & O5 & _). cbn zeta in *.
  apply (token_later _ _ _ [mkLibEvent (surr ov_env w (rng_failed ov_env w5)) (OnIdentity (SNewGroup t2 [ScopeAll])) (LIdentity r5)]) in K1, K2.
  destruct (ov_id w w5) as (b & Xb & Yb). pose proof (ov_later w b b0 Dr Hb0 Yb) as N1g. rewrite <- Eu1 in N1g.
  assert (Q0 : forall g, g ∈ ac_groups a2 -> is_Some (d_groups (ls_dir s) !! g)) by (intros g Hg; rewrite G2 in Hg; now apply elem_of_empty in Hg).
  assert (Q1 : d_groups (ls_dir s) !! uuid_text (uuid_v4 b) = None) by (rewrite Gr; apply lookup_empty).
  pose proof (fun u t => says_step _ _ _ _ _ t u T1 S5) as P5.
  destruct (group_ok _ _ _ _ _ _ _ _ b (ov_calm w w5) (lreach_unique _ _ _ R) Y2 A2 Q0 Xb Q1 S5) as (sg & -> & Sg & D5). clear S5. apply all_is in Sg as ->.
  pose proof (text_of (uuid_v4 b)) as Tg. set (g := uuid_text (uuid_v4 b)) in *.
  set (a2' := mkAccount (ac_scopes a2) (ac_salt a2) (ac_hash a2) (ac_groups a2 ∪ {[g]})) in *.
  assert (A1' : d_users (ls_dir s5) !! u1 = Some a1) by (rewrite D5; cbn [d_users]; rewrite lookup_insert_ne by congruence; exact A1).
  assert (A2' : d_users (ls_dir s5) !! u2 = Some a2') by (rewrite D5; apply lookup_insert).
  assert (Gg : d_groups (ls_dir s5) !! g = Some ScopeAll) by (rewrite D5; apply lookup_insert).
  assert (E2' : ac_groups a2' = {[g]}) by (cbn [ac_groups a2']; rewrite G2; set_solver).
  assert (Q2 : forall g', g' ∈ ac_groups a2' -> is_Some (d_groups (ls_dir s5) !! g')) by (rewrite E2'; intros g' Hg; apply elem_of_singleton in Hg as ->; eauto).
  (* user 1 joins *)
  destruct (lreach_id _ _ _ (SAddUser t2 u1 [g]) R5 Logic.I ltac:(intros tok [= <-]; eauto)) as (r6 & w6 & s6 & R6 & S6 & O6 & _). cbn zeta in *.
  apply (token_later _ _ _ [mkLibEvent (surr ov_env w5 (rng_failed ov_env w6)) (OnIdentity (SAddUser t2 u1 [g])) (LIdentity r6)]) in K1, K2.
  pose proof (fun u t => says_step _ _ _ _ _ t u T1 S6) as P6.
  assert (Q3 : forall g', In g' [g] -> g' = u2 \/ g' ∈ ac_groups a2') by (intros g' [<-|[]]; right; rewrite E2'; now apply elem_of_singleton).
  destruct (add_ok _ _ _ _ _ _ _ _ _ _ (ov_calm _ _) (lreach_unique _ _ _ R5) (P5 _ _ Y2) A2' Q2 Q3 A1' S6) as [-> D6]. clear S6.
  set (a1' := mkAccount (ac_scopes a1) (ac_salt a1) (ac_hash a1) (ac_groups a1 ∪ list_to_set [g])) in *.
  assert (B1 : d_users (ls_dir s6) !! u1 = Some a1') by (rewrite D6; apply lookup_insert).
  assert (B2 : d_users (ls_dir s6) !! u2 = Some a2') by (rewrite D6; cbn [d_users set_users]; rewrite lookup_insert_ne by congruence; exact A2').
  assert (Gg6 : d_groups (ls_dir s6) !! g = Some ScopeAll) by (rewrite D6; exact Gg).
  assert (E1' : ac_groups a1' = {[g]}) by (cbn [ac_groups a1']; rewrite G1; set_solver).
  assert (V1 : forall g', g' ∈ ac_groups a1' -> is_Some (d_groups (ls_dir s6) !! g')) by (rewrite E1'; intros g' Hg; apply elem_of_singleton in Hg as ->; eauto).
  assert (V2 : forall g', g' ∈ ac_groups a2' -> is_Some (d_groups (ls_dir s6) !! g')) by (rewrite E2'; intros g' Hg; apply elem_of_singleton in Hg as ->; eauto).
  pose proof (P6 _ _ (P5 _ _ Y1)) as Y1'. pose proof (P6 _ _ (P5 _ _ Y2)) as Y2'.
  (* Encrypt *)
  destruct (lreach_obj _ _ _ (CEncrypt t2 demo_obj [g]) R6 ltac:(discriminate) ltac:(intros tok [= <-]; eauto) ltac:(discriminate)) as (r7 & w7 & s7 & who7 & R7 & W7 & S7 & D7). cbn zeta in *.
  apply (token_later _ _ _ [mkLibEvent (surr ov_env w6 (rng_failed ov_env w7)) (OnObject (CEncrypt t2 demo_obj [g])) (LObject r7)]) in K1, K2.
  destruct (caller_is _ _ _ _ _ _ _ (lreach_unique _ _ _ R6) Y2' B2 V2 W7) as (i2 & (I1 & I2 & _ & _) & ->). rewrite O6, O5, Ob in S7.
  destruct (ov_id w6 w7) as (bo & Xo & Yo). cbn [spec_step o_who o_rng_fails o_id with_scope] in S7. rewrite Xo in S7. cbn [res_map] in S7.
  assert (Sc : forall need, scope_contains ScopeAll need = true -> scope_has (i_scopes i2) need) by (intros need; apply may_all; cbn [ac_scopes a2'] in I2; congruence).
  destruct S7 as [(N & _)|(_ & [(X & _)|(oid & Eo & S7)])]; [destruct (N (Sc ScopeEncrypt eq_refl))|destruct (ov_rng _ X)|]. assert (Eo' : uuid_v4 bo = oid) by congruence. clear Eo. rewrite lookup_empty in S7. destruct S7 as [-> O7].
  assert (Wo : uuid_wf oid) by (rewrite <- Eo'; apply uuid_v4_wf; rewrite (ov_len _ _ _ Yo); reflexivity).
  assert (AC : list_to_set (map as_text [i_id i2; g]) = ({[u2; g]} : gset bytes)) by (cbn [map]; rewrite I1, Tu2, Tg; cbn; clear; set_solver). rewrite AC in O7.
  (* GetAccessGroups *)
  destruct (lreach_obj _ _ _ (CGetAccessGroups t2 oid) R7 ltac:(intros o [= <-]; exact Wo) ltac:(intros tok [= <-]; eauto) ltac:(discriminate)) as (r8 & w8 & s8 & who8 & R8 & W8 & S8 & D8). cbn zeta in *.
  apply (token_later _ _ _ [mkLibEvent (surr ov_env w7 (rng_failed ov_env w8)) (OnObject (CGetAccessGroups t2 oid)) (LObject r8)]) in K1, K2.
  pose proof (lreach_unique _ _ _ R7) as U7. rewrite D7 in W8, U7.
  destruct (caller_is _ _ _ _ _ _ _ U7 Y2' B2 V2 W8) as (i3 & (J1 & J2 & _ & _) & ->). rewrite O7 in S8.
  assert (Sc3 : forall need, scope_contains ScopeAll need = true -> scope_has (i_scopes i3) need) by (intros need; apply may_all; cbn [ac_scopes a2'] in J2; congruence).
  cbn [spec_step o_who o_rng_fails o_id with_access with_scope] in S8. unfold with_access, with_scope in S8. rewrite lookup_insert in S8.
  destruct S8 as [(N & _)|(_ & [(N & _)|(_ & -> & O8)])]; [destruct (N (Sc3 ScopeGetAccessGroups eq_refl))|destruct N; left; split; [rewrite J1; set_solver|now apply Sc3]|].
  (* GetIdentity *)
  destruct (lreach_id _ _ _ (SGetIdentity t1) R8 Logic.I ltac:(intros tok [= <-]; eauto)) as (r9 & w9 & s9 & R9 & S9 & O9 & _). cbn zeta in *.
  apply (token_later _ _ _ [mkLibEvent (surr ov_env w8 (rng_failed ov_env w9)) (OnIdentity (SGetIdentity t1)) (LIdentity r9)]) in K1, K2.
  destruct S9 as (q & Rq & -> & D9). pose proof (lreach_unique _ _ _ R8) as U8. rewrite D8, D7 in Rq, U8, D9.
  destruct (caller_is w8 w9 _ _ _ _ _ U8 Y1' B1 V1 Rq) as (i & (H1 & H2 & _ & H4) & ->). cbn [res_map] in R9.
  assert (Hi : i_scopes i = ScopeAll) by (cbn [ac_scopes a1'] in H2; congruence).
  assert (Hg : i_groups i !! g = Some ScopeAll) by (apply H4; split; [rewrite E1'; now apply elem_of_singleton|exact Gg6]).
  (* Decrypt *)
  destruct (lreach_obj _ _ _ (CDecrypt t1 oid) R9 ltac:(intros o [= <-]; exact Wo) ltac:(intros tok [= <-]; eauto) ltac:(discriminate)) as (r10 & w10 & s10 & who10 & R10 & W10 & S10 & D10). cbn zeta in *.
  pose proof (lreach_unique _ _ _ R9) as U9. rewrite D9 in W10, U9, D10.
  destruct (caller_is _ _ _ _ _ _ _ U9 Y1' B1 V1 W10) as (i' & (H1' & H2' & _ & H4') & ->). rewrite O9, O8 in S10.
  assert (Hi' : i_scopes i' = ScopeAll) by (cbn [ac_scopes a1'] in H2'; congruence).
  assert (Hg' : i_groups i' !! g = Some ScopeAll) by (apply H4'; split; [rewrite E1'; now apply elem_of_singleton|exact Gg6]).
  cbn [spec_step o_who o_rng_fails o_id] in S10. unfold with_access, with_scope in S10. rewrite lookup_insert in S10.
  destruct S10 as [(N & _)|(_ & [(N & _)|(_ & -> & _)])]; [destruct (N (may_all _ ScopeDecrypt Hi' eq_refl))| |].
  { destruct N. right. exists g, ScopeAll. split; [exact Hg'|]. split; [apply elem_of_union_r, elem_of_singleton; reflexivity|]. now apply scope_contains_has. }
  rewrite <- !app_assoc in R10. cbn [app] in R10.
  exists x1, x2, x3, x4. do 6 eexists. exists u1, u2, p1, p2, t1, t2, g, oid, i, s10, w10. split; [exact R10|].
  split; [exact C2|]. split; [exact C4|]. split; [apply ov_calm|]. split; [exact N12|]. split; [exact N1g|]. split; [exact Wo|]. split; [exact H1|]. split; [exact Hg|]. split; [exact Hi|].
  rewrite D10. split; [exact Y1'|]. split; [exact Y2'|]. exists a1', a2'. auto 10.
Qed.

(** User 1 is taken out of the group, may no longer decrypt, is deleted, and is not known to the index. *)
Definition life_start x1 x2 x3 x4 x5 x6 x7 x8 x9 u1 u2 p1 p2 t1 t2 g oid i : list lib_event :=
  [SNewUser [ScopeAll] ~> Ok (SRUser u1 p1) @ x1; SLogin u1 p1 ~> Ok (SRToken t1 (time_unix T1)) @ x2;
   SNewUser [ScopeAll] ~> Ok (SRUser u2 p2) @ x3; SLogin u2 p2 ~> Ok (SRToken t2 (time_unix T1)) @ x4;
   SNewGroup t2 [ScopeAll] ~> Ok (SRGroup g) @ x5; SAddUser t2 u1 [g] ~> Ok SRUnit @ x6;
   CEncrypt t2 demo_obj [g] => Ok (ROid oid) @ x7; CGetAccessGroups t2 oid => Ok (RGroups (Some {[u2; g]})) @ x8;
   SGetIdentity t1 ~> Ok (SRIdentity i) @ x9].
Lemma lib_life : exists x1 x2 x3 x4 x5 x6 x7 x8 x9 x10 x11 x12 x13 x14 u1 u2 p1 p2 t1 t2 g oid i w,
  let evs1 := life_start x1 x2 x3 x4 x5 x6 x7 x8 x9 u1 u2 p1 p2 t1 t2 g oid i in
  let evs := evs1 ++ [CDecrypt t1 oid => Ok (RObject demo_obj) @ x10; SRemoveUser t2 u1 [g] ~> Ok SRUnit @ x11; CDecrypt t1 oid => Err ED1NotAuthorized @ x12;
                      SDeleteUser t2 u1 ~> Ok SRUnit @ x13; mkLibEvent x14 (OnIndex (ISearch t1 dog)) (LIndex (Err EIxNotAuthenticated))] in
  run_to demo_w evs w /\ own_tokens evs /\ w_forged w = false /\ calm x2 /\ calm x4 /\ calm x10 /\
  u1 <> u2 /\ u1 <> g /\ i_id i = u1 /\ i_groups i !! g = Some ScopeAll /\ i_scopes i = ScopeAll /\ token_of u1 t1 evs1 /\ token_of u2 t2 evs1 /\ ~ same_token t2 t1.
Proof.
  destruct lib_shared as (x1 & x2 & x3 & x4 & x5 & x6 & x7 & x8 & x9 & x10 & u1 & u2 & p1 & p2 & t1 & t2 & g & oid & i & s & w & R & C2 & C4 & C10 & N12 & N1g & Wo & I1 & I2 & I3 & Y1 & Y2 & a1 & a2 & A1 & A2 & G1 & G2 & Gg & _).
  set (evs1 := life_start x1 x2 x3 x4 x5 x6 x7 x8 x9 u1 u2 p1 p2 t1 t2 g oid i).
  assert (K1 : token_of u1 t1 evs1) by exact (token_later _ _ _ [_; _; _; _; _; _; _] (login_token x2 u1 p1 t1 (time_unix T1) [_] _ Y1)).
  assert (K2 : token_of u2 t2 evs1) by exact (token_later _ _ _ [_; _; _; _; _] (login_token x4 u2 p2 t2 (time_unix T1) [_; _; _] _ Y2)).
  assert (NT : ~ same_token t2 t1).
  { intros E. destruct (lreach_unique _ _ _ R _ _ _ _ _ (says_same _ _ _ _ _ Y2 E) Y1) as [X _]. congruence. }
  pose proof (fun l => token_later _ _ _ l K1) as L1. pose proof (fun l => token_later _ _ _ l K2) as L2.
  assert (V1 : forall g', g' ∈ ac_groups a1 -> is_Some (d_groups (ls_dir s) !! g')) by (rewrite G1; intros g' Hg; apply elem_of_singleton in Hg as ->; eauto).
  assert (V2 : forall g', g' ∈ ac_groups a2 -> is_Some (d_groups (ls_dir s) !! g')) by (rewrite G2; intros g' Hg; apply elem_of_singleton in Hg as ->; eauto).
  change (lreach (evs1 ++ [CDecrypt t1 oid => Ok (RObject demo_obj) @ x10]) s w) in R.
  (* out of the group *)
  destruct (lreach_id _ _ _ (SRemoveUser t2 u1 [g]) R Logic.I ltac:(intros tok [= <-]; eauto)) as (r11 & w11 & s11 & R11 & S11 & O11 & _). cbn zeta in *. rewrite <- app_assoc in R11. cbn [app] in R11.
  pose proof (fun u t => says_step _ _ _ _ _ t u T1 S11) as P11.
  assert (Q3 : forall g', In g' [g] -> g' = u2 \/ g' ∈ ac_groups a2) by (intros g' [<-|[]]; right; rewrite G2; now apply elem_of_singleton).
  destruct (remove_ok _ _ _ _ _ _ _ _ _ _ (ov_calm _ _) (lreach_unique _ _ _ R) Y2 A2 V2 Q3 A1 S11) as [-> D11]. clear S11.
  set (a1' := mkAccount (ac_scopes a1) (ac_salt a1) (ac_hash a1) (ac_groups a1 ∖ list_to_set [g])) in *.
  assert (E1 : ac_groups a1' = ∅) by (cbn [ac_groups a1']; rewrite G1; set_solver).
  assert (B1 : d_users (ls_dir s11) !! u1 = Some a1') by (rewrite D11; apply lookup_insert).
  assert (B2 : d_users (ls_dir s11) !! u2 = Some a2) by (rewrite D11; cbn [d_users set_users]; rewrite lookup_insert_ne by congruence; exact A2).
  assert (W1 : forall g', g' ∈ ac_groups a1' -> is_Some (d_groups (ls_dir s11) !! g')) by (rewrite E1; intros g' Hg; now apply elem_of_empty in Hg).
  assert (W2 : forall g', g' ∈ ac_groups a2 -> is_Some (d_groups (ls_dir s11) !! g')) by (rewrite D11; exact V2).
  (* Decrypt *)
  destruct (lreach_obj _ _ _ (CDecrypt t1 oid) R11 ltac:(intros o [= <-]; exact Wo) ltac:(intros tok [= <-]; eauto) ltac:(discriminate)) as (r12 & w12 & s12 & who12 & R12 & W12 & S12 & D12).
  cbn zeta in *. rewrite <- app_assoc in R12. cbn [app] in R12.
  assert (r12 = Err ED1NotAuthorized) as ->.
  { destruct (caller_is _ _ _ _ _ _ _ (lreach_unique _ _ _ R11) (P11 _ _ Y1) B1 W1 W12) as (i' & (H1 & H2 & _ & H4) & ->).
    assert (LS : listed oid {[u2; g]} (evs1 ++ [CDecrypt t1 oid => Ok (RObject demo_obj) @ x10; SRemoveUser t2 u1 [g] ~> Ok SRUnit @ surr ov_env w (rng_failed ov_env w11)])).
    { exists (firstn 7 evs1), (CGetAccessGroups t2 oid => Ok (RGroups (Some {[u2; g]})) @ x8),
        [SGetIdentity t1 ~> Ok (SRIdentity i) @ x9; CDecrypt t1 oid => Ok (RObject demo_obj) @ x10; SRemoveUser t2 u1 [g] ~> Ok SRUnit @ surr ov_env w (rng_failed ov_env w11)], t2.
      split; [reflexivity|]. split; [reflexivity|]. split; [reflexivity|]. intros ev c [<-|[<-|[<-|[]]]]; cbn [lv_call]; intros E; try discriminate E. injection E as <-. intros _. exact Logic.I. }
    destruct R11 as (_ & ((pre & f & _ & HH) & _) & _). destruct (listed_there _ _ _ _ LS HH) as [o Eo].
    cbn [spec_step o_who o_rng_fails o_id] in S12. unfold with_access, with_scope in S12. rewrite Eo in S12.
    destruct S12 as [(_ & -> & _)|(_ & [(_ & -> & _)|(N & _)])]; [reflexivity..|]. exfalso. destruct N as [[N _]|(g' & sc & N1 & _)].
    - rewrite H1 in N. set_solver.
    - apply H4 in N1 as [N1 _]. rewrite E1 in N1. now apply elem_of_empty in N1. }
  (* DeleteUser *)
  destruct (lreach_id _ _ _ (SDeleteUser t2 u1) R12 Logic.I ltac:(intros tok [= <-]; eauto)) as (r13 & w13 & s13 & R13 & S13 & O13 & _). cbn zeta in *. rewrite <- app_assoc in R13. cbn [app] in R13.
  pose proof (lreach_unique _ _ _ R12) as U12. rewrite D12 in S13, U12.
  destruct (caller_ok _ _ _ _ _ _ _ _ (ov_calm _ _) U12 (P11 _ _ Y2) B2 W2 S13) as (i3 & _ & -> & _).
  (* Search *)
  destruct (run (lib_do ov_env Mem lib_demo 9 (OnIndex (ISearch t1 dog))) w13) as [r14 w14] eqn:Er14.
  pose proof (quiet_snoc _ _ _ (OnIndex (ISearch t1 dog)) r14 w14 (proj1 R13) Logic.I Er14) as R14.
  pose proof (own_snoc _ (mkLibEvent (surr ov_env w13 (rng_failed ov_env w14)) (OnIndex (ISearch t1 dog)) r14) (proj1 (proj2 (proj2 R13))) ltac:(intros tok [= <-]; eauto) ltac:(discriminate)) as O14.
  set (x11 := surr ov_env w (rng_failed ov_env w11)) in *. set (x12 := surr ov_env w11 (rng_failed ov_env w12)) in *. set (x13 := surr ov_env w12 (rng_failed ov_env w13)) in *. set (x14 := surr ov_env w13 (rng_failed ov_env w14)) in *.
  rewrite <- app_assoc in R14, O14. cbn [app] in R14, O14.
  assert (EV : forall r, ix_calls (evs1 ++ [CDecrypt t1 oid => Ok (RObject demo_obj) @ x10; SRemoveUser t2 u1 [g] ~> Ok SRUnit @ x11; CDecrypt t1 oid => Err ED1NotAuthorized @ x12; SDeleteUser t2 u1 ~> Ok SRUnit @ x13;
    mkLibEvent x14 (OnIndex (ISearch t1 dog)) r]) = [ISearch t1 dog]) by reflexivity.
  destruct (library_own_tokens ov_env mem_view Mem lib_demo 9 demo_w _ w14 (mem_spec False) ov_clock eq_refl ltac:(rewrite EV; apply apart_dog) ltac:(rewrite EV; apply differ_one)
    ltac:(rewrite EV; reflexivity) ltac:(rewrite EV; cbn; lia) demo_fresh R14 O14) as [Hf [s14 H14]].
  assert (r14 = LIndex (Err EIxNotAuthenticated)) as ->.
  { pose proof (deleted_refused (evs1 ++ [CDecrypt t1 oid => Ok (RObject demo_obj) @ x10; SRemoveUser t2 u1 [g] ~> Ok SRUnit @ x11; CDecrypt t1 oid => Err ED1NotAuthorized @ x12; SDeleteUser t2 u1 ~> Ok SRUnit @ x13])
      (mkLibEvent x14 (OnIndex (ISearch t1 dog)) r14) [] s14 u1 t1) as X. rewrite <- app_assoc in X. cbn [app lv_call lv_reply] in X. specialize (X H14 eq_refl (L1 _)).
    assert (DL : deleted u1 (evs1 ++ [CDecrypt t1 oid => Ok (RObject demo_obj) @ x10; SRemoveUser t2 u1 [g] ~> Ok SRUnit @ x11; CDecrypt t1 oid => Err ED1NotAuthorized @ x12; SDeleteUser t2 u1 ~> Ok SRUnit @ x13])).
    { exists (evs1 ++ [CDecrypt t1 oid => Ok (RObject demo_obj) @ x10; SRemoveUser t2 u1 [g] ~> Ok SRUnit @ x11; CDecrypt t1 oid => Err ED1NotAuthorized @ x12]), (SDeleteUser t2 u1 ~> Ok SRUnit @ x13), [], t2.
      split; [now rewrite <- app_assoc|]. split; [reflexivity|]. split; [reflexivity|]. intros ev' []. }
    specialize (X DL). cbn [lib_do] in Er14. rewrite LibHist.run_bind in Er14. cbn [run] in Er14. injection Er14 as <- _. cbn [turned_away] in X. now rewrite X. }
  exists x1, x2, x3, x4, x5, x6, x7, x8, x9, x10, x11, x12, x13, x14, u1, u2, p1, p2, t1, t2, g, oid, i, w14. cbv zeta. fold evs1.
  split; [exact R14|]. split; [exact O14|]. split; [exact Hf|]. auto 20.
Qed.

Lemma lib_case : exists w' evs1 ev1 x11 ev2 x13 ev3 u1 t1 t2 g oid acl i (c := CDecrypt t1 oid),
  let evs2 := evs1 ++ [ev1; mkLibEvent x11 (OnIdentity (SRemoveUser t2 u1 [g])) (LIdentity (Ok SRUnit))] in
  let evs3 := evs2 ++ [ev2; mkLibEvent x13 (OnIdentity (SDeleteUser t2 u1)) (LIdentity (Ok SRUnit))] in
  let evs := evs3 ++ [ev3] in
  set_up mem_view lib_demo 9 demo_w evs /\ run_to demo_w evs w' /\ own_tokens evs /\ w_forged w' = false /\
  lv_call ev1 = OnObject c /\ lv_reply ev1 = LObject (Ok (RObject demo_obj)) /\ identified t1 i evs1 /\ current t1 (x_now (lv_x ev1)) evs1 /\ listed oid acl evs1 /\
    (scope_has (i_scopes i) (call_need c) /\ on_list i (call_need c) acl) /\
  lv_call ev2 = OnObject c /\ lv_reply ev2 = LObject (Err ED1NotAuthorized) /\ token_of u1 t1 evs2 /\ listed oid acl evs2 /\ u1 ∉ acl /\ (forall x, x ∈ acl -> not_in u1 x evs2) /\
  lib_token (lv_call ev3) = Some t1 /\ token_of u1 t1 evs3 /\ deleted u1 evs3 /\ lv_reply ev3 = LIndex (Err EIxNotAuthenticated).
Proof.
  destruct lib_life as (x1 & x2 & x3 & x4 & x5 & x6 & x7 & x8 & x9 & x10 & x11 & x12 & x13 & x14 & u1 & u2 & p1 & p2 & t1 & t2 & g & oid & i & w & H).
  cbv zeta in H. set (evs1 := life_start _ _ _ _ _ _ _ _ _ _ _ _ _ _ _ _ _ _) in H.
  destruct H as (R & O & Hf & C2 & C4 & C10 & N12 & N1g & I1 & I2 & I3 & K1 & K2 & NT).
  exists w, evs1, (CDecrypt t1 oid => Ok (RObject demo_obj) @ x10), x11, (CDecrypt t1 oid => Err ED1NotAuthorized @ x12), x13, (mkLibEvent x14 (OnIndex (ISearch t1 dog)) (LIndex (Err EIxNotAuthenticated))),
    u1, t1, t2, g, oid, {[u2; g]}, i.
  cbv zeta. rewrite <- !app_assoc. cbn [app lv_call lv_reply lv_x].
  split. { split; [exact (apart_dog t1)|]. split; [exact (differ_one dog)|]. split; [reflexivity|]. split; [cbn; lia|exact demo_fresh]. }
  split; [exact R|]. split; [exact O|]. split; [exact Hf|]. split; [reflexivity|]. split; [reflexivity|].
  split. { exists (firstn 8 evs1), (SGetIdentity t1 ~> Ok (SRIdentity i) @ x9), []. split; [reflexivity|]. split; [reflexivity|]. split; [reflexivity|]. intros ev' c []. }
  split. { intros ev uid pw s n Hin Hc Hr Hs. repeat (destruct Hin as [<-|Hin]; [first [discriminate Hc|rewrite (proj1 C10); cbn [lv_x]; rewrite ?(proj1 C2), ?(proj1 C4); exact T0_T1]|]). destruct Hin. }
  assert (LS : forall l, (forall ev' c, In ev' l -> lv_call ev' = OnObject c -> only_reads c) -> listed oid {[u2; g]} (evs1 ++ l)).
  { intros l Hl. exists (firstn 7 evs1), (CGetAccessGroups t2 oid => Ok (RGroups (Some {[u2; g]})) @ x8), ((SGetIdentity t1 ~> Ok (SRIdentity i) @ x9) :: l), t2.
    split; [reflexivity|]. split; [reflexivity|]. split; [reflexivity|]. intros ev' c [<-|Hin] Hc _; [discriminate Hc|exact (Hl _ _ Hin Hc)]. }
  split. { rewrite <- (app_nil_r evs1). apply LS. intros ev' c []. }
  split. { cbn [call_need]. rewrite I3. split; [now apply scope_contains_has|]. right. exists g, ScopeAll. split; [exact I2|]. split; [apply elem_of_union_r, elem_of_singleton; reflexivity|now apply scope_contains_has]. }
  split; [reflexivity|]. split; [reflexivity|]. split; [exact (token_later _ _ _ _ K1)|].
  split. { apply LS. intros ev' c [<-|[<-|[]]] Hc; [injection Hc as <-; exact Logic.I|discriminate Hc]. }
  split. { intros E. apply elem_of_union in E as [E|E]; apply elem_of_singleton in E; contradiction. }
  split.
  { intros x Hx. destruct (decide (x = g)) as [->|Hg].
    - right. exists (evs1 ++ [CDecrypt t1 oid => Ok (RObject demo_obj) @ x10]), (SRemoveUser t2 u1 [g] ~> Ok SRUnit @ x11), [], t2, [g].
      split; [now rewrite <- app_assoc|]. split; [reflexivity|]. split; [reflexivity|]. split; [now left|]. intros ev' [].
    - left. intros ev Hin. cbn [evs1 life_start app] in Hin. repeat (destruct Hin as [<-|Hin]; [cbn [joins lv_call lv_reply]; try tauto|]); [| |destruct Hin].
      + congruence.
      + intros [_ [E|[]]]. congruence. }
  split; [reflexivity|]. split; [exact (token_later _ _ _ _ K1)|]. split; [|reflexivity].
  exists (evs1 ++ [CDecrypt t1 oid => Ok (RObject demo_obj) @ x10; SRemoveUser t2 u1 [g] ~> Ok SRUnit @ x11; CDecrypt t1 oid => Err ED1NotAuthorized @ x12]), (SDeleteUser t2 u1 ~> Ok SRUnit @ x13), [], t2.
  split; [now rewrite <- app_assoc|]. split; [reflexivity|]. split; [reflexivity|]. intros ev' [].
Qed.
