(** The history of LibHistDemo.v with calls that die, for C73. *)
From stdpp Require Import gmap.
From Verif Require Import Bytes Go Uuid Time Types World Io IoSpec IoProofs Id Data D1 D1Proofs D1Local Spec Demo Standalone StandaloneSpec StandaloneRefine StandaloneHist StandaloneDemo SaConcDemo
  Index IndexSpec IndexConcSpec IndexHist IndexDemo Lib LibSpec LibHist LibCor LibHonest LibDemo LibHistDemo LibCrashSpec LibCrash LibCrashFacts.
Local Open Scope N_scope.

Section Mixed.
  Context {S I : Type} (e : env) (v : view S) (io : provider S) (Hio : io_spec True v io) (L : lib) (fuel : nat).
  Notation W := (world S I).
  Notation quiet := (@lib_quiet_run S I e v io L fuel).
  Notation xrun := (@lib_xrun S I e v L fuel).
  Definition answered (h : lib_happening) (ev : lib_event) : Prop := exists odd, h = LDone odd ev.
  Lemma answered_cons l ev evs : Forall2 answered l (ev :: evs) -> exists odd hs, l = LDone odd ev :: hs /\ Forall2 answered hs evs.
  Proof. intros H. apply Forall2_cons_inv_r in H as (h & hs & (odd & ->) & H & ->). eauto. Qed.
  Lemma xrun_app (w : W) hs1 w1 hs2 w2 : xrun w hs1 w1 -> xrun w1 hs2 w2 -> xrun w (hs1 ++ hs2) w2.
  Proof.
    intros H H2. induction H as [w|w w1 hs w3 HE _ IH|w iof c r w1 hs w3 Hi Hwf Hr _ IH|w iof c n p w1 hs w3 Hi Hwf Hr _ IH]; cbn [app]; [exact H2|..].
    - eapply lx_env; eauto.
    - eapply lx_done; eauto.
    - eapply lx_died; eauto.
  Qed.
  Lemma quiet_app a : forall (w : W) b w', quiet w (a ++ b) w' -> exists m, quiet w a m /\ quiet m b w'.
  Proof.
    intros w b w' H. remember (a ++ b) as l eqn:E. revert a E.
    induction H as [w|w w1 evs w2 HE Hf H IH|w c r w1 evs w2 Hwf Hr H IH]; intros a E.
    - symmetry in E. apply app_eq_nil in E as [-> ->]. exists w. split; constructor.
    - destruct (IH a E) as (m & H1 & H2). exists m. split; [eapply lq_env; eauto|exact H2].
    - destruct a as [|x a]; cbn [app] in E.
      + subst b. exists w. split; [constructor|eapply lq_call; eauto].
      + injection E as <- E. destruct (IH a E) as (m & H1 & H2). exists m. split; [eapply lq_call; eauto|exact H2].
  Qed.
  Lemma all_answered (w : W) evs w' : quiet w evs w' -> exists hs, Forall2 answered hs evs /\ xrun w hs w'.
  Proof.
    intros H. induction H as [w|w w1 evs w2 HE Hf H IH|w c r w1 evs w2 Hwf Hr H IH].
    - exists []. split; constructor.
    - destruct IH as (hs & H1 & H2). exists hs. split; [exact H1|]. eapply lx_env; eauto.
    - destruct IH as (hs & H1 & H2). eexists. split; [|eapply lx_done; eauto]. constructor; [eexists; reflexivity|exact H1].
  Qed.
  (** A call that got as far as its last step, but was never answered. *)
  Lemma none_answered (w : W) evs w' : quiet w evs w' -> xrun w (map (fun ev => LDied (lv_x ev) (lv_call ev)) evs) w'.
  Proof.
    intros H. induction H as [w|w w1 evs w2 HE Hf H IH|w c r w1 evs w2 Hwf Hr H IH]; cbn [map lv_x lv_call].
    - constructor.
    - eapply lx_env; eauto.
    - pose proof (run_n_all (lib_do e io L fuel c) w) as E. rewrite Hr in E. cbn [snd] in E.
      destruct (run_n (nsteps (lib_do e io L fuel c) w) (lib_do e io L fuel c) w) as [p w0] eqn:En. cbn [snd] in E. subst w0.
      eapply lx_died; eauto.
  Qed.
  (** A call that died at once. *)
  Lemma at_once (w : W) c : lib_call_wf c -> xrun w [LDied (surr e w (rng_failed e w)) c] w.
  Proof. intros Hwf. eapply (lx_died _ _ _ _ w io c 0); [exact Hio|exact Hwf|reflexivity|constructor]. Qed.
  Lemma quiet_wf (w : W) evs w' : quiet w evs w' -> Forall (fun ev => lib_call_wf (lv_call ev)) evs.
  Proof. intros H. induction H; eauto. Qed.
End Mixed.

Notation xrun_to := (lib_xrun ov_env mem_view lib_demo 9).


(** Fourteen calls as in LibHistDemo.v.  The member taken out of the group then starts a Decrypt that dies just before
    it would be answered and an Update that dies at once; the deleted one searches and is turned away. *)
Lemma x_case : exists hs2 w' u1 t1 t2 g (oid : uuid) acl x x' x13 odd13 oddl evl,
  let h1 := LDied x (OnObject (CDecrypt t1 oid)) in
  let h2 := LDied x' (OnObject (CUpdate t1 oid demo_obj)) in
  let hs3 := hs2 ++ [h1; h2; LDone odd13 (mkLibEvent x13 (OnIdentity (SDeleteUser t2 u1)) (LIdentity (Ok SRUnit)))] in
  let hs := hs3 ++ [LDone oddl evl] in
  x_set_up mem_view lib_demo 9 demo_w hs /\ xrun_to demo_w hs w' /\ w_forged w' = false /\
  (exists odd ev, In (LDone odd ev) hs2 /\ lv_call ev = OnObject (CDecrypt t1 oid) /\ lv_reply ev = LObject (Ok (RObject demo_obj))) /\
  (exists odd ev, In (LDone odd ev) hs2 /\ lv_call ev = OnIdentity (SRemoveUser t2 u1 [g]) /\ lv_reply ev = LIdentity (Ok SRUnit)) /\
  x_token_of u1 t1 hs2 /\ u1 ∉ acl /\ x_listed oid acl hs2 /\ (forall y, y ∈ acl -> x_not_in u1 y hs2) /\
  x_token_of u1 t1 (hs2 ++ [h1]) /\ x_listed oid acl (hs2 ++ [h1]) /\ (forall y, y ∈ acl -> x_not_in u1 y (hs2 ++ [h1])) /\
  lib_token (lv_call evl) = Some t1 /\ x_token_of u1 t1 hs3 /\ x_deleted u1 hs3 /\ lv_reply evl = LIndex (Err EIxNotAuthenticated).
Proof.
  destruct lib_life as (x1 & x2 & x3 & x4 & x5 & x6 & x7 & x8 & x9 & x10 & x11 & x12 & x13 & x14 & u1 & u2 & p1 & p2 & t1 & t2 & g & oid & i & w & H).
  cbv zeta in H. destruct H as (R & _ & Hf & _ & _ & _ & N12 & N1g & _ & _ & _ & (ev & pw & s0 & n & _ & _ & _ & K) & _).
  set (a := life_start x1 x2 x3 x4 x5 x6 x7 x8 x9 u1 u2 p1 p2 t1 t2 g oid i ++ [CDecrypt t1 oid => Ok (RObject demo_obj) @ x10; SRemoveUser t2 u1 [g] ~> Ok SRUnit @ x11]).
  set (b := [CDecrypt t1 oid => Err ED1NotAuthorized @ x12]).
  set (c := [SDeleteUser t2 u1 ~> Ok SRUnit @ x13; mkLibEvent x14 (OnIndex (ISearch t1 dog)) (LIndex (Err EIxNotAuthenticated))]).
  change (run_to demo_w (a ++ b ++ c) w) in R.
  apply quiet_app in R as (w1 & Ra & R). apply quiet_app in R as (w2 & Rb & Rc).
  pose proof (Forall_inv (quiet_wf _ _ _ _ _ _ _ _ Rb)) as Wo. cbn [lv_call] in Wo.
  apply (none_answered _ _ _ (mem_spec True)) in Rb.
  destruct (all_answered _ _ _ (mem_spec True) _ _ _ _ _ Ra) as (ha & Fa & Xa).
  destruct (all_answered _ _ _ (mem_spec True) _ _ _ _ _ Rc) as (hc & Fc & Xc).
  set (x0 := surr ov_env w2 (rng_failed ov_env w2)).
  set (hb := [LDied x12 (OnObject (CDecrypt t1 oid)); LDied x0 (OnObject (CUpdate t1 oid demo_obj))]).
  assert (Xb : xrun_to w1 hb w2).
  { eapply (xrun_app _ _ _ _ _ [_] _ [_]); [exact Rb|]. apply (at_once _ _ _ (mem_spec True)). exact Wo. }
  assert (X : xrun_to demo_w (ha ++ hb ++ hc) w) by (eapply xrun_app; [exact Xa|eapply xrun_app; [exact Xb|exact Xc]]).
  subst a c. unfold life_start in Fa. cbn [app] in Fa.
  apply answered_cons in Fa as (o1 & ? & -> & Fa). apply answered_cons in Fa as (o2 & ? & -> & Fa). apply answered_cons in Fa as (o3 & ? & -> & Fa). apply answered_cons in Fa as (o4 & ? & -> & Fa). apply answered_cons in Fa as (o5 & ? & -> & Fa). apply answered_cons in Fa as (o6 & ? & -> & Fa). apply answered_cons in Fa as (o7 & ? & -> & Fa). apply answered_cons in Fa as (o8 & ? & -> & Fa). apply answered_cons in Fa as (o9 & ? & -> & Fa). apply answered_cons in Fa as (o10 & ? & -> & Fa). apply answered_cons in Fa as (o11 & ? & -> & Fa).
  apply Forall2_nil_inv_r in Fa as ->.
  apply answered_cons in Fc as (o13 & ? & -> & Fc). apply answered_cons in Fc as (o14 & ? & -> & Fc). apply Forall2_nil_inv_r in Fc as ->.
  clear Xa Xb Xc Rb.
  set (ha := _ :: _) in X at 1. set (evl := mkLibEvent x14 _ _) in X. rename o13 into odd13, o14 into odd14.
  assert (SU : x_set_up mem_view lib_demo 9 demo_w (ha ++ hb ++ [LDone odd13 (SDeleteUser t2 u1 ~> Ok SRUnit @ x13); LDone odd14 evl])).
  { split; [exact (apart_dog t1)|]. split; [exact (differ_one dog)|]. split; [reflexivity|]. split; [cbn; lia|exact demo_fresh]. }
  destruct (library_survives ov_env mem_view lib_demo 9 demo_w _ w ov_clock eq_refl SU X Hf) as (s & Hh).
  assert (Hg : forall y, may_join u1 y (LDone o5 (SNewGroup t2 [ScopeAll] ~> Ok (SRGroup g) @ x5)) -> y = g).
  { assert (E : ha ++ hb ++ [LDone odd13 (SDeleteUser t2 u1 ~> Ok SRUnit @ x13); LDone odd14 evl] =
      firstn 4 ha ++ LDone o5 (SNewGroup t2 [ScopeAll] ~> Ok (SRGroup g) @ x5) :: skipn 5 (ha ++ hb ++ [LDone odd13 (SDeleteUser t2 u1 ~> Ok SRUnit @ x13); LDone odd14 evl])) by reflexivity.
    rewrite E in Hh. apply lx_mid in Hh as (s1 & s2 & _ & Hs & _). pose proof (x_answered _ _ _ _ _ _ Hs eq_refl eq_refl) as A. cbn [lv_x sa_step] in A.
    intros y (b1 & B1 & <-). cbn [lh_x lv_x] in B1.
    destruct A as [(j & _ & [(_ & A & _)|[(_ & A & _)|(b2 & z & B2 & _ & A)]])|(z & _ & A & _)]; [discriminate A|discriminate A| |discriminate A].
    cbn zeta in A. destruct (d_groups (lx_dir s1) !! uuid_text (uuid_v4 b2)); [destruct A as [A _]; discriminate A|]. destruct A as (q & _ & A & _). injection A as A.
    rewrite B1 in B2. injection B2 as <-. now rewrite A. }
  assert (TK : forall l, x_token_of u1 t1 (ha ++ l)).
  { intros l. exists o2, (SLogin u1 p1 ~> Ok (SRToken t1 (time_unix T1)) @ x2), p1, t1, (time_unix T1). split; [right; left; reflexivity|]. split; [reflexivity|]. split; [reflexivity|].
    eapply same_token_trans; [apply same_token_sym; exact K|exact K]. }
  assert (LS : forall l, (forall h c, In h l -> lh_call h = OnObject c -> only_reads c) -> x_listed oid {[u2; g]} (ha ++ l)).
  { intros l Hl. exists (firstn 7 ha), o8, (CGetAccessGroups t2 oid => Ok (RGroups (Some {[u2; g]})) @ x8), (skipn 8 ha ++ l), t2.
    split; [reflexivity|]. split; [reflexivity|]. split; [reflexivity|]. intros h c [<-|[<-|[<-|Hin]]] Hc _; [discriminate Hc|injection Hc as <-; exact Logic.I|discriminate Hc|exact (Hl _ _ Hin Hc)]. }
  assert (NI : forall l y, (forall h, In h l -> ~ may_join u1 y h) -> x_not_in u1 y (ha ++ l)).
  { intros l y Hl. destruct (decide (y = g)) as [->|Hy].
    - right. exists (firstn 10 ha), o11, (SRemoveUser t2 u1 [g] ~> Ok SRUnit @ x11), l, t2, [g].
      split; [reflexivity|]. split; [reflexivity|]. split; [reflexivity|]. split; [now left|exact Hl].
    - left. intros h Hin. apply in_app_or in Hin as [Hin|Hin]; [|exact (Hl h Hin)]. cbn [ha In] in Hin.
      repeat (destruct Hin as [<-|Hin]; [try (cbn [may_join lh_call lv_call]; tauto)|]); [| |destruct Hin].
      + intros J. apply Hy, Hg, J.
      + intros [_ [J|[]]]. congruence. }
  exists ha, w, u1, t1, t2, g, oid, {[u2; g]}, x12, x0, x13, odd13, odd14, evl. cbv zeta. rewrite <- !app_assoc. cbn [app].
  split; [exact SU|]. split; [exact X|]. split; [exact Hf|].
  split. { exists o10, (CDecrypt t1 oid => Ok (RObject demo_obj) @ x10). split; [do 9 right; left; reflexivity|]. split; reflexivity. }
  split. { exists o11, (SRemoveUser t2 u1 [g] ~> Ok SRUnit @ x11). split; [do 10 right; left; reflexivity|]. split; reflexivity. }
  split; [rewrite <- (app_nil_r ha); apply TK|].
  split. { intros E. apply elem_of_union in E as [E|E]; apply elem_of_singleton in E; contradiction. }
  split; [rewrite <- (app_nil_r ha); apply LS; intros h c []|].
  split; [intros y _; rewrite <- (app_nil_r ha); apply NI; intros h []|].
  split; [apply TK|]. split; [apply LS; intros h c [<-|[]] Hc; injection Hc as <-; exact Logic.I|].
  split; [intros y _; apply NI; intros h [<-|[]] []|].
  split; [reflexivity|]. split; [apply TK|]. split; [|reflexivity].
  exists (ha ++ hb), odd13, (SDeleteUser t2 u1 ~> Ok SRUnit @ x13), [], t2.
  split; [now rewrite <- app_assoc|]. split; [reflexivity|]. split; [reflexivity|]. intros h sc b1 [].
Qed.
