(** A concrete run for C67: two users are made, and two tokens by calls that overlap. *)
From Coq Require Import ZifyN ZifyNat.
From stdpp Require Import gmap.
From Verif Require Import Bytes Go Json JsonProofs Uuid UuidProofs Time Types World Io IoSpec IoProofs Sched Cryptor CryptorProofs Kwp Gcm Id Data D1 Spec Demo Standalone StandaloneSpec StandaloneDemo SaConcDemo
  Index Lib LibSpec LibHist LibDemo LibHistDemo FreshSpec Fresh.
Local Open Scope N_scope.

Section Runs.
  Context {S I A : Type} (K : bytes -> Prop).
  Notation W := (world S I).
  Lemma run_steady (p : prog W A) w r w' : run p w = (r, w') -> forall t pool pool2 w2, pool !! t = Some p ->
    steady K (<[t := Ret r]> pool) w' pool2 w2 -> steady K pool w pool2 w2.
  Proof.
    revert w. induction p as [a|X f q IH]; intros w E t pool pool2 w2 Ht H; cbn [run] in E.
    - injection E as -> <-. now rewrite list_insert_id in H.
    - eapply sd_step; [exact Ht|]. destruct (f w) as [x w1]. cbn [fst snd]. eapply (IH x w1 E t); [apply list_lookup_insert; eapply lookup_lt_Some; exact Ht|]. now rewrite list_insert_insert.
  Qed.
End Runs.

Notation idd := (sa_idp ov_env Mem lib_sa).
Definition after_time (pt : gslice) (now : gtime) : prog DW lib_reply :=
  bind (ret_map RToken (token_seal (aes_cryptor ov_env (d_tek demo_d1)) (mkToken pt (time_add now TokenValidity)))) (fun r => Ret (LObject r)).
Lemma ov_enc (kek pt aad : bytes) (w : DW) : exists wk ct w', run (aes_enc ov_env kek pt aad) w = (Ok (wk, ct), w') /\ w_draws w' = (w_draws w + 2)%nat /\
  w_log w' = mkEntry kek aad wk ct pt :: w_log w.
Proof.
  destruct (aes_enc_run ov_env kek pt aad w) as (w' & _ & H). unfold draws2 in H. rewrite !ov_draw in H. cbn [is_ok andb] in H.
  destruct H as (wk & ct & H1 & _ & _ & _ & H2 & H3 & _). exists wk, ct, w'. auto.
Qed.
Lemma token_runs (pt : gslice) (w : DW) : exists s x w', run (after_time pt (mkT 0 0 0)) w = (LObject (Ok (RToken s)), w') /\ w_draws w' = (w_draws w + 2)%nat /\
  w_log w' = x :: w_log w /\ e_kek x = d_tek demo_d1.
Proof.
  unfold after_time, token_seal. destruct (enc_time (t_exp (mkToken pt (time_add (mkT 0 0 0) TokenValidity)))) as [aad|] eqn:Ea; [|vm_compute in Ea; discriminate].
  destruct (ov_enc (d_tek demo_d1) (print (jbytes pt)) (print aad) w) as (wk & ct & w' & E & Hd & Hl). eexists _, _, w'. split; [|split; [exact Hd|split; [exact Hl|reflexivity]]].
  unfold ret_map, bindR, encrypt_json. rewrite !LibHist.run_bind. cbn [c_enc aes_cryptor t_pt]. rewrite E. reflexivity.
Qed.

(** New users, one call after the other. *)
Lemma two_users : exists u1 p1 u2 p2 w1 w2, run (sa_aes ov_env Mem lib_sa (SNewUser [ScopeAll])) demo_w = (Ok (SRUser u1 p1), w1) /\
  run (sa_aes ov_env Mem lib_sa (SNewUser [ScopeAll])) w1 = (Ok (SRUser u2 p2), w2) /\ (w_draws w2 <= 16)%nat.
Proof.
  destruct (lreach_next _ _ _ (OnIdentity (SNewUser [ScopeAll])) lreach_start all_lt ltac:(discriminate) ltac:(discriminate) ltac:(discriminate)) as (r1 & w1 & s1 & R1 & S1 & E1). cbn zeta in *.
  destruct (ov_id demo_w w1) as (b1 & X1 & Y1). destruct r1 as [r1|r1|r1]; cbn [lib_step] in S1; try contradiction. destruct S1 as (S1 & _).
  destruct (new_ok _ _ _ _ _ b1 (ov_calm demo_w w1) (ov_any _ _) X1 (lookup_empty _) S1) as (p1 & sc1 & salt1 & -> & A1 & D1). clear S1 X1.
  cbn [lib_do l_sa lib_demo] in E1. rewrite LibHist.run_bind in E1. destruct (run (sa_aes ov_env Mem lib_sa (SNewUser [ScopeAll])) demo_w) as [r1 w1'] eqn:Er1. cbn [run] in E1. injection E1 as -> ->.
  pose proof (new_user_draws ov_env Mem lib_sa [ScopeAll] demo_w) as L1. rewrite Er1 in L1. cbn [snd demo_w w_draws] in L1.
  pose proof (run_within _ _ _ _ 8 Er1 (within_call ov_env Mem lib_sa _)) as B1. cbn [demo_w w_draws] in B1.
  destruct (lreach_next _ _ _ (OnIdentity (SNewUser [ScopeAll])) R1 all_lt ltac:(discriminate) ltac:(discriminate) ltac:(discriminate)) as (r2 & w2 & s2 & R2 & S2 & E2). cbn zeta in *.
  destruct (ov_id w1 w2) as (b2 & X2 & Y2). destruct r2 as [r2|r2|r2]; cbn [lib_step] in S2; try contradiction. destruct S2 as (S2 & _).
  assert (B0 : d_users (ls_dir s1) !! uuid_text (uuid_v4 b2) = None).
  { rewrite D1. cbn [d_users set_users dir_empty]. rewrite lookup_insert_ne by exact (ov_later w1 b2 b1 ltac:(lia) Y1 Y2). apply lookup_empty. }
  destruct (new_ok _ _ _ _ _ b2 (ov_calm w1 w2) (ov_any _ _) X2 B0 S2) as (p2 & sc2 & salt2 & -> & A2 & D2). clear S2 X2.
  cbn [lib_do l_sa lib_demo] in E2. rewrite LibHist.run_bind in E2. destruct (run (sa_aes ov_env Mem lib_sa (SNewUser [ScopeAll])) w1) as [r2 w2'] eqn:Er2. cbn [run] in E2. injection E2 as -> ->.
  pose proof (run_within _ _ _ _ 8 Er2 (within_call ov_env Mem lib_sa _)) as B2.
  eexists _, _, _, _, w1, w2. split; [exact eq_refl|]. split; [exact Er2|]. lia.
Qed.
Lemma ov_keys n : (n <= 256)%nat -> keys_once ov_env 0 n.
Proof. intros Hn i j x Hi Hj Hx Hy. pose proof (ov_byte _ _ _ _ _ Hx Hy eq_refl ltac:(discriminate)). lia. Qed.
Lemma ov_ids_once n : (n <= 256)%nat -> ids_once ov_env 0 n.
Proof.
  intros Hn i j u Hi Hj (b & Hb & ->) (b' & Hb' & E). apply (f_equal hd_error) in E. rewrite !v4_head in E by first [exact (ov_len _ _ _ Hb)|exact (ov_len _ _ _ Hb')].
  pose proof (ov_byte _ _ _ _ _ Hb Hb' E ltac:(discriminate)). lia.
Qed.

Definition fresh_ds : list d1_call := [CCreateToken (Some (str "one")); CCreateToken (Some (str "two"))].
Definition fresh_ss : list sa_call := [SNewUser [ScopeAll]; SNewUser [ScopeAll]].
(** The second token is begun before the first, and finished after it. *)
Lemma fresh_demo : exists u1 p1 u2 p2 s1 s2 x y old w',
  steady (lib_key lib_demo []) (lib_pool ov_env Mem lib_demo 9 fresh_ds [] fresh_ss) demo_w
    [Ret (LObject (Ok (RToken s1))); Ret (LObject (Ok (RToken s2))); Ret (LIdentity (Ok (SRUser u1 p1))); Ret (LIdentity (Ok (SRUser u2 p2)))] w' /\
  w_log w' = (y :: x :: old) ++ w_log demo_w /\ lib_key lib_demo [] (e_kek x) /\ lib_key lib_demo [] (e_kek y) /\
  keys_once ov_env (w_draws demo_w) (w_draws w') /\ ids_once ov_env (w_draws demo_w) (w_draws w').
Proof.
  destruct two_users as (u1 & p1 & u2 & p2 & w1 & w2 & E1 & E2 & B).
  set (w3 := mkWorld (w_io w2) (w_id w2) (w_draws w2) (w_ticks w2 + 1) (w_log w2) (w_forged w2)).
  set (w4 := mkWorld (w_io w3) (w_id w3) (w_draws w3) (w_ticks w3 + 1) (w_log w3) (w_forged w3)).
  destruct (token_runs (Some (str "one")) w4) as (s1 & x & w5 & E5 & D5 & L5 & K5). destruct (token_runs (Some (str "two")) w5) as (s2 & y & w6 & E6 & D6 & L6 & K6).
  exists u1, p1, u2, p2, s1, s2, x, y, (w_log w4), w6.
  assert (D : (w_draws w6 <= 256)%nat) by (rewrite D6, D5; cbn [w4 w3 w_draws]; lia).
  split; [|split; [rewrite L6, L5; cbn [demo_w w_log]; now rewrite app_nil_r|]].
  - assert (F : forall (w a : DW) r, run (sa_aes ov_env Mem lib_sa (SNewUser [ScopeAll])) w = (r, a) ->
      run (bind (sa_aes ov_env Mem lib_sa (SNewUser [ScopeAll])) (fun r => Ret (LIdentity r))) w = (LIdentity r, a)) by (intros w a r E; rewrite LibHist.run_bind, E; reflexivity).
    eapply (run_steady _ _ _ _ _ (F _ _ _ E1) 2); [reflexivity|]. eapply (run_steady _ _ _ _ _ (F _ _ _ E2) 3); [reflexivity|]. clear E1 E2 F.
    eapply (sd_step _ 1); [reflexivity|]. eapply (sd_step _ 0); [reflexivity|].
    eapply (run_steady _ _ _ _ _ E5 0); [reflexivity|]. eapply (run_steady _ _ _ _ _ E6 1); [reflexivity|]. apply sd_nil.
  - rewrite K5, K6. split; [left; right; right; reflexivity|]. split; [left; right; right; reflexivity|]. split; [now apply ov_keys|now apply ov_ids_once].
Qed.
