(** A D1 and a Standalone that have the same token key: tokens made by CreateToken log in. *)
From Coq Require Import ZifyN ZifyNat.
From stdpp Require Import gmap.
From Verif Require Import Bytes Base64 Base64Proofs Go Json JsonProofs Uuid UuidProofs Time TimeProofs Types TypesProofs World Logic
  Cryptor CryptorProofs CryptoFacts IoSpec IoProofs Id Data D1 D1Proofs D1Local Sched D1Sched Password Standalone Spec StandaloneSpec
  WpcFacts TokenFacts MiscFacts StandaloneProofs StandaloneRefine StandaloneHist.
Local Open Scope bool_scope.
Local Open Scope N_scope.

Section Shared.
  Context {S I : Type} (e : env) (v : view S) (io : provider S) (Hio : io_spec False v io) (k : sa_keys) (Hc : forall n, time_wf (clock e n)).
  Notation W := (world S I).
  Context (idp : bytes -> prog W (res identity)) (dd : d1) (shared : d_tek dd = s_tek k).

  Lemma create_wpc fl uid d (w : W) : WR v k fl d w ->
    let exp := time_add (clock e (w_ticks w)) 3600 in
    wpc (d1_aes e io idp dd (CCreateToken (Some uid))) (fun _ => True)
      (fun r w' => (exists st tok, r = Ok (RToken st) /\ token_string st = Ok tok /\ WR v k fl (add_session d (mkSession tok uid exp)) w' /\
                     forall uid' exp', says (add_session d (mkSession tok uid exp)) tok uid' exp' <-> uid' = uid /\ exp' = exp) \/
                   rng_failed e w' \/ time_text exp = None) w.
  Proof.
    intros H exp. unfold d1_aes. cbn [d1_do]. apply wpc_ret_map. unfold d1_create_token, new_token, time_now.
    apply wpc_bind, wpc_bind, wpc_act; cbn [fst snd]; [auto..|]. set (w2 := set_ticks w (w_ticks w + 1)). assert (H2 : WR v k fl d w2) by exact H.
    apply wpc_ret; [auto|]. unfold TokenValidity. fold exp. unfold token_seal. cbn [t_exp t_pt].
    destruct (enc_time exp) as [aad|] eqn:Ea.
    2:{ apply wpc_ret; [auto|]. right; right. unfold enc_time in Ea. destruct (time_text exp); [discriminate|reflexivity]. }
    apply wpc_bindR. unfold encrypt_json. cbn [c_enc aes_cryptor]. rewrite shared.
    destruct H2 as (Hfl & m & Hm & R & Hs).
    assert (Wexp : time_wf exp) by (apply time_add_wf, Hc).
    eapply wpc_mono; [| |apply (enc_post e v (s_tek k) (print (jbytes (Some uid))) (print aad) w2 m Hm)]; [auto|].
    intros r w3 _ (H3 & _ & G & C). destruct C as [(wk & ct & -> & Ho & _ & _ & L & _)|(-> & L & RF & _)]; [|auto].
    apply wpc_ret; [auto|]. left. eexists.
    destruct (token_string (mkSealedToken exp (Some ct) (Some wk))) as [s| |] eqn:Es.
    2-3: unfold token_string, enc_sealed_token in Es; cbn [st_exp st_ct st_wk] in Es; rewrite Ea in Es; discriminate.
    assert (Ef : token_from_string s = Ok (mkSealedToken exp (Some ct) (Some wk))) by (apply token_string_lossless; [exact Wexp|exact Es]).
    set (ent := mkEntry (s_tek k) (print aad) wk ct (print (jbytes (Some uid)))) in *.
    assert (SO : session_ok k (ent :: w_log w2) (mkSession s uid exp)).
    { exists wk, ct, aad. cbn [se_token se_exp se_uid]. split; [exact Ef|]. split; [exact Wexp|]. split; [exact Ea|]. split; [exact Ho|].
      exists ent. split; [now left|]. auto. }
    exists s. split; [reflexivity|]. split; [exact Es|]. split.
    - split; [congruence|]. exists m. rewrite L. split; [exact H3|]. split; [eapply (srep_log k (w_log w2)); [|exact R]; intros y Hy; now right|].
      apply sess_add; [exact Hs|exact SO|]. intros _. right. exists (mkSession s uid exp), aad.
      split; [now left|]. cbn [se_token se_exp e_aad e_ct e_wk]. auto.
    - intros uid' exp'. split.
      2:{ intros [-> ->]. exists (mkSession s uid exp). split; [now left|]. split; [|auto]. exists (mkSealedToken exp (Some ct) (Some wk)). auto. }
      intros (s' & Hi & (t & T2 & T3) & <- & <-). cbn [d_sessions add_session] in Hi.
      assert (exists l, session_ok k l s') as (l & wk' & ct' & aad' & E' & _ & Ea' & Ho' & _).
      { destruct Hi as [<-|Hi]; [eexists; exact SO|]. eexists. now apply Hs. }
      rewrite Ef in T3. injection T3 as <-. rewrite E' in T2. injection T2 as Q1 Q2 Q3.
      rewrite Q1, Ea in Ea'. injection Ea' as <-. rewrite Q2, Q3, Ho in Ho'. split; [|exact Q1].
      assert (Hp : forall a b : bytes, Ok a = Ok b -> a = b) by congruence. apply Hp, print_jbytes_inj in Ho'. congruence.
  Qed.

  Lemma shared_login (w0 w w1 w2 : W) evs d uid a r1 :
    sa_fresh v k w0 -> sa_run e io k (sa_elsewhere v k) w0 evs w -> w_forged w = false -> sa_history dir_empty evs d ->
    d_users d !! uid = Some a -> (forall g, g ∈ ac_groups a -> is_Some (d_groups d !! g)) ->
    run (d1_aes e io idp dd (CCreateToken (Some uid))) w = (r1, w1) -> ~ rng_failed e w1 -> time_text (time_add (clock e (w_ticks w)) 3600) <> None ->
    exists st tok, r1 = Ok (RToken st) /\ token_string st = Ok tok /\
      forall r2, (nanos (clock e (w_ticks w1)) <= nanos (time_add (clock e (w_ticks w)) 3600))%Z ->
      run (sa_aes e io k (SGetIdentity tok)) w1 = (r2, w2) -> w_forged w2 = false /\ exists i, describes d uid a i /\ r2 = Ok (SRIdentity i).
  Proof.
    intros Hf HR Hn Hd Ha Hg H1 Hrng Ht. destruct (refine_fresh e v io Hio k Hc w0 evs w Hf HR Hn) as (d1 & D1 & W1).
    rewrite <- (history_next _ _ _ _ unique_empty Hd D1) in W1.
    pose proof (wpc_end _ _ _ _ (create_wpc false uid d w W1)) as X. cbn zeta in X. rewrite H1 in X. cbn [fst snd] in X.
    destruct X as [(st & tok & -> & Es & W2 & Y)|[X|X]]; [|contradiction..]. exists st, tok. split; [reflexivity|]. split; [exact Es|].
    intros r2 Hnow H2. set (d' := add_session _ _) in *.
    assert (Sy : says d' tok uid (time_add (clock e (w_ticks w)) 3600)) by (apply Y; auto).
    destruct (call_cases e v io Hio k Hc false _ _ _ _ _ (Logic.I : sa_call_wf (SGetIdentity tok)) W2 H2) as [[_ X]|(d2 & W3 & St)].
    { exfalso. exact (X _ _ Sy). }
    split; [apply W3|]. destruct St as (q & Rq & -> & ->). cbn [x_now surr] in Rq.
    destruct Rq as [(u & x & Sy' & _ & C)|[N _]].
    - apply Y in Sy' as [-> ->]. change (d_users d') with (d_users d) in C. rewrite Ha in C. destruct C as [(i & Di & ->)|(g & Hg1 & Hg2 & _)].
      + exists i. split; [exact Di|reflexivity].
      + exfalso. destruct (Hg g Hg1) as [s Es']. change (d_groups d') with (d_groups d) in Hg2. congruence.
    - exfalso. specialize (N _ _ Sy). lia.
  Qed.
End Shared.
