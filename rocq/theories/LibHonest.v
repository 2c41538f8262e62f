(** Histories of the assembled library in which every token presented was handed out before: nothing is
    ever decrypted that the library did not encrypt. *)
From Coq Require Import ZifyN ZifyNat.
From stdpp Require Import gmap.
From Verif Require Import Bytes Go Json Uuid UuidProofs Time Types World Logic Cryptor IoSpec IoProofs Id Data D1 D1Proofs D1Calls Sched Spec History D1Refine
  WpcFacts Password Standalone StandaloneSpec StandaloneProofs StandaloneRefine StandaloneHist
  Index IndexSpec IndexConcSpec IndexProofs IndexRefine IndexHist Foot Lib LibSpec LibHist LibCor Honest HonestIx.
Local Open Scope bool_scope.
Local Open Scope N_scope.

(** As [lib_run], and nobody else decrypts anything foreign either. *)
Section Model.
  Context {S I : Type} (e : env) (v : view S) (io : provider S) (L : lib) (fuel : nat).
  Notation W := (world S I).
  Inductive lib_quiet_run : W -> list lib_event -> W -> Prop :=
  | lq_nil w : lib_quiet_run w [] w
  | lq_env w w1 evs w2 : lib_elsewhere v L w w1 -> w_forged w1 = w_forged w -> lib_quiet_run w1 evs w2 -> lib_quiet_run w evs w2
  | lq_call w c r w1 evs w2 : lib_call_wf c -> run (lib_do e io L fuel c) w = (r, w1) -> lib_quiet_run w1 evs w2 ->
      lib_quiet_run w (mkLibEvent (surr e w (rng_failed e w1)) c r :: evs) w2.
  Lemma quiet_run (w : W) evs w' : lib_quiet_run w evs w' -> lib_run e v io L fuel w evs w'.
  Proof. intros H. induction H; [constructor|eapply lr_env; eauto|eapply lr_call; eauto]. Qed.
End Model.

Section Honest.
  Context {S I : Type} (e : env) (v : view S) (io : provider S) (Hio : io_spec False v io) (L : lib) (fuel : nat).
  Notation W := (world S I).
  Context (Hc : forall n, time_wf (clock e n)).
  Notation k := (l_sa L).
  Notation d := (l_d1 L).
  Notation iek := (l_iek L).
  Notation idp := (sa_idp e io k : bytes -> prog W _).
  Context (Hiek : blen iek = 32).
  Context (is : list ix_call) (Hapart : token_key_apart L is).
  Notation K := (map ix_keyword is).
  Context (M : N) (HM : M < 2 ^ 64) (Hdiff : labels_differ iek K M).
  Notation store_of w := (v_map v (w_io w)).
  Notation calmly := (@calmly S I).

  Definition sealed_logged (t : sealed_token) (l : list entry) : Prop :=
    forall aad, enc_time (st_exp t) = Some aad -> logged l (d_tek d) (print aad) (slice_bytes (st_wk t)) (slice_bytes (st_ct t)).
  Definition tokens_logged (evs : list lib_event) (l : list entry) : Prop :=
    forall ev t, In ev evs -> lv_reply ev = LObject (Ok (RToken t)) -> sealed_logged t l.
  Lemma tokens_grow evs (w w' : W) : calmly w w' -> tokens_logged evs (w_log w) -> tokens_logged evs (w_log w').
  Proof. intros C H ev t Hin Hr aad Ha. eapply logged_calmly; [exact C|]. exact (H ev t Hin Hr aad Ha). Qed.

  Lemma rep_both m st : rep d all_ids st m -> both st.
  Proof.
    intros [H _] oid Hw. specialize (H oid eq_refl Hw). destruct (m !! oid) as [[o acl]|].
    - destruct H as [(bo & ba & dek & E1 & E2 & _) _]. split; intros E; congruence.
    - destruct H as [-> ->]. split; auto.
  Qed.
  Lemma own_quiet dir (w : W) tok : WR v k false dir w -> (exists uid exp, says dir tok uid exp) -> quiet_lookup idp tok w.
  Proof.
    intros Hw (uid & exp & Hs). unfold quiet_lookup, ends. pose proof (WR_inv v L _ _ _ Hw) as Hi.
    destruct (idp_after e v io Hio L tok w Hi) as (_ & _ & (new & El & Fn) & _).
    destruct new as [|x new]; [|inversion Fn; contradiction]. split; [now rewrite El|].
    destruct (run (idp tok) w) as [r0 w0] eqn:E. cbn [snd].
    assert (E' : run (sa_aes e io k (SGetIdentity tok)) w = (res_map SRIdentity r0, w0)).
    { unfold sa_aes. cbn [sa_do]. unfold ret_map. rewrite run_bind. unfold sa_idp in E. rewrite E. reflexivity. }
    destruct (call_cases e v io Hio k Hc false (SGetIdentity tok) dir w _ w0 Logic.I Hw E') as [[_ G]|(d' & (G & _) & _)]; [destruct (G _ _ Hs)|].
    destruct Hw as [Hf _]. congruence.
  Qed.

  (** What holds between two calls. *)
  Definition HI (evs : list lib_event) (b : N) (s : lib_state) (w : W) : Prop :=
    (exists pre f, LR v L is M pre b f s w /\ lib_history lib_empty evs s) /\
    HD d (store_of w) (w_log w) /\ GN iek K M b (store_of w) (w_log w) /\ tokens_logged evs (w_log w).

  Lemma HI_env evs b s (w w' : W) : lib_elsewhere v L w w' -> w_forged w' = w_forged w -> HI evs b s w -> HI evs b s w'.
  Proof.
    intros (Hi & Hst & (new & El & Fn) & _) Hf ((pre & f & (HW & HR & HS & HC) & HH) & A & B & T).
    assert (C : calmly w w') by (split; [rewrite El; intros x Hx; apply in_or_app; now right|exact Hf]).
    split; [|split; [|split]].
    - exists pre, f. split; [|exact HH]. split; [|split; [|split; [|exact HC]]].
      + eapply elsewhere_WR; [exact HW| |].
        * split; [exact Hi|]. split; [intros id dt Hd; apply Hst; right; right; exact Hd|]. split; [exists new; auto|]. congruence.
        * destruct HW as [Hw _]. congruence.
      + eapply rep_ext; [|exact HR]. intros oid dt _ Hd. apply Hst. left. exact Hd.
      + eapply elsewhere_state; [exact HS|]. split; [exact Hi|]. intros id. apply Hst. right. left. reflexivity.
    - intros oid Hw ba Hb. rewrite Hst in Hb by (left; right; reflexivity). destruct (HD_grow d _ _ _ C A oid Hw ba Hb) as [X Y]. split; [exact X|].
      intros bo Ho. rewrite Hst in Ho by (left; left; reflexivity). auto.
    - eapply GN_seq; [|eapply GN_grow; [exact C|exact B]]. intros id. symmetry. apply Hst. right. left. reflexivity.
    - eapply tokens_grow; eauto.
  Qed.

  Notation adds c := (match c with OnIndex i => is_add i | _ => 0 end).
  Lemma HI_call evs b s (w : W) c r w1 : HI evs b s w -> lib_call_wf c -> (forall i, c = OnIndex i -> In i is) ->
    b + adds c <= M -> b < N.of_nat fuel ->
    (forall tok, lib_token c = Some tok -> exists uid, token_of uid tok evs) ->
    (forall t, c = OnObject (CGetTokenContents t) -> exists ev, In ev evs /\ lv_reply ev = LObject (Ok (RToken t))) ->
    run (lib_do e io L fuel c) w = (r, w1) ->
    exists s', lib_step (surr e w (rng_failed e w1)) c s r s' /\ HI (evs ++ [mkLibEvent (surr e w (rng_failed e w1)) c r]) (b + adds c) s' w1.
  Proof.
    intros ((pre & f & HL & HH) & A & B & T) Hwf Hin Hb Hfu Htok Hct Hr.
    pose proof HL as (HW & HR & _). pose proof (WR_inv v L _ _ _ HW) as Hi. pose proof (proj1 HW) as Hf.
    assert (Hq : forall tok, lib_token c = Some tok -> exists uid exp, says (ls_dir s) tok uid exp).
    { intros tok Ht. destruct (Htok tok Ht) as [uid Hu]. destruct (token_says uid tok evs s Hu HH) as [exp X]. eauto. }
    pose proof (wpc_end _ _ _ _ (foot_lib e v io Hio L fuel is Hapart c Hin w Hi)) as Mv. rewrite Hr in Mv. cbn [fst snd] in Mv. destruct Mv as (Hi1 & Hst & (new & El & _) & _ & _).
    assert (KEY : calmly w w1 /\ HD d (store_of w1) (w_log w1) /\ GN iek K M (b + adds c) (store_of w1) (w_log w1) /\
      forall t, r = LObject (Ok (RToken t)) -> sealed_logged t (w_log w1)).
    { assert (GROW : w_forged w1 = w_forged w -> calmly w w1).
      { intros E. split; [rewrite El; intros x Hx; apply in_or_app; now right|exact E]. }
      destruct c as [c|c|c].
      - cbn [lib_do] in Hr. rewrite run_bind in Hr. cbn [run] in Hr. injection Hr as <- E1.
        assert (KT : known_token d c w).
        { destruct c; try exact Logic.I. destruct (Hct _ eq_refl) as (ev & Hin' & Hr'). exact (T ev _ Hin' Hr'). }
        pose proof (honest_d1 e v io Hio idp (identity_reads (I := I) e False v io Hio k) d c w Hi A (rep_both _ _ HR) Hwf
          (fun tok Ht => own_quiet _ w tok HW (Hq tok Ht)) KT) as X. unfold ends in X. rewrite E1 in X. destruct X as [[X1 X2] X3].
        split; [exact X2|]. split; [exact X1|]. split; [|intros t [= E]; exact (X3 t E)]. rewrite N.add_0_r.
        eapply GN_seq; [|eapply GN_grow; [exact X2|exact B]]. intros id. symmetry. apply Hst. unfold d1_writes. intros [H|H]; discriminate.
      - cbn [lib_do] in Hr. rewrite run_bind in Hr. cbn [run] in Hr. injection Hr as <- E1.
        pose proof (honest_ix e v io Hio idp (identity_reads (I := I) e False v io Hio k) iek Hiek K M HM Hdiff b fuel c w Hi B Hb
          (in_map ix_keyword _ _ (Hin c eq_refl)) (own_quiet _ w _ HW (Hq _ eq_refl))) as X. unfold ends in X. rewrite E1 in X. destruct X as [X1 X2].
        split; [exact X2|]. split; [|split; [exact X1|discriminate]].
        intros oid Hw ba Hba. rewrite Hst in Hba by (unfold ix_writes; discriminate). destruct (HD_grow d _ _ _ X2 A oid Hw ba Hba) as [Y Z]. split; [exact Y|].
        intros bo Ho. rewrite Hst in Ho by (unfold ix_writes; discriminate). auto.
      - assert (Hf1 : w_forged w1 = w_forged w).
        { cbn [lib_do] in Hr. rewrite run_bind in Hr. cbn [run] in Hr. injection Hr as <- E1. destruct (run (sa_aes e io k c) w) as [r0 w0] eqn:E0. cbn [fst snd] in *. subst w0.
          destruct (call_cases e v io Hio k Hc false c (ls_dir s) w r0 w1 Hwf HW E0) as [[_ G]|(d' & (G & _) & _)]; [|congruence].
          exfalso. destruct c; cbn [suspicious] in G; try exact G; destruct (Hq _ eq_refl) as (uid' & exp & X); exact (G _ _ X). }
        pose proof (GROW Hf1) as X2. split; [exact X2|].
        assert (NW : forall dt, dt = DataTypeSealedObject \/ dt = DataTypeSealedAccess \/ dt = DataTypeSealedNode -> forall id, store_of w1 id dt = store_of w id dt).
        { intros dt Hd id. apply Hst. unfold sa_writes. intros H. destruct Hd as [-> | [-> | ->]], H as [H|H]; discriminate. }
        split; [|split].
        + intros oid Hw ba Hba. rewrite NW in Hba by auto. destruct (HD_grow d _ _ _ X2 A oid Hw ba Hba) as [Y Z]. split; [exact Y|].
          intros bo Ho. rewrite NW in Ho by auto. auto.
        + rewrite N.add_0_r. eapply GN_seq; [|eapply GN_grow; [exact X2|exact B]]. intros id. symmetry. apply NW. auto.
        + intros t ->. exfalso. cbn [lib_do] in Hr. rewrite run_bind in Hr. cbn [run] in Hr. discriminate. }
    destruct KEY as (C & A1 & B1 & T1).
    destruct (lib_sim e v io Hio L fuel Hc Hiek is Hapart M HM Hdiff pre b f s w c r w1 HL Hwf Hin Hb Hfu Hr) as (pre1 & f1 & s1 & Hs & HL1).
    { destruct C as [_ C]. congruence. }
    exists s1. split; [exact Hs|]. split; [|split; [exact A1|split; [exact B1|]]].
    - exists pre1, f1. split; [exact HL1|]. clear -HH Hs. induction HH as [s|s ev s2 evs s3 Hs2 _ IH]; cbn [app].
      + econstructor; [exact Hs|constructor].
      + econstructor; [exact Hs2|auto].
    - intros ev t Hin' Hr'. apply in_app_or in Hin' as [Hin'|[<-|[]]]; [|exact (T1 t Hr')]. exact (tokens_grow evs w w1 C T ev t Hin' Hr').
  Qed.

  Lemma honest_from (w : W) evs w' : lib_quiet_run e v io L fuel w evs w' -> forall done b s, HI done b s w -> own_tokens (done ++ evs) ->
    (forall i, In i (ix_calls evs) -> In i is) -> b + N.of_nat (count_adds (ix_calls evs)) <= M -> b + N.of_nat (count_adds (ix_calls evs)) < N.of_nat fuel ->
    exists s', HI (done ++ evs) (b + N.of_nat (count_adds (ix_calls evs))) s' w'.
  Proof.
    intros H. induction H as [w|w w1 evs w2 HE Hf _ IH|w c r w1 evs w2 Hwf Hr _ IH]; intros done b s HL Ho Hin Hb Hfu.
    - exists s. cbn. rewrite app_nil_r, N.add_0_r. exact HL.
    - apply (IH done b s); auto. eapply HI_env; eauto.
    - assert (Hc' : forall i, c = OnIndex i -> In i is).
      { intros i ->. apply Hin. unfold ix_calls. cbn. now left. }
      assert (Hin' : forall i, In i (ix_calls evs) -> In i is).
      { intros i Hx. apply Hin. unfold ix_calls in *. cbn [flat_map]. apply in_or_app. now right. }
      assert (EC : N.of_nat (count_adds (ix_calls (mkLibEvent (surr e w (rng_failed e w1)) c r :: evs))) = adds c + N.of_nat (count_adds (ix_calls evs))).
      { unfold ix_calls. cbn [flat_map lv_call]. destruct c; [reflexivity| |reflexivity]. apply count_cons. }
      rewrite EC in *. destruct (Ho done _ evs eq_refl) as [O1 O2]. cbn [lv_call] in O1, O2.
      destruct (HI_call done b s w c r w1 HL Hwf Hc' ltac:(lia) ltac:(lia) O1 O2 Hr) as (s1 & _ & HL1).
      rewrite (cons_middle (mkLibEvent _ _ _)), app_assoc, N.add_assoc. apply (IH _ _ s1 HL1); [|exact Hin'|lia|lia].
      rewrite <- app_assoc. exact Ho.
  Qed.
  Lemma HI_fresh (w : W) : lib_fresh v L w -> HI [] 0 lib_empty w.
  Proof.
    intros Hf. pose proof Hf as (_ & Hs & _). split; [|split; [|split]].
    - destruct (fresh_LR v L is M w Hf) as [f HL]. exists [], f. split; [exact HL|constructor].
    - intros oid _ ba Hb. rewrite Hs in Hb by (left; right; reflexivity). discriminate.
    - intros kw c b0 _ _ Hb. rewrite Hs in Hb by (right; left; reflexivity). discriminate.
    - intros ev t [].
  Qed.
End Honest.

(** The theorem in the form P_LibHist.v states it. *)
Lemma library_own_tokens {S I} (e : env) (v : view S) (io : provider S) (L : lib) (fuel : nat) (w : world S I) evs w' :
  io_spec False v io -> (forall n, time_wf (clock e n)) -> blen (l_iek L) = 32 ->
  token_key_apart L (ix_calls evs) ->
  labels_differ (l_iek L) (map ix_keyword (ix_calls evs)) (N.of_nat (count_adds (ix_calls evs))) ->
  N.of_nat (count_adds (ix_calls evs)) < 2 ^ 64 -> (count_adds (ix_calls evs) < fuel)%nat ->
  lib_fresh v L w -> lib_quiet_run e v io L fuel w evs w' -> own_tokens evs ->
  w_forged w' = false /\ exists s, lib_history lib_empty evs s.
Proof.
  intros Hio Hc Hiek Ha Hd H64 Hfu Hfr Hrun Ho.
  destruct (honest_from e v io Hio L fuel Hc Hiek (ix_calls evs) Ha _ H64 Hd w evs w' Hrun [] 0 lib_empty (HI_fresh v L _ _ w Hfr) Ho (fun _ H => H) ltac:(lia) ltac:(lia)) as (s & (pre & f & HL & HH) & _).
  cbn [app] in HH. destruct HL as ((Hf & _) & _). eauto.
Qed.
