(** The assembled library with calls that die and storage that fails refines LibCrashSpec.v. *)
From Coq Require Import ZifyN ZifyNat.
From stdpp Require Import gmap.
From Verif Require Import Bytes Go Uuid UuidProofs Time Types World Logic Cryptor IoSpec IoProofs Id Data D1 D1Proofs Sched D1Sched Spec SpecProofs History D1Refine
  WpcFacts Password Standalone StandaloneSpec StandaloneProofs StandaloneRefine StandaloneHist
  Index IndexSpec IndexConcSpec IndexProofs IndexRefine IndexHist IndexSched Foot Claims CrashSpec CrashProofs Lib LibSpec LibHist LibCrashSpec.
Local Open Scope bool_scope.
Local Open Scope N_scope.

Section Model.
  Context {S I : Type} (e : env) (v : view S) (L : lib) (fuel : nat).
  Notation W := (world S I).
  Definition lib_odd (w : W) (c : lib_call) : Prop := match c with OnObject c => odd_object v w c | _ => False end.
  (** Every call through a storage provider of its own, which may fail at any operation; answered, or cut
      after any number of steps.  In between anything may happen except to what the library stores. *)
  Inductive lib_xrun : W -> list lib_happening -> W -> Prop :=
  | lx_nil w : lib_xrun w [] w
  | lx_env w w1 hs w2 : lib_elsewhere v L w w1 -> lib_xrun w1 hs w2 -> lib_xrun w hs w2
  | lx_done w (iof : provider S) c r w1 hs w2 : io_spec True v iof -> lib_call_wf c ->
      run (lib_do e iof L fuel c) w = (r, w1) -> lib_xrun w1 hs w2 ->
      lib_xrun w (LDone (lib_odd w c) (mkLibEvent (surr e w (rng_failed e w1)) c r) :: hs) w2
  | lx_died w (iof : provider S) c n p w1 hs w2 : io_spec True v iof -> lib_call_wf c ->
      run_n n (lib_do e iof L fuel c) w = (p, w1) -> lib_xrun w1 hs w2 ->
      lib_xrun w (LDied (surr e w (rng_failed e w1)) c :: hs) w2.
End Model.

Lemma decide_may (who : res identity) : {may_index who} + {~ may_index who}.
Proof.
  destruct who as [i|y|]; [|right; intros (i & [=] & _)..]. destruct (scope_contains (i_scopes i) ScopeIndex) eqn:E.
  - left. exists i. split; [reflexivity|]. now apply scope_contains_has.
  - right. intros (j & [= <-] & H). apply scope_contains_has in H. congruence.
Qed.
Lemma wpc_unbind {W A B} (p : prog W A) (k : A -> prog W B) Inv Q w :
  wpc (bind p k) Inv Q w -> wpc p Inv (fun a w' => wpc (k a) Inv Q w') w.
Proof.
  revert w. induction p as [a|X f c IH]; intros w H; cbn [wpc bind] in *.
  - split; [|exact H]. destruct (k a); cbn [wpc] in H; apply H.
  - destruct H as [H1 H2]. split; [exact H1|]. apply IH, H2.
Qed.

(** ** A caller whose token does not resolve gets nowhere *)
Section Barred.
  Context {S I : Type} (e : env) (v : view S) (io : provider S).
  Notation W := (world S I).
  Context (idp : bytes -> prog W (res identity)).
  Notation nothing := (moved v (fun _ => False) (fun _ => False) False).
  Context (Hfoot : forall tok, foot v (fun _ => False) (fun _ => False) False (idp tok)).

  Lemma first_wpc tok (w : W) (Inv : W -> Prop) (Q : _ -> W -> Prop) : v_inv v (w_io w) -> (forall w', nothing w w' -> Inv w') ->
    (forall w', run (idp tok) w = (whois idp w tok, w') -> nothing w w' -> Q (whois idp w tok) w') -> wpc (idp tok) Inv Q w.
  Proof.
    intros Hi HI HQ. eapply wpc_mono; [| |exact (wpc_run _ _ _ _ (Hfoot tok w Hi))]; [exact HI|].
    cbn beta. intros r w' _ [E M]. assert (r = whois idp w tok) as -> by (unfold whois; now rewrite E). auto.
  Qed.
  (** A flag raised while the token is looked up stays, and until then nothing is written. *)
  Lemma d1_flag d c t (w : W) : call_token c = Some t -> v_inv v (w_io w) -> w_forged (snd (run (idp t) w)) = true ->
    wpc (d1_aes e io idp d c) (fun w' => nothing w w' \/ w_forged w' = true) (fun _ _ => True) w.
  Proof.
    intros Ht Hi Hf.
    assert (K : forall r0 w0, run (idp t) w = (r0, w0) ->
      wpc (d1_aes e io (fun _ => Ret r0) d c) (fun w' => nothing w w' \/ w_forged w' = true) (fun _ _ => True) w0).
    { intros r0 w0 E. rewrite E in Hf. cbn [snd] in Hf.
      eapply wpc_mono; [| |exact (wpc_forged _ w0 (D1Sched.fmono_call e io (fun _ => Ret r0) d (fun _ => Logic.I) c) Hf)]; auto. }
    unfold d1_aes in *. destruct c; cbn [call_token] in Ht; try discriminate; injection Ht as ->;
      cbn [d1_do] in *; unfold ret_map, d1_encrypt, d1_update, d1_decrypt, d1_delete, d1_get_access_groups, d1_add_groups, d1_remove_groups, d1_authorize, bindR, verify_access in *;
      apply wpc_bind, wpc_bind, wpc_bind; (apply first_wpc; [exact Hi|auto|]); intros w0 E _; apply wpc_unbind, wpc_unbind; exact (K _ _ E).
  Qed.
  Lemma ix_flag iek fuel c (w : W) : v_inv v (w_io w) -> w_forged (snd (run (idp (ix_token c)) w)) = true ->
    wpc (ix_do e io idp iek fuel c) (fun w' => nothing w w' \/ w_forged w' = true) (fun _ _ => True) w.
  Proof.
    intros Hi Hf.
    assert (K : forall r0 w0, run (idp (ix_token c)) w = (r0, w0) ->
      wpc (ix_do e io (fun _ => Ret r0) iek fuel c) (fun w' => nothing w w' \/ w_forged w' = true) (fun _ _ => True) w0).
    { intros r0 w0 E. rewrite E in Hf. cbn [snd] in Hf.
      eapply wpc_mono; [| |exact (wpc_forged _ w0 (IndexSched.fmono_call e io (fun _ => Ret r0) iek fuel (fun _ => Logic.I) c) Hf)]; auto. }
    destruct c; cbn [ix_token] in *; cbn [ix_do] in *; unfold ret_map, ix_add, ix_search, ix_delete, bindR, ix_verify in *;
      apply wpc_bind, wpc_bind, wpc_bind; (apply first_wpc; [exact Hi|auto|]); intros w0 E _; apply wpc_unbind, wpc_unbind; exact (K _ _ E).
  Qed.
  (** A caller who may not use the index does nothing to it. *)
  Lemma ix_barred iek fuel c (w : W) : v_inv v (w_io w) -> ~ may_index (whois idp w (ix_token c)) ->
    wpc (ix_do e io idp iek fuel c) (fun w' => nothing w w')
      (fun r _ => r = match whois idp w (ix_token c) with Ok _ => Err EIxNotAuthorized | Err _ => Err EIxNotAuthenticated | Panic => Panic end) w.
  Proof.
    intros Hi Hm. assert (Hs : forall i, whois idp w (ix_token c) = Ok i -> scope_contains (i_scopes i) ScopeIndex = false).
    { intros i E. destruct (scope_contains (i_scopes i) ScopeIndex) eqn:Es; [|reflexivity]. exfalso. apply Hm. exists i. split; [exact E|]. now apply scope_contains_has. }
    destruct c; cbn [ix_token] in *; cbn [ix_do]; unfold ret_map, ix_add, ix_search, ix_delete, bindR, ix_verify;
      apply wpc_bind, wpc_bind, wpc_bind; (apply first_wpc; [exact Hi|auto|]); intros w0 _ M;
      (destruct (whois idp w _) as [i|y|]; [rewrite (Hs i eq_refl)|..]); cbn; auto.
  Qed.
End Barred.

Section Refine.
  Context {S I : Type} (e : env) (v : view S) (L : lib) (fuel : nat).
  Notation W := (world S I).
  Context (Hc : forall n, time_wf (clock e n)).
  Notation k := (l_sa L).
  Notation d := (l_d1 L).
  Notation iek := (l_iek L).
  Context (Hiek : blen iek = 32).
  Notation nothing := (moved v (fun _ => False) (fun _ => False) False).
  Context (is : list ix_call) (Hapart : token_key_apart L is).
  Notation K := (map ix_keyword is).
  Context (M : N) (HM : M < 2 ^ 64) (Hdiff : labels_differ iek K M).
  Notation is_new c := (match c with OnIndex i => is_add i | _ => 0 end).

  (** The world stands for the state. *)
  Definition LX (b : N) (f : slots) (s : lib_x) (w : W) : Prop :=
    WR v k false (lx_dir s) w /\ shelved d (v_map v (w_io w)) (lx_shelf s) /\
    state v iek K M (added (map IndexSpec.hap_call (lx_past s))) b f (lx_index s) w /\ tidy M (lx_past s) f.

  Definition lib_touches (c : lib_call) (dt : N) : Prop :=
    match c with OnObject _ => d1_writes dt | OnIndex _ => ix_writes dt | OnIdentity _ => sa_writes dt end.
  Definition lib_moved (c : lib_call) (w w' : W) : Prop :=
    moved v (lib_touches c) (fun x => match c with OnIdentity _ => True | _ => x <> s_tek k end) True w w'.

  Section Call.
  Context (iof : provider S) (Hio : io_spec True v iof).
  Notation idp := (sa_idp e iof k : bytes -> prog W _).
  Lemma x_idp_foot tok : foot v (fun _ => False) (fun _ => False) False (idp tok).
  Proof. apply (foot_identity e True v iof Hio). Qed.
  Lemma x_foot c : (forall i, c = OnIndex i -> In i is) -> forall w : W, v_inv v (w_io w) ->
    wpc (lib_do e iof L fuel c) (lib_moved c w) (fun _ w' => lib_moved c w w') w.
  Proof.
    intros Hin. destruct Hapart as [A1 A2]. unfold lib_moved.
    assert (HI : forall (T : N -> Prop) (K : bytes -> Prop) tok, foot v T K True (idp tok)).
    { intros T K0 tok. eapply foot_mono; [..|apply x_idp_foot]; [intros x []|intros x []|intros []]. }
    destruct c as [c|c|c]; cbn [lib_do lib_touches]; (apply foot_bind; [|intros; apply foot_ret]).
    - eapply foot_mono; [..|apply (foot_d1 e True v iof Hio idp d (HI _ _) c)]; [auto| |auto]. intros x Hx ->. auto.
    - eapply foot_mono; [..|apply (foot_ix e True v iof Hio idp iek fuel (ix_key_of iek is) (HI _ _) c)]; [auto| |auto|].
      + intros x Hx ->. auto.
      + intros x Hx. exists c. split; [auto|exact Hx].
    - eapply foot_mono; [..|apply (foot_sa e True v iof Hio k c)]; auto.
  Qed.

  (** What the other two of the three see of a call. *)
  Lemma others_kept c b f s (w w1 : W) : LX b f s w -> lib_moved c w w1 -> w_forged w1 = false ->
    (match c with OnIdentity _ => True | _ => WR v k false (lx_dir s) w1 end) /\
    (match c with OnObject _ => True | _ => shelved d (v_map v (w_io w1)) (lx_shelf s) end) /\
    (match c with OnIndex _ => True | _ => state v iek K M (added (map IndexSpec.hap_call (lx_past s))) b f (lx_index s) w1 end).
  Proof.
    intros (HW & HR & HS & HT) (Hi1 & Hst & (new & Hl & Hn) & Hm & _) Hf. split; [|split].
    - assert (KW : match c with OnIdentity _ => True | _ => sa_elsewhere v k w w1 end).
      { destruct c; [|..|exact Logic.I]; (split; [exact Hi1|]; split; [|split; [exists new; split; [exact Hl|exact Hn]|exact Hm]]);
          intros id dt [-> | ->]; apply Hst; unfold lib_touches, d1_writes, ix_writes; intros H; repeat destruct H as [H|H]; discriminate. }
      destruct c; [|..|exact Logic.I]; exact (elsewhere_WR v k _ _ _ _ _ HW KW Hf).
    - destruct c; [exact Logic.I|..]; (eapply shelved_slots; [|exact HR]); intros oid dt [-> | ->]; apply Hst; unfold lib_touches, ix_writes, sa_writes;
        intros H; repeat destruct H as [H|H]; discriminate.
    - destruct c; [|exact Logic.I|]; (eapply elsewhere_state; [exact HS|split; [exact Hi1|]]); intros id; apply Hst; unfold lib_touches, d1_writes, sa_writes;
        intros H; repeat destruct H as [H|H]; discriminate.
  Qed.
  (** A call that moved nothing. *)
  Lemma nothing_kept b f s (w w1 : W) : LX b f s w -> nothing w w1 -> w_forged w1 = false -> LX b f s w1.
  Proof.
    intros (HW & HR & HS & HT) (Hi1 & Hst & (new & Hl & Hn) & Hm & _) Hf. split; [|split; [|split; [|exact HT]]].
    - eapply elsewhere_WR; [exact HW| |exact Hf]. split; [exact Hi1|]. split; [intros; apply Hst; auto|]. split; [|exact Hm].
      exists new. split; [exact Hl|]. eapply List.Forall_impl; [|exact Hn]. intros x [].
    - eapply shelved_slots; [|exact HR]. intros. apply Hst. auto.
    - eapply elsewhere_state; [exact HS|]. split; [exact Hi1|]. intros. apply Hst. auto.
  Qed.
  Lemma x_resolves dir (w : W) tok y : WR v k false dir w -> w_forged (snd (run (idp tok) w)) = false ->
    claimed (surr e w y) dir (Some tok) (whois idp w tok).
  Proof.
    intros Hw Hf. unfold whois. destruct (run (idp tok) w) as [r0 w0] eqn:E. cbn [fst snd] in *.
    assert (E' : run (sa_aes e iof k (SGetIdentity tok)) w = (res_map SRIdentity r0, w0)).
    { unfold sa_aes. cbn [sa_do]. unfold ret_map. rewrite run_bind. unfold sa_idp in E. rewrite E. reflexivity. }
    pose proof (wpc_end _ _ _ _ (sa_wpc e True v iof Hio k false Hc (SGetIdentity tok) dir w Logic.I Hw)) as P. rewrite E' in P. cbn [fst snd] in P.
    destruct P as [[P _]|(d' & _ & [P|(_ & (z & P & _) & _)])]; [congruence|..].
    - destruct P as (q & A & B & _). left. cbn [caller x_now surr] in *.
      destruct r0 as [i|z|], q as [j|z'|]; cbn [res_map] in B; try discriminate; try (injection B as <-); exact A.
    - right. destruct r0; cbn [res_map] in P; try discriminate. eauto.
  Qed.
  Lemma x_draws tok (w : W) : v_inv v (w_io w) -> w_draws (snd (run (idp tok) w)) = w_draws w.
  Proof. intros Hi. destruct (wpc_end _ _ _ _ (x_idp_foot tok w Hi)) as (_ & _ & _ & _ & [[]|E]). exact E. Qed.
  Lemma x_outside c (w w1 : W) : v_inv v (w_io w) -> outside_of e idp w c w1 =
    object_outside (surr e w (rng_failed e w1)) (o_who (outside_of e idp w c w1)) \/ call_token c = None.
  Proof.
    intros Hi. unfold outside_of, object_outside. destruct (call_token c) as [t|]; [left|now right]. cbn [o_who]. f_equal.
    cbn [x_draw surr]. rewrite x_draws by exact Hi. now rewrite Nat.add_0_r.
  Qed.
  Lemma tokenless_step odd x x' c r s s' : call_token c = None -> hap_step (Answered odd (mkEvent x c r)) s s' -> hap_step (Answered odd (mkEvent x' c r)) s s'.
  Proof. destruct c; try discriminate; intros _ H; exact H. Qed.
  Lemma tokenless_cut x x' c s s' : call_token c = None -> x_cut x c s s' -> x_cut x' c s s'.
  Proof. destruct c; try discriminate; intros _ H; exact H. Qed.

  Lemma done_sim b f s (w : W) c r w1 : LX b f s w -> lib_call_wf c -> (forall i, c = OnIndex i -> In i is) ->
    b + is_new c <= M -> b < N.of_nat fuel -> run (lib_do e iof L fuel c) w = (r, w1) -> w_forged w1 = false ->
    exists f' s', lib_x_step (LDone (lib_odd v w c) (mkLibEvent (surr e w (rng_failed e w1)) c r)) s s' /\ LX (b + is_new c) f' s' w1.
  Proof.
    intros HL Hwf Hin Hb Hfu Hr Hf. pose proof HL as (HW & HR & HS & HT). pose proof (WR_inv v L _ _ _ HW) as Hi.
    pose proof (wpc_end _ _ _ _ (x_foot c Hin w Hi)) as Mv. rewrite Hr in Mv. cbn [fst snd] in Mv.
    destruct (others_kept c b f s w w1 HL Mv Hf) as (KW & KO & KI). destruct Mv as (Hi1 & _).
    pose proof (identity_reads (I := I) e True v iof Hio k) as Hidp.
    destruct c as [c|c|c]; cbn [lib_do] in Hr; rewrite run_bind in Hr; cbn [run] in Hr; injection Hr as <- Hr1; rewrite ?N.add_0_r;
      cbn [lib_x_step lv_call lv_reply lv_x].
    - destruct (run (d1_aes e iof idp d c) w) as [r w1'] eqn:Er. cbn [fst snd] in Hr1. subst w1'.
      destruct (answered_sim e v idp Hidp d iof Hio w c r w1 (lx_shelf s) Er Hi HR Hwf) as (m' & Hs & R1 & _).
      exists f, (mkLibX (lx_dir s) m' (lx_index s) (lx_past s)). split; [|split; [exact KW|split; [exact R1|split; [exact KI|exact HT]]]].
      exists (o_who (outside_of e idp w c w1)). split; [|split; [|auto]].
      + unfold outside_of. destruct (call_token c) as [t|] eqn:Et; cbn [o_who]; [|right; eauto]. apply x_resolves; [exact HW|].
        destruct (w_forged (snd (run (idp t) w))) eqn:G; [|reflexivity].
        pose proof (forged_first_d1 e iof idp d c t w Et G) as G'. rewrite Er in G'. cbn [snd] in G'. congruence.
      + cbn [lx_shelf]. destruct (x_outside c w w1 Hi) as [E|E]; [now rewrite <- E|]. eapply tokenless_step; [exact E|exact Hs].
    - destruct (run (ix_do e iof idp iek fuel c) w) as [r w1'] eqn:Er. cbn [fst snd] in Hr1. subst w1'.
      assert (Hcl : claimed (surr e w (rng_failed e w1)) (lx_dir s) (Some (ix_token c)) (whois idp w (ix_token c))).
      { apply x_resolves; [exact HW|]. destruct (w_forged (snd (run (idp (ix_token c)) w))) eqn:G; [|reflexivity].
        pose proof (forged_first_ix e iof idp iek fuel c w G) as G'. rewrite Er in G'. cbn [snd] in G'. congruence. }
      assert (Hk : In (ix_keyword c) K) by (apply in_map, Hin; reflexivity).
      pose proof (state_length v iek Hiek K M HM _ b f (lx_index s) w (ix_keyword c) HS Hk ltac:(lia)) as HLn.
      pose proof (call_wpc e v idp Hidp iek Hiek K M HM Hdiff True iof Hio fuel (lx_past s) b c f (lx_index s) w HS HT Hk ltac:(lia) ltac:(lia)) as HWP.
      pose proof (wpc_end _ _ _ _ HWP) as Q. rewrite Er in Q. cbn [fst snd] in Q.
      destruct Q as (_ & f' & m' & (H1 & H2 & H3) & _).
      set (h := XDone (mkIxEvent (ix_outside_of e idp w c w1) c r)) in *.
      destruct (decide_may (whois idp w (ix_token c))) as [Hm|Hm].
      + exists f', (mkLibX (lx_dir s) (lx_shelf s) m' (lx_past s ++ [h])). split.
        * exists (whois idp w (ix_token c)). split; [exact Hcl|]. split; [|auto]. split; [exact H2|]. split; [reflexivity|]. intros X. contradiction.
        * split; [exact KW|]. split; [exact KO|]. cbn [lx_past lx_index]. rewrite map_app. split; [exact H1|exact H3].
      + pose proof (ix_barred e v iof idp x_idp_foot iek fuel c w Hi Hm) as BW.
        pose proof (wpc_end_inv _ _ _ _ BW) as B1. pose proof (wpc_end _ _ _ _ BW) as B2. rewrite Er in B1, B2. cbn [fst snd] in B1, B2.
        destruct (nothing_kept b f s w w1 HL B1 Hf) as (_ & _ & S1 & _).
        assert (Hno : forall a, r <> Ok a) by (intros a ->; destruct (whois idp w (ix_token c)); discriminate).
        exists f, (mkLibX (lx_dir s) (lx_shelf s) (lx_index s) (lx_past s ++ [h])). split.
        * exists (whois idp w (ix_token c)). split; [exact Hcl|]. split; [|auto]. split; [apply cut_done; [exact Hno|apply same_cut]|].
          split; [reflexivity|]. intros _. split; [apply same_refl|]. exact B2.
        * split; [exact KW|]. split; [exact KO|]. cbn [lx_past lx_index]. rewrite map_app. split; [|apply (tidy_more _ _ _ f); auto].
          destruct S1 as (T1 & T2 & T3). split; [exact T1|]. split; [|exact T3].
          eapply (wf_mono iek Hiek K M HM); [exact T2|lia|]. intros kw' x' X. now apply added_app.
    - destruct (run (sa_aes e iof k c) w) as [r w1'] eqn:Er. cbn [fst snd] in Hr1. subst w1'.
      pose proof (wpc_end _ _ _ _ (sa_wpc e True v iof Hio k false Hc c (lx_dir s) w Hwf HW)) as E. rewrite Er in E. cbn [fst snd] in E.
      destruct E as [[E _]|(d' & A & B)]; [congruence|].
      exists f, (mkLibX d' (lx_shelf s) (lx_index s) (lx_past s)). split; [|split; [exact A|split; [exact KO|split; [exact KI|exact HT]]]].
      split; [|auto]. cbn [sa_happens sv_x sv_call sv_reply lx_dir]. destruct B as [B|(HF & (y & E & _) & B)]; [now left|]. right. split; [exact HF|]. split; [eauto|exact B].
  Qed.
  Lemma wpc_reply {A B} (p : prog W A) (g : A -> B) (Inv : W -> Prop) Q (w : W) :
    wpc p Inv Q w -> wpc (bind p (fun r => Ret (g r))) Inv (fun _ _ => True) w.
  Proof. intros H. apply wpc_bind. eapply wpc_mono; [| |exact H]; [auto|]. intros r w' HI _. now apply wpc_ret. Qed.

  Lemma died_sim b f s (w : W) c n p w1 : LX b f s w -> lib_call_wf c -> (forall i, c = OnIndex i -> In i is) ->
    b + is_new c <= M -> b < N.of_nat fuel -> run_n n (lib_do e iof L fuel c) w = (p, w1) -> w_forged w1 = false ->
    exists f' s', lib_x_step (LDied (surr e w (rng_failed e w1)) c) s s' /\ LX (b + is_new c) f' s' w1.
  Proof.
    intros HL Hwf Hin Hb Hfu Hr Hf. pose proof HL as (HW & HR & HS & HT). pose proof (WR_inv v L _ _ _ HW) as Hi.
    pose proof (wpc_cut _ _ _ _ (x_foot c Hin w Hi) n) as Mv. rewrite Hr in Mv. cbn [snd] in Mv.
    destruct (others_kept c b f s w w1 HL Mv Hf) as (KW & KO & KI). destruct Mv as (Hi1 & _).
    pose proof (identity_reads (I := I) e True v iof Hio k) as Hidp.
    assert (CUT : forall Inv, wpc (lib_do e iof L fuel c) Inv (fun _ _ => True) w -> Inv w1).
    { intros Inv H. pose proof (wpc_cut _ _ _ _ H n) as X. now rewrite Hr in X. }
    destruct c as [c|c|c]; cbn [lib_do] in CUT; rewrite ?N.add_0_r; cbn [lib_x_step].
    - pose proof (CUT _ (wpc_reply _ _ _ _ _ (call_passes e v idp Hidp d iof Hio c w Hi Hwf))) as P.
      destruct (passes_cut e v idp Hidp d iof Hio c w w1 (lx_shelf s) w1 HR Hwf P) as (m' & Hs & R1 & _).
      assert (X : (exists t, call_token c = Some t /\ w_forged (snd (run (idp t) w)) = true) \/
        claimed (surr e w (rng_failed e w1)) (lx_dir s) (call_token c) (o_who (outside_of e idp w c w1))).
      { unfold outside_of. destruct (call_token c) as [t|] eqn:Et; cbn [o_who]; [|right; right; eauto].
        destruct (w_forged (snd (run (idp t) w))) eqn:G; [left; eauto|right]. now apply x_resolves. }
      destruct X as [(t & Et & G)|X].
      + destruct (CUT _ (wpc_reply _ _ _ _ _ (d1_flag e v iof idp x_idp_foot d c t w Et Hi G))) as [Z|Z]; [|congruence].
        exists f, s. split; [|exact (nothing_kept b f s w w1 HL Z Hf)]. exists (Err ED1NotAuthenticated). split; [right; eauto|]. split; [now left|auto].
      + exists f, (mkLibX (lx_dir s) m' (lx_index s) (lx_past s)). split; [|split; [exact KW|split; [exact R1|split; [exact KI|exact HT]]]].
        exists (o_who (outside_of e idp w c w1)). split; [exact X|]. split; [|auto].
        cbn [lx_shelf hap_step]. destruct (x_outside c w w1 Hi) as [E|E]; [now rewrite <- E|]. eapply tokenless_cut; [exact E|exact Hs].
    - assert (Hk : In (ix_keyword c) K) by (apply in_map, Hin; reflexivity).
      pose proof (state_length v iek Hiek K M HM _ b f (lx_index s) w (ix_keyword c) HS Hk ltac:(lia)) as HLn.
      pose proof (call_wpc e v idp Hidp iek Hiek K M HM Hdiff True iof Hio fuel (lx_past s) b c f (lx_index s) w HS HT Hk ltac:(lia) ltac:(lia)) as HWP.
      pose proof (CUT _ (wpc_reply _ _ _ _ _ HWP)) as Q. cbn beta in Q. destruct Q as (f' & m' & H1 & H2 & H3).
      assert (NO : nothing w w1 -> forall who, claimed (surr e w (rng_failed e w1)) (lx_dir s) (Some (ix_token c)) who ->
        exists f' s', (exists who, claimed (surr e w (rng_failed e w1)) (lx_dir s) (Some (ix_token c)) who /\ index_step who (XCut c) s s' /\
            lx_dir s' = lx_dir s /\ lx_shelf s' = lx_shelf s) /\ LX (b + is_add c) f' s' w1).
      { intros B1 who Hcl. destruct (nothing_kept b f s w w1 HL B1 Hf) as (_ & _ & S1 & _).
        exists f, (mkLibX (lx_dir s) (lx_shelf s) (lx_index s) (lx_past s ++ [XCut c])). split.
        - exists who. split; [exact Hcl|]. split; [|auto]. split; [apply same_cut|]. split; [reflexivity|]. intros _. split; [apply same_refl|exact Logic.I].
        - split; [exact KW|]. split; [exact KO|]. cbn [lx_past lx_index]. rewrite map_app. split; [|apply (tidy_more _ _ _ f); auto].
          destruct S1 as (T1 & T2 & T3). split; [exact T1|]. split; [|exact T3].
          eapply (wf_mono iek Hiek K M HM); [exact T2|lia|]. intros kw' x' X. now apply added_app. }
      destruct (w_forged (snd (run (idp (ix_token c)) w))) eqn:G.
      { destruct (CUT _ (wpc_reply _ _ _ _ _ (ix_flag e v iof idp x_idp_foot iek fuel c w Hi G))) as [Z|Z]; [|congruence].
        apply (NO Z (Err ED1NotAuthenticated)). right. eauto. }
      pose proof (x_resolves (lx_dir s) w (ix_token c) (rng_failed e w1) HW G) as Hcl.
      destruct (decide_may (whois idp w (ix_token c))) as [Hm|Hm].
      + exists f', (mkLibX (lx_dir s) (lx_shelf s) m' (lx_past s ++ [XCut c])). split.
        * exists (whois idp w (ix_token c)). split; [exact Hcl|]. split; [|auto]. split; [exact H2|]. split; [reflexivity|]. intros X. contradiction.
        * split; [exact KW|]. split; [exact KO|]. cbn [lx_past lx_index]. rewrite map_app. split; [exact H1|exact H3].
      + exact (NO (CUT _ (wpc_reply _ _ _ _ _ (ix_barred e v iof idp x_idp_foot iek fuel c w Hi Hm))) _ Hcl).
    - pose proof (CUT _ (wpc_reply _ _ _ _ _ (sa_wpc e True v iof Hio k false Hc c (lx_dir s) w Hwf HW))) as E.
      destruct E as [[E _]|(d' & A & B)]; [congruence|].
      exists f, (mkLibX d' (lx_shelf s) (lx_index s) (lx_past s)). split; [|split; [exact A|split; [exact KO|split; [exact KI|exact HT]]]].
      split; [|auto]. exact B.
  Qed.
  End Call.

  Lemma x_forged (w : W) hs w' : lib_xrun e v L fuel w hs w' -> (forall i, In i (lh_index hs) -> In i is) -> v_inv v (w_io w) ->
    w_forged w = true -> w_forged w' = true.
  Proof.
    intros H. induction H as [w|w w1 hs w2 HE _ IH|w iof c r w1 hs w2 Hio _ Hr _ IH|w iof c n p w1 hs w2 Hio _ Hr _ IH]; intros Hin Hi Hf; [exact Hf|..].
    - destruct HE as (Hi1 & _ & _ & Hm). auto.
    - assert (Hin' : forall i, c = OnIndex i -> In i is) by (intros i ->; apply Hin; unfold lh_index; cbn; now left).
      pose proof (wpc_end _ _ _ _ (x_foot iof Hio c Hin' w Hi)) as Mv. rewrite Hr in Mv. destruct Mv as (A & _ & _ & B & _).
      apply IH; [|exact A|auto]. intros i Hx. apply Hin. unfold lh_index in *. cbn [flat_map]. apply in_or_app. now right.
    - assert (Hin' : forall i, c = OnIndex i -> In i is) by (intros i ->; apply Hin; unfold lh_index; cbn; now left).
      pose proof (wpc_cut _ _ _ _ (x_foot iof Hio c Hin' w Hi) n) as Mv. rewrite Hr in Mv. destruct Mv as (A & _ & _ & B & _).
      apply IH; [|exact A|auto]. intros i Hx. apply Hin. unfold lh_index in *. cbn [flat_map]. apply in_or_app. now right.
  Qed.

  Lemma x_refines (w : W) hs w' : lib_xrun e v L fuel w hs w' -> w_forged w' = false ->
    forall b f s, LX b f s w -> (forall i, In i (lh_index hs) -> In i is) ->
    b + N.of_nat (count_adds (lh_index hs)) <= M -> b + N.of_nat (count_adds (lh_index hs)) < N.of_nat fuel ->
    exists s', lib_xhistory s hs s'.
  Proof.
    intros H Hf. induction H as [w|w w1 hs w2 HE HRun IH|w iof c r w1 hs w2 Hio Hwf Hr HRun IH|w iof c n p w1 hs w2 Hio Hwf Hr HRun IH]; intros b f s HL Hin Hb Hfu.
    - exists s. constructor.
    - apply (IH Hf b f s); auto. destruct HL as (HW & HR & HS & HT). destruct HE as (Hi1 & He & Hadv).
      split; [|split; [|split; [|exact HT]]].
      + eapply elsewhere_WR; [exact HW| |].
        * split; [exact Hi1|]. split; [|exact Hadv]. intros id dt Hd. apply He. right. right. exact Hd.
        * destruct (w_forged w1) eqn:G; [|reflexivity]. pose proof (x_forged w1 hs w2 HRun Hin Hi1 G). congruence.
      + eapply shelved_slots; [|exact HR]. intros oid dt Hd. apply He. left. exact Hd.
      + eapply elsewhere_state; [exact HS|]. split; [exact Hi1|]. intros id. apply He. right. left. reflexivity.
    - assert (Hc' : forall i, c = OnIndex i -> In i is) by (intros i ->; apply Hin; unfold lh_index; cbn; now left).
      assert (Hin' : forall i, In i (lh_index hs) -> In i is).
      { intros i Hx. apply Hin. unfold lh_index in *. cbn [flat_map]. apply in_or_app. now right. }
      assert (EC : N.of_nat (count_adds (lh_index (LDone (lib_odd v w c) (mkLibEvent (surr e w (rng_failed e w1)) c r) :: hs))) =
        is_new c + N.of_nat (count_adds (lh_index hs))).
      { unfold lh_index. cbn [flat_map lh_call lv_call]. destruct c; [reflexivity| |reflexivity]. apply count_cons. }
      rewrite EC in *.
      assert (Hi : v_inv v (w_io w)) by (destruct HL as (HW & _); eapply (WR_inv v L), HW).
      pose proof (wpc_end _ _ _ _ (x_foot iof Hio c Hc' w Hi)) as Mv. rewrite Hr in Mv. destruct Mv as (Hi1 & _).
      assert (Hf1 : w_forged w1 = false).
      { destruct (w_forged w1) eqn:G; [|reflexivity]. pose proof (x_forged w1 hs w2 HRun Hin' Hi1 G). congruence. }
      destruct (done_sim iof Hio b f s w c r w1 HL Hwf Hc' ltac:(lia) ltac:(lia) Hr Hf1) as (f1 & s1 & Hs & HL1).
      destruct (IH Hf _ f1 s1 HL1 Hin' ltac:(lia) ltac:(lia)) as (s2 & Hh). exists s2. econstructor; eauto.
    - assert (Hc' : forall i, c = OnIndex i -> In i is) by (intros i ->; apply Hin; unfold lh_index; cbn; now left).
      assert (Hin' : forall i, In i (lh_index hs) -> In i is).
      { intros i Hx. apply Hin. unfold lh_index in *. cbn [flat_map]. apply in_or_app. now right. }
      assert (EC : N.of_nat (count_adds (lh_index (LDied (surr e w (rng_failed e w1)) c :: hs))) = is_new c + N.of_nat (count_adds (lh_index hs))).
      { unfold lh_index. cbn [flat_map lh_call]. destruct c; [reflexivity| |reflexivity]. apply count_cons. }
      rewrite EC in *.
      assert (Hi : v_inv v (w_io w)) by (destruct HL as (HW & _); eapply (WR_inv v L), HW).
      pose proof (wpc_cut _ _ _ _ (x_foot iof Hio c Hc' w Hi) n) as Mv. rewrite Hr in Mv. destruct Mv as (Hi1 & _).
      assert (Hf1 : w_forged w1 = false).
      { destruct (w_forged w1) eqn:G; [|reflexivity]. pose proof (x_forged w1 hs w2 HRun Hin' Hi1 G). congruence. }
      destruct (died_sim iof Hio b f s w c n p w1 HL Hwf Hc' ltac:(lia) ltac:(lia) Hr Hf1) as (f1 & s1 & Hs & HL1).
      destruct (IH Hf _ f1 s1 HL1 Hin' ltac:(lia) ltac:(lia)) as (s2 & Hh). exists s2. econstructor; eauto.
  Qed.
  Lemma fresh_LX (w : W) : lib_fresh v L w -> exists f, LX 0 f lib_x_empty w.
  Proof.
    intros (Hi & Hs & Hl & Hf). destruct (fresh_state v iek K M w) as [HS HC].
    { split; [exact Hi|]. intros id. apply Hs. right. left. reflexivity. }
    eexists. split; [|split; [|split; [exact HS|]]].
    - apply fresh_WR. split; [exact Hi|]. split; [|auto]. intros id dt Hd. apply Hs. right. right. exact Hd.
    - intros oid _. cbn [lx_shelf lib_x_empty shelf_empty sh_obj sh_acl]. rewrite !lookup_empty. split; apply Hs; left; [left|right]; reflexivity.
    - intros kw. right. apply HC.
  Qed.
End Refine.

(** The keys and labels in use differ, fewer than 2^64 Adds were made (and there is [fuel] for more than them), and
    nothing was stored at first. *)
Definition x_set_up {S I} (v : view S) (L : lib) (fuel : nat) (w : world S I) (hs : list lib_happening) : Prop :=
  token_key_apart L (lh_index hs) /\
  labels_differ (l_iek L) (map ix_keyword (lh_index hs)) (N.of_nat (count_adds (lh_index hs))) /\
  N.of_nat (count_adds (lh_index hs)) < 2 ^ 64 /\ (count_adds (lh_index hs) < fuel)%nat /\ lib_fresh v L w.
Lemma library_survives {S I} (e : env) (v : view S) (L : lib) (fuel : nat) (w : world S I) hs w' :
  (forall n, time_wf (clock e n)) -> blen (l_iek L) = 32 -> x_set_up v L fuel w hs ->
  lib_xrun e v L fuel w hs w' -> w_forged w' = false -> exists s, lib_xhistory lib_x_empty hs s.
Proof.
  intros Hc Hiek (Ha & Hd & H64 & Hfu & Hfr) Hrun Hf.
  destruct (fresh_LX v L (lh_index hs) (N.of_nat (count_adds (lh_index hs))) w Hfr) as [f HL].
  exact (x_refines e v L fuel Hc Hiek (lh_index hs) Ha _ H64 Hd w hs w' Hrun Hf 0 f lib_x_empty HL ltac:(auto) ltac:(lia) ltac:(lia)).
Qed.
