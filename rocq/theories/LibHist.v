(** Histories of the assembled library. *)
From Coq Require Import ZifyN ZifyNat.
From stdpp Require Import gmap.
From Verif Require Import Bytes Go Uuid UuidProofs Time Types World Logic Cryptor IoSpec IoProofs Id Data D1 D1Proofs Sched D1Sched Authority Spec SpecProofs History D1Refine D1Local
  WpcFacts Password Standalone StandaloneSpec IdAuthority StandaloneProofs StandaloneRefine StandaloneHist
  Index IndexSpec IndexConcSpec IndexProofs IndexRefine IndexHist IndexSched Foot Lib LibSpec.
Local Open Scope bool_scope.
Local Open Scope N_scope.

(** ** Histories of the model *)
Section Model.
  Context {S I : Type} (e : env) (v : view S) (io : provider S) (L : lib) (fuel : nat).
  Notation W := (world S I).
  (** One call: d1.go:119-479, index/index.go:103-225, id/standalone.go:91-430; see Lib.v. *)
  Definition lib_do (c : lib_call) : prog W lib_reply :=
    match c with
    | OnObject c => bind (d1_aes e io (sa_idp e io (l_sa L)) (l_d1 L) c) (fun r => Ret (LObject r))
    | OnIndex c => bind (ix_do e io (sa_idp e io (l_sa L)) (l_iek L) fuel c) (fun r => Ret (LIndex r))
    | OnIdentity c => bind (sa_aes e io (l_sa L) c) (fun r => Ret (LIdentity r))
    end.
  (** The five kinds of data the library stores. *)
  Definition lib_data (dt : N) : Prop := d1_writes dt \/ ix_writes dt \/ sa_writes dt.
  (** Between two calls anything may happen (time passes, other data is stored, other parts of the program
      encrypt under other keys than the token key), except to what the library stores. *)
  Definition lib_elsewhere (w w' : W) : Prop :=
    v_inv v (w_io w') /\ (forall id dt, lib_data dt -> v_map v (w_io w') id dt = v_map v (w_io w) id dt) /\
    adversary (fun x => x = s_tek (l_sa L)) w w'.
  (** What Go's types give: ids are 16 bytes, scopes 64 bits. *)
  Definition lib_call_wf (c : lib_call) : Prop :=
    match c with
    | OnObject c => forall o, call_oid c = Some o -> uuid_wf o
    | OnIndex _ => True
    | OnIdentity c => sa_call_wf c
    end.
  Inductive lib_run : W -> list lib_event -> W -> Prop :=
  | lr_nil w : lib_run w [] w
  | lr_env w w1 evs w2 : lib_elsewhere w w1 -> lib_run w1 evs w2 -> lib_run w evs w2
  | lr_call w c r w1 evs w2 : lib_call_wf c -> run (lib_do c) w = (r, w1) -> lib_run w1 evs w2 ->
      lib_run w (mkLibEvent (surr e w (rng_failed e w1)) c r :: evs) w2.
  (** Nothing stored, nothing encrypted under the token key, no forgery yet. *)
  Definition lib_fresh (w : W) : Prop :=
    v_inv v (w_io w) /\ (forall id dt, lib_data dt -> v_map v (w_io w) id dt = None) /\
    Forall (fun x => e_kek x <> s_tek (l_sa L)) (w_log w) /\ w_forged w = false.
  (** The key of the Standalone's tokens is used for nothing else. *)
  Definition token_key_apart (is : list ix_call) : Prop :=
    ~ d1_key (l_d1 L) (s_tek (l_sa L)) /\ ~ ix_key_of (l_iek L) is (s_tek (l_sa L)).
End Model.

(** ** The token is looked up first, and only once *)
Section First.
  Context {S I : Type} (e : env) (io : provider S).
  Notation W := (world S I).
  Context (idp : bytes -> prog W (res identity)).
  Lemma run_bind {A B} (p : prog W A) (k : A -> prog W B) w : run (bind p k) w = run (k (fst (run p w))) (snd (run p w)).
  Proof. revert w. induction p as [a|X f c IH]; intros w; [reflexivity|]. cbn [bind run]. destruct (f w) as [x w']. apply IH. Qed.
  Lemma d1_first d c t w r0 w0 : call_token c = Some t -> run (idp t) w = (r0, w0) ->
    run (d1_aes e io idp d c) w = run (d1_aes e io (fun _ => Ret r0) d c) w0.
  Proof.
    intros Ht E. unfold d1_aes. destruct c; cbn [call_token] in Ht; try discriminate; injection Ht as ->;
      cbn [d1_do]; unfold ret_map, d1_encrypt, d1_update, d1_decrypt, d1_delete, d1_get_access_groups, d1_add_groups, d1_remove_groups, d1_authorize, bindR, verify_access;
      rewrite run_bind, (run_bind _ _ w0), (run_bind _ _ w), (run_bind _ _ w0), (run_bind (idp t)), E; reflexivity.
  Qed.
  Lemma ix_first iek fuel c w r0 w0 : run (idp (ix_token c)) w = (r0, w0) ->
    run (ix_do e io idp iek fuel c) w = run (ix_do e io (fun _ => Ret r0) iek fuel c) w0.
  Proof.
    intros E. destruct c; cbn [ix_token] in E;
      cbn [ix_do]; unfold ret_map, ix_add, ix_search, ix_delete, bindR, ix_verify;
      rewrite run_bind, (run_bind _ _ w0), (run_bind _ _ w), (run_bind _ _ w0), (run_bind (idp _)), E; reflexivity.
  Qed.
  Lemma forged_first_d1 d c t w : call_token c = Some t -> w_forged (snd (run (idp t) w)) = true ->
    w_forged (snd (run (d1_aes e io idp d c) w)) = true.
  Proof.
    intros Ht Hf. destruct (run (idp t) w) as [r0 w0] eqn:E. cbn [snd] in Hf. rewrite (d1_first d c t w r0 w0 Ht E).
    apply (wpc_end _ _ _ _ (wpc_forged _ w0 (D1Sched.fmono_call e io (fun _ => Ret r0) d (fun _ => Logic.I) c) Hf)).
  Qed.
  Lemma forged_first_ix iek fuel c w : w_forged (snd (run (idp (ix_token c)) w)) = true ->
    w_forged (snd (run (ix_do e io idp iek fuel c) w)) = true.
  Proof.
    intros Hf. destruct (run (idp (ix_token c)) w) as [r0 w0] eqn:E. cbn [snd] in Hf. rewrite (ix_first iek fuel c w r0 w0 E).
    apply (wpc_end _ _ _ _ (wpc_forged _ w0 (IndexSched.fmono_call e io (fun _ => Ret r0) iek fuel (fun _ => Logic.I) c) Hf)).
  Qed.
End First.

Section Refine.
  Context {S I : Type} (e : env) (v : view S) (io : provider S) (Hio : io_spec False v io) (L : lib) (fuel : nat).
  Notation W := (world S I).
  Context (Hc : forall n, time_wf (clock e n)).
  Notation k := (l_sa L).
  Notation d := (l_d1 L).
  Notation iek := (l_iek L).
  Notation idp := (sa_idp e io k : bytes -> prog W _).
  Context (Hiek : blen iek = 32).
  Notation nothing := (moved v (fun _ => False) (fun _ => False) False).

  Lemma idp_foot tok : foot v (fun _ => False) (fun _ => False) False (idp tok).
  Proof. apply (foot_identity e False v io Hio). Qed.
  Lemma idp_after tok (w : W) : v_inv v (w_io w) -> nothing w (snd (run (idp tok) w)).
  Proof. intros Hi. exact (wpc_end _ _ _ _ (idp_foot tok w Hi)). Qed.
  (** What a token is worth. *)
  Lemma idp_resolves dir (w : W) tok : WR v k false dir w -> w_forged (snd (run (idp tok) w)) = false ->
    StandaloneSpec.resolves dir (clock e (w_ticks w)) tok (whois idp w tok).
  Proof.
    intros Hw Hf. unfold whois. destruct (run (idp tok) w) as [r0 w0] eqn:E. cbn [fst snd] in *.
    assert (E' : run (sa_aes e io k (SGetIdentity tok)) w = (res_map SRIdentity r0, w0)).
    { unfold sa_aes. cbn [sa_do]. unfold ret_map. rewrite run_bind. unfold sa_idp in E. rewrite E. reflexivity. }
    destruct (call_cases e v io Hio k Hc false (SGetIdentity tok) dir w _ w0 Logic.I Hw E') as [[G _]|(d' & _ & q & A & B & _)]; [congruence|].
    cbn [x_now surr] in A. destruct r0 as [i|y|], q as [j|z|]; cbn [res_map] in B; try discriminate; try (injection B as <-); exact A.
  Qed.

  Context (is : list ix_call) (Hapart : token_key_apart L is).
  Notation K := (map ix_keyword is).
  Context (M : N) (HM : M < 2 ^ 64) (Hdiff : labels_differ iek K M).

  Lemma foot_lib c : (forall i, c = OnIndex i -> In i is) ->
    foot v (fun dt => match c with OnObject _ => d1_writes dt | OnIndex _ => ix_writes dt | OnIdentity _ => sa_writes dt end)
      (fun x => match c with OnIdentity _ => True | _ => x <> s_tek k end) True (lib_do e io L fuel c : prog W _).
  Proof.
    intros Hin. destruct Hapart as [A1 A2].
    assert (HI : forall (T : N -> Prop) (K : bytes -> Prop) tok, foot v T K True (idp tok)).
    { intros T K0 tok. eapply foot_mono; [..|apply idp_foot]; [intros x []|intros x []|intros []]. }
    destruct c as [c|c|c]; cbn [lib_do]; (apply foot_bind; [|intros; apply foot_ret]).
    - eapply foot_mono; [..|apply (foot_d1 e False v io Hio idp d (HI _ _) c)]; [auto| |auto]. intros x Hx ->. auto.
    - eapply foot_mono; [..|apply (foot_ix e False v io Hio idp iek fuel (ix_key_of iek is) (HI _ _) c)]; [auto| |auto|].
      + intros x Hx ->. auto.
      + intros x Hx. exists c. split; [auto|exact Hx].
    - eapply foot_mono; [..|apply (foot_sa e False v io Hio k c)]; auto.
  Qed.
  Lemma forged_lib c (w : W) r w1 : (forall i, c = OnIndex i -> In i is) -> v_inv v (w_io w) -> run (lib_do e io L fuel c) w = (r, w1) ->
    v_inv v (w_io w1) /\ (w_forged w = true -> w_forged w1 = true).
  Proof.
    intros Hin Hi Hr. pose proof (wpc_end _ _ _ _ (foot_lib c Hin w Hi)) as Mv. rewrite Hr in Mv. destruct Mv as (A & _ & _ & B & _). auto.
  Qed.
  Lemma forged_lib_run (w : W) evs w' : lib_run e v io L fuel w evs w' -> (forall i, In i (ix_calls evs) -> In i is) -> v_inv v (w_io w) ->
    w_forged w = true -> w_forged w' = true.
  Proof.
    intros H. induction H as [w|w w1 evs w2 HE _ IH|w c r w1 evs w2 _ Hr _ IH]; intros Hin Hi Hf; [exact Hf| |].
    - destruct HE as (Hi1 & _ & _ & Hm). auto.
    - assert (Hin' : forall i, c = OnIndex i -> In i is).
      { intros i ->. apply Hin. unfold ix_calls. cbn. now left. }
      destruct (forged_lib c w r w1 Hin' Hi Hr) as [Hi1 Hm]. apply IH; [|exact Hi1|auto].
      intros i Hx. apply Hin. unfold ix_calls in *. cbn [flat_map]. apply in_or_app. now right.
  Qed.

  (** The world stands for the state. *)
  Definition LR (pre : list ix_happening) (b : N) (f : slots) (s : lib_state) (w : W) : Prop :=
    WR v k false (ls_dir s) w /\ rep d all_ids (v_map v (w_io w)) (ls_objects s) /\
    state v iek K M (added (map hap_call pre)) b f (ls_index s) w /\ (forall kw, clean M f kw).
  Lemma WR_inv fl dir (w : W) : WR v k fl dir w -> v_inv v (w_io w).
  Proof. intros (_ & m & [H _] & _). exact H. Qed.

  Lemma lib_sim pre b f s (w : W) c r w1 : LR pre b f s w -> lib_call_wf c -> (forall i, c = OnIndex i -> In i is) ->
    b + (match c with OnIndex i => is_add i | _ => 0 end) <= M -> b < N.of_nat fuel -> run (lib_do e io L fuel c) w = (r, w1) -> w_forged w1 = false ->
    exists pre' f' s', lib_step (surr e w (rng_failed e w1)) c s r s' /\ LR pre' (b + match c with OnIndex i => is_add i | _ => 0 end) f' s' w1.
  Proof.
    intros (HW & HR & HS & HC) Hwf Hin Hb Hfu Hr Hf. pose proof (WR_inv _ _ _ HW) as Hi.
    pose proof (wpc_end _ _ _ _ (foot_lib c Hin w Hi)) as Mv. rewrite Hr in Mv. destruct Mv as (Hi1 & Hst & (new & Hl & Hn) & Hm & _).
    assert (KW : match c with OnIdentity _ => True | _ => WR v k false (ls_dir s) w1 end).
    { assert (KW : match c with OnIdentity _ => True | _ => sa_elsewhere v k w w1 end).
      { destruct c; [|..|exact Logic.I]; (split; [exact Hi1|]; split; [|split; [exists new; split; [exact Hl|exact Hn]|exact Hm]]);
          intros id dt [-> | ->]; apply Hst; unfold d1_writes, ix_writes; intros H; repeat destruct H as [H|H]; discriminate. }
      destruct c; [|..|exact Logic.I]; exact (elsewhere_WR v k _ _ _ _ _ HW KW Hf). }
    assert (KO : match c with OnObject _ => True | _ => rep d all_ids (v_map v (w_io w1)) (ls_objects s) end).
    { destruct c; [exact Logic.I|..]; (eapply rep_ext; [|exact HR]); intros oid dt _ [-> | ->]; apply Hst; unfold ix_writes, sa_writes;
        intros H; repeat destruct H as [H|H]; discriminate. }
    assert (KI : match c with OnIndex _ => True | _ => state v iek K M (added (map hap_call pre)) b f (ls_index s) w1 end).
    { destruct c; [|exact Logic.I|]; (eapply elsewhere_state; [exact HS|split; [exact Hi1|]]); intros id; apply Hst; unfold d1_writes, sa_writes;
        intros H; repeat destruct H as [H|H]; discriminate. }
    pose proof (identity_reads (I := I) e False v io Hio k) as Hidp.
    assert (Hdr : forall tok, w_draws (snd (run (idp tok) w)) = w_draws w).
    { intros tok. destruct (idp_after tok w Hi) as (_ & _ & _ & _ & [[]|E]). exact E. }
    destruct c as [c|c|c]; cbn [lib_do] in Hr; rewrite run_bind in Hr; cbn [run] in Hr; injection Hr as <- Hr1; rewrite ?N.add_0_r.
    - destruct (run (d1_aes e io idp d c) w) as [r w1'] eqn:Er. cbn [fst snd] in Hr1. subst w1'.
      destruct (spec_sim e v io Hio idp Hidp d all_ids w c r w1 (ls_objects s) Er Hi HR Hwf) as (m' & Hs & R1 & _).
      { unfold ev_in. destruct (ev_oid _); reflexivity. }
      exists pre, f, (mkLibState (ls_dir s) m' (ls_index s)). split; [|split; [exact KW|split; [exact R1|split; [exact KI|exact HC]]]].
      cbn [lib_step fst]. exists (match call_token c with Some t => whois idp w t | None => Err ED1NotAuthenticated end). split; [|split; [|auto]].
      + destruct (call_token c) as [t|] eqn:Et; [|reflexivity]. cbn [caller x_now surr]. apply idp_resolves; [exact HW|].
        destruct (w_forged (snd (run (idp t) w))) eqn:G; [|reflexivity].
        pose proof (forged_first_d1 e io idp d c t w Et G) as G'. rewrite Er in G'. cbn [snd] in G'. congruence.
      + cbn [ls_objects x_rng_fails x_draw surr]. unfold outside_of in Hs. destruct (call_token c) as [t|] eqn:Et.
        * rewrite Hdr in Hs. rewrite Nat.add_0_r. exact Hs.
        * destruct c; cbn [call_token] in Et; try discriminate; exact Hs.
    - destruct (run (ix_do e io idp iek fuel c) w) as [r w1'] eqn:Er. cbn [fst snd] in Hr1. subst w1'.
      assert (Hk : In (ix_keyword c) K) by (apply in_map, Hin; reflexivity).
      pose proof (state_length v iek Hiek K M HM _ b f (ls_index s) w (ix_keyword c) HS Hk ltac:(lia)) as HL.
      assert (HT : tidy M pre f) by (intros kw; right; auto).
      pose proof (call_wpc e v idp Hidp iek Hiek K M HM Hdiff False io Hio fuel pre b c f (ls_index s) w HS HT Hk ltac:(lia) ltac:(lia)) as HWP.
      pose proof (wpc_end _ _ _ _ HWP) as Q. rewrite Er in Q. cbn [fst snd] in Q.
      destruct Q as (_ & f' & m' & (H1 & H2 & H3) & [[]|[H4 H5]]).
      exists (pre ++ [XDone (mkIxEvent (ix_outside_of e idp w c w1) c r)]), f', (mkLibState (ls_dir s) (ls_objects s) m').
      split; [|split; [exact KW|split; [exact KO|split; [rewrite map_app; exact H1|auto]]]].
      cbn [lib_step fst]. exists (whois idp w (ix_token c)). split; [|split; [exact (H5 (HC _))|auto]].
      cbn [caller x_now surr]. apply idp_resolves; [exact HW|].
      destruct (w_forged (snd (run (idp (ix_token c)) w))) eqn:G; [|reflexivity].
      pose proof (forged_first_ix e io idp iek fuel c w G) as G'. rewrite Er in G'. cbn [snd] in G'. congruence.
    - destruct (run (sa_aes e io k c) w) as [r w1'] eqn:Er. cbn [fst snd] in Hr1. subst w1'.
      destruct (call_cases e v io Hio k Hc false c (ls_dir s) w r w1 Hwf HW Er) as [[G _]|(d' & A & B)]; [congruence|].
      exists pre, f, (mkLibState d' (ls_objects s) (ls_index s)). split; [|split; [exact A|split; [exact KO|split; [exact KI|exact HC]]]].
      cbn [lib_step fst]. auto.
  Qed.

  Lemma lib_refines (w : W) evs w' : lib_run e v io L fuel w evs w' -> w_forged w' = false ->
    forall pre b f s, LR pre b f s w -> (forall i, In i (ix_calls evs) -> In i is) ->
    b + N.of_nat (count_adds (ix_calls evs)) <= M -> b + N.of_nat (count_adds (ix_calls evs)) < N.of_nat fuel ->
    exists s', lib_history s evs s' /\ exists pre' f', LR pre' (b + N.of_nat (count_adds (ix_calls evs))) f' s' w'.
  Proof.
    intros H Hf. induction H as [w|w w1 evs w2 HE HRun IH|w c r w1 evs w2 Hwf Hr HRun IH]; intros pre b f s HL Hin Hb Hfu.
    - exists s. split; [constructor|]. exists pre, f. cbn. now rewrite N.add_0_r.
    - apply (IH Hf pre b f s); auto. destruct HL as (HW & HR & HS & HC). destruct HE as (Hi1 & He & Hadv).
      split; [|split; [|split; [|exact HC]]].
      + eapply elsewhere_WR; [exact HW| |].
        * split; [exact Hi1|]. split; [|exact Hadv]. intros id dt Hd. apply He. right. right. exact Hd.
        * destruct (w_forged w1) eqn:G; [|reflexivity]. pose proof (forged_lib_run w1 evs w2 HRun Hin Hi1 G). congruence.
      + eapply rep_ext; [|exact HR]. intros oid dt _ Hd. apply He. left. exact Hd.
      + eapply elsewhere_state; [exact HS|]. split; [exact Hi1|]. intros id. apply He. right. left. reflexivity.
    - assert (Hc' : forall i, c = OnIndex i -> In i is).
      { intros i ->. apply Hin. unfold ix_calls. cbn. now left. }
      assert (Hin' : forall i, In i (ix_calls evs) -> In i is).
      { intros i Hx. apply Hin. unfold ix_calls in *. cbn [flat_map]. apply in_or_app. now right. }
      assert (EC : N.of_nat (count_adds (ix_calls (mkLibEvent (surr e w (rng_failed e w1)) c r :: evs))) =
        (match c with OnIndex i => is_add i | _ => 0 end) + N.of_nat (count_adds (ix_calls evs))).
      { unfold ix_calls. cbn [flat_map lv_call]. destruct c; [reflexivity| |reflexivity]. apply count_cons. }
      rewrite EC in *.
      assert (Hi : v_inv v (w_io w)) by (destruct HL as (HW & _); eapply WR_inv, HW).
      destruct (forged_lib c w r w1 Hc' Hi Hr) as [Hi1 _].
      assert (Hf1 : w_forged w1 = false).
      { destruct (w_forged w1) eqn:G; [|reflexivity]. pose proof (forged_lib_run w1 evs w2 HRun Hin' Hi1 G). congruence. }
      destruct (lib_sim pre b f s w c r w1 HL Hwf Hc' ltac:(lia) ltac:(lia) Hr Hf1) as (pre1 & f1 & s1 & Hs & HL1).
      destruct (IH Hf pre1 _ f1 s1 HL1 Hin' ltac:(lia) ltac:(lia)) as (s2 & Hh & pre2 & f2 & HL2).
      exists s2. split; [econstructor; [exact Hs|exact Hh]|]. exists pre2, f2. rewrite N.add_assoc. exact HL2.
  Qed.
  Lemma fresh_LR (w : W) : lib_fresh v L w -> exists f, LR [] 0 f lib_empty w.
  Proof.
    intros (Hi & Hs & Hl & Hf). destruct (fresh_state v iek K M w) as [HS HC].
    { split; [exact Hi|]. intros id. apply Hs. right. left. reflexivity. }
    eexists. split; [|split; [|split; [exact HS|exact HC]]].
    - apply fresh_WR. split; [exact Hi|]. split; [|auto]. intros id dt Hd. apply Hs. right. right. exact Hd.
    - eapply rep_ext; [|apply rep_empty]. intros oid dt _ Hd. apply Hs. left. exact Hd.
  Qed.
End Refine.

(** The theorem in the form P_LibHist.v states it. *)
Lemma library_refines {S I} (e : env) (v : view S) (io : provider S) (L : lib) (fuel : nat) (w : world S I) evs w' :
  io_spec False v io -> (forall n, time_wf (clock e n)) -> blen (l_iek L) = 32 ->
  token_key_apart L (ix_calls evs) ->
  labels_differ (l_iek L) (map ix_keyword (ix_calls evs)) (N.of_nat (count_adds (ix_calls evs))) ->
  N.of_nat (count_adds (ix_calls evs)) < 2 ^ 64 -> (count_adds (ix_calls evs) < fuel)%nat ->
  lib_fresh v L w -> lib_run e v io L fuel w evs w' -> w_forged w' = false ->
  exists s, lib_history lib_empty evs s.
Proof.
  intros Hio Hc Hiek Ha Hd H64 Hfu Hfr Hrun Hf.
  destruct (fresh_LR v L (ix_calls evs) (N.of_nat (count_adds (ix_calls evs))) w Hfr) as [f HL].
  destruct (lib_refines e v io Hio L fuel Hc Hiek (ix_calls evs) Ha _ H64 Hd w evs w' Hrun Hf [] 0 f lib_empty HL) as (s & H & _); [auto|lia|lia|eauto].
Qed.

(** The keys and labels in use differ, there were fewer than 2^64 Adds (and [fuel] for more than them), and
    nothing was stored at first. *)
Definition set_up {S I} (v : view S) (L : lib) (fuel : nat) (w : world S I) (evs : list lib_event) : Prop :=
  token_key_apart L (ix_calls evs) /\
  labels_differ (l_iek L) (map ix_keyword (ix_calls evs)) (N.of_nat (count_adds (ix_calls evs))) /\
  N.of_nat (count_adds (ix_calls evs)) < 2 ^ 64 /\ (count_adds (ix_calls evs) < fuel)%nat /\ lib_fresh v L w.
