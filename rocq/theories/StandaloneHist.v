(** Histories of a Standalone provider, and what the directory of StandaloneSpec.v says about them. *)
From Coq Require Import ZifyN ZifyNat.
From stdpp Require Import gmap.
From Verif Require Import Bytes Go Uuid UuidProofs Time Types World Logic Cryptor IoSpec IoProofs Id Data D1 D1Proofs Sched Password Standalone Spec StandaloneSpec
  WpcFacts TokenFacts StandaloneProofs StandaloneRefine.
Local Open Scope bool_scope.
Local Open Scope N_scope.

(** ** Histories of the model *)
Section Model.
  Context {S I : Type} (e : env) (v : view S) (io : provider S) (k : sa_keys).
  Notation W := (world S I).
  Notation SU := DataTypeSealedUser.
  Notation SG := DataTypeSealedGroup.

  (** Between two calls anything may happen (time passes, other data is stored, other parts of the
      program encrypt under other keys than the token key), except to users and groups. *)
  Definition sa_elsewhere (w w' : W) : Prop :=
    v_inv v (w_io w') /\
    (forall id dt, dt = SU \/ dt = SG -> v_map v (w_io w') id dt = v_map v (w_io w) id dt) /\
    adversary (fun x => x = s_tek k) w w'.
  (** The same, and no forged ciphertext was accepted elsewhere. *)
  Definition sa_quiet (w w' : W) : Prop := sa_elsewhere w w' /\ w_forged w' = w_forged w.

  Inductive sa_run (between : W -> W -> Prop) : W -> list sa_event -> W -> Prop :=
  | sr_nil w : sa_run between w [] w
  | sr_env w w1 evs w2 : between w w1 -> sa_run between w1 evs w2 -> sa_run between w evs w2
  | sr_call w c r w1 evs w2 : sa_call_wf c ->
      run (sa_aes e io k c) w = (r, w1) -> sa_run between w1 evs w2 ->
      sa_run between w (mkSaEvent (surr e w (rng_failed e w1)) c r :: evs) w2.

  (** With calls that are cut off after any number of steps. *)
  Inductive sa_xrun : W -> list sa_happening -> W -> Prop :=
  | sx_nil w : sa_xrun w [] w
  | sx_env w w1 hs w2 : sa_elsewhere w w1 -> sa_xrun w1 hs w2 -> sa_xrun w hs w2
  | sx_call w c r w1 hs w2 : sa_call_wf c -> run (sa_aes e io k c) w = (r, w1) -> sa_xrun w1 hs w2 ->
      sa_xrun w (SDone (mkSaEvent (surr e w (rng_failed e w1)) c r) :: hs) w2
  | sx_cut w c n p w1 hs w2 : sa_call_wf c -> run_n n (sa_aes e io k c) w = (p, w1) -> sa_xrun w1 hs w2 ->
      sa_xrun w (SCut (surr e w (rng_failed e w1)) c :: hs) w2.

  (** No users, no groups, no tokens, no forgery yet. *)
  Definition sa_fresh (w : W) : Prop :=
    v_inv v (w_io w) /\ (forall id dt, dt = SU \/ dt = SG -> v_map v (w_io w) id dt = None) /\
    Forall (fun x => e_kek x <> s_tek k) (w_log w) /\ w_forged w = false.
End Model.

Section Refine.
  Context {S I : Type} (e : env) (v : view S) (io : provider S) (Hio : io_spec False v io) (k : sa_keys).
  Notation W := (world S I).
  Context (Hc : forall n, time_wf (clock e n)).

  Lemma fresh_WR (w : W) : sa_fresh v k w -> WR v k false dir_empty w.
  Proof.
    intros (Hi & Hs & Hl & Hf). split; [exact Hf|]. exists (v_map v (w_io w)). split; [apply holds_self, Hi|]. split.
    - split; intros x; cbn [d_users d_groups dir_empty]; rewrite lookup_empty; apply Hs; auto.
    - split; [intros s []|]. intros x Hx. rewrite List.Forall_forall in Hl. intros E. destruct (Hl x Hx E).
  Qed.
  Lemma elsewhere_WR fl fl' d (w w' : W) : WR v k fl d w -> sa_elsewhere v k w w' -> w_forged w' = fl' -> WR v k fl' d w'.
  Proof.
    intros (Hf & m & H & R & Hs) (Hi & He & (new & Hl & Hn) & _) Hf'. split; [exact Hf'|]. exists (v_map v (w_io w')).
    split; [apply holds_self, Hi|]. split.
    - eapply srep_log; [|eapply srep_ext; [|exact R]].
      + rewrite Hl. intros x Hx. apply in_or_app. now right.
      + intros id dt Hd. rewrite He by exact Hd. apply H.
    - eapply sess_others; eauto.
  Qed.
  Lemma forged_call c (w : W) r w1 : run (sa_aes e io k c) w = (r, w1) -> w_forged w = true -> w_forged w1 = true.
  Proof.
    intros Hr Hf. pose proof (wpc_end _ _ _ _ (wpc_forged (sa_aes e io k c) w (fmono_sa e io k c) Hf)) as E. now rewrite Hr in E.
  Qed.
  Lemma forged_run (B : W -> W -> Prop) (w : W) evs w' : (forall a b : W, B a b -> w_forged a = true -> w_forged b = true) -> sa_run e io k B w evs w' -> w_forged w = true -> w_forged w' = true.
  Proof.
    intros HB H. induction H as [w|w w1 evs w2 HE _ IH|w c r w1 evs w2 _ Hr _ IH]; intros Hf; [exact Hf| |].
    - apply IH. eapply HB; eauto.
    - apply IH. eapply forged_call; eauto.
  Qed.
  Lemma call_cases fl c d (w : W) r w1 : sa_call_wf c -> WR v k fl d w -> run (sa_aes e io k c) w = (r, w1) ->
    (w_forged w1 = true /\ suspicious c d) \/ exists d', WR v k fl d' w1 /\ sa_step (surr e w (rng_failed e w1)) c d r d'.
  Proof.
    intros Hwf H Hr. pose proof (wpc_end _ _ _ _ (sa_wpc e False v io Hio k fl Hc c d w Hwf H)) as E. rewrite Hr in E. cbn [fst snd] in E.
    destruct E as [E|(d' & A & [B|[[] _]])]; [now left|]. right. eauto.
  Qed.
  Lemma refine_from w evs w' d : sa_run e io k (sa_elsewhere v k) w evs w' -> w_forged w' = false -> WR v k false d w ->
    exists d', sa_history d evs d' /\ WR v k false d' (w' : W).
  Proof.
    intros H Hf. assert (M : forall a b : W, sa_elsewhere v k a b -> w_forged a = true -> w_forged b = true) by (intros a b (_ & _ & _ & X); exact X).
    revert d. induction H as [w|w w1 evs w2 HE HR IH|w c r w1 evs w2 Hwf Hr HR IH]; intros d Hw.
    - exists d. split; [constructor|exact Hw].
    - apply IH; [exact Hf|]. eapply elsewhere_WR; [exact Hw|exact HE|].
      destruct (w_forged w1) eqn:E; [|reflexivity]. rewrite (forged_run _ _ _ _ M HR E) in Hf. discriminate.
    - destruct (call_cases false c d w r w1 Hwf Hw Hr) as [[E _]|(d' & A & B)].
      + rewrite (forged_run _ _ _ _ M HR E) in Hf. discriminate.
      + destruct (IH Hf d' A) as (d2 & H2 & W2). exists d2. split; [|exact W2]. econstructor; [exact B|exact H2].
  Qed.
  Lemma refine_fresh w evs w' : sa_fresh v k w -> sa_run e io k (sa_elsewhere v k) w evs w' -> w_forged w' = false ->
    exists d, sa_history dir_empty evs d /\ WR v k false d (w' : W).
  Proof. intros H HR Hf. eapply refine_from; eauto using fresh_WR. Qed.

  (** Calls that present only tokens of earlier logins raise no flag. *)
  Lemma honest_from w evs w' d : sa_run e io k (sa_quiet v k) w evs w' -> WR v k false d w ->
    (forall evs1 ev evs2 d1, evs = evs1 ++ ev :: evs2 -> sa_history d evs1 d1 -> ~ suspicious (sv_call ev) d1) ->
    exists d', sa_history d evs d' /\ WR v k false d' (w' : W).
  Proof.
    intros H. revert d. induction H as [w|w w1 evs w2 HE HR IH|w c r w1 evs w2 Hwf Hr HR IH]; intros d Hw Hh.
    - exists d. split; [constructor|exact Hw].
    - destruct HE as [HE Hq]. apply IH; [|exact Hh]. eapply elsewhere_WR; [exact Hw|exact HE|]. rewrite Hq. apply Hw.
    - destruct (call_cases false c d w r w1 Hwf Hw Hr) as [[_ E]|(d' & A & B)].
      + exfalso. apply (Hh [] _ evs d eq_refl (sah_nil d) E).
      + destruct (IH d' A) as (d2 & H2 & W2).
        * intros evs1 ev evs2 d1 -> H1. eapply (Hh (_ :: evs1) ev evs2 d1); [reflexivity|]. econstructor; [exact B|exact H1].
        * exists d2. split; [|exact W2]. econstructor; [exact B|exact H2].
  Qed.
End Refine.

Section Cut.
  Context {S I : Type} (e : env) (F : Prop) (v : view S) (io : provider S) (Hio : io_spec F v io) (k : sa_keys).
  Notation W := (world S I).
  Context (Hc : forall n, time_wf (clock e n)).
  Lemma forged_xrun (w : W) hs w' : sa_xrun e v io k w hs w' -> w_forged w = true -> w_forged w' = true.
  Proof.
    intros H. induction H as [w|w w1 hs w2 HE _ IH|w c r w1 hs w2 _ Hr _ IH|w c n p w1 hs w2 _ Hr _ IH]; intros Hf; [exact Hf|apply IH..].
    - destruct HE as (_ & _ & _ & X). auto.
    - eapply forged_call; eauto.
    - pose proof (wpc_cut _ _ _ _ (wpc_forged (sa_aes e io k c) w (fmono_sa e io k c) Hf) n) as E. now rewrite Hr in E.
  Qed.
  Lemma cut_from (w : W) hs w' d : sa_xrun e v io k w hs w' -> w_forged w' = false -> WR v k false d w ->
    exists d', sa_xhistory F d hs d' /\ WR v k false d' w'.
  Proof.
    intros H Hf. revert d. induction H as [w|w w1 hs w2 HE HR IH|w c r w1 hs w2 Hwf Hr HR IH|w c n p w1 hs w2 Hwf Hr HR IH]; intros d Hw.
    - exists d. split; [constructor|exact Hw].
    - apply IH; [exact Hf|]. eapply elsewhere_WR; [exact Hw|exact HE|].
      destruct (w_forged w1) eqn:E; [|reflexivity]. rewrite (forged_xrun _ _ _ HR E) in Hf. discriminate.
    - pose proof (wpc_end _ _ _ _ (sa_wpc e F v io Hio k false Hc c d w Hwf Hw)) as E. rewrite Hr in E. cbn [fst snd] in E.
      destruct E as [[E _]|(d' & A & B)].
      { rewrite (forged_xrun _ _ _ HR E) in Hf. discriminate. }
      destruct (IH Hf d' A) as (d2 & H2 & W2). exists d2. split; [|exact W2]. econstructor; [|exact H2]. cbn [sa_happens sv_x sv_call sv_reply].
      destruct B as [B|(HF & (y & E & _) & B)]; [now left|]. right. split; [exact HF|]. split; [eauto|exact B].
    - pose proof (wpc_cut _ _ _ _ (sa_wpc e F v io Hio k false Hc c d w Hwf Hw) n) as E. rewrite Hr in E. cbn [fst snd] in E.
      destruct E as [[E _]|(d' & A & B)].
      { rewrite (forged_xrun _ _ _ HR E) in Hf. discriminate. }
      destruct (IH Hf d' A) as (d2 & H2 & W2). exists d2. split; [|exact W2]. econstructor; [|exact H2]. exact B.
  Qed.
End Cut.

(** ** The directory *)
Lemma sh_app a evs1 evs2 b : sa_history a (evs1 ++ evs2) b <-> exists m, sa_history a evs1 m /\ sa_history m evs2 b.
Proof.
  revert a. induction evs1 as [|ev evs1 IH]; intros a; cbn [app]; split.
  - intros H. exists a. split; [constructor|exact H].
  - intros (m & H1 & H2). inversion H1; subst. exact H2.
  - intros H. inversion H as [|? ? d1 ? ? Hs Hr]; subst. apply IH in Hr as (m & H1 & H2). exists m. split; [econstructor; eauto|exact H2].
  - intros (m & H1 & H2). inversion H1 as [|? ? d1 ? ? Hs Hr]; subst. econstructor; [exact Hs|]. apply IH. eauto.
Qed.
Lemma sh_one a ev b : sa_history a [ev] b <-> sa_step (sv_x ev) (sv_call ev) a (sv_reply ev) b.
Proof.
  split; [|intros H; econstructor; [exact H|constructor]]. intros H. inversion H as [|? ? d1 ? ? Hs Hr]; subst. inversion Hr; subst. exact Hs.
Qed.
Lemma sh_mid a evs1 ev evs2 b : sa_history a (evs1 ++ ev :: evs2) b ->
  exists d d', sa_history a evs1 d /\ sa_step (sv_x ev) (sv_call ev) d (sv_reply ev) d' /\ sa_history d' evs2 b.
Proof.
  intros H. apply sh_app in H as (m & H1 & H2). inversion H2 as [|? ? d1 ? ? Hs Hr]; subst. eauto.
Qed.

Lemma same_token_trans a b c : same_token a b -> same_token b c -> same_token a c.
Proof. intros (t & A & B) (u & C & D). exists t. split; [exact A|]. congruence. Qed.
Lemma same_token_sym a b : same_token a b -> same_token b a.
Proof. intros (t & A & B). exists t. auto. Qed.

Definition unique (d : directory) : Prop :=
  forall tok u x u' x', says d tok u x -> says d tok u' x' -> u = u' /\ x = x'.
Lemma unique_empty : unique dir_empty.
Proof. intros tok u x u' x' (s & [] & _). Qed.
(** A step changes sessions only by login, and keeps them otherwise. *)
Lemma step_sessions x c d r d' : sa_step x c d r d' ->
  d_sessions d' = d_sessions d \/
  exists uid pw s, c = SLogin uid pw /\ r = Ok (SRToken s (time_unix (time_add (x_now x) 3600))) /\
    d' = add_session d (mkSession s uid (time_add (x_now x) 3600)) /\
    (forall uid' exp', says d' s uid' exp' <-> uid' = uid /\ exp' = time_add (x_now x) 3600).
Proof.
  assert (C : forall tok (body : identity -> Prop), (forall i, body i -> d_sessions d' = d_sessions d) -> as_caller x tok d r d' body -> d_sessions d' = d_sessions d).
  { intros tok body Hb [(i & _ & H)|(y & _ & _ & ->)]; eauto. }
  assert (M : forall tok uid gids f, change_membership x tok uid gids f d r d' -> d_sessions d' = d_sessions d).
  { intros tok uid gids f. apply C. intros i [(_ & _ & ->)|(_ & H)]; [reflexivity|]. destruct (d_users d !! uid); [|destruct H as [_ ->]; reflexivity].
    destruct H as [(_ & _ & ->)|(_ & ->)]; reflexivity. }
  destruct c; cbn [sa_step].
  - intros [(_ & _ & ->)|(b & raw & salt & s & _ & _ & _ & _ & H)]; [auto|]. cbn zeta in H.
    destruct (d_users d !! _); destruct H as [_ ->]; auto.
  - destruct (d_users d !! uid); [|intros [_ ->]; auto].
    intros [(_ & _ & ->)|(_ & [(_ & _ & ->)|(s & _ & -> & -> & H)])]; [auto|auto|]. right. exists uid, password, s. auto.
  - destruct (d_users d !! uid); [|intros [_ ->]; auto].
    intros [(_ & _ & ->)|(_ & [(_ & _ & ->)|(raw & salt & _ & _ & _ & ->)])]; auto.
  - intros H. left. eapply M, H.
  - intros H. left. eapply M, H.
  - intros H. left. revert H. apply C. intros i [_ ->]. reflexivity.
  - intros H. left. revert H. apply C. intros i [(_ & _ & _ & ->)|[(_ & _ & _ & b & s & _ & _ & _ & ->)|(b & s & _ & _ & H)]]; [reflexivity..|].
    cbn zeta in H. destruct (d_groups d !! _); [destruct H as [_ ->]; reflexivity|]. destruct H as (a & _ & _ & ->). reflexivity.
  - intros (q & _ & _ & ->). auto.
Qed.
Lemma says_step x c d r d' tok u xp : sa_step x c d r d' -> says d tok u xp -> says d' tok u xp.
Proof.
  intros H (s & Hi & A). exists s. split; [|exact A]. destruct (step_sessions _ _ _ _ _ H) as [->|(? & ? & ? & _ & _ & -> & _)]; [exact Hi|]. now right.
Qed.
Lemma says_history d evs d' tok u xp : sa_history d evs d' -> says d tok u xp -> says d' tok u xp.
Proof. intros H. induction H as [|d ev d1 evs d2 Hs _ IH]; [auto|]. intros A. apply IH. eapply says_step; eauto. Qed.
Lemma unique_step x c d r d' : sa_step x c d r d' -> unique d -> unique d'.
Proof.
  intros H U. destruct (step_sessions _ _ _ _ _ H) as [E|(uid & pw & s & _ & _ & -> & Hn)].
  - intros tok u y u' y' A B. unfold says in *. rewrite E in *. exact (U tok u y u' y' A B).
  - intros tok u y u' y' (s1 & H1 & T1 & U1 & X1) (s2 & H2 & T2 & U2 & X2).
    assert (N : forall z, In z (d_sessions (add_session d (mkSession s uid (time_add (x_now x) 3600)))) -> same_token (se_token z) s -> se_uid z = uid /\ se_exp z = time_add (x_now x) 3600).
    { intros z Hz Tz. apply Hn. exists z. auto. }
    destruct H1 as [<-|H1].
    + cbn in T1, U1, X1. subst. edestruct (N s2 H2); [|auto]. eapply same_token_trans; [exact T2|]. now apply same_token_sym.
    + destruct H2 as [<-|H2].
      * cbn in T2, U2, X2. subst. edestruct (N s1 (or_intror H1)); [|auto]. eapply same_token_trans; [exact T1|]. now apply same_token_sym.
      * apply (U tok u y u' y'); [exists s1|exists s2]; auto.
Qed.
Lemma unique_history d evs d' : sa_history d evs d' -> unique d -> unique d'.
Proof. intros H. induction H as [|d ev d1 evs d2 Hs _ IH]; [auto|]. intros U. apply IH. eapply unique_step; eauto. Qed.

Lemma describes_unique d uid a i j : describes d uid a i -> describes d uid a j -> i = j.
Proof.
  intros (A1 & A2 & _ & A4) (B1 & B2 & _ & B4). destruct i as [a1 a2 a3], j as [b1 b2 b3]. cbn in *. subst. f_equal.
  apply map_eq. intros g. destruct (a3 !! g) as [s|] eqn:E1; destruct (b3 !! g) as [t|] eqn:E2; [..|reflexivity].
  - apply A4 in E1 as [_ E1]. apply B4 in E2 as [_ E2]. congruence.
  - apply A4, B4 in E1. congruence.
  - apply B4, A4 in E2. congruence.
Qed.
Lemma resolves_unique d now tok r1 r2 : unique d -> resolves d now tok r1 -> resolves d now tok r2 -> r1 = r2.
Proof.
  intros U [(u & x & A & L & C)|[N ->]] [(u' & x' & A' & L' & C')|[N' ->]]; [| | |reflexivity].
  - destruct (U _ _ _ _ _ A A') as [<- <-]. destruct (d_users d !! u); [|congruence].
    destruct C as [(i & D & ->)|(g & G1 & G2 & ->)], C' as [(j & D' & ->)|(g' & G1' & G2' & ->)]; [|exfalso..|reflexivity].
    + f_equal. eapply describes_unique; eauto.
    + destruct D as (_ & _ & X & _). destruct (X _ G1') as [? E]. congruence.
    + destruct D' as (_ & _ & X & _). destruct (X _ G1) as [? E]. congruence.
  - specialize (N' _ _ A). lia.
  - specialize (N _ _ A'). lia.
Qed.
Lemma all_of_unique l s t : all_of l s -> all_of l t -> s = t.
Proof.
  intros A B. apply N.bits_inj. intros b. specialize (A b). specialize (B b).
  destruct (N.testbit s b), (N.testbit t b); try reflexivity; [symmetry|]; [apply B, A|apply A, B]; reflexivity.
Qed.

(** The reply determines the next directory. *)
Lemma caller_next x tok d r d1 d2 (b1 b2 : identity -> Prop) : unique d ->
  (forall i, resolves d (x_now x) tok (Ok i) -> b1 i -> b2 i -> d1 = d2) ->
  as_caller x tok d r d1 b1 -> as_caller x tok d r d2 b2 -> d1 = d2.
Proof.
  intros U Hb [(i & A & H)|(y & A & E & ->)] [(j & A' & H')|(y' & A' & E' & ->)];
    pose proof (resolves_unique _ _ _ _ _ U A A') as J; [injection J as <-; eauto|discriminate..|reflexivity].
Qed.
Lemma step_next x c d r d1 d2 : unique d -> sa_step x c d r d1 -> sa_step x c d r d2 -> d1 = d2.
Proof.
  intros U.
  assert (M : forall tok uid gids f, change_membership x tok uid gids f d r d1 -> change_membership x tok uid gids f d r d2 -> d1 = d2).
  { intros tok uid gids f. apply caller_next; [exact U|]. intros i _ [(A & E & ->)|(A & H)] [(A' & E' & ->)|(A' & H')]; [reflexivity|contradiction|contradiction|].
    destruct (d_users d !! uid); [|destruct H as [_ ->], H' as [_ ->]; reflexivity].
    destruct H as [(_ & E & ->)|(E & ->)], H' as [(_ & E' & ->)|(E' & ->)]; congruence. }
  destruct c; cbn [sa_step].
  - intros [(_ & E & ->)|(b & raw & salt & s & B1 & B2 & B3 & B4 & H)] [(_ & E' & ->)|(b' & raw' & salt' & s' & B1' & B2' & B3' & B4' & H')]; [reflexivity|..].
    + cbn zeta in H'. destruct (d_users d !! _); destruct H' as [E2 ->]; congruence.
    + cbn zeta in H. destruct (d_users d !! _); destruct H as [E2 ->]; congruence.
    + cbn zeta in H, H'. replace b' with b in * by congruence. replace raw' with raw in * by congruence. replace salt' with salt in * by congruence.
      rewrite (all_of_unique _ _ _ B4 B4') in *. destruct (d_users d !! _); destruct H as [_ ->], H' as [_ ->]; reflexivity.
  - destruct (d_users d !! uid); [|intros [_ ->] [_ ->]; reflexivity]. cbn zeta.
    intros [(_ & E & ->)|(K & [(_ & E & ->)|(s & TX & E & -> & _)])] [(_ & E' & ->)|(K' & [(_ & E' & ->)|(s' & TX' & E' & -> & _)])]; congruence.
  - destruct (d_users d !! uid); [|intros [_ ->] [_ ->]; reflexivity]. cbn zeta.
    intros [(_ & E & ->)|(K & [(_ & E & ->)|(raw & salt & R1 & R2 & E & ->)])] [(_ & E' & ->)|(K' & [(_ & E' & ->)|(raw' & salt' & R1' & R2' & E' & ->)])]; try reflexivity.
    all: try (destruct E; congruence). all: try (destruct E'; congruence). all: try congruence.
  - apply M.
  - apply M.
  - apply caller_next; [exact U|]. intros i _ [_ ->] [_ ->]. reflexivity.
  - apply caller_next; [exact U|]. intros i _ H H'.
    destruct H as [(_ & E & T & ->)|[(_ & E & T & b & s & B & A & G & ->)|(b & s & B & A & H)]],
      H' as [(_ & E' & T' & ->)|[(_ & E' & T' & b' & s' & B' & A' & G' & ->)|(b' & s' & B' & A' & H')]]; try contradiction; try reflexivity; try (replace b' with b in * by congruence).
    all: cbn zeta in *.
    + destruct (d_groups d !! _); [destruct H' as [E' ->]; congruence|]. destruct H' as (a & _ & E' & ->). congruence.
    + rewrite (all_of_unique _ _ _ A A'). reflexivity.
    + destruct (d_groups d !! _); [destruct H' as [E' ->]; congruence|]. destruct H' as (a & _ & E' & ->). congruence.
    + destruct (d_groups d !! _); [destruct H as [E2 ->]; congruence|]. destruct H as (a & _ & E & ->). congruence.
    + destruct (d_groups d !! _); [destruct H as [E2 ->]; congruence|]. destruct H as (a & _ & E & ->). congruence.
    + rewrite (all_of_unique _ _ _ A A') in *. destruct (d_groups d !! _); [destruct H as [_ ->], H' as [_ ->]; reflexivity|].
      destruct H as (a & U1 & _ & ->), H' as (a' & U2 & _ & ->). congruence.
  - intros (q & _ & _ & ->) (q' & _ & _ & ->). reflexivity.
Qed.
Lemma history_next d evs d1 d2 : unique d -> sa_history d evs d1 -> sa_history d evs d2 -> d1 = d2.
Proof.
  intros U H. revert d2. induction H as [|d ev d1 evs dn Hs H IH]; intros d2 H2; inversion H2 as [|? ? d1' ? ? Hs' Hr]; subst; [reflexivity|].
  rewrite <- (step_next _ _ _ _ _ _ U Hs Hs') in Hr. apply IH; [|exact Hr]. eapply unique_step; eauto.
Qed.
(** While the random source works, the reply of every call but a login is determined; of a login,
    all but the token string. *)
Definition same_reply (r1 r2 : res sa_reply) : Prop :=
  match r1, r2 with Ok (SRToken _ t1), Ok (SRToken _ t2) => t1 = t2 | _, _ => r1 = r2 end.
Lemma same_reply_refl r : same_reply r r.
Proof. destruct r as [[]| |]; reflexivity. Qed.
Lemma caller_reply x tok d r1 r2 d1 d2 (b1 b2 : identity -> Prop) : unique d ->
  (forall i, resolves d (x_now x) tok (Ok i) -> b1 i -> b2 i -> r1 = r2) ->
  as_caller x tok d r1 d1 b1 -> as_caller x tok d r2 d2 b2 -> r1 = r2.
Proof.
  intros U Hb [(i & A & H)|(y & A & E & ->)] [(j & A' & H')|(y' & A' & E' & ->)];
    pose proof (resolves_unique _ _ _ _ _ U A A') as J; [injection J as <-; eauto|discriminate..|congruence].
Qed.
Lemma step_reply x c d r1 r2 d1 d2 : unique d -> ~ x_rng_fails x -> sa_step x c d r1 d1 -> sa_step x c d r2 d2 -> same_reply r1 r2.
Proof.
  intros U F. assert (Q : forall a b : res sa_reply, a = b -> same_reply a b) by (intros a b ->; apply same_reply_refl).
  assert (M : forall tok uid gids f, change_membership x tok uid gids f d r1 d1 -> change_membership x tok uid gids f d r2 d2 -> r1 = r2).
  { intros tok uid gids f. apply caller_reply; [exact U|]. intros i _ [(A & E & ->)|(A & H)] [(A' & E' & ->)|(A' & H')]; [congruence|contradiction|contradiction|].
    destruct (d_users d !! uid); [|destruct H as [-> _], H' as [-> _]; reflexivity].
    destruct H as [(X & _)|(E & ->)]; [contradiction|]. destruct H' as [(X & _)|(E' & ->)]; [contradiction|]. congruence. }
  destruct c; cbn [sa_step]; cbn zeta.
  - intros [(X & _)|(b & raw & salt & s & B1 & B2 & B3 & B4 & H)]; [contradiction|]. intros [(X & _)|(b' & raw' & salt' & s' & B1' & B2' & B3' & B4' & H')]; [contradiction|].
    apply Q. replace b' with b in * by congruence. replace raw' with raw in * by congruence.
    destruct (d_users d !! _); destruct H as [-> _], H' as [-> _]; reflexivity.
  - destruct (d_users d !! uid); [|intros [-> _] [-> _]; apply Q; reflexivity].
    intros [(N & E & ->)|(K & [([X|X] & E & ->)|(s & TX & E & -> & _)])] [(N' & E' & ->)|(K' & [([X'|X'] & E' & ->)|(s' & TX' & E' & -> & _)])]; try contradiction; try (apply Q; congruence).
    subst. reflexivity.
  - destruct (d_users d !! uid); [|intros [-> _] [-> _]; apply Q; reflexivity].
    intros [(N & E & ->)|(K & [(X & _)|(raw & salt & R1 & R2 & E & ->)])] [(N' & E' & ->)|(K' & [(X' & _)|(raw' & salt' & R1' & R2' & E' & ->)])]; try contradiction; apply Q; congruence.
  - intros A B. eapply Q, M; eauto.
  - intros A B. eapply Q, M; eauto.
  - intros A B. apply Q. revert A B. apply caller_reply; [exact U|]. intros i _ [-> _] [-> _]. reflexivity.
  - intros A B. apply Q. revert A B. apply caller_reply; [exact U|]. intros i _ H H'.
    destruct H as [(X & _)|[(X & _)|(b & s & B & A & H)]]; [contradiction..|].
    destruct H' as [(X & _)|[(X & _)|(b' & s' & B' & A' & H')]]; [contradiction..|]. replace b' with b in * by congruence.
    destruct (d_groups d !! _); [destruct H as [-> _], H' as [-> _]; reflexivity|].
    destruct H as (a & U1 & -> & _), H' as (a' & U2 & -> & _). congruence.
  - intros (q & A & -> & _) (q' & A' & -> & _). apply Q. f_equal. eapply resolves_unique; eauto.
Qed.

Lemma token_inj a b c d : @Ok sa_reply (SRToken a b) = Ok (SRToken c d) -> a = c /\ b = d.
Proof. intros H. split; congruence. Qed.

Lemma honest_fresh {S I} (e : env) (v : view S) (io : provider S) (k : sa_keys) (w w' : world S I) (evs : list sa_event) :
  io_spec False v io -> (forall n, time_wf (clock e n)) ->
  sa_fresh v k w -> sa_run e io k (sa_quiet v k) w evs w' ->
  (forall evs1 ev evs2 d1, evs = evs1 ++ ev :: evs2 -> sa_history dir_empty evs1 d1 ->
     match sv_call ev with
     | SAddUser tok _ _ | SRemoveUser tok _ _ | SDeleteUser tok _ | SNewGroup tok _ | SGetIdentity tok => exists uid exp, says d1 tok uid exp
     | _ => True
     end) ->
  w_forged w' = false /\ exists d, sa_history dir_empty evs d.
Proof.
  intros Hio Hc Hf HR Hh. destruct (honest_from e v io Hio k Hc w evs w' dir_empty HR (fresh_WR v k w Hf)) as (d & H & Hw).
  - intros evs1 ev evs2 d1 E H1. specialize (Hh _ _ _ _ E H1). destruct (sv_call ev); cbn [suspicious]; auto; destruct Hh as (uid' & exp & X); intros N; exact (N _ _ X).
  - split; [apply Hw|eauto].
Qed.
Lemma cut_fresh {S I} (e : env) (F : Prop) (v : view S) (io : provider S) (k : sa_keys) (w w' : world S I) (hs : list sa_happening) :
  io_spec F v io -> (forall n, time_wf (clock e n)) ->
  sa_fresh v k w -> sa_xrun e v io k w hs w' -> w_forged w' = false ->
  exists d, sa_xhistory F dir_empty hs d.
Proof.
  intros Hio Hc Hf HR Hn. destruct (cut_from e F v io Hio k Hc w hs w' dir_empty HR Hn (fresh_WR v k w Hf)) as (d & H & _). eauto.
Qed.

(** ** Observed histories *)
Section Observed.
  Context {S I : Type} (e : env) (v : view S) (io : provider S) (k : sa_keys).
  (** What is seen of an execution that starts without users, groups and tokens and in which no forged
      ciphertext is accepted. *)
  Definition observed (evs : list sa_event) : Prop :=
    exists w w' : world S I, sa_fresh v k w /\ sa_run e io k (sa_elsewhere v k) w evs w' /\ w_forged w' = false.
  Context (Hio : io_spec False v io) (Hc : forall n, time_wf (clock e n)).
  Lemma obs_history evs : observed evs -> exists d, sa_history dir_empty evs d.
  Proof.
    intros (w & w' & Hf & Hr & Hn). destruct (refine_fresh e v io Hio k Hc w evs w' Hf Hr Hn) as (d & H & _). eauto.
  Qed.
  Lemma obs_step evs1 ev evs2 d : observed (evs1 ++ ev :: evs2) -> sa_history dir_empty evs1 d ->
    exists d', sa_step (sv_x ev) (sv_call ev) d (sv_reply ev) d' /\ exists d2, sa_history d' evs2 d2.
  Proof.
    intros H Hd. destruct (obs_history _ H) as (dn & Hn). apply sh_mid in Hn as (d0 & d' & A & B & C).
    rewrite <- (history_next _ _ _ _ unique_empty Hd A) in B. eauto.
  Qed.
  Lemma run_hash (w w' : world S I) evs : sa_run e io k (sa_elsewhere v k) w evs w' -> forall ev, In ev evs -> x_hash (sv_x ev) = pwhash e.
  Proof.
    intros H. induction H as [w|w w1 evs w2 HE HR IH|w c r w1 evs w2 Hwf Hr HR IH]; intros ev; [intros []|apply IH|].
    intros [<-|Hi]; [reflexivity|now apply IH].
  Qed.
  Lemma obs_hash evs ev : observed evs -> In ev evs -> x_hash (sv_x ev) = pwhash e.
  Proof. intros (w & w' & _ & Hr & _). eapply run_hash; eauto. Qed.
  Lemma obs_unique evs d : sa_history dir_empty evs d -> unique d.
  Proof. intros H. eapply unique_history; [exact H|apply unique_empty]. Qed.

  (** Login. *)
  Definition expiry_of (ev : sa_event) : gtime := time_add (x_now (sv_x ev)) 3600.
  Definition mishap (ev : sa_event) : Prop := x_rng_fails (sv_x ev) \/ time_text (expiry_of ev) = None.
  Lemma login_exact evs1 ev evs2 d uid pw : observed (evs1 ++ ev :: evs2) -> sa_history dir_empty evs1 d -> sv_call ev = SLogin uid pw ->
    ((exists tok t, sv_reply ev = Ok (SRToken tok t)) -> exists a, d_users d !! uid = Some a /\ pwhash e pw (ac_salt a) = ac_hash a) /\
    (forall a, d_users d !! uid = Some a -> pwhash e pw (ac_salt a) = ac_hash a -> ~ mishap ev ->
       exists tok, sv_reply ev = Ok (SRToken tok (time_unix (expiry_of ev)))) /\
    ((exists tok t, sv_reply ev = Ok (SRToken tok t)) \/ sv_reply ev = Err EIdNotAuthenticated).
  Proof.
    intros H Hd Ec. assert (Hh : x_hash (sv_x ev) = pwhash e) by (eapply obs_hash; [exact H|]; apply in_or_app; right; now left).
    destruct (obs_step _ _ _ _ H Hd) as (d' & St & _). rewrite Ec in St. cbn [sa_step] in St. unfold knows in St. rewrite Hh in St. cbn zeta in St. fold (expiry_of ev) in St.
    destruct (d_users d !! uid) as [a|].
    2:{ destruct St as [-> _]. split; [intros (? & ? & ?); discriminate|]. split; [discriminate|now right]. }
    destruct St as [(N & -> & _)|(K & [(X & -> & _)|(s & TX & -> & _)])].
    - split; [intros (? & ? & ?); discriminate|]. split; [|now right]. intros a' E Hk. injection E as <-. contradiction.
    - split; [intros (? & ? & ?); discriminate|]. split; [|now right]. intros a' _ _ M. contradiction.
    - split; [eauto|]. split; eauto.
  Qed.
  (** What a token means afterwards. *)
  Lemma token_means evs1 lg evs2 gi evs3 d uid pw tok t : observed (evs1 ++ lg :: evs2 ++ gi :: evs3) ->
    sv_call lg = SLogin uid pw -> sv_reply lg = Ok (SRToken tok t) -> sv_call gi = SGetIdentity tok ->
    sa_history dir_empty (evs1 ++ lg :: evs2) d ->
    t = time_unix (expiry_of lg) /\
    (forall i, (nanos (x_now (sv_x gi)) <= nanos (expiry_of lg))%Z -> sv_reply gi = Ok (SRIdentity i) -> exists a, d_users d !! uid = Some a /\ describes d uid a i) /\
    ((nanos (x_now (sv_x gi)) <= nanos (expiry_of lg))%Z ->
      match d_users d !! uid with
      | None => sv_reply gi = Err EIdUserNotFound
      | Some a => (forall g, g ∈ ac_groups a -> is_Some (d_groups d !! g)) -> exists i, sv_reply gi = Ok (SRIdentity i)
      end) /\
    ((nanos (expiry_of lg) < nanos (x_now (sv_x gi)))%Z -> sv_reply gi = Err EIdNotAuthenticated).
  Proof.
    intros H Ec Er Eg Hd. pose proof (obs_unique _ _ Hd) as U.
    replace (evs1 ++ lg :: evs2 ++ gi :: evs3) with ((evs1 ++ lg :: evs2) ++ gi :: evs3) in H by (now rewrite <- app_assoc).
    destruct (obs_step _ _ _ _ H Hd) as (d' & St & _). rewrite Eg in St. cbn [sa_step] in St. destruct St as (q & Rq & Eq & _).
    pose proof Hd as Hd2. apply sh_mid in Hd2 as (d0 & d1 & H0 & S1 & H1). rewrite Ec, Er in S1.
    assert (Sy : t = time_unix (expiry_of lg) /\ says d tok uid (expiry_of lg)).
    { cbn [sa_step] in S1. destruct (d_users d0 !! uid); [|destruct S1 as [X _]; discriminate]. cbn zeta in S1.
      destruct S1 as [(_ & X & _)|(_ & [(_ & X & _)|(s & _ & X & -> & Hs)])]; [discriminate..|].
      destruct (token_inj _ _ _ _ X) as [<- ->]. split; [reflexivity|].
      eapply says_history; [exact H1|]. apply Hs. auto. }
    destruct Sy as [Et Sy]. split; [exact Et|]. clear S1. rewrite Eq. destruct Rq as [(u & x & Sy' & L & Cs)|[N ->]].
    - destruct (U _ _ _ _ _ Sy Sy') as [<- <-]. split; [|split].
      + intros i _ E. destruct (d_users d !! uid) as [a|]; [|rewrite Cs in E; discriminate].
        destruct Cs as [(j & D & ->)|(g & _ & _ & ->)]; [|discriminate]. injection E as <-. eauto.
      + intros _. destruct (d_users d !! uid) as [a|]; [|rewrite Cs; reflexivity].
        intros Hg. destruct Cs as [(j & D & ->)|(g & Hgi & Hn & ->)]; [cbn; eauto|]. destruct (Hg _ Hgi). congruence.
      + intros X. lia.
    - specialize (N _ _ Sy). split; [intros; lia|]. split; [intros; lia|]. reflexivity.
  Qed.
End Observed.
