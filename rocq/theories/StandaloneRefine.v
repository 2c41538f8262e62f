(** The Standalone provider refines the directory of StandaloneSpec.v: every call, every cut. *)
From Coq Require Import ZifyN ZifyNat.
From stdpp Require Import gmap.
From Verif Require Import Bytes Base64 Base64Proofs Go Json JsonProofs Uuid UuidProofs Time TimeProofs Types TypesProofs World Logic
  Cryptor CryptorProofs CryptoFacts IoSpec IoProofs Id Data D1 D1Proofs D1Local Sched D1Sched Password Standalone Spec StandaloneSpec
  WpcFacts TokenFacts MiscFacts StandaloneProofs.
Local Open Scope bool_scope.
Local Open Scope N_scope.

Lemma enc_sealed_user_nonempty x : print (enc_sealed_user x) <> [].
Proof. discriminate. Qed.
Lemma enc_sealed_group_nonempty x : print (enc_sealed_group x) <> [].
Proof. discriminate. Qed.

Lemma list_to_set_valid {P : bytes -> Prop} (s : gset bytes) (l : list bytes) :
  (forall g, g ∈ s -> P g) -> (forall g, In g l -> P g) -> forall g, g ∈ s ∪ list_to_set l -> P g.
Proof. intros A B g. rewrite elem_of_union, elem_of_list_to_set, elem_of_list_In. intros [H|H]; auto. Qed.

Lemma union_lt l : Forall (fun s => s < 2 ^ 64) l -> scope_union l < 2 ^ 64.
Proof.
  intros H. unfold scope_union. assert (G : forall a, a < 2 ^ 64 -> fold_left N.lor l a < 2 ^ 64); [|now apply G].
  induction H as [|x l Hx _ IH]; intros a Ha; cbn [fold_left]; [exact Ha|]. apply IH.
  destruct (N.eq_dec (N.lor a x) 0) as [->|Hn]; [lia|]. apply N.log2_lt_pow2; [lia|]. rewrite N.log2_lor.
  destruct (N.eq_dec a 0) as [->|]; destruct (N.eq_dec x 0) as [->|]; cbn [N.log2]; try lia;
    repeat match goal with |- context [N.log2 ?v] => assert_fails (is_var v; match goal with H : N.log2 v < 64 |- _ => idtac end); assert (N.log2 v < 64) by (apply N.log2_lt_pow2; lia) end; lia.
Qed.
Lemma union_all_of l : all_of l (scope_union l).
Proof. intros b. apply union_bits. Qed.

Section Refine.
  Context {S I : Type} (e : env) (F : Prop) (v : view S) (io : provider S) (Hio : io_spec F v io) (k : sa_keys).
  Notation W := (world S I).
  Notation uc := (aes_cryptor e (s_uek k)).
  Notation gc := (aes_cryptor e (s_gek k)).
  Notation tc := (aes_cryptor e (s_tek k)).
  Notation SU := DataTypeSealedUser.
  Notation SG := DataTypeSealedGroup.
  Notation holds := (@holds S I v).
  Implicit Types (m : store) (w : W).

  (** The world stands for the directory, and the flag is [fl]. *)
  Context (fl : bool).
  Definition WR (d : directory) w : Prop :=
    w_forged w = fl /\ exists m, holds m w /\ srep k (w_log w) m d /\ sess k (w_log w) (d_sessions d).
  Lemma WR_keep d w w' m : w_forged w = fl -> holds m w' -> srep k (w_log w) m d -> sess k (w_log w) (d_sessions d) -> w_log w' = w_log w ->
    w_forged w' = w_forged w -> WR d w'.
  Proof. intros A B C D E G. split; [congruence|]. exists m. rewrite E. auto. Qed.

  Lemma user_get d uid w : WR d w ->
    wpc (get_user io uc uid) (WR d)
      (fun r w' => WR d w' /\ keep w w' /\
         ((exists a, d_users d !! uid = Some a /\ account_ok uid a /\ r = Ok (account_user a)) \/
          (d_users d !! uid = None /\ r = Err EIdUserNotFound) \/ failed F r)) w.
  Proof.
    intros (Hfl & m & H & R & Hs). eapply wpc_mono; [| |apply (get_user_post e F v io Hio k uid w m H (fun b => srep_user_logged k _ m d uid b R))].
    - intros w' (A & B & _ & _ & G). eapply WR_keep; eauto.
    - intros r w' _ (A & K & C). split; [eapply WR_keep; eauto; apply K|]. split; [exact K|].
      destruct C as [->|C]; [|auto]. destruct R as [R1 _]. specialize (R1 uid). destruct (d_users d !! uid) as [a|].
      + destruct R1 as (b & -> & -> & Ha & _). left. eauto.
      + rewrite R1. auto.
  Qed.

  Lemma user_put d uid a (update : bool) w : WR d w -> account_ok uid a ->
    let cond := if update then is_Some (d_users d !! uid) else d_users d !! uid = None in
    let d' := set_users d (<[uid := a]> (d_users d)) in
    wpc (put_user io uc uid (account_user a) update) (fun w' => WR d w' \/ (cond /\ WR d' w'))
      (fun r w' => (r = Err ERandom /\ rng_failed e w' /\ ~ enc_draws e (w_draws w) /\ WR d w') \/
                   (~ cond /\ r = Err (if update then EIdUserNotFound else EIdUserAlreadyExists) /\ WR d w') \/
                   (cond /\ r = Ok tt /\ enc_draws e (w_draws w) /\ WR d' w') \/
                   (failed F r /\ (WR d w' \/ (cond /\ WR d' w')))) w.
  Proof.
    intros (Hfl & m & H & R & Hs) Ha cond d'. pose proof Ha as (V1 & V2 & V3 & V4).
    unfold put_user, user_seal. apply wpc_bindR, wpc_bindR. unfold encrypt_json. cbn [c_enc aes_cryptor].
    assert (X : forall wk ct, aes_open (s_uek k) (print (JStr uid)) wk ct = Ok (print (enc_user (account_user a))) ->
       sess k (mkEntry (s_uek k) (print (JStr uid)) wk ct (print (enc_user (account_user a))) :: w_log w) (d_sessions d)).
    { intros wk ct Ho. apply sess_entry; [exact Hs|]. intros E. cbn [e_kek e_aad e_wk e_ct e_pt] in *. left. rewrite <- E. split; [exact Ho|].
      apply user_not_bytes. exact V2. }
    eapply wpc_mono; [| |apply (enc_post e v (s_uek k) (print (enc_user (account_user a))) (print (JStr uid)) w m H)].
    { intros w' ((A & [L|(wk & ct & Ho & L)]) & G); left; (split; [congruence|]); exists m; (split; [exact A|]); rewrite L; [auto|].
      split; [|auto]. eapply srep_log; [|exact R]. intros y Hy; now right. }
    intros r w1 _ (H1 & _ & G1 & C). destruct C as [(wk & ct & -> & Ho & _ & _ & L & _ & ED)|(-> & L & RF & ED)].
    2:{ left. split; [reflexivity|]. split; [exact RF|]. split; [exact ED|]. split; [congruence|]. exists m. rewrite L. auto. }
    assert (R1 : srep k (w_log w1) m d) by (rewrite L; eapply srep_log; [|exact R]; intros y Hy; now right).
    assert (Hs1 : sess k (w_log w1) (d_sessions d)) by (rewrite L; auto).
    assert (Hfl1 : w_forged w1 = fl) by congruence.
    apply wpc_ret; [left; split; [exact Hfl1|]; exists m; auto|]. cbn [su_uid].
    set (b := print (enc_sealed_user _)).
    assert (Hb : user_open (s_uek k) b = Ok (account_user a)).
    { unfold user_open, b. rewrite sealed_user_roundtrip. cbn [su_uid su_ct su_wk]. rewrite sanitize_valid by exact V1.
      eapply open_json_ok; [exact Ho|]. rewrite user_roundtrip by exact V2. f_equal. unfold account_user. cbn [u_hash u_scopes u_groups norm_set].
      f_equal. f_equal. apply set_eq. intros g. rewrite elem_of_map. split.
      - intros (g' & -> & Hg). rewrite sanitize_valid; auto.
      - intros Hg. exists g. split; [now rewrite sanitize_valid by auto|exact Hg]. }
    assert (Lb : user_logged k (w_log w1) b).
    { unfold user_logged, b. intros su. rewrite sealed_user_roundtrip. cbn [su_uid su_ct su_wk]. rewrite sanitize_valid by exact V1. intros E. injection E as <-.
      cbn [su_uid su_ct su_wk slice_bytes]. rewrite L. eexists. split; [now left|]. auto. }
    pose proof (srep_user k _ m d uid a b R1 Hb Ha Lb) as R'. fold d' in R'.
    pose proof (proj1 R1 uid) as Ru.
    destruct update; apply wpc_map_err.
    - eapply wpc_mono; [| |apply (io_update_post F v io Hio uid SU b w1 m ltac:(reflexivity) (enc_sealed_user_nonempty _) H1)].
      + assert (C : m uid SU <> None -> cond). { intros N. unfold cond. destruct (d_users d !! uid); [eauto|congruence]. }
        intros w' ([A|[N A]] & K & _ & _ & G); [left|right; split; [auto|]]; (eapply WR_keep; [exact Hfl1|exact A| |exact Hs1|exact K|exact G]); assumption.
      + assert (C : m uid SU <> None -> cond). { intros N. unfold cond. destruct (d_users d !! uid); [eauto|congruence]. }
        assert (C' : m uid SU = None -> ~ cond). { unfold cond. intros N [a' E]. rewrite E in Ru. destruct Ru as (? & ? & _). congruence. }
        intros r w' _ ([(N & -> & A)|[(N & -> & A)|((HF & x & -> & Hx) & A)]] & K & _ & _ & G).
        * right. right. left. split; [auto|]. split; [reflexivity|]. split; [exact ED|]. eapply WR_keep; [exact Hfl1|exact A|exact R'|exact Hs1|exact K|exact G].
        * right. left. split; [auto|]. split; [reflexivity|]. eapply WR_keep; [exact Hfl1|exact A|exact R1|exact Hs1|exact K|exact G].
        * right. right. right. split; [split; [exact HF|]; exists x; split; [f_equal; apply fault_replace; [exact Hx|discriminate]|exact Hx]|].
          destruct A as [A|[N A]]; [left|right; split; [auto|]]; (eapply WR_keep; [exact Hfl1|exact A| |exact Hs1|exact K|exact G]); assumption.
    - assert (C : m uid SU = None -> cond). { unfold cond. intros N. destruct (d_users d !! uid); [destruct Ru as (? & ? & _); congruence|reflexivity]. }
      assert (C' : m uid SU <> None -> ~ cond). { unfold cond. intros N E. rewrite E in Ru. congruence. }
      eapply wpc_mono; [| |apply (io_put_post F v io Hio uid SU b w1 m ltac:(reflexivity) (enc_sealed_user_nonempty _) H1)].
      + intros w' ([A|[N A]] & K & _ & _ & G); [left|right; split; [auto|]]; (eapply WR_keep; [exact Hfl1|exact A| |exact Hs1|exact K|exact G]); assumption.
      + intros r w' _ ([(N & -> & A)|[(N & -> & A)|((HF & x & -> & Hx) & A)]] & K & _ & _ & G).
        * right. right. left. split; [auto|]. split; [reflexivity|]. split; [exact ED|]. eapply WR_keep; [exact Hfl1|exact A|exact R'|exact Hs1|exact K|exact G].
        * right. left. split; [auto|]. split; [reflexivity|]. eapply WR_keep; [exact Hfl1|exact A|exact R1|exact Hs1|exact K|exact G].
        * right. right. right. split; [split; [exact HF|]; exists x; split; [f_equal; apply fault_replace; [exact Hx|discriminate]|exact Hx]|].
          destruct A as [A|[N A]]; [left|right; split; [auto|]]; (eapply WR_keep; [exact Hfl1|exact A| |exact Hs1|exact K|exact G]); assumption.
  Qed.

  Lemma group_put d gid s w : WR d w -> valid_utf8 gid = true -> s < 2 ^ 64 ->
    let cond := d_groups d !! gid = None in
    let d' := set_groups d (<[gid := s]> (d_groups d)) in
    wpc (put_group io gc gid (mkGroup s)) (fun w' => WR d w' \/ (cond /\ WR d' w'))
      (fun r w' => (r = Err ERandom /\ rng_failed e w' /\ ~ enc_draws e (w_draws w) /\ WR d w') \/
                   (~ cond /\ r = Err EIdGroupAlreadyExists /\ WR d w') \/
                   (cond /\ r = Ok tt /\ enc_draws e (w_draws w) /\ WR d' w') \/
                   (failed F r /\ (WR d w' \/ (cond /\ WR d' w')))) w.
  Proof.
    intros (Hfl & m & H & R & Hs) V1 V2 cond d'.
    unfold put_group, group_seal. apply wpc_bindR, wpc_bindR. unfold encrypt_json. cbn [c_enc aes_cryptor].
    assert (X : forall wk ct, aes_open (s_gek k) (print (JStr gid)) wk ct = Ok (print (enc_group (mkGroup s))) ->
       sess k (mkEntry (s_gek k) (print (JStr gid)) wk ct (print (enc_group (mkGroup s))) :: w_log w) (d_sessions d)).
    { intros wk ct Ho. apply sess_entry; [exact Hs|]. intros E. cbn [e_kek e_aad e_wk e_ct e_pt] in *. left. rewrite <- E. split; [exact Ho|].
      apply group_not_bytes. exact V2. }
    eapply wpc_mono; [| |apply (enc_post e v (s_gek k) (print (enc_group (mkGroup s))) (print (JStr gid)) w m H)].
    { intros w' ((A & [L|(wk & ct & Ho & L)]) & G); left; (split; [congruence|]); exists m; (split; [exact A|]); rewrite L; [auto|].
      split; [|auto]. eapply srep_log; [|exact R]. intros y Hy; now right. }
    intros r w1 _ (H1 & _ & G1 & C). destruct C as [(wk & ct & -> & Ho & _ & _ & L & _ & ED)|(-> & L & RF & ED)].
    2:{ left. split; [reflexivity|]. split; [exact RF|]. split; [exact ED|]. split; [congruence|]. exists m. rewrite L. auto. }
    assert (R1 : srep k (w_log w1) m d) by (rewrite L; eapply srep_log; [|exact R]; intros y Hy; now right).
    assert (Hs1 : sess k (w_log w1) (d_sessions d)) by (rewrite L; auto).
    assert (Hfl1 : w_forged w1 = fl) by congruence.
    apply wpc_ret; [left; split; [exact Hfl1|]; exists m; auto|]. cbn [sg_gid].
    set (b := print (enc_sealed_group _)).
    assert (Hb : group_rec (s_gek k) b s).
    { unfold group_rec, b. rewrite sealed_group_roundtrip. cbn [sg_gid sg_ct sg_wk]. rewrite sanitize_valid by exact V1. eauto 10. }
    assert (Lb : group_logged k (w_log w1) b).
    { unfold group_logged, b. intros su. rewrite sealed_group_roundtrip. cbn [sg_gid sg_ct sg_wk]. rewrite sanitize_valid by exact V1. intros E. injection E as <-.
      cbn [sg_gid sg_ct sg_wk slice_bytes]. rewrite L. eexists. split; [now left|]. auto. }
    pose proof (srep_group k _ m d gid s b R1 Hb Lb) as R'. fold d' in R'.
    pose proof (proj2 R1 gid) as Ru.
    assert (C : m gid SG = None -> cond). { unfold cond. intros N. destruct (d_groups d !! gid); [destruct Ru as (? & ? & _); congruence|reflexivity]. }
    assert (C' : m gid SG <> None -> ~ cond). { unfold cond. intros N E. rewrite E in Ru. congruence. }
    apply wpc_map_err.
    eapply wpc_mono; [| |apply (io_put_post F v io Hio gid SG b w1 m ltac:(reflexivity) (enc_sealed_group_nonempty _) H1)].
    - intros w' ([A|[N A]] & K & _ & _ & G); [left|right; split; [auto|]]; (eapply WR_keep; [exact Hfl1|exact A| |exact Hs1|exact K|exact G]); assumption.
    - intros r w' _ ([(N & -> & A)|[(N & -> & A)|((HF & x & -> & Hx) & A)]] & K & _ & _ & G).
      + right. right. left. split; [auto|]. split; [reflexivity|]. split; [exact ED|]. eapply WR_keep; [exact Hfl1|exact A|exact R'|exact Hs1|exact K|exact G].
      + right. left. split; [auto|]. split; [reflexivity|]. eapply WR_keep; [exact Hfl1|exact A|exact R1|exact Hs1|exact K|exact G].
      + right. right. right. split; [split; [exact HF|]; exists x; split; [f_equal; apply fault_replace; [exact Hx|discriminate]|exact Hx]|].
        destruct A as [A|[N A]]; [left|right; split; [auto|]]; (eapply WR_keep; [exact Hfl1|exact A| |exact Hs1|exact K|exact G]); assumption.
  Qed.

  (** ** Random draws, time and the caller *)
  Lemma draw_WR d n w : WR d w ->
    wpc (get_bytes e n) (WR d)
      (fun r w' => WR d w' /\ w_draws w' = (w_draws w + 1)%nat /\
        ((exists b, draw e (w_draws w) n = Ok b /\ length b = N.to_nat n /\ r = Ok b) \/ (r = Err ERandom /\ draw e (w_draws w) n = Err ERandom /\ rng_failed e w'))) w.
  Proof.
    intros (Hfl & m & H & R & Hs). eapply wpc_mono; [| |apply (get_bytes_post e v n w m H)].
    - intros w' (A & B & G). eapply WR_keep; eauto.
    - intros r w' _ (A & B & _ & D & G & C). split; [eapply WR_keep; eauto|]. auto.
  Qed.
  Lemma gen_WR d w : WR d w ->
    wpc (generate_password e) (WR d)
      (fun r w' => WR d w' /\
        ((exists raw salt, draw e (w_draws w) 32 = Ok raw /\ draw e (w_draws w + 1) 8 = Ok salt /\ length salt = 8%nat /\
            r = Ok (b64url_encode raw, salt ++ pwhash e (b64url_encode raw) salt)) \/ (r = Err ERandom /\ rng_failed e w'))) w.
  Proof.
    intros H. unfold generate_password. apply wpc_bindR. eapply wpc_mono; [| |apply (draw_WR d passwordLength w H)]; [auto|].
    intros r w1 _ (H1 & D1 & [(raw & E1 & _ & ->)|(-> & _ & RF)]); [|auto].
    apply wpc_bindR. eapply wpc_mono; [| |apply (draw_WR d (N.of_nat saltLength) w1 H1)]; [auto|].
    intros r w2 _ (H2 & D2 & [(salt & E2 & L2 & ->)|(-> & _ & RF)]); [|auto].
    apply wpc_ret; [exact H2|]. split; [exact H2|]. left. exists raw, salt. rewrite D1 in E2. auto.
  Qed.

  Context (Hc : forall n, time_wf (clock e n)).
  Lemma wpc_caller {B} d tok w (kont : identity -> prog W (res B)) (Inv : W -> Prop) (Q : res B -> W -> Prop) : WR d w ->
    (forall i, fmono (kont i)) ->
    (forall w' : W, w_forged w' = true -> stranger d tok -> Inv w' /\ forall r, Q r w') ->
    (forall w', WR d w' -> Inv w') ->
    (forall w' y, WR d w' -> resolves d (clock e (w_ticks w)) tok (Err y) -> Q (Err y) w') ->
    (forall w' y, F -> fault y -> WR d w' -> Q (Err y) w') ->
    (forall i w', WR d w' -> w_draws w' = w_draws w -> resolves d (clock e (w_ticks w)) tok (Ok i) -> wpc (kont i) Inv Q w') ->
    wpc (bindR (sa_get_identity e io uc gc tc tok) kont) Inv Q w.
  Proof.
    intros (Hfl & m & H & R & Hs) Hm Hf HI HE HF HK. apply wpc_bindR.
    eapply wpc_mono; [| |apply (identity_post e F v io Hio k d tok w m Hc H R Hs)].
    - intros w' [[A Ns]|(A & B1 & _ & G)]; [now apply Hf|]. apply HI. eapply WR_keep; eauto.
    - intros r w' _ [[A Ns]|((A & B1 & D & G) & C)].
      + destruct r as [i|x|]; [|now apply Hf..]. eapply wpc_mono; [| |apply wpc_forged; [apply Hm|exact A]]; [intros ? ?; now apply Hf|intros ? ? ? ?; now apply Hf].
      + assert (Hw : WR d w') by (eapply WR_keep; eauto). destruct C as [C|(HFF & x & -> & Hx)]; [|auto].
        destruct r as [i|x|]; [auto|auto|]. exfalso. destruct C as [(uid & exp & _ & _ & C)|[_ C]]; [|discriminate].
        destruct (d_users d !! uid); [|discriminate]. destruct C as [(? & _ & C)|(? & _ & _ & C)]; discriminate.
  Qed.

  (** ** Calls *)
  Definition surr w (P : Prop) : surroundings := mkSurroundings (clock e (w_ticks w)) (fun i n => draw e (w_draws w + i) n) P (pwhash e).
  (** The call's token is not one handed out by a login. *)
  Definition suspicious (c : sa_call) (d : directory) : Prop :=
    match c with
    | SAddUser tok _ _ | SRemoveUser tok _ _ | SDeleteUser tok _ | SNewGroup tok _ | SGetIdentity tok => stranger d tok
    | _ => False
    end.
  Definition sa_inv c d w w' : Prop := (w_forged w' = true /\ suspicious c d) \/ exists d', WR d' w' /\ sa_cut (surr w (rng_failed e w')) c d d'.
  Definition sa_post c d w (r : res sa_reply) w' : Prop :=
    (w_forged w' = true /\ suspicious c d) \/ exists d', WR d' w' /\
      (sa_step (surr w (rng_failed e w')) c d r d' \/
       (F /\ (exists y, r = Err y /\ (fault y \/ y = EIdNotAuthenticated)) /\ sa_cut (surr w (rng_failed e w')) c d d')).
  Definition sa_call_wf (c : sa_call) : Prop :=
    match c with SNewUser l | SNewGroup _ l => Forall (fun s => s < 2 ^ 64) l | _ => True end.

  Lemma inv_same c d w w' : WR d w' -> sa_inv c d w w'.
  Proof. intros H. right. exists d. split; [exact H|now left]. Qed.
  Lemma post_step c d w r w' d' : WR d' w' -> sa_step (surr w (rng_failed e w')) c d r d' -> sa_post c d w r w'.
  Proof. intros H A. right. exists d'. auto. Qed.
  Lemma post_fault c d w y w' : F -> fault y -> WR d w' -> sa_post c d w (Err y) w'.
  Proof. intros HF Hy H. right. exists d. split; [exact H|]. right. split; [exact HF|]. split; [eauto|now left]. Qed.
  Lemma inv_ok c d w w' d' r : WR d' w' -> sa_step (surr w (rng_failed e w')) c d (Ok r) d' -> sa_inv c d w w'.
  Proof. intros H A. right. exists d'. split; [exact H|]. right. left. eauto. Qed.
  Lemma post_fault_ok c d w y w' d' r : F -> fault y -> WR d' w' -> sa_step (surr w (rng_failed e w')) c d (Ok r) d' -> sa_post c d w (Err y) w'.
  Proof. intros HF Hy H A. right. exists d'. split; [exact H|]. right. split; [exact HF|]. split; [eauto|]. right. left. eauto. Qed.

  Lemma new_user_wpc scopes d w : sa_call_wf (SNewUser scopes) -> WR d w ->
    wpc (sa_aes e io k (SNewUser scopes)) (sa_inv (SNewUser scopes) d w) (sa_post (SNewUser scopes) d w) w.
  Proof.
    intros Hwf H. set (c := SNewUser scopes). unfold sa_aes. cbn [sa_do]. apply wpc_ret_map. unfold sa_new_user, new_v4.
    apply wpc_bindR, wpc_bindR. eapply wpc_mono; [| |apply (draw_WR d 16 w H)]; [apply inv_same|].
    intros r w1 _ (H1 & D1 & [(b & E1 & _ & ->)|(-> & NE & RF)]).
    2:{ eapply post_step; [exact H1|]. left. auto. }
    apply wpc_ret; [now apply inv_same|]. unfold new_user. apply wpc_bindR, wpc_bindR.
    eapply wpc_mono; [| |apply (gen_WR d w1 H1)]; [apply inv_same|].
    intros r w2 _ (H2 & [(raw & salt & E2 & E3 & L3 & ->)|[-> RF]]).
    2:{ eapply post_step; [exact H2|]. left. auto. }
    apply wpc_ret; [now apply inv_same|]. apply wpc_bindR.
    set (uid := uuid_text (uuid_v4 b)). set (pw := b64url_encode raw).
    set (a := mkAccount (scope_union scopes) salt (pwhash e pw salt) ∅).
    assert (Ha : account_ok uid a).
    { split; [apply uuid_text_valid|]. split; [apply union_lt, Hwf|]. split; [exact L3|]. intros g Hg. cbn in Hg. set_solver. }
    assert (OK : forall P d', d_users d !! uid = None -> d' = set_users d (<[uid := a]> (d_users d)) -> sa_step (surr w P) c d (Ok (SRUser uid pw)) d').
    { intros P d' N ->. right. exists b, raw, salt, (scope_union scopes). cbn [x_draw surr].
      rewrite Nat.add_0_r. split; [exact E1|]. rewrite <- D1. split; [exact E2|]. split.
      { replace (w_draws w + 2)%nat with (w_draws w1 + 1)%nat by lia. exact E3. }
      split; [apply union_all_of|]. cbn zeta. fold uid pw. rewrite N. split; reflexivity. }
    assert (BAD : forall P, d_users d !! uid <> None -> sa_step (surr w P) c d (Err EIdUserAlreadyExists) d).
    { intros P N. right. exists b, raw, salt, (scope_union scopes). cbn [x_draw surr].
      rewrite Nat.add_0_r. split; [exact E1|]. rewrite <- D1. split; [exact E2|]. split.
      { replace (w_draws w + 2)%nat with (w_draws w1 + 1)%nat by lia. exact E3. }
      split; [apply union_all_of|]. cbn zeta. fold uid. destruct (d_users d !! uid); [split; reflexivity|congruence]. }
    eapply wpc_mono; [| |apply (user_put d uid a false w2 H2 Ha)].
    { intros w' [A|[N A]]; [now apply inv_same|]. eapply inv_ok; [exact A|]. now apply OK. }
    intros r w' _ [(-> & RF & NE & A)|[(N & -> & A)|[(N & -> & ED & A)|((HF & x & -> & Hx) & A)]]].
    - eapply post_step; [exact A|]. left. auto.
    - eapply post_step; [exact A|]. now apply BAD.
    - apply wpc_ret; [eapply inv_ok; [exact A|]; now apply OK|]. eapply post_step; [exact A|]. now apply OK.
    - destruct A as [A|[N A]]; [now apply post_fault|]. eapply post_fault_ok; [exact HF|exact Hx|exact A|now apply OK].
  Qed.

  Lemma authenticate_spec a uid pw : account_ok uid a ->
    (pwhash e pw (ac_salt a) = ac_hash a /\ authenticate e (account_user a) pw = Ok tt) \/
    (pwhash e pw (ac_salt a) <> ac_hash a /\ authenticate e (account_user a) pw = Err EIdNotAuthenticated).
  Proof.
    intros (_ & _ & L & _). unfold authenticate. cbn [u_hash account_user]. rewrite compare_exact by exact L. cbn [res_bind].
    destruct (bytes_eqb _ _) eqn:E; [left|right]; (split; [|reflexivity]).
    - now apply bytes_eqb_eq.
    - intros C. apply bytes_eqb_eq in C. congruence.
  Qed.

  Lemma login_wpc uid pw d w : WR d w ->
    wpc (sa_aes e io k (SLogin uid pw)) (sa_inv (SLogin uid pw) d w) (sa_post (SLogin uid pw) d w) w.
  Proof.
    intros H. set (c := SLogin uid pw). unfold sa_aes. cbn [sa_do]. apply wpc_ret_map. unfold sa_login, any_err. apply wpc_map_err.
    apply wpc_bindR. eapply wpc_mono; [| |apply (user_get d uid w H)]; [apply inv_same|].
    intros r w1 _ (H1 & (_ & _ & T1 & _) & C). destruct C as [(a & Eu & Ha & ->)|[(Eu & ->)|(HF & x & -> & Hx)]].
    2:{ eapply post_step; [exact H1|]. cbn [sa_step c res_map]. rewrite Eu. auto. }
    2:{ right. exists d. split; [exact H1|]. right. split; [exact HF|]. split; [cbn; eauto|now left]. }
    apply wpc_bindR. apply wpc_ret; [now apply inv_same|].
    destruct (authenticate_spec a uid pw Ha) as [[Kn ->]|[Kn ->]].
    2:{ eapply post_step; [exact H1|]. cbn [sa_step c res_map]. rewrite Eu. left. auto. }
    unfold new_token, time_now. apply wpc_bind, wpc_bind, wpc_act; cbn [fst snd]; [now apply inv_same|now apply inv_same|].
    set (w2 := set_ticks w1 (w_ticks w1 + 1)). assert (H2 : WR d w2) by exact H1. rewrite T1.
    apply wpc_ret; [now apply inv_same|]. unfold TokenValidity. set (exp := time_add (clock e (w_ticks w)) 3600).
    apply wpc_bindR. unfold token_seal. cbn [t_exp t_pt].
    destruct (enc_time exp) as [aad|] eqn:Ea.
    2:{ apply wpc_ret; [now apply inv_same|]. eapply post_step; [exact H2|]. cbn [sa_step c res_map]. rewrite Eu. right. split; [exact Kn|]. left. split; [|auto].
        right. cbn [x_now surr]. fold exp. unfold enc_time in Ea. destruct (time_text exp); [discriminate|reflexivity]. }
    apply wpc_bindR. unfold encrypt_json. cbn [c_enc aes_cryptor].
    destruct H2 as (Hfl & m & Hm & R & Hs).
    assert (Wexp : time_wf exp) by (apply time_add_wf, Hc).
    assert (NEW : forall wk ct, aes_open (s_tek k) (print aad) wk ct = Ok (print (jbytes (Some uid))) ->
      exists s, token_string (mkSealedToken exp (Some ct) (Some wk)) = Ok s /\
        sess k (mkEntry (s_tek k) (print aad) wk ct (print (jbytes (Some uid))) :: w_log w2) (mkSession s uid exp :: d_sessions d) /\
        forall P, sa_step (surr w P) c d (Ok (SRToken s (time_unix exp))) (add_session d (mkSession s uid exp))).
    { intros wk ct Ho. destruct (token_string (mkSealedToken exp (Some ct) (Some wk))) as [s| |] eqn:Es.
      2-3: unfold token_string, enc_sealed_token in Es; cbn [st_exp st_ct st_wk] in Es; rewrite Ea in Es; discriminate.
      assert (Ef : token_from_string s = Ok (mkSealedToken exp (Some ct) (Some wk))) by (apply token_string_lossless; [exact Wexp|exact Es]).
      set (ent := mkEntry (s_tek k) (print aad) wk ct (print (jbytes (Some uid)))).
      assert (SO : session_ok k (ent :: w_log w2) (mkSession s uid exp)).
      { exists wk, ct, aad. cbn [se_token se_exp se_uid]. split; [exact Ef|]. split; [exact Wexp|]. split; [exact Ea|]. split; [exact Ho|].
        exists ent. split; [now left|]. auto. }
      exists s. split; [reflexivity|]. split.
      - apply sess_add; [exact Hs|exact SO|]. intros _. right. exists (mkSession s uid exp), aad.
        split; [now left|]. cbn [se_token se_exp e_aad e_ct e_wk]. auto.
      - intros P. cbn [sa_step c]. rewrite Eu. right. split; [exact Kn|]. right. exists s.
        split; [cbn [x_now surr]; fold exp; unfold enc_time in Ea; destruct (time_text exp); discriminate|]. split; [reflexivity|]. split; [reflexivity|].
        intros uid' exp'. split.
        2:{ intros [-> ->]. exists (mkSession s uid exp). split; [now left|]. split; [|auto]. exists (mkSealedToken exp (Some ct) (Some wk)). auto. }
        intros (s' & Hi & (t & T2 & T3) & <- & <-). cbn [d_sessions add_session] in Hi.
        assert (exists l, session_ok k l s') as (l & wk' & ct' & aad' & E' & _ & Ea' & Ho' & _).
        { destruct Hi as [<-|Hi]; [eexists; exact SO|]. eexists. now apply Hs. }
        rewrite Ef in T3. injection T3 as <-. rewrite E' in T2. injection T2 as Q1 Q2 Q3.
        rewrite Q1, Ea in Ea'. injection Ea' as <-. rewrite Q2, Q3, Ho in Ho'. split; [|exact Q1].
        assert (Hp : forall a b : bytes, Ok a = Ok b -> a = b) by congruence. apply Hp, print_jbytes_inj in Ho'. congruence. }
    eapply wpc_mono; [| |apply (enc_post e v (s_tek k) (print (jbytes (Some uid))) (print aad) w2 m Hm)].
    { intros w' ((A & [L|(wk & ct & Ho & L)]) & G); [apply inv_same; split; [congruence|]; exists m; rewrite L; auto|].
      destruct (NEW wk ct Ho) as (s & _ & Hs' & Hst). eapply inv_ok; [|apply Hst]. split; [congruence|]. exists m. rewrite L. split; [exact A|]. split; [|exact Hs'].
      eapply (srep_log k (w_log w2)); [|exact R]. intros y Hy; now right. }
    intros r w3 _ (H3 & _ & G & C). destruct C as [(wk & ct & -> & Ho & _ & _ & L & _)|(-> & L & RF & _)].
    2:{ apply (post_step c d w _ w3 d); [split; [congruence|]; exists m; rewrite L; auto|]. cbn [sa_step c res_map]. rewrite Eu. right. split; [exact Kn|]. left. auto. }
    destruct (NEW wk ct Ho) as (s & Es & Hs' & Hst).
    assert (H4 : WR (add_session d (mkSession s uid exp)) w3).
    { split; [congruence|]. exists m. rewrite L. split; [exact H3|]. split; [|exact Hs']. eapply (srep_log k (w_log w2)); [|exact R]. intros y Hy; now right. }
    apply wpc_ret; [eapply inv_ok; [exact H4|apply Hst]|]. apply wpc_bindR. apply wpc_ret; [eapply inv_ok; [exact H4|apply Hst]|]. rewrite Es.
    apply wpc_ret; [eapply inv_ok; [exact H4|apply Hst]|]. eapply post_step; [exact H4|apply Hst].
  Qed.

  Lemma change_wpc uid old d w : WR d w ->
    wpc (sa_aes e io k (SChangePassword uid old)) (sa_inv (SChangePassword uid old) d w) (sa_post (SChangePassword uid old) d w) w.
  Proof.
    intros H. set (c := SChangePassword uid old). unfold sa_aes. cbn [sa_do]. apply wpc_ret_map. unfold sa_change_password, any_err.
    apply wpc_bindR, wpc_map_err. eapply wpc_mono; [| |apply (user_get d uid w H)]; [apply inv_same|].
    intros r w1 _ (H1 & (_ & D1 & _ & _) & C). destruct C as [(a & Eu & Ha & ->)|[(Eu & ->)|(HF & x & -> & Hx)]].
    2:{ eapply post_step; [exact H1|]. cbn [sa_step c res_map]. rewrite Eu. auto. }
    2:{ right. exists d. split; [exact H1|]. right. split; [exact HF|]. split; [cbn; eauto|now left]. }
    apply wpc_bindR, wpc_map_err. unfold change_password. apply wpc_bindR, wpc_ret; [now apply inv_same|].
    destruct (authenticate_spec a uid old Ha) as [[Kn ->]|[Kn ->]].
    2:{ eapply post_step; [exact H1|]. cbn [sa_step c res_map]. rewrite Eu. left. auto. }
    apply wpc_bindR. eapply wpc_mono; [| |apply (gen_WR d w1 H1)]; [apply inv_same|].
    intros r w2 _ (H2 & [(raw & salt & E2 & E3 & L3 & ->)|[-> RF]]).
    2:{ eapply post_step; [exact H2|]. cbn [sa_step c res_map]. rewrite Eu. right. split; [exact Kn|]. left. auto. }
    apply wpc_ret; [now apply inv_same|]. set (pw := b64url_encode raw). cbn [u_scopes u_groups account_user].
    set (a' := mkAccount (ac_scopes a) salt (pwhash e pw salt) (ac_groups a)).
    assert (Ha' : account_ok uid a'). { destruct Ha as (V1 & V2 & V3 & V4). split; [exact V1|]. split; [exact V2|]. split; [exact L3|exact V4]. }
    assert (OK : forall P, sa_step (surr w P) c d (Ok (SRPassword pw)) (set_users d (<[uid := a']> (d_users d)))).
    { intros P. cbn [sa_step c]. rewrite Eu. right. split; [exact Kn|]. right. exists raw, salt. cbn [x_draw surr]. rewrite Nat.add_0_r, <- D1. auto. }
    apply wpc_bindR. eapply wpc_mono; [| |apply (user_put d uid a' true w2 H2 Ha')].
    { intros w' [A|[N A]]; [now apply inv_same|]. eapply inv_ok; [exact A|]. now apply OK. }
    intros r w' _ [(-> & RF & NE & A)|[(N & -> & A)|[(N & -> & ED & A)|((HF & x & -> & Hx) & A)]]].
    - eapply post_step; [exact A|]. cbn [sa_step c res_map]. rewrite Eu. right. split; [exact Kn|]. left. auto.
    - exfalso. apply N. rewrite Eu. eauto.
    - apply wpc_ret; [eapply inv_ok; [exact A|]; now apply OK|]. eapply post_step; [exact A|]. now apply OK.
    - destruct A as [A|[N A]]; [now apply post_fault|]. eapply post_fault_ok; [exact HF|exact Hx|exact A|now apply OK].
  Qed.

  Lemma fmono_put_user uid u b : fmono (put_user io uc uid u b : prog W _).
  Proof.
    unfold put_user, user_seal. apply fmono_bindR; [apply fmono_bindR; [apply fmono_encrypt_json|intros [? ?]; exact Logic.I]|intros su].
    destruct b; apply fmono_map_err, fmono_onio.
  Qed.
  Lemma fmono_put_group gid g : fmono (put_group io gc gid g : prog W _).
  Proof.
    unfold put_group, group_seal. apply fmono_bindR; [apply fmono_bindR; [apply fmono_encrypt_json|intros [? ?]; exact Logic.I]|intros sg].
    apply fmono_map_err, fmono_onio.
  Qed.
  Lemma fmono_new_v4 : fmono (new_v4 e : prog W _).
  Proof. unfold new_v4. apply fmono_bindR; [apply fmono_get_bytes|intros; exact Logic.I]. Qed.

  Lemma caller_user d now tok i : resolves d now tok (Ok i) -> exists a, d_users d !! i_id i = Some a /\ describes d (i_id i) a i.
  Proof.
    intros [(uid & exp & _ & _ & C)|[_ C]]; [|discriminate]. destruct (d_users d !! uid) as [a|] eqn:E; [|discriminate].
    destruct C as [(i' & D & C)|(? & _ & _ & C)]; [|discriminate]. injection C as <-. pose proof D as (<- & _). eauto.
  Qed.
  Lemma member_all i gids : member_of_all i gids = true <-> holds_all i gids.
  Proof.
    unfold member_of_all, holds_all. rewrite forallb_forall. unfold get_ids.
    split; intros H g Hg; specialize (H g Hg).
    - apply bool_decide_eq_true in H. apply elem_of_union in H as [H|H]; [left; now apply elem_of_singleton in H|right].
      apply elem_of_dom in H as [s E]. eauto.
    - apply bool_decide_eq_true, elem_of_union. destruct H as [->|[s E]]; [left; now apply elem_of_singleton|right; apply elem_of_dom; eauto].
  Qed.
  Lemma holds_all_valid d now tok i gids w : WR d w -> resolves d now tok (Ok i) -> holds_all i gids -> forall g, In g gids -> valid_utf8 g = true.
  Proof.
    intros (_ & m & _ & [R1 _] & _) Hr Hh g Hg. destruct (caller_user _ _ _ _ Hr) as (a & Ea & _ & _ & _ & D).
    specialize (R1 (i_id i)). rewrite Ea in R1. destruct R1 as (_ & _ & _ & (V1 & _ & _ & V4) & _).
    destruct (Hh g Hg) as [->|[s E]]; [exact V1|]. apply D in E as [E _]. auto.
  Qed.

  (** The second half of AddUserToGroups and RemoveUserFromGroups. *)
  Lemma membership_wpc (c : sa_call) (tok uid : bytes) (gids : list bytes) (f : gset bytes -> gset bytes) (g : option (gset bytes) -> res (option (gset bytes))) d w :
    (forall x r d', sa_step x c d r d' <-> change_membership x tok uid gids f d r d') -> (stranger d tok -> suspicious c d) ->
    (forall s, g (Some s) = Ok (Some (f s))) ->
    (forall s, (forall x, x ∈ s -> valid_utf8 x = true) -> (forall x, In x gids -> valid_utf8 x = true) -> forall x, x ∈ f s -> valid_utf8 x = true) ->
    WR d w ->
    wpc (ret_map (fun _ => SRUnit)
      (bindR (sa_get_identity e io uc gc tc tok) (fun i =>
        if negb (member_of_all i gids) then Ret (Err EIdNotAuthorized)
        else bindR (get_user io uc uid) (fun u => bindR (lift (g (u_groups u))) (fun gs => put_user io uc uid (mkUser (u_hash u) (u_scopes u) gs) true)))))
      (sa_inv c d w) (sa_post c d w) w.
  Proof.
    intros Hstep Hsus Hg Hv H. apply wpc_ret_map. apply (wpc_caller d); [exact H| | | | | |].
    - intros i. destruct (negb _); [exact Logic.I|]. apply fmono_bindR; [apply fmono_get_user|intros u].
      apply fmono_bindR; [apply fmono_lift|intros gs]. apply fmono_put_user.
    - intros w' Hf Hstr. split; [left; auto|intros r; left; auto].
    - intros; now apply inv_same.
    - intros w' y Hw Hr. eapply post_step; [exact Hw|]. apply Hstep. right. exists y. auto.
    - intros w' y HF Hy Hw. now apply post_fault.
    - intros i w1 H1 D1 Hr. destruct (member_of_all i gids) eqn:Em; cbn [negb].
      2:{ apply wpc_ret; [now apply inv_same|]. eapply post_step; [exact H1|]. apply Hstep. left. exists i. split; [exact Hr|]. left.
          split; [|auto]. intros C. apply member_all in C. congruence. }
      apply member_all in Em. pose proof (holds_all_valid _ _ _ _ _ _ H1 Hr Em) as Vg.
      apply wpc_bindR. eapply wpc_mono; [| |apply (user_get d uid w1 H1)]; [apply inv_same|].
      intros r w2 _ (H2 & _ & C). destruct C as [(a & Eu & Ha & ->)|[(Eu & ->)|(HF & x & -> & Hx)]].
      2:{ eapply post_step; [exact H2|]. apply Hstep. left. exists i. split; [exact Hr|]. right. split; [exact Em|]. rewrite Eu. auto. }
      2:{ now apply post_fault. }
      cbn [u_groups u_hash u_scopes account_user]. rewrite Hg. apply wpc_bindR, wpc_ret; [now apply inv_same|].
      set (a' := mkAccount (ac_scopes a) (ac_salt a) (ac_hash a) (f (ac_groups a))).
      assert (Ha' : account_ok uid a'). { destruct Ha as (V1 & V2 & V3 & V4). split; [exact V1|]. split; [exact V2|]. split; [exact V3|]. apply Hv; auto. }
      assert (OK : forall P, sa_step (surr w P) c d (Ok SRUnit) (set_users d (<[uid := a']> (d_users d)))).
      { intros P. apply Hstep. left. exists i. split; [exact Hr|]. right. split; [exact Em|]. rewrite Eu. right. auto. }
      eapply wpc_mono; [| |apply (user_put d uid a' true w2 H2 Ha')].
      { intros w' [A|[N A]]; [now apply inv_same|]. eapply inv_ok; [exact A|]. now apply OK. }
      intros r w' _ [(-> & RF & NE & A)|[(N & -> & A)|[(N & -> & ED & A)|((HF & x & -> & Hx) & A)]]].
      + eapply post_step; [exact A|]. apply Hstep. left. exists i. split; [exact Hr|]. right. split; [exact Em|]. rewrite Eu. left. auto.
      + exfalso. apply N. rewrite Eu. eauto.
      + eapply post_step; [exact A|]. now apply OK.
      + destruct A as [A|[N A]]; [now apply post_fault|]. eapply post_fault_ok; [exact HF|exact Hx|exact A|now apply OK].
  Qed.

  Lemma add_user_wpc tok uid gids d w : WR d w ->
    wpc (sa_aes e io k (SAddUser tok uid gids)) (sa_inv (SAddUser tok uid gids) d w) (sa_post (SAddUser tok uid gids) d w) w.
  Proof.
    intros H. apply (membership_wpc (SAddUser tok uid gids) tok uid gids (fun g => g ∪ list_to_set gids) (fun g => add_groups g gids) d w);
      [intros; reflexivity|intros Hx; exact Hx| | |exact H].
    - intros s. unfold add_groups. destruct gids; [|f_equal; f_equal; apply union_comm_L].
      f_equal. f_equal. cbn. apply set_eq. set_solver.
    - intros s A B. exact (list_to_set_valid s gids A B).
  Qed.
  Lemma remove_user_wpc tok uid gids d w : WR d w ->
    wpc (sa_aes e io k (SRemoveUser tok uid gids)) (sa_inv (SRemoveUser tok uid gids) d w) (sa_post (SRemoveUser tok uid gids) d w) w.
  Proof.
    intros H. apply (membership_wpc (SRemoveUser tok uid gids) tok uid gids (fun g => g ∖ list_to_set gids) (fun g => Ok (remove_groups g gids)) d w);
      [intros; reflexivity|intros Hx; exact Hx|reflexivity| |exact H].
    intros s A B x Hx. apply elem_of_difference in Hx as [Hx _]. auto.
  Qed.

  Lemma delete_user_wpc tok uid d w : WR d w ->
    wpc (sa_aes e io k (SDeleteUser tok uid)) (sa_inv (SDeleteUser tok uid) d w) (sa_post (SDeleteUser tok uid) d w) w.
  Proof.
    intros H. set (c := SDeleteUser tok uid). unfold sa_aes. cbn [sa_do]. apply wpc_ret_map. unfold sa_delete_user.
    apply (wpc_caller d); [exact H| | | | | |].
    - intros i. apply fmono_onio.
    - intros w' Hf Hstr. split; [left; auto|intros r; left; auto].
    - intros; now apply inv_same.
    - intros w' y Hw Hr. eapply post_step; [exact Hw|]. right. exists y. auto.
    - intros w' y HF Hy Hw. now apply post_fault.
    - intros i w1 (Hfl & m & Hm & R & Hs) D1 Hr.
      assert (OK : forall P, sa_step (surr w P) c d (Ok SRUnit) (set_users d (delete uid (d_users d)))).
      { intros P. left. exists i. auto. }
      assert (R' := srep_deluser k _ m d uid R).
      assert (A0 : forall w', holds m w' -> w_log w' = w_log w1 /\ w_forged w' = w_forged w1 -> WR d w') by (intros w' A [L G]; split; [congruence|]; exists m; rewrite L; auto).
      assert (A1 : forall w', holds (upd m uid SU None) w' -> w_log w' = w_log w1 /\ w_forged w' = w_forged w1 -> WR (set_users d (delete uid (d_users d))) w').
      { intros w' A [L G]; split; [congruence|]; exists (upd m uid SU None). rewrite L; auto. }
      eapply wpc_mono; [| |apply (io_delete_post F v io Hio uid SU w1 m ltac:(reflexivity) Hm)].
      + intros w' ([A|A] & K & _ & _ & G); [apply inv_same; auto|]. eapply inv_ok; [apply A1; eauto|apply OK].
      + intros r w' _ ([(-> & A)|((HF & x & -> & Hx) & [A|A])] & K & _ & _ & G).
        * eapply post_step; [apply A1; eauto|apply OK].
        * apply post_fault; auto.
        * eapply post_fault_ok; [exact HF|exact Hx|apply A1; eauto|apply OK].
  Qed.

  Lemma get_identity_wpc tok d w : WR d w ->
    wpc (sa_aes e io k (SGetIdentity tok)) (sa_inv (SGetIdentity tok) d w) (sa_post (SGetIdentity tok) d w) w.
  Proof.
    intros (Hfl & m & H & R & Hs). unfold sa_aes. cbn [sa_do]. apply wpc_ret_map.
    eapply wpc_mono; [| |apply (identity_post e F v io Hio k d tok w m Hc H R Hs)].
    - intros w' [A|(A & L & _ & G)]; [now left|]. apply inv_same. eapply WR_keep; eauto.
    - intros r w' _ [A|((A & L & _ & G) & C)]; [now left|]. assert (Hw : WR d w') by (eapply WR_keep; eauto).
      destruct C as [C|(HF & x & -> & Hx)]; [|now apply post_fault]. eapply post_step; [exact Hw|]. exists r. auto.
  Qed.

  Lemma new_group_wpc tok scopes d w : sa_call_wf (SNewGroup tok scopes) -> WR d w ->
    wpc (sa_aes e io k (SNewGroup tok scopes)) (sa_inv (SNewGroup tok scopes) d w) (sa_post (SNewGroup tok scopes) d w) w.
  Proof.
    intros Hwf H. set (c := SNewGroup tok scopes). unfold sa_aes. cbn [sa_do]. apply wpc_ret_map. unfold sa_new_group.
    apply (wpc_caller d); [exact H| | | | | |].
    - intros i. apply fmono_bindR; [apply fmono_new_v4|intros gid]. apply fmono_bindR; [apply fmono_put_group|intros _].
      apply fmono_bindR; [apply fmono_get_user|intros u]. apply fmono_bindR; [apply fmono_lift|intros gs].
      apply fmono_bindR; [apply fmono_put_user|intros _]. exact Logic.I.
    - intros w' Hf Hstr. split; [left; auto|intros r; left; auto].
    - intros; now apply inv_same.
    - intros w' y Hw Hr. eapply post_step; [exact Hw|]. right. exists y. auto.
    - intros w' y HF Hy Hw. now apply post_fault.
    - intros i w1 H1 D1 Hr. unfold new_v4. apply wpc_bindR, wpc_bindR.
      eapply wpc_mono; [| |apply (draw_WR d 16 w1 H1)]; [apply inv_same|].
      intros r w2 _ (H2 & D2 & [(b & E1 & _ & ->)|(-> & NE & RF)]).
      2:{ eapply post_step; [exact H2|]. left. exists i. split; [exact Hr|]. left. split; [exact RF|]. split; [reflexivity|]. split; [|reflexivity].
          intros (a & _ & _ & X & _). cbn [x_draw surr] in X. rewrite Nat.add_0_r, <- D1, NE in X. discriminate. }
      apply wpc_ret; [now apply inv_same|]. unfold new_group.
      set (gid := uuid_text (uuid_v4 b)). set (s := scope_union scopes).
      assert (X1 : forall P, x_draw (surr w P) 0 16 = Ok b). { intros P. cbn [x_draw surr]. rewrite Nat.add_0_r, <- D1. exact E1. }
      assert (X2 : all_of scopes s) by apply union_all_of.
      set (d1 := set_groups d (<[gid := s]> (d_groups d))).
      destruct (caller_user _ _ _ _ Hr) as (a & Ea & _).
      assert (ORPH : forall P, d_groups d !! gid = None -> sa_cut (surr w P) c d d1).
      { intros P N. right. right. exists tok, scopes, b, s, i. split; [reflexivity|]. split; [exact Hr|]. split; [apply X1|]. auto. }
      assert (BAD : forall P, d_groups d !! gid <> None -> sa_step (surr w P) c d (Err EIdGroupAlreadyExists) d).
      { intros P N. left. exists i. split; [exact Hr|]. right. right. exists b, s. split; [apply X1|]. split; [exact X2|]. cbn zeta. fold gid.
        destruct (d_groups d !! gid); [auto|congruence]. }
      assert (T3 : forall P, three_draws (surr w P) <-> enc_draws e (w_draws w2)).
      { intros P. unfold three_draws, enc_draws. cbn [x_draw surr]. rewrite D2, D1, Nat.add_0_r.
        replace (w_draws w + 1 + 1)%nat with (w_draws w + 2)%nat by lia. split.
        - intros (x & y & z & _ & Y & Z). eauto.
        - intros ([y Y] & [z Z]). exists b, y, z. rewrite <- D1 at 1. auto. }
      assert (RND : forall w', rng_failed e w' -> enc_draws e (w_draws w2) -> d_groups d !! gid = None -> sa_step (surr w (rng_failed e w')) c d (Err ERandom) d1).
      { intros w' RF ED N. left. exists i. split; [exact Hr|]. right. left. split; [exact RF|]. split; [reflexivity|]. split; [now apply T3|]. exists b, s.
        split; [apply X1|]. auto. }
      apply wpc_bindR. eapply wpc_mono; [| |apply (group_put d gid s w2 H2 (uuid_text_valid _) (union_lt _ Hwf))].
      { intros w' [A|[N A]]; [now apply inv_same|]. right. exists d1. split; [exact A|]. now apply ORPH. }
      intros r w3 _ [(-> & RF & NE & A)|[(N & -> & A)|[(N & -> & ED & H3)|((HF & x & -> & Hx) & A)]]].
      + eapply post_step; [exact A|]. left. exists i. split; [exact Hr|]. left. split; [exact RF|]. split; [reflexivity|]. split; [|reflexivity]. now rewrite T3.
      + eapply post_step; [exact A|]. now apply BAD.
      + assert (INV1 : forall w', WR d1 w' -> sa_inv c d w w') by (intros w' A; right; exists d1; auto).
        apply wpc_bindR. eapply wpc_mono; [| |apply (user_get d1 (i_id i) w3 H3)]; [exact INV1|].
        intros r w4 _ (H4 & _ & C). change (d_users d1) with (d_users d) in C. rewrite Ea in C.
        destruct C as [(a0 & E0 & Ha & ->)|[(E0 & _)|(HF & x & -> & Hx)]]; [|discriminate|].
        2:{ right. exists d1. split; [exact H4|]. right. split; [exact HF|]. split; [cbn; eauto|now apply ORPH]. }
        injection E0 as <-. cbn [u_groups u_hash u_scopes account_user add_groups].
        apply wpc_bindR, wpc_ret; [auto|].
        set (gs := list_to_set [gid] ∪ ac_groups a).
        assert (EG : gs = ac_groups a ∪ {[gid]}). { unfold gs. apply set_eq. set_solver. }
        set (a' := mkAccount (ac_scopes a) (ac_salt a) (ac_hash a) gs).
        assert (Ha' : account_ok (i_id i) a').
        { destruct Ha as (V1 & V2 & V3 & V4). split; [exact V1|]. split; [exact V2|]. split; [exact V3|].
          intros g Hg. unfold a' in Hg. cbn [ac_groups] in Hg. rewrite EG in Hg. apply elem_of_union in Hg as [Hg|Hg]; [auto|].
          apply elem_of_singleton in Hg as ->. apply uuid_text_valid. }
        assert (OK : forall P, sa_step (surr w P) c d (Ok (SRGroup gid)) (set_users d1 (<[i_id i := a']> (d_users d1)))).
        { intros P. left. exists i. split; [exact Hr|]. right. right. exists b, s. split; [apply X1|]. split; [exact X2|]. cbn zeta. fold gid.
          rewrite N. exists a. split; [exact Ea|]. split; [reflexivity|]. rewrite <- EG. reflexivity. }
        apply wpc_bindR. eapply wpc_mono; [| |apply (user_put d1 (i_id i) a' true w4 H4 Ha')].
        { intros w' [A|[_ A]]; [now apply INV1|]. eapply inv_ok; [exact A|apply OK]. }
        intros r w' _ [(-> & RF & NE & A)|[(N' & -> & A)|[(_ & -> & _ & A)|((HF & x & -> & Hx) & A)]]].
        * eapply post_step; [exact A|]. now apply RND.
        * exfalso. apply N'. change (d_users d1) with (d_users d). rewrite Ea. eauto.
        * apply wpc_ret; [eapply inv_ok; [exact A|apply OK]|]. eapply post_step; [exact A|apply OK].
        * destruct A as [A|[_ A]]; [|eapply post_fault_ok; [exact HF|exact Hx|exact A|apply OK]].
          right. exists d1. split; [exact A|]. right. split; [exact HF|]. split; [cbn; eauto|now apply ORPH].
      + destruct A as [A|[N A]]; [now apply post_fault|].
        right. exists d1. split; [exact A|]. right. split; [exact HF|]. split; [cbn; eauto|now apply ORPH].
  Qed.

  (** Every call. *)
  Lemma sa_wpc c d w : sa_call_wf c -> WR d w -> wpc (sa_aes e io k c) (sa_inv c d w) (sa_post c d w) w.
  Proof.
    intros Hwf H. destruct c;
      [now apply new_user_wpc|now apply login_wpc|now apply change_wpc|now apply add_user_wpc|now apply remove_user_wpc|
       now apply delete_user_wpc|now apply new_group_wpc|now apply get_identity_wpc].
  Qed.
  Lemma fmono_sa c : fmono (sa_aes e io k c : prog W _).
  Proof.
    assert (RM : forall A B (f : A -> B) (p : prog W (res A)), fmono p -> fmono (ret_map f p)) by (intros; unfold ret_map; apply fmono_bind; [assumption|intros; exact Logic.I]).
    assert (GI : forall tok, fmono (sa_get_identity e io uc gc tc tok : prog W _)).
    { intros tok. unfold sa_get_identity, any_err. apply fmono_bindR; [apply fmono_map_err, fmono_lift|intros st].
      apply fmono_bindR; [apply fmono_map_err; unfold token_unseal|intros t].
      - apply fmono_bind; [apply fmono_time|intros now]. destruct (time_before _ _); [exact Logic.I|]. destruct (enc_time _); [|exact Logic.I].
        apply fmono_bindR; [apply fmono_decrypt_json|intros; exact Logic.I].
      - apply fmono_bindR; [apply fmono_get_user|intros u]. apply fmono_bindR; [apply fmono_get_groups|intros; exact Logic.I]. }
    assert (GP : fmono (generate_password e : prog W _)).
    { unfold generate_password. apply fmono_bindR; [apply fmono_get_bytes|intros]. apply fmono_bindR; [apply fmono_get_bytes|intros; exact Logic.I]. }
    unfold sa_aes. destruct c; cbn [sa_do]; apply RM.
    - unfold sa_new_user, new_user. apply fmono_bindR; [apply fmono_new_v4|intros]. apply fmono_bindR; [apply fmono_bindR; [exact GP|intros [? ?]; exact Logic.I]|intros [? ?]].
      apply fmono_bindR; [apply fmono_put_user|intros; exact Logic.I].
    - unfold sa_login, any_err. apply fmono_map_err, fmono_bindR; [apply fmono_get_user|intros]. apply fmono_bindR; [apply fmono_lift|intros].
      apply fmono_bind; [unfold new_token; apply fmono_bind; [apply fmono_time|intros; exact Logic.I]|intros t].
      apply fmono_bindR; [unfold token_seal; destruct (enc_time _); [|exact Logic.I]; apply fmono_bindR; [apply fmono_encrypt_json|intros [? ?]; exact Logic.I]|intros].
      apply fmono_bindR; [apply fmono_lift|intros; exact Logic.I].
    - unfold sa_change_password, any_err, change_password. apply fmono_bindR; [apply fmono_map_err, fmono_get_user|intros].
      apply fmono_bindR; [apply fmono_map_err; apply fmono_bindR; [apply fmono_lift|intros]; apply fmono_bindR; [exact GP|intros [? ?]; exact Logic.I]|intros [? ?]].
      apply fmono_bindR; [apply fmono_put_user|intros; exact Logic.I].
    - unfold sa_add_user. apply fmono_bindR; [apply GI|intros]. destruct (negb _); [exact Logic.I|]. apply fmono_bindR; [apply fmono_get_user|intros].
      apply fmono_bindR; [apply fmono_lift|intros]. apply fmono_put_user.
    - unfold sa_remove_user. apply fmono_bindR; [apply GI|intros]. destruct (negb _); [exact Logic.I|]. apply fmono_bindR; [apply fmono_get_user|intros]. apply fmono_put_user.
    - unfold sa_delete_user. apply fmono_bindR; [apply GI|intros]. apply fmono_onio.
    - unfold sa_new_group. apply fmono_bindR; [apply GI|intros]. apply fmono_bindR; [apply fmono_new_v4|intros gid]. apply fmono_bindR; [apply fmono_put_group|intros _].
      apply fmono_bindR; [apply fmono_get_user|intros u]. apply fmono_bindR; [apply fmono_lift|intros gs].
      apply fmono_bindR; [apply fmono_put_user|intros _]. exact Logic.I.
    - apply GI.
  Qed.
End Refine.
