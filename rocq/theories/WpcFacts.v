(** More rules for programs: storage operations and encryption with the log and counters in view. *)
From Coq Require Import ZifyN ZifyNat.
From stdpp Require Import gmap.
From Verif Require Import Bytes Go Json JsonProofs Types TypesProofs World Logic Cryptor CryptorProofs IoSpec IoProofs Data D1 D1Proofs Sched D1Sched.
Local Open Scope bool_scope.
Local Open Scope N_scope.

Section Wpc.
  Context {S I : Type} (e : env) (F : Prop) (v : view S) (io : provider S) (Hio : io_spec F v io).
  Notation W := (world S I).
  Implicit Types (m : store) (w : W) (Inv : W -> Prop).
  Notation holds := (@holds S I v).

  (** Log, counters and flag unchanged. *)
  Definition keep w w' : Prop :=
    w_log w' = w_log w /\ w_draws w' = w_draws w /\ w_ticks w' = w_ticks w /\ w_forged w' = w_forged w.
  Lemma keep_refl w : keep w w.
  Proof. repeat split; auto. Qed.
  Lemma keep_trans a b c : keep a b -> keep b c -> keep a c.
  Proof. intros (A1 & A2 & A3 & A4) (B1 & B2 & B3 & B4). repeat split; congruence. Qed.

  Lemma wpc_io_keep {A} (p : prog S A) : forall w, wpc (on_io p) (keep w) (fun _ w' => keep w w') w.
  Proof.
    induction p as [a|X f k IH]; intros w; cbn [on_io wpc]; [split; apply keep_refl|].
    split; [apply keep_refl|]. destruct (f (w_io w)) as [x s]. cbn [fst snd].
    eapply wpc_mono; [| |apply (IH x (set_io w s))]; intros; exact H || exact H0.
  Qed.
  Lemma wpc_with_keep {A} (p : prog S A) Inv (Q : A -> W -> Prop) w :
    wpc (on_io p) Inv Q w -> wpc (on_io p) (fun w' => Inv w' /\ keep w w') (fun r w' => Q r w' /\ keep w w') w.
  Proof. intros H. apply wpc_and; [exact H|apply wpc_io_keep]. Qed.

  Definition failed {A} (r : res A) : Prop := F /\ exists x, r = Err x /\ fault x.

  Lemma io_get_post id dt w m : dt < 65536 -> holds m w ->
    wpc (on_io (io_get io id dt)) (fun w' => holds m w' /\ keep w w')
      (fun r w' => (holds m w' /\ (r = match m id dt with Some d => Ok d | None => Err EIoNotFound end \/ failed r)) /\ keep w w') w.
  Proof.
    intros Hdt H. apply wpc_with_keep. eapply (wpc_io_get F v io Hio id dt); [exact Hdt|exact H|auto|auto|].
    intros x w' HF Hx Hh. split; [exact Hh|]. right. split; [exact HF|eauto].
  Qed.
  Lemma io_put_post id dt d w m : dt < 65536 -> d <> [] -> holds m w ->
    let m' := upd m id dt (Some d) in
    wpc (on_io (io_put io id dt d)) (fun w' => (holds m w' \/ (m id dt = None /\ holds m' w')) /\ keep w w')
      (fun r w' => ((m id dt = None /\ r = Ok tt /\ holds m' w') \/
                    (m id dt <> None /\ r = Err EIoAlreadyExists /\ holds m w') \/
                    (failed r /\ (holds m w' \/ (m id dt = None /\ holds m' w')))) /\ keep w w') w.
  Proof.
    intros Hdt Hd H m'. apply wpc_with_keep. eapply (wpc_io_put F v io Hio id dt d); [exact Hdt|exact Hd|exact H|auto|auto|auto|auto|].
    intros x w' HF Hx Hh. right. right. split; [split; eauto|exact Hh].
  Qed.
  Lemma io_update_post id dt d w m : dt < 65536 -> d <> [] -> holds m w ->
    let m' := upd m id dt (Some d) in
    wpc (on_io (io_update io id dt d)) (fun w' => (holds m w' \/ (m id dt <> None /\ holds m' w')) /\ keep w w')
      (fun r w' => ((m id dt <> None /\ r = Ok tt /\ holds m' w') \/
                    (m id dt = None /\ r = Err EIoNotFound /\ holds m w') \/
                    (failed r /\ (holds m w' \/ (m id dt <> None /\ holds m' w')))) /\ keep w w') w.
  Proof.
    intros Hdt Hd H m'. apply wpc_with_keep. eapply (wpc_io_update F v io Hio id dt d); [exact Hdt|exact Hd|exact H|auto|auto|auto|auto|].
    intros x w' HF Hx Hh. right. right. split; [split; eauto|exact Hh].
  Qed.
  Lemma io_delete_post id dt w m : dt < 65536 -> holds m w ->
    let m' := upd m id dt None in
    wpc (on_io (io_delete io id dt)) (fun w' => (holds m w' \/ holds m' w') /\ keep w w')
      (fun r w' => ((r = Ok tt /\ holds m' w') \/ (failed r /\ (holds m w' \/ holds m' w'))) /\ keep w w') w.
  Proof.
    intros Hdt H m'. apply wpc_with_keep. eapply (wpc_io_delete F v io Hio id dt); [exact Hdt|exact H|auto|auto|auto|].
    intros x w' HF Hx Hh. right. split; [split; eauto|exact Hh].
  Qed.

  Lemma get_bytes_post n w m : holds m w ->
    wpc (get_bytes e n) (fun w' => holds m w' /\ w_log w' = w_log w /\ w_forged w' = w_forged w)
      (fun r w' => holds m w' /\ w_log w' = w_log w /\ w_ticks w' = w_ticks w /\ w_draws w' = (w_draws w + 1)%nat /\ w_forged w' = w_forged w /\
        ((exists b, draw e (w_draws w) n = Ok b /\ length b = N.to_nat n /\ r = Ok b) \/ (r = Err ERandom /\ draw e (w_draws w) n = Err ERandom /\ rng_failed e w'))) w.
  Proof.
    intros H. unfold get_bytes. apply wpc_act; cbn [fst snd].
    - repeat split; auto; apply H.
    - repeat split; auto; apply H.
    - repeat split; auto; try apply H. destruct (draw_cases e (w_draws w) n) as [(b & E & L)|E]; rewrite E; [left; eauto|right].
      split; [reflexivity|]. split; [reflexivity|]. exists n. cbn. now rewrite Nat.add_1_r.
  Qed.

  (** The two requests of one encryption to the random source both succeed. *)
  Definition enc_draws (n : nat) : Prop :=
    (exists a, draw e n 32 = Ok a) /\ exists b, draw e (n + 1) 12 = Ok b.
  (** Encryption: nothing is logged until it is complete. *)
  Lemma enc_post kek pt aad w m : holds m w ->
    wpc (aes_enc e kek pt aad)
      (fun w' => (holds m w' /\
         (w_log w' = w_log w \/ exists wk ct, aes_open kek aad wk ct = Ok pt /\ w_log w' = mkEntry kek aad wk ct pt :: w_log w)) /\ w_forged w' = w_forged w)
      (fun r w' => holds m w' /\ w_ticks w' = w_ticks w /\ w_forged w' = w_forged w /\
         ((exists wk ct, r = Ok (wk, ct) /\ aes_open kek aad wk ct = Ok pt /\ length wk = 40%nat /\ length ct = (length pt + 28)%nat /\
             w_log w' = mkEntry kek aad wk ct pt :: w_log w /\ w_draws w' = (w_draws w + 2)%nat /\ enc_draws (w_draws w)) \/
          (r = Err ERandom /\ w_log w' = w_log w /\ rng_failed e w' /\ ~ enc_draws (w_draws w)))) w.
  Proof.
    intros H. unfold aes_enc.
    apply wpc_bindR. eapply wpc_mono; [| |apply (get_bytes_post EncryptionKeyLength w m H)].
    { intros w' (Hh & Hl & Hf). auto. }
    intros r w1 _ (H1 & L1 & T1 & D1 & G1 & C1). destruct C1 as [(key & E1 & Lk & ->)|(-> & E1 & RF)].
    2:{ split; [exact H1|]. split; [exact T1|]. split; [exact G1|]. right. split; [reflexivity|]. split; [exact L1|]. split; [exact RF|].
        intros [[a Ha] _]. change EncryptionKeyLength with 32 in E1. congruence. }
    apply wpc_bindR. eapply wpc_mono; [| |apply (get_bytes_post (N.of_nat Gcm.nonceLength) w1 m H1)].
    { intros w' (Hh & Hl & Hf). split; [|congruence]. split; [exact Hh|]. left. congruence. }
    intros r w2 _ (H2 & L2 & T2 & D2 & G2 & C2). destruct C2 as [(nonce & E2 & Ln & ->)|(-> & E2 & RF)].
    2:{ split; [exact H2|]. split; [congruence|]. split; [congruence|]. right. split; [reflexivity|]. split; [congruence|]. split; [exact RF|].
        intros [_ [a Ha]]. rewrite D1 in E2. change (N.of_nat Gcm.nonceLength) with 12 in E2. congruence. }
    assert (ED : enc_draws (w_draws w)). { split; [exists key; exact E1|exists nonce; rewrite <- D1; exact E2]. }
    change (N.to_nat (N.of_nat Gcm.nonceLength)) with 12%nat in Ln.
    change (N.to_nat EncryptionKeyLength) with 32%nat in Lk.
    destruct (aes_seal_open kek pt aad key nonce Lk Ln) as (wk & ct & Hs & Ho & Hw & Hc).
    unfold aes_seal in Hs.
    destruct (Gcm.aes_gcm_encrypt pt aad key nonce) as [ct'| |] eqn:Ec; cbn [res_bind] in Hs; try discriminate.
    destruct (Kwp.aes_kwp_wrap kek key) as [wk'| |] eqn:Ew; cbn [res_bind] in Hs; try discriminate.
    injection Hs as -> ->.
    assert (LL : w_log w2 = w_log w) by congruence. assert (GG : w_forged w2 = w_forged w) by congruence.
    apply wpc_bindR, wpc_ret; [auto|]. apply wpc_bindR, wpc_ret; [auto|].
    assert (H3 : holds m (set_log w2 (mkEntry kek aad wk ct pt :: w_log w2))) by exact H2.
    apply wpc_bind, wpc_act; cbn [fst snd].
    - auto.
    - split; [|exact GG]. split; [exact H3|]. right. exists wk, ct. split; [exact Ho|]. cbn. now rewrite LL.
    - apply wpc_ret.
      + split; [|exact GG]. split; [exact H3|]. right. exists wk, ct. split; [exact Ho|]. cbn. now rewrite LL.
      + split; [exact H3|]. split; [cbn; congruence|]. split; [exact GG|]. left. exists wk, ct.
        split; [reflexivity|]. split; [exact Ho|]. split; [exact Hw|]. split; [exact Hc|]. split; [cbn; now rewrite LL|]. split; [cbn; lia|exact ED].
  Qed.

  (** This combination was produced by an encryption in the log. *)
  Definition logged (l : list entry) (kek aad wk ct : bytes) : Prop :=
    exists x, In x l /\ e_kek x = kek /\ e_aad x = aad /\ e_wk x = wk /\ e_ct x = ct.
  (** Decryption: what is accepted was logged, or the flag goes up. *)
  Lemma dec_post {A} kek (dec : json -> option A) aad wk ct w m : holds m w ->
    let lg := logged (w_log w) kek (print aad) (slice_bytes wk) (slice_bytes ct) in
    wpc (decrypt_json (aes_cryptor e kek) dec aad wk ct) (fun w' => holds m w' /\ w_log w' = w_log w /\ w_draws w' = w_draws w /\ (keep w w' \/ (w_forged w' = true /\ ~ lg)))
      (fun r w' => holds m w' /\ w_log w' = w_log w /\ w_draws w' = w_draws w /\ r = open_json kek dec aad wk ct /\
         ((keep w w' /\ ((exists a, r = Ok a) -> lg)) \/ (w_forged w' = true /\ ~ lg))) w.
  Proof.
    intros H lg. unfold decrypt_json. cbn [c_dec aes_cryptor]. apply wpc_bindR. unfold aes_dec.
    assert (LG : lg <-> existsb (entry_eqb kek (print aad) (slice_bytes wk) (slice_bytes ct)) (w_log w) = true).
    { rewrite existsb_exists. unfold lg, logged. split; intros (x & Hx & E); exists x; (split; [exact Hx|]).
      - unfold entry_eqb. destruct E as (-> & -> & -> & ->). now rewrite !(proj2 (bytes_eqb_eq _ _) eq_refl).
      - apply entry_eqb_true in E. destruct E as (E1 & E2 & E3 & E4). auto. }
    match goal with |- wpc (act ?f) _ _ _ => assert (FR : holds m (snd (f w)) /\ w_log (snd (f w)) = w_log w /\ w_draws (snd (f w)) = w_draws w) end.
    { cbn [snd]. destruct (_ && _); (split; [exact H|split; reflexivity]). }
    match goal with |- wpc (act ?f) _ _ _ => assert (KF : keep w (snd (f w)) \/ (w_forged (snd (f w)) = true /\ ~ lg)) end.
    { cbn [snd]. destruct (existsb _ (w_log w)); cbn [negb]; [rewrite Bool.andb_false_r; left; apply keep_refl|].
      rewrite Bool.andb_true_r. destruct (is_ok _); [right|left; apply keep_refl]. split; [reflexivity|]. rewrite LG. discriminate. }
    destruct FR as (FR1 & FR2 & FR3).
    apply wpc_act; [split; [exact H|split; [reflexivity|split; [reflexivity|left; apply keep_refl]]]|split; [exact FR1|split; [exact FR2|split; [exact FR3|exact KF]]]|].
    cbn [fst snd] in *. unfold open_json.
    destruct (aes_open kek (print aad) (slice_bytes wk) (slice_bytes ct)) as [pt| |] eqn:Eo; cbn [res_bind is_ok andb] in *.
    2-3: split; [exact FR1|]; split; [exact FR2|]; split; [exact FR3|]; split; [reflexivity|]; left; split; [apply keep_refl|]; intros [a Ha]; discriminate.
    destruct (unmarshal dec pt); (apply wpc_ret; [auto|]); (split; [exact FR1|]); (split; [exact FR2|]); (split; [exact FR3|]); (split; [reflexivity|]).
    - destruct (existsb _ (w_log w)); cbn [negb] in *; [left|right].
      + split; [apply keep_refl|]. intros _. now apply LG.
      + split; [reflexivity|]. rewrite LG. discriminate.
    - destruct (existsb _ (w_log w)); cbn [negb] in *; [left|right].
      + split; [apply keep_refl|]. intros _. now apply LG.
      + split; [reflexivity|]. rewrite LG. discriminate.
  Qed.

  (** Once the flag is up, it stays up. *)
  Lemma wpc_forged {A} (p : prog W A) w : fmono p -> w_forged w = true ->
    wpc p (fun w' => w_forged w' = true) (fun _ w' => w_forged w' = true) w.
  Proof.
    revert w. induction p as [a|X f k IH]; intros w H Hf; cbn [wpc]; [auto|].
    split; [exact Hf|]. cbn [fmono] in H. destruct (H w) as [H1 H2]. apply IH; auto.
  Qed.
End Wpc.
