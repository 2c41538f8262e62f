(** Cryptor: round trips and the effect of one encryption or decryption on the world. *)
From Coq Require Import ZifyN ZifyNat.
From Verif Require Import Bytes Go Json JsonProofs World Aes AesProofs Gcm GcmProofs Kwp KwpProofs Types Cryptor.
Local Open Scope bool_scope.
Local Open Scope N_scope.

Lemma aes_kwp_roundtrip kek data : MinWrapSize <= blen data -> blen data <= MaxWrapSize ->
  exists y, aes_kwp_wrap kek data = Ok y /\ blen y = wrappingSize (blen data) /\ aes_kwp_unwrap kek y = Ok data.
Proof.
  apply kwp_roundtrip; auto using aes_encrypt_length, aes_decrypt_length, aes_decrypt_encrypt, aes_encrypt_decrypt.
Qed.
Lemma aes_kwp_unwrap_canonical kek y k : aes_kwp_unwrap kek y = Ok k ->
  9 <= blen k /\ blen k <= MaxWrapSize /\ blen y = wrappingSize (blen k) /\
  computeW (aes_encrypt kek) (kwp_iv (blen k)) k = Ok y.
Proof.
  apply kwp_unwrap_canonical; auto using aes_encrypt_length, aes_decrypt_length, aes_decrypt_encrypt, aes_encrypt_decrypt.
Qed.

Lemma aes_gcm_total pt aad key nonce : length key = 32%nat -> exists ct, aes_gcm_encrypt pt aad key nonce = Ok ct.
Proof. intros H. unfold aes_gcm_encrypt. rewrite H. cbn. eauto. Qed.

(** Encryption with a given key and nonce. *)
Definition aes_seal (kek pt aad key nonce : bytes) : res (bytes * bytes) :=
  res_bind (aes_gcm_encrypt pt aad key nonce) (fun ct =>
  res_bind (aes_kwp_wrap kek key) (fun wk => Ok (wk, ct))).

Lemma aes_seal_open kek pt aad key nonce : length key = 32%nat -> length nonce = 12%nat ->
  exists wk ct, aes_seal kek pt aad key nonce = Ok (wk, ct) /\ aes_open kek aad wk ct = Ok pt /\
    length wk = 40%nat /\ length ct = (length pt + 28)%nat.
Proof.
  intros Hk Hn. destruct (aes_gcm_total pt aad key nonce Hk) as [ct Hct].
  destruct (aes_kwp_roundtrip kek key) as (wk & Hw & Hl & Hu).
  { unfold blen, MinWrapSize. rewrite Hk. cbn. lia. }
  { unfold blen, MaxWrapSize. rewrite Hk. cbn. lia. }
  exists wk, ct. unfold aes_seal, aes_open. rewrite Hct, Hw, Hu. cbn [res_bind].
  split; [reflexivity|]. split; [eapply aes_gcm_roundtrip; eauto|].
  split.
  - unfold blen in Hl. rewrite Hk in Hl. change (wrappingSize (N.of_nat 32)) with 40 in Hl. lia.
  - apply aes_gcm_encrypt_ok in Hct. lia.
Qed.

(** Everything accepted is a well-formed encryption of what is returned. *)
Lemma aes_open_inv kek aad wk ct pt : aes_open kek aad wk ct = Ok pt ->
  exists key nonce, length key = 32%nat /\ length nonce = 12%nat /\
    aes_kwp_unwrap kek wk = Ok key /\ aes_gcm_encrypt pt aad key nonce = Ok ct.
Proof.
  unfold aes_open. destruct (aes_kwp_unwrap kek wk) as [key| |] eqn:E; cbn [res_bind]; try discriminate.
  intros H. apply aes_gcm_decrypt_ok in H as (nonce & Hn & Hk & H). eauto 6.
Qed.

Section Run.
  Context {S I : Type} (e : env).
  Notation W := (world S I).

  Lemma run_on_io {A} (p : prog S A) (w : W) :
    run (on_io p) w = (fst (run p (w_io w)), set_io w (snd (run p (w_io w)))).
  Proof.
    revert w. induction p as [a|X f k IH]; intros w.
    - destruct w; reflexivity.
    - cbn [on_io run]. destruct (f (w_io w)) as [x s]. rewrite IH. cbn. destruct (run (k x) s). reflexivity.
  Qed.

  Lemma draw_length i n b : draw e i n = Ok b -> blen b = n.
  Proof. unfold draw. destruct (tape e i n); [|discriminate]. destruct (N.eqb_spec (blen b0) n); congruence. Qed.
  Lemma draw_cases i n : (exists b, draw e i n = Ok b /\ length b = N.to_nat n) \/ draw e i n = Err ERandom.
  Proof.
    unfold draw. destruct (tape e i n) as [b|]; [|now right].
    destruct (N.eqb_spec (blen b) n) as [H|H]; [left|now right].
    exists b. split; [reflexivity|]. unfold blen in H. lia.
  Qed.

  (** The parts of the world that encryption and decryption leave alone. *)
  Definition frame (w w' : W) : Prop := w_io w' = w_io w /\ w_id w' = w_id w /\ w_ticks w' = w_ticks w.
  Lemma frame_refl w : frame w w.
  Proof. repeat split. Qed.
  Lemma frame_trans a b c : frame a b -> frame b c -> frame a c.
  Proof. intros (A1 & A2 & A3) (B1 & B2 & B3). repeat split; congruence. Qed.

  Definition draws2 (k : nat) : bool :=
    is_ok (draw e k 32) && is_ok (draw e (k + 1) 12).

  Lemma aes_enc_run kek pt aad (w : W) :
    exists w', frame w w' /\
      if draws2 (w_draws w)
      then exists wk ct, run (aes_enc e kek pt aad) w = (Ok (wk, ct), w') /\
             aes_open kek aad wk ct = Ok pt /\ length wk = 40%nat /\ length ct = (length pt + 28)%nat /\
             w_draws w' = (w_draws w + 2)%nat /\
             w_log w' = mkEntry kek aad wk ct pt :: w_log w /\ w_forged w' = w_forged w
      else run (aes_enc e kek pt aad) w = (Err ERandom, w') /\ w_log w' = w_log w /\ w_forged w' = w_forged w.
  Proof.
    unfold aes_enc, get_bytes, draws2. rewrite run_bindR, run_act. cbn [w_draws set_draws].
    change (N.of_nat nonceLength) with 12. change EncryptionKeyLength with 32.
    destruct (draw_cases (w_draws w) 32) as [(key & Ek & Lk)|Ek]; rewrite Ek; cbn [is_ok andb].
    2:{ eexists. split; [|split; [reflexivity|split; reflexivity]]. repeat split. }
    rewrite run_bindR, run_act. cbn [w_draws set_draws].
    destruct (draw_cases (w_draws w + 1) 12) as [(nonce & En & Ln)|En]; rewrite En; cbn [is_ok].
    2:{ eexists. split; [|split; [reflexivity|split; reflexivity]]. repeat split. }
    destruct (aes_seal_open kek pt aad key nonce Lk Ln) as (wk & ct & Hs & Ho & Lw & Lc).
    unfold aes_seal in Hs.
    destruct (aes_gcm_encrypt pt aad key nonce) as [ct'| |] eqn:Ec; cbn [res_bind] in Hs; try discriminate.
    destruct (aes_kwp_wrap kek key) as [wk'| |] eqn:Ew; cbn [res_bind] in Hs; try discriminate.
    injection Hs as -> ->.
    rewrite run_bindR, run_lift, run_bindR, run_lift, run_bind, run_act, run_ret.
    eexists. split; [|exists wk, ct; split; [reflexivity|]]; [repeat split|].
    repeat split; auto. cbn. lia.
  Qed.

  Lemma aes_dec_run kek aad wk ct (w : W) :
    exists w', run (aes_dec kek aad wk ct) w = (aes_open kek aad wk ct, w') /\ frame w w' /\
      w_draws w' = w_draws w /\ w_log w' = w_log w /\
      (w_forged w = true -> w_forged w' = true).
  Proof.
    unfold aes_dec. rewrite run_act.
    destruct (_ && _); eexists; (split; [reflexivity|]); repeat split; auto.
  Qed.

  Lemma entry_eqb_true kek aad wk ct x : entry_eqb kek aad wk ct x = true <->
    e_kek x = kek /\ e_aad x = aad /\ e_wk x = wk /\ e_ct x = ct.
  Proof.
    unfold entry_eqb. rewrite !Bool.andb_true_iff, !bytes_eqb_eq. intuition congruence.
  Qed.

  (** decrypt_json over the AES cryptor. *)
  Definition open_json {A} (kek : bytes) (dec : json -> option A) (aad : json) (wk ct : gslice) : res A :=
    res_bind (aes_open kek (print aad) (slice_bytes wk) (slice_bytes ct)) (fun pt =>
      match unmarshal dec pt with Some a => Ok a | None => Err EJson end).
  Lemma decrypt_json_run {A} kek (dec : json -> option A) aad wk ct (w : W) :
    exists w', run (decrypt_json (aes_cryptor e kek) dec aad wk ct) w = (open_json kek dec aad wk ct, w') /\
      frame w w' /\ w_draws w' = w_draws w /\ w_log w' = w_log w /\ (w_forged w = true -> w_forged w' = true).
  Proof.
    unfold decrypt_json, open_json. rewrite run_bindR. cbn [c_dec aes_cryptor].
    destruct (aes_dec_run kek (print aad) (slice_bytes wk) (slice_bytes ct) w) as (w' & -> & F).
    destruct (aes_open _ _ _ _) as [pt| |]; cbn [res_bind]; [|exists w'; split; [reflexivity|exact F]..].
    destruct (unmarshal dec pt); exists w'; (split; [reflexivity|exact F]).
  Qed.
End Run.

(** ** Errors of decryption *)
Definition crypto_err (x : err) : Prop :=
  match x with
  | EAesKeyLength | EAesCiphertextLength | EAesAuth
  | EKwpParams | EKwpDataSize | EKwpTooSmall | EKwpTooLarge | EKwpIntegrity
  | EKwpWrappedTooSmall | EKwpWrappedTooLarge | EKwpNotMultiple => True
  | _ => False
  end.
Lemma aes_open_total kek aad wk ct :
  (exists pt, aes_open kek aad wk ct = Ok pt) \/ exists x, aes_open kek aad wk ct = Err x /\ crypto_err x.
Proof.
  unfold aes_open, aes_kwp_unwrap.
  rewrite (kwp_unwrap_eq (aes_encrypt kek)) by auto using aes_encrypt_length, aes_decrypt_length, aes_decrypt_encrypt, aes_encrypt_decrypt.
  unfold invertW.
  assert (HG : forall key, (exists pt, aes_gcm_decrypt ct aad key = Ok pt) \/ exists x, aes_gcm_decrypt ct aad key = Err x /\ crypto_err x).
  { intros key. rewrite aes_gcm_decrypt_eq. cbn zeta. repeat match goal with
          | |- context [if ?c then _ else _] => destruct c
          | |- context [match ?c with Some _ => _ | None => _ end] => destruct c
          end; eauto; right; eexists; (split; [reflexivity|exact Logic.I]). }
  repeat (match goal with
          | |- context [if ?c then _ else _] => destruct c
          | |- context [match ?c with Some _ => _ | None => _ end] => destruct c
          | |- context [let '(_, _) := ?c in _] => destruct c
          end; cbn [res_bind]); eauto; right; eexists; (split; [reflexivity|exact Logic.I]).
Qed.
Definition json_err (x : err) : Prop := crypto_err x \/ x = EJson.
Lemma open_json_total {A} kek (dec : json -> option A) aad wk ct :
  (exists a, open_json kek dec aad wk ct = Ok a) \/ exists x, open_json kek dec aad wk ct = Err x /\ json_err x.
Proof.
  unfold open_json. destruct (aes_open_total kek (print aad) (slice_bytes wk) (slice_bytes ct)) as [[pt ->]|(x & -> & H)]; cbn [res_bind].
  - destruct (unmarshal dec pt); [eauto|]. right. exists EJson. unfold json_err. auto.
  - right. exists x. unfold json_err. auto.
Qed.
