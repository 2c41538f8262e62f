(** Proofs about encryption and decryption in place. *)
From Coq Require Import ZifyN ZifyNat.
From stdpp Require Import gmap list.
From Verif Require Import Bytes Go World Logic Aes AesProofs Gcm GcmProofs Kwp Cryptor CryptorProofs CryptoFacts Sched Slices SlicesSpec SlicesProofs.
Local Open Scope bool_scope.
Local Open Scope nat_scope.
Local Ltac splits := repeat match goal with |- _ /\ _ => split end.

Lemma contents_write {A} (h : list (list A)) s i xs : sl_ok h s -> i + length xs <= sl_len s ->
  contents (sl_write h s i xs) s = write_at (contents h s) i xs.
Proof.
  intros Hs Hl. destruct xs as [|x xs].
  - unfold sl_write. replace (alter _ _ h) with h; [unfold write_at; cbn [length app]; rewrite Nat.add_0_r; symmetry; apply firstn_skipn|].
    apply list_eq. intros a. destruct (decide (a = sl_arr s)) as [->|N]; [|now rewrite list_lookup_alter_ne by auto].
    rewrite list_lookup_alter. destruct (h !! sl_arr s); [|reflexivity]. cbn. f_equal. unfold write_at. cbn [length app].
    rewrite Nat.add_0_r. symmetry. apply firstn_skipn.
  - pose proof Hs as [H1 H2]. assert (La : sl_arr s < length h) by (apply ok_arr; [exact Hs|cbn in Hl; lia]).
    assert (Lc : length (contents h s) = sl_len s) by now apply contents_length.
    apply list_eq. intros j. destruct (decide (j < sl_len s)) as [Lj|Lj].
    + rewrite contents_lookup by exact Lj. rewrite cells_write by exact La.
      destruct (decide (i <= j < i + length (x :: xs))) as [C|C].
      * unfold write_at. remember (x :: xs) as ys. rewrite (lookup_app_r (firstn (sl_off s + i) _)) by (rewrite firstn_length; lia).
        rewrite firstn_length_le by lia. rewrite (lookup_app_r (firstn i _)) by (rewrite firstn_length; lia). rewrite firstn_length_le by lia.
        rewrite !lookup_app_l by lia. f_equal. lia.
      * rewrite !write_at_out by lia. symmetry. now apply contents_lookup.
    + rewrite !lookup_ge_None_2; [reflexivity|rewrite write_at_length; lia|].
      rewrite contents_length; [lia|]. eapply oc_ok; [|exact Hs]. apply oc_write. lia.
Qed.
Lemma contents_to {A} (h : list (list A)) s n : n <= sl_len s -> contents h (sl_to s n) = firstn n (contents h s).
Proof. intros H. unfold contents, sl_to. cbn [sl_arr sl_off sl_len]. rewrite firstn_firstn. f_equal. lia. Qed.
Lemma to_ok {A} (h : list (list A)) s n : n <= sl_cap s -> sl_ok h s -> sl_ok h (sl_to s n).
Proof. intros H [H1 H2]. split; cbn; lia. Qed.

Section Aead.
  Context {S I : Type} (e : env) (room : nat -> list byte) (spoil : list byte -> list byte).
  Notation W := (world S I).
  Notation H := (list (list byte)).

  Lemma get_bytes_length n (w : W) b w' : run (get_bytes e n) w = (Ok b, w') -> length b = N.to_nat n.
  Proof.
    cbn. unfold draw. destruct (tape e _ n) as [t|]; [|discriminate]. destruct (N.eqb_spec (blen t) n) as [E|E]; [|discriminate].
    intros [= <- <-]. unfold blen in E. lia.
  Qed.

  Lemma encrypt_in_place pt aad key (h : H) (w : W) r h' w' : sl_ok h pt -> sl_ok h aad -> sl_ok h key -> clear_of pt aad -> clear_of pt key ->
    run (aead_encrypt_s e room pt aad key) (h, w) = (r, (h', w')) ->
    run (aead_encrypt e (contents h pt) (contents h aad) (contents h key)) w = (res_map (contents h') r, w') /\
    only_changed (in_place pt) h h' /\
    (forall s, r = Ok s -> sl_ok h' s /\ (sl_arr s = sl_arr pt \/ length h <= sl_arr s) /\ 0 < sl_cap s).
  Proof.
    intros Hp Ha Hk Ca Ck. unfold aead_encrypt_s, aead_encrypt. rewrite run_bind, run_on_fst. unfold act. cbn [run fst snd].
    destruct (Nat.eqb (length (contents h key)) keyLength) eqn:Ek; cbn [negb run].
    2:{ intros [= <- <- <-]. split; [reflexivity|]. split; [apply oc_refl|]. discriminate. }
    rewrite run_bind, run_on_fst. cbn [run].
    destruct (sl_append (room (sl_len pt + Overhead)) h pt (zeros Overhead)) as [ct h1] eqn:E1. cbn [fst snd].
    destruct (append_contents _ _ _ _ _ _ Hp E1) as [Ec1 Hc1]. pose proof (oc_append _ _ _ _ _ _ Hp E1) as O1.
    assert (Lz : length (zeros Overhead) = Overhead) by reflexivity. rewrite Lz in O1.
    assert (O1' : only_changed (in_place pt) h h1).
    { eapply oc_weaken; [exact O1|]. cbn beta. unfold in_place. intros a i _ H. lia. }
    unfold bindR. rewrite !run_bind, run_on_snd. destruct (run (get_bytes e (N.of_nat nonceLength)) w) as [[nonce|x|] w1] eqn:En; cbn [fst snd run];
      [|intros [= <- <- <-]; split; [reflexivity|]; split; [exact O1'|discriminate]..].
    assert (Ln : length nonce = 12) by (rewrite (get_bytes_length _ _ _ _ En); reflexivity).
    rewrite !run_bind, !run_on_fst. cbn [run fst snd]. rewrite !run_bind, !run_on_fst. cbn [run fst snd].
    intros [= <- <- <-].
    (* the ciphertext slice *)
    assert (Lct : sl_len ct = sl_len pt + Overhead).
    { rewrite <- (contents_length h1 ct Hc1), Ec1, app_length, Lz, (contents_length h pt Hp). reflexivity. }
    pose proof Hc1 as [K1 K2]. unfold Overhead, tagLength in *.
    assert (Ho : forall i xs (hx : H), only_changed (in_place pt) h hx -> sl_ok hx ct -> i + length xs <= sl_len pt + 28 -> only_changed (in_place pt) h (sl_write hx ct i xs)).
    { intros i xs hx Hx Hcx Hl. destruct Hcx as [B1 B2]. destruct (oc_write hx ct i xs ltac:(lia)) as [Lw Hw]. destruct Hx as [Lx Hx].
      split; [lia|]. intros a Hla. destruct (Hx a Hla) as [X1 X2]. destruct (Hw a ltac:(lia)) as [Y1 Y2]. split; [congruence|].
      intros j Hj. rewrite Y2; [now apply X2|]. intros [-> C]. apply Hj. clear Hj X1 X2 Y1 Y2 Hw Hx.
      unfold sl_append in E1. change (length (zeros 28)) with 28 in E1. destruct (Nat.leb_spec (sl_len pt + 28) (sl_cap pt)) as [Q|Q].
      - injection E1 as <- <-. cbn [sl_arr sl_off] in *. unfold in_place, Overhead. lia.
      - unfold sl_make in E1. injection E1 as <- <-. cbn [sl_arr] in *. lia. }
    set (h2 := sl_write h1 ct (sl_len pt + 16) nonce). assert (O2 : only_changed (in_place pt) h h2) by (apply Ho; [exact O1'|exact Hc1|lia]).
    assert (Hc2 : sl_ok h2 ct) by (eapply oc_ok; [apply oc_write; lia|exact Hc1]).
    assert (Ec2 : contents h2 ct = write_at (contents h pt ++ zeros 28) (sl_len pt + 16) nonce) by (unfold h2; rewrite contents_write by (auto; lia); now rewrite Ec1).
    assert (Lp : length (contents h pt) = sl_len pt) by now apply contents_length.
    assert (Ed : contents h2 (sl_to ct (sl_len pt)) = contents h pt).
    { rewrite contents_to by lia. rewrite Ec2. unfold write_at. rewrite firstn_app, firstn_firstn. rewrite firstn_length_le by (rewrite app_length; change (length (zeros 28)) with 28; lia).
      replace (sl_len pt - (sl_len pt + 16)) with 0 by lia. cbn [firstn]. rewrite firstn_O, app_nil_r. replace (Nat.min _ _) with (sl_len pt) by lia. now apply firstn_len. }
    rewrite Ed. rewrite (oc_contents _ _ _ aad O2 Ha Ca), (oc_contents _ _ _ key O2 Hk Ck).
    set (sealed := gcm_seal (aes_encrypt (contents h key)) nonce (contents h aad) (contents h pt)).
    assert (Ls : length sealed = sl_len pt + 16) by (unfold sealed; rewrite gcm_seal_length by (intros; apply aes_encrypt_length); lia).
    change (sl_write h2 (sl_to ct (sl_len pt)) 0 sealed) with (sl_write h2 ct 0 sealed).
    split; [|split].
    - unfold lift, aes_gcm_encrypt. rewrite Ek. cbn [negb run res_map]. f_equal. f_equal. fold sealed.
      rewrite contents_write by (auto; lia). rewrite Ec2. unfold write_at at 1. cbn [firstn app]. rewrite firstn_O. cbn [app]. f_equal.
      rewrite Ls. cbn [Nat.add]. unfold write_at. rewrite skipn_app. rewrite firstn_length_le by (rewrite app_length; change (length (zeros 28)) with 28; lia).
      rewrite (skipn_all2 (firstn _ _)) by (rewrite firstn_length; lia). rewrite Nat.sub_diag, drop_0. cbn [app].
      rewrite skipn_all2 by (rewrite app_length; change (length (zeros 28)) with 28; lia). symmetry. apply app_nil_r.
    - apply Ho; [exact O2|exact Hc2|lia].
    - intros s [= <-]. splits; [eapply oc_ok; [apply oc_write|exact Hc2]; destruct Hc2; lia| |lia].
      unfold sl_append in E1. destruct (Nat.leb _ _); [injection E1 as <- <-; left; reflexivity|].
      unfold sl_make in E1. injection E1 as <- <-. right. reflexivity.
  Qed.

  Lemma decrypt_in_place ct aad key (h : H) (w : W) r h' w' : sl_ok h ct ->
    run (aead_decrypt_s spoil ct aad key) (h, w) = (r, (h', w')) ->
    res_map (contents h') r = aes_gcm_decrypt (contents h ct) (contents h aad) (contents h key) /\ w' = w /\
    only_changed (fun a i => a = sl_arr ct /\ sl_off ct <= i < sl_off ct + sl_cap ct) h h' /\
    (forall s, r = Ok s -> sl_arr s = sl_arr ct).
  Proof.
    intros Hc. unfold aead_decrypt_s. rewrite run_bind, run_on_fst. unfold act. cbn [run fst snd]. rewrite aes_gcm_decrypt_eq.
    destruct (Nat.eqb (length (contents h key)) keyLength) eqn:Ek; cbn [negb run].
    2:{ intros [= <- <- <-]. splits; auto using oc_refl. discriminate. }
    rewrite (contents_length h ct Hc). destruct (Nat.ltb_spec (sl_len ct) Overhead) as [Q|Q]; cbn [run].
    { intros [= <- <- <-]. splits; auto using oc_refl. discriminate. }
    unfold Overhead, nonceLength in *. rewrite run_bind, run_on_fst. cbn [run]. cbv zeta.
    rewrite contents_to by lia. pose proof Hc as [K1 K2].
    destruct (gcm_open _ _ _ _) as [p|] eqn:Eo; cbn [fst snd run].
    - pose proof (gcm_seal_open _ (fun b => aes_encrypt_length (contents h key) b) _ _ _ _ Eo) as Es.
      apply (f_equal (@length byte)) in Es. rewrite gcm_seal_length in Es by (intros; apply aes_encrypt_length).
      rewrite firstn_length, (contents_length h ct Hc) in Es. assert (Lp : length p = sl_len ct - 28) by lia.
      intros [= <- <- <-]. change (sl_write h (sl_to ct (sl_len ct - 12)) 0 p) with (sl_write h ct 0 p). splits.
      + cbn [res_map]. rewrite contents_to by lia. rewrite contents_write by (auto; lia). f_equal. unfold write_at. rewrite firstn_O. cbn [app]. now apply firstn_len.
      + reflexivity.
      + eapply oc_weaken; [apply oc_write; lia|]. cbn beta. lia.
      + intros s [= <-]. reflexivity.
    - intros [= <- <- <-]. match goal with |- context [sl_write h _ 0 ?xs] => set (X := xs) end.
      assert (LX : length X <= sl_cap ct) by (unfold X; rewrite firstn_length; lia).
      change (sl_write h (sl_to ct (sl_len ct - 12)) 0 X) with (sl_write h ct 0 X). splits; [reflexivity|reflexivity| |discriminate].
      eapply oc_weaken; [apply oc_write; lia|]. cbn beta. lia.
  Qed.

  (** Cryptor.Decrypt. *)
  Lemma ext_contents (h x : H) s : sl_ok h s -> contents (h ++ x) s = contents h s.
  Proof. intros Hs. eapply oc_contents; [apply (oc_ext (fun _ _ => False))|exact Hs|auto]. Qed.
  Lemma ext_ok (h x : H) s : sl_ok h s -> sl_ok (h ++ x) s.
  Proof. intros Hs. eapply oc_ok; [apply (oc_ext (fun _ _ => False))|exact Hs]. Qed.
  Lemma cryptor_decrypt_alone kek aad wk ct (h : H) (w : W) r h' w' : sl_ok h wk -> sl_ok h ct ->
    run (cryptor_decrypt_s room spoil kek aad wk ct) (h, w) = (r, (h', w')) ->
    r = aes_open kek aad (contents h wk) (contents h ct) /\ w' = w /\ unchanged h h'.
  Proof.
    intros Hw Hc. unfold cryptor_decrypt_s, bindR, aes_open. rewrite run_bind, run_on_fst. unfold act. cbn [run fst snd].
    destruct (aes_kwp_unwrap kek (contents h wk)) as [key|x|]; cbn [run res_bind]; [|intros [= <- <- <-]; splits; auto using oc_refl; apply oc_refl..].
    rewrite !run_bind, run_on_fst. cbn [run]. destruct (sl_make h key (room (length key))) as [ks h1] eqn:E1. cbn [fst snd].
    rewrite !run_bind, run_on_fst. cbn [run]. destruct (sl_make h1 aad (room (length aad))) as [ad h2] eqn:E2. cbn [fst snd].
    rewrite !run_bind, run_on_fst. cbn [run]. destruct (sl_make h2 (contents h2 ct) []) as [copy h3] eqn:E3. cbn [fst snd].
    assert (L1 : h1 = h ++ [key ++ room (length key)]) by (unfold sl_make in E1; congruence).
    assert (L2 : h2 = h1 ++ [aad ++ room (length aad)]) by (unfold sl_make in E2; congruence).
    assert (L3 : h3 = h2 ++ [contents h2 ct ++ []]) by (unfold sl_make in E3; congruence).
    apply make_contents in E1 as (C1 & K1 & A1). apply make_contents in E2 as (C2 & K2 & A2). apply make_contents in E3 as (C3 & K3 & A3).
    assert (Ek : contents h3 ks = key) by (rewrite L3, ext_contents by (rewrite L2; now apply ext_ok); rewrite L2, ext_contents; auto).
    assert (Ea : contents h3 ad = aad) by (rewrite L3, ext_contents; auto).
    assert (Et : contents h3 copy = contents h ct) by (rewrite C3, L2, ext_contents by (rewrite L1; now apply ext_ok); rewrite L1, ext_contents; auto).
    assert (U : unchanged h h3) by (rewrite L3, L2, L1, <- !app_assoc; apply oc_ext).
    assert (Lh : length h < length h2) by (rewrite L2, L1, !app_length; cbn; lia).
    rewrite !run_bind. destruct (run (aead_decrypt_s spoil copy ad ks) (h3, w)) as [r0 [h4 w4]] eqn:Er.
    destruct (decrypt_in_place _ _ _ _ _ _ _ _ K3 Er) as (R1 & -> & R3 & _). rewrite Ek, Ea, Et in R1.
    assert (U4 : unchanged h h4).
    { eapply oc_then; [exact U|exact R3|]. cbn beta. intros a i La [-> _]. rewrite A3 in La. lia. }
    destruct r0 as [out|x|]; cbn [run res_map] in R1 |- *.
    - rewrite run_bind, run_on_fst. cbn [run fst snd]. intros [= <- <- <-]. auto.
    - intros [= <- <- <-]. auto.
    - intros [= <- <- <-]. auto.
  Qed.

  (** Cryptor.Encrypt: as [aes_enc], which also records the encryption in the ghost log. *)
  Lemma cryptor_encrypt_alone kek pt aad (h : H) (w : W) r h' w' :
    run (cryptor_encrypt_s e room kek pt aad) (h, w) = (r, (h', w')) ->
    (exists l, run (aes_enc e kek pt aad) w = (res_map (fun '(wk, ct) => (contents h' wk, contents h' ct)) r, set_log w' l)) /\
    unchanged h h' /\ (forall wk ct, r = Ok (wk, ct) -> length h <= sl_arr wk /\ length h <= sl_arr ct /\ sl_arr wk <> sl_arr ct).
  Proof.
    unfold cryptor_encrypt_s, aes_enc, bindR. rewrite !run_bind, run_on_fst. unfold act. cbn [run].
    destruct (sl_make h pt (room (length pt))) as [ps h1] eqn:E1. cbn [fst snd].
    rewrite !run_bind, run_on_fst. cbn [run]. destruct (sl_make h1 aad (room (length aad))) as [ad h2] eqn:E2. cbn [fst snd].
    assert (L1 : h1 = h ++ [pt ++ room (length pt)]) by (unfold sl_make in E1; congruence).
    assert (L2 : h2 = h1 ++ [aad ++ room (length aad)]) by (unfold sl_make in E2; congruence).
    apply make_contents in E1 as (C1 & K1 & A1). apply make_contents in E2 as (C2 & K2 & A2).
    assert (U2 : unchanged h h2) by (rewrite L2, L1, <- !app_assoc; apply oc_ext).
    assert (NL : forall (w : W), set_log w (w_log w) = w) by (intros []; reflexivity).
    rewrite !run_bind, run_on_snd. destruct (run (get_bytes e EncryptionKeyLength) w) as [[key|x|] w1] eqn:E3; cbn [fst snd run];
      [|intros [= <- <- <-]; split; [exists (w_log w1); now rewrite NL|]; split; [exact U2|discriminate]..].
    pose proof (get_bytes_length _ _ _ _ E3) as Lk. change (N.to_nat EncryptionKeyLength) with 32 in Lk.
    rewrite !run_bind, run_on_fst. cbn [run]. destruct (sl_make h2 key (room (length key))) as [ks h3] eqn:E4. cbn [fst snd].
    assert (L3 : h3 = h2 ++ [key ++ room (length key)]) by (unfold sl_make in E4; congruence).
    apply make_contents in E4 as (C4 & K4 & A4).
    assert (Kp : sl_ok h3 ps) by (rewrite L3, L2; now apply ext_ok, ext_ok).
    assert (Ka : sl_ok h3 ad) by (rewrite L3; now apply ext_ok).
    assert (Ep : contents h3 ps = pt) by (rewrite L3, ext_contents by (rewrite L2; now apply ext_ok); rewrite L2, ext_contents; auto).
    assert (Ea : contents h3 ad = aad) by (rewrite L3, ext_contents; auto).
    assert (U3 : unchanged h h3) by (rewrite L3; eapply oc_trans; [exact U2|apply oc_ext]).
    assert (Lh1 : length h1 = length h + 1) by (rewrite L1, app_length; reflexivity).
    assert (Lh2 : length h2 = length h + 2) by (rewrite L2, app_length, Lh1; cbn; lia).
    rewrite !run_bind. destruct (run (aead_encrypt_s e room ps ad ks) (h3, w1)) as [r0 [h4 w4]] eqn:Er.
    assert (Da : clear_of ps ad) by (intros i _ [Q _]; lia). assert (Dk : clear_of ps ks) by (intros i _ [Q _]; lia).
    destruct (encrypt_in_place _ _ _ _ _ _ _ _ Kp Ka K4 Da Dk Er) as (R1 & R2 & R3). rewrite Ep, Ea, C4 in R1.
    assert (U4 : unchanged h h4).
    { eapply oc_then; [exact U3|exact R2|]. intros a i La [Q _]. lia. }
    unfold aead_encrypt in R1. destruct (Nat.eqb_spec (length key) keyLength) as [_|Q]; [|contradiction]. cbn [negb] in R1.
    unfold bindR in R1. rewrite run_bind in R1.
    destruct (run (get_bytes e (N.of_nat nonceLength)) w1) as [[nonce|x|] w5] eqn:E5; cbn [run] in R1 |- *.
    2, 3: destruct r0 as [s|y|]; try discriminate; cbn [res_map] in R1; injection R1; clear R1; intros; subst; cbn [run] in *;
      match goal with Hq : (_, (_, _)) = (_, (_, _)) |- _ => injection Hq; clear Hq; intros; subst end;
      split; [exists (w_log w'); now rewrite NL|]; split; [exact U4|discriminate].
    unfold lift in *. cbn [run bind] in R1 |- *. unfold aes_gcm_encrypt in R1 |- *. destruct (Nat.eqb_spec (length key) keyLength) as [_|Q]; [|contradiction]. cbn [negb] in R1 |- *.
    destruct r0 as [ct| |]; try discriminate. cbn [res_map] in R1.
    assert (Ect : gcm_seal (aes_encrypt key) nonce aad pt ++ nonce = contents h4 ct) by congruence.
    assert (Ew : w5 = w4) by congruence. clear R1. subst w5. rewrite Ect. clear Ect.
    destruct (R3 ct eq_refl) as (Kc & Hca & Hcc).
    assert (Lc : sl_arr ct < length h4) by now apply ok_arr.
    rewrite run_bind, run_on_fst. cbn [run fst snd bind].
    rewrite (oc_contents _ _ _ ks R2 K4 Dk), C4.
    destruct (aes_kwp_wrap kek key) as [wk|x|]; cbn [run];
      [|intros [= <- <- <-]; split; [exists (w_log w4); now rewrite NL|]; split; [exact U4|discriminate]..].
    rewrite run_bind, run_on_fst. cbn [run]. destruct (sl_make h4 wk (room (length wk))) as [ws h5] eqn:E6. cbn [fst snd run]. intros [= <- <- <-].
    assert (L5 : h5 = h4 ++ [wk ++ room (length wk)]) by (unfold sl_make in E6; congruence).
    apply make_contents in E6 as (C6 & _ & A6). split; [|split].
    - eexists. cbn [res_map]. rewrite C6, L5, ext_contents by exact Kc. reflexivity.
    - rewrite L5. eapply oc_trans; [exact U4|apply oc_ext].
    - intros wk0 ct0 [= <- <-]. destruct U4 as [U4 _]. destruct U3 as [U3 _]. destruct Hca; lia.
  Qed.
End Aead.

(** Many at once. *)
Section Conc.
  Context {S I : Type} (e : env) (room : nat -> list byte) (spoil : list byte -> list byte).
  Notation W := (world S I).
  Notation H := (list (list byte)).

  Definition known (O F : nat -> Prop) (h : H) (s : slice) (l : list byte) : Prop :=
    contents h s = l /\ (0 < sl_len s -> sl_arr s < length h /\ (O (sl_arr s) \/ F (sl_arr s))).
  Lemma known_rely O F h s l h' : known O F h s l -> rely O F h h' -> known O F h' s l.
  Proof.
    intros [E K] [L R]. destruct (decide (0 < sl_len s)) as [P|P].
    - destruct (K P) as [La HO]. split; [|intros _; split; [lia|exact HO]]. rewrite <- E. apply contents_cells. now apply R.
    - split; [|lia]. rewrite <- E. unfold contents. now replace (sl_len s) with 0 by lia.
  Qed.
  Lemma known_ext O F h s l x : known O F h s l -> known (more O h (h ++ x)) F (h ++ x) s l.
  Proof.
    intros [E K]. destruct (decide (0 < sl_len s)) as [P|P].
    - destruct (K P) as [La HO]. split; [rewrite <- E; apply contents_cells; now apply cells_app|]. intros _. rewrite app_length. split; [lia|].
      destruct HO; [left; left; assumption|right; assumption].
    - split; [|lia]. rewrite <- E. unfold contents. now replace (sl_len s) with 0 by lia.
  Qed.
  Lemma known_same O F h s l : known O F h s l -> known (more O h h) F h s l.
  Proof. intros [E K]. split; [exact E|]. intros P. destruct (K P) as [La [HO|HO]]; split; auto. left. now left. Qed.
  Lemma known_new O F h l spare : let '(s, h') := sl_make h l spare in known (more O h h') F h' s l.
  Proof.
    destruct (sl_make h l spare) as [s h'] eqn:E. pose proof E as E0. apply make_contents in E0 as (C & _ & A). unfold sl_make in E. injection E as _ <-.
    split; [exact C|]. intros _. rewrite A, app_length. cbn [length]. split; [lia|]. left. right. rewrite app_length. cbn. lia.
  Qed.

  Definition reads (h : H) (ss : list slice) (a : nat) : Prop := a < length h /\ exists s, In s ss /\ a = sl_arr s.
  Lemma known_start h ss s : sl_ok h s -> In s ss -> known (fun _ => False) (reads h ss) h s (contents h s).
  Proof.
    intros Hs Hi. split; [reflexivity|]. intros P. assert (L : sl_arr s < length h) by (apply ok_arr; [exact Hs|destruct Hs; lia]).
    split; [exact L|]. right. split; [exact L|]. eauto.
  Qed.
  Lemma cryptor_decrypt_sim kek aad wk ct (h : H) : sl_ok h wk -> sl_ok h ct ->
    sim (S := S) (I := I) (reads h [wk; ct]) (fun _ => False) h (cryptor_decrypt_s room spoil kek aad wk ct) (Ret (aes_open kek aad (contents h wk) (contents h ct))).
  Proof.
    intros Hw Hc. pose proof (known_start h [wk; ct] wk Hw ltac:(cbn; auto)) as Kw. pose proof (known_start h [wk; ct] ct Hc ltac:(cbn; auto)) as Kc.
    set (F := reads h [wk; ct]) in *. set (WK := contents h wk) in *. set (CT := contents h ct) in *.
    assert (Lc : length CT = sl_len ct) by now apply contents_length. clearbody F WK CT. clear Hw Hc. revert Kw Kc. generalize (fun _ : nat => False). intros O Kw Kc.
    unfold cryptor_decrypt_s, bindR, aes_open.
    apply sim_act. intros h1 R1. cbn [fst snd]. split; [apply grant_refl|].
    pose proof (known_same _ _ _ _ _ (known_rely _ _ _ _ _ _ Kw R1)) as Kw1. pose proof (known_same _ _ _ _ _ (known_rely _ _ _ _ _ _ Kc R1)) as Kc1.
    rewrite (proj1 Kw1). clear Kw Kc R1 Kw1. revert Kc1. generalize (more O h1 h1). clear O. intros O Kc.
    destruct (aes_kwp_unwrap kek WK) as [key|x|]; cbn [res_bind]; [|apply sim_ret..].
    (* the key *)
    apply sim_act. intros h2 R. pose proof (known_rely _ _ _ _ _ _ Kc R) as Kc2. pose proof (known_new O F h2 key (room (length key))) as Kk.
    unfold sl_make in Kk |- *. cbn [fst snd]. split; [apply grant_ext|]. apply known_ext with (x := [key ++ room (length key)]) in Kc2.
    revert Kk Kc2. generalize (more O h2 (h2 ++ [key ++ room (length key)])). generalize (h2 ++ [key ++ room (length key)]).
    generalize (mkSlice (length h2) 0 (length key) (length key + length (room (length key)))). clear h1 h2 R Kc O h. intros ks h O Kk Kc.
    (* the associated data *)
    apply sim_act. intros h2 R. pose proof (known_rely _ _ _ _ _ _ Kc R) as Kc2. pose proof (known_rely _ _ _ _ _ _ Kk R) as Kk2. pose proof (known_new O F h2 aad (room (length aad))) as Ka.
    unfold sl_make in Ka |- *. cbn [fst snd]. split; [apply grant_ext|]. apply known_ext with (x := [aad ++ room (length aad)]) in Kc2. apply known_ext with (x := [aad ++ room (length aad)]) in Kk2.
    revert Ka Kk2 Kc2. generalize (more O h2 (h2 ++ [aad ++ room (length aad)])). generalize (h2 ++ [aad ++ room (length aad)]).
    generalize (mkSlice (length h2) 0 (length aad) (length aad + length (room (length aad)))). clear h2 R Kc Kk O h. intros ad h O Ka Kk Kc.
    (* the copy *)
    apply sim_act. intros h2 R. pose proof (known_rely _ _ _ _ _ _ Ka R) as Ka2. pose proof (known_rely _ _ _ _ _ _ Kk R) as Kk2.
    rewrite (proj1 (known_rely _ _ _ _ _ _ Kc R)).
    unfold sl_make. cbn [fst snd]. split; [apply grant_ext|]. apply known_ext with (x := [CT ++ []]) in Ka2. apply known_ext with (x := [CT ++ []]) in Kk2.
    assert (Ks : sl_ok (h2 ++ [CT ++ []]) (mkSlice (length h2) 0 (length CT) (length CT + length (@nil byte)))).
    { split; cbn [sl_arr sl_len sl_off sl_cap length]; [lia|]. rewrite cells_new, app_length. cbn. lia. }
    assert (Kx : contents (h2 ++ [CT ++ []]) (mkSlice (length h2) 0 (length CT) (length CT + length (@nil byte))) = CT).
    { unfold contents. cbn [sl_arr sl_len sl_off]. rewrite cells_new. cbn [skipn]. rewrite drop_0. now apply firstn_len. }
    assert (Ko : more O h2 (h2 ++ [CT ++ []]) (sl_arr (mkSlice (length h2) 0 (length CT) (length CT + length (@nil byte))))) by (right; rewrite app_length; cbn; lia).
    revert Ka2 Kk2 Ks Kx Ko. generalize (more O h2 (h2 ++ [CT ++ []])).
    generalize (mkSlice (length h2) 0 (length CT) (length CT + length (@nil byte))).
    generalize (h2 ++ [CT ++ []]).
    clear h2 R Kc Ka Kk O h. intros h copy O Ka Kk Ks Kx Ko.
    unfold aead_decrypt_s. apply sim_act2. intros h1 R1. cbn [fst snd]. split; [apply grant_refl|].
    pose proof (known_same _ _ _ _ _ (known_rely _ _ _ _ _ _ Ka R1)) as Ka1. pose proof (known_same _ _ _ _ _ (known_rely _ _ _ _ _ _ Kk R1)) as Kk1.
    destruct (rely_slice _ _ _ _ copy R1 Ks ltac:(auto)) as [Kx1 Ks1]. rewrite Kx in Kx1.
    assert (Ko1 : more O h1 h1 (sl_arr copy)) by (left; exact Ko).
    revert Ka1 Kk1 Ks1 Kx1 Ko1. generalize (more O h1 h1). clear Ka Kk Ks Kx Ko R1 O h. rename h1 into h. intros O Ka Kk Ks Kx Ko.
    rewrite (proj1 Kk).
    destruct (Nat.eqb (length key) keyLength) eqn:Ek; cbn [negb bind]; [|rewrite aes_gcm_decrypt_eq, Ek; apply sim_ret].
    destruct (Nat.ltb (sl_len copy) Overhead) eqn:El; cbn [bind]; [rewrite aes_gcm_decrypt_eq, Ek; rewrite <- Kx, (contents_length h copy Ks), El; apply sim_ret|].
    match goal with |- sim _ _ _ (bind (bind (on_fst (act ?g)) _) _) _ => set (G := g) end.
    assert (HG : forall h1, rely O F h h1 ->
      res_map (contents (snd (G h1))) (if fst (G h1) then Ok (sl_to copy (sl_len copy - Overhead)) else Err EAesAuth) = aes_gcm_decrypt CT aad key /\
      grant O h1 (snd (G h1))).
    { intros h1 R1. destruct (rely_slice _ _ _ _ copy R1 Ks ltac:(auto)) as [Kx1 Ks1]. rewrite Kx in Kx1.
      pose proof (known_rely _ _ _ _ _ _ Ka R1) as [Ea _]. pose proof (known_rely _ _ _ _ _ _ Kk R1) as [Eq _].
      pose proof (decrypt_in_place (S := unit) (I := unit) room spoil copy ad ks h1 (mkWorld tt tt 0 0 [] false)) as HD.
      unfold aead_decrypt_s in HD. rewrite !run_bind, !run_on_fst in HD. cbn [run fst snd act] in HD. rewrite Eq, Ek in HD. cbn [negb] in HD. rewrite El in HD.
      rewrite !run_bind, !run_on_fst in HD. fold G in HD. unfold act in HD. cbn [run fst snd] in HD. change (fun h : H => _) with G in HD.
      destruct (G h1) as [o h2]. cbn [fst snd] in HD |- *.
      destruct o; cbn [run] in HD; specialize (HD _ _ _ Ks1 eq_refl) as (E & _ & [LO HO] & _); rewrite Kx1, Ea in E;
        (split; [exact E|]); (split; [exact LO|]); intros a La No; destruct (HO a La) as [B1 B2]; apply list_eq; intros i; apply B2; intros [-> _]; auto. }
    clearbody G. apply sim_act2. intros h1 R1. destruct (HG h1 R1) as [E Gr]. split; [exact Gr|].
    assert (Ko1 : more O h1 (snd (G h1)) (sl_arr copy)) by (left; exact Ko). pose proof (rely_slice _ _ _ _ copy R1 Ks ltac:(auto)) as [_ Ks1].
    destruct Gr as [Lg _]. destruct Ks1 as [_ Ks1].
    destruct (fst (G h1)); cbn [bind]; [|cbn [res_map] in E; rewrite <- E; apply sim_ret].
    apply sim_act. intros h2 [L2 R2]. cbn [fst snd]. split; [apply grant_refl|].
    cbn [res_map] in E. rewrite <- E. replace (contents h2 _) with (contents (snd (G h1)) (sl_to copy (sl_len copy - Overhead))); [apply sim_ret|].
    symmetry. destruct (decide (sl_arr copy < length (snd (G h1)))) as [La|La]; [apply contents_cells, R2; [exact La|left; exact Ko1]|].
    exfalso. apply Nat.ltb_ge in El. assert (L0 : sl_arr copy < length h) by (apply ok_arr; [exact Ks|destruct Ks; unfold Overhead, tagLength, nonceLength in El; lia]).
    destruct R1 as [Lr _]. lia.
  Qed.

  (** Any number of Decrypts on shared buffers. *)
  Lemma decrypts_concurrent K (cs : list (bytes * bytes * slice * slice)) (h : H) (w : W) pool' h' w' :
    Forall (fun '(_, _, wk, ct) => sl_ok h wk /\ sl_ok h ct) cs ->
    exec_s K (map (fun '(kek, aad, wk, ct) => cryptor_decrypt_s (S := S) (I := I) room spoil kek aad wk ct) cs) (h, w) pool' (h', w') ->
    (forall t kek aad wk ct r, cs !! t = Some (kek, aad, wk, ct) -> pool' !! t = Some (Ret r) -> r = aes_open kek aad (contents h wk) (contents h ct)) /\
    (forall a, a < length h -> cells h' a = cells h a).
  Proof.
    intros Hok Hx. set (D := fun '(kek, aad, wk, ct) => cryptor_decrypt_s (S := S) (I := I) room spoil kek aad wk ct) in Hx.
    set (R := fun x : bytes * bytes * slice * slice => let '(kek, aad, wk, ct) := x in Ret (W := W) (aes_open kek aad (contents h wk) (contents h ct))).
    destruct (exec_sim K _ _ _ _ Hx h (fun _ => True) (map R cs)) as (pool2' & E & HI).
    - cbn [fst]. split; [now rewrite !map_length|]. split; [lia|]. exists (fun _ _ => False).
      exists (fun t => match cs !! t with Some (_, _, wk, ct) => reads h [wk; ct] | None => fun _ => False end). splits.
      + auto.
      + intros t p q Hp Hq. change (map D cs) with (D <$> cs) in Hp. change (map R cs) with (R <$> cs) in Hq.
        rewrite list_lookup_fmap in Hp. rewrite list_lookup_fmap in Hq. destruct (cs !! t) as [[[[kek aad] wk] ct]|] eqn:Ec; [|discriminate].
        injection Hp as <-. injection Hq as <-. eapply Forall_lookup_1 in Hok; [|exact Ec]. destruct Hok. now apply cryptor_decrypt_sim.
      + auto.
      + intros t a Ht. destruct (cs !! t) as [[[[kek aad] wk] ct]|]; [|tauto]. intros [[]|[L _]]; exact L.
    - cbn [fst snd] in *. destruct HI as (Hl & _ & O & F & HQ & Hs & _). split; [|intros a La; now apply HQ].
      intros t kek aad wk ct r Hc Ht. destruct (lookup_lt_is_Some_2 pool2' t) as [q Hq]; [rewrite <- Hl; eapply lookup_lt_Some; eauto|].
      pose proof (Hs _ _ _ Ht Hq) as Q. cbn [sim] in Q. subst q.
      assert (HR : forall (pool : list (prog W (res bytes))) (w : W) p2 w2, exec K pool w p2 w2 -> Forall (fun p => exists x, p = Ret x) pool -> p2 = pool).
      { clear. intros pool w p2 w2 Hx. induction Hx as [pool w|t X f k pool w pool' w' Ht Hx IH|pool w w1 pool' w' Ha Hx IH]; intros Hf; [reflexivity| |auto].
        eapply Forall_lookup_1 in Hf; [|exact Ht]. destruct Hf as [x Hf]. discriminate. }
      apply HR in E; [|apply List.Forall_forall; intros p Hp; apply in_map_iff in Hp as ([[[kk aa] ww] cc] & <- & _); eexists; reflexivity].
      subst pool2'. change (map R cs) with (R <$> cs) in Hq. rewrite list_lookup_fmap, Hc in Hq. cbn in Hq. congruence.
  Qed.
End Conc.
