(** The index calls as operations on numbered nodes. *)
From Coq Require Import ZifyN ZifyNat.
From stdpp Require Import gmap.
From Verif Require Import Bytes Go Json JsonProofs Types TypesProofs World Logic Kwp Kmac
  Cryptor CryptorProofs IoSpec IoProofs Id Data D1 D1Proofs Spec SpecProofs Index IndexSpec.
Local Open Scope bool_scope.
Local Open Scope N_scope.

(** ** Output sizes of the sponge *)
Lemma map_seq_length {A} (f : nat -> A) a n : length (map f (List.seq a n)) = n.
Proof. now rewrite map_length, seq_length. Qed.
Lemma keccak_f_length s : length s = 25%nat -> length (keccak_f s) = 25%nat.
Proof.
  unfold keccak_f. generalize round_constants. intros rcs. revert s. induction rcs as [|rc rcs IH]; intros s H; [exact H|].
  cbn [fold_left]. apply IH. assert (L : length (chi (rho_pi (theta s))) = 25%nat) by apply map_seq_length.
  destruct (chi _) as [|a t]; [discriminate|]. cbn [iota length] in *. lia.
Qed.
Lemma absorb_length f rate : forall s l, length s = 25%nat -> length (absorb f rate s l) = 25%nat.
Proof.
  induction f as [|f IH]; intros s l H; [exact H|]. cbn [absorb]. destruct l; [exact H|]. apply IH.
  apply keccak_f_length, map_seq_length.
Qed.
Lemma squeeze_block_length s : length (squeeze_block s) = (8 * length s)%nat.
Proof.
  unfold squeeze_block. induction s as [|a s IH]; [reflexivity|]. cbn [map concat]. rewrite app_length, IH.
  assert (L : forall k n, length (N_to_le k n) = k) by (induction k as [|k IHk]; intros n; [reflexivity|cbn; now rewrite IHk]).
  rewrite L. cbn [length]. lia.
Qed.
Lemma squeeze_length f rate : (rate <= 200)%nat -> forall s, length s = 25%nat -> length (squeeze f rate s) = (f * rate)%nat.
Proof.
  intros Hr. induction f as [|f IH]; intros s H; [reflexivity|]. cbn [squeeze]. rewrite app_length, IH by now apply keccak_f_length.
  rewrite firstn_length, squeeze_block_length, H. lia.
Qed.
Lemma kmac256_length key n S msg : length (kmac 136 key n S msg) = n.
Proof.
  unfold kmac, sponge. rewrite firstn_length, squeeze_length; [|lia|apply absorb_length; reflexivity].
  pose proof (Nat.mul_succ_div_gt n 136). lia.
Qed.

(** ** Keys and labels *)
Section Keys.
  Context (iek : bytes) (Hiek : blen iek = 32).
  Definition tkey (kw : bytes) : bytes := kmac 136 iek 32 (str "label") kw.
  Definition ckey (kw : bytes) : bytes := kmac 136 iek 32 (str "id") kw.
  Definition lab (kw : bytes) (c : N) : bytes := kmac 136 (tkey kw) 32 (print (jbytes (Some (uvarint c)))) [].

  Lemma kmac256_ok key n S msg : 32 <= blen key -> (8 <= n)%nat -> kmac256 key n S msg = Ok (kmac 136 key n S msg).
  Proof.
    intros Hk Hn. unfold kmac256. destruct (N.ltb_spec (blen key) 32); [lia|]. destruct (Nat.ltb_spec n 8); [lia|]. reflexivity.
  Qed.
  Lemma ix_keys_ok kw : ix_keys iek kw = Ok (tkey kw, ckey kw).
  Proof.
    unfold ix_keys, kmackdf. cbn [concat]. rewrite app_nil_r. rewrite !kmac256_ok by lia. cbn [res_bind].
    change (kmac 136 iek 32 (str "label") kw) with (tkey kw). change (kmac 136 iek 32 (str "id") kw) with (ckey kw).
    assert (L1 : blen (tkey kw) = 32) by (unfold blen, tkey; now rewrite kmac256_length).
    assert (L2 : blen (ckey kw) = 32) by (unfold blen, ckey; now rewrite kmac256_length).
    unfold new_tagger, new_aes_cryptor, new_kwp. rewrite L1, L2. reflexivity.
  Qed.
  Lemma tkey_length kw : blen (tkey kw) = 32.
  Proof. unfold blen, tkey. now rewrite kmac256_length. Qed.
  Lemma next_label_ok kw n : next_label (tkey kw) n = Ok (lab kw (n_next n)).
  Proof.
    unfold next_label, tag. apply kmac256_ok; [rewrite tkey_length; lia|]. unfold TagLength. lia.
  Qed.
  Lemma ix_label_ok kw c : ix_label iek kw c = Ok (lab kw c).
  Proof. unfold ix_label. rewrite ix_keys_ok. cbn [res_bind fst]. rewrite next_label_ok. reflexivity. Qed.
End Keys.

(** ** Numbered nodes *)
Definition slots := bytes -> N -> option node.
Definition set_slot (f : slots) (kw : bytes) (c : N) (n : option node) : slots :=
  fun kw' c' => if bytes_eqb kw' kw && (c' =? c) then n else f kw' c'.
Lemma set_same f kw c n : set_slot f kw c n kw c = n.
Proof. unfold set_slot. now rewrite (proj2 (bytes_eqb_eq kw kw) eq_refl), N.eqb_refl. Qed.
Lemma set_other f kw c n kw' c' : (kw', c') <> (kw, c) -> set_slot f kw c n kw' c' = f kw' c'.
Proof.
  intros H. unfold set_slot. destruct (bytes_eqb kw' kw) eqn:E; cbn [andb]; [|reflexivity].
  apply bytes_eqb_eq in E. destruct (N.eqb_spec c' c); [|reflexivity]. subst. congruence.
Qed.

(** What a stored node decrypts to. *)
Definition node_open (kek label b : bytes) : res node :=
  match unmarshal dec_sealed_node b with
  | None => Err EJson
  | Some sn => open_json kek dec_node (jbytes (Some label)) (sn_wk sn) (sn_ct sn)
  end.

Section Slots.
  Context {S I : Type} (e : env) (F : Prop) (v : view S) (io : provider S) (Hio : io_spec F v io).
  Notation W := (world S I).
  Notation SN := DataTypeSealedNode.
  Context (iek : bytes) (Hiek : blen iek = 32) (K : list bytes) (M : N) (HM : M < 2 ^ 64).
  Context (Hdiff : labels_differ iek K M).
  Implicit Types (f : slots) (w : W) (st : store) (Inv : W -> Prop).

  Notation lab := (lab iek).
  Notation tkey := (tkey iek).
  Notation ckey := (ckey iek).

  Lemma lab_inj kw kw' c c' : In kw K -> In kw' K -> c <= M -> c' <= M -> lab kw c = lab kw' c' -> kw = kw' /\ c = c'.
  Proof. intros. apply Hdiff; auto. rewrite !ix_label_ok by exact Hiek. now f_equal. Qed.

  (** The store holds exactly these nodes, for the keywords in [K] and numbers up to [M]. *)
  Definition sees st f : Prop := forall kw c, In kw K -> c <= M ->
    match f kw c with
    | None => st (lab kw c) SN = None
    | Some n => exists b, st (lab kw c) SN = Some b /\ node_open (ckey kw) (lab kw c) b = Ok n
    end.
  Definition R f w : Prop := exists st, holds v st w /\ sees st f.

  Lemma sees_upd st f kw c x n : sees st f -> In kw K -> c <= M ->
    match n with
    | None => x = None
    | Some nd => exists b, x = Some b /\ node_open (ckey kw) (lab kw c) b = Ok nd
    end -> sees (upd st (lab kw c) SN x) (set_slot f kw c n).
  Proof.
    intros Hs Hk Hc Hx kw' c' Hk' Hc'.
    destruct (decide (kw' = kw /\ c' = c)) as [[-> ->]|Hne].
    - rewrite set_same, upd_same. exact Hx.
    - rewrite set_other by (intros [= -> ->]; auto). rewrite upd_other; [apply Hs; auto|].
      intros [= E]. apply Hne. apply lab_inj; auto.
  Qed.
  Lemma R_frame f w w' : frame w w' -> R f w -> R f w'.
  Proof. intros Hf (st & H & Hs). exists st. split; [eapply holds_frame; eauto|exact Hs]. Qed.

  (** Numbers grow along the links and are at most [b]; identifiers are text and satisfy [P]. *)
  Definition wf (P : bytes -> bytes -> Prop) (b : N) f : Prop := forall kw c n, In kw K -> c <= M -> f kw c = Some n ->
    c < n_next n /\ n_next n <= b /\ valid_utf8 (n_id n) = true /\ P kw (n_id n).

  (** The nodes met from number [c] on, with their numbers, and the free number at the end. *)
  Inductive path (g : N -> option node) : N -> list (N * bytes) -> N -> Prop :=
  | path_end c : g c = None -> path g c [] c
  | path_step c n ps z : g c = Some n -> path g (n_next n) ps z -> path g c ((c, n_id n) :: ps) z.

  Lemma node_reopen kek (n : node) label wk ct : n_next n < 2 ^ 64 ->
    aes_open kek (print (jbytes (Some label))) wk ct = Ok (print (enc_node n)) ->
    node_open kek label (print (enc_sealed_node (mkSealedNode (Some ct) (Some wk)))) = Ok (mkNode (as_text (n_id n)) (n_next n)).
  Proof.
    intros Hn Ho. unfold node_open. rewrite sealed_node_roundtrip. cbn [sn_wk sn_ct].
    unfold open_json. cbn [slice_bytes]. rewrite Ho. cbn [res_bind]. rewrite node_roundtrip by exact Hn.
    reflexivity.
  Qed.
  Lemma text_node (n : node) : valid_utf8 (n_id n) = true -> n = mkNode (as_text (n_id n)) (n_next n).
  Proof. intros H. rewrite as_text_id by exact H. now destruct n. Qed.

  Section Keyword.
    Context (kw : bytes) (Hkw : In kw K).
    Notation tk := (tkey kw).
    Notation kek := (ckey kw).

    (** The next node, or the error of the storage. *)
    Lemma wpc_get_next f cur Inv (Q : _ -> W -> Prop) w : R f w -> n_next cur <= M ->
      (forall w', R f w' -> Inv w') ->
      (forall w', R f w' -> Q (match f kw (n_next cur) with Some n => Ok n | None => Err EIxNodeNotFound end) w') ->
      (forall x w', F -> fault x -> R f w' -> Q (Err x) w') ->
      wpc (get_next_node e io tk kek cur) Inv Q w.
    Proof.
      intros (st & H & Hs) Hc HI HQ HF. unfold get_next_node, lift.
      assert (HR : forall w', holds v st w' -> R f w') by (intros w' Hw; exists st; auto).
      rewrite (next_label_ok iek Hiek). apply wpc_bindR, wpc_ret; [auto|]. apply wpc_bindR. unfold get_sealed_node.
      apply wpc_bindR, wpc_map_err. eapply (wpc_io_get F v io Hio); [reflexivity|exact H|auto| |].
      - intros w' Hw. pose proof (Hs kw (n_next cur) Hkw Hc) as Hk. specialize (fun w2 X => HQ w2 (HR w2 X)).
        destruct (f kw (n_next cur)) as [n|] eqn:Ef.
        + destruct Hk as (b & E & Ho). rewrite E. unfold node_open in Ho.
          destruct (unmarshal dec_sealed_node b) as [sn|]; [|discriminate].
          apply wpc_ret; [auto|]. unfold node_unseal. apply wpc_decrypt_json.
          * intros w2 Hf. apply HI, HR. eapply holds_frame; eauto.
          * intros w2 Hf. rewrite Ho. apply HQ. eapply holds_frame; eauto.
        + rewrite Hk. apply HQ. exact Hw.
      - intros x w' HFF Hx Hw. rewrite fault_replace by (auto; discriminate). auto.
    Qed.

    (** Sealing a node. *)
    Lemma wpc_node_seal {B} (n n' : node) label (k : sealed_node -> prog W (res B)) f Inv (Q : _ -> W -> Prop) w :
      R f w -> n_next n < 2 ^ 64 -> n' = mkNode (as_text (n_id n)) (n_next n) ->
      (forall w', R f w' -> Inv w') ->
      (forall sn w', R f w' -> node_open kek label (print (enc_sealed_node sn)) = Ok n' -> wpc (k sn) Inv Q w') ->
      (forall w', R f w' -> rng_failed e w' -> Q (Err ERandom) w') ->
      wpc (bindR (node_seal (aes_cryptor e kek) n label) k) Inv Q w.
    Proof.
      intros HR Hn Hv HI HO HE. apply wpc_bindR. unfold node_seal, encrypt_json. cbn [c_enc aes_cryptor].
      apply wpc_bindR, wpc_aes_enc.
      - intros w' Hf. apply HI. eapply R_frame; eauto.
      - intros wk ct w' Hf Ho. assert (HR' : R f w') by (eapply R_frame; eauto).
        apply wpc_ret; [auto|]. apply HO; [exact HR'|]. rewrite Hv. apply node_reopen; assumption.
      - intros w' Hf RF. apply HE; [eapply R_frame; eauto|exact RF].
    Qed.

    (** The three writes. *)
    Lemma wpc_put_node f c n sn Inv (Q : _ -> W -> Prop) w : R f w -> c <= M ->
      node_open kek (lab kw c) (print (enc_sealed_node sn)) = Ok n ->
      (forall w', R f w' -> Inv w') ->
      (f kw c = None -> forall w', R (set_slot f kw c (Some n)) w' -> Inv w') ->
      (f kw c = None -> forall w', R (set_slot f kw c (Some n)) w' -> Q (Ok tt) w') ->
      (f kw c <> None -> forall w', R f w' -> Q (Err EIxNodeAlreadyExists) w') ->
      (forall x w', F -> fault x -> R f w' \/ (f kw c = None /\ R (set_slot f kw c (Some n)) w') -> Q (Err x) w') ->
      wpc (put_sealed_node io (lab kw c) sn false) Inv Q w.
    Proof.
      intros (st & H & Hs) Hc Ho HI HI' HQ HE HF. unfold put_sealed_node. apply wpc_map_err.
      assert (HR : forall w', holds v st w' -> R f w') by (intros w' Hw; exists st; auto).
      pose proof (Hs kw c Hkw Hc) as Hk.
      assert (HR' : forall w', holds v (upd st (lab kw c) SN (Some (print (enc_sealed_node sn)))) w' -> R (set_slot f kw c (Some n)) w').
      { intros w' Hw. eexists. split; [exact Hw|]. apply sees_upd; [exact Hs|exact Hkw|exact Hc|]. eexists. split; [reflexivity|exact Ho]. }
      assert (Hnone : st (lab kw c) SN = None -> f kw c = None).
      { intros E. destruct (f kw c); [|reflexivity]. destruct Hk as (b & E' & _). congruence. }
      assert (Hsome : st (lab kw c) SN <> None -> f kw c <> None).
      { intros E E'. rewrite E' in Hk. contradiction. }
      eapply (wpc_io_put F v io Hio); [reflexivity|apply print_obj_nonempty|exact H|auto| | | |].
      - intros E w' Hw. auto.
      - intros E w' Hw. auto.
      - intros E w' Hw. unfold replace_err. destruct (decide _); [|congruence]. auto.
      - intros x w' HFF Hx [Hw|[E Hw]]; rewrite fault_replace by (auto; discriminate); auto.
    Qed.
    Lemma wpc_update_node f c n sn Inv (Q : _ -> W -> Prop) w : R f w -> c <= M -> f kw c <> None ->
      node_open kek (lab kw c) (print (enc_sealed_node sn)) = Ok n ->
      (forall w', R f w' -> Inv w') ->
      (forall w', R (set_slot f kw c (Some n)) w' -> Inv w') ->
      (forall w', R (set_slot f kw c (Some n)) w' -> Q (Ok tt) w') ->
      (forall x w', F -> fault x -> R f w' \/ R (set_slot f kw c (Some n)) w' -> Q (Err x) w') ->
      wpc (put_sealed_node io (lab kw c) sn true) Inv Q w.
    Proof.
      intros (st & H & Hs) Hc Hne Ho HI HI' HQ HF. unfold put_sealed_node. apply wpc_map_err.
      assert (HR : forall w', holds v st w' -> R f w') by (intros w' Hw; exists st; auto).
      pose proof (Hs kw c Hkw Hc) as Hk.
      assert (HR' : forall w', holds v (upd st (lab kw c) SN (Some (print (enc_sealed_node sn)))) w' -> R (set_slot f kw c (Some n)) w').
      { intros w' Hw. eexists. split; [exact Hw|]. apply sees_upd; [exact Hs|exact Hkw|exact Hc|]. eexists. split; [reflexivity|exact Ho]. }
      assert (Hsome : st (lab kw c) SN <> None).
      { destruct (f kw c); [|contradiction]. destruct Hk as (b & E' & _). congruence. }
      eapply (wpc_io_update F v io Hio); [reflexivity|apply print_obj_nonempty|exact H|auto| | | |].
      - intros E w' Hw. auto.
      - intros E w' Hw. auto.
      - intros E w' Hw. contradiction.
      - intros x w' HFF Hx [Hw|[E Hw]]; rewrite fault_replace by (auto; discriminate); auto.
    Qed.
    Lemma wpc_delete_node f c Inv (Q : _ -> W -> Prop) w : R f w -> c <= M ->
      (forall w', R f w' -> Inv w') ->
      (forall w', R (set_slot f kw c None) w' -> Inv w') ->
      (forall w', R (set_slot f kw c None) w' -> Q (Ok tt) w') ->
      (forall x w', F -> fault x -> R f w' \/ R (set_slot f kw c None) w' -> Q (Err x) w') ->
      wpc (delete_sealed_node io (lab kw c)) Inv Q w.
    Proof.
      intros (st & H & Hs) Hc HI HI' HQ HF. unfold delete_sealed_node.
      assert (HR : forall w', holds v st w' -> R f w') by (intros w' Hw; exists st; auto).
      assert (HR' : forall w', holds v (upd st (lab kw c) SN None) w' -> R (set_slot f kw c None) w').
      { intros w' Hw. eexists. split; [exact Hw|]. apply sees_upd; [exact Hs|exact Hkw|exact Hc|reflexivity]. }
      eapply (wpc_io_delete F v io Hio); [reflexivity|exact H|auto|auto|auto|].
      intros x w' HFF Hx [Hw|Hw]; auto.
    Qed.

    (** ** The loops *)
    Context (P : bytes -> bytes -> Prop) (b : N) (Hb : b <= M).

    Lemma wpc_get_last fuel : forall f cur ps z Inv (Q : _ -> W -> Prop) w, R f w -> wf P b f -> n_next cur <= b ->
      path (f kw) (n_next cur) ps z -> (length ps < fuel)%nat ->
      (forall w', R f w' -> Inv w') ->
      (forall last w', R f w' -> n_next last = z -> Q (Ok last) w') ->
      (forall x w', F -> fault x -> R f w' -> Q (Err x) w') ->
      wpc (get_last_node e io tk kek fuel cur) Inv Q w.
    Proof.
      induction fuel as [|fuel IH]; intros f cur ps z Inv Q w HR Hwf Hc Hp Hl HI HQ HF; [lia|].
      cbn [get_last_node]. apply wpc_bind. eapply wpc_get_next; [exact HR|lia|exact HI| |].
      - intros w' Hw. inversion Hp as [c Hn E1 E2 E3|c n ps' z' Hn Hp' E1 E2 E3].
        + rewrite Hn. apply wpc_ret; [auto|]. apply HQ; [exact Hw|congruence].
        + rewrite Hn. subst ps. cbn [length] in Hl. eapply IH; [exact Hw|exact Hwf| |exact Hp'|lia|exact HI|exact HQ|exact HF].
          apply (Hwf kw (n_next cur) n Hkw); [lia|exact Hn].
      - intros x w' HFF [y ->] Hw. apply wpc_ret; [auto|]. apply HF; [exact HFF|exists y; reflexivity|exact Hw].
    Qed.

    Lemma wpc_search fuel : forall f cur ps z found Inv (Q : _ -> W -> Prop) w, R f w -> wf P b f -> n_next cur <= b ->
      path (f kw) (n_next cur) ps z -> (length ps < fuel)%nat ->
      (forall w', R f w' -> Inv w') ->
      (forall w', R f w' -> Q (Ok (found ++ map snd ps)) w') ->
      (forall x w', F -> fault x -> R f w' -> Q (Err x) w') ->
      wpc (search_loop e io tk kek fuel cur found) Inv Q w.
    Proof.
      induction fuel as [|fuel IH]; intros f cur ps z found Inv Q w HR Hwf Hc Hp Hl HI HQ HF; [lia|].
      cbn [search_loop]. apply wpc_bind. eapply wpc_get_next; [exact HR|lia|exact HI| |].
      - intros w' Hw. inversion Hp as [c Hn E1 E2 E3|c n ps' z' Hn Hp' E1 E2 E3].
        + rewrite Hn. apply wpc_ret; [auto|]. subst ps. cbn [map] in HQ. rewrite app_nil_r in HQ. now apply HQ.
        + rewrite Hn. subst ps. cbn [length] in Hl. eapply IH; [exact Hw|exact Hwf| |exact Hp'|lia|exact HI| |exact HF].
          * apply (Hwf kw (n_next cur) n Hkw); [lia|exact Hn].
          * intros w2 Hw2. cbn [map snd] in HQ. rewrite <- app_assoc. now apply HQ.
      - intros x w' HFF [y ->] Hw. apply wpc_ret; [auto|]. apply HF; [exact HFF|exists y; reflexivity|exact Hw].
    Qed.

    (** Every node of [f'] is on the path [ps'], or it was there before and not on the path [ps]. *)
    Definition leaner f (ps : list (N * bytes)) f' (ps' : list (N * bytes)) : Prop :=
      forall c, f' kw c = None \/ In c (map fst ps') \/ (~ In c (map fst ps) /\ f' kw c = f kw c).
    (** [f'] differs from [f] only for [kw], at numbers [c] and above. *)
    Definition above (c : N) f f' : Prop := forall kw' c', kw' <> kw \/ c' < c -> f' kw' c' = f kw' c'.

    Lemma leaner_refl f ps : leaner f ps f ps.
    Proof. intros c. destruct (in_dec N.eq_dec c (map fst ps)); auto. Qed.
    Lemma leaner_trans f ps f1 ps1 f2 ps2 : leaner f ps f1 ps1 -> leaner f1 ps1 f2 ps2 -> leaner f ps f2 ps2.
    Proof.
      intros H1 H2 c. destruct (H2 c) as [E|[E|[Hn E]]]; [auto|auto|].
      destruct (H1 c) as [E'|[E'|[Hn' E']]]; [left; congruence|contradiction|]. right. right. split; [exact Hn'|congruence].
    Qed.
    Lemma above_refl c f : above c f f.
    Proof. intros kw' c' _. reflexivity. Qed.
    Lemma above_trans c f f1 f2 : above c f f1 -> above c f1 f2 -> above c f f2.
    Proof. intros H1 H2 kw' c' H. rewrite (H2 kw' c' H). auto. Qed.
    Lemma above_le c c' f f' : c' <= c -> above c f f' -> above c' f f'.
    Proof. intros H1 H2 kw' k H. apply H2. destruct H; [auto|right; lia]. Qed.
    Lemma above_set c k f n : c <= k -> above c f (set_slot f kw k n).
    Proof. intros H kw' c' Hor. apply set_other. intros [= -> ->]. destruct Hor; [congruence|lia]. Qed.

    (** Numbers on a path grow. *)
    Lemma path_bounds f : wf P b f -> forall c ps z, path (f kw) c ps z -> c <= M ->
      c <= z /\ (c <= b -> z <= b) /\ (forall k, In k (map fst ps) -> c <= k < z).
    Proof.
      intros Hwf c ps z Hp. induction Hp as [c E|c n ps z E Hp IH]; intros Hc; [split; [lia|split; [auto|intros k []]]|].
      destruct (Hwf kw c n Hkw Hc E) as (H1 & H2 & _). destruct IH as (I1 & I2 & I3); [lia|]. split; [lia|]. split; [intros _; apply I2; lia|].
      intros k [<-|Hk]; [cbn; lia|]. specialize (I3 k Hk). lia.
    Qed.
    Lemma path_length f : wf P b f -> forall c ps z, path (f kw) c ps z -> c <= M -> N.of_nat (length ps) <= z - c.
    Proof.
      intros Hwf c ps z Hp. induction Hp as [c E|c n ps z E Hp IH]; intros Hc; [cbn; lia|].
      destruct (Hwf kw c n Hkw Hc E) as (H1 & H2 & _). specialize (IH ltac:(lia)). pose proof (path_bounds f Hwf _ _ _ Hp ltac:(lia)) as (B & _). cbn [length]. lia.
    Qed.
    Lemma path_exists f : wf P b f -> forall c, c <= M -> exists ps z, path (f kw) c ps z.
    Proof.
      intros Hwf c. remember (N.to_nat (M - c)) as k eqn:Ek. revert c Ek.
      induction k as [k IH] using lt_wf_ind. intros c Ek Hc. destruct (f kw c) as [n|] eqn:E.
      - destruct (Hwf kw c n Hkw Hc E) as (H1 & H2 & _).
        destruct (IH (N.to_nat (M - n_next n)) ltac:(lia) (n_next n) eq_refl ltac:(lia)) as (ps & z & Hp).
        exists ((c, n_id n) :: ps), z. now constructor.
      - exists [], c. now constructor.
    Qed.
    Lemma path_unique (g : N -> option node) c ps z : path g c ps z -> forall ps' z', path g c ps' z' -> ps' = ps /\ z' = z.
    Proof.
      intros Hp. induction Hp as [c E|c n ps z E Hp IH]; intros ps' z' Hp'; inversion Hp' as [c' E'|c' n' ps2 z2 E' Hp2]; subst; try congruence; auto.
      rewrite E in E'. injection E' as <-. destruct (IH _ _ Hp2) as [-> ->]. auto.
    Qed.
    Lemma path_ext (g g' : N -> option node) c ps z : path g c ps z -> (forall k, In k (map fst ps) \/ k = z -> g' k = g k) -> path g' c ps z.
    Proof.
      intros Hp. induction Hp as [c E|c n ps z E Hp IH]; intros H.
      - constructor. now rewrite H by auto.
      - constructor; [rewrite H; [exact E|left; now left]|]. apply IH. intros k [Hk|Hk]; apply H; [left; now right|now right].
    Qed.
    Lemma wf_set f c n : wf P b f -> (forall nd, n = Some nd -> c < n_next nd /\ n_next nd <= b /\ valid_utf8 (n_id nd) = true /\ P kw (n_id nd)) -> wf P b (set_slot f kw c n).
    Proof.
      intros Hwf Hn kw' c' nd Hk Hc E. destruct (decide ((kw', c') = (kw, c))) as [[= -> ->]|Hne].
      - rewrite set_same in E. auto.
      - rewrite set_other in E by exact Hne. eauto.
    Qed.

    (** Where Delete may be cut: some occurrences are gone. *)
    Definition part_deleted (x : bytes) (c : N) f (ps : list (N * bytes)) (w : W) : Prop :=
      exists f' ps' z', R f' w /\ wf P b f' /\ above c f f' /\ path (f' kw) c ps' z' /\ thinned x (map snd ps) (map snd ps').
    (** Where it may stop between two occurrences. *)
    Definition some_deleted (x : bytes) (c : N) f (ps : list (N * bytes)) (w : W) : Prop :=
      exists f' ps' z', R f' w /\ wf P b f' /\ above c f f' /\ path (f' kw) c ps' z' /\ thinned x (map snd ps) (map snd ps') /\ leaner f ps f' ps'.
    (** Its completion. *)
    Definition all_deleted (x : bytes) (c : N) f (ps : list (N * bytes)) (w : W) : Prop :=
      exists f' ps' z', R f' w /\ wf P b f' /\ above c f f' /\ path (f' kw) c ps' z' /\ map snd ps' = without x (map snd ps) /\ leaner f ps f' ps'.

    Lemma thinned_refl x l : thinned x l l.
    Proof. induction l; constructor; auto. Qed.
    Lemma thinned_trans x l1 l2 l3 : thinned x l1 l2 -> thinned x l2 l3 -> thinned x l1 l3.
    Proof.
      intros H. revert l3. induction H as [|y l l' H IH|l l' H IH]; intros l3 H3; [exact H3| |constructor; auto].
      inversion H3; subst; [constructor; auto|apply th_drop; auto].
    Qed.
    Lemma part_step x c f f1 ps ps1 w : above c f f1 -> thinned x (map snd ps) (map snd ps1) ->
      part_deleted x c f1 ps1 w -> part_deleted x c f ps w.
    Proof.
      intros A T (f' & ps' & z' & H1 & H2 & H3 & H4 & H5). exists f', ps', z'. do 4 (split; [solve [eauto using above_trans]|]). eapply thinned_trans; eauto.
    Qed.

    (** Removing the node at [c]: its place is taken by the next one. *)
    Definition removed f (c : N) (n : node) : slots :=
      match f kw (n_next n) with
      | None => set_slot f kw c None
      | Some n2 => set_slot (set_slot f kw c (Some n2)) kw (n_next n) None
      end.
    Lemma removed_ok f c n ps z : wf P b f -> c <= M -> f kw c = Some n -> path (f kw) (n_next n) ps z ->
      exists ps' z', path (removed f c n kw) c ps' z' /\ map snd ps' = map snd ps /\ wf P b (removed f c n) /\ above c f (removed f c n) /\
        leaner f ((c, n_id n) :: ps) (removed f c n) ps' /\ (length ps' = length ps).
    Proof.
      intros Hwf Hc E Hp. destruct (Hwf kw c n Hkw Hc E) as (L1 & L2 & _). unfold removed.
      inversion Hp as [c' E' E1 E2 E3|c' n2 ps2 z2 E' Hp2 E1 E2 E3]; subst; rewrite E'.
      - exists [], c. split; [constructor; apply set_same|]. split; [reflexivity|]. split; [apply wf_set; [exact Hwf|discriminate]|].
        split; [apply above_set; lia|]. split; [|reflexivity]. intros k. cbn [map fst In]. destruct (N.eq_dec k c) as [->|Hne].
        + left. apply set_same.
        + right. right. split; [intros [H|[]]; congruence|]. apply set_other. congruence.
      - destruct (Hwf kw (n_next n) n2 Hkw ltac:(lia) E') as (M1 & M2 & M3).
        pose proof (path_bounds f Hwf _ _ _ Hp2 ltac:(lia)) as (B1 & B2 & B3).
        exists ((c, n_id n2) :: ps2), z. split; [|split; [reflexivity|split; [|split; [|split; [|reflexivity]]]]].
        + constructor.
          * rewrite set_other by (intros [= H]; lia). apply set_same.
          * eapply path_ext; [exact Hp2|]. intros k Hk. assert (n_next n2 <= k) by (destruct Hk as [Hk| ->]; [apply B3 in Hk; lia|lia]).
            rewrite !set_other by (intros [= H1]; lia). reflexivity.
        + apply wf_set; [apply wf_set; [exact Hwf|]|discriminate]. intros nd [= <-]. (split; [lia|split; [lia|exact M3]]).
        + eapply above_trans; [apply above_set|apply above_set]; lia.
        + intros k. cbn [map fst In]. destruct (N.eq_dec k (n_next n)) as [->|Hne]; [left; apply set_same|].
          destruct (N.eq_dec k c) as [->|Hne2]; [right; left; now left|].
          destruct (in_dec N.eq_dec k (map fst ps2)) as [Hi|Hi]; [right; left; now right|].
          right. right. split; [|rewrite !set_other by congruence; reflexivity].
          intros [H|[H|H]]; congruence.
    Qed.
    Lemma thinned_head x l l' : l' = l -> thinned x (x :: l) l'.
    Proof. intros ->. apply th_drop, thinned_refl. Qed.

    Lemma wpc_delete_one f c n ps z (Inv : W -> Prop) (Q : _ -> W -> Prop) w : R f w -> wf P b f -> c <= M -> f kw c = Some n -> path (f kw) (n_next n) ps z ->
      (forall w', part_deleted (n_id n) c f ((c, n_id n) :: ps) w' -> Inv w') ->
      (forall w', R (removed f c n) w' -> Q (Ok tt) w') ->
      (forall w', R f w' -> rng_failed e w' -> Q (Err ERandom) w') ->
      (forall y w', F -> fault y -> part_deleted (n_id n) c f ((c, n_id n) :: ps) w' -> Q (Err y) w') ->
      wpc (delete_node e io tk kek (lab kw c) n) Inv Q w.
    Proof.
      intros HR Hwf Hc E Hp HI HQ HE HF. unfold delete_node.
      destruct (Hwf kw c n Hkw Hc E) as (L1 & L2 & _).
      assert (P0 : forall w', R f w' -> part_deleted (n_id n) c f ((c, n_id n) :: ps) w').
      { intros w' Hw. exists f, ((c, n_id n) :: ps), z. split; [exact Hw|]. split; [exact Hwf|]. split; [apply above_refl|].
        split; [now constructor|]. apply thinned_refl. }
      destruct (removed_ok f c n ps z Hwf Hc E Hp) as (ps' & z' & P1 & P2 & P3 & P4 & P5 & P6).
      assert (P9 : forall w', R (removed f c n) w' -> part_deleted (n_id n) c f ((c, n_id n) :: ps) w').
      { intros w' Hw. exists (removed f c n), ps', z'. repeat (split; [assumption|]). cbn [map snd]. now apply thinned_head. }
      apply wpc_bind. eapply wpc_get_next; [exact HR|lia|intros w' Hw; auto| |].
      2:{ intros x w' HFF [y ->] Hw. apply wpc_ret; [auto|]. apply HF; [exact HFF|exists y; reflexivity|auto]. }
      intros w1 HR1. unfold removed in *.
      inversion Hp as [c' E' E1 E2 E3|c' n2 ps2 z2 E' Hp2 E1 E2 E3]; subst; rewrite E' in *.
      - eapply wpc_delete_node; [exact HR1|exact Hc|auto|auto|auto|]. intros x w' HFF Hx [Hw|Hw]; auto.
      - destruct (Hwf kw (n_next n) n2 Hkw ltac:(lia) E') as (M1 & M2 & M3).
        pose proof (path_bounds f Hwf _ _ _ Hp2 ltac:(lia)) as (B1 & B2 & B3).
        assert (P5' : forall w', R (set_slot f kw c (Some n2)) w' -> part_deleted (n_id n) c f ((c, n_id n) :: (n_next n, n_id n2) :: ps2) w').
        { intros w' Hw. exists (set_slot f kw c (Some n2)), ((c, n_id n2) :: ps2), z. split; [exact Hw|].
          split; [apply wf_set; [exact Hwf|]; intros nd [= <-]; (split; [lia|split; [lia|exact M3]])|].
          split; [apply above_set; lia|]. split; [|cbn [map snd]; apply thinned_head; reflexivity].
          constructor; [apply set_same|]. eapply path_ext; [exact Hp2|]. intros k Hk.
          assert (n_next n2 <= k) by (destruct Hk as [Hk| ->]; [apply B3 in Hk; lia|lia]). apply set_other. intros [= H1]. lia. }
        eapply wpc_node_seal; [exact HR1|lia|apply text_node; apply M3|auto| |auto].
        intros sn w2 HR2 Ho. apply wpc_bindR. eapply wpc_update_node; [exact HR2|exact Hc|congruence|exact Ho|auto|auto| |].
        + intros w3 HR3. unfold lift. rewrite (next_label_ok iek Hiek). apply wpc_bindR, wpc_ret; [auto|].
          eapply wpc_delete_node; [exact HR3|lia|auto|auto|auto|]. intros x w' HFF Hx [Hw|Hw]; auto.
        + intros x w' HFF Hx [Hw|Hw]; auto.
    Qed.

    Lemma bytes_eqb_neq a c : bytes_eqb a c = false -> a <> c.
    Proof. intros H ->. rewrite (proj2 (bytes_eqb_eq c c) eq_refl) in H. discriminate. Qed.

    Lemma wpc_delete_loop x fuel : forall f cur ps z (Inv : W -> Prop) (Q : _ -> W -> Prop) w, R f w -> wf P b f -> n_next cur <= b ->
      path (f kw) (n_next cur) ps z -> (length ps < fuel)%nat ->
      (forall w', part_deleted x (n_next cur) f ps w' -> Inv w') ->
      (forall w', all_deleted x (n_next cur) f ps w' -> Q (Ok tt) w') ->
      (forall w', some_deleted x (n_next cur) f ps w' -> rng_failed e w' -> Q (Err ERandom) w') ->
      (forall y w', F -> fault y -> part_deleted x (n_next cur) f ps w' -> Q (Err y) w') ->
      wpc (delete_loop e io tk kek fuel cur x) Inv Q w.
    Proof.
      induction fuel as [|fuel IH]; intros f cur ps z Inv Q w HR Hwf Hc Hp Hl HI HQ HE HF; [lia|].
      assert (P0 : forall w', R f w' -> part_deleted x (n_next cur) f ps w').
      { intros w' Hw. exists f, ps, z. split; [exact Hw|]. split; [exact Hwf|]. split; [apply above_refl|].
        split; [exact Hp|]. apply thinned_refl. }
      cbn [delete_loop]. apply wpc_bind. eapply wpc_get_next; [exact HR|lia|auto| |].
      2:{ intros y w' HFF [y' ->] Hw. apply wpc_ret; [auto|]. apply HF; [exact HFF|exists y'; reflexivity|auto]. }
      intros w1 HR1. inversion Hp as [c Hn E1 E2 E3|c n ps' z' Hn Hp' E1 E2 E3]; subst; rewrite Hn.
      - apply wpc_ret; [auto|]. apply HQ. exists f, [], (n_next cur). split; [exact HR1|]. split; [exact Hwf|]. split; [apply above_refl|].
        split; [exact Hp|]. split; [reflexivity|apply leaner_refl].
      - destruct (Hwf kw (n_next cur) n Hkw ltac:(lia) Hn) as (L1 & L2 & L3).
        pose proof (path_bounds f Hwf _ _ _ Hp' ltac:(lia)) as (B1 & B2 & B3).
        destruct (bytes_eqb (n_id n) x) eqn:Ex.
        + apply bytes_eqb_eq in Ex. subst x.
          unfold lift. rewrite (next_label_ok iek Hiek). apply wpc_bindR, wpc_ret; [auto|].
          destruct (removed_ok f (n_next cur) n ps' z Hwf ltac:(lia) Hn Hp') as (ps2 & z2 & P1 & P2 & P3 & P4 & P5 & P6).
          apply wpc_bindR. eapply wpc_delete_one; [exact HR1|exact Hwf|lia|exact Hn|exact Hp'|exact HI| | |exact HF].
          * intros w2 HR2. eapply (IH (removed f (n_next cur) n) cur ps2 z2 Inv Q w2 HR2 P3 Hc P1).
            -- cbn [length] in Hl. lia.
            -- intros w' (f' & ps3 & z3 & H1 & H2 & H3 & H4 & H5). apply HI. exists f', ps3, z3. do 4 (split; [solve [eauto using above_trans]|]).
               cbn [map snd]. apply th_drop. now rewrite <- P2.
            -- intros w' (f' & ps3 & z3 & H1 & H2 & H3 & H4 & H5 & H6). apply HQ. exists f', ps3, z3. do 4 (split; [solve [eauto using above_trans]|]).
               split; [|eapply leaner_trans; eauto]. rewrite H5, P2. cbn [map snd without List.filter].
               unfold without. cbn [List.filter]. now rewrite (proj2 (bytes_eqb_eq _ _) eq_refl).
            -- intros w' (f' & ps3 & z3 & H1 & H2 & H3 & H4 & H5 & H6) RF. apply HE; [|exact RF]. exists f', ps3, z3. do 4 (split; [solve [eauto using above_trans]|]).
               split; [|eapply leaner_trans; eauto]. cbn [map snd]. apply th_drop. now rewrite <- P2.
            -- intros y w' HFF Hy (f' & ps3 & z3 & H1 & H2 & H3 & H4 & H5). apply HF; [exact HFF|exact Hy|].
               exists f', ps3, z3. do 4 (split; [solve [eauto using above_trans]|]). cbn [map snd]. apply th_drop. now rewrite <- P2.
          * intros w' Hw RF. apply HE; [|exact RF]. exists f, ((n_next cur, n_id n) :: ps'), z. split; [exact Hw|]. split; [exact Hwf|].
            split; [apply above_refl|]. split; [exact Hp|]. split; [apply thinned_refl|apply leaner_refl].
        + assert (Hprep : forall f' ps3 z3, above (n_next n) f f' -> path (f' kw) (n_next n) ps3 z3 -> path (f' kw) (n_next cur) ((n_next cur, n_id n) :: ps3) z3).
          { intros f' ps3 z3 A PP. constructor; [|exact PP]. rewrite A; [exact Hn|right; lia]. }
          assert (Hlean : forall f' ps3, above (n_next n) f f' -> leaner f ps' f' ps3 -> leaner f ((n_next cur, n_id n) :: ps') f' ((n_next cur, n_id n) :: ps3)).
          { intros f' ps3 A L k. destruct (N.eq_dec k (n_next cur)) as [->|Hne]; [right; left; now left|].
            destruct (L k) as [H|[H|[H1 H2]]]; [auto|right; left; now right|]. right. right. split; [|exact H2]. intros [H|H]; [cbn in H; congruence|contradiction]. }
          assert (Ha : forall f', above (n_next n) f f' -> above (n_next cur) f f') by (intros f'; apply above_le; lia).
          eapply (IH f n ps' z Inv Q w1 HR1 Hwf L2 Hp').
          * cbn [length] in Hl. lia.
          * intros w' (f' & ps3 & z3 & H1 & H2 & H3 & H4 & H5). apply HI. exists f', ((n_next cur, n_id n) :: ps3), z3. do 4 (split; [solve [eauto]|]).
            cbn [map snd]. now apply th_keep.
          * intros w' (f' & ps3 & z3 & H1 & H2 & H3 & H4 & H5 & H6). apply HQ. exists f', ((n_next cur, n_id n) :: ps3), z3. do 4 (split; [solve [eauto]|]).
            split; [|auto]. cbn [map snd]. unfold without. cbn [List.filter]. rewrite Ex. cbn [negb]. now rewrite H5.
          * intros w' (f' & ps3 & z3 & H1 & H2 & H3 & H4 & H5 & H6) RF. apply HE; [|exact RF]. exists f', ((n_next cur, n_id n) :: ps3), z3. do 4 (split; [solve [eauto]|]).
            split; [|auto]. cbn [map snd]. now apply th_keep.
          * intros y w' HFF Hy (f' & ps3 & z3 & H1 & H2 & H3 & H4 & H5). apply HF; [exact HFF|exact Hy|].
            exists f', ((n_next cur, n_id n) :: ps3), z3. do 4 (split; [solve [eauto]|]). cbn [map snd]. now apply th_keep.
    Qed.
  End Keyword.
End Slots.
