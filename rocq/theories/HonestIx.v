(** Index calls that are not given foreign tokens never decrypt anything the library did not encrypt. *)
From Coq Require Import ZifyN ZifyNat.
From stdpp Require Import gmap.
From Verif Require Import Bytes Go Json JsonProofs Types TypesProofs World Logic Cryptor CryptorProofs Io IoSpec IoProofs Id Data D1 D1Proofs
  Index IndexSpec IndexConcSpec IndexProofs IndexHist WpcFacts Honest.
Local Open Scope bool_scope.
Local Open Scope N_scope.
Local Open Scope go_scope.

Section HonestIx.
  Context {S I : Type} (e : env) (v : view S) (io : provider S) (Hio : io_spec False v io).
  Notation W := (world S I).
  Notation store_of w := (v_map v (w_io w)).
  Notation holds := (@holds S I v).
  Notation SN := DataTypeSealedNode.
  Notation sl := slice_bytes.
  Notation calmly := (@calmly S I).
  Context (idp : bytes -> prog W (res identity)) (Hidp : idp_reads v idp).
  Context (iek : bytes) (Hiek : blen iek = 32) (K : list bytes) (M : N) (HM : M < 2 ^ 64) (Hdiff : labels_differ iek K M).
  Notation lab := (lab iek).
  Notation tkey := (tkey iek).
  Notation ckey := (ckey iek).

  Definition node_logged (l : list entry) (kw : bytes) (c : N) (b0 : bytes) : Prop :=
    forall sn, unmarshal dec_sealed_node b0 = Some sn -> logged l (ckey kw) (print (jbytes (Some (lab kw c)))) (sl (sn_wk sn)) (sl (sn_ct sn)).
  Definition GN (b : N) (m : store) (l : list entry) : Prop := forall kw c b0, In kw K -> c <= M -> m (lab kw c) SN = Some b0 ->
    node_logged l kw c b0 /\ forall n, node_open (ckey kw) (lab kw c) b0 = Ok n -> n_next n <= b.

  Lemma GN_grow b m (w w' : W) : calmly w w' -> GN b m (w_log w) -> GN b m (w_log w').
  Proof.
    intros Hc H kw c b0 Hk Hcm Hb. destruct (H kw c b0 Hk Hcm Hb) as [A B]. split; [|exact B].
    intros sn Hs. eapply logged_calmly; [exact Hc|]. exact (A sn Hs).
  Qed.
  Lemma GN_seq b m m' l : (forall id, m id SN = m' id SN) -> GN b m l -> GN b m' l.
  Proof. intros E H kw c b0 Hk Hcm Hb. rewrite <- E in Hb. exact (H kw c b0 Hk Hcm Hb). Qed.
  Lemma GN_holds b m (w : W) : holds m w -> GN b m (w_log w) -> GN b (store_of w) (w_log w).
  Proof. intros [_ E]. apply GN_seq. intros id. symmetry. apply E. Qed.
  Lemma GN_le b b' m l : b <= b' -> GN b m l -> GN b' m l.
  Proof. intros Hb H kw c b0 Hk Hcm Hx. destruct (H kw c b0 Hk Hcm Hx) as [A B]. split; [exact A|]. intros n Hn. specialize (B n Hn). lia. Qed.
  Lemma GN_upd b m l kw c x : GN b m l -> In kw K -> c <= M ->
    (forall b0, x = Some b0 -> node_logged l kw c b0 /\ forall n, node_open (ckey kw) (lab kw c) b0 = Ok n -> n_next n <= b) ->
    GN b (upd m (lab kw c) SN x) l.
  Proof.
    intros H Hk Hc Hx kw' c' b0 Hk' Hc' Hb. destruct (decide (kw' = kw /\ c' = c)) as [[-> ->]|Hne].
    - rewrite upd_same in Hb. now apply Hx.
    - rewrite upd_other in Hb; [exact (H kw' c' b0 Hk' Hc' Hb)|]. intros [= E]. apply Hne. now apply (lab_inj iek Hiek K M Hdiff).
  Qed.

  Definition ixfine (b : N) (w w' : W) : Prop := GN b (store_of w') (w_log w') /\ calmly w w'.
  Lemma ixfine_of b m w w' : GN b m (w_log w) -> holds m w' -> calmly w w' -> ixfine b w w'.
  Proof. intros HH H C. split; [|exact C]. apply (GN_holds b m); [exact H|]. eapply GN_grow; eauto. Qed.

  Section Keyword.
    Context (kw : bytes) (Hk : In kw K).
    Notation tk := (tkey kw).
    Notation kek := (ckey kw).

    Lemma end_next b n (w : W) m : n_next n <= M -> holds m w -> GN b m (w_log w) ->
      ends (get_next_node e io tk kek n) (fun r w' => holds m w' /\ calmly w w' /\ forall n', r = Ok n' -> n_next n' <= b) w.
    Proof.
      intros Hn H HG. unfold get_next_node, lift. rewrite (next_label_ok iek Hiek). apply ends_bindR. unfold ends at 1. cbn [run fst snd].
      apply ends_bindR. unfold get_sealed_node. apply ends_bindR, ends_map_err.
      eapply ends_mono; [|apply (end_get v io Hio (lab kw (n_next n)) SN w m eq_refl H)]. intros r w1 (H1 & C1 & ->).
      destruct (m (lab kw (n_next n)) SN) as [b0|] eqn:Eb; [|split; [exact H1|split; [exact C1|discriminate]]].
      destruct (unmarshal dec_sealed_node b0) as [sn|] eqn:Eu; [|split; [exact H1|split; [exact C1|discriminate]]].
      unfold ends at 1. cbn [run fst snd]. destruct (HG kw (n_next n) b0 Hk Hn Eb) as [A B]. unfold node_unseal.
      eapply ends_mono; [|apply (end_dec e v kek dec_node (jbytes (Some (lab kw (n_next n)))) (sn_wk sn) (sn_ct sn) w1 m H1)].
      2:{ eapply logged_calmly; [exact C1|]. exact (A sn Eu). }
      intros r w2 (H2 & C2 & E). split; [exact H2|]. split; [eapply calmly_trans; eauto|]. intros n' ->. apply B. unfold node_open. now rewrite Eu.
    Qed.

    Lemma end_last b fuel : b <= M -> forall n (w : W) m, n_next n <= b -> holds m w -> GN b m (w_log w) ->
      ends (get_last_node e io tk kek fuel n) (fun r w' => holds m w' /\ calmly w w' /\ forall n', r = Ok n' -> n_next n' <= b) w.
    Proof.
      intros HbM. induction fuel as [|fuel IH]; intros n w m Hn H HG; cbn [get_last_node].
      - unfold ends. cbn [run fst snd]. split; [exact H|]. split; [apply calmly_refl|discriminate].
      - apply ends_bind. eapply ends_mono; [|apply (end_next b n w m ltac:(lia) H HG)]. intros [n'|x|] w1 (H1 & C1 & B).
        + eapply ends_mono; [|apply (IH n' w1 m (B n' eq_refl) H1)]; [|eapply GN_grow; eauto].
          intros r w2 (H2 & C2 & B2). split; [exact H2|]. split; [eapply calmly_trans; eauto|exact B2].
        + assert (X : forall r : res node, (forall n', r = Ok n' -> n_next n' <= b) ->
            ends (Ret r) (fun r w' => holds m w' /\ calmly w w' /\ forall n', r = Ok n' -> n_next n' <= b) w1) by (intros r Hr; split; auto).
          destruct x; apply X; try discriminate. intros n' [= <-]. exact Hn.
        + split; [exact H1|split; [exact C1|discriminate]].
    Qed.
    Lemma end_search b fuel : b <= M -> forall n acc (w : W) m, n_next n <= b -> holds m w -> GN b m (w_log w) ->
      ends (search_loop e io tk kek fuel n acc) (fun _ w' => holds m w' /\ calmly w w') w.
    Proof.
      intros HbM. induction fuel as [|fuel IH]; intros n acc w m Hn H HG; cbn [search_loop].
      - split; [exact H|apply calmly_refl].
      - apply ends_bind. eapply ends_mono; [|apply (end_next b n w m ltac:(lia) H HG)]. intros [n'|x|] w1 (H1 & C1 & B).
        + eapply ends_mono; [|apply (IH n' _ w1 m (B n' eq_refl) H1)]; [|eapply GN_grow; eauto].
          intros r w2 (H2 & C2). split; [exact H2|]. eapply calmly_trans; eauto.
        + assert (X : forall r : res (list bytes), ends (Ret r) (fun r w' => holds m w' /\ calmly w w') w1) by (intros r; split; auto).
          destruct x; apply X.
        + split; auto.
    Qed.
    Lemma end_node_seal {B} n c (kk : sealed_node -> prog W (res B)) (Q : res B -> W -> Prop) (w : W) m : n_next n < 2 ^ 64 -> holds m w ->
      (forall r w', holds m w' -> calmly w w' -> Q r w') ->
      (forall sn w', holds m w' -> calmly w w' -> node_logged (w_log w') kw c (print (enc_sealed_node sn)) ->
         (forall n', node_open kek (lab kw c) (print (enc_sealed_node sn)) = Ok n' -> n_next n' = n_next n) -> ends (kk sn) Q w') ->
      ends (bindR (node_seal (aes_cryptor e kek) n (lab kw c)) kk) Q w.
    Proof.
      intros Hn H HE HK. apply ends_bindR. unfold node_seal. apply ends_bindR.
      eapply ends_mono; [|apply (end_enc e v kek (enc_node n) (jbytes (Some (lab kw c))) w m H)].
      intros [[wk ct]|x|] w1 (H1 & C1 & L); [|apply HE; auto..]. destruct L as [L O]. unfold ends at 1. cbn [run fst snd]. apply HK; auto.
      - intros sn E. rewrite sealed_node_roundtrip in E. injection E as <-. exact L.
      - intros n' E. rewrite (node_reopen kek n (lab kw c) wk ct Hn O) in E. injection E as <-. reflexivity.
    Qed.
    Lemma node_ne sn : print (enc_sealed_node sn) <> [].
    Proof. apply print_obj_nonempty. Qed.
    Lemma end_delete_node b c n (w : W) m : b <= M -> c <= M -> n_next n <= b -> holds m w -> GN b m (w_log w) ->
      ends (delete_node e io tk kek (lab kw c) n) (fun _ w' => exists m', holds m' w' /\ GN b m' (w_log w') /\ calmly w w') w.
    Proof.
      intros HbM Hc Hn H HG. unfold delete_node. apply ends_bind. eapply ends_mono; [|apply (end_next b n w m ltac:(lia) H HG)].
      intros [n'|x|] w1 (H1 & C1 & B1).
      - specialize (B1 n' eq_refl). apply (end_node_seal n' c _ _ w1 m ltac:(lia) H1).
        { intros r w2 H2 C2. exists m. split; [exact H2|]. pose proof (calmly_trans _ _ _ C1 C2) as C. split; [eapply GN_grow; eauto|exact C]. }
        intros sn w2 H2 C2 A2 B2. pose proof (calmly_trans _ _ _ C1 C2) as C02. apply ends_bindR. unfold put_sealed_node. apply ends_map_err.
        eapply ends_mono; [|apply (end_update v io Hio (lab kw c) SN _ w2 m eq_refl (node_ne _) H2)].
        intros r w3 [C3 [(N & -> & H3)|(N & -> & H3)]]; pose proof (calmly_trans _ _ _ C02 C3) as C03.
        2:{ exists m. split; [exact H3|]. split; [eapply GN_grow; eauto|exact C03]. }
        assert (G3 : GN b (upd m (lab kw c) SN (Some (print (enc_sealed_node sn)))) (w_log w3)).
        { apply GN_upd; [eapply GN_grow; eauto|exact Hk|exact Hc|]. intros b0 E. apply (inj Some) in E. subst b0. split.
          - intros s Hs. eapply logged_calmly; [exact C3|]. exact (A2 s Hs).
          - intros n2 E2. rewrite (B2 n2 E2). exact B1. }
        apply ends_bindR. unfold lift. rewrite (next_label_ok iek Hiek). unfold ends at 1. cbn [run fst snd]. unfold delete_sealed_node.
        eapply ends_mono; [|apply (end_delete v io Hio _ SN w3 _ eq_refl H3)]. intros r w4 (C4 & _ & H4). eexists. split; [exact H4|].
        split; [|eapply calmly_trans; eauto]. apply GN_upd; [eapply GN_grow; eauto|exact Hk|lia|discriminate].
      - assert (D : ends (delete_sealed_node io (lab kw c)) (fun _ w' => exists m', holds m' w' /\ GN b m' (w_log w') /\ calmly w w') w1).
        { unfold delete_sealed_node. eapply ends_mono; [|apply (end_delete v io Hio _ SN w1 _ eq_refl H1)]. intros r w2 (C2 & _ & H2). eexists. split; [exact H2|].
          pose proof (calmly_trans _ _ _ C1 C2) as C. split; [|exact C]. apply GN_upd; [eapply GN_grow; eauto|exact Hk|exact Hc|discriminate]. }
        assert (X : forall r : res unit, ends (Ret r) (fun _ w' => exists m', holds m' w' /\ GN b m' (w_log w') /\ calmly w w') w1).
        { intros r. exists m. split; [exact H1|]. split; [eapply GN_grow; eauto|exact C1]. }
        destruct x; first [exact D|apply X].
      - exists m. split; [exact H1|]. split; [eapply GN_grow; eauto|exact C1].
    Qed.
    Lemma end_delete_loop b x fuel : b <= M -> forall n (w : W) m, n_next n <= b -> holds m w -> GN b m (w_log w) ->
      ends (delete_loop e io tk kek fuel n x) (fun _ w' => exists m', holds m' w' /\ GN b m' (w_log w') /\ calmly w w') w.
    Proof.
      intros HbM. induction fuel as [|fuel IH]; intros n w m Hn H HG; cbn [delete_loop].
      - exists m. split; [exact H|]. split; [exact HG|apply calmly_refl].
      - apply ends_bind. eapply ends_mono; [|apply (end_next b n w m ltac:(lia) H HG)]. intros [n'|y|] w1 (H1 & C1 & B).
        + assert (KK : forall n2 w2 m2, n_next n2 <= b -> holds m2 w2 -> GN b m2 (w_log w2) -> calmly w w2 ->
            ends (delete_loop e io tk kek fuel n2 x) (fun _ w' => exists m', holds m' w' /\ GN b m' (w_log w') /\ calmly w w') w2).
          { intros n2 w2 m2 Hn2 H2 G2 C2. eapply ends_mono; [|apply (IH n2 w2 m2 Hn2 H2 G2)]. intros r w3 (m3 & H3 & G3 & C3).
            exists m3. split; [exact H3|]. split; [exact G3|eapply calmly_trans; eauto]. }
          destruct (bytes_eqb (n_id n') x); [|apply (KK n' w1 m (B n' eq_refl) H1); [eapply GN_grow; eauto|exact C1]].
          apply ends_bindR. unfold lift. rewrite (next_label_ok iek Hiek). unfold ends at 1. cbn [run fst snd]. apply ends_bindR.
          eapply ends_mono; [|apply (end_delete_node b (n_next n) n' w1 m HbM ltac:(lia) (B n' eq_refl) H1)]; [|eapply GN_grow; eauto].
          intros [u|y|] w2 (m2 & H2 & G2 & C2); pose proof (calmly_trans _ _ _ C1 C2) as C02; [|exists m2; auto..].
          now apply (KK n w2 m2 Hn).
        + assert (X : forall r : res unit, ends (Ret r) (fun _ w' => exists m', holds m' w' /\ GN b m' (w_log w') /\ calmly w w') w1).
          { intros r. exists m. split; [exact H1|]. split; [eapply GN_grow; eauto|exact C1]. }
          destruct y; apply X.
        + exists m. split; [exact H1|]. split; [eapply GN_grow; eauto|exact C1].
    Qed.
  End Keyword.

  Lemma honest_ix b fuel c (w : W) : v_inv v (w_io w) -> GN b (store_of w) (w_log w) -> b + is_add c <= M -> In (ix_keyword c) K ->
    quiet_lookup idp (ix_token c) w -> ends (ix_do e io idp iek fuel c) (fun _ w' => ixfine (b + is_add c) w w') w.
  Proof.
    intros Hi HG Hb Hk Hq. pose proof (holds_self v w Hi) as H.
    assert (FIN : forall w', holds (store_of w) w' -> calmly w w' -> ixfine (b + is_add c) w w').
    { intros w' X Y. eapply ixfine_of; eauto. eapply GN_le; [|exact HG]. lia. }
    assert (RM : forall A (f : A -> ix_reply) (p : prog W (res A)), ends p (fun _ w' => ixfine (b + is_add c) w w') w ->
      ends (ret_map f p) (fun _ w' => ixfine (b + is_add c) w w') w).
    { intros A f p Hp. unfold ret_map. apply ends_bind. eapply ends_mono; [|exact Hp]. intros r w' X. exact X. }
    assert (VF : forall B tok (k : unit -> prog W (res B)), ix_token c = tok ->
      (forall w1, holds (store_of w) w1 -> calmly w w1 -> ends (k tt) (fun _ w' => ixfine (b + is_add c) w w') w1) ->
      ends (bindR (ix_verify idp tok) k) (fun _ w' => ixfine (b + is_add c) w w') w).
    { intros B tok k <- HK. apply ends_bindR. unfold ix_verify. apply ends_bind. eapply ends_mono; [|apply (end_idp v idp Hidp _ w _ H Hq)].
      intros [i|x|] w1 (H1 & C1); [|apply FIN; auto..]. destruct (scope_contains _ _); [apply HK; auto|apply FIN; auto]. }
    destruct c as [tok kw x|tok kw|tok kw x]; cbn [ix_do ix_token ix_keyword is_add] in *; apply RM.
    - unfold ix_add. apply (VF _ _ _ eq_refl). intros w1 H1 C1. apply ends_bindR. unfold lift at 1. rewrite (ix_keys_ok iek Hiek).
      unfold ends at 1. cbn [run fst snd]. apply ends_bindR.
      eapply ends_mono; [|apply (end_last kw Hk b fuel ltac:(lia) node_zero w1 _ ltac:(cbn; lia) H1)]; [|eapply GN_grow; eauto].
      intros [last|y|] w2 (H2 & C2 & B2); pose proof (calmly_trans _ _ _ C1 C2) as C02; [|apply FIN; auto..]. specialize (B2 last eq_refl).
      apply ends_bindR. unfold lift. rewrite (next_label_ok iek Hiek). unfold ends at 1. cbn [run fst snd].
      assert (EU : u64_succ (n_next last) = n_next last + 1) by (unfold u64_succ; apply N.mod_small; lia).
      apply (end_node_seal kw (mkNode x (u64_succ (n_next last))) (n_next last) _ _ w2 (store_of w)); [cbn [n_next]; lia|exact H2| |].
      { intros r w3 H3 C3. apply FIN; [exact H3|eapply calmly_trans; eauto]. }
      intros sn w3 H3 C3 A3 B3. pose proof (calmly_trans _ _ _ C02 C3) as C03. unfold put_sealed_node. apply ends_map_err.
      eapply ends_mono; [|apply (end_put v io Hio (lab kw (n_next last)) SN _ w3 _ eq_refl (node_ne _) H3)].
      intros r w4 [C4 [(N & -> & H4)|(N & -> & H4)]]; pose proof (calmly_trans _ _ _ C03 C4) as C04; [|apply FIN; auto].
      split; [|exact C04]. apply (GN_holds _ _ _ H4). apply GN_upd; [eapply GN_le; [|eapply GN_grow; eauto]; lia|exact Hk|lia|].
      intros b0 E. apply (inj Some) in E. subst b0. split.
      + intros s Hs. eapply logged_calmly; [exact C4|]. exact (A3 s Hs).
      + intros n2 E2. rewrite (B3 n2 E2). cbn [n_next]. lia.
    - unfold ix_search. apply (VF _ _ _ eq_refl). intros w1 H1 C1. apply ends_bindR. unfold lift at 1. rewrite (ix_keys_ok iek Hiek).
      unfold ends at 1. cbn [run fst snd]. eapply ends_mono; [|apply (end_search kw Hk b fuel ltac:(lia) node_zero [] w1 _ ltac:(cbn; lia) H1)]; [|eapply GN_grow; eauto].
      intros r w2 (H2 & C2). apply FIN; [exact H2|eapply calmly_trans; eauto].
    - unfold ix_delete. apply (VF _ _ _ eq_refl). intros w1 H1 C1. apply ends_bindR. unfold lift at 1. rewrite (ix_keys_ok iek Hiek).
      unfold ends at 1. cbn [run fst snd]. eapply ends_mono; [|apply (end_delete_loop kw Hk b x fuel ltac:(lia) node_zero w1 _ ltac:(cbn; lia) H1)]; [|eapply GN_grow; eauto].
      intros r w2 (m2 & H2 & G2 & C2). split; [|eapply calmly_trans; eauto]. apply (GN_holds _ _ _ H2). eapply GN_le; [|exact G2]. lia.
  Qed.
End HonestIx.
