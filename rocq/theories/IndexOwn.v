(** One index call among others: while nobody else touches the nodes of its keyword, it does what it
    does when it runs alone. *)
From Coq Require Import ZifyN ZifyNat.
From stdpp Require Import gmap.
From Verif Require Import Bytes Go Json JsonProofs Types TypesProofs World Logic Kwp Kmac
  Cryptor CryptorProofs IoSpec IoProofs Id Data D1 D1Proofs Spec SpecProofs Index IndexSpec IndexProofs
  IndexConcSpec D1ConcSpec IndexOwnSpec.
Local Open Scope bool_scope.
Local Open Scope N_scope.

Definition any : bytes -> bytes -> Prop := fun _ _ => True.

Section Own.
  Context {S I : Type} (e : env) (v : view S) (io : provider S) (Hio : cell_storage v io).
  Notation W := (world S I).
  Notation SN := DataTypeSealedNode.
  Context (iek : bytes) (Hiek : blen iek = 32) (kw : bytes) (M : N) (HM : M < 2 ^ 64).
  Context (Hdiff : forall c c', c <= M -> c' <= M -> lab iek kw c = lab iek kw c' -> c = c').
  Notation lab := (lab iek).
  Notation tk := (tkey iek kw).
  Notation kek := (ckey iek kw).
  Notation wf := (wf [kw] M any).
  (** What the entries of the keyword contain. *)
  Notation cells := (N -> option bytes).
  Implicit Types (g : cells) (f : slots) (w : W).

  Definition kept g w : Prop := v_inv v (w_io w) /\ forall c, c <= M -> v_map v (w_io w) (lab kw c) SN = g c.
  Definition beside w w' : Prop := forall id, (forall c, c <= M -> id <> lab kw c) -> v_map v (w_io w') id SN = v_map v (w_io w) id SN.
  (** Programs that touch nothing but the nodes of the keyword, and if [ro] not even those. *)
  Fixpoint own {A} (ro : bool) (p : prog W A) g (Q : A -> cells -> Prop) : Prop :=
    match p with
    | Ret a => Q a g
    | Step h k => forall w, kept g w -> exists g', (ro = true -> g' = g) /\ kept g' (snd (h w)) /\ beside w (snd (h w)) /\ own ro (k (fst (h w))) g' Q
    end.

  Lemma own_mono {A} ro (p : prog W A) (Q Q' : A -> cells -> Prop) : (forall a g, Q a g -> Q' a g) -> forall g, own ro p g Q -> own ro p g Q'.
  Proof.
    intros HQ. induction p as [a|X h k IH]; cbn [own]; intros g H; [auto|]. intros w Hw. destruct (H w Hw) as (g' & H1 & H2 & H3 & H4). eauto 6.
  Qed.
  Lemma own_bind {A B} ro (p : prog W A) (q : A -> prog W B) Q : forall g, own ro p g (fun a g' => own ro (q a) g' Q) -> own ro (bind p q) g Q.
  Proof. induction p as [a|X h k IH]; cbn [own bind]; intros g H; [exact H|]. intros w Hw. destruct (H w Hw) as (g' & H1 & H2 & H3 & H4). eauto 6. Qed.
  Lemma own_bindR {A B} ro (p : prog W (res A)) (q : A -> prog W (res B)) Q g :
    own ro p g (fun r g' => match r with Ok a => own ro (q a) g' Q | Err x => Q (Err x) g' | Panic => Q Panic g' end) -> own ro (bindR p q) g Q.
  Proof. intros H. unfold bindR. apply own_bind. eapply own_mono; [|exact H]. intros [a|x|] g'; cbn [own]; auto. Qed.
  Lemma own_map_err {A} ro h (p : prog W (res A)) (Q : res A -> cells -> Prop) g :
    own ro p g (fun r g' => Q match r with Err x => Err (h x) | r => r end g') -> own ro (map_err h p) g Q.
  Proof. intros H. unfold map_err. apply own_bind. eapply own_mono; [|exact H]. intros [a|x|] g'; cbn [own]; auto. Qed.

  Lemma kept_around g w w' : ix_around v w w' -> kept g w -> kept g w'.
  Proof. intros [H1 H2] [_ H]. split; [exact H1|]. intros c Hc. rewrite H2. auto. Qed.
  Lemma beside_around w w' : ix_around v w w' -> beside w w'.
  Proof. intros [_ H] id _. auto. Qed.

  (** Programs that do not touch nodes at all. *)
  Lemma own_answers {B} ro (p : prog W B) (Q : B -> Prop) g : ix_answers v p Q -> own ro p g (fun b g' => g' = g /\ Q b).
  Proof.
    revert g. induction p as [b|X h k IH]; cbn [own ix_answers]; intros g H; [auto|]. intros w Hw. destruct (H w (proj1 Hw)) as [H1 H2].
    exists g. split; [auto|]. split; [eapply kept_around; eauto|]. split; [now apply beside_around|]. apply IH, H2.
  Qed.
  Lemma ans_mono {B} (p : prog W B) (Q Q' : B -> Prop) : (forall b, Q b -> Q' b) -> ix_answers v p Q -> ix_answers v p Q'.
  Proof. intros HQ. induction p as [b|X f q IH]; cbn [ix_answers]; [auto|]. intros H w Hw. destruct (H w Hw). auto. Qed.
  Lemma ans_bind {B C} (p : prog W B) (q : B -> prog W C) Q : ix_answers v p (fun b => ix_answers v (q b) Q) -> ix_answers v (bind p q) Q.
  Proof. induction p as [b|X f c IH]; cbn [ix_answers bind]; [auto|]. intros H w Hw. destruct (H w Hw). auto. Qed.
  Lemma ans_bindR {B C} (p : prog W (res B)) (q : B -> prog W (res C)) Q :
    ix_answers v p (fun r => match r with Ok a => ix_answers v (q a) Q | Err x => Q (Err x) | Panic => Q Panic end) -> ix_answers v (bindR p q) Q.
  Proof. intros H. unfold bindR. apply ans_bind. eapply ans_mono; [|exact H]. intros [a|x|]; cbn [ix_answers]; auto. Qed.
  Lemma ans_act {B} (f : W -> B * W) (Q : B -> Prop) : (forall w, w_io (snd (f w)) = w_io w /\ Q (fst (f w))) -> ix_answers v (act f) Q.
  Proof. intros H w Hw. destruct (H w) as (E & HQ). split; [|exact HQ]. unfold ix_around. rewrite E. auto. Qed.
  Definition dead : Prop := exists i n, draw e i n = Err ERandom.
  Lemma ans_get_bytes n : ix_answers v (get_bytes e n : prog W _) (fun r => (exists b, r = Ok b /\ length b = N.to_nat n) \/ (r = Err ERandom /\ dead)).
  Proof.
    unfold get_bytes. apply ans_act. intros w. split; [reflexivity|]. cbn [fst].
    destruct (draw_cases e (w_draws w) n) as [(b & E & L)|E]; rewrite E; [eauto|]. right. split; [reflexivity|]. eexists _, _. exact E.
  Qed.
  Lemma ans_aes_enc key pt aad : ix_answers v (aes_enc e key pt aad : prog W _) (fun r => (exists wk ct, r = Ok (wk, ct) /\ aes_open key aad wk ct = Ok pt) \/ (r = Err ERandom /\ dead)).
  Proof.
    unfold aes_enc. apply ans_bindR. eapply ans_mono; [|apply ans_get_bytes]. intros r [(k1 & -> & Lk)|[-> HR]]; [|auto].
    apply ans_bindR. eapply ans_mono; [|apply ans_get_bytes]. intros r [(nonce & -> & Ln)|[-> HR]]; [|auto].
    destruct (aes_seal_open key pt aad k1 nonce Lk Ln) as (wk & ct & Hs & Ho & _). unfold aes_seal in Hs. unfold lift.
    destruct (Gcm.aes_gcm_encrypt pt aad k1 nonce) as [ct'| |] eqn:Ec; cbn [res_bind] in Hs; try discriminate.
    destruct (Kwp.aes_kwp_wrap key k1) as [wk'| |] eqn:Ew; cbn [res_bind] in Hs; try discriminate.
    injection Hs as -> ->. apply ans_bindR. cbn [ix_answers]. apply ans_bindR. cbn [ix_answers]. apply ans_bind, ans_act. intros w. split; [reflexivity|].
    cbn [ix_answers]. eauto.
  Qed.
  Lemma ans_node_seal (n : node) label : n_next n < 2 ^ 64 ->
    ix_answers v (node_seal (aes_cryptor e kek) n label : prog W _) (fun r =>
      (exists sn, r = Ok sn /\ node_open kek label (print (enc_sealed_node sn)) = Ok (mkNode (as_text (n_id n)) (n_next n))) \/ (r = Err ERandom /\ dead)).
  Proof.
    intros Hn. unfold node_seal, encrypt_json. cbn [c_enc aes_cryptor]. apply ans_bindR. eapply ans_mono; [|apply ans_aes_enc].
    intros r [(wk & ct & -> & Ho)|[-> HR]]; [|auto]. cbn [ix_answers]. left. eexists. split; [reflexivity|]. now apply node_reopen.
  Qed.
  Lemma ans_decrypt_json {A} key (dec : json -> option A) aad wk ct : ix_answers v (decrypt_json (aes_cryptor e key) dec aad wk ct : prog W _) (fun r => r = open_json key dec aad wk ct).
  Proof.
    unfold decrypt_json, open_json. apply ans_bindR. cbn [c_dec aes_cryptor]. unfold aes_dec. apply ans_act. intros w.
    split; [destruct (_ && _); reflexivity|]. cbn [fst]. destruct (aes_open _ _ _ _) as [pt|x|]; cbn [res_bind]; try reflexivity.
    destruct (unmarshal dec pt); reflexivity.
  Qed.

  (** ** Storage *)
  Definition put_cell g (c : N) (x : option bytes) : cells := fun c' => if c' =? c then x else g c'.
  Lemma kept_write g w w' c y : c <= M -> kept g w -> v_inv v (w_io w') -> seq (v_map v (w_io w')) (upd (v_map v (w_io w)) (lab kw c) SN y) ->
    kept (put_cell g c y) w' /\ beside w w'.
  Proof.
    intros Hc [_ H] H1 H2. split.
    - split; [exact H1|]. intros c' Hc'. rewrite H2. unfold put_cell. destruct (N.eqb_spec c' c) as [->|Hne]; [apply upd_same|].
      rewrite upd_other; [auto|]. intros [= E]. apply Hne, Hdiff; auto.
    - intros id Hid. rewrite H2. apply upd_other. intros [= E]. exact (Hid c Hc E).
  Qed.
  Lemma own_get c g : c <= M -> own true (on_io (io_get io (lab kw c) SN)) g (fun r g' => g' = g /\ r = match g c with Some b => Ok b | None => Err EIoNotFound end).
  Proof.
    intros Hc. pose proof (cell_get v io Hio (lab kw c) SN eq_refl) as H. destruct (io_get io (lab kw c) SN) as [|X h k]; [contradiction|].
    cbn [on_io own]. intros w Hw. destruct (H (w_io w) (proj1 Hw)) as (H1 & H2 & H3). destruct (h (w_io w)) as [x s] eqn:Eh. cbn [fst snd] in *.
    exists g. split; [auto|]. split; [|split].
    - split; [exact H1|]. intros c' Hc'. cbn [w_io set_io]. rewrite H2. apply Hw. exact Hc'.
    - intros id _. apply H2.
    - rewrite H3. cbn [on_io own]. split; [reflexivity|]. destruct Hw as [_ Hw]. now rewrite Hw.
  Qed.
  Lemma own_weaken {A} (p : prog W A) Q : forall g, own true p g Q -> own false p g Q.
  Proof.
    induction p as [a|X h k IH]; cbn [own]; intros g H; [exact H|]. intros w Hw. destruct (H w Hw) as (g' & H1 & H2 & H3 & H4). exists g'. split; [discriminate|auto].
  Qed.
  Lemma own_write c new r : c <= M -> forall p g, one_write v (lab kw c) SN (g c) new r p ->
    own false (on_io p) g (fun x g' => x = r /\ g' = match new with Some y => put_cell g c y | None => g end).
  Proof.
    intros Hc p. induction p as [x|X h k IH]; intros g H; cbn [one_write on_io own] in *; [destruct H as [-> ->]; auto|].
    intros w Hw. destruct (H (w_io w) (proj1 Hw)) as (H1 & H2); [apply Hw, Hc|]. destruct (h (w_io w)) as [x s] eqn:Eh. cbn [fst snd] in *.
    destruct H2 as [[H2 H3]|(y & -> & H2 & H3)].
    - exists g. split; [discriminate|]. split; [split; [exact H1|]; intros c' Hc'; cbn [w_io set_io]; rewrite H2; now apply Hw|].
      split; [intros id _; apply H2|]. apply IH, H3.
    - exists (put_cell g c y). split; [discriminate|]. destruct (kept_write g w (set_io w s) c y Hc Hw H1 H2) as [K1 K2]. split; [exact K1|]. split; [exact K2|].
      rewrite H3. cbn [on_io own]. auto.
  Qed.

  (** ** Nodes *)
  Definition shows g f : Prop := forall c, c <= M ->
    match f kw c with None => g c = None | Some n => exists x, g c = Some x /\ node_open kek (lab kw c) x = Ok n end.
  Lemma shows_set g f c x n : shows g f -> match n with None => x = None | Some nd => exists y, x = Some y /\ node_open kek (lab kw c) y = Ok nd end ->
    shows (put_cell g c x) (set_slot f kw c n).
  Proof.
    intros H Hx c' Hc'. unfold put_cell. destruct (N.eqb_spec c' c) as [->|Hne]; [rewrite set_same; exact Hx|].
    rewrite set_other by congruence. now apply H.
  Qed.

  Lemma own_get_next f g cur : shows g f -> n_next cur <= M ->
    own true (get_next_node e io tk kek cur) g (fun r g' => g' = g /\ r = match f kw (n_next cur) with Some n => Ok n | None => Err EIxNodeNotFound end).
  Proof.
    intros Hs Hc. unfold get_next_node, lift. rewrite (next_label_ok iek Hiek). apply own_bindR. cbn [own]. apply own_bindR. unfold get_sealed_node.
    apply own_bindR, own_map_err. eapply own_mono; [|apply own_get; exact Hc]. intros r g' [-> ->]. pose proof (Hs (n_next cur) Hc) as Hk.
    destruct (f kw (n_next cur)) as [n|].
    - destruct Hk as (x & -> & Ho). unfold node_open in Ho. destruct (unmarshal dec_sealed_node x) as [sn|]; [|discriminate]. cbn [own].
      unfold node_unseal. eapply own_mono; [|apply own_answers, ans_decrypt_json]. intros r g' [-> ->]. auto.
    - rewrite Hk. cbn. unfold replace_err. destruct (decide _); [auto|congruence].
  Qed.
  Lemma own_ro {A} ro (p : prog W A) Q g : own true p g Q -> own ro p g Q.
  Proof. destruct ro; [auto|apply own_weaken]. Qed.
  Lemma own_put_node f g c n sn : shows g f -> c <= M -> f kw c = None -> node_open kek (lab kw c) (print (enc_sealed_node sn)) = Ok n ->
    own false (put_sealed_node io (lab kw c) sn false) g (fun r g' => r = Ok tt /\ shows g' (set_slot f kw c (Some n))).
  Proof.
    intros Hs Hc Hf Ho. unfold put_sealed_node. apply own_map_err.
    assert (Eg : g c = None) by (pose proof (Hs c Hc) as Hk; now rewrite Hf in Hk).
    eapply own_mono; [|apply own_write; [exact Hc|rewrite Eg; apply (cell_put v io Hio); [reflexivity|apply print_obj_nonempty]]].
    intros r g' [-> ->]. split; [reflexivity|]. apply shows_set; [exact Hs|]. eauto.
  Qed.
  Lemma own_update_node f g c n sn : shows g f -> c <= M -> f kw c <> None -> node_open kek (lab kw c) (print (enc_sealed_node sn)) = Ok n ->
    own false (put_sealed_node io (lab kw c) sn true) g (fun r g' => r = Ok tt /\ shows g' (set_slot f kw c (Some n))).
  Proof.
    intros Hs Hc Hf Ho. unfold put_sealed_node. apply own_map_err. pose proof (Hs c Hc) as Hk. destruct (f kw c) as [n0|]; [|congruence]. destruct Hk as (x & Eg & _).
    eapply own_mono; [|apply own_write; [exact Hc|rewrite Eg; apply (cell_update v io Hio); [reflexivity|apply print_obj_nonempty]]].
    intros r g' [-> ->]. split; [reflexivity|]. apply shows_set; [exact Hs|]. eauto.
  Qed.
  Lemma own_delete_node f g c : shows g f -> c <= M ->
    own false (delete_sealed_node io (lab kw c)) g (fun r g' => r = Ok tt /\ shows g' (set_slot f kw c None)).
  Proof.
    intros Hs Hc. unfold delete_sealed_node. eapply own_mono; [|apply own_write; [exact Hc|apply (cell_delete v io Hio); reflexivity]].
    intros r g' [-> ->]. split; [reflexivity|]. now apply shows_set.
  Qed.

  (** ** The loops *)
  Context (b : N) (Hb : b <= M).
  Lemma Hkw : In kw [kw].
  Proof. now left. Qed.
  Lemma own_get_last fuel : forall f g cur ps z, shows g f -> wf b f -> n_next cur <= b -> path (f kw) (n_next cur) ps z -> (length ps < fuel)%nat ->
    own true (get_last_node e io tk kek fuel cur) g (fun r g' => g' = g /\ exists last, r = Ok last /\ n_next last = z).
  Proof.
    induction fuel as [|fuel IH]; intros f g cur ps z Hs Hwf Hc Hp Hl; [lia|]. cbn [get_last_node]. apply own_bind.
    eapply own_mono; [|eapply own_get_next; [exact Hs|lia]]. intros r g' [-> ->].
    inversion Hp as [c Hn E1 E2 E3|c n ps' z' Hn Hp' E1 E2 E3]; rewrite Hn.
    - cbn [own]. split; [reflexivity|]. eexists. split; [reflexivity|congruence].
    - subst ps. cbn [length] in Hl. eapply IH; [exact Hs|exact Hwf| |exact Hp'|lia]. apply (Hwf kw (n_next cur) n Hkw); [lia|exact Hn].
  Qed.
  Lemma own_search fuel : forall f g cur ps z found, shows g f -> wf b f -> n_next cur <= b -> path (f kw) (n_next cur) ps z -> (length ps < fuel)%nat ->
    own true (search_loop e io tk kek fuel cur found) g (fun r g' => g' = g /\ r = Ok (found ++ map snd ps)).
  Proof.
    induction fuel as [|fuel IH]; intros f g cur ps z found Hs Hwf Hc Hp Hl; [lia|]. cbn [search_loop]. apply own_bind.
    eapply own_mono; [|eapply own_get_next; [exact Hs|lia]]. intros r g' [-> ->].
    inversion Hp as [c Hn E1 E2 E3|c n ps' z' Hn Hp' E1 E2 E3]; rewrite Hn.
    - cbn [own map]. rewrite app_nil_r. auto.
    - subst ps. cbn [length] in Hl. eapply own_mono; [|eapply IH; [exact Hs|exact Hwf| |exact Hp'|lia]].
      + intros r g' [-> ->]. split; [reflexivity|]. cbn [map snd]. now rewrite <- app_assoc.
      + apply (Hwf kw (n_next cur) n Hkw); [lia|exact Hn].
  Qed.
  Lemma own_delete_one f g c n ps z : shows g f -> wf b f -> c <= M -> f kw c = Some n -> path (f kw) (n_next n) ps z ->
    own false (delete_node e io tk kek (lab kw c) n) g (fun r g' => (r = Ok tt /\ shows g' (removed kw f c n)) \/ (r = Err ERandom /\ dead /\ shows g' f)).
  Proof.
    intros Hs Hwf Hc E Hp. unfold delete_node. destruct (Hwf kw c n Hkw Hc E) as (L1 & L2 & _).
    apply own_bind. eapply own_mono; [|apply own_weaken; eapply own_get_next; [exact Hs|lia]]. intros r g' [-> ->]. unfold removed.
    inversion Hp as [c' E' E1 E2 E3|c' n2 ps2 z2 E' Hp2 E1 E2 E3]; subst; rewrite E'.
    - eapply own_mono; [|eapply own_delete_node; [exact Hs|exact Hc]]. auto.
    - destruct (Hwf kw (n_next n) n2 Hkw ltac:(lia) E') as (M1 & M2 & M3 & _).
      apply own_bindR. eapply own_mono; [|apply own_answers, ans_node_seal; lia]. intros r g' [-> [(sn & -> & Ho)|[-> HR]]]; [|auto].
      apply own_bindR. eapply own_mono; [|eapply own_update_node; [exact Hs|exact Hc|congruence|exact Ho]]. intros r g' [-> Hs']. rewrite <- (text_node n2 M3) in Hs'.
      unfold lift. rewrite (next_label_ok iek Hiek). apply own_bindR. cbn [own].
      eapply own_mono; [|eapply own_delete_node; [exact Hs'|lia]]. auto.
  Qed.
  Lemma own_delete_loop x fuel : forall f g cur ps z, shows g f -> wf b f -> n_next cur <= b -> path (f kw) (n_next cur) ps z -> (length ps < fuel)%nat ->
    own false (delete_loop e io tk kek fuel cur x) g (fun r g' => exists f' ps' z', shows g' f' /\ wf b f' /\ above kw (n_next cur) f f' /\
      path (f' kw) (n_next cur) ps' z' /\ leaner kw f ps f' ps' /\
      ((r = Ok tt /\ map snd ps' = without x (map snd ps)) \/ (r = Err ERandom /\ dead /\ thinned x (map snd ps) (map snd ps')))).
  Proof.
    induction fuel as [|fuel IH]; intros f g cur ps z Hs Hwf Hc Hp Hl; [lia|]. cbn [delete_loop]. apply own_bind.
    eapply own_mono; [|apply own_weaken; eapply own_get_next; [exact Hs|lia]]. intros r g' [-> ->].
    inversion Hp as [c Hn E1 E2 E3|c n ps' z' Hn Hp' E1 E2 E3]; subst; rewrite Hn.
    - cbn [own]. exists f, [], (n_next cur). split; [exact Hs|]. split; [exact Hwf|]. split; [apply above_refl|]. split; [exact Hp|]. split; [apply leaner_refl|auto].
    - destruct (Hwf kw (n_next cur) n Hkw ltac:(lia) Hn) as (L1 & L2 & L3).
      pose proof (path_bounds iek Hiek [kw] M HM kw Hkw any b Hb f Hwf _ _ _ Hp' ltac:(lia)) as (B1 & B2 & B3).
      destruct (bytes_eqb (n_id n) x) eqn:Ex.
      + apply bytes_eqb_eq in Ex. subst x. unfold lift. rewrite (next_label_ok iek Hiek). apply own_bindR. cbn [own].
        destruct (removed_ok iek Hiek [kw] M HM kw Hkw any b Hb f (n_next cur) n ps' z Hwf ltac:(lia) Hn Hp') as (ps2 & z2 & P1 & P2 & P3 & P4 & P5 & P6).
        apply own_bindR. eapply own_mono; [|eapply own_delete_one; [exact Hs|exact Hwf|lia|exact Hn|exact Hp']]. intros r g' [[-> Hs']|(-> & HR & Hs')].
        * cbn [length] in Hl. eapply own_mono; [|eapply (IH (removed kw f (n_next cur) n) g' cur ps2 z2 Hs' P3 Hc P1); lia].
          intros r g2 (f' & ps3 & z3 & H1 & H2 & H3 & H4 & H5 & H6). exists f', ps3, z3. split; [exact H1|]. split; [exact H2|].
          split; [eapply above_trans; eauto|]. split; [exact H4|]. split; [eapply leaner_trans; eauto|]. destruct H6 as [[-> H6]|(-> & HR & H6)]; [left|right].
          -- split; [reflexivity|]. rewrite H6, P2. cbn [map snd]. unfold without. cbn [List.filter]. now rewrite (proj2 (bytes_eqb_eq _ _) eq_refl).
          -- split; [reflexivity|]. split; [exact HR|]. cbn [map snd]. apply th_drop. now rewrite <- P2.
        * exists f, ((n_next cur, n_id n) :: ps'), z. split; [exact Hs'|]. split; [exact Hwf|]. split; [apply above_refl|]. split; [exact Hp|]. split; [apply leaner_refl|].
          right. split; [reflexivity|]. split; [exact HR|]. apply thinned_refl.
      + cbn [length] in Hl. eapply own_mono; [|eapply (IH f g n ps' z Hs Hwf L2 Hp'); lia].
        intros r g2 (f' & ps3 & z3 & H1 & H2 & H3 & H4 & H5 & H6). exists f', ((n_next cur, n_id n) :: ps3), z3. split; [exact H1|]. split; [exact H2|].
        split; [eapply (above_le iek Hiek M HM kw any b Hb); [|exact H3]; lia|]. split; [constructor; [rewrite H3; [exact Hn|right; lia]|exact H4]|]. split.
        * intros k. destruct (N.eq_dec k (n_next cur)) as [->|Hne]; [right; left; now left|].
          destruct (H5 k) as [H|[H|[H0 H]]]; [auto|right; left; now right|]. right. right. split; [|exact H]. intros [H'|H']; [cbn in H'; congruence|contradiction].
        * cbn [map snd]. destruct H6 as [[-> H6]|(-> & HR & H6)]; [left|right].
          -- split; [reflexivity|]. unfold without. cbn [List.filter]. rewrite Ex. cbn [negb]. now rewrite H6.
          -- split; [reflexivity|]. split; [exact HR|]. now apply th_keep.
  Qed.

  (** ** Calls *)
  (** The entries are the list [l], with numbers up to [b]. *)
  Definition chain (b : N) g (l : list bytes) : Prop :=
    exists f ps z, shows g f /\ wf b f /\ path (f kw) 0 ps z /\ map snd ps = l /\ forall c, f kw c = None \/ In c (map fst ps).
  Definition is_add (c : ix_call) : N := match c with IAdd _ _ _ => 1 | _ => 0 end.
  Definition reads (c : ix_call) : bool := match c with ISearch _ _ => true | _ => false end.
  Lemma chain_mono b0 b1 g l : b0 <= b1 -> chain b0 g l -> chain b1 g l.
  Proof.
    intros Hl (f & ps & z & H1 & H2 & H3). exists f, ps, z. split; [exact H1|]. split; [|exact H3].
    intros k c n A1 A2 A3. destruct (H2 k c n A1 A2 A3) as (B1 & B2 & B3). split; [exact B1|]. split; [eapply N.le_trans; eauto|exact B3].
  Qed.
  Lemma chain_nil b0 : chain b0 (fun _ => None) [].
  Proof.
    exists (fun _ _ => None), [], 0. split; [intros c _; reflexivity|]. split; [intros k c n _ _; discriminate|]. split; [now constructor|]. auto.
  Qed.

  Context (idp : bytes -> prog W (res identity)) (who : bytes -> res identity -> Prop) (Hwho : forall tok, ix_answers v (idp tok) (who tok)).
  Context (fuel : nat) (Hfuel : (N.to_nat M < fuel)%nat).

  (** What a call has done when it returns. *)
  Definition acted (c : ix_call) (b1 : N) (l : list bytes) (r : res ix_reply) g : Prop :=
    exists x l', ix_outside_ok e who c x /\ chain b1 g l' /\
      forall m m' : index, m kw = l -> m' kw = l' -> (forall kw', kw' <> kw -> m' kw' = m kw') -> ix_step x c m r m'.

  Lemma own_ret_map {A B} ro (h : A -> B) (p : prog W (res A)) (Q : res B -> cells -> Prop) g :
    own ro p g (fun r g' => Q (res_map h r) g') -> own ro (ret_map h p) g Q.
  Proof. intros H. unfold ret_map. apply own_bind. eapply own_mono; [|exact H]. intros [a|x|] g'; cbn [own res_map]; auto. Qed.

  (** The check of the caller. *)
  Lemma own_verified {A B} (c : ix_call) ro (h : A -> B) (p : prog W (res A)) g (Q : res B -> cells -> Prop) :
    (forall i, who (ix_token c) (Ok i) -> scope_has (i_scopes i) ScopeIndex -> own ro p g (fun r g' => Q (res_map h r) g')) ->
    (forall i, who (ix_token c) (Ok i) -> ~ scope_has (i_scopes i) ScopeIndex -> Q (Err EIxNotAuthorized) g) ->
    (forall x, who (ix_token c) (Err x) -> Q (Err EIxNotAuthenticated) g) -> (who (ix_token c) Panic -> Q Panic g) ->
    own ro (ret_map h (bindR (ix_verify idp (ix_token c)) (fun _ => p))) g Q.
  Proof.
    intros H1 H2 H3 H4. apply own_ret_map, own_bindR. unfold ix_verify. apply own_bind.
    eapply own_mono; [|apply own_answers, Hwho]. intros [i|x|] g' [-> Hi]; cbn [own]; [|exact (H3 _ Hi)|exact (H4 Hi)].
    destruct (scope_contains _ _) eqn:E; cbn [own].
    - eapply H1; [exact Hi|]. now apply scope_contains_has.
    - eapply H2; [exact Hi|]. intros C. apply scope_contains_has in C. congruence.
  Qed.

  Lemma acted_same (c : ix_call) b1 (l : list bytes) r g i : who (ix_token c) i -> chain b1 g l ->
    (forall m m' : index, same m m' -> m kw = l -> ix_step (mkIxOutside i dead) c m r m') -> acted c b1 l r g.
  Proof.
    intros Hi Hg H. exists (mkIxOutside i dead), l. split; [split; [exact Hi|exact (fun d => d)]|]. split; [exact Hg|].
    intros m m' E E' E''. apply H; [|exact E]. intros kw'. destruct (decide (kw' = kw)) as [->|Hne]; [congruence|auto].
  Qed.

  Lemma own_call c g l : ix_keyword c = kw -> b + is_add c <= M -> chain b g l ->
    own (reads c) (ix_do e io idp iek fuel c) g (acted c (b + is_add c) l).
  Proof.
    intros Ek Hb1 Hg. pose proof (chain_mono b (b + is_add c) g l ltac:(lia) Hg) as Hg1.
    assert (D1 : forall i, who (ix_token c) (Ok i) -> ~ scope_has (i_scopes i) ScopeIndex -> acted c (b + is_add c) l (Err EIxNotAuthorized) g).
    { intros i Hi Hn. apply (acted_same c _ l _ g (Ok i) Hi Hg1). intros m m' Hs _. left. auto. }
    assert (D2 : forall x, who (ix_token c) (Err x) -> acted c (b + is_add c) l (Err EIxNotAuthenticated) g).
    { intros x Hi. apply (acted_same c _ l _ g (Err x) Hi Hg1). intros m m' Hs _. cbn. auto. }
    assert (D3 : who (ix_token c) Panic -> acted c (b + is_add c) l Panic g).
    { intros Hi. apply (acted_same c _ l _ g Panic Hi Hg1). intros m m' Hs _. cbn. auto. }
    destruct Hg as (f & ps & z & Hs & Hwf & Hp & El & Ht).
    pose proof (path_bounds iek Hiek [kw] M HM kw Hkw any b Hb f Hwf _ _ _ Hp ltac:(lia)) as (B1 & B2 & B3).
    pose proof (path_length iek Hiek [kw] M HM kw Hkw any b Hb f Hwf _ _ _ Hp ltac:(lia)) as Hlen.
    assert (Hl : (length ps < fuel)%nat) by lia.
    destruct c as [tok kw' y|tok kw'|tok kw' y]; cbn [ix_keyword] in Ek; subst kw'; cbn [ix_do reads is_add] in *.
    - unfold ix_add. apply (own_verified (IAdd tok kw y) false _ _ g); [|exact D1|exact D2|exact D3]. intros i Hi Hsc.
      unfold lift. rewrite (ix_keys_ok iek Hiek). apply own_bindR. cbn [own]. apply own_bindR.
      eapply own_mono; [|apply own_weaken; eapply (own_get_last fuel f g node_zero); eauto; cbn; lia]. intros r g' [-> (last & -> & Ez)].
      rewrite (next_label_ok iek Hiek). apply own_bindR. cbn [own]. apply own_bindR. rewrite Ez in *.
      assert (Eu : u64_succ z = z + 1) by (unfold u64_succ; apply N.mod_small; lia). rewrite Eu.
      eapply own_mono; [|apply own_answers, ans_node_seal; cbn; lia]. intros r g' [-> [(sn & -> & Ho)|[-> HR]]].
      2:{ cbn [res_map]. apply (acted_same (IAdd tok kw y) _ l _ g (Ok i) Hi Hg1). intros m m' Hsm _. right. split; [exact Hsc|]. left. auto. }
      cbn [n_id n_next] in Ho.
      assert (Ez0 : f kw z = None) by (destruct (Ht z) as [E|E]; [exact E|apply B3 in E; lia]).
      eapply own_mono; [|eapply own_put_node; [exact Hs|lia|exact Ez0|exact Ho]]. intros r g' [-> Hs']. cbn [res_map].
      exists (mkIxOutside (Ok i) dead), (l ++ [as_text y]). split; [split; [exact Hi|exact (fun d => d)]|]. split.
      + exists (set_slot f kw z (Some (mkNode (as_text y) (z + 1)))), (ps ++ [(z, as_text y)]), (z + 1). split; [exact Hs'|]. split; [|split; [|split]].
        * apply wf_set.
          -- intros k c n A1 A2 A3. destruct (Hwf k c n A1 A2 A3) as (C1 & C2 & C3). split; [exact C1|]. split; [lia|exact C3].
          -- intros nd [= <-]. cbn. split; [lia|]. split; [lia|]. split; [apply as_text_valid|exact Logic.I].
        * assert (Hz1 : f kw (z + 1) = None) by (destruct (Ht (z + 1)) as [E|E]; [exact E|apply B3 in E; lia]).
          clear -Hp Hz1 B3 B1. assert (G : forall c, path (f kw) c ps z -> (forall k, In k (map fst ps) -> k < z) ->
            path (set_slot f kw z (Some (mkNode (as_text y) (z + 1))) kw) c (ps ++ [(z, as_text y)]) (z + 1)).
          { clear -Hz1. intros c Hp. remember z as z0 eqn:Ez in Hp. revert Ez. induction Hp as [c E|c n ps z' E Hp IH]; intros -> Hlt.
            - cbn [app]. apply (path_step _ z (mkNode (as_text y) (z + 1))); [apply set_same|]. cbn [n_next]. constructor. rewrite set_other by (intros [= C]; lia). exact Hz1.
            - cbn [app]. constructor; [|apply IH; [reflexivity|intros k Hk; apply Hlt; now right]].
              rewrite set_other; [exact E|]. intros [= C]. specialize (Hlt c ltac:(now left)). lia. }
          apply G; [exact Hp|]. intros k Hk. apply B3 in Hk. lia.
        * rewrite map_app, El. reflexivity.
        * intros c. destruct (N.eq_dec c z) as [->|Hne]; [right; rewrite map_app; apply in_or_app; right; now left|].
          rewrite set_other by congruence. destruct (Ht c) as [E|E]; [auto|right]. rewrite map_app. apply in_or_app. now left.
      + intros m m' E E' E''. right. split; [exact Hsc|]. right. split; [reflexivity|]. split; [now rewrite E|exact E''].
    - unfold ix_search. apply (own_verified (ISearch tok kw) true _ _ g); [|exact D1|exact D2|exact D3]. intros i Hi Hsc.
      unfold lift. rewrite (ix_keys_ok iek Hiek). apply own_bindR. cbn [own].
      eapply own_mono; [|eapply (own_search fuel f g node_zero); eauto; cbn; lia]. intros r g' [-> ->]. cbn [res_map app].
      apply (acted_same (ISearch tok kw) _ l _ g (Ok i) Hi Hg1). intros m m' Hsm E. right. split; [exact Hsc|]. split; [|exact Hsm]. now rewrite E, El.
    - unfold ix_delete. apply (own_verified (IDelete tok kw y) false _ _ g); [|exact D1|exact D2|exact D3]. intros i Hi Hsc.
      unfold lift. rewrite (ix_keys_ok iek Hiek). apply own_bindR. cbn [own].
      eapply own_mono; [|eapply (own_delete_loop y fuel f g node_zero); eauto; cbn; lia].
      intros r g' (f' & ps' & z' & H1 & H2 & H3 & H4 & H5 & H6). exists (mkIxOutside (Ok i) dead), (map snd ps').
      split; [split; [exact Hi|exact (fun d => d)]|]. split.
      + exists f', ps', z'. split; [exact H1|]. split; [now rewrite N.add_0_r|]. split; [exact H4|]. split; [reflexivity|].
        intros c. destruct (H5 c) as [E|[E|[E1 E2]]]; [auto|auto|]. destruct (Ht c) as [E|E]; [left; congruence|contradiction].
      + intros m m' E E' E''. right. split; [exact Hsc|]. rewrite El in H6. destruct H6 as [[-> H6]|(-> & HR & H6)]; cbn [res_map].
        * right. split; [reflexivity|]. split; [rewrite E'; now rewrite E|exact E''].
        * left. split; [exact HR|]. split; [reflexivity|]. exists (map snd ps'). split; [now rewrite E|]. split; [exact E'|exact E''].
  Qed.
End Own.
