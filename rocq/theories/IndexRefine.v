(** The index calls refine the keyword map of IndexSpec.v. *)
From Coq Require Import ZifyN ZifyNat.
From stdpp Require Import gmap.
From Verif Require Import Bytes Go Json JsonProofs Types TypesProofs World Logic
  Cryptor CryptorProofs IoSpec IoProofs Id Data D1 D1Proofs Spec SpecProofs Index IndexSpec IndexProofs.
Local Open Scope bool_scope.
Local Open Scope N_scope.

Lemma path_app (g : N -> option node) c ps z (n : node) ps2 z2 : path g c ps z -> (forall k, In k (map fst ps) -> k <> z) ->
  forall g', (forall k, k <> z -> g' k = g k) -> g' z = Some n -> path g' (n_next n) ps2 z2 -> path g' c (ps ++ (z, n_id n) :: ps2) z2.
Proof.
  intros Hp. induction Hp as [c E|c nd ps z E Hp IH]; intros Hz g' Hg Hn Hp2.
  - cbn [app]. now constructor.
  - cbn [app]. constructor.
    + rewrite Hg; [exact E|]. apply Hz. now left.
    + apply IH; auto. intros k Hk. apply Hz. now right.
Qed.

Section Calls.
  Context {S I : Type} (e : env) (F : Prop) (v : view S) (io : provider S) (Hio : io_spec F v io).
  Notation W := (world S I).
  Context (idp : bytes -> prog W (res identity)) (Hidp : idp_reads v idp).
  Context (iek : bytes) (Hiek : blen iek = 32) (K : list bytes) (M : N) (HM : M < 2 ^ 64).
  Context (Hdiff : labels_differ iek K M).
  Implicit Types (f : slots) (w : W) (st : store) (m : index) (Inv : W -> Prop).
  Notation R := (@R S I v iek K M).
  Notation wf := (wf K M).

  (** What Search would return. *)
  Definition reading f m : Prop := forall kw, In kw K -> exists ps z, path (f kw) 0 ps z /\ map snd ps = m kw.
  (** The keyword has no nodes but those on its path. *)
  Definition clean f kw : Prop := forall ps z c, c <= M -> path (f kw) 0 ps z -> f kw c = None \/ In c (map fst ps).

  Lemma R_holds f w st w' : holds v st w -> sees iek K M st f -> holds v st w' -> R f w'.
  Proof. intros _ Hs Hw. exists st. auto. Qed.

  Lemma wpc_ix_verify tok f Inv (Q : _ -> W -> Prop) w : R f w ->
    (forall w', R f w' -> Inv w') ->
    (forall w', R f w' ->
      Q (match whois idp w tok with
         | Ok i => if scope_contains (i_scopes i) ScopeIndex then Ok tt else Err EIxNotAuthorized
         | Err _ => Err EIxNotAuthenticated
         | Panic => Panic end) w') ->
    wpc (ix_verify idp tok) Inv Q w.
  Proof.
    intros (st & H & Hs) HI HQ. unfold ix_verify. apply wpc_bind.
    eapply wpc_mono; [| |apply wpc_run, (Hidp tok w st H)].
    { intros w' Hw. apply HI. exists st. auto. }
    intros r w' Hw [Hr _]. unfold whois in HQ. rewrite Hr in HQ. cbn [fst snd] in HQ.
    assert (HR : R f w') by (exists st; auto). specialize (HQ w' HR).
    destruct r as [i|x|]; [destruct (scope_contains _ _)|..]; apply wpc_ret; auto.
  Qed.

  Lemma wf_mono (P P' : bytes -> bytes -> Prop) b b' f : wf P b f -> b <= b' -> (forall kw x, P kw x -> P' kw x) -> wf P' b' f.
  Proof. intros H Hb HP kw c n Hk Hc E. destruct (H kw c n Hk Hc E) as (H1 & H2 & H3 & H4). repeat split; [lia|lia|exact H3|auto]. Qed.

  Lemma reading_other f f' m m' kw ps z l : reading f m -> becomes kw l m m' -> (forall kw' c, kw' <> kw -> f' kw' c = f kw' c) ->
    path (f' kw) 0 ps z -> map snd ps = l -> reading f' m'.
  Proof.
    intros Hr [B1 B2] Ho Hp Hl kw' Hk. destruct (decide (kw' = kw)) as [->|Hne].
    - exists ps, z. split; [exact Hp|]. congruence.
    - destruct (Hr kw' Hk) as (ps' & z' & Hp' & E'). exists ps', z'. split; [|rewrite B2 by exact Hne; exact E'].
      eapply path_ext; [exact Hp'|]. intros k _. now apply Ho.
  Qed.
  Definition put_list (kw : bytes) (l : list bytes) m : index := fun kw' => if bytes_eqb kw' kw then l else m kw'.
  Lemma put_list_becomes kw l m : becomes kw l m (put_list kw l m).
  Proof.
    split; unfold put_list; [now rewrite (proj2 (bytes_eqb_eq kw kw) eq_refl)|].
    intros kw' Hne. destruct (bytes_eqb kw' kw) eqn:E; [apply bytes_eqb_eq in E; contradiction|reflexivity].
  Qed.
  Lemma same_refl m : same m m.
  Proof. intros kw. reflexivity. Qed.
  (** A path in a map that differs only for another keyword. *)
  Lemma clean_else f f' kw kw2 : kw2 <> kw -> (forall kw' c, kw' <> kw -> f' kw' c = f kw' c) -> clean f kw2 -> clean f' kw2.
  Proof.
    intros Hne Ho Hcl ps2 z2 c Hc Hp2. rewrite Ho by exact Hne. eapply Hcl; [exact Hc|]. eapply path_ext; [exact Hp2|].
    intros k _. symmetry. now apply Ho.
  Qed.
  Lemma clean_other f f' kw ps ps' z z' kw2 : (forall kw' c, kw' <> kw -> f' kw' c = f kw' c) ->
    path (f kw) 0 ps z -> path (f' kw) 0 ps' z' -> leaner kw f ps f' ps' -> clean f kw2 -> clean f' kw2.
  Proof.
    intros Ho Hp Hp' HL Hcl. destruct (decide (kw2 = kw)) as [->|Hne]; [|now apply (clean_else f f' kw)].
    intros ps2 z2 c Hc Hp2. destruct (path_unique _ _ _ _ Hp' _ _ Hp2) as [-> ->]. destruct (HL c) as [E|[E|[Hn E]]]; [auto|auto|].
    rewrite E. destruct (Hcl ps z c Hc Hp) as [E'|E']; [auto|contradiction].
  Qed.

  (** The state of the index at numbers up to [b], all identifiers satisfying [P], reading [m]. *)
  Definition state (P : bytes -> bytes -> Prop) (b : N) f m w : Prop := R f w /\ wf P b f /\ reading f m.

  Lemma state_length (P : bytes -> bytes -> Prop) (b : N) f m w kw : state P b f m w -> In kw K -> b <= M -> N.of_nat (length (m kw)) <= b.
  Proof.
    intros (_ & Hwf & Hrd) Hkw Hb. destruct (Hrd kw Hkw) as (ps & z & Hp & <-).
    pose proof (path_bounds iek Hiek K M HM kw Hkw P b Hb f Hwf _ _ _ Hp ltac:(lia)) as (B1 & B2 & B3).
    pose proof (path_length iek Hiek K M HM kw Hkw P b Hb f Hwf _ _ _ Hp ltac:(lia)) as BL. rewrite map_length. specialize (B2 ltac:(lia)). lia.
  Qed.

  (** Where an Add may be cut or end. *)
  Definition add_state (P P' : bytes -> bytes -> Prop) (b : N) (kw y : bytes) f m w : Prop :=
    exists f' m' stale, state P' (b + 1) f' m' w /\ becomes kw (m kw ++ y :: stale) m m' /\ (forall x, In x stale -> P kw x) /\
      (clean f kw -> stale = []) /\ (forall kw', clean f kw' -> clean f' kw').
  Definition cut_state (P : bytes -> bytes -> Prop) (b : N) (kw : bytes) (x : bytes) f m w : Prop :=
    exists f' m' l, state P b f' m' w /\ thinned x (m kw) l /\ becomes kw l m m' /\ (forall kw', kw' <> kw -> clean f kw' -> clean f' kw').

  (** A new node at the end of the path. *)
  Lemma add_at_slot (P P' : bytes -> bytes -> Prop) b kw y f m ps z w : wf P b f -> reading f m -> In kw K -> b + 1 <= M -> valid_utf8 y = true -> P' kw y -> (forall kw' x, P kw' x -> P' kw' x) ->
    path (f kw) 0 ps z -> let f' := set_slot f kw z (Some (mkNode y (z + 1))) in R f' w ->
    exists m' stale, state P' (b + 1) f' m' w /\ becomes kw (m kw ++ y :: stale) m m' /\ (forall x, In x stale -> P kw x) /\
      (clean f kw -> stale = []) /\ (forall kw', clean f kw' -> clean f' kw').
  Proof.
    intros Hwf Hrd Hkw Hb Hy HPy HPP Hp.
    assert (Hm : map snd ps = m kw).
    { destruct (Hrd kw Hkw) as (ps' & z' & Hp' & Hm). destruct (path_unique _ _ _ _ Hp _ _ Hp') as [-> ->]. exact Hm. }
    pose proof (path_bounds iek Hiek K M HM kw Hkw P b ltac:(lia) f Hwf _ _ _ Hp ltac:(lia)) as (B1 & B2 & B3). specialize (B2 ltac:(lia)).
    intros f' Hw.
      assert (Hwf' : wf P' (b + 1) f').
      { apply (wf_set K M kw P' (b + 1)); [eapply wf_mono; [exact Hwf|lia|auto]|]. intros nd [= <-]. cbn.
        split; [lia|split; [lia|split; [exact Hy|exact HPy]]]. }
      destruct (path_exists iek Hiek K M HM kw Hkw P' (b + 1) Hb f' Hwf' (z + 1) ltac:(lia)) as (ps2 & z2 & Hp2).
      assert (Hp' : path (f' kw) 0 (ps ++ (z, y) :: ps2) z2).
      { eapply (path_app (f kw) 0 ps z (mkNode y (z + 1))); [exact Hp| | | |exact Hp2].
        - intros k Hk ->. apply B3 in Hk. lia.
        - intros k Hk. apply set_other. congruence.
        - apply set_same. }
      exists (put_list kw (m kw ++ y :: map snd ps2) m), (map snd ps2).
      split; [split; [exact Hw|split; [exact Hwf'|]]|].
      - eapply reading_other; [exact Hrd|apply put_list_becomes| |exact Hp'|].
        + intros kw' c Hne. apply set_other. congruence.
        + rewrite map_app. cbn [map snd]. now rewrite Hm.
      - split; [apply put_list_becomes|]. split.
        + assert (G : forall c ps0 z0, path (f' kw) c ps0 z0 -> z < c -> c <= M -> forall x, In x (map snd ps0) -> P kw x).
          { intros c0 ps0 z0 Hp0. induction Hp0 as [c0 E0|c0 n0 ps0 z0 E0 Hp0 IH]; intros Hz0 Hc0 x Hx; [destruct Hx|].
            assert (E1 : f kw c0 = Some n0). { unfold f' in E0. rewrite set_other in E0; [exact E0|]. intros [= H]. lia. }
            destruct (Hwf kw c0 n0 Hkw Hc0 E1) as (X0 & X1 & _ & X2). destruct Hx as [<-|Hx]; [exact X2|]. apply IH; [lia|lia|exact Hx]. }
          intros x Hx. eapply G; [exact Hp2|lia|lia|exact Hx].
        + assert (Hn : clean f kw -> f' kw (z + 1) = None).
          { intros Hcl. unfold f'. rewrite set_other by (intros [= H]; lia). destruct (Hcl ps z (z + 1) ltac:(lia) Hp) as [H|H]; [exact H|]. apply B3 in H. lia. }
          assert (Hps : clean f kw -> ps2 = []).
          { intros Hcl. specialize (Hn Hcl). inversion Hp2 as [c0 E0|c0 n0 ps0 z0 E0 Hp0]; subst; [reflexivity|congruence]. }
          split; [intros Hcl; now rewrite (Hps Hcl)|].
          intros kw2 Hcl. destruct (decide (kw2 = kw)) as [->|Hne].
          * specialize (Hps Hcl). subst ps2. intros ps3 z3 c Hc Hp3.
            destruct (path_unique _ _ _ _ Hp' _ _ Hp3) as [-> ->]. rewrite map_app. cbn [map fst].
            destruct (N.eq_dec c z) as [->|Hcz]; [right; apply in_or_app; right; now left|].
            unfold f'. rewrite set_other by congruence. destruct (Hcl ps z c Hc Hp) as [H|H]; [auto|]. right. apply in_or_app. now left.
          * apply (clean_else f f' kw); [exact Hne| |exact Hcl]. intros kw' c H. unfold f'. apply set_other. congruence.
  Qed.
  Lemma add_slot (P P' : bytes -> bytes -> Prop) b kw y f m ps z w : wf P b f -> reading f m -> In kw K -> b + 1 <= M -> valid_utf8 y = true -> P' kw y -> (forall kw' x, P kw' x -> P' kw' x) ->
    path (f kw) 0 ps z -> R (set_slot f kw z (Some (mkNode y (z + 1)))) w -> add_state P P' b kw y f m w.
  Proof. intros Hwf Hrd Hkw Hb Hy HPy HPP Hp Hw. eexists. exact (add_at_slot P P' b kw y f m ps z w Hwf Hrd Hkw Hb Hy HPy HPP Hp Hw). Qed.

  Lemma wpc_add (P P' : bytes -> bytes -> Prop) b fuel tok kw y f m (Inv : W -> Prop) (Q : _ -> W -> Prop) w : state P b f m w -> In kw K -> b + 1 <= M -> P' kw (as_text y) -> (forall kw' x, P kw' x -> P' kw' x) -> (length (m kw) < fuel)%nat ->
    (forall w', state P b f m w' \/ add_state P P' b kw (as_text y) f m w' -> Inv w') ->
    (forall w', state P b f m w' -> whois idp w tok = Panic -> Q Panic w') ->
    (forall w' x, state P b f m w' -> whois idp w tok = Err x -> Q (Err EIxNotAuthenticated) w') ->
    (forall w' i, state P b f m w' -> whois idp w tok = Ok i -> scope_contains (i_scopes i) ScopeIndex = false -> Q (Err EIxNotAuthorized) w') ->
    (forall i, whois idp w tok = Ok i -> scope_contains (i_scopes i) ScopeIndex = true ->
      (forall w', add_state P P' b kw (as_text y) f m w' -> Q (Ok tt) w') /\
      (forall w', state P b f m w' -> rng_failed e w' -> Q (Err ERandom) w') /\
      (forall x w', F -> fault x -> state P b f m w' \/ add_state P P' b kw (as_text y) f m w' -> Q (Err x) w')) ->
    wpc (ix_add e io idp iek fuel tok kw y) Inv Q w.
  Proof.
    intros (HR & Hwf & Hrd) Hkw Hb HPy HPP Hfuel HI HP HE1 HE2 HB. unfold ix_add.
    destruct (Hrd kw Hkw) as (ps & z & Hp & Hm).
    pose proof (path_bounds iek Hiek K M HM kw Hkw P b ltac:(lia) f Hwf _ _ _ Hp ltac:(lia)) as (B1 & B2 & B3). specialize (B2 ltac:(lia)).
    assert (BL : length ps = length (m kw)) by (rewrite <- Hm; now rewrite map_length).
    assert (S0 : forall w', R f w' -> state P b f m w') by (intros w' Hw; split; [exact Hw|split; assumption]).
    apply wpc_bindR. eapply wpc_ix_verify; [exact HR|auto|]. intros w1 HR1.
    destruct (whois idp w tok) as [i|x|] eqn:Ew; [|now apply (HE1 w1 x); auto|now apply HP; auto].
    destruct (scope_contains (i_scopes i) ScopeIndex) eqn:Es; [|now apply (HE2 w1 i); auto].
    destruct (HB i eq_refl Es) as (HQ & HE & HF). clear HB HP HE1 HE2.
    unfold lift. rewrite (ix_keys_ok iek Hiek). apply wpc_bindR, wpc_ret; [auto|].
    apply wpc_bindR. eapply (wpc_get_last e F v io Hio iek Hiek K M HM kw Hkw P b ltac:(lia) fuel f node_zero ps z); [exact HR1|exact Hwf|cbn; lia|exact Hp|lia|auto| |].
    2:{ intros x w' HFF Hx Hw. auto. }
    intros last w2 HR2 El. rewrite (next_label_ok iek Hiek). apply wpc_bindR, wpc_ret; [auto|]. rewrite El.
    assert (Eu : u64_succ z = z + 1) by (unfold u64_succ; apply N.mod_small; lia).
    rewrite Eu. clear El.
    eapply (wpc_node_seal e v iek K M kw (mkNode y (z + 1)) (mkNode (as_text y) (z + 1)) (lab iek kw z)); [exact HR2|cbn; lia|reflexivity|auto| |auto].
    intros sn w3 HR3 Ho.
    assert (Hz : f kw z = None). { clear - Hp. induction Hp; auto. }
    pose proof (fun w' => add_slot P P' b kw (as_text y) f m ps z w' Hwf Hrd Hkw Hb (as_text_valid y) HPy HPP Hp) as A.
    eapply (wpc_put_node F v io Hio iek Hiek K M Hdiff kw Hkw f z); [exact HR3|lia|exact Ho|auto|auto|auto| |].
    - intros Hne. contradiction.
    - intros x w' HFF Hx [Hw|[_ Hw]]; auto.
  Qed.

  Lemma wpc_search_call (P : bytes -> bytes -> Prop) b fuel tok kw f m (Inv : W -> Prop) (Q : _ -> W -> Prop) w : state P b f m w -> In kw K -> b <= M -> (length (m kw) < fuel)%nat ->
    (forall w', state P b f m w' -> Inv w') ->
    (forall w', state P b f m w' -> whois idp w tok = Panic -> Q Panic w') ->
    (forall w' x, state P b f m w' -> whois idp w tok = Err x -> Q (Err EIxNotAuthenticated) w') ->
    (forall w' i, state P b f m w' -> whois idp w tok = Ok i -> scope_contains (i_scopes i) ScopeIndex = false -> Q (Err EIxNotAuthorized) w') ->
    (forall i, whois idp w tok = Ok i -> scope_contains (i_scopes i) ScopeIndex = true ->
      (forall w', state P b f m w' -> Q (Ok (m kw)) w') /\
      (forall x w', F -> fault x -> state P b f m w' -> Q (Err x) w')) ->
    wpc (ix_search e io idp iek fuel tok kw) Inv Q w.
  Proof.
    intros (HR & Hwf & Hrd) Hkw Hb Hfuel HI HP HE1 HE2 HB. unfold ix_search.
    destruct (Hrd kw Hkw) as (ps & z & Hp & Hm).
    pose proof (path_bounds iek Hiek K M HM kw Hkw P b Hb f Hwf _ _ _ Hp ltac:(lia)) as (B1 & B2 & B3). specialize (B2 ltac:(lia)).
    assert (BL : length ps = length (m kw)) by (rewrite <- Hm; now rewrite map_length).
    assert (S0 : forall w', R f w' -> state P b f m w') by (intros w' Hw; split; [exact Hw|split; assumption]).
    apply wpc_bindR. eapply wpc_ix_verify; [exact HR|auto|]. intros w1 HR1.
    destruct (whois idp w tok) as [i|x|] eqn:Ew; [|now apply (HE1 w1 x); auto|now apply HP; auto].
    destruct (scope_contains (i_scopes i) ScopeIndex) eqn:Es; [|now apply (HE2 w1 i); auto].
    destruct (HB i eq_refl Es) as (HQ & HF). clear HB HP HE1 HE2.
    unfold lift. rewrite (ix_keys_ok iek Hiek). apply wpc_bindR, wpc_ret; [auto|].
    eapply (wpc_search e F v io Hio iek Hiek K M HM kw Hkw P b Hb fuel f node_zero ps z); [exact HR1|exact Hwf|cbn; lia|exact Hp|lia|auto| |auto].
    intros w' Hw. cbn [app]. rewrite Hm. auto.
  Qed.

  Lemma wpc_delete_call (P : bytes -> bytes -> Prop) b fuel tok kw y f m (Inv : W -> Prop) (Q : _ -> W -> Prop) w : state P b f m w -> In kw K -> b <= M -> (length (m kw) < fuel)%nat ->
    (forall w', cut_state P b kw y f m w' -> Inv w') ->
    (forall w', state P b f m w' -> whois idp w tok = Panic -> Q Panic w') ->
    (forall w' x, state P b f m w' -> whois idp w tok = Err x -> Q (Err EIxNotAuthenticated) w') ->
    (forall w' i, state P b f m w' -> whois idp w tok = Ok i -> scope_contains (i_scopes i) ScopeIndex = false -> Q (Err EIxNotAuthorized) w') ->
    (forall i, whois idp w tok = Ok i -> scope_contains (i_scopes i) ScopeIndex = true ->
      (forall f' m' w', state P b f' m' w' -> becomes kw (without y (m kw)) m m' -> (forall kw', clean f kw' -> clean f' kw') -> Q (Ok tt) w') /\
      (forall f' m' l w', state P b f' m' w' -> thinned y (m kw) l -> becomes kw l m m' -> (forall kw', clean f kw' -> clean f' kw') -> rng_failed e w' -> Q (Err ERandom) w') /\
      (forall x w', F -> fault x -> cut_state P b kw y f m w' -> Q (Err x) w')) ->
    wpc (ix_delete e io idp iek fuel tok kw y) Inv Q w.
  Proof.
    intros (HR & Hwf & Hrd) Hkw Hb Hfuel HI HP HE1 HE2 HB. unfold ix_delete.
    destruct (Hrd kw Hkw) as (ps & z & Hp & Hm).
    pose proof (path_bounds iek Hiek K M HM kw Hkw P b Hb f Hwf _ _ _ Hp ltac:(lia)) as (B1 & B2 & B3). specialize (B2 ltac:(lia)).
    assert (BL : length ps = length (m kw)) by (rewrite <- Hm; now rewrite map_length).
    assert (S0 : forall w', R f w' -> state P b f m w') by (intros w' Hw; split; [exact Hw|split; assumption]).
    assert (C0 : forall w', R f w' -> cut_state P b kw y f m w').
    { intros w' Hw. exists f, m, (m kw). split; [auto|]. split; [apply thinned_refl|]. split; [split; [reflexivity|auto]|auto]. }
    assert (CP : forall w', part_deleted v iek K M kw P b y 0 f ps w' -> cut_state P b kw y f m w').
    { intros w' (f' & ps' & z' & H1 & H2 & H3 & H4 & H5). exists f', (put_list kw (map snd ps') m), (map snd ps').
      rewrite Hm in H5. split; [|split; [exact H5|split; [apply put_list_becomes|]]].
      - split; [exact H1|]. split; [exact H2|].
        eapply reading_other; [exact Hrd|apply put_list_becomes| |exact H4|reflexivity]. intros kw' c Hne. apply H3. auto.
      - intros kw' Hne. apply (clean_else f f' kw); [exact Hne|]. intros kw2 c Hne2. apply H3. auto. }
    apply wpc_bindR. eapply wpc_ix_verify; [exact HR|auto|]. intros w1 HR1.
    destruct (whois idp w tok) as [i|x|] eqn:Ew; [|now apply (HE1 w1 x); auto|now apply HP; auto].
    destruct (scope_contains (i_scopes i) ScopeIndex) eqn:Es; [|now apply (HE2 w1 i); auto].
    destruct (HB i eq_refl Es) as (HQ & HE & HF). clear HB HP HE1 HE2.
    unfold lift. rewrite (ix_keys_ok iek Hiek). apply wpc_bindR, wpc_ret; [auto|].
    eapply (wpc_delete_loop e F v io Hio iek Hiek K M HM Hdiff kw Hkw P b Hb y fuel f node_zero ps z); [exact HR1|exact Hwf|cbn; lia|exact Hp|lia| | | |].
    - intros w' H. apply HI, CP, H.
    - intros w' (f' & ps' & z' & H1 & H2 & H3 & H4 & H5 & H6). cbn in H4. rewrite Hm in H5.
      apply (HQ f' (put_list kw (map snd ps') m)).
      + split; [exact H1|]. split; [exact H2|]. eapply reading_other; [exact Hrd|apply put_list_becomes| |exact H4|reflexivity]. intros kw' c Hne. apply H3. auto.
      + rewrite <- H5. apply put_list_becomes.
      + intros kw2. apply (clean_other f f' kw ps ps' z z'); [|exact Hp|exact H4|exact H6]. intros kw' c Hne. apply H3. auto.
    - intros w' (f' & ps' & z' & H1 & H2 & H3 & H4 & H5 & H6) RF. cbn in H4. rewrite Hm in H5.
      apply (HE f' (put_list kw (map snd ps') m) (map snd ps')).
      + split; [exact H1|]. split; [exact H2|]. eapply reading_other; [exact Hrd|apply put_list_becomes| |exact H4|reflexivity]. intros kw' c Hne. apply H3. auto.
      + exact H5.
      + apply put_list_becomes.
      + intros kw2. apply (clean_other f f' kw ps ps' z z'); [|exact Hp|exact H4|exact H6]. intros kw' c Hne. apply H3. auto.
      + exact RF.
    - intros x w' HFF Hx H. apply HF; [exact HFF|exact Hx|apply CP, H].
  Qed.
End Calls.
