(** Histories of index calls. *)
From Coq Require Import ZifyN ZifyNat.
From stdpp Require Import gmap.
From Verif Require Import Bytes Go Types World Logic Cryptor IoSpec IoProofs Id Data D1 D1Proofs Spec SpecProofs
  Index IndexSpec IndexProofs IndexRefine.
Local Open Scope bool_scope.
Local Open Scope N_scope.

Section Model.
  Context {S I : Type} (e : env) (v : view S).
  Notation W := (world S I).
  Context (idp : bytes -> prog W (res identity)) (iek : bytes) (fuel : nat).
  Notation SN := DataTypeSealedNode.

  (** Between two calls anything may happen except to the stored nodes. *)
  Definition ix_elsewhere (w w' : W) : Prop :=
    v_inv v (w_io w') /\ forall id, v_map v (w_io w') id SN = v_map v (w_io w) id SN.
  Definition ix_outside_of (w : W) (c : ix_call) (w' : W) : ix_outside :=
    mkIxOutside (whois idp w (ix_token c)) (rng_failed e w').

  (** Calls that run to their end. *)
  Inductive ix_run (io : provider S) : W -> list ix_event -> W -> Prop :=
  | ir_nil w : ix_run io w [] w
  | ir_env w w1 evs w2 : ix_elsewhere w w1 -> ix_run io w1 evs w2 -> ix_run io w evs w2
  | ir_call w c r w1 evs w2 :
      run (ix_do e io idp iek fuel c) w = (r, w1) -> ix_run io w1 evs w2 ->
      ix_run io w (mkIxEvent (ix_outside_of w c w1) c r :: evs) w2.

  (** Calls that may be cut after any number of steps, through a provider that may fail; it is given
      anew for each call. *)
  Inductive ix_xrun : W -> list ix_happening -> W -> Prop :=
  | ix_nil w : ix_xrun w [] w
  | ix_env w w1 hs w2 : ix_elsewhere w w1 -> ix_xrun w1 hs w2 -> ix_xrun w hs w2
  | ix_done w (iof : provider S) c r w1 hs w2 : io_spec True v iof ->
      run (ix_do e iof idp iek fuel c) w = (r, w1) -> ix_xrun w1 hs w2 ->
      ix_xrun w (XDone (mkIxEvent (ix_outside_of w c w1) c r) :: hs) w2
  | ix_cut w (iof : provider S) c n p w1 hs w2 : io_spec True v iof ->
      run_n n (ix_do e iof idp iek fuel c) w = (p, w1) -> ix_xrun w1 hs w2 ->
      ix_xrun w (XCut c :: hs) w2.

  (** No node is stored. *)
  Definition ix_fresh (w : W) : Prop := v_inv v (w_io w) /\ forall id, v_map v (w_io w) id SN = None.
End Model.

Lemma wpc_ret_map {S I A B} (g : A -> B) (p : prog (world S I) (res A)) (Inv : world S I -> Prop) (Q : res B -> world S I -> Prop) w :
  wpc p Inv (fun r w' => Q (res_map g r) w') w -> wpc (ret_map g p) Inv Q w.
Proof.
  intros H. unfold ret_map. apply wpc_bind. eapply wpc_mono; [| |exact H]; [auto|]. intros r w' HI HQ. now apply wpc_ret.
Qed.

Definition is_add (c : ix_call) : N := match c with IAdd _ _ _ => 1 | _ => 0 end.

Lemma count_cons c cs : N.of_nat (count_adds (c :: cs)) = is_add c + N.of_nat (count_adds cs).
Proof. unfold count_adds. destruct c; cbn [List.filter length is_add]; lia. Qed.

Section Calls.
  Context {S I : Type} (e : env) (v : view S).
  Notation W := (world S I).
  Context (idp : bytes -> prog W (res identity)) (Hidp : idp_reads v idp).
  Context (iek : bytes) (Hiek : blen iek = 32) (K : list bytes) (M : N) (HM : M < 2 ^ 64).
  Context (Hdiff : labels_differ iek K M).
  Notation state := (@state S I v iek K M).
  Notation clean := (clean M).

  Definition added (cs : list ix_call) (kw x : bytes) : Prop := In x (adds_of kw cs).
  (** A keyword no Delete of which was interrupted has no stale nodes. *)
  Definition tidy (pre : list ix_happening) (f : slots) : Prop := forall kw, Exists (spoils kw) pre \/ clean f kw.

  Lemma cut_done pre (x : ix_outside) c r m m' : (forall a, r <> Ok a) -> ix_xstep pre (XCut c) m m' -> ix_xstep pre (XDone (mkIxEvent x c r)) m m'.
  Proof.
    intros Hr. cbn [ix_xstep iv_call iv_reply]. destruct c; destruct r as [a| |]; auto; destruct (Hr a eq_refl).
  Qed.
  Lemma same_cut pre c m : ix_xstep pre (XCut c) m m.
  Proof.
    cbn [ix_xstep]. destruct c as [t kw y|t kw|t kw y]; [left; apply same_refl|apply same_refl|].
    exists (m kw). split; [apply thinned_refl|]. split; [reflexivity|auto].
  Qed.
  Lemma tidy_more pre h f f' : tidy pre f -> (forall kw, clean f kw -> clean f' kw) -> tidy (pre ++ [h]) f'.
  Proof. intros H Hc kw. destruct (H kw) as [E|E]; [left; apply List.Exists_app; now left|right; auto]. Qed.
  Lemma tidy_spoilt pre h f f' kw : tidy pre f -> spoils kw h -> (forall kw', kw' <> kw -> clean f kw' -> clean f' kw') -> tidy (pre ++ [h]) f'.
  Proof.
    intros H Hs Hc kw'. destruct (decide (kw' = kw)) as [->|Hne].
    - left. apply List.Exists_app. right. now constructor.
    - destruct (H kw') as [E|E]; [left; apply List.Exists_app; now left|right; auto].
  Qed.
  Lemma adds_app kw cs cs' : adds_of kw (cs ++ cs') = adds_of kw cs ++ adds_of kw cs'.
  Proof. unfold adds_of. apply flat_map_app. Qed.
  Lemma added_app cs cs' kw x : added cs kw x -> added (cs ++ cs') kw x.
  Proof. unfold added. rewrite adds_app. intros H. apply in_or_app. now left. Qed.
  Lemma added_new cs t kw y : added (cs ++ [IAdd t kw y]) kw (as_text y).
  Proof. unfold added. rewrite adds_app. apply in_or_app. right. cbn. rewrite (proj2 (bytes_eqb_eq kw kw) eq_refl). now left. Qed.

  Definition after (pre : list ix_happening) (b : N) (h : ix_happening) (m : index) (f' : slots) (m' : index) (w' : W) : Prop :=
    state (added (map hap_call pre ++ [hap_call h])) (b + is_add (hap_call h)) f' m' w' /\ ix_xstep pre h m m' /\ tidy (pre ++ [h]) f'.

  Lemma call_wpc (F : Prop) (io : provider S) (Hio : io_spec F v io) fuel pre b c f m (w : W) :
    state (added (map hap_call pre)) b f m w -> tidy pre f -> In (ix_keyword c) K -> b + is_add c <= M -> (length (m (ix_keyword c)) < fuel)%nat ->
    wpc (ix_do e io idp iek fuel c)
      (fun w' => exists f' m', after pre b (XCut c) m f' m' w')
      (fun r w' => r <> Err EFuel /\ exists f' m', after pre b (XDone (mkIxEvent (ix_outside_of e idp w c w') c r)) m f' m' w' /\
         (F \/ ((forall kw, clean f kw -> clean f' kw) /\ (clean f (ix_keyword c) -> ix_step (ix_outside_of e idp w c w') c m r m')))) w.
  Proof.
    set (P := added (map hap_call pre)). intros HS HT Hkw Hb Hfuel.
    assert (HPP : forall kw' x', P kw' x' -> added (map hap_call pre ++ [c]) kw' x') by (intros; now apply added_app).
    assert (SM : forall f' m' w', state P b f' m' w' -> state (added (map hap_call pre ++ [c])) (b + is_add c) f' m' w').
    { intros f' m' w' (H1 & H2 & H3). split; [exact H1|]. split; [|exact H3]. eapply (wf_mono iek Hiek K M HM); [exact H2|lia|auto]. }
    assert (XC0 : forall w', state P b f m w' -> exists f' m', after pre b (XCut c) m f' m' w').
    { intros w' H. exists f, m. split; [cbn; auto|]. split; [apply same_cut|]. apply (tidy_more _ _ f); auto. }
    assert (X0 : forall r w', (forall a, r <> Ok a) -> r <> Err EFuel -> state P b f m w' ->
      (F \/ (clean f (ix_keyword c) -> ix_step (ix_outside_of e idp w c w') c m r m)) ->
      r <> Err EFuel /\ exists f' m', after pre b (XDone (mkIxEvent (ix_outside_of e idp w c w') c r)) m f' m' w' /\
         (F \/ ((forall kw, clean f kw -> clean f' kw) /\ (clean f (ix_keyword c) -> ix_step (ix_outside_of e idp w c w') c m r m')))).
    { intros r w' Hr Hr' H HC. split; [exact Hr'|]. exists f, m. split.
      - split; [cbn; auto|]. split; [apply cut_done; [exact Hr|apply same_cut]|]. apply (tidy_more _ _ f); auto.
      - destruct HC as [HC|HC]; [now left|right; auto]. }
    destruct c as [tok kw y|tok kw|tok kw y]; cbn [ix_do ix_keyword is_add] in *; apply wpc_ret_map.
    - assert (XA : forall w', add_state v iek K M P (added (map hap_call pre ++ [IAdd tok kw y])) b kw (as_text y) f m w' -> exists f' m', state (added (map hap_call pre ++ [IAdd tok kw y])) (b + 1) f' m' w' /\
          ix_xadd pre kw y m m' /\ (clean f kw -> becomes kw (m kw ++ [as_text y]) m m') /\ (forall kw', clean f kw' -> clean f' kw')).
      { intros w' (f' & m' & stale & H1 & H2 & H3 & H4 & H5). exists f', m'. split; [exact H1|]. split; [|split; [|exact H5]].
        - exists stale. split; [exact H2|]. split; [exact H3|]. intros Hne. destruct (HT kw) as [E|E]; [exact E|]. destruct (Hne (H4 E)).
        - intros Hcl. rewrite (H4 Hcl) in H2. exact H2. }
      eapply (wpc_add e F v io Hio idp Hidp iek Hiek K M HM Hdiff P (added (map hap_call pre ++ [IAdd tok kw y])) b fuel tok kw y f m);
        [exact HS|exact Hkw|exact Hb|apply added_new|exact HPP|exact Hfuel| | | | |].
      + intros w' [H|H]; [auto|].
        destruct (XA w' H) as (f' & m' & H1 & H2 & _ & H3). exists f', m'. split; [exact H1|]. split; [right; exact H2|]. apply (tidy_more _ _ f); auto.
      + intros w' H Ew. apply X0; [discriminate|discriminate|exact H|]. right. intros _. unfold ix_step, ix_allowed, ix_outside_of. cbn [ix_who ix_token]. rewrite Ew. split; [reflexivity|apply same_refl].
      + intros w' x H Ew. apply X0; [discriminate|discriminate|exact H|]. right. intros _. unfold ix_step, ix_allowed, ix_outside_of. cbn [ix_who ix_token]. rewrite Ew. split; [reflexivity|apply same_refl].
      + intros w' i H Ew Es. apply X0; [discriminate|discriminate|exact H|]. right. intros _. unfold ix_step, ix_allowed, ix_outside_of. cbn [ix_who ix_token]. rewrite Ew. left.
        split; [now apply scope_contains_hasnt|]. split; [reflexivity|apply same_refl].
      + intros i Ew Es. apply scope_contains_has in Es. split; [|split].
        * intros w' H. split; [discriminate|]. destruct (XA w' H) as (f' & m' & H1 & H2 & H3 & H4). exists f', m'. split.
          -- split; [exact H1|]. split; [exact H2|]. apply (tidy_more _ _ f); auto.
          -- right. split; [exact H4|]. intros Hcl. unfold ix_step, ix_allowed, ix_outside_of. cbn [ix_who ix_token]. rewrite Ew. right.
             split; [exact Es|]. right. split; [reflexivity|auto].
        * intros w' H RF. apply X0; [discriminate|discriminate|exact H|]. right. intros _. unfold ix_step, ix_allowed, ix_outside_of. cbn [ix_who ix_token ix_rng_fails]. rewrite Ew. right.
          split; [exact Es|]. left. split; [exact RF|]. split; [reflexivity|apply same_refl].
        * intros x w' HFF [n ->] [H|H].
          -- apply X0; [discriminate|discriminate|exact H|now left].
          -- split; [discriminate|]. destruct (XA w' H) as (f' & m' & H1 & H2 & H3 & H4). exists f', m'. split; [|now left].
             split; [exact H1|]. split; [apply cut_done; [discriminate|right; exact H2]|]. apply (tidy_more _ _ f); auto.
    - eapply (wpc_search_call e F v io Hio idp Hidp iek Hiek K M HM P b fuel tok kw f m);
        [exact HS|exact Hkw|lia|exact Hfuel| | | | |].
      + exact XC0.
      + intros w' H Ew. apply X0; [discriminate|discriminate|exact H|]. right. intros _. unfold ix_step, ix_allowed, ix_outside_of. cbn [ix_who ix_token]. rewrite Ew. split; [reflexivity|apply same_refl].
      + intros w' x H Ew. apply X0; [discriminate|discriminate|exact H|]. right. intros _. unfold ix_step, ix_allowed, ix_outside_of. cbn [ix_who ix_token]. rewrite Ew. split; [reflexivity|apply same_refl].
      + intros w' i H Ew Es. apply X0; [discriminate|discriminate|exact H|]. right. intros _. unfold ix_step, ix_allowed, ix_outside_of. cbn [ix_who ix_token]. rewrite Ew. left.
        split; [now apply scope_contains_hasnt|]. split; [reflexivity|apply same_refl].
      + intros i Ew Es. apply scope_contains_has in Es. split.
        * intros w' H. split; [discriminate|]. exists f, m. split.
          -- split; [cbn; auto|]. split; [split; [reflexivity|apply same_refl]|]. apply (tidy_more _ _ f); auto.
          -- right. split; [auto|]. intros _. unfold ix_step, ix_allowed, ix_outside_of. cbn [ix_who ix_token]. rewrite Ew. right. split; [exact Es|]. split; [reflexivity|apply same_refl].
        * intros x w' HFF [n ->] H. apply X0; [discriminate|discriminate|exact H|now left].
    - assert (XC : forall w', cut_state v iek K M P b kw y f m w' -> exists f' m', state (added (map hap_call pre ++ [IDelete tok kw y])) (b + 0) f' m' w' /\
         ix_xstep pre (XCut (IDelete tok kw y)) m m' /\ (forall kw', kw' <> kw -> clean f kw' -> clean f' kw')).
      { intros w' (f' & m' & l & H1 & H2 & H3 & H4). exists f', m'. split; [auto|]. split; [exists l; auto|exact H4]. }
      eapply (wpc_delete_call e F v io Hio idp Hidp iek Hiek K M HM Hdiff P b fuel tok kw y f m);
        [exact HS|exact Hkw|lia|exact Hfuel| | | | |].
      + intros w' H. destruct (XC w' H) as (f' & m' & H1 & H2 & H3). exists f', m'. split; [exact H1|]. split; [exact H2|].
        apply (tidy_spoilt _ _ f _ kw); [exact HT|reflexivity|exact H3].
      + intros w' H Ew. apply X0; [discriminate|discriminate|exact H|]. right. intros _. unfold ix_step, ix_allowed, ix_outside_of. cbn [ix_who ix_token]. rewrite Ew. split; [reflexivity|apply same_refl].
      + intros w' x H Ew. apply X0; [discriminate|discriminate|exact H|]. right. intros _. unfold ix_step, ix_allowed, ix_outside_of. cbn [ix_who ix_token]. rewrite Ew. split; [reflexivity|apply same_refl].
      + intros w' i H Ew Es. apply X0; [discriminate|discriminate|exact H|]. right. intros _. unfold ix_step, ix_allowed, ix_outside_of. cbn [ix_who ix_token]. rewrite Ew. left.
        split; [now apply scope_contains_hasnt|]. split; [reflexivity|apply same_refl].
      + intros i Ew Es. apply scope_contains_has in Es. split; [|split].
        * intros f' m' w' H1 H2 H3. split; [discriminate|]. exists f', m'. split.
          -- split; [cbn; auto|]. split; [exact H2|]. apply (tidy_more _ _ f); auto.
          -- right. split; [exact H3|]. intros _.
             unfold ix_step, ix_allowed, ix_outside_of. cbn [ix_who ix_token]. rewrite Ew. right. split; [exact Es|]. right. split; [reflexivity|exact H2].
        * intros f' m' l w' H1 H2 H3 H4 RF. split; [discriminate|]. exists f', m'. split.
          -- split; [cbn; auto|]. split; [exists l; auto|]. apply (tidy_more _ _ f); auto.
          -- right. split; [exact H4|]. intros _.
             unfold ix_step, ix_allowed, ix_outside_of. cbn [ix_who ix_token ix_rng_fails]. rewrite Ew. right. split; [exact Es|]. left. split; [exact RF|].
             split; [reflexivity|]. exists l. auto.
        * intros x w' HFF [n ->] H. split; [discriminate|]. destruct (XC w' H) as (f' & m' & H1 & H2 & H3). exists f', m'. split; [|now left].
          split; [exact H1|]. split; [apply cut_done; [discriminate|exact H2]|].
          apply (tidy_spoilt _ _ f _ kw); [exact HT|reflexivity|exact H3].
  Qed.

  Lemma elsewhere_state (P : bytes -> bytes -> Prop) b f m (w w' : W) : state P b f m w -> ix_elsewhere v w w' -> state P b f m w'.
  Proof.
    intros ((st & [H1 H2] & Hs) & Hwf & Hrd) [Hi He]. split; [|split; assumption]. exists (v_map v (w_io w')).
    split; [apply holds_self, Hi|]. intros kw c Hk Hc. specialize (Hs kw c Hk Hc). rewrite He, H2. exact Hs.
  Qed.
  Lemma fresh_state (w : W) : ix_fresh v w -> state (added []) 0 (fun _ _ => None) index_empty w /\ forall kw, clean (fun _ _ => None) kw.
  Proof.
    intros [Hi Hn]. split.
    - split; [|split].
      + exists (v_map v (w_io w)). split; [apply holds_self, Hi|]. intros kw c _ _. apply Hn.
      + intros kw c n _ _ [=].
      + intros kw Hk. exists [], 0. split; [now constructor|reflexivity].
    - intros kw ps z c _ _. now left.
  Qed.

  (** Complete calls through a provider that does not fail. *)
  Lemma run_refines (io : provider S) (Hio : io_spec False v io) fuel (w : W) evs w' : ix_run e v idp iek fuel io w evs w' ->
    forall pre b f m, state (added (map hap_call pre)) b f m w -> (forall kw, clean f kw) -> (forall ev, In ev evs -> In (ix_keyword (iv_call ev)) K) ->
    b + N.of_nat (count_adds (map iv_call evs)) <= M -> b + N.of_nat (count_adds (map iv_call evs)) < N.of_nat fuel ->
    exists m', ix_history m evs m' /\ exists f' P, state P (b + N.of_nat (count_adds (map iv_call evs))) f' m' w' /\ forall kw, clean f' kw.
  Proof.
    intros H. induction H as [w|w w1 evs w2 HE _ IH|w c r w1 evs w2 Hr _ IH]; intros pre b f m HS Hcl HK Hb Hf.
    - exists m. split; [constructor; apply same_refl|]. exists f, (added (map hap_call pre)). split; [|exact Hcl]. cbn. now rewrite N.add_0_r.
    - apply (IH pre b f m); auto. eapply elsewhere_state; eauto.
    - cbn [map iv_call] in *. rewrite count_cons in *.
      assert (Hk : In (ix_keyword c) K) by (apply (HK _ (or_introl eq_refl))).
      pose proof (state_length v iek Hiek K M HM _ b f m w (ix_keyword c) HS Hk ltac:(lia)) as HL.
      assert (HT : tidy pre f) by (intros kw; right; auto).
      pose proof (call_wpc False io Hio fuel pre b c f m w HS HT Hk ltac:(lia) ltac:(lia)) as HW.
      pose proof (wpc_end _ _ _ _ HW) as Q. rewrite Hr in Q. cbn [fst snd] in Q.
      destruct Q as (_ & f' & m' & (H1 & H2 & H3) & [[]|[H4 H5]]).
      destruct (IH (pre ++ [XDone (mkIxEvent (ix_outside_of e idp w c w1) c r)]) (b + is_add c) f' m') as (m2 & G & f2 & P2 & G2 & G3).
      + rewrite map_app. exact H1.
      + auto.
      + intros ev Hev. apply HK. now right.
      + lia.
      + lia.
      + exists m2. split; [econstructor; [exact (H5 (Hcl _))|exact G]|]. exists f2, P2. rewrite N.add_assoc. split; assumption.
  Qed.

  (** Calls that may be cut or fail. *)
  Lemma xrun_refines fuel (w : W) hs w' : ix_xrun e v idp iek fuel w hs w' ->
    forall pre b f m, state (added (map hap_call pre)) b f m w -> tidy pre f -> (forall h, In h hs -> In (ix_keyword (hap_call h)) K) ->
    b + N.of_nat (count_adds (map hap_call hs)) <= M -> b + N.of_nat (count_adds (map hap_call hs)) < N.of_nat fuel ->
    exists f' m', ix_xhistory pre m hs m' /\ state (added (map hap_call (pre ++ hs))) (b + N.of_nat (count_adds (map hap_call hs))) f' m' w' /\ tidy (pre ++ hs) f'.
  Proof.
    intros H. induction H as [w|w w1 hs w2 HE _ IH|w iof c r w1 hs w2 Hio Hr _ IH|w iof c n p w1 hs w2 Hio Hr _ IH]; intros pre b f m HS HT HK Hb Hf.
    - exists f, m. rewrite app_nil_r. split; [constructor; apply same_refl|]. split; [|exact HT]. cbn. rewrite N.add_0_r. exact HS.
    - apply (IH pre b f m); auto. eapply elsewhere_state; eauto.
    - cbn [map hap_call iv_call] in *. rewrite count_cons in *.
      assert (Hk : In (ix_keyword c) K) by (apply (HK _ (or_introl eq_refl))).
      pose proof (state_length v iek Hiek K M HM _ b f m w (ix_keyword c) HS Hk ltac:(lia)) as HL.
      pose proof (call_wpc True iof Hio fuel pre b c f m w HS HT Hk ltac:(lia) ltac:(lia)) as HW.
      pose proof (wpc_end _ _ _ _ HW) as Q. rewrite Hr in Q. cbn [fst snd] in Q.
      destruct Q as (_ & f' & m' & (H1 & H2 & H3) & _).
      destruct (IH (pre ++ [XDone (mkIxEvent (ix_outside_of e idp w c w1) c r)]) (b + is_add c) f' m') as (f2 & m2 & G1 & G2 & G3).
      + rewrite map_app. exact H1.
      + exact H3.
      + intros ev Hev. apply HK. now right.
      + lia.
      + lia.
      + exists f2, m2. rewrite <- app_assoc in G2, G3. cbn [app] in G2, G3. split; [econstructor; [exact H2|exact G1]|]. split; [|exact G3].
        rewrite N.add_assoc. exact G2.
    - cbn [map hap_call iv_call] in *. rewrite count_cons in *.
      assert (Hk : In (ix_keyword c) K) by (apply (HK _ (or_introl eq_refl))).
      pose proof (state_length v iek Hiek K M HM _ b f m w (ix_keyword c) HS Hk ltac:(lia)) as HL.
      pose proof (call_wpc True iof Hio fuel pre b c f m w HS HT Hk ltac:(lia) ltac:(lia)) as HW.
      pose proof (wpc_cut _ _ _ _ HW n) as Q. rewrite Hr in Q. cbn [snd] in Q.
      destruct Q as (f' & m' & (H1 & H2 & H3)).
      destruct (IH (pre ++ [XCut c]) (b + is_add c) f' m') as (f2 & m2 & G1 & G2 & G3).
      + rewrite map_app. exact H1.
      + exact H3.
      + intros ev Hev. apply HK. now right.
      + lia.
      + lia.
      + exists f2, m2. rewrite <- app_assoc in G2, G3. cbn [app] in G2, G3. split; [econstructor; [exact H2|exact G1]|]. split; [|exact G3].
        rewrite N.add_assoc. exact G2.
  Qed.
End Calls.

(** ** What follows from the histories of the specification *)
Lemma becomes_at kw l m m' : becomes kw l m m' -> m' kw = l.
Proof. intros H. apply H. Qed.
Lemma history_listing kw m evs m' : ix_history m evs m' -> (forall ev, In ev evs -> ~ botched kw ev) -> m' kw = fold_left (ix_effect kw) evs (m kw).
Proof.
  intros H. induction H as [m m' Hs|m ev m1 evs m2 Hs _ IH]; intros Hb; [apply Hs|]. cbn [fold_left].
  rewrite IH by (intros; apply Hb; now right). f_equal.
  assert (Hn : ~ botched kw ev) by (apply Hb; now left). clear IH Hb. destruct ev as [x c r]. cbn [iv_x iv_call iv_reply] in *.
  unfold ix_effect. cbn [iv_call iv_reply]. unfold ix_step, ix_allowed in Hs.
  assert (Hother : forall kw' l (m' : index), becomes kw' l m m' -> m' kw = if bytes_eqb kw' kw then l else m kw).
  { intros kw' l m' [B1 B2]. destruct (bytes_eqb kw' kw) eqn:E; [apply bytes_eqb_eq in E; now subst|].
    apply B2. intros ->. now rewrite (proj2 (bytes_eqb_eq kw' kw') eq_refl) in E. }
  destruct (ix_who x) as [i|y|]; [|destruct Hs as [-> Hs]; rewrite (Hs kw); now destruct c..].
  destruct Hs as [(_ & -> & Hs)|(_ & Hs)]; [rewrite (Hs kw); now destruct c|].
  destruct c as [t kw' y|t kw'|t kw' y].
  - destruct Hs as [(_ & -> & Hs)|[-> Hs]]; [apply Hs|].
    rewrite (Hother _ _ _ Hs); destruct (bytes_eqb kw' kw) eqn:E; [|reflexivity]; apply bytes_eqb_eq in E; now subst.
  - destruct Hs as [-> Hs]. apply Hs.
  - destruct Hs as [(_ & -> & l & _ & Hs)|[-> Hs]].
    + rewrite (Hother _ _ _ Hs). destruct (bytes_eqb kw' kw) eqn:E; [|reflexivity]. apply bytes_eqb_eq in E. subst kw'. destruct Hn. exists t, y. auto.
    + rewrite (Hother _ _ _ Hs). destruct (bytes_eqb kw' kw) eqn:E; [|reflexivity]. apply bytes_eqb_eq in E. now subst.
Qed.
Lemma history_app m evs evs' m' : ix_history m (evs ++ evs') m' -> exists m1, ix_history m evs m1 /\ ix_history m1 evs' m'.
Proof.
  revert m. induction evs as [|ev evs IH]; intros m H.
  - exists m. split; [constructor; apply same_refl|exact H].
  - cbn [app] in H. inversion H as [|? ? m1 ? ? Hs Hh]; subst. destruct (IH _ Hh) as (m2 & G1 & G2). exists m2. split; [econstructor; eauto|exact G2].
Qed.
Lemma history_search m pre x tok kw r post m' : ix_history m (pre ++ mkIxEvent x (ISearch tok kw) r :: post) m' ->
  (forall ev, In ev pre -> ~ botched kw ev) -> forall rep, r = Ok rep -> rep = IRIds (fold_left (ix_effect kw) pre (m kw)).
Proof.
  intros H Hb rep ->. apply history_app in H as (m1 & H1 & H2). apply (history_listing kw) in H1; [|exact Hb]. rewrite <- H1.
  inversion H2 as [|? ? m2 ? ? Hs _]; subst. cbn [iv_x iv_call iv_reply] in Hs. unfold ix_step, ix_allowed in Hs.
  destruct (ix_who x) as [i|y|]; [|now destruct Hs..]. destruct Hs as [(_ & [=] & _)|(_ & [= ->] & _)]. reflexivity.
Qed.
Lemma xhistory_app pre m hs hs' m' : ix_xhistory pre m (hs ++ hs') m' -> exists m1, ix_xhistory pre m hs m1 /\ ix_xhistory (pre ++ hs) m1 hs' m'.
Proof.
  revert pre m. induction hs as [|h hs IH]; intros pre m H.
  - exists m. rewrite app_nil_r. split; [constructor; apply same_refl|exact H].
  - cbn [app] in H. inversion H as [|? ? ? m1 ? ? Hs Hh]; subst. destruct (IH _ _ Hh) as (m2 & G1 & G2). exists m2. split; [econstructor; eauto|].
    rewrite <- app_assoc in G2. exact G2.
Qed.
Lemma thinned_ext x l l1 l' : l1 = l -> thinned x l1 l' -> thinned x l l'.
Proof. now intros ->. Qed.
(** Search, interrupted Delete, Search. *)
Lemma xhistory_sandwich pre0 m pre x1 tok1 kw l1 h x2 tok2 l2 post m' y tok :
  ix_xhistory pre0 m (pre ++ XDone (mkIxEvent x1 (ISearch tok1 kw) (Ok (IRIds l1))) :: h :: XDone (mkIxEvent x2 (ISearch tok2 kw) (Ok (IRIds l2))) :: post) m' ->
  hap_call h = IDelete tok kw y -> thinned y l1 l2.
Proof.
  intros H Hc. apply xhistory_app in H as (m1 & _ & H). inversion H as [|? ? ? m2 ? ? S1 H2]; subst. clear H.
  inversion H2 as [|? ? ? m3 ? ? S2 H3]; subst. clear H2. inversion H3 as [|? ? ? m4 ? ? S3 _]; subst. clear H3.
  cbn in S1, S3. destruct S1 as [[= ->] S1]. destruct S3 as [[= ->] _]. rewrite <- (S1 kw).
  assert (TW : thinned y (m2 kw) (without y (m2 kw))).
  { generalize (m2 kw). intros l. induction l as [|z l IH]; [constructor|]. unfold without in *. cbn [List.filter].
    destruct (bytes_eqb z y) eqn:E; [apply bytes_eqb_eq in E; subst z|]; cbn [negb]; now constructor. }
  destruct h as [[xx c r]|c]; cbn in Hc; subst c; cbn in S2.
  - destruct r as [rep|z|].
    + rewrite (becomes_at _ _ _ _ S2). exact TW.
    + destruct S2 as (l & T & B). now rewrite (becomes_at _ _ _ _ B).
    + destruct S2 as (l & T & B). now rewrite (becomes_at _ _ _ _ B).
  - destruct S2 as (l & T & B). now rewrite (becomes_at _ _ _ _ B).
Qed.
