(** The index theorems in the form P_Index.v states them. *)
From Coq Require Import ZifyN ZifyNat.
From stdpp Require Import gmap.
From Verif Require Import Bytes Go Types World Logic Cryptor IoSpec IoProofs Id Data D1 D1Proofs Spec SpecProofs
  Index IndexSpec IndexProofs IndexRefine IndexHist IndexCost.
Local Open Scope bool_scope.
Local Open Scope N_scope.

Lemma ix_new_length ks iek : ix_new ks = Ok iek -> blen iek = 32.
Proof.
  unfold ix_new. destruct ks as [k|x|]; cbn [res_bind]; try discriminate. unfold MasterKeyLength.
  destruct (N.eqb_spec (blen (k_iek k)) 32) as [E|E]; cbn [negb]; [|discriminate]. now intros [= <-].
Qed.
Notation ev_keywords evs := (map (fun ev => ix_keyword (iv_call ev)) evs).
Notation hap_keywords hs := (map (fun h => ix_keyword (hap_call h)) hs).
Notation adds cs := (N.of_nat (count_adds cs)).

Section Facts.
  Context {S I : Type} (e : env) (v : view S) (idp : bytes -> prog (world S I) (res identity)).
  Notation W := (world S I).

  Lemma index_refines (io : provider S) ks iek fuel (w : W) evs w' :
    io_spec False v io -> idp_reads v idp -> ix_new ks = Ok iek -> ix_fresh v w ->
    ix_run e v idp iek fuel io w evs w' ->
    labels_differ iek (ev_keywords evs) (adds (map iv_call evs)) -> adds (map iv_call evs) < 2 ^ 64 -> (count_adds (map iv_call evs) < fuel)%nat ->
    exists m, ix_history index_empty evs m.
  Proof.
    intros Hio Hidp Hks Hf Hr Hd H64 Hfu. apply ix_new_length in Hks. pose proof (fresh_state v iek (ev_keywords evs) (adds (map iv_call evs)) w Hf) as [HS HC].
    destruct (run_refines e v idp Hidp iek Hks (ev_keywords evs) (adds (map iv_call evs)) H64 Hd io Hio fuel w evs w' Hr [] 0 _ index_empty HS HC) as (m & H & _); [| | |exists m; exact H].
    - intros ev Hev. apply (in_map (fun ev => ix_keyword (iv_call ev))). exact Hev.
    - lia.
    - lia.
  Qed.
  Lemma index_search (io : provider S) ks iek fuel (w : W) pre x tok kw rep post w' :
    let evs := pre ++ mkIxEvent x (ISearch tok kw) (Ok rep) :: post in
    io_spec False v io -> idp_reads v idp -> ix_new ks = Ok iek -> ix_fresh v w ->
    ix_run e v idp iek fuel io w evs w' ->
    labels_differ iek (ev_keywords evs) (adds (map iv_call evs)) -> adds (map iv_call evs) < 2 ^ 64 -> (count_adds (map iv_call evs) < fuel)%nat ->
    (forall ev, In ev pre -> ~ botched kw ev) ->
    rep = IRIds (ix_listing kw pre).
  Proof.
    intros evs Hio Hidp Hks Hf Hr Hd H64 Hfu Hb. destruct (index_refines io ks iek fuel w evs w' Hio Hidp Hks Hf Hr Hd H64 Hfu) as [m Hm].
    exact (history_search _ _ _ _ _ _ _ _ Hm Hb rep eq_refl).
  Qed.

  Lemma index_interrupted ks iek fuel (w : W) hs w' :
    idp_reads v idp -> ix_new ks = Ok iek -> ix_fresh v w ->
    ix_xrun e v idp iek fuel w hs w' ->
    labels_differ iek (hap_keywords hs) (adds (map hap_call hs)) -> adds (map hap_call hs) < 2 ^ 64 -> (count_adds (map hap_call hs) < fuel)%nat ->
    exists m, ix_xhistory [] index_empty hs m.
  Proof.
    intros Hidp Hks Hf Hr Hd H64 Hfu. apply ix_new_length in Hks. pose proof (fresh_state v iek (hap_keywords hs) (adds (map hap_call hs)) w Hf) as [HS HC].
    destruct (xrun_refines e v idp Hidp iek Hks (hap_keywords hs) (adds (map hap_call hs)) H64 Hd fuel w hs w' Hr [] 0 _ index_empty HS) as (f & m & H & _).
    - intros kw. right. apply HC.
    - intros h Hh. apply (in_map (fun h => ix_keyword (hap_call h))). exact Hh.
    - lia.
    - lia.
    - exists m. exact H.
  Qed.
  Lemma index_sandwich ks iek fuel (w : W) pre x1 tok1 kw l1 h tok y x2 tok2 l2 post w' :
    let hs := pre ++ XDone (mkIxEvent x1 (ISearch tok1 kw) (Ok (IRIds l1))) :: h :: XDone (mkIxEvent x2 (ISearch tok2 kw) (Ok (IRIds l2))) :: post in
    hap_call h = IDelete tok kw y ->
    idp_reads v idp -> ix_new ks = Ok iek -> ix_fresh v w ->
    ix_xrun e v idp iek fuel w hs w' ->
    labels_differ iek (hap_keywords hs) (adds (map hap_call hs)) -> adds (map hap_call hs) < 2 ^ 64 -> (count_adds (map hap_call hs) < fuel)%nat ->
    thinned y l1 l2.
  Proof.
    intros hs Hh Hidp Hks Hf Hr Hd H64 Hfu. destruct (index_interrupted ks iek fuel w hs w' Hidp Hks Hf Hr Hd H64 Hfu) as [m Hm].
    exact (xhistory_sandwich _ _ _ _ _ _ _ _ _ _ _ _ _ _ _ Hm Hh).
  Qed.
End Facts.

Section Cost.
  Context {S I : Type} (e : env) (v : view S) (idp : bytes -> prog (world (S * N) I) (res identity)).
  Notation W := (world (S * N) I).
  Lemma index_terminates (io : provider S) ks iek fuel (w : W) hs w' a c :
    let kws := ix_keyword c :: hap_keywords hs in
    let n := adds (c :: map hap_call hs) in
    io_spec True v io -> idp_reads (counted_view v) idp -> (forall tok (w0 : W), ops (snd (run (idp tok) w0)) <= ops w0 + a) ->
    ix_new ks = Ok iek -> ix_fresh (counted_view v) w ->
    ix_xrun e (counted_view v) idp iek fuel w hs w' ->
    labels_differ iek kws n -> n < 2 ^ 64 -> n < N.of_nat fuel ->
    exists m, ix_xhistory [] index_empty hs m /\
      (forall tok rep fuel2, (length (m (ix_keyword c)) < fuel2)%nat ->
         fst (run (ix_do e (counted io) idp iek fuel2 (ISearch tok (ix_keyword c))) w') = Ok rep -> rep = IRIds (m (ix_keyword c))) /\
      forall fuel2, (length (m (ix_keyword c)) < fuel2)%nat ->
        let '(r, w2) := run (ix_do e (counted io) idp iek fuel2 c) w' in
        r <> Err EFuel /\ ops w2 <= ops w' + a + 4 * N.of_nat (length (m (ix_keyword c))) + 5.
  Proof.
    intros kws n Hio Hidp Ha Hks Hf Hr Hd H64 Hfu. apply ix_new_length in Hks.
    pose proof (count_cons c (map hap_call hs)) as HN. fold n in HN.
    assert (HK : forall h, In h hs -> In (ix_keyword (hap_call h)) kws).
    { intros h Hh. right. apply (in_map (fun h => ix_keyword (hap_call h))). exact Hh. }
    assert (HK0 : In (ix_keyword c) kws) by now left.
    clearbody n kws. pose proof (fresh_state (counted_view v) iek kws n w Hf) as [HS HC].
    destruct (xrun_refines e (counted_view v) idp Hidp iek Hks kws n H64 Hd fuel w hs w' Hr [] 0 _ index_empty HS) as (f & m & Hh & HS' & HT).
    { intros kw. right. apply HC. }
    { exact HK. }
    { lia. }
    { lia. }
    exists m. split; [exact Hh|]. cbn [app] in *.
    assert (G : forall c' fuel2, ix_keyword c' = ix_keyword c -> is_add c' <= is_add c -> (length (m (ix_keyword c)) < fuel2)%nat ->
      fst (run (ix_do e (counted io) idp iek fuel2 c') w') <> Err EFuel /\
      forall rep tok, c' = ISearch tok (ix_keyword c) -> fst (run (ix_do e (counted io) idp iek fuel2 c') w') = Ok rep -> rep = IRIds (m (ix_keyword c))).
    { intros c' fuel2 Hc' Hia Hl.
      pose proof (call_wpc e (counted_view v) idp Hidp iek Hks kws n H64 Hd True (counted io) (counted_spec _ _ _ Hio) fuel2 hs (0 + adds (map hap_call hs)) c' f m w' HS' HT) as HW.
      rewrite Hc' in HW. specialize (HW HK0 ltac:(lia) Hl). apply wpc_end in HW. destruct HW as [H1 (f' & m' & (_ & H2 & _) & _)].
      split; [exact H1|]. intros rep tok -> E. cbn [ix_xstep iv_call iv_reply] in H2. rewrite E in H2. apply H2. }
    split; [intros tok rep fuel2 Hl E; destruct (G (ISearch tok (ix_keyword c)) fuel2 eq_refl ltac:(cbn; lia) Hl) as [_ G2]; exact (G2 rep tok eq_refl E)|].
    intros fuel2 Hl.
    destruct (G c (Datatypes.S (length (m (ix_keyword c)))) eq_refl ltac:(lia) ltac:(lia)) as [G1 _].
    rewrite (call_more e (counted io) idp iek (Datatypes.S (length (m (ix_keyword c)))) fuel2 c w' ltac:(lia) G1).
    pose proof (costs_call e io idp iek a Ha (Datatypes.S (length (m (ix_keyword c)))) c w') as HC2.
    destruct (run _ w') as [r w2]. cbn [fst snd] in *. split; [exact G1|lia].
  Qed.
End Cost.
