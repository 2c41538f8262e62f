(** Concrete overlapping index calls: a case of C62, and a Search that misses an identifier. *)
From Coq Require Import ZifyN ZifyNat.
From stdpp Require Import gmap.
From Verif Require Import Bytes Go Types World Io IoSpec IoProofs Id Data D1 D1Proofs Spec SpecProofs Demo D1ConcSpec D1Conc
  Index IndexSpec IndexConcSpec IndexProofs IndexHist IndexFacts IndexDemo IndexConc IndexConcDemo IndexOwnSpec IndexOwn IndexOwnAll.
Local Open Scope bool_scope.
Local Open Scope N_scope.

Section Steps.
  Context {S I : Type}.
  Notation W := (world S I).
  (** Some steps of one call. *)
  Inductive steps {A} : prog W A -> W -> prog W A -> W -> Prop :=
  | st_nil p w : steps p w p w
  | st_cons X (h : W -> X * W) k w p' w' : steps (k (fst (h w))) (snd (h w)) p' w' -> steps (Step h k) w p' w'.
  Lemma steps_bind {A B} (p : prog W A) (q : A -> prog W B) w p' w' : steps p w p' w' -> steps (bind p q) w (bind p' q) w'.
  Proof. induction 1 as [p w|X h k w p' w' H IH]; [constructor|]. cbn [bind]. constructor. exact IH. Qed.

  Context (e : env) (v : view S) (io : provider S) (Hio : cell_storage v io) (iek : bytes) (Hiek : blen iek = 32).
  Context (idp : bytes -> prog W (res identity)) (fuel : nat).
  Lemma conc_steps pool t p (w : W) p' w1 tr pool' w' : pool !! t = Some p -> steps p w p' w1 ->
    ix_conc e v idp iek fuel io (<[t := p']> pool) w1 tr pool' w' -> ix_conc e v idp iek fuel io pool w tr pool' w'.
  Proof.
    intros Ht H. revert pool Ht. induction H as [p w|X h k w p' w1 H IH]; intros pool Ht Hr.
    - rewrite list_insert_id in Hr by exact Ht. exact Hr.
    - eapply ic_step; [exact Ht|]. apply IH; [apply list_lookup_insert; eapply lookup_lt_Some; eauto|]. now rewrite list_insert_insert.
  Qed.
  Lemma own_steps {A} kw M ro (p : prog W A) Q : forall g w, own v iek kw M ro p g Q -> kept v iek kw M g w ->
    exists a g' w', steps p w (Ret a) w' /\ kept v iek kw M g' w' /\ (ro = true -> g' = g) /\ Q a g'.
  Proof.
    induction p as [a|X h k IH]; intros g w H Hw; cbn [own] in H; [exists a, g, w; split; [constructor|auto]|].
    destruct (H w Hw) as (g1 & R1 & R2 & _ & R4). destruct (IH _ g1 _ R4 R2) as (a & g' & w' & S1 & S2 & S3 & S4).
    exists a, g', w'. split; [now constructor|]. split; [exact S2|]. split; [|exact S4]. intros E. rewrite S3 by exact E. now apply R1.
  Qed.

  Context (K : list bytes) (M : N) (HM : M < 2 ^ 64) (Hdiff : labels_differ iek K M).
  Context (who : bytes -> res identity -> Prop) (Hwho : forall tok, ix_answers v (idp tok) (who tok)).
  Context (Hfuel : (N.to_nat M < fuel)%nat).
  Notation core := (core e v iek K M who).
  (** Letting one call run to its end. *)
  Lemma go past pool w G m ds t c : (forall c, In c (obs_calls past) -> In (ix_keyword c) K) -> open past ds t c -> core past pool w G m ds ->
    exists r pool1 w1 G1 m1 ds1, core (past ++ [OReply t r]) pool1 w1 G1 m1 ds1 /\ (exists x, ix_outside_ok e who c x /\ ix_step x c m r m1 /\ map ia_call ds1 = map ia_call ds ++ [t]) /\
      forall tr pool' w', ix_conc e v idp iek fuel io pool1 w1 tr pool' w' -> ix_conc e v idp iek fuel io pool w (OReply t r :: tr) pool' w'.
  Proof.
    intros HK Hop Hcore.
    assert (G0 : exists r pool1 w1 G1, core past pool1 w1 G1 m ds /\ pool1 !! t = Some (Ret r) /\
      forall tr pool' w', ix_conc e v idp iek fuel io pool1 w1 tr pool' w' -> ix_conc e v idp iek fuel io pool w tr pool' w').
    { destruct (k_open _ _ _ _ _ _ _ _ _ _ _ _ Hcore t c Hop) as (p & b1 & P1 & _ & _).
      revert pool w G Hcore P1. induction p as [r|X h k IH]; intros pool w G Hcore P1.
      - exists r, pool, w, G. auto.
      - destruct (core_step e v iek Hiek K M HM Hdiff idp who Hwho fuel Hfuel past pool w G m ds t X h k HK P1 Hcore) as (G' & HC).
        destruct (IH (fst (h w)) _ _ _ HC) as (r & pool1 & w1 & G1 & C1 & C2 & C3); [apply list_lookup_insert; eapply lookup_lt_Some; eauto|].
        exists r, pool1, w1, G1. split; [exact C1|]. split; [exact C2|]. intros tr pool' w' Hr. eapply ic_step; [exact P1|]. auto. }
    destruct G0 as (r & pool1 & w1 & G1 & C1 & C2 & C3).
    destruct (core_reply e v iek Hiek K M HM idp who Hwho fuel Hfuel past pool1 w1 G1 m ds t r HK C2 C1) as (m1 & ds1 & C4 & C5).
    exists r, pool1, w1, G1, m1, ds1. split; [exact C4|]. split; [apply C5, Hop|]. intros tr pool' w' Hr. apply C3. eapply ic_reply; eauto.
  Qed.
End Steps.

(** ** A random source that works and callers who may *)
Definition dem_who (tok : bytes) (r : res identity) : Prop := r = demo_who tok.
Lemma dem_answers {S} (v : view S) tok : ix_answers v (demo_idp tok : prog (world S unit) _) (dem_who tok).
Proof. reflexivity. Qed.
Lemma demo_alive : ~ exists i n, draw demo_env i n = Err ERandom.
Proof. intros (i & n & H). destruct (demo_draw i n) as [b E]. congruence. Qed.
Lemma alice_who : demo_who tok_alice = Ok alice.
Proof. unfold demo_who. now rewrite (proj2 (bytes_eqb_eq _ _) eq_refl). Qed.
Lemma alice_may : scope_has (i_scopes alice) ScopeIndex.
Proof. apply scope_contains_has. reflexivity. Qed.
Lemma dem_step x c m r m' : ix_outside_ok demo_env dem_who c x -> ix_token c = tok_alice -> ix_step x c m r m' ->
  match c with
  | IAdd _ kw y => r = Ok IRUnit /\ becomes kw (m kw ++ [as_text y]) m m'
  | ISearch _ kw => r = Ok (IRIds (m kw)) /\ same m m'
  | IDelete _ kw y => r = Ok IRUnit /\ becomes kw (without y (m kw)) m m'
  end.
Proof.
  intros [H1 H2] Et. unfold ix_step, ix_allowed. red in H1. rewrite H1, Et, alice_who. intros [[Hn _]|[_ H]]; [destruct (Hn alice_may)|].
  destruct c; [|exact H|]; (destruct H as [[Hr _]|H]; [destruct (demo_alive (H2 Hr))|exact H]).
Qed.

Section Setup.
  Context {S : Type} (v : view S) (io : provider S) (Hio : cell_storage v io) (iek : bytes) (Hiek : blen iek = 32) (w0 : world S unit) (Hw0 : ix_fresh v w0).
  Notation conc := (ix_conc demo_env v demo_idp iek 9 io).
  Context (K : list bytes) (Hdiff : labels_differ iek K 2).
  Notation core := (core demo_env v iek K 2 dem_who).
  Lemma core_start : core [] [] w0 (fun _ _ => None) index_empty [].
  Proof.
    destruct Hw0 as [Hv Hf]. constructor; try (intros; contradiction); auto.
    - intros kw _. split; [exact Hv|]. intros c _. apply Hf.
    - intros t c [H _]. destruct t; discriminate.
    - intros kw _ _. apply chain_nil.
    - intros t t' c c' _ [H _]. destruct t; discriminate.
    - constructor. intros kw. reflexivity.
    - constructor.
    - intros tr1 tr2 E. exists [], []. split; [reflexivity|]. symmetry in E. apply app_eq_nil in E as [-> _]. split; [intros t r []|intros t []].
  Qed.
  Lemma two_small : 2 < 2 ^ 64.
  Proof. reflexivity. Qed.
  Lemma two_fuel : (N.to_nat 2 < 9)%nat.
  Proof. cbn. lia. Qed.
  Notation call := (core_call demo_env v io Hio iek Hiek K 2 two_small Hdiff demo_idp dem_who (dem_answers v) 9 two_fuel).
  Definition finish past pool w G m ds (C : core past pool w G m ds) t c HK O :=
    go demo_env v io iek Hiek demo_idp 9 K 2 two_small Hdiff dem_who (dem_answers v) two_fuel past pool w G m ds t c HK O C.

  Lemma two_keywords kw kw' a x : In kw K -> In kw' K -> kw <> kw' -> as_text a = a -> as_text x = x -> exists pool w1,
    conc [] w0 [OCall (IAdd tok_alice kw a); OCall (IAdd tok_alice kw' x); OReply 1 (Ok IRUnit); OReply 0 (Ok IRUnit);
      OCall (IDelete tok_alice kw a); OCall (ISearch tok_alice kw'); OCall (ISearch tok_alice kw');
      OReply 3 (Ok (IRIds [x])); OReply 2 (Ok IRUnit); OReply 4 (Ok (IRIds [x]))] pool w1.
  Proof.
    intros Hk Hk' Hne Ha Hx.
    assert (HK : forall past, (forall c, In c (obs_calls past) -> ix_keyword c = kw \/ ix_keyword c = kw') -> forall c, In c (obs_calls past) -> In (ix_keyword c) K).
    { intros past H c Hc. destruct (H c Hc) as [->| ->]; assumption. }
    pose proof (call [] [] w0 (fun _ _ => None) index_empty [] (IAdd tok_alice kw a)) as C1.
    specialize (C1 Hk ltac:(unfold bound; cbn; rewrite (proj2 (bytes_eqb_eq kw kw) eq_refl); cbn; lia) ltac:(intros t c' H; destruct t; discriminate H) core_start).
    assert (N1 : bytes_eqb kw kw' = false) by (destruct (bytes_eqb kw kw') eqn:E; [apply bytes_eqb_eq in E; contradiction|reflexivity]).
    assert (N2 : bytes_eqb kw' kw = false) by (destruct (bytes_eqb kw' kw) eqn:E; [apply bytes_eqb_eq in E; congruence|reflexivity]).
    pose proof (proj2 (bytes_eqb_eq kw kw) eq_refl) as N3. pose proof (proj2 (bytes_eqb_eq kw' kw') eq_refl) as N4.
    cbn [app] in C1. eapply (call _ _ _ _ _ _ (IAdd tok_alice kw' x)) in C1; [|exact Hk'|unfold bound; cbn; rewrite ?N1, ?N2, ?N3, ?N4; cbn; lia|].
    2:{ intros t c' H [O1 O2]. destruct t as [|t]; cbn in H; [injection H as <-; cbn in O1; contradiction|destruct t; discriminate H]. }
    cbn [app] in C1. destruct (finish _ _ _ _ _ _ C1 1%nat (IAdd tok_alice kw' x) ltac:(apply HK; cbn; intuition (subst; auto)) ltac:(split; [reflexivity|intros []]))
      as (r1 & pool1 & w1 & G1 & m1 & ds1 & C2 & (x1 & X1 & Y1 & D1) & F1).
    apply (dem_step _ _ _ _ _ X1 eq_refl) in Y1 as [-> [Y1 Z1]].
    cbn [app] in C2. destruct (finish _ _ _ _ _ _ C2 0%nat (IAdd tok_alice kw a) ltac:(apply HK; cbn; intuition (subst; auto)) ltac:(split; [reflexivity|rewrite D1; intros [H|[]]; discriminate H]))
      as (r2 & pool2 & w2 & G2 & m2 & ds2 & C3 & (x2 & X2 & Y2 & D2) & F2).
    apply (dem_step _ _ _ _ _ X2 eq_refl) in Y2 as [-> [Y2 Z2]]. rewrite D1 in D2. cbn [app map] in D2.
    cbn [app] in C3. eapply (call _ _ _ _ _ _ (IDelete tok_alice kw a)) in C3; [|exact Hk|unfold bound; cbn; rewrite ?N1, ?N2, ?N3, ?N4; cbn; lia|].
    2:{ intros t c' H _. exists (Ok IRUnit). destruct t as [|[|t]]; cbn; [auto 10|auto 10|destruct t; discriminate H]. }
    cbn [app] in C3. eapply (call _ _ _ _ _ _ (ISearch tok_alice kw')) in C3; [|exact Hk'|unfold bound; cbn; rewrite ?N1, ?N2, ?N3, ?N4; cbn; lia|].
    2:{ intros t c' H [O1 O2]. destruct t as [|[|[|t]]]; cbn in H; [exists (Ok IRUnit); cbn; auto 10|exists (Ok IRUnit); cbn; auto 10|injection H as <-; cbn in O1; contradiction|destruct t; discriminate H]. }
    cbn [app] in C3. eapply (call _ _ _ _ _ _ (ISearch tok_alice kw')) in C3; [|exact Hk'|unfold bound; cbn; rewrite ?N1, ?N2, ?N3, ?N4; cbn; lia|].
    2:{ intros t c' H [O1 O2]. destruct t as [|[|[|[|t]]]]; cbn in H;
        [exists (Ok IRUnit); cbn; auto 10|exists (Ok IRUnit); cbn; auto 10|injection H as <-; cbn in O1; contradiction|injection H as <-; destruct O2; cbn; auto|destruct t; discriminate H]. }
    cbn [app] in C3.
    destruct (finish _ _ _ _ _ _ C3 3%nat (ISearch tok_alice kw') ltac:(apply HK; cbn; intuition (subst; auto)) ltac:(split; [reflexivity|rewrite D2; intros [H|[H|[]]]; discriminate H]))
      as (r3 & pool3 & w3 & G3 & m3 & ds3 & C4 & (x3 & X3 & Y3 & D3) & F3).
    apply (dem_step _ _ _ _ _ X3 eq_refl) in Y3 as [-> Y3]. rewrite D2 in D3. cbn [app map] in D3, C4.
    destruct (finish _ _ _ _ _ _ C4 2%nat (IDelete tok_alice kw a) ltac:(apply HK; cbn; intuition (subst; auto)) ltac:(split; [reflexivity|rewrite D3; intros [H|[H|[H|[]]]]; discriminate H]))
      as (r4 & pool4 & w4 & G4 & m4 & ds4 & C5 & (x4 & X4 & Y4 & D4) & F4).
    apply (dem_step _ _ _ _ _ X4 eq_refl) in Y4 as [-> [Y4 Z4]]. rewrite D3 in D4. cbn [app map] in D4, C5.
    destruct (finish _ _ _ _ _ _ C5 4%nat (ISearch tok_alice kw') ltac:(apply HK; cbn; intuition (subst; auto)) ltac:(split; [reflexivity|rewrite D4; intros [H|[H|[H|[H|[]]]]]; discriminate H]))
      as (r5 & pool5 & w5 & G5 & m5 & ds5 & C6 & (x5 & X5 & Y5 & D5) & F5).
    apply (dem_step _ _ _ _ _ X5 eq_refl) in Y5 as [-> Y5].
    assert (M2 : m2 kw' = [x]) by (rewrite Z2 by auto; rewrite Y1; cbn; now rewrite Hx).
    assert (M4 : m4 kw' = [x]) by (rewrite Z4 by auto; rewrite Y3; exact M2).
    rewrite M2 in F3. rewrite M4 in F5.
    exists pool5, w5. apply ic_call, ic_call. apply F1, F2. apply ic_call, ic_call, ic_call. apply F3, F4, F5. constructor.
  Qed.

  (** ** A Search that overlaps a Delete *)
  Lemma own_labels kw : In kw K -> forall c c', c <= 2 -> c' <= 2 -> lab iek kw c = lab iek kw c' -> c = c'.
  Proof. intros Hk c c' H1 H2 E. eapply (lab_apart iek Hiek K 2 Hdiff) in E; eauto. apply E. Qed.

  Lemma misses kw a x : In kw K -> as_text a = a -> as_text x = x -> a <> x -> exists pool w1,
    conc [] w0 [OCall (IAdd tok_alice kw a); OReply 0 (Ok IRUnit); OCall (IAdd tok_alice kw x); OReply 1 (Ok IRUnit);
      OCall (ISearch tok_alice kw); OCall (IDelete tok_alice kw a); OReply 3 (Ok IRUnit); OReply 2 (Ok (IRIds [a]))] pool w1.
  Proof.
    intros Hk Ha Hx Hne.
    assert (HK : forall past, (forall c, In c (obs_calls past) -> ix_keyword c = kw) -> forall c, In c (obs_calls past) -> In (ix_keyword c) K).
    { intros past H c Hc. now rewrite (H c Hc). }
    pose proof (proj2 (bytes_eqb_eq kw kw) eq_refl) as N3.
    pose proof (call [] [] w0 (fun _ _ => None) index_empty [] (IAdd tok_alice kw a)) as C1.
    specialize (C1 Hk ltac:(unfold bound; cbn; rewrite N3; cbn; lia) ltac:(intros t c' H; destruct t; discriminate H) core_start).
    cbn [app] in C1. destruct (finish _ _ _ _ _ _ C1 0%nat (IAdd tok_alice kw a) ltac:(apply HK; cbn; intuition (subst; auto)) ltac:(split; [reflexivity|intros []]))
      as (r1 & pool1 & w1 & G1 & m1 & ds1 & C2 & (x1 & X1 & Y1 & D1) & F1).
    apply (dem_step _ _ _ _ _ X1 eq_refl) in Y1 as [-> [Y1 Z1]].
    cbn [app] in C2. eapply (call _ _ _ _ _ _ (IAdd tok_alice kw x)) in C2; [|exact Hk|unfold bound; cbn; rewrite ?N3; cbn; lia|].
    2:{ intros t c' H _. exists (Ok IRUnit). destruct t as [|t]; cbn; [auto 10|destruct t; discriminate H]. }
    cbn [app] in C2. destruct (finish _ _ _ _ _ _ C2 1%nat (IAdd tok_alice kw x) ltac:(apply HK; cbn; intuition (subst; auto)) ltac:(split; [reflexivity|rewrite D1; intros [H|[]]; discriminate H]))
      as (r2 & pool2 & w2 & G2 & m2 & ds2 & C3 & (x2 & X2 & Y2 & D2) & F2).
    apply (dem_step _ _ _ _ _ X2 eq_refl) in Y2 as [-> [Y2 Z2]]. rewrite D1 in D2. cbn [app map] in D2.
    assert (M2 : m2 kw = [a; x]) by (rewrite Y2, Y1; cbn; now rewrite Ha, Hx).
    destruct C3 as [C31 C32 C33 _ _ C36 _ _ _ _ _]. cbn [app obs_calls length] in C33. specialize (C32 kw Hk).
    specialize (C36 kw Hk). rewrite M2 in C36.
    assert (Hch : chain iek kw 2 2 (G2 kw) [a; x]).
    { eapply chain_mono; [|apply C36].
      - unfold bound. cbn. rewrite ?N3. cbn. lia.
      - intros t c [O1 O2] _. exfalso. apply O2. rewrite D2. destruct t as [|[|t]]; cbn in O1; [now left|right; now left|destruct t; discriminate O1]. }
    clear C36. pose proof Hch as (f & ps & z & Hs & Hwf & Hp & El & Ht).
    pose proof (own_labels kw Hk) as HD.
    inversion Hp as [c0 E0 Q1 Q2 Q3|c0 n1 ps1 z1 E0 Hp1 Q1 Q2 Q3]; subst; [discriminate El|]. cbn [map snd] in El. injection El as El1 El2.
    destruct (Hwf kw 0 n1 ltac:(now left) ltac:(lia) E0) as (L1 & L2 & _).
    set (kk := fun r : res (list bytes) => Ret (res_map IRIds r) : prog (world S unit) (res ix_reply)).
    assert (Ep : exists q, ix_do demo_env io demo_idp iek 9 (ISearch tok_alice kw) = bind (bind (get_next_node demo_env io (tkey iek kw) (ckey iek kw) node_zero) q) kk /\
      q (Ok n1) = search_loop demo_env io (tkey iek kw) (ckey iek kw) 8 n1 [n_id n1]).
    { eexists (fun r => match r with Ok next => search_loop demo_env io (tkey iek kw) (ckey iek kw) 8 next ([] ++ [n_id next]) | Err EIxNodeNotFound => Ret (Ok []) | Err x => Ret (Err x) | Panic => Ret Panic end).
      split; [|reflexivity]. cbn [ix_do]. unfold ix_search, ix_verify, demo_idp. rewrite alice_who. unfold lift. rewrite (ix_keys_ok iek Hiek). reflexivity. }
    destruct Ep as (q & Ep & Eq).
    pose proof (own_get_next (I := unit) demo_env v io Hio iek Hiek kw 2 f (G2 kw) node_zero Hs ltac:(cbn; lia)) as OG.
    destruct (own_steps v iek kw 2 true _ _ _ w2 OG C32) as (rg & g1 & w3 & S1 & S2 & _ & -> & Erg).
    cbn [n_next node_zero] in Erg. rewrite E0 in Erg. subst rg.
    (* the Delete *)
    pose proof (own_call demo_env v io Hio iek Hiek kw 2 two_small HD 2 (N.le_refl 2) demo_idp dem_who (dem_answers v) 9 two_fuel (IDelete tok_alice kw a) (G2 kw) [a; x] eq_refl ltac:(cbn; lia) Hch) as OD.
    destruct (own_steps v iek kw 2 _ _ _ _ w3 OD S2) as (rd & g2 & w4 & S3 & S4 & _ & (xd & l' & V1 & V2 & V3)).
    set (mm := fun k => if decide (k = kw) then l' else [a; x] : list bytes).
    assert (V5 : mm kw = l') by (unfold mm; destruct (decide (kw = kw)); [reflexivity|congruence]).
    assert (V6 : forall k, k <> kw -> mm k = (fun _ => [a; x]) k) by (intros k Hn; unfold mm; destruct (decide (k = kw)); [congruence|reflexivity]).
    pose proof (V3 (fun _ => [a; x]) mm eq_refl V5 V6) as V.
    apply (dem_step _ _ _ _ _ V1 eq_refl) in V as [-> [V _]]. rewrite V5 in V. clear mm V5 V6.
    assert (Ell : l' = [x]).
    { rewrite V. unfold without. cbn [List.filter]. rewrite (proj2 (bytes_eqb_eq a a) eq_refl). destruct (bytes_eqb x a) eqn:E; [apply bytes_eqb_eq in E; congruence|reflexivity]. }
    rewrite Ell in *. clear Ell l'. destruct V2 as (f2 & ps2 & z2 & Hs2 & _ & Hp2 & El' & Ht2).
    assert (Hgone : f2 kw (n_next n1) = None).
    { destruct (Ht2 (n_next n1)) as [E|E]; [exact E|]. exfalso.
      inversion Hp2 as [c0 E2 Q1 Q2 Q3|c0 n2 ps3 z3 E2 Hp3 Q1 Q2 Q3]; subst; [discriminate El'|]. cbn [map snd fst] in El', E. injection El' as _ El'. destruct ps3; [|discriminate El'].
      destruct E as [E|[]]. lia. }
    pose proof (own_get_next (I := unit) demo_env v io Hio iek Hiek kw 2 f2 g2 n1 Hs2 ltac:(lia)) as OG2. rewrite Hgone in OG2.
    destruct (own_steps v iek kw 2 true _ _ _ w4 OG2 S4) as (rg & g3 & w5 & S5 & _ & _ & _ & ->).
    exists (<[2%nat := Ret (Ok (IRIds [a]))]> (<[3%nat := Ret (Ok IRUnit)]> (<[2%nat := bind (search_loop demo_env io (tkey iek kw) (ckey iek kw) 8 n1 [n_id n1]) kk]>
      (pool2 ++ [ix_do demo_env io demo_idp iek 9 (ISearch tok_alice kw)]) ++ [ix_do demo_env io demo_idp iek 9 (IDelete tok_alice kw a)]))), w5.
    apply ic_call. apply F1. apply ic_call. apply F2. apply ic_call.
    assert (L2p : length pool2 = 2%nat) by exact C33.
    eapply (conc_steps _ _ _ _ _ _ _ 2); [rewrite lookup_app_r by lia; rewrite L2p; exact (f_equal Some Ep)| |].
    { apply steps_bind, steps_bind. exact S1. }
    cbn [bind]. rewrite Eq. apply ic_call.
    eapply (conc_steps _ _ _ _ _ _ _ 3); [rewrite lookup_app_r by (rewrite insert_length, app_length; cbn; lia); rewrite insert_length, app_length, L2p; reflexivity|exact S3|].
    eapply ic_reply; [apply list_lookup_insert; rewrite app_length, insert_length, app_length; cbn; lia|].
    eapply (conc_steps _ _ _ _ _ _ _ 2); [rewrite list_lookup_insert_ne by lia; rewrite lookup_app_l by (rewrite insert_length, app_length; cbn; lia); apply list_lookup_insert; rewrite app_length; cbn; lia| |].
    { apply (steps_bind _ kk). cbn [search_loop]. apply steps_bind. exact S5. }
    cbn [bind]. unfold kk. cbn [bind res_map]. rewrite El1.
    eapply ic_reply; [apply list_lookup_insert; rewrite insert_length, app_length, insert_length, app_length; cbn; lia|]. constructor.
  Qed.
End Setup.

(** ** Concretely *)
Fixpoint orderly_from (past tr : list ix_obs) : Prop :=
  match tr with
  | [] => True
  | OCall c :: tr => (forall t c', nth_error (obs_calls past) t = Some c' -> ix_odds c' c -> exists r, In (OReply t r) past) /\ orderly_from (past ++ [OCall c]) tr
  | o :: tr => orderly_from (past ++ [o]) tr
  end.
Lemma orderly_from_ok tr : forall past, orderly_from past tr -> forall tr1 c tr2, tr = tr1 ++ OCall c :: tr2 ->
  forall t c', nth_error (obs_calls (past ++ tr1)) t = Some c' -> ix_odds c' c -> exists r, In (OReply t r) (past ++ tr1).
Proof.
  induction tr as [|o tr IH]; intros past H tr1 c tr2 E t c' Ht Ho; [destruct tr1; discriminate|].
  destruct tr1 as [|o1 tr1]; cbn [app] in E.
  - injection E as -> ->. rewrite app_nil_r in *. destruct H as [H _]. eauto.
  - injection E as <- ->. assert (E : past ++ o :: tr1 = (past ++ [o]) ++ tr1) by (rewrite <- app_assoc; reflexivity). rewrite E in *.
    apply (IH (past ++ [o])) with (c := c) (tr2 := tr2) (c' := c'); auto. destruct o; [apply H|exact H].
Qed.
Definition pair_tr : list ix_obs :=
  [OCall (IAdd tok_alice dog id1); OCall (IAdd tok_alice cat id2); OReply 1 (Ok IRUnit); OReply 0 (Ok IRUnit);
   OCall (IDelete tok_alice dog id1); OCall (ISearch tok_alice cat); OCall (ISearch tok_alice cat);
   OReply 3 (Ok (IRIds [id2])); OReply 2 (Ok IRUnit); OReply 4 (Ok (IRIds [id2]))].
Lemma dog_cat : dog <> cat.
Proof. discriminate. Qed.
Lemma pair_orderly : ix_orderly pair_tr.
Proof.
  enough (H : orderly_from [] pair_tr) by exact (orderly_from_ok pair_tr [] H). pose proof dog_cat as N. unfold pair_tr. generalize dog cat N. clear N. intros d c N.
  cbn [orderly_from app obs_calls]. repeat split.
  - intros t c' H. destruct t; discriminate H.
  - intros t c' H [O _]. destruct t as [|t]; cbn in H; [injection H as <-; cbn in O; contradiction|destruct t; discriminate H].
  - intros t c' H _. exists (Ok IRUnit). destruct t as [|[|t]]; cbn; [auto 10|auto 10|destruct t; discriminate H].
  - intros t c' H [O _]. destruct t as [|[|[|t]]]; cbn in H; [exists (Ok IRUnit); cbn; auto 10|exists (Ok IRUnit); cbn; auto 10|injection H as <-; cbn in O; contradiction|destruct t; discriminate H].
  - intros t c' H [O1 O2]. destruct t as [|[|[|[|t]]]]; cbn in H;
      [exists (Ok IRUnit); cbn; auto 10|exists (Ok IRUnit); cbn; auto 10|injection H as <-; cbn in O1; contradiction|injection H as <-; destruct O2; cbn; auto|destruct t; discriminate H].
Qed.
Lemma demo_mem_fresh : ix_fresh mem_view demo_w.
Proof. split; [exact Logic.I|]. intros id. apply lookup_empty. Qed.
Lemma pair_case : exists pool w1,
  cell_storage mem_view Mem /\ (forall tok, ix_answers mem_view (demo_idp tok : prog DW _) (fun r => r = demo_who tok)) /\
  ix_new (Ok demo_ix_keys) = Ok demo_iek /\ ix_fresh mem_view demo_w /\ ix_conc demo_env mem_view demo_idp demo_iek 9 Mem [] demo_w pair_tr pool w1 /\
  ix_orderly pair_tr /\ labels_differ demo_iek (map ix_keyword (obs_calls pair_tr)) (N.of_nat (count_adds (obs_calls pair_tr))).
Proof.
  destruct (two_keywords mem_view Mem mem_cells demo_iek eq_refl demo_w demo_mem_fresh [dog; cat] demo_differ dog cat id1 id2 ltac:(now left) ltac:(right; now left) dog_cat eq_refl eq_refl) as (pool & w1 & H).
  exists pool, w1. split; [exact mem_cells|]. split; [intros tok; reflexivity|]. split; [reflexivity|]. split; [exact demo_mem_fresh|]. split; [exact H|].
  split; [exact pair_orderly|]. apply (differ_incl _ _ _ _ _ demo_differ); [unfold pair_tr; cbn [obs_calls map ix_keyword In]; tauto|unfold pair_tr; cbn [obs_calls]; unfold count_adds; cbn [List.filter length]; lia].
Qed.

Definition miss_tr : list ix_obs :=
  [OCall (IAdd tok_alice dog id1); OReply 0 (Ok IRUnit); OCall (IAdd tok_alice dog id2); OReply 1 (Ok IRUnit);
   OCall (ISearch tok_alice dog); OCall (IDelete tok_alice dog id1); OReply 3 (Ok IRUnit); OReply 2 (Ok (IRIds [id1]))].
Lemma miss_run : exists pool w1, ix_conc demo_env bolt_view demo_idp demo_iek 9 Bolt [] demo_w miss_tr pool w1.
Proof.
  exact (misses bolt_view Bolt bolt_cells demo_iek eq_refl demo_w demo_bolt_fresh [dog; cat] demo_differ dog id1 id2 ltac:(now left) eq_refl eq_refl ltac:(discriminate)).
Qed.
Lemma miss_not_linear ds m' : ~ ix_linearizes index_empty miss_tr ds m'.
Proof.
  intros H. assert (A : In id2 [id1]); [|destruct A as [A|[]]; discriminate A].
  eapply (linearizes_found _ miss_tr ds m' [OCall (IAdd tok_alice dog id1); OReply 0 (Ok IRUnit); OCall (IAdd tok_alice dog id2); OReply 1 (Ok IRUnit)] _ 1 tok_alice dog id2 IRUnit tok_alice [id1] H).
  - intros tok Hc. unfold miss_tr in Hc. cbn [obs_calls In] in Hc. destruct Hc as [E|[E|[E|[E|[]]]]]; discriminate E.
  - reflexivity.
  - reflexivity.
  - cbn [In]. auto 10.
  - cbn [obs_calls length In]. auto 10.
Qed.
