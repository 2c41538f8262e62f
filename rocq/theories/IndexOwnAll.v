(** Overlapping index calls act one after the other unless they are at odds. *)
From Coq Require Import ZifyN ZifyNat.
From stdpp Require Import gmap.
From Verif Require Import Bytes Go Types World IoSpec Id Data D1 Spec SpecProofs Index IndexSpec IndexProofs IndexFacts
  IndexConcSpec D1ConcSpec IndexOwnSpec IndexOwn IndexHist.
Local Open Scope bool_scope.
Local Open Scope N_scope.

Lemma obs_calls_app a b : obs_calls (a ++ b) = obs_calls a ++ obs_calls b.
Proof. induction a as [|[c|t r] a IH]; cbn; congruence. Qed.
Lemma hist_snoc m evs m1 ev m2 : ix_history m evs m1 -> ix_step (iv_x ev) (iv_call ev) m1 (iv_reply ev) m2 -> ix_history m (evs ++ [ev]) m2.
Proof.
  intros H. induction H as [m m' Hs|m ev' ma evs mb Hst Hh IH]; intros H'; cbn [app].
  - econstructor; [|constructor; intros kw; reflexivity].
    revert H'. assert (E : forall kw, m' kw = m kw) by exact Hs. unfold ix_step, ix_allowed, same, becomes.
    assert (E2 : (forall kw, m2 kw = m' kw) -> forall kw, m2 kw = m kw) by (intros H kw; rewrite H; apply E).
    assert (E3 : forall kw0, (forall kw', kw' <> kw0 -> m2 kw' = m' kw') -> forall kw', kw' <> kw0 -> m2 kw' = m kw') by (intros kw0 H kw' Hn; rewrite H by exact Hn; apply E).
    destruct (ix_who (iv_x ev)); [|intros []; auto..]. intros [(H1 & H2 & H3)|(H1 & H2)]; [left; auto|right]. split; [exact H1|].
    destruct (iv_call ev); rewrite ?E in H2.
    + destruct H2 as [(A & B & C)|(A & B & C)]; [left; auto|right; split; [exact A|]; split; [exact B|eauto]].
    + destruct H2; auto.
    + destruct H2 as [(A & B & l & C & C2 & C3)|(A & B & C)]; [left|right; split; [exact A|]; split; [exact B|eauto]].
      split; [exact A|]. split; [exact B|]. exists l. split; [exact C|]. eauto.
  - econstructor; [exact Hst|auto].
Qed.
Lemma search_same x c m r m' : is_search c -> ix_step x c m r m' -> same m m'.
Proof.
  unfold ix_step, ix_allowed. destruct c; try contradiction. intros _. destruct (ix_who x); [|intros []; auto..]. intros [(_ & _ & H)|(_ & _ & H)]; exact H.
Qed.
Definition bound (kw : bytes) (cs : list ix_call) : N := N.of_nat (length (adds_of kw cs)).
Lemma bound_snoc kw cs c : bound kw (cs ++ [c]) = bound kw cs + (if decide (ix_keyword c = kw) then is_add c else 0).
Proof.
  unfold bound, adds_of. rewrite flat_map_app, app_length. cbn [flat_map]. rewrite app_nil_r.
  destruct c as [tok k y|tok k|tok k y]; cbn [ix_keyword is_add]; [|destruct (decide _); cbn; lia..].
  destruct (bytes_eqb k kw) eqn:E.
  - apply bytes_eqb_eq in E. subst. destruct (decide _); [cbn; lia|congruence].
  - apply bytes_eqb_neq in E. destruct (decide _); [congruence|cbn; lia].
Qed.
Lemma bound_count kw cs : bound kw cs <= N.of_nat (count_adds cs).
Proof.
  unfold bound, count_adds, adds_of. induction cs as [|c cs IH]; [cbn; lia|]. cbn [flat_map List.filter].
  rewrite app_length. destruct c; cbn [length app]; [|exact IH..]. destruct (bytes_eqb _ _); cbn [length]; lia.
Qed.

Section All.
  Context {S I : Type} (e : env) (v : view S) (io : provider S) (Hio : cell_storage v io).
  Notation W := (world S I).
  Context (iek : bytes) (Hiek : blen iek = 32) (K : list bytes) (M : N) (HM : M < 2 ^ 64) (Hdiff : labels_differ iek K M).
  Context (idp : bytes -> prog W (res identity)) (who : bytes -> res identity -> Prop) (Hwho : forall tok, ix_answers v (idp tok) (who tok)).
  Context (fuel : nat) (Hfuel : (N.to_nat M < fuel)%nat).
  Notation own := (own v iek).
  Notation kept := (kept v iek).
  Notation lab := (lab iek).

  Lemma lab_apart kw kw' c c' : In kw K -> In kw' K -> c <= M -> c' <= M -> lab kw c = lab kw' c' -> kw = kw' /\ c = c'.
  Proof. intros. apply Hdiff; auto. rewrite !ix_label_ok by exact Hiek. now f_equal. Qed.

  Implicit Types (past tr : list ix_obs) (pool : list (prog W (res ix_reply))) (w : W) (G : bytes -> N -> option bytes) (m : index) (ds : list ix_act).
  Definition open past ds t c : Prop := nth_error (obs_calls past) t = Some c /\ ~ In t (map ia_call ds).
  Definition cuts past ds : Prop := forall tr1 tr2, past = tr1 ++ tr2 -> exists ds1 ds2, ds = ds1 ++ ds2 /\
    (forall t r, In (OReply t r) tr1 -> In t (map ia_call ds1)) /\ (forall t, In t (map ia_call ds1) -> (t < length (obs_calls tr1))%nat).

  Record core past pool w G m ds : Prop := mkCore {
    k_inv : v_inv v (w_io w);
    k_kept : forall kw, In kw K -> kept kw M (G kw) w;
    k_len : length pool = length (obs_calls past);
    k_done : forall d, In d ds -> nth_error (obs_calls past) (ia_call d) = Some (iv_call (ia_event d)) /\
       ix_outside_ok e who (iv_call (ia_event d)) (iv_x (ia_event d)) /\ pool !! ia_call d = Some (Ret (iv_reply (ia_event d)));
    k_open : forall t c, open past ds t c -> exists p b1, pool !! t = Some p /\ b1 <= bound (ix_keyword c) (obs_calls past) /\
       own (ix_keyword c) M (reads c) p (G (ix_keyword c)) (acted e iek (ix_keyword c) M who c b1 (m (ix_keyword c)));
    k_chain : forall kw, In kw K -> (forall t c, open past ds t c -> ix_keyword c = kw -> is_search c) ->
       chain iek kw M (bound kw (obs_calls past)) (G kw) (m kw);
    k_apart : forall t t' c c', t <> t' -> open past ds t c -> open past ds t' c' -> ~ ix_odds c c';
    k_replied : forall t r, In (OReply t r) past -> exists d, In d ds /\ ia_call d = t /\ iv_reply (ia_event d) = r;
    k_hist : ix_history index_empty (map ia_event ds) m;
    k_nodup : NoDup (map ia_call ds);
    k_cuts : cuts past ds }.

  Lemma is_search_reads c : is_search c <-> reads c = true.
  Proof. destruct c; cbn; intuition congruence. Qed.
  Lemma not_odds c c' : ~ ix_odds c c' -> ix_keyword c = ix_keyword c' -> is_search c /\ is_search c'.
  Proof.
    intros H E. destruct (decide (reads c = true /\ reads c' = true)) as [[H1 H2]|Hn]; [split; now apply is_search_reads|].
    exfalso. apply H. split; [exact E|]. intros [H1 H2]. apply Hn. split; now apply is_search_reads.
  Qed.
  Lemma calls_lt past t c : nth_error (obs_calls past) t = Some c -> (t < length (obs_calls past))%nat.
  Proof. intros H. apply nth_error_Some. congruence. Qed.

  Lemma core_env past pool w w1 G m ds : ix_around v w w1 -> core past pool w G m ds -> core past pool w1 G m ds.
  Proof.
    intros Ha [C1 C2 C3 C4 C5 C6 C7 C8 C9 C10 C11]. constructor; try assumption; [apply Ha|].
    intros kw Hk. eapply kept_around; eauto.
  Qed.

  Lemma core_call past pool w G m ds c : In (ix_keyword c) K -> bound (ix_keyword c) (obs_calls (past ++ [OCall c])) <= M ->
    (forall t c', nth_error (obs_calls past) t = Some c' -> ix_odds c' c -> exists r, In (OReply t r) past) ->
    core past pool w G m ds -> core (past ++ [OCall c]) (pool ++ [ix_do e io idp iek fuel c]) w G m ds.
  Proof.
    intros Hk Hb Ho [C1 C2 C3 C4 C5 C6 C7 C8 C9 C10 C11].
    assert (Ec : obs_calls (past ++ [OCall c]) = obs_calls past ++ [c]) by apply obs_calls_app.
    assert (Hfree : forall t c', open past ds t c' -> ~ ix_odds c' c).
    { intros t c' [H1 H2] Hod. destruct (Ho t c' H1 Hod) as (r & Hr). destruct (C8 t r Hr) as (d & D1 & D2 & _). apply H2. rewrite <- D2. now apply in_map. }
    assert (Hsplit : forall t c', open (past ++ [OCall c]) ds t c' -> open past ds t c' \/ (t = length (obs_calls past) /\ c' = c)).
    { intros t c' [H1 H2]. rewrite Ec in H1. destruct (lt_dec t (length (obs_calls past))) as [Hl|Hl].
      - rewrite nth_error_app1 in H1 by exact Hl. left. split; assumption.
      - rewrite nth_error_app2 in H1 by lia. right. destruct (t - length (obs_calls past))%nat as [|j] eqn:Ej; cbn in H1; [|destruct j; discriminate].
        split; [lia|congruence]. }
    assert (Hnew : forall t c', open past ds t c' -> (t < length (obs_calls past))%nat) by (intros t c' [H _]; eapply calls_lt; eauto).
    rewrite Ec in Hb. pose proof Hb as Hb'. rewrite bound_snoc in Hb'. destruct (decide (ix_keyword c = ix_keyword c)) as [_|]; [|congruence].
    constructor; try assumption; rewrite ?Ec.
    - rewrite !app_length, C3. reflexivity.
    - intros d Hd. destruct (C4 d Hd) as (D1 & D2 & D3). split; [rewrite nth_error_app1; [exact D1|eapply calls_lt; eauto]|]. split; [exact D2|].
      rewrite lookup_app_l; [exact D3|]. apply lookup_lt_Some in D3. exact D3.
    - intros t c' Hop. destruct (Hsplit t c' Hop) as [Hop'|[-> ->]].
      + destruct (C5 t c' Hop') as (p & b1 & P1 & P2 & P3). exists p, b1. split; [rewrite lookup_app_l; [exact P1|]; apply lookup_lt_Some in P1; exact P1|].
        split; [rewrite bound_snoc; lia|exact P3].
      + exists (ix_do e io idp iek fuel c), (bound (ix_keyword c) (obs_calls past) + is_add c). split; [|split].
        * rewrite lookup_app_r by lia. rewrite C3, Nat.sub_diag. reflexivity.
        * rewrite bound_snoc. destruct (decide _); [lia|congruence].
        * eapply own_call; try eassumption; [|lia|reflexivity|].
          -- intros c1 c2 H1 H2 H3. eapply lab_apart in H3; try eassumption. apply H3.
          -- apply C6; [exact Hk|]. intros t c' Hop' Ek. now apply (not_odds c' c (Hfree t c' Hop')).
    - intros kw Hkw Hs. eapply chain_mono; [|apply C6; [exact Hkw|]].
      + rewrite bound_snoc. lia.
      + intros t c' Hop' Ek. apply (Hs t c'); [|exact Ek]. destruct Hop' as [H1 H2]. split; [|exact H2]. rewrite Ec, nth_error_app1; [exact H1|eapply calls_lt; eauto].
    - intros t t' c1 c2 Hne H1 H2. destruct (Hsplit _ _ H1) as [O1|[-> ->]], (Hsplit _ _ H2) as [O2|[-> ->]]; [eauto|eauto| |congruence].
      intros [Ek Hn]. apply (Hfree _ _ O2). split; [congruence|]. tauto.
    - intros t r Hi. apply in_app_or in Hi as [Hi|[Hi|[]]]; [eauto|discriminate].
    - intros tr1 tr2 E. destruct tr2 as [|o tr2 _] using rev_ind.
      + rewrite app_nil_r in E. subst tr1. exists ds, []. split; [now rewrite app_nil_r|]. split.
        * intros t r Hi. apply in_app_or in Hi as [Hi|[Hi|[]]]; [|discriminate]. destruct (C8 t r Hi) as (d & D1 & D2 & _). rewrite <- D2. now apply in_map.
        * intros t Hi. apply in_map_iff in Hi as (d & <- & Hd). destruct (C4 d Hd) as (D1 & _). apply calls_lt in D1. rewrite Ec, app_length. lia.
      + rewrite app_assoc in E. apply app_inj_tail in E as [E _]. exact (C11 tr1 tr2 E).
  Qed.

  Lemma core_step past pool w G m ds t X (h : W -> X * W) q : (forall c, In c (obs_calls past) -> In (ix_keyword c) K) -> pool !! t = Some (Step h q) ->
    core past pool w G m ds -> exists G', core past (<[t := q (fst (h w))]> pool) (snd (h w)) G' m ds.
  Proof.
    intros HK Ht [C1 C2 C3 C4 C5 C6 C7 C8 C9 C10 C11].
    destruct (nth_error (obs_calls past) t) as [c|] eqn:Ec.
    2:{ apply nth_error_None in Ec. apply lookup_lt_Some in Ht. lia. }
    assert (Hop : open past ds t c).
    { split; [exact Ec|]. intros Hi. apply in_map_iff in Hi as (d & Ed & Hd). destruct (C4 d Hd) as (_ & _ & D3). rewrite Ed, Ht in D3. discriminate. }
    destruct (C5 t c Hop) as (p & b1 & P1 & P2 & P3). rewrite Ht in P1. injection P1 as <-. cbn [IndexOwn.own] in P3.
    set (kw := ix_keyword c) in *. assert (Hk : In kw K) by (apply HK; eapply nth_error_In; eauto).
    destruct (P3 w (C2 kw Hk)) as (g' & R1 & R2 & R3 & R4).
    exists (fun k => if decide (k = kw) then g' else G k). constructor; try assumption.
    - apply R2.
    - intros k Hk'. destruct (decide (k = kw)) as [->|Hne]; [exact R2|]. split; [apply R2|]. intros c' Hc'. rewrite R3; [now apply C2|].
      intros c2 Hc2 E. apply lab_apart in E; auto. now destruct E.
    - now rewrite insert_length.
    - intros d Hd. destruct (C4 d Hd) as (D1 & D2 & D3). split; [exact D1|]. split; [exact D2|]. rewrite list_lookup_insert_ne; [exact D3|]. intros ->. congruence.
    - intros t' c' Hop'. destruct (decide (t' = t)) as [->|Hne].
      + destruct Hop' as [E' _]. rewrite Ec in E'. injection E' as <-. fold kw. destruct (decide (kw = kw)); [|congruence].
        exists (q (fst (h w))), b1. split; [apply list_lookup_insert; eapply lookup_lt_Some; eauto|]. auto.
      + destruct (C5 t' c' Hop') as (p' & b' & Q1 & Q2 & Q3). exists p', b'. split; [rewrite list_lookup_insert_ne by auto; exact Q1|]. split; [exact Q2|].
        destruct (decide (ix_keyword c' = kw)) as [Ek|Hk']; [|exact Q3].
        destruct (not_odds c' c (C7 _ _ _ _ Hne Hop' Hop) Ek) as [_ Hs]. apply is_search_reads in Hs. rewrite (R1 Hs). now rewrite Ek in *.
    - intros k Hk' Hs. destruct (decide (k = kw)) as [->|Hne]; [|auto]. rewrite R1; [auto|]. apply is_search_reads. eapply Hs; [exact Hop|reflexivity].
  Qed.

  Lemma core_reply past pool w G m ds t r : (forall c, In c (obs_calls past) -> In (ix_keyword c) K) -> pool !! t = Some (Ret r) ->
    core past pool w G m ds -> exists m' ds', core (past ++ [OReply t r]) pool w G m' ds' /\
      (forall c, open past ds t c -> exists x, ix_outside_ok e who c x /\ ix_step x c m r m' /\ map ia_call ds' = map ia_call ds ++ [t]).
  Proof.
    intros HK Ht Hcore. pose proof Hcore as [C1 C2 C3 C4 C5 C6 C7 C8 C9 C10 C11].
    destruct (nth_error (obs_calls past) t) as [c|] eqn:Ec.
    2:{ apply nth_error_None in Ec. apply lookup_lt_Some in Ht. lia. }
    assert (Ep : obs_calls (past ++ [OReply t r]) = obs_calls past) by (rewrite obs_calls_app; cbn; apply app_nil_r).
    assert (Hgo : forall m' ds', core past pool w G m' ds' -> (exists d, In d ds' /\ ia_call d = t /\ iv_reply (ia_event d) = r) -> core (past ++ [OReply t r]) pool w G m' ds').
    { intros m' ds' [E1 E2 E3 E4 E5 E6 E7 E8 E9 E10 E11] Hd. unfold open in *. constructor; unfold open in *; rewrite ?Ep; try assumption.
      - intros t' r' Hi. apply in_app_or in Hi as [Hi|[Hi|[]]]; [auto|]. injection Hi as <- <-. exact Hd.
      - intros tr1 tr2 E. destruct tr2 as [|o tr2 _] using rev_ind.
        + rewrite app_nil_r in E. subst tr1. exists ds', []. split; [now rewrite app_nil_r|]. split.
          * intros t' r' Hi. apply in_app_or in Hi as [Hi|[Hi|[]]].
            -- destruct (E8 t' r' Hi) as (d & D1 & D2 & _). rewrite <- D2. now apply in_map.
            -- injection Hi as <- <-. destruct Hd as (d & D1 & D2 & _). rewrite <- D2. now apply in_map.
          * intros t' Hi. apply in_map_iff in Hi as (d & <- & Hd'). destruct (E4 d Hd') as (D1 & _). rewrite Ep. eapply calls_lt; eauto.
        + rewrite app_assoc in E. apply app_inj_tail in E as [E _]. exact (E11 tr1 tr2 E). }
    destruct (in_dec Nat.eq_dec t (map ia_call ds)) as [Hi|Hi].
    { exists m, ds. split; [|intros c' [_ Hn]; contradiction]. apply Hgo; [exact Hcore|]. apply in_map_iff in Hi as (d & Ed & Hd). exists d. split; [exact Hd|]. split; [exact Ed|].
      destruct (C4 d Hd) as (_ & _ & D3). rewrite Ed, Ht in D3. congruence. }
    assert (Hop : open past ds t c) by (split; assumption).
    destruct (C5 t c Hop) as (p & b1 & P1 & P2 & P3). rewrite Ht in P1. injection P1 as <-. cbn [IndexOwn.own] in P3.
    set (kw := ix_keyword c) in *. destruct P3 as (x & l' & X1 & X2 & X3).
    set (m' := fun k => if decide (k = kw) then l' else m k : list bytes).
    assert (E1 : m' kw = l') by (unfold m'; destruct (decide (kw = kw)); [reflexivity|congruence]).
    assert (E2 : forall k, k <> kw -> m' k = m k) by (intros k Hk; unfold m'; destruct (decide (k = kw)); [congruence|reflexivity]).
    pose proof (X3 m m' eq_refl E1 E2) as Hstep.
    exists m', (ds ++ [mkIxAct t (mkIxEvent x c r)]). split.
    2:{ intros c' [O1 _]. rewrite Ec in O1. injection O1 as <-. exists x. split; [exact X1|]. split; [exact Hstep|]. now rewrite map_app. }
    apply Hgo.
    2:{ eexists. split; [apply in_or_app; right; now left|]. auto. }
    assert (Hin : forall d, In d (ds ++ [mkIxAct t (mkIxEvent x c r)]) -> In d ds \/ d = mkIxAct t (mkIxEvent x c r)).
    { intros d Hd. apply in_app_or in Hd as [Hd|[Hd|[]]]; auto. }
    assert (Hopen : forall t' c', open past (ds ++ [mkIxAct t (mkIxEvent x c r)]) t' c' -> open past ds t' c' /\ t' <> t).
    { intros t' c' [O1 O2]. rewrite map_app in O2. split; [split; [exact O1|intros H; apply O2; apply in_or_app; now left]|].
      intros ->. apply O2. apply in_or_app. right. now left. }
    constructor; try assumption.
    - intros d Hd. destruct (Hin d Hd) as [Hd'| ->]; [auto|]. cbn. auto.
    - intros t' c' Hop'. destruct (Hopen t' c' Hop') as [O1 O2]. destruct (C5 t' c' O1) as (p' & b' & Q1 & Q2 & Q3). exists p', b'. split; [exact Q1|]. split; [exact Q2|].
      destruct (decide (ix_keyword c' = kw)) as [Ek|Hne]; [|now rewrite E2].
      destruct (not_odds c' c (C7 _ _ _ _ O2 O1 Hop) Ek) as [_ Hs]. pose proof (search_same _ _ _ _ _ Hs Hstep) as Hsm. now rewrite Hsm.
    - intros k Hk Hs. destruct (decide (k = kw)) as [->|Hne]; [rewrite E1; eapply chain_mono; eauto|]. rewrite E2 by exact Hne. apply C6; [exact Hk|].
      intros t' c' O1 Ek. apply (Hs t' c'); [|exact Ek]. destruct O1 as [O1 O2]. split; [exact O1|]. rewrite map_app. intros H. apply in_app_or in H as [H|[H|[]]]; [contradiction|].
      cbn in H. subst t'. rewrite Ec in O1. injection O1 as <-. apply Hne. symmetry. exact Ek.
    - intros t1 t2 c1 c2 Hne O1 O2. apply Hopen in O1 as [O1 _]. apply Hopen in O2 as [O2 _]. eauto.
    - intros t' r' Hr. destruct (C8 t' r' Hr) as (d & D1 & D2). exists d. split; [apply in_or_app; now left|exact D2].
    - rewrite map_app. eapply hist_snoc; [exact C9|]. exact Hstep.
    - rewrite map_app. apply NoDup_ListNoDup. apply NoDup_ListNoDup in C10. apply NoDup_app. split; [exact C10|]. split; [|apply NoDup_singleton].
      intros y Hy. cbn. rewrite elem_of_list_singleton. intros ->. apply Hi. now apply elem_of_list_In.
    - intros tr1 tr2 E. destruct (C11 tr1 tr2 E) as (ds1 & ds2 & -> & A1 & A2). exists ds1, (ds2 ++ [mkIxAct t (mkIxEvent x c r)]). split; [now rewrite app_assoc|auto].
  Qed.

  Lemma core_run pool w tr pool' w' : ix_conc e v idp iek fuel io pool w tr pool' w' -> forall past G m ds,
    (forall c, In c (obs_calls (past ++ tr)) -> In (ix_keyword c) K) -> (forall kw, bound kw (obs_calls (past ++ tr)) <= M) -> ix_orderly (past ++ tr) ->
    core past pool w G m ds -> exists G' m' ds', core (past ++ tr) pool' w' G' m' ds'.
  Proof.
    induction 1 as [pool w|pool w w1 tr pool' w' Ha Hr IH|c pool w tr pool' w' Hr IH|t X h q pool w tr pool' w' Ht Hr IH|t r pool w tr pool' w' Ht Hr IH];
      intros past G m ds HK HB HO Hcore.
    - rewrite app_nil_r. eauto.
    - eapply IH; eauto. eapply core_env; eauto.
    - assert (E : past ++ OCall c :: tr = (past ++ [OCall c]) ++ tr) by now rewrite <- app_assoc.
      rewrite E in *. eapply IH; [exact HK|exact HB|exact HO|]. apply core_call; [| | |exact Hcore].
      + apply HK. rewrite !obs_calls_app. apply in_or_app. left. apply in_or_app. right. now left.
      + eapply N.le_trans; [|apply (HB (ix_keyword c))]. unfold bound, adds_of. rewrite (obs_calls_app (past ++ [OCall c]) tr), flat_map_app, app_length. lia.
      + intros t c' H1 H2. apply (HO past c tr) with (c' := c'); [now rewrite <- app_assoc|exact H1|exact H2].
    - destruct (core_step past pool w G m ds t X h q) as (G' & HC); [|exact Ht|exact Hcore|eapply IH; eauto].
      intros c Hc. apply HK. rewrite obs_calls_app. apply in_or_app. now left.
    - assert (E : past ++ OReply t r :: tr = (past ++ [OReply t r]) ++ tr) by now rewrite <- app_assoc.
      destruct (core_reply past pool w G m ds t r) as (m' & ds' & HC & _); [|exact Ht|exact Hcore|].
      + intros c Hc. apply HK. rewrite obs_calls_app. apply in_or_app. now left.
      + rewrite E in *. eapply IH; eauto.
  Qed.
End All.

Lemma in_turn {S I} (e : env) (v : view S) (io : provider S) (idp : bytes -> prog (world S I) (res identity)) (who : bytes -> res identity -> Prop) (ks : res keys) (iek : bytes) (fuel : nat)
    (w w' : world S I) (tr : list ix_obs) (pool : list (prog (world S I) (res ix_reply))) :
  cell_storage v io -> (forall tok, ix_answers v (idp tok) (who tok)) -> ix_new ks = Ok iek -> ix_fresh v w ->
  ix_conc e v idp iek fuel io [] w tr pool w' -> ix_orderly tr ->
  N.of_nat (count_adds (obs_calls tr)) < 2 ^ 64 -> (count_adds (obs_calls tr) < fuel)%nat ->
  labels_differ iek (map ix_keyword (obs_calls tr)) (N.of_nat (count_adds (obs_calls tr))) ->
  exists ds m, ix_in_turn e who index_empty tr ds m.
Proof.
  intros Hio Hwho Hnew [Hv Hfresh] Hrun Hord Hfew Hfuel Hlab. pose proof (ix_new_length _ _ Hnew) as Hiek.
  set (M := N.of_nat (count_adds (obs_calls tr))) in *. set (K := map ix_keyword (obs_calls tr)) in *.
  assert (Hcore : core e v iek K M who [] [] w (fun _ _ => None) index_empty []).
  { constructor; try (intros; contradiction); auto.
    - intros kw _. split; [exact Hv|]. intros c _. apply Hfresh.
    - intros t c [H _]. destruct t; discriminate.
    - intros kw _ _. apply chain_nil.
    - intros t t' c c' _ [H _]. destruct t; discriminate.
    - constructor. intros kw. reflexivity.
    - constructor.
    - intros tr1 tr2 E. exists [], []. split; [reflexivity|]. symmetry in E. apply app_eq_nil in E as [-> _]. split; [intros t r []|intros t []]. }
  destruct (core_run e v io Hio iek Hiek K M Hfew Hlab idp who Hwho fuel ltac:(subst M; lia) _ _ _ _ _ Hrun [] (fun _ _ => None) index_empty []) as (G & m & ds & [C1 C2 C3 C4 C5 C6 C7 C8 C9 C10 C11]); cbn [app].
  - intros c Hc. subst K. now apply in_map.
  - intros kw. apply bound_count.
  - exact Hord.
  - exact Hcore.
  - exists ds, m. split; [exact C9|]. split; [exact C10|]. split; [|split; [exact C8|exact C11]].
    intros d Hd. destruct (C4 d Hd) as (D1 & D2 & _). auto.
Qed.
