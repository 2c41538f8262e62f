(** Overlapping identity-provider calls act one after the other unless they are at odds: all calls together. *)
From Coq Require Import ZifyN ZifyNat.
From stdpp Require Import gmap.
From Verif Require Import Bytes Go Json Uuid Time Types World Cryptor IoSpec IoProofs Id Data D1 Password Standalone Spec StandaloneSpec StandaloneProofs StandaloneHist
  D1ConcSpec SaConcSpec SaConc.
From Verif Require D1Conc.
Local Open Scope bool_scope.
Local Open Scope N_scope.

Lemma calls_app tr tr' : id_calls (tr ++ tr') = id_calls tr ++ id_calls tr'.
Proof. induction tr as [|[]]; cbn; [reflexivity|now f_equal|assumption]. Qed.
Lemma calls_split tr t c : nth_error (id_calls tr) t = Some c -> exists tr1 tr2, tr = tr1 ++ ICall c :: tr2.
Proof.
  revert t. induction tr as [|[c0|t0 r0] tr IH]; cbn; intros t H; [destruct t; discriminate| |].
  - destruct t as [|t]; cbn in H; [injection H as ->; exists [], tr; reflexivity|]. destruct (IH t H) as (tr1 & tr2 & ->). now exists (ICall c0 :: tr1), tr2.
  - destruct (IH t H) as (tr1 & tr2 & ->). now exists (IReply t0 r0 :: tr1), tr2.
Qed.
Lemma foot_named c tr u : foot c tr u -> exists tr1 c' tr2, tr ++ [ICall c] = tr1 ++ ICall c' :: tr2 /\ sa_names c' = Some u.
Proof.
  assert (HC : carries tr c u -> exists tr1 c' tr2, tr ++ [ICall c] = tr1 ++ ICall c' :: tr2 /\ sa_names c' = Some u).
  { intros (tok & t & pw & tok' & x & _ & H & _). destruct (calls_split _ _ _ H) as (tr1 & tr2 & ->). exists tr1, (SLogin u pw), (tr2 ++ [ICall c]). split; [|reflexivity]. now rewrite <- app_assoc. }
  assert (HN : sa_names c = Some u -> exists tr1 c' tr2, tr ++ [ICall c] = tr1 ++ ICall c' :: tr2 /\ sa_names c' = Some u) by (intros H; exists tr, c, []; auto).
  unfold foot. destruct c; cbn [changes acts_for logs_in sa_names] in *; intros H; repeat destruct H as [H|H]; try contradiction; subst; auto.
Qed.

Section All.
  Context {S I : Type} (e : env) (v : view S) (io : provider S) (Hio : cell_storage v io) (k : sa_keys) (Hc : forall n, time_wf (clock e n)).
  Notation W := (world S I).
  Context (n0 n1 : nat) (Hids : ids_differ e n0 n1).
  Notation Gl := (@Gl S I e v k n0 n1).
  Notation KT := (@KT S I).
  Notation lw := (@lw S I e v k n0 n1).
  Notation post := (@post S I e v k n0 n1).
  Notation stable := (@stable S I v).
  Notation rely := (@rely S I v).
  Notation gives_way := (@gives_way S I v).
  Notation calm := (@calm S I e n1).
  Notation settled := (@settled S I e n1).
  Notation fwd := (@forward S I _).

  Record ghost := mkGhost { g_tr0 : list sa_obs; g_live : bool; g_mine : option bytes; g_K : KT; g_com : option (res sa_reply); g_claim : option nat }.
  Definition claimed (w : W) (cl : option nat) (id : bytes) : Prop :=
    exists j b, cl = Some j /\ (n0 <= j < w_draws w)%nat /\ draw e j 16 = Ok b /\ id = txt b.
  Lemma claimed_mono w w' cl id : (w_draws w <= w_draws w')%nat -> claimed w cl id -> claimed w' cl id.
  Proof. intros H (j & b & H1 & H2 & H3). exists j, b. split; [exact H1|]. split; [lia|exact H3]. Qed.
  (** What the one changes the other does not look at. *)
  Record clear (c : sa_call) (g : ghost) (c' : sa_call) (g' : ghost) : Prop := mkClear {
    cl_user : forall u, changes (g_tr0 g) c u -> ~ changes (g_tr0 g') c' u /\ ~ acts_for (g_tr0 g') c' u /\ g_mine g' <> Some u;
    cl_pass : forall u, repasses c u -> ~ logs_in c' u;
    cl_mine : forall u, g_mine g = Some u -> ~ foot c' (g_tr0 g') u /\ g_mine g' <> Some u }.
  Lemma way_rely c g c' g' w d E w' d' E' : clear c g c' g' -> gives_way c (g_tr0 g) (g_mine g) w d E w' d' E' -> rely c' (g_tr0 g') (g_mine g') w d E w' d' E'.
  Proof.
    intros [C1 C2 C3] [G1 G2 G3 G4]. constructor; [exact G1|..].
    - intros u Hu. apply G2.
      + intros H. destruct (C1 u H) as (N1 & N2 & N3). destruct Hu as [Hu|[Hu|Hu]]; auto.
      + intros H. destruct (C3 u H) as (N1 & N2). destruct Hu as [Hu|[Hu|Hu]]; auto; apply N1; unfold foot; auto.
    - intros u Hu. apply G3.
      + intros H. exact (C2 u H Hu).
      + intros H. destruct (C3 u H) as (N1 & _). apply N1. unfold foot. auto.
    - intros g0 Hg. apply G4. intros H. destruct (C3 g0 H) as (_ & N). auto.
  Qed.
  Lemma history_snoc d evs d1 ev d2 : sa_history d evs d1 -> sa_step (sv_x ev) (sv_call ev) d1 (sv_reply ev) d2 -> sa_history d (evs ++ [ev]) d2.
  Proof. induction 1; cbn; intros Hs; econstructor; eauto. constructor. Qed.

  Definition real_time (tr : list sa_obs) (ds : list sa_did) : Prop := forall tr1 tr2, tr = tr1 ++ tr2 -> exists ds1 ds2, ds = ds1 ++ ds2 /\
     (forall t r, In (IReply t r) tr1 -> In t (map sd_call ds1)) /\ (forall t, In t (map sd_call ds1) -> (t < length (id_calls tr1))%nat).
  Definition alive (c : sa_call) (p : prog W (res sa_reply)) (g : ghost) (w : W) (d : directory) (E : gset bytes) : Prop :=
    stable c (g_tr0 g) (g_mine g) (g_K g) /\ g_K g w d E /\ lw c (g_tr0 g) p (post c (g_tr0 g)) (g_mine g) (g_K g) (g_com g) /\ calm c (g_tr0 g) w (g_mine g) /\
    (forall id, g_mine g = Some id -> claimed w (g_claim g) id) /\ (forall r id, g_com g = Some r -> gives r id -> g_mine g = Some id).
  Record Core (tr : list sa_obs) (pool : list (prog W (res sa_reply))) (w : W) (d : directory) (E : gset bytes) (ds : list sa_did) (gh : list ghost) : Prop := mkCore {
    co_len : length pool = length (id_calls tr);
    co_glen : length gh = length pool;
    co_gl : Gl w d E;
    co_thread : forall t c p g, id_calls tr !! t = Some c -> pool !! t = Some p -> gh !! t = Some g ->
      (exists tr', tr = g_tr0 g ++ tr') /\ (g_live g = true -> alive c p g w d E) /\ (g_live g = false -> exists r, p = Ret r /\ g_com g = Some r) /\
      (forall r id, g_com g = Some r -> gives r id -> claimed w (g_claim g) id);
    co_claim : forall t g j, gh !! t = Some g -> g_claim g = Some j -> (n0 <= j < w_draws w)%nat /\ forall t' g', gh !! t' = Some g' -> g_claim g' = Some j -> t' = t;
    co_clear : forall t t' c c' g g', t <> t' -> id_calls tr !! t = Some c -> id_calls tr !! t' = Some c' -> gh !! t = Some g -> gh !! t' = Some g' -> g_live g = true -> g_live g' = true -> clear c g c' g';
    co_hist : sa_history dir_empty (map sd_event ds) d;
    co_nodup : List.NoDup (map sd_call ds);
    co_ds : forall x, In x ds -> id_calls tr !! sd_call x = Some (sv_call (sd_event x)) /\ outside_ok e (sv_x (sd_event x));
    co_com : forall t g, gh !! t = Some g -> match g_com g with Some r => exists x, In x ds /\ sd_call x = t /\ sv_reply (sd_event x) = r | None => ~ In t (map sd_call ds) end;
    co_reply : forall t r, In (IReply t r) tr -> pool !! t = Some (Ret r);
    co_rt : real_time tr ds }.
  Definition fin (pool : list (prog W (res sa_reply))) (gh : list ghost) (t : nat) : Prop :=
    forall r g, pool !! t = Some (Ret r) -> gh !! t = Some g -> g_live g = false.

  Lemma rt_more tr ds x : real_time tr ds -> real_time tr (ds ++ [x]).
  Proof. intros H tr1 tr2 E. destruct (H tr1 tr2 E) as (ds1 & ds2 & -> & H1 & H2). exists ds1, (ds2 ++ [x]). rewrite app_assoc. auto. Qed.
  Lemma rt_obs tr ds o : real_time tr ds -> (forall t r, In (IReply t r) (tr ++ [o]) -> In t (map sd_call ds)) -> (forall x, In x ds -> (sd_call x < length (id_calls (tr ++ [o])))%nat) ->
    real_time (tr ++ [o]) ds.
  Proof.
    intros H H1 H2 tr1 tr2. destruct tr2 as [|o' tr2 _] using rev_ind.
    - rewrite app_nil_r. intros <-. exists ds, []. rewrite app_nil_r. split; [reflexivity|]. split; [exact H1|]. intros t Ht. apply in_map_iff in Ht as (x & <- & Hx). auto.
    - rewrite app_assoc. intros E. apply app_inj_tail in E as [E _]. exact (H _ _ E).
  Qed.
  Lemma calm_mono c tr w w' mine : (w_draws w <= w_draws w')%nat -> calm c tr w mine -> calm c tr w' mine.
  Proof. intros H [A B]. split; intros u Hu; (eapply settled_mono; [exact Hc|exact H|]); auto. Qed.
  (** A running call is not disturbed by others. *)
  Lemma alive_rely c p g w d E w' d' E' : rely c (g_tr0 g) (g_mine g) w d E w' d' E' -> alive c p g w d E -> alive c p g w' d' E'.
  Proof.
    intros R (A1 & A2 & A3 & A4 & A5 & A6). pose proof (gr_draws _ _ _ _ _ _ (re_grows _ _ _ _ _ _ _ _ _ _ R)) as HD.
    split; [exact A1|]. split; [eapply A1; eauto|]. split; [exact A3|]. split; [eapply calm_mono; eauto|]. split; [|exact A6]. intros id Hid. eapply claimed_mono; eauto.
  Qed.
  Lemma nodup_snoc (ds : list sa_did) x : List.NoDup (map sd_call ds) -> ~ In (sd_call x) (map sd_call ds) -> List.NoDup (map sd_call (ds ++ [x])).
  Proof.
    intros H Hn. rewrite map_app. cbn. apply NoDup_ListNoDup, NoDup_app. split; [now apply NoDup_ListNoDup|]. split; [|apply NoDup_singleton].
    intros y Hy Hy'. apply elem_of_list_singleton in Hy' as ->. apply Hn. now apply elem_of_list_In.
  Qed.

  (** A call that has come to its end is recorded as done. *)
  Lemma core_settle tr pool w d E ds gh t : Core tr pool w d E ds gh -> (forall t', t' <> t -> fin pool gh t') ->
    exists d' ds' gh', Core tr pool w d' E ds' gh' /\ forall t', fin pool gh' t'.
  Proof.
    intros HCore HF. pose proof HCore as [C1 C2 C3 C4 C5 C6 C8 C9 C10 C11 C12 C13].
    assert (HD : fin pool gh t -> exists d' ds' gh', Core tr pool w d' E ds' gh' /\ forall t', fin pool gh' t').
    { intros Hf. exists d, ds, gh. split; [exact HCore|]. intros t'. destruct (decide (t' = t)) as [->|Hne]; auto. }
    destruct (pool !! t) as [[r|X f q]|] eqn:Ep; [|apply HD; intros r g Hr; congruence..].
    pose proof (lookup_lt_Some _ _ _ Ep) as Lt.
    destruct (lookup_lt_is_Some_2 gh t ltac:(lia)) as [g Eg]. destruct (lookup_lt_is_Some_2 (id_calls tr) t ltac:(lia)) as [c Ec].
    destruct (g_live g) eqn:El; [|apply HD; intros r' g' _ Hg'; congruence].
    destruct (C4 t c _ g Ec Ep Eg) as (K0 & K1 & K2 & K3). destruct (K1 El) as (A1 & A2 & A3 & A4 & A5 & A6). cbn [SaConc.lw] in A3.
    set (g' := mkGhost (g_tr0 g) false None (KTrue (S:=S) (I:=I)) (Some r) (g_claim g)).
    assert (HR : exists d' ds', Gl w d' E /\ gives_way c (g_tr0 g) (g_mine g) w d E w d' E /\
      sa_history dir_empty (map sd_event ds') d' /\ List.NoDup (map sd_call ds') /\
      (forall x, In x ds' -> id_calls tr !! sd_call x = Some (sv_call (sd_event x)) /\ outside_ok e (sv_x (sd_event x))) /\
      (forall t' g'', <[t := g']> gh !! t' = Some g'' -> match g_com g'' with Some r => exists x, In x ds' /\ sd_call x = t' /\ sv_reply (sd_event x) = r | None => ~ In t' (map sd_call ds') end) /\
      real_time tr ds' /\ (forall id, gives r id -> claimed w (g_claim g) id)).
    { destruct A3 as [Hc'|[Hc' [Hno Hm]]].
      - exists d, ds. split; [exact C3|]. split; [apply gw_refl|]. split; [exact C8|]. split; [exact C9|]. split; [exact C10|]. split; [|split; [exact C13|]].
        + intros t' g''. destruct (decide (t' = t)) as [->|Hne].
          * rewrite list_lookup_insert by lia. intros [= <-]. cbn. specialize (C11 t g Eg). now rewrite Hc' in C11.
          * rewrite list_lookup_insert_ne by congruence. apply C11.
        + intros id Ho. exact (K3 r id Hc' Ho).
      - destruct (Hm w d E C3 A2) as (x & d' & Hx & Hs & HG & HW). exists d', (ds ++ [mkSaDone t (mkSaEvent x c r)]). split; [exact HG|]. split; [exact HW|].
        pose proof (C11 t g Eg) as Hnt. rewrite Hc' in Hnt. split; [|split; [|split; [|split; [|split]]]].
        + rewrite map_app. eapply history_snoc; [exact C8|exact Hs].
        + now apply nodup_snoc.
        + intros y Hy. apply in_app_iff in Hy as [Hy|[<-|[]]]; [now apply C10|]. cbn. auto.
        + intros t' g''. destruct (decide (t' = t)) as [->|Hne].
          * rewrite list_lookup_insert by lia. intros [= <-]. cbn. exists (mkSaDone t (mkSaEvent x c r)). rewrite in_app_iff. cbn. auto.
          * rewrite list_lookup_insert_ne by congruence. intros Hg''. specialize (C11 t' g'' Hg''). destruct (g_com g'').
            -- destruct C11 as (y & Hy & Hy'). exists y. rewrite in_app_iff. auto.
            -- rewrite map_app, in_app_iff. cbn. intros [?|[Et|[]]]; [now apply C11|congruence].
        + now apply rt_more.
        + intros id Hg. destruct (Hno id Hg). }
    destruct HR as (d' & ds' & R0 & RW & R1 & R2 & R3 & R4 & R5 & R6).
    exists d', ds', (<[t := g']> gh). split.
    - constructor; try assumption.
      + now rewrite insert_length.
      + intros t' c' p' g'' Hc' Hp'. destruct (decide (t' = t)) as [->|Hne].
        * rewrite list_lookup_insert by lia. intros [= <-]. rewrite Ep in Hp'. injection Hp' as <-. split; [exact K0|]. split; [discriminate|]. split; [intros _; exists r; auto|].
          cbn. intros r' id [= <-]. apply R6.
        * rewrite list_lookup_insert_ne by congruence. intros Hg''. destruct (C4 t' c' p' g'' Hc' Hp' Hg'') as (J0 & J1 & J2 & J3). split; [exact J0|]. split; [|auto].
          intros Hl. eapply alive_rely; [|exact (J1 Hl)]. eapply way_rely; [|exact RW]. eapply (C6 t t'); eauto.
      + intros t' g'' j. destruct (decide (t' = t)) as [->|Hne].
        * rewrite list_lookup_insert by lia. intros [= <-]. cbn. intros Hj. destruct (C5 t g j Eg Hj) as [Hj1 Hj2]. split; [exact Hj1|].
          intros t' g''. destruct (decide (t' = t)) as [->|Hne']; [auto|]. rewrite list_lookup_insert_ne by congruence. apply Hj2.
        * rewrite list_lookup_insert_ne by congruence. intros Hg' Hj. destruct (C5 t' g'' j Hg' Hj) as [Hj1 Hj2]. split; [exact Hj1|].
          intros t'' g3. destruct (decide (t'' = t)) as [->|Hne'].
          -- rewrite list_lookup_insert by lia. intros [= <-]. cbn. intros Hj'. exact (Hj2 t g Eg Hj').
          -- rewrite list_lookup_insert_ne by congruence. apply Hj2.
      + intros t1 t2 c1 c2 g1 g2 Hne Hc1 Hc2. destruct (decide (t1 = t)) as [->|H1].
        * rewrite list_lookup_insert by lia. intros [= <-]. discriminate.
        * rewrite list_lookup_insert_ne by congruence. destruct (decide (t2 = t)) as [->|H2].
          -- rewrite list_lookup_insert by lia. intros _ [= <-]. discriminate.
          -- rewrite list_lookup_insert_ne by congruence. now apply (C6 t1 t2).
    - intros t' r' g''. destruct (decide (t' = t)) as [->|Hne].
      + rewrite list_lookup_insert by lia. intros Hr' [= <-]. reflexivity.
      + rewrite list_lookup_insert_ne by congruence. now apply HF.
  Qed.

  Lemma core_env tr pool w w' d E ds gh : spares v w w' -> Core tr pool w d E ds gh -> Core tr pool w' d E ds gh.
  Proof.
    intros HK [C1 C2 C3 C4 C5 C6 C8 C9 C10 C11 C12 C13]. pose proof (proj1 (proj2 HK)) as HD. constructor; try assumption.
    - eapply gl_spares; eauto.
    - intros t c p g Hc' Hp Hg. destruct (C4 t c p g Hc' Hp Hg) as (K0 & K1 & K2 & K3). split; [exact K0|]. split; [|split; [exact K2|]].
      + intros Hl. eapply alive_rely; [|exact (K1 Hl)]. now apply rely_spares.
      + intros r id Hr Hid. eapply claimed_mono; eauto.
    - intros t g j Hg Hj. destruct (C5 t g j Hg Hj) as [H1 H2]. split; [lia|exact H2].
  Qed.

  (** One step of one call. *)
  Lemma core_step tr pool w d E ds gh t X (f : W -> X * W) q : Core tr pool w d E ds gh -> (forall t', fin pool gh t') -> pool !! t = Some (Step f q) -> (w_draws (snd (f w)) <= n1)%nat ->
    exists d' E' ds' gh', Core tr (<[t := q (fst (f w))]> pool) (snd (f w)) d' E' ds' gh' /\ forall t', t' <> t -> fin (<[t := q (fst (f w))]> pool) gh' t'.
  Proof.
    intros [C1 C2 C3 C4 C5 C6 C8 C9 C10 C11 C12 C13] HF Ep HB.
    pose proof (lookup_lt_Some _ _ _ Ep) as Lt.
    destruct (lookup_lt_is_Some_2 gh t ltac:(lia)) as [g Eg]. destruct (lookup_lt_is_Some_2 (id_calls tr) t ltac:(lia)) as [c Ec].
    destruct (C4 t c _ g Ec Ep Eg) as (K0 & K1 & K2 & K3).
    destruct (g_live g) eqn:El; [|destruct (K2 eq_refl) as (r & C & _); discriminate]. clear K2.
    destruct (K1 eq_refl) as (A1 & A2 & A3 & A4 & A5 & A6). cbn [SaConc.lw] in A3.
    destruct (A3 w d E A1 C3 A2 A4 HB) as (mine' & K' & com' & d' & E' & ev & L1 & L2 & L3 & L4 & L5 & L6 & L7). clear A3 K1.
    set (w' := snd (f w)) in *. set (p' := q (fst (f w))) in *.
    pose proof (gr_draws _ _ _ _ _ _ (gw_grows _ _ _ _ _ _ _ _ _ _ L4)) as HD. pose proof (gl_n0 _ _ _ _ _ _ _ _ C3) as Hn0.
    (* the id the call may have drawn *)
    assert (HC : exists cl', (forall id, mine' = Some id -> claimed w' cl' id) /\ (forall j, cl' = Some j -> (n0 <= j < w_draws w')%nat /\ (g_claim g = Some j \/ (w_draws w <= j)%nat)) /\
      (forall id, g_mine g = Some id -> mine' = Some id) /\ calm c (g_tr0 g) w' mine').
    { assert (HCm : calm c (g_tr0 g) w' (g_mine g)) by (eapply calm_mono; eauto).
      destruct L5 as [->|(Em & HL & b & Hb & ->)].
      - exists (g_claim g). split; [intros id Hid; eapply claimed_mono; [exact HD|auto]|]. split; [|auto]. intros j Hj. destruct (C5 t g j Eg Hj) as [H1 _]. split; [lia|auto].
      - exists (Some (w_draws w)). split; [intros id [= <-]; exists (w_draws w), b; split; [reflexivity|]; split; [lia|auto]|]. split; [intros j [= <-]; split; [lia|right; lia]|].
        split; [rewrite Em; discriminate|]. split; [apply HCm|]. intros id [= <-]. eapply (drawn_settled e Hc n0 n1 Hids w' (w_draws w) b); [lia|lia|exact Hb]. }
    destruct HC as (cl' & HC1 & HC2 & HC3 & HC4).
    set (g' := mkGhost (g_tr0 g) true mine' K' com' cl').
    exists d', E', (match ev with None => ds | Some v => ds ++ [mkSaDone t v] end), (<[t := g']> gh). split.
    2:{ intros t' Hne r g''. rewrite !list_lookup_insert_ne by congruence. apply HF. }
    (* a new id concerns nobody else *)
    assert (HA : forall t' c' g'', t' <> t -> id_calls tr !! t' = Some c' -> gh !! t' = Some g'' -> g_live g'' = true -> clear c g' c' g'' /\ clear c' g'' c g').
    { intros t' c' g'' Hne Hc' Hg'' Hl. pose proof (C6 t t' c c' g g'' ltac:(congruence) Ec Hc' Eg Hg'' El Hl) as [P1 P2 P3].
      pose proof (C6 t' t c' c g'' g Hne Hc' Ec Hg'' Eg Hl El) as [Q1 Q2 Q3].
      destruct (lookup_lt_is_Some_2 pool t' ltac:(rewrite <- C2; eapply lookup_lt_Some; exact Hg'')) as [p'' Hp''].
      destruct (C4 t' c' p'' g'' Hc' Hp'' Hg'') as (_ & J1 & _). destruct (J1 Hl) as (_ & _ & _ & [J4 J4'] & _).
      assert (HM : forall u, mine' = Some u -> g_mine g <> Some u -> ~ foot c' (g_tr0 g'') u /\ g_mine g'' <> Some u).
      { intros u Hu Hn. destruct L5 as [->|(Em & HL & b & Hb & ->)]; [contradiction|]. injection Hu as <-. split.
        - intros Hf. exact (J4 _ Hf (w_draws w) b ltac:(lia) Hb eq_refl).
        - intros Hf. exact (J4' _ Hf (w_draws w) b ltac:(lia) Hb eq_refl). }
      assert (HMd : forall u, mine' = Some u -> ~ foot c' (g_tr0 g'') u /\ g_mine g'' <> Some u).
      { intros u Hu. destruct (decide (g_mine g = Some u)) as [Hm|Hm]; [now apply P3|now apply HM]. }
      split; constructor; cbn [g_tr0 g_mine g'].
      - exact P1.
      - exact P2.
      - exact HMd.
      - intros u Hu. destruct (Q1 u Hu) as (N1 & N2 & _). split; [exact N1|]. split; [exact N2|]. intros Hm. destruct (HMd u Hm) as [N _]. apply N. unfold foot. auto.
      - exact Q2.
      - intros u Hu. destruct (Q3 u Hu) as (N1 & _). split; [exact N1|]. intros Hm. destruct (HMd u Hm) as [_ N]. auto. }
    assert (HO : forall r id, com' = Some r -> gives r id -> mine' = Some id).
    { intros r id Hr Hg. destruct ev as [ev|]; cbn [acts] in L6.
      - destruct L6 as (_ & E1 & _ & _ & _ & Hk). apply Hk. rewrite E1 in Hr. injection Hr as ->. exact Hg.
      - destruct L6 as [-> _]. apply HC3. eauto. }
    constructor.
    - rewrite insert_length. exact C1.
    - rewrite !insert_length. exact C2.
    - exact L2.
    - intros t' c' p'' g'' Hc'. destruct (decide (t' = t)) as [->|Hne].
      + rewrite !list_lookup_insert by lia. intros [= <-] [= <-]. rewrite Ec in Hc'. injection Hc' as <-. split; [exact K0|]. split; [|split; [discriminate|]].
        * intros _. split; [exact L1|]. split; [exact L3|]. split; [exact L7|]. split; [exact HC4|]. split; [exact HC1|exact HO].
        * intros r id Hr Hid. apply HC1. eapply HO; eauto.
      + rewrite !list_lookup_insert_ne by congruence. intros Hp'' Hg''. destruct (C4 t' c' p'' g'' Hc' Hp'' Hg'') as (J0 & J1 & J2 & J3). split; [exact J0|]. split; [|split; [exact J2|]].
        * intros Hl. eapply alive_rely; [|exact (J1 Hl)]. eapply (way_rely c g'); [|exact L4]. now apply (HA t' c' g'').
        * intros r id Hr Hid. eapply claimed_mono; eauto.
    - intros t' g'' j. destruct (decide (t' = t)) as [->|Hne].
      + rewrite list_lookup_insert by lia. intros [= <-]. cbn [g_claim g']. intros Hj. destruct (HC2 j Hj) as [Hj1 Hj2]. split; [exact Hj1|].
        intros t' g''. destruct (decide (t' = t)) as [->|Hne']; [auto|]. rewrite list_lookup_insert_ne by congruence. intros Hg'' Hj'.
        destruct Hj2 as [Hj2|Hj2]; [exact (proj2 (C5 t g j Eg Hj2) t' g'' Hg'' Hj')|]. destruct (C5 t' g'' j Hg'' Hj') as [? _]. lia.
      + rewrite list_lookup_insert_ne by congruence. intros Hg'' Hj. destruct (C5 t' g'' j Hg'' Hj) as [Hj1 Hj2]. split; [lia|].
        intros t2 g2. destruct (decide (t2 = t)) as [->|Hne'].
        * rewrite list_lookup_insert by lia. intros [= <-]. cbn [g_claim g']. intros Hj'. destruct (HC2 j Hj') as [_ [Hj3|Hj3]]; [exact (Hj2 t g Eg Hj3)|lia].
        * rewrite list_lookup_insert_ne by congruence. apply Hj2.
    - intros t1 t2 c1 c2 g1 g2 Hne Hc1 Hc2. destruct (decide (t1 = t)) as [->|H1].
      + rewrite list_lookup_insert by lia. intros [= <-]. rewrite list_lookup_insert_ne by congruence. intros Hg2 _ Hl2. rewrite Ec in Hc1. injection Hc1 as <-. apply (HA t2 c2 g2); auto.
      + rewrite list_lookup_insert_ne by congruence. destruct (decide (t2 = t)) as [->|H2].
        * rewrite list_lookup_insert by lia. intros Hg1 [= <-] Hl1 _. rewrite Ec in Hc2. injection Hc2 as <-. apply (HA t1 c1 g1); auto.
        * rewrite list_lookup_insert_ne by congruence. now apply (C6 t1 t2).
    - destruct ev as [ev|]; cbn [acts] in L6; [|destruct L6 as [_ ->]; exact C8]. destruct L6 as (_ & _ & Ev & _ & Hs & _).
      rewrite map_app. eapply history_snoc; [exact C8|]. cbn. rewrite Ev. exact Hs.
    - destruct ev as [ev|]; cbn [acts] in L6; [|exact C9]. destruct L6 as (Ev & _). pose proof (C11 t g Eg) as Hnt. rewrite Ev in Hnt. now apply nodup_snoc.
    - destruct ev as [ev|]; cbn [acts] in L6; [|exact C10]. destruct L6 as (_ & _ & Ev & Hx & _). intros y Hy. apply in_app_iff in Hy as [Hy|[<-|[]]]; [now apply C10|]. cbn. rewrite Ev. auto.
    - intros t' g''. destruct (decide (t' = t)) as [->|Hne].
      + rewrite list_lookup_insert by lia. intros [= <-]. cbn [g_com g']. destruct ev as [ev|]; cbn [acts] in L6.
        * destruct L6 as (_ & -> & _). exists (mkSaDone t ev). rewrite in_app_iff. cbn. auto.
        * destruct L6 as [-> _]. exact (C11 t g Eg).
      + rewrite list_lookup_insert_ne by congruence. intros Hg''. specialize (C11 t' g'' Hg''). destruct ev as [ev|]; [|exact C11]. destruct (g_com g'').
        * destruct C11 as (y & Hy & Hy'). exists y. rewrite in_app_iff. auto.
        * rewrite map_app, in_app_iff. cbn. intros [?|[Et|[]]]; [now apply C11|congruence].
    - intros t' r Hr. destruct (decide (t' = t)) as [->|Hne]; [specialize (C12 t r Hr); congruence|]. rewrite list_lookup_insert_ne by congruence. now apply C12.
    - destruct ev; [now apply rt_more|exact C13].
  Qed.
  Lemma fin_com tr pool w d E ds gh t r g : Core tr pool w d E ds gh -> (forall t', fin pool gh t') -> pool !! t = Some (Ret r) -> gh !! t = Some g -> g_live g = false /\ g_com g = Some r.
  Proof.
    intros HC HF Hp Hg. pose proof (HF t r g Hp Hg) as Hl. split; [exact Hl|]. pose proof (lookup_lt_Some _ _ _ Hp) as Lt.
    destruct (lookup_lt_is_Some_2 (id_calls tr) t ltac:(rewrite <- (co_len _ _ _ _ _ _ _ HC); exact Lt)) as [c Ec].
    destruct (co_thread _ _ _ _ _ _ _ HC t c _ g Ec Hp Hg) as (_ & _ & H & _). destruct (H Hl) as (r' & E1 & E2). congruence.
  Qed.
  Lemma core_reply tr pool w d E ds gh t r : Core tr pool w d E ds gh -> (forall t', fin pool gh t') -> pool !! t = Some (Ret r) -> Core (tr ++ [IReply t r]) pool w d E ds gh.
  Proof.
    intros HCore HF Ep. pose proof HCore as [C1 C2 C3 C4 C5 C6 C8 C9 C10 C11 C12 C13].
    assert (Ec : id_calls (tr ++ [IReply t r]) = id_calls tr) by (rewrite calls_app; apply app_nil_r).
    assert (Hr : forall t' r', In (IReply t' r') (tr ++ [IReply t r]) -> pool !! t' = Some (Ret r')).
    { intros t' r' Hin. apply in_app_iff in Hin as [Hin|[[= <- <-]|[]]]; [now apply C12|exact Ep]. }
    constructor; rewrite ?Ec; try assumption.
    - intros t' c p g Hc' Hp Hg. destruct (C4 t' c p g Hc' Hp Hg) as ((tr' & ->) & K). split; [|exact K]. exists (tr' ++ [IReply t r]). now rewrite <- app_assoc.
    - apply rt_obs; [exact C13| |].
      + intros t' r' Hin. specialize (Hr t' r' Hin). pose proof (lookup_lt_Some _ _ _ Hr) as Lt. destruct (lookup_lt_is_Some_2 gh t' ltac:(lia)) as [g Eg].
        destruct (fin_com _ _ _ _ _ _ _ _ _ _ HCore HF Hr Eg) as [_ Ecm]. specialize (C11 t' g Eg). rewrite Ecm in C11. destruct C11 as (x & Hx & <- & _). now apply in_map.
      + intros x Hx. rewrite Ec. destruct (C10 x Hx) as [H _]. eapply lookup_lt_Some; exact H.
  Qed.
  Lemma returned_gives tr id : returned tr id -> exists t r, In (IReply t r) tr /\ gives r id.
  Proof. intros (t & [(pw & H)|H]); eexists t, _; (split; [exact H|]); [left; eauto|now right]. Qed.
  (** A new call: nobody at odds with it is running. *)
  Lemma core_call tr pool w d E ds gh c tr2 : Core tr pool w d E ds gh -> (forall t', fin pool gh t') -> scopes_ok c ->
    orderly (tr ++ ICall c :: tr2) -> (w_draws w <= n1)%nat -> no_guess e n0 n1 (tr ++ ICall c :: tr2) -> unforged k (tr ++ ICall c :: tr2) ->
    exists gh', Core (tr ++ [ICall c]) (pool ++ [sa_aes e io k c]) w d E ds gh' /\ forall t', t' <> length pool -> fin (pool ++ [sa_aes e io k c]) gh' t'.
  Proof.
    intros HCore HF Hwf Hord HB Hng Hunf. pose proof HCore as [C1 C2 C3 C4 C5 C6 C8 C9 C10 C11 C12 C13].
    assert (HT : forall t g, gh !! t = Some g -> exists c' p, id_calls tr !! t = Some c' /\ pool !! t = Some p).
    { intros t g Hg. apply lookup_lt_Some in Hg. destruct (lookup_lt_is_Some_2 (id_calls tr) t ltac:(lia)) as [c' ?]. destruct (lookup_lt_is_Some_2 pool t ltac:(lia)) as [p ?]. eauto. }
    (* an id that has been returned was drawn by the call that returned it *)
    assert (HRo : forall id, returned tr id -> exists t g, gh !! t = Some g /\ g_live g = false /\ claimed w (g_claim g) id).
    { intros id Hin. apply returned_gives in Hin as (t & r & Hin & Hg). specialize (C12 _ _ Hin). pose proof (lookup_lt_Some _ _ _ C12) as Lt. destruct (lookup_lt_is_Some_2 gh t ltac:(lia)) as [g Eg].
      destruct (fin_com _ _ _ _ _ _ _ _ _ _ HCore HF C12 Eg) as [E1 E2]. exists t, g. split; [exact Eg|]. split; [exact E1|]. destruct (HT t g Eg) as (c' & p & Hc' & Hp).
      destruct (C4 t c' p g Hc' Hp Eg) as (_ & _ & _ & H). eauto. }
    assert (HRn : forall u i b, foot c tr u -> (n0 <= i < n1)%nat -> draw e i 16 = Ok b -> u = txt b -> returned tr u).
    { intros u i b Hf Hi Hb ->. destruct (foot_named c tr _ Hf) as (ta & c' & tb & Etr & Hn).
      assert (HR : returned ta (txt b)).
      { apply (Hng ta c' (tb ++ tr2) i b); [|exact Hi|exact Hb|exact Hn]. change (ICall c :: tr2) with ([ICall c] ++ tr2). rewrite app_assoc, Etr, <- app_assoc. reflexivity. }
      assert (HP : exists tc, tr = ta ++ tc).
      { destruct tb as [|o tb _] using rev_ind; [exists []; apply app_inj_tail in Etr as [-> _]; now rewrite app_nil_r|]. rewrite app_comm_cons, app_assoc in Etr. apply app_inj_tail in Etr as [-> _]. eauto. }
      destruct HP as (tc & ->). destruct HR as (t & [(pw & H)|H]); exists t; [left; exists pw|right]; apply in_or_app; now left. }
    assert (HFo : forall u, foot c tr u -> settled w u /\ forall t g, gh !! t = Some g -> g_live g = true -> g_mine g <> Some u).
    { intros u Hf. pose proof (gl_n0 _ _ _ _ _ _ _ _ C3) as Hn. split.
      - intros i b Hi Hb Hu. destruct (HRo _ (HRn u i b Hf ltac:(lia) Hb ltac:(congruence))) as (t & g & _ & _ & j & b' & _ & Hj & Hb' & Eu).
        apply (Hids i j b b'); [lia|lia|lia|exact Hb|exact Hb'|]. apply (txt_inj e Hc i j); [exact Hb|exact Hb'|congruence].
      - intros t g Hg Hl Hm. destruct (HT t g Hg) as (c' & p & Hc' & Hp). destruct (C4 t c' p g Hc' Hp Hg) as (_ & K1 & _). destruct (K1 Hl) as (_ & _ & _ & _ & A5 & _).
        destruct (A5 u Hm) as (j & b & Hj & Hj' & Hb & Eu). destruct (HRo _ (HRn u j b Hf ltac:(lia) Hb Eu)) as (t' & g2 & Hg2 & Hd & j2 & b2 & Hj2 & Hj2' & Hb2 & Eu2).
        destruct (Nat.eq_dec j j2) as [<-|Hne].
        + destruct (C5 t g j Hg Hj) as [_ Hu]. rewrite (Hu t' g2 Hg2 Hj2) in Hg2. congruence.
        + apply (Hids j j2 b b2); [lia|lia|exact Hne|exact Hb|exact Hb2|]. apply (txt_inj e Hc j j2); [exact Hb|exact Hb2|congruence]. }
    (* a running call at odds with this one: there is none *)
    assert (HQ : forall t g c', gh !! t = Some g -> id_calls tr !! t = Some c' -> g_live g = true -> ~ at_odds tr c' c).
    { intros t g c' Hg Hc' Hl Ho. destruct (Hord tr c tr2 eq_refl t c') as [r Hr]; [|exact Ho|]. { rewrite D1Conc.nth_error_is_lookup. exact Hc'. } apply C12 in Hr. pose proof (HF t r g Hr Hg). congruence. }
    set (g' := mkGhost tr true None (initial k c tr) None None).
    assert (Hcases : forall t g, (gh ++ [g']) !! t = Some g -> gh !! t = Some g /\ t <> length pool \/ t = length pool /\ g = g').
    { intros t g Hg. apply lookup_app_Some in Hg as [Hg|[Hle Hg]]; [left; split; [exact Hg|apply lookup_lt_Some in Hg; lia]|].
      apply list_lookup_singleton_Some in Hg as [Hz <-]. right. split; [lia|reflexivity]. }
    assert (Ecs : id_calls (tr ++ [ICall c]) = id_calls tr ++ [c]) by (rewrite calls_app; reflexivity).
    assert (HAp : forall t g c', gh !! t = Some g -> id_calls tr !! t = Some c' -> g_live g = true -> clear c g' c' g /\ clear c' g c g').
    { intros t g c' Hg Hc' Hl. pose proof (HQ t g c' Hg Hc' Hl) as HN. destruct (HT t g Hg) as (c'' & p & Hc'' & Hp). destruct (C4 t c'' p g Hc'' Hp Hg) as ((tr' & Etr) & _).
      assert (M1 : forall u, changes (g_tr0 g) c' u -> changes tr c' u) by (intros u Hu; rewrite Etr; now apply changes_mono).
      assert (M2 : forall u, acts_for (g_tr0 g) c' u -> acts_for tr c' u) by (intros u Hu; rewrite Etr; now apply acts_for_mono).
      split; constructor; cbn [g_tr0 g_mine g'].
      - intros u Hu. split; [|split].
        + intros Hu'. apply HN. right. exists u. left. auto.
        + intros Hu'. apply HN. right. exists u. left. auto.
        + refine (proj2 (HFo u _) t g Hg Hl). unfold foot; auto.
      - intros u Hu Hu'. apply HN. right. exists u. right. auto.
      - discriminate.
      - intros u Hu. split; [|split; [|discriminate]].
        + intros Hu'. apply HN. left. exists u. left. auto.
        + intros Hu'. apply HN. left. exists u. left. auto.
      - intros u Hu Hu'. apply HN. left. exists u. right. auto.
      - intros u Hu. split; [|discriminate]. intros Hf. exact (proj2 (HFo u Hf) t g Hg Hl Hu). }
    exists (gh ++ [g']). split.
    2:{ intros t' Hne r g Hr Hg. apply Hcases in Hg as [[Hg _]|[? _]]; [|congruence]. apply (HF t' r g); [|exact Hg].
        apply lookup_app_Some in Hr as [Hr|[Hle Hr]]; [exact Hr|]. apply lookup_lt_Some in Hg. lia. }
    assert (Hold : forall t g c', gh !! t = Some g -> (id_calls tr ++ [c]) !! t = Some c' -> id_calls tr !! t = Some c').
    { intros t g c' Hg Hc'. rewrite lookup_app_l in Hc' by (apply lookup_lt_Some in Hg; lia). exact Hc'. }
    assert (Hnew : forall c', (id_calls tr ++ [c]) !! length pool = Some c' -> c' = c).
    { intros c' Hc'. rewrite lookup_app_r, C1, Nat.sub_diag in Hc' by lia. now injection Hc' as <-. }
    constructor; rewrite ?Ecs; try assumption.
    - rewrite !app_length, C1. reflexivity.
    - rewrite !app_length, C2. reflexivity.
    - intros t c' p g Hc' Hp Hg. apply Hcases in Hg as [[Hg Hne]|[-> ->]].
      + apply (Hold t g) in Hc'; [|exact Hg]. rewrite lookup_app_l in Hp by (apply lookup_lt_Some in Hg; lia). destruct (C4 t c' p g Hc' Hp Hg) as ((tr' & Etr) & K). split; [|exact K].
        exists (tr' ++ [ICall c]). now rewrite app_assoc, <- Etr.
      + apply Hnew in Hc' as ->. rewrite lookup_app_r, Nat.sub_diag in Hp by lia. injection Hp as <-.
        split; [exists [ICall c]; reflexivity|]. split; [|split; [discriminate|discriminate]]. intros _. split; [apply stable_initial|]. split; [|split; [|split; [|split; discriminate]]].
        * cbn [g_K g']. intros tok Ht Hacc. destruct (Hunf tr c tr2 tok eq_refl Ht Hacc) as (uid & Hcar). pose proof Hcar as (tok1 & t & pw & tok' & x & Ht1 & Hn & Hin & Hst).
          rewrite Ht in Ht1. injection Ht1 as <-. pose proof (C12 _ _ Hin) as Hp. pose proof (lookup_lt_Some _ _ _ Hp) as Lt. destruct (lookup_lt_is_Some_2 gh t ltac:(lia)) as [g Eg].
          destruct (fin_com _ _ _ _ _ _ _ _ _ _ HCore HF Hp Eg) as [_ Ecm]. pose proof (C11 t g Eg) as Hev. rewrite Ecm in Hev. destruct Hev as (y & Hy & Hyt & Hyr).
          destruct (C10 y Hy) as [Hyc _]. rewrite Hyt in Hyc. rewrite D1Conc.nth_error_is_lookup, Hyc in Hn. injection Hn as Hn.
          apply in_split in Hy as (l1 & l2 & ->). rewrite map_app in C8. cbn [map] in C8. destruct (sh_mid _ _ _ _ _ C8) as (da & db & _ & Hs & Hrest). rewrite Hn, Hyr in Hs. cbn [sa_step] in Hs.
          exists uid, (time_add (x_now (sv_x (sd_event y))) 3600). split; [|exact Hcar]. eapply says_history; [exact Hrest|].
          destruct (d_users da !! uid); [|destruct Hs; discriminate]. destruct Hs as [(_ & C & _)|(_ & [(_ & C & _)|(s & _ & Es & -> & Hsay)])]; try discriminate. injection Es as <- _.
          destruct (proj2 (Hsay uid _) (conj eq_refl eq_refl)) as (s' & S1 & S2 & S3 & S4). exists s'. split; [exact S1|]. split; [eapply same_token_trans; eauto|auto].
        * apply lw_call; assumption.
        * split; [|discriminate]. intros u Hu. now apply HFo.
    - intros t g j Hg Hj. apply Hcases in Hg as [[Hg Hne]|[-> ->]]; [|discriminate]. destruct (C5 t g j Hg Hj) as [H1 H2]. split; [exact H1|].
      intros t' g2 Hg2 Hj2. apply Hcases in Hg2 as [[Hg2 _]|[-> ->]]; [eauto|discriminate].
    - intros t1 t2 c1 c2 g1 g2 Hne Hc1 Hc2 Hg1 Hg2. apply Hcases in Hg1 as [[Hg1 H1]|[-> ->]]; apply Hcases in Hg2 as [[Hg2 H2]|[-> ->]]; [| | |congruence]; intros Hl1 Hl2.
      + apply (C6 t1 t2); eauto.
      + apply Hnew in Hc2 as ->. apply (HAp t1 g1); eauto.
      + apply Hnew in Hc1 as ->. apply (HAp t2 g2); eauto.
    - intros x Hx. destruct (C10 x Hx) as [H1 H2]. split; [apply lookup_app_l_Some; exact H1|exact H2].
    - intros t g Hg. apply Hcases in Hg as [[Hg Hne]|[-> ->]]; [now apply C11|]. cbn. intros Hin. apply in_map_iff in Hin as (x & Ex & Hx).
      destruct (C10 x Hx) as [H1 _]. apply lookup_lt_Some in H1. lia.
    - intros t r Hr. apply in_app_iff in Hr as [Hr|[[=]|[]]]. apply lookup_app_l_Some. now apply C12.
    - apply rt_obs; [exact C13| |].
      + intros t r Hr. apply in_app_iff in Hr as [Hr|[[=]|[]]]. destruct (C13 tr [] ltac:(now rewrite app_nil_r)) as (ds1 & ds2 & -> & H1 & _). rewrite map_app, in_app_iff. eauto.
      + intros x Hx. destruct (C10 x Hx) as [H1 _]. apply lookup_lt_Some in H1. rewrite Ecs, app_length. lia.
  Qed.

  (** ** The random source only goes forward *)
  Lemma fwd_aes_enc kek pt aad : fwd (aes_enc e kek pt aad : prog W _).
  Proof.
    unfold aes_enc. apply D1Conc.fwd_bindR; [apply D1Conc.fwd_get_bytes|intros key]. apply D1Conc.fwd_bindR; [apply D1Conc.fwd_get_bytes|intros nonce].
    apply D1Conc.fwd_bindR; [apply D1Conc.fwd_lift|intros ct]. apply D1Conc.fwd_bindR; [apply D1Conc.fwd_lift|intros wk]. apply D1Conc.fwd_bind; [apply D1Conc.fwd_act; intros w; cbn; lia|]. intros. exact Logic.I.
  Qed.
  Lemma fwd_decrypt_json {A} kek (dec : json -> option A) aad wk ct : fwd (decrypt_json (aes_cryptor e kek) dec aad wk ct : prog W _).
  Proof.
    unfold decrypt_json. apply D1Conc.fwd_bindR.
    - cbn [c_dec aes_cryptor]. unfold aes_dec. apply D1Conc.fwd_act. intros w. destruct (_ && _); cbn; lia.
    - intros pt. destruct (unmarshal dec pt); exact Logic.I.
  Qed.
  Lemma fwd_time : fwd (time_now e : prog W _).
  Proof. apply D1Conc.fwd_act. intros w. cbn. lia. Qed.
  Notation uc := (aes_cryptor e (s_uek k)).
  Notation gc := (aes_cryptor e (s_gek k)).
  Notation tc := (aes_cryptor e (s_tek k)).
  Lemma fwd_get_user uid : fwd (get_user io uc uid : prog W _).
  Proof. unfold get_user. apply D1Conc.fwd_bindR; [apply D1Conc.fwd_map_err, D1Conc.fwd_io|intros b]. destruct (unmarshal _ b); [apply fwd_decrypt_json|exact Logic.I]. Qed.
  Lemma fwd_get_group gid : fwd (get_group io gc gid : prog W _).
  Proof. unfold get_group. apply D1Conc.fwd_bindR; [apply D1Conc.fwd_map_err, D1Conc.fwd_io|intros b]. destruct (unmarshal _ b); [apply fwd_decrypt_json|exact Logic.I]. Qed.
  Lemma fwd_get_groups gids : forall acc, fwd (get_groups io gc gids acc : prog W _).
  Proof. induction gids as [|g rest IH]; intros acc; cbn [get_groups]; [exact Logic.I|]. apply D1Conc.fwd_bindR; [apply fwd_get_group|intros; apply IH]. Qed.
  Lemma fwd_put_user uid u b : fwd (put_user io uc uid u b : prog W _).
  Proof.
    unfold put_user, user_seal, encrypt_json. cbn [c_enc aes_cryptor]. apply D1Conc.fwd_bindR; [apply D1Conc.fwd_bindR; [apply fwd_aes_enc|intros [? ?]; exact Logic.I]|intros su].
    destruct b; apply D1Conc.fwd_map_err, D1Conc.fwd_io.
  Qed.
  Lemma fwd_put_group gid g : fwd (put_group io gc gid g : prog W _).
  Proof.
    unfold put_group, group_seal, encrypt_json. cbn [c_enc aes_cryptor]. apply D1Conc.fwd_bindR; [apply D1Conc.fwd_bindR; [apply fwd_aes_enc|intros [? ?]; exact Logic.I]|intros su].
    apply D1Conc.fwd_map_err, D1Conc.fwd_io.
  Qed.
  Lemma fwd_new_v4 : fwd (new_v4 e : prog W _).
  Proof. unfold new_v4. apply D1Conc.fwd_bindR; [apply D1Conc.fwd_get_bytes|intros; exact Logic.I]. Qed.
  Lemma fwd_password : fwd (generate_password e : prog W _).
  Proof. unfold generate_password. apply D1Conc.fwd_bindR; [apply D1Conc.fwd_get_bytes|intros]. apply D1Conc.fwd_bindR; [apply D1Conc.fwd_get_bytes|intros; exact Logic.I]. Qed.
  Lemma fwd_identity tok : fwd (sa_get_identity e io uc gc tc tok : prog W _).
  Proof.
    unfold sa_get_identity, any_err. apply D1Conc.fwd_bindR; [apply D1Conc.fwd_map_err, D1Conc.fwd_lift|intros st].
    apply D1Conc.fwd_bindR; [apply D1Conc.fwd_map_err; unfold token_unseal|intros t].
    - apply D1Conc.fwd_bind; [apply fwd_time|intros now]. destruct (time_before _ _); [exact Logic.I|]. destruct (enc_time _); [|exact Logic.I].
      apply D1Conc.fwd_bindR; [apply fwd_decrypt_json|intros; exact Logic.I].
    - apply D1Conc.fwd_bindR; [apply fwd_get_user|intros u]. apply D1Conc.fwd_bindR; [apply fwd_get_groups|intros; exact Logic.I].
  Qed.
  Lemma fwd_call c : fwd (sa_aes e io k c : prog W _).
  Proof.
    unfold sa_aes. destruct c; cbn [sa_do]; unfold ret_map; (apply D1Conc.fwd_bind; [|intros; exact Logic.I]).
    - unfold sa_new_user, new_user. apply D1Conc.fwd_bindR; [apply fwd_new_v4|intros]. apply D1Conc.fwd_bindR; [apply D1Conc.fwd_bindR; [apply fwd_password|intros [? ?]; exact Logic.I]|intros [? ?]].
      apply D1Conc.fwd_bindR; [apply fwd_put_user|intros; exact Logic.I].
    - unfold sa_login, any_err. apply D1Conc.fwd_map_err, D1Conc.fwd_bindR; [apply fwd_get_user|intros]. apply D1Conc.fwd_bindR; [apply D1Conc.fwd_lift|intros].
      apply D1Conc.fwd_bind; [unfold new_token; apply D1Conc.fwd_bind; [apply fwd_time|intros; exact Logic.I]|intros t].
      apply D1Conc.fwd_bindR; [unfold token_seal; destruct (enc_time _); [|exact Logic.I]; apply D1Conc.fwd_bindR; [apply fwd_aes_enc|intros [? ?]; exact Logic.I]|intros].
      apply D1Conc.fwd_bindR; [apply D1Conc.fwd_lift|intros; exact Logic.I].
    - unfold sa_change_password, any_err, change_password. apply D1Conc.fwd_bindR; [apply D1Conc.fwd_map_err, fwd_get_user|intros].
      apply D1Conc.fwd_bindR; [apply D1Conc.fwd_map_err; apply D1Conc.fwd_bindR; [apply D1Conc.fwd_lift|intros]; apply D1Conc.fwd_bindR; [apply fwd_password|intros [? ?]; exact Logic.I]|intros [? ?]].
      apply D1Conc.fwd_bindR; [apply fwd_put_user|intros; exact Logic.I].
    - unfold sa_add_user. apply D1Conc.fwd_bindR; [apply fwd_identity|intros]. destruct (negb _); [exact Logic.I|]. apply D1Conc.fwd_bindR; [apply fwd_get_user|intros].
      apply D1Conc.fwd_bindR; [apply D1Conc.fwd_lift|intros]. apply fwd_put_user.
    - unfold sa_remove_user. apply D1Conc.fwd_bindR; [apply fwd_identity|intros]. destruct (negb _); [exact Logic.I|]. apply D1Conc.fwd_bindR; [apply fwd_get_user|intros]. apply fwd_put_user.
    - unfold sa_delete_user. apply D1Conc.fwd_bindR; [apply fwd_identity|intros]. apply D1Conc.fwd_io.
    - unfold sa_new_group. apply D1Conc.fwd_bindR; [apply fwd_identity|intros]. apply D1Conc.fwd_bindR; [apply fwd_new_v4|intros gid]. apply D1Conc.fwd_bindR; [apply fwd_put_group|intros _].
      apply D1Conc.fwd_bindR; [apply fwd_get_user|intros u]. apply D1Conc.fwd_bindR; [apply D1Conc.fwd_lift|intros gs].
      apply D1Conc.fwd_bindR; [apply fwd_put_user|intros _]. exact Logic.I.
    - apply fwd_identity.
  Qed.
  Lemma conc_forward pool w tr pool' w' : sa_conc e v io k pool w tr pool' w' -> (forall t p, pool !! t = Some p -> fwd p) -> (w_draws w <= w_draws w')%nat.
  Proof.
    induction 1 as [pool w|pool w w1 tr pool' w' HK _ IH|c pool w tr pool' w' _ IH|t X f q pool w tr pool' w' Hp _ IH|t r pool w tr pool' w' Hp _ IH]; intros HP.
    - lia.
    - destruct HK as (_ & HK & _). specialize (IH HP). lia.
    - apply IH. intros t p Hp. apply lookup_app_Some in Hp as [Hp|[_ Hp]]; [now apply (HP t)|]. apply list_lookup_singleton_Some in Hp as [_ <-]. apply fwd_call.
    - destruct (HP t _ Hp w) as [H1 H2]. specialize (IH ltac:(intros t' p Hp'; destruct (decide (t' = t)) as [->|Hne];
        [rewrite list_lookup_insert in Hp' by (eapply lookup_lt_Some; exact Hp); injection Hp' as <-; exact H2|rewrite list_lookup_insert_ne in Hp' by congruence; now apply (HP t')])). lia.
    - auto.
  Qed.

  Lemma conc_linearizes pool w tr pool' w' : sa_conc e v io k pool w tr pool' w' -> forall tr0 d E ds gh, Core tr0 pool w d E ds gh -> (forall t, fin pool gh t) ->
    (forall t p, pool !! t = Some p -> fwd p) -> (w_draws w' <= n1)%nat ->
    scopes_wf (tr0 ++ tr) -> orderly (tr0 ++ tr) -> no_guess e n0 n1 (tr0 ++ tr) -> unforged k (tr0 ++ tr) -> exists ds' d', sa_linearizes e dir_empty (tr0 ++ tr) ds' d'.
  Proof.
    induction 1 as [pool w|pool w w1 tr pool' w' HK _ IH|c pool w tr pool' w' Hrest IH|t X f q pool w tr pool' w' Hp Hrest IH|t r pool w tr pool' w' Hp _ IH]; intros tr0 d E ds gh HC HF HP HB Hwf Ho Hg Hu.
    - rewrite app_nil_r. pose proof HC as [C1 C2 C3 C4 C5 C6 C8 C9 C10 C11 C12 C13]. exists ds, d. split; [exact C8|]. split; [exact C9|]. split; [|split; [|exact C13]].
      + intros x Hx. rewrite D1Conc.nth_error_is_lookup. now apply C10.
      + intros t r Hr. apply C12 in Hr. pose proof (lookup_lt_Some _ _ _ Hr) as Lt. destruct (lookup_lt_is_Some_2 gh t ltac:(lia)) as [g Eg].
        destruct (fin_com _ _ _ _ _ _ _ _ _ _ HC HF Hr Eg) as [_ Ecm]. specialize (C11 t g Eg). now rewrite Ecm in C11.
    - eapply (IH tr0 d E ds gh); eauto. eapply core_env; eauto.
    - assert (HP' : forall t p, (pool ++ [sa_aes e io k c]) !! t = Some p -> fwd p).
      { intros t p Hp. apply lookup_app_Some in Hp as [Hp|[_ Hp]]; [now apply (HP t)|]. apply list_lookup_singleton_Some in Hp as [_ <-]. apply fwd_call. }
      pose proof (conc_forward _ _ _ _ _ Hrest HP') as HB'.
      destruct (core_call tr0 pool w d E ds gh c tr HC HF) as (gh1 & HC1 & HF1); [|exact Ho|lia|exact Hg|exact Hu|].
      + apply (Hwf c). rewrite calls_app, in_app_iff. right. now left.
      + destruct (core_settle _ _ _ _ _ _ _ _ HC1 HF1) as (d2 & ds2 & gh2 & HC2 & HF2).
        replace (tr0 ++ ICall c :: tr) with ((tr0 ++ [ICall c]) ++ tr) in * by now rewrite <- app_assoc. eapply IH; eauto.
    - assert (HP' : forall t' p, <[t := q (fst (f w))]> pool !! t' = Some p -> fwd p).
      { intros t' p Hp'. destruct (decide (t' = t)) as [->|Hne]; [|rewrite list_lookup_insert_ne in Hp' by congruence; now apply (HP t')].
        rewrite list_lookup_insert in Hp' by (eapply lookup_lt_Some; exact Hp). injection Hp' as <-. apply (HP t _ Hp w). }
      pose proof (conc_forward _ _ _ _ _ Hrest HP') as HB'.
      destruct (core_step _ _ _ _ _ _ _ _ _ _ _ HC HF Hp ltac:(lia)) as (d1 & E1 & ds1 & gh1 & HC1 & HF1). destruct (core_settle _ _ _ _ _ _ _ _ HC1 HF1) as (d2 & ds2 & gh2 & HC2 & HF2). eapply IH; eauto.
    - pose proof (core_reply _ _ _ _ _ _ _ _ _ HC HF Hp) as HC1.
      replace (tr0 ++ IReply t r :: tr) with ((tr0 ++ [IReply t r]) ++ tr) in * by now rewrite <- app_assoc. eapply IH; eauto.
  Qed.
End All.

Lemma identities_linearize {S I} (e : env) (v : view S) (io : provider S) (k : sa_keys) (w : world S I) tr pool' w' :
  cell_storage v io -> (forall n, time_wf (clock e n)) -> no_accounts v w -> sa_conc e v io k [] w tr pool' w' ->
  scopes_wf tr -> orderly tr -> ids_differ e (w_draws w) (w_draws w') -> no_guess e (w_draws w) (w_draws w') tr -> unforged k tr ->
  exists ds d', sa_linearizes e dir_empty tr ds d'.
Proof.
  intros Hio Hcl [Hi Hw] Hr Hwf Ho Hids Hg Hu.
  apply (conc_linearizes e v io Hio k Hcl (w_draws w) (w_draws w') Hids [] w tr pool' w' Hr [] dir_empty ∅ [] []); auto.
  - constructor; try (intros; discriminate); auto.
    + constructor; [exact Hi|lia|..].
      * intros uid. rewrite Hw by auto. cbn [d_users dir_empty]. now rewrite lookup_empty.
      * intros gid s H. cbn [d_groups dir_empty] in H. now rewrite lookup_empty in H.
      * intros g H. set_solver.
      * intros. rewrite !Hw by auto. auto.
      * intros s [].
    + constructor.
    + constructor.
    + intros x [].
    + intros t r [].
    + intros tr1 tr2 E. exists [], []. symmetry in E. apply app_eq_nil in E as [-> ->]. split; [reflexivity|]. split; intros t; [intros r []|intros []].
  - intros t r g Hr'. discriminate.
  - intros t p Hp. discriminate.
Qed.
