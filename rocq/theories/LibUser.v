(** What C74 means for callers: passwords and memberships, and what they allow, follow the calls that have been answered. *)
From Coq Require Import ZifyN ZifyNat.
From stdpp Require Import gmap.
From Verif Require Import Bytes Go Uuid Time Types World Id Data D1 Spec SpecProofs Standalone StandaloneSpec StandaloneHist SaConcSpec Index IndexSpec Lib LibSpec LibCor LibConcSpec LibConcUseSpec LibConcUse LibReadSpec LibRead LibListSpec LibList LibUserSpec.
Local Open Scope nat_scope.

(** ** Steps *)
Lemma step_account x c d r d' uid a : sa_step x c d r d' -> d_users d !! uid = Some a -> (forall tok, c = SDeleteUser tok uid -> exists y, r = Err y) ->
  exists a', d_users d' !! uid = Some a' /\ ac_scopes a' = ac_scopes a /\
    ((forall old, c = SChangePassword uid old -> exists y, r = Err y) -> ac_salt a' = ac_salt a /\ ac_hash a' = ac_hash a) /\
    (forall g, g ∈ ac_groups a -> (forall tok gids, c = SRemoveUser tok uid gids -> In g gids -> exists y, r = Err y) -> g ∈ ac_groups a').
Proof.
  set (Q := fun d' : directory => exists a', d_users d' !! uid = Some a' /\ ac_scopes a' = ac_scopes a /\
    ((forall old, c = SChangePassword uid old -> exists y, r = Err y) -> ac_salt a' = ac_salt a /\ ac_hash a' = ac_hash a) /\
    (forall g, g ∈ ac_groups a -> (forall tok gids, c = SRemoveUser tok uid gids -> In g gids -> exists y, r = Err y) -> g ∈ ac_groups a')).
  intros H Ha Hd. change (Q d').
  assert (SAME : d_users d' = d_users d -> Q d') by (intros E; exists a; rewrite E; auto).
  assert (INS : forall u a1, d_users d' = <[u := a1]> (d_users d) -> (u = uid -> ac_scopes a1 = ac_scopes a /\
      ((forall old, c = SChangePassword uid old -> exists y, r = Err y) -> ac_salt a1 = ac_salt a /\ ac_hash a1 = ac_hash a) /\
      (forall g, g ∈ ac_groups a -> (forall tok gids, c = SRemoveUser tok uid gids -> In g gids -> exists y, r = Err y) -> g ∈ ac_groups a1)) -> Q d').
  { intros u a1 E K. destruct (decide (u = uid)) as [->|N]; [exists a1; rewrite E, lookup_insert; auto|]. exists a. rewrite E, lookup_insert_ne by exact N. auto. }
  assert (CA : forall tok (body : identity -> Prop), (forall i, body i -> Q d') -> as_caller x tok d r d' body -> Q d').
  { intros tok body Hb [(i & _ & K)|(y & _ & _ & ->)]; eauto. }
  destruct c; cbn [sa_step] in H.
  - destruct H as [(_ & _ & ->)|(b & raw & salt & s & _ & _ & _ & _ & H)]; [now apply SAME|]. cbn zeta in H.
    destruct (d_users d !! uuid_text (uuid_v4 b)) eqn:Eb; destruct H as [_ ->]; [now apply SAME|]. eapply INS; [reflexivity|]. intros <-. congruence.
  - destruct (d_users d !! uid0); [|destruct H as [_ ->]; now apply SAME].
    destruct H as [(_ & _ & ->)|(_ & [(_ & _ & ->)|(s & _ & _ & -> & _)])]; now apply SAME.
  - destruct (d_users d !! uid0) as [a0|] eqn:E0; [|destruct H as [_ ->]; now apply SAME].
    destruct H as [(_ & _ & ->)|(_ & [(_ & _ & ->)|(raw & salt & _ & _ & H)])]; [now apply SAME..|]. cbn zeta in H. destruct H as [-> ->].
    eapply INS; [reflexivity|]. intros ->. assert (a0 = a) by congruence. subst a0. split; [reflexivity|]. split; [|auto]. intros K. destruct (K _ eq_refl) as (y & [=]).
  - apply (CA _ _) in H; [exact H|]. intros i [(_ & _ & ->)|(_ & K)]; [now apply SAME|].
    destruct (d_users d !! uid0) as [a0|] eqn:E0; [|destruct K as [_ ->]; now apply SAME]. destruct K as [(_ & _ & ->)|(_ & ->)]; [now apply SAME|].
    eapply INS; [reflexivity|]. intros ->. assert (a0 = a) by congruence. subst a0. split; [reflexivity|]. split; [auto|]. intros g Hg _. cbn [ac_groups]. apply elem_of_union. now left.
  - apply (CA _ _) in H; [exact H|]. intros i [(_ & _ & ->)|(_ & K)]; [now apply SAME|].
    destruct (d_users d !! uid0) as [a0|] eqn:E0; [|destruct K as [_ ->]; now apply SAME]. destruct K as [(_ & _ & ->)|(-> & ->)]; [now apply SAME|].
    eapply INS; [reflexivity|]. intros ->. assert (a0 = a) by congruence. subst a0. split; [reflexivity|]. split; [auto|]. intros g Hg K. cbn [ac_groups]. apply elem_of_difference. split; [exact Hg|].
    rewrite elem_of_list_to_set, elem_of_list_In. intros Hin. destruct (K _ _ eq_refl Hin) as (y & [=]).
  - apply (CA _ _) in H; [exact H|]. intros i (-> & ->). destruct (decide (uid0 = uid)) as [->|N]; [destruct (Hd _ eq_refl) as (y & [=])|].
    exists a. cbn [d_users set_users]. rewrite lookup_delete_ne by exact N. auto.
  - apply (CA _ _) in H; [exact H|]. intros i [(_ & _ & _ & ->)|[(_ & _ & _ & b & s & _ & _ & _ & ->)|(b & s & _ & _ & K)]]; [now apply SAME..|]. cbn zeta in K.
    destruct (d_groups d !! _); [destruct K as [_ ->]; now apply SAME|]. destruct K as (a0 & E0 & _ & ->). eapply INS; [reflexivity|]. intros Ei. rewrite Ei in E0. assert (a0 = a) by congruence. subst a0.
    split; [reflexivity|]. split; [auto|]. intros g Hg _. cbn [ac_groups]. apply elem_of_union. now left.
  - destruct H as (q & _ & _ & ->). now apply SAME.
Qed.
Lemma step_group x c d r d' g s : sa_step x c d r d' -> d_groups d !! g = Some s -> d_groups d' !! g = Some s.
Proof.
  intros H Hg. assert (INS : forall g1 s1, d_groups d !! g1 = None -> <[g1 := s1]> (d_groups d) !! g = Some s) by (intros g1 s1 N; rewrite lookup_insert_ne; [exact Hg|]; intros ->; congruence).
  assert (CA : forall tok (body : identity -> Prop), (forall i, body i -> d_groups d' !! g = Some s) -> as_caller x tok d r d' body -> d_groups d' !! g = Some s).
  { intros tok body Hb [(i & _ & K)|(y & _ & _ & ->)]; eauto. }
  destruct c; cbn [sa_step] in H.
  - destruct H as [(_ & _ & ->)|(b & raw & salt & s0 & _ & _ & _ & _ & H)]; [exact Hg|]. cbn zeta in H. destruct (d_users d !! _); destruct H as [_ ->]; exact Hg.
  - destruct (d_users d !! uid); [|destruct H as [_ ->]; exact Hg]. destruct H as [(_ & _ & ->)|(_ & [(_ & _ & ->)|(t & _ & _ & -> & _)])]; exact Hg.
  - destruct (d_users d !! uid); [|destruct H as [_ ->]; exact Hg]. destruct H as [(_ & _ & ->)|(_ & [(_ & _ & ->)|(raw & salt & _ & _ & _ & ->)])]; exact Hg.
  - apply (CA _ _) in H; [exact H|]. intros i [(_ & _ & ->)|(_ & K)]; [exact Hg|]. destruct (d_users d !! uid); [|destruct K as [_ ->]; exact Hg]. destruct K as [(_ & _ & ->)|(_ & ->)]; exact Hg.
  - apply (CA _ _) in H; [exact H|]. intros i [(_ & _ & ->)|(_ & K)]; [exact Hg|]. destruct (d_users d !! uid); [|destruct K as [_ ->]; exact Hg]. destruct K as [(_ & _ & ->)|(_ & ->)]; exact Hg.
  - apply (CA _ _) in H; [exact H|]. intros i (_ & ->). exact Hg.
  - apply (CA _ _) in H; [exact H|]. intros i [(_ & _ & _ & ->)|[(_ & _ & _ & b & s0 & _ & _ & N & ->)|(b & s0 & _ & _ & K)]]; [exact Hg|apply INS; exact N|]. cbn zeta in K.
    destruct (d_groups d !! uuid_text _) eqn:N; [destruct K as [_ ->]; exact Hg|]. destruct K as (a0 & _ & _ & ->). now apply INS.
  - destruct H as (q & _ & _ & ->). exact Hg.
Qed.

Section Cor.
  Context (e : env) (tra trb : list lib_obs) (c : lib_call) (r : lib_reply).
  Notation tr := (tra ++ LCall c :: trb).
  Notation n := (length (lib_calls tra)).
  Context (acts : exists hs s, lib_acts e tr hs s) (Hr : In (LReply n r) trb).

  Definition knows_pw (uid pw : bytes) (d : directory) : Prop := exists a, d_users d !! uid = Some a /\ pwhash e pw (ac_salt a) = ac_hash a.
  Definition in_group (uid g : bytes) (d : directory) : Prop := exists a, d_users d !! uid = Some a /\ g ∈ ac_groups a.
  Definition may (uid g : bytes) (need : N) (d : directory) : Prop :=
    exists a s, d_users d !! uid = Some a /\ scope_has (ac_scopes a) need /\ g ∈ ac_groups a /\ d_groups d !! g = Some s /\ scope_has s need.
  Lemma step_pw x d k q d' uid pw : sa_step x k d q d' -> knows_pw uid pw d -> (may_change uid (OnIdentity k) -> id_failed (LIdentity q)) -> q <> Panic -> knows_pw uid pw d'.
  Proof.
    intros H (a & Ha & Hp) K NP. assert (F : may_change uid (OnIdentity k) -> exists y, q = Err y) by (intros M; specialize (K M); destruct q; [destruct K|eauto|destruct (NP eq_refl)]).
    destruct (step_account _ _ _ _ _ _ _ H Ha) as (a' & Ha' & _ & Hs & _); [intros tok ->; now apply F|]. destruct Hs as [Hs Hh]; [intros old ->; now apply F|]. exists a'. split; [exact Ha'|congruence].
  Qed.
  Lemma step_in x d k q d' uid g : sa_step x k d q d' -> in_group uid g d -> (may_leave uid g (OnIdentity k) -> id_failed (LIdentity q)) -> q <> Panic -> in_group uid g d'.
  Proof.
    intros H (a & Ha & Hg) K NP. assert (F : may_leave uid g (OnIdentity k) -> exists y, q = Err y) by (intros M; specialize (K M); destruct q; [destruct K|eauto|destruct (NP eq_refl)]).
    destruct (step_account _ _ _ _ _ _ _ H Ha) as (a' & Ha' & _ & _ & Hs); [intros tok ->; now apply F|]. exists a'. split; [exact Ha'|]. apply Hs; [exact Hg|]. intros tok gids -> Hin. apply F. cbn. auto.
  Qed.
  Lemma step_may x d k q d' uid g need : sa_step x k d q d' -> may uid g need d -> (may_leave uid g (OnIdentity k) -> id_failed (LIdentity q)) -> q <> Panic -> may uid g need d'.
  Proof.
    intros H (a & s & Ha & Hn & Hg & Hs & Hk) K NP. assert (F : may_leave uid g (OnIdentity k) -> exists y, q = Err y) by (intros M; specialize (K M); destruct q; [destruct K|eauto|destruct (NP eq_refl)]).
    destruct (step_account _ _ _ _ _ _ _ H Ha) as (a' & Ha' & Es & _ & Hs'); [intros tok ->; now apply F|]. exists a', s. split; [exact Ha'|]. split; [now rewrite Es|]. split; [|split; [eapply step_group; eauto|exact Hk]].
    apply Hs'; [exact Hg|]. intros tok gids -> Hin. apply F. cbn. auto.
  Qed.
  Lemma step_no_panic x k d q d' : sa_step x k d q d' -> q <> Panic.
  Proof.
    assert (CA : forall tok (body : identity -> Prop), (forall i, body i -> q <> Panic) -> as_caller x tok d q d' body -> q <> Panic).
    { intros tok body Hb [(i & _ & K)|(y & _ & -> & _)]; [eauto|discriminate]. }
    intros H. destruct k; cbn [sa_step] in H.
    - destruct H as [(_ & -> & _)|(b & raw & salt & s0 & _ & _ & _ & _ & H)]; [discriminate|]. cbn zeta in H. destruct (d_users d !! _); destruct H as [-> _]; discriminate.
    - destruct (d_users d !! uid); [|destruct H as [-> _]; discriminate]. destruct H as [(_ & -> & _)|(_ & [(_ & -> & _)|(t & _ & -> & _)])]; discriminate.
    - destruct (d_users d !! uid); [|destruct H as [-> _]; discriminate]. destruct H as [(_ & -> & _)|(_ & [(_ & [-> | ->] & _)|(raw & salt & _ & _ & -> & _)])]; discriminate.
    - apply (CA _ _) in H; [exact H|]. intros i [(_ & -> & _)|(_ & K)]; [discriminate|]. destruct (d_users d !! uid); [|destruct K as [-> _]; discriminate]. destruct K as [(_ & -> & _)|(-> & _)]; discriminate.
    - apply (CA _ _) in H; [exact H|]. intros i [(_ & -> & _)|(_ & K)]; [discriminate|]. destruct (d_users d !! uid); [|destruct K as [-> _]; discriminate]. destruct K as [(_ & -> & _)|(-> & _)]; discriminate.
    - apply (CA _ _) in H; [exact H|]. intros i (-> & _). discriminate.
    - apply (CA _ _) in H; [exact H|]. intros i [(_ & -> & _)|[(_ & -> & _)|(b & s0 & _ & _ & K)]]; try discriminate. cbn zeta in K.
      destruct (d_groups d !! uuid_text _) eqn:N; [destruct K as [-> _]; discriminate|]. destruct K as (a0 & _ & -> & _). discriminate.
    - destruct H as (z & Hz & -> & _). destruct Hz as [(u & y & _ & _ & X)|[_ ->]]; [|discriminate].
      destruct (d_users d !! u); [destruct X as [(j & _ & ->)|(g & _ & _ & ->)]|rewrite X]; discriminate.
  Qed.
  (** What an answer has shown stays so, if all calls that may change it are over. *)
  Lemma dir_stays (P : directory -> Prop) (kind : lib_call -> Prop) c0 r0 tr1 :
    (forall x d d', outside_ok e x -> unique d -> sa_step x c0 d r0 d' -> P d') ->
    (forall x d k q d', sa_step x k d q d' -> P d -> (kind (OnIdentity k) -> id_failed (LIdentity q)) -> q <> Panic -> P d') ->
    forall hs s pre h post a, lib_acts e tr hs s -> hs = pre ++ h :: post -> half_call h = n -> (forall ev, In (HIdentity n ev) pre -> False) -> half_history lib_empty pre a ->
    answered_call (OnIdentity c0) (LIdentity r0) tr1 tra -> no_more n tr tr1 kind -> P (ls_dir a).
  Proof.
    intros Hfirst Hnext hs s pre h post a H E A L H1 Ha Hno. pose proof H as (_ & ND & HO & _ & HR & _).
    destruct (came_before e tr hs s H _ _ _ _ _ _ Ha eq_refl pre h post E A) as (q1 & h' & mid & Ep & A' & B' & C' & D').
    assert (Hin' : In h' hs) by (rewrite E, Ep; apply in_app_iff; left; apply in_app_iff; right; now left).
    destruct (identity_half e tra trb c hs s H h' _ _ _ Hin' eq_refl B' C') as (x & Eq). specialize (HO _ Hin') as Ho'.
    rewrite Ep in H1. apply hh_mid in H1 as (a1 & b1 & H0 & Hs & H2).
    assert (Hb : P (ls_dir b1)).
    { rewrite Eq in Ho', Hs. cbn [half_of half_step sv_x sv_call sv_reply] in Ho', Hs. eapply Hfirst; [apply Ho'|exact (half_unique _ _ H0)|apply Hs]. }
    assert (Eh : hs = q1 ++ h' :: (mid ++ h :: post)) by (rewrite E, Ep, <- app_assoc; reflexivity).
    apply (hh_inv (fun s => P (ls_dir s)) _ _ _ H2 Hb). intros h0 a0 b0 Hin Hst0 Hp.
    destruct (half_dir_step _ _ _ Hst0) as [(k & ev0 & -> & Hd)|Ed]; [|now rewrite Ed].
    eapply Hnext; [exact Hd|exact Hp| |exact (step_no_panic _ _ _ _ _ Hd)]. intros Hk.
    assert (Hin0 : In (HIdentity k ev0) hs) by (rewrite Eh; apply in_app_iff; right; right; apply in_app_iff; now left). destruct (HO _ Hin0) as [Hk0 _].
    assert (Nn : k <> n) by (intros ->; apply (L ev0); rewrite Ep; apply in_app_iff; right; now right).
    assert (Nk : k <> length (lib_calls tr1)).
    { intros ->. apply (half_twice e tr hs s H (q1 ++ [h']) (mid ++ h :: post) h' (HIdentity (length (lib_calls tr1)) ev0)); [rewrite Eh, <- app_assoc; reflexivity|apply in_app_iff; right; now left|apply in_app_iff; now left|exact A'|].
      now rewrite (reply_acts _ _ B'). }
    destruct (Hno k _ Hk0 Nn Nk Hk) as (r' & [Hr'|[Hr' Hf]]).
    - exfalso. destruct (D' k r' Hr') as (h1 & X & Y & Z). apply (half_twice e tr hs s H q1 (h' :: mid ++ h :: post) h1 (HIdentity k ev0) Eh X); [right; apply in_app_iff; now left|exact Y|now rewrite (reply_acts _ _ Z)].
    - destruct (HR k r' Hr') as (h1 & X & Y & Z). assert (Eq1 : h1 = HIdentity k ev0) by (apply (one_half e tr hs s H); [exact X|exact Hin0|exact Y|now rewrite (reply_acts _ _ Z)]). subst h1.
      cbn [half_reply] in Z. injection Z as <-. exact Hf.
  Qed.
  (** How an identity call goes. *)
  Lemma id_call_acts hs s c0 r0 : lib_acts e tr hs s -> c = OnIdentity c0 -> r = LIdentity r0 ->
    exists x pre post a b, hs = pre ++ HIdentity n (mkSaEvent x c0 r0) :: post /\ half_history lib_empty pre a /\ outside_ok e x /\ sa_step x c0 (ls_dir a) r0 (ls_dir b) /\ forall ev, In (HIdentity n ev) pre -> False.
  Proof.
    intros H -> ->. pose proof H as (HH & ND & HO & _ & HR & _). destruct (HR n (LIdentity r0)) as (h & Hin & A & B); [apply in_app_iff; right; now right|].
    destruct (identity_half e tra trb _ hs s H h n _ _ Hin A B (its_call tra trb _)) as (x & ->). apply in_split in Hin as (pre & post & E). pose proof HH as HH'. rewrite E in HH'.
    apply hh_mid in HH' as (a & b & H1 & (Hs & _) & _). exists x, pre, post, a, b. split; [exact E|]. split; [exact H1|].
    split; [apply (HO (HIdentity n (mkSaEvent x c0 r0))); rewrite E; apply in_app_iff; right; now left|]. split; [exact Hs|].
    intros ev Hev. exact (half_twice e _ hs s H pre (HIdentity n (mkSaEvent x c0 r0) :: post) _ _ E Hev (or_introl eq_refl) eq_refl eq_refl).
  Qed.
  Lemma pw_shown x k d q d' uid pw : outside_ok e x -> sa_step x k d q d' -> shows_password uid pw (OnIdentity k) (LIdentity q) -> knows_pw uid pw d'.
  Proof.
    intros (_ & _ & _ & Hh) H K. destruct k; cbn [shows_password] in K; try contradiction; destruct q as [y|y|]; try contradiction; destruct y; try contradiction; destruct K as [-> ->]; cbn [sa_step] in H.
    - destruct H as [(_ & [=] & _)|(b & raw & salt & s & _ & _ & _ & _ & H)]. cbn zeta in H. destruct (d_users d !! _); destruct H as [E ->]; [discriminate|]. injection E as <- <-.
      eexists. cbn [d_users set_users]. rewrite lookup_insert. split; [reflexivity|]. cbn [ac_salt ac_hash]. now rewrite Hh.
    - destruct (d_users d !! uid) as [a|] eqn:Ea; [|destruct H as [[=] _]]. destruct H as [(_ & [=] & _)|(Kn & [(_ & [=] & _)|(t & _ & _ & -> & _)])]. exists a. split; [exact Ea|]. rewrite <- Hh. exact Kn.
    - destruct (d_users d !! uid) as [a|] eqn:Ea; [|destruct H as [[=] _]]. destruct H as [(_ & [=] & _)|(_ & [(_ & [[=]|[=]] & _)|(raw & salt & _ & _ & H)])]. cbn zeta in H. destruct H as [E ->]. injection E as <-.
      eexists. cbn [d_users set_users]. rewrite lookup_insert. split; [reflexivity|]. cbn [ac_salt ac_hash]. now rewrite Hh.
  Qed.
  Lemma pw_is uid pw hs s pre h post a : lib_acts e tr hs s -> hs = pre ++ h :: post -> half_call h = n -> (forall ev, In (HIdentity n ev) pre -> False) -> half_history lib_empty pre a ->
    password_is uid pw n tr tra -> knows_pw uid pw (ls_dir a).
  Proof.
    intros H E A L H1 (tr1 & c0 & r0 & Ha & Hs & Hno). destruct c0 as [k|k|k]; try contradiction. destruct r0 as [q|q|q]; [destruct k; contradiction..|].
    eapply dir_stays; [| |exact H|exact E|exact A|exact L|exact H1|exact Ha|exact Hno]; [intros x d d' O _ St; eapply pw_shown; eauto|intros *; apply step_pw].
  Qed.
  Lemma member_shown x k d q d' uid g : unique d -> sa_step x k d q d' -> shows_member uid g (OnIdentity k) (LIdentity q) -> in_group uid g d'.
  Proof.
    intros U H K. destruct k; cbn [shows_member] in K; try contradiction; destruct q as [y|y|]; try contradiction; destruct y; try contradiction; cbn [sa_step] in H.
    - destruct K as [-> K]. destruct H as [(i & _ & [(_ & [=] & _)|(_ & H)])|(y & _ & [=] & _)]. destruct (d_users d !! uid) as [a|]; [|destruct H as [[=] _]]. destruct H as [(_ & [=] & _)|(_ & ->)].
      eexists. cbn [d_users set_users]. rewrite lookup_insert. split; [reflexivity|]. cbn [ac_groups]. rewrite elem_of_union, elem_of_list_to_set, elem_of_list_In. now right.
    - destruct K as [Ki [sc K]]. destruct H as (q & Hq & E & ->). destruct q as [j|?|]; try discriminate E. injection E as <-. destruct Hq as [(u & y & _ & _ & X)|[_ [=]]].
      destruct (d_users d !! u) as [a|] eqn:Ea; [|discriminate]. destruct X as [(j & (D1 & D2 & D3 & D4) & [= <-])|(g0 & _ & _ & [=])]. exists a. split; [congruence|]. now apply D4 in K as [K _].
  Qed.
  Lemma may_shown x tok d i d' uid g need sc : sa_step x (SGetIdentity tok) d (Ok (SRIdentity i)) d' -> i_id i = uid -> scope_has (i_scopes i) need -> i_groups i !! g = Some sc -> scope_has sc need -> may uid g need d'.
  Proof.
    intros H Ki Hn K Hs. cbn [sa_step] in H. destruct H as (q & Hq & E & ->). destruct q as [j|?|]; try discriminate E. injection E as <-. destruct Hq as [(u & y & _ & _ & X)|[_ [=]]].
    destruct (d_users d !! u) as [a|] eqn:Ea; [|discriminate]. destruct X as [(j & (D1 & D2 & D3 & D4) & [= <-])|(g0 & _ & _ & [=])]. exists a, sc. split; [congruence|]. split; [now rewrite <- D2|].
    apply D4 in K as [K1 K2]. auto.
  Qed.
  Lemma is_member uid g hs s pre h post a : lib_acts e tr hs s -> hs = pre ++ h :: post -> half_call h = n -> (forall ev, In (HIdentity n ev) pre -> False) -> half_history lib_empty pre a ->
    member_of uid g n tr tra -> in_group uid g (ls_dir a).
  Proof.
    intros H E A L H1 (tr1 & c0 & r0 & Ha & Hs & Hno). destruct c0 as [k|k|k]; try contradiction. destruct r0 as [q|q|q]; [destruct k; contradiction..|].
    eapply dir_stays; [| |exact H|exact E|exact A|exact L|exact H1|exact Ha|exact Hno]; [intros x d d' _ U St; eapply member_shown; eauto|intros *; apply step_in].
  Qed.
  Lemma is_entitled uid g need hs s pre h post a : lib_acts e tr hs s -> hs = pre ++ h :: post -> half_call h = n -> (forall ev, In (HIdentity n ev) pre -> False) -> half_history lib_empty pre a ->
    entitled uid g need n tr tra -> may uid g need (ls_dir a).
  Proof.
    intros H E A L H1 (tr1 & tok & i & sc & Ha & Hi & Hn & Hg & Hs & Hno).
    eapply dir_stays; [| |exact H|exact E|exact A|exact L|exact H1|exact Ha|exact Hno]; [intros x d d' _ U St; eapply may_shown; eauto|intros *; apply step_may].
  Qed.

  Lemma login_right uid pw r0 : c = OnIdentity (SLogin uid pw) -> r = LIdentity r0 -> password_is uid pw n tr tra ->
    (forall i m, draw e i m <> Err ERandom) -> (forall m, time_text (time_add (clock e m) 3600) <> None) -> exists t x, r0 = Ok (SRToken t x).
  Proof.
    intros Ec Er Hp Hd Ht. destruct acts as (hs & s & H). destruct (id_call_acts hs s _ r0 H Ec Er) as (x & pre & post & a & b & E & H1 & (On & _ & Of & Oh) & St & L).
    destruct (pw_is uid pw hs s pre _ post a H E eq_refl L H1 Hp) as (ac & Ea & Kn). cbn [sa_step] in St. rewrite Ea in St. destruct St as [(N & _)|(_ & [([F|F] & _)|(t & _ & St & _)])].
    - destruct N. unfold knows. now rewrite Oh.
    - destruct (Of F) as (i & m & Z). destruct (Hd _ _ Z).
    - destruct On as [m En]. rewrite En in F. destruct (Ht _ F).
    - eauto.
  Qed.
  Lemma login_wrong uid pw pw' r0 : c = OnIdentity (SLogin uid pw') \/ c = OnIdentity (SChangePassword uid pw') -> r = LIdentity r0 -> password_is uid pw n tr tra ->
    (forall salt, pwhash e pw' salt <> pwhash e pw salt) -> r0 = Err EIdNotAuthenticated.
  Proof.
    intros Ec Er Hp Hd. destruct acts as (hs & s & H). destruct Ec as [Ec|Ec]; destruct (id_call_acts hs s _ r0 H Ec Er) as (x & pre & post & a & b & E & H1 & (_ & _ & _ & Oh) & St & L);
      destruct (pw_is uid pw hs s pre _ post a H E eq_refl L H1 Hp) as (ac & Ea & Kn); cbn [sa_step] in St; rewrite Ea in St; (destruct St as [(_ & St & _)|(K & _)]; [exact St|]);
      exfalso; unfold knows in K; rewrite Oh, <- Kn in K; exact (Hd _ K).
  Qed.
  Lemma member_seen uid g tok r0 : c = OnIdentity (SGetIdentity tok) -> r = LIdentity r0 -> logged_in uid tok tra -> member_of uid g n tr tra ->
    (exists i, r0 = Ok (SRIdentity i) /\ i_id i = uid /\ is_Some (i_groups i !! g)) \/ r0 = Err EIdNotAuthenticated \/ r0 = Err EIdGroupNotFound.
  Proof.
    intros Ec Er Hl Hm. destruct acts as (hs & s & H). destruct (id_call_acts hs s _ r0 H Ec Er) as (x & pre & post & a & b & E & H1 & _ & St & L).
    destruct (is_member uid g hs s pre _ post a H E eq_refl L H1 Hm) as (ac & Ea & Hg). destruct (has_token e tra trb c hs s H pre _ post E eq_refl a H1 uid tok Hl) as (exp & Hy).
    destruct St as (q & [(u & y & A & _ & X)|[_ ->]] & -> & _); [|cbn; auto]. destruct (half_unique _ _ H1 _ _ _ _ _ Hy A) as [<- <-]. rewrite Ea in X.
    destruct X as [(i & (D1 & D2 & D3 & D4) & ->)|(g0 & _ & _ & ->)]; [|cbn; auto]. left. exists i. split; [reflexivity|]. split; [exact D1|]. destruct (D3 g Hg) as [sc Hsc]. exists sc. apply D4. auto.
  Qed.
  Lemma allowed uid g tok oid c0 r0 : c = OnObject c0 -> r = LObject r0 -> call_token c0 = Some tok -> call_oid c0 = Some oid -> logged_in uid tok tra ->
    entitled uid g (call_need c0) n tr tra -> group_on oid g n tr tra -> (exists y, r0 = Ok y) \/ r0 = Err ED1NotAuthenticated \/ r0 = Err ERandom.
  Proof.
    intros Ec Er Ht Ho Hl Hen Hon. pose proof acts as (hs & s & H). destruct (call_looks_up e tra trb c r acts Hr hs s tok H ltac:(rewrite Ec; exact Ht)) as (h & pre & post & E & A & B & C).
    destruct h as [m ev|m x t w|m ev|m ev]; cbn [half_reply] in B; [destruct C as (_ & c1 & C); congruence|contradiction| |destruct C; congruence].
    destruct C as (C & x & p1 & p2 & E0). assert (Eev : ev_call ev = c0) by congruence. rewrite Er in B. injection B as B. clear C.
    pose proof (no_panic e tra trb c hs s pre _ post x tok _ p1 p2 H E E0) as NP.
    pose proof H as (HH & _ & HO & _). pose proof HH as HH'. rewrite E in HH. apply hh_mid in HH as (a & b & H1 & (St & _) & _). rewrite Eev, B in St.
    destruct (is_on e tra trb c oid g hs s pre _ post a H E A eq_refl H1 Hon) as (o & acl & Ob & Hg).
    pose proof (step_decided _ _ _ _ _ oid o acl St Ho Ob) as Hd.
    rewrite E, E0, <- app_assoc in HH'. cbn [app] in HH'. apply hh_mid in HH' as (a1 & b1 & H2 & (Hq & _) & _). set (who := o_who (ev_outside ev)) in *.
    assert (E1 : hs = p1 ++ HLookup n x tok who :: (p2 ++ HObject m ev :: post)) by (rewrite E, E0, <- app_assoc; reflexivity).
    destruct (has_token e tra trb c hs s H p1 _ _ E1 eq_refl a1 H2 uid tok Hl) as (exp & Hy). destruct who as [i|z|]; [|right; left; apply Hd|destruct (NP eq_refl)].
    destruct Hd as [(_ & _ & [Q|[_ Q]])|(Nn & _)]; [auto|auto|exfalso].
    assert (L : forall ev0, In (HIdentity n ev0) p1 -> False).
    { intros ev0 Hin. destruct (HO (HIdentity n ev0)) as [Hn _]; [rewrite E1; apply in_app_iff; now left|]. rewrite its_call, Ec in Hn. discriminate. }
    destruct (is_entitled uid g (call_need c0) hs s p1 _ _ a1 H E1 eq_refl L H2 Hen) as (ac & sc & Ea & Hn & Hin & Hsc & Hs).
    destruct (who_of _ _ _ _ _ _ (half_unique _ _ H2) Hy Hq) as (ac' & Ea' & (D1 & D2 & D3 & D4) & _). assert (ac' = ac) by congruence. subst ac'.
    apply Nn. split; [now rewrite D2|]. right. exists g, sc. split; [apply D4; auto|]. auto.
  Qed.
  Lemma shared_read uid g tok oid o r0 : c = OnObject (CDecrypt tok oid) -> r = LObject r0 -> logged_in uid tok tra ->
    entitled uid g ScopeDecrypt n tr tra -> group_on oid g n tr tra -> object_stored oid o tr tra -> r0 = Ok (RObject o) \/ r0 = Err ED1NotAuthenticated.
  Proof.
    intros Ec Er Hl Hen Hon Hst. destruct (decrypt_reads e tra trb c r acts Hr tok oid o r0 Ec Er Hst) as [Q|[Q|Q]]; [auto..|].
    destruct (allowed uid g tok oid _ r0 Ec Er eq_refl eq_refl Hl Hen Hon) as [(y & K)|[K|K]]; congruence.
  Qed.
End Cor.
