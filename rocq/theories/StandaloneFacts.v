(** Lemmas behind the property theorems about the Standalone provider. *)
From Coq Require Import ZifyN ZifyNat.
From stdpp Require Import gmap.
From Verif Require Import Bytes Base64 Go Uuid UuidProofs Time Types World Logic Cryptor Io IoSpec IoProofs Id Data D1 D1Proofs Sched Password Standalone Spec StandaloneSpec
  WpcFacts TokenFacts StandaloneProofs StandaloneRefine StandaloneHist Demo.
Local Open Scope bool_scope.
Local Open Scope N_scope.

(** The event does not replace the password of [uid], nor remove [uid]. *)
Definition leaves_password (uid : bytes) (ev : sa_event) : Prop :=
  match sv_call ev, sv_reply ev with
  | SChangePassword uid' _, Ok _ => uid' <> uid
  | SDeleteUser _ uid', Ok _ => uid' <> uid
  | _, _ => True
  end.
Definition same_login (a a' : account) : Prop := ac_salt a' = ac_salt a /\ ac_hash a' = ac_hash a.

Lemma other_user {A} (m : gmap bytes A) uid uid' a b : uid' <> uid -> m !! uid = Some a -> <[uid' := b]> m !! uid = Some a.
Proof. intros N H. now rewrite lookup_insert_ne. Qed.

Lemma password_step ev d d' uid a : sa_step (sv_x ev) (sv_call ev) d (sv_reply ev) d' -> leaves_password uid ev -> d_users d !! uid = Some a ->
  exists a', d_users d' !! uid = Some a' /\ same_login a a'.
Proof.
  intros St L Ha. unfold leaves_password in L. destruct ev as [x c r]. cbn [sv_x sv_call sv_reply] in *.
  assert (SAME : d' = d -> exists a', d_users d' !! uid = Some a' /\ same_login a a') by (intros ->; exists a; split; [exact Ha|split; reflexivity]).
  assert (INS : forall uid' b d0, (uid' = uid -> same_login a b) -> d_users d0 = <[uid' := b]> (d_users d) -> exists a', d_users d0 !! uid = Some a' /\ same_login a a').
  { intros uid' b d0 Hb ->. destruct (decide (uid' = uid)) as [->|N]; [exists b; split; [apply lookup_insert|auto]|].
    exists a. split; [now apply other_user|split; reflexivity]. }
  assert (C : forall tok (body : identity -> Prop), (forall i, body i -> exists a', d_users d' !! uid = Some a' /\ same_login a a') -> as_caller x tok d r d' body -> exists a', d_users d' !! uid = Some a' /\ same_login a a').
  { intros tok body Hb [(i & _ & H)|(y & _ & _ & E)]; eauto. }
  assert (M : forall tok uid' gids f, change_membership x tok uid' gids f d r d' -> exists a', d_users d' !! uid = Some a' /\ same_login a a').
  { intros tok uid' gids f. apply C. intros i [(_ & _ & E)|(_ & H)]; [auto|]. destruct (d_users d !! uid') as [b|] eqn:Eb; [|destruct H; auto].
    destruct H as [(_ & _ & E)|(_ & ->)]; [auto|]. eapply INS; [|reflexivity]. intros ->. rewrite Ha in Eb. injection Eb as <-. split; reflexivity. }
  destruct c; cbn [sa_step] in St; cbn zeta in St.
  - destruct St as [(_ & _ & E)|(b & raw & salt & s & _ & _ & _ & _ & H)]; [auto|].
    destruct (d_users d !! uuid_text (uuid_v4 b)) eqn:Eu; destruct H as [_ E]; [auto|]. rewrite E. eapply INS; [|reflexivity]. intros X. congruence.
  - destruct (d_users d !! uid0); [|destruct St; auto].
    destruct St as [(_ & _ & E)|(_ & [(_ & _ & E)|(s & _ & _ & -> & _)])]; [auto|auto|]. exists a. split; [exact Ha|split; reflexivity].
  - destruct (d_users d !! uid0) as [b|]; [|destruct St; auto].
    destruct St as [(_ & _ & E)|(_ & [(_ & _ & E)|(raw & salt & _ & _ & -> & ->)])]; [auto|auto|]. eapply INS; [|reflexivity]. contradiction.
  - eapply M, St.
  - eapply M, St.
  - revert St. apply C. intros i [-> ->]. exists a. split; [|split; reflexivity]. cbn [d_users set_users]. now rewrite lookup_delete_ne.
  - revert St. apply C. intros i [(_ & _ & _ & E)|[(_ & _ & _ & b & s & _ & _ & _ & ->)|(b & s & _ & _ & H)]]; [auto|exists a; split; [exact Ha|split; reflexivity]|].
    destruct (d_groups d !! _); [destruct H; auto|]. destruct H as (a1 & E1 & _ & ->). eapply INS; [|reflexivity].
    intros E. rewrite E, Ha in E1. injection E1 as <-. split; reflexivity.
  - destruct St as (q & _ & _ & E). auto.
Qed.
Lemma password_history d evs d' uid a : sa_history d evs d' -> Forall (leaves_password uid) evs -> d_users d !! uid = Some a ->
  exists a', d_users d' !! uid = Some a' /\ same_login a a'.
Proof.
  intros H. revert a. induction H as [d|d ev d1 evs d2 St _ IH]; intros a L Ha; [exists a; split; [exact Ha|split; reflexivity]|].
  apply List.Forall_cons_iff in L as [L1 L2]. destruct (password_step _ _ _ _ _ St L1 Ha) as (a1 & H1 & S1).
  destruct (IH _ L2 H1) as (a2 & H2 & S2). exists a2. split; [exact H2|]. destruct S1, S2. split; congruence.
Qed.

Section Facts.
  Context {S I : Type} (e : env) (v : view S) (io : provider S) (k : sa_keys).
  Context (Hio : io_spec False v io) (Hc : forall n, time_wf (clock e n)).
  Notation observed := (@observed S I e v io k).
  Notation obs_step := (obs_step e v io k Hio Hc).
  Notation obs_hash := (obs_hash e v io k).

  (** Changing a password. *)
  Lemma change_effect evs1 ev evs2 d d' uid old : observed (evs1 ++ ev :: evs2) -> sv_call ev = SChangePassword uid old ->
    sa_history dir_empty evs1 d -> sa_history dir_empty (evs1 ++ [ev]) d' ->
    (forall x, sv_reply ev = Ok x -> exists a pw salt,
       x = SRPassword pw /\ d_users d !! uid = Some a /\ pwhash e old (ac_salt a) = ac_hash a /\
       d' = set_users d (<[uid := mkAccount (ac_scopes a) salt (pwhash e pw salt) (ac_groups a)]> (d_users d))) /\
    ((forall x, sv_reply ev <> Ok x) -> d' = d) /\
    (forall a, d_users d !! uid = Some a -> pwhash e old (ac_salt a) <> ac_hash a -> sv_reply ev = Err EIdNotAuthenticated).
  Proof.
    intros H Ec Hd Hd'. assert (Hh : x_hash (sv_x ev) = pwhash e) by (eapply obs_hash; [exact H|]; apply in_or_app; right; now left).
    destruct (obs_step _ _ _ _ H Hd) as (d1 & St & _).
    assert (E : d1 = d').
    { eapply history_next; [apply unique_empty| |exact Hd']. apply sh_app. exists d. split; [exact Hd|]. now apply sh_one. }
    subst d1. rewrite Ec in St. cbn [sa_step] in St. unfold knows in St. rewrite Hh in St. cbn zeta in St.
    destruct (d_users d !! uid) as [a|].
    2:{ destruct St as [-> ->]. split; [discriminate|]. split; [reflexivity|]. discriminate. }
    destruct St as [(N & -> & ->)|(K & [(X & Er & ->)|(raw & salt & _ & _ & -> & ->)])].
    - split; [discriminate|]. split; [reflexivity|]. reflexivity.
    - split; [destruct Er as [-> | ->]; discriminate|]. split; [reflexivity|]. intros a' E N. injection E as <-. contradiction.
    - split; [|split].
      + intros x E. injection E as <-. exists a, (b64url_encode raw), salt. auto.
      + intros N. destruct (N _ eq_refl).
      + intros a' E N. injection E as <-. contradiction.
  Qed.
  Lemma change_then_login evs1 ch evs2 lg evs3 uid old pw pw' :
    observed (evs1 ++ ch :: evs2 ++ lg :: evs3) ->
    sv_call ch = SChangePassword uid old -> sv_reply ch = Ok (SRPassword pw) ->
    Forall (leaves_password uid) evs2 -> sv_call lg = SLogin uid pw' ->
    exists salt,
      ((exists tok t, sv_reply lg = Ok (SRToken tok t)) -> pwhash e pw' salt = pwhash e pw salt) /\
      (pwhash e pw' salt = pwhash e pw salt -> ~ mishap lg -> exists tok t, sv_reply lg = Ok (SRToken tok t)).
  Proof.
    intros H Ec Er L El. destruct (obs_history e v io k Hio Hc _ H) as (dn & Hn).
    apply sh_mid in Hn as (d0 & d1 & H0 & S1 & H1). apply sh_mid in H1 as (d2 & d3 & H2 & S3 & _).
    assert (Hd1 : sa_history dir_empty (evs1 ++ [ch]) d1) by (apply sh_app; exists d0; split; [exact H0|]; now apply sh_one).
    destruct (change_effect _ _ _ _ _ _ _ H Ec H0 Hd1) as (X & _). destruct (X _ Er) as (a & pw1 & salt & E & Eu & _ & Ed). injection E as <-.
    exists salt. set (a1 := mkAccount (ac_scopes a) salt (pwhash e pw salt) (ac_groups a)) in *.
    assert (Ea1 : d_users d1 !! uid = Some a1) by (rewrite Ed; cbn [d_users set_users]; apply lookup_insert).
    destruct (password_history _ _ _ _ _ H2 L Ea1) as (a2 & Ea2 & Q1 & Q2). cbn [ac_salt ac_hash a1] in Q1, Q2.
    replace (evs1 ++ ch :: evs2 ++ lg :: evs3) with ((evs1 ++ ch :: evs2) ++ lg :: evs3) in H by (now rewrite <- app_assoc).
    assert (Hd2 : sa_history dir_empty (evs1 ++ ch :: evs2) d2) by (apply sh_app; exists d0; split; [exact H0|]; econstructor; eauto).
    destruct (login_exact e v io k Hio Hc _ _ _ _ _ _ H Hd2 El) as (A & B & _). split.
    - intros Hok. destruct (A Hok) as (a3 & E3 & K3). rewrite Ea2 in E3. injection E3 as <-. congruence.
    - intros Hk M. destruct (B a2 Ea2) as (tok & E); [congruence|exact M|eauto].
  Qed.

  (** Changing the groups of a user. *)
  Definition membership_call (c : sa_call) (tok uid : bytes) (gids : list bytes) : Prop :=
    c = SAddUser tok uid gids \/ c = SRemoveUser tok uid gids.
  Lemma membership_by_members evs1 ev evs2 d d' tok uid gids : observed (evs1 ++ ev :: evs2) -> membership_call (sv_call ev) tok uid gids ->
    sa_history dir_empty evs1 d -> sa_history dir_empty (evs1 ++ [ev]) d' ->
    (forall x, sv_reply ev = Ok x -> exists caller exp ac a,
       says d tok caller exp /\ (nanos (x_now (sv_x ev)) <= nanos exp)%Z /\ d_users d !! caller = Some ac /\
       (forall g, In g gids -> g = caller \/ (g ∈ ac_groups ac /\ is_Some (d_groups d !! g))) /\
       d_users d !! uid = Some a /\
       exists gs, d' = set_users d (<[uid := mkAccount (ac_scopes a) (ac_salt a) (ac_hash a) gs]> (d_users d)) /\
         forall g, g ∈ gs <-> match sv_call ev with SAddUser _ _ _ => g ∈ ac_groups a \/ In g gids | _ => g ∈ ac_groups a /\ ~ In g gids end) /\
    ((forall x, sv_reply ev <> Ok x) -> d' = d).
  Proof.
    intros H Hm Hd Hd'. destruct (obs_step _ _ _ _ H Hd) as (d1 & St & _).
    assert (E : d1 = d').
    { eapply history_next; [apply unique_empty| |exact Hd']. apply sh_app. exists d. split; [exact Hd|]. now apply sh_one. }
    subst d1.
    assert (M : forall f, change_membership (sv_x ev) tok uid gids f d (sv_reply ev) d' ->
      (forall x, sv_reply ev = Ok x -> exists caller exp ac a,
       says d tok caller exp /\ (nanos (x_now (sv_x ev)) <= nanos exp)%Z /\ d_users d !! caller = Some ac /\
       (forall g, In g gids -> g = caller \/ (g ∈ ac_groups ac /\ is_Some (d_groups d !! g))) /\
       d_users d !! uid = Some a /\
       d' = set_users d (<[uid := mkAccount (ac_scopes a) (ac_salt a) (ac_hash a) (f (ac_groups a))]> (d_users d))) /\
      ((forall x, sv_reply ev <> Ok x) -> d' = d)).
    { intros f [(i & Rs & B)|(y & _ & -> & ->)]; [|split; [discriminate|reflexivity]].
      destruct B as [(_ & -> & ->)|(Hh & B)]; [split; [discriminate|reflexivity]|].
      destruct (d_users d !! uid) as [a|] eqn:Eu; [|destruct B as [-> ->]; split; [discriminate|reflexivity]].
      destruct B as [(_ & -> & ->)|(-> & ->)]; [split; [discriminate|reflexivity]|].
      split; [|intros N; destruct (N _ eq_refl)]. intros x _.
      destruct Rs as [(u & xp & Sy & L & Cs)|[_ Q]]; [|discriminate].
      destruct (d_users d !! u) as [ac|] eqn:Ea; [|discriminate]. destruct Cs as [(j & D & Q)|(g & _ & _ & Q)]; [|discriminate]. injection Q as <-.
      exists u, xp, ac, a. split; [exact Sy|]. split; [exact L|]. split; [exact Ea|]. split; [|auto].
      destruct D as (D1 & _ & _ & D4). intros g Hg. destruct (Hh g Hg) as [X|[s X]]; [left; congruence|]. right. apply D4 in X as [X1 X2]. eauto. }
    destruct Hm as [Em|Em]; rewrite Em in St |- *; cbn [sa_step] in St; apply M in St as [A B]; (split; [|exact B]); intros x Ex;
      destruct (A x Ex) as (u & xp & ac & a & A1 & A2 & A3 & A4 & A5 & A6); exists u, xp, ac, a;
      (split; [exact A1|]); (split; [exact A2|]); (split; [exact A3|]); (split; [exact A4|]); (split; [exact A5|]); eexists; (split; [exact A6|]);
      intros g; [rewrite elem_of_union, elem_of_list_to_set, elem_of_list_In|rewrite elem_of_difference, elem_of_list_to_set, elem_of_list_In]; reflexivity.
  Qed.

  (** Scopes of new users and groups. *)
  Lemma new_user_scopes evs1 ev evs2 d d' scopes uid pw : observed (evs1 ++ ev :: evs2) -> sv_call ev = SNewUser scopes -> sv_reply ev = Ok (SRUser uid pw) ->
    sa_history dir_empty evs1 d -> sa_history dir_empty (evs1 ++ [ev]) d' ->
    d_users d !! uid = None /\ exists a, d' = set_users d (<[uid := a]> (d_users d)) /\ all_of scopes (ac_scopes a) /\ ac_groups a = ∅ /\
      pwhash e pw (ac_salt a) = ac_hash a.
  Proof.
    intros H Ec Er Hd Hd'. assert (Hh : x_hash (sv_x ev) = pwhash e) by (eapply obs_hash; [exact H|]; apply in_or_app; right; now left).
    destruct (obs_step _ _ _ _ H Hd) as (d1 & St & _).
    assert (E : d1 = d').
    { eapply history_next; [apply unique_empty| |exact Hd']. apply sh_app. exists d. split; [exact Hd|]. now apply sh_one. }
    subst d1. rewrite Ec, Er in St. cbn [sa_step] in St. cbn zeta in St. rewrite Hh in St.
    destruct St as [(_ & X & _)|(b & raw & salt & s & _ & _ & _ & A & B)]; [discriminate|].
    destruct (d_users d !! uuid_text (uuid_v4 b)) eqn:Eu; destruct B as [X ->]; [discriminate|]. injection X as -> ->.
    split; [exact Eu|]. eexists. split; [reflexivity|]. auto.
  Qed.
  Lemma new_group_scopes evs1 ev evs2 d d' tok scopes gid : observed (evs1 ++ ev :: evs2) -> sv_call ev = SNewGroup tok scopes -> sv_reply ev = Ok (SRGroup gid) ->
    sa_history dir_empty evs1 d -> sa_history dir_empty (evs1 ++ [ev]) d' ->
    d_groups d !! gid = None /\ exists s, d_groups d' = <[gid := s]> (d_groups d) /\ all_of scopes s.
  Proof.
    intros H Ec Er Hd Hd'. destruct (obs_step _ _ _ _ H Hd) as (d1 & St & _).
    assert (E : d1 = d').
    { eapply history_next; [apply unique_empty| |exact Hd']. apply sh_app. exists d. split; [exact Hd|]. now apply sh_one. }
    subst d1. rewrite Ec, Er in St. cbn [sa_step] in St. cbn zeta in St.
    destruct St as [(i & _ & B)|(y & _ & X & _)]; [|discriminate].
    destruct B as [(_ & X & _)|[(_ & X & _)|(b & s & _ & A & B)]]; [discriminate..|].
    destruct (d_groups d !! uuid_text (uuid_v4 b)) eqn:Eg; [destruct B; discriminate|]. destruct B as (a & _ & X & ->). injection X as ->.
    split; [exact Eg|]. exists s. auto.
  Qed.

  (** No lockout when the named groups exist. *)
  Lemma groups_exist_no_lockout evs1 gi1 ad gi2 evs2 d tok tok' uid gids i : observed (evs1 ++ gi1 :: ad :: gi2 :: evs2) ->
    sv_call gi1 = SGetIdentity tok -> sv_reply gi1 = Ok (SRIdentity i) -> sv_call ad = SAddUser tok' uid gids -> sv_call gi2 = SGetIdentity tok ->
    sa_history dir_empty evs1 d -> (forall g, In g gids -> is_Some (d_groups d !! g)) ->
    (exists i', sv_reply gi2 = Ok (SRIdentity i') /\ i_id i' = i_id i) \/ sv_reply gi2 = Err EIdNotAuthenticated.
  Proof.
    intros H E1 E2 E3 E4 Hd Hg. destruct (obs_history e v io k Hio Hc _ H) as (dn & Hn).
    apply sh_mid in Hn as (d0 & d1 & H0 & S1 & Hr). rewrite <- (history_next _ _ _ _ unique_empty Hd H0) in S1. clear d0 H0.
    inversion Hr as [|? ? d2 ? ? S2 Hr2]; subst. inversion Hr2 as [|? ? d3 ? ? S3 _]; subst.
    pose proof (obs_unique _ _ Hd) as U. rewrite E1, E2 in S1. destruct S1 as (q & Rq & Eq & ->).
    destruct q as [j| |]; try discriminate. injection Eq as <-.
    destruct Rq as [(u & x & Sy & _ & Cs)|[_ X]]; [|discriminate].
    destruct (d_users d !! u) as [a|] eqn:Ea; [|discriminate]. destruct Cs as [(j & D & X)|(g & _ & _ & X)]; [|discriminate]. injection X as <-.
    pose proof (says_step _ _ _ _ _ _ _ _ S2 Sy) as Sy2. pose proof (unique_step _ _ _ _ _ S2 U) as U2.
    rewrite E4 in S3. destruct S3 as (q & Rq & -> & _).
    assert (G : exists a', d_users d2 !! u = Some a' /\ forall g, g ∈ ac_groups a' -> is_Some (d_groups d2 !! g)).
    { assert (Ga : forall g, g ∈ ac_groups a -> is_Some (d_groups d !! g)). { intros g Hi. destruct D as (_ & _ & D3 & _). destruct (D3 g Hi). eauto. }
      rewrite E3 in S2. destruct S2 as [(ic & _ & B)|(y & _ & _ & ->)]; [|eauto]. destruct B as [(_ & _ & ->)|(_ & B)]; [eauto|].
      destruct (d_users d !! uid) as [b|] eqn:Eb; [|destruct B as [_ ->]; eauto]. destruct B as [(_ & _ & ->)|(_ & ->)]; [eauto|].
      cbn [d_users d_groups set_users]. destruct (decide (uid = u)) as [->|N].
      - exists (mkAccount (ac_scopes b) (ac_salt b) (ac_hash b) (ac_groups b ∪ list_to_set gids)). split; [apply lookup_insert|]. rewrite Ea in Eb. injection Eb as <-.
        cbn [ac_groups]. intros g. rewrite elem_of_union, elem_of_list_to_set, elem_of_list_In. intros [X|X]; auto.
      - exists a. split; [now rewrite lookup_insert_ne|exact Ga]. }
    destruct G as (a' & Ea' & Ga'). destruct Rq as [(u' & x' & Sy' & _ & Cs)|[_ ->]]; [|now right].
    destruct (U2 _ _ _ _ _ Sy2 Sy') as [<- <-]. rewrite Ea' in Cs. destruct Cs as [(j' & D' & ->)|(g & X & Y & _)].
    - left. exists j'. split; [reflexivity|]. destruct D as (-> & _), D' as (-> & _). reflexivity.
    - destruct (Ga' g X). congruence.
  Qed.
End Facts.

(** ** Swapping two stored user records *)
Section Swap.
  Context {S I : Type} (v : view S) (k : sa_keys).
  Notation W := (world S I).
  Notation SU := DataTypeSealedUser.
  (** Storage was rewritten: the records of [a] and [b] are exchanged.  Nothing else happened. *)
  Definition swapped (w w' : W) (a b : bytes) : Prop :=
    v_inv v (w_io w') /\
    seq (v_map v (w_io w')) (upd (upd (v_map v (w_io w)) a SU (v_map v (w_io w) b SU)) b SU (v_map v (w_io w) a SU)) /\
    w_log w' = w_log w /\ w_draws w' = w_draws w /\ w_ticks w' = w_ticks w /\ w_forged w' = w_forged w.
  Lemma swapped_WR fl d (w w' : W) a b x y : WR v k fl d w -> d_users d !! a = Some x -> d_users d !! b = Some y -> swapped w w' a b ->
    WR v k fl (set_users d (<[b := x]> (<[a := y]> (d_users d)))) w'.
  Proof.
    intros (Hf & m & (Hi & Hm) & (R1 & R2) & Hs) Hx Hy (Hi' & Hm' & Hl & _ & _ & Hf').
    split; [congruence|]. exists (v_map v (w_io w')). split; [split; [exact Hi'|intros ? ?; reflexivity]|]. rewrite Hl. split; [|exact Hs].
    pose proof (R1 a) as Ra. rewrite Hx in Ra. destruct Ra as (ba & B1 & B2 & (B3 & B4) & B5). pose proof (R1 b) as Rb. rewrite Hy in Rb. destruct Rb as (bb & C1 & C2 & (C3 & C4) & C5).
    split.
    - intros uid. cbn [d_users set_users]. rewrite Hm'. unfold upd. rewrite N.eqb_refl, !Bool.andb_true_r. destruct (decide (b = uid)) as [<-|Nb].
      { rewrite lookup_insert, (proj2 (bytes_eqb_eq b b) eq_refl). exists ba. split; [rewrite Hm; exact B1|]. split; [exact B2|]. split; [split; assumption|exact B5]. }
      rewrite lookup_insert_ne by exact Nb. destruct (bytes_eqb uid b) eqn:E; [apply bytes_eqb_eq in E; congruence|].
      destruct (decide (a = uid)) as [<-|Na].
      { rewrite lookup_insert, (proj2 (bytes_eqb_eq a a) eq_refl). exists bb. split; [rewrite Hm; exact C1|]. split; [exact C2|]. split; [split; assumption|exact C5]. }
      rewrite lookup_insert_ne by exact Na. destruct (bytes_eqb uid a) eqn:E'; [apply bytes_eqb_eq in E'; congruence|]. rewrite Hm. apply R1.
    - intros gid. cbn [d_groups set_users]. rewrite Hm'. unfold upd. change (DataTypeSealedGroup =? SU) with false. rewrite !Bool.andb_false_r. rewrite Hm. apply R2.
  Qed.
  Lemma swap_login (e : env) (io : provider S) (Hio : io_spec False v io) (Hc : forall n, time_wf (clock e n)) (w0 w w' : W) evs d a b x y pw r w'' :
    sa_fresh v k w0 -> sa_run e io k (sa_elsewhere v k) w0 evs w -> w_forged w = false -> sa_history dir_empty evs d ->
    d_users d !! a = Some x -> d_users d !! b = Some y -> a <> b -> swapped w w' a b ->
    pwhash e pw (ac_salt y) = ac_hash y -> run (sa_aes e io k (SLogin a pw)) w' = (r, w'') -> ~ rng_failed e w'' ->
    time_text (time_add (clock e (w_ticks w')) 3600) <> None ->
    w_forged w'' = false /\ exists tok t, r = Ok (SRToken tok t).
  Proof.
    intros Hf HR Hn Hd Hx Hy Hab Hw Hp Hr Hrng Ht. destruct (refine_fresh e v io Hio k Hc w0 evs w Hf HR Hn) as (d1 & H1 & W1).
    rewrite <- (history_next _ _ _ _ unique_empty Hd H1) in W1. pose proof (swapped_WR false d w w' a b x y W1 Hx Hy Hw) as W2.
    destruct (call_cases e v io Hio k Hc false _ _ _ _ _ (Logic.I : sa_call_wf (SLogin a pw)) W2 Hr) as [[_ []]|(d' & W3 & St)].
    split; [apply W3|]. cbn [sa_step set_users d_users] in St. rewrite lookup_insert_ne, lookup_insert in St by congruence. cbn zeta in St. unfold knows in St. cbn [x_hash x_rng_fails x_now surr] in St.
    destruct St as [(N & _)|(_ & [([X|X] & _)|(s & _ & -> & _)])]; [contradiction..|]. eauto.
  Qed.
End Swap.
