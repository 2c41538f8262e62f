(** Consequences of LibCrashSpec.v: revocation and deletion outlive calls that die and storage that fails. *)
From Coq Require Import ZifyN ZifyNat.
From stdpp Require Import gmap.
From Verif Require Import Bytes Go Uuid Time Types World IoSpec Id D1 D1Proofs Spec Claims Standalone StandaloneSpec StandaloneHist
  Index IndexSpec IndexRefine CrashSpec CrashFacts Lib LibSpec LibCor LibCrashSpec.
Local Open Scope N_scope.

Lemma lx_app hs1 : forall a hs2 b, lib_xhistory a (hs1 ++ hs2) b -> exists m, lib_xhistory a hs1 m /\ lib_xhistory m hs2 b.
Proof.
  induction hs1 as [|h hs1 IH]; intros a hs2 b H; cbn [app] in H.
  - exists a. split; [constructor|exact H].
  - inversion H as [|? ? s1 ? ? Hs Hr]; subst. apply IH in Hr as (m & H1 & H2). exists m. split; [econstructor; eauto|exact H2].
Qed.
Lemma lx_mid a hs1 h hs2 b : lib_xhistory a (hs1 ++ h :: hs2) b ->
  exists s s', lib_xhistory a hs1 s /\ lib_x_step h s s' /\ lib_xhistory s' hs2 b.
Proof. intros H. apply lx_app in H as (m & H1 & H2). inversion H2 as [|? ? s1 ? ? Hs Hr]; subst. eauto. Qed.

(** ** The directory *)
(** A step leaves the directory as it is, does what an identity call does that gets one of the replies [r],
    or makes an empty group. *)
Lemma x_dir h s s' : lib_x_step h s s' ->
  lx_dir s' = lx_dir s \/
  exists c, lh_call h = OnIdentity c /\
    ((exists r, sa_step (lh_x h) c (lx_dir s) r (lx_dir s') /\ forall odd ev q, h = LDone odd ev -> lv_reply ev = LIdentity (Ok q) -> r = Ok q) \/
     (exists tok scopes gid g, c = SNewGroup tok scopes /\ lx_dir s' = set_groups (lx_dir s) (<[gid := g]> (d_groups (lx_dir s))) /\
        forall odd ev q, h = LDone odd ev -> lv_reply ev <> LIdentity (Ok q))).
Proof.
  assert (CUT : forall x c d d', sa_cut x c d d' -> d' = d \/ (exists r, sa_step x c d r d') \/
    (exists tok scopes gid g, c = SNewGroup tok scopes /\ d' = set_groups d (<[gid := g]> (d_groups d)))).
  { intros x c d0 d' [->|[[r H]|(tok & sc & b & z & i & -> & _ & _ & _ & _ & ->)]]; [auto|right; left; eauto|right; right; eauto 10]. }
  destruct h as [odd ev|x c]; cbn [lib_x_step lh_call lh_x].
  - destruct (lv_call ev) as [c|c|c], (lv_reply ev) as [r|r|r] eqn:Er; try contradiction.
    + intros (who & _ & _ & E & _). now left.
    + intros (who & _ & _ & E & _). now left.
    + intros (H & _). cbn [sa_happens sv_x sv_call sv_reply] in H. destruct H as [H|(_ & (y & ->) & H)].
      * right. exists c. split; [reflexivity|]. left. exists r. split; [exact H|]. intros odd' ev' q [= _ <-] Hq. congruence.
      * destruct (CUT _ _ _ _ H) as [E|[[q E]|(tok & sc & gid & g & -> & E)]]; [now left|right; exists c; split; [reflexivity|]; left|right; eexists; split; [reflexivity|]; right].
        -- exists q. split; [exact E|]. intros odd' ev' q' [= _ <-] Hq. congruence.
        -- exists tok, sc, gid, g. split; [reflexivity|]. split; [exact E|]. intros odd' ev' q' [= _ <-] Hq. congruence.
  - destruct c as [c|c|c]; [intros (who & _ & _ & E & _); now left|intros (who & _ & _ & E & _); now left|].
    intros (H & _). destruct (CUT _ _ _ _ H) as [E|[[q E]|(tok & sc & gid & g & -> & E)]]; [now left|right; exists c; split; [reflexivity|]; left|right; eexists; split; [reflexivity|]; right].
    + exists q. split; [exact E|]. intros odd' ev' q' [=].
    + exists tok, sc, gid, g. split; [reflexivity|]. split; [exact E|]. intros odd' ev' q' [=].
Qed.
Lemma x_says_step h s s' tok u xp : lib_x_step h s s' -> says (lx_dir s) tok u xp -> says (lx_dir s') tok u xp.
Proof.
  intros H Hs. destruct (x_dir h s s' H) as [->|(c & _ & [(r & E & _)|(t & sc & gid & g & _ & -> & _)])]; [exact Hs|eapply says_step; eauto|exact Hs].
Qed.
Lemma x_says s hs s' tok u xp : lib_xhistory s hs s' -> says (lx_dir s) tok u xp -> says (lx_dir s') tok u xp.
Proof. intros H. induction H as [|s h s1 hs s2 Hs _ IH]; [auto|]. intros A. apply IH. eapply x_says_step; eauto. Qed.
Lemma x_unique s hs s' : lib_xhistory s hs s' -> unique (lx_dir s) -> unique (lx_dir s').
Proof.
  intros H. induction H as [|s h s1 hs s2 Hs _ IH]; [auto|]. intros U. apply IH.
  destruct (x_dir h s s1 Hs) as [->|(c & _ & [(r & E & _)|(t & sc & gid & g & _ & -> & _)])]; [exact U|eapply unique_step; eauto|exact U].
Qed.
(** A reply of an identity call that succeeded tells what happened. *)
Lemma x_answered odd ev c r s s' : lib_x_step (LDone odd ev) s s' -> lv_call ev = OnIdentity c -> lv_reply ev = LIdentity (Ok r) ->
  sa_step (lv_x ev) c (lx_dir s) (Ok r) (lx_dir s').
Proof.
  cbn [lib_x_step]. intros H Ec Er. rewrite Ec, Er in H. destruct H as [H _]. cbn [sa_happens sv_x sv_call sv_reply] in H.
  destruct H as [H|(_ & (y & [=]) & _)]. exact H.
Qed.
Lemma x_token_says uid tok hs s : x_token_of uid tok hs -> lib_xhistory lib_x_empty hs s -> exists exp, says (lx_dir s) tok uid exp.
Proof.
  intros (odd & ev & pw & t & n & Hin & Hc & Hr & Ht) H. apply in_split in Hin as (pre & post & ->).
  apply lx_mid in H as (s1 & s2 & _ & Hs & H2). pose proof (x_answered _ _ _ _ _ _ Hs Hc Hr) as E.
  destruct (step_sessions _ _ _ _ _ E) as [Es|(uid' & pw' & t' & [= <- <-] & [= <- _] & _ & Hn)].
  - exfalso. cbn [sa_step] in E. destruct (d_users (lx_dir s1) !! uid); [|destruct E as [[=] _]].
    destruct E as [(_ & [=] & _)|(_ & [(_ & [=] & _)|(t' & _ & [= <- _] & E' & _)])].
    rewrite E' in Es. cbn [d_sessions add_session] in Es. apply (f_equal length) in Es. cbn in Es. lia.
  - exists (time_add (x_now (lv_x ev)) 3600). eapply x_says; [exact H2|]. eapply says_same; [apply Hn; auto|exact Ht].
Qed.

(** ** Membership *)
Lemma x_outside_step uid g h s s' : lib_x_step h s s' -> ~ may_join uid g h -> outside_group uid g (lx_dir s) -> outside_group uid g (lx_dir s').
Proof.
  intros H Hj Ho. destruct (x_dir h s s' H) as [->|(c & Ec & [(r & E & _)|(t & sc & gid & z & _ & -> & _)])]; [exact Ho| |exact Ho].
  eapply step_outside; [exact E| |exact Ho]. unfold may_join in Hj. rewrite Ec in Hj. unfold joins_dir.
  destruct c; try tauto; destruct r as [[]|y|]; try tauto.
  intros <-. apply Hj. cbn [sa_step] in E. destruct E as [(i & _ & [(_ & [=] & _)|[(_ & [=] & _)|(b & z & B & _ & E)]])|(y & _ & [=] & _)].
  cbn zeta in E. destruct (d_groups _ !! _); [destruct E as [[=] _]|]. destruct E as (a & _ & [= ->] & _). eauto.
Qed.
Lemma x_outside_history uid g s hs s' : lib_xhistory s hs s' -> (forall h, In h hs -> ~ may_join uid g h) ->
  outside_group uid g (lx_dir s) -> outside_group uid g (lx_dir s').
Proof.
  intros H. induction H as [s|s h s1 hs s2 Hs _ IH]; intros Hj Ho; [exact Ho|]. apply IH; [intros; apply Hj; now right|].
  eapply x_outside_step; [exact Hs| |exact Ho]. apply Hj. now left.
Qed.
Lemma x_not_in_outside uid g hs s : x_not_in uid g hs -> lib_xhistory lib_x_empty hs s -> outside_group uid g (lx_dir s).
Proof.
  intros [Hn|(pre & odd & ev & mid & tok & gids & -> & Hc & Hr & Hg & Hn)] H.
  - eapply x_outside_history; [exact H|exact Hn|]. intros a Ha. cbn in Ha. rewrite lookup_empty in Ha. discriminate.
  - apply lx_mid in H as (s1 & s2 & _ & Hs & H2). eapply x_outside_history; [exact H2|exact Hn|].
    pose proof (x_answered _ _ _ _ _ _ Hs Hc Hr) as E. cbn [sa_step] in E.
    destruct E as [(i & _ & [(_ & [=] & _)|(_ & E)])|(y & _ & [=] & _)].
    destruct (d_users (lx_dir s1) !! uid) as [a|] eqn:Ea; [|destruct E as [[=] _]]. destruct E as [(_ & [=] & _)|(_ & E)].
    rewrite E. intros b Hb. cbn [d_users set_users] in Hb. rewrite lookup_insert in Hb. injection Hb as <-. cbn [ac_groups].
    rewrite elem_of_difference, elem_of_list_to_set, elem_of_list_In. tauto.
Qed.
(** ** Deletion *)
Lemma x_deleted_absent uid hs s : x_deleted uid hs -> lib_xhistory lib_x_empty hs s -> d_users (lx_dir s) !! uid = None.
Proof.
  intros (pre & odd & ev & mid & tok & -> & Hc & Hr & Hn) H. apply lx_mid in H as (s1 & s2 & _ & Hs & H2).
  assert (H0 : d_users (lx_dir s2) !! uid = None).
  { pose proof (x_answered _ _ _ _ _ _ Hs Hc Hr) as E. destruct E as [(i & _ & _ & ->)|(y & _ & [=] & _)]. cbn [d_users set_users]. apply lookup_delete. }
  clear Hs Hc Hr. induction H2 as [s|s h s1' hs s2' Hs _ IH]; [exact H0|]. apply IH; [intros ? ? ? ?; apply Hn; now right|].
  destruct (x_dir h s s1' Hs) as [->|(c & Ec & [(r & E & _)|(t & sc & gid & z & _ & -> & _)])]; [exact H0| |exact H0].
  eapply step_absent; [exact E| |exact H0]. intros scopes pw [-> ->]. cbn [sa_step] in E.
  destruct E as [(_ & E & _)|(b & raw & salt & z & B & _ & _ & _ & E)]; [discriminate E|]. cbn zeta in E.
  destruct (d_users (lx_dir s) !! uuid_text (uuid_v4 b)); destruct E as [E _]; [discriminate E|]. injection E as E _. eapply (Hn h scopes b); [now left|exact Ec|exact B|congruence].
Qed.

(** ** Objects *)
Lemma cut_list_kept x c s s' (oid : uuid) acl : x_cut x c s s' -> (call_oid c = Some oid -> only_reads c) -> sh_acl s !! oid = Some acl -> sh_acl s' !! oid = Some acl.
Proof.
  intros [->|H] Hc Ha; [exact Ha|].
  destruct c as [tok obj gs|tok o obj|tok o|tok o|tok o|tok o gs|tok o gs|tok o|pt|t]; cbn [call_oid] in Hc; try contradiction.
  - destruct H as (i & o & _ & _ & _ & _ & [->|[N ->]]); cbn [put_object put_both sh_acl]; [exact Ha|].
    rewrite lookup_insert_ne; [exact Ha|]. congruence.
  - destruct (decide (o = oid)) as [->|Hne]; [destruct (Hc eq_refl)|].
    destruct H as (a & _ & _ & [->| ->]); cbn [put_object put_both sh_acl]; [exact Ha|]. now rewrite lookup_insert_ne.
  - destruct (decide (o = oid)) as [->|Hne]; [destruct (Hc eq_refl)|].
    destruct H as (a & _ & [->| ->]); cbn [drop_object drop_both sh_acl]; [exact Ha|]. now rewrite lookup_delete_ne.
  - destruct (decide (o = oid)) as [->|Hne]; [destruct (Hc eq_refl)|].
    destruct H as (a & _ & ->); cbn [put_list sh_acl]. now rewrite lookup_insert_ne.
  - destruct (decide (o = oid)) as [->|Hne]; [destruct (Hc eq_refl)|].
    destruct H as (a & _ & ->); cbn [put_list sh_acl]. now rewrite lookup_insert_ne.
Qed.
Lemma x_listed_there oid acl hs s : x_listed oid acl hs -> lib_xhistory lib_x_empty hs s -> sh_acl (lx_shelf s) !! oid = Some acl.
Proof.
  intros (pre & odd & ev & mid & tok & -> & Hc & Hr & Hn) H. apply lx_mid in H as (s1 & s2 & _ & Hs & H2).
  assert (H0 : sh_acl (lx_shelf s2) !! oid = Some acl).
  { cbn [lib_x_step] in Hs. rewrite Hc, Hr in Hs. destruct Hs as (who & _ & [Hs|(y & [=] & _)] & _).
    cbn [ev_outside ev_call ev_reply x_step] in Hs. unfold by_access, by_scope, deny in Hs. cbn [o_who object_outside] in Hs.
    destruct who as [i|z|]; [|destruct Hs as [[=] _]..]. destruct Hs as [(_ & [=] & _)|(_ & Hs)].
    destruct (sh_acl (lx_shelf s1) !! oid) as [a|] eqn:E; [|destruct Hs as [[=] _]]. destruct Hs as [(_ & [=] & _)|(_ & [= <-] & ->)]. exact E. }
  clear Hs Hc Hr. induction H2 as [s|s h s1' hs s2' Hs _ IH]; [exact H0|]. apply IH; [intros ? ? ?; apply Hn; now right|].
  specialize (Hn h). destruct h as [odd' ev'|x c]; cbn [lib_x_step lh_call] in *.
  - destruct (lv_call ev') as [c|c|c] eqn:Ec, (lv_reply ev') as [r|r|r]; try contradiction.
    + destruct Hs as (who & _ & Hs & _). apply hap_cut in Hs. eapply cut_list_kept; [exact Hs| |exact H0].
      cbn [CrashSpec.hap_call ev_call]. intros Eo. exact (Hn c (or_introl eq_refl) eq_refl Eo).
    + destruct Hs as (who & _ & _ & _ & ->). exact H0.
    + destruct Hs as (_ & -> & _). exact H0.
  - destruct c as [c|c|c].
    + destruct Hs as (who & _ & Hs & _). apply hap_cut in Hs. eapply cut_list_kept; [exact Hs| |exact H0].
      cbn [CrashSpec.hap_call]. intros Eo. exact (Hn c (or_introl eq_refl) eq_refl Eo).
    + destruct Hs as (who & _ & _ & _ & ->). exact H0.
    + destruct Hs as (_ & -> & _). exact H0.
Qed.
(** A caller not on the list, or nobody, has no effect. *)
Lemma barred_cut x c s s' (oid : uuid) acl : x_cut x c s s' -> call_oid c = Some oid -> sh_acl s !! oid = Some acl ->
  (forall i, o_who x = Ok i -> ~ on_list i (call_need c) acl) -> s' = s.
Proof.
  intros [->|H] Ho Ha Hb; [reflexivity|exfalso].
  destruct c as [tok obj gs|tok o obj|tok o|tok o|tok o|tok o gs|tok o gs|tok o|pt|t]; try discriminate; try contradiction; injection Ho as ->;
    destruct H as (a & (i & Hw & _ & Ha' & Hl) & _); rewrite Ha in Ha'; injection Ha' as <-; exact (Hb i Hw Hl).
Qed.
Lemma barred_reply odd x c s r s' (oid : uuid) acl : x_step odd x c s r s' -> call_oid c = Some oid -> sh_acl s !! oid = Some acl -> o_who x <> Panic ->
  (forall i, o_who x = Ok i -> ~ on_list i (call_need c) acl) -> r = Err ED1NotAuthenticated \/ r = Err ED1NotAuthorized.
Proof.
  intros H Ho Ha Hp Hb. unfold x_step, by_access, by_scope, or_rng, deny in H.
  destruct c as [tok obj gs|tok o obj|tok o|tok o|tok o|tok o gs|tok o gs|tok o|pt|t]; try discriminate; injection Ho as ->; rewrite Ha in H;
    cbn [call_need] in Hb; (destruct (o_who x) as [i|y|]; [|left; apply H|congruence]); right; (destruct H as [H|[_ [H|[Hl _]]]]; [apply H|apply H|destruct (Hb i eq_refl Hl)]).
Qed.
Lemma nobody_cut x c s s' y t : x_cut x c s s' -> call_token c = Some t -> o_who x = Err y -> s' = s.
Proof.
  intros [->|H] Ht Hw; [reflexivity|exfalso]. unfold entitled in H.
  destruct c as [tok obj gs|tok o obj|tok o|tok o|tok o|tok o gs|tok o gs|tok o|pt|z]; try contradiction.
  - destruct H as (i & oid & E & _). congruence.
  - destruct H as (a & (i & E & _) & _). congruence.
  - destruct H as (a & (i & E & _) & _). congruence.
  - destruct H as (a & (i & E & _) & _). congruence.
  - destruct H as (a & (i & E & _) & _). congruence.
Qed.
Lemma nobody_reply odd x c s r s' y t : x_step odd x c s r s' -> call_token c = Some t -> o_who x = Err y -> r = Err ED1NotAuthenticated.
Proof.
  intros H Ht Hw. unfold x_step, by_access, by_scope, deny in H. rewrite Hw in H. destruct c; try discriminate; apply H.
Qed.

(** ** The two corollaries *)
Lemma x_revoked hs1 h hs2 s uid tok oid acl c : lib_xhistory lib_x_empty (hs1 ++ h :: hs2) s ->
  lh_call h = OnObject c -> call_token c = Some tok -> call_oid c = Some oid ->
  x_token_of uid tok hs1 -> x_listed oid acl hs1 -> uid ∉ acl -> (forall g, g ∈ acl -> x_not_in uid g hs1) ->
  (exists s1 s2, lib_xhistory lib_x_empty hs1 s1 /\ lib_x_step h s1 s2 /\ lib_xhistory s2 hs2 s /\ no_effect s1 s2) /\
  forall odd ev, h = LDone odd ev -> exists r, lv_reply ev = LObject r /\
    (r = Err ED1NotAuthenticated \/ r = Err ED1NotAuthorized \/ exists y, r = Err y /\ fault y).
Proof.
  intros H Hc Ht Ho Htok Hl Hu Hrem. apply lx_mid in H as (s1 & s2 & H1 & Hs & H2).
  destruct (x_token_says uid tok hs1 s1 Htok H1) as [exp Hy]. pose proof (x_listed_there oid acl hs1 s1 Hl H1) as Ha.
  pose proof (x_unique _ _ _ H1 unique_empty) as U.
  assert (HB : forall x who, claimed x (lx_dir s1) (Some tok) who -> who <> Panic /\ forall i, who = Ok i -> ~ on_list i (call_need c) acl).
  { intros x who [Hw|[y ->]]; [|split; [|intros i]; discriminate]. cbn [caller] in Hw. split.
    - intros ->. destruct Hw as [(u & z & _ & _ & C)|[_ [=]]]. destruct (d_users _ !! u); [destruct C as [(j & _ & [=])|(g & _ & _ & [=])]|discriminate].
    - intros i -> Hon. destruct (who_of _ _ _ _ _ _ U Hy Hw) as (a & Ea & (D1 & D2 & D3 & D4) & _).
      destruct Hon as [[Hid _]|(g & sc & Hg & Hacl & _)]; [congruence|]. apply D4 in Hg as [Hg _].
      exact (x_not_in_outside uid g hs1 s1 (Hrem g Hacl) H1 a Ea Hg). }
  destruct h as [odd ev|x c']; cbn [lh_call] in Hc.
  - pose proof Hs as Hs'. cbn [lib_x_step] in Hs'. rewrite Hc in Hs'. destruct (lv_reply ev) as [r|r|r] eqn:Er; try contradiction.
    destruct Hs' as (who & Hw & Hh & E1 & E2 & E3). rewrite Ht in Hw. destruct (HB _ who Hw) as [Hp Hb]. split.
    + exists s1, s2. split; [exact H1|]. split; [exact Hs|]. split; [exact H2|]. split; [exact E1|]. split; [|rewrite E2; apply same_refl].
      exact (barred_cut _ _ _ _ oid acl (hap_cut _ _ _ Hh) Ho Ha Hb).
    + intros odd' ev' [= _ <-]. exists r. split; [exact Er|]. destruct Hh as [Hh|(y & E & Hf & _)].
      * destruct (barred_reply _ _ _ _ _ _ oid acl Hh Ho Ha Hp Hb); auto.
      * right. right. exists y. auto.
  - subst c'. pose proof Hs as Hs'. cbn [lib_x_step] in Hs'. destruct Hs' as (who & Hw & Hh & E1 & E2 & E3). rewrite Ht in Hw. destruct (HB _ who Hw) as [Hp Hb].
    split; [|intros odd ev [=]]. exists s1, s2. split; [exact H1|]. split; [exact Hs|]. split; [exact H2|]. split; [exact E1|]. split; [|rewrite E2; apply same_refl].
    exact (barred_cut _ _ _ _ oid acl Hh Ho Ha Hb).
Qed.

Lemma x_deleted_refused hs1 h hs2 s uid tok : lib_xhistory lib_x_empty (hs1 ++ h :: hs2) s ->
  lib_token (lh_call h) = Some tok -> x_token_of uid tok hs1 -> x_deleted uid hs1 ->
  (exists s1 s2, lib_xhistory lib_x_empty hs1 s1 /\ lib_x_step h s1 s2 /\ lib_xhistory s2 hs2 s /\ no_effect s1 s2) /\
  forall odd ev, h = LDone odd ev -> x_turned_away (lv_reply ev).
Proof.
  intros H Ht Htok Hdel. apply lx_mid in H as (s1 & s2 & H1 & Hs & H2).
  destruct (x_token_says uid tok hs1 s1 Htok H1) as [exp Hy]. pose proof (x_deleted_absent uid hs1 s1 Hdel H1) as Ha.
  pose proof (x_unique _ _ _ H1 unique_empty) as U.
  assert (HR : forall now q, resolves (lx_dir s1) now tok q -> exists y, q = Err y).
  { intros now q [(u & x & A & _ & C)|[_ ->]]; [|eauto]. destruct (U _ _ _ _ _ Hy A) as [<- <-]. rewrite Ha in C. eauto. }
  assert (HC : forall x who, claimed x (lx_dir s1) (Some tok) who -> exists y, who = Err y).
  { intros x who [Hw|Hw]; [|exact Hw]. exact (HR _ _ Hw). }
  assert (CA : forall x r0 d' body, as_caller x tok (lx_dir s1) r0 d' body -> (exists y, r0 = Err y) /\ d' = lx_dir s1).
  { intros x r0 d' body [(i & A & _)|(y & A & -> & ->)]; [destruct (HR _ _ A); discriminate|eauto]. }
  assert (SA : forall x c r0 d', lib_token (OnIdentity c) = Some tok -> sa_step x c (lx_dir s1) r0 d' -> (exists y, r0 = Err y) /\ d' = lx_dir s1).
  { intros x c r0 d' E Hst. destruct c; try discriminate; injection E as ->; cbn [sa_step] in Hst; unfold change_membership in Hst; try (eapply CA, Hst).
    destruct Hst as (q & A & -> & ->). destruct (HR _ _ A) as [y ->]. cbn. eauto. }
  assert (SC : forall x c d', lib_token (OnIdentity c) = Some tok -> sa_cut x c (lx_dir s1) d' -> d' = lx_dir s1).
  { intros x c d' E [->|[[q Hst]|(t & sc & b & z & i & -> & A & _)]]; [reflexivity|exact (proj2 (SA _ _ _ _ E Hst))|].
    cbn in E. injection E as ->. destruct (HR _ _ A); discriminate. }
  assert (G : no_effect s1 s2 /\ forall odd ev, h = LDone odd ev -> x_turned_away (lv_reply ev)).
  { destruct h as [odd ev|x c]; cbn [lh_call lib_x_step] in *.
    - destruct (lv_call ev) as [c|c|c], (lv_reply ev) as [r|r|r] eqn:Er; try contradiction; cbn [lib_token] in Ht.
      + destruct Hs as (who & Hw & Hh & E1 & E2 & _). rewrite Ht in Hw. destruct (HC _ _ Hw) as [y ->]. split.
        * split; [exact E1|]. split; [|rewrite E2; apply same_refl]. exact (nobody_cut _ _ _ _ y tok (hap_cut _ _ _ Hh) Ht eq_refl).
        * intros odd' ev' [= _ <-]. rewrite Er. destruct Hh as [Hh|(z & E & Hf & _)]; [left|right; exists z; auto].
          exact (nobody_reply _ _ _ _ _ _ y tok Hh Ht eq_refl).
      + destruct Hs as (who & Hw & (_ & _ & Hm) & E1 & E2). rewrite Ht in Hw. destruct (HC _ _ Hw) as [y ->].
        destruct Hm as [Hm Hq]; [intros (i & [=] & _)|]. split; [split; [exact E1|]; split; [exact E2|exact Hm]|].
        intros odd' ev' [= _ <-]. rewrite Er. exact Hq.
      + destruct Hs as (Hs & E2 & E3 & _). cbn [sa_happens sv_x sv_call sv_reply] in Hs.
        destruct Hs as [Hs|(_ & (y & ->) & Hs)].
        * destruct (SA _ _ _ _ Ht Hs) as [(y & ->) E1]. split; [split; [exact E1|]; split; [exact E2|rewrite E3; apply same_refl]|].
          intros odd' ev' [= _ <-]. rewrite Er. cbn. eauto.
        * pose proof (SC _ _ _ Ht Hs) as E1. split; [split; [exact E1|]; split; [exact E2|rewrite E3; apply same_refl]|].
          intros odd' ev' [= _ <-]. rewrite Er. cbn. eauto.
    - split; [|intros odd ev [=]]. destruct c as [c|c|c]; cbn [lib_token] in Ht.
      + destruct Hs as (who & Hw & Hh & E1 & E2 & _). rewrite Ht in Hw. destruct (HC _ _ Hw) as [y ->].
        split; [exact E1|]. split; [|rewrite E2; apply same_refl]. exact (nobody_cut _ _ _ _ y tok Hh Ht eq_refl).
      + destruct Hs as (who & Hw & (_ & _ & Hm) & E1 & E2). rewrite Ht in Hw. destruct (HC _ _ Hw) as [y ->].
        destruct Hm as [Hm _]; [intros (i & [=] & _)|]. split; [exact E1|]. split; [exact E2|exact Hm].
      + destruct Hs as (Hs & E2 & E3 & _). cbn [sa_happens] in Hs. pose proof (SC _ _ _ Ht Hs) as E1.
        split; [exact E1|]. split; [exact E2|rewrite E3; apply same_refl]. }
  destruct G as [G1 G2]. split; [|exact G2]. exists s1, s2. auto.
Qed.
