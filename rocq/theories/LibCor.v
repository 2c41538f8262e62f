(** What the specification of the assembled library says about replies: revocation and deletion take effect
    at once, and GetIdentity tells what the other calls will go by. *)
From Coq Require Import ZifyN ZifyNat.
From stdpp Require Import gmap.
From Verif Require Import Bytes Go Uuid Time Id D1 Spec SpecProofs Standalone StandaloneSpec StandaloneHist Index IndexSpec Lib LibSpec.
Local Open Scope N_scope.

Lemma lh_app a evs1 evs2 b : lib_history a (evs1 ++ evs2) b -> exists m, lib_history a evs1 m /\ lib_history m evs2 b.
Proof.
  revert a. induction evs1 as [|ev evs1 IH]; intros a H; cbn [app] in H.
  - exists a. split; [constructor|exact H].
  - inversion H as [|? ? s1 ? ? Hs Hr]; subst. apply IH in Hr as (m & H1 & H2). exists m. split; [econstructor; eauto|exact H2].
Qed.
Lemma lh_mid a evs1 ev evs2 b : lib_history a (evs1 ++ ev :: evs2) b ->
  exists s s', lib_history a evs1 s /\ lib_step (lv_x ev) (lv_call ev) s (lv_reply ev) s' /\ lib_history s' evs2 b.
Proof. intros H. apply lh_app in H as (m & H1 & H2). inversion H2 as [|? ? s1 ? ? Hs Hr]; subst. eauto. Qed.

(** ** The directory *)
Definition sa_events (evs : list lib_event) : list sa_event :=
  flat_map (fun ev => match lv_call ev, lv_reply ev with OnIdentity c, LIdentity r => [mkSaEvent (lv_x ev) c r] | _, _ => [] end) evs.
(** A step that is no identity call leaves the directory. *)
Lemma step_dir x c s r s' : lib_step x c s r s' ->
  (exists c0 r0, c = OnIdentity c0 /\ r = LIdentity r0 /\ sa_step x c0 (ls_dir s) r0 (ls_dir s')) \/
  ((forall c0, c <> OnIdentity c0) /\ ls_dir s' = ls_dir s).
Proof.
  destruct c as [c|c|c], r as [r|r|r]; cbn [lib_step]; try contradiction.
  - intros (who & _ & _ & E & _). right. split; [discriminate|exact E].
  - intros (who & _ & _ & E & _). right. split; [discriminate|exact E].
  - intros (H & _). left. eauto.
Qed.
Lemma dir_history s evs s' : lib_history s evs s' -> sa_history (ls_dir s) (sa_events evs) (ls_dir s').
Proof.
  intros H. induction H as [s|s ev s1 evs s2 Hs _ IH]; [constructor|]. cbn [sa_events flat_map].
  destruct (step_dir _ _ _ _ _ Hs) as [(c0 & r0 & -> & -> & Hd)|[Hc E]].
  - cbn [app]. econstructor; [exact Hd|exact IH].
  - rewrite E in IH. destruct (lv_call ev); [exact IH|exact IH|]. destruct (Hc c eq_refl).
Qed.
Lemma dir_unique evs s : lib_history lib_empty evs s -> unique (ls_dir s).
Proof. intros H. apply dir_history in H. eapply unique_history; [exact H|apply unique_empty]. Qed.
Lemma says_same d s tok uid exp : says d s uid exp -> same_token s tok -> says d tok uid exp.
Proof. intros (z & A & B & C) H. exists z. split; [exact A|]. split; [eapply same_token_trans; eauto|exact C]. Qed.
Lemma token_says uid tok evs s : token_of uid tok evs -> lib_history lib_empty evs s -> exists exp, says (ls_dir s) tok uid exp.
Proof.
  intros (ev & pw & t & n & Hin & Hc & Hr & Ht) H. apply in_split in Hin as (pre & post & ->).
  apply lh_mid in H as (s1 & s2 & _ & Hs & H2). rewrite Hc, Hr in Hs. cbn [lib_step] in Hs. destruct Hs as (Hs & _).
  destruct (step_sessions _ _ _ _ _ Hs) as [E|(uid' & pw' & t' & [= <- <-] & [= <- _] & _ & Hn)].
  - exfalso. cbn [sa_step] in Hs. destruct (d_users (ls_dir s1) !! uid); [|destruct Hs as [[=] _]].
    destruct Hs as [(_ & [=] & _)|(_ & [(_ & [=] & _)|(t' & _ & [= <- _] & E' & _)])].
    rewrite E' in E. cbn [d_sessions add_session] in E. apply (f_equal length) in E. cbn in E. lia.
  - exists (time_add (x_now (lv_x ev)) 3600). eapply says_same; [|exact Ht]. eapply says_history; [apply dir_history, H2|].
    apply Hn. auto.
Qed.
(** A session comes from a login. *)
Lemma says_login s0 evs s : lib_history s0 evs s -> forall tok uid exp, says (ls_dir s) tok uid exp ->
  says (ls_dir s0) tok uid exp \/
  exists ev pw t n, In ev evs /\ lv_call ev = OnIdentity (SLogin uid pw) /\ lv_reply ev = LIdentity (Ok (SRToken t n)) /\ same_token t tok /\
    exp = time_add (x_now (lv_x ev)) 3600.
Proof.
  intros H. induction H as [s|s ev s1 evs s2 Hs _ IH]; intros tok uid exp Hy; [now left|].
  destruct (IH tok uid exp Hy) as [Hy1|(ev' & pw & t & n & Hin & Hrest)]; [|right; exists ev', pw, t, n; split; [now right|exact Hrest]].
  destruct (step_dir _ _ _ _ _ Hs) as [(c0 & r0 & Ec & Er & Hd)|[_ E]]; [|left; now rewrite <- E].
  destruct (step_sessions _ _ _ _ _ Hd) as [E|(uid' & pw' & t' & E1 & E2 & E3 & Hn)].
  - left. destruct Hy1 as (z & Hz & A). exists z. split; [now rewrite <- E|exact A].
  - destruct Hy1 as (z & Hz & A & B & C). rewrite E3 in Hz. cbn [d_sessions add_session] in Hz. destruct Hz as [<-|Hz].
    + right. exists ev, pw', t', (time_unix (time_add (x_now (lv_x ev)) 3600)). cbn in A, B, C. subst. rewrite Ec, Er. cbn. auto 10.
    + left. exists z. auto.
Qed.
(** Whose identity a token gives. *)
Lemma who_of d now tok uid exp i : unique d -> says d tok uid exp -> resolves d now tok (Ok i) ->
  exists a, d_users d !! uid = Some a /\ describes d uid a i /\ (nanos now <= nanos exp)%Z.
Proof.
  intros U Hs [(u & x & A & Ln & C)|[_ [=]]]. destruct (U _ _ _ _ _ Hs A) as [<- <-]. destruct (d_users d !! uid) as [a|]; [|discriminate].
  destruct C as [(j & D & [= <-])|(g & _ & _ & [=])]. eauto.
Qed.

(** ** Membership *)
Definition outside_group (uid g : bytes) (d : directory) : Prop := forall a, d_users d !! uid = Some a -> g ∉ ac_groups a.
Definition joins_dir (uid g : bytes) (c : sa_call) (r : res sa_reply) : Prop :=
  match c, r with
  | SAddUser _ uid' gids, Ok _ => uid' = uid /\ In g gids
  | SNewGroup _ _, Ok (SRGroup gid) => gid = g
  | _, _ => False
  end.
Lemma outside_insert uid g u a users dg ss : outside_group uid g (mkDirectory users dg ss) -> (u = uid -> g ∉ ac_groups a) ->
  outside_group uid g (mkDirectory (<[u := a]> users) dg ss).
Proof.
  intros H Ha b Hb. cbn [d_users] in Hb. destruct (decide (u = uid)) as [->|Hne].
  - rewrite lookup_insert in Hb. injection Hb as <-. auto.
  - rewrite lookup_insert_ne in Hb by congruence. exact (H b Hb).
Qed.
Lemma step_outside uid g x c d r d' : sa_step x c d r d' -> ~ joins_dir uid g c r -> outside_group uid g d -> outside_group uid g d'.
Proof.
  assert (CA : forall tok (body : identity -> Prop), outside_group uid g d -> (forall i, body i -> outside_group uid g d') -> as_caller x tok d r d' body -> outside_group uid g d').
  { intros tok body Ho Hb [(i & _ & H)|(y & _ & _ & ->)]; eauto. }
  assert (MB : forall tok u gids f, outside_group uid g d -> (r = Ok SRUnit -> u = uid -> forall s : gset bytes, g ∉ s -> g ∉ f s) ->
    change_membership x tok u gids f d r d' -> outside_group uid g d').
  { intros tok u gids f Ho Hf. apply CA; [exact Ho|]. intros i [(_ & _ & ->)|(_ & H)]; [exact Ho|].
    destruct (d_users d !! u) as [a|] eqn:Ea; [|destruct H as [_ ->]; exact Ho].
    destruct H as [(_ & _ & ->)|(Er & ->)]; [exact Ho|]. apply outside_insert; [exact Ho|]. intros ->. cbn [ac_groups]. apply Hf; auto. }
  intros H Hj Ho. destruct c; cbn [sa_step joins_dir] in *.
  - destruct H as [(_ & _ & ->)|(b & raw & salt & s & _ & _ & _ & _ & H)]; [exact Ho|]. cbn zeta in H.
    destruct (d_users d !! _); destruct H as [_ ->]; [exact Ho|]. apply outside_insert; [exact Ho|]. intros _. cbn [ac_groups]. set_solver.
  - destruct (d_users d !! uid0); [|destruct H as [_ ->]; exact Ho].
    destruct H as [(_ & _ & ->)|(_ & [(_ & _ & ->)|(s & _ & _ & -> & _)])]; exact Ho.
  - destruct (d_users d !! uid0) as [a|] eqn:Ea; [|destruct H as [_ ->]; exact Ho].
    destruct H as [(_ & _ & ->)|(_ & [(_ & _ & ->)|(raw & salt & _ & _ & _ & ->)])]; [exact Ho..|].
    apply outside_insert; [exact Ho|]. intros ->. cbn [ac_groups]. exact (Ho a Ea).
  - revert H. apply MB; [exact Ho|]. intros -> -> s Hs. assert (~ In g gids) by tauto. rewrite elem_of_union, elem_of_list_to_set, elem_of_list_In. tauto.
  - revert H. apply MB; [exact Ho|]. intros _ _ s Hs. set_solver.
  - revert H. apply CA; [exact Ho|]. intros i [_ ->]. intros a Ha. cbn [d_users set_users] in Ha. apply lookup_delete_Some in Ha as [_ Ha]. exact (Ho a Ha).
  - revert H. apply CA; [exact Ho|]. intros i [(_ & _ & _ & ->)|[(_ & _ & _ & b & s & _ & _ & _ & ->)|(b & s & _ & _ & H)]]; [exact Ho..|].
    cbn zeta in H. destruct (d_groups d !! _); [destruct H as [_ ->]; exact Ho|]. destruct H as (a & Ea & -> & ->).
    intros a' Ha'. cbn [d_users] in Ha'. destruct (decide (i_id i = uid)) as [Hq|Hne].
    + rewrite Hq in *. rewrite lookup_insert in Ha'. injection Ha' as <-. cbn [ac_groups]. pose proof (Ho a Ea).
      rewrite elem_of_union, elem_of_singleton. intuition congruence.
    + rewrite lookup_insert_ne in Ha' by congruence. exact (Ho a' Ha').
  - destruct H as (q & _ & _ & ->). exact Ho.
Qed.
Lemma history_outside uid g s evs s' : lib_history s evs s' -> (forall ev, In ev evs -> ~ joins uid g ev) ->
  outside_group uid g (ls_dir s) -> outside_group uid g (ls_dir s').
Proof.
  intros H. induction H as [s|s ev s1 evs s2 Hs _ IH]; intros Hj Ho; [exact Ho|]. apply IH; [intros; apply Hj; now right|].
  specialize (Hj ev (or_introl eq_refl)). destruct (step_dir _ _ _ _ _ Hs) as [(c0 & r0 & Ec & Er & Hd)|[_ E]]; [|now rewrite E].
  eapply step_outside; [exact Hd| |exact Ho]. unfold joins in Hj. rewrite Ec, Er in Hj. unfold joins_dir. exact Hj.
Qed.
Lemma removed_outside uid g evs s : removed uid g evs -> lib_history lib_empty evs s -> outside_group uid g (ls_dir s).
Proof.
  intros (pre & ev & mid & tok & gids & -> & Hc & Hr & Hg & Hn) H. apply lh_mid in H as (s1 & s2 & _ & Hs & H2).
  eapply history_outside; [exact H2|exact Hn|]. rewrite Hc, Hr in Hs. destruct Hs as (Hs & _). cbn [sa_step] in Hs.
  destruct Hs as [(i & _ & [(_ & [=] & _)|(_ & H)])|(y & _ & [=] & _)].
  destruct (d_users (ls_dir s1) !! uid) as [a|] eqn:Ea; [|destruct H as [[=] _]]. destruct H as [(_ & [=] & _)|(_ & E)].
  rewrite E. intros b Hb. cbn [d_users set_users] in Hb. rewrite lookup_insert in Hb. injection Hb as <-. cbn [ac_groups].
  rewrite elem_of_difference, elem_of_list_to_set, elem_of_list_In. tauto.
Qed.
Lemma not_in_outside uid g evs s : not_in uid g evs -> lib_history lib_empty evs s -> outside_group uid g (ls_dir s).
Proof.
  intros [Hn|Hr] H; [|eapply removed_outside; eauto]. eapply history_outside; [exact H|exact Hn|]. intros a Ha. cbn in Ha. rewrite lookup_empty in Ha. discriminate.
Qed.

(** ** Deletion *)
Lemma step_absent uid x c d r d' : sa_step x c d r d' -> (forall scopes pw, ~ (c = SNewUser scopes /\ r = Ok (SRUser uid pw))) ->
  d_users d !! uid = None -> d_users d' !! uid = None.
Proof.
  assert (CA : forall tok (body : identity -> Prop), d_users d !! uid = None -> (forall i, body i -> d_users d' !! uid = None) -> as_caller x tok d r d' body -> d_users d' !! uid = None).
  { intros tok body Ho Hb [(i & _ & H)|(y & _ & _ & ->)]; eauto. }
  assert (IN : forall u (a : account), d_users d !! uid = None -> d_users d !! u <> None -> <[u := a]> (d_users d) !! uid = None).
  { intros u a Ho Hu. rewrite lookup_insert_ne; [exact Ho|]. intros ->. contradiction. }
  assert (MB : forall tok u gids f, d_users d !! uid = None -> change_membership x tok u gids f d r d' -> d_users d' !! uid = None).
  { intros tok u gids f Ho. apply CA; [exact Ho|]. intros i [(_ & _ & ->)|(_ & H)]; [exact Ho|].
    destruct (d_users d !! u) as [a|] eqn:Ea; [|destruct H as [_ ->]; exact Ho].
    destruct H as [(_ & _ & ->)|(Er & ->)]; [exact Ho|]. apply IN; congruence. }
  intros H Hj Ho. destruct c; cbn [sa_step] in *.
  - destruct H as [(_ & _ & ->)|(b & raw & salt & s & _ & _ & _ & _ & H)]; [exact Ho|]. cbn zeta in H.
    destruct (d_users d !! uuid_text (uuid_v4 b)) eqn:Eb; destruct H as [-> ->]; [exact Ho|].
    cbn [d_users set_users]. rewrite lookup_insert_ne; [exact Ho|]. intros <-. eapply Hj; eauto.
  - destruct (d_users d !! uid0); [|destruct H as [_ ->]; exact Ho].
    destruct H as [(_ & _ & ->)|(_ & [(_ & _ & ->)|(s & _ & _ & -> & _)])]; exact Ho.
  - destruct (d_users d !! uid0) as [a|] eqn:Ea; [|destruct H as [_ ->]; exact Ho].
    destruct H as [(_ & _ & ->)|(_ & [(_ & _ & ->)|(raw & salt & _ & _ & _ & ->)])]; [exact Ho..|]. apply IN; congruence.
  - revert H. now apply MB.
  - revert H. now apply MB.
  - revert H. apply CA; [exact Ho|]. intros i [_ ->]. cbn [d_users set_users]. apply lookup_delete_None. now right.
  - revert H. apply CA; [exact Ho|]. intros i [(_ & _ & _ & ->)|[(_ & _ & _ & b & s & _ & _ & _ & ->)|(b & s & _ & _ & H)]]; [exact Ho..|].
    cbn zeta in H. destruct (d_groups d !! _); [destruct H as [_ ->]; exact Ho|]. destruct H as (a & Ea & -> & ->). cbn [d_users]. apply IN; congruence.
  - destruct H as (q & _ & _ & ->). exact Ho.
Qed.
Lemma deleted_absent uid evs s : deleted uid evs -> lib_history lib_empty evs s -> d_users (ls_dir s) !! uid = None.
Proof.
  intros (pre & ev & mid & tok & -> & Hc & Hr & Hn) H. apply lh_mid in H as (s1 & s2 & _ & Hs & H2).
  assert (H0 : d_users (ls_dir s2) !! uid = None).
  { rewrite Hc, Hr in Hs. destruct Hs as (Hs & _). destruct Hs as [(i & _ & _ & ->)|(y & _ & [=] & _)]. cbn [d_users set_users]. apply lookup_delete. }
  clear Hs. induction H2 as [s|s ev' s1' evs s2' Hs' _ IH]; [exact H0|]. apply IH; [intros; apply Hn; now right|].
  specialize (Hn ev' (or_introl eq_refl)). destruct (step_dir _ _ _ _ _ Hs') as [(c0 & r0 & Ec & Er & Hd)|[_ E]]; [|now rewrite E].
  eapply step_absent; [exact Hd| |exact H0]. intros scopes pw [-> ->]. apply Hn. exists scopes, pw. auto.
Qed.

(** ** Objects *)
Lemma step_other x c m r m' oid y : spec_step x c m r m' -> call_oid c <> Some oid -> m !! oid = Some y -> m' !! oid = Some y.
Proof.
  intros H Hc Hm. destruct x as [who rf oi]. unfold spec_step, with_access, with_scope, or_random, refuse in H. cbn [o_who o_rng_fails o_id] in H.
  destruct c; cbn [call_oid] in Hc; try (destruct H as [-> _]; exact Hm);
    (destruct who as [i|z|]; [|destruct H as [_ ->]; exact Hm..]); destruct H as [(_ & _ & ->)|(_ & H)]; try exact Hm.
  - destruct H as [(_ & _ & ->)|(o & _ & H)]; [exact Hm|]. destruct (m !! o) eqn:Eo; destruct H as [_ ->]; [exact Hm|].
    rewrite lookup_insert_ne; [exact Hm|]. congruence.
  - destruct (m !! oid0) as [[o acl]|]; [|destruct H as [_ ->]; exact Hm]. destruct H as [(_ & _ & ->)|(_ & [(_ & _ & ->)|(_ & ->)])]; [exact Hm..|].
    rewrite lookup_insert_ne; [exact Hm|]. congruence.
  - destruct (m !! oid0) as [[o acl]|]; [|destruct H as [_ ->]; exact Hm]. destruct H as [(_ & _ & ->)|(_ & _ & ->)]; exact Hm.
  - destruct (m !! oid0) as [[o acl]|]; [|destruct H as [_ ->]; exact Hm]. destruct H as [(_ & _ & ->)|(_ & _ & ->)]; [exact Hm|].
    rewrite lookup_delete_ne; [exact Hm|]. congruence.
  - destruct (m !! oid0) as [[o acl]|]; [|destruct H as [_ ->]; exact Hm]. destruct H as [(_ & _ & ->)|(_ & _ & ->)]; exact Hm.
  - destruct (m !! oid0) as [[o acl]|]; [|destruct H as [_ ->]; exact Hm]. destruct H as [(_ & _ & ->)|(_ & [(_ & _ & ->)|(_ & ->)])]; [exact Hm..|].
    rewrite lookup_insert_ne; [exact Hm|]. congruence.
  - destruct (m !! oid0) as [[o acl]|]; [|destruct H as [_ ->]; exact Hm]. destruct H as [(_ & _ & ->)|(_ & [(_ & _ & ->)|(_ & ->)])]; [exact Hm..|].
    rewrite lookup_insert_ne; [exact Hm|]. congruence.
  - destruct (m !! oid0) as [[o acl]|]; [|destruct H as [_ ->]; exact Hm]. destruct H as [(_ & _ & ->)|(_ & _ & ->)]; exact Hm.
Qed.
Lemma step_reads x c m r m' : spec_step x c m r m' -> only_reads c -> m' = m.
Proof.
  intros H Hc. destruct x as [who rf oi]. unfold spec_step, with_access, with_scope, or_random, refuse in H. cbn [o_who o_rng_fails o_id] in H.
  destruct c; try contradiction; (destruct who as [i|z|]; [|now destruct H..]); destruct H as [(_ & _ & ->)|(_ & H)]; try reflexivity;
    (destruct (m !! oid) as [[o acl]|]; [|now destruct H]); destruct H as [(_ & _ & ->)|(_ & _ & ->)]; reflexivity.
Qed.
Lemma listed_there oid acl evs s : listed oid acl evs -> lib_history lib_empty evs s -> exists o, ls_objects s !! oid = Some (o, acl).
Proof.
  intros (pre & ev & mid & tok & -> & Hc & Hr & Hn) H. apply lh_mid in H as (s1 & s2 & _ & Hs & H2).
  assert (H0 : exists o, ls_objects s2 !! oid = Some (o, acl)).
  { rewrite Hc, Hr in Hs. destruct Hs as (who & _ & Hs & _). unfold spec_step, with_access, with_scope, refuse in Hs. cbn [o_who] in Hs.
    destruct who as [i|z|]; [|destruct Hs as [[=] _]..]. destruct Hs as [(_ & [=] & _)|(_ & Hs)].
    destruct (ls_objects s1 !! oid) as [[o a]|] eqn:E; [|destruct Hs as [[=] _]]. destruct Hs as [(_ & [=] & _)|(_ & [= <-] & ->)]. eauto. }
  clear Hs. destruct H0 as [o H0]. exists o. induction H2 as [s|s ev' s1' evs s2' Hs' _ IH]; [exact H0|]. apply IH; [intros ev2 c2 Hin; apply (Hn ev2 c2); now right|].
  specialize (Hn ev'). destruct (lv_call ev') as [c|c|c] eqn:Ec, (lv_reply ev') as [r|r|r]; cbn [lib_step] in Hs'; try contradiction.
  - destruct Hs' as (who & _ & Hs' & _). destruct (decide (call_oid c = Some oid)) as [Eo|Eo].
    + rewrite (step_reads _ _ _ _ _ Hs' (Hn c (or_introl eq_refl) eq_refl Eo)). exact H0.
    + eapply step_other; [exact Hs'|exact Eo|exact H0].
  - destruct Hs' as (who & _ & _ & _ & ->). exact H0.
  - destruct Hs' as (_ & -> & _). exact H0.
Qed.
(** What a call about an object that is there gets. *)
Lemma step_decided x c m r m' oid o acl : spec_step x c m r m' -> call_oid c = Some oid -> m !! oid = Some (o, acl) ->
  match o_who x with
  | Ok i =>
      (scope_has (i_scopes i) (call_need c) /\ on_list i (call_need c) acl /\ ((exists y, r = Ok y) \/ (o_rng_fails x /\ r = Err ERandom))) \/
      (~ (scope_has (i_scopes i) (call_need c) /\ on_list i (call_need c) acl) /\ r = Err ED1NotAuthorized /\ m' = m)
  | Err _ => r = Err ED1NotAuthenticated /\ m' = m
  | Panic => r = Panic
  end.
Proof.
  intros H Hc Hm. destruct x as [who rf oi]. unfold spec_step, with_access, with_scope, or_random, refuse in H. cbn [o_who o_rng_fails o_id] in *.
  destruct c; cbn [call_oid call_need] in *; try discriminate; injection Hc as ->; rewrite ?Hm in H;
    (destruct who as [i|z|]; [|exact H|now destruct H]); destruct H as [(Hn & H)|(Hs & [(Hn & H)|(Ho & H)])];
    try (right; split; [tauto|exact H]); left; (split; [exact Hs|]; split; [exact Ho|]);
    first [now left; destruct H as [-> _]; eexists|destruct H as [(Hr & -> & _)|(-> & _)]; [now right|left; eauto]].
Qed.

(** ** The three corollaries *)
Lemma revoked_refused evs1 ev evs2 s uid tok oid acl c r : lib_history lib_empty (evs1 ++ ev :: evs2) s ->
  lv_call ev = OnObject c -> lv_reply ev = LObject r -> call_token c = Some tok -> call_oid c = Some oid ->
  token_of uid tok evs1 -> listed oid acl evs1 -> uid ∉ acl -> (forall g, g ∈ acl -> not_in uid g evs1) ->
  r = Err ED1NotAuthenticated \/ r = Err ED1NotAuthorized.
Proof.
  intros H Hc Hr Ht Ho Htok Hl Hu Hrem. apply lh_mid in H as (s1 & s2 & H1 & Hs & _). rewrite Hc, Hr in Hs. cbn [lib_step] in Hs.
  destruct Hs as (who & Hw & Hs & _). rewrite Ht in Hw. cbn [caller] in Hw. destruct (token_says uid tok evs1 s1 Htok H1) as [exp Hy].
  destruct (listed_there oid acl evs1 s1 Hl H1) as [o Hm]. pose proof (step_decided _ _ _ _ _ oid o acl Hs Ho Hm) as Hd. cbn [o_who] in Hd.
  destruct who as [i|z|].
  - destruct Hd as [(_ & Hon & _)|(_ & E & _)]; [exfalso|right; exact E].
    destruct (who_of _ _ _ _ _ _ (dir_unique _ _ H1) Hy Hw) as (a & Ea & (D1 & D2 & D3 & D4) & _).
    destruct Hon as [[Hid _]|(g & sc & Hg & Hacl & _)]; [congruence|]. apply D4 in Hg as [Hg _].
    exact (not_in_outside uid g evs1 s1 (Hrem g Hacl) H1 a Ea Hg).
  - left. apply Hd.
  - destruct Hw as [(u & x & _ & _ & C)|[_ [=]]]. destruct (d_users _ !! u); [destruct C as [(j & _ & [=])|(g & _ & _ & [=])]|discriminate].
Qed.

Lemma deleted_refused evs1 ev evs2 s uid tok : lib_history lib_empty (evs1 ++ ev :: evs2) s ->
  lib_token (lv_call ev) = Some tok -> token_of uid tok evs1 -> deleted uid evs1 -> turned_away (lv_reply ev).
Proof.
  intros H Ht Htok Hdel. apply lh_mid in H as (s1 & s2 & H1 & Hs & _). destruct (token_says uid tok evs1 s1 Htok H1) as [exp Hy].
  pose proof (deleted_absent uid evs1 s1 Hdel H1) as Ha.
  assert (HR : forall q, resolves (ls_dir s1) (x_now (lv_x ev)) tok q -> q = Err EIdUserNotFound \/ q = Err EIdNotAuthenticated).
  { intros q [(u & x & A & _ & C)|[_ ->]]; [|now right]. destruct (dir_unique _ _ H1 _ _ _ _ _ Hy A) as [<- <-]. rewrite Ha in C. now left. }
  assert (CA : forall r0 d' body, as_caller (lv_x ev) tok (ls_dir s1) r0 d' body -> r0 = Err EIdUserNotFound \/ r0 = Err EIdNotAuthenticated).
  { intros r0 d' body [(i & A & _)|(y & A & -> & _)]; [destruct (HR _ A); discriminate|]. destruct (HR _ A) as [[= ->]|[= ->]]; auto. }
  destruct (lv_call ev) as [c|c|c], (lv_reply ev) as [r|r|r]; cbn [lib_step lib_token turned_away] in *; try contradiction.
  - destruct Hs as (who & Hw & Hs & _). rewrite Ht in Hw. cbn [caller] in Hw.
    assert (E : exists y, who = Err y) by (destruct (HR who Hw) as [-> | ->]; eauto). destruct E as [y ->].
    unfold spec_step, with_access, with_scope, refuse in Hs. cbn [o_who] in Hs. destruct c; cbn [call_token] in Ht; try discriminate; apply Hs.
  - destruct Hs as (who & Hw & Hs & _). injection Ht as Ht. rewrite Ht in Hw. cbn [caller] in Hw.
    assert (E : exists y, who = Err y) by (destruct (HR who Hw) as [-> | ->]; eauto). destruct E as [y ->]. apply Hs.
  - destruct Hs as (Hs & _). destruct c; try discriminate; injection Ht as ->; cbn [sa_step] in Hs; unfold change_membership in Hs; try (eapply CA, Hs).
    destruct Hs as (q & A & -> & _). destruct (HR q A) as [-> | ->]; cbn; auto.
Qed.

Lemma identity_decides evs1 ev evs2 s tok i oid acl c r : lib_history lib_empty (evs1 ++ ev :: evs2) s ->
  lv_call ev = OnObject c -> lv_reply ev = LObject r -> call_token c = Some tok -> call_oid c = Some oid ->
  identified tok i evs1 -> current tok (x_now (lv_x ev)) evs1 -> listed oid acl evs1 ->
  let allowed := scope_has (i_scopes i) (call_need c) /\ on_list i (call_need c) acl in
  (allowed -> (exists y, r = Ok y) \/ (x_rng_fails (lv_x ev) /\ r = Err ERandom)) /\
  (~ allowed -> r = Err ED1NotAuthorized).
Proof.
  intros H Hc Hr Ht Ho (pre & ev0 & mid & -> & Ec & Er & Hn) Hcur Hl. pose proof H as H'. apply lh_mid in H' as (s1 & s2 & H1 & Hs & _).
  rewrite Hc, Hr in Hs. cbn [lib_step] in Hs. destruct Hs as (who & Hw & Hs & _). rewrite Ht in Hw. cbn [caller] in Hw.
  destruct (listed_there oid acl _ s1 Hl H1) as [o Hm]. pose proof (step_decided _ _ _ _ _ oid o acl Hs Ho Hm) as Hd. cbn [o_who o_rng_fails] in Hd.
  assert (E : who = Ok i).
  { pose proof (dir_unique _ _ H1) as U. pose proof H1 as H1'. apply lh_mid in H1' as (s0 & s0' & H0 & Hs0 & Hmid). rewrite Ec, Er in Hs0. cbn [lib_step sa_step] in Hs0.
    destruct Hs0 as ((q & Hq & Eq & Ed) & _). destruct q as [j|y|]; cbn [res_map] in Eq; try discriminate. injection Eq as <-.
    assert (ES : ls_dir s1 = ls_dir s0').
    { clear - Hmid Hn. induction Hmid as [s|s ev' s1' evs s2' Hs' _ IH]; [reflexivity|]. rewrite IH by (intros ev2 c2 Hin; apply (Hn ev2 c2); now right).
      destruct (step_dir _ _ _ _ _ Hs') as [(c0 & r0 & Ec' & Er' & Hd)|[_ E]]; [|exact E].
      destruct (Hn ev' c0 (or_introl eq_refl) Ec') as [t ->]. destruct Hd as (q & _ & _ & ->). reflexivity. }
    rewrite Ed in ES. rewrite ES in *. destruct Hq as [(u & exp & A & _ & C)|[_ [=]]].
    destruct (d_users (ls_dir s0) !! u) as [a|] eqn:Ea; [|discriminate]. destruct C as [(i' & D & [= <-])|(g & _ & _ & [=])].
    eapply resolves_unique; [exact U|exact Hw|]. left. exists u, exp. split; [exact A|]. rewrite Ea. split; [|left; eauto].
    rewrite <- ES in A. destruct (says_login _ _ _ H1 _ _ _ A) as [(z & [] & _)|(ev' & pw & t & n & Hin & E1 & E2 & E3 & ->)].
    eapply Hcur; eauto. }
  subst who. cbv zeta. destruct Hd as [(A & B & C)|(A & B & C)]; tauto.
Qed.

(** The same of the code. *)
Section Code.
  Context (evs1 evs2 : list lib_event) (ev : lib_event).
  Notation evs := (evs1 ++ ev :: evs2).
  Context (spec : exists s, lib_history lib_empty evs s).
  Lemma code_revoked uid tok oid acl c r :
    lv_call ev = OnObject c -> lv_reply ev = LObject r -> call_token c = Some tok -> call_oid c = Some oid ->
    token_of uid tok evs1 -> listed oid acl evs1 -> uid ∉ acl -> (forall g, g ∈ acl -> not_in uid g evs1) ->
    r = Err ED1NotAuthenticated \/ r = Err ED1NotAuthorized.
  Proof. destruct spec as [s H]. exact (revoked_refused evs1 ev evs2 s uid tok oid acl c r H). Qed.
  Lemma code_deleted uid tok : lib_token (lv_call ev) = Some tok -> token_of uid tok evs1 -> deleted uid evs1 -> turned_away (lv_reply ev).
  Proof. destruct spec as [s H]. exact (deleted_refused evs1 ev evs2 s uid tok H). Qed.
  Lemma code_decides tok i oid acl c r :
    lv_call ev = OnObject c -> lv_reply ev = LObject r -> call_token c = Some tok -> call_oid c = Some oid ->
    identified tok i evs1 -> current tok (x_now (lv_x ev)) evs1 -> listed oid acl evs1 ->
    let allowed := scope_has (i_scopes i) (call_need c) /\ on_list i (call_need c) acl in
    (allowed -> (exists y, r = Ok y) \/ (x_rng_fails (lv_x ev) /\ r = Err ERandom)) /\
    (~ allowed -> r = Err ED1NotAuthorized).
  Proof. destruct spec as [s H]. exact (identity_decides evs1 ev evs2 s tok i oid acl c r H). Qed.
End Code.
