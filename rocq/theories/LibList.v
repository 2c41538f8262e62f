(** What C74 means for callers: access lists, and who is let in by them, follow the calls that have been answered. *)
From Coq Require Import ZifyN ZifyNat.
From stdpp Require Import gmap.
From Verif Require Import Bytes Go Uuid Time Types World Id Data D1 Spec SpecProofs Standalone StandaloneSpec StandaloneHist Index IndexSpec Lib LibSpec LibCor LibConcSpec LibConcUseSpec LibConcUse LibReadSpec LibRead LibListSpec.
Local Open Scope nat_scope.

(** ** Steps *)
Definition has_group (oid : uuid) (g : bytes) (m : objects) : Prop := exists o acl, m !! oid = Some (o, acl) /\ g ∈ acl.
Definition lacks_group (oid : uuid) (g : bytes) (m : objects) : Prop := forall o acl, m !! oid = Some (o, acl) -> g ∉ acl.
Lemma step_on x c m r m' oid g : spec_step x c m r m' -> has_group oid g m -> (may_take oid g (OnObject c) -> failed (LObject r)) -> has_group oid g m'.
Proof.
  intros H (o & acl & Hm & Hg) Hk. destruct (decide (call_oid c = Some oid)) as [Eo|Eo]; [|exists o, acl; split; [eapply step_other; eauto|exact Hg]].
  assert (RO : only_reads c \/ ~ only_reads c) by (destruct c; cbn; tauto). destruct RO as [RO|RO]; [rewrite (step_reads _ _ _ _ _ H RO); exists o, acl; auto|].
  assert (K : has_group oid g m) by (exists o, acl; auto).
  destruct x as [who rf oi]. unfold spec_step, with_access, with_scope, or_random, refuse in H. cbn [o_who o_rng_fails o_id] in H.
  destruct c; cbn [call_oid only_reads may_take failed] in *; try discriminate; try (destruct (RO Logic.I)); injection Eo as ->; rewrite Hm in H;
    (destruct who as [i|z|]; [|destruct H as [_ ->]; exact K..]); destruct H as [(_ & _ & ->)|(_ & [(_ & _ & ->)|(_ & H)])]; try exact K.
  - destruct H as [(_ & _ & ->)|(_ & ->)]; [exact K|]. exists obj, acl. now rewrite lookup_insert.
  - destruct H as (-> & _). destruct (Hk eq_refl).
  - destruct H as [(_ & _ & ->)|(_ & ->)]; [exact K|]. do 2 eexists. rewrite lookup_insert. split; [reflexivity|]. apply elem_of_union. now left.
  - destruct H as [(_ & _ & ->)|(-> & ->)]; [exact K|]. do 2 eexists. rewrite lookup_insert. split; [reflexivity|]. apply elem_of_difference. split; [exact Hg|].
    rewrite elem_of_list_to_set, elem_of_list_In. intros Hin. exact (Hk (conj eq_refl Hin)).
Qed.
Lemma lacks_insert oid oid' g o acl m : lacks_group oid g m -> (oid' = oid -> g ∉ acl) -> lacks_group oid g (<[oid' := (o, acl)]> m).
Proof.
  intros H Hn o1 a1 H1. destruct (decide (oid' = oid)) as [->|N]; [rewrite lookup_insert in H1; injection H1 as <- <-; auto|]. rewrite lookup_insert_ne in H1 by exact N. eauto.
Qed.
Lemma step_off x c m r m' oid g : spec_step x c m r m' -> lacks_group oid g m -> (may_put oid g (OnObject c) -> not_put oid (LObject r)) -> lacks_group oid g m'.
Proof.
  intros H Hm Hk. destruct x as [who rf oi]. unfold spec_step, with_access, with_scope, or_random, refuse in H. cbn [o_who o_rng_fails o_id] in H.
  destruct c; cbn [may_put not_put] in *; try (destruct H as [-> _]; exact Hm);
    (destruct who as [i|z|]; [|destruct H as [_ ->]; exact Hm..]); destruct H as [(_ & _ & ->)|(_ & H)]; try exact Hm.
  - destruct H as [(_ & _ & ->)|(o & _ & H)]; [exact Hm|]. destruct (m !! o) eqn:Eo; destruct H as [E ->]; [exact Hm|].
    apply lacks_insert; [exact Hm|]. intros ->. rewrite E in Hk. destruct (Hk Logic.I eq_refl).
  - destruct (m !! oid0) as [[o acl]|] eqn:E0; [|destruct H as [_ ->]; exact Hm]. destruct H as [(_ & _ & ->)|(_ & [(_ & _ & ->)|(_ & ->)])]; [exact Hm..|].
    apply lacks_insert; [exact Hm|]. intros ->. eauto.
  - destruct (m !! oid0) as [[o acl]|]; [|destruct H as [_ ->]; exact Hm]. destruct H as [(_ & _ & ->)|(_ & _ & ->)]; exact Hm.
  - destruct (m !! oid0) as [[o acl]|]; [|destruct H as [_ ->]; exact Hm]. destruct H as [(_ & _ & ->)|(_ & _ & ->)]; [exact Hm|].
    intros o1 a1 H1. apply lookup_delete_Some in H1 as [_ H1]. eauto.
  - destruct (m !! oid0) as [[o acl]|]; [|destruct H as [_ ->]; exact Hm]. destruct H as [(_ & _ & ->)|(_ & _ & ->)]; exact Hm.
  - destruct (m !! oid0) as [[o acl]|] eqn:E0; [|destruct H as [_ ->]; exact Hm]. destruct H as [(_ & _ & ->)|(_ & [(_ & _ & ->)|(-> & ->)])]; [exact Hm..|].
    apply lacks_insert; [exact Hm|]. intros ->. rewrite elem_of_union, elem_of_list_to_set, elem_of_list_In. intros [Hg|Hg]; [exact (Hm _ _ E0 Hg)|exact (Hk (conj eq_refl Hg))].
  - destruct (m !! oid0) as [[o acl]|] eqn:E0; [|destruct H as [_ ->]; exact Hm]. destruct H as [(_ & _ & ->)|(_ & [(_ & _ & ->)|(_ & ->)])]; [exact Hm..|].
    apply lacks_insert; [exact Hm|]. intros -> Hg. apply elem_of_difference in Hg as [Hg _]. exact (Hm _ _ E0 Hg).
  - destruct (m !! oid0) as [[o acl]|]; [|destruct H as [_ ->]; exact Hm]. destruct H as [(_ & _ & ->)|(_ & _ & ->)]; exact Hm.
Qed.
(** What the answers show. *)
Lemma shown_on x c m r m' oid g : spec_step x c m r m' -> shows_on oid g (OnObject c) (LObject r) -> has_group oid g m'.
Proof.
  intros H K. destruct x as [who rf oi]. unfold spec_step, with_access, with_scope, or_random, refuse in H. cbn [o_who o_rng_fails o_id] in H.
  destruct c; cbn [shows_on] in K; try contradiction; destruct r as [y|y|]; try contradiction; destruct y; try contradiction;
    (destruct who as [i|z|]; [|destruct H as [[=] _]..]); destruct H as [(_ & [=] & _)|(_ & H)].
  - destruct K as [-> K]. destruct H as [(_ & [=] & _)|(o & _ & H)]. destruct (m !! o); destruct H as [E ->]; [discriminate|]. injection E as <-.
    do 2 eexists. rewrite lookup_insert. split; [reflexivity|]. rewrite elem_of_list_to_set, elem_of_list_In. now right.
  - match goal with K : match ?l with Some _ => _ | None => _ end |- _ => destruct l as [acl|]; [|contradiction] end. destruct K as [-> K]. destruct (m !! oid) as [[o a]|] eqn:E0; [|destruct H as [[=] _]]. destruct H as [(_ & [=] & _)|(_ & [= <-] & ->)]. exists o, acl. auto.
  - destruct K as [-> K]. destruct (m !! oid) as [[o a]|] eqn:E0; [|destruct H as [[=] _]]. destruct H as [(_ & [=] & _)|(_ & [(_ & [=] & _)|(_ & ->)])].
    do 2 eexists. rewrite lookup_insert. split; [reflexivity|]. rewrite elem_of_union, elem_of_list_to_set, elem_of_list_In. now right.
Qed.
Lemma shown_off x c m r m' oid g : spec_step x c m r m' -> shows_off oid g (OnObject c) (LObject r) -> lacks_group oid g m'.
Proof.
  intros H K. destruct x as [who rf oi]. unfold spec_step, with_access, with_scope, or_random, refuse in H. cbn [o_who o_rng_fails o_id] in H.
  destruct c; cbn [shows_off] in K; try contradiction; destruct r as [y|y|]; try contradiction; destruct y; try contradiction;
    (destruct who as [i|z|]; [|destruct H as [[=] _]..]); destruct H as [(_ & [=] & _)|(_ & H)].
  - subst. destruct (m !! oid) as [[o a]|] eqn:E0; [|destruct H as [_ ->]; intros o1 a1; congruence]. destruct H as [(_ & [=] & _)|(_ & _ & ->)]. intros o1 a1. rewrite lookup_delete. discriminate.
  - match goal with K : match ?l with Some _ => _ | None => _ end |- _ => destruct l as [acl|]; [|contradiction] end. destruct K as [-> K]. destruct (m !! oid) as [[o a]|] eqn:E0; [|destruct H as [[=] _]]. destruct H as [(_ & [=] & _)|(_ & [= <-] & ->)]. intros o1 a1 H1. congruence.
  - destruct K as [-> K]. destruct (m !! oid) as [[o a]|] eqn:E0; [|destruct H as [[=] _]]. destruct H as [(_ & [=] & _)|(_ & [(_ & [=] & _)|(_ & ->)])].
    intros o1 a1. rewrite lookup_insert. intros [= <- <-]. rewrite elem_of_difference, elem_of_list_to_set, elem_of_list_In. tauto.
Qed.

Section Cor.
  Context (e : env) (tra trb : list lib_obs) (c : lib_call) (r : lib_reply).
  Notation tr := (tra ++ LCall c :: trb).
  Notation n := (length (lib_calls tra)).
  Context (acts : exists hs s, lib_acts e tr hs s) (Hr : In (LReply n r) trb).
  (** What an answer has shown stays so, if all calls that may change it are over. *)
  Lemma stays (P : objects -> Prop) (shows : lib_call -> lib_reply -> Prop) (kind : lib_call -> Prop) (harmless : lib_reply -> Prop) :
    (forall c0 r0, shows c0 r0 -> exists d q, c0 = OnObject d /\ r0 = LObject q) ->
    (forall x d m q m', spec_step x d m q m' -> shows (OnObject d) (LObject q) -> P m') ->
    (forall x d m q m', spec_step x d m q m' -> P m -> (kind (OnObject d) -> harmless (LObject q)) -> P m') ->
    forall hs s pre h post a, lib_acts e tr hs s -> hs = pre ++ h :: post -> half_call h = n -> is_lookup h = false -> half_history lib_empty pre a ->
    (exists tr1 c0 r0, answered_call c0 r0 tr1 tra /\ shows c0 r0 /\ over n tr tr1 kind harmless) -> P (ls_objects a).
  Proof.
    intros Hsh Hfirst Hnext hs s pre h post a H E A L H1 (tr0 & c0 & q0 & Ha & Hs0 & Hov). destruct (Hsh _ _ Hs0) as (d & q & -> & ->).
    pose proof H as (_ & ND & HO & _ & HR & _).
    destruct (came_before e tr hs s H _ _ _ _ _ _ Ha eq_refl pre h post E A) as (q1 & h' & mid & Ep & A' & B' & C' & D').
    rewrite Ep in H1. apply hh_mid in H1 as (a1 & b1 & _ & Hs & H2).
    assert (Hin' : In h' hs) by (rewrite E, Ep; apply in_app_iff; left; apply in_app_iff; right; now left). specialize (HO _ Hin') as Ho'.
    assert (H0 : P (ls_objects b1)).
    { destruct h' as [k ev'|k x' t' w'|k ev'|k ev']; cbn [half_reply] in B'; try discriminate; injection B' as <-. cbn [half_of half_call half_step] in Ho', C', Hs. destruct Ho' as [Ho' _]. rewrite C' in Ho'. injection Ho' as ->.
      eapply Hfirst; [apply Hs|exact Hs0]. }
    apply (hh_inv (fun s => P (ls_objects s)) _ _ _ H2 H0). intros h0 a0 b0 Hin Hst0 Hob.
    destruct h0 as [k ev0|k x0 t0 w0|k ev0|k ev0]; cbn [half_step] in Hst0; [destruct Hst0 as (_ & -> & _); exact Hob|destruct Hst0 as (_ & ->); exact Hob| |destruct Hst0 as (_ & _ & ->); exact Hob].
    destruct Hst0 as (Hst0 & _). eapply Hnext; [exact Hst0|exact Hob|]. intros Hk.
    assert (Hin0 : In (HObject k ev0) hs) by (rewrite E, Ep; apply in_app_iff; left; apply in_app_iff; right; now right). destruct (HO _ Hin0) as [Hk0 _].
    assert (Nk : k <> n).
    { intros ->. apply (half_twice e tr hs s H pre (h :: post) (HObject n ev0) h E); [rewrite Ep; apply in_app_iff; right; now right|now left|now rewrite A|now rewrite L]. }
    destruct (Hov k _ Hk0 Nk Hk) as (r' & [Hr'|[Hr' Hf]]).
    - exfalso. destruct (D' k r' Hr') as (h1 & X & Y & Z). apply (half_twice e tr hs s H q1 (h' :: mid ++ h :: post) h1 (HObject k ev0)); [rewrite E, Ep, <- app_assoc; reflexivity|exact X|right; apply in_app_iff; now left|exact Y|now rewrite (reply_acts _ _ Z)].
    - destruct (HR k r' Hr') as (h1 & X & Y & Z). assert (Eq : h1 = HObject k ev0) by (apply (one_half e tr hs s H); [exact X|exact Hin0|exact Y|now rewrite (reply_acts _ _ Z)]). subst h1.
      cbn [half_reply] in Z. injection Z as <-. exact Hf.
  Qed.
  Lemma is_on oid g hs s pre h post a : lib_acts e tr hs s -> hs = pre ++ h :: post -> half_call h = n -> is_lookup h = false -> half_history lib_empty pre a ->
    group_on oid g n tr tra -> has_group oid g (ls_objects a).
  Proof.
    apply stays; [|intros *; apply shown_on|intros *; apply step_on]. intros c0 r0. destruct c0 as [d|d|d]; try contradiction. destruct r0 as [q|q|q]; eauto; intros K; exfalso; destruct d; exact K.
  Qed.
  Lemma is_off oid g hs s pre h post a : lib_acts e tr hs s -> hs = pre ++ h :: post -> half_call h = n -> is_lookup h = false -> half_history lib_empty pre a ->
    group_off oid g n tr tra -> lacks_group oid g (ls_objects a).
  Proof.
    apply stays; [|intros *; apply shown_off|intros *; apply step_off]. intros c0 r0. destruct c0 as [d|d|d]; try contradiction. destruct r0 as [q|q|q]; eauto; intros K; exfalso; destruct d; exact K.
  Qed.

  Lemma list_has tok oid g r0 : c = OnObject (CGetAccessGroups tok oid) -> r = LObject r0 -> group_on oid g n tr tra ->
    (exists acl, r0 = Ok (RGroups (Some acl)) /\ g ∈ acl) \/ r0 = Err ED1NotAuthenticated \/ r0 = Err ED1NotAuthorized.
  Proof.
    intros Ec Er Hon. pose proof acts as (hs & s & H).
    destruct (call_looks_up e tra trb c r acts Hr hs s tok H ltac:(rewrite Ec; reflexivity)) as (h & pre & post & E & A & B & C).
    destruct h as [m ev|m x t w|m ev|m ev]; cbn [half_reply] in B; [destruct C as (_ & c1 & C); congruence|contradiction| |destruct C; congruence].
    destruct C as (C & x & p1 & p2 & E0). assert (Eev : ev_call ev = CGetAccessGroups tok oid) by congruence. rewrite Er in B. injection B as B. clear C.
    pose proof (no_panic e tra trb c hs s pre _ post x tok _ p1 p2 H E E0) as NP.
    pose proof H as (HH & _). rewrite E in HH. apply hh_mid in HH as (a & b & H1 & (St & _) & _). rewrite Eev, B in St.
    destruct (is_on oid g hs s pre _ post a H E A eq_refl H1 Hon) as (o & acl & Ob & Hg).
    unfold spec_step, with_access, with_scope, refuse in St. rewrite Ob in St. destruct (o_who (ev_outside ev)) as [i|z|]; [|right; left; apply St|destruct (NP eq_refl)].
    destruct St as [(_ & St & _)|(_ & [(_ & St & _)|(_ & St & _)])]; eauto.
  Qed.
  Lemma list_lacks tok oid g l : c = OnObject (CGetAccessGroups tok oid) -> r = LObject (Ok (RGroups l)) -> group_off oid g n tr tra -> exists acl, l = Some acl /\ g ∉ acl.
  Proof.
    intros Ec Er Hoff. pose proof acts as (hs & s & H).
    destruct (call_looks_up e tra trb c r acts Hr hs s tok H ltac:(rewrite Ec; reflexivity)) as (h & pre & post & E & A & B & C).
    destruct h as [m ev|m x t w|m ev|m ev]; cbn [half_reply] in B; [destruct C as (_ & c1 & C); congruence|contradiction| |destruct C; congruence].
    destruct C as (C & x & p1 & p2 & E0). assert (Eev : ev_call ev = CGetAccessGroups tok oid) by congruence. rewrite Er in B. injection B as B. clear C.
    pose proof H as (HH & _). rewrite E in HH. apply hh_mid in HH as (a & b & H1 & (St & _) & _). rewrite Eev, B in St.
    pose proof (is_off oid g hs s pre _ post a H E A eq_refl H1 Hoff) as Hl.
    unfold spec_step, with_access, with_scope, refuse in St. destruct (o_who (ev_outside ev)) as [i|z|]; [|destruct St as [[=] _]..].
    destruct St as [(_ & [=] & _)|(_ & St)]. destruct (ls_objects a !! oid) as [[o acl]|] eqn:Ob; [|destruct St as [[=] _]]. destruct St as [(_ & [=] & _)|(_ & [= ->] & _)]. exists acl. split; [reflexivity|]. exact (Hl _ _ Ob).
  Qed.
  Lemma off_refused uid tok oid c0 r0 : c = OnObject c0 -> r = LObject r0 -> call_token c0 = Some tok -> call_oid c0 = Some oid -> logged_in uid tok tra ->
    group_off oid uid n tr tra -> (forall g, group_off oid g n tr tra \/ user_not_in uid g tr tra) ->
    r0 = Err ED1NotAuthenticated \/ r0 = Err ED1NotAuthorized \/ r0 = Err ED1AccessNotFound \/ c0 = CDelete tok oid /\ r0 = Ok RUnit.
  Proof.
    intros Ec Er Ht Ho Hl Hu Hg. pose proof acts as (hs & s & H). destruct (call_looks_up e tra trb c r acts Hr hs s tok H ltac:(rewrite Ec; exact Ht)) as (h & pre & post & E & A & B & C).
    destruct h as [m ev|m x t w|m ev|m ev]; cbn [half_reply] in B; [destruct C as (_ & c1 & C); congruence|contradiction| |destruct C; congruence].
    destruct C as (C & x & p1 & p2 & E0). assert (Eev : ev_call ev = c0) by congruence. rewrite Er in B. injection B as B. clear C.
    pose proof (no_panic e tra trb c hs s pre _ post x tok _ p1 p2 H E E0) as NP.
    pose proof H as (HH & _). pose proof HH as HH'. rewrite E in HH. apply hh_mid in HH as (a & b & H1 & (St & _) & _). rewrite Eev, B in St.
    destruct (ls_objects a !! oid) as [[o acl]|] eqn:Ob.
    - pose proof (step_decided _ _ _ _ _ oid o acl St Ho Ob) as Hd.
      rewrite E, E0, <- app_assoc in HH'. cbn [app] in HH'. apply hh_mid in HH' as (a1 & b1 & H2 & (Hq & _) & _). set (who := o_who (ev_outside ev)) in *.
      assert (E1 : hs = p1 ++ HLookup n x tok who :: (p2 ++ HObject m ev :: post)) by (rewrite E, E0, <- app_assoc; reflexivity).
      destruct (has_token e tra trb c hs s H p1 _ _ E1 eq_refl a1 H2 uid tok Hl) as (exp & Hy). destruct who as [i|z|]; [|left; apply Hd|destruct (NP eq_refl)].
      destruct Hd as [(_ & Hon & _)|(_ & Q & _)]; [exfalso|auto].
      destruct (who_of _ _ _ _ _ _ (half_unique _ _ H2) Hy Hq) as (ac & Ea & (D1 & D2 & D3 & D4) & _).
      destruct Hon as [[Hid _]|(g & sc & Hgs & Hacl & _)].
      + rewrite D1 in Hid. exact (is_off oid uid hs s pre _ post a H E A eq_refl H1 Hu _ _ Ob Hid).
      + destruct (Hg g) as [K|K]; [exact (is_off oid g hs s pre _ post a H E A eq_refl H1 K _ _ Ob Hacl)|]. apply D4 in Hgs as [Hgs _].
        exact (is_outside e tra trb c hs s H p1 _ _ E1 eq_refl a1 H2 uid g K ac Ea Hgs).
    - unfold spec_step, with_access, with_scope, or_random, refuse in St. destruct c0; cbn [call_token call_oid] in Ht, Ho; try discriminate; injection Ht as ->; injection Ho as ->; rewrite Ob in St;
        (destruct (o_who (ev_outside ev)) as [i|z|]; [|left; apply St|destruct (NP eq_refl)]); destruct St as [(_ & St & _)|(_ & St & _)]; auto.
  Qed.
End Cor.
