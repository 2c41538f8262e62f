(** Consequences of the specification in CrashSpec.v. *)
From stdpp Require Import gmap.
From Verif Require Import Bytes Go Uuid Types World IoSpec Id D1 D1Proofs Spec History Claims CrashSpec.
Local Open Scope N_scope.

(** An answered call does no more than one that was cut. *)
Lemma step_cut odd x c s r s' : x_step odd x c s r s' -> x_cut x c s s'.
Proof.
  unfold x_step, x_cut, by_access, by_scope, or_rng, deny, entitled. intros H.
  destruct c as [tok obj gs|tok oid obj|tok oid|tok oid|tok oid|tok oid gs|tok oid gs|tok oid|pt|t]; try (left; tauto);
    destruct (o_who x) as [i|y|]; try (left; tauto); destruct H as [H|[Hs H]]; try (left; tauto).
  - destruct H as [H|(oid & Hid & H)]; [left; tauto|].
    destruct (sh_obj s !! oid) eqn:Eo; [left; tauto|]. destruct (sh_acl s !! oid) eqn:Ea; destruct H as [_ ->]; right; exists i, oid; auto 10.
  - destruct (sh_acl s !! oid) as [acl|]; [|left; tauto]. destruct H as [H|[Hl [H|H]]]; try (left; tauto).
    destruct (sh_obj s !! oid) eqn:Eo; [|left; tauto]. destruct H as [_ ->]. right. exists acl. split; [exists i; auto|]. split; [discriminate|auto].
  - left. destruct (sh_acl s !! oid) as [acl|]; [|tauto]. destruct H as [H|[_ H]]; [tauto|]. destruct (sh_obj s !! oid); tauto.
  - destruct (sh_acl s !! oid) as [acl|]; [|left; tauto]. destruct H as [H|(Hl & _ & ->)]; [left; tauto|].
    right. exists acl. split; [exists i; auto|]. auto.
  - left. destruct (sh_acl s !! oid); tauto.
  - destruct (sh_acl s !! oid) as [acl|]; [|left; tauto]. destruct H as [H|[Hl [H|[_ ->]]]]; try (left; tauto).
    right. exists acl. split; [exists i; auto|]. auto.
  - destruct (sh_acl s !! oid) as [acl|]; [|left; tauto]. destruct H as [H|[Hl [H|[_ ->]]]]; try (left; tauto).
    right. exists acl. split; [exists i; auto|]. auto.
  - left. destruct (sh_acl s !! oid); tauto.
Qed.
Lemma hap_cut h s s' : hap_step h s s' -> x_cut (hap_outside h) (hap_call h) s s'.
Proof. destruct h as [odd ev|x c]; cbn [hap_step hap_outside hap_call]; [|auto]. intros [H|(y & _ & _ & H)]; [eapply step_cut; exact H|exact H]. Qed.

Lemma xh_app hs1 : forall hs2 s s', x_history s (hs1 ++ hs2) s' <-> exists s1, x_history s hs1 s1 /\ x_history s1 hs2 s'.
Proof.
  induction hs1 as [|h hs1 IH]; intros hs2 s s'; cbn [app].
  - split; [intros H; exists s; split; [constructor|exact H]|]. intros (s1 & H1 & H2). inversion H1; subst. exact H2.
  - split.
    + intros H. inversion H as [|? ? s1 ? ? E1 E2]; subst. apply IH in E2 as (s2 & E2 & E3). exists s2. split; [econstructor; eauto|exact E3].
    + intros (s1 & H1 & H2). inversion H1 as [|? ? s2 ? ? E1 E2]; subst. econstructor; [exact E1|]. apply IH. eauto.
Qed.
Lemma xh_cons_inv h hs s s' : x_history s (h :: hs) s' -> exists s1, hap_step h s s1 /\ x_history s1 hs s'.
Proof. intros H. inversion H; subst. eauto. Qed.

(** ** Words for what a call was asked to do *)
(** [h] asks for [o] to be stored under [oid], and its caller may make such calls. *)
Definition may (need : N) (h : happening) : Prop := exists i, o_who (hap_outside h) = Ok i /\ scope_has (i_scopes i) need.
Definition writes (oid : uuid) (o : object) (h : happening) : Prop :=
  match hap_call h with
  | CUpdate _ oid' o' => oid' = oid /\ o' = o /\ may ScopeUpdate h
  | CEncrypt _ o' _ => o_id (hap_outside h) = Ok oid /\ o' = o /\ may ScopeEncrypt h
  | _ => False
  end.
(** [h] asks for [g] to be put on the access list of [oid]. *)
Definition names (oid : uuid) (g : bytes) (h : happening) : Prop :=
  match hap_call h with
  | CAddGroups _ oid' gs => oid' = oid /\ In g (map as_text gs)
  | CEncrypt _ _ gs => o_id (hap_outside h) = Ok oid /\ exists i, o_who (hap_outside h) = Ok i /\ In g (map as_text (i_id i :: gs))
  | _ => False
  end.
(** [h] asks for [oid] to be updated or deleted; or for its access list to be cut down. *)
Definition replaces (oid : uuid) (h : happening) : Prop :=
  match hap_call h with CUpdate _ oid' _ | CDelete _ oid' => oid' = oid | _ => False end.
Definition narrows (oid : uuid) (h : happening) : Prop :=
  match hap_call h with CRemoveGroups _ oid' _ => oid' = oid | _ => False end.

(** ** What is stored was asked for *)
Lemma cut_written h s s' oid o : x_cut (hap_outside h) (hap_call h) s s' -> sh_obj s' !! oid = Some o ->
  sh_obj s !! oid = Some o \/ writes oid o h.
Proof.
  unfold x_cut, writes, may. intros [->|H] Ho; [now left|].
  destruct (hap_call h) as [tok obj gs|tok oid' obj|tok oid'|tok oid'|tok oid'|tok oid' gs|tok oid' gs|tok oid'|pt|t]; try contradiction.
  - destruct H as (i & oid' & Hw & Hs & Hid & _ & [->|[_ ->]]); cbn [put_object put_both sh_obj] in Ho;
      (destruct (decide (oid' = oid)) as [->|Hne]; [rewrite lookup_insert in Ho; injection Ho as <-; eauto 10|rewrite lookup_insert_ne in Ho by exact Hne; auto]).
  - destruct H as (acl & (i & Hw & Hs & _) & _ & [->| ->]); cbn [put_object put_both sh_obj] in Ho;
      (destruct (decide (oid' = oid)) as [->|Hne]; [rewrite lookup_insert in Ho; injection Ho as <-; eauto 10|rewrite lookup_insert_ne in Ho by exact Hne; auto]).
  - left. destruct H as (acl & _ & [->| ->]); cbn [drop_object drop_both sh_obj] in Ho;
      (destruct (decide (oid' = oid)) as [->|Hne]; [rewrite lookup_delete in Ho; discriminate|rewrite lookup_delete_ne in Ho by exact Hne; auto]).
  - left. destruct H as (acl & _ & ->). exact Ho.
  - left. destruct H as (acl & _ & ->). exact Ho.
Qed.
Lemma history_written s hs s' oid o : x_history s hs s' -> sh_obj s' !! oid = Some o ->
  sh_obj s !! oid = Some o \/ Exists (writes oid o) hs.
Proof.
  induction 1 as [s|s h s1 hs s2 H1 _ IH]; [auto|]. intros Ho. destruct (IH Ho) as [E|E]; [|right; now apply Exists_cons_tl].
  destruct (cut_written _ _ _ _ _ (hap_cut _ _ _ H1) E) as [E'|E']; [now left|right; now apply Exists_cons_hd].
Qed.
Lemma reads_written hs1 odd ev hs2 s' tok oid o : x_history shelf_empty (hs1 ++ Answered odd ev :: hs2) s' ->
  ev_call ev = CDecrypt tok oid -> ev_reply ev = Ok (RObject o) -> Exists (writes oid o) hs1 \/ odd.
Proof.
  intros H Hc Hr. apply xh_app in H as (s1 & H1 & H). apply xh_cons_inv in H as (s2 & H & _).
  cbn [hap_step] in H. rewrite Hc, Hr in H. destruct H as [H|(y & [=] & _)].
  cbn [x_step] in H. unfold by_access, by_scope, deny in H.
  destruct (o_who (ev_outside ev)) as [i|y|]; [|destruct H; discriminate..].
  destruct H as [(_ & [=] & _)|[_ H]]. destruct (sh_acl s1 !! oid) as [acl|]; [|destruct H; discriminate].
  destruct H as [(_ & [=] & _)|[_ H]]. destruct (sh_obj s1 !! oid) as [o'|] eqn:Eo; [|destruct H; discriminate].
  destruct H as [_ [E|(_ & [(y & [=])|H])]]; [|now right]. injection E as <-. left.
  destruct (history_written _ _ _ _ _ H1 Eo) as [E|E]; [|exact E]. unfold shelf_empty in E. cbn [sh_obj] in E. rewrite lookup_empty in E. discriminate.
Qed.

(** ** Who is on a list was put there *)
Definition lists (s : shelf) (oid : uuid) (g : bytes) : Prop := exists acl, sh_acl s !! oid = Some acl /\ g ∈ acl.
Lemma cut_listed h s s' oid g : x_cut (hap_outside h) (hap_call h) s s' -> lists s' oid g -> lists s oid g \/ names oid g h.
Proof.
  unfold x_cut, names, lists. intros [->|H] (acl' & Hl & Hg); [eauto|].
  destruct (hap_call h) as [tok obj gs|tok oid' obj|tok oid'|tok oid'|tok oid'|tok oid' gs|tok oid' gs|tok oid'|pt|t]; try contradiction.
  - destruct H as (i & oid' & Hw & _ & Hid & _ & [->|[_ ->]]); cbn [put_object put_both sh_acl] in Hl; [eauto|].
    destruct (decide (oid' = oid)) as [->|Hne]; [|rewrite lookup_insert_ne in Hl by exact Hne; eauto].
    rewrite lookup_insert in Hl. injection Hl as <-. right. split; [exact Hid|]. exists i. split; [exact Hw|].
    apply elem_of_list_In, (elem_of_list_to_set (C := acl_t)). exact Hg.
  - destruct H as (acl & (i & _ & _ & Hs & _) & _ & [->| ->]); cbn [put_object put_both sh_acl] in Hl; [eauto|].
    destruct (decide (oid' = oid)) as [->|Hne]; [|rewrite lookup_insert_ne in Hl by exact Hne; eauto].
    rewrite lookup_insert in Hl. injection Hl as <-. eauto.
  - destruct H as (acl & _ & [->| ->]); cbn [drop_object drop_both sh_acl] in Hl; [eauto|].
    destruct (decide (oid' = oid)) as [->|Hne]; [rewrite lookup_delete in Hl; discriminate|rewrite lookup_delete_ne in Hl by exact Hne; eauto].
  - destruct H as (acl & (i & _ & _ & Hs & _) & ->). cbn [put_list sh_acl] in Hl.
    destruct (decide (oid' = oid)) as [->|Hne]; [|rewrite lookup_insert_ne in Hl by exact Hne; eauto].
    rewrite lookup_insert in Hl. injection Hl as <-. apply elem_of_union in Hg as [Hg|Hg]; [eauto|].
    right. split; [reflexivity|]. apply elem_of_list_to_set in Hg. now apply elem_of_list_In.
  - destruct H as (acl & (i & _ & _ & Hs & _) & ->). cbn [put_list sh_acl] in Hl.
    destruct (decide (oid' = oid)) as [->|Hne]; [|rewrite lookup_insert_ne in Hl by exact Hne; eauto].
    rewrite lookup_insert in Hl. injection Hl as <-. left. exists acl. split; [exact Hs|]. set_solver.
Qed.
Lemma history_listed s hs s' oid g : x_history s hs s' -> lists s' oid g -> lists s oid g \/ Exists (names oid g) hs.
Proof.
  induction 1 as [s|s h s1 hs s2 H1 _ IH]; [auto|]. intros Hl. destruct (IH Hl) as [E|E]; [|right; now apply Exists_cons_tl].
  destruct (cut_listed _ _ _ _ _ (hap_cut _ _ _ H1) E) as [E'|E']; [now left|right; now apply Exists_cons_hd].
Qed.
(** Nobody off the list is served. *)
Lemma off_list odd ev s s' oid i : x_step odd (ev_outside ev) (ev_call ev) s (ev_reply ev) s' -> call_oid (ev_call ev) = Some oid ->
  o_who (ev_outside ev) = Ok i -> (forall x, has_id i x -> ~ lists s oid x) ->
  s' = s /\ (ev_reply ev = Err ED1NotAuthorized \/ ev_reply ev = Err ED1AccessNotFound \/
             (ev_reply ev = Ok RUnit /\ sh_acl s !! oid = None /\ exists t, ev_call ev = CDelete t oid)).
Proof.
  intros H Hc Hw Hoff.
  assert (OFF : forall need acl, sh_acl s !! oid = Some acl -> ~ on_list i need acl).
  { intros need acl Ha [[Hi _]|(g & sc & Hg & Hin & _)]; (eapply Hoff; [|exists acl; split; [exact Ha|]]); [now left|exact Hi|right; rewrite Hg; discriminate|exact Hin]. }
  destruct (ev_call ev) as [tok obj gs|tok oid' obj|tok oid'|tok oid'|tok oid'|tok oid' gs|tok oid' gs|tok oid'|pt|t]; try discriminate;
    injection Hc as ->; cbn [x_step] in H; unfold by_access, by_scope, or_rng, deny in H; rewrite Hw in H; destruct H as [H|[_ H]]; try tauto.
  all: destruct (sh_acl s !! oid) as [acl|] eqn:Ea; [destruct H as [H|[Hl _]]; [tauto|destruct (OFF _ _ eq_refl Hl)]|].
  all: try tauto.
  destruct H as [-> ->]. split; [reflexivity|]. right. right. eauto.
Qed.

(** ** Revocation *)
Lemma revoked hs1 odd rem hs2 h hs3 s' tok oid G i :
  x_history shelf_empty (hs1 ++ Answered odd rem :: hs2 ++ h :: hs3) s' ->
  ev_call rem = CRemoveGroups tok oid G -> ev_reply rem = Ok RUnit ->
  call_oid (hap_call h) = Some oid -> o_who (hap_outside h) = Ok i ->
  (forall x, has_id i x -> In x G /\ Forall (fun h => ~ names oid x h) hs2) ->
  x_history shelf_empty (hs1 ++ Answered odd rem :: hs2 ++ hs3) s' /\
  (forall odd' ev, h = Answered odd' ev ->
    ev_reply ev = Err ED1NotAuthorized \/ ev_reply ev = Err ED1AccessNotFound \/ (exists y, ev_reply ev = Err y /\ fault y) \/
    (ev_reply ev = Ok RUnit /\ exists t, ev_call ev = CDelete t oid)).
Proof.
  intros H Hc Hr Ho Hw HX. apply xh_app in H as (s1 & H1 & H). apply xh_cons_inv in H as (s2 & H2 & H).
  apply xh_app in H as (s3 & H3 & H). apply xh_cons_inv in H as (s4 & H4 & H).
  assert (OFF2 : forall x, In x G -> ~ lists s2 oid x).
  { intros x Hx (acl & Hl & Hin). cbn [hap_step] in H2. rewrite Hc, Hr in H2. destruct H2 as [H2|(y & [=] & _)].
    cbn [x_step] in H2. unfold by_access, by_scope, or_rng, deny in H2.
    destruct (o_who (ev_outside rem)); [|destruct H2; discriminate..]. destruct H2 as [(_ & [=] & _)|[_ H2]].
    destruct (sh_acl s1 !! oid) as [acl1|]; [|destruct H2; discriminate].
    destruct H2 as [(_ & [=] & _)|[_ [(_ & [=] & _)|(_ & ->)]]]. cbn [put_list sh_acl] in Hl. rewrite lookup_insert in Hl. injection Hl as <-.
    apply elem_of_difference in Hin as [_ Hin]. apply Hin, elem_of_list_to_set. now apply elem_of_list_In. }
  assert (OFF : forall x, has_id i x -> ~ lists s3 oid x).
  { intros x Hx Hl. destruct (HX x Hx) as [HG HN]. destruct (history_listed _ _ _ _ _ H3 Hl) as [E|E]; [exact (OFF2 x HG E)|].
    apply Exists_exists in E as (h' & Hin & E). rewrite Forall_forall in HN. exact (HN h' Hin E). }
  assert (NOT : forall need acl, ~ entitled (hap_outside h) need oid s3 acl).
  { intros need acl (i' & Hw' & _ & Hl & [[Hi _]|(g & sc & Hg & Hin & _)]); rewrite Hw in Hw'; injection Hw' as <-;
      (eapply OFF; [|exists acl; split; [exact Hl|]]); [now left|exact Hi|right; rewrite Hg; discriminate|exact Hin]. }
  assert (E34 : s4 = s3).
  { apply hap_cut in H4. unfold x_cut in H4. destruct H4 as [E|E]; [exact E|]. exfalso.
    destruct (hap_call h); try discriminate; try contradiction; injection Ho as ->; destruct E as (acl & E & _); exact (NOT _ _ E). }
  subst s4. split.
  - apply xh_app. exists s1. split; [exact H1|]. econstructor; [exact H2|]. apply xh_app. exists s3. auto.
  - intros odd' ev ->. cbn [hap_step hap_call hap_outside] in *. destruct H4 as [H4|(y & Hy & Hf & _)]; [|right; right; left; eauto].
    destruct (off_list _ _ _ _ _ _ H4 Ho Hw OFF) as [_ [E|[E|(E & _ & E')]]]; auto.
Qed.

(** ** Durability *)
Lemma cut_keeps h s s' oid o acl : x_cut (hap_outside h) (hap_call h) s s' -> ~ replaces oid h ->
  sh_obj s !! oid = Some o -> oid ∉ sh_torn s -> sh_acl s !! oid = Some acl ->
  sh_obj s' !! oid = Some o /\ oid ∉ sh_torn s' /\ exists acl', sh_acl s' !! oid = Some acl' /\ (~ narrows oid h -> acl ⊆ acl').
Proof.
  unfold x_cut, replaces, narrows. intros [->|H] Hr Ho Ht Ha; [eauto 10|].
  destruct (hap_call h) as [tok obj gs|tok oid' obj|tok oid'|tok oid'|tok oid'|tok oid' gs|tok oid' gs|tok oid'|pt|t]; try contradiction.
  - destruct H as (i & oid' & _ & _ & _ & Hn & H). assert (Hne : oid' <> oid) by congruence.
    destruct H as [->|[_ ->]]; cbn [put_object put_both sh_obj sh_acl sh_torn]; rewrite !lookup_insert_ne by exact Hne;
      (split; [exact Ho|]; split; [set_solver|]; exists acl; auto).
  - destruct H as (acl' & _ & _ & [->| ->]); cbn [put_object put_both sh_obj sh_acl sh_torn]; rewrite !lookup_insert_ne by exact Hr;
      (split; [exact Ho|]; split; [set_solver|]; exists acl; auto).
  - destruct H as (acl' & _ & [->| ->]); cbn [drop_object drop_both sh_obj sh_acl sh_torn]; rewrite !lookup_delete_ne by exact Hr;
      (split; [exact Ho|]; split; [set_solver|]; exists acl; auto).
  - destruct H as (acl' & (i & _ & _ & Hs & _) & ->). cbn [put_list sh_obj sh_acl sh_torn]. split; [exact Ho|]. split; [exact Ht|].
    destruct (decide (oid' = oid)) as [->|Hne]; [|rewrite lookup_insert_ne by exact Hne; exists acl; auto].
    rewrite lookup_insert. eexists. split; [reflexivity|]. intros _. rewrite Ha in Hs. injection Hs as <-. set_solver.
  - destruct H as (acl' & (i & _ & _ & Hs & _) & ->). cbn [put_list sh_obj sh_acl sh_torn]. split; [exact Ho|]. split; [exact Ht|].
    destruct (decide (oid' = oid)) as [->|Hne]; [|rewrite lookup_insert_ne by exact Hne; exists acl; auto].
    rewrite lookup_insert. eexists. split; [reflexivity|]. intros C. destruct (C eq_refl).
Qed.
Lemma history_keeps s hs s' oid o acl : x_history s hs s' -> Forall (fun h => ~ replaces oid h) hs ->
  sh_obj s !! oid = Some o -> oid ∉ sh_torn s -> sh_acl s !! oid = Some acl ->
  sh_obj s' !! oid = Some o /\ oid ∉ sh_torn s' /\ exists acl', sh_acl s' !! oid = Some acl' /\ (Forall (fun h => ~ narrows oid h) hs -> acl ⊆ acl').
Proof.
  intros H. revert acl. induction H as [s|s h s1 hs s2 H1 _ IH]; intros acl HR Ho Ht Ha; [eauto 10|].
  pose proof (Forall_inv HR) as Hr. apply Forall_inv_tail in HR.
  destruct (cut_keeps _ _ _ _ _ _ (hap_cut _ _ _ H1) Hr Ho Ht Ha) as (Ho1 & Ht1 & acl1 & Ha1 & Hs1).
  destruct (IH acl1 HR Ho1 Ht1 Ha1) as (Ho2 & Ht2 & acl2 & Ha2 & Hs2). split; [exact Ho2|]. split; [exact Ht2|].
  exists acl2. split; [exact Ha2|]. intros HN. pose proof (Forall_inv HN). apply Forall_inv_tail in HN. etransitivity; auto.
Qed.
(** The event completed a write of [o] under [oid]. *)
Definition wrote (oid : uuid) (o : object) (ev : event) : Prop :=
  (exists t gs, ev_call ev = CEncrypt t o gs /\ ev_reply ev = Ok (ROid oid)) \/
  (exists t, ev_call ev = CUpdate t oid o /\ ev_reply ev = Ok RUnit).
Lemma wrote_whole odd ev s s' oid o : hap_step (Answered odd ev) s s' -> wrote oid o ev ->
  sh_obj s' !! oid = Some o /\ oid ∉ sh_torn s' /\ exists acl, sh_acl s' !! oid = Some acl /\
    (forall t gs i, ev_call ev = CEncrypt t o gs -> o_who (ev_outside ev) = Ok i -> acl = list_to_set (map as_text (i_id i :: gs))).
Proof.
  cbn [hap_step]. intros H [(t & gs & Hc & Hr)|(t & Hc & Hr)]; rewrite Hc, Hr in H; (destruct H as [H|(y & [=] & _)]);
    cbn [x_step] in H; unfold by_access, by_scope, or_rng, deny in H; (destruct (o_who (ev_outside ev)) as [i|y|]; [|destruct H; discriminate..]);
    destruct H as [(_ & [=] & _)|[_ H]].
  - destruct H as [(_ & [=] & _)|(oid' & _ & H)].
    destruct (sh_obj s !! oid'); [destruct H; discriminate|]. destruct (sh_acl s !! oid'); [destruct H; discriminate|].
    destruct H as [[= ->] ->]. cbn [put_both sh_obj sh_acl sh_torn]. rewrite !lookup_insert. split; [reflexivity|]. split; [set_solver|].
    eexists. split; [reflexivity|]. intros t' gs' i' E [= <-]. rewrite Hc in E. injection E as <- <-. reflexivity.
  - destruct (sh_acl s !! oid) as [acl|]; [|destruct H; discriminate]. destruct H as [(_ & [=] & _)|[_ [(_ & [=] & _)|H]]].
    destruct (sh_obj s !! oid); [|destruct H; discriminate]. destruct H as [_ ->].
    cbn [put_both sh_obj sh_acl sh_torn]. rewrite !lookup_insert. split; [reflexivity|]. split; [set_solver|].
    eexists. split; [reflexivity|]. intros t' gs' i' E. rewrite Hc in E. discriminate.
Qed.
Lemma durable hs1 odd wr hs2 odd' rd hs3 s' tok oid o :
  x_history shelf_empty (hs1 ++ Answered odd wr :: hs2 ++ Answered odd' rd :: hs3) s' ->
  wrote oid o wr -> Forall (fun h => ~ replaces oid h) hs2 -> ev_call rd = CDecrypt tok oid ->
  (ev_reply rd = Ok (RObject o) \/ refused (o_who (ev_outside rd)) (ev_reply rd) \/ exists y, ev_reply rd = Err y /\ fault y) /\
  (forall t gs i, ev_call wr = CEncrypt t o gs -> o_who (ev_outside wr) = Ok i -> Forall (fun h => ~ narrows oid h) hs2 ->
     allowed (o_who (ev_outside rd)) ScopeDecrypt (list_to_set (map as_text (i_id i :: gs))) ->
     ev_reply rd = Ok (RObject o) \/ exists y, ev_reply rd = Err y /\ fault y).
Proof.
  intros H Hwr HR Hc. apply xh_app in H as (s1 & _ & H). apply xh_cons_inv in H as (s2 & H2 & H).
  apply xh_app in H as (s3 & H3 & H). apply xh_cons_inv in H as (s4 & H4 & _).
  destruct (wrote_whole _ _ _ _ _ _ H2 Hwr) as (Ho & Ht & acl & Ha & Hacl).
  destruct (history_keeps _ _ _ _ _ _ H3 HR Ho Ht Ha) as (Ho3 & Ht3 & acl3 & Ha3 & Hsub).
  cbn [hap_step] in H4. rewrite Hc in H4. destruct H4 as [H4|(y & Hy & Hf & _)]; [|split; eauto].
  cbn [x_step] in H4. unfold by_access, by_scope, deny in H4. unfold refused, allowed. rewrite Ha3, Ho3 in H4.
  destruct (o_who (ev_outside rd)) as [i|y|].
  2,3: destruct H4 as [-> _]; split; [auto|]; intros t gs i _ _ _ (i' & [=] & _).
  destruct H4 as [(Hs & -> & _)|[Hs H4]]; [split; [auto|]; intros t gs i0 _ _ _ (i' & [= <-] & Hs' & _); contradiction|].
  destruct H4 as [(Hl & -> & _)|[Hl [_ [->|[Ht' _]]]]]; [|auto|contradiction].
  split; [auto|]. intros t gs i0 Ew Ewho HN (i' & [= <-] & _ & Hl'). exfalso. apply Hl.
  pose proof (Hacl t gs i0 Ew Ewho) as ->. specialize (Hsub HN).
  destruct Hl' as [[Hi Hsc]|(g & sc & Hg & Hin & Hsc)]; [left; split; [apply Hsub; exact Hi|exact Hsc]|right; exists g, sc; auto].
Qed.
