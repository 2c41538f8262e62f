(** Lemmas behind the property theorems about sequential use, refusals, crashes and faults. *)
From Coq Require Import ZifyN ZifyNat.
From stdpp Require Import gmap.
From Verif Require Import Bytes Go Json JsonProofs Uuid UuidProofs Types TypesProofs World Logic
  Cryptor CryptorProofs IoSpec IoProofs Id Data D1 D1Proofs D1Calls Spec SpecProofs History D1Refine D1Local
  Claims SpecTheory Gcm Kwp.
Local Open Scope bool_scope.
Local Open Scope N_scope.

(** ** The specification is deterministic, given the replies *)
Lemma step_det x c m r m1 m2 : spec_step x c m r m1 -> spec_step x c m r m2 -> m1 = m2.
Proof.
  intros H1 H2. destruct c; cbn [spec_step] in *; unfold with_access, with_scope, or_random, refuse in *;
    destruct (o_who x) as [i| |];
    repeat match goal with
    | H : _ \/ _ |- _ => destruct H as [H|H]
    | H : exists _, _ |- _ => destruct H
    | H : _ /\ _ |- _ => destruct H
    | H : match ?m !! ?o with _ => _ end |- _ => let E := fresh "E" in destruct (m !! o) as [[? ?]|] eqn:E
    end; subst; try congruence; try contradiction.
Qed.
Lemma history_det evs : forall m m1 m2, spec_history m evs m1 -> spec_history m evs m2 -> m1 = m2.
Proof.
  induction evs as [|ev evs IH]; intros m m1 m2 H1 H2; inversion H1; inversion H2; subst; [congruence|].
  match goal with A : spec_step _ _ _ _ ?a, B : spec_step _ _ _ _ ?b |- _ => assert (a = b) as -> by exact (step_det _ _ _ _ _ _ A B) end.
  eauto.
Qed.
Lemma spec_history_app evs1 : forall evs2 m m', spec_history m (evs1 ++ evs2) m' ->
  exists m1, spec_history m evs1 m1 /\ spec_history m1 evs2 m'.
Proof.
  induction evs1 as [|ev evs1 IH]; intros evs2 m m' H; cbn [app] in H.
  - exists m. split; [constructor|exact H].
  - inversion H as [|? ? mx ? ? Hst Hh]; subst. destruct (IH _ _ _ Hh) as (m1 & A & B). exists m1. split; [econstructor; eauto|exact B].
Qed.

Section Props.
  Context {S I : Type} (e : env) (v : view S) (io : provider S) (Hio : io_spec False v io).
  Notation W := (world S I).
  Context (idp : bytes -> prog W (res identity)) (Hidp : idp_reads v idp) (d : d1).
  Notation store_of w := (v_map v (w_io w)).
  Notation SO := DataTypeSealedObject.
  Notation SA := DataTypeSealedAccess.
  Notation history D := (history e v io idp d D).
  Notation fresh D := (fresh v D).

  Lemma fresh_rep D (w : W) : fresh D w -> rep d D (store_of w) ∅.
  Proof.
    intros [_ H]. split; intros oid.
    - intros HD _. replace ((∅ : objects) !! oid) with (@None (object * gset bytes)) by (symmetry; apply lookup_empty). auto.
    - intros HN. exfalso. apply HN, lookup_empty.
  Qed.

  (** ** C02 *)
  Lemma refine_fresh D w evs w' : fresh D w -> history D w evs w' -> Forall event_ok evs ->
    exists m, spec_history ∅ (List.filter (ev_in D) evs) m /\ rep d D (store_of w') m /\ v_inv v (w_io w').
  Proof.
    intros HF HH Hok. eapply history_refines; eauto; [apply HF|]. now apply fresh_rep.
  Qed.
  Lemma history_app D w evs1 evs2 w' : history D w (evs1 ++ evs2) w' ->
    exists w1, history D w evs1 w1 /\ history D w1 evs2 w'.
  Proof.
    intros H. remember (evs1 ++ evs2) as evs eqn:E. revert evs1 E. induction H as [w|w w1 evs w2 He H IH|w c r w1 evs w2 Hr H IH]; intros evs1 E.
    - symmetry in E. apply app_eq_nil in E as [-> ->]. exists w. split; constructor.
    - destruct (IH _ E) as (w3 & A & B). exists w3. split; [econstructor; eauto|exact B].
    - destruct evs1 as [|ev evs1]; cbn [app] in E.
      + subst evs2. exists w. split; [constructor|]. eapply h_call; eauto.
      + injection E as <- ->. destruct (IH _ eq_refl) as (w3 & A & B). exists w3. split; [eapply h_call; eauto|exact B].
  Qed.
  (** One event in the middle of a history. *)
  Lemma history_at D w evs1 ev evs2 w' : fresh D w -> history D w (evs1 ++ ev :: evs2) w' -> Forall event_ok (evs1 ++ ev :: evs2) ->
    ev_in D ev = true ->
    exists m1 m2 m', spec_history ∅ (List.filter (ev_in D) evs1) m1 /\
      spec_step (ev_outside ev) (ev_call ev) m1 (ev_reply ev) m2 /\
      spec_history m2 (List.filter (ev_in D) evs2) m'.
  Proof.
    intros HF HH Hok HD. destruct (refine_fresh D w _ w' HF HH Hok) as (m' & Hs & _).
    rewrite List.filter_app in Hs. cbn [List.filter] in Hs. rewrite HD in Hs.
    apply spec_history_app in Hs as (m1 & H1 & H2). inversion H2; subst. eauto 10.
  Qed.

  (** ** C01 *)
  Lemma encrypt_lasts tok obj gs w oid w1 evs w2 i : v_inv v (w_io w) ->
    run (d1_aes e io idp d (CEncrypt tok obj gs)) w = (Ok (ROid oid), w1) ->
    whois idp w tok = Ok i ->
    history (only oid) w1 evs w2 -> Forall event_ok evs -> Forall (fun ev => ~ about oid ev) evs ->
    uuid_wf oid /\ v_inv v (w_io w2) /\
    exists m2, rep d (only oid) (store_of w2) m2 /\ m2 !! oid = Some (obj, list_to_set (map as_text (i_id i :: gs))).
  Proof.
    intros Hi Hr Hw HH Hok Hq.
    unfold d1_aes in Hr. cbn [d1_do] in Hr. rewrite run_ret_map in Hr.
    pose proof (holds_self v w Hi) as H.
    pose proof (encrypt_spec e False v io Hio idp Hidp d tok obj gs w _ H) as E. apply wpc_end in E.
    destruct (run (d1_encrypt _ _ _ _ _ _ _ _) w) as [r0 w0]. cbn [fst snd] in *. injection Hr as Hr <-.
    destruct r0 as [oid0| |]; try discriminate. injection Hr as ->.
    destruct E as [E|[[] _]]. unfold verified in E. rewrite Hw in E.
    destruct (scope_contains _ _); [|destruct E; discriminate].
    destruct E as [(oid' & Hd & N1 & N2 & [= <-] & so & sa & (dek & B1 & B2) & HH')|[(oid' & _ & _ & C & _)|[(oid' & _ & _ & _ & C & _)|(C & _)]]]; try discriminate.
    pose proof (drawn_wf _ _ _ _ _ Hd) as Hoid.
    set (acl := list_to_set (map as_text (i_id i :: gs)) : gset bytes) in *.
    assert (Ea : (list_to_set (gs ++ [i_id i]) : gset bytes) = list_to_set (i_id i :: gs)) by set_solver.
    pose proof (texts_valid (i_id i :: gs)) as V. change (forall g, g ∈ acl -> valid_utf8 g = true) in V.
    rewrite Ea, norm_texts in B2.
    assert (R1 : rep d (only oid) (store_of w0) {[oid := (obj, acl)]}).
    { apply (rep_seq d (only oid) (upd_map oid (store_of w) so sa UBoth)); [apply seq_sym, HH'|]. split.
      - intros oid' HD Hoid'. apply bytes_eqb_eq in HD. subst oid'. rewrite lookup_singleton. split; [|exact V].
        exists so, sa, dek. cbn [upd_map]. rewrite upd_other by (intros [=]; discriminate). rewrite !upd_same. auto.
      - intros oid' HN. destruct (decide (oid' = oid)) as [->|Hne]; [|rewrite lookup_singleton_ne in HN by congruence; congruence].
        split; [apply bytes_eqb_refl|exact Hoid]. }
    destruct (history_refines e v io Hio idp Hidp d (only oid) _ _ _ _ HH (proj1 HH') R1 Hok) as (m2 & Hs & R2 & Hi2).
    assert (Hm2 : m2 !! oid = Some (obj, acl)).
    { assert (Hm : ({[oid := (obj, acl)]} : objects) !! oid = Some (obj, acl)) by apply lookup_singleton.
      revert Hs Hm. generalize ({[oid := (obj, acl)]} : objects). clear - Hq Hok. induction evs as [|ev evs IH]; intros m Hs Hm; cbn [List.filter] in Hs.
      - inversion Hs. now subst.
      - pose proof (List.Forall_inv_tail Hok) as Hoks. pose proof (List.Forall_inv_tail Hq) as Hqs. apply List.Forall_inv in Hq.
        destruct (ev_in (only oid) ev); [|eauto].
        inversion Hs as [|? ? m1 ? ? Hst Hs']; subst. apply (IH Hoks Hqs m1 Hs').
        rewrite (step_quiet _ _ _ _ _ oid Hst); [exact Hm|exact Hq|].
        intros Hc. clear - Hst Hc Hm. rewrite Hc in Hst. destruct (ev_call ev); cbn [spec_step] in Hst; unfold with_access, with_scope, or_random, refuse in Hst;
          destruct (o_who (ev_outside ev)) as [j| |];
          repeat match goal with
          | H : _ \/ _ |- _ => destruct H as [H|H]
          | H : exists _, _ |- _ => destruct H
          | H : _ /\ _ |- _ => destruct H
          | H : match ?m !! ?o with _ => _ end |- _ => let E := fresh "E" in destruct (m !! o) as [[? ?]|] eqn:E
          end; try discriminate; try congruence;
          match goal with H : forall y, _ -> exists t, _ |- _ => destruct (H _ eq_refl); discriminate end. }
    split; [exact Hoid|]. split; [exact Hi2|]. exists m2. split; [exact R2|exact Hm2].
  Qed.
  Lemma roundtrip tok obj gs w oid w1 evs w2 tok' i : v_inv v (w_io w) ->
    run (d1_aes e io idp d (CEncrypt tok obj gs)) w = (Ok (ROid oid), w1) ->
    whois idp w tok = Ok i ->
    history (only oid) w1 evs w2 -> Forall event_ok evs -> Forall (fun ev => ~ about oid ev) evs ->
    allowed (whois idp w2 tok') ScopeDecrypt (list_to_set (map as_text (i_id i :: gs))) ->
    fst (run (d1_aes e io idp d (CDecrypt tok' oid)) w2) = Ok (RObject obj).
  Proof.
    intros Hi Hr Hw HH Hok Hq Hall.
    destruct (encrypt_lasts tok obj gs w oid w1 evs w2 i Hi Hr Hw HH Hok Hq) as (Hoid & Hi2 & m2 & R2 & Hm2).
    unfold d1_aes. cbn [d1_do]. rewrite run_ret_map. cbn [fst].
    pose proof (holds_self v w2 Hi2) as H2.
    pose proof (decrypt_spec e False v io Hio idp Hidp d tok' oid w2 _ H2) as E. apply wpc_end in E.
    destruct (run (d1_decrypt _ _ _ _ _ _) w2) as [r0 w3]. cbn [fst snd] in *.
    destruct E as [->|[[] _]].
    pose proof (checked_rep v idp d (only oid) w2 tok' ScopeDecrypt oid m2 R2 (bytes_eqb_refl oid) Hoid) as C.
    destruct Hall as (j & Ej & Hs1 & Hl).
    destruct (checked _ _ _ _ _ _ _) as [a|x|].
    - destruct C as (i' & o & acl' & dek' & ba & bo & Ew & _ & Em & _ & -> & Hba & Hbo & Oa & Oo & _).
      rewrite Hm2 in Em. injection Em as <- <-. cbn [res_bind]. unfold read_object. rewrite Hbo. cbn [a_dek]. rewrite Oo. reflexivity.
    - exfalso. destruct C as [(y & _ & _ & z & C)|[(C & _)|[(i' & _ & C & C')|[(i' & _ & C & _ & C')|(i' & o & acl' & _ & C & C1 & C2 & C3)]]]]; congruence.
    - exfalso. destruct C as [(y & C & _)|[(_ & C)|[(i' & C & _)|[(i' & C & _)|(i' & o & acl' & C & _)]]]]; congruence.
  Qed.

  (** ** C03 *)
  Lemma decision_exact D w evs1 ev evs2 w' m oid o acl need : fresh D w ->
    history D w (evs1 ++ ev :: evs2) w' -> Forall event_ok (evs1 ++ ev :: evs2) ->
    D oid = true -> about oid ev -> call_scope (ev_call ev) = Some need ->
    spec_history ∅ (List.filter (ev_in D) evs1) m -> m !! oid = Some (o, acl) ->
    (allowed (o_who (ev_outside ev)) need acl -> served (ev_reply ev)) /\
    (~ allowed (o_who (ev_outside ev)) need acl -> refused (o_who (ev_outside ev)) (ev_reply ev)).
  Proof.
    intros HF HH Hok HD Hab Hn Hm Ho.
    assert (Hin : ev_in D ev = true).
    { unfold ev_in, ev_oid. unfold about in Hab. destruct (ev_call ev); try discriminate; rewrite Hab; exact HD. }
    destruct (history_at D w evs1 ev evs2 w' HF HH Hok Hin) as (m1 & m2 & m' & H1 & H2 & H3).
    rewrite (history_det _ _ _ _ Hm H1) in Ho.
    destruct (step_decision _ _ _ _ _ need oid o acl H2 Hn Hab Ho) as [A B]. split; [exact A|]. intros N. apply (B N).
  Qed.

  (** ** C05 *)
  Lemma revocation D w evs1 tok oid G out evs2 ev evs3 w' (X : bytes -> Prop) i : fresh D w ->
    let rem := mkEvent out (CRemoveGroups tok oid G) (Ok RUnit) in
    history D w (evs1 ++ rem :: evs2 ++ ev :: evs3) w' -> Forall event_ok (evs1 ++ rem :: evs2 ++ ev :: evs3) ->
    D oid = true ->
    (forall x, X x -> In x G \/ forall m o acl, spec_history ∅ (List.filter (ev_in D) evs1) m -> m !! oid = Some (o, acl) -> x ∉ acl) ->
    Forall (fun ev => ~ adds_to oid X ev /\ ~ creates oid ev) evs2 ->
    about oid ev -> o_who (ev_outside ev) = Ok i -> (forall x, has_id i x -> X x) ->
    ev_reply ev = Err ED1NotAuthorized \/
    (Exists (deletes oid) evs2 /\ (ev_reply ev = Err ED1AccessNotFound \/
                                   (ev_reply ev = Ok RUnit /\ exists t, ev_call ev = CDelete t oid))).
  Proof.
    intros HF rem HH Hok HD HX HN Hab Hw Hids.
    assert (Hin : ev_in D rem = true) by exact HD.
    destruct (history_at D w evs1 rem _ w' HF HH Hok Hin) as (m1 & m2 & m' & H1 & H2 & H3).
    assert (Hin' : ev_in D ev = true).
    { unfold ev_in, ev_oid. unfold about in Hab. destruct (ev_call ev); try discriminate; rewrite Hab; exact HD. }
    rewrite List.filter_app in H3. cbn [List.filter] in H3. rewrite Hin' in H3.
    apply spec_history_app in H3 as (m3 & H3 & H4). inversion H4 as [|? ? m4 ? ? Hst _]; subst.
    assert (HR : revoked oid X m2).
    { cbn [spec_step ev_outside ev_call ev_reply rem] in H2. unfold with_access, with_scope, or_random, refuse in H2.
      destruct (o_who out) as [j| |]; [|destruct H2; discriminate..].
      destruct H2 as [[_ [? _]]|[_ H2]]; [discriminate|].
      destruct (m1 !! oid) as [[o acl]|] eqn:Em; [|destruct H2; discriminate].
      destruct H2 as [[_ [? _]]|[_ [[_ [? _]]|[_ ->]]]]; try discriminate.
      unfold revoked. rewrite lookup_insert. intros x Hx Hin''. apply elem_of_difference in Hin'' as [A B].
      destruct (HX x Hx) as [Hg|Hg].
      - apply B. apply elem_of_list_to_set, elem_of_list_In, Hg.
      - exact (Hg m1 o acl H1 Em A). }
    assert (HN' : Forall (fun ev => ~ adds_to oid X ev /\ ~ creates oid ev) (List.filter (ev_in D) evs2)).
    { apply List.Forall_forall. intros y Hy. apply List.filter_In in Hy as [Hy _]. rewrite List.Forall_forall in HN. auto. }
    destruct (history_revoked _ oid X _ _ H3 HN') as [_ HR'].
    destruct (revoked_refused _ _ _ _ _ oid X i Hst Hab Hw Hids) as [A B].
    destruct (HR' HR) as [HR''|[Hn He]].
    - left. apply (A HR'').
    - destruct (B Hn) as [[C|[C|[C1 C2]]] _]; [auto|right|right].
      all: split; [|eauto].
      all: apply List.Exists_exists in He as (y & Hy & Hd); apply List.filter_In in Hy as [Hy _]; apply List.Exists_exists; eauto.
  Qed.

  (** ** C06 *)
  Lemma locked D w evs1 evs2 w' m oid o : fresh D w ->
    history D w (evs1 ++ evs2) w' -> Forall event_ok (evs1 ++ evs2) -> D oid = true ->
    spec_history ∅ (List.filter (ev_in D) evs1) m -> m !! oid = Some (o, ∅) ->
    Forall (fun ev => about oid ev -> refused (o_who (ev_outside ev)) (ev_reply ev)) evs2 /\
    exists m', spec_history ∅ (List.filter (ev_in D) (evs1 ++ evs2)) m' /\ m' !! oid = Some (o, ∅).
  Proof.
    intros HF HH Hok HD Hm Ho. destruct (refine_fresh D w _ w' HF HH Hok) as (m' & Hs & _).
    pose proof Hs as Hs0. rewrite List.filter_app in Hs. apply spec_history_app in Hs as (m1 & H1 & H2).
    rewrite (history_det _ _ _ _ Hm H1) in Ho.
    destruct (history_locked _ _ _ _ _ H2 Ho) as [A B]. split; [|eauto].
    apply List.Forall_forall. intros ev Hev Hab. rewrite List.Forall_forall in B. apply B; [|exact Hab].
    apply List.filter_In. split; [exact Hev|].
    unfold ev_in, ev_oid. unfold about in Hab. destruct (ev_call ev); try discriminate; rewrite Hab; exact HD.
  Qed.
End Props.
