(** Calls that die and storage that fails: the D1 calls refine the shelves of CrashSpec.v. *)
From Coq Require Import ZifyN ZifyNat.
From stdpp Require Import gmap.
From Verif Require Import Bytes Go Json JsonProofs Uuid UuidProofs Types TypesProofs World Logic
  Cryptor CryptorProofs IoSpec IoProofs Id Data D1 D1Proofs D1Calls Spec SpecProofs History D1Refine D1Local
  Claims SpecTheory D1Props D1Crash UpdateCut CrashSpec.
Local Open Scope bool_scope.
Local Open Scope N_scope.

Section Shelf.
  Context (d : d1).
  Notation SO := DataTypeSealedObject.
  Notation SA := DataTypeSealedAccess.
  (** What the two slots of one id hold. *)
  Definition slot (oid : uuid) (bo ba : option bytes) (p : option object) (a : option acl_t) (torn : Prop) : Prop :=
    match p with
    | None => bo = None
    | Some o => exists b dek, bo = Some b /\ obj_open (d_kek d) oid b (Some dek) = Ok o
    end /\
    match a with
    | None => ba = None
    | Some acl => (forall g, g ∈ acl -> valid_utf8 g = true) /\
        exists b dek, ba = Some b /\ acc_open (d_aek d) oid b = Ok (mkAccess (Some acl) (Some dek)) /\
          (~ torn -> forall o, p = Some o -> exists b', bo = Some b' /\ obj_open (d_kek d) oid b' (Some dek) = Ok o)
    end.
  Definition shelved (st : store) (s : shelf) : Prop :=
    forall oid : uuid, uuid_wf oid -> slot oid (st oid SO) (st oid SA) (sh_obj s !! oid) (sh_acl s !! oid) (oid ∈ sh_torn s).

  Lemma shelved_seq st st' s : seq st st' -> shelved st s -> shelved st' s.
  Proof. intros H R oid W. rewrite <- !H. exact (R oid W). Qed.
  Lemma shelved_slots st st' s : (forall oid dt, dt = SO \/ dt = SA -> st' oid dt = st oid dt) -> shelved st s -> shelved st' s.
  Proof. intros H R oid W. rewrite !H by auto. exact (R oid W). Qed.
  Lemma slot_torn oid bo ba p a (t t' : Prop) : (t -> t') -> slot oid bo ba p a t -> slot oid bo ba p a t'.
  Proof.
    intros H [H1 H2]. split; [exact H1|]. destruct a as [acl|]; [|exact H2].
    destruct H2 as (V & b & dek & E1 & E2 & E3). split; [exact V|]. exists b, dek. split; [exact E1|]. split; [exact E2|]. auto.
  Qed.
  (** One id changes. *)
  Lemma shelved_one st st' s s' (oid : uuid) : shelved st s -> (forall (oid' : uuid) dt, oid' <> oid -> st' oid' dt = st oid' dt) ->
    (forall oid' : uuid, oid' <> oid -> sh_obj s' !! oid' = sh_obj s !! oid' /\ sh_acl s' !! oid' = sh_acl s !! oid' /\
       (oid' ∈ sh_torn s -> oid' ∈ sh_torn s')) ->
    slot oid (st' oid SO) (st' oid SA) (sh_obj s' !! oid) (sh_acl s' !! oid) (oid ∈ sh_torn s') -> shelved st' s'.
  Proof.
    intros R H1 H2 H3 oid' W. destruct (decide (oid' = oid)) as [->|Hne]; [exact H3|].
    destruct (H2 _ Hne) as (-> & -> & Ht). rewrite !H1 by exact Hne. eapply slot_torn; [exact Ht|]. exact (R oid' W).
  Qed.
  Lemma so_sa (oid : uuid) : (oid, SO) <> (oid, SA). Proof. intros [=]. Qed.

  Lemma shelved_put_both st s oid so sa o acl dek : shelved st s -> obj_open (d_kek d) oid so (Some dek) = Ok o ->
    acc_open (d_aek d) oid sa = Ok (mkAccess (Some acl) (Some dek)) -> (forall g, g ∈ acl -> valid_utf8 g = true) ->
    shelved (upd_map oid st so sa UBoth) (put_both oid o acl s).
  Proof.
    intros R Ho Ha V. eapply (shelved_one _ _ _ _ oid R); cbn [upd_map put_both sh_obj sh_acl sh_torn].
    - intros oid' dt Hne. now rewrite !upd_oid by exact Hne.
    - intros oid' Hne. rewrite !lookup_insert_ne by auto. split; [reflexivity|]. split; [reflexivity|]. set_solver.
    - rewrite !lookup_insert, upd_same, upd_other, upd_same by (intros [=]; discriminate). split; [eauto|].
      split; [exact V|]. exists sa, dek. split; [reflexivity|]. split; [exact Ha|]. intros _ o' [= <-]. eauto.
  Qed.
  Lemma shelved_put_object st s oid so sa o dek : shelved st s -> uuid_wf oid -> obj_open (d_kek d) oid so (Some dek) = Ok o ->
    shelved (upd_map oid st so sa UObj) (put_object oid o s).
  Proof.
    intros R W Ho. eapply (shelved_one _ _ _ _ oid R); cbn [upd_map put_object sh_obj sh_acl sh_torn].
    - intros oid' dt Hne. now rewrite !upd_oid by exact Hne.
    - intros oid' Hne. rewrite !lookup_insert_ne by auto. split; [reflexivity|]. split; [reflexivity|]. set_solver.
    - rewrite lookup_insert, upd_same, upd_other by (intros [=]; discriminate). split; [eauto|].
      destruct (R oid W) as [_ R2]. destruct (sh_acl s !! oid) as [acl|]; [|exact R2].
      destruct R2 as (V & b & dek' & E1 & E2 & _). split; [exact V|]. exists b, dek'. split; [exact E1|]. split; [exact E2|]. set_solver.
  Qed.
  Lemma shelved_put_list st s oid sa acl acl0 dek ba : shelved st s -> uuid_wf oid -> sh_acl s !! oid = Some acl0 ->
    st oid SA = Some ba -> acc_open (d_aek d) oid ba = Ok (mkAccess (Some acl0) (Some dek)) ->
    acc_open (d_aek d) oid sa = Ok (mkAccess (Some acl) (Some dek)) -> (forall g, g ∈ acl -> valid_utf8 g = true) ->
    shelved (acc_map oid st sa) (put_list oid acl s).
  Proof.
    intros R W Hs Hba Hb Ha V. eapply (shelved_one _ _ _ _ oid R); cbn [put_list sh_obj sh_acl sh_torn]; unfold acc_map.
    - intros oid' dt Hne. now rewrite !upd_oid by exact Hne.
    - intros oid' Hne. rewrite !lookup_insert_ne by auto. auto.
    - rewrite lookup_insert, upd_same, upd_other by (intros [=]; discriminate).
      destruct (R oid W) as [R1 R2]. rewrite Hs in R2. destruct R2 as (_ & b & dek' & E1 & E2 & E3).
      rewrite Hba in E1. injection E1 as <-. rewrite Hb in E2. injection E2 as <-.
      split; [exact R1|]. split; [exact V|]. exists sa, dek. auto.
  Qed.
  Lemma shelved_drop_object st s oid : shelved st s -> uuid_wf oid -> shelved (del_map oid st DObj) (drop_object oid s).
  Proof.
    intros R W. eapply (shelved_one _ _ _ _ oid R); cbn [del_map drop_object sh_obj sh_acl sh_torn].
    - intros oid' dt Hne. now rewrite !upd_oid by exact Hne.
    - intros oid' Hne. rewrite !lookup_delete_ne by auto. auto.
    - rewrite lookup_delete, upd_same, upd_other by (intros [=]; discriminate). split; [reflexivity|].
      destruct (R oid W) as [_ R2]. destruct (sh_acl s !! oid) as [acl|]; [|exact R2].
      destruct R2 as (V & b & dek' & E1 & E2 & _). split; [exact V|]. exists b, dek'. split; [exact E1|]. split; [exact E2|].
      intros _ o [=].
  Qed.
  Lemma shelved_drop_both st s oid : shelved st s -> shelved (del_map oid st DBoth) (drop_both oid s).
  Proof.
    intros R. eapply (shelved_one _ _ _ _ oid R); cbn [del_map drop_both sh_obj sh_acl sh_torn].
    - intros oid' dt Hne. now rewrite !upd_oid by exact Hne.
    - intros oid' Hne. rewrite !lookup_delete_ne by auto. auto.
    - rewrite !lookup_delete, upd_same, upd_other, upd_same by (intros [=]; discriminate). split; reflexivity.
  Qed.
End Shelf.

Section Sim.
  Context {S I : Type} (e : env) (v : view S).
  Notation W := (world S I).
  Context (idp : bytes -> prog W (res identity)) (Hidp : idp_reads v idp) (d : d1).
  Notation store_of w := (v_map v (w_io w)).
  Notation SO := DataTypeSealedObject.
  Notation SA := DataTypeSealedAccess.

  Lemma holds_shelved (st : store) (w : W) s : holds v st w -> shelved d st s -> shelved d (store_of w) s.
  Proof. intros [_ H]. apply shelved_seq. now apply seq_sym. Qed.

  Lemma checked_shelf (w : W) tok need oid s : shelved d (store_of w) s -> uuid_wf oid ->
    match checked idp d w tok need oid (store_of w) with
    | Ok a => exists i acl dek ba, whois idp w tok = Ok i /\ scope_has (i_scopes i) need /\ sh_acl s !! oid = Some acl /\
                on_list i need acl /\ a = mkAccess (Some acl) (Some dek) /\
                store_of w oid SA = Some ba /\ acc_open (d_aek d) oid ba = Ok a /\ (forall g, g ∈ acl -> valid_utf8 g = true) /\
                (oid ∉ sh_torn s -> forall o, sh_obj s !! oid = Some o -> exists b', store_of w oid SO = Some b' /\ obj_open (d_kek d) oid b' (Some dek) = Ok o)
    | r => (exists x, r = Err x /\ x = ED1NotAuthenticated /\ exists y, whois idp w tok = Err y) \/
           (r = Panic /\ whois idp w tok = Panic) \/
           (exists i, r = Err ED1NotAuthorized /\ whois idp w tok = Ok i /\ ~ scope_has (i_scopes i) need) \/
           (exists i, r = Err ED1AccessNotFound /\ whois idp w tok = Ok i /\ scope_has (i_scopes i) need /\ sh_acl s !! oid = None) \/
           (exists i acl, r = Err ED1NotAuthorized /\ whois idp w tok = Ok i /\ scope_has (i_scopes i) need /\
              sh_acl s !! oid = Some acl /\ ~ on_list i need acl)
    end.
  Proof.
    intros R Hoid. specialize (R oid Hoid). unfold checked, verified, access_check.
    destruct (whois idp w tok) as [i|x|] eqn:Ew; cbn [res_bind]; [|left; eauto|right; left; auto].
    destruct (scope_contains (i_scopes i) need) eqn:Es; cbn [res_bind].
    2:{ apply scope_contains_hasnt in Es. right. right. left. eauto. }
    apply scope_contains_has in Es. destruct R as [_ R].
    destruct (sh_acl s !! oid) as [acl|].
    - destruct R as (V & b & dek & H1 & H2 & H3). rewrite H1, H2. cbn [res_bind].
      destruct (authorized i need _) eqn:Ea.
      + apply (authorized_on_list i need acl (Some dek) Es) in Ea. exists i, acl, dek, b. auto 20.
      + do 4 right. exists i, acl. repeat split; auto. rewrite <- (authorized_on_list i need acl (Some dek) Es). congruence.
    - rewrite R. do 3 right. left. eauto.
  Qed.

  Lemma by_access_checked (w : W) (tok : bytes) (need : N) (oid : uuid) (s : shelf) (r : res d1_reply) (s' : shelf) (body : acl_t -> Prop) :
    shelved d (store_of w) s -> uuid_wf oid ->
    match checked idp d w tok need oid (store_of w) with
    | Ok a => forall acl dek, sh_acl s !! oid = Some acl -> a = mkAccess (Some acl) (Some dek) -> body acl
    | Err x => r = Err x /\ s' = s
    | Panic => r = Panic /\ s' = s
    end -> by_access need (whois idp w tok) oid s r s' body.
  Proof.
    intros R Hoid H. pose proof (checked_shelf w tok need oid s R Hoid) as C. unfold by_access, by_scope, deny.
    destruct (checked idp d w tok need oid (store_of w)) as [a|x|].
    - destruct C as (i & acl & dek & ba & Ew & Hs & Em & Ho & Ea & _). rewrite Ew, Em. right. split; [exact Hs|].
      right. split; [exact Ho|]. eapply H; eauto.
    - destruct H as [-> ->].
      destruct C as [(y & [= ->] & -> & z & ->)|[(C & _)|[(i & [= ->] & -> & C)|[(i & [= ->] & -> & C1 & ->)|(i & acl & [= ->] & -> & C1 & -> & C2)]]]];
        try discriminate; auto 10.
    - destruct H as [-> ->].
      destruct C as [(y & C & _)|[(_ & ->)|[(i & C & _)|[(i & C & _)|(i & acl & C & _)]]]]; try discriminate; auto.
  Qed.

  Section Call.
  Context (iof : provider S) (Hio : io_spec True v iof).

  (** The states a call passes through. *)
  Definition passes (c : d1_call) (w w' : W) : Prop :=
    holds v (store_of w) w' \/
    match c with
    | CEncrypt tok o gs => exists i oid so sa st, verified idp w tok ScopeEncrypt = Ok i /\ drawn e idp w tok oid /\ store_of w oid SO = None /\
        enc_blobs d oid o (gs ++ [i_id i]) so sa /\ (st = UBoth -> store_of w oid SA = None) /\ holds v (upd_map oid (store_of w) so sa st) w'
    | CUpdate tok oid o => exists a so sa st, checked idp d w tok ScopeUpdate oid (store_of w) = Ok a /\ store_of w oid SO <> None /\
        upd_blobs d oid o a so sa /\ holds v (upd_map oid (store_of w) so sa st) w'
    | CDelete tok oid => exists a st, checked idp d w tok ScopeDelete oid (store_of w) = Ok a /\ holds v (del_map oid (store_of w) st) w'
    | CAddGroups tok oid gs => exists a s sa, checked idp d w tok ScopeModifyAccessGroups oid (store_of w) = Ok a /\
        add_groups (a_groups a) gs = Ok s /\ acc_open (d_aek d) oid sa = Ok (mkAccess (norm_set s) (a_dek a)) /\
        holds v (acc_map oid (store_of w) sa) w'
    | CRemoveGroups tok oid gs => exists a sa, checked idp d w tok ScopeModifyAccessGroups oid (store_of w) = Ok a /\
        acc_open (d_aek d) oid sa = Ok (mkAccess (norm_set (remove_groups (a_groups a) gs)) (a_dek a)) /\
        holds v (acc_map oid (store_of w) sa) w'
    | _ => False
    end.
  Lemma call_passes c w : v_inv v (w_io w) -> (forall o, call_oid c = Some o -> uuid_wf o) ->
    wpc (d1_aes e iof idp d c) (passes c w) (fun _ _ => True) w.
  Proof.
    intros Hi Hwf. pose proof (holds_self v w Hi) as H. unfold d1_aes, passes.
    destruct c as [tok obj gs|tok oid obj|tok oid|tok oid|tok oid|tok oid gs|tok oid gs|tok oid|pt|t]; cbn [d1_do call_oid] in *; apply wpc_ret_map.
    - eapply wpc_mono; [| |exact (encrypt_spec e True v iof Hio idp Hidp d tok obj gs w _ H)]; auto.
    - eapply wpc_mono; [| |exact (update_spec e True v iof Hio idp Hidp d tok oid obj w _ H (Hwf _ eq_refl))]; auto.
    - eapply wpc_mono; [| |exact (decrypt_spec e True v iof Hio idp Hidp d tok oid w _ H)]; auto.
    - eapply wpc_mono; [| |exact (delete_spec e True v iof Hio idp Hidp d tok oid w _ H)]; auto.
    - eapply wpc_mono; [| |exact (get_groups_spec e True v iof Hio idp Hidp d tok oid w _ H)]; auto.
    - eapply wpc_mono; [| |exact (add_groups_spec e True v iof Hio idp Hidp d tok oid gs w _ H (Hwf _ eq_refl))]; auto.
    - eapply wpc_mono; [| |exact (remove_groups_spec e True v iof Hio idp Hidp d tok oid gs w _ H (Hwf _ eq_refl))]; auto.
    - eapply wpc_mono; [| |exact (authorize_spec e True v iof Hio idp Hidp d tok oid w _ H)]; auto.
    - eapply wpc_mono; [| |exact (create_token_keeps e d pt w)]; auto. intros w' E. left. unfold holds. now rewrite E.
    - eapply wpc_mono; [| |exact (get_token_keeps e d t w)]; auto. intros w' E. left. unfold holds. now rewrite E.
  Qed.

  Lemma groups_union acl gs : add_groups (Some acl) gs = Ok (Some (acl ∪ list_to_set gs)).
  Proof. destruct gs as [|g gs]; cbn [add_groups]; do 2 f_equal; set_solver. Qed.
  Lemma union_valid (acl : acl_t) gs : (forall g, g ∈ acl -> valid_utf8 g = true) ->
    forall g, g ∈ acl ∪ list_to_set (map as_text gs) -> valid_utf8 g = true.
  Proof. intros V g Hg. apply elem_of_union in Hg as [Hg|Hg]; [now apply V|now apply (texts_valid gs)]. Qed.
  Lemma minus_valid (acl : acl_t) gs : (forall g, g ∈ acl -> valid_utf8 g = true) ->
    forall g, g ∈ acl ∖ list_to_set gs -> valid_utf8 g = true.
  Proof. intros V g Hg. apply V. set_solver. Qed.
  Lemma enc_norm (i : identity) gs : norm_set (Some (list_to_set (gs ++ [i_id i]))) = Some (list_to_set (map as_text (i_id i :: gs)) : acl_t).
  Proof.
    assert (E : (list_to_set (gs ++ [i_id i]) : gset bytes) = list_to_set (i_id i :: gs)) by set_solver.
    rewrite E. apply norm_texts.
  Qed.

  (** Whatever a call passes through is one of the effects of a call that was cut. *)
  Lemma passes_cut c w w' s y : shelved d (store_of w) s -> (forall o, call_oid c = Some o -> uuid_wf o) -> passes c w w' ->
    exists s', x_cut (outside_of e idp w c y) c s s' /\ shelved d (store_of w') s' /\ v_inv v (w_io w').
  Proof.
    intros R Hwf [H|H]; [exists s; split; [now left|]; split; [eapply holds_shelved; eauto|apply H]|].
    unfold x_cut, outside_of, entitled. destruct c as [tok obj gs|tok oid obj|tok oid|tok oid|tok oid|tok oid gs|tok oid gs|tok oid|pt|t]; try contradiction;
      cbn [call_token call_oid o_who o_id] in *.
    - destruct H as (i & oid & so & sa & st & Hv & Hd & N1 & (dek & B1 & B2) & N2 & HH).
      pose proof (drawn_wf e idp w tok oid Hd) as Hoid. unfold verified in Hv.
      destruct (whois idp w tok) as [i'|x|] eqn:Ew; try discriminate.
      destruct (scope_contains (i_scopes i') ScopeEncrypt) eqn:Es; [|discriminate]. injection Hv as ->. apply scope_contains_has in Es.
      rewrite enc_norm in B2. pose proof (texts_valid (i_id i :: gs)) as V.
      assert (Hid : res_map uuid_v4 (draw e (w_draws (snd (run (idp tok) w))) 16) = Ok oid) by (destruct Hd as (b & -> & ->); reflexivity).
      assert (P : sh_obj s !! oid = None).
      { destruct (R oid Hoid) as [R1 _]. destruct (sh_obj s !! oid); [|reflexivity]. destruct R1 as (? & ? & R1 & _). congruence. }
      destruct st.
      + exists s. split; [now left|]. split; [eapply holds_shelved; eauto|apply HH].
      + exists (put_object oid obj s). split; [|split; [eapply holds_shelved; [exact HH|]; eapply shelved_put_object; eauto|apply HH]].
        right. exists i, oid. auto 10.
      + exists (put_both oid obj (list_to_set (map as_text (i_id i :: gs))) s). split; [|split; [eapply holds_shelved; [exact HH|]; eapply shelved_put_both; eauto|apply HH]].
        right. exists i, oid. split; [reflexivity|]. split; [exact Es|]. split; [exact Hid|]. split; [exact P|]. right. split; [|reflexivity].
        destruct (R oid Hoid) as [_ R2]. destruct (sh_acl s !! oid); [|reflexivity]. destruct R2 as (_ & ? & ? & R2 & _).
        rewrite (N2 eq_refl) in R2. discriminate.
    - destruct H as (a & so & sa & st & Hc & N1 & (dek & B1 & B2) & HH). pose proof (Hwf _ eq_refl) as Hoid.
      pose proof (checked_shelf w tok ScopeUpdate oid s R Hoid) as C. rewrite Hc in C.
      destruct C as (i & acl & dek0 & ba & Ew & Hs & Em & Ho & -> & Hba & Oa & V & _).
      cbn [a_groups] in B2. rewrite norm_set_valid in B2 by exact V.
      assert (P : sh_obj s !! oid <> None).
      { destruct (R oid Hoid) as [R1 _]. destruct (sh_obj s !! oid); [discriminate|]. contradiction. }
      destruct st.
      + exists s. split; [now left|]. split; [eapply holds_shelved; eauto|apply HH].
      + exists (put_object oid obj s). split; [|split; [eapply holds_shelved; [exact HH|]; eapply shelved_put_object; eauto|apply HH]].
        right. exists acl. split; [exists i; auto|]. auto.
      + exists (put_both oid obj acl s). split; [|split; [eapply holds_shelved; [exact HH|]; eapply shelved_put_both; eauto|apply HH]].
        right. exists acl. split; [exists i; auto|]. auto.
    - destruct H as (a & st & Hc & HH). pose proof (Hwf _ eq_refl) as Hoid.
      pose proof (checked_shelf w tok ScopeDelete oid s R Hoid) as C. rewrite Hc in C.
      destruct C as (i & acl & dek0 & ba & Ew & Hs & Em & Ho & -> & _).
      destruct st.
      + exists s. split; [now left|]. split; [eapply holds_shelved; eauto|apply HH].
      + exists (drop_object oid s). split; [|split; [eapply holds_shelved; [exact HH|]; now apply shelved_drop_object|apply HH]].
        right. exists acl. split; [exists i; auto|]. auto.
      + exists (drop_both oid s). split; [|split; [eapply holds_shelved; [exact HH|]; now apply shelved_drop_both|apply HH]].
        right. exists acl. split; [exists i; auto|]. auto.
    - destruct H as (a & g & sa & Hc & Eg & B2 & HH). pose proof (Hwf _ eq_refl) as Hoid.
      pose proof (checked_shelf w tok ScopeModifyAccessGroups oid s R Hoid) as C. rewrite Hc in C.
      destruct C as (i & acl & dek0 & ba & Ew & Hs & Em & Ho & -> & Hba & Oa & V & _).
      cbn [a_groups a_dek] in *. rewrite groups_union in Eg. injection Eg as <-. rewrite norm_union in B2 by exact V.
      exists (put_list oid (acl ∪ list_to_set (map as_text gs)) s).
      split; [|split; [eapply holds_shelved; [exact HH|]; eapply shelved_put_list; eauto; exact (union_valid acl gs V)|apply HH]].
      right. exists acl. split; [exists i; auto|]. auto.
    - destruct H as (a & sa & Hc & B2 & HH). pose proof (Hwf _ eq_refl) as Hoid.
      pose proof (checked_shelf w tok ScopeModifyAccessGroups oid s R Hoid) as C. rewrite Hc in C.
      destruct C as (i & acl & dek0 & ba & Ew & Hs & Em & Ho & -> & Hba & Oa & V & _).
      cbn [a_groups a_dek remove_groups] in *. rewrite norm_set_valid in B2 by exact (minus_valid acl gs V).
      exists (put_list oid (acl ∖ list_to_set gs) s).
      split; [|split; [eapply holds_shelved; [exact HH|]; eapply shelved_put_list; eauto; exact (minus_valid acl gs V)|apply HH]].
      right. exists acl. split; [exists i; auto|]. auto.
  Qed.
  Lemma obj_open_no_panic oid b dek : obj_open (d_kek d) oid b (Some dek) <> Panic.
  Proof.
    unfold obj_open. destruct (unmarshal _ _); [|discriminate].
    destruct (open_json_total (d_kek d) dec_bytes (object_aad oid (so_ad s)) (Some dek) (so_ct s)) as [(? & ->)|(? & -> & _)]; discriminate.
  Qed.
  (** What an answered call does. *)
  Lemma answered_sim w c r w1 s : run (d1_aes e iof idp d c) w = (r, w1) -> v_inv v (w_io w) ->
    shelved d (store_of w) s -> (forall o, call_oid c = Some o -> uuid_wf o) ->
    exists s', hap_step (Answered (odd_object v w c) (mkEvent (outside_of e idp w c w1) c r)) s s' /\ shelved d (store_of w1) s' /\ v_inv v (w_io w1).
  Proof.
    intros Hr Hi R Hwf. pose proof (holds_self v w Hi) as H.
    assert (FAULT : forall A (f : A -> d1_reply) r0, r = res_map f r0 -> faulted True r0 ->
      exists s', hap_step (Answered (odd_object v w c) (mkEvent (outside_of e idp w c w1) c r)) s s' /\ shelved d (store_of w1) s' /\ v_inv v (w_io w1)).
    { intros A f r0 -> (_ & x & -> & Hx). pose proof (wpc_end_inv _ _ _ _ (call_passes c w Hi Hwf)) as EI. rewrite Hr in EI. cbn [snd] in EI.
      destruct (passes_cut c w w1 s w1 R Hwf EI) as (s' & C & R' & Hi'). exists s'. split; [|auto]. right. exists x. auto. }
    unfold d1_aes in Hr. cbn [hap_step ev_outside ev_call ev_reply].
    assert (KEEP : forall w' : W, holds v (store_of w) w' -> shelved d (store_of w') s /\ v_inv v (w_io w')).
    { intros w' HH. split; [eapply holds_shelved; eauto|apply HH]. }
    cut ((exists A (f : A -> d1_reply) r0, r = res_map f r0 /\ faulted True r0) \/
         exists s', x_step (odd_object v w c) (outside_of e idp w c w1) c s r s' /\ shelved d (store_of w1) s' /\ v_inv v (w_io w1)).
    { intros [(A & f & r0 & E1 & E2)|(s' & E1 & E2 & E3)]; [exact (FAULT A f r0 E1 E2)|]. exists s'. auto. }
    clear FAULT. unfold outside_of in *.
    destruct c as [tok obj gs|tok oid obj|tok oid|tok oid|tok oid|tok oid gs|tok oid gs|tok oid|pt|t];
      cbn [d1_do call_token call_oid call_groups x_step o_who o_rng_fails o_id] in *; rewrite run_ret_map in Hr.
    - (* Encrypt *)
      pose proof (wpc_end _ _ _ _ (encrypt_spec e True v iof Hio idp Hidp d tok obj gs w _ H)) as E.
      destruct (run (d1_encrypt _ _ _ _ _ _ _ _) w) as [r0 w0]. cbn [fst snd] in *. injection Hr as <- <-.
      destruct E as [E|E]; [|left; eauto]. right.
      unfold verified in E. unfold by_scope, or_rng, deny.
      destruct (whois idp w tok) as [i|x|] eqn:Ew.
      2,3: destruct E as [-> HH]; exists s; auto.
      destruct (scope_contains (i_scopes i) ScopeEncrypt) eqn:Es.
      2:{ destruct E as [-> HH]. apply scope_contains_hasnt in Es. exists s. auto. }
      apply scope_contains_has in Es.
      assert (Hid : forall oid, drawn e idp w tok oid -> res_map uuid_v4 (draw e (w_draws (snd (run (idp tok) w))) 16) = Ok oid).
      { intros oid (b & -> & ->). reflexivity. }
      pose proof (texts_valid (i_id i :: gs)) as V.
      destruct E as [(oid & Hd & N1 & N2 & -> & so & sa & (dek & B1 & B2) & HH)|[(oid & Hd & P & -> & HH)|[(oid & Hd & N1 & P & -> & so & sa & (dek & B1 & B2) & HH)|(-> & RF & HH)]]].
      4:{ exists s. auto 10. }
      all: pose proof (drawn_wf e idp w tok oid Hd) as Hoid; destruct (R oid Hoid) as [R1 R2].
      + rewrite enc_norm in B2. exists (put_both oid obj (list_to_set (map as_text (i_id i :: gs))) s).
        split; [|split; [eapply holds_shelved; [exact HH|]; eapply shelved_put_both; eauto|apply HH]].
        right. split; [exact Es|]. right. exists oid. split; [now apply Hid|].
        destruct (sh_obj s !! oid); [destruct R1 as (? & ? & R1 & _); congruence|].
        destruct (sh_acl s !! oid); [destruct R2 as (_ & ? & ? & R2 & _); congruence|]. auto.
      + exists s. split; [|auto]. right. split; [exact Es|]. right. exists oid. split; [now apply Hid|].
        destruct (sh_obj s !! oid); [auto|congruence].
      + exists (put_object oid obj s).
        split; [|split; [eapply holds_shelved; [exact HH|]; eapply shelved_put_object; eauto|apply HH]].
        right. split; [exact Es|]. right. exists oid. split; [now apply Hid|].
        destruct (sh_obj s !! oid); [destruct R1 as (? & ? & R1 & _); congruence|].
        destruct (sh_acl s !! oid); [auto|congruence].
    - (* Update *)
      pose proof (Hwf _ eq_refl) as Hoid.
      pose proof (wpc_end _ _ _ _ (update_spec e True v iof Hio idp Hidp d tok oid obj w _ H Hoid)) as E.
      destruct (run (d1_update _ _ _ _ _ _ _) w) as [r0 w0]. cbn [fst snd] in *. injection Hr as <- <-.
      destruct E as [E|E]; [|left; eauto]. right.
      pose proof (checked_shelf w tok ScopeUpdate oid s R Hoid) as C.
      pose proof (by_access_checked w tok ScopeUpdate oid s) as WA.
      destruct (checked idp d w tok ScopeUpdate oid (store_of w)) as [a|x|].
      2,3: destruct E as [-> HH]; exists s; auto.
      destruct C as (i & acl & dek & ba & Ew & Hs & Em & Ho & -> & Hba & Oa & V & _). destruct (R oid Hoid) as [R1 _].
      destruct E as [(-> & N & so & sa & (dek' & B1 & B2) & HH)|[(-> & N & HH)|(-> & RF & HH)]].
      + cbn [a_groups] in B2. rewrite norm_set_valid in B2 by exact V. exists (put_both oid obj acl s).
        split; [|split; [eapply holds_shelved; [exact HH|]; eapply shelved_put_both; eauto|apply HH]].
        apply WA; auto. intros acl' dek2 Em' _. rewrite Em in Em'. injection Em' as <-. right.
        destruct (sh_obj s !! oid); [auto|contradiction].
      + exists s. split; [|auto]. apply WA; auto. intros acl' dek2 Em' _. right.
        destruct (sh_obj s !! oid); [destruct R1 as (? & ? & R1 & _); congruence|]. split; reflexivity.
      + exists s. split; [|auto]. apply WA; auto. intros acl' dek2 Em' _. left. split; [exact RF|split; reflexivity].
    - (* Decrypt *)
      pose proof (Hwf _ eq_refl) as Hoid.
      pose proof (decrypt_spec e True v iof Hio idp Hidp d tok oid w _ H) as E.
      pose proof (wpc_end_inv _ _ _ _ E) as EI. apply wpc_end in E.
      destruct (run (d1_decrypt _ _ _ _ _ _) w) as [r0 w0]. cbn [fst snd] in *. injection Hr as <- <-.
      destruct E as [->|E]; [|left; eauto]. right. exists s. split; [|auto].
      pose proof (checked_shelf w tok ScopeDecrypt oid s R Hoid) as C.
      apply by_access_checked; auto.
      destruct (checked idp d w tok ScopeDecrypt oid (store_of w)) as [a|x|]; cbn [res_bind res_map]; auto.
      destruct C as (i & acl & dek & ba & Ew & Hs & Em & Ho & -> & Hba & Oa & V & Hw). destruct (R oid Hoid) as [R1 _].
      intros acl' dek2 Em' _. unfold read_object.
      destruct (sh_obj s !! oid) as [o|].
      2:{ rewrite R1. split; reflexivity. }
      split; [reflexivity|]. cbn [a_dek]. destruct R1 as (b & dek' & HO & HoO).
      destruct (decide (oid ∈ sh_torn s)) as [Ht|Ht].
      + rewrite HO. pose proof (obj_open_no_panic oid b dek) as NP.
        destruct (obj_open (d_kek d) oid b (Some dek)) as [o'|x|] eqn:Eo; [|right; split; [exact Ht|left; eexists; reflexivity]|congruence].
        destruct (obj_open_two_keys _ _ _ _ _ _ _ HoO Eo) as [<-|HT]; [now left|]. right. split; [exact Ht|]. right.
        exists oid. split; [reflexivity|]. rewrite HO. exact HT.
      + destruct (Hw Ht o eq_refl) as (b' & HO' & Hx). rewrite HO', Hx. now left.
    - (* Delete *)
      pose proof (Hwf _ eq_refl) as Hoid.
      pose proof (wpc_end _ _ _ _ (delete_spec e True v iof Hio idp Hidp d tok oid w _ H)) as E.
      destruct (run (d1_delete _ _ _ _ _) w) as [r0 w0]. cbn [fst snd] in *. injection Hr as <- <-.
      destruct E as [E|E]; [|left; eauto]. right.
      pose proof (checked_shelf w tok ScopeDelete oid s R Hoid) as C. unfold by_scope, deny.
      destruct (checked idp d w tok ScopeDelete oid (store_of w)) as [a|x|].
      + destruct C as (i & acl & dek & ba & Ew & Hs & Em & Ho & -> & _).
        destruct E as [-> HH]. exists (drop_both oid s). rewrite Ew, Em.
        split; [|split; [eapply holds_shelved; [exact HH|]; now apply shelved_drop_both|apply HH]].
        right. split; [exact Hs|]. right. auto.
      + exists s. destruct C as [(y & [= ->] & -> & z & ->)|[(C & _)|[(i & [= ->] & -> & C)|[(i & [= ->] & -> & C1 & ->)|(i & acl & [= ->] & -> & C1 & -> & C2)]]]];
          try discriminate; destruct E as [-> HH]; (split; [|auto]); cbn [res_map]; auto 10.
      + exists s. destruct E as [-> HH].
        destruct C as [(y & C & _)|[(_ & ->)|[(i & C & _)|[(i & C & _)|(i & acl & C & _)]]]]; try discriminate.
        split; [|auto]. auto.
    - (* GetAccessGroups *)
      pose proof (Hwf _ eq_refl) as Hoid.
      pose proof (get_groups_spec e True v iof Hio idp Hidp d tok oid w _ H) as E.
      pose proof (wpc_end_inv _ _ _ _ E) as EI. apply wpc_end in E.
      destruct (run (d1_get_access_groups _ _ _ _ _) w) as [r0 w0]. cbn [fst snd] in *. injection Hr as <- <-.
      destruct E as [->|E]; [|left; eauto]. right. exists s. split; [|auto].
      apply by_access_checked; auto.
      destruct (checked idp d w tok ScopeGetAccessGroups oid (store_of w)) as [a|x|]; cbn [res_bind res_map]; auto.
      intros acl dek Em ->. auto.
    - (* AddGroups *)
      pose proof (Hwf _ eq_refl) as Hoid.
      pose proof (wpc_end _ _ _ _ (add_groups_spec e True v iof Hio idp Hidp d tok oid gs w _ H Hoid)) as E.
      destruct (run (d1_add_groups _ _ _ _ _ _) w) as [r0 w0]. cbn [fst snd] in *. injection Hr as <- <-.
      destruct E as [E|E]; [|left; eauto]. right.
      pose proof (checked_shelf w tok ScopeModifyAccessGroups oid s R Hoid) as C.
      pose proof (by_access_checked w tok ScopeModifyAccessGroups oid s) as WA.
      destruct (checked idp d w tok ScopeModifyAccessGroups oid (store_of w)) as [a|x|].
      2,3: destruct E as [-> HH]; exists s; auto.
      destruct C as (i & acl & dek & ba & Ew & Hs & Em & Ho & -> & Hba & Oa & V & _).
      cbn [a_groups a_dek] in E. rewrite groups_union in E.
      destruct E as [(-> & sa & B2 & HH)|(-> & RF & HH)].
      + rewrite norm_union in B2 by exact V. exists (put_list oid (acl ∪ list_to_set (map as_text gs)) s).
        split; [|split; [eapply holds_shelved; [exact HH|]; eapply shelved_put_list; eauto; exact (union_valid acl gs V)|apply HH]].
        apply WA; auto. intros acl' dek2 Em' _. rewrite Em in Em'. injection Em' as <-. right. auto.
      + exists s. split; [|auto]. apply WA; auto. intros acl' dek2 Em' _. left. split; [exact RF|split; reflexivity].
    - (* RemoveGroups *)
      pose proof (Hwf _ eq_refl) as Hoid.
      pose proof (wpc_end _ _ _ _ (remove_groups_spec e True v iof Hio idp Hidp d tok oid gs w _ H Hoid)) as E.
      destruct (run (d1_remove_groups _ _ _ _ _ _) w) as [r0 w0]. cbn [fst snd] in *. injection Hr as <- <-.
      destruct E as [E|E]; [|left; eauto]. right.
      pose proof (checked_shelf w tok ScopeModifyAccessGroups oid s R Hoid) as C.
      pose proof (by_access_checked w tok ScopeModifyAccessGroups oid s) as WA.
      destruct (checked idp d w tok ScopeModifyAccessGroups oid (store_of w)) as [a|x|].
      2,3: destruct E as [-> HH]; exists s; auto.
      destruct C as (i & acl & dek & ba & Ew & Hs & Em & Ho & -> & Hba & Oa & V & _).
      cbn [a_groups a_dek remove_groups] in E.
      destruct E as [(-> & sa & B2 & HH)|(-> & RF & HH)].
      + rewrite norm_set_valid in B2 by exact (minus_valid acl gs V). exists (put_list oid (acl ∖ list_to_set gs) s).
        split; [|split; [eapply holds_shelved; [exact HH|]; eapply shelved_put_list; eauto; exact (minus_valid acl gs V)|apply HH]].
        apply WA; auto. intros acl' dek2 Em' _. rewrite Em in Em'. injection Em' as <-. right. auto.
      + exists s. split; [|auto]. apply WA; auto. intros acl' dek2 Em' _. left. split; [exact RF|split; reflexivity].
    - (* Authorize *)
      pose proof (Hwf _ eq_refl) as Hoid.
      pose proof (authorize_spec e True v iof Hio idp Hidp d tok oid w _ H) as E.
      pose proof (wpc_end_inv _ _ _ _ E) as EI. apply wpc_end in E.
      destruct (run (d1_authorize _ _ _ _ _) w) as [r0 w0]. cbn [fst snd] in *. injection Hr as <- <-.
      destruct E as [->|E]; [|left; eauto]. right. exists s. split; [|auto].
      apply by_access_checked; auto.
      destruct (checked idp d w tok ScopeGetAccessGroups oid (store_of w)) as [a|x|]; cbn [res_bind res_map]; auto.
    - (* CreateToken *)
      pose proof (wpc_end_inv _ _ _ _ (create_token_keeps e d pt w)) as E.
      destruct (run (d1_create_token _ _ _) w) as [r0 w0]. cbn [fst snd] in *. injection Hr as <- <-. right.
      exists s. rewrite E. split; [|auto]. split; [reflexivity|]. intros y. destruct r0; cbn [res_map]; intros [= <-]; eauto.
    - (* GetTokenContents *)
      pose proof (wpc_end_inv _ _ _ _ (get_token_keeps e d t w)) as E.
      destruct (run (d1_get_token_contents _ _ _) w) as [r0 w0]. cbn [fst snd] in *. injection Hr as <- <-. right.
      exists s. rewrite E. split; [|auto]. split; [reflexivity|]. intros y. destruct r0; cbn [res_map]; intros [= <-]; eauto.
  Qed.
  End Call.

  Lemma shelved_empty (w : W) : fresh v all_ids w -> shelved d (store_of w) shelf_empty.
  Proof.
    intros [_ H] oid _. unfold shelf_empty. cbn [sh_obj sh_acl]. rewrite !lookup_empty. split; apply H; auto.
  Qed.
  Lemma run_shelved w hs w' : x_run e v idp d w hs w' -> forall s, v_inv v (w_io w) -> shelved d (store_of w) s -> Forall hap_ok hs ->
    exists s', x_history s hs s' /\ shelved d (store_of w') s' /\ v_inv v (w_io w').
  Proof.
    induction 1 as [w|w w1 hs w2 [H1 H2] _ IH|w iof c r w1 hs w2 Hio Hr _ IH|w iof c n hs w2 Hio _ IH]; intros s Hi R Hok.
    - exists s. split; [constructor|auto].
    - apply IH; auto. eapply shelved_slots; [|exact R]. intros oid dt Hdt. apply H2; auto.
    - pose proof (Forall_inv Hok) as Hc. apply Forall_inv_tail in Hok. unfold hap_ok in Hc. cbn [hap_call ev_call] in Hc.
      destruct (answered_sim iof Hio w c r w1 s Hr Hi R Hc) as (s1 & E1 & R1 & Hi1).
      destruct (IH s1 Hi1 R1 Hok) as (s2 & E2 & R2). exists s2. split; [econstructor; eauto|exact R2].
    - pose proof (Forall_inv Hok) as Hc. apply Forall_inv_tail in Hok. unfold hap_ok in Hc. cbn [hap_call ev_call] in Hc.
      pose proof (wpc_cut _ _ _ _ (call_passes iof Hio c w Hi Hc) n) as C.
      destruct (passes_cut iof Hio c w _ s w R Hc C) as (s1 & E1 & R1 & Hi1).
      destruct (IH s1 Hi1 R1 Hok) as (s2 & E2 & R2). exists s2. split; [econstructor; eauto|exact R2].
  Qed.
End Sim.

(** An answered call, one that died, an answered one. *)
Lemma run_three {S I} (e : env) (v : view S) (idp : bytes -> prog (world S I) (res identity)) (d : d1) (iof : provider S) w c1 r1 w1 c2 n c3 r3 :
  io_spec True v iof -> run (d1_aes e iof idp d c1) w = (r1, w1) ->
  fst (run (d1_aes e iof idp d c3) (snd (run_n n (d1_aes e iof idp d c2) w1))) = r3 ->
  exists odd1 x odd2 x2 w3, x_run e v idp d w [Answered odd1 (mkEvent (outside_of e idp w c1 w1) c1 r1); Died x c2;
    Answered odd2 (mkEvent x2 c3 r3)] w3.
Proof.
  intros Hio E1 <-. destruct (run (d1_aes e iof idp d c3) (snd (run_n n (d1_aes e iof idp d c2) w1))) as [r3 w3] eqn:E3. cbn [fst].
  do 5 eexists. eapply xr_answered; [exact Hio|exact E1|]. eapply xr_died; [exact Hio|]. eapply xr_answered; [exact Hio|exact E3|]. constructor.
Qed.
