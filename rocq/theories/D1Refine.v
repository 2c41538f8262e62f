(** The D1 calls refine the object map of Spec.v. *)
From Coq Require Import ZifyN ZifyNat.
From stdpp Require Import gmap.
From Verif Require Import Bytes Go Json JsonProofs Uuid UuidProofs Time Types TypesProofs World Logic
  Cryptor CryptorProofs IoSpec IoProofs Id Data D1 D1Proofs D1Calls Spec SpecProofs History.
Local Open Scope bool_scope.
Local Open Scope N_scope.

Section Rep.
  Context (d : d1) (D : uuid -> bool).
  Notation SO := DataTypeSealedObject.
  Notation SA := DataTypeSealedAccess.

  (** Object [oid] with access list [acl] is stored. *)
  Definition stored (st : store) (oid : uuid) (o : object) (acl : gset bytes) : Prop :=
    exists bo ba dek, st oid SO = Some bo /\ st oid SA = Some ba /\
      acc_open (d_aek d) oid ba = Ok (mkAccess (Some acl) (Some dek)) /\
      obj_open (d_kek d) oid bo (Some dek) = Ok o.
  (** On the ids in [D], the store represents the object map. *)
  Definition rep (st : store) (m : objects) : Prop :=
    (forall oid, D oid = true -> uuid_wf oid ->
      match m !! oid with
      | None => st oid SO = None /\ st oid SA = None
      | Some (o, acl) => stored st oid o acl /\ (forall g, g ∈ acl -> valid_utf8 g = true)
      end) /\
    (forall oid, m !! oid <> None -> D oid = true /\ uuid_wf oid).

  Lemma rep_empty : rep store_empty ∅.
  Proof.
    split; intros oid.
    - intros _ _. replace ((∅ : objects) !! oid) with (@None (object * gset bytes)) by (symmetry; apply lookup_empty). auto.
    - intros H. exfalso. apply H. apply lookup_empty.
  Qed.
  Lemma stored_ext st st' oid o acl : (forall dt, dt = SO \/ dt = SA -> st' oid dt = st oid dt) ->
    stored st oid o acl -> stored st' oid o acl.
  Proof. intros H (bo & ba & dek & H1 & H2 & H3). exists bo, ba, dek. rewrite !H by auto. auto. Qed.
  Lemma rep_ext st st' m : (forall oid dt, D oid = true -> dt = SO \/ dt = SA -> st' oid dt = st oid dt) -> rep st m -> rep st' m.
  Proof.
    intros H [R1 R2]. split; [|exact R2]. intros oid HD W. specialize (R1 oid HD W). rewrite !H by auto.
    destruct (m !! oid) as [[o acl]|]; [|exact R1]. destruct R1 as [R1 V]. split; [|exact V].
    eapply stored_ext; [|exact R1]. auto.
  Qed.
  Lemma rep_seq st st' m : seq st st' -> rep st m -> rep st' m.
  Proof. intros H. apply rep_ext. intros. symmetry. apply H. Qed.
  (** Changing one object. *)
  Lemma rep_insert st st' m oid o acl : rep st m -> D oid = true -> uuid_wf oid ->
    (forall oid' dt, oid' <> oid -> st' oid' dt = st oid' dt) ->
    stored st' oid o acl -> (forall g, g ∈ acl -> valid_utf8 g = true) -> rep st' (<[oid := (o, acl)]> m).
  Proof.
    intros [R1 R2] HD W H HS V. split.
    - intros oid' HD' W'. destruct (decide (oid' = oid)) as [->|Hne].
      + rewrite lookup_insert. auto.
      + rewrite lookup_insert_ne by auto. specialize (R1 oid' HD' W'). rewrite !H by auto.
        destruct (m !! oid') as [[o' acl']|]; [|exact R1]. destruct R1 as [R1 V']. split; [|exact V'].
        eapply stored_ext; [|exact R1]. auto.
    - intros oid'. destruct (decide (oid' = oid)) as [->|Hne]; [auto|]. rewrite lookup_insert_ne by auto. apply R2.
  Qed.
  Lemma rep_delete st st' m oid : rep st m -> 
    (forall oid' dt, oid' <> oid -> st' oid' dt = st oid' dt) ->
    st' oid SO = None -> st' oid SA = None -> rep st' (delete oid m).
  Proof.
    intros [R1 R2] H N1 N2. split.
    - intros oid' HD' W'. destruct (decide (oid' = oid)) as [->|Hne].
      + rewrite lookup_delete. auto.
      + rewrite lookup_delete_ne by auto. specialize (R1 oid' HD' W'). rewrite !H by auto.
        destruct (m !! oid') as [[o' acl']|]; [|exact R1]. destruct R1 as [R1 V']. split; [|exact V'].
        eapply stored_ext; [|exact R1]. auto.
    - intros oid'. destruct (decide (oid' = oid)) as [->|Hne]; [rewrite lookup_delete; congruence|].
      rewrite lookup_delete_ne by auto. apply R2.
  Qed.
End Rep.

Lemma upd_oid m oid dt x oid' dt' : oid' <> oid -> upd m oid dt x oid' dt' = m oid' dt'.
Proof. intros H. apply upd_other. congruence. Qed.

Section Refine.
  Context {S I : Type} (e : env) (v : view S) (io : provider S) (Hio : io_spec False v io).
  Notation W := (world S I).
  Context (idp : bytes -> prog W (res identity)) (Hidp : idp_reads v idp) (d : d1) (D : uuid -> bool).
  Notation store_of w := (v_map v (w_io w)).
  Notation SO := DataTypeSealedObject.
  Notation SA := DataTypeSealedAccess.

  Lemma run_ret_map {A B} (f : A -> B) (p : prog W (res A)) w :
    run (ret_map f p) w = (res_map f (fst (run p w)), snd (run p w)).
  Proof. unfold ret_map. rewrite run_bind. destruct (run p w). reflexivity. Qed.

  Lemma holds_rep (st : store) (w : W) m : holds v st w -> rep d D st m -> rep d D (store_of w) m.
  Proof. intros [_ H]. apply rep_seq. now apply seq_sym. Qed.

  (** Access checks against the represented map. *)
  Lemma checked_rep w tok need oid m : rep d D (store_of w) m -> D oid = true -> uuid_wf oid ->
    match checked idp d w tok need oid (store_of w) with
    | Ok a => exists i o acl dek ba bo, whois idp w tok = Ok i /\ scope_has (i_scopes i) need /\ m !! oid = Some (o, acl) /\
                on_list i need acl /\ a = mkAccess (Some acl) (Some dek) /\
                store_of w oid SA = Some ba /\ store_of w oid SO = Some bo /\
                acc_open (d_aek d) oid ba = Ok a /\ obj_open (d_kek d) oid bo (Some dek) = Ok o /\
                (forall g, g ∈ acl -> valid_utf8 g = true)
    | r => (exists x, r = Err x /\ x = ED1NotAuthenticated /\ exists y, whois idp w tok = Err y) \/
           (r = Panic /\ whois idp w tok = Panic) \/
           (exists i, r = Err ED1NotAuthorized /\ whois idp w tok = Ok i /\ ~ scope_has (i_scopes i) need) \/
           (exists i, r = Err ED1AccessNotFound /\ whois idp w tok = Ok i /\ scope_has (i_scopes i) need /\ m !! oid = None) \/
           (exists i o acl, r = Err ED1NotAuthorized /\ whois idp w tok = Ok i /\ scope_has (i_scopes i) need /\
              m !! oid = Some (o, acl) /\ ~ on_list i need acl)
    end.
  Proof.
    intros [R _] HD Hoid. specialize (R oid HD Hoid). unfold checked, verified, access_check.
    destruct (whois idp w tok) as [i|x|] eqn:Ew; cbn [res_bind]; [|left; eauto|right; left; auto].
    destruct (scope_contains (i_scopes i) need) eqn:Es; cbn [res_bind].
    2:{ apply scope_contains_hasnt in Es. right. right. left. eauto. }
    apply scope_contains_has in Es.
    destruct (m !! oid) as [[o acl]|].
    - destruct R as [(bo & ba & dek & H1 & H2 & H3 & H4) V]. rewrite H2, H3. cbn [res_bind].
      destruct (authorized i need _) eqn:Ea.
      + apply (authorized_on_list i need acl (Some dek) Es) in Ea. exists i, o, acl, dek, ba, bo. auto 20.
      + do 4 right. exists i, o, acl. repeat split; auto. rewrite <- (authorized_on_list i need acl (Some dek) Es). congruence.
    - destruct R as [_ ->]. do 3 right. left. eauto.
  Qed.

  (** with_access, from the model's check. *)
  Lemma with_access_checked (w : W) (tok : bytes) (need : N) (oid : uuid) (m : objects) (r : res d1_reply) (m' : objects) (body : object -> gset bytes -> Prop) : rep d D (store_of w) m -> D oid = true -> uuid_wf oid ->
    match checked idp d w tok need oid (store_of w) with
    | Ok a => forall i o acl, whois idp w tok = Ok i -> m !! oid = Some (o, acl) -> on_list i need acl -> body o acl
    | Err x => r = Err x /\ m' = m
    | Panic => r = Panic /\ m' = m
    end -> with_access need (whois idp w tok) oid m r m' body.
  Proof.
    intros R HD Hoid H. pose proof (checked_rep w tok need oid m R HD Hoid) as C. unfold with_access, with_scope, refuse.
    destruct (checked idp d w tok need oid (store_of w)) as [a|x|].
    - destruct C as (i & o & acl & dek & ba & bo & Ew & Hs & Em & Ho & _). rewrite Ew, Em. right. split; [exact Hs|].
      right. split; [exact Ho|]. eapply H; eauto.
    - destruct H as [-> ->].
      destruct C as [(y & [= ->] & -> & z & ->)|[(C & _)|[(i & [= ->] & -> & C)|[(i & [= ->] & -> & C1 & ->)|(i & o & acl & [= ->] & -> & C1 & -> & C2)]]]];
        try discriminate; auto 10.
    - destruct H as [-> ->].
      destruct C as [(y & C & _)|[(_ & ->)|[(i & C & _)|[(i & C & _)|(i & o & acl & C & _)]]]]; try discriminate; auto.
  Qed.

  Lemma wpc_time_now (Inv : W -> Prop) (Q : _ -> W -> Prop) w :
    (forall w', w_io w' = w_io w -> Inv w') -> (forall w', w_io w' = w_io w -> Q (clock e (w_ticks w)) w') ->
    wpc (time_now e) Inv Q w.
  Proof. intros HI HQ. unfold time_now. apply wpc_act; [apply HI|apply HI|apply HQ]; reflexivity. Qed.
  Lemma create_token_keeps pt (w : W) : 
    wpc (d1_create_token e (aes_cryptor e (d_tek d)) pt) (fun w' => w_io w' = w_io w) (fun _ _ => True) w.
  Proof.
    unfold d1_create_token, new_token. apply wpc_bind, wpc_bind, wpc_time_now; [auto|].
    intros w1 E1. apply wpc_ret; [auto|]. unfold token_seal. destruct (enc_time _); [|apply wpc_ret; auto].
    apply wpc_bindR. unfold encrypt_json. cbn [c_enc aes_cryptor]. apply wpc_aes_enc; [| |auto].
    - intros w' (E & _). congruence.
    - intros wk ct w' (E & _) _. apply wpc_ret; [congruence|auto].
  Qed.
  Lemma get_token_keeps t (w : W) : 
    wpc (d1_get_token_contents e (aes_cryptor e (d_tek d)) t) (fun w' => w_io w' = w_io w) (fun _ _ => True) w.
  Proof.
    unfold d1_get_token_contents, token_unseal. apply wpc_bindR, wpc_bind, wpc_time_now; [auto|].
    intros w1 E1. destruct (time_before _ _); [apply wpc_ret; auto|]. destruct (enc_time _); [|apply wpc_ret; auto].
    apply wpc_bindR, wpc_decrypt_json.
    - intros w' (E & _). congruence.
    - intros w' (E & _). destruct (open_json _ _ _ _ _); [|auto..]. apply wpc_ret; [congruence|]. apply wpc_ret; [congruence|auto].
  Qed.

  Lemma drawn_in w tok oid : drawn e idp w tok oid ->
    match match res_map uuid_v4 (draw e (w_draws (snd (run (idp tok) w))) 16) with Ok oid => Some oid | _ => None end with
    | Some oid => D oid | None => true end = true -> D oid = true.
  Proof. intros (b & -> & ->). auto. Qed.
  Lemma spec_sim w c r w1 m : run (d1_aes e io idp d c) w = (r, w1) -> v_inv v (w_io w) ->
    rep d D (store_of w) m -> event_ok (mkEvent (outside_of e idp w c w1) c r) ->
    ev_in D (mkEvent (outside_of e idp w c w1) c r) = true ->
    exists m', spec_step (outside_of e idp w c w1) c m r m' /\ rep d D (store_of w1) m' /\ v_inv v (w_io w1).
  Proof.
    intros Hr Hi R Hwf HD. unfold event_ok in Hwf. unfold ev_in, ev_oid in HD. cbn [ev_call ev_outside] in *.
    pose proof (holds_self v w Hi) as H.
    assert (FALSE : forall A (x : res A), faulted False x -> False) by (intros A x [[] _]).
    unfold d1_aes, outside_of in *. destruct c as [tok obj gs|tok oid obj|tok oid|tok oid|tok oid|tok oid gs|tok oid gs|tok oid|pt|t];
      cbn [d1_do call_token call_oid call_groups spec_step o_who o_rng_fails o_id] in *; rewrite run_ret_map in Hr.
    - (* Encrypt *)
      pose proof (encrypt_spec e False v io Hio idp Hidp d tok obj gs w _ H) as E.
      pose proof (wpc_end_inv _ _ _ _ E) as EI. apply wpc_end in E.
      destruct (run (d1_encrypt _ _ _ _ _ _ _ _) w) as [r0 w0]. cbn [fst snd] in *. injection Hr as <- <-.
      destruct E as [E|E]; [|destruct (FALSE _ _ E)].
      assert (Hv : v_inv v (w_io w0)).
      { destruct EI as [[EI _]|(? & ? & ? & ? & ? & _ & _ & _ & _ & _ & [EI _])]; exact EI. }
      unfold verified in E. unfold with_scope.
      destruct (whois idp w tok) as [i|x|] eqn:Ew.
      2,3: destruct E as [-> HH]; exists m; split; [split; reflexivity|]; split; [eapply holds_rep; eauto|exact Hv].
      destruct (scope_contains (i_scopes i) ScopeEncrypt) eqn:Es.
      2:{ destruct E as [-> HH]. exists m. split; [left|split; [eapply holds_rep; eauto|exact Hv]].
          split; [now apply scope_contains_hasnt|split; reflexivity]. }
      apply scope_contains_has in Es.
      destruct E as [(oid & Hd & N1 & N2 & -> & so & sa & (dek & B1 & B2) & HH)|[(oid & Hd & P & -> & HH)|[(oid & Hd & N1 & P & -> & _)|(-> & RF & HH)]]].
      + pose proof (texts_valid (i_id i :: gs)) as V.
        assert (E : (list_to_set (gs ++ [i_id i]) : gset bytes) = list_to_set (i_id i :: gs)) by set_solver.
        pose proof (drawn_wf e idp w tok oid Hd) as Hoid. pose proof (drawn_in _ _ _ Hd HD) as HDo.
        exists (<[oid := (obj, list_to_set (map as_text (i_id i :: gs)))]> m). split; [|split; [|exact Hv]].
        * right. split; [exact Es|]. right. exists oid. split; [destruct Hd as (b & Hb & ->); now rewrite Hb|].
          destruct R as [R _]. specialize (R oid HDo Hoid). destruct (m !! oid) as [[o acl]|]; [|split; reflexivity].
          destruct R as [(? & ? & ? & R & _) _]. congruence.
        * eapply holds_rep; [exact HH|]. eapply rep_insert; [exact R|first [exact HD|exact HDo]|exact Hoid| | |exact V].
          -- intros oid' dt Hne. cbn [upd_map]. now rewrite !upd_oid by exact Hne.
          -- exists so, sa, dek. cbn [upd_map]. rewrite upd_other by (intros [=]; discriminate). rewrite !upd_same.
             rewrite E, norm_texts in B2. auto.
      + exists m. split; [|split; [eapply holds_rep; eauto|exact Hv]]. right. split; [exact Es|]. right. exists oid.
        pose proof (drawn_wf e idp w tok oid Hd) as Hoid. pose proof (drawn_in _ _ _ Hd HD) as HDo. split; [destruct Hd as (b & Hb & ->); now rewrite Hb|].
        destruct R as [R _]. specialize (R oid HDo Hoid). destruct (m !! oid) as [[o acl]|]; [split; reflexivity|].
        destruct R. congruence.
      + exfalso. pose proof (drawn_wf e idp w tok oid Hd) as Hoid. pose proof (drawn_in _ _ _ Hd HD) as HDo. destruct R as [R _]. specialize (R oid HDo Hoid).
        destruct (m !! oid) as [[o acl]|]; [destruct R as [(? & ? & ? & R & _) _]|destruct R]; congruence.
      + exists m. split; [|split; [eapply holds_rep; eauto|exact Hv]]. right. split; [exact Es|]. left.
        split; [exact RF|split; reflexivity].
    - (* Update *)
      assert (Hoid : uuid_wf oid) by auto.
      pose proof (update_spec e False v io Hio idp Hidp d tok oid obj w _ H Hoid) as E.
      pose proof (wpc_end_inv _ _ _ _ E) as EI. apply wpc_end in E.
      destruct (run (d1_update _ _ _ _ _ _ _) w) as [r0 w0]. cbn [fst snd] in *. injection Hr as <- <-.
      destruct E as [E|E]; [|destruct (FALSE _ _ E)].
      assert (Hv : v_inv v (w_io w0)).
      { destruct EI as [[EI _]|(? & ? & ? & ? & _ & _ & _ & [EI _])]; exact EI. }
      pose proof (checked_rep w tok ScopeUpdate oid m R HD Hoid) as C.
      pose proof (with_access_checked w tok ScopeUpdate oid m) as WA.
      destruct (checked idp d w tok ScopeUpdate oid (store_of w)) as [a|x|].
      2,3: destruct E as [-> HH]; exists m; split; [apply WA; auto|split; [eapply holds_rep; eauto|exact Hv]].
      destruct C as (i & o & acl & dek & ba & bo & Ew & Hs & Em & Ho & -> & Hba & Hbo & Oa & Oo & V).
      destruct E as [(-> & _ & so & sa & (dek' & B1 & B2) & HH)|[(-> & N & _)|(-> & RF & HH)]]; [|congruence|].
      + exists (<[oid := (obj, acl)]> m). split; [|split; [|exact Hv]].
        * apply WA; auto. intros i' o' acl' Ew' Em' Ho'. rewrite Em in Em'. injection Em' as <- <-. right. auto.
        * eapply holds_rep; [exact HH|]. eapply rep_insert; [exact R|first [exact HD|exact HDo]|exact Hoid| | |exact V].
          -- intros oid' dt Hne. cbn [upd_map]. now rewrite !upd_oid by exact Hne.
          -- exists so, sa, dek'. cbn [upd_map]. rewrite upd_other by (intros [=]; discriminate). rewrite !upd_same.
             cbn [a_groups] in B2. rewrite norm_set_valid in B2 by exact V. auto.
      + exists m. split; [|split; [eapply holds_rep; eauto|exact Hv]]. apply WA; auto.
        intros i' o' acl' Ew' Em' Ho'. left. split; [exact RF|split; reflexivity].
    - (* Decrypt *)
      assert (Hoid : uuid_wf oid) by auto.
      pose proof (decrypt_spec e False v io Hio idp Hidp d tok oid w _ H) as E.
      pose proof (wpc_end_inv _ _ _ _ E) as EI. apply wpc_end in E.
      destruct (run (d1_decrypt _ _ _ _ _ _) w) as [r0 w0]. cbn [fst snd] in *. injection Hr as <- <-.
      destruct E as [E|E]; [|destruct (FALSE _ _ E)]. subst r0.
      pose proof (checked_rep w tok ScopeDecrypt oid m R HD Hoid) as C.
      exists m. split; [|split; [eapply holds_rep; eauto|apply EI]].
      apply with_access_checked; auto.
      destruct (checked idp d w tok ScopeDecrypt oid (store_of w)) as [a|x|]; cbn [res_bind res_map]; auto.
      destruct C as (i & o & acl & dek & ba & bo & Ew & Hs & Em & Ho & -> & Hba & Hbo & Oa & Oo & V).
      intros i' o' acl' Ew' Em' Ho'. rewrite Em in Em'. injection Em' as <- <-.
      unfold read_object. rewrite Hbo. cbn [a_dek]. rewrite Oo. auto.
    - (* Delete *)
      assert (Hoid : uuid_wf oid) by auto.
      pose proof (delete_spec e False v io Hio idp Hidp d tok oid w _ H) as E.
      pose proof (wpc_end_inv _ _ _ _ E) as EI. apply wpc_end in E.
      destruct (run (d1_delete _ _ _ _ _) w) as [r0 w0]. cbn [fst snd] in *. injection Hr as <- <-.
      destruct E as [E|E]; [|destruct (FALSE _ _ E)].
      assert (Hv : v_inv v (w_io w0)).
      { destruct EI as [[EI _]|(? & ? & _ & [EI _])]; exact EI. }
      pose proof (checked_rep w tok ScopeDelete oid m R HD Hoid) as C. unfold with_scope, refuse.
      destruct (checked idp d w tok ScopeDelete oid (store_of w)) as [a|x|].
      + destruct C as (i & o & acl & dek & ba & bo & Ew & Hs & Em & Ho & -> & Hba & Hbo & Oa & Oo & V).
        destruct E as [-> HH]. exists (delete oid m). rewrite Ew, Em. split; [|split; [|exact Hv]].
        * right. split; [exact Hs|]. right. auto.
        * eapply holds_rep; [exact HH|]. eapply rep_delete; [exact R|..]; cbn [del_map].
          -- intros oid' dt Hne. now rewrite !upd_oid by exact Hne.
          -- rewrite upd_other by (intros [=]; discriminate). apply upd_same.
          -- apply upd_same.
      + exists m. destruct C as [(y & [= ->] & -> & z & ->)|[(C & _)|[(i & [= ->] & -> & C)|[(i & [= ->] & -> & C1 & ->)|(i & o & acl & [= ->] & -> & C1 & -> & C2)]]]];
          try discriminate; destruct E as [-> HH]; (split; [|split; [eapply holds_rep; eauto|exact Hv]]); cbn [res_map]; auto 10.
      + exists m. destruct E as [-> HH].
        destruct C as [(y & C & _)|[(_ & ->)|[(i & C & _)|[(i & C & _)|(i & o & acl & C & _)]]]]; try discriminate.
        split; [|split; [eapply holds_rep; eauto|exact Hv]]. auto.
    - (* GetAccessGroups *)
      assert (Hoid : uuid_wf oid) by auto.
      pose proof (get_groups_spec e False v io Hio idp Hidp d tok oid w _ H) as E.
      pose proof (wpc_end_inv _ _ _ _ E) as EI. apply wpc_end in E.
      destruct (run (d1_get_access_groups _ _ _ _ _) w) as [r0 w0]. cbn [fst snd] in *. injection Hr as <- <-.
      destruct E as [E|E]; [|destruct (FALSE _ _ E)]. subst r0.
      pose proof (checked_rep w tok ScopeGetAccessGroups oid m R HD Hoid) as C.
      exists m. split; [|split; [eapply holds_rep; eauto|apply EI]].
      apply with_access_checked; auto.
      destruct (checked idp d w tok ScopeGetAccessGroups oid (store_of w)) as [a|x|]; cbn [res_bind res_map]; auto.
      destruct C as (i & o & acl & dek & ba & bo & Ew & Hs & Em & Ho & -> & _).
      intros i' o' acl' Ew' Em' Ho'. rewrite Em in Em'. injection Em' as <- <-. auto.
    - (* AddGroups *)
      assert (Hoid : uuid_wf oid) by auto.
      pose proof (add_groups_spec e False v io Hio idp Hidp d tok oid gs w _ H Hoid) as E.
      pose proof (wpc_end_inv _ _ _ _ E) as EI. apply wpc_end in E.
      destruct (run (d1_add_groups _ _ _ _ _ _) w) as [r0 w0]. cbn [fst snd] in *. injection Hr as <- <-.
      destruct E as [E|E]; [|destruct (FALSE _ _ E)].
      assert (Hv : v_inv v (w_io w0)).
      { destruct EI as [[EI _]|(? & ? & ? & _ & _ & _ & [EI _])]; exact EI. }
      pose proof (checked_rep w tok ScopeModifyAccessGroups oid m R HD Hoid) as C.
      pose proof (with_access_checked w tok ScopeModifyAccessGroups oid m) as WA.
      destruct (checked idp d w tok ScopeModifyAccessGroups oid (store_of w)) as [a|x|].
      2,3: destruct E as [-> HH]; exists m; split; [apply WA; auto|split; [eapply holds_rep; eauto|exact Hv]].
      destruct C as (i & o & acl & dek & ba & bo & Ew & Hs & Em & Ho & -> & Hba & Hbo & Oa & Oo & V).
      cbn [a_groups a_dek] in E.
      assert (Eg : add_groups (Some acl) gs = Ok (Some (acl ∪ list_to_set gs))).
      { destruct gs as [|g gs]; cbn [add_groups]; do 2 f_equal; set_solver. }
      rewrite Eg in E.
      assert (V' : forall g, g ∈ acl ∪ list_to_set (map as_text gs) -> valid_utf8 g = true).
      { intros g Hg. apply elem_of_union in Hg as [Hg|Hg]; [now apply V|now apply (texts_valid gs)]. }
      destruct E as [(-> & sa & B2 & HH)|(-> & RF & HH)].
      + exists (<[oid := (o, acl ∪ list_to_set (map as_text gs))]> m). split; [|split; [|exact Hv]].
        * apply WA; auto. intros i' o' acl' Ew' Em' Ho'. rewrite Em in Em'. injection Em' as <- <-. right. auto.
        * eapply holds_rep; [exact HH|]. eapply rep_insert; [exact R|first [exact HD|exact HDo]|exact Hoid| | |exact V'].
          -- intros oid' dt Hne. unfold acc_map. now rewrite !upd_oid by exact Hne.
          -- exists bo, sa, dek. unfold acc_map. rewrite upd_other by (intros [=]; discriminate). rewrite !upd_same.
             rewrite norm_union in B2 by exact V. auto.
      + exists m. split; [|split; [eapply holds_rep; eauto|exact Hv]]. apply WA; auto.
        intros i' o' acl' Ew' Em' Ho'. left. split; [exact RF|split; reflexivity].
    - (* RemoveGroups *)
      assert (Hoid : uuid_wf oid) by auto.
      pose proof (remove_groups_spec e False v io Hio idp Hidp d tok oid gs w _ H Hoid) as E.
      pose proof (wpc_end_inv _ _ _ _ E) as EI. apply wpc_end in E.
      destruct (run (d1_remove_groups _ _ _ _ _ _) w) as [r0 w0]. cbn [fst snd] in *. injection Hr as <- <-.
      destruct E as [E|E]; [|destruct (FALSE _ _ E)].
      assert (Hv : v_inv v (w_io w0)).
      { destruct EI as [[EI _]|(? & ? & _ & _ & [EI _])]; exact EI. }
      pose proof (checked_rep w tok ScopeModifyAccessGroups oid m R HD Hoid) as C.
      pose proof (with_access_checked w tok ScopeModifyAccessGroups oid m) as WA.
      destruct (checked idp d w tok ScopeModifyAccessGroups oid (store_of w)) as [a|x|].
      2,3: destruct E as [-> HH]; exists m; split; [apply WA; auto|split; [eapply holds_rep; eauto|exact Hv]].
      destruct C as (i & o & acl & dek & ba & bo & Ew & Hs & Em & Ho & -> & Hba & Hbo & Oa & Oo & V).
      cbn [a_groups a_dek remove_groups] in E.
      assert (V' : forall g, g ∈ acl ∖ list_to_set gs -> valid_utf8 g = true).
      { intros g Hg. apply V. set_solver. }
      destruct E as [(-> & sa & B2 & HH)|(-> & RF & HH)].
      + exists (<[oid := (o, acl ∖ list_to_set gs)]> m). split; [|split; [|exact Hv]].
        * apply WA; auto. intros i' o' acl' Ew' Em' Ho'. rewrite Em in Em'. injection Em' as <- <-. right. auto.
        * eapply holds_rep; [exact HH|]. eapply rep_insert; [exact R|first [exact HD|exact HDo]|exact Hoid| | |exact V'].
          -- intros oid' dt Hne. unfold acc_map. now rewrite !upd_oid by exact Hne.
          -- exists bo, sa, dek. unfold acc_map. rewrite upd_other by (intros [=]; discriminate). rewrite !upd_same.
             rewrite norm_set_valid in B2 by exact V'. auto.
      + exists m. split; [|split; [eapply holds_rep; eauto|exact Hv]]. apply WA; auto.
        intros i' o' acl' Ew' Em' Ho'. left. split; [exact RF|split; reflexivity].
    - (* Authorize *)
      assert (Hoid : uuid_wf oid) by auto.
      pose proof (authorize_spec e False v io Hio idp Hidp d tok oid w _ H) as E.
      pose proof (wpc_end_inv _ _ _ _ E) as EI. apply wpc_end in E.
      destruct (run (d1_authorize _ _ _ _ _) w) as [r0 w0]. cbn [fst snd] in *. injection Hr as <- <-.
      destruct E as [E|E]; [|destruct (FALSE _ _ E)]. subst r0.
      pose proof (checked_rep w tok ScopeGetAccessGroups oid m R HD Hoid) as C.
      exists m. split; [|split; [eapply holds_rep; eauto|apply EI]].
      apply with_access_checked; auto.
      destruct (checked idp d w tok ScopeGetAccessGroups oid (store_of w)) as [a|x|]; cbn [res_bind res_map]; auto.
    - (* CreateToken *)
      pose proof (wpc_end_inv _ _ _ _ (create_token_keeps pt w)) as E.
      destruct (run (d1_create_token _ _ _) w) as [r0 w0]. cbn [fst snd] in *. injection Hr as <- <-.
      exists m. rewrite E. split; [|auto]. split; [reflexivity|]. intros y. destruct r0; cbn [res_map]; intros [= <-]; eauto.
    - (* GetTokenContents *)
      pose proof (wpc_end_inv _ _ _ _ (get_token_keeps t w)) as E.
      destruct (run (d1_get_token_contents _ _ _) w) as [r0 w0]. cbn [fst snd] in *. injection Hr as <- <-.
      exists m. rewrite E. split; [|auto]. split; [reflexivity|]. intros y. destruct r0; cbn [res_map]; intros [= <-]; eauto.
  Qed.

End Refine.
