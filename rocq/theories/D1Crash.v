(** Refusals, crashes and faults: lemmas behind the property theorems. *)
From Coq Require Import ZifyN ZifyNat.
From stdpp Require Import gmap.
From Verif Require Import Bytes Go Json JsonProofs Uuid UuidProofs Types TypesProofs World Logic
  Cryptor CryptorProofs IoSpec IoProofs Id Data D1 D1Proofs D1Calls Spec SpecProofs History D1Refine D1Local
  Claims SpecTheory D1Props Gcm Kwp.
Local Open Scope bool_scope.
Local Open Scope N_scope.

Lemma ret_map_cut {S I A B} (f : A -> B) (p : prog (world S I) (res A)) (Inv : world S I -> Prop) (Q : res A -> world S I -> Prop) w :
  wpc p Inv Q w -> forall n, Inv (snd (run_n n (ret_map f p) w)).
Proof.
  intros H. assert (E : wpc (ret_map f p) Inv (fun _ _ => True) w).
  { apply wpc_bind. eapply wpc_mono; [| |exact H]; [auto|]. intros a w' H1 _. apply wpc_ret; auto. }
  exact (wpc_cut _ _ _ _ E).
Qed.

(** ** Refusals *)
Section Refusal.
  Context {S I : Type} (e : env) (F : Prop) (v : view S) (io : provider S) (Hio : io_spec F v io).
  Notation W := (world S I).
  Context (idp : bytes -> prog W (res identity)) (Hidp : idp_reads v idp) (d : d1).
  Notation store_of w := (v_map v (w_io w)).

  Lemma refused_unchanged c w r w' : v_inv v (w_io w) -> (forall oid, call_oid c = Some oid -> uuid_wf oid) ->
    run (d1_aes e io idp d c) w = (r, w') -> r = Err ED1NotAuthenticated \/ r = Err ED1NotAuthorized ->
    seq (store_of w') (store_of w).
  Proof.
    intros Hi Hwf Hr Href. pose proof (holds_self v w Hi) as H.
    assert (NF : forall A (f : A -> d1_reply) r0, r = res_map f r0 -> ~ faulted F r0).
    { intros A f r0 E [_ (x & -> & (n & ->))]. subst r. destruct Href; discriminate. }
    assert (FIN : forall w' : W, holds v (store_of w) w' -> seq (store_of w') (store_of w)) by (intros w0 H0; apply H0).
    unfold d1_aes in Hr. destruct c as [tok obj gs|tok oid obj|tok oid|tok oid|tok oid|tok oid gs|tok oid gs|tok oid|pt|t];
      cbn [d1_do call_oid] in *; rewrite run_ret_map in Hr.
    - pose proof (wpc_end _ _ _ _ (encrypt_spec e F v io Hio idp Hidp d tok obj gs w _ H)) as E.
      destruct (run (d1_encrypt _ _ _ _ _ _ _ _) w) as [r0 w0]. cbn [fst snd] in *. injection Hr as <- <-.
      destruct E as [E|E]; [|exfalso; eapply NF; eauto].
      destruct (verified _ _ _ _); [|destruct E as [_ E]; auto..].
      destruct E as [(oid & _ & _ & _ & -> & _)|[(oid & _ & _ & _ & E)|[(oid & _ & _ & _ & -> & _)|(_ & _ & E)]]]; auto; destruct Href; discriminate.
    - pose proof (wpc_end _ _ _ _ (update_spec e F v io Hio idp Hidp d tok oid obj w _ H (Hwf _ eq_refl))) as E.
      destruct (run (d1_update _ _ _ _ _ _ _) w) as [r0 w0]. cbn [fst snd] in *. injection Hr as <- <-.
      destruct E as [E|E]; [|exfalso; eapply NF; eauto].
      destruct (checked _ _ _ _ _ _ _); [|destruct E as [_ E]; auto..].
      destruct E as [(-> & _)|[(_ & _ & E)|(_ & _ & E)]]; auto; destruct Href; discriminate.
    - pose proof (wpc_end_inv _ _ _ _ (decrypt_spec e F v io Hio idp Hidp d tok oid w _ H)) as E.
      destruct (run (d1_decrypt _ _ _ _ _ _) w) as [r0 w0]. cbn [fst snd] in *. injection Hr as <- <-. auto.
    - pose proof (wpc_end _ _ _ _ (delete_spec e F v io Hio idp Hidp d tok oid w _ H)) as E.
      destruct (run (d1_delete _ _ _ _ _) w) as [r0 w0]. cbn [fst snd] in *. injection Hr as <- <-.
      destruct E as [E|E]; [|exfalso; eapply NF; eauto].
      destruct (checked _ _ _ _ _ _ _) as [a|x|]; [destruct E as [-> _]; destruct Href; discriminate| |destruct E as [_ E]; auto].
      destruct x; destruct E as [_ E]; auto.
    - pose proof (wpc_end_inv _ _ _ _ (get_groups_spec e F v io Hio idp Hidp d tok oid w _ H)) as E.
      destruct (run (d1_get_access_groups _ _ _ _ _) w) as [r0 w0]. cbn [fst snd] in *. injection Hr as <- <-. auto.
    - pose proof (wpc_end _ _ _ _ (add_groups_spec e F v io Hio idp Hidp d tok oid gs w _ H (Hwf _ eq_refl))) as E.
      destruct (run (d1_add_groups _ _ _ _ _ _) w) as [r0 w0]. cbn [fst snd] in *. injection Hr as <- <-.
      destruct E as [E|E]; [|exfalso; eapply NF; eauto].
      destruct (checked _ _ _ _ _ _ _) as [a|x|]; [|destruct E as [_ E]; auto..].
      destruct (add_groups _ _) as [s|x|]; [|destruct E as [_ E]; auto..].
      destruct E as [(-> & _)|(_ & _ & E)]; auto; destruct Href; discriminate.
    - pose proof (wpc_end _ _ _ _ (remove_groups_spec e F v io Hio idp Hidp d tok oid gs w _ H (Hwf _ eq_refl))) as E.
      destruct (run (d1_remove_groups _ _ _ _ _ _) w) as [r0 w0]. cbn [fst snd] in *. injection Hr as <- <-.
      destruct E as [E|E]; [|exfalso; eapply NF; eauto].
      destruct (checked _ _ _ _ _ _ _) as [a|x|]; [|destruct E as [_ E]; auto..].
      destruct E as [(-> & _)|(_ & _ & E)]; auto; destruct Href; discriminate.
    - pose proof (wpc_end_inv _ _ _ _ (authorize_spec e F v io Hio idp Hidp d tok oid w _ H)) as E.
      destruct (run (d1_authorize _ _ _ _ _) w) as [r0 w0]. cbn [fst snd] in *. injection Hr as <- <-. auto.
    - pose proof (wpc_end_inv _ _ _ _ (create_token_keeps e d pt w)) as E.
      destruct (run (d1_create_token _ _ _) w) as [r0 w0]. cbn [fst snd] in *. injection Hr as <- <-. rewrite E. apply seq_refl.
    - pose proof (wpc_end_inv _ _ _ _ (get_token_keeps e d t w)) as E.
      destruct (run (d1_get_token_contents _ _ _) w) as [r0 w0]. cbn [fst snd] in *. injection Hr as <- <-. rewrite E. apply seq_refl.
  Qed.

  (** ** Encrypt never overwrites *)
  Lemma encrypt_keeps tok obj gs w n oid dt b : v_inv v (w_io w) -> store_of w oid dt = Some b ->
    store_of (snd (run_n n (d1_aes e io idp d (CEncrypt tok obj gs)) w)) oid dt = Some b.
  Proof.
    intros Hi Hb. assert (Hwf : forall oid, call_oid (CEncrypt tok obj gs) = Some oid -> uuid_wf oid) by discriminate.
    destruct (wpc_cut _ _ _ _ (call_local e F v io Hio idp Hidp d (CEncrypt tok obj gs) w Hi Hwf) n) as [_ HL].
    destruct (HL oid dt) as [E|[_ (_ & _ & E)]]; congruence.
  Qed.
End Refusal.

(** Refused before the access list is consulted: whatever the provider is, it is not called. *)
Section NoIo.
  Context {S I : Type} (e : env) (io : provider S).
  Notation W := (world S I).
  Context (idp : bytes -> prog W (res identity)) (d : d1).
  Lemma refused_early c w tok need : call_token c = Some tok -> call_scope c = Some need ->
    (forall i, whois idp w tok = Ok i -> ~ scope_has (i_scopes i) need) ->
    exists r, run (d1_aes e io idp d c) w = (r, snd (run (idp tok) w)) /\ refused (whois idp w tok) r.
  Proof.
    intros Ht Hn Hno. unfold whois in *.
    assert (HV : run (verify_access idp tok need) w =
      (match fst (run (idp tok) w) with Ok _ => Err ED1NotAuthorized | Err _ => Err ED1NotAuthenticated | Panic => Panic end,
       snd (run (idp tok) w))).
    { unfold verify_access. rewrite run_bind. destruct (run (idp tok) w) as [[i|x|] w1]; cbn [fst snd] in *; try reflexivity.
      destruct (scope_contains (i_scopes i) need) eqn:E; [|reflexivity]. exfalso. apply (Hno i eq_refl). now apply scope_contains_has. }
    assert (HK : forall A (k : identity -> prog W (res A)), run (bindR (verify_access idp tok need) k) w =
      (match fst (run (idp tok) w) with Ok _ => Err ED1NotAuthorized | Err _ => Err ED1NotAuthenticated | Panic => Panic end,
       snd (run (idp tok) w))).
    { intros A k. rewrite run_bindR, HV. destruct (fst (run (idp tok) w)); reflexivity. }
    exists (match fst (run (idp tok) w) with Ok _ => Err ED1NotAuthorized | Err _ => Err ED1NotAuthenticated | Panic => Panic end).
    split; [|destruct (fst (run (idp tok) w)); reflexivity].
    unfold d1_aes. destruct c; try discriminate; injection Ht as ->; injection Hn as <-; cbn [d1_do]; rewrite run_ret_map.
    all: unfold d1_encrypt, d1_update, d1_decrypt, d1_delete, d1_get_access_groups, d1_add_groups, d1_remove_groups, d1_authorize;
      rewrite HK; destruct (fst (run (idp tok) w)); reflexivity.
  Qed.
End NoIo.

Section Crash.
  Context {S I : Type} (e : env) (v : view S) (io : provider S) (Hio : io_spec False v io).
  Notation W := (world S I).
  Context (idp : bytes -> prog W (res identity)) (Hidp : idp_reads v idp) (d : d1).
  Notation store_of w := (v_map v (w_io w)).
  Notation SO := DataTypeSealedObject.
  Notation SA := DataTypeSealedAccess.
  Notation elsewhere oid := (elsewhere v (only oid)).

  Lemma encrypt_collision tok obj gs w r w' oid i : v_inv v (w_io w) ->
    run (d1_aes e io idp d (CEncrypt tok obj gs)) w = (r, w') -> whois idp w tok = Ok i -> scope_has (i_scopes i) ScopeEncrypt ->
    o_id (outside_of e idp w (CEncrypt tok obj gs) w') = Ok oid ->
    (store_of w oid SO <> None -> r = Err ED1ObjectAlreadyExists \/ r = Err ERandom) /\
    (store_of w oid SO = None -> store_of w oid SA <> None -> r = Err ED1AccessAlreadyExists \/ r = Err ERandom).
  Proof.
    intros Hi Hr Hw Hs Ho. unfold outside_of in Ho. cbn [call_token o_id] in Ho.
    unfold d1_aes in Hr. cbn [d1_do] in Hr. rewrite run_ret_map in Hr.
    pose proof (wpc_end _ _ _ _ (encrypt_spec e False v io Hio idp Hidp d tok obj gs w _ (holds_self v w Hi))) as E.
    destruct (run (d1_encrypt _ _ _ _ _ _ _ _) w) as [r0 w0]. cbn [fst snd] in *. injection Hr as <- <-.
    destruct E as [E|[[] _]]. unfold verified in E. rewrite Hw, (proj2 (scope_contains_has _ _) Hs) in E.
    assert (DU : forall oid', drawn e idp w tok oid' -> oid' = oid).
    { intros oid' (b & Hb & ->). rewrite Hb in Ho. cbn [res_map] in Ho. congruence. }
    destruct E as [(oid' & Hd & N1 & N2 & -> & _)|[(oid' & Hd & N1 & -> & _)|[(oid' & Hd & N1 & N2 & -> & _)|(-> & _)]]];
      try (apply DU in Hd; subst oid'); cbn [res_map]; split; intros; auto; congruence.
  Qed.

  (** Outcome of the checks when the access slot holds a list. *)
  Lemma checked_acl w tok need oid st ba acl dk : st oid SA = Some ba -> acc_open (d_aek d) oid ba = Ok (mkAccess (Some acl) dk) ->
    (allowed (whois idp w tok) need acl -> checked idp d w tok need oid st = Ok (mkAccess (Some acl) dk)) /\
    (~ allowed (whois idp w tok) need acl -> exists r : res access, checked idp d w tok need oid st = r /\
      match whois idp w tok with Ok _ => r = Err ED1NotAuthorized | Err _ => r = Err ED1NotAuthenticated | Panic => r = Panic end).
  Proof.
    intros Hb Ho. unfold allowed, checked, verified, access_check. rewrite Hb, Ho. destruct (whois idp w tok) as [i|x|].
    2,3: split; [intros (i & ? & _); discriminate|intros _; eexists; split; [reflexivity|reflexivity]].
    destruct (scope_contains (i_scopes i) need) eqn:Es; cbn [res_bind].
    - apply scope_contains_has in Es. pose proof (authorized_on_list i need acl dk Es) as Hal. split.
      + intros (i' & [= <-] & _ & Hl). apply Hal in Hl. now rewrite Hl.
      + intros N. destruct (authorized i need _); [exfalso; apply N; exists i; tauto|]. eauto.
    - apply scope_contains_hasnt in Es. split; [intros (i' & [= <-] & ? & _); contradiction|eauto].
  Qed.
  Lemma allowed_dec who need acl : allowed who need acl \/ ~ allowed who need acl.
  Proof.
    destruct who as [i|x|]; [|right; intros (i & ? & _); discriminate..].
    destruct (scope_contains (i_scopes i) need) eqn:Es.
    - apply scope_contains_has in Es. pose proof (authorized_on_list i need acl None Es) as Hal.
      destruct (authorized i need _); [left; exists i; tauto|right]. intros (i' & [= <-] & _ & Hl). apply Hal in Hl. discriminate.
    - apply scope_contains_hasnt in Es. right. intros (i' & [= <-] & ? & _). contradiction.
  Qed.

  Lemma elsewhere_slots oid (w w' : W) dt : elsewhere oid w w' -> dt = SO \/ dt = SA -> store_of w' oid dt = store_of w oid dt.
  Proof. intros [_ H] Hd. apply H; [apply bytes_eqb_refl|exact Hd]. Qed.

  (** *** Delete *)
  Definition deleting (oid : uuid) (bo ba : bytes) (w : W) : Prop :=
    v_inv v (w_io w) /\
    ((store_of w oid SO = Some bo /\ store_of w oid SA = Some ba) \/
     (store_of w oid SO = None /\ store_of w oid SA = Some ba) \/
     (store_of w oid SO = None /\ store_of w oid SA = None)).
  Lemma delete_cut iof tok oid w n bo ba : io_spec True v iof -> deleting oid bo ba w ->
    deleting oid bo ba (snd (run_n n (d1_aes e iof idp d (CDelete tok oid)) w)).
  Proof.
    intros Hiof [Hi HJ]. unfold d1_aes. cbn [d1_do].
    pose proof (delete_spec e True v iof Hiof idp Hidp d tok oid w _ (holds_self v w Hi)) as E.
    assert (E' : wpc (ret_map (fun _ : unit => RUnit) (d1_delete iof idp (aes_cryptor e (d_aek d)) tok oid)) (deleting oid bo ba) (fun _ _ => True) w).
    { apply wpc_ret_map. eapply wpc_mono; [| |exact E]; [|auto]. clear E.
      intros w' [[H1 H2]|(a & st & _ & [H1 H2])]; split; [exact H1| |exact H1|].
      - now rewrite !H2.
      - rewrite !H2. destruct st; cbn [del_map]; [exact HJ|..].
        + rewrite upd_same, upd_other by (intros [=]; discriminate). destruct HJ as [[_ ->]|[[_ ->]|[_ ->]]]; auto.
        + rewrite upd_same, upd_other by (intros [=]; discriminate). rewrite upd_same. auto. }
    exact (wpc_cut _ _ _ _ E' n).
  Qed.
  Lemma delete_attempts oid bo ba w cs w' : attempts e v idp d (fun c => exists t, c = CDelete t oid) oid w cs w' ->
    deleting oid bo ba w -> deleting oid bo ba w'.
  Proof.
    induction 1 as [w|w w1 cs w2 He _ IH|w iof c n cs w2 Hf [t ->] _ IH]; intros HJ; [exact HJ| |].
    - apply IH. destruct HJ as [_ HJ]. split; [apply He|]. now rewrite !(elsewhere_slots oid w w1) by auto.
    - apply IH. now apply delete_cut.
  Qed.
  Lemma delete_retry oid bo ba (w : W) tok acl dk : deleting oid bo ba w ->
    acc_open (d_aek d) oid ba = Ok (mkAccess (Some acl) dk) -> allowed (whois idp w tok) ScopeDelete acl ->
    exists w', run (d1_aes e io idp d (CDelete tok oid)) w = (Ok RUnit, w') /\
      v_inv v (w_io w') /\ store_of w' oid SO = None /\ store_of w' oid SA = None.
  Proof.
    intros [Hi HJ] Ho Hall. unfold d1_aes. cbn [d1_do]. rewrite run_ret_map.
    pose proof (delete_spec e False v io Hio idp Hidp d tok oid w _ (holds_self v w Hi)) as E.
    pose proof (wpc_end_inv _ _ _ _ E) as EI. apply wpc_end in E.
    destruct (run (d1_delete _ _ _ _ _) w) as [r0 w0]. cbn [fst snd] in *. exists w0.
    assert (Hi0 : v_inv v (w_io w0)) by (destruct EI as [[? _]|(? & ? & _ & [? _])]; assumption).
    destruct E as [E|[[] _]].
    assert (HC : (store_of w oid SA = Some ba /\ checked idp d w tok ScopeDelete oid (store_of w) = Ok (mkAccess (Some acl) dk)) \/
                 (store_of w oid SO = None /\ store_of w oid SA = None /\ checked idp d w tok ScopeDelete oid (store_of w) = Err ED1AccessNotFound)).
    { destruct HJ as [[_ HA]|[[_ HA]|[HO HA]]].
      1,2: left; split; [exact HA|]; now apply (checked_acl w tok ScopeDelete oid _ ba acl dk HA Ho).
      right. split; [exact HO|]. split; [exact HA|]. unfold checked, verified, access_check. rewrite HA.
      destruct Hall as (i & -> & Hs & _). now rewrite (proj2 (scope_contains_has _ _) Hs). }
    destruct HC as [[HA HC]|(HO & HA & HC)]; rewrite HC in E; destruct E as [-> [_ HH]]; split; [reflexivity| |reflexivity|]; split; auto; rewrite !HH.
    - cbn [del_map]. rewrite upd_same, upd_other by (intros [=]; discriminate). rewrite upd_same. auto.
    - auto.
  Qed.
  Lemma delete_again oid (w : W) tok i : v_inv v (w_io w) -> store_of w oid SA = None ->
    whois idp w tok = Ok i -> scope_has (i_scopes i) ScopeDelete ->
    exists w', run (d1_aes e io idp d (CDelete tok oid)) w = (Ok RUnit, w') /\ v_inv v (w_io w') /\ seq (store_of w') (store_of w).
  Proof.
    intros Hi HA Hw Hs. unfold d1_aes. cbn [d1_do]. rewrite run_ret_map.
    pose proof (wpc_end _ _ _ _ (delete_spec e False v io Hio idp Hidp d tok oid w _ (holds_self v w Hi))) as E.
    destruct (run (d1_delete _ _ _ _ _) w) as [r0 w0]. cbn [fst snd] in *. exists w0.
    destruct E as [E|[[] _]]. unfold checked, verified, access_check in E.
    rewrite Hw, (proj2 (scope_contains_has _ _) Hs), HA in E. cbn [res_bind] in E. destruct E as [-> HH]. split; [reflexivity|exact HH].
  Qed.

  (** *** Encrypt *)
  Definition orphan (oid : uuid) (w : W) : Prop :=
    v_inv v (w_io w) /\ store_of w oid SO <> None /\ store_of w oid SA = None.
  Lemma encrypt_cut iof tok obj gs w n oid : io_spec True v iof -> v_inv v (w_io w) ->
    let w1 := snd (run_n n (d1_aes e iof idp d (CEncrypt tok obj gs)) w) in
    (store_of w1 oid SO = store_of w oid SO /\ store_of w1 oid SA = store_of w oid SA) \/
    (o_id (outside_of e idp w (CEncrypt tok obj gs) w1) = Ok oid /\ store_of w oid SO = None /\ store_of w1 oid SO <> None /\
      (store_of w1 oid SA = store_of w oid SA \/
       (store_of w oid SA = None /\ exists i, whois idp w tok = Ok i /\
          rep d (only oid) (store_of w1) {[oid := (obj, list_to_set (map as_text (i_id i :: gs)))]}))).
  Proof.
    intros Hiof Hi w1. unfold outside_of. cbn [call_token o_id].
    pose proof (encrypt_spec e True v iof Hiof idp Hidp d tok obj gs w _ (holds_self v w Hi)) as E.
    pose proof (ret_map_cut ROid _ _ _ _ E n) as C. change (snd (run_n n _ w)) with w1 in C. clear E.
    destruct C as [[_ C]|(i & oid' & so & sa & st & Hv & Hd & N1 & HB & N2 & [_ C])]; [left; now rewrite !C|].
    rewrite !C. destruct (decide (oid = oid')) as [->|Hne].
    2:{ left. destruct st; cbn [upd_map]; rewrite ?upd_oid by exact Hne; auto. }
    assert (Ho : res_map uuid_v4 (draw e (w_draws (snd (run (idp tok) w))) 16) = Ok oid').
    { destruct Hd as (b & -> & ->). reflexivity. }
    destruct st; cbn [upd_map].
    - left. auto.
    - right. rewrite upd_same, upd_other by (intros [=]; discriminate). split; [exact Ho|]. split; [exact N1|]. split; [discriminate|]. auto.
    - right. rewrite upd_other by (intros [=]; discriminate). rewrite !upd_same. split; [exact Ho|]. split; [exact N1|]. split; [discriminate|].
      right. split; [auto|]. exists i. unfold verified in Hv. destruct (whois idp w tok) as [i'| |]; try discriminate.
      destruct (scope_contains _ _); [|discriminate]. injection Hv as ->. split; [reflexivity|].
      destruct HB as (dek & B1 & B2). pose proof (drawn_wf _ _ _ _ _ Hd) as Hoid.
      set (acl := list_to_set (map as_text (i_id i :: gs)) : gset bytes) in *.
      assert (Ea : (list_to_set (gs ++ [i_id i]) : gset bytes) = list_to_set (i_id i :: gs)) by set_solver.
      pose proof (texts_valid (i_id i :: gs)) as V. change (forall g, g ∈ acl -> valid_utf8 g = true) in V.
      rewrite Ea, norm_texts in B2.
      apply (rep_seq d (only oid') (upd_map oid' (store_of w) so sa UBoth)); [apply seq_sym, C|]. split.
      + intros oid HD Hoid'. apply bytes_eqb_eq in HD. subst oid. rewrite lookup_singleton. split; [|exact V].
        exists so, sa, dek. cbn [upd_map]. rewrite upd_other by (intros [=]; discriminate). rewrite !upd_same. auto.
      + intros oid HN. destruct (decide (oid = oid')) as [->|Hne]; [|rewrite lookup_singleton_ne in HN by congruence; congruence].
        split; [apply bytes_eqb_refl|exact Hoid].
  Qed.
  Lemma encrypt_cut_histories iof tok obj gs w n oid : io_spec True v iof -> v_inv v (w_io w) ->
    let w1 := snd (run_n n (d1_aes e iof idp d (CEncrypt tok obj gs)) w) in
    (store_of w1 oid SO = store_of w oid SO /\ store_of w1 oid SA = store_of w oid SA) \/
    (o_id (outside_of e idp w (CEncrypt tok obj gs) w1) = Ok oid /\ store_of w oid SO = None /\ store_of w1 oid SO <> None /\
      (store_of w1 oid SA = store_of w oid SA \/
       (store_of w oid SA = None /\ exists i, whois idp w tok = Ok i /\
          (forall evs w2, history e v io idp d (only oid) w1 evs w2 -> Forall event_ok evs ->
             exists m, spec_history {[oid := (obj, list_to_set (map as_text (i_id i :: gs)))]} (List.filter (ev_in (only oid)) evs) m)))).
  Proof.
    intros Hf Hi w1. destruct (encrypt_cut iof tok obj gs w n oid Hf Hi) as [H|(H1 & H2 & H3 & [H|(H4 & i & Hw & H)])]; [auto|auto 10|].
    right. splits; auto. right. split; [exact H4|]. exists i. split; [exact Hw|]. intros evs w2 HH Hok.
    assert (Hi1 : v_inv v (w_io w1)).
    { refine (proj1 (wpc_cut _ _ _ _ (call_local e True v iof Hf idp Hidp d (CEncrypt tok obj gs) w Hi _) n)). discriminate. }
    destruct (history_refines e v io Hio idp Hidp d (only oid) _ _ _ _ HH Hi1 H Hok) as (m & Hm & _). eauto.
  Qed.
  Lemma orphan_step oid w c r w' : orphan oid w -> (forall o, call_oid c = Some o -> uuid_wf o) ->
    run (d1_aes e io idp d c) w = (r, w') ->
    orphan oid w' /\ (call_oid c = Some oid -> forall y, r = Ok y -> y = RUnit /\ exists t, c = CDelete t oid) /\ r <> Ok (ROid oid).
  Proof.
    intros (Hi & HO & HA) Hwf Hr.
    assert (HC : forall tok need, checked idp d w tok need oid (store_of w) = Err ED1AccessNotFound \/ checked idp d w tok need oid (store_of w) = Panic \/
      checked idp d w tok need oid (store_of w) = Err ED1NotAuthenticated \/ checked idp d w tok need oid (store_of w) = Err ED1NotAuthorized)
      by (intros; now apply checked_err_absent).
    assert (HL : forall oid' dt, store_of w' oid' dt = store_of w oid' dt \/ may_touch e v idp w c oid' dt).
    { pose proof (wpc_end_inv _ _ _ _ (call_local e False v io Hio idp Hidp d c w Hi Hwf)) as [_ H]. rewrite Hr in H. exact H. }
    assert (Hi' : v_inv v (w_io w')).
    { pose proof (wpc_end_inv _ _ _ _ (call_local e False v io Hio idp Hidp d c w Hi Hwf)) as [H _]. rewrite Hr in H. exact H. }
    assert (KEEP : seq (store_of w') (store_of w) -> orphan oid w') by (intros E; split; [exact Hi'|]; now rewrite !E).
    assert (OTHER : call_oid c <> Some oid -> orphan oid w').
    { intros Hne. split; [exact Hi'|].
      assert (forall dt, store_of w' oid dt = store_of w oid dt) as Hsame; [|now rewrite !Hsame].
      intros dt. destruct (HL oid dt) as [E|[_ HT]]; [exact E|exfalso]. destruct c; try (exact (Hne HT)). destruct HT as (_ & HT & _). congruence. }
    pose proof (holds_self v w Hi) as H.
    destruct (decide (call_oid c = Some oid)) as [Hc|Hc].
    - unfold d1_aes in Hr. destruct c as [tok obj gs|tok oid' obj|tok oid'|tok oid'|tok oid'|tok oid' gs|tok oid' gs|tok oid'|pt|t];
      cbn [d1_do call_oid] in *; try discriminate; injection Hc as ->; rewrite run_ret_map in Hr.
      + pose proof (wpc_end _ _ _ _ (update_spec e False v io Hio idp Hidp d tok oid obj w _ H (Hwf _ eq_refl))) as E.
        destruct (run (d1_update _ _ _ _ _ _ _) w) as [r0 w0]. cbn [fst snd] in *. injection Hr as <- <-.
        destruct E as [E|[[] _]].
        destruct (HC tok ScopeUpdate) as [Q|[Q|[Q|Q]]]; rewrite Q in E; destruct E as [-> [_ E]]; splits; auto; discriminate.
      + pose proof (decrypt_spec e False v io Hio idp Hidp d tok oid w _ H) as E. pose proof (wpc_end_inv _ _ _ _ E) as EI. apply wpc_end in E.
        destruct (run (d1_decrypt _ _ _ _ _ _) w) as [r0 w0]. cbn [fst snd] in *. injection Hr as <- <-. destruct EI as [_ EI].
        destruct E as [E|[[] _]].
        destruct (HC tok ScopeDecrypt) as [Q|[Q|[Q|Q]]]; rewrite Q in E; subst r0; splits; auto; discriminate.
      + pose proof (wpc_end _ _ _ _ (delete_spec e False v io Hio idp Hidp d tok oid w _ H)) as E.
        destruct (run (d1_delete _ _ _ _ _) w) as [r0 w0]. cbn [fst snd] in *. injection Hr as <- <-.
        destruct E as [E|[[] _]].
        destruct (HC tok ScopeDelete) as [Q|[Q|[Q|Q]]]; rewrite Q in E; destruct E as [-> [_ E]]; splits; auto; try discriminate.
        intros _ y [= <-]. eauto.
      + pose proof (get_groups_spec e False v io Hio idp Hidp d tok oid w _ H) as E. pose proof (wpc_end_inv _ _ _ _ E) as EI. apply wpc_end in E.
        destruct (run (d1_get_access_groups _ _ _ _ _) w) as [r0 w0]. cbn [fst snd] in *. injection Hr as <- <-. destruct EI as [_ EI].
        destruct E as [E|[[] _]].
        destruct (HC tok ScopeGetAccessGroups) as [Q|[Q|[Q|Q]]]; rewrite Q in E; subst r0; splits; auto; discriminate.
      + pose proof (wpc_end _ _ _ _ (add_groups_spec e False v io Hio idp Hidp d tok oid gs w _ H (Hwf _ eq_refl))) as E.
        destruct (run (d1_add_groups _ _ _ _ _ _) w) as [r0 w0]. cbn [fst snd] in *. injection Hr as <- <-.
        destruct E as [E|[[] _]].
        destruct (HC tok ScopeModifyAccessGroups) as [Q|[Q|[Q|Q]]]; rewrite Q in E; destruct E as [-> [_ E]]; splits; auto; discriminate.
      + pose proof (wpc_end _ _ _ _ (remove_groups_spec e False v io Hio idp Hidp d tok oid gs w _ H (Hwf _ eq_refl))) as E.
        destruct (run (d1_remove_groups _ _ _ _ _ _) w) as [r0 w0]. cbn [fst snd] in *. injection Hr as <- <-.
        destruct E as [E|[[] _]].
        destruct (HC tok ScopeModifyAccessGroups) as [Q|[Q|[Q|Q]]]; rewrite Q in E; destruct E as [-> [_ E]]; splits; auto; discriminate.
      + pose proof (authorize_spec e False v io Hio idp Hidp d tok oid w _ H) as E. pose proof (wpc_end_inv _ _ _ _ E) as EI. apply wpc_end in E.
        destruct (run (d1_authorize _ _ _ _ _) w) as [r0 w0]. cbn [fst snd] in *. injection Hr as <- <-. destruct EI as [_ EI].
        destruct E as [E|[[] _]].
        destruct (HC tok ScopeGetAccessGroups) as [Q|[Q|[Q|Q]]]; rewrite Q in E; subst r0; splits; auto; discriminate.
    - split; [auto|]. split; [contradiction|]. intros ->.
      unfold d1_aes in Hr. destruct c as [tok obj gs|tok oid' obj|tok oid'|tok oid'|tok oid'|tok oid' gs|tok oid' gs|tok oid'|pt|t];
        cbn [d1_do call_oid] in *; rewrite run_ret_map in Hr; injection Hr as Hr _;
        try (destruct (fst _); discriminate).
      pose proof (wpc_end _ _ _ _ (encrypt_spec e False v io Hio idp Hidp d tok obj gs w _ H)) as E.
      destruct (run (d1_encrypt _ _ _ _ _ _ _ _) w) as [r0 w0]. cbn [fst snd] in *.
      destruct r0 as [oid0| |]; try discriminate. injection Hr as ->. destruct E as [E|[[] _]].
      destruct (verified _ _ _ _); [|destruct E; discriminate..].
      destruct E as [(oid1 & _ & N1 & _ & [= <-] & _)|[(oid1 & _ & _ & C & _)|[(oid1 & _ & _ & _ & C & _)|(C & _)]]]; congruence.
  Qed.
  Lemma orphan_history oid w evs w' : history e v io idp d (only oid) w evs w' -> orphan oid w -> Forall event_ok evs ->
    orphan oid w' /\
    Forall (fun ev => (about oid ev -> forall y, ev_reply ev = Ok y -> y = RUnit /\ deletes oid ev) /\ ~ creates oid ev) evs.
  Proof.
    induction 1 as [w|w w1 evs w2 He _ IH|w c r w1 evs w2 Hr _ IH]; intros HJ Hok.
    - auto.
    - apply IH; [|exact Hok]. destruct HJ as (_ & HJ). split; [apply He|]. now rewrite !(elsewhere_slots oid w w1) by auto.
    - pose proof (List.Forall_inv_tail Hok) as Hoks. apply List.Forall_inv in Hok.
      destruct (orphan_step oid w c r w1 HJ Hok Hr) as (J1 & J2 & J3).
      destruct (IH J1 Hoks) as [J4 J5]. split; [exact J4|]. constructor; [|exact J5].
      split; [|exact J3]. intros Hab y Hy. cbn [ev_reply] in Hy. destruct (J2 Hab y Hy) as [-> [t Ht]]. split; [reflexivity|]. exists t. cbn. auto.
  Qed.

  (** *** Update *)
  Lemma obj_open_two_keys kek oid so dek dek' o o' : obj_open kek oid so (Some dek) = Ok o -> obj_open kek oid so (Some dek') = Ok o' ->
    o = o' \/ two_keys oid (Some so).
  Proof.
    unfold obj_open. destruct (unmarshal dec_sealed_object so) as [s|] eqn:Eu; [|discriminate].
    unfold open_json, aes_open. cbn [slice_bytes]. intros H1 H2.
    destruct (aes_kwp_unwrap kek dek) as [k| |] eqn:E1; cbn [res_bind res_map] in H1; try discriminate.
    destruct (aes_kwp_unwrap kek dek') as [k'| |] eqn:E2; cbn [res_bind res_map] in H2; try discriminate.
    destruct (aes_gcm_decrypt _ _ k) as [p| |] eqn:G1; cbn [res_bind res_map] in H1; try discriminate.
    destruct (aes_gcm_decrypt _ _ k') as [p'| |] eqn:G2; cbn [res_bind res_map] in H2; try discriminate.
    destruct (decide (k = k')) as [->|Hne].
    - left. rewrite G1 in G2. injection G2 as ->. congruence.
    - right. exists so, s, k, k', p, p'. auto 10.
  Qed.

  (** The slots during and after attempts to update: some version of the object, the access list
      with the same groups. *)
  Definition updating (oid : uuid) (objs : list object) (acl : gset bytes) (w : W) : Prop :=
    v_inv v (w_io w) /\ (forall g, g ∈ acl -> valid_utf8 g = true) /\
    exists bo ba o dek dek', store_of w oid SO = Some bo /\ store_of w oid SA = Some ba /\
      In o objs /\ obj_open (d_kek d) oid bo (Some dek) = Ok o /\
      acc_open (d_aek d) oid ba = Ok (mkAccess (Some acl) (Some dek')).
  Lemma update_cut iof tok oid o w n objs acl : io_spec True v iof -> uuid_wf oid -> updating oid objs acl w ->
    updating oid (o :: objs) acl (snd (run_n n (d1_aes e iof idp d (CUpdate tok oid o)) w)).
  Proof.
    intros Hiof Hoid (Hi & V & bo & ba & o0 & dek & dek' & HO & HA & Hin & HoO & HoA).
    assert (E : wpc (d1_aes e iof idp d (CUpdate tok oid o)) (updating oid (o :: objs) acl) (fun _ _ => True) w).
    { unfold d1_aes. cbn [d1_do]. apply wpc_ret_map.
      eapply wpc_mono; [| |exact (update_spec e True v iof Hiof idp Hidp d tok oid o w _ (holds_self v w Hi) Hoid)]; [|auto].
      intros w' [[H1 H2]|(a & so & sa & st & Hc & _ & (dk & B1 & B2) & [H1 H2])].
      - split; [exact H1|]. split; [exact V|]. exists bo, ba, o0, dek, dek'. rewrite !H2. splits; auto. now right.
      - apply checked_stored in Hc as (ba' & i & HA' & HoA' & _). rewrite HA in HA'. injection HA' as <-.
        rewrite HoA in HoA'. injection HoA' as <-. cbn [a_groups] in B2. rewrite norm_set_valid in B2 by exact V.
        split; [exact H1|]. split; [exact V|]. destruct st; cbn [upd_map] in H2.
        + exists bo, ba, o0, dek, dek'. rewrite !H2. splits; auto. now right.
        + exists so, ba, o, dk, dek'. rewrite !H2. rewrite upd_same, upd_other by (intros [=]; discriminate). splits; auto. now left.
        + exists so, sa, o, dk, dk. rewrite !H2. rewrite (upd_other _ _ _ _ oid SO) by (intros [=]; discriminate). rewrite !upd_same. splits; auto. now left. }
    exact (wpc_cut _ _ _ _ E n).
  Qed.
  Lemma updating_mono oid objs objs' acl (w : W) : (forall o, In o objs -> In o objs') -> updating oid objs acl w -> updating oid objs' acl w.
  Proof. intros Hm (Hi & V & bo & ba & o0 & dek & dek' & HO & HA & Hin & H). split; [exact Hi|]. split; [exact V|]. exists bo, ba, o0, dek, dek'. auto 10. Qed.
  Lemma update_attempts oid acl w cs w' : attempts e v idp d (fun c => exists t o, c = CUpdate t oid o) oid w cs w' -> uuid_wf oid ->
    forall objs, updating oid objs acl w -> updating oid (objs ++ updates cs) acl w'.
  Proof.
    intros H Hoid. induction H as [w|w w1 cs w2 He _ IH|w iof c n cs w2 Hf (t & o & ->) _ IH]; intros objs HJ.
    - unfold updates. cbn [flat_map]. now rewrite app_nil_r.
    - apply IH. destruct HJ as (_ & V & bo & ba & o0 & dek & dek' & HJ). split; [apply He|]. split; [exact V|].
      exists bo, ba, o0, dek, dek'. now rewrite !(elsewhere_slots oid w w1) by auto.
    - eapply updating_mono; [|apply IH, update_cut; eauto].
      intros x Hx. apply in_app_or in Hx. apply in_or_app. cbn [updates flat_map In app]. unfold updates in *.
      destruct Hx as [[<-|Hx]|Hx]; [right; now left|now left|right; now right].
  Qed.
  Lemma updating_decrypt oid objs acl w tok : updating oid objs acl w -> 
    (allowed (whois idp w tok) ScopeDecrypt acl ->
      (exists o, In o objs /\ fst (run (d1_aes e io idp d (CDecrypt tok oid)) w) = Ok (RObject o)) \/
      (exists x, fst (run (d1_aes e io idp d (CDecrypt tok oid)) w) = Err x) \/ two_keys oid (store_of w oid SO)) /\
    (~ allowed (whois idp w tok) ScopeDecrypt acl -> refused (whois idp w tok) (fst (run (d1_aes e io idp d (CDecrypt tok oid)) w))).
  Proof.
    intros (Hi & V & bo & ba & o0 & dek & dek' & HO & HA & Hin & HoO & HoA).
    unfold d1_aes. cbn [d1_do]. rewrite run_ret_map. cbn [fst].
    pose proof (wpc_end _ _ _ _ (decrypt_spec e False v io Hio idp Hidp d tok oid w _ (holds_self v w Hi))) as E.
    destruct (run (d1_decrypt _ _ _ _ _ _) w) as [r0 w0]. cbn [fst snd] in *. destruct E as [->|[[] _]].
    destruct (checked_acl w tok ScopeDecrypt oid _ ba acl _ HA HoA) as [A B]. split; intros Hall.
    - rewrite (A Hall). cbn [res_bind]. unfold read_object. rewrite HO. cbn [a_dek].
      destruct (obj_open (d_kek d) oid bo (Some dek')) as [o'|x|] eqn:E; cbn [res_map].
      + destruct (obj_open_two_keys _ _ _ _ _ _ _ HoO E) as [<-|HT]; eauto.
      + eauto.
      + exfalso. revert E. unfold obj_open. destruct (unmarshal _ _); [|discriminate].
        destruct (open_json_total (d_kek d) dec_bytes (object_aad oid (so_ad s)) (Some dek') (so_ct s)) as [(? & ->)|(? & -> & _)]; discriminate.
    - destruct (B Hall) as (r & -> & Hr). unfold refused. destruct (whois idp w tok); subst r; reflexivity.
  Qed.
  Lemma updating_groups oid objs acl w tok : updating oid objs acl w -> allowed (whois idp w tok) ScopeGetAccessGroups acl ->
    fst (run (d1_aes e io idp d (CGetAccessGroups tok oid)) w) = Ok (RGroups (Some acl)).
  Proof.
    intros (Hi & V & bo & ba & o0 & dek & dek' & HO & HA & Hin & HoO & HoA) Hall.
    unfold d1_aes. cbn [d1_do]. rewrite run_ret_map. cbn [fst].
    pose proof (wpc_end _ _ _ _ (get_groups_spec e False v io Hio idp Hidp d tok oid w _ (holds_self v w Hi))) as E.
    destruct (run (d1_get_access_groups _ _ _ _ _) w) as [r0 w0]. cbn [fst snd] in *. destruct E as [->|[[] _]].
    destruct (checked_acl w tok ScopeGetAccessGroups oid _ ba acl _ HA HoA) as [A _]. now rewrite (A Hall).
  Qed.
  Lemma updating_retry oid objs acl w tok o : uuid_wf oid -> updating oid objs acl w -> allowed (whois idp w tok) ScopeUpdate acl ->
    exists r w', run (d1_aes e io idp d (CUpdate tok oid o)) w = (r, w') /\ v_inv v (w_io w') /\
      ((r = Err ERandom /\ rng_failed e w') \/ (r = Ok RUnit /\ rep d (only oid) (store_of w') {[oid := (o, acl)]})).
  Proof.
    intros Hoid (Hi & V & bo & ba & o0 & dek & dek' & HO & HA & Hin & HoO & HoA) Hall.
    unfold d1_aes. cbn [d1_do]. rewrite run_ret_map.
    pose proof (update_spec e False v io Hio idp Hidp d tok oid o w _ (holds_self v w Hi) Hoid) as E.
    pose proof (wpc_end_inv _ _ _ _ E) as EI. apply wpc_end in E.
    destruct (run (d1_update _ _ _ _ _ _ _) w) as [r0 w0]. cbn [fst snd] in *. exists (res_map (fun _ => RUnit) r0), w0. split; [reflexivity|].
    split. { destruct EI as [[EI _]|(? & ? & ? & ? & _ & _ & _ & [EI _])]; exact EI. }
    destruct E as [E|[[] _]]. destruct (checked_acl w tok ScopeUpdate oid _ ba acl _ HA HoA) as [A _]. rewrite (A Hall) in E.
    destruct E as [(-> & _ & so & sa & (dk & B1 & B2) & [_ HH])|[(_ & N & _)|(-> & RF & _)]]; [|congruence|auto].
    right. split; [reflexivity|]. cbn [a_groups] in B2. rewrite norm_set_valid in B2 by exact V.
    apply (rep_seq d (only oid) (upd_map oid (store_of w) so sa UBoth)); [apply seq_sym, HH|]. split.
    + intros oid' HD Hoid'. apply bytes_eqb_eq in HD. subst oid'. rewrite lookup_singleton. split; [|exact V].
      exists so, sa, dk. cbn [upd_map]. rewrite upd_other by (intros [=]; discriminate). rewrite !upd_same. auto.
    + intros oid' HN. destruct (decide (oid' = oid)) as [->|Hne]; [|rewrite lookup_singleton_ne in HN by congruence; congruence].
      split; [apply bytes_eqb_refl|exact Hoid].
  Qed.
  Lemma rep_decrypt D w m oid o acl tok : v_inv v (w_io w) -> rep d D (store_of w) m -> D oid = true -> uuid_wf oid ->
    m !! oid = Some (o, acl) -> allowed (whois idp w tok) ScopeDecrypt acl ->
    fst (run (d1_aes e io idp d (CDecrypt tok oid)) w) = Ok (RObject o).
  Proof.
    intros Hi [R _] HD Hoid Hm Hall. specialize (R oid HD Hoid). rewrite Hm in R. destruct R as [(bo & ba & dek & HO & HA & HoA & HoO) _].
    unfold d1_aes. cbn [d1_do]. rewrite run_ret_map. cbn [fst].
    pose proof (wpc_end _ _ _ _ (decrypt_spec e False v io Hio idp Hidp d tok oid w _ (holds_self v w Hi))) as E.
    destruct (run (d1_decrypt _ _ _ _ _ _) w) as [r0 w0]. cbn [fst snd] in *. destruct E as [->|[[] _]].
    destruct (checked_acl w tok ScopeDecrypt oid _ ba acl _ HA HoA) as [A _]. rewrite (A Hall). cbn [res_bind].
    unfold read_object. rewrite HO. cbn [a_dek]. now rewrite HoO.
  Qed.

  (** What a call on an object replies depends on the world only through the token's identity, the
      object's own two slots, and whether the random source works. *)
  Lemma checked_eq w w' tok need oid : whois idp w tok = whois idp w' tok -> store_of w oid SA = store_of w' oid SA ->
    checked idp d w tok need oid (store_of w) = checked idp d w' tok need oid (store_of w').
  Proof. intros E1 E2. unfold checked, verified, access_check. now rewrite E1, E2. Qed.
  Lemma reply_depends c oid tok w w' : v_inv v (w_io w) -> v_inv v (w_io w') -> uuid_wf oid ->
    call_oid c = Some oid -> call_token c = Some tok -> whois idp w tok = whois idp w' tok ->
    store_of w oid SO = store_of w' oid SO -> store_of w oid SA = store_of w' oid SA ->
    let r := fst (run (d1_aes e io idp d c) w) in
    let r' := fst (run (d1_aes e io idp d c) w') in
    r = r' \/ r = Err ERandom \/ r' = Err ERandom.
  Proof.
    intros Hi Hi' Hoid Hc Ht EW EO EA. cbn zeta.
    pose proof (fun need => checked_eq w w' tok need oid EW EA) as HC.
    pose proof (holds_self v w Hi) as H. pose proof (holds_self v w' Hi') as H'.
    unfold d1_aes. destruct c as [tok' obj gs|tok' oid' obj|tok' oid'|tok' oid'|tok' oid'|tok' oid' gs|tok' oid' gs|tok' oid'|pt|t];
      cbn [d1_do call_oid call_token] in *; try discriminate; injection Hc as ->; injection Ht as ->; rewrite !run_ret_map.
    - pose proof (wpc_end _ _ _ _ (update_spec e False v io Hio idp Hidp d tok oid obj w _ H Hoid)) as E.
      pose proof (wpc_end _ _ _ _ (update_spec e False v io Hio idp Hidp d tok oid obj w' _ H' Hoid)) as E'.
      destruct (run (d1_update _ _ _ _ _ _ _) w) as [r0 w0], (run (d1_update _ _ _ _ _ _ _) w') as [r0' w0']. cbn [fst snd] in *.
      destruct E as [E|[[] _]], E' as [E'|[[] _]]. rewrite <- HC in E'.
      destruct (checked _ _ _ _ _ _ _); [|left; destruct E as [-> _], E' as [-> _]; reflexivity..].
      destruct E as [(-> & N & _)|[(-> & N & _)|(-> & _ & _)]]; [| |auto];
        (destruct E' as [(-> & N' & _)|[(-> & N' & _)|(-> & _ & _)]]; [| |auto]); auto; congruence.
    - pose proof (wpc_end _ _ _ _ (decrypt_spec e False v io Hio idp Hidp d tok oid w _ H)) as E.
      pose proof (wpc_end _ _ _ _ (decrypt_spec e False v io Hio idp Hidp d tok oid w' _ H')) as E'.
      destruct (run (d1_decrypt _ _ _ _ _ _) w) as [r0 w0], (run (d1_decrypt _ _ _ _ _ _) w') as [r0' w0']. cbn [fst snd] in *.
      destruct E as [->|[[] _]], E' as [->|[[] _]]. rewrite <- HC. left. f_equal.
      destruct (checked _ _ _ _ _ _ _); [|reflexivity..]. cbn [res_bind]. unfold read_object. now rewrite EO.
    - pose proof (wpc_end _ _ _ _ (delete_spec e False v io Hio idp Hidp d tok oid w _ H)) as E.
      pose proof (wpc_end _ _ _ _ (delete_spec e False v io Hio idp Hidp d tok oid w' _ H')) as E'.
      destruct (run (d1_delete _ _ _ _ _) w) as [r0 w0], (run (d1_delete _ _ _ _ _) w') as [r0' w0']. cbn [fst snd] in *.
      destruct E as [E|[[] _]], E' as [E'|[[] _]]. rewrite <- HC in E'. left.
      destruct (checked _ _ _ _ _ _ _) as [a|x|]; [|destruct x|]; destruct E as [-> _], E' as [-> _]; reflexivity.
    - pose proof (wpc_end _ _ _ _ (get_groups_spec e False v io Hio idp Hidp d tok oid w _ H)) as E.
      pose proof (wpc_end _ _ _ _ (get_groups_spec e False v io Hio idp Hidp d tok oid w' _ H')) as E'.
      destruct (run (d1_get_access_groups _ _ _ _ _) w) as [r0 w0], (run (d1_get_access_groups _ _ _ _ _) w') as [r0' w0']. cbn [fst snd] in *.
      destruct E as [->|[[] _]], E' as [->|[[] _]]. rewrite <- HC. now left.
    - pose proof (wpc_end _ _ _ _ (add_groups_spec e False v io Hio idp Hidp d tok oid gs w _ H Hoid)) as E.
      pose proof (wpc_end _ _ _ _ (add_groups_spec e False v io Hio idp Hidp d tok oid gs w' _ H' Hoid)) as E'.
      destruct (run (d1_add_groups _ _ _ _ _ _) w) as [r0 w0], (run (d1_add_groups _ _ _ _ _ _) w') as [r0' w0']. cbn [fst snd] in *.
      destruct E as [E|[[] _]], E' as [E'|[[] _]]. rewrite <- HC in E'.
      destruct (checked _ _ _ _ _ _ _); [|left; destruct E as [-> _], E' as [-> _]; reflexivity..].
      destruct (add_groups _ _); [|left; destruct E as [-> _], E' as [-> _]; reflexivity..].
      destruct E as [(-> & _)|(-> & _)]; [|auto]. destruct E' as [(-> & _)|(-> & _)]; auto.
    - pose proof (wpc_end _ _ _ _ (remove_groups_spec e False v io Hio idp Hidp d tok oid gs w _ H Hoid)) as E.
      pose proof (wpc_end _ _ _ _ (remove_groups_spec e False v io Hio idp Hidp d tok oid gs w' _ H' Hoid)) as E'.
      destruct (run (d1_remove_groups _ _ _ _ _ _) w) as [r0 w0], (run (d1_remove_groups _ _ _ _ _ _) w') as [r0' w0']. cbn [fst snd] in *.
      destruct E as [E|[[] _]], E' as [E'|[[] _]]. rewrite <- HC in E'.
      destruct (checked _ _ _ _ _ _ _); [|left; destruct E as [-> _], E' as [-> _]; reflexivity..].
      destruct E as [(-> & _)|(-> & _)]; [|auto]. destruct E' as [(-> & _)|(-> & _)]; auto.
    - pose proof (wpc_end _ _ _ _ (authorize_spec e False v io Hio idp Hidp d tok oid w _ H)) as E.
      pose proof (wpc_end _ _ _ _ (authorize_spec e False v io Hio idp Hidp d tok oid w' _ H')) as E'.
      destruct (run (d1_authorize _ _ _ _ _) w) as [r0 w0], (run (d1_authorize _ _ _ _ _) w') as [r0' w0']. cbn [fst snd] in *.
      destruct E as [->|[[] _]], E' as [->|[[] _]]. rewrite <- HC. now left.
  Qed.
  (** A call that does not name [oid], made through a provider that may fail and cut anywhere,
      leaves the slots of [oid] alone. *)
  Lemma other_call_slots iof cA w n oid dt : io_spec True v iof -> v_inv v (w_io w) ->
    (forall o, call_oid cA = Some o -> uuid_wf o) -> call_oid cA <> Some oid ->
    o_id (outside_of e idp w cA w) <> Ok oid \/ store_of w oid SO <> None ->
    let w1 := snd (run_n n (d1_aes e iof idp d cA) w) in v_inv v (w_io w1) /\ store_of w1 oid dt = store_of w oid dt.
  Proof.
    intros Hiof Hi Hwf Hc Ho w1. destruct (wpc_cut _ _ _ _ (call_local e True v iof Hiof idp Hidp d cA w Hi Hwf) n) as [Hi' HL].
    split; [exact Hi'|]. destruct (HL oid dt) as [E|[_ T]]; [exact E|exfalso].
    destruct cA; try contradiction. destruct T as ((b & Hb & ->) & N & _). destruct Ho as [Ho|Ho]; [|contradiction].
    apply Ho. unfold outside_of. cbn [call_token o_id]. rewrite Hb. reflexivity.
  Qed.
  Lemma isolation iof cA w n oid c tok : io_spec True v iof -> v_inv v (w_io w) ->
    (forall o, call_oid cA = Some o -> uuid_wf o) -> call_oid cA <> Some oid ->
    o_id (outside_of e idp w cA w) <> Ok oid \/ store_of w oid SO <> None ->
    uuid_wf oid -> call_oid c = Some oid -> call_token c = Some tok ->
    let w1 := snd (run_n n (d1_aes e iof idp d cA) w) in
    whois idp w1 tok = whois idp w tok ->
    let r := fst (run (d1_aes e io idp d c) w) in
    let r1 := fst (run (d1_aes e io idp d c) w1) in
    r1 = r \/ r1 = Err ERandom \/ r = Err ERandom.
  Proof.
    intros Hf Hi Hwf Hc Ho Hoid Hc' Ht w1 EW.
    destruct (other_call_slots iof cA w n oid SO Hf Hi Hwf Hc Ho) as [Hi1 E1].
    destruct (other_call_slots iof cA w n oid SA Hf Hi Hwf Hc Ho) as [_ E2].
    exact (reply_depends c oid tok w1 w Hi1 Hi Hoid Hc' Ht EW E1 E2).
  Qed.

  (** The state after a history that created an object. *)
  Lemma rep_deleting D w m oid o acl : v_inv v (w_io w) -> rep d D (store_of w) m -> D oid = true -> uuid_wf oid ->
    m !! oid = Some (o, acl) -> exists bo ba dk, deleting oid bo ba w /\ acc_open (d_aek d) oid ba = Ok (mkAccess (Some acl) dk).
  Proof.
    intros Hi [R _] HD Hoid Hm. specialize (R oid HD Hoid). rewrite Hm in R. destruct R as [(bo & ba & dek & HO & HA & HoA & HoO) _].
    exists bo, ba, (Some dek). split; [split; auto|exact HoA].
  Qed.
  Lemma rep_updating D w m oid o acl : v_inv v (w_io w) -> rep d D (store_of w) m -> D oid = true -> uuid_wf oid ->
    m !! oid = Some (o, acl) -> updating oid [o] acl w.
  Proof.
    intros Hi [R _] HD Hoid Hm. specialize (R oid HD Hoid). rewrite Hm in R. destruct R as [(bo & ba & dek & HO & HA & HoA & HoO) V].
    split; [exact Hi|]. split; [exact V|]. exists bo, ba, o, dek, dek. splits; auto. now left.
  Qed.
  Lemma history_exists D w0 evs w m oid o acl : fresh v D w0 -> history e v io idp d D w0 evs w -> Forall event_ok evs ->
    spec_history ∅ (List.filter (ev_in D) evs) m -> m !! oid = Some (o, acl) ->
    v_inv v (w_io w) /\ rep d D (store_of w) m /\ D oid = true /\ uuid_wf oid.
  Proof.
    intros HF HH Hok Hm Ho. destruct (refine_fresh e v io Hio idp Hidp d D w0 evs w HF HH Hok) as (m' & Hs & R & Hi).
    rewrite (history_det _ _ _ _ Hs Hm) in R. split; [exact Hi|]. split; [exact R|]. apply (proj2 R). congruence.
  Qed.

  Lemma delete_crash D w0 evs w m oid o acl cs w1 tok : fresh v D w0 -> history e v io idp d D w0 evs w -> Forall event_ok evs ->
    spec_history ∅ (List.filter (ev_in D) evs) m -> m !! oid = Some (o, acl) ->
    attempts e v idp d (fun c => exists t, c = CDelete t oid) oid w cs w1 ->
    allowed (whois idp w1 tok) ScopeDelete acl ->
    exists w2, run (d1_aes e io idp d (CDelete tok oid)) w1 = (Ok RUnit, w2) /\ fresh v (only oid) w2.
  Proof.
    intros HF HH Hok Hm Ho Hat Hall. destruct (history_exists _ _ _ _ _ _ _ _ HF HH Hok Hm Ho) as (Hi & R & HD & Hoid).
    destruct (rep_deleting _ _ _ _ _ _ Hi R HD Hoid Ho) as (bo & ba & dk & HJ & HoA).
    destruct (delete_retry _ _ _ _ _ _ _ (delete_attempts _ _ _ _ _ _ Hat HJ) HoA Hall) as (w2 & E & Hi2 & N1 & N2).
    exists w2. split; [exact E|]. split; [exact Hi2|]. intros oid' dt HD' Hdt. apply bytes_eqb_eq in HD'. subst oid'.
    destruct Hdt; subst; assumption.
  Qed.
  (** Between the attempts, Decrypt returns the object or an error. *)
  Lemma delete_crash_read D w0 evs w m oid o acl cs w1 tok y : fresh v D w0 -> history e v io idp d D w0 evs w -> Forall event_ok evs ->
    spec_history ∅ (List.filter (ev_in D) evs) m -> m !! oid = Some (o, acl) ->
    attempts e v idp d (fun c => exists t, c = CDelete t oid) oid w cs w1 ->
    fst (run (d1_aes e io idp d (CDecrypt tok oid)) w1) = Ok y -> y = RObject o /\ allowed (whois idp w1 tok) ScopeDecrypt acl.
  Proof.
    intros HF HH Hok Hm Ho Hat. destruct (history_exists _ _ _ _ _ _ _ _ HF HH Hok Hm Ho) as (Hi & [R _] & HD & Hoid).
    specialize (R oid HD Hoid). rewrite Ho in R. destruct R as [(bo & ba & dek & HO & HA & HoA & HoO) _].
    assert (HJ : deleting oid bo ba w) by (split; auto).
    destruct (delete_attempts _ _ _ _ _ _ Hat HJ) as [Hi1 HJ1].
    unfold d1_aes. cbn [d1_do]. rewrite run_ret_map. cbn [fst].
    pose proof (wpc_end _ _ _ _ (decrypt_spec e False v io Hio idp Hidp d tok oid w1 _ (holds_self v w1 Hi1))) as E.
    destruct (run (d1_decrypt _ _ _ _ _ _) w1) as [r0 w2]. cbn [fst snd] in *. destruct E as [->|[[] _]].
    destruct (checked idp d w1 tok ScopeDecrypt oid (store_of w1)) as [a|x|] eqn:Ec; try discriminate.
    pose proof Ec as Ec'. apply checked_stored in Ec as (ba' & i & HA' & HoA' & _).
    assert (ba' = ba) by (destruct HJ1 as [[_ X]|[[_ X]|[_ X]]]; congruence). subst ba'.
    rewrite HoA in HoA'. injection HoA' as <-. cbn [res_bind]. unfold read_object. cbn [a_dek].
    destruct (checked_acl w1 tok ScopeDecrypt oid (store_of w1) ba acl _ HA' HoA) as [_ B].
    assert (Hall : allowed (whois idp w1 tok) ScopeDecrypt acl).
    { destruct (allowed_dec (whois idp w1 tok) ScopeDecrypt acl) as [Hall|Hn]; [exact Hall|].
      destruct (B Hn) as (r & E & Hr). rewrite E in Ec'. destruct (whois idp w1 tok); congruence. }
    destruct HJ1 as [[X _]|[[X _]|[X _]]]; rewrite X; [rewrite HoO|..]; cbn [res_map]; [|discriminate..].
    intros [= <-]. auto.
  Qed.

  Lemma update_crash D w0 evs w m oid o acl cs w1 : fresh v D w0 -> history e v io idp d D w0 evs w -> Forall event_ok evs ->
    spec_history ∅ (List.filter (ev_in D) evs) m -> m !! oid = Some (o, acl) ->
    attempts e v idp d (fun c => exists t o, c = CUpdate t oid o) oid w cs w1 ->
    updating oid (o :: updates cs) acl w1 /\ uuid_wf oid.
  Proof.
    intros HF HH Hok Hm Ho Hat. destruct (history_exists _ _ _ _ _ _ _ _ HF HH Hok Hm Ho) as (Hi & R & HD & Hoid).
    split; [|exact Hoid]. exact (update_attempts _ _ _ _ _ Hat Hoid [o] (rep_updating _ _ _ _ _ _ Hi R HD Hoid Ho)).
  Qed.
  Lemma update_crash_retry D w0 evs w m oid o acl cs w1 tok o2 : fresh v D w0 -> history e v io idp d D w0 evs w -> Forall event_ok evs ->
    spec_history ∅ (List.filter (ev_in D) evs) m -> m !! oid = Some (o, acl) ->
    attempts e v idp d (fun c => exists t o, c = CUpdate t oid o) oid w cs w1 ->
    allowed (whois idp w1 tok) ScopeUpdate acl ->
    exists r w2, run (d1_aes e io idp d (CUpdate tok oid o2)) w1 = (r, w2) /\
      ((r = Err ERandom /\ rng_failed e w2) \/
       (r = Ok RUnit /\ forall evs' w3 tok', history e v io idp d (only oid) w2 evs' w3 -> evs' = [] ->
          allowed (whois idp w3 tok') ScopeDecrypt acl ->
          fst (run (d1_aes e io idp d (CDecrypt tok' oid)) w3) = Ok (RObject o2))).
  Proof.
    intros HF HH Hok Hm Ho Hat Hall. destruct (update_crash _ _ _ _ _ _ _ _ _ _ HF HH Hok Hm Ho Hat) as [HJ Hoid].
    destruct (updating_retry _ _ _ _ tok o2 Hoid HJ Hall) as (r & w2 & E & Hi2 & HR). exists r, w2. split; [exact E|].
    destruct HR as [HR|[-> R]]; [auto|]. right. split; [reflexivity|]. intros evs' w3 tok' HH' -> Hall'.
    destruct (history_refines e v io Hio idp Hidp d (only oid) _ _ _ _ HH' Hi2 R (List.Forall_nil _)) as (m3 & Hs & R3 & Hi3).
    cbn in Hs. inversion Hs; subst. apply (rep_decrypt (only oid) w3 {[oid := (o2, acl)]} oid o2 acl tok' Hi3 R3); auto; [apply bytes_eqb_refl|apply lookup_singleton].
  Qed.
End Crash.

Lemma filter_all evs : List.filter (ev_in all_ids) evs = evs.
Proof.
  induction evs as [|ev evs IH]; [reflexivity|]. cbn [List.filter]. rewrite IH.
  unfold ev_in, all_ids. destruct (ev_oid ev); reflexivity.
Qed.
Lemma spec_step_functional x c m r1 m1 r2 m2 : spec_step x c m r1 m1 -> spec_step x c m r2 m2 ->
  call_token c <> None -> ~ o_rng_fails x -> r1 = r2 /\ m1 = m2.
Proof.
  intros H1 H2 Ht Hn. destruct c; try (exfalso; apply Ht; reflexivity); clear Ht;
    cbn [spec_step] in *; unfold with_access, with_scope, or_random, refuse in *;
    destruct (o_who x) as [i| |];
    repeat match goal with
    | H : _ \/ _ |- _ => destruct H as [H|H]
    | H : exists _, _ |- _ => destruct H
    | H : _ /\ _ |- _ => destruct H
    | H : match ?m !! ?o with _ => _ end |- _ => let E := fresh "E" in destruct (m !! o) as [[? ?]|] eqn:E
    end; subst; try (split; congruence); try contradiction.
Qed.

(** A store stands for one map only. *)
Lemma rep_agree d D st (m m' : objects) oid : rep d D st m -> rep d D st m' -> D oid = true -> uuid_wf oid ->
  match m !! oid, m' !! oid with
  | Some (o, acl), Some (o', acl') => o = o' /\ acl = acl'
  | None, None => True
  | _, _ => False
  end.
Proof.
  intros [R _] [R' _] HD Hoid. specialize (R oid HD Hoid). specialize (R' oid HD Hoid).
  destruct (m !! oid) as [[o acl]|], (m' !! oid) as [[o' acl']|]; auto.
  - destruct R as [(bo & ba & dk & H1 & H2 & H3 & H4) _], R' as [(bo' & ba' & dk' & H1' & H2' & H3' & H4') _].
    rewrite H1 in H1'. injection H1' as <-. rewrite H2 in H2'. injection H2' as <-.
    rewrite H3 in H3'. injection H3' as <- <-. rewrite H4 in H4'. injection H4' as <-. auto.
  - destruct R as [(bo & ba & dk & H1 & _) _]. destruct R' as [H1' _]. congruence.
  - destruct R' as [(bo & ba & dk & H1 & _) _]. destruct R as [H1' _]. congruence.
Qed.
