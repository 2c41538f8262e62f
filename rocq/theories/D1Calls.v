(** The effect and reply of every D1 call, in terms of the map it finds. *)
From Coq Require Import ZifyN ZifyNat.
From stdpp Require Import gmap.
From Verif Require Import Bytes Go Json JsonProofs Uuid UuidProofs Types TypesProofs World Logic
  Cryptor CryptorProofs IoSpec IoProofs Id Data D1 D1Proofs.
Local Open Scope bool_scope.
Local Open Scope N_scope.

Ltac splits := repeat match goal with |- _ /\ _ => split end.

Section Calls.
  Context {S I : Type} (e : env) (F : Prop) (v : view S) (io : provider S) (Hio : io_spec F v io).
  Notation W := (world S I).
  Context (idp : bytes -> prog W (res identity)) (Hidp : idp_reads v idp) (d : d1).
  Notation holds := (holds v).
  Notation oc := (aes_cryptor e (d_kek d)).
  Notation ac := (aes_cryptor e (d_aek d)).
  Notation tc := (aes_cryptor e (d_tek d)).
  Implicit Types (m : store) (w : W).
  Notation SO := DataTypeSealedObject.
  Notation SA := DataTypeSealedAccess.

  (** The caller passes the first check. *)
  Definition verified w tok need : res identity :=
    match whois idp w tok with
    | Ok i => if scope_contains (i_scopes i) need then Ok i else Err ED1NotAuthorized
    | Err _ => Err ED1NotAuthenticated
    | Panic => Panic
    end.
  (** The caller passes both checks. *)
  Definition checked w tok need oid m : res access :=
    res_bind (verified w tok need) (fun i => access_check d i need oid m).
  Definition faulted {A} (r : res A) : Prop := F /\ exists x, r = Err x /\ fault x.

  Lemma checked_stored w tok need oid m a : checked w tok need oid m = Ok a ->
    exists b i, m oid SA = Some b /\ acc_open (d_aek d) oid b = Ok a /\
      whois idp w tok = Ok i /\ scope_contains (i_scopes i) need = true /\ authorized i need a = true.
  Proof.
    unfold checked, verified, access_check. destruct (whois idp w tok) as [i| |]; try discriminate.
    destruct (scope_contains _ _) eqn:Es; [|discriminate]. cbn [res_bind].
    destruct (m oid SA) as [b|]; [|discriminate].
    destruct (acc_open (d_aek d) oid b) as [a'| |] eqn:Eo; cbn [res_bind]; try discriminate.
    destruct (authorized i need a') eqn:Ea; [|discriminate]. intros E. injection E as ->. eauto 10.
  Qed.
  Lemma checked_err_absent w tok need oid m : m oid SA = None ->
    checked w tok need oid m = Err ED1AccessNotFound \/ checked w tok need oid m = Panic \/
    checked w tok need oid m = Err ED1NotAuthenticated \/ checked w tok need oid m = Err ED1NotAuthorized.
  Proof.
    intros H. unfold checked, verified, access_check. rewrite H. destruct (whois idp w tok) as [i| |]; cbn; auto.
    destruct (scope_contains _ _); cbn; auto.
  Qed.

  (** The common prefix of the calls on an existing object. *)
  Lemma wpc_checked {B} tok need oid (k : access -> prog W (res B)) (Inv : W -> Prop) (Q : _ -> W -> Prop) w m : holds m w ->
    (forall w', holds m w' -> Inv w') ->
    (forall a w', holds m w' -> checked w tok need oid m = Ok a -> wpc (k a) Inv Q w') ->
    (forall x w', holds m w' -> checked w tok need oid m = Err x -> Q (Err x) w') ->
    (forall w', holds m w' -> checked w tok need oid m = Panic -> Q Panic w') ->
    (forall x w', F -> fault x -> holds m w' -> Q (Err x) w') ->
    wpc (bindR (verify_access idp tok need) (fun i =>
         bindR (get_sealed_access io oid) (fun sa => bindR (authorize_access ac i need sa) k))) Inv Q w.
  Proof.
    intros H HI HO HE HP HF. apply wpc_bindR.
    eapply wpc_verify; [exact Hidp|exact H|exact HI|]. intros w1 H1 _.
    unfold checked in *. fold (verified w tok need).
    destruct (verified w tok need) as [i|x|]; cbn [res_bind] in *; auto.
    eapply wpc_load; eauto.
  Qed.

  (** ** Calls that only read *)
  Definition read_object oid m (a : access) : res object :=
    match m oid SO with None => Err ED1ObjectNotFound | Some b => obj_open (d_kek d) oid b (a_dek a) end.
  Lemma decrypt_spec tok oid w m : holds m w ->
    wpc (d1_decrypt io idp oc ac tok oid) (holds m)
      (fun r _ => r = res_bind (checked w tok ScopeDecrypt oid m) (read_object oid m) \/ faulted r) w.
  Proof.
    intros H. unfold d1_decrypt. eapply wpc_checked; [exact H|auto|..].
    - intros a w1 H1 Ec. rewrite Ec. cbn [res_bind]. apply wpc_bindR.
      eapply wpc_get_sealed_object; [exact Hio|exact H1|auto|..].
      + intros w2 H2. unfold read_object, obj_open. destruct (m oid SO) as [b|]; [|now left].
        destruct (unmarshal dec_sealed_object b) as [so|]; [|now left].
        unfold object_unseal. cbn [so_oid so_ad so_ct].
        apply wpc_bindR, wpc_decrypt_json; [intros; eapply holds_frame; eauto|].
        intros w3 F3. pose proof (holds_frame _ _ _ _ F3 H2).
        destruct (open_json _ _ _ _ _) as [pt|x|]; cbn [res_map]; [apply wpc_ret; auto|now left..].
      + intros x w2 HF Hx _. right. split; [exact HF|eauto].
    - intros x w1 _ Ec. rewrite Ec. now left.
    - intros w1 _ Ec. rewrite Ec. now left.
    - intros x w1 HF Hx _. right. split; [exact HF|eauto].
  Qed.
  Lemma get_groups_spec tok oid w m : holds m w ->
    wpc (d1_get_access_groups io idp ac tok oid) (holds m)
      (fun r _ => r = res_map a_groups (checked w tok ScopeGetAccessGroups oid m) \/ faulted r) w.
  Proof.
    intros H. unfold d1_get_access_groups. eapply wpc_checked; [exact H|auto|..].
    - intros a w1 H1 Ec. rewrite Ec. apply wpc_ret; auto.
    - intros x w1 _ Ec. rewrite Ec. now left.
    - intros w1 _ Ec. rewrite Ec. now left.
    - intros x w1 HF Hx _. right. split; [exact HF|eauto].
  Qed.
  Lemma authorize_spec tok oid w m : holds m w ->
    wpc (d1_authorize io idp ac tok oid) (holds m)
      (fun r _ => r = res_map (fun _ => tt) (checked w tok ScopeGetAccessGroups oid m) \/ faulted r) w.
  Proof.
    intros H. unfold d1_authorize. eapply wpc_checked; [exact H|auto|..].
    - intros a w1 H1 Ec. rewrite Ec. apply wpc_ret; auto.
    - intros x w1 _ Ec. rewrite Ec. now left.
    - intros w1 _ Ec. rewrite Ec. now left.
    - intros x w1 HF Hx _. right. split; [exact HF|eauto].
  Qed.

  (** ** Update *)
  Inductive upd_stage := UOld | UObj | UBoth.
  (** The map after a number of Update's writes. *)
  Definition upd_map oid m (so sa : bytes) (st : upd_stage) : store :=
    match st with
    | UOld => m
    | UObj => upd m oid SO (Some so)
    | UBoth => upd (upd m oid SO (Some so)) oid SA (Some sa)
    end.
  (** New blobs [so], [sa] for object [o] under access list [a]. *)
  Definition upd_blobs oid (o : object) (a : access) (so sa : bytes) : Prop :=
    exists dek, obj_open (d_kek d) oid so (Some dek) = Ok o /\
                acc_open (d_aek d) oid sa = Ok (mkAccess (norm_set (a_groups a)) (Some dek)).
  Lemma update_spec tok oid o w m : holds m w -> uuid_wf oid ->
    wpc (d1_update io idp oc ac tok oid o)
      (fun w' => holds m w' \/ exists a so sa st, checked w tok ScopeUpdate oid m = Ok a /\ m oid SO <> None /\
          upd_blobs oid o a so sa /\ holds (upd_map oid m so sa st) w')
      (fun r w' =>
        match checked w tok ScopeUpdate oid m with
        | Ok a =>
            (r = Ok tt /\ m oid SO <> None /\ exists so sa, upd_blobs oid o a so sa /\ holds (upd_map oid m so sa UBoth) w') \/
            (r = Err ED1ObjectNotFound /\ m oid SO = None /\ holds m w') \/
            (r = Err ERandom /\ rng_failed e w' /\ holds m w')
        | Err x => r = Err x /\ holds m w'
        | Panic => r = Panic /\ holds m w'
        end \/ faulted r) w.
  Proof.
    intros H Hoid. unfold d1_update. eapply wpc_checked; [exact H|auto|..].
    2,3: intros; rewrite H1; auto.
    2: intros x w1 HF Hx _; right; split; [exact HF|eauto].
    intros a w1 H1 Ec. rewrite Ec.
    eapply wpc_object_seal; [exact H1|exact Hoid|auto| |auto 10].
    intros dek so w2 H2 Eso Hso.
    eapply wpc_access_seal; [exact H2|exact Hoid|auto| |auto 10].
    intros sa w3 H3 Esa Hsa. cbn [a_groups a_dek] in Hsa.
    set (bso := print (enc_sealed_object so)) in *. set (bsa := print (enc_sealed_access sa)) in *.
    assert (HB : upd_blobs oid o a bso bsa) by (exists dek; auto).
    apply wpc_bindR. eapply wpc_upd_object; [exact Hio|exact H3|auto|..]; rewrite ?Eso; fold bso.
    - intros Hp w' Hw. right. exists a, bso, bsa, UObj. auto.
    - intros Hp w4 H4. apply wpc_bindR.
      assert (HSA : upd m oid SO (Some bso) oid SA <> None).
      { rewrite upd_other by (intros [=]; discriminate).
        apply checked_stored in Ec as (b & i & -> & _). discriminate. }
      eapply wpc_upd_access; [exact Hio|exact H4|..]; rewrite ?Esa; fold bsa.
      + intros w' Hw. right. exists a, bso, bsa, UObj. auto.
      + intros _ w' Hw. right. exists a, bso, bsa, UBoth. auto.
      + intros _ w5 H5. apply wpc_ret; [right; exists a, bso, bsa, UBoth; auto|]. left. left. eauto 10.
      + intros Hn. destruct (HSA Hn).
      + intros x w' HF Hx _. right. split; [exact HF|eauto].
    - intros Hn w' Hw. left. auto.
    - intros x w' HF Hx _. right. split; [exact HF|eauto].
  Qed.

  (** ** Delete *)
  Inductive del_stage := DOld | DObj | DBoth.
  Definition del_map oid m (st : del_stage) : store :=
    match st with
    | DOld => m
    | DObj => upd m oid SO None
    | DBoth => upd (upd m oid SO None) oid SA None
    end.
  Lemma delete_spec tok oid w m : holds m w ->
    wpc (d1_delete io idp ac tok oid)
      (fun w' => holds m w' \/ exists a st, checked w tok ScopeDelete oid m = Ok a /\ holds (del_map oid m st) w')
      (fun r w' =>
        match checked w tok ScopeDelete oid m with
        | Ok a => r = Ok tt /\ holds (del_map oid m DBoth) w'
        | Err ED1AccessNotFound => r = Ok tt /\ holds m w'
        | Err x => r = Err x /\ holds m w'
        | Panic => r = Panic /\ holds m w'
        end \/ faulted r) w.
  Proof.
    intros H. unfold d1_delete. apply wpc_bindR.
    eapply wpc_verify; [exact Hidp|exact H|auto|]. intros w1 H1 Ew1.
    unfold checked, access_check. fold (verified w tok ScopeDelete).
    destruct (verified w tok ScopeDelete) as [i|x|] eqn:Ev; cbn [res_bind]; [|destruct x; auto..|auto].
    2:{ exfalso. unfold verified in Ev. destruct (whois idp w tok); try discriminate. destruct (scope_contains _ _); discriminate. }
    apply wpc_bind. eapply wpc_get_sealed_access; [exact Hio|exact H1|auto|..].
    2:{ intros x w2 HF [n ->] H2. apply wpc_ret; [auto|]. right. split; [exact HF|]. exists (EIoOther n). split; [reflexivity|now exists n]. }
    intros w2 H2. unfold acc_open.
    destruct (m oid SA) as [b|]; [|cbn [res_bind]; apply wpc_ret; auto].
    destruct (unmarshal dec_sealed_access b) as [sa|]; [|cbn [res_bind]; apply wpc_ret; auto].
    apply wpc_bindR. eapply wpc_authorize; [exact H2|auto|]. cbn [sa_oid sa_wk sa_ct]. intros w3 H3.
    destruct (res_bind (open_json (d_aek d) dec_access (access_aad oid) (sa_wk sa) (sa_ct sa)) _) as [a|x|] eqn:Eo; [| |auto].
    2:{ left. assert (Hx : x <> ED1AccessNotFound); [|destruct x; auto; congruence].
        intros ->. destruct (open_json_total (d_aek d) dec_access (access_aad oid) (sa_wk sa) (sa_ct sa)) as [[a Ea]|(x & Ex & Hx)].
        - rewrite Ea in Eo. cbn [res_bind] in Eo. destruct (authorized _ _ _); discriminate.
        - rewrite Ex in Eo. cbn [res_bind] in Eo. injection Eo as ->. destruct Hx as [Hx|Hx]; [exact Hx|discriminate]. }
    apply wpc_bindR. unfold delete_sealed_object. eapply wpc_io_delete; [exact Hio|reflexivity|exact H3|auto|..].
    - intros w' Hw. right. exists a, DObj. auto.
    - intros w4 H4. apply wpc_bindR. unfold delete_sealed_access. eapply wpc_io_delete; [exact Hio|reflexivity|exact H4|..].
      + intros w' Hw. right. exists a, DObj. auto.
      + intros w' Hw. right. exists a, DBoth. auto.
      + intros w5 H5. apply wpc_ret; [right; exists a, DBoth; auto|]. auto.
      + intros x w' HF Hx _. right. split; [exact HF|eauto].
    - intros x w' HF Hx _. right. split; [exact HF|eauto].
  Qed.

  (** ** Changing the access list *)
  Definition acc_map oid m (sa : bytes) : store := upd m oid SA (Some sa).
  Lemma add_groups_spec tok oid gs w m : holds m w -> uuid_wf oid ->
    wpc (d1_add_groups io idp ac tok oid gs)
      (fun w' => holds m w' \/ exists a s sa, checked w tok ScopeModifyAccessGroups oid m = Ok a /\
          add_groups (a_groups a) gs = Ok s /\ acc_open (d_aek d) oid sa = Ok (mkAccess (norm_set s) (a_dek a)) /\
          holds (acc_map oid m sa) w')
      (fun r w' =>
        match checked w tok ScopeModifyAccessGroups oid m with
        | Ok a =>
            match add_groups (a_groups a) gs with
            | Ok s => (r = Ok tt /\ exists sa, acc_open (d_aek d) oid sa = Ok (mkAccess (norm_set s) (a_dek a)) /\ holds (acc_map oid m sa) w') \/
                      (r = Err ERandom /\ rng_failed e w' /\ holds m w')
            | Err x => r = Err x /\ holds m w'
            | Panic => r = Panic /\ holds m w'
            end
        | Err x => r = Err x /\ holds m w'
        | Panic => r = Panic /\ holds m w'
        end \/ faulted r) w.
  Proof.
    intros H Hoid. unfold d1_add_groups. eapply wpc_checked; [exact H|auto|..].
    2,3: intros; rewrite H1; auto.
    2: intros x w1 HF Hx _; right; split; [exact HF|eauto].
    intros a w1 H1 Ec. rewrite Ec. apply wpc_bindR, wpc_ret; [auto|].
    destruct (add_groups (a_groups a) gs) as [s|x|] eqn:Eg; [|auto..].
    eapply wpc_access_seal; [exact H1|exact Hoid|auto| |auto 10].
    intros sa w3 H3 Esa Hsa. cbn [a_groups a_dek] in Hsa.
    set (bsa := print (enc_sealed_access sa)) in *.
    eapply wpc_upd_access; [exact Hio|exact H3|auto|..]; rewrite ?Esa; fold bsa.
    - intros _ w' Hw. right. exists a, s, bsa. auto.
    - intros _ w' Hw. left. left. eauto.
    - intros Hn. exfalso. apply checked_stored in Ec as (b & i & E & _). congruence.
    - intros x w' HF Hx _. right. split; [exact HF|eauto].
  Qed.
  Lemma remove_groups_spec tok oid gs w m : holds m w -> uuid_wf oid ->
    wpc (d1_remove_groups io idp ac tok oid gs)
      (fun w' => holds m w' \/ exists a sa, checked w tok ScopeModifyAccessGroups oid m = Ok a /\
          acc_open (d_aek d) oid sa = Ok (mkAccess (norm_set (remove_groups (a_groups a) gs)) (a_dek a)) /\
          holds (acc_map oid m sa) w')
      (fun r w' =>
        match checked w tok ScopeModifyAccessGroups oid m with
        | Ok a =>
            (r = Ok tt /\ exists sa, acc_open (d_aek d) oid sa = Ok (mkAccess (norm_set (remove_groups (a_groups a) gs)) (a_dek a)) /\ holds (acc_map oid m sa) w') \/
            (r = Err ERandom /\ rng_failed e w' /\ holds m w')
        | Err x => r = Err x /\ holds m w'
        | Panic => r = Panic /\ holds m w'
        end \/ faulted r) w.
  Proof.
    intros H Hoid. unfold d1_remove_groups. eapply wpc_checked; [exact H|auto|..].
    2,3: intros; rewrite H1; auto.
    2: intros x w1 HF Hx _; right; split; [exact HF|eauto].
    intros a w1 H1 Ec. rewrite Ec.
    eapply wpc_access_seal; [exact H1|exact Hoid|auto| |auto 10].
    intros sa w3 H3 Esa Hsa. cbn [a_groups a_dek] in Hsa.
    set (bsa := print (enc_sealed_access sa)) in *.
    eapply wpc_upd_access; [exact Hio|exact H3|auto|..]; rewrite ?Esa; fold bsa.
    - intros _ w' Hw. right. exists a, bsa. auto.
    - intros _ w' Hw. left. left. eauto.
    - intros Hn. exfalso. apply checked_stored in Ec as (b & i & E & _). congruence.
    - intros x w' HF Hx _. right. split; [exact HF|eauto].
  Qed.

  (** ** Encrypt *)
  Definition enc_blobs oid (o : object) (ids : list bytes) (so sa : bytes) : Prop :=
    exists dek, obj_open (d_kek d) oid so (Some dek) = Ok o /\
                acc_open (d_aek d) oid sa = Ok (mkAccess (norm_set (Some (list_to_set ids))) (Some dek)).
  (** The id NewV4 draws once the caller's token has been resolved. *)
  Definition drawn w tok (oid : uuid) : Prop :=
    exists b, draw e (w_draws (snd (run (idp tok) w))) 16 = Ok b /\ oid = uuid_v4 b.
  Lemma drawn_wf w tok oid : drawn w tok oid -> uuid_wf oid.
  Proof.
    intros (b & Hb & ->). apply uuid_v4_wf. apply draw_length in Hb. unfold blen in Hb. lia.
  Qed.
  Lemma encrypt_spec tok o gs w m : holds m w ->
    wpc (d1_encrypt e io idp oc ac tok o gs)
      (fun w' => holds m w' \/ exists i oid so sa st, verified w tok ScopeEncrypt = Ok i /\ drawn w tok oid /\ m oid SO = None /\
          enc_blobs oid o (gs ++ [i_id i]) so sa /\ (st = UBoth -> m oid SA = None) /\ holds (upd_map oid m so sa st) w')
      (fun r w' =>
        match verified w tok ScopeEncrypt with
        | Ok i =>
            (exists oid, drawn w tok oid /\ m oid SO = None /\ m oid SA = None /\ r = Ok oid /\
               exists so sa, enc_blobs oid o (gs ++ [i_id i]) so sa /\ holds (upd_map oid m so sa UBoth) w') \/
            (exists oid, drawn w tok oid /\ m oid SO <> None /\ r = Err ED1ObjectAlreadyExists /\ holds m w') \/
            (exists oid, drawn w tok oid /\ m oid SO = None /\ m oid SA <> None /\ r = Err ED1AccessAlreadyExists /\
               exists so sa, enc_blobs oid o (gs ++ [i_id i]) so sa /\ holds (upd_map oid m so sa UObj) w') \/
            (r = Err ERandom /\ rng_failed e w' /\ holds m w')
        | Err x => r = Err x /\ holds m w'
        | Panic => r = Panic /\ holds m w'
        end \/ faulted r) w.
  Proof.
    intros H. unfold d1_encrypt. apply wpc_bindR.
    eapply wpc_verify; [exact Hidp|exact H|auto|]. intros w1 H1 Ew1.
    fold (verified w tok ScopeEncrypt). destruct (verified w tok ScopeEncrypt) as [i|x|] eqn:Ev; [|auto..].
    apply wpc_bindR. unfold new_v4. apply wpc_bindR, wpc_get_bytes.
    { intros w' Hf. left. eapply holds_frame; eauto. }
    2:{ intros w' Hf RF. left. do 3 right. split; [reflexivity|]. split; [exact RF|]. eapply holds_frame; eauto. }
    intros b w2 Hf Hb Lb. pose proof (holds_frame _ _ _ _ Hf H1) as H2.
    apply wpc_ret; [auto|]. set (oid := uuid_v4 b).
    assert (Hd : drawn w tok oid) by (exists b; rewrite <- Ew1; auto). pose proof (drawn_wf _ _ _ Hd) as Hoid.
    eapply wpc_object_seal; [exact H2|exact Hoid|auto| |auto 10].
    intros dek so w3 H3 Eso Hso. unfold new_access. cbn [a_groups a_dek].
    assert (Eg : add_groups (Some ∅) (gs ++ [i_id i]) = Ok (Some (list_to_set (gs ++ [i_id i]) ∪ ∅))).
    { destruct gs; reflexivity. }
    rewrite (union_empty_r_L (list_to_set (gs ++ [i_id i]))) in Eg. rewrite Eg.
    apply wpc_bindR, wpc_ret; [auto|].
    eapply wpc_access_seal; [exact H3|exact Hoid|auto| |auto 10].
    intros sa w4 H4 Esa Hsa. cbn [a_groups a_dek] in Hsa.
    set (bso := print (enc_sealed_object so)) in *. set (bsa := print (enc_sealed_access sa)) in *.
    assert (HB : enc_blobs oid o (gs ++ [i_id i]) bso bsa) by (exists dek; auto).
    apply wpc_bindR. eapply wpc_put_object; [exact Hio|exact H4|auto|..]; rewrite ?Eso; fold bso.
    - intros Hn w' Hw. right. exists i, oid, bso, bsa, UObj. splits; auto; discriminate.
    - intros Hn w5 H5. apply wpc_bindR.
      assert (ESA : upd m oid SO (Some bso) oid SA = m oid SA) by (apply upd_other; intros [=]; discriminate).
      eapply wpc_put_access; [exact Hio|exact H5|..]; rewrite ?Esa, ?ESA; fold bsa.
      + intros w' Hw. right. exists i, oid, bso, bsa, UObj. splits; auto; discriminate.
      + intros Hn2 w' Hw. right. exists i, oid, bso, bsa, UBoth. splits; auto.
      + intros Hn2 w6 H6. apply wpc_ret; [right; exists i, oid, bso, bsa, UBoth; splits; auto|].
        left. left. exists oid. splits; auto. eauto.
      + intros Hp w6 H6. left. right. right. left. exists oid. splits; auto. eauto.
      + intros x w' HF Hx _. right. split; [exact HF|eauto].
    - intros Hp w' Hw. left. right. left. exists oid. auto.
    - intros x w' HF Hx _. right. split; [exact HF|eauto].
  Qed.
End Calls.
