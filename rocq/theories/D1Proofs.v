(** What each D1 call does, on any store, with or without faults, wherever it is cut. *)
From Coq Require Import ZifyN ZifyNat.
From stdpp Require Import gmap.
From Verif Require Import Bytes Go Json JsonProofs Uuid UuidProofs Types TypesProofs World Logic
  Cryptor CryptorProofs IoSpec IoProofs Id Data D1.
Local Open Scope bool_scope.
Local Open Scope N_scope.

(** What a stored access list and a stored object decrypt to. *)
Definition acc_open (aek : bytes) (oid : uuid) (b : bytes) : res access :=
  match unmarshal dec_sealed_access b with
  | None => Err EJson
  | Some sa => open_json aek dec_access (access_aad oid) (sa_wk sa) (sa_ct sa)
  end.
Definition obj_open (kek : bytes) (oid : uuid) (b : bytes) (dek : gslice) : res object :=
  match unmarshal dec_sealed_object b with
  | None => Err EJson
  | Some so => res_map (fun pt => mkObject pt (so_ad so))
                 (open_json kek dec_bytes (object_aad oid (so_ad so)) dek (so_ct so))
  end.

(** The random source failed to serve the last request made to it. *)
Definition rng_failed {S I} (e : env) (w : world S I) : Prop := exists n, draw e (pred (w_draws w)) n = Err ERandom.

Lemma print_obj_nonempty l : print (JObj l) <> [].
Proof. rewrite print_obj. discriminate. Qed.

Section D1P.
  Context {S I : Type} (e : env) (F : Prop) (v : view S) (io : provider S) (Hio : io_spec F v io).
  Notation W := (world S I).
  Context (idp : bytes -> prog W (res identity)).
  Implicit Types (m : store) (w : W) (Inv : W -> Prop).

  (** The world [w] holds the map [m]. *)
  Definition holds m w : Prop := v_inv v (w_io w) /\ seq (v_map v (w_io w)) m.
  (** The identity provider does not change the map. *)
  Definition idp_reads : Prop := forall tok w m, holds m w -> wpc (idp tok) (holds m) (fun _ _ => True) w.
  Definition whois w tok : res identity := fst (run (idp tok) w).
  Context (Hidp : idp_reads).

  Lemma holds_self w : v_inv v (w_io w) -> holds (v_map v (w_io w)) w.
  Proof. intros H. split; [exact H|apply seq_refl]. Qed.
  Lemma holds_seq m m' w : seq m m' -> holds m w -> holds m' w.
  Proof. intros E [H1 H2]. split; [exact H1|]. eapply seq_trans; eauto. Qed.
  Lemma holds_frame m w w' : frame w w' -> holds m w -> holds m w'.
  Proof. intros (E & _) [H1 H2]. unfold holds. now rewrite E. Qed.

  Lemma wpc_get_bytes n Inv (Q : _ -> W -> Prop) w :
    (forall w', frame w w' -> Inv w') ->
    (forall b w', frame w w' -> draw e (w_draws w) n = Ok b -> length b = N.to_nat n -> Q (Ok b) w') ->
    (forall w', frame w w' -> rng_failed e w' -> Q (Err ERandom) w') ->
    wpc (get_bytes e n) Inv Q w.
  Proof.
    intros HI HO HE. unfold get_bytes. apply wpc_act; [apply HI; repeat split..|]. cbn.
    destruct (draw_cases e (w_draws w) n) as [(b & E & L)|E]; rewrite E.
    - apply HO; [repeat split|exact E|exact L].
    - apply HE; [repeat split|]. exists n. cbn. now rewrite Nat.add_1_r.
  Qed.
  Lemma wpc_aes_enc kek pt aad Inv (Q : _ -> W -> Prop) w :
    (forall w', frame w w' -> Inv w') ->
    (forall wk ct w', frame w w' -> aes_open kek aad wk ct = Ok pt -> Q (Ok (wk, ct)) w') ->
    (forall w', frame w w' -> rng_failed e w' -> Q (Err ERandom) w') ->
    wpc (aes_enc e kek pt aad) Inv Q w.
  Proof.
    intros HI HO HE. unfold aes_enc.
    apply wpc_bindR, wpc_get_bytes; [exact HI| |exact HE].
    intros key w1 F1 _ Lk. apply wpc_bindR, wpc_get_bytes.
    { intros w' F2. apply HI. eapply frame_trans; eauto. }
    2:{ intros w' F2 RF. apply HE; [eapply frame_trans; eauto|exact RF]. }
    intros nonce w2 F2 _ Ln. change (N.to_nat (N.of_nat Gcm.nonceLength)) with 12%nat in Ln.
    change (N.to_nat EncryptionKeyLength) with 32%nat in Lk.
    pose proof (frame_trans _ _ _ F1 F2) as F12.
    destruct (aes_seal_open kek pt aad key nonce Lk Ln) as (wk & ct & Hs & Ho & _).
    unfold aes_seal in Hs.
    destruct (Gcm.aes_gcm_encrypt pt aad key nonce) as [ct'| |] eqn:Ec; cbn [res_bind] in Hs; try discriminate.
    destruct (Kwp.aes_kwp_wrap kek key) as [wk'| |] eqn:Ew; cbn [res_bind] in Hs; try discriminate.
    injection Hs as -> ->.
    apply wpc_bindR, wpc_ret; [apply HI; exact F12|].
    apply wpc_bindR, wpc_ret; [apply HI; exact F12|].
    apply wpc_bind, wpc_act; [apply HI; exact F12|apply HI; exact F12|].
    apply wpc_ret; [apply HI; exact F12|]. apply HO; [exact F12|exact Ho].
  Qed.
  Lemma wpc_decrypt_json {A} kek (dec : json -> option A) aad wk ct Inv (Q : _ -> W -> Prop) w :
    (forall w', frame w w' -> Inv w') ->
    (forall w', frame w w' -> Q (open_json kek dec aad wk ct) w') ->
    wpc (decrypt_json (aes_cryptor e kek) dec aad wk ct) Inv Q w.
  Proof.
    intros HI HQ. unfold decrypt_json. cbn [c_dec aes_cryptor]. apply wpc_bindR. unfold aes_dec.
    match goal with |- wpc (act ?f) _ _ _ => assert (FR : frame w (snd (f w))) end.
    { cbn. destruct (_ && _); repeat split. }
    apply wpc_act; [apply HI, frame_refl|apply HI, FR|]. cbn [fst snd] in *.
    unfold open_json in HQ.
    destruct (aes_open _ _ _ _) as [pt| |]; cbn [res_bind] in *; [|apply HQ, FR..].
    destruct (unmarshal dec pt); (apply wpc_ret; [apply HI, FR|apply HQ, FR]).
  Qed.

  (** ** The identity check *)
  Lemma wpc_verify tok need Inv (Q : _ -> W -> Prop) w m : holds m w ->
    (forall w', holds m w' -> Inv w') ->
    (forall w', holds m w' -> w' = snd (run (idp tok) w) ->
      Q (match whois w tok with
         | Ok i => if scope_contains (i_scopes i) need then Ok i else Err ED1NotAuthorized
         | Err _ => Err ED1NotAuthenticated
         | Panic => Panic end) w') ->
    wpc (verify_access idp tok need) Inv Q w.
  Proof.
    intros H HI HQ. unfold verify_access. apply wpc_bind.
    eapply wpc_mono; [| |apply wpc_run, (Hidp tok w m H)]; [exact HI|].
    intros r w' Hw [Hr _]. unfold whois in HQ. rewrite Hr in HQ. cbn [fst snd] in HQ. specialize (HQ w' Hw eq_refl).
    destruct r as [i|x|]; [destruct (scope_contains _ _)|..]; apply wpc_ret; auto.
  Qed.

  (** ** Storage *)
  Lemma wpc_io {A} (p : prog S (res A)) pure Inv (Q : _ -> W -> Prop) w m :
    implements F v p pure -> (forall m1 m2, seq m1 m2 -> fst (pure m1) = fst (pure m2) /\ seq (snd (pure m1)) (snd (pure m2))) ->
    holds m w ->
    (forall w', holds m w' -> Inv w') -> (forall w', holds (snd (pure m)) w' -> Inv w') ->
    (forall w', holds (snd (pure m)) w' -> Q (fst (pure m)) w') ->
    (forall x w', F -> fault x -> (holds m w' \/ holds (snd (pure m)) w') -> Q (Err x) w') ->
    wpc (on_io p) Inv Q w.
  Proof.
    intros Hp Hext [H1 H2] HI1 HI2 HQ HF. specialize (Hp (w_io w) H1). cbv zeta in Hp.
    destruct (Hext _ _ H2) as [E1 E2].
    eapply wpc_mono; [| |apply wpc_on_io, Hp]; cbn beta.
    - intros w' (s & -> & J1 & [J2|J2]).
      + apply HI1. split; [exact J1|]. eapply seq_trans; eauto.
      + apply HI2. split; [exact J1|]. eapply seq_trans; eauto.
    - intros r w' (s & -> & J1 & J2) (s' & Es & [[-> J3]|(HFF & x & -> & Hx)]).
      + apply (f_equal w_io) in Es. cbn in Es. subst s'. rewrite E1. apply HQ.
        split; [exact J1|]. eapply seq_trans; eauto.
      + apply HF; [exact HFF|exact Hx|]. destruct J2 as [J2|J2]; [left|right]; (split; [exact J1|]); eapply seq_trans; eauto.
  Qed.
  Lemma map_get_ext id dt m1 m2 : seq m1 m2 -> fst (map_get id dt m1) = fst (map_get id dt m2) /\ seq (snd (map_get id dt m1)) (snd (map_get id dt m2)).
  Proof. intros H. unfold map_get. cbn. rewrite (H id dt). auto. Qed.
  Lemma map_put_ext id dt d m1 m2 : seq m1 m2 -> fst (map_put id dt d m1) = fst (map_put id dt d m2) /\ seq (snd (map_put id dt d m1)) (snd (map_put id dt d m2)).
  Proof. intros H. unfold map_put. rewrite (H id dt). destruct (m2 id dt); cbn; auto using upd_seq. Qed.
  Lemma map_update_ext id dt d m1 m2 : seq m1 m2 -> fst (map_update id dt d m1) = fst (map_update id dt d m2) /\ seq (snd (map_update id dt d m1)) (snd (map_update id dt d m2)).
  Proof. intros H. unfold map_update. rewrite (H id dt). destruct (m2 id dt); cbn; auto using upd_seq. Qed.
  Lemma map_delete_ext id dt m1 m2 : seq m1 m2 -> fst (map_delete id dt m1) = fst (map_delete id dt m2) /\ seq (snd (map_delete id dt m1)) (snd (map_delete id dt m2)).
  Proof. intros H. unfold map_delete. cbn. auto using upd_seq. Qed.

  Lemma wpc_io_get id dt Inv (Q : _ -> W -> Prop) w m : dt < 65536 -> holds m w ->
    (forall w', holds m w' -> Inv w') ->
    (forall w', holds m w' -> Q (match m id dt with Some d => Ok d | None => Err EIoNotFound end) w') ->
    (forall x w', F -> fault x -> holds m w' -> Q (Err x) w') ->
    wpc (on_io (io_get io id dt)) Inv Q w.
  Proof.
    intros Hdt H HI HQ HF.
    eapply wpc_io; [apply (spec_get F v io Hio id dt Hdt)|apply map_get_ext|exact H|exact HI|exact HI|exact HQ|].
    intros x w' HFF Hx [Hw|Hw]; apply HF; auto.
  Qed.
  Lemma wpc_io_put id dt d Inv (Q : _ -> W -> Prop) w m : dt < 65536 -> d <> [] -> holds m w ->
    (forall w', holds m w' -> Inv w') ->
    (m id dt = None -> forall w', holds (upd m id dt (Some d)) w' -> Inv w') ->
    (m id dt = None -> forall w', holds (upd m id dt (Some d)) w' -> Q (Ok tt) w') ->
    (m id dt <> None -> forall w', holds m w' -> Q (Err EIoAlreadyExists) w') ->
    (forall x w', F -> fault x -> (holds m w' \/ (m id dt = None /\ holds (upd m id dt (Some d)) w')) -> Q (Err x) w') ->
    wpc (on_io (io_put io id dt d)) Inv Q w.
  Proof.
    intros Hdt Hd H HI1 HI2 HQ HE HF.
    eapply wpc_io; [apply (spec_put F v io Hio id dt d Hdt Hd)|apply map_put_ext|exact H|exact HI1|..];
      unfold map_put; destruct (m id dt) eqn:E; cbn [fst snd]; auto;
      try solve [intros x w' HFF Hx [Hw|Hw]; apply HF; auto; right; split; (discriminate || assumption)];
      intros w' Hw; first [apply HE|apply HI2|apply HQ]; (discriminate || assumption).
  Qed.
  Lemma wpc_io_update id dt d Inv (Q : _ -> W -> Prop) w m : dt < 65536 -> d <> [] -> holds m w ->
    (forall w', holds m w' -> Inv w') ->
    (m id dt <> None -> forall w', holds (upd m id dt (Some d)) w' -> Inv w') ->
    (m id dt <> None -> forall w', holds (upd m id dt (Some d)) w' -> Q (Ok tt) w') ->
    (m id dt = None -> forall w', holds m w' -> Q (Err EIoNotFound) w') ->
    (forall x w', F -> fault x -> (holds m w' \/ (m id dt <> None /\ holds (upd m id dt (Some d)) w')) -> Q (Err x) w') ->
    wpc (on_io (io_update io id dt d)) Inv Q w.
  Proof.
    intros Hdt Hd H HI1 HI2 HQ HE HF.
    eapply wpc_io; [apply (spec_update F v io Hio id dt d Hdt Hd)|apply map_update_ext|exact H|exact HI1|..];
      unfold map_update; destruct (m id dt) eqn:E; cbn [fst snd]; auto;
      try solve [intros x w' HFF Hx [Hw|Hw]; apply HF; auto; right; split; (discriminate || assumption)];
      intros w' Hw; first [apply HE|apply HI2|apply HQ]; (discriminate || assumption).
  Qed.
  Lemma wpc_io_delete id dt Inv (Q : _ -> W -> Prop) w m : dt < 65536 -> holds m w ->
    (forall w', holds m w' -> Inv w') ->
    (forall w', holds (upd m id dt None) w' -> Inv w') ->
    (forall w', holds (upd m id dt None) w' -> Q (Ok tt) w') ->
    (forall x w', F -> fault x -> (holds m w' \/ holds (upd m id dt None) w') -> Q (Err x) w') ->
    wpc (on_io (io_delete io id dt)) Inv Q w.
  Proof.
    intros Hdt H HI1 HI2 HQ HF.
    eapply wpc_io; [apply (spec_delete F v io Hio id dt Hdt)|apply map_delete_ext|exact H|exact HI1|exact HI2|exact HQ|exact HF].
  Qed.

  Lemma fault_replace a b x : fault x -> (forall n, a <> EIoOther n) -> replace_err a b x = x.
  Proof. intros [n ->] H. unfold replace_err. destruct (decide _) as [E|]; [|reflexivity]. symmetry in E. destruct (H _ E). Qed.

  (** ** Reading an access list and checking it *)
  Context (d : d1).
  Notation oc := (aes_cryptor e (d_kek d)).
  Notation ac := (aes_cryptor e (d_aek d)).
  Notation tc := (aes_cryptor e (d_tek d)).

  Lemma wpc_get_sealed_access oid Inv (Q : _ -> W -> Prop) w m : holds m w ->
    (forall w', holds m w' -> Inv w') ->
    (forall w', holds m w' ->
      Q (match m oid DataTypeSealedAccess with
         | None => Err ED1AccessNotFound
         | Some b => match unmarshal dec_sealed_access b with
                     | None => Err EJson
                     | Some sa => Ok (mkSealedAccess oid (sa_ct sa) (sa_wk sa)) end
         end) w') ->
    (forall x w', F -> fault x -> holds m w' -> Q (Err x) w') ->
    wpc (get_sealed_access io oid) Inv Q w.
  Proof.
    intros H HI HQ HF. unfold get_sealed_access. apply wpc_bindR, wpc_map_err.
    eapply wpc_io_get; [reflexivity|exact H|exact HI| |].
    - intros w' Hw. specialize (HQ w' Hw). destruct (m oid DataTypeSealedAccess) as [b|].
      + destruct (unmarshal dec_sealed_access b); (apply wpc_ret; [auto|exact HQ]).
      + exact HQ.
    - intros x w' HFF Hx Hw. rewrite fault_replace by (auto; discriminate). auto.
  Qed.
  Lemma wpc_get_sealed_object oid Inv (Q : _ -> W -> Prop) w m : holds m w ->
    (forall w', holds m w' -> Inv w') ->
    (forall w', holds m w' ->
      Q (match m oid DataTypeSealedObject with
         | None => Err ED1ObjectNotFound
         | Some b => match unmarshal dec_sealed_object b with
                     | None => Err EJson
                     | Some so => Ok (mkSealedObject (so_ct so) (so_ad so) oid) end
         end) w') ->
    (forall x w', F -> fault x -> holds m w' -> Q (Err x) w') ->
    wpc (get_sealed_object io oid) Inv Q w.
  Proof.
    intros H HI HQ HF. unfold get_sealed_object. apply wpc_bindR, wpc_map_err.
    eapply wpc_io_get; [reflexivity|exact H|exact HI| |].
    - intros w' Hw. specialize (HQ w' Hw). destruct (m oid DataTypeSealedObject) as [b|].
      + destruct (unmarshal dec_sealed_object b); (apply wpc_ret; [auto|exact HQ]).
      + exact HQ.
    - intros x w' HFF Hx Hw. rewrite fault_replace by (auto; discriminate). auto.
  Qed.
  Lemma wpc_authorize i need sa Inv (Q : _ -> W -> Prop) w m : holds m w ->
    (forall w', holds m w' -> Inv w') ->
    (forall w', holds m w' ->
      Q (res_bind (open_json (d_aek d) dec_access (access_aad (sa_oid sa)) (sa_wk sa) (sa_ct sa))
           (fun a => if authorized i need a then Ok a else Err ED1NotAuthorized)) w') ->
    wpc (authorize_access ac i need sa) Inv Q w.
  Proof.
    intros H HI HQ. unfold authorize_access, access_unseal. apply wpc_bindR, wpc_decrypt_json.
    - intros w' Hf. apply HI. eapply holds_frame; eauto.
    - intros w' Hf. pose proof (holds_frame _ _ _ Hf H) as Hw. specialize (HQ w' Hw).
      destruct (open_json _ _ _ _ _) as [a|x|]; cbn [res_bind] in HQ; [|exact HQ..].
      destruct (authorized i need a); (apply wpc_ret; [auto|exact HQ]).
  Qed.

  (** Outcome of looking up an access list and checking it. *)
  Definition access_check (i : identity) (need : N) (oid : uuid) m : res access :=
    match m oid DataTypeSealedAccess with
    | None => Err ED1AccessNotFound
    | Some b => res_bind (acc_open (d_aek d) oid b) (fun a => if authorized i need a then Ok a else Err ED1NotAuthorized)
    end.
  Lemma wpc_load {B} i need oid (k : access -> prog W (res B)) Inv (Q : _ -> W -> Prop) w m : holds m w ->
    (forall w', holds m w' -> Inv w') ->
    (forall a w', holds m w' -> access_check i need oid m = Ok a -> wpc (k a) Inv Q w') ->
    (forall x w', holds m w' -> access_check i need oid m = Err x -> Q (Err x) w') ->
    (forall w', holds m w' -> access_check i need oid m = Panic -> Q Panic w') ->
    (forall x w', F -> fault x -> holds m w' -> Q (Err x) w') ->
    wpc (bindR (get_sealed_access io oid) (fun sa => bindR (authorize_access ac i need sa) k)) Inv Q w.
  Proof.
    intros H HI HO HE HP HF. apply wpc_bindR. unfold access_check, acc_open in *.
    eapply wpc_get_sealed_access; [exact H|exact HI| |exact HF].
    intros w' Hw. destruct (m oid DataTypeSealedAccess) as [b|]; [|now apply HE].
    destruct (unmarshal dec_sealed_access b) as [sa|]; [|now apply HE].
    apply wpc_bindR. eapply wpc_authorize; [exact Hw|exact HI|]. cbn [sa_oid sa_wk sa_ct].
    intros w2 Hw2.
    destruct (res_bind _ _) as [a|x|]; auto.
  Qed.

  (** ** Sealing *)
  Lemma wpc_object_seal {B} o oid (k : bytes * sealed_object -> prog W (res B)) Inv (Q : _ -> W -> Prop) w m : holds m w -> uuid_wf oid ->
    (forall w', holds m w' -> Inv w') ->
    (forall dek so w', holds m w' -> so_oid so = oid ->
       obj_open (d_kek d) oid (print (enc_sealed_object so)) (Some dek) = Ok o -> wpc (k (dek, so)) Inv Q w') ->
    (forall w', holds m w' -> rng_failed e w' -> Q (Err ERandom) w') ->
    wpc (bindR (object_seal oc o oid) k) Inv Q w.
  Proof.
    intros H Hoid HI HO HE. apply wpc_bindR. unfold object_seal, encrypt_json. cbn [c_enc aes_cryptor].
    apply wpc_bindR, wpc_aes_enc.
    - intros w' Hf. apply HI. eapply holds_frame; eauto.
    - intros wk ct w' Hf Ho. pose proof (holds_frame _ _ _ Hf H) as Hw. apply wpc_ret; [auto|].
      apply HO; [exact Hw|reflexivity|].
      unfold obj_open. rewrite sealed_object_roundtrip by exact Hoid. cbn [so_ad so_ct].
      unfold open_json. cbn [slice_bytes]. rewrite Ho. cbn [res_bind].
      rewrite unmarshal_print, dec_bytes_jbytes by apply jbytes_wf. cbn. now destruct o.
    - intros w' Hf RF. apply HE; [eapply holds_frame; eauto|exact RF].
  Qed.
  Lemma wpc_access_seal {B} a oid (k : sealed_access -> prog W (res B)) Inv (Q : _ -> W -> Prop) w m : holds m w -> uuid_wf oid ->
    (forall w', holds m w' -> Inv w') ->
    (forall sa w', holds m w' -> sa_oid sa = oid ->
       acc_open (d_aek d) oid (print (enc_sealed_access sa)) = Ok (mkAccess (norm_set (a_groups a)) (a_dek a)) ->
       wpc (k sa) Inv Q w') ->
    (forall w', holds m w' -> rng_failed e w' -> Q (Err ERandom) w') ->
    wpc (bindR (access_seal ac a oid) k) Inv Q w.
  Proof.
    intros H Hoid HI HO HE. apply wpc_bindR. unfold access_seal, encrypt_json. cbn [c_enc aes_cryptor].
    apply wpc_bindR, wpc_aes_enc.
    - intros w' Hf. apply HI. eapply holds_frame; eauto.
    - intros wk ct w' Hf Ho. pose proof (holds_frame _ _ _ Hf H) as Hw. apply wpc_ret; [auto|].
      apply HO; [exact Hw|reflexivity|].
      unfold acc_open. rewrite sealed_access_roundtrip by exact Hoid. cbn [sa_wk sa_ct].
      unfold open_json. cbn [slice_bytes]. rewrite Ho. cbn [res_bind].
      now rewrite access_roundtrip.
    - intros w' Hf RF. apply HE; [eapply holds_frame; eauto|exact RF].
  Qed.

  (** ** Storing *)
  Lemma wpc_put_object so Inv (Q : _ -> W -> Prop) w m : holds m w ->
    let oid := so_oid so in
    let m1 := upd m oid DataTypeSealedObject (Some (print (enc_sealed_object so))) in
    (forall w', holds m w' -> Inv w') ->
    (m oid DataTypeSealedObject = None -> forall w', holds m1 w' -> Inv w') ->
    (m oid DataTypeSealedObject = None -> forall w', holds m1 w' -> Q (Ok tt) w') ->
    (m oid DataTypeSealedObject <> None -> forall w', holds m w' -> Q (Err ED1ObjectAlreadyExists) w') ->
    (forall x w', F -> fault x -> (holds m w' \/ (m oid DataTypeSealedObject = None /\ holds m1 w')) -> Q (Err x) w') ->
    wpc (put_sealed_object io so false) Inv Q w.
  Proof.
    intros H oid m1 HI1 HI2 HO HE HF. unfold put_sealed_object. apply wpc_map_err.
    eapply wpc_io_put; [reflexivity|apply print_obj_nonempty|exact H|exact HI1|exact HI2|exact HO|exact HE|].
    intros x w' HFF Hx Hw. rewrite fault_replace by (auto; discriminate). auto.
  Qed.
  Lemma wpc_put_access sa Inv (Q : _ -> W -> Prop) w m : holds m w ->
    let oid := sa_oid sa in
    let m1 := upd m oid DataTypeSealedAccess (Some (print (enc_sealed_access sa))) in
    (forall w', holds m w' -> Inv w') ->
    (m oid DataTypeSealedAccess = None -> forall w', holds m1 w' -> Inv w') ->
    (m oid DataTypeSealedAccess = None -> forall w', holds m1 w' -> Q (Ok tt) w') ->
    (m oid DataTypeSealedAccess <> None -> forall w', holds m w' -> Q (Err ED1AccessAlreadyExists) w') ->
    (forall x w', F -> fault x -> (holds m w' \/ (m oid DataTypeSealedAccess = None /\ holds m1 w')) -> Q (Err x) w') ->
    wpc (put_sealed_access io sa false) Inv Q w.
  Proof.
    intros H oid m1 HI1 HI2 HO HE HF. unfold put_sealed_access. apply wpc_map_err.
    eapply wpc_io_put; [reflexivity|apply print_obj_nonempty|exact H|exact HI1|exact HI2|exact HO|exact HE|].
    intros x w' HFF Hx Hw. rewrite fault_replace by (auto; discriminate). auto.
  Qed.
  Lemma wpc_upd_object so Inv (Q : _ -> W -> Prop) w m : holds m w ->
    let oid := so_oid so in
    let m1 := upd m oid DataTypeSealedObject (Some (print (enc_sealed_object so))) in
    (forall w', holds m w' -> Inv w') ->
    (m oid DataTypeSealedObject <> None -> forall w', holds m1 w' -> Inv w') ->
    (m oid DataTypeSealedObject <> None -> forall w', holds m1 w' -> Q (Ok tt) w') ->
    (m oid DataTypeSealedObject = None -> forall w', holds m w' -> Q (Err ED1ObjectNotFound) w') ->
    (forall x w', F -> fault x -> (holds m w' \/ (m oid DataTypeSealedObject <> None /\ holds m1 w')) -> Q (Err x) w') ->
    wpc (put_sealed_object io so true) Inv Q w.
  Proof.
    intros H oid m1 HI1 HI2 HO HE HF. unfold put_sealed_object. apply wpc_map_err.
    eapply wpc_io_update; [reflexivity|apply print_obj_nonempty|exact H|exact HI1|exact HI2|exact HO|exact HE|].
    intros x w' HFF Hx Hw. rewrite fault_replace by (auto; discriminate). auto.
  Qed.
  Lemma wpc_upd_access sa Inv (Q : _ -> W -> Prop) w m : holds m w ->
    let oid := sa_oid sa in
    let m1 := upd m oid DataTypeSealedAccess (Some (print (enc_sealed_access sa))) in
    (forall w', holds m w' -> Inv w') ->
    (m oid DataTypeSealedAccess <> None -> forall w', holds m1 w' -> Inv w') ->
    (m oid DataTypeSealedAccess <> None -> forall w', holds m1 w' -> Q (Ok tt) w') ->
    (m oid DataTypeSealedAccess = None -> forall w', holds m w' -> Q (Err ED1AccessNotFound) w') ->
    (forall x w', F -> fault x -> (holds m w' \/ (m oid DataTypeSealedAccess <> None /\ holds m1 w')) -> Q (Err x) w') ->
    wpc (put_sealed_access io sa true) Inv Q w.
  Proof.
    intros H oid m1 HI1 HI2 HO HE HF. unfold put_sealed_access. apply wpc_map_err.
    eapply wpc_io_update; [reflexivity|apply print_obj_nonempty|exact H|exact HI1|exact HI2|exact HO|exact HE|].
    intros x w' HFF Hx Hw. rewrite fault_replace by (auto; discriminate). auto.
  Qed.
End D1P.
