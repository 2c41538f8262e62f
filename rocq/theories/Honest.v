(** Object and index calls that are not given foreign tokens never decrypt anything the library did not
    encrypt: everything they read was written by them. *)
From Coq Require Import ZifyN ZifyNat.
From stdpp Require Import gmap.
From Verif Require Import Bytes Go Json JsonProofs Uuid UuidProofs Time Types TypesProofs World Logic Cryptor CryptorProofs Io IoSpec IoProofs Id Data D1 D1Proofs D1Calls Spec
  Index IndexSpec IndexProofs WpcFacts.
Local Open Scope bool_scope.
Local Open Scope N_scope.
Local Open Scope go_scope.

(** ** What holds at the end of a program *)
Section Ends.
  Context {W : Type}.
  Definition ends {A} (p : prog W A) (Q : A -> W -> Prop) (w : W) : Prop := Q (fst (run p w)) (snd (run p w)).
  Lemma ends_wpc {A} (p : prog W A) Inv Q w : wpc p Inv Q w -> ends p Q w.
  Proof. apply wpc_end. Qed.
  Lemma ends_mono {A} (p : prog W A) (Q Q' : A -> W -> Prop) w : (forall r w', Q r w' -> Q' r w') -> ends p Q w -> ends p Q' w.
  Proof. intros H. apply H. Qed.
  Lemma ends_bind {A B} (p : prog W A) (k : A -> prog W B) Q w : ends p (fun a => ends (k a) Q) w -> ends (bind p k) Q w.
  Proof. unfold ends. rewrite run_bind. destruct (run p w). auto. Qed.
  Lemma ends_bindR {A B} (p : prog W (res A)) (k : A -> prog W (res B)) Q w :
    ends p (fun r w' => match r with Ok a => ends (k a) Q w' | Err x => Q (Err x) w' | Panic => Q Panic w' end) w -> ends (bindR p k) Q w.
  Proof. intros H. unfold bindR. apply ends_bind. eapply ends_mono; [|exact H]. intros [a|x|] w'; auto. Qed.
  Lemma ends_map_err {A} f (p : prog W (res A)) Q w : ends p (fun r w' => Q (match r with Err x => Err (f x) | r => r end) w') w -> ends (map_err f p) Q w.
  Proof. intros H. unfold map_err. apply ends_bind. eapply ends_mono; [|exact H]. intros [a|x|] w'; auto. Qed.
End Ends.

Section Honest.
  Context {S I : Type} (e : env) (v : view S) (io : provider S) (Hio : io_spec False v io).
  Notation W := (world S I).
  Notation store_of w := (v_map v (w_io w)).
  Notation holds := (@holds S I v).
  Notation SO := DataTypeSealedObject.
  Notation SA := DataTypeSealedAccess.
  Notation SN := DataTypeSealedNode.
  Notation sl := slice_bytes.

  (** The log has only grown and the flag is as it was. *)
  Definition calmly (w w' : W) : Prop := (forall x, In x (w_log w) -> In x (w_log w')) /\ w_forged w' = w_forged w.
  Lemma calmly_refl w : calmly w w.
  Proof. split; auto. Qed.
  Lemma calmly_trans a b c : calmly a b -> calmly b c -> calmly a c.
  Proof. intros [A1 A2] [B1 B2]. split; [auto|congruence]. Qed.
  Lemma calmly_keep w w' : keep w w' -> calmly w w'.
  Proof. intros (A & _ & _ & B). split; [now rewrite A|exact B]. Qed.
  Lemma logged_calmly (w w' : W) kek aad wk ct : calmly w w' -> logged (w_log w) kek aad wk ct -> logged (w_log w') kek aad wk ct.
  Proof. intros [H _] (x & Hx & E). exists x. auto. Qed.
  Lemma nofault {A} (r : res A) : failed False r -> False.
  Proof. intros [[] _]. Qed.

  (** ** Rules *)
  Lemma end_enc kek pt aad w m : holds m w ->
    ends (encrypt_json (aes_cryptor e kek) pt aad) (fun r w' => holds m w' /\ calmly w w' /\
      match r with Ok (wk, ct) => logged (w_log w') kek (print aad) wk ct /\ aes_open kek (print aad) wk ct = Ok (print pt) | _ => True end) w.
  Proof.
    intros H. unfold encrypt_json. cbn [c_enc aes_cryptor]. eapply ends_mono; [|eapply ends_wpc, (enc_post e v kek (print pt) (print aad) w m H)].
    intros r w' (H1 & _ & G & [(wk & ct & -> & Ho & _ & _ & HL & _)|(-> & HL & _)]); (split; [exact H1|]).
    - split; [split; [rewrite HL; intros x Hx; now right|exact G]|]. split; [|exact Ho]. exists (mkEntry kek (print aad) wk ct (print pt)). rewrite HL. cbn. auto.
    - split; [split; [now rewrite HL|exact G]|exact Logic.I].
  Qed.
  Lemma end_dec {A} kek (dec : json -> option A) aad wk ct w m : holds m w -> logged (w_log w) kek (print aad) (sl wk) (sl ct) ->
    ends (decrypt_json (aes_cryptor e kek) dec aad wk ct) (fun r w' => holds m w' /\ calmly w w' /\ r = open_json kek dec aad wk ct) w.
  Proof.
    intros H Hl. eapply ends_mono; [|eapply ends_wpc, (dec_post e v kek dec aad wk ct w m H)].
    intros r w' (H1 & _ & _ & E & [[HK _]|[_ N]]); [|contradiction]. split; [exact H1|]. split; [now apply calmly_keep|exact E].
  Qed.
  Lemma end_get id dt w m : dt < 65536 -> holds m w ->
    ends (on_io (io_get io id dt)) (fun r w' => holds m w' /\ calmly w w' /\ r = match m id dt with Some d => Ok d | None => Err EIoNotFound end) w.
  Proof.
    intros Hdt H. eapply ends_mono; [|eapply ends_wpc, (io_get_post False v io Hio id dt w m Hdt H)].
    intros r w' ((H1 & [E|N]) & HK); [|destruct (nofault _ N)]. split; [exact H1|]. split; [now apply calmly_keep|exact E].
  Qed.
  Lemma end_put id dt d w m : dt < 65536 -> d <> [] -> holds m w ->
    ends (on_io (io_put io id dt d)) (fun r w' => calmly w w' /\
      ((m id dt = None /\ r = Ok tt /\ holds (upd m id dt (Some d)) w') \/ (m id dt <> None /\ r = Err EIoAlreadyExists /\ holds m w'))) w.
  Proof.
    intros Hdt Hd H. eapply ends_mono; [|eapply ends_wpc, (io_put_post False v io Hio id dt d w m Hdt Hd H)].
    intros r w' ([H1|[H1|[N _]]] & HK); [| |destruct (nofault _ N)]; (split; [now apply calmly_keep|]); auto.
  Qed.
  Lemma end_update id dt d w m : dt < 65536 -> d <> [] -> holds m w ->
    ends (on_io (io_update io id dt d)) (fun r w' => calmly w w' /\
      ((m id dt <> None /\ r = Ok tt /\ holds (upd m id dt (Some d)) w') \/ (m id dt = None /\ r = Err EIoNotFound /\ holds m w'))) w.
  Proof.
    intros Hdt Hd H. eapply ends_mono; [|eapply ends_wpc, (io_update_post False v io Hio id dt d w m Hdt Hd H)].
    intros r w' ([H1|[H1|[N _]]] & HK); [| |destruct (nofault _ N)]; (split; [now apply calmly_keep|]); auto.
  Qed.
  Lemma end_delete id dt w m : dt < 65536 -> holds m w ->
    ends (on_io (io_delete io id dt)) (fun r w' => calmly w w' /\ r = Ok tt /\ holds (upd m id dt None) w') w.
  Proof.
    intros Hdt H. eapply ends_mono; [|eapply ends_wpc, (io_delete_post False v io Hio id dt w m Hdt H)].
    intros r w' ([H1|[N _]] & HK); [|destruct (nofault _ N)]. split; [now apply calmly_keep|exact H1].
  Qed.

  Context (idp : bytes -> prog W (res identity)).
  (** The lookup of this token in this world changes nothing. *)
  Definition quiet_lookup (tok : bytes) (w : W) : Prop := ends (idp tok) (fun _ w' => calmly w w') w.
  Context (Hidp : idp_reads v idp).
  Lemma end_idp tok w m : holds m w -> quiet_lookup tok w -> ends (idp tok) (fun _ w' => holds m w' /\ calmly w w') w.
  Proof. intros H Hq. split; [exact (wpc_end_inv _ _ _ _ (Hidp tok w m H))|exact Hq]. Qed.

  (** ** Objects *)
  Context (d : d1).
  Definition acc_logged (l : list entry) (oid ba : bytes) : Prop :=
    forall sa, unmarshal dec_sealed_access ba = Some sa -> logged l (d_aek d) (print (access_aad oid)) (sl (sa_wk sa)) (sl (sa_ct sa)).
  Definition pair_logged (l : list entry) (oid ba bo : bytes) : Prop :=
    forall a so, acc_open (d_aek d) oid ba = Ok a -> unmarshal dec_sealed_object bo = Some so ->
      logged l (d_kek d) (print (object_aad oid (so_ad so))) (sl (a_dek a)) (sl (so_ct so)).
  Definition HD (m : store) (l : list entry) : Prop := forall oid, uuid_wf oid -> forall ba, m oid SA = Some ba ->
    acc_logged l oid ba /\ forall bo, m oid SO = Some bo -> pair_logged l oid ba bo.
  Definition both (m : store) : Prop := forall oid, uuid_wf oid -> m oid SO = None <-> m oid SA = None.
  Lemma HD_grow m (w w' : W) : calmly w w' -> HD m (w_log w) -> HD m (w_log w').
  Proof.
    intros Hc H oid Hw ba Hb. destruct (H oid Hw ba Hb) as [A B]. split.
    - intros sa Hs. eapply logged_calmly; eauto.
    - intros bo Ho a so Ha Hs. eapply logged_calmly; [exact Hc|]. eapply B; eauto.
  Qed.
  Lemma HD_seq m m' l : seq m m' -> HD m l -> HD m' l.
  Proof. intros E H oid Hw ba Hb. rewrite <- E in Hb. destruct (H oid Hw ba Hb) as [A B]. split; [exact A|]. intros bo Ho. rewrite <- E in Ho. auto. Qed.
  Lemma HD_holds m (w : W) : holds m w -> HD m (w_log w) -> HD (store_of w) (w_log w).
  Proof. intros [_ E]. apply HD_seq. now apply seq_sym. Qed.
  (** Reading. *)
  Lemma end_load {B} (i : identity) (need : N) (oid : uuid) (k : access -> prog W (res B)) (Q : res B -> W -> Prop) w m : uuid_wf oid -> holds m w -> HD m (w_log w) ->
    (forall r w', holds m w' -> calmly w w' -> (forall a, r <> Ok a) -> Q r w') ->
    (forall a ba w', holds m w' -> calmly w w' -> m oid SA = Some ba -> acc_open (d_aek d) oid ba = Ok a -> ends (k a) Q w') ->
    ends (let! sa := get_sealed_access io oid in let! a := authorize_access (aes_cryptor e (d_aek d)) i need sa in k a) Q w.
  Proof.
    intros Hw H HH HE HK. apply ends_bindR. unfold get_sealed_access. apply ends_bindR, ends_map_err.
    eapply ends_mono; [|apply (end_get oid SA w m eq_refl H)]. intros r w1 (H1 & C1 & ->).
    destruct (m oid SA) as [ba|] eqn:Eb; [|apply HE; auto; discriminate].
    destruct (unmarshal dec_sealed_access ba) as [sa|] eqn:Eu; [|apply HE; auto; discriminate].
    cbn [ends run fst snd]. unfold ends at 1. cbn [run fst snd]. apply ends_bindR. unfold authorize_access. apply ends_bindR. unfold access_unseal. cbn [sa_oid sa_wk sa_ct].
    eapply ends_mono; [|apply (end_dec (d_aek d) dec_access (access_aad oid) (sa_wk sa) (sa_ct sa) w1 m H1)].
    2:{ eapply logged_calmly; [exact C1|]. exact (proj1 (HH oid Hw ba Eb) sa Eu). }
    intros r w2 (H2 & C2 & ->). pose proof (calmly_trans _ _ _ C1 C2) as C.
    assert (EO : acc_open (d_aek d) oid ba = open_json (d_aek d) dec_access (access_aad oid) (sa_wk sa) (sa_ct sa)) by (unfold acc_open; now rewrite Eu).
    rewrite <- EO. destruct (acc_open (d_aek d) oid ba) as [a|x|] eqn:Ea; [|apply HE; auto; discriminate..].
    destruct (authorized i need a); [|apply HE; auto; discriminate]. unfold ends at 1. cbn [run fst snd]. eapply HK; eauto.
  Qed.
  Definition fine (w : W) (w' : W) : Prop := HD (store_of w') (w_log w') /\ calmly w w'.
  Lemma fine_of m w w' : HD m (w_log w) -> holds m w' -> calmly w w' -> fine w w'.
  Proof. intros HH H C. split; [|exact C]. apply (HD_holds m); [exact H|]. eapply HD_grow; eauto. Qed.

  (** Sealing. *)
  Lemma end_object_seal {B} o oid (k : bytes * sealed_object -> prog W (res B)) (Q : res B -> W -> Prop) w m : holds m w ->
    (forall r w', holds m w' -> calmly w w' -> (forall a, r <> Ok a) -> Q r w') ->
    (forall wk ct w', holds m w' -> calmly w w' -> logged (w_log w') (d_kek d) (print (object_aad oid (o_ad o))) wk ct ->
       ends (k (wk, mkSealedObject (Some ct) (o_ad o) oid)) Q w') ->
    ends (bindR (object_seal (aes_cryptor e (d_kek d)) o oid) k) Q w.
  Proof.
    intros H HE HK. apply ends_bindR. unfold object_seal. apply ends_bindR. eapply ends_mono; [|apply (end_enc (d_kek d) _ (object_aad oid (o_ad o)) w m H)].
    intros [[wk ct]|x|] w1 (H1 & C1 & L); [|apply HE; auto; discriminate..]. unfold ends at 1. cbn [run fst snd]. apply HK; auto. apply L.
  Qed.
  Lemma end_access_seal {B} a oid (k : sealed_access -> prog W (res B)) (Q : res B -> W -> Prop) w m : holds m w ->
    (forall r w', holds m w' -> calmly w w' -> (forall a, r <> Ok a) -> Q r w') ->
    (forall wk ct w', holds m w' -> calmly w w' -> logged (w_log w') (d_aek d) (print (access_aad oid)) wk ct ->
       aes_open (d_aek d) (print (access_aad oid)) wk ct = Ok (print (enc_access a)) ->
       ends (k (mkSealedAccess oid (Some ct) (Some wk))) Q w') ->
    ends (bindR (access_seal (aes_cryptor e (d_aek d)) a oid) k) Q w.
  Proof.
    intros H HE HK. apply ends_bindR. unfold access_seal. apply ends_bindR. eapply ends_mono; [|apply (end_enc (d_aek d) _ (access_aad oid) w m H)].
    intros [[wk ct]|x|] w1 (H1 & C1 & L); [|apply HE; auto; discriminate..]. unfold ends at 1. cbn [run fst snd]. apply HK; auto; apply L.
  Qed.
  Lemma sealed_acc_logged l oid wk ct : uuid_wf oid -> logged l (d_aek d) (print (access_aad oid)) wk ct ->
    acc_logged l oid (print (enc_sealed_access (mkSealedAccess oid (Some ct) (Some wk)))).
  Proof. intros Hw H sa E. rewrite sealed_access_roundtrip in E by exact Hw. injection E as <-. exact H. Qed.
  Lemma sealed_acc_open oid wk ct a : uuid_wf oid -> aes_open (d_aek d) (print (access_aad oid)) wk ct = Ok (print (enc_access a)) ->
    exists g, acc_open (d_aek d) oid (print (enc_sealed_access (mkSealedAccess oid (Some ct) (Some wk)))) = Ok (mkAccess g (a_dek a)).
  Proof.
    intros Hw H. eexists. unfold acc_open. rewrite sealed_access_roundtrip by exact Hw. cbn [sa_wk sa_ct]. unfold open_json. cbn [slice_bytes]. rewrite H. cbn [res_bind].
    now rewrite access_roundtrip.
  Qed.
  (** Writing both halves. *)
  Lemma HD_both m m' l oid ba bo : HD m l -> (forall oid' dt, oid' <> oid -> m' oid' dt = m oid' dt) -> m' oid SA = Some ba -> m' oid SO = Some bo ->
    acc_logged l oid ba -> pair_logged l oid ba bo -> HD m' l.
  Proof.
    intros H Ho E1 E2 A B oid' Hw ba' Hb. destruct (decide (oid' = oid)) as [->|Hne].
    - rewrite E1 in Hb. injection Hb as <-. split; [exact A|]. intros bo' Hb. rewrite E2 in Hb. injection Hb as <-. exact B.
    - rewrite Ho in Hb by exact Hne. destruct (H oid' Hw ba' Hb) as [X Y]. split; [exact X|]. intros bo' Hb'. rewrite Ho in Hb' by exact Hne. auto.
  Qed.
  Lemma HD_gone m m' l oid : HD m l -> (forall oid' dt, oid' <> oid -> m' oid' dt = m oid' dt) -> m' oid SA = None -> HD m' l.
  Proof.
    intros H Ho E oid' Hw ba Hb. destruct (decide (oid' = oid)) as [->|Hne]; [congruence|].
    rewrite Ho in Hb by exact Hne. destruct (H oid' Hw ba Hb) as [X Y]. split; [exact X|]. intros bo' Hb'. rewrite Ho in Hb' by exact Hne. auto.
  Qed.
  Lemma pair_sealed l oid wk ct g dek ca ad : uuid_wf oid -> logged l (d_kek d) (print (object_aad oid ad)) dek ct ->
    acc_open (d_aek d) oid (print (enc_sealed_access (mkSealedAccess oid (Some ca) (Some wk)))) = Ok (mkAccess g (Some dek)) ->
    pair_logged l oid (print (enc_sealed_access (mkSealedAccess oid (Some ca) (Some wk)))) (print (enc_sealed_object (mkSealedObject (Some ct) ad oid))).
  Proof.
    intros Hw L E a so Ea Es. rewrite E in Ea. injection Ea as <-. rewrite sealed_object_roundtrip in Es by exact Hw. injection Es as <-. exact L.
  Qed.
  Lemma upd_far m oid dt x oid' dt' : oid' <> oid -> upd m oid dt x oid' dt' = m oid' dt'.
  Proof. intros H. apply upd_other. congruence. Qed.

  Lemma acc_ne sa : print (enc_sealed_access sa) <> [].
  Proof. apply print_obj_nonempty. Qed.
  Lemma obj_ne so : print (enc_sealed_object so) <> [].
  Proof. apply print_obj_nonempty. Qed.
  (** The token is looked up quietly, then [k] runs. *)
  Lemma end_verify {B} tok need (k : identity -> prog W (res B)) (Q : res B -> W -> Prop) w m : holds m w -> quiet_lookup tok w ->
    (forall r w', holds m w' -> calmly w w' -> (forall a, r <> Ok a) -> Q r w') ->
    (forall i w', holds m w' -> calmly w w' -> ends (k i) Q w') ->
    ends (bindR (verify_access idp tok need) k) Q w.
  Proof.
    intros H Hq HE HK. apply ends_bindR. unfold verify_access. apply ends_bind. eapply ends_mono; [|apply (end_idp tok w m H Hq)].
    intros [i|x|] w1 (H1 & C1); [|apply HE; auto; discriminate..].
    destruct (scope_contains _ _); [apply HK; auto|apply HE; auto; discriminate].
  Qed.

  Definition known_token (c : d1_call) (w : W) : Prop :=
    match c with CGetTokenContents t => forall aad, enc_time (st_exp t) = Some aad -> logged (w_log w) (d_tek d) (print aad) (sl (st_wk t)) (sl (st_ct t)) | _ => True end.
  (** What CreateToken hands out is in the log. *)
  Definition made_token (r : res d1_reply) (w : W) : Prop :=
    forall t, r = Ok (RToken t) -> forall aad, enc_time (st_exp t) = Some aad -> logged (w_log w) (d_tek d) (print aad) (sl (st_wk t)) (sl (st_ct t)).

  Lemma honest_d1 c w : v_inv v (w_io w) -> HD (store_of w) (w_log w) -> both (store_of w) -> (forall o, call_oid c = Some o -> uuid_wf o) ->
    (forall tok, call_token c = Some tok -> quiet_lookup tok w) -> known_token c w ->
    ends (d1_aes e io idp d c) (fun r w' => fine w w' /\ made_token r w') w.
  Proof.
    intros Hi HH Hb Hwf Hq Hk. pose proof (holds_self v w Hi) as H.
    assert (FIN : forall w', holds (store_of w) w' -> calmly w w' -> fine w w') by (intros w' X Y; eapply fine_of; eauto).
    (* a reply that is no token *)
    assert (RM : forall A (f : A -> d1_reply) (p : prog W (res A)), (forall a t, f a <> RToken t) -> ends p (fun _ w' => fine w w') w ->
      ends (ret_map f p) (fun r w' => fine w w' /\ made_token r w') w).
    { intros A f p Hf Hp. unfold ret_map. apply ends_bind. eapply ends_mono; [|exact Hp]. intros r w' X. unfold ends. cbn [run fst snd]. split; [exact X|].
      intros t E. destruct r as [a|x|]; cbn [res_map] in E; try discriminate. injection E as E. destruct (Hf a t E). }
    (* a read-only load *)
    assert (LD : forall B tok need oid (k : access -> prog W (res B)), call_token c = Some tok -> call_oid c = Some oid ->
      (forall a ba w', holds (store_of w) w' -> calmly w w' -> store_of w oid SA = Some ba -> acc_open (d_aek d) oid ba = Ok a -> ends (k a) (fun _ w2 => fine w w2) w') ->
      ends (let! i := verify_access idp tok need in let! sa := get_sealed_access io oid in let! a := authorize_access (aes_cryptor e (d_aek d)) i need sa in k a)
        (fun _ w' => fine w w') w).
    { intros B tok need oid k Et Eo HK. apply (end_verify tok need _ _ w (store_of w) H (Hq tok Et)); [auto|]. intros i w1 H1 C1.
      apply (end_load i need oid k _ w1 (store_of w) (Hwf oid Eo) H1).
      - eapply HD_grow; eauto.
      - intros r w2 H2 C2 _. apply FIN; [exact H2|eapply calmly_trans; eauto].
      - intros a ba w2 H2 C2 Ea Eo'. eapply HK; eauto. eapply calmly_trans; eauto. }
    (* sealing and storing an access *)
    assert (ST : forall oid a ba g w1, uuid_wf oid -> holds (store_of w) w1 -> calmly w w1 -> store_of w oid SA = Some ba ->
      acc_open (d_aek d) oid ba = Ok a ->
      ends (let! sa := access_seal (aes_cryptor e (d_aek d)) (mkAccess g (a_dek a)) oid in put_sealed_access io sa true) (fun _ w' => fine w w') w1).
    { intros oid a ba g w1 Hw H1 C1 Ea Eo. apply (end_access_seal _ _ _ _ w1 (store_of w) H1).
      - intros r w2 H2 C2 _. apply FIN; [exact H2|eapply calmly_trans; eauto].
      - intros wk ct w2 H2 C2 L Ho. cbn [a_dek]. pose proof (calmly_trans _ _ _ C1 C2) as C12. unfold put_sealed_access. apply ends_map_err. cbn [sa_oid].
        eapply ends_mono; [|apply (end_update oid SA _ w2 (store_of w) eq_refl (acc_ne _) H2)].
        intros r w3 [C3 [(N & -> & H3)|(N & -> & H3)]]; [|apply FIN; [exact H3|eapply calmly_trans; eauto]].
        pose proof (calmly_trans _ _ _ C12 C3) as C13.
        split; [|exact C13]. apply (HD_holds _ _ H3).
        pose proof (HD_grow _ _ _ C13 HH) as HH3. destruct (sealed_acc_open oid wk ct _ Hw Ho) as [g' Eg]. cbn [a_dek] in Eg.
        intros oid' Hw' ba' Hb'. destruct (decide (oid' = oid)) as [->|Hne].
        + rewrite upd_same in Hb'. apply (inj Some) in Hb'. subst ba'. split; [exact (sealed_acc_logged _ oid wk ct Hw (logged_calmly _ _ _ _ _ _ C3 L))|].
          intros bo Hbo. rewrite upd_other in Hbo by (intros [=]; discriminate). intros a' so Ea' Es. rewrite Eg in Ea'. injection Ea' as <-. cbn [a_dek].
          exact (proj2 (HH3 oid Hw ba Ea) bo Hbo a so Eo Es).
        + rewrite upd_far in Hb' by exact Hne. destruct (HH3 oid' Hw' ba' Hb') as [X Y]. split; [exact X|]. intros bo Hbo. rewrite upd_far in Hbo by exact Hne. auto. }
    destruct c as [tok obj gs|tok oid obj|tok oid|tok oid|tok oid|tok oid gs|tok oid gs|tok oid|pt|t]; unfold d1_aes; cbn [d1_do call_token call_oid] in *.
    - (* Encrypt *)
      apply RM; [discriminate|]. unfold d1_encrypt. apply (end_verify tok _ _ _ w (store_of w) H (Hq tok eq_refl)); [auto|]. intros i w1 H1 C1.
      apply ends_bindR. unfold new_v4. apply ends_bindR. eapply ends_mono; [|eapply ends_wpc, (get_bytes_post e v 16 w1 (store_of w) H1)].
      intros r w2 (H2 & L2 & _ & _ & G2 & C). assert (C2 : calmly w w2).
      { eapply calmly_trans; [exact C1|]. split; [now rewrite L2|exact G2]. }
      destruct C as [(b & _ & Lb & ->)|(-> & _)]; [|apply FIN; auto]. unfold ends at 1. cbn [run fst snd].
      set (oid := uuid_v4 b). assert (Hw : uuid_wf oid) by (apply uuid_v4_wf; lia).
      apply (end_object_seal obj oid _ _ w2 (store_of w) H2).
      { intros r w3 H3 C3 _. apply FIN; [exact H3|eapply calmly_trans; eauto]. }
      intros dek ct w3 H3 C3 L3. cbn beta iota. pose proof (calmly_trans _ _ _ C2 C3) as C03. unfold new_access. cbn [a_groups a_dek].
      apply ends_bindR. destruct (add_groups (Some ∅) (gs ++ [i_id i])) as [g|x|]; unfold ends at 1; cbn [lift run fst snd]; [|apply FIN; auto..].
      apply (end_access_seal _ _ _ _ w3 (store_of w) H3).
      { intros r w4 H4 C4 _. apply FIN; [exact H4|eapply calmly_trans; eauto]. }
      intros wk ca w4 H4 C4 L4 O4. pose proof (calmly_trans _ _ _ C03 C4) as C04. apply ends_bindR. unfold put_sealed_object. apply ends_map_err. cbn [so_oid].
      eapply ends_mono; [|apply (end_put oid SO _ w4 (store_of w) eq_refl (obj_ne _) H4)].
      intros r w5 [C5 [(N & -> & H5)|(N & -> & H5)]]; [|apply FIN; [exact H5|eapply calmly_trans; eauto]].
      pose proof (calmly_trans _ _ _ C04 C5) as C05.
      apply ends_bindR. unfold put_sealed_access. apply ends_map_err. cbn [sa_oid].
      eapply ends_mono; [|apply (end_put oid SA _ w5 _ eq_refl (acc_ne _) H5)].
      intros r w6 [C6 [(N6 & -> & H6)|(N6 & -> & H6)]].
      2:{ exfalso. apply N6. rewrite upd_other by (intros [=]; discriminate). now apply Hb. }
      pose proof (calmly_trans _ _ _ C05 C6) as C06. unfold ends. cbn [run fst snd]. split; [|exact C06]. apply (HD_holds _ _ H6).
      destruct (sealed_acc_open oid wk ca _ Hw O4) as [g' Eg]. cbn [a_dek] in Eg.
      eapply (HD_both (store_of w)); [eapply HD_grow; eauto| |apply upd_same|rewrite upd_other by (intros [=]; discriminate); apply upd_same| |].
      + intros oid' dt Hne. now rewrite !upd_far by exact Hne.
      + apply sealed_acc_logged; [exact Hw|]. eapply logged_calmly; [|exact L4]. eapply calmly_trans; eauto.
      + eapply pair_sealed; [exact Hw| |exact Eg]. eapply logged_calmly; [|exact L3]. eapply calmly_trans; [exact C4|]. eapply calmly_trans; eauto.
    - (* Update *)
      apply RM; [discriminate|]. unfold d1_update. apply (LD _ tok ScopeUpdate oid _ eq_refl eq_refl). intros a ba w1 H1 C1 Ea Eo.
      pose proof (Hwf oid eq_refl) as Hw. apply (end_object_seal obj oid _ _ w1 (store_of w) H1).
      { intros r w2 H2 C2 _. apply FIN; [exact H2|eapply calmly_trans; eauto]. }
      intros dek ct w2 H2 C2 L2. cbn beta iota. pose proof (calmly_trans _ _ _ C1 C2) as C02.
      apply (end_access_seal _ _ _ _ w2 (store_of w) H2).
      { intros r w3 H3 C3 _. apply FIN; [exact H3|eapply calmly_trans; eauto]. }
      intros wk ca w3 H3 C3 L3 O3. pose proof (calmly_trans _ _ _ C02 C3) as C03. apply ends_bindR. unfold put_sealed_object. apply ends_map_err. cbn [so_oid].
      eapply ends_mono; [|apply (end_update oid SO _ w3 (store_of w) eq_refl (obj_ne _) H3)].
      intros r w4 [C4 [(N & -> & H4)|(N & -> & H4)]]; [|apply FIN; [exact H4|eapply calmly_trans; eauto]].
      pose proof (calmly_trans _ _ _ C03 C4) as C04. apply ends_bindR. unfold put_sealed_access. apply ends_map_err. cbn [sa_oid].
      eapply ends_mono; [|apply (end_update oid SA _ w4 _ eq_refl (acc_ne _) H4)].
      intros r w5 [C5 [(N5 & -> & H5)|(N5 & -> & H5)]].
      2:{ rewrite upd_other in N5 by (intros [=]; discriminate). congruence. }
      pose proof (calmly_trans _ _ _ C04 C5) as C05. unfold ends. cbn [run fst snd]. split; [|exact C05]. apply (HD_holds _ _ H5).
      destruct (sealed_acc_open oid wk ca _ Hw O3) as [g' Eg]. cbn [a_dek] in Eg.
      eapply (HD_both (store_of w)); [eapply HD_grow; eauto| |apply upd_same|rewrite upd_other by (intros [=]; discriminate); apply upd_same| |].
      + intros oid' dt Hne. now rewrite !upd_far by exact Hne.
      + apply sealed_acc_logged; [exact Hw|]. eapply logged_calmly; [|exact L3]. eapply calmly_trans; eauto.
      + eapply pair_sealed; [exact Hw| |exact Eg]. eapply logged_calmly; [|exact L2]. eapply calmly_trans; [exact C3|]. eapply calmly_trans; eauto.
    - (* Decrypt *)
      apply RM; [discriminate|]. unfold d1_decrypt. apply (LD _ tok ScopeDecrypt oid _ eq_refl eq_refl). intros a ba w1 H1 C1 Ea Eo.
      apply ends_bindR. unfold get_sealed_object. apply ends_bindR, ends_map_err.
      eapply ends_mono; [|apply (end_get oid SO w1 _ eq_refl H1)]. intros r w2 (H2 & C2 & ->). pose proof (calmly_trans _ _ _ C1 C2) as C02.
      destruct (store_of w oid SO) as [bo|] eqn:Ebo; [|apply FIN; auto].
      destruct (unmarshal dec_sealed_object bo) as [so|] eqn:Es; [|apply FIN; auto].
      unfold ends at 1. cbn [run fst snd]. unfold object_unseal. cbn [so_oid so_ad so_ct]. apply ends_bindR.
      eapply ends_mono; [|apply (end_dec (d_kek d) dec_bytes (object_aad oid (so_ad so)) (a_dek a) (so_ct so) w2 _ H2)].
      2:{ eapply logged_calmly; [exact C02|]. exact (proj2 (HH oid (Hwf oid eq_refl) ba Ea) bo Ebo a so Eo Es). }
      intros r w3 (H3 & C3 & _). pose proof (FIN w3 H3 (calmly_trans _ _ _ C02 C3)). destruct r; auto.
    - (* Delete *)
      apply RM; [discriminate|]. pose proof (Hwf oid eq_refl) as Hw. unfold d1_delete.
      apply (end_verify tok _ _ _ w (store_of w) H (Hq tok eq_refl)); [auto|]. intros i w1 H1 C1.
      assert (X : ends (let! sa := get_sealed_access io oid in let! _ := authorize_access (aes_cryptor e (d_aek d)) i ScopeDelete sa in
                     let! _ := delete_sealed_object io oid in let! _ := delete_sealed_access io oid in Ret (Ok tt)) (fun _ w' => fine w w') w1).
      { apply (end_load i ScopeDelete oid _ _ w1 (store_of w) Hw H1).
        - eapply HD_grow; eauto.
        - intros r w2 H2 C2 _. apply FIN; [exact H2|eapply calmly_trans; eauto].
        - intros a ba w2 H2 C2 Ea Eo. pose proof (calmly_trans _ _ _ C1 C2) as C02. apply ends_bindR. unfold delete_sealed_object.
          eapply ends_mono; [|apply (end_delete oid SO w2 _ eq_refl H2)]. intros r w3 (C3 & -> & H3).
          apply ends_bindR. unfold delete_sealed_access. eapply ends_mono; [|apply (end_delete oid SA w3 _ eq_refl H3)]. intros r w4 (C4 & -> & H4).
          pose proof (calmly_trans _ _ _ C02 (calmly_trans _ _ _ C3 C4)) as C04. unfold ends. cbn [run fst snd]. split; [|exact C04]. apply (HD_holds _ _ H4).
          eapply (HD_gone (store_of w)); [eapply HD_grow; eauto| |apply upd_same]. intros oid' dt Hne. now rewrite !upd_far by exact Hne. }
      revert X. unfold bindR at 1. unfold ends. rewrite !run_bind. destruct (run (get_sealed_access io oid) w1) as [[sa|x|] w2]; auto. destruct x; auto.
    - (* GetAccessGroups *)
      apply RM; [discriminate|]. unfold d1_get_access_groups. apply (LD _ tok ScopeGetAccessGroups oid _ eq_refl eq_refl). intros a ba w1 H1 C1 _ _. apply FIN; auto.
    - (* AddGroups *)
      apply RM; [discriminate|]. unfold d1_add_groups. apply (LD _ tok ScopeModifyAccessGroups oid _ eq_refl eq_refl). intros a ba w1 H1 C1 Ea Eo.
      apply ends_bindR. destruct (add_groups (a_groups a) gs) as [g|x|]; unfold ends at 1; cbn [lift run fst snd]; [|apply FIN; auto..].
      exact (ST oid a ba g w1 (Hwf oid eq_refl) H1 C1 Ea Eo).
    - (* RemoveGroups *)
      apply RM; [discriminate|]. unfold d1_remove_groups. apply (LD _ tok ScopeModifyAccessGroups oid _ eq_refl eq_refl). intros a ba w1 H1 C1 Ea Eo.
      exact (ST oid a ba _ w1 (Hwf oid eq_refl) H1 C1 Ea Eo).
    - (* Authorize *)
      apply RM; [discriminate|]. unfold d1_authorize. apply (LD _ tok ScopeGetAccessGroups oid _ eq_refl eq_refl). intros a ba w1 H1 C1 _ _. apply FIN; auto.
    - (* CreateToken *)
      unfold ret_map, d1_create_token, new_token. apply ends_bind, ends_bind, ends_bind. unfold ends at 1. cbn [time_now act run fst snd].
      unfold ends at 1. cbn [run fst snd]. set (w1 := set_ticks w _). assert (H1 : holds (store_of w) w1) by exact H. assert (C1 : calmly w w1) by (split; auto).
      unfold token_seal. cbn [t_exp t_pt]. destruct (enc_time _) as [aad|] eqn:Et; [|split; [apply FIN; auto|discriminate]].
      apply ends_bindR. eapply ends_mono; [|apply (end_enc (d_tek d) _ aad w1 _ H1)]. intros [[wk ct]|x|] w2 (H2 & C2 & L); unfold ends; cbn [run fst snd res_map].
      + pose proof (calmly_trans _ _ _ C1 C2). split; [apply FIN; auto|]. intros t [= <-] aad' E. cbn [st_exp st_wk st_ct] in *. rewrite Et in E. injection E as <-. apply L.
      + pose proof (calmly_trans _ _ _ C1 C2). split; [apply FIN; auto|discriminate].
      + pose proof (calmly_trans _ _ _ C1 C2). split; [apply FIN; auto|discriminate].
    - (* GetTokenContents *)
      apply RM; [discriminate|]. unfold d1_get_token_contents. apply ends_bindR. unfold token_unseal. apply ends_bind. unfold ends at 1. cbn [time_now act run fst snd].
      set (w1 := set_ticks w _). assert (H1 : holds (store_of w) w1) by exact H. assert (C1 : calmly w w1) by (split; auto).
      destruct (time_before _ _); [apply FIN; auto|]. destruct (enc_time (st_exp t)) as [aad|] eqn:Et; [|apply FIN; auto].
      apply ends_bindR. eapply ends_mono; [|apply (end_dec (d_tek d) dec_bytes aad (st_wk t) (st_ct t) w1 _ H1)].
      2:{ apply (Hk aad Et). }
      intros r w2 (H2 & C2 & _). pose proof (FIN w2 H2 (calmly_trans _ _ _ C1 C2)). destruct r; auto.
  Qed.
End Honest.
