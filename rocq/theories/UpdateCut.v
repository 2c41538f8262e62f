(** An interrupted Update: which of its writes were made, and what Decrypt then says. *)
From Coq Require Import ZifyN ZifyNat.
From stdpp Require Import gmap.
From Verif Require Import Bytes Go Json JsonProofs Uuid UuidProofs Types TypesProofs World Logic
  Cryptor CryptorProofs IoSpec IoProofs Id Data D1 D1Proofs D1Calls Spec SpecProofs History D1Refine D1Local
  Claims SpecTheory D1Props D1Crash Gcm Kwp.
Local Open Scope bool_scope.
Local Open Scope N_scope.

Section Cut.
  Context {S I : Type} (e : env) (v : view S) (io : provider S) (Hio : io_spec False v io).
  Notation W := (world S I).
  Context (idp : bytes -> prog W (res identity)) (Hidp : idp_reads v idp) (d : d1).
  Notation store_of w := (v_map v (w_io w)).
  Notation SO := DataTypeSealedObject.
  Notation SA := DataTypeSealedAccess.

  Lemma slots_decrypt oid bo ba acl dek (w : W) tok : v_inv v (w_io w) ->
    store_of w oid SO = Some bo -> store_of w oid SA = Some ba ->
    acc_open (d_aek d) oid ba = Ok (mkAccess (Some acl) (Some dek)) ->
    allowed (whois idp w tok) ScopeDecrypt acl ->
    fst (run (d1_aes e io idp d (CDecrypt tok oid)) w) = res_map RObject (obj_open (d_kek d) oid bo (Some dek)).
  Proof.
    intros Hi HO HA HoA Hall. unfold d1_aes. cbn [d1_do]. rewrite run_ret_map. cbn [fst].
    pose proof (wpc_end _ _ _ _ (decrypt_spec e False v io Hio idp Hidp d tok oid w _ (holds_self v w Hi))) as E.
    destruct (run (d1_decrypt _ _ _ _ _ _) w) as [r0 w0]. cbn [fst snd] in *. destruct E as [->|[[] _]].
    destruct (checked_acl idp d w tok ScopeDecrypt oid _ ba acl _ HA HoA) as [A _].
    rewrite (A Hall). cbn [res_bind]. unfold read_object. rewrite HO. reflexivity.
  Qed.

  Lemma update_cut_cases D w0 evs w m oid o acl iof tok o2 n :
    fresh v D w0 -> history e v io idp d D w0 evs w -> Forall event_ok evs ->
    spec_history ∅ (List.filter (ev_in D) evs) m -> m !! oid = Some (o, acl) -> io_spec True v iof ->
    let w1 := snd (run_n n (d1_aes e iof idp d (CUpdate tok oid o2)) w) in
    let reads tok' := fst (run (d1_aes e io idp d (CDecrypt tok' oid)) w1) in
    (forall tok', allowed (whois idp w1 tok') ScopeDecrypt acl -> reads tok' = Ok (RObject o)) \/
    (allowed (whois idp w tok) ScopeUpdate acl /\
      ((forall tok', allowed (whois idp w1 tok') ScopeDecrypt acl -> reads tok' = Ok (RObject o2)) \/
       (store_of w1 oid SA = store_of w oid SA /\ store_of w1 oid SO <> store_of w oid SO /\
        exists x, forall tok', allowed (whois idp w1 tok') ScopeDecrypt acl -> reads tok' = Err x) \/
       two_keys oid (store_of w1 oid SO))).
  Proof.
    intros HF HH Hok Hm Ho Hiof. destruct (history_exists e v io Hio idp Hidp d _ _ _ _ _ _ _ _ HF HH Hok Hm Ho) as (Hi & R & HD & Hoid).
    destruct R as [R _]. specialize (R oid HD Hoid). rewrite Ho in R. destruct R as [(bo & ba & dk0 & HO & HA & HoA & HoO) V].
    intros w1 reads.
    assert (E : wpc (d1_aes e iof idp d (CUpdate tok oid o2))
      (fun w' => holds v (store_of w) w' \/ exists a so sa st, checked idp d w tok ScopeUpdate oid (store_of w) = Ok a /\ store_of w oid SO <> None /\
          upd_blobs d oid o2 a so sa /\ holds v (upd_map oid (store_of w) so sa st) w') (fun _ _ => True) w).
    { unfold d1_aes. cbn [d1_do]. apply wpc_ret_map.
      eapply wpc_mono; [| |exact (update_spec e True v iof Hiof idp Hidp d tok oid o2 w _ (holds_self v w Hi) Hoid)]; auto. }
    pose proof (wpc_cut _ _ _ _ E n) as C. fold w1 in C. clear E.
    assert (OLD : forall w', v_inv v (w_io w') -> seq (store_of w') (store_of w) -> 
      forall tok', allowed (whois idp w' tok') ScopeDecrypt acl -> fst (run (d1_aes e io idp d (CDecrypt tok' oid)) w') = Ok (RObject o)).
    { intros w' Hi' HS tok' Hall. rewrite (slots_decrypt oid bo ba acl dk0 w' tok' Hi') by (rewrite ?HS; auto). now rewrite HoO. }
    destruct C as [[H1 H2]|(a & so & sa & st & Hc & _ & (dk & B1 & B2) & [H1 H2])]; [left; exact (OLD w1 H1 H2)|].
    destruct (checked_acl idp d w tok ScopeUpdate oid _ ba acl _ HA HoA) as [_ B].
    assert (Hall : allowed (whois idp w tok) ScopeUpdate acl).
    { destruct (allowed_dec (whois idp w tok) ScopeUpdate acl) as [Hall|Hn]; [exact Hall|].
      destruct (B Hn) as (r & E & Hr). rewrite E in Hc. destruct (whois idp w tok); congruence. }
    apply checked_stored in Hc as (ba' & i & HA' & HoA' & _). rewrite HA in HA'. injection HA' as <-.
    rewrite HoA in HoA'. injection HoA' as <-. cbn [a_groups] in B2. rewrite norm_set_valid in B2 by exact V.
    destruct st; cbn [upd_map] in H2; [left; exact (OLD w1 H1 H2)|right; split; [exact Hall|]..].
    - assert (SO1 : store_of w1 oid SO = Some so) by (rewrite H2; apply upd_same).
      assert (SA1 : store_of w1 oid SA = Some ba) by (rewrite H2, upd_other by (intros [=]; discriminate); exact HA).
      assert (RD : forall tok', allowed (whois idp w1 tok') ScopeDecrypt acl -> reads tok' = res_map RObject (obj_open (d_kek d) oid so (Some dk0)))
        by (intros; apply (slots_decrypt oid so ba acl dk0 w1); auto).
      destruct (obj_open (d_kek d) oid so (Some dk0)) as [o'|x|] eqn:Eo; cbn [res_map] in RD.
      + destruct (obj_open_two_keys _ _ _ _ _ _ _ B1 Eo) as [E|HT]; [rewrite <- E in RD; auto|]. right. right. rewrite SO1. exact HT.
      + right. left. split; [congruence|]. split; [|eauto]. rewrite SO1, HO. intros [= ->]. congruence.
      + exfalso. revert Eo. unfold obj_open. destruct (unmarshal _ _); [|discriminate].
        destruct (open_json_total (d_kek d) dec_bytes (object_aad oid (so_ad s)) (Some dk0) (so_ct s)) as [(? & ->)|(? & -> & _)]; discriminate.
    - left. intros tok' Hall'. unfold reads. rewrite (slots_decrypt oid so sa acl dk w1 tok' H1); [now rewrite B1|..]; auto.
      + rewrite H2, upd_other by (intros [=]; discriminate). apply upd_same.
      + rewrite H2. apply upd_same.
  Qed.
End Cut.
