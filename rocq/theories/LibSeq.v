(** What calls draw from the random source, and calls that do not overlap as a special case of calls that do; for LibRevokeDemo.v. *)
From Coq Require Import ZifyN ZifyNat.
From stdpp Require Import gmap.
From Verif Require Import Bytes Go Json JsonProofs Uuid UuidProofs Time Types World Logic Cryptor Io IoSpec IoProofs Id Data D1 D1Proofs D1Props Spec D1Refine D1ConcSpec D1Conc Demo
  Standalone StandaloneSpec SaConcSpec StandaloneRefine StandaloneHist StandaloneDemo SaConcDemo IdAuthority History Sched Authority
  Index IndexSpec IndexConcSpec IndexOwnSpec IndexProofs IndexRefine IndexHist IndexDemo Foot Lib LibSpec LibHist LibCor LibDemo LibHonest LibConcSpec LibTouch LibConcUseSpec.
Local Open Scope bool_scope.
Local Open Scope N_scope.

(** ** What a call of the object interface draws from the random source *)
Section Draws.
  Context {S I : Type} (e : env) (io : provider S) (idp : bytes -> prog (world S I) (res identity)) (d : d1) (quiet : forall t, within 0 (idp t)).
  Notation W := (world S I).
  Lemma within_verify tok n : within 0 (verify_access idp tok n).
  Proof. unfold verify_access. apply (within_bind _ _ 0 0); [apply quiet|]. intros [i|x|]; try exact Logic.I. destruct (scope_contains _ _); exact Logic.I. Qed.
  Lemma within_get_access oid : within 0 (get_sealed_access io oid : prog W _).
  Proof. unfold get_sealed_access. apply (within_bindR _ _ 0 0); [apply within_map_err, within_io|intros b]. destruct (unmarshal _ b); exact Logic.I. Qed.
  Lemma within_get_object oid : within 0 (get_sealed_object io oid : prog W _).
  Proof. unfold get_sealed_object. apply (within_bindR _ _ 0 0); [apply within_map_err, within_io|intros b]. destruct (unmarshal _ b); exact Logic.I. Qed.
  Lemma within_authorize i n sa : within 0 (authorize_access (aes_cryptor e (d_aek d)) i n sa : prog W _).
  Proof. unfold authorize_access, access_unseal. apply (within_bindR _ _ 0 0); [apply within_dec|intros a]. destruct (authorized _ _ _); exact Logic.I. Qed.
  Lemma within_obj_seal k o oid : within 2 (object_seal (aes_cryptor e k) o oid : prog W _).
  Proof. unfold object_seal. apply (within_bindR _ _ 2 0); [apply within_enc|intros [? ?]; exact Logic.I]. Qed.
  Lemma within_acc_seal k a oid : within 2 (access_seal (aes_cryptor e k) a oid : prog W _).
  Proof. unfold access_seal, encrypt_json. apply (within_bindR _ _ 2 0); [apply within_enc|intros [? ?]; exact Logic.I]. Qed.
  Lemma within_put_object so b : within 0 (put_sealed_object io so b : prog W _).
  Proof. unfold put_sealed_object. destruct b; apply within_map_err, within_io. Qed.
  Lemma within_put_access so b : within 0 (put_sealed_access io so b : prog W _).
  Proof. unfold put_sealed_access. destruct b; apply within_map_err, within_io. Qed.
  Lemma within_d1 c : (forall t, c <> CCreateToken t) -> (forall t, c <> CGetTokenContents t) -> within 8 (d1_aes e io idp d c).
  Proof.
    intros N1 N2. unfold d1_aes. destruct c as [tok obj gs|tok oid obj|tok oid|tok oid|tok oid|tok oid gs|tok oid gs|tok oid|pt|t]; cbn [d1_do]; unfold ret_map;
      try (destruct (N1 _ eq_refl)); try (destruct (N2 _ eq_refl)); (apply (within_bind _ _ 8 0); [|intros; exact Logic.I]).
    - unfold d1_encrypt. apply (within_bindR _ _ 0 8); [apply within_verify|intros i]. apply (within_bindR _ _ 1 7); [apply within_new_v4|intros oid].
      apply (within_bindR _ _ 2 5); [apply within_obj_seal|intros [dek so]]. apply (within_bindR _ _ 0 5); [apply within_lift|intros g].
      apply (within_bindR _ _ 2 3); [apply within_acc_seal|intros sa]. apply (within_bindR _ _ 0 3); [apply within_put_object|intros _]. apply (within_bindR _ _ 0 3); [apply within_put_access|intros _]. exact Logic.I.
    - unfold d1_update. apply (within_bindR _ _ 0 8); [apply within_verify|intros i]. apply (within_bindR _ _ 0 8); [apply within_get_access|intros sa]. apply (within_bindR _ _ 0 8); [apply within_authorize|intros a].
      apply (within_bindR _ _ 2 6); [apply within_obj_seal|intros [dek so]]. apply (within_bindR _ _ 2 4); [apply within_acc_seal|intros sa'].
      apply (within_bindR _ _ 0 4); [apply within_put_object|intros _]. apply (within_bindR _ _ 0 4); [apply within_put_access|intros _]. exact Logic.I.
    - unfold d1_decrypt. apply (within_bindR _ _ 0 8); [apply within_verify|intros i]. apply (within_bindR _ _ 0 8); [apply within_get_access|intros sa]. apply (within_bindR _ _ 0 8); [apply within_authorize|intros a].
      apply (within_bindR _ _ 0 8); [apply within_get_object|intros so]. apply (within_mono _ 0); [lia|]. unfold object_unseal.
      apply (within_bindR _ _ 0 0); [apply within_dec|intros x; exact Logic.I].
    - unfold d1_delete. apply (within_bindR _ _ 0 8); [apply within_verify|intros i]. apply (within_bind _ _ 0 8); [apply within_get_access|]. intros [sa|x|]; [|destruct x; exact Logic.I|exact Logic.I].
      apply (within_bindR _ _ 0 8); [apply within_authorize|intros a]. apply (within_bindR _ _ 0 8); [apply within_io|intros _]. apply (within_bindR _ _ 0 8); [apply within_io|intros _]. exact Logic.I.
    - unfold d1_get_access_groups. apply (within_bindR _ _ 0 8); [apply within_verify|intros i]. apply (within_bindR _ _ 0 8); [apply within_get_access|intros sa]. apply (within_bindR _ _ 0 8); [apply within_authorize|intros a]. exact Logic.I.
    - unfold d1_add_groups. apply (within_bindR _ _ 0 8); [apply within_verify|intros i]. apply (within_bindR _ _ 0 8); [apply within_get_access|intros sa]. apply (within_bindR _ _ 0 8); [apply within_authorize|intros a].
      apply (within_bindR _ _ 0 8); [apply within_lift|intros g]. apply (within_bindR _ _ 2 6); [apply within_acc_seal|intros sa']. apply (within_mono _ 0); [lia|apply within_put_access].
    - unfold d1_remove_groups. apply (within_bindR _ _ 0 8); [apply within_verify|intros i]. apply (within_bindR _ _ 0 8); [apply within_get_access|intros sa]. apply (within_bindR _ _ 0 8); [apply within_authorize|intros a].
      apply (within_bindR _ _ 2 6); [apply within_acc_seal|intros sa']. apply (within_mono _ 0); [lia|apply within_put_access].
    - unfold d1_authorize. apply (within_bindR _ _ 0 8); [apply within_verify|intros i]. apply (within_bindR _ _ 0 8); [apply within_get_access|intros sa]. apply (within_bindR _ _ 0 8); [apply within_authorize|intros a]. exact Logic.I.
  Qed.
End Draws.

(** ** Calls that do not overlap are a special case *)
Lemma conc_on {S I} (e : env) (v : view S) (io : provider S) L fuel pool (w : world S I) tr1 pool1 w1 tr2 pool2 w2 :
  lib_conc e v io L fuel pool w tr1 pool1 w1 -> lib_conc e v io L fuel pool1 w1 tr2 pool2 w2 -> lib_conc e v io L fuel pool w (tr1 ++ tr2) pool2 w2.
Proof.
  intros H K. induction H as [pool w|pool w w0 tr pool' w' E H IH|c pool w tr pool' w' H IH|t X f q pool w tr pool' w' E H IH|t r pool w tr pool' w' E H IH]; cbn [app]; [exact K|..].
  - eapply lc_env; eauto.
  - apply lc_call. auto.
  - eapply lc_step; eauto.
  - apply lc_reply; auto.
Qed.
Fixpoint seq_obs (n : nat) (evs : list lib_event) : list lib_obs :=
  match evs with [] => [] | ev :: evs => LCall (lv_call ev) :: LReply n (lv_reply ev) :: seq_obs (Datatypes.S n) evs end.
Lemma seq_obs_snoc evs ev : forall n, seq_obs n (evs ++ [ev]) = seq_obs n evs ++ [LCall (lv_call ev); LReply (n + length evs) (lv_reply ev)].
Proof. induction evs as [|x evs IH]; intros n; cbn [app seq_obs length]; [now rewrite Nat.add_0_r|]. rewrite IH. cbn [app]. now rewrite Nat.add_succ_r. Qed.
(** Calls of the identity provider and of the object interface, not the ones about tokens. *)
Definition draws_little (c : lib_call) : Prop := match c with OnObject (CCreateToken _) | OnObject (CGetTokenContents _) => False | _ => True end.
(** What was observed before each call. *)
Fixpoint lib_before (tr : list lib_obs) : list (list lib_obs * lib_call) :=
  match tr with
  | [] => []
  | LCall c :: tr => ([], c) :: map (fun x => (LCall c :: fst x, snd x)) (lib_before tr)
  | LReply t r :: tr => map (fun x => (LReply t r :: fst x, snd x)) (lib_before tr)
  end.
Lemma lib_before_in tr : forall tr1 c tr2, tr = tr1 ++ LCall c :: tr2 -> In (tr1, c) (lib_before tr).
Proof.
  induction tr as [|o tr IH]; intros [|o1 tr1] c tr2 E; cbn [app] in E; try discriminate; injection E as -> E.
  - cbn. now left.
  - apply IH in E. destruct o1; cbn [lib_before]; [right|]; apply (in_map (fun x => (_ :: fst x, snd x)) _ _ E).
Qed.
Lemma lookup_no_odds tr t c : SaConcSpec.at_odds tr (SGetIdentity t) c -> False.
Proof. intros [(u & [([] & _)|([] & _)])|(u & [(_ & [[]|[]])|(_ & [])])]. Qed.
