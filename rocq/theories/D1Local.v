(** What a call can touch, wherever it is cut and whatever fails; histories seen by a set of ids. *)
From Coq Require Import ZifyN ZifyNat.
From stdpp Require Import gmap.
From Verif Require Import Bytes Go Json JsonProofs Uuid UuidProofs Types TypesProofs World Logic
  Cryptor CryptorProofs IoSpec IoProofs Id Data D1 D1Proofs D1Calls Spec SpecProofs History D1Refine.
Local Open Scope bool_scope.
Local Open Scope N_scope.

Section Local.
  Context {S I : Type} (e : env) (F : Prop) (v : view S) (io : provider S) (Hio : io_spec F v io).
  Notation W := (world S I).
  Context (idp : bytes -> prog W (res identity)) (Hidp : idp_reads v idp) (d : d1).
  Notation store_of w := (v_map v (w_io w)).
  Notation SO := DataTypeSealedObject.
  Notation SA := DataTypeSealedAccess.

  (** The slots a call may change. *)
  Definition may_touch (w : W) (c : d1_call) (oid : uuid) (dt : N) : Prop :=
    (dt = SO \/ dt = SA) /\
    match c with
    | CEncrypt tok _ _ => drawn e idp w tok oid /\ store_of w oid SO = None /\ store_of w oid dt = None
    | _ => call_oid c = Some oid
    end.
  Definition local (w : W) (c : d1_call) (w' : W) : Prop :=
    v_inv v (w_io w') /\ forall oid dt, store_of w' oid dt = store_of w oid dt \/ may_touch w c oid dt.

  Lemma local_same w c (w' : W) : holds v (store_of w) w' -> local w c w'.
  Proof. intros [H1 H2]. split; [exact H1|]. intros. left. apply H2. Qed.
  Lemma local_holds w c st (w' : W) : holds v st w' ->
    (forall oid dt, st oid dt = store_of w oid dt \/ may_touch w c oid dt) -> local w c w'.
  Proof. intros [H1 H2] H. split; [exact H1|]. intros oid dt. destruct (H oid dt) as [E|E]; [left|right; exact E]. now rewrite H2. Qed.
  Lemma upd_cases (m : store) oid dt x oid' dt' : upd m oid dt x oid' dt' = m oid' dt' \/ (oid' = oid /\ dt' = dt).
  Proof.
    unfold upd. destruct (bytes_eqb oid' oid) eqn:E; [|auto]. apply bytes_eqb_eq in E. subst.
    destruct (N.eqb_spec dt' dt) as [->|]; auto.
  Qed.
  Lemma wpc_ret_map {A B} (f : A -> B) (p : prog W (res A)) (Inv : W -> Prop) (Q : _ -> W -> Prop) w :
    wpc p Inv (fun r w' => Q (res_map f r) w') w -> wpc (ret_map f p) Inv Q w.
  Proof.
    intros H. unfold ret_map. apply wpc_bind. eapply wpc_mono; [| |exact H]; [auto|].
    intros a w' H1 H2. apply wpc_ret; auto.
  Qed.

  Lemma call_local c w : v_inv v (w_io w) -> (forall oid, call_oid c = Some oid -> uuid_wf oid) ->
    wpc (d1_aes e io idp d c) (local w c) (fun _ _ => True) w.
  Proof.
    intros Hi Hwf. pose proof (holds_self v w Hi) as H.
    assert (SAME : forall c w', holds v (store_of w) w' -> local w c w') by (intros; now apply local_same).
    unfold d1_aes. destruct c as [tok obj gs|tok oid obj|tok oid|tok oid|tok oid|tok oid gs|tok oid gs|tok oid|pt|t];
      cbn [d1_do call_oid] in *; apply wpc_ret_map.
    - eapply wpc_mono; [| |exact (encrypt_spec e F v io Hio idp Hidp d tok obj gs w _ H)]; [|auto].
      intros w' [HH|(i & oid & so & sa & st & _ & Hd & N1 & _ & N2 & HH)]; [auto|].
      eapply local_holds; [exact HH|]. intros oid' dt'. unfold may_touch.
      destruct st; cbn [upd_map]; [auto|..].
      + destruct (upd_cases (store_of w) oid SO (Some so) oid' dt') as [E|[-> ->]]; auto 6.
      + destruct (upd_cases (upd (store_of w) oid SO (Some so)) oid SA (Some sa) oid' dt') as [E|[-> ->]]; [|auto 8].
        rewrite E. destruct (upd_cases (store_of w) oid SO (Some so) oid' dt') as [E'|[-> ->]]; auto 6.
    - eapply wpc_mono; [| |exact (update_spec e F v io Hio idp Hidp d tok oid obj w _ H (Hwf _ eq_refl))]; [|auto].
      intros w' [HH|(a & so & sa & st & _ & _ & _ & HH)]; [auto|].
      eapply local_holds; [exact HH|]. intros oid' dt'. unfold may_touch.
      destruct st; cbn [upd_map]; [auto|..].
      + destruct (upd_cases (store_of w) oid SO (Some so) oid' dt') as [E|[-> ->]]; auto 6.
      + destruct (upd_cases (upd (store_of w) oid SO (Some so)) oid SA (Some sa) oid' dt') as [E|[-> ->]]; [|auto 6].
        rewrite E. destruct (upd_cases (store_of w) oid SO (Some so) oid' dt') as [E'|[-> ->]]; auto 6.
    - eapply wpc_mono; [| |exact (decrypt_spec e F v io Hio idp Hidp d tok oid w _ H)]; auto.
    - eapply wpc_mono; [| |exact (delete_spec e F v io Hio idp Hidp d tok oid w _ H)]; [|auto].
      intros w' [HH|(a & st & _ & HH)]; [auto|].
      eapply local_holds; [exact HH|]. intros oid' dt'. unfold may_touch.
      destruct st; cbn [del_map]; [auto|..].
      + destruct (upd_cases (store_of w) oid SO None oid' dt') as [E|[-> ->]]; auto 6.
      + destruct (upd_cases (upd (store_of w) oid SO None) oid SA None oid' dt') as [E|[-> ->]]; [|auto 6].
        rewrite E. destruct (upd_cases (store_of w) oid SO None oid' dt') as [E'|[-> ->]]; auto 6.
    - eapply wpc_mono; [| |exact (get_groups_spec e F v io Hio idp Hidp d tok oid w _ H)]; auto.
    - eapply wpc_mono; [| |exact (add_groups_spec e F v io Hio idp Hidp d tok oid gs w _ H (Hwf _ eq_refl))]; [|auto].
      intros w' [HH|(a & s & sa & _ & _ & _ & HH)]; [auto|].
      eapply local_holds; [exact HH|]. intros oid' dt'. unfold may_touch, acc_map.
      destruct (upd_cases (store_of w) oid SA (Some sa) oid' dt') as [E|[-> ->]]; auto 6.
    - eapply wpc_mono; [| |exact (remove_groups_spec e F v io Hio idp Hidp d tok oid gs w _ H (Hwf _ eq_refl))]; [|auto].
      intros w' [HH|(a & sa & _ & _ & HH)]; [auto|].
      eapply local_holds; [exact HH|]. intros oid' dt'. unfold may_touch, acc_map.
      destruct (upd_cases (store_of w) oid SA (Some sa) oid' dt') as [E|[-> ->]]; auto 6.
    - eapply wpc_mono; [| |exact (authorize_spec e F v io Hio idp Hidp d tok oid w _ H)]; auto.
    - eapply wpc_mono; [| |exact (create_token_keeps e d pt w)]; [|auto].
      intros w' E. apply local_same. unfold holds. rewrite E. auto.
    - eapply wpc_mono; [| |exact (get_token_keeps e d t w)]; [|auto].
      intros w' E. apply local_same. unfold holds. rewrite E. auto.
  Qed.

  (** Calls about other ids, interrupted or not, are steps "elsewhere". *)
  Lemma call_elsewhere (D : uuid -> bool) c w n : v_inv v (w_io w) -> (forall oid, call_oid c = Some oid -> uuid_wf oid) ->
    ev_in D (mkEvent (outside_of e idp w c w) c (Err EJson)) = false ->
    elsewhere v D w (snd (run_n n (d1_aes e io idp d c) w)).
  Proof.
    intros Hi Hwf HD. destruct (wpc_cut _ _ _ _ (call_local c w Hi Hwf) n) as [Hi' HL].
    split; [exact Hi'|]. intros oid dt Hoid _. destruct (HL oid dt) as [E|[_ T]]; [exact E|exfalso].
    revert HD. unfold ev_in, ev_oid, outside_of. cbn [ev_call ev_outside].
    destruct c; cbn [call_token call_oid o_id] in *; try (injection T as <-; congruence); try discriminate.
    destruct T as ((b & -> & ->) & _). cbn [res_map]. congruence.
  Qed.
End Local.

Section Histories.
  Context {S I : Type} (e : env) (v : view S) (io : provider S) (Hio : io_spec False v io).
  Notation W := (world S I).
  Context (idp : bytes -> prog W (res identity)) (Hidp : idp_reads v idp) (d : d1) (D : uuid -> bool).
  Notation store_of w := (v_map v (w_io w)).

  Lemma run_n_all {A} (p : prog W A) w : snd (run_n (nsteps p w) p w) = snd (run p w).
  Proof. revert w. induction p as [a|X f k IH]; intros w; [reflexivity|].
    cbn [nsteps run]. destruct (f w) as [x w'] eqn:E. cbn [run_n]. rewrite E. apply IH.
  Qed.

  (** In every sequential history, the events about the ids in [D] form a history of the object map. *)
  Lemma history_refines w evs w' m : history e v io idp d D w evs w' -> v_inv v (w_io w) -> rep d D (store_of w) m ->
    Forall event_ok evs ->
    exists m', spec_history m (List.filter (ev_in D) evs) m' /\ rep d D (store_of w') m' /\ v_inv v (w_io w').
  Proof.
    intros H. revert m. induction H as [w|w w1 evs w2 [Hi He] H IH|w c r w1 evs w2 Hr H IH]; intros m Hi' R Hok.
    - exists m. split; [constructor|auto].
    - apply IH; [exact Hi| |exact Hok]. eapply rep_ext; [|exact R]. exact He.
    - pose proof (List.Forall_inv_tail Hok) as Hoks. apply List.Forall_inv in Hok.
      cbn [List.filter]. destruct (ev_in D _) eqn:HD.
      + destruct (spec_sim e v io Hio idp Hidp d D w c r w1 m Hr Hi' R Hok HD) as (m1 & Hs & R1 & Hi1).
        destruct (IH m1 Hi1 R1 Hoks) as (m2 & Hh & R2 & Hi2). exists m2. split; [|auto].
        econstructor; [exact Hs|exact Hh].
      + destruct (call_elsewhere e False v io Hio idp Hidp d D c w (nsteps (d1_aes e io idp d c) w)) as [Hi1 He1];
          [exact Hi'|apply Hok| |].
        { revert HD. unfold ev_in, ev_oid, outside_of. cbn [ev_call ev_outside].
          destruct c; cbn [call_token call_oid o_id]; auto. }
        rewrite run_n_all, Hr in Hi1, He1. cbn [snd] in Hi1, He1.
        apply (IH m Hi1); [|exact Hoks]. eapply rep_ext; [|exact R]. exact He1.
  Qed.
End Histories.
