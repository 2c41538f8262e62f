(** Calls of all three kinds that overlap: a run of the library is a run of the identity provider, a run of
    D1 and a run of the index, side by side. *)
From Coq Require Import ZifyN ZifyNat.
From stdpp Require Import gmap.
From Verif Require Import Bytes Go Uuid Time Types World IoSpec Id Data D1 Spec D1ConcSpec Standalone StandaloneSpec SaConcSpec
  Index IndexSpec IndexConcSpec IndexOwnSpec Foot Lib LibSpec LibHist LibConcSpec LibTouch.
Local Open Scope bool_scope.
Local Open Scope N_scope.

(** ** Programs that do the same *)
Section Peq.
  Context {W : Type}.
  Fixpoint peq {A} (p q : prog W A) : Prop :=
    match p, q with
    | Ret a, Ret b => a = b
    | Step f k, Step g l => forall w, snd (f w) = snd (g w) /\ peq (k (fst (f w))) (l (fst (g w)))
    | _, _ => False
    end.
  Lemma peq_refl {A} (p : prog W A) : peq p p.
  Proof. induction p; cbn [peq]; auto. Qed.
  Lemma peq_trans {A} (p : prog W A) : forall q r, peq p q -> peq q r -> peq p r.
  Proof.
    induction p as [a|X f k IH]; intros [b|Y g l] [c|Z h m] H1 H2; cbn [peq] in *; try contradiction; [congruence|].
    intros w. destruct (H1 w) as [A1 B1], (H2 w) as [A2 B2]. split; [congruence|]. eapply IH; eauto.
  Qed.
  Lemma peq_bind_l {A B} (p : prog W A) (k : A -> prog W B) : forall q, peq p q -> peq (bind p k) (bind q k).
  Proof.
    induction p as [a|X f c IH]; intros [b|Y g l] H; cbn [peq bind] in *; try contradiction; [subst; apply peq_refl|].
    intros w. destruct (H w) as [A1 B1]. split; [exact A1|]. now apply IH.
  Qed.
  Lemma peq_assoc {A B C} (p : prog W A) (k : A -> prog W B) (l : B -> prog W C) : peq (bind (bind p k) l) (bind p (fun a => bind (k a) l)).
  Proof. induction p as [a|X f c IH]; cbn [bind peq]; [apply peq_refl|auto]. Qed.
  Lemma peq_assoc3 {A B C D E} (p : prog W A) (a : A -> prog W B) (b : B -> prog W C) (c : C -> prog W D) (d : D -> prog W E) :
    peq (bind (bind (bind (bind p a) b) c) d) (bind p (fun r => bind (bind (bind (a r) b) c) d)).
  Proof.
    eapply peq_trans; [|apply peq_assoc]. apply peq_bind_l. eapply peq_trans; [|apply peq_assoc]. apply peq_bind_l. apply peq_assoc.
  Qed.
End Peq.

(** ** Calls in their two halves *)
Inductive xobs :=
| XCall (c : lib_call)
| XKnown (t : nat) (r : res identity)
| XReply (t : nat) (r : lib_reply).
Definition vis (x : list xobs) : list lib_obs :=
  flat_map (fun o => match o with XCall c => [LCall c] | XKnown _ _ => [] | XReply t r => [LReply t r] end) x.
Definition xcalls (x : list xobs) : list lib_call := flat_map (fun o => match o with XCall c => [c] | _ => [] end) x.
Definition known (x : list xobs) : list nat := flat_map (fun o => match o with XKnown t _ => [t] | _ => [] end) x.
Definition tbl (x : list xobs) (t : nat) : res identity :=
  match flat_map (fun o => match o with XKnown t' r => if Nat.eqb t' t then [r] else [] | _ => [] end) x with r :: _ => r | [] => Panic end.

Section Threads.
  Context {S I : Type} (e : env) (v : view S) (io : provider S) (Hio : cell_storage v io) (Hew : entrywise v io) (L : lib) (fuel : nat).
  Notation W := (world S I).
  Notation idp := (sa_idp e io (l_sa L) : bytes -> prog W _).
  Inductive thr :=
  | TId (c : sa_call) (p : prog W (res sa_reply))
  | TLook (c : lib_call) (p : prog W (res identity))
  | TObj (c : d1_call) (p : prog W (res d1_reply))
  | TIx (c : ix_call) (p : prog W (res ix_reply)).
  Definition tcall (th : thr) : lib_call := match th with TId c _ => OnIdentity c | TLook c _ => c | TObj c _ => OnObject c | TIx c _ => OnIndex c end.
  Definition begun (r : res identity) (c : lib_call) : thr :=
    match c with
    | OnObject c => TObj c (d1_aes e io (fun _ => Ret r) (l_d1 L) c)
    | OnIndex c => TIx c (ix_do e io (fun _ => Ret r) (l_iek L) fuel c)
    | OnIdentity c => TId c (Ret Panic)
    end.
  Definition look (c : lib_call) : prog W (res identity) := match looks_up c with Some tok => idp tok | None => Ret Panic end.
  Definition start (c : lib_call) : thr := match c with OnIdentity c => TId c (sa_aes e io (l_sa L) c) | _ => TLook c (look c) end.
  Definition flat' (th : thr) : prog W lib_reply :=
    match th with
    | TId _ p => bind p (fun r => Ret (LIdentity r))
    | TLook _ _ => Ret (LIdentity Panic)
    | TObj _ p => bind p (fun r => Ret (LObject r))
    | TIx _ p => bind p (fun r => Ret (LIndex r))
    end.
  Definition flat (th : thr) : prog W lib_reply := match th with TLook c p => bind p (fun r => flat' (begun r c)) | _ => flat' th end.
  Lemma flat_begun r c : flat (begun r c) = flat' (begun r c).
  Proof. destruct c; reflexivity. Qed.
  Lemma start_flat c : peq (lib_do e io L fuel c) (flat (start c)).
  Proof.
    destruct c as [c|c|c]; cbn [start flat flat' lib_do]; [| |apply peq_refl].
    - unfold look. cbn [looks_up begun flat']. unfold d1_aes. destruct c; cbn [call_token d1_do];
        unfold ret_map, d1_encrypt, d1_update, d1_decrypt, d1_delete, d1_get_access_groups, d1_add_groups, d1_remove_groups, d1_authorize, bindR, verify_access;
        first [apply peq_refl|exact (peq_assoc3 _ _ _ _ _)].
    - unfold look. cbn [looks_up begun flat']. destruct c; cbn [ix_token ix_do];
        unfold ret_map, ix_add, ix_search, ix_delete, bindR, ix_verify; exact (peq_assoc3 _ _ _ _ _).
  Qed.

  Inductive srun : list thr -> W -> list xobs -> list thr -> W -> Prop :=
  | sr_nil P w : srun P w [] P w
  | sr_env P w w1 x P' w' : lib_spared v w w1 -> srun P w1 x P' w' -> srun P w x P' w'
  | sr_call c P w x P' w' : srun (P ++ [start c]) w x P' w' -> srun P w (XCall c :: x) P' w'
  | sr_id t c X (f : W -> X * W) q P w x P' w' : P !! t = Some (TId c (Step f q)) ->
      srun (<[t := TId c (q (fst (f w)))]> P) (snd (f w)) x P' w' -> srun P w x P' w'
  | sr_look t c X (f : W -> X * W) q P w x P' w' : P !! t = Some (TLook c (Step f q)) ->
      srun (<[t := TLook c (q (fst (f w)))]> P) (snd (f w)) x P' w' -> srun P w x P' w'
  | sr_obj t c X (f : W -> X * W) q P w x P' w' : P !! t = Some (TObj c (Step f q)) ->
      srun (<[t := TObj c (q (fst (f w)))]> P) (snd (f w)) x P' w' -> srun P w x P' w'
  | sr_ix t c X (f : W -> X * W) q P w x P' w' : P !! t = Some (TIx c (Step f q)) ->
      srun (<[t := TIx c (q (fst (f w)))]> P) (snd (f w)) x P' w' -> srun P w x P' w'
  | sr_known t c r P w x P' w' : P !! t = Some (TLook c (Ret r)) ->
      srun (<[t := begun r c]> P) w x P' w' -> srun P w (XKnown t r :: x) P' w'
  | sr_reply_id t c r P w x P' w' : P !! t = Some (TId c (Ret r)) -> srun P w x P' w' -> srun P w (XReply t (LIdentity r) :: x) P' w'
  | sr_reply_obj t c r P w x P' w' : P !! t = Some (TObj c (Ret r)) -> srun P w x P' w' -> srun P w (XReply t (LObject r) :: x) P' w'
  | sr_reply_ix t c r P w x P' w' : P !! t = Some (TIx c (Ret r)) -> srun P w x P' w' -> srun P w (XReply t (LIndex r) :: x) P' w'.

  Definition sim (pool : list (prog W lib_reply)) (P : list thr) : Prop := Forall2 (fun p th => peq p (flat th)) pool P.
  Definition settled (th : thr) : Prop := match th with TLook _ (Ret _) => False | _ => True end.
  (** Before a call goes on, its lookup is over if it has got that far. *)
  Lemma settle pool P t th : sim pool P -> P !! t = Some th -> exists th' P1 k, P1 !! t = Some th' /\ settled th' /\ sim pool P1 /\
    vis k = [] /\ forall w x P' w', srun P1 w x P' w' -> srun P w (k ++ x) P' w'.
  Proof.
    intros HS Ht. destruct th as [c p|c [r|X f q]|c p|c p].
    - exists (TId c p), P, []. cbn. eauto 10.
    - exists (begun r c), (<[t := begun r c]> P), [XKnown t r]. split; [apply list_lookup_insert; eapply lookup_lt_Some; eauto|].
      split; [destruct c; exact Logic.I|]. split; [|split; [reflexivity|]].
      + destruct (Forall2_lookup_r _ _ _ _ _ HS Ht) as (p & Hp & Hpe). rewrite <- (list_insert_id pool t p Hp).
        apply Forall2_insert; [exact HS|]. rewrite flat_begun. exact Hpe.
      + intros w x P' w' H. cbn [app]. eapply sr_known; eauto.
    - exists (TLook c (Step f q)), P, []. cbn. eauto 10.
    - exists (TObj c p), P, []. cbn. eauto 10.
    - exists (TIx c p), P, []. cbn. eauto 10.
  Qed.
  Lemma vis_app a b : vis (a ++ b) = vis a ++ vis b.
  Proof. apply flat_map_app. Qed.
  Lemma structured pool w tr pool' w' : lib_conc e v io L fuel pool w tr pool' w' ->
    forall P, sim pool P -> exists x P', srun P w x P' w' /\ vis x = tr.
  Proof.
    induction 1 as [pool w|pool w w1 tr pool' w' Hs _ IH|c pool w tr pool' w' _ IH|t X f q pool w tr pool' w' Hp _ IH|t r pool w tr pool' w' Hp _ IH]; intros P HS.
    - exists [], P. split; [constructor|reflexivity].
    - destruct (IH P HS) as (x & P' & H1 & H2). exists x, P'. split; [econstructor; eauto|exact H2].
    - destruct (IH (P ++ [start c])) as (x & P' & H1 & H2).
      { apply Forall2_app; [exact HS|]. constructor; [apply start_flat|constructor]. }
      exists (XCall c :: x), P'. split; [now constructor|]. change (LCall c :: vis x = LCall c :: tr). congruence.
    - destruct (Forall2_lookup_l _ _ _ _ _ HS Hp) as (th & Ht & _).
      destruct (settle _ _ _ _ HS Ht) as (th' & P1 & k & Ht1 & Hse & HS1 & Hk & Hrun).
      destruct (Forall2_lookup_l _ _ _ _ _ HS1 Hp) as (th2 & Ht2 & Hpe). rewrite Ht1 in Ht2. injection Ht2 as <-.
      assert (HI : forall th2, peq (q (fst (f w))) (flat th2) -> sim (<[t := q (fst (f w))]> pool) (<[t := th2]> P1)).
      { intros. apply Forall2_insert; assumption. }
      assert (HQ : exists x P', srun P1 w x P' w' /\ vis x = tr).
      { destruct th' as [c p|c p|c p|c p]; (destruct p as [b|Y g l]; [cbn in Hpe; contradiction|]); cbn [flat flat' bind peq] in Hpe; destruct (Hpe w) as [E1 E2]; rewrite E1 in IH.
        - destruct (IH _ (HI (TId c (l (fst (g w)))) E2)) as (x & P' & H1 & H2). exists x, P'. split; [eapply sr_id; eauto|exact H2].
        - destruct (IH _ (HI (TLook c (l (fst (g w)))) E2)) as (x & P' & H1 & H2). exists x, P'. split; [eapply sr_look; eauto|exact H2].
        - destruct (IH _ (HI (TObj c (l (fst (g w)))) E2)) as (x & P' & H1 & H2). exists x, P'. split; [eapply sr_obj; eauto|exact H2].
        - destruct (IH _ (HI (TIx c (l (fst (g w)))) E2)) as (x & P' & H1 & H2). exists x, P'. split; [eapply sr_ix; eauto|exact H2]. }
      destruct HQ as (x & P' & H1 & H2). exists (k ++ x), P'. split; [now apply Hrun|]. rewrite vis_app, Hk. exact H2.
    - destruct (Forall2_lookup_l _ _ _ _ _ HS Hp) as (th & Ht & _).
      destruct (settle _ _ _ _ HS Ht) as (th' & P1 & k & Ht1 & Hse & HS1 & Hk & Hrun).
      destruct (Forall2_lookup_l _ _ _ _ _ HS1 Hp) as (th2 & Ht2 & Hpe). rewrite Ht1 in Ht2. injection Ht2 as <-.
      destruct (IH P1 HS1) as (x & P' & H1 & H2). exists (k ++ XReply t r :: x), P'. split.
      + apply Hrun. destruct th' as [c p|c p|c p|c p]; (destruct p as [b|Y g l]; [|cbn in Hpe; contradiction]); cbn in Hse; try contradiction; cbn in Hpe; subst r;
          [eapply sr_reply_id|eapply sr_reply_obj|eapply sr_reply_ix]; eauto.
      + rewrite vis_app, Hk. change (LReply t r :: vis x = LReply t r :: tr). congruence.
  Qed.

  (** ** What threads may touch *)
  Definition none (_ : N) : Prop := False.
  Definition thr_ok (th : thr) : Prop :=
    match th with
    | TId _ p => tch v sa_writes p
    | TLook c p => tch v none p /\ forall c', c <> OnIdentity c'
    | TObj _ p => tch v d1_writes p
    | TIx _ p => tch v ix_writes p
    end.
  Lemma start_ok c : thr_ok (start c).
  Proof.
    assert (HL : forall c, tch v none (look c)).
    { intros c'. unfold look. destruct (looks_up c'); [apply tch_identity; assumption|exact Logic.I]. }
    destruct c; cbn [start thr_ok]; [split; [apply HL|discriminate]..|]. now apply tch_sa.
  Qed.
  Lemma begun_ok r c : (forall c', c <> OnIdentity c') -> thr_ok (begun r c).
  Proof.
    intros H. destruct c; cbn [begun thr_ok]; [apply tch_d1|apply tch_ix|exact Logic.I]; try assumption; intros; exact Logic.I.
  Qed.
  Definition all_ok (P : list thr) : Prop := Forall thr_ok P.
  Lemma ok_insert P t th : all_ok P -> thr_ok th -> all_ok (<[t := th]> P).
  Proof. intros H1 H2. now apply Forall_insert. Qed.
  Lemma ok_call P c : all_ok P -> all_ok (P ++ [start c]).
  Proof. intros H. apply Forall_app. split; [exact H|]. constructor; [apply start_ok|constructor]. Qed.
  Lemma ok_at P t th : all_ok P -> P !! t = Some th -> thr_ok th.
  Proof. intros H. now apply Forall_lookup_1. Qed.
End Threads.
