(** C74 for a first part of what was observed: calls made later do not matter. *)
From Coq Require Import ZifyN ZifyNat.
From stdpp Require Import gmap.
From Verif Require Import Bytes Go Uuid Time Types World Id D1 Spec Standalone StandaloneSpec SaConcSpec Index IndexSpec Lib LibSpec LibConcSpec LibConcUseSpec LibConcUse LibReadSpec LibRead.
Local Open Scope nat_scope.

Lemma acts_so_far e tr1 tr2 : (exists hs s, lib_acts e (tr1 ++ tr2) hs s) -> exists hs s, lib_acts e tr1 hs s.
Proof.
  intros (hs & s & HH & ND & HO & HW & HR & HP). destruct (HP tr1 tr2 eq_refl) as (hs1 & hs2 & -> & R1 & R2). apply hh_app in HH as (s1 & H1 & _). exists hs1, s1.
  assert (N1 : forall k k0, nth_error (lib_calls (tr1 ++ tr2)) k = Some k0 -> k < length (lib_calls tr1) -> nth_error (lib_calls tr1) k = Some k0) by (intros k k0; apply nth_call_prefix).
  split; [exact H1|]. split; [rewrite map_app in ND; revert ND; clear; generalize (map (fun h => (half_call h, is_lookup h)) hs1) as l; intros l; induction l as [|z l IH]; intros ND; [constructor|];
    cbn [app] in ND; apply List.NoDup_cons_iff in ND as [A B]; constructor; [intros K; apply A, in_app_iff; now left|auto]|]. split.
  { intros h Hin. specialize (HO h (in_or_app _ _ _ (or_introl Hin))). specialize (R2 h Hin).
    destruct h; cbn [half_of half_call] in *; [destruct HO as [A B]; split; [exact (N1 _ _ A R2)|exact B]|destruct HO as [(c & A & A') B]; split; [exists c; split; [exact (N1 _ _ A R2)|exact A']|exact B]|destruct HO as [A B]; split; [exact (N1 _ _ A R2)|exact B]..]. }
  split; [intros p1 h p2 tok who -> Hw; eapply (HW p1 h (p2 ++ hs2)); [rewrite <- app_assoc; reflexivity|exact Hw]|]. split; [exact R1|].
  intros ta tb E. destruct (HP ta (tb ++ tr2)) as (x1 & x2 & Ex & X1 & X2); [rewrite E, <- app_assoc; reflexivity|]. apply app_eq_app in Ex as (l & [[-> E2]|[-> E2]]).
  - exists x1, l. auto.
  - exists hs1, []. split; [now rewrite app_nil_r|]. split; [intros t r Hin; apply R1; rewrite E; apply in_app_iff; now left|]. intros h Hin. apply X2, in_app_iff. now left.
Qed.
Lemma acts_part e tra trb trc c : (exists hs s, lib_acts e (tra ++ LCall c :: trb ++ trc) hs s) -> exists hs s, lib_acts e (tra ++ LCall c :: trb) hs s.
Proof. intros H. apply (acts_so_far e (tra ++ LCall c :: trb) trc). rewrite <- app_assoc. exact H. Qed.
Lemma answered_later (tra trb trc : list lib_obs) (r : lib_reply) : In (LReply (length (lib_calls tra)) r) trb -> In (LReply (length (lib_calls tra)) r) (trb ++ trc).
Proof. intros H. apply in_app_iff. now left. Qed.
