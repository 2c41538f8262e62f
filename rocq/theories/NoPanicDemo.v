(** A group record moved into the slot of a user, with one key for users and groups. *)
From stdpp Require Import gmap.
From Verif Require Import Bytes Go Types World Io IoSpec IoProofs Standalone StandaloneSpec StandaloneProofs StandaloneRefine StandaloneHist StandaloneDemo NoPanic.
Local Open Scope bool_scope.
Local Open Scope N_scope.

Definition shared_k : sa_keys := mkSaKeys (repeat x01 32) (repeat x01 32) (repeat x03 32).
Lemma demo_transplant (uid : bytes) : exists evs d (w w' : SW) gid s,
  sa_fresh mem_view shared_k sa_w /\ sa_run sa_env Mem shared_k (sa_elsewhere mem_view shared_k) sa_w evs w /\ w_forged w = false /\ sa_history dir_empty evs d /\
  d_groups d !! gid = Some s /\ transplanted mem_view w w' gid uid /\ length evs = 5%nat.
Proof.
  destruct (demo_group shared_k) as (evs & d & w & gid & s & (R1 & R2 & R3) & Hg & Hl).
  assert (X : exists w' : SW, transplanted mem_view w w' gid uid).
  { destruct R3 as (_ & m & (Hm1 & Hm2) & (_ & Rg) & _). specialize (Rg gid). rewrite Hg in Rg. destruct Rg as (b & B1 & (gid' & wk & ct & Hs & _) & _).
    eexists (set_io w (<[mem_key uid DataTypeSealedUser := _]> (w_io w))). exists b, (mkSealedGroup gid' (Some ct) (Some wk)).
    split; [rewrite Hm2; exact B1|]. split; [exact Hs|]. split; [exact Logic.I|]. split; [|repeat split].
    cbn [w_io set_io v_map mem_view]. intros id dt. rewrite (look_insert mem_key mem_key_inj) by reflexivity. unfold upd. reflexivity. }
  destruct X as [w' X]. exists evs, d, w, w', gid, s. split; [exact (sa_w_fresh shared_k)|]. split; [eapply run_between; [|exact R1]; intros ? ? []|]. split; [apply R3|]. auto.
Qed.
