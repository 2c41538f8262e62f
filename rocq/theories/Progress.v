(** Lemmas for P_Progress.v. *)
From stdpp Require Import gmap.
From Verif Require Import Bytes Go Json Uuid Time Types World Cryptor Id Data D1 Spec Password Standalone Io ProgressSpec.
Local Open Scope nat_scope.

Section Gen.
  Context {W : Type} (P : W -> Prop).
  Lemma beside_inv {A} n (p : prog W A) w p' w' : beside P n p w p' w' ->
    match p with
    | Ret a => n = 0 /\ p' = Ret a
    | Step f q => (n = 0 /\ p' = Step f q) \/
        exists n1 w1, n = Datatypes.S n1 /\ P w1 /\ beside P n1 (q (fst (f w1))) (snd (f w1)) p' w'
    end.
  Proof. induction 1; [destruct p; auto|assumption|right; eauto]. Qed.
  Lemma most_ret {A} b (a : A) : at_most P b (Ret a).
  Proof. intros n w p' w' H. apply beside_inv in H. destruct H. lia. Qed.
  Lemma most_le {A} b b' (p : prog W A) : at_most P b p -> b <= b' -> at_most P b' p.
  Proof. intros H L n w p' w' Hb. specialize (H _ _ _ _ Hb). lia. Qed.
  Lemma most_act {X} (f : W -> X * W) : at_most P 1 (act f).
  Proof.
    intros n w p' w' H. apply beside_inv in H. destruct H as [[-> _]|(n1 & w1 & -> & _ & H)]; [lia|].
    apply beside_inv in H. destruct H. lia.
  Qed.
  Lemma beside_bind {A B} (p : prog W A) (q : A -> prog W B) : forall n w r w', beside P n (bind p q) w r w' ->
    (exists p', beside P n p w p' w') \/
    exists n1 n2 a w1, n = n1 + n2 /\ (exists v, beside P n1 p v (Ret a) w1) /\ beside P n2 (q a) w1 r w'.
  Proof.
    induction p as [a|X f k IH]; intros n w r w' H; cbn [bind] in H.
    - right. exists 0, n, a, w. split; [reflexivity|]. split; [exists w; constructor|exact H].
    - apply beside_inv in H. destruct H as [[-> _]|(n1 & w1 & -> & HP & H)].
      + left. exists (Step f k). apply bs_others with (w1 := w'). constructor.
      + apply IH in H. destruct H as [(p' & H)|(m1 & m2 & a & w2 & -> & (v & H1) & H2)].
        * left. exists p'. apply bs_others with (w1 := w1). constructor; assumption.
        * right. exists (Datatypes.S m1), m2, a, w2. split; [lia|]. split; [|exact H2].
          exists w1. constructor; [exact HP|]. apply bs_others with (w1 := v). exact H1.
  Qed.
  (** The answers a call can give. *)
  Definition can {A} (p : prog W A) (a : A) : Prop := exists n w w', beside P n p w (Ret a) w'.
  Lemma most_bind_can {A B} b1 b2 (p : prog W A) (q : A -> prog W B) :
    at_most P b1 p -> (forall a, can p a -> at_most P b2 (q a)) -> at_most P (b1 + b2) (bind p q).
  Proof.
    intros H1 H2 n w r w' H. apply beside_bind in H.
    destruct H as [(p' & H)|(n1 & n2 & a & w1 & -> & (v & Ha) & H)].
    - apply H1 in H. lia.
    - assert (Hc : can p a) by (do 3 eexists; eauto). apply (H2 a Hc) in H. apply H1 in Ha. lia.
  Qed.
  Lemma most_bind {A B} b1 b2 (p : prog W A) (q : A -> prog W B) :
    at_most P b1 p -> (forall a, at_most P b2 (q a)) -> at_most P (b1 + b2) (bind p q).
  Proof. intros H1 H2. apply most_bind_can; auto. Qed.
  Lemma most_bindR_can {A B} b1 b2 (p : prog W (res A)) (q : A -> prog W (res B)) :
    at_most P b1 p -> (forall a, can p (Ok a) -> at_most P b2 (q a)) -> at_most P (b1 + b2) (bindR p q).
  Proof. intros H1 H2. apply most_bind_can; [exact H1|]. intros [a|x|] Hc; auto using most_ret. Qed.
  Lemma most_bindR {A B} b1 b2 (p : prog W (res A)) (q : A -> prog W (res B)) :
    at_most P b1 p -> (forall a, at_most P b2 (q a)) -> at_most P (b1 + b2) (bindR p q).
  Proof. intros H1 H2. apply most_bindR_can; auto. Qed.
  Lemma most_lift {A} (r : res A) : at_most P 0 (lift r).
  Proof. apply most_ret. Qed.
  Lemma most_then {A B} b (p : prog W A) (g : A -> B) : at_most P b p -> at_most P b (bind p (fun a => Ret (g a))).
  Proof. intros H. apply most_le with (b := b + 0); [|lia]. apply most_bind; [exact H|]. intros a. apply most_ret. Qed.
  Lemma most_map_err {A} b f (p : prog W (res A)) : at_most P b p -> at_most P b (map_err f p).
  Proof. apply most_then. Qed.
  Lemma can_bind_ret {A B} (p : prog W A) (g : A -> B) c : can (bind p (fun a => Ret (g a))) c -> exists a, can p a /\ c = g a.
  Proof.
    intros (n & w & w' & H). revert n w w' H. induction p as [a|X f k IH]; intros n w w' H; cbn [bind] in H.
    - apply beside_inv in H. destruct H as [_ H]. injection H as ->. exists a. split; [|reflexivity]. exists 0, w, w. constructor.
    - apply beside_inv in H. destruct H as [[_ H]|(n1 & w1 & -> & HP & H)]; [discriminate|].
      apply IH in H. destruct H as (a & (n2 & w2 & w3 & H) & ->). exists a. split; [|reflexivity].
      exists (Datatypes.S n2), w1, w3. constructor; [exact HP|]. apply bs_others with (w1 := w2). exact H.
  Qed.
End Gen.

Section Calls.
  Context {S I : Type} (e : env) (P : world S I -> Prop) (k : nat) (io : provider S) (IO : prompt k io).
  Notation W := (world S I).
  Lemma beside_io {A} (p : prog S A) : forall n (w : W) r w', beside P n (on_io p) w r w' ->
    exists s p' s', beside (fun _ => True) n p s p' s'.
  Proof.
    induction p as [a|X f q IH]; intros n w r w' H; cbn [on_io] in H; apply beside_inv in H.
    - destruct H as [-> _]. exists (w_io w). do 2 eexists. constructor.
    - destruct H as [[-> _]|(n1 & w1 & -> & HP & H)]; [exists (w_io w); do 2 eexists; constructor|].
      destruct (f (w_io w1)) as [x s1] eqn:F. cbn [fst snd] in H. apply IH in H. destruct H as (s & p' & s' & H).
      exists (w_io w1), p', s'. constructor; [exact Logic.I|]. rewrite F. cbn [fst snd]. apply bs_others with (w1 := s). exact H.
  Qed.
  Lemma most_io {A} b (p : prog S A) : at_most (fun _ => True) b p -> at_most P b (on_io p : prog W A).
  Proof. intros H n w r w' Hb. apply beside_io in Hb. destruct Hb as (s & p' & s' & Hb). eapply H; eauto. Qed.
  Lemma most_put id dt d : at_most P k (on_io (io_put io id dt d) : prog W _).
  Proof. apply most_io. apply (IO id dt d). Qed.
  Lemma most_get id dt : at_most P k (on_io (io_get io id dt) : prog W _).
  Proof. apply most_io. apply (IO id dt []). Qed.
  Lemma most_update id dt d : at_most P k (on_io (io_update io id dt d) : prog W _).
  Proof. apply most_io. apply (IO id dt d). Qed.
  Lemma most_delete id dt : at_most P k (on_io (io_delete io id dt) : prog W _).
  Proof. apply most_io. apply (IO id dt []). Qed.
  Lemma most_bytes n : at_most P 1 (get_bytes e n : prog W _).
  Proof. apply most_act. Qed.
  Lemma most_v4 : at_most P 1 (new_v4 e : prog W _).
  Proof. apply most_le with (b := 1 + 0); [|lia]. apply most_bindR; [apply most_bytes|]. intros a. apply most_ret. Qed.
  Lemma most_enc kek pt aad : at_most P 3 (encrypt_json (aes_cryptor e kek) pt aad : prog W _).
  Proof.
    change (at_most P 3 (aes_enc e kek (print pt) (print aad) : prog W _)). unfold aes_enc.
    apply most_le with (b := 1 + (1 + (0 + (0 + (1 + 0))))); [|lia].
    apply most_bindR; [apply most_bytes|]; intros. apply most_bindR; [apply most_bytes|]; intros.
    apply most_bindR; [apply most_lift|]; intros. apply most_bindR; [apply most_lift|]; intros.
    apply most_bind; [apply most_act|]; intros. apply most_ret.
  Qed.
  Lemma most_dec {A} kek (dec : json -> option A) aad wk ct : at_most P 1 (decrypt_json (aes_cryptor e kek) dec aad wk ct : prog W _).
  Proof.
    apply most_le with (b := 1 + 0); [|lia]. apply most_bindR; [apply most_act|]. intros a.
    destruct (unmarshal dec a); apply most_ret.
  Qed.
  Lemma most_object_seal kek o oid : at_most P 3 (object_seal (aes_cryptor e kek) o oid : prog W _).
  Proof. apply most_le with (b := 3 + 0); [|lia]. apply most_bindR; [apply most_enc|]. intros [? ?]. apply most_ret. Qed.
  Lemma most_object_unseal kek so wk : at_most P 1 (object_unseal (aes_cryptor e kek) so wk : prog W _).
  Proof. apply most_le with (b := 1 + 0); [|lia]. apply most_bindR; [apply most_dec|]. intros. apply most_ret. Qed.
  Lemma most_access_seal kek a oid : at_most P 3 (access_seal (aes_cryptor e kek) a oid : prog W _).
  Proof. apply most_le with (b := 3 + 0); [|lia]. apply most_bindR; [apply most_enc|]. intros [? ?]. apply most_ret. Qed.
  Lemma most_authorize kek i sc sa : at_most P 1 (authorize_access (aes_cryptor e kek) i sc sa : prog W _).
  Proof.
    apply most_le with (b := 1 + 0); [|lia]. apply most_bindR; [apply most_dec|]. intros a.
    destruct (authorized i sc a); apply most_ret.
  Qed.
  Lemma most_new_token pt : at_most P 1 (new_token e pt : prog W _).
  Proof. apply most_le with (b := 1 + 0); [|lia]. apply most_bind; [apply most_act|]. intros. apply most_ret. Qed.
  Lemma most_token_seal kek t : at_most P 3 (token_seal (aes_cryptor e kek) t : prog W _).
  Proof.
    unfold token_seal. destruct (enc_time (t_exp t)); [|apply most_ret].
    apply most_le with (b := 3 + 0); [|lia]. apply most_bindR; [apply most_enc|]. intros [? ?]. apply most_ret.
  Qed.
  Lemma most_token_unseal kek t : at_most P 2 (token_unseal e (aes_cryptor e kek) t : prog W _).
  Proof.
    unfold token_unseal. apply most_le with (b := 1 + 1); [|lia]. apply most_bind; [apply most_act|]. intros now.
    destruct (time_before (st_exp t) now); [apply most_ret|]. destruct (enc_time (st_exp t)); [|apply most_ret].
    apply most_le with (b := 1 + 0); [|lia]. apply most_bindR; [apply most_dec|]. intros. apply most_ret.
  Qed.
  Lemma most_put_object so u : at_most P k (put_sealed_object io so u : prog W _).
  Proof. destruct u; apply most_map_err; [apply most_update|apply most_put]. Qed.
  Lemma most_put_access sa u : at_most P k (put_sealed_access io sa u : prog W _).
  Proof. destruct u; apply most_map_err; [apply most_update|apply most_put]. Qed.
  Lemma most_get_object oid : at_most P k (get_sealed_object io oid : prog W _).
  Proof.
    apply most_le with (b := k + 0); [|lia]. apply most_bindR; [apply most_map_err, most_get|]. intros b.
    destruct (unmarshal _ _); apply most_ret.
  Qed.
  Lemma most_get_access oid : at_most P k (get_sealed_access io oid : prog W _).
  Proof.
    apply most_le with (b := k + 0); [|lia]. apply most_bindR; [apply most_map_err, most_get|]. intros b.
    destruct (unmarshal _ _); apply most_ret.
  Qed.
  Context (idp : bytes -> prog W (res identity)) (m : nat).
  Lemma most_verify tok sc : at_most P m (idp tok) -> at_most P m (verify_access idp tok sc).
  Proof.
    intros H. apply most_le with (b := m + 0); [|lia]. apply most_bind; [exact H|]. intros [i|x|]; try apply most_ret.
    destruct (scope_contains (i_scopes i) sc); apply most_ret.
  Qed.
  Lemma object_bound d c : (forall tok, call_token c = Some tok -> at_most P m (idp tok)) ->
    at_most P (m + storage_calls c * k + other_steps c) (d1_aes e io idp d c).
  Proof.
    intros H. unfold d1_aes, d1_do, ret_map.
    destruct c as [tok obj gs|tok oid obj|tok oid|tok oid|tok oid|tok oid gs|tok oid gs|tok oid|pt|t];
      cbn [storage_calls other_steps]; apply most_then; try specialize (H tok eq_refl).
    - apply most_le with (b := m + (1 + (3 + (0 + (3 + (k + (k + 0))))))); [|lia].
      apply most_bindR; [apply most_verify, H|]; intros i. apply most_bindR; [apply most_v4|]; intros oid.
      apply most_bindR; [apply most_object_seal|]; intros [dek so]. apply most_bindR; [apply most_lift|]; intros g.
      apply most_bindR; [apply most_access_seal|]; intros sa. apply most_bindR; [apply most_put_object|]; intros _.
      apply most_bindR; [apply most_put_access|]; intros _. apply most_ret.
    - apply most_le with (b := m + (k + (1 + (3 + (3 + (k + (k + 0))))))); [|lia].
      apply most_bindR; [apply most_verify, H|]; intros i. apply most_bindR; [apply most_get_access|]; intros sa0.
      apply most_bindR; [apply most_authorize|]; intros a.
      apply most_bindR; [apply most_object_seal|]; intros [dek so].
      apply most_bindR; [apply most_access_seal|]; intros sa. apply most_bindR; [apply most_put_object|]; intros _.
      apply most_bindR; [apply most_put_access|]; intros _. apply most_ret.
    - apply most_le with (b := m + (k + (1 + (k + 1)))); [|lia].
      apply most_bindR; [apply most_verify, H|]; intros i. apply most_bindR; [apply most_get_access|]; intros sa0.
      apply most_bindR; [apply most_authorize|]; intros a. apply most_bindR; [apply most_get_object|]; intros so.
      apply most_object_unseal.
    - apply most_le with (b := m + (k + (1 + (k + (k + 0))))); [|lia].
      apply most_bindR; [apply most_verify, H|]; intros i. apply most_bind; [apply most_get_access|]; intros [sa0|x|].
      + apply most_bindR; [apply most_authorize|]; intros a. apply most_bindR; [apply most_delete|]; intros _.
        apply most_bindR; [apply most_delete|]; intros _. apply most_ret.
      + destruct x; apply most_ret.
      + apply most_ret.
    - apply most_le with (b := m + (k + (1 + 0))); [|lia].
      apply most_bindR; [apply most_verify, H|]; intros i. apply most_bindR; [apply most_get_access|]; intros sa0.
      apply most_bindR; [apply most_authorize|]; intros a. apply most_ret.
    - apply most_le with (b := m + (k + (1 + (0 + (3 + k))))); [|lia].
      apply most_bindR; [apply most_verify, H|]; intros i. apply most_bindR; [apply most_get_access|]; intros sa0.
      apply most_bindR; [apply most_authorize|]; intros a. apply most_bindR; [apply most_lift|]; intros g.
      apply most_bindR; [apply most_access_seal|]; intros sa. apply most_put_access.
    - apply most_le with (b := m + (k + (1 + (3 + k)))); [|lia].
      apply most_bindR; [apply most_verify, H|]; intros i. apply most_bindR; [apply most_get_access|]; intros sa0.
      apply most_bindR; [apply most_authorize|]; intros a.
      apply most_bindR; [apply most_access_seal|]; intros sa. apply most_put_access.
    - apply most_le with (b := m + (k + (1 + 0))); [|lia].
      apply most_bindR; [apply most_verify, H|]; intros i. apply most_bindR; [apply most_get_access|]; intros sa0.
      apply most_bindR; [apply most_authorize|]; intros a. apply most_ret.
    - apply most_le with (b := 1 + 3); [|lia]. apply most_bind; [apply most_new_token|]; intros. apply most_token_seal.
    - apply most_le with (b := 2 + 0); [|lia]. apply most_bindR; [apply most_token_unseal|]; intros. apply most_ret.
  Qed.

  (** ** The identity provider *)
  Context (L : sa_keys).
  Notation uc := (aes_cryptor e (s_uek L)).
  Notation gc := (aes_cryptor e (s_gek L)).
  Notation tc := (aes_cryptor e (s_tek L)).
  Lemma most_put_user uid u b : at_most P (3 + k) (put_user io uc uid u b : prog W _).
  Proof.
    apply most_bindR.
    - apply most_le with (b := 3 + 0); [|lia]. apply most_bindR; [apply most_enc|]. intros [? ?]. apply most_ret.
    - intros su. destruct b; apply most_map_err; [apply most_update|apply most_put].
  Qed.
  Lemma most_get_user uid : at_most P (k + 1) (get_user io uc uid : prog W _).
  Proof.
    apply most_bindR; [apply most_map_err, most_get|]. intros b. destruct (unmarshal _ _); [apply most_dec|apply most_ret].
  Qed.
  Lemma most_put_group gid g : at_most P (3 + k) (put_group io gc gid g : prog W _).
  Proof.
    apply most_bindR.
    - apply most_le with (b := 3 + 0); [|lia]. apply most_bindR; [apply most_enc|]. intros [? ?]. apply most_ret.
    - intros su. apply most_map_err, most_put.
  Qed.
  Lemma most_get_group gid : at_most P (k + 1) (get_group io gc gid : prog W _).
  Proof.
    apply most_bindR; [apply most_map_err, most_get|]. intros b. destruct (unmarshal _ _); [apply most_dec|apply most_ret].
  Qed.
  Lemma most_get_groups gids : forall acc, at_most P (length gids * (k + 1)) (get_groups io gc gids acc : prog W _).
  Proof.
    induction gids as [|g gids IH]; intros acc; cbn [get_groups length]; [apply most_ret|].
    apply most_le with (b := (k + 1) + length gids * (k + 1)); [|lia].
    apply most_bindR; [apply most_get_group|]. intros. apply IH.
  Qed.
  Context (n : nat) (G : groups_at_most e io L P n).
  Lemma most_identity tok : at_most P ((1 + n) * k + (3 + n)) (sa_get_identity e io uc gc tc tok : prog W _).
  Proof.
    apply most_le with (b := 0 + (2 + ((k + 1) + (n * (k + 1) + 0)))); [|lia].
    apply most_bindR; [apply most_map_err, most_lift|]; intros st.
    apply most_bindR; [apply most_map_err, most_token_unseal|]; intros t.
    apply most_bindR_can; [apply most_get_user|]; intros u (j & w & w' & Hu).
    apply G in Hu. apply most_bindR; [|intros; apply most_ret].
    destruct (u_groups u) as [s|].
    - apply most_le with (b := length (elements s) * (k + 1)); [apply most_get_groups|].
      change (length (elements s)) with (size s). apply Nat.mul_le_mono_r. exact Hu.
    - apply most_le with (b := 0); [apply most_ret|lia].
  Qed.
  Lemma most_password : at_most P 2 (generate_password e : prog W _).
  Proof.
    apply most_le with (b := 1 + (1 + 0)); [|lia]. apply most_bindR; [apply most_bytes|]; intros.
    apply most_bindR; [apply most_bytes|]; intros. apply most_ret.
  Qed.
  Lemma identity_bound c : at_most P (id_storage_calls n c * k + id_other_steps n c) (sa_aes e io L c : prog W _).
  Proof.
    unfold sa_aes, sa_do, ret_map.
    destruct c as [scopes|uid pw|uid old|tok uid gids|tok uid gids|tok uid|tok scopes|tok];
      cbn [id_storage_calls id_other_steps]; apply most_then.
    - apply most_le with (b := 1 + (2 + ((3 + k) + 0))); [|lia].
      apply most_bindR; [apply most_v4|]; intros uid. apply most_bindR.
      { apply most_le with (b := 2 + 0); [|lia]. apply most_bindR; [apply most_password|]. intros [? ?]. apply most_ret. }
      intros [u pwd]. apply most_bindR; [apply most_put_user|]; intros _. apply most_ret.
    - apply most_map_err. apply most_le with (b := (k + 1) + (0 + (1 + (3 + (0 + 0))))); [|lia].
      apply most_bindR; [apply most_get_user|]; intros u. apply most_bindR; [apply most_lift|]; intros _.
      apply most_bind; [apply most_new_token|]; intros t. apply most_bindR; [apply most_token_seal|]; intros st.
      apply most_bindR; [apply most_lift|]; intros s. apply most_ret.
    - apply most_le with (b := (k + 1) + (2 + ((3 + k) + 0))); [|lia].
      apply most_bindR; [apply most_map_err, most_get_user|]; intros u. apply most_bindR.
      { apply most_map_err. apply most_le with (b := 0 + (2 + 0)); [|lia].
        apply most_bindR; [apply most_lift|]; intros _. apply most_bindR; [apply most_password|]. intros [? ?]. apply most_ret. }
      intros [u' pwd]. apply most_bindR; [apply most_put_user|]; intros _. apply most_ret.
    - apply most_le with (b := ((1 + n) * k + (3 + n)) + ((k + 1) + (0 + (3 + k)))); [|lia].
      apply most_bindR; [apply most_identity|]; intros i. destruct (negb (member_of_all i gids)); [apply most_ret|].
      apply most_bindR; [apply most_get_user|]; intros u. apply most_bindR; [apply most_lift|]; intros g. apply most_put_user.
    - apply most_le with (b := ((1 + n) * k + (3 + n)) + ((k + 1) + (3 + k))); [|lia].
      apply most_bindR; [apply most_identity|]; intros i. destruct (negb (member_of_all i gids)); [apply most_ret|].
      apply most_bindR; [apply most_get_user|]; intros u. apply most_put_user.
    - apply most_le with (b := ((1 + n) * k + (3 + n)) + k); [|lia].
      apply most_bindR; [apply most_identity|]; intros i. apply most_delete.
    - apply most_le with (b := ((1 + n) * k + (3 + n)) + (1 + ((3 + k) + ((k + 1) + (0 + ((3 + k) + 0)))))); [|lia].
      apply most_bindR; [apply most_identity|]; intros i. apply most_bindR; [apply most_v4|]; intros gid.
      apply most_bindR; [apply most_put_group|]; intros _. apply most_bindR; [apply most_get_user|]; intros u.
      apply most_bindR; [apply most_lift|]; intros g. apply most_bindR; [apply most_put_user|]; intros _. apply most_ret.
    - apply most_identity.
  Qed.
End Calls.

(** ** The two storages *)
Lemma mem_prompt : prompt 2 Mem.
Proof.
  intros id dt d. repeat split; cbn [io_put io_get io_update io_delete Mem].
  - apply most_le with (b := 1 + 1); [|lia]. apply most_bind; [apply most_act|]. intros [?|]; [apply most_ret|].
    apply most_le with (b := 1 + 0); [|lia]. apply most_bind; [apply most_act|]. intros. apply most_ret.
  - apply most_le with (b := 1 + 0); [|lia]. apply most_bind; [apply most_act|]. intros [?|]; apply most_ret.
  - apply most_le with (b := 1 + 1); [|lia]. apply most_bind; [apply most_act|]. intros [?|]; [|apply most_ret].
    apply most_le with (b := 1 + 0); [|lia]. apply most_bind; [apply most_act|]. intros. apply most_ret.
  - apply most_le with (b := 1 + 0); [|lia]. apply most_bind; [apply most_act|]. intros. apply most_ret.
Qed.
Lemma bolt_prompt : prompt 1 Bolt.
Proof. intros id dt d. repeat split; apply most_act. Qed.

(** ** The assembled library *)
Lemma assembled_bound {S I} (e : env) (P : world S I -> Prop) k io (IO : prompt k io) d L n (G : groups_at_most e io L P n) c :
  at_most P (((1 + n) + storage_calls c) * k + ((3 + n) + other_steps c)) (d1_aes e io (sa_idp e io L) d c).
Proof.
  apply most_le with (b := ((1 + n) * k + (3 + n)) + storage_calls c * k + other_steps c); [|lia].
  apply object_bound; [exact IO|]. intros tok _. apply most_identity; assumption.
Qed.
