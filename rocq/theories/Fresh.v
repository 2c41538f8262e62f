(** Every draw from the random source is put to one use. *)
From Coq Require Import ZifyN ZifyNat.
From stdpp Require Import gmap.
From Verif Require Import Bytes Go Uuid UuidProofs Base64 Base64Proofs Json Time Types World Logic Sched Gcm Kwp Cryptor CryptorProofs CryptoFacts Id Data D1 Password Standalone StandaloneSpec Index IndexSpec IndexConcSpec IdAuthority Authority Lib FreshSpec.
Local Open Scope bool_scope.
Local Open Scope N_scope.

Section Tidy.
  Context {S I : Type} (e : env).
  Notation W := (world S I).

  (** [H]: the draws the program has made and not yet used.  At the end, [Q] of some of those and the result. *)
  Fixpoint tidy {A} (H : list nat) (p : prog W A) (Q : list nat -> A -> Prop) : Prop :=
    match p with
    | Ret a => exists l, l ⊆+ H /\ Q l a
    | Step f k => forall w, let x := fst (f w) in let w' := snd (f w) in
        (w_draws w' = w_draws w /\ w_log w' = w_log w /\ tidy H (k x) Q) \/
        (w_draws w' = Datatypes.S (w_draws w) /\ w_log w' = w_log w /\ tidy (w_draws w :: H) (k x) Q) \/
        (exists i j l y, H ≡ₚ i :: j :: l /\ w_draws w' = w_draws w /\ w_log w' = y :: w_log w /\ made_from e (i, j) y /\ tidy l (k x) Q)
    end.
  Lemma tidy_more {A} (p : prog W A) Q : forall H H', H ⊆+ H' -> tidy H p Q -> tidy H' p Q.
  Proof.
    induction p as [a|X f k IH]; intros H H' HH; cbn [tidy].
    - intros (l & A1 & A2). exists l. split; [etrans; eauto|exact A2].
    - intros T w. destruct (T w) as [(A1 & A2 & A3)|[(A1 & A2 & A3)|(i & j & l & y & A1 & A2 & A3 & A4 & A5)]]; cbn zeta.
      + left. eauto.
      + right; left. split; [exact A1|]. split; [exact A2|]. eapply IH; [|exact A3]. now apply submseteq_skip.
      + right; right. apply submseteq_Permutation in HH as [k' E]. exists i, j, (l ++ k'), y. split; [rewrite E, A1; reflexivity|].
        split; [exact A2|]. split; [exact A3|]. split; [exact A4|]. eapply IH; [|exact A5]. apply submseteq_inserts_r. reflexivity.
  Qed.
  Lemma tidy_mono {A} (p : prog W A) (Q Q' : list nat -> A -> Prop) : (forall l a, Q l a -> Q' l a) -> forall H, tidy H p Q -> tidy H p Q'.
  Proof.
    intros HQ. induction p as [a|X f k IH]; intros H; cbn [tidy].
    - intros (l & A1 & A2). eauto.
    - intros T w. destruct (T w) as [(A1 & A2 & A3)|[(A1 & A2 & A3)|(i & j & l & y & A1 & A2 & A3 & A4 & A5)]]; cbn zeta.
      + left. auto.
      + right; left. auto.
      + right; right. exists i, j, l, y. auto 10.
  Qed.
  Lemma tidy_frame {A} F (p : prog W A) Q : forall H, tidy H p Q -> tidy (F ++ H) p (fun l a => exists l', l = F ++ l' /\ Q l' a).
  Proof.
    induction p as [a|X f k IH]; intros H; cbn [tidy].
    - intros (l & A1 & A2). exists (F ++ l). split; [now apply submseteq_skips_l|eauto].
    - intros T w. destruct (T w) as [(A1 & A2 & A3)|[(A1 & A2 & A3)|(i & j & l & y & A1 & A2 & A3 & A4 & A5)]]; cbn zeta.
      + left. auto.
      + right; left. split; [exact A1|]. split; [exact A2|]. eapply tidy_more; [|apply IH, A3]. rewrite Permutation_middle. reflexivity.
      + right; right. exists i, j, (F ++ l), y. split; [rewrite A1, !Permutation_middle; reflexivity|]. auto 10.
  Qed.
  Lemma tidy_bind {A B} (p : prog W A) (k : A -> prog W B) Q R : forall H, tidy H p Q -> (forall l a, Q l a -> tidy l (k a) R) -> tidy H (bind p k) R.
  Proof.
    induction p as [a|X f c IH]; intros H; cbn [tidy bind].
    - intros (l & A1 & A2) Hk. eapply tidy_more; [exact A1|]. auto.
    - intros T Hk w. destruct (T w) as [(A1 & A2 & A3)|[(A1 & A2 & A3)|(i & j & l & y & A1 & A2 & A3 & A4 & A5)]]; cbn zeta.
      + left. auto.
      + right; left. auto.
      + right; right. exists i, j, l, y. auto 10.
  Qed.

  (** Programs whose result is made of no draws. *)
  Definition plain {A} (p : prog W A) : Prop := tidy [] p (fun l _ => l = []).
  Lemma tidy_plain {A B} F (p : prog W A) (k : A -> prog W B) R : plain p -> (forall a, tidy F (k a) R) -> tidy F (bind p k) R.
  Proof.
    intros Hp Hk. rewrite <- (app_nil_r F). eapply tidy_bind; [apply tidy_frame, Hp|]. intros l a (l' & -> & ->). rewrite app_nil_r. apply Hk.
  Qed.
  (** A result that is an error is made of no draws. *)
  Definition or_err {A} (Q : list nat -> A -> Prop) (l : list nat) (r : res A) : Prop := match r with Ok a => Q l a | _ => l = [] end.
  Lemma tidy_err {A} F (Q : list nat -> A -> Prop) x : tidy F (Ret (Err x) : prog W (res A)) (or_err Q).
  Proof. exists []. split; [apply submseteq_nil_l|reflexivity]. Qed.
  Lemma tidy_panic {A} F (Q : list nat -> A -> Prop) : tidy F (Ret Panic : prog W (res A)) (or_err Q).
  Proof. exists []. split; [apply submseteq_nil_l|reflexivity]. Qed.
  Lemma tidy_plainR {A B} F (p : prog W (res A)) (k : A -> prog W (res B)) Q : plain p -> (forall a, tidy F (k a) (or_err Q)) -> tidy F (bindR p k) (or_err Q).
  Proof. intros Hp Hk. unfold bindR. apply tidy_plain; [exact Hp|]. intros [a|x|]; [apply Hk|apply tidy_err|apply tidy_panic]. Qed.
  Lemma tidy_bindR {A B} F (p : prog W (res A)) (k : A -> prog W (res B)) P Q : tidy [] p (or_err P) ->
    (forall l a, P l a -> tidy (F ++ l) (k a) (or_err Q)) -> tidy F (bindR p k) (or_err Q).
  Proof.
    intros Hp Hk. unfold bindR. rewrite <- (app_nil_r F). eapply tidy_bind; [apply tidy_frame, Hp|]. intros l r (l' & -> & Hr).
    destruct r as [a|x|]; [apply Hk, Hr|apply tidy_err|apply tidy_panic].
  Qed.
  Lemma tidy_get_bytes n : tidy [] (get_bytes e n : prog W _) (or_err (fun l b => exists i, l = [i] /\ draw e i n = Ok b)).
  Proof.
    intros w. right; left. cbn [fst snd set_draws w_draws w_log]. split; [lia|]. split; [reflexivity|].
    cbn [tidy]. destruct (draw e (w_draws w) n) as [b|x|] eqn:E; [exists [w_draws w]|exists []|exists []]; (split; [try reflexivity; apply submseteq_nil_l|cbn [or_err]; eauto]).
  Qed.

  Lemma plain_ret {A} (a : A) : plain (Ret a : prog W A).
  Proof. exists []. auto. Qed.
  Lemma plain_bind {A B} (p : prog W A) (k : A -> prog W B) : plain p -> (forall a, plain (k a)) -> plain (bind p k).
  Proof. intros Hp Hk. now apply tidy_plain. Qed.
  Lemma plain_bindR {A B} (p : prog W (res A)) (k : A -> prog W (res B)) : plain p -> (forall a, plain (k a)) -> plain (bindR p k).
  Proof. intros Hp Hk. apply plain_bind; [exact Hp|]. intros [a|x|]; auto using plain_ret. Qed.
  Lemma plain_forget {A} (p : prog W A) Q : tidy [] p Q -> plain p.
  Proof.
    intros H. assert (G : forall H0, tidy H0 p Q -> tidy H0 p (fun l _ => l = [])); [|exact (G _ H)]. clear H.
    induction p as [a|X f k IH]; intros H; cbn [tidy].
    - intros _. exists []. split; [apply submseteq_nil_l|reflexivity].
    - intros T w. destruct (T w) as [(A1 & A2 & A3)|[(A1 & A2 & A3)|(i & j & l & y & A1 & A2 & A3 & A4 & A5)]]; cbn zeta.
      + left. auto.
      + right; left. auto.
      + right; right. exists i, j, l, y. auto 10.
  Qed.
  Lemma plain_map_err {A} f (p : prog W (res A)) : plain p -> plain (map_err f p).
  Proof. intros H. unfold map_err. apply plain_bind; [exact H|]. intros; apply plain_ret. Qed.
  Lemma plain_lift {A} (r : res A) : plain (lift r : prog W (res A)).
  Proof. apply plain_ret. Qed.
  Lemma plain_act {X} (f : W -> X * W) : (forall w, w_draws (snd (f w)) = w_draws w /\ w_log (snd (f w)) = w_log w) -> plain (act f).
  Proof. intros H w. left. destruct (H w). split; [assumption|]. split; [assumption|]. apply plain_ret. Qed.
  Lemma plain_time : plain (time_now e : prog W _).
  Proof. apply plain_act. auto. Qed.
  Lemma plain_io {A} (p : prog S A) : plain (on_io p : prog W A).
  Proof. induction p as [a|X f k IH]; cbn [on_io]; [apply plain_ret|]. intros w. left. destruct (f (w_io w)) as [x s] eqn:E. cbn zeta. rewrite ?E. cbn [fst snd set_io w_draws w_log]. split; [reflexivity|]. split; [reflexivity|]. apply IH. Qed.
  Lemma plain_dec kek aad wk ct : plain (aes_dec kek aad wk ct : prog W _).
  Proof. apply plain_act. intros w. cbn [snd]. destruct (_ && _); auto. Qed.
  Lemma plain_decrypt_json {A} kek (dec : json -> option A) a wk ct : plain (decrypt_json (aes_cryptor e kek) dec a wk ct : prog W _).
  Proof. unfold decrypt_json. apply plain_bindR; [apply plain_dec|intros pt]. destruct (unmarshal dec pt); apply plain_ret. Qed.
  (** Encryption uses its two draws and no others. *)
  Lemma plain_enc kek pt aad : plain (aes_enc e kek pt aad : prog W _).
  Proof.
    apply (plain_forget _ (or_err (fun _ _ => True))). unfold aes_enc. eapply tidy_bindR; [apply tidy_get_bytes|]. intros l key (i & -> & Hi).
    eapply tidy_bindR; [apply tidy_get_bytes|]. intros l nonce (j & -> & Hj). cbn [app].
    unfold lift. cbn [bindR bind]. destruct (aes_gcm_encrypt pt aad key nonce) as [ct|x|] eqn:E1; [|apply tidy_err|apply tidy_panic].
    cbn [bind]. destruct (aes_kwp_wrap kek key) as [wk|x|] eqn:E2; [|apply tidy_err|apply tidy_panic].
    intros w. right; right. exists i, j, [], (mkEntry kek aad wk ct pt). split; [reflexivity|]. split; [reflexivity|]. split; [reflexivity|].
    split; [exists key, nonce; auto|]. exists []. split; [reflexivity|exact Logic.I].
  Qed.
  Lemma plain_encrypt_json kek a b : plain (encrypt_json (aes_cryptor e kek) a b : prog W _).
  Proof. apply plain_enc. Qed.
  Lemma tidy_new_v4 : tidy [] (new_v4 e : prog W _) (or_err (fun l u => exists n, l = [n] /\ id_from e n u)).
  Proof.
    unfold new_v4. eapply tidy_bindR; [apply tidy_get_bytes|]. intros l b (n & -> & Hn). exists [n]. split; [reflexivity|]. exists n. split; [reflexivity|]. exists b. auto.
  Qed.
  Lemma tidy_password : tidy [] (generate_password e : prog W _) (or_err (fun l pr => exists n, l = [n] /\ password_from e n (fst pr))).
  Proof.
    unfold generate_password. eapply tidy_bindR; [apply tidy_get_bytes|]. intros l b (n & -> & Hn). cbn [app].
    eapply tidy_bindR; [apply tidy_get_bytes|]. intros l b' (m & -> & Hm). cbn [app]. exists [n]. split; [apply submseteq_skip, submseteq_nil_l|].
    exists n. split; [reflexivity|]. exists b. split; [exact Hn|reflexivity].
  Qed.
End Tidy.

(** ** Standalone *)
Section Sa.
  Context {S I : Type} (e : env) (io : provider S) (k : sa_keys).
  Notation W := (world S I).
  Notation uc := (aes_cryptor e (s_uek k)).
  Notation gc := (aes_cryptor e (s_gek k)).
  Notation tc := (aes_cryptor e (s_tek k)).
  Notation ft := (plain e).
  Lemma plain_get_user uid : ft (get_user io uc uid : prog W _).
  Proof.
    unfold get_user. apply plain_bindR; [apply plain_map_err, plain_io|intros b]. destruct (unmarshal dec_sealed_user b); [|apply plain_ret]. apply plain_decrypt_json.
  Qed.
  Lemma plain_get_groups gids : forall acc, ft (get_groups io gc gids acc : prog W _).
  Proof.
    induction gids as [|g gids IH]; intros acc; cbn [get_groups]; [apply plain_ret|].
    apply plain_bindR; [|intros; apply IH]. unfold get_group. apply plain_bindR; [apply plain_map_err, plain_io|intros b].
    destruct (unmarshal dec_sealed_group b); [|apply plain_ret]. apply plain_decrypt_json.
  Qed.
  Lemma plain_identity tok : ft (sa_get_identity e io uc gc tc tok : prog W _).
  Proof.
    unfold sa_get_identity, any_err. apply plain_bindR; [apply plain_map_err, plain_lift|intros st].
    apply plain_bindR; [apply plain_map_err; unfold token_unseal|intros t].
    - apply plain_bind; [apply plain_time|intros now]. destruct (time_before _ _); [apply plain_ret|]. destruct (enc_time _); [|apply plain_ret].
      apply plain_bindR; [apply plain_decrypt_json|intros; apply plain_ret].
    - apply plain_bindR; [apply plain_get_user|intros u]. apply plain_bindR; [apply plain_get_groups|intros; apply plain_ret].
  Qed.
  Lemma plain_put_user uid u b : ft (put_user io uc uid u b : prog W _).
  Proof.
    unfold put_user, user_seal. apply plain_bindR; [apply plain_bindR; [apply plain_encrypt_json|intros [? ?]; apply plain_ret]|intros su].
    destruct b; apply plain_map_err, plain_io.
  Qed.
  Lemma plain_put_group gid g : ft (put_group io gc gid g : prog W _).
  Proof.
    unfold put_group, group_seal. apply plain_bindR; [apply plain_bindR; [apply plain_encrypt_json|intros [? ?]; apply plain_ret]|intros sg].
    apply plain_map_err, plain_io.
  Qed.
  Definition sa_from (l : list nat) (r : sa_reply) : Prop := reply_from e l (LIdentity (Ok r)).
  Lemma tidy_map {A} (f : A -> sa_reply) F (p : prog W (res A)) : tidy e F p (or_err (fun l a => sa_from l (f a))) -> tidy e F (ret_map f p) (or_err sa_from).
  Proof.
    intros H. unfold ret_map. eapply tidy_bind; [exact H|]. intros l [a|x|] Hr; [exists l; split; [reflexivity|exact Hr]|apply tidy_err|apply tidy_panic].
  Qed.
  Lemma plain_map {A} (f : A -> sa_reply) (p : prog W (res A)) : (forall a, sa_from [] (f a)) -> ft p -> tidy e [] (ret_map f p) (or_err sa_from).
  Proof.
    intros Hf H. apply tidy_map. eapply tidy_mono; [|exact H]. intros l [a|x|] ->; cbn [or_err]; auto.
  Qed.
  Lemma tidy_any {A} y F (p : prog W (res A)) Q : tidy e F p (or_err Q) -> tidy e F (any_err y p) (or_err Q).
  Proof.
    intros H. unfold any_err, map_err. eapply tidy_bind; [exact H|]. intros l [a|x|] Hr; [exists l; split; [reflexivity|exact Hr]|apply tidy_err|apply tidy_panic].
  Qed.
  Lemma tidy_sa c : tidy e [] (sa_aes e io k c : prog W _) (or_err sa_from).
  Proof.
    pose proof plain_identity as GI. pose proof plain_get_user as GU.
    unfold sa_aes. destruct c; cbn [sa_do]; try (apply plain_map; [reflexivity|]).
    - apply tidy_map. unfold sa_new_user, new_user. eapply tidy_bindR; [apply tidy_new_v4|]. intros l u (n & -> & Hn). cbn [app].
      eapply tidy_bindR; [eapply (tidy_bindR e [] _ _ _ (fun l q => exists n, l = [n] /\ password_from e n (snd q))); [apply tidy_password|]|].
      + intros l [p r] (m & -> & Hm). exists [m]. split; [reflexivity|]. exists m. auto.
      + intros l [q p] (m & -> & Hm). cbn [app]. apply tidy_plainR; [apply plain_put_user|intros _]. exists [n; m]. split; [reflexivity|].
        exists n, m, u. cbn. auto.
    - unfold sa_login, any_err. apply plain_map_err, plain_bindR; [apply GU|intros]. apply plain_bindR; [apply plain_lift|intros].
      apply plain_bind; [unfold new_token; apply plain_bind; [apply plain_time|intros; apply plain_ret]|intros t].
      apply plain_bindR; [unfold token_seal; destruct (enc_time _); [|apply plain_ret]; apply plain_bindR; [apply plain_encrypt_json|intros [? ?]; apply plain_ret]|intros].
      apply plain_bindR; [apply plain_lift|intros; apply plain_ret].
    - apply tidy_map. unfold sa_change_password, change_password. apply tidy_plainR; [apply plain_map_err, GU|intros u].
      eapply (tidy_bindR e [] _ _ (fun l q => exists n, l = [n] /\ password_from e n (snd q))).
      + apply tidy_any. apply tidy_plainR; [apply plain_lift|intros _]. eapply tidy_bindR; [apply tidy_password|]. intros l [p r] (m & -> & Hm).
        exists [m]. split; [reflexivity|]. exists m. auto.
      + intros l [q p] (m & -> & Hm). cbn [app]. apply tidy_plainR; [apply plain_put_user|intros _]. exists [m]. split; [reflexivity|]. exists m. auto.
    - unfold sa_add_user. apply plain_bindR; [apply GI|intros]. destruct (negb _); [apply plain_ret|]. apply plain_bindR; [apply GU|intros].
      apply plain_bindR; [apply plain_lift|intros]. apply plain_put_user.
    - unfold sa_remove_user. apply plain_bindR; [apply GI|intros]. destruct (negb _); [apply plain_ret|]. apply plain_bindR; [apply GU|intros]. apply plain_put_user.
    - unfold sa_delete_user. apply plain_bindR; [apply GI|intros]. apply plain_io.
    - apply tidy_map. unfold sa_new_group. apply tidy_plainR; [apply GI|intros i]. eapply tidy_bindR; [apply tidy_new_v4|]. intros l u (n & -> & Hn). cbn [app].
      apply tidy_plainR; [apply plain_put_group|intros _]. apply tidy_plainR; [apply GU|intros a]. apply tidy_plainR; [apply plain_lift|intros gs].
      apply tidy_plainR; [apply plain_put_user|intros _]. exists [n]. split; [reflexivity|]. exists n, u. auto.
    - apply GI.
  Qed.
End Sa.

(** ** D1 *)
Section D1.
  Context {S I : Type} (e : env) (io : provider S).
  Notation W := (world S I).
  Context (idp : bytes -> prog W (res identity)) (d : d1).
  Notation fd := (plain e).
  Hypothesis Hidp : forall tok, fd (idp tok).
  Definition d1_from (l : list nat) (r : d1_reply) : Prop := reply_from e l (LObject (Ok r)).
  Lemma tidy_d1_map {A} (f : A -> d1_reply) F (p : prog W (res A)) : tidy e F p (or_err (fun l a => d1_from l (f a))) -> tidy e F (ret_map f p) (or_err d1_from).
  Proof.
    intros H. unfold ret_map. eapply tidy_bind; [exact H|]. intros l [a|x|] Hr; [exists l; split; [reflexivity|exact Hr]|apply tidy_err|apply tidy_panic].
  Qed.
  Lemma plain_d1_map {A} (f : A -> d1_reply) (p : prog W (res A)) : (forall a, d1_from [] (f a)) -> fd p -> tidy e [] (ret_map f p) (or_err d1_from).
  Proof. intros Hf H. apply tidy_d1_map. eapply tidy_mono; [|exact H]. intros l [a|x|] ->; cbn [or_err]; auto. Qed.
  Lemma tidy_d1 c : tidy e [] (d1_aes e io idp d c) (or_err d1_from).
  Proof.
    assert (HV : forall tok need, fd (verify_access idp tok need)).
    { intros. unfold verify_access. apply plain_bind; [apply Hidp|]. intros [i|x|]; try apply plain_ret. destruct (scope_contains _ _); apply plain_ret. }
    assert (HGA : forall oid, fd (get_sealed_access io oid : prog W _)).
    { intros. unfold get_sealed_access. apply plain_bindR; [apply plain_map_err, plain_io|]. intros b. destruct (unmarshal _ _); apply plain_ret. }
    assert (HGO : forall oid, fd (get_sealed_object io oid : prog W _)).
    { intros. unfold get_sealed_object. apply plain_bindR; [apply plain_map_err, plain_io|]. intros b. destruct (unmarshal _ _); apply plain_ret. }
    assert (HAZ : forall i need sa, fd (authorize_access (aes_cryptor e (d_aek d)) i need sa : prog W _)).
    { intros. unfold authorize_access, access_unseal. apply plain_bindR; [apply plain_decrypt_json|]. intros a. destruct (authorized _ _ _); apply plain_ret. }
    assert (HOS : forall o oid, fd (object_seal (aes_cryptor e (d_kek d)) o oid : prog W _)).
    { intros. unfold object_seal. apply plain_bindR; [apply plain_encrypt_json|]. intros [wk ct]. apply plain_ret. }
    assert (HAS : forall a oid, fd (access_seal (aes_cryptor e (d_aek d)) a oid : prog W _)).
    { intros. unfold access_seal. apply plain_bindR; [apply plain_encrypt_json|]. intros [wk ct]. apply plain_ret. }
    assert (HPO : forall so u, fd (put_sealed_object io so u : prog W _)) by (intros so []; apply plain_map_err, plain_io).
    assert (HPA : forall so u, fd (put_sealed_access io so u : prog W _)) by (intros so []; apply plain_map_err, plain_io).
    unfold d1_aes. destruct c; cbn [d1_do]; try (apply plain_d1_map; [reflexivity|]).
    - apply tidy_d1_map. unfold d1_encrypt. apply tidy_plainR; [apply HV|intros i]. eapply tidy_bindR; [apply tidy_new_v4|]. intros l oid (n & -> & Hn). cbn [app].
      apply tidy_plainR; [apply HOS|intros [dek so]]. apply tidy_plainR; [apply plain_lift|intros gs]. apply tidy_plainR; [apply HAS|intros sa].
      apply tidy_plainR; [apply HPO|intros _]. apply tidy_plainR; [apply HPA|intros _]. exists [n]. split; [reflexivity|]. exists n. auto.
    - unfold d1_update. apply plain_bindR; [apply HV|intros i]. apply plain_bindR; [apply HGA|intros sa]. apply plain_bindR; [apply HAZ|intros a].
      apply plain_bindR; [apply HOS|intros [dek so]]. apply plain_bindR; [apply HAS|intros sa'].
      apply plain_bindR; [apply HPO|intros _]. apply plain_bindR; [apply HPA|intros _]. apply plain_ret.
    - unfold d1_decrypt. apply plain_bindR; [apply HV|intros i]. apply plain_bindR; [apply HGA|intros sa]. apply plain_bindR; [apply HAZ|intros a].
      apply plain_bindR; [apply HGO|intros so]. unfold object_unseal. apply plain_bindR; [apply plain_decrypt_json|intros; apply plain_ret].
    - unfold d1_delete. apply plain_bindR; [apply HV|intros i]. apply plain_bind; [apply HGA|intros [sa|x|]]; [|destruct x; apply plain_ret|apply plain_ret].
      apply plain_bindR; [apply HAZ|intros a]. apply plain_bindR; [apply plain_io|intros _]. apply plain_bindR; [apply plain_io|intros _]. apply plain_ret.
    - unfold d1_get_access_groups. apply plain_bindR; [apply HV|intros i]. apply plain_bindR; [apply HGA|intros sa]. apply plain_bindR; [apply HAZ|intros a]. apply plain_ret.
    - unfold d1_add_groups. apply plain_bindR; [apply HV|intros i]. apply plain_bindR; [apply HGA|intros sa]. apply plain_bindR; [apply HAZ|intros a].
      apply plain_bindR; [apply plain_lift|intros gs]. apply plain_bindR; [apply HAS|intros sa']. apply HPA.
    - unfold d1_remove_groups. apply plain_bindR; [apply HV|intros i]. apply plain_bindR; [apply HGA|intros sa]. apply plain_bindR; [apply HAZ|intros a].
      apply plain_bindR; [apply HAS|intros sa']. apply HPA.
    - unfold d1_authorize. apply plain_bindR; [apply HV|intros i]. apply plain_bindR; [apply HGA|intros sa]. apply plain_bindR; [apply HAZ|intros a]. apply plain_ret.
    - unfold d1_create_token, new_token, token_seal. apply plain_bind; [apply plain_bind; [apply plain_time|intros; apply plain_ret]|intros t].
      destruct (enc_time _); [|apply plain_ret]. apply plain_bindR; [apply plain_encrypt_json|intros [wk ct]; apply plain_ret].
    - unfold d1_get_token_contents, token_unseal. apply plain_bindR; [|intros; apply plain_ret]. apply plain_bind; [apply plain_time|intros now].
      destruct (time_before _ _); [apply plain_ret|]. destruct (enc_time _); [|apply plain_ret]. apply plain_bindR; [apply plain_decrypt_json|intros; apply plain_ret].
  Qed.
End D1.

(** ** Index *)
Section Ix.
  Context {S I : Type} (e : env) (io : provider S).
  Notation W := (world S I).
  Context (idp : bytes -> prog W (res identity)) (iek : bytes) (fuel : nat).
  Notation fi := (plain e).
  Hypothesis Hidp : forall tok, fi (idp tok).
  Lemma plain_get_next tk kek cur : fi (get_next_node e io tk kek cur : prog W _).
  Proof.
    unfold get_next_node. apply plain_bindR; [apply plain_lift|intros l]. apply plain_bindR; [|intros sn; apply plain_decrypt_json].
    unfold get_sealed_node. apply plain_bindR; [apply plain_map_err, plain_io|intros b]. destruct (unmarshal _ b); apply plain_ret.
  Qed.
  Lemma plain_get_last tk kek n : forall cur, fi (get_last_node e io tk kek n cur : prog W _).
  Proof.
    induction n as [|n IH]; intros cur; [apply plain_ret|]. cbn [get_last_node]. apply plain_bind; [apply plain_get_next|].
    intros [nx|x|]; [apply IH|destruct x; apply plain_ret|apply plain_ret].
  Qed.
  Lemma plain_search tk kek n : forall cur found, fi (search_loop e io tk kek n cur found : prog W _).
  Proof.
    induction n as [|n IH]; intros cur found; [apply plain_ret|]. cbn [search_loop]. apply plain_bind; [apply plain_get_next|].
    intros [nx|x|]; [apply IH|destruct x; apply plain_ret|apply plain_ret].
  Qed.
  Lemma plain_seal kek n l : fi (node_seal (aes_cryptor e kek) n l : prog W _).
  Proof. unfold node_seal. apply plain_bindR; [apply plain_encrypt_json|]. intros [wk ct]. apply plain_ret. Qed.
  Lemma plain_put_node l sn u : fi (put_sealed_node io l sn u : prog W _).
  Proof. unfold put_sealed_node. destruct u; apply plain_map_err, plain_io. Qed.
  Lemma plain_delete_node tk kek l n : fi (delete_node e io tk kek l n : prog W _).
  Proof.
    unfold delete_node. apply plain_bind; [apply plain_get_next|].
    assert (HD : forall l, fi (delete_sealed_node io l : prog W _)) by (intros; apply plain_io).
    intros [nx|x|]; [|destruct x; first [apply HD|apply plain_ret]|apply plain_ret].
    apply plain_bindR; [apply plain_seal|intros sn]. apply plain_bindR; [apply plain_put_node|intros _].
    apply plain_bindR; [apply plain_lift|intros l']. apply HD.
  Qed.
  Lemma plain_delete_loop tk kek n y : forall cur, fi (delete_loop e io tk kek n cur y : prog W _).
  Proof.
    induction n as [|n IH]; intros cur; [apply plain_ret|]. cbn [delete_loop]. apply plain_bind; [apply plain_get_next|].
    intros [nx|x|]; [|destruct x; apply plain_ret|apply plain_ret].
    destruct (bytes_eqb _ _); [|apply IH]. apply plain_bindR; [apply plain_lift|intros l].
    apply plain_bindR; [apply plain_delete_node|intros _; apply IH].
  Qed.
  Lemma plain_ix c : fi (ix_do e io idp iek fuel c).
  Proof.
    assert (HV : forall tok, fi (ix_verify idp tok)).
    { intros. unfold ix_verify. apply plain_bind; [apply Hidp|]. intros [i|x|]; [|apply plain_ret..]. destruct (scope_contains _ _); apply plain_ret. }
    assert (M : forall A (f : A -> ix_reply) (p : prog W (res A)), fi p -> fi (ret_map f p)) by (intros A f p H; apply plain_bind; [exact H|intros; apply plain_ret]).
    destruct c as [tok kw y|tok kw|tok kw y]; cbn [ix_do ix_keyword] in *; apply M.
    - unfold ix_add. apply plain_bindR; [apply HV|intros _]. apply plain_bindR; [apply plain_lift|intros [tk kek]].
      apply plain_bindR; [apply plain_get_last|intros last]. apply plain_bindR; [apply plain_lift|intros l].
      apply plain_bindR; [apply plain_seal|intros sn]. apply plain_put_node.
    - unfold ix_search. apply plain_bindR; [apply HV|intros _]. apply plain_bindR; [apply plain_lift|intros [tk kek]]. apply plain_search.
    - unfold ix_delete. apply plain_bindR; [apply HV|intros _]. apply plain_bindR; [apply plain_lift|intros [tk kek]]. apply plain_delete_loop.
  Qed.
End Ix.

(** ** All of them at once *)
Section Pool.
  Context {S I : Type} (e : env) (K : bytes -> Prop) (w0 : world S I).
  Notation W := (world S I).
  Definition fresh_inv (pool : list (prog W lib_reply)) (w : W) : Prop :=
    exists own others ns Hs, w_log w ≡ₚ own ++ others ++ w_log w0 /\ Forall (fun x => ~ K (e_kek x)) others /\
      Forall2 (made_from e) ns own /\ Forall2 (fun H p => tidy e H p (reply_from e)) Hs pool /\
      base.NoDup (both ns ++ concat Hs) /\ Forall (fun n => w_draws w0 <= n < w_draws w)%nat (both ns ++ concat Hs) /\ (w_draws w0 <= w_draws w)%nat.
  Lemma concat_insert (Hs : list (list nat)) t H H' : Hs !! t = Some H -> concat (<[t := H']> Hs) ++ H ≡ₚ concat Hs ++ H'.
  Proof.
    intros E. rewrite (Permutation_app_comm _ H), (Permutation_app_comm _ H'). revert t E. induction Hs as [|a Hs IH]; intros [|t] E; cbn in E |- *; try discriminate.
    - injection E as ->. rewrite !app_assoc. now rewrite (Permutation_app_comm H H').
    - rewrite (Permutation_app_swap_app H a), (Permutation_app_swap_app H' a). now rewrite (IH t E).
  Qed.
  Lemma fresh_steps pool w pool' w' : steady K pool w pool' w' -> fresh_inv pool w -> fresh_inv pool' w'.
  Proof.
    intros R. induction R as [pool w|t X f k pool w pool' w' Ht _ IH|pool w w1 pool' w' [(new & Hl & Hn) _] Hd _ IH]; [auto| |].
    - intros (own & others & ns & Hs & L & O & M & T & N & B & D). apply IH. clear IH.
      destruct (Forall2_lookup_r _ _ _ _ _ T Ht) as (H & EH & HT). destruct (HT w) as [(A1 & A2 & A3)|[(A1 & A2 & A3)|(i & j & l & y & A1 & A2 & A3 & A4 & A5)]]; cbn zeta in *.
      + exists own, others, ns, Hs. rewrite A1, A2. split; [exact L|]. split; [exact O|]. split; [exact M|]. split; [|auto].
        rewrite <- (list_insert_id Hs t H EH). now apply Forall2_insert.
      + pose proof (concat_insert Hs t H (w_draws w :: H) EH) as P.
        assert (P' : concat (<[t:=w_draws w :: H]> Hs) ≡ₚ w_draws w :: concat Hs).
        { apply (Permutation_app_inv_r H). rewrite P. now rewrite <- Permutation_middle. }
        exists own, others, ns, (<[t := w_draws w :: H]> Hs). rewrite A1, A2. split; [exact L|]. split; [exact O|]. split; [exact M|]. split; [now apply Forall2_insert|].
        rewrite P', <- Permutation_middle. split; [|split].
        * apply NoDup_cons_2; [|exact N]. intros C. rewrite List.Forall_forall in B. specialize (B _ (proj1 (elem_of_list_In _ _) C)). lia.
        * constructor; [lia|]. eapply List.Forall_impl; [|exact B]. cbn. intros; lia.
        * lia.
      + pose proof (concat_insert Hs t H l EH) as P.
        assert (P' : concat Hs ≡ₚ i :: j :: concat (<[t:=l]> Hs)).
        { apply (Permutation_app_inv_r l). rewrite <- P, A1. rewrite <- !Permutation_middle. reflexivity. }
        assert (P2 : both ((i, j) :: ns) ++ concat (<[t:=l]> Hs) ≡ₚ both ns ++ concat Hs) by (cbn [both flat_map fst snd app]; rewrite P', <- !Permutation_middle; reflexivity).
        exists (y :: own), others, ((i, j) :: ns), (<[t := l]> Hs). rewrite A2, A3. split; [cbn; now rewrite L|]. split; [exact O|]. split; [now constructor|].
        split; [now apply Forall2_insert|]. rewrite P2. auto.
    - intros (own & others & ns & Hs & L & O & M & T & N & B & D). apply IH. exists own, (new ++ others), ns, Hs.
      split; [rewrite Hl, L, !app_assoc; apply Permutation_app_tail; rewrite <- app_assoc; now rewrite (Permutation_app_swap_app new own), app_assoc|].
      split; [apply List.Forall_app; auto|]. split; [exact M|]. split; [exact T|]. split; [exact N|]. split; [|lia]. eapply List.Forall_impl; [|exact B]. cbn. intros; lia.
  Qed.
  Lemma fresh_start pool : Forall (fun p => tidy e [] p (reply_from e)) pool -> fresh_inv pool w0.
  Proof.
    intros H. exists [], [], [], (map (fun _ => []) pool). split; [reflexivity|]. split; [constructor|]. split; [constructor|].
    assert (E : concat (map (fun _ : prog W lib_reply => @nil nat) pool) = []) by (induction pool; cbn; [reflexivity|inversion H; auto]).
    rewrite E. split; [|split; [constructor|split; [constructor|lia]]]. induction H; constructor; auto.
  Qed.
End Pool.

Section Lib.
  Context {S I : Type} (e : env) (io : provider S) (L : lib) (fuel : nat) (ds : list d1_call) (is : list ix_call) (ss : list sa_call).
  Notation W := (world S I).
  Lemma lib_tidy : Forall (fun p => tidy e [] p (reply_from e)) (lib_pool e io L fuel ds is ss : list (prog W _)).
  Proof.
    assert (HI : forall tok, plain e (sa_idp e io (l_sa L) tok : prog W _)) by (intros; apply plain_identity).
    unfold lib_pool. rewrite !List.Forall_app, !List.Forall_map. split; [|split]; apply List.Forall_forall; intros c _.
    - eapply tidy_bind; [apply tidy_d1, HI|]. intros l [r|x|] Hr; exists l; (split; [reflexivity|exact Hr]).
    - eapply tidy_bind; [apply plain_ix, HI|]. intros l r ->. exists []. split; [reflexivity|]. destruct r; reflexivity.
    - eapply tidy_bind; [apply tidy_sa|]. intros l [r|x|] Hr; exists l; (split; [reflexivity|exact Hr]).
  Qed.
End Lib.

(** ** The statements *)
Section Statements.
  Context {S I : Type} (e : env) (io : provider S) (L : lib) (fuel : nat) (ds : list d1_call) (is : list ix_call) (ss : list sa_call).
  Notation W := (world S I).
  Context (w w' : W) (pool' : list (prog W lib_reply)) (run : steady (lib_key L is) (lib_pool e io L fuel ds is ss) w pool' w').
  Lemma one_use : exists own others ns rs,
    w_log w' ≡ₚ own ++ others ++ w_log w /\ Forall (fun x => ~ lib_key L is (e_kek x)) others /\
    Forall2 (made_from e) ns own /\ Forall2 (fun l p => forall r, p = Ret r -> reply_from e l r) rs pool' /\
    base.NoDup (both ns ++ concat rs) /\ Forall (fun n => w_draws w <= n < w_draws w')%nat (both ns ++ concat rs).
  Proof.
    destruct (fresh_steps e (lib_key L is) w _ _ _ _ run (fresh_start e _ w _ (lib_tidy e io L fuel ds is ss))) as (own & others & ns & Hs & A & B & C & T & N & R & _).
    assert (X : exists rs, Forall2 (fun l p => forall r, p = Ret r -> reply_from e l r) rs pool' /\ concat rs ⊆+ concat Hs).
    { clear - T. induction T as [|H p Hs pool HT _ (rs & X1 & X2)]; [exists []; split; [constructor|reflexivity]|].
      destruct p as [r|Y f k]; cbn [tidy] in HT.
      - destruct HT as (l & Y1 & Y2). exists (l :: rs). split; [constructor; [intros r' [= <-]; exact Y2|exact X1]|]. cbn. now apply submseteq_app.
      - exists ([] :: rs). split; [constructor; [intros r' [=]|exact X1]|]. cbn. now apply submseteq_inserts_l. }
    destruct X as (rs & X1 & X2). exists own, others, ns, rs. split; [exact A|]. split; [exact B|]. split; [exact C|]. split; [exact X1|].
    assert (X3 : both ns ++ concat rs ⊆+ both ns ++ concat Hs) by now apply submseteq_skips_l.
    apply submseteq_Permutation in X3 as [z Hz]. rewrite Hz in R, N. apply List.Forall_app in R as [R _]. apply stdpp.list.NoDup_app in N as [N _]. auto.
  Qed.

  Lemma nodup_parts {A} (l : list (list A)) i j x y a : base.NoDup (concat l) -> l !! i = Some x -> l !! j = Some y -> a ∈ x -> a ∈ y -> i = j.
  Proof.
    intros N. revert i j. induction l as [|z l IH]; intros i j Hi Hj Hx Hy; [discriminate|]. cbn in N. apply stdpp.list.NoDup_app in N as (N1 & N2 & N3).
    assert (C : forall n b, l !! n = Some b -> a ∈ b -> a ∈ z -> False).
    { intros n b Hn Hb Hz. apply (N2 a Hz). apply elem_of_list_In, in_concat. exists b. split; apply elem_of_list_In; [eapply elem_of_list_lookup_2; eauto|exact Hb]. }
    destruct i as [|i], j as [|j]; cbn in Hi, Hj; [reflexivity|injection Hi as ->; exfalso; eauto|injection Hj as ->; exfalso; eauto|f_equal; eauto].
  Qed.
  Lemma in_both ns a n : ns !! a = Some n -> fst n ∈ both ns.
  Proof. intros H. apply elem_of_list_In, in_flat_map. exists n. split; [apply elem_of_list_In; eapply elem_of_list_lookup_2; eauto|now left]. Qed.
  Lemma both_concat ns : both ns = concat (map (fun n => [fst n; snd n]) ns).
  Proof. unfold both. apply flat_map_concat_map. Qed.

  Lemma no_key_twice new : w_log w' = new ++ w_log w -> keys_once e (w_draws w) (w_draws w') ->
    forall a b x y, new !! a = Some x -> new !! b = Some y -> lib_key L is (e_kek x) -> lib_key L is (e_kek y) -> a <> b ->
    exists kx ky, aes_kwp_unwrap (e_kek x) (e_wk x) = Ok kx /\ aes_kwp_unwrap (e_kek y) (e_wk y) = Ok ky /\ kx <> ky.
  Proof.
    intros El Ho a b x y Ha Hb Kx Ky Hne. destruct one_use as (own & others & ns & rs & A & B & C & _ & N & R).
    rewrite El in A. rewrite app_assoc in A. apply Permutation_app_inv_r in A. apply Permutation_inj in A as (_ & f & Hf & Hl).
    assert (O : forall c z, new !! c = Some z -> lib_key L is (e_kek z) -> own !! f c = Some z).
    { intros c z Hc Kz. rewrite Hl in Hc. apply lookup_app_Some in Hc as [Hc|[_ Hc]]; [exact Hc|]. rewrite List.Forall_forall in B.
      destruct (B z); [apply elem_of_list_In; eapply elem_of_list_lookup_2; eauto|exact Kz]. }
    assert (M : forall c z, own !! c = Some z -> exists n key, ns !! c = Some n /\ (w_draws w <= fst n < w_draws w')%nat /\ draw e (fst n) 32 = Ok key /\ aes_kwp_unwrap (e_kek z) (e_wk z) = Ok key).
    { intros c z Hc. destruct (Forall2_lookup_r _ _ _ _ _ C Hc) as (n & En & key & nonce & Hk & _ & _ & Hw). exists n, key. split; [exact En|]. split; [|split; [exact Hk|]].
      - rewrite List.Forall_forall in R. apply R. apply in_or_app. left. apply elem_of_list_In. eapply in_both; eauto.
      - pose proof (draw_length e _ _ _ Hk) as Lk. destruct (wrap_roundtrip (e_kek z) key) as (y' & H1 & H2 & _); [lia|]. congruence. }
    destruct (M _ _ (O a x Ha Kx)) as (nx & kx & Nx & Rx & Dx & Ux). destruct (M _ _ (O b y Hb Ky)) as (ny & ky & Ny & Ry & Dy & Uy).
    exists kx, ky. split; [exact Ux|]. split; [exact Uy|]. intros ->. pose proof (Ho _ _ _ Rx Ry Dx Dy) as E.
    apply stdpp.list.NoDup_app in N as (N & _). rewrite both_concat in N. apply Hne, Hf.
    assert (P : forall c n, ns !! c = Some n -> map (fun n => [fst n; snd n]) ns !! c = Some [fst n; snd n]) by (intros c n Hn; now rewrite list_lookup_fmap, Hn).
    eapply (nodup_parts _ _ _ _ _ (fst nx) N (P _ _ Nx) (P _ _ Ny)); [left|rewrite E; left].
  Qed.

  Lemma reply_draws t r : pool' !! t = Some (Ret r) -> forall rs, Forall2 (fun l p => forall r, p = Ret r -> reply_from e l r) rs pool' ->
    exists l, rs !! t = Some l /\ reply_from e l r.
  Proof. intros Ht rs H. destruct (Forall2_lookup_r _ _ _ _ _ H Ht) as (l & El & Hl). exists l. auto. Qed.
  Lemma ids_differ_all : ids_once e (w_draws w) (w_draws w') -> forall t t' r r' x, pool' !! t = Some (Ret r) -> pool' !! t' = Some (Ret r') ->
    new_id r = Some x -> new_id r' = Some x -> t = t'.
  Proof.
    intros Ho t t' r r' x Ht Ht' Hx Hx'. destruct one_use as (_ & _ & ns & rs & _ & _ & _ & C & N & R).
    destruct (reply_draws t r Ht rs C) as (l & El & Hl). destruct (reply_draws t' r' Ht' rs C) as (l' & El' & Hl').
    assert (G : forall l r, reply_from e l r -> new_id r = Some x -> exists n u, n ∈ l /\ id_from e n u /\ uuid_wf u /\ x = uuid_text u).
    { clear. assert (Wf : forall n u, id_from e n u -> uuid_wf u) by (intros n u (b & Hb & ->); apply uuid_v4_wf; apply draw_length in Hb; unfold blen in Hb; lia).
      intros l r Hr Hx. destruct r as [[[]| |]|r|[[]| |]]; cbn in Hr, Hx; try discriminate; injection Hx as <-.
      - destruct Hr as (n & -> & Hn). exists n, oid. split; [left|]. eauto.
      - destruct Hr as (n & m & u & -> & Hn & -> & _). exists n, u. split; [left|]. eauto.
      - destruct Hr as (n & u & -> & Hn & ->). exists n, u. split; [left|]. eauto. }
    destruct (G l r Hl Hx) as (n & u & In1 & H1 & W1 & E1). destruct (G l' r' Hl' Hx') as (m & u' & In2 & H2 & W2 & E2).
    assert (u = u') as <- by (apply uuid_text_inj; congruence). rewrite List.Forall_forall in R.
    assert (Q : forall k l0 c, rs !! k = Some l0 -> c ∈ l0 -> (w_draws w <= c < w_draws w')%nat).
    { intros k l0 c Hk Hc. apply R, in_or_app. right. apply in_concat. exists l0. split; apply elem_of_list_In; [eapply elem_of_list_lookup_2; eauto|exact Hc]. }
    assert (n = m) as <- by (eapply Ho; eauto). apply stdpp.list.NoDup_app in N as (_ & _ & N). eapply nodup_parts; eauto.
  Qed.
  Lemma passwords_differ_all : keys_once e (w_draws w) (w_draws w') -> forall t t' r r' x, pool' !! t = Some (Ret r) -> pool' !! t' = Some (Ret r') ->
    new_password r = Some x -> new_password r' = Some x -> t = t'.
  Proof.
    intros Ho t t' r r' x Ht Ht' Hx Hx'. destruct one_use as (_ & _ & ns & rs & _ & _ & _ & C & N & R).
    destruct (reply_draws t r Ht rs C) as (l & El & Hl). destruct (reply_draws t' r' Ht' rs C) as (l' & El' & Hl').
    assert (G : forall l r, reply_from e l r -> new_password r = Some x -> exists n b, n ∈ l /\ draw e n 32 = Ok b /\ x = b64url_encode b).
    { clear. intros l r Hr Hx. destruct r as [[[]| |]|r|[[]| |]]; cbn in Hr, Hx; try discriminate; injection Hx as <-.
      - destruct Hr as (n & m & u & -> & _ & _ & b & Hb & ->). exists m, b. split; [right; left|]. auto.
      - destruct Hr as (m & -> & b & Hb & ->). exists m, b. split; [left|]. auto. }
    destruct (G l r Hl Hx) as (n & b & In1 & H1 & E1). destruct (G l' r' Hl' Hx') as (m & b' & In2 & H2 & E2).
    assert (b = b') as <- by (apply b64url_inj; congruence). rewrite List.Forall_forall in R.
    assert (Q : forall k l0 c, rs !! k = Some l0 -> c ∈ l0 -> (w_draws w <= c < w_draws w')%nat).
    { intros k l0 c Hk Hc. apply R, in_or_app. right. apply in_concat. exists l0. split; apply elem_of_list_In; [eapply elem_of_list_lookup_2; eauto|exact Hc]. }
    assert (n = m) as <- by (eapply Ho; eauto). apply stdpp.list.NoDup_app in N as (_ & _ & N). eapply nodup_parts; eauto.
  Qed.
End Statements.
