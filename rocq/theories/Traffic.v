(** The requests the library makes of storage. *)
From Coq Require Import ZifyN ZifyNat.
From stdpp Require Import gmap.
From Verif Require Import Bytes Go Uuid Json Time Types World Logic Sched Gcm Kwp Kmac Cryptor CryptorProofs Id Data D1 Spec Password Standalone StandaloneSpec Index IndexSpec IndexConcSpec IdAuthority Authority Lib TrafficSpec.
Local Open Scope bool_scope.
Local Open Scope N_scope.

Section Tells.
  Context {S I : Type} (e : env) (L : lib) (ds : list d1_call) (is : list ix_call).
  Notation R := (S * list request)%type.
  Notation W := (world R I).
  Notation seen w := (snd (w_io w)).
  Notation ok H := (allowed L ds is (fun x => In x H)).

  (** [H]: encryptions the program has made. *)
  Fixpoint tells {A} (H : list entry) (p : prog W A) (Q : list entry -> A -> Prop) : Prop :=
    match p with
    | Ret a => Q H a
    | Step f k => forall w, let x := fst (f w) in let w' := snd (f w) in
        (seen w' = seen w /\ w_log w' = w_log w /\ tells H (k x) Q) \/
        (exists q, seen w' = seen w ++ [q] /\ w_log w' = w_log w /\ ok H q /\ tells H (k x) Q) \/
        (exists y, seen w' = seen w /\ w_log w' = y :: w_log w /\ tells (y :: H) (k x) Q)
    end.
  Lemma tells_mono {A} (p : prog W A) (Q Q' : list entry -> A -> Prop) : (forall l a, Q l a -> Q' l a) -> forall H, tells H p Q -> tells H p Q'.
  Proof.
    intros HQ. induction p as [a|X f k IH]; intros H; cbn [tells]; [apply HQ|].
    intros T w. destruct (T w) as [(A1 & A2 & A3)|[(q & A1 & A2 & A3 & A4)|(y & A1 & A2 & A3)]]; cbn zeta; [left; auto|right; left; exists q; auto|right; right; exists y; auto].
  Qed.
  Lemma tells_bind {A B} (p : prog W A) (k : A -> prog W B) Q Z : forall H, tells H p Q -> (forall l a, Q l a -> tells l (k a) Z) -> tells H (bind p k) Z.
  Proof.
    induction p as [a|X f c IH]; intros H; cbn [tells bind]; [auto|].
    intros T Hk w. destruct (T w) as [(A1 & A2 & A3)|[(q & A1 & A2 & A3 & A4)|(y & A1 & A2 & A3)]]; cbn zeta; [left; auto|right; left; exists q; auto|right; right; exists y; auto].
  Qed.
  Definition any {A} : list entry -> A -> Prop := fun _ _ => True.
  (** Programs that encrypt nothing. *)
  Definition idle {A} (p : prog W A) : Prop := forall H, tells H p (fun l _ => l = H).
  Lemma tells_idle {A B} H (p : prog W A) (k : A -> prog W B) Z : idle p -> (forall a, tells H (k a) Z) -> tells H (bind p k) Z.
  Proof. intros Hp Hk. eapply tells_bind; [apply Hp|]. intros l a ->. apply Hk. Qed.
  Lemma tells_idleR {A B} H (p : prog W (res A)) (k : A -> prog W (res B)) : idle p -> (forall a, tells H (k a) any) -> tells H (bindR p k) any.
  Proof. intros Hp Hk. unfold bindR. apply tells_idle; [exact Hp|]. intros [a|x|]; [apply Hk|exact Logic.I|exact Logic.I]. Qed.
  Lemma tells_thenR {A B} H (p : prog W (res A)) (k : A -> prog W (res B)) (Q : list entry -> A -> Prop) : tells H p (fun l r => forall a, r = Ok a -> Q l a) -> (forall l a, Q l a -> tells l (k a) any) -> tells H (bindR p k) any.
  Proof. intros Hp Hk. unfold bindR. eapply tells_bind; [exact Hp|]. intros l [a|x|] Hr; [apply Hk, Hr, eq_refl|exact Logic.I|exact Logic.I]. Qed.
  Lemma tells_any {A} H (p : prog W A) : tells H p (fun l _ => l = H) -> tells H p any.
  Proof. apply tells_mono. intros; exact Logic.I. Qed.
  Lemma idle_any {A} H (p : prog W A) : idle p -> tells H p any.
  Proof. intros Hp. apply tells_any, Hp. Qed.

  Lemma idle_ret {A} (a : A) : idle (Ret a : prog W A).
  Proof. intros H. reflexivity. Qed.
  Lemma idle_bind {A B} (p : prog W A) (k : A -> prog W B) : idle p -> (forall a, idle (k a)) -> idle (bind p k).
  Proof. intros Hp Hk H. apply tells_idle; [exact Hp|]. intros a. apply Hk. Qed.
  Lemma idle_bindR {A B} (p : prog W (res A)) (k : A -> prog W (res B)) : idle p -> (forall a, idle (k a)) -> idle (bindR p k).
  Proof. intros Hp Hk. apply idle_bind; [exact Hp|]. intros [a|x|]; auto using idle_ret. Qed.
  Lemma idle_map_err {A} f (p : prog W (res A)) : idle p -> idle (map_err f p).
  Proof. intros H. unfold map_err. apply idle_bind; [exact H|]. intros; apply idle_ret. Qed.
  Lemma idle_ret_map {A B} (f : A -> B) (p : prog W (res A)) : idle p -> idle (ret_map f p).
  Proof. intros H. unfold ret_map. apply idle_bind; [exact H|]. intros; apply idle_ret. Qed.
  Lemma idle_lift {A} (r : res A) : idle (lift r : prog W (res A)).
  Proof. apply idle_ret. Qed.
  Lemma any_map_err {A} H f (p : prog W (res A)) : tells H p any -> tells H (map_err f p) any.
  Proof. intros Hp. unfold map_err. eapply tells_bind; [exact Hp|]. intros; exact Logic.I. Qed.
  Lemma any_ret_map {A B} H (f : A -> B) (p : prog W (res A)) : tells H p any -> tells H (ret_map f p) any.
  Proof. intros Hp. unfold ret_map. eapply tells_bind; [exact Hp|]. intros; exact Logic.I. Qed.
  Lemma idle_act {X} (f : W -> X * W) : (forall w, seen (snd (f w)) = seen w /\ w_log (snd (f w)) = w_log w) -> idle (act f).
  Proof. intros Hf H w. left. destruct (Hf w). split; [assumption|]. split; [assumption|]. reflexivity. Qed.
  Lemma idle_time : idle (time_now e : prog W _).
  Proof. apply idle_act. auto. Qed.
  Lemma idle_get_bytes n : idle (get_bytes e n : prog W _).
  Proof. apply idle_act. auto. Qed.
  Lemma idle_new_v4 : idle (new_v4 e : prog W _).
  Proof. unfold new_v4. apply idle_bindR; [apply idle_get_bytes|]. intros; apply idle_ret. Qed.
  Lemma idle_password : idle (generate_password e : prog W _).
  Proof. unfold generate_password. apply idle_bindR; [apply idle_get_bytes|intros b]. apply idle_bindR; [apply idle_get_bytes|intros b']. apply idle_ret. Qed.
  Lemma idle_dec kek aad wk ct : idle (aes_dec kek aad wk ct : prog W _).
  Proof. apply idle_act. intros w. cbn [snd]. destruct (_ && _); auto. Qed.
  Lemma idle_decrypt_json {A} kek (dec : json -> option A) a wk ct : idle (decrypt_json (aes_cryptor e kek) dec a wk ct : prog W _).
  Proof. unfold decrypt_json. apply idle_bindR; [apply idle_dec|intros pt]. destruct (unmarshal dec pt); apply idle_ret. Qed.
  Lemma tells_encrypt H kek a b : tells H (encrypt_json (aes_cryptor e kek) a b : prog W _)
    (fun l r => forall wc, r = Ok wc -> l = mkEntry kek (print b) (fst wc) (snd wc) (print a) :: H).
  Proof.
    assert (X : forall l (r : res (bytes * bytes)), (forall x, r <> Ok x) -> tells l (Ret r : prog W _) (fun l r => forall wc, r = Ok wc -> l = mkEntry kek (print b) (fst wc) (snd wc) (print a) :: H)).
    { intros l r Hr wc E. destruct (Hr wc E). }
    unfold encrypt_json. cbn [c_enc aes_cryptor]. unfold aes_enc, bindR. apply tells_idle; [apply idle_get_bytes|intros [key|x|]; [|apply X; discriminate..]].
    apply tells_idle; [apply idle_get_bytes|intros [nonce|x|]; [|apply X; discriminate..]].
    unfold lift. cbn [bind]. destruct (aes_gcm_encrypt _ _ key nonce) as [ct|x|] eqn:E1; [|apply X; discriminate..].
    cbn [bind]. destruct (aes_kwp_wrap kek key) as [wk|x|] eqn:E2; [|apply X; discriminate..].
    intros w. right; right. exists (mkEntry kek (print b) wk ct (print a)). split; [reflexivity|]. split; [reflexivity|]. intros wc [= <-]. reflexivity.
  Qed.

  Context (io0 : provider S).
  Notation io := (recording io0).
  Lemma idle_inside {A} (p : prog S A) : idle (on_io (inside p) : prog W A).
  Proof. induction p as [a|X f k IH]; cbn [inside on_io]; [apply idle_ret|]. intros H w. left. cbn. split; [reflexivity|]. split; [reflexivity|]. apply IH. Qed.
  Lemma tells_noted {A} H q (p : prog S A) : ok H q -> tells H (on_io (bind (note q) (fun _ => inside p)) : prog W A) (fun l _ => l = H).
  Proof.
    intros Hq w. right; left. exists q. cbn. split; [reflexivity|]. split; [reflexivity|]. split; [exact Hq|]. apply idle_inside.
  Qed.
  Lemma idle_get id dt : names L ds is id dt -> idle (on_io (io_get io id dt) : prog W _).
  Proof. intros Hn H. apply tells_noted. exact Hn. Qed.
  Lemma idle_delete id dt : names L ds is id dt -> idle (on_io (io_delete io id dt) : prog W _).
  Proof. intros Hn H. apply tells_noted. exact Hn. Qed.
  Lemma tells_put H id dt d x : In x H -> carries L ds is x id dt d -> tells H (on_io (io_put io id dt d) : prog W _) (fun l _ => l = H).
  Proof. intros Hx Hc. apply tells_noted. exists x. auto. Qed.
  Lemma tells_update H id dt d x : In x H -> carries L ds is x id dt d -> names L ds is id dt -> tells H (on_io (io_update io id dt d) : prog W _) (fun l _ => l = H).
  Proof. intros Hx Hc Hn. apply tells_noted. split; [exists x; auto|exact Hn]. Qed.
  Lemma tells_map_err {A} H f (p : prog W (res A)) : tells H p (fun l _ => l = H) -> tells H (map_err f p) (fun l _ => l = H).
  Proof. intros Hp. unfold map_err. eapply tells_bind; [exact Hp|]. intros l a ->. reflexivity. Qed.

  (** ** Standalone *)
  Notation uc := (aes_cryptor e (s_uek (l_sa L))).
  Notation gc := (aes_cryptor e (s_gek (l_sa L))).
  Notation tc := (aes_cryptor e (s_tek (l_sa L))).
  Lemma names_user id : names L ds is id DataTypeSealedUser.
  Proof. split; [intros [X|X]; discriminate X|discriminate]. Qed.
  Lemma names_group id : names L ds is id DataTypeSealedGroup.
  Proof. split; [intros [X|X]; discriminate X|discriminate]. Qed.
  Lemma idle_get_user uid : idle (get_user io uc uid : prog W _).
  Proof.
    unfold get_user. apply idle_bindR; [apply idle_map_err, idle_get, names_user|intros b]. destruct (unmarshal dec_sealed_user b); [|apply idle_ret]. apply idle_decrypt_json.
  Qed.
  Lemma idle_get_groups gids : forall acc, idle (get_groups io gc gids acc : prog W _).
  Proof.
    induction gids as [|g gids IH]; intros acc; cbn [get_groups]; [apply idle_ret|].
    apply idle_bindR; [|intros; apply IH]. unfold get_group. apply idle_bindR; [apply idle_map_err, idle_get, names_group|intros b].
    destruct (unmarshal dec_sealed_group b); [|apply idle_ret]. apply idle_decrypt_json.
  Qed.
  Lemma idle_identity tok : idle (sa_get_identity e io uc gc tc tok : prog W _).
  Proof.
    unfold sa_get_identity, any_err. apply idle_bindR; [apply idle_map_err, idle_lift|intros st].
    apply idle_bindR; [apply idle_map_err; unfold token_unseal|intros t].
    - apply idle_bind; [apply idle_time|intros now]. destruct (time_before _ _); [apply idle_ret|]. destruct (enc_time _); [|apply idle_ret].
      apply idle_bindR; [apply idle_decrypt_json|intros; apply idle_ret].
    - apply idle_bindR; [apply idle_get_user|intros u]. apply idle_bindR; [apply idle_get_groups|intros; apply idle_ret].
  Qed.
  Lemma any_put_user H uid u b : tells H (put_user io uc uid u b : prog W _) any.
  Proof.
    unfold put_user, user_seal. eapply (tells_thenR _ _ _ (fun l su => exists x, In x l /\ e_kek x = s_uek (l_sa L) /\ su = mkSealedUser uid (Some (e_ct x)) (Some (e_wk x)))).
    - unfold bindR. eapply tells_bind; [apply tells_encrypt|]. intros l [[wk ct]|x|] Hr; [|intros a [=]..].
      rewrite (Hr _ eq_refl). intros su [= <-]. eexists. split; [now left|]. auto.
    - intros l su (x & Hx & Hk & ->). cbn [su_uid]. assert (C : carries L ds is x uid DataTypeSealedUser (print (enc_sealed_user (mkSealedUser uid (Some (e_ct x)) (Some (e_wk x)))))).
      { right; right; left. auto. }
      destruct b; apply tells_any, tells_map_err; [eapply tells_update; eauto using names_user|eapply tells_put; eauto].
  Qed.
  Lemma any_put_group H gid g : tells H (put_group io gc gid g : prog W _) any.
  Proof.
    unfold put_group, group_seal. eapply (tells_thenR _ _ _ (fun l su => exists x, In x l /\ e_kek x = s_gek (l_sa L) /\ su = mkSealedGroup gid (Some (e_ct x)) (Some (e_wk x)))).
    - unfold bindR. eapply tells_bind; [apply tells_encrypt|]. intros l [[wk ct]|x|] Hr; [|intros a [=]..].
      rewrite (Hr _ eq_refl). intros su [= <-]. eexists. split; [now left|]. auto.
    - intros l su (x & Hx & Hk & ->). cbn [sg_gid]. apply tells_any, tells_map_err. eapply tells_put; [exact Hx|]. right; right; right; left. auto.
  Qed.
  Lemma any_bindR {A B} H (p : prog W (res A)) (k : A -> prog W (res B)) : tells H p any -> (forall l a, tells l (k a) any) -> tells H (bindR p k) any.
  Proof. intros Hp Hk. eapply (tells_thenR _ _ _ any); [|auto]. eapply tells_mono; [|exact Hp]. intros; exact Logic.I. Qed.
  Lemma any_seal_token H kek t : tells H (token_seal (aes_cryptor e kek) t : prog W _) any.
  Proof.
    unfold token_seal. destruct (enc_time _); [|exact Logic.I]. apply any_bindR; [|intros l [? ?]; exact Logic.I]. eapply tells_mono; [|apply tells_encrypt]. intros; exact Logic.I.
  Qed.
  Lemma any_sa c : tells [] (sa_aes e io (l_sa L) c : prog W _) any.
  Proof.
    pose proof idle_identity as GI. pose proof idle_get_user as GU.
    unfold sa_aes. destruct c; cbn [sa_do]; apply any_ret_map.
    - unfold sa_new_user, new_user. apply tells_idleR; [apply idle_new_v4|intros u]. apply tells_idleR; [apply idle_bindR; [apply idle_password|intros []; apply idle_ret]|intros [q p]].
      apply any_bindR; [apply any_put_user|intros; exact Logic.I].
    - unfold sa_login, any_err. apply any_map_err. apply tells_idleR; [apply GU|intros]. apply tells_idleR; [apply idle_lift|intros].
      apply tells_idle; [unfold new_token; apply idle_bind; [apply idle_time|intros; apply idle_ret]|intros t].
      apply any_bindR; [apply any_seal_token|intros]. apply tells_idleR; [apply idle_lift|intros; exact Logic.I].
    - unfold sa_change_password, change_password. apply tells_idleR; [apply idle_map_err, GU|intros u].
      apply tells_idleR; [unfold any_err; apply idle_map_err, idle_bindR; [apply idle_lift|intros _]; apply idle_bindR; [apply idle_password|intros []; apply idle_ret]|intros [q p]].
      apply any_bindR; [apply any_put_user|intros; exact Logic.I].
    - unfold sa_add_user. apply tells_idleR; [apply GI|intros]. destruct (negb _); [exact Logic.I|]. apply tells_idleR; [apply GU|intros].
      apply tells_idleR; [apply idle_lift|intros]. apply any_put_user.
    - unfold sa_remove_user. apply tells_idleR; [apply GI|intros]. destruct (negb _); [exact Logic.I|]. apply tells_idleR; [apply GU|intros]. apply any_put_user.
    - unfold sa_delete_user. apply tells_idleR; [apply GI|intros]. apply idle_any, idle_delete, names_user.
    - unfold sa_new_group. apply tells_idleR; [apply GI|intros i]. apply tells_idleR; [apply idle_new_v4|intros u].
      apply any_bindR; [apply any_put_group|intros l _]. apply tells_idleR; [apply GU|intros a]. apply tells_idleR; [apply idle_lift|intros gs].
      apply any_bindR; [apply any_put_user|intros; exact Logic.I].
    - apply idle_any, GI.
  Qed.

  (** ** D1 *)
  Notation idp := (sa_idp e io (l_sa L)).
  Lemma any_d1 c : In c ds -> tells [] (d1_aes e io idp (l_d1 L) c : prog W _) any.
  Proof.
    intros Hc.
    assert (HN : forall oid, call_oid c = Some oid -> forall dt, dt <> DataTypeSealedNode -> names L ds is oid dt) by (intros oid Ho dt Hd; split; [eauto|contradiction]).
    assert (HV : forall tok need, idle (verify_access idp tok need : prog W _)).
    { intros. unfold verify_access. apply idle_bind; [apply idle_identity|]. intros [i|x|]; try apply idle_ret. destruct (scope_contains _ _); apply idle_ret. }
    assert (HGA : forall oid, call_oid c = Some oid -> idle (get_sealed_access io oid : prog W _)).
    { intros oid Ho. unfold get_sealed_access. apply idle_bindR; [apply idle_map_err, idle_get, HN; [exact Ho|discriminate]|]. intros b. destruct (unmarshal _ _); apply idle_ret. }
    assert (HGO : forall oid, call_oid c = Some oid -> idle (get_sealed_object io oid : prog W _)).
    { intros oid Ho. unfold get_sealed_object. apply idle_bindR; [apply idle_map_err, idle_get, HN; [exact Ho|discriminate]|]. intros b. destruct (unmarshal _ _); apply idle_ret. }
    assert (HAZ : forall i need sa, idle (authorize_access (aes_cryptor e (d_aek (l_d1 L))) i need sa : prog W _)).
    { intros. unfold authorize_access, access_unseal. apply idle_bindR; [apply idle_decrypt_json|]. intros a. destruct (authorized _ _ _); apply idle_ret. }
    assert (HOS : forall H o oid, tells H (object_seal (aes_cryptor e (d_kek (l_d1 L))) o oid : prog W _) (fun l r => forall ws, r = Ok ws ->
      exists x, l = x :: H /\ e_kek x = d_kek (l_d1 L) /\ e_pt x = print (jbytes (o_pt o)) /\ snd ws = mkSealedObject (Some (e_ct x)) (o_ad o) oid)).
    { intros. unfold object_seal, bindR. eapply tells_bind; [apply tells_encrypt|]. intros l [[wk ct]|x|] Hr; [|intros a [=]..].
      rewrite (Hr _ eq_refl). intros su [= <-]. eexists. split; [reflexivity|]. auto. }
    assert (HAS : forall H a oid, tells H (access_seal (aes_cryptor e (d_aek (l_d1 L))) a oid : prog W _) (fun l r => forall sa, r = Ok sa ->
      exists x, l = x :: H /\ e_kek x = d_aek (l_d1 L) /\ sa = mkSealedAccess oid (Some (e_ct x)) (Some (e_wk x)))).
    { intros. unfold access_seal, bindR. eapply tells_bind; [apply tells_encrypt|]. intros l [[wk ct]|x|] Hr; [|intros a0 [=]..].
      rewrite (Hr _ eq_refl). intros su [= <-]. eexists. split; [reflexivity|]. auto. }
    assert (CO : forall x o oid, brings c o -> e_kek x = d_kek (l_d1 L) -> e_pt x = print (jbytes (o_pt o)) ->
      carries L ds is x oid DataTypeSealedObject (print (enc_sealed_object (mkSealedObject (Some (e_ct x)) (o_ad o) oid)))).
    { intros x o oid Hb Hk Hp. left. split; [reflexivity|]. split; [exact Hk|]. exists c, o. auto. }
    assert (CA : forall x oid, e_kek x = d_aek (l_d1 L) -> carries L ds is x oid DataTypeSealedAccess (print (enc_sealed_access (mkSealedAccess oid (Some (e_ct x)) (Some (e_wk x)))))).
    { intros x oid Hk. right; left. auto. }
    assert (UA : forall H a oid, call_oid c = Some oid -> tells H (bindR (access_seal (aes_cryptor e (d_aek (l_d1 L))) a oid) (fun sa => put_sealed_access io sa true) : prog W _) any).
    { intros H a oid Ho. eapply tells_thenR; [apply HAS|]. intros l sa (x & -> & Hk & ->). apply tells_any, tells_map_err. eapply tells_update; [now left|now apply CA|]. apply HN; [exact Ho|discriminate]. }
    unfold d1_aes. destruct c; cbn [d1_do call_oid brings] in *; apply any_ret_map.
    - unfold d1_encrypt. apply tells_idleR; [apply HV|intros i]. apply tells_idleR; [apply idle_new_v4|intros oid].
      eapply tells_thenR; [apply HOS|]. intros l [dek so] (x & -> & Hk & Hp & Hs). cbn [snd] in Hs. subst so.
      apply tells_idleR; [apply idle_lift|intros gs]. eapply tells_thenR; [apply HAS|]. intros l sa (y & -> & Hk' & ->).
      eapply (tells_thenR _ _ _ (fun l _ => l = [y; x])); [|intros l _ ->].
      + eapply tells_mono; [|apply tells_map_err; eapply (tells_put _ _ _ _ x); [right; now left|now apply CO]]. cbv beta. auto.
      + apply any_bindR; [|intros; exact Logic.I]. apply tells_any, tells_map_err. eapply (tells_put _ _ _ _ y); [now left|now apply CA].
    - unfold d1_update. apply tells_idleR; [apply HV|intros i]. apply tells_idleR; [now apply HGA|intros sa]. apply tells_idleR; [apply HAZ|intros a].
      eapply tells_thenR; [apply HOS|]. intros l [dek so] (x & -> & Hk & Hp & Hs). cbn [snd] in Hs. subst so.
      eapply tells_thenR; [apply HAS|]. intros l sa' (y & -> & Hk' & ->).
      eapply (tells_thenR _ _ _ (fun l _ => l = [y; x])); [|intros l _ ->].
      + eapply tells_mono; [|apply tells_map_err; eapply (tells_update _ _ _ _ x); [right; now left|now apply CO|apply HN; [reflexivity|discriminate]]]. cbv beta. auto.
      + apply any_bindR; [|intros; exact Logic.I]. apply tells_any, tells_map_err. eapply (tells_update _ _ _ _ y); [now left|now apply CA|apply HN; [reflexivity|discriminate]].
    - apply idle_any. unfold d1_decrypt. apply idle_bindR; [apply HV|intros i]. apply idle_bindR; [now apply HGA|intros sa]. apply idle_bindR; [apply HAZ|intros a].
      apply idle_bindR; [now apply HGO|intros so]. unfold object_unseal. apply idle_bindR; [apply idle_decrypt_json|intros; apply idle_ret].
    - apply idle_any. unfold d1_delete. apply idle_bindR; [apply HV|intros i]. apply idle_bind; [now apply HGA|intros [sa|x|]]; [|destruct x; apply idle_ret|apply idle_ret].
      apply idle_bindR; [apply HAZ|intros a]. apply idle_bindR; [apply idle_delete, HN; [reflexivity|discriminate]|intros _]. apply idle_bindR; [apply idle_delete, HN; [reflexivity|discriminate]|intros _]. apply idle_ret.
    - apply idle_any. unfold d1_get_access_groups. apply idle_bindR; [apply HV|intros i]. apply idle_bindR; [now apply HGA|intros sa]. apply idle_bindR; [apply HAZ|intros a]. apply idle_ret.
    - unfold d1_add_groups. apply tells_idleR; [apply HV|intros i]. apply tells_idleR; [now apply HGA|intros sa]. apply tells_idleR; [apply HAZ|intros a].
      apply tells_idleR; [apply idle_lift|intros gs]. now apply UA.
    - unfold d1_remove_groups. apply tells_idleR; [apply HV|intros i]. apply tells_idleR; [now apply HGA|intros sa]. apply tells_idleR; [apply HAZ|intros a]. now apply UA.
    - apply idle_any. unfold d1_authorize. apply idle_bindR; [apply HV|intros i]. apply idle_bindR; [now apply HGA|intros sa]. apply idle_bindR; [apply HAZ|intros a]. apply idle_ret.
    - unfold d1_create_token, new_token. apply tells_idle; [apply idle_bind; [apply idle_time|intros; apply idle_ret]|intros t]. apply any_seal_token.
    - apply idle_any. unfold d1_get_token_contents, token_unseal. apply idle_bindR; [|intros; apply idle_ret]. apply idle_bind; [apply idle_time|intros now].
      destruct (time_before _ _); [apply idle_ret|]. destruct (enc_time _); [|apply idle_ret]. apply idle_bindR; [apply idle_decrypt_json|intros; apply idle_ret].
  Qed.

  (** ** Index *)
  Context (fuel : nat) (ss : list sa_call).
  Section Keyword.
    Context (tk kek : bytes) (Hl : forall n id, next_label tk n = Ok id -> label_of L is id kek).
    Lemma names_label n id : next_label tk n = Ok id -> names L ds is id DataTypeSealedNode.
    Proof. intros H. split; [intros [X|X]; discriminate X|]. intros _. exists kek. eauto. Qed.
    Lemma idle_liftb {A B} (r : res A) (k : A -> prog W (res B)) : (forall a, r = Ok a -> idle (k a)) -> idle (bindR (lift r) k).
    Proof. intros H. destruct r as [a|x|]; [apply (H a eq_refl)|apply idle_ret|apply idle_ret]. Qed.
    Lemma any_liftb {A B} H (r : res A) (k : A -> prog W (res B)) : (forall a, r = Ok a -> tells H (k a) any) -> tells H (bindR (lift r) k) any.
    Proof. intros Hk. destruct r as [a|x|]; [apply (Hk a eq_refl)|exact Logic.I|exact Logic.I]. Qed.
    Lemma idle_get_next cur : idle (get_next_node e io tk kek cur : prog W _).
    Proof.
      unfold get_next_node. apply idle_liftb. intros l El. apply idle_bindR; [|intros sn; apply idle_decrypt_json].
      unfold get_sealed_node. apply idle_bindR; [apply idle_map_err, idle_get; eapply names_label; eauto|intros b]. destruct (unmarshal _ b); apply idle_ret.
    Qed.
    Lemma idle_get_last n : forall cur, idle (get_last_node e io tk kek n cur : prog W _).
    Proof.
      induction n as [|n IH]; intros cur; [apply idle_ret|]. cbn [get_last_node]. apply idle_bind; [apply idle_get_next|].
      intros [nx|x|]; [apply IH|destruct x; apply idle_ret|apply idle_ret].
    Qed.
    Lemma idle_search n : forall cur found, idle (search_loop e io tk kek n cur found : prog W _).
    Proof.
      induction n as [|n IH]; intros cur found; [apply idle_ret|]. cbn [search_loop]. apply idle_bind; [apply idle_get_next|].
      intros [nx|x|]; [apply IH|destruct x; apply idle_ret|apply idle_ret].
    Qed.
    Lemma tells_seal_node H n label : tells H (node_seal (aes_cryptor e kek) n label : prog W _)
      (fun l r => forall sn, r = Ok sn -> exists x, In x l /\ e_kek x = kek /\ sn = mkSealedNode (Some (e_ct x)) (Some (e_wk x))).
    Proof.
      unfold node_seal, bindR. eapply tells_bind; [apply tells_encrypt|]. intros l [[wk ct]|x|] Hr; [|intros a0 [=]..].
      rewrite (Hr _ eq_refl). intros su [= <-]. eexists. split; [now left|]. auto.
    Qed.
    Lemma any_put_node H cur label sn u : next_label tk cur = Ok label -> (exists x, In x H /\ e_kek x = kek /\ sn = mkSealedNode (Some (e_ct x)) (Some (e_wk x))) ->
      tells H (put_sealed_node io label sn u : prog W _) any.
    Proof.
      intros El (x & Hx & Hk & ->). assert (C : carries L ds is x label DataTypeSealedNode (print (enc_sealed_node (mkSealedNode (Some (e_ct x)) (Some (e_wk x)))))).
      { right; right; right; right. rewrite Hk. eauto. }
      unfold put_sealed_node. destruct u; apply tells_any, tells_map_err; [eapply tells_update; eauto using names_label|eapply tells_put; eauto].
    Qed.
    Lemma any_delete_node H cur n label : next_label tk cur = Ok label -> tells H (delete_node e io tk kek label n : prog W _) any.
    Proof.
      intros El. unfold delete_node. apply tells_idle; [apply idle_get_next|].
      assert (HD : forall H cur l, next_label tk cur = Ok l -> tells H (delete_sealed_node io l : prog W _) any) by (intros; apply idle_any, idle_delete; eapply names_label; eauto).
      intros [nx|x|]; [|destruct x; first [eapply HD; exact El|exact Logic.I]|exact Logic.I].
      eapply tells_thenR; [apply tells_seal_node|]. intros l sn Hs. apply any_bindR; [eapply any_put_node; eauto|]. intros l' _. apply any_liftb. intros a Ea. eapply HD; eauto.
    Qed.
    Lemma any_delete_loop n y : forall H cur, tells H (delete_loop e io tk kek n cur y : prog W _) any.
    Proof.
      induction n as [|n IH]; intros H cur; [exact Logic.I|]. cbn [delete_loop]. apply tells_idle; [apply idle_get_next|].
      intros [nx|x|]; [|destruct x; exact Logic.I|exact Logic.I].
      destruct (bytes_eqb _ _); [|apply IH]. apply any_liftb. intros l El.
      apply any_bindR; [eapply any_delete_node; eauto|intros l' _; apply IH].
    Qed.
  End Keyword.
  Lemma any_ix c : In c is -> tells [] (ix_do e io idp (l_iek L) fuel c : prog W _) any.
  Proof.
    intros Hc.
    assert (HV : forall tok, idle (ix_verify idp tok : prog W _)).
    { intros. unfold ix_verify. apply idle_bind; [apply idle_identity|]. intros [i|x|]; [|apply idle_ret..]. destruct (scope_contains _ _); apply idle_ret. }
    assert (HK : forall tk kek, ix_keys (l_iek L) (ix_keyword c) = Ok (tk, kek) -> forall n id, next_label tk n = Ok id -> label_of L is id kek).
    { intros tk kek Ek n id En. unfold ix_keys in Ek. destruct (kmackdf 32 (l_iek L) (str "label") [ix_keyword c]) as [k1| |] eqn:E1; cbn [res_bind] in Ek; try discriminate.
      destruct (kmackdf 32 (l_iek L) (str "id") [ix_keyword c]) as [k2| |] eqn:E2; cbn [res_bind] in Ek; try discriminate.
      unfold new_tagger in Ek. destruct (negb _); cbn [res_bind] in Ek; try discriminate.
      destruct (new_aes_cryptor k2) as [k2'| |] eqn:E3; cbn [res_bind] in Ek; try discriminate. injection Ek as <- <-.
      assert (k2' = k2) as ->.
      { unfold new_aes_cryptor, new_kwp in E3. destruct (negb _); [discriminate|]. destruct (_ || _); [now injection E3|discriminate]. }
      exists c, (n_next n), k1. auto. }
    destruct c as [tok kw y|tok kw|tok kw y]; cbn [ix_do ix_keyword] in *; apply any_ret_map.
    - unfold ix_add. apply tells_idleR; [apply HV|intros _]. apply any_liftb. intros [tk kek] Ek. specialize (HK _ _ Ek).
      apply tells_idleR; [now apply idle_get_last|intros last]. apply any_liftb. intros l El.
      eapply tells_thenR; [apply tells_seal_node|]. intros l' sn Hs. eapply any_put_node; eauto.
    - unfold ix_search. apply tells_idleR; [apply HV|intros _]. apply any_liftb. intros [tk kek] Ek. specialize (HK _ _ Ek). now apply idle_any, idle_search.
    - unfold ix_delete. apply tells_idleR; [apply HV|intros _]. apply any_liftb. intros [tk kek] Ek. specialize (HK _ _ Ek). now apply any_delete_loop.
  Qed.

  (** ** All of them at once *)
  Lemma any_pool : Forall (fun p => tells [] p any) (lib_pool e io L fuel ds is ss : list (prog W lib_reply)).
  Proof.
    assert (M : forall A B (f : A -> B) (p : prog W A), tells [] p any -> tells [] (bind p (fun r => Ret (f r))) any) by (intros A B f p Hp; eapply tells_bind; [exact Hp|intros; exact Logic.I]).
    unfold lib_pool. rewrite !List.Forall_app, !List.Forall_map, !List.Forall_forall. repeat split; intros c Hc; apply M; [now apply any_d1|now apply any_ix|apply any_sa].
  Qed.
  Lemma tells_more {A} (p : prog W A) : forall H, tells H p any -> forall H', incl H H' -> tells H' p any.
  Proof.
    assert (OK : forall H H' q, incl H H' -> ok H q -> ok H' q).
    { intros H H' q Hi. destruct q; cbn [allowed]; [intros (x & Hx & Hc); exists x; auto|auto|intros ((x & Hx & Hc) & Hn); split; [exists x; auto|exact Hn]|auto]. }
    induction p as [a|X f k IH]; intros H; cbn [tells]; [intros; exact Logic.I|].
    intros T H' Hi w. destruct (T w) as [(A1 & A2 & A3)|[(q & A1 & A2 & A3 & A4)|(y & A1 & A2 & A3)]]; cbn zeta.
    - left. eauto.
    - right; left. exists q. eauto 6.
    - right; right. exists y. split; [exact A1|]. split; [exact A2|]. eapply IH; [exact A3|]. intros z [<-|Hz]; [now left|right; auto].
  Qed.
  Definition told (w0 : W) (pool : list (prog W lib_reply)) (w : W) : Prop :=
    exists new qs, w_log w = new ++ w_log w0 /\ seen w = seen w0 ++ qs /\ Forall (ok new) qs /\ Forall (fun p => tells new p any) pool.
  Lemma ok_more H H' q : incl H H' -> ok H q -> ok H' q.
  Proof.
    intros Hi. destruct q; cbn [allowed]; [intros (x & Hx & Hc); exists x; auto|auto|intros ((x & Hx & Hc) & Hn); split; [exists x; auto|exact Hn]|auto].
  Qed.
  Lemma told_steps K w0 pool w pool' w' : recorded K pool w pool' w' -> told w0 pool w -> told w0 pool' w'.
  Proof.
    induction 1 as [pool w|t X f k pool w pool' w' Ht _ IH|pool w w1 pool' w' [(new1 & E1 & _) _] E2 _ IH]; intros (new & qs & A & B & C & D); [exists new, qs; auto|apply IH|apply IH].
    - assert (T : tells new (Step f k) any) by (rewrite List.Forall_forall in D; apply D, elem_of_list_In; eapply elem_of_list_lookup_2; eauto).
      assert (F : forall new' p, incl new new' -> tells new' p any -> Forall (fun p => tells new' p any) (<[t := p]> pool)).
      { intros new' p Hi Hp. apply Forall_insert; [|exact Hp]. eapply List.Forall_impl; [|exact D]. cbv beta. intros q Hq. eapply tells_more; eauto. }
      destruct (T w) as [(A1 & A2 & A3)|[(q & A1 & A2 & A3 & A4)|(y & A1 & A2 & A3)]].
      + exists new, qs. split; [congruence|]. split; [congruence|]. split; [exact C|]. apply F; [apply incl_refl|exact A3].
      + exists new, (qs ++ [q]). split; [congruence|]. split; [rewrite A1, B; symmetry; apply app_assoc|]. split; [apply List.Forall_app; split; [exact C|now constructor]|]. apply F; [apply incl_refl|exact A4].
      + assert (Hi : incl new (y :: new)) by (intros z; now right). exists (y :: new), qs. split; [rewrite A2, A; reflexivity|]. split; [congruence|].
        split; [eapply List.Forall_impl; [|exact C]; cbv beta; intros q; now apply ok_more|]. apply F; [exact Hi|exact A3].
    - assert (Hi : incl new (new1 ++ new)) by (intros z; apply incl_appr, incl_refl). exists (new1 ++ new), qs. split; [rewrite E1, A; apply app_assoc|]. split; [congruence|].
      split; [eapply List.Forall_impl; [|exact C]; cbv beta; intros q; now apply ok_more|]. eapply List.Forall_impl; [|exact D]. cbv beta. intros q Hq. eapply tells_more; eauto.
  Qed.
  Lemma traffic (w : W) pool' (w' : W) : recorded (lib_key L is) (lib_pool e io L fuel ds is ss) w pool' w' ->
    exists new qs, w_log w' = new ++ w_log w /\ seen w' = seen w ++ qs /\ Forall (ok new) qs.
  Proof.
    intros H. destruct (told_steps _ w _ _ _ _ H) as (new & qs & A & B & C & _); [|eauto].
    exists [], []. split; [reflexivity|]. split; [now rewrite app_nil_r|]. split; [constructor|apply any_pool].
  Qed.
End Tells.
