(** Which calls can panic. *)
From Coq Require Import ZifyN ZifyNat.
From stdpp Require Import gmap.
From Verif Require Import Bytes Base64 Go Json JsonProofs Uuid Time Types TypesProofs World Spec TokenFacts Gcm Kwp Kmac Cryptor CryptorProofs CryptoFacts Io IoSpec IoProofs Logic WpcFacts Id Data D1 D1Proofs
  Sched D1Sched Password Standalone StandaloneSpec StandaloneProofs StandaloneRefine StandaloneHist StandaloneFacts Index IndexProofs.
Local Open Scope bool_scope.
Local Open Scope N_scope.

(** Whatever the world looks like at each step, the program ends with [Q]. *)
Fixpoint always {W B} (Q : B -> Prop) (p : prog W B) : Prop :=
  match p with Ret a => Q a | Step f k => forall w, always Q (k (fst (f w))) end.
Notation calmly p := (always (fun r => r <> Panic) p).
(** A storage provider whose methods do not panic. *)
Definition steady {S} (io : provider S) : Prop :=
  (forall id dt b, calmly (io_put io id dt b)) /\ (forall id dt, calmly (io_get io id dt)) /\
  (forall id dt b, calmly (io_update io id dt b)) /\ (forall id dt, calmly (io_delete io id dt)).

Lemma always_mono {W B} (P Q : B -> Prop) (p : prog W B) : (forall b, P b -> Q b) -> always P p -> always Q p.
Proof. intros H. induction p as [a|X f k IH]; cbn [always]; auto. Qed.
Lemma always_bind {W A B} (Q : B -> Prop) (p : prog W A) (k : A -> prog W B) : always (fun a => always Q (k a)) p -> always Q (bind p k).
Proof. induction p as [a|X f c IH]; cbn [always bind]; auto. Qed.
Lemma always_bindR {W A B} (P : A -> Prop) (Q : res B -> Prop) (p : prog W (res A)) (k : A -> prog W (res B)) :
  (forall x, Q (Err x)) -> always (fun r => r <> Panic /\ forall a, r = Ok a -> P a) p -> (forall a, P a -> always Q (k a)) -> always Q (bindR p k).
Proof.
  intros HE Hp Hk. unfold bindR. apply always_bind. eapply always_mono; [|exact Hp]. intros [a|x|] [H1 H2]; cbn [always]; auto. congruence.
Qed.
Lemma calmly_bindR {W A B} (p : prog W (res A)) (k : A -> prog W (res B)) : calmly p -> (forall a, calmly (k a)) -> calmly (bindR p k).
Proof.
  intros Hp Hk. apply (always_bindR (fun _ => True)); [discriminate| |auto]. eapply always_mono; [|exact Hp]. cbn. auto.
Qed.
Lemma calmly_bind {W A B} (p : prog W A) (k : A -> prog W (res B)) : (forall a, calmly (k a)) -> calmly (bind p k).
Proof. intros H. apply always_bind. induction p as [a|X f c IH]; cbn [always]; auto. Qed.
Lemma calmly_map_err {W A} f (p : prog W (res A)) : calmly p -> calmly (map_err f p).
Proof. intros H. unfold map_err. apply always_bind. eapply always_mono; [|exact H]. intros [a|x|] N; cbn; congruence. Qed.
Lemma calmly_ret_map {S I A B} (f : A -> B) (p : prog (world S I) (res A)) : calmly p -> calmly (ret_map f p).
Proof. intros H. unfold ret_map. apply always_bind. eapply always_mono; [|exact H]. intros [a|x|] N; cbn; congruence. Qed.
Lemma calmly_ok {W A} (a : A) : calmly (Ret (Ok a) : prog W _).
Proof. cbn. discriminate. Qed.
Lemma calmly_err {W A} x : calmly (Ret (Err x) : prog W (res A)).
Proof. cbn. discriminate. Qed.
Lemma always_io {S I B} (Q : B -> Prop) (p : prog S B) : always Q p -> always Q (on_io p : prog (world S I) B).
Proof.
  induction p as [a|X f k IH]; cbn [always on_io]; [auto|]. intros H w. specialize (H (w_io w)). destruct (f (w_io w)) as [x s]. cbn [fst] in *. auto.
Qed.
Lemma always_exec {S I A} (K : bytes -> Prop) (Q : A -> Prop) (pool : list (prog (world S I) A)) w pool' w' :
  exec K pool w pool' w' -> (forall t p, pool !! t = Some p -> always Q p) -> forall t p, pool' !! t = Some p -> always Q p.
Proof.
  intros H. induction H as [|t0 X f k pool w pool' w' Ht H IH|pool w w1 pool' w' _ H IH]; intros HA; [exact HA| |exact (IH HA)].
  apply IH. intros t p Hp. apply list_lookup_insert_Some in Hp as [(-> & <- & _)|[_ Hp]]; [exact (HA _ _ Ht w)|eauto].
Qed.

Lemma mem_steady : steady Mem.
Proof.
  split; [|split; [|split]]; intros; cbn [io_put io_get io_update io_delete Mem]; unfold mem_put, mem_get, mem_update, mem_delete, mem_load, mem_store, act; cbn [always bind]; intros w; cbn [fst];
    try discriminate; (destruct (_ !! _); cbn [always bind]; [try discriminate|try discriminate]); intros; discriminate.
Qed.
Lemma bolt_steady : steady Bolt.
Proof.
  split; [|split; [|split]]; intros; cbn [io_put io_get io_update io_delete Bolt]; unfold bolt_put, bolt_get, bolt_update, bolt_delete, act; cbn [always]; intros w; cbn [fst];
    try discriminate; destruct (_ !! _) as [[|]|]; discriminate.
Qed.

Section Crypt.
  Context {S I : Type} (e : env).
  Notation W := (world S I).
  Lemma calmly_get_bytes n : calmly (get_bytes e n : prog W _).
  Proof. cbn. intros w. unfold draw. destruct (tape _ _ _); [destruct (_ =? _)|]; discriminate. Qed.
  Lemma calmly_aes_enc kek pt aad : calmly (aes_enc e kek pt aad : prog W _).
  Proof.
    unfold aes_enc. apply (always_bindR (fun key => blen key = 32)); [discriminate| |intros key Hk].
    { unfold get_bytes, act. cbn [always]. intros w. cbn [fst]. unfold draw. destruct (tape _ _ _) as [b|]; [destruct (N.eqb_spec (blen b) EncryptionKeyLength) as [Eb|]|];
        (split; [discriminate|]); try discriminate. now intros a [= <-]. }
    apply calmly_bindR; [apply calmly_get_bytes|intros nonce].
    apply calmly_bindR; [cbn; unfold aes_gcm_encrypt; destruct (negb _); discriminate|intros ct].
    apply calmly_bindR; [cbn|intros wk; apply calmly_bind; intros; apply calmly_ok].
    destruct (aes_kwp_roundtrip kek key) as (y & -> & _); [rewrite Hk; vm_compute; discriminate..|discriminate].
  Qed.
  Lemma calmly_encrypt_json kek a b : calmly (encrypt_json (aes_cryptor e kek) a b : prog W _).
  Proof. apply calmly_aes_enc. Qed.
  Lemma calmly_aes_dec kek aad wk ct : calmly (aes_dec kek aad wk ct : prog W _).
  Proof.
    unfold aes_dec, act. cbn [always]. intros w. cbn [fst]. destruct (aes_open_total kek aad wk ct) as [[pt ->]|(x & -> & _)]; discriminate.
  Qed.
  Lemma calmly_decrypt_json {A} kek (dec : json -> option A) a wk ct : calmly (decrypt_json (aes_cryptor e kek) dec a wk ct : prog W _).
  Proof. unfold decrypt_json. apply calmly_bindR; [apply calmly_aes_dec|intros pt]. destruct (unmarshal dec pt); cbn; discriminate. Qed.
End Crypt.

(** ** D1 *)
Section D1.
  Context {S I : Type} (e : env).
  Notation W := (world S I).
  Context (io : provider S) (idp : bytes -> prog W (res identity)) (d : d1).
  Context (Hio : steady io) (Hidp : forall tok, calmly (idp tok)).
  Notation ac := (aes_cryptor e (d_aek d) : cryptor W).
  Lemma calmly_verify tok need : calmly (verify_access idp tok need).
  Proof.
    unfold verify_access. apply always_bind. eapply always_mono; [|apply Hidp]. intros [i|x|] N; [destruct (scope_contains _ _); cbn; discriminate|cbn; discriminate|congruence].
  Qed.
  Lemma calmly_get_access oid : calmly (get_sealed_access io oid : prog W _).
  Proof.
    unfold get_sealed_access. apply calmly_bindR; [apply calmly_map_err, always_io, Hio|intros b]. destruct (unmarshal _ _); cbn; discriminate.
  Qed.
  Lemma calmly_get_object oid : calmly (get_sealed_object io oid : prog W _).
  Proof.
    unfold get_sealed_object. apply calmly_bindR; [apply calmly_map_err, always_io, Hio|intros b]. destruct (unmarshal _ _); cbn; discriminate.
  Qed.
  (** An access that authorizes someone has a group map. *)
  Lemma authorize_map i need sa : always (fun r => r <> Panic /\ forall a, r = Ok a -> exists g, a_groups a = Some g) (authorize_access ac i need sa).
  Proof.
    unfold authorize_access, access_unseal. apply (always_bindR (fun _ => True)).
    - intros x. split; discriminate.
    - eapply always_mono; [|apply calmly_decrypt_json]. cbn. auto.
    - intros a _. destruct (authorized i need a) eqn:Ea; cbn; [|split; discriminate]. split; [discriminate|]. intros a' [= <-].
      destruct a as [[g|] dek]; [cbn; eauto|]. exfalso. unfold authorized in Ea. apply existsb_exists in Ea as (g & _ & Hg). discriminate.
  Qed.
  Lemma calmly_load {A} tok oid need (k : access -> prog W (res A)) : (forall a g, a_groups a = Some g -> calmly (k a)) ->
    calmly (bindR (verify_access idp tok need) (fun i => bindR (get_sealed_access io oid) (fun sa => bindR (authorize_access ac i need sa) k))).
  Proof.
    intros Hk. apply calmly_bindR; [apply calmly_verify|intros i]. apply calmly_bindR; [apply calmly_get_access|intros sa].
    eapply always_bindR; [discriminate|apply authorize_map|]. intros a [g Hg]. eauto.
  Qed.
  Lemma calmly_object_seal kek o oid : calmly (object_seal (aes_cryptor e kek) o oid : prog W _).
  Proof. unfold object_seal. apply calmly_bindR; [apply calmly_encrypt_json|intros [wk ct]; apply calmly_ok]. Qed.
  Lemma calmly_access_seal kek a oid : calmly (access_seal (aes_cryptor e kek) a oid : prog W _).
  Proof. unfold access_seal. apply calmly_bindR; [apply calmly_encrypt_json|intros [wk ct]; apply calmly_ok]. Qed.
  Lemma calmly_put_object so u : calmly (put_sealed_object io so u : prog W _).
  Proof. unfold put_sealed_object. destruct u; apply calmly_map_err, always_io, Hio. Qed.
  Lemma calmly_put_access so u : calmly (put_sealed_access io so u : prog W _).
  Proof. unfold put_sealed_access. destruct u; apply calmly_map_err, always_io, Hio. Qed.
  Lemma add_some g gs : add_groups (Some g) gs <> Panic.
  Proof. destruct gs; discriminate. Qed.
  Lemma calmly_token_seal kek t : calmly (token_seal (aes_cryptor e kek) t : prog W _).
  Proof. unfold token_seal. destruct (enc_time _); [|apply calmly_err]. apply calmly_bindR; [apply calmly_encrypt_json|intros [wk ct]; apply calmly_ok]. Qed.
  Lemma calmly_token_unseal kek st : calmly (token_unseal e (aes_cryptor e kek) st : prog W _).
  Proof.
    unfold token_unseal. apply calmly_bind. intros now. destruct (time_before _ _); [apply calmly_err|]. destruct (enc_time _); [|apply calmly_err].
    apply calmly_bindR; [apply calmly_decrypt_json|intros; apply calmly_ok].
  Qed.
  Lemma d1_calm c : calmly (d1_aes e io idp d c).
  Proof.
    unfold d1_aes. destruct c; cbn [d1_do]; apply calmly_ret_map.
    - unfold d1_encrypt, new_v4. apply calmly_bindR; [apply calmly_verify|intros i].
      apply calmly_bindR; [apply calmly_bindR; [apply calmly_get_bytes|intros; apply calmly_ok]|intros oid].
      apply calmly_bindR; [apply calmly_object_seal|intros [dek so]].
      apply calmly_bindR; [exact (add_some _ _)|intros g]. apply calmly_bindR; [apply calmly_access_seal|intros sa].
      apply calmly_bindR; [apply calmly_put_object|intros _]. apply calmly_bindR; [apply calmly_put_access|intros _]. apply calmly_ok.
    - unfold d1_update. apply calmly_load. intros a g _. apply calmly_bindR; [apply calmly_object_seal|intros [dek so]].
      apply calmly_bindR; [apply calmly_access_seal|intros sa]. apply calmly_bindR; [apply calmly_put_object|intros _].
      apply calmly_bindR; [apply calmly_put_access|intros _]. apply calmly_ok.
    - unfold d1_decrypt. apply calmly_load. intros a g _. apply calmly_bindR; [apply calmly_get_object|intros so]. unfold object_unseal.
      apply calmly_bindR; [apply calmly_decrypt_json|intros; apply calmly_ok].
    - unfold d1_delete. apply calmly_bindR; [apply calmly_verify|intros i]. apply always_bind. eapply always_mono; [|apply calmly_get_access].
      intros [sa|x|] N; [|destruct x; cbn; discriminate|congruence]. apply calmly_bindR; [|intros a].
      { eapply always_mono; [|apply authorize_map]. now intros r [H _]. }
      apply calmly_bindR; [apply always_io, Hio|intros _]. apply calmly_bindR; [apply always_io, Hio|intros _]. apply calmly_ok.
    - unfold d1_get_access_groups. apply calmly_load. intros a g _. apply calmly_ok.
    - unfold d1_add_groups. apply calmly_load. intros a g Hg. rewrite Hg. apply calmly_bindR; [exact (add_some _ _)|intros g'].
      apply calmly_bindR; [apply calmly_access_seal|intros sa]. apply calmly_put_access.
    - unfold d1_remove_groups. apply calmly_load. intros a g Hg. apply calmly_bindR; [apply calmly_access_seal|intros sa]. apply calmly_put_access.
    - unfold d1_authorize. apply calmly_load. intros a g _. apply calmly_ok.
    - unfold d1_create_token. apply calmly_bind. intros t. apply calmly_token_seal.
    - unfold d1_get_token_contents. apply calmly_bindR; [apply calmly_token_unseal|intros; apply calmly_ok].
  Qed.
End D1.

(** ** The index *)
Section Index.
  Context {S I : Type} (e : env).
  Notation W := (world S I).
  Context (io : provider S) (idp : bytes -> prog W (res identity)).
  Context (Hio : steady io) (Hidp : forall tok, calmly (idp tok)).
  Section Keyword.
    Context (tk kek : bytes) (Htk : blen tk = 32).
    Lemma next_label_calm n : calmly (lift (next_label tk n) : prog W _).
    Proof. change (next_label tk n <> Panic). unfold next_label, tag, TagLength. rewrite (kmac256_ok tk Htk) by (rewrite ?Htk; lia). intros H. inversion H. Qed.
    Lemma calmly_put_node l sn u : calmly (put_sealed_node io l sn u : prog W _).
    Proof. unfold put_sealed_node. destruct u; apply calmly_map_err, always_io, Hio. Qed.
    Lemma calmly_node_seal n l : calmly (node_seal (aes_cryptor e kek) n l : prog W _).
    Proof. unfold node_seal. apply calmly_bindR; [apply calmly_encrypt_json|intros [wk ct]; apply calmly_ok]. Qed.
    Lemma calmly_next_node n : calmly (get_next_node e io tk kek n : prog W _).
    Proof.
      unfold get_next_node. apply calmly_bindR; [apply next_label_calm|intros l]. apply calmly_bindR; [|intros sn; unfold node_unseal; apply calmly_decrypt_json].
      unfold get_sealed_node. apply calmly_bindR; [apply calmly_map_err, always_io, Hio|intros b]. destruct (unmarshal _ _); cbn; discriminate.
    Qed.
    Lemma calmly_on_next {A} n (kk : res node -> prog W (res A)) : (forall r, r <> Panic -> calmly (kk r)) -> calmly (bind (get_next_node e io tk kek n) kk).
    Proof. intros H. apply always_bind. eapply always_mono; [|apply calmly_next_node]. exact H. Qed.
    Lemma calmly_last f : forall n, calmly (get_last_node e io tk kek f n : prog W _).
    Proof.
      induction f as [|f IH]; intros n; cbn [get_last_node]; [apply calmly_err|]. apply calmly_on_next. intros [next|x|] N; [apply IH|destruct x; cbn; discriminate|congruence].
    Qed.
    Lemma calmly_search f : forall n l, calmly (search_loop e io tk kek f n l : prog W _).
    Proof.
      induction f as [|f IH]; intros n l; cbn [search_loop]; [apply calmly_err|]. apply calmly_on_next. intros [next|x|] N; [apply IH|destruct x; cbn; discriminate|congruence].
    Qed.
    Lemma calmly_delete_node l n : calmly (delete_node e io tk kek l n : prog W _).
    Proof.
      unfold delete_node. apply calmly_on_next. intros [next|x|] N; [|destruct x; try apply calmly_err; apply always_io, Hio|congruence].
      apply calmly_bindR; [apply calmly_node_seal|intros sn]. apply calmly_bindR; [apply calmly_put_node|intros _].
      apply calmly_bindR; [apply next_label_calm|intros nl]. apply always_io, Hio.
    Qed.
    Lemma calmly_delete f : forall n y, calmly (delete_loop e io tk kek f n y : prog W _).
    Proof.
      induction f as [|f IH]; intros n y; cbn [delete_loop]; [apply calmly_err|]. apply calmly_on_next. intros [next|x|] N; [|destruct x; cbn; discriminate|congruence].
      destruct (bytes_eqb _ _); [|apply IH]. apply calmly_bindR; [apply next_label_calm|intros l]. apply calmly_bindR; [apply calmly_delete_node|intros _; apply IH].
    Qed.
  End Keyword.
  Context (iek : bytes) (Hiek : blen iek = 32) (fuel : nat).
  Lemma calmly_ix_verify tok : calmly (ix_verify idp tok).
  Proof.
    unfold ix_verify. apply always_bind. eapply always_mono; [|apply Hidp]. intros [i|x|] N; [destruct (scope_contains _ _); cbn; discriminate|cbn; discriminate|congruence].
  Qed.
  Lemma ix_calm c : calmly (ix_do e io idp iek fuel c).
  Proof.
    destruct c; cbn [ix_do]; apply calmly_ret_map; [unfold ix_add|unfold ix_search|unfold ix_delete]; (apply calmly_bindR; [apply calmly_ix_verify|intros _]);
      rewrite ix_keys_ok by exact Hiek; (apply (always_bindR (fun ks => blen (fst ks) = 32)); [discriminate| |intros [tk kek] Htk; cbn [fst] in Htk]).
    1,3,5: cbn [always lift]; (split; [intros H; inversion H|]); intros a H; injection H as <-; cbn [fst]; apply tkey_length.
    - apply calmly_bindR; [now apply calmly_last|intros last]. apply calmly_bindR; [now apply next_label_calm|intros l].
      apply calmly_bindR; [apply calmly_node_seal|intros sn]. apply calmly_put_node.
    - now apply calmly_search.
    - now apply calmly_delete.
  Qed.
End Index.

(** ** The identity provider *)
Section Standalone.
  Context {S I : Type} (e : env).
  Notation W := (world S I).
  Context (io : provider S) (k : sa_keys) (Hio : steady io).
  Notation uc := (aes_cryptor e (s_uek k) : cryptor W).
  Notation gc := (aes_cryptor e (s_gek k) : cryptor W).
  Notation tc := (aes_cryptor e (s_tek k) : cryptor W).

  Lemma calmly_get_user uid : calmly (get_user io uc uid).
  Proof.
    unfold get_user. apply calmly_bindR; [apply calmly_map_err, always_io, Hio|intros b]. destruct (unmarshal _ _); [apply calmly_decrypt_json|apply calmly_err].
  Qed.
  Lemma calmly_get_groups gids : forall acc, calmly (get_groups io gc gids acc).
  Proof.
    induction gids as [|g gids IH]; intros acc; cbn [get_groups]; [apply calmly_ok|]. apply calmly_bindR; [|intros; apply IH].
    unfold get_group. apply calmly_bindR; [apply calmly_map_err, always_io, Hio|intros b]. destruct (unmarshal _ _); [apply calmly_decrypt_json|apply calmly_err].
  Qed.
  (** The identity provider itself never panics. *)
  Lemma sa_idp_calm tok : calmly (sa_idp e io k tok : prog W _).
  Proof.
    unfold sa_idp, sa_get_identity, any_err. apply calmly_bindR; [|intros st].
    { apply calmly_map_err. cbn. unfold token_from_string. destruct (b64url_decode tok); [destruct (unmarshal _ _)|]; discriminate. }
    apply calmly_bindR; [apply calmly_map_err, calmly_token_unseal|intros t]. apply calmly_bindR; [apply calmly_get_user|intros u].
    apply calmly_bindR; [apply calmly_get_groups|intros; apply calmly_ok].
  Qed.
  Lemma calmly_put_user uid u b : calmly (put_user io uc uid u b).
  Proof.
    unfold put_user. apply calmly_bindR; [|intros su; destruct b; apply calmly_map_err, always_io, Hio].
    unfold user_seal. apply calmly_bindR; [apply calmly_encrypt_json|intros [wk ct]; apply calmly_ok].
  Qed.

  (** A user record such as the provider writes it. *)
  Definition sound_user (u : user) : Prop := (8 <= length (slice_bytes (u_hash u)))%nat /\ (exists g, u_groups u = Some g) /\ u_scopes u < 2 ^ 64.
  Definition EU (x : entry) : Prop := e_kek x = s_uek k ->
    aes_open (e_kek x) (e_aad x) (e_wk x) (e_ct x) = Ok (e_pt x) /\
    ((exists u, sound_user u /\ e_pt x = print (enc_user u)) \/ exists b, e_pt x = print (jbytes (Some b))).
  Notation safe p := (rg EU p (fun r => r <> Panic)).
  Context (Hug : s_gek k <> s_uek k).

  Lemma rg_and {B} (p : prog W B) (P Q : B -> Prop) : rg EU p P -> always Q p -> rg EU p (fun b => P b /\ Q b).
  Proof.
    induction p as [a|X f c IH]; cbn [rg always]; [auto|]. intros H1 H2 w HE Hf. destruct (H1 w HE Hf) as [C|[C1 C2]]; auto.
  Qed.
  Lemma safe_calm {B} (p : prog W (res B)) (P : res B -> Prop) : rg EU p P -> calmly p -> safe p.
  Proof. intros H1 H2. eapply rg_mono; [|exact (rg_and _ _ _ H1 H2)]. now intros a [_ H]. Qed.
  Lemma safe_bindR {A B} (P : A -> Prop) (p : prog W (res A)) (kk : A -> prog W (res B)) :
    rg EU p (fun r => r <> Panic /\ forall a, r = Ok a -> P a) -> (forall a, P a -> safe (kk a)) -> safe (bindR p kk).
  Proof. intros H1 H2. apply rg_bindR. eapply rg_mono; [|exact H1]. intros [a|x|] [N HP]; [auto|discriminate|congruence]. Qed.
  Lemma safe_bindT {A B} (p : prog W (res A)) (kk : A -> prog W (res B)) : safe p -> (forall a, safe (kk a)) -> safe (bindR p kk).
  Proof. intros H1 H2. apply (safe_bindR (fun _ => True)); [|auto]. eapply rg_mono; [|exact H1]. auto. Qed.
  Lemma safe_map_err {A} f (p : prog W (res A)) (P : A -> Prop) : rg EU p (fun r => r <> Panic /\ forall a, r = Ok a -> P a) ->
    rg EU (map_err f p) (fun r => r <> Panic /\ forall a, r = Ok a -> P a).
  Proof. intros H. unfold map_err. apply rg_bind. eapply rg_mono; [|exact H]. intros [a|x|] [N HP]; cbn; split; try discriminate; congruence || auto. Qed.
  Lemma safe_map_errT {A} f (p : prog W (res A)) : safe p -> safe (map_err f p).
  Proof. intros H. unfold map_err. apply rg_bind. eapply rg_mono; [|exact H]. intros [a|x|] N; cbn; congruence. Qed.
  Lemma safe_ret_map {A B} (f : A -> B) (p : prog W (res A)) : safe p -> safe (ret_map f p).
  Proof. intros H. unfold ret_map. apply rg_bind. eapply rg_mono; [|exact H]. intros [a|x|] N; cbn; congruence. Qed.
  Lemma safe_io {B} (p : prog S (res B)) : calmly p -> safe (on_io p : prog W _).
  Proof. intros H. eapply safe_calm; [apply rg_onio|now apply always_io]. Qed.
  Lemma safe_dec {A} kek (dec : json -> option A) a wk ct : safe (decrypt_json (aes_cryptor e kek) dec a wk ct : prog W _).
  Proof.
    eapply (safe_calm _ (fun _ => True)); [|apply calmly_decrypt_json]. unfold decrypt_json. apply rg_bindR. eapply rg_mono; [|apply rg_aes_dec]. intros [pt|x|] _; auto.
    destruct (unmarshal dec pt); exact Logic.I.
  Qed.
  Lemma safe_enc kek a b : (kek = s_uek k -> (exists u, sound_user u /\ a = enc_user u) \/ exists x, a = jbytes (Some x)) ->
    safe (encrypt_json (aes_cryptor e kek) a b : prog W _).
  Proof.
    intros H. eapply safe_calm; [|apply calmly_encrypt_json]. apply rg_aes_enc. intros wk ct Ho Hk. cbn [e_kek e_aad e_wk e_ct e_pt] in *.
    split; [exact Ho|]. destruct (H Hk) as [(u & Hu & ->)|(x & ->)]; eauto.
  Qed.
  Lemma safe_get_user uid : rg EU (get_user io uc uid) (fun r => r <> Panic /\ forall u, r = Ok u -> sound_user u).
  Proof.
    enough (R : rg EU (get_user io uc uid) (fun r => forall u, r = Ok u -> sound_user u)).
    { eapply rg_mono; [|exact (rg_and _ _ _ R (calmly_get_user uid))]. now intros r [H1 H2]. }
    unfold get_user. apply rg_bindR. eapply rg_mono; [|apply rg_map_err, rg_onio]. intros [b|x|] _; try discriminate.
    destruct (unmarshal _ _) as [su|]; [|discriminate]. unfold user_unseal.
    eapply rg_mono; [|apply (rg_decrypt_json e EU (fun x => x = s_uek k)); [|reflexivity]].
    2:{ intros x Hx Hk. now apply Hx. }
    intros r Hr u ->. destruct (Hr _ eq_refl) as (x & Hx & Hk & _ & Hu). destruct (Hx Hk) as [_ [(v & (V1 & (g & V2) & V3) & Hp)|(b' & Hp)]]; rewrite Hp in Hu.
    - rewrite user_roundtrip in Hu by exact V3. injection Hu as <-. split; [exact V1|]. split; [cbn [u_groups]; rewrite V2; cbn; eauto|exact V3].
    - rewrite unmarshal_print in Hu by apply jbytes_wf. discriminate.
  Qed.
  Lemma safe_put_user uid u b : sound_user u -> safe (put_user io uc uid u b).
  Proof.
    intros Hu. unfold put_user. apply safe_bindT; [|intros su; destruct b; apply safe_map_errT, safe_io, Hio].
    unfold user_seal. apply safe_bindT; [apply safe_enc; eauto|intros [wk ct]; discriminate].
  Qed.
  Lemma safe_put_group gid g : safe (put_group io gc gid g).
  Proof.
    unfold put_group. apply safe_bindT; [|intros su; apply safe_map_errT, safe_io, Hio].
    unfold group_seal. apply safe_bindT; [apply safe_enc; congruence|intros [wk ct]; discriminate].
  Qed.
  Lemma safe_get_groups gids : forall acc, safe (get_groups io gc gids acc).
  Proof.
    induction gids as [|g gids IH]; intros acc; cbn [get_groups]; [discriminate|]. apply safe_bindT; [|intros; apply IH].
    unfold get_group. apply safe_bindT; [apply safe_map_errT, safe_io, Hio|intros b]. destruct (unmarshal _ _); [apply safe_dec|discriminate].
  Qed.
  Lemma safe_identity tok : safe (sa_get_identity e io uc gc tc tok).
  Proof.
    unfold sa_get_identity, any_err. apply safe_bindT; [|intros st].
    { cbn. unfold token_from_string. destruct (b64url_decode tok); [destruct (unmarshal _ _)|]; discriminate. }
    apply safe_bindT; [apply safe_map_errT|intros t].
    { unfold token_unseal. apply rg_bind. eapply rg_mono; [|apply rg_time]. intros now _. destruct (time_before _ _); [discriminate|]. destruct (enc_time _); [|discriminate].
      apply safe_bindT; [apply safe_dec|discriminate]. }
    apply safe_bindT; [eapply rg_mono; [|apply safe_get_user]; now intros r [H _]|intros u]. apply safe_bindT; [apply safe_get_groups|discriminate].
  Qed.
  Lemma safe_bytes n : safe (get_bytes e n : prog W _).
  Proof. eapply safe_calm; [apply rg_get_bytes|apply calmly_get_bytes]. Qed.
  Lemma safe_v4 : safe (new_v4 e : prog W _).
  Proof. unfold new_v4. apply safe_bindT; [apply safe_bytes|discriminate]. Qed.
  Lemma safe_password : rg EU (generate_password e : prog W _) (fun r => r <> Panic /\ forall p, r = Ok p -> (8 <= length (snd p))%nat).
  Proof.
    unfold generate_password. apply rg_bindR. eapply rg_mono; [|apply safe_bytes]. intros [raw|x|] N; [|split; discriminate|congruence].
    apply rg_bindR. eapply rg_mono; [|exact (rg_and _ _ _ (rg_get_bytes EU e _) (calmly_get_bytes e _))]. intros [salt|x|] [Hs N2]; [|split; discriminate|congruence].
    cbn. split; [discriminate|]. intros p [= <-]. cbn [snd]. specialize (Hs _ eq_refl). unfold blen, saltLength in Hs. rewrite app_length. lia.
  Qed.
  Lemma sound_compare u pw : sound_user u -> authenticate e u pw <> Panic.
  Proof.
    intros (H & _). unfold authenticate, compare_password. rewrite go_to_ok, go_from_ok by (unfold saltLength; lia). cbn [res_bind]. destruct (bytes_eqb _ _); discriminate.
  Qed.
  Lemma sa_safe c : sa_call_wf c -> safe (sa_aes e io k c : prog W _).
  Proof.
    intros Hwf. unfold sa_aes. destruct c; cbn [sa_do]; apply safe_ret_map.
    - unfold sa_new_user, new_user. apply safe_bindT; [apply safe_v4|intros uid]. apply (safe_bindR (fun up => sound_user (fst up))).
      + apply rg_bindR. eapply rg_mono; [|apply safe_password]. intros [[pwd rec]|x|] [N HP]; [|split; discriminate|congruence].
        cbn. split; [discriminate|]. intros a [= <-]. cbn [fst]. split; [exact (HP _ eq_refl)|]. split; [cbn; eauto|]. cbn. now apply union_lt.
      + intros [u pwd] Hu. apply safe_bindT; [now apply safe_put_user|discriminate].
    - unfold sa_login, any_err. apply safe_map_errT. eapply safe_bindR; [apply safe_get_user|]. intros u Hu. cbn beta.
      apply safe_bindT; [cbn; now apply sound_compare|intros _].
      apply rg_bind. unfold new_token. apply rg_bind. eapply rg_mono; [|apply rg_time]. intros now _. cbn [rg].
      apply safe_bindT; [|intros st].
      + unfold token_seal. destruct (enc_time _); [|discriminate]. apply safe_bindT; [apply safe_enc; cbn; eauto|intros [? ?]; discriminate].
      + cbn. unfold token_string. destruct (enc_sealed_token st); discriminate.
    - unfold sa_change_password, any_err. eapply safe_bindR; [apply safe_map_err, safe_get_user|]. intros u Hu. cbn beta.
      apply (safe_bindR (fun up => sound_user (fst up))); [apply safe_map_err|intros [u' pwd] Hu'; apply safe_bindT; [now apply safe_put_user|discriminate]].
      unfold change_password. apply rg_bindR. cbn [lift rg]. pose proof (sound_compare u old Hu) as HA. destruct (authenticate e u old); [|split; discriminate|congruence].
      apply rg_bindR. eapply rg_mono; [|apply safe_password]. intros [[pwd rec]|x|] [N HP]; [|split; discriminate|congruence].
      cbn. split; [discriminate|]. intros b [= <-]. cbn [fst]. destruct Hu as (_ & Hg & Hs). split; [exact (HP _ eq_refl)|]. split; assumption.
    - unfold sa_add_user. apply safe_bindT; [apply safe_identity|intros i]. destruct (negb _); [discriminate|].
      eapply safe_bindR; [apply safe_get_user|]. intros u (Hh & (g & Hg) & Hs). cbn beta. rewrite Hg.
      apply (safe_bindR (fun gs => exists g', gs = Some g')).
      + cbn. destruct gids; cbn; (split; [discriminate|]); intros a [= <-]; eauto.
      + intros gs Hgs. apply safe_put_user. split; [exact Hh|]. split; assumption.
    - unfold sa_remove_user. apply safe_bindT; [apply safe_identity|intros i]. destruct (negb _); [discriminate|].
      eapply safe_bindR; [apply safe_get_user|]. intros u (Hh & (g & Hg) & Hs). cbn beta. rewrite Hg. apply safe_put_user. split; [exact Hh|]. split; [cbn; eauto|assumption].
    - unfold sa_delete_user. apply safe_bindT; [apply safe_identity|intros i]. apply safe_io, Hio.
    - unfold sa_new_group. apply safe_bindT; [apply safe_identity|intros i]. apply safe_bindT; [apply safe_v4|intros gid].
      apply safe_bindT; [apply safe_put_group|intros _]. eapply safe_bindR; [apply safe_get_user|]. intros u (Hh & (g & Hg) & Hs). cbn beta. rewrite Hg.
      apply (safe_bindR (fun gs => exists g', gs = Some g')).
      + cbn. split; [discriminate|]. intros a [= <-]; eauto.
      + intros gs Hgs. apply safe_bindT; [apply safe_put_user|discriminate]. split; [exact Hh|]. split; assumption.
    - apply safe_identity.
  Qed.
  Lemma sa_exec (calls : list sa_call) (w : W) pool' w' : List.Forall sa_call_wf calls -> List.Forall (fun x => e_kek x <> s_uek k) (w_log w) ->
    exec (fun x => x = s_uek k) (map (sa_aes e io k) calls) w pool' w' -> w_forged w' = false -> forall t, pool' !! t <> Some (Ret Panic).
  Proof.
    intros Hwf Hl H Hf t Ht. rewrite List.Forall_forall in Hwf.
    destruct (exec_sound _ EU (fun _ p => safe p) _ _ _ _ H) as [C|[_ C]].
    - intros x Hx Hk. contradiction.
    - intros t' p Hp. apply map_lookup_Some in Hp as (c & -> & _). apply fmono_sa.
    - intros _. split.
      + eapply List.Forall_impl; [|exact Hl]. intros x Hx Hk. contradiction.
      + intros t' p Hp. apply map_lookup_Some in Hp as (c & -> & Hc). apply sa_safe, Hwf. eapply elem_of_list_In, elem_of_list_lookup_2, Hc.
    - intros t'. apply rg_kept.
    - congruence.
    - specialize (C _ _ Ht). now apply C.
  Qed.
End Standalone.

Section Pools.
  Context {S I : Type} (e : env).
  Notation W := (world S I).
  Context (io : provider S) (idp : bytes -> prog W (res identity)) (Hio : steady io) (Hidp : forall tok, calmly (idp tok)).
  Lemma calm_pool {A B} K (f : A -> prog W (res B)) (calls : list A) (w : W) pool' w' : (forall c, calmly (f c)) ->
    exec K (map f calls) w pool' w' -> forall t, pool' !! t <> Some (Ret Panic).
  Proof.
    intros Hf H t Ht. refine (always_exec K (fun r => r <> Panic) _ _ _ _ H _ t _ Ht eq_refl).
    intros t' p Hp. apply map_lookup_Some in Hp as (c & -> & _). apply Hf.
  Qed.
End Pools.

(** ** A group record in place of a user record *)
Section Transplant.
  Context {S I : Type} (v : view S) (k : sa_keys).
  Notation W := (world S I).
  (** Storage was rewritten: the slot of user [uid] now holds the record of group [gid] with its
      fields renamed to those of a user record.  Nothing else happened. *)
  Definition transplanted (w w' : W) (gid uid : bytes) : Prop :=
    exists b sg, v_map v (w_io w) gid DataTypeSealedGroup = Some b /\ unmarshal dec_sealed_group b = Some sg /\ v_inv v (w_io w') /\
    seq (v_map v (w_io w')) (upd (v_map v (w_io w)) uid DataTypeSealedUser (Some (print (enc_sealed_user (mkSealedUser (sg_gid sg) (sg_ct sg) (sg_wk sg)))))) /\
    w_log w' = w_log w /\ w_draws w' = w_draws w /\ w_ticks w' = w_ticks w /\ w_forged w' = w_forged w.
  Lemma group_as_user s : s < 2 ^ 64 -> unmarshal dec_user (print (enc_group (mkGroup s))) = Some (mkUser None s None).
  Proof.
    intros H. rewrite unmarshal_print by (now apply enc_group_wf). unfold enc_group, dec_user. rewrite canon_members. cbn [members obind map].
    unfold cmember. cbn [fst snd g_scopes]. fields. now rewrite dec_uint64_canon by assumption.
  Qed.
  Lemma transplant_login (e : env) (io : provider S) (Hio : io_spec False v io) (Hc : forall n, time_wf (clock e n)) (w0 w w' : W) evs d gid s uid pw r w'' :
    s_gek k = s_uek k -> sa_fresh v k w0 -> sa_run e io k (sa_elsewhere v k) w0 evs w -> w_forged w = false -> sa_history dir_empty evs d ->
    d_groups d !! gid = Some s -> transplanted w w' gid uid ->
    run (sa_aes e io k (SLogin uid pw)) w' = (r, w'') -> w_forged w'' = false /\ r = Panic.
  Proof.
    intros Hk Hf HR Hn Hd Hg (b & sg & Hb & Hsg & Hi' & Hm' & Hl' & _ & _ & Hf') Hr.
    destruct (refine_fresh e v io Hio k Hc w0 evs w Hf HR Hn) as (d1 & H1 & (_ & m & (Hi & Hm) & (_ & R2) & _)).
    rewrite <- (history_next _ _ _ _ unique_empty Hd H1) in R2. specialize (R2 gid). rewrite Hg in R2. destruct R2 as (b1 & B1 & (gid' & wk & ct & Hs & Hu & Hlt & Ho) & Hlog).
    rewrite Hm, B1 in Hb. injection Hb as ->. rewrite Hs in Hsg. injection Hsg as <-. cbn [sg_gid sg_ct sg_wk] in Hm'.
    specialize (Hlog _ Hs). cbn [sg_gid sg_ct sg_wk slice_bytes] in Hlog. rewrite Hk in *.
    set (su := mkSealedUser gid' (Some ct) (Some wk)) in *.
    set (m' := v_map v (w_io w')).
    assert (Es : unmarshal dec_sealed_user (print (enc_sealed_user su)) = Some su) by (rewrite sealed_user_roundtrip; cbn [su su_uid su_ct su_wk]; now rewrite sanitize_valid by exact Hu).
    assert (E0 : m' uid DataTypeSealedUser = Some (print (enc_sealed_user su))) by (unfold m'; rewrite Hm'; unfold upd; rewrite (proj2 (bytes_eqb_eq uid uid) eq_refl), N.eqb_refl; reflexivity).
    assert (HH : holds v m' w') by (split; [exact Hi'|intros ? ?; reflexivity]).
    assert (HL : forall b', m' uid DataTypeSealedUser = Some b' -> user_logged k (w_log w') b').
    { intros b' Eb su' E. rewrite E0 in Eb. assert (b' = print (enc_sealed_user su)) as -> by congruence. rewrite Es in E. assert (su' = su) as -> by congruence.
      rewrite Hl'. exact Hlog. }
    pose proof (wpc_end _ _ _ _ (get_user_post e False v io Hio k uid w' m' HH HL)) as P.
    unfold sa_aes in Hr. cbn [sa_do] in Hr. unfold ret_map, sa_login, any_err, map_err, bindR in Hr. rewrite !run_bind in Hr.
    destruct (run (get_user io (aes_cryptor e (s_uek k)) uid) w') as [r1 w1] eqn:E1. cbn [fst snd] in *. destruct P as (_ & K & P).
    rewrite E0 in P. unfold user_open in P. rewrite Es in P. cbn [su su_uid su_ct su_wk] in P.
    rewrite (open_json_ok _ _ _ _ _ _ _ Ho (group_as_user s Hlt)) in P. destruct P as [->|[[] _]].
    cbn [run bind lift] in Hr. unfold authenticate, compare_password in Hr. cbn [u_hash slice_bytes] in Hr.
    change (go_to (Z.of_nat saltLength) []) with (@Panic bytes) in Hr. cbn in Hr. injection Hr as <- <-. split; [|reflexivity]. rewrite <- Hn, <- Hf'. apply K.
  Qed.
End Transplant.
