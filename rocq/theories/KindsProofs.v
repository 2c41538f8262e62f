(** The encodings of the six kinds do not meet. *)
From stdpp Require Import gmap.
From Coq Require Import ZifyN ZifyNat.
From Verif Require Import Bytes Base64 Base64Proofs Go Json JsonProofs Uuid UuidProofs Time TimeProofs Types TypesProofs World
  Gcm Kwp Cryptor CryptorProofs Id Data D1 D1Sched Standalone StandaloneProofs Kinds Demo.
Local Open Scope bool_scope.
Local Open Scope N_scope.

Definition item_pt (it : item) : json :=
  match it with
  | TObject o _ => jbytes (o_pt o)
  | TAccess a _ => enc_access a
  | TToken t => jbytes (t_pt t)
  | TNode n _ => enc_node n
  | TUser u _ => enc_user u
  | TGroup g _ => enc_group g
  end.
Definition item_aad (it : item) (j : json) : Prop :=
  match it with
  | TObject o oid => j = object_aad oid (o_ad o)
  | TAccess _ oid => j = access_aad oid
  | TToken t => enc_time (t_exp t) = Some j
  | TNode _ label => j = jbytes (Some label)
  | TUser _ uid => j = JStr uid
  | TGroup _ gid => j = JStr gid
  end.

Section Seal.
  Context {S I : Type} (e : env).
  Notation W := (world S I).
  Lemma enc_log kek a b (w : W) wc w' : run (encrypt_json (aes_cryptor e kek) a b) w = (Ok wc, w') ->
    w_log w' = mkEntry kek (print b) (fst wc) (snd wc) (print a) :: w_log w.
  Proof.
    assert (G : forall n (w : W) r w', run (get_bytes e n) w = (r, w') -> w_log w' = w_log w) by (intros n w0 r w0' H; injection H as _ <-; reflexivity).
    unfold encrypt_json. cbn [c_enc aes_cryptor]. unfold aes_enc, bindR. rewrite run_bind.
    destruct (run (get_bytes e EncryptionKeyLength) w) as [[key|x|] w1] eqn:E1; cbn [run]; try discriminate. rewrite run_bind.
    destruct (run (get_bytes e (N.of_nat nonceLength)) w1) as [[nonce|x|] w2] eqn:E2; cbn [run]; try discriminate. cbn [lift run bind].
    destruct (aes_gcm_encrypt _ _ _ _) as [ct|x|]; cbn [run bind]; try discriminate.
    destruct (aes_kwp_wrap _ _) as [wk|x|]; cbn [run bind]; try discriminate. cbn [act run bind fst snd]. intros H. injection H as <- <-. cbn [w_log set_log fst snd].
    now rewrite (G _ _ _ _ E2), (G _ _ _ _ E1).
  Qed.
  Lemma seal_log {A B} kek a b (f : bytes * bytes -> prog W (res A)) (g : A -> B) (w : W) r w' x : (forall wk ct, exists y, f (wk, ct) = Ret (Ok y)) ->
    run (ret_map g (bindR (encrypt_json (aes_cryptor e kek) a b) f)) w = (Ok r, w') -> w_log w' = x :: w_log w ->
    e_kek x = kek /\ e_pt x = print a /\ e_aad x = print b.
  Proof.
    intros Hf. unfold ret_map, bindR. rewrite !run_bind. destruct (run (encrypt_json (aes_cryptor e kek) a b) w) as [[[wk ct]|y|] w1] eqn:E; cbn [run]; [|discriminate..].
    destruct (Hf wk ct) as [y ->]. cbn [run]. intros H1 H2. injection H1 as _ <-. rewrite (enc_log _ _ _ _ _ _ E) in H2. injection H2 as <-. auto.
  Qed.
  Lemma sealed_entry kek it x : sealed_as (S := S) (I := I) e kek it x -> e_kek x = kek /\ e_pt x = print (item_pt it) /\ exists j, item_aad it j /\ e_aad x = print j.
  Proof.
    intros (w & w' & Hr & Hl). destruct it as [o oid|a oid|t|n label|u uid|g gid]; cbn [seal_item item_pt item_aad] in *.
    3:{ unfold token_seal in Hr. destruct (enc_time (t_exp t)) as [j|]; [|discriminate]. apply seal_log with (x := x) in Hr as (? & ? & ?); eauto. }
    all: apply seal_log with (x := x) in Hr as (? & ? & ?); eauto.
  Qed.
End Seal.

Lemma set_jwf s : jwf (enc_set s).
Proof. apply enc_set_wf. Qed.
Lemma item_pt_wf it : item_wf it -> jwf (item_pt it).
Proof.
  destruct it; cbn [item_wf item_pt]; intros H; try apply jbytes_wf.
  - cbn; repeat split; auto using jbytes_wf, enc_set_wf.
  - pose proof (jnum_wf _ H). cbn in *. tauto.
  - now apply enc_user_wf.
  - now apply enc_group_wf.
Qed.
Lemma item_aad_wf it j : item_aad it j -> jwf j.
Proof.
  destruct it; cbn [item_aad]; intros H; subst; try apply jbytes_wf; try exact Logic.I.
  eapply enc_time_wf; eauto.
Qed.

Lemma norm_set_text g : match g with Some g => forall x, x ∈ g -> valid_utf8 x = true | None => True end -> norm_set g = g.
Proof. intros H. apply norm_set_valid. exact H. Qed.

Lemma kinds_apart a b ja jb : item_wf a -> item_wf b -> item_aad a ja -> item_aad b jb ->
  print (item_pt a) = print (item_pt b) -> print ja = print jb -> same_kind (name_of a) (name_of b).
Proof.
  intros Wa Wb Ha Hb Hp Hj. apply print_inj in Hp; [|now apply item_pt_wf..].
  assert (B : forall s, canon (jbytes s) = match s with Some b => JStr (sanitize (b64std_encode b)) | None => JNull end) by now intros [].
  destruct a, b; cbn [name_of same_kind item_pt item_aad] in *; try exact Logic.I; rewrite ?B in Hp; subst.
  all: try (destruct (o_pt _); discriminate); try (destruct (t_pt _); discriminate); try discriminate.
  - exfalso. symmetry in Hj. exact (time_not_bytes _ _ _ Hb Hj).
  - exfalso. exact (time_not_bytes _ _ _ Ha Hj).
Qed.

Lemma names_bound a b ja jb : item_wf a -> item_wf b -> item_text a -> item_text b -> item_aad a ja -> item_aad b jb ->
  same_kind (name_of a) (name_of b) -> print ja = print jb -> name_of a = name_of b.
Proof.
  intros Wa Wb Ta Tb Ha Hb Hk Hj. destruct a, b; cbn [name_of same_kind item_aad item_wf item_text] in *; try contradiction; subst.
  - destruct (object_aad_inj _ _ _ _ Wa Wb Hj) as [-> ->]. reflexivity.
  - now rewrite (access_aad_inj _ _ Hj).
  - now rewrite (time_aad_inj _ _ _ _ Wa Wb Ha Hb Hj).
  - apply print_jbytes_inj in Hj. congruence.
  - apply print_inj in Hj; [|exact Logic.I..]. change (JStr (sanitize uid) = JStr (sanitize uid0)) in Hj. rewrite !sanitize_valid in Hj by tauto. congruence.
  - apply print_inj in Hj; [|exact Logic.I..]. change (JStr (sanitize gid) = JStr (sanitize gid0)) in Hj. rewrite !sanitize_valid in Hj by tauto. congruence.
Qed.
Lemma contents_bound a b : item_wf a -> item_wf b -> item_text a -> item_text b ->
  same_kind (name_of a) (name_of b) -> print (item_pt a) = print (item_pt b) -> same_content a b.
Proof.
  intros Wa Wb Ta Tb Hk Hp. destruct a, b; cbn [name_of same_kind item_pt item_wf item_text same_content] in *; try contradiction.
  - now apply print_jbytes_inj in Hp.
  - pose proof (access_roundtrip a) as E. rewrite Hp, access_roundtrip, !norm_set_text in E by assumption. destruct a, a0. cbn in E. congruence.
  - now apply print_jbytes_inj in Hp.
  - pose proof (node_roundtrip n Wa) as E. rewrite Hp, node_roundtrip, !sanitize_valid in E by assumption. destruct n, n0. cbn in E. congruence.
  - pose proof (user_roundtrip u Wa) as E. rewrite Hp, user_roundtrip, !norm_set_text in E by tauto. destruct u, u0. cbn in E. congruence.
  - pose proof (group_roundtrip g Wa) as E. rewrite Hp, group_roundtrip in E by assumption. congruence.
Qed.

Section Entries.
  Context {S I : Type} (e : env).
  Notation sealed := (sealed_as (S := S) (I := I) e).
  Lemma entries_kinds k1 k2 a b x y : item_wf a -> item_wf b -> sealed k1 a x -> sealed k2 b y ->
    e_pt x = e_pt y -> e_aad x = e_aad y -> same_kind (name_of a) (name_of b).
  Proof.
    intros Wa Wb Ha Hb Hp Hj. apply sealed_entry in Ha as (_ & Pa & ja & Ja & Aa). apply sealed_entry in Hb as (_ & Pb & jb & Jb & Ab).
    eapply kinds_apart; [exact Wa|exact Wb|exact Ja|exact Jb|congruence..].
  Qed.
  Lemma entries_names k1 k2 a b x y : item_wf a -> item_wf b -> item_text a -> item_text b -> sealed k1 a x -> sealed k2 b y ->
    same_kind (name_of a) (name_of b) -> e_aad x = e_aad y -> name_of a = name_of b.
  Proof.
    intros Wa Wb Ta Tb Ha Hb Hk Hj. apply sealed_entry in Ha as (_ & Pa & ja & Ja & Aa). apply sealed_entry in Hb as (_ & Pb & jb & Jb & Ab).
    apply (names_bound a b ja jb); auto. congruence.
  Qed.
  Lemma entries_contents k1 k2 a b x y : item_wf a -> item_wf b -> item_text a -> item_text b -> sealed k1 a x -> sealed k2 b y ->
    same_kind (name_of a) (name_of b) -> e_pt x = e_pt y -> same_content a b.
  Proof.
    intros Wa Wb Ta Tb Ha Hb Hk Hj. apply sealed_entry in Ha as (_ & Pa & ja & Ja & Aa). apply sealed_entry in Hb as (_ & Pb & jb & Jb & Ab).
    apply contents_bound; auto. congruence.
  Qed.
  Lemma object_names k1 k2 o1 o2 oid1 oid2 x y : uuid_wf oid1 -> uuid_wf oid2 -> sealed k1 (TObject o1 oid1) x -> sealed k2 (TObject o2 oid2) y ->
    (e_aad x = e_aad y <-> oid1 = oid2 /\ slice_bytes (o_ad o1) = slice_bytes (o_ad o2)).
  Proof.
    intros Wa Wb Ha Hb. apply sealed_entry in Ha as (_ & Pa & ja & Ja & Aa). apply sealed_entry in Hb as (_ & Pb & jb & Jb & Ab).
    cbn [item_aad] in *. subst. rewrite Aa, Ab. split; [now apply object_aad_inj|]. intros [-> E]. unfold object_aad. now rewrite E.
  Qed.
End Entries.

(** With a working random source everything but a token of the distant past or future can be sealed. *)
Section Works.
  Context {S I : Type} (e : env) (Hr : forall i n, exists b, draw e i n = Ok b).
  Notation W := (world S I).
  Lemma enc_works kek a b (w : W) : exists wc w', run (encrypt_json (aes_cryptor e kek) a b) w = (Ok wc, w').
  Proof.
    unfold encrypt_json. cbn [c_enc aes_cryptor]. unfold aes_enc, bindR. rewrite run_bind.
    assert (G : forall n (w : W), exists x w', run (get_bytes e n) w = (Ok x, w') /\ length x = N.to_nat n).
    { intros n w0. unfold get_bytes, act. cbn [run]. destruct (Hr (w_draws w0) n) as [x E]. exists x. eexists. rewrite E. split; [reflexivity|].
      unfold draw in E. destruct (tape e _ _); [|discriminate]. destruct (N.eqb_spec (blen b0) n) as [L|]; [|discriminate]. injection E as <-. unfold blen in L. lia. }
    destruct (G EncryptionKeyLength w) as (key & w1 & -> & Lk). rewrite run_bind. destruct (G (N.of_nat nonceLength) w1) as (nonce & w2 & -> & Ln).
    destruct (aes_seal_open kek (print a) (print b) key nonce Lk Ln) as (wk & ct & Hs & _). unfold aes_seal in Hs. cbn [lift run bind].
    destruct (aes_gcm_encrypt _ _ _ _) as [ct'|x|]; cbn [res_bind run bind] in *; try discriminate.
    destruct (aes_kwp_wrap _ _) as [wk'|x|]; cbn [res_bind run bind] in *; try discriminate. cbn [act run bind]. eauto.
  Qed.
  Lemma seal_works kek it (w : W) : (forall t, it = TToken t -> time_text (t_exp t) <> None) -> exists x, sealed_as (S := S) (I := I) e kek it x.
  Proof.
    intros Ht. unfold sealed_as.
    assert (G : forall A (f : bytes * bytes -> prog W (res A)) a b, (forall wk ct, exists y, f (wk, ct) = Ret (Ok y)) ->
      exists x w', run (ret_map (fun _ : A => tt) (bindR (encrypt_json (aes_cryptor e kek) a b) f)) w = (Ok tt, w') /\ w_log w' = x :: w_log w).
    { intros A f a b Hf. destruct (enc_works kek a b w) as ([wk ct] & w' & E). eexists _, w'. unfold ret_map, bindR. rewrite !run_bind, E. destruct (Hf wk ct) as [y ->].
      split; [reflexivity|]. exact (enc_log _ _ _ _ _ _ _ E). }
    assert (H : forall p, (exists x w', run p w = (Ok tt, w') /\ w_log w' = x :: w_log w) -> exists x (w0 w' : W), run p w0 = (Ok tt, w') /\ w_log w' = x :: w_log w0)
      by (intros p (x & w' & E); exists x, w, w'; exact E).
    destruct it as [o oid|a oid|t|n label|u uid|g gid]; cbn [seal_item]; apply H.
    3:{ unfold token_seal. specialize (Ht t eq_refl). unfold enc_time. destruct (time_text (t_exp t)); [|congruence]. apply G. eauto. }
    all: apply G; eauto.
  Qed.
End Works.
