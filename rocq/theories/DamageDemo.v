(** Concrete cases of C82. *)
From stdpp Require Import gmap.
From Verif Require Import Bytes Go Json Uuid Types World Logic Kwp Gcm GcmSpec Cryptor Io IoSpec IoProofs Id Data D1 Demo DamageSpec.
Local Open Scope bool_scope.
Local Open Scope N_scope.

(** Another first byte. *)
Definition flip (b : bytes) : bytes := match b with x00 :: r => x01 :: r | _ :: r => x00 :: r | [] => [] end.
Lemma flip_block b : b <> [] -> differ_in_one_block b (flip b).
Proof.
  destruct b as [|x r]; [congruence|]. intros _. exists [], [x], [match x with x00 => x01 | _ => x00 end], r.
  split; [reflexivity|]. split; [destruct x; reflexivity|]. split; [destruct x; discriminate|]. repeat split. cbn. lia.
Qed.
Lemma flip_differs b : b <> [] -> b <> flip b.
Proof. destruct b as [|x r]; [congruence|]. intros _. destruct x; discriminate. Qed.

Definition dm_oid : uuid := uuid_v4 (repeat x00 16).
Definition dm_w : DW := snd (run (d1_aes demo_env Mem demo_idp demo_d1 (CEncrypt tok_alice demo_obj [])) demo_w).
(** The stored records, and the parts of a ciphertext. *)
Definition dm_so (m : gmap bytes bytes) : option sealed_object := match m !! mem_key dm_oid DataTypeSealedObject with Some b => unmarshal dec_sealed_object b | None => None end.
Definition dm_sa (m : gmap bytes bytes) : option sealed_access := match m !! mem_key dm_oid DataTypeSealedAccess with Some b => unmarshal dec_sealed_access b | None => None end.
Definition cut_body (ct : bytes) : bytes := firstn (length ct - 28) ct.
Definition cut_tag (ct : bytes) : bytes := firstn 16 (skipn (length ct - 28) ct).
Definition cut_nonce (ct : bytes) : bytes := skipn 16 (skipn (length ct - 28) ct).

(** Whether records and keys are as they should be. *)
Definition so_test (m : gmap bytes bytes) (body tag nonce ad : bytes) : bool :=
  match dm_so m with Some so => bytes_eqb (slice_bytes (so_ct so)) (framed body tag nonce) && bytes_eqb (slice_bytes (so_ad so)) ad | None => false end.
Definition sa_test (m : gmap bytes bytes) (body tag nonce wk : bytes) : bool :=
  match dm_sa m with Some sa => bytes_eqb (slice_bytes (sa_ct sa)) (framed body tag nonce) && bytes_eqb (slice_bytes (sa_wk sa)) wk | None => false end.
Definition nonzero (key : res bytes) : bool := match key with Ok key => negb (bytes_eqb (subkey key) (zeros 16)) | _ => true end.
Definition key_test (m : gmap bytes bytes) : bool :=
  match dm_sa m with
  | Some sa => match aes_open (d_aek demo_d1) (print (access_aad dm_oid)) (slice_bytes (sa_wk sa)) (slice_bytes (sa_ct sa)) with
      | Ok pt => match unmarshal dec_access pt with Some a => nonzero (aes_kwp_unwrap (d_kek demo_d1) (slice_bytes (a_dek a))) | None => true end
      | _ => true
      end
  | None => true
  end.
Definition put_so (m : gmap bytes bytes) (ct : bytes) (so : sealed_object) : gmap bytes bytes :=
  <[mem_key dm_oid DataTypeSealedObject := print (enc_sealed_object (mkSealedObject (Some ct) (so_ad so) dm_oid))]> m.
Definition put_sa (m : gmap bytes bytes) (ct : bytes) (sa : sealed_access) : gmap bytes bytes :=
  <[mem_key dm_oid DataTypeSealedAccess := print (enc_sealed_access (mkSealedAccess dm_oid (Some ct) (sa_wk sa)))]> m.
Definition same_sa (m m' : gmap bytes bytes) : bool := bool_decide (m' !! mem_key dm_oid DataTypeSealedAccess = m !! mem_key dm_oid DataTypeSealedAccess).
Definition reads_ok (w : DW) : bool := match fst (run (d1_aes demo_env Mem demo_idp demo_d1 (CDecrypt tok_alice dm_oid)) w) with Ok (RObject _) => true | _ => false end.
Definition parts_test (body tag nonce : bytes) : bool :=
  negb (bytes_eqb body []) && Nat.eqb (length tag) 16 && Nat.eqb (length nonce) 12.
Definition dm_test (w : DW) (so : sealed_object) (sa : sealed_access) (body tag nonce ad lbody ltag lnonce wk : bytes) : bool :=
  reads_ok w && (key_test (w_io w) && (nonzero (aes_kwp_unwrap (d_aek demo_d1) wk) && (parts_test body tag nonce && (parts_test lbody ltag lnonce &&
  (so_test (w_io w) body tag nonce ad && (sa_test (w_io w) lbody ltag lnonce wk &&
  (same_sa (w_io w) (put_so (w_io w) (framed body (flip tag) nonce) so) && (same_sa (w_io w) (put_so (w_io w) (framed (flip body) tag nonce) so) &&
  (so_test (put_so (w_io w) (framed body (flip tag) nonce) so) body (flip tag) nonce ad &&
  (so_test (put_so (w_io w) (framed (flip body) tag nonce) so) (flip body) tag nonce ad &&
  (sa_test (put_sa (w_io w) (framed lbody (flip ltag) lnonce) sa) lbody (flip ltag) lnonce wk &&
   sa_test (put_sa (w_io w) (framed (flip lbody) ltag lnonce) sa) (flip lbody) ltag lnonce wk))))))))))).

Lemma so_test_ok (w : DW) body tag nonce ad : so_test (w_io w) body tag nonce ad = true -> object_record mem_view w dm_oid body tag nonce ad.
Proof.
  unfold so_test, dm_so. intros H. destruct (w_io w !! mem_key dm_oid DataTypeSealedObject) as [b|] eqn:E; [|discriminate].
  destruct (unmarshal dec_sealed_object b) as [so|] eqn:U; [|discriminate]. apply andb_prop in H. destruct H as [H1 H2].
  apply bytes_eqb_eq in H1, H2. exists b, so. auto.
Qed.
Lemma sa_test_ok (w : DW) body tag nonce wk : sa_test (w_io w) body tag nonce wk = true -> list_record mem_view w dm_oid body tag nonce wk.
Proof.
  unfold sa_test, dm_sa. intros H. destruct (w_io w !! mem_key dm_oid DataTypeSealedAccess) as [b|] eqn:E; [|discriminate].
  destruct (unmarshal dec_sealed_access b) as [sa|] eqn:U; [|discriminate]. apply andb_prop in H. destruct H as [H1 H2].
  apply bytes_eqb_eq in H1, H2. exists b, sa. auto.
Qed.
Lemma nonzero_ok r key : nonzero r = true -> r = Ok key -> subkey key <> zeros 16.
Proof. intros H -> E. cbn in H. rewrite E in H. rewrite (proj2 (bytes_eqb_eq _ _) eq_refl) in H. discriminate. Qed.
Lemma key_test_ok (w : DW) : key_test (w_io w) = true -> forall key, object_key mem_view demo_d1 w dm_oid key -> subkey key <> zeros 16.
Proof.
  intros H key (b & sa & pt & a & E1 & E2 & E3 & E4 & E5). unfold key_test, dm_sa in H. change (w_io w !! mem_key dm_oid DataTypeSealedAccess = Some b) in E1.
  rewrite E1, E2, E3, E4 in H. eapply nonzero_ok; eauto.
Qed.
Lemma parts_ok body tag nonce : parts_test body tag nonce = true -> body <> [] /\ length tag = 16%nat /\ length nonce = 12%nat.
Proof.
  unfold parts_test. intros H. apply andb_prop in H. destruct H as [H H3]. apply andb_prop in H. destruct H as [H1 H2].
  apply Nat.eqb_eq in H2, H3. split; [|auto]. intros ->. discriminate.
Qed.
Definition damaged : Prop := exists (w w1 w2 w3 w4 : DW) oid body tag nonce ad lbody ltag lnonce wk tag' body' ltag' lbody',
  decrypts demo_env Mem demo_idp demo_d1 w oid /\
  (length tag = 16 /\ length tag' = 16 /\ length nonce = 12 /\ length ltag = 16 /\ length ltag' = 16 /\ length lnonce = 12)%nat /\
  (tag <> tag' /\ differ_in_one_block body body' /\ ltag <> ltag' /\ differ_in_one_block lbody lbody') /\
  (forall key, object_key mem_view demo_d1 w oid key -> subkey key <> zeros 16) /\
  (forall key, aes_kwp_unwrap (d_aek demo_d1) wk = Ok key -> subkey key <> zeros 16) /\
  object_record mem_view w oid body tag nonce ad /\ list_record mem_view w oid lbody ltag lnonce wk /\
  (object_record mem_view w1 oid body tag' nonce ad /\ same_list mem_view w w1 oid) /\
  (object_record mem_view w2 oid body' tag nonce ad /\ same_list mem_view w w2 oid) /\
  list_record mem_view w3 oid lbody ltag' lnonce wk /\ list_record mem_view w4 oid lbody' ltag lnonce wk.
Lemma flip_length b : length (flip b) = length b.
Proof. destruct b as [|x r]; [reflexivity|]. destruct x; reflexivity. Qed.
Lemma len_nonempty {A} (l : list A) : length l = 16%nat -> l <> [].
Proof. now intros H ->. Qed.
Lemma dm_sound (w : DW) so sa body tag nonce ad lbody ltag lnonce wk : dm_test w so sa body tag nonce ad lbody ltag lnonce wk = true -> damaged.
Proof.
  unfold dm_test. rewrite !andb_true_iff. intros (H1 & H2 & H3 & H4 & H5 & H6 & H7 & H8 & H9 & H10 & H11 & H12 & H13).
  apply parts_ok in H4, H5. destruct H4 as (P1 & P2 & P3), H5 as (Q1 & Q2 & Q3).
  exists w, (set_io w (put_so (w_io w) (framed body (flip tag) nonce) so)), (set_io w (put_so (w_io w) (framed (flip body) tag nonce) so)),
    (set_io w (put_sa (w_io w) (framed lbody (flip ltag) lnonce) sa)), (set_io w (put_sa (w_io w) (framed (flip lbody) ltag lnonce) sa)),
    dm_oid, body, tag, nonce, ad, lbody, ltag, lnonce, wk, (flip tag), (flip body), (flip ltag), (flip lbody).
  split.
  { unfold reads_ok in H1. destruct (fst (run (d1_aes demo_env Mem demo_idp demo_d1 (CDecrypt tok_alice dm_oid)) w)) as [[]|x|] eqn:E; try discriminate.
    exists tok_alice. eauto. }
  split; [rewrite !flip_length; auto 10|].
  split; [split; [apply flip_differs, len_nonempty, P2|split; [apply flip_block, P1|split; [apply flip_differs, len_nonempty, Q2|apply flip_block, Q1]]]|].
  split; [apply key_test_ok, H2|]. split; [intros key; apply nonzero_ok, H3|].
  split; [apply so_test_ok, H6|]. split; [apply sa_test_ok, H7|].
  split; [split; [apply so_test_ok; exact H10|apply bool_decide_eq_true in H8; exact H8]|].
  split; [split; [apply so_test_ok; exact H11|apply bool_decide_eq_true in H9; exact H9]|].
  split; apply sa_test_ok; [exact H12|exact H13].
Qed.
Definition dm_all (w : DW) : bool :=
  match dm_so (w_io w), dm_sa (w_io w) with
  | Some so, Some sa => let c := slice_bytes (so_ct so) in let l := slice_bytes (sa_ct sa) in
      dm_test w so sa (cut_body c) (cut_tag c) (cut_nonce c) (slice_bytes (so_ad so)) (cut_body l) (cut_tag l) (cut_nonce l) (slice_bytes (sa_wk sa))
  | _, _ => false
  end.
Lemma dm_all_sound w : dm_all w = true -> damaged.
Proof. unfold dm_all. destruct (dm_so (w_io w)) as [so|]; [|discriminate]. destruct (dm_sa (w_io w)) as [sa|]; [|discriminate]. apply dm_sound. Qed.
Lemma dm_ok : dm_all dm_w = true.
Proof. vm_cast_no_check (eq_refl true). Qed.
Lemma demo_damage : damaged.
Proof. exact (dm_all_sound dm_w dm_ok). Qed.
