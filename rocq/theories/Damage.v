(** Lemmas for P_Damage.v. *)
From stdpp Require Import gmap.
From Verif Require Import Bytes Go Json Uuid Types World Logic Kwp Gcm GcmSpec GcmAuth GcmCase Cryptor CryptorProofs IoSpec IoProofs Id Data D1 D1Proofs D1Calls DamageSpec.
Local Open Scope N_scope.

Lemma open_json_ok {A} kek (dec : json -> option A) aad wk ct a : open_json kek dec aad wk ct = Ok a ->
  exists key pt, aes_kwp_unwrap kek (slice_bytes wk) = Ok key /\ aes_gcm_decrypt (slice_bytes ct) (print aad) key = Ok pt /\
    aes_open kek (print aad) (slice_bytes wk) (slice_bytes ct) = Ok pt /\ unmarshal dec pt = Some a.
Proof.
  unfold open_json. destruct (aes_open kek (print aad) (slice_bytes wk) (slice_bytes ct)) as [pt|x|] eqn:E; cbn [res_bind]; try discriminate.
  intros H. destruct (unmarshal dec pt) as [a'|] eqn:U; [|discriminate]. injection H as ->.
  unfold aes_open in E. destruct (aes_kwp_unwrap kek (slice_bytes wk)) as [key|x|]; cbn [res_bind] in E; try discriminate. eauto 10.
Qed.

Section Damage.
  Context {S I : Type} (e : env) (F : Prop) (v : view S) (io : provider S) (Hio : io_spec F v io).
  Notation W := (world S I).
  Context (idp : bytes -> prog W (res identity)) (Hidp : idp_reads v idp) (d : d1).
  Implicit Types (w : W).
  Notation SO := DataTypeSealedObject.
  Notation SA := DataTypeSealedAccess.
  Notation store_of w := (v_map v (w_io w)).

  Lemma decrypt_run w tok oid : v_inv v (w_io w) ->
    fst (run (d1_aes e io idp d (CDecrypt tok oid)) w) = res_map RObject (res_bind (checked idp d w tok ScopeDecrypt oid (store_of w)) (read_object d oid (store_of w))) \/
    exists x, fst (run (d1_aes e io idp d (CDecrypt tok oid)) w) = Err x.
  Proof.
    intros Hi. pose proof (decrypt_spec e F v io Hio idp Hidp d tok oid w _ (holds_self v w Hi)) as H.
    apply wpc_end in H. unfold d1_aes, d1_do, ret_map. rewrite run_bind.
    destruct (run (d1_decrypt io idp _ _ tok oid) w) as [r w1]. cbn [fst snd run] in *.
    destruct H as [->|(_ & x & -> & _)]; [left; reflexivity|right; exists x; reflexivity].
  Qed.
  (** What a Decrypt that succeeds has gone through. *)
  Lemma decrypt_ok w tok oid o : v_inv v (w_io w) -> fst (run (d1_aes e io idp d (CDecrypt tok oid)) w) = Ok (RObject o) ->
    exists b sa a key bo so pt, store_of w oid SA = Some b /\ unmarshal dec_sealed_access b = Some sa /\
      open_json (d_aek d) dec_access (access_aad oid) (sa_wk sa) (sa_ct sa) = Ok a /\
      aes_kwp_unwrap (d_kek d) (slice_bytes (a_dek a)) = Ok key /\
      store_of w oid SO = Some bo /\ unmarshal dec_sealed_object bo = Some so /\
      aes_gcm_decrypt (slice_bytes (so_ct so)) (print (object_aad oid (so_ad so))) key = Ok pt.
  Proof.
    intros Hi H. destruct (decrypt_run w tok oid Hi) as [E|[x E]]; rewrite E in H; [|discriminate].
    destruct (checked idp d w tok ScopeDecrypt oid (store_of w)) as [a|x|] eqn:C; cbn [res_bind res_map] in H; try discriminate.
    apply checked_stored in C. destruct C as (b & i & Hb & Ha & _). unfold acc_open in Ha.
    destruct (unmarshal dec_sealed_access b) as [sa|] eqn:U; [|discriminate].
    unfold read_object in H. destruct (store_of w oid SO) as [bo|] eqn:Eo; [|discriminate]. unfold obj_open in H.
    destruct (unmarshal dec_sealed_object bo) as [so|] eqn:Uo; [|discriminate].
    destruct (open_json (d_kek d) dec_bytes (object_aad oid (so_ad so)) (a_dek a) (so_ct so)) as [p|x|] eqn:O; cbn [res_map] in H; try discriminate.
    apply open_json_ok in O. destruct O as (key & pt & K & G & _). exists b, sa, a, key, bo, so, pt. eauto 12.
  Qed.
  Lemma aad_same oid so so' : slice_bytes (so_ad so) = slice_bytes (so_ad so') -> object_aad oid (so_ad so) = object_aad oid (so_ad so').
  Proof. unfold object_aad. now intros ->. Qed.

  (** Both records open under the same key. *)
  Lemma both_open w w' oid body tag nonce body' tag' ad : v_inv v (w_io w) -> v_inv v (w_io w') -> same_list v w w' oid ->
    object_record v w oid body tag nonce ad -> object_record v w' oid body' tag' nonce ad ->
    decrypts e io idp d w oid -> decrypts e io idp d w' oid ->
    exists key aad, object_key v d w oid key /\ opens key aad (framed body tag nonce) /\ opens key aad (framed body' tag' nonce).
  Proof.
    intros Hi Hi' HS (bo & so & R1 & R2 & R3 & R4) (bo' & so' & R1' & R2' & R3' & R4') (tok & o & D) (tok' & o' & D').
    apply decrypt_ok in D; [|exact Hi]. apply decrypt_ok in D'; [|exact Hi'].
    destruct D as (b & sa & a & key & b0 & s0 & pt & A1 & A2 & A3 & A4 & A5 & A6 & A7).
    destruct D' as (b' & sa' & a' & key' & b0' & s0' & pt' & B1 & B2 & B3 & B4 & B5 & B6 & B7).
    unfold same_list in HS. rewrite HS, A1 in B1. injection B1 as <-. rewrite A2 in B2. injection B2 as <-.
    rewrite A3 in B3. injection B3 as <-. rewrite A4 in B4. injection B4 as <-.
    rewrite R1 in A5. injection A5 as <-. rewrite R2 in A6. injection A6 as <-.
    rewrite R1' in B5. injection B5 as <-. rewrite R2' in B6. injection B6 as <-.
    rewrite R3 in A7. rewrite R3' in B7. rewrite (aad_same oid so' so) in B7 by congruence.
    exists key, (print (object_aad oid (so_ad so))). split; [|split; [exists pt; exact A7|exists pt'; exact B7]].
    destruct (open_json_ok _ _ _ _ _ _ A3) as (k0 & p0 & _ & _ & O & U). exists b, sa, p0, a. auto.
  Qed.
  Lemma not_decrypts w' tok oid : ~ decrypts e io idp d w' oid -> fails e io idp d w' (CDecrypt tok oid).
  Proof.
    intros N r H. apply N. exists tok. unfold d1_aes, d1_do, ret_map in H |- *. rewrite run_bind in H |- *.
    destruct (run (d1_decrypt io idp _ _ tok oid) w') as [[o|x|] w1]; cbn in H |- *; try discriminate. eauto.
  Qed.
  Lemma object_tag w w' oid body tag nonce tag' ad tok : v_inv v (w_io w) -> v_inv v (w_io w') ->
    length tag = 16%nat -> length tag' = 16%nat -> length nonce = 12%nat ->
    decrypts e io idp d w oid -> same_list v w w' oid ->
    object_record v w oid body tag nonce ad -> object_record v w' oid body tag' nonce ad -> tag <> tag' ->
    fails e io idp d w' (CDecrypt tok oid).
  Proof.
    intros Hi Hi' L1 L2 L3 D HS R R' N. apply not_decrypts. intros D'.
    destruct (both_open w w' oid body tag nonce body tag' ad Hi Hi' HS R R' D D') as (key & aad & _ & O & [pt O']).
    rewrite (tag_rejected key aad body tag tag' nonce L1 L2 L3 O N) in O'. discriminate.
  Qed.
  Lemma object_data w w' oid body tag nonce body' ad tok : v_inv v (w_io w) -> v_inv v (w_io w') ->
    length tag = 16%nat -> length nonce = 12%nat -> (forall key, object_key v d w oid key -> subkey key <> zeros 16) ->
    decrypts e io idp d w oid -> same_list v w w' oid ->
    object_record v w oid body tag nonce ad -> object_record v w' oid body' tag nonce ad -> differ_in_one_block body body' ->
    fails e io idp d w' (CDecrypt tok oid).
  Proof.
    intros Hi Hi' L1 L3 K D HS R R' N. apply not_decrypts. intros D'.
    destruct (both_open w w' oid body tag nonce body' tag ad Hi Hi' HS R R' D D') as (key & aad & Hk & O & [pt O']).
    rewrite (body_block_rejected key aad body body' tag nonce L1 L3 (K key Hk) O N) in O'. discriminate.
  Qed.

  (** ** Access lists *)
  Notation ac := (aes_cryptor e (d_aek d)).
  Definition bad {A} (r : res A) : Prop := forall a, r <> Ok a.
  Lemma closed_check w oid i need m : (forall b a, m oid SA = Some b -> acc_open (d_aek d) oid b <> Ok a) ->
    forall a, access_check d i need oid m <> Ok a.
  Proof.
    intros H a. unfold access_check. destruct (m oid SA) as [b|]; [|discriminate].
    specialize (H b). destruct (acc_open (d_aek d) oid b) as [a0|x|]; cbn [res_bind]; try discriminate. now destruct (H a0 eq_refl).
  Qed.
  Lemma closed_prefix {B} tok need oid (k : access -> prog W (res B)) w : v_inv v (w_io w) ->
    (forall b a, store_of w oid SA = Some b -> acc_open (d_aek d) oid b <> Ok a) ->
    bad (fst (run (bindR (verify_access idp tok need) (fun i =>
         bindR (get_sealed_access io oid) (fun sa => bindR (authorize_access ac i need sa) k))) w)).
  Proof.
    intros Hi H. eapply (wpc_end _ (fun _ => True) (fun r _ => bad r)).
    eapply (wpc_checked e F v io Hio idp Hidp d tok need oid k _ _ w _ (holds_self v w Hi)); try (intros; intros ?; discriminate); [auto|].
    intros a w' _ C. apply checked_stored in C. destruct C as (b & i & E1 & E2 & _). destruct (H b a E1 E2).
  Qed.
  Lemma bad_map {A B} (g : A -> B) (p : prog W (res A)) w : bad (fst (run p w)) -> bad (fst (run (ret_map g p) w)).
  Proof.
    intros H. unfold ret_map. rewrite run_bind. destruct (run p w) as [[a|x|] w1]; cbn in *; try (intros ?; discriminate).
    destruct (H a eq_refl).
  Qed.
  Lemma closed_delete tok oid w b : v_inv v (w_io w) -> store_of w oid SA = Some b ->
    (forall a, acc_open (d_aek d) oid b <> Ok a) -> unmarshal dec_sealed_access b <> None ->
    bad (fst (run (d1_delete io idp ac tok oid) w)).
  Proof.
    intros Hi E H U. eapply (wpc_end _ (fun _ => True) (fun r _ => bad r)).
    unfold d1_delete. apply wpc_bindR. eapply wpc_verify; [exact Hidp|apply (holds_self v w Hi)|auto|].
    intros w1 H1 _.
    match goal with |- match ?y with _ => _ end => destruct y as [i|z|] end; try (intros ?; discriminate).
    apply wpc_bind. eapply wpc_get_sealed_access; [exact Hio|exact H1|auto|..].
    - intros w2 H2. rewrite E. destruct (unmarshal dec_sealed_access b) as [sa|] eqn:Es; [|contradiction].
      apply wpc_bindR. eapply wpc_authorize; [exact H2|auto|]. intros w3 H3. cbn [sa_oid sa_wk sa_ct].
      unfold acc_open in H. rewrite Es in H.
      destruct (open_json (d_aek d) dec_access (access_aad oid) (sa_wk sa) (sa_ct sa)) as [a|x|] eqn:O; cbn [res_bind]; try (intros ?; discriminate).
      destruct (H a eq_refl).
    - intros x w2 _ [n ->] _. apply wpc_ret; [auto|intros ?; discriminate].
  Qed.
  Lemma closed_call w oid b c : v_inv v (w_io w) -> store_of w oid SA = Some b ->
    (forall a, acc_open (d_aek d) oid b <> Ok a) -> unmarshal dec_sealed_access b <> None -> concerns oid c -> fails e io idp d w c.
  Proof.
    intros Hi E H U C. change (bad (fst (run (d1_aes e io idp d c) w))). unfold d1_aes, d1_do.
    assert (H' : forall b' a, store_of w oid SA = Some b' -> acc_open (d_aek d) oid b' <> Ok a).
    { intros b' a E'. rewrite E in E'. injection E' as <-. apply H. }
    destruct c; cbn [concerns] in C; try contradiction; subst; apply bad_map;
      first [eapply closed_delete; eassumption|apply closed_prefix; assumption].
  Qed.
  Lemma list_opens w oid body tag nonce wk tok o : v_inv v (w_io w) -> list_record v w oid body tag nonce wk ->
    fst (run (d1_aes e io idp d (CDecrypt tok oid)) w) = Ok (RObject o) ->
    exists key, aes_kwp_unwrap (d_aek d) wk = Ok key /\ opens key (print (access_aad oid)) (framed body tag nonce).
  Proof.
    intros Hi (b & sa & E1 & E2 & E3 & E4) D. apply decrypt_ok in D; [|exact Hi].
    destruct D as (b0 & sa0 & a & key0 & _ & _ & _ & A1 & A2 & A3 & _).
    rewrite E1 in A1. injection A1 as <-. rewrite E2 in A2. injection A2 as <-.
    apply open_json_ok in A3. destruct A3 as (key & pt & K & G & _). rewrite E4 in K. rewrite E3 in G. exists key. split; [exact K|exists pt; exact G].
  Qed.
  Lemma list_closed w' oid body tag nonce wk c : v_inv v (w_io w') -> list_record v w' oid body tag nonce wk ->
    (forall key, aes_kwp_unwrap (d_aek d) wk = Ok key -> exists x, aes_gcm_decrypt (framed body tag nonce) (print (access_aad oid)) key = Err x) ->
    concerns oid c -> fails e io idp d w' c.
  Proof.
    intros Hi (b & sa & E1 & E2 & E3 & E4) H C. eapply closed_call; [exact Hi|exact E1| |congruence|exact C].
    intros a. unfold acc_open. rewrite E2. intros O. apply open_json_ok in O. destruct O as (key & pt & K & G & _).
    rewrite E4 in K. rewrite E3 in G. destruct (H key K) as [x X]. rewrite X in G. discriminate.
  Qed.
  Lemma list_tag w w' oid body tag nonce tag' wk c : v_inv v (w_io w) -> v_inv v (w_io w') ->
    length tag = 16%nat -> length tag' = 16%nat -> length nonce = 12%nat ->
    decrypts e io idp d w oid -> list_record v w oid body tag nonce wk -> list_record v w' oid body tag' nonce wk -> tag <> tag' ->
    concerns oid c -> fails e io idp d w' c.
  Proof.
    intros Hi Hi' L1 L2 L3 (tok & o & D) R R' N C. destruct (list_opens w oid body tag nonce wk tok o Hi R D) as (key & K & O).
    eapply list_closed; [exact Hi'|exact R'| |exact C]. intros key' K'. rewrite K in K'. injection K' as <-.
    exists EAesAuth. exact (tag_rejected key _ body tag tag' nonce L1 L2 L3 O N).
  Qed.
  Lemma list_data w w' oid body tag nonce body' wk c : v_inv v (w_io w) -> v_inv v (w_io w') ->
    length tag = 16%nat -> length nonce = 12%nat -> (forall key, aes_kwp_unwrap (d_aek d) wk = Ok key -> subkey key <> zeros 16) ->
    decrypts e io idp d w oid -> list_record v w oid body tag nonce wk -> list_record v w' oid body' tag nonce wk -> differ_in_one_block body body' ->
    concerns oid c -> fails e io idp d w' c.
  Proof.
    intros Hi Hi' L1 L3 Z (tok & o & D) R R' N C. destruct (list_opens w oid body tag nonce wk tok o Hi R D) as (key & K & O).
    eapply list_closed; [exact Hi'|exact R'| |exact C]. intros key' K'. rewrite K in K'. injection K' as <-.
    exists EAesAuth. exact (body_block_rejected key _ body body' tag nonce L1 L3 (Z key K) O N).
  Qed.
End Damage.
