(** C82: damage to a stored object or to its access list is noticed.  Only property theorems here; the definitions
    are in DamageSpec.v and the proofs in Damage.v and DamageDemo.v. *)
From stdpp Require Import gmap.
From Verif Require Import Bytes Go Json Uuid Types World Kwp Gcm GcmSpec Cryptor Io IoSpec IoProofs Id Data D1 D1Proofs Demo DamageSpec Damage DamageDemo.
Local Open Scope N_scope.

Section C82.
  (** Any storage, which may fail; an identity provider that does not write to it.  In the world [w] somebody can
      decrypt the object [oid]; in the world [w'] something stored is damaged, and all else may be as it likes. *)
  Context {S I : Type} (e : env) (F : Prop) (v : view S) (io : provider S) (idp : bytes -> prog (world S I) (res identity)) (d : d1) (w w' : world S I) (oid : uuid).
  Context (storage : io_spec F v io) (reads : idp_reads v idp) (inv : v_inv v (w_io w)) (inv' : v_inv v (w_io w')) (readable : decrypts e io idp d w oid).
  Context (body tag nonce : bytes) (tag_length : length tag = 16%nat) (nonce_length : length nonce = 12%nat).

  (** The tag of the object is another: nobody gets anything out of Decrypt. *)
  Theorem C82_object_tag ad tag' tok : same_list v w w' oid -> object_record v w oid body tag nonce ad -> object_record v w' oid body tag' nonce ad ->
    length tag' = 16%nat -> tag <> tag' -> fails e io idp d w' (CDecrypt tok oid).
  Proof. exact (fun L R R' T N => object_tag e F v io storage idp reads d w w' oid body tag nonce tag' ad tok inv inv' tag_length T nonce_length readable L R R' N). Qed.

  (** The encrypted data is different inside one block of sixteen bytes; the key of the object is not one of those whose subkey is zero. *)
  Theorem C82_object_data ad body' tok : same_list v w w' oid -> object_record v w oid body tag nonce ad -> object_record v w' oid body' tag nonce ad ->
    (forall key, object_key v d w oid key -> subkey key <> zeros 16) -> differ_in_one_block body body' -> fails e io idp d w' (CDecrypt tok oid).
  Proof. exact (fun L R R' K N => object_data e F v io storage idp reads d w w' oid body tag nonce body' ad tok inv inv' tag_length nonce_length K readable L R R' N). Qed.

  (** The same two for the access list, and now every call about the object fails: nobody can decrypt, change, delete
      or share it, or learn who may. *)
  Theorem C82_list_tag wk tag' c : list_record v w oid body tag nonce wk -> list_record v w' oid body tag' nonce wk ->
    length tag' = 16%nat -> tag <> tag' -> concerns oid c -> fails e io idp d w' c.
  Proof. exact (fun R R' T N C => list_tag e F v io storage idp reads d w w' oid body tag nonce tag' wk c inv inv' tag_length T nonce_length readable R R' N C). Qed.
  Theorem C82_list_data wk body' c : list_record v w oid body tag nonce wk -> list_record v w' oid body' tag nonce wk ->
    (forall key, aes_kwp_unwrap (d_aek d) wk = Ok key -> subkey key <> zeros 16) -> differ_in_one_block body body' -> concerns oid c -> fails e io idp d w' c.
  Proof. exact (fun R R' K N C => list_data e F v io storage idp reads d w w' oid body tag nonce body' wk c inv inv' tag_length nonce_length K readable R R' N C). Qed.
End C82.
Print Assumptions C82_object_tag.
Print Assumptions C82_object_data.
Print Assumptions C82_list_tag.
Print Assumptions C82_list_data.

(** There are such worlds: an object that somebody can decrypt, and its records with the first byte of a part changed. *)
Example C82_case : exists (w w1 w2 w3 w4 : world (gmap bytes bytes) unit) oid body tag nonce ad lbody ltag lnonce wk tag' body' ltag' lbody',
  decrypts demo_env Mem demo_idp demo_d1 w oid /\
  (length tag = 16 /\ length tag' = 16 /\ length nonce = 12 /\ length ltag = 16 /\ length ltag' = 16 /\ length lnonce = 12)%nat /\
  (tag <> tag' /\ differ_in_one_block body body' /\ ltag <> ltag' /\ differ_in_one_block lbody lbody') /\
  (forall key, object_key mem_view demo_d1 w oid key -> subkey key <> zeros 16) /\
  (forall key, aes_kwp_unwrap (d_aek demo_d1) wk = Ok key -> subkey key <> zeros 16) /\
  object_record mem_view w oid body tag nonce ad /\ list_record mem_view w oid lbody ltag lnonce wk /\
  (object_record mem_view w1 oid body tag' nonce ad /\ same_list mem_view w w1 oid) /\
  (object_record mem_view w2 oid body' tag nonce ad /\ same_list mem_view w w2 oid) /\
  list_record mem_view w3 oid lbody ltag' lnonce wk /\ list_record mem_view w4 oid lbody' ltag lnonce wk.
Proof. exact demo_damage. Qed.
