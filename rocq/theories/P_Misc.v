(** Properties of scopes and counters, and of the way plaintext reaches storage. *)
From stdpp Require Import gmap.
From Verif Require Import Bytes Go Json JsonProofs Types World Cryptor CryptoFacts Data Id D1 Kmac KmacProofs MiscFacts.
Local Open Scope N_scope.

(** C17.  The plaintext influences storage through nothing but what the cryptor makes of it: if a
    cryptor [oc'] does with plaintext [pt'] what [oc] does with [pt] (for every associated data), then
    Encrypt and Update are the very same program, and so perform the same storage operations with the same
    bytes and return the same result in every state, whatever the provider and under every schedule. *)
Theorem C17_plaintext_only_through_cryptor {S I} (e : env) (io : provider S) (idp : bytes -> prog (world S I) (res identity))
  (oc oc' ac tc : cryptor (world S I)) (pt pt' ad : gslice) :
  c_enc oc (print (jbytes pt)) = c_enc oc' (print (jbytes pt')) ->
  (forall tok gs, d1_do e io idp oc ac tc (CEncrypt tok (mkObject pt ad) gs) =
                  d1_do e io idp oc' ac tc (CEncrypt tok (mkObject pt' ad) gs)) /\
  (forall tok oid, d1_do e io idp oc ac tc (CUpdate tok oid (mkObject pt ad)) =
                   d1_do e io idp oc' ac tc (CUpdate tok oid (mkObject pt' ad))).
Proof.
  intros H. cbn [d1_do]. unfold d1_encrypt, d1_update, object_seal, encrypt_json. cbn [o_pt o_ad].
  rewrite H. split; reflexivity.
Qed.
Print Assumptions C17_plaintext_only_through_cryptor.
(** Such a cryptor exists for any two plaintexts: it encrypts a fixed string instead. *)
Example C17_case {S I} (e : env) (kek : bytes) (pt pt' : gslice) : exists oc oc' : cryptor (world S I),
  c_enc oc (print (jbytes pt)) = c_enc oc' (print (jbytes pt')) /\
  c_enc oc (print (jbytes pt)) = c_enc (aes_cryptor e kek) (print (jbytes pt)).
Proof.
  exists (aes_cryptor e kek), (mkCryptor (fun _ => aes_enc e kek (print (jbytes pt))) (aes_dec kek)).
  split; reflexivity.
Qed.

(** C41.  Contains is inclusion of the bit sets. *)
Theorem C41_contains (s t : N) :
  scope_contains s t = true <-> forall i, N.testbit t i = true -> N.testbit s i = true.
Proof. exact (contains_bits s t). Qed.
Print Assumptions C41_contains.
(** ScopeUnion is the union of the bit sets, the least scope that contains all arguments. *)
Theorem C41_union_bits (l : list N) (i : N) :
  N.testbit (scope_union l) i = true <-> exists s, In s l /\ N.testbit s i = true.
Proof. exact (union_bits l i). Qed.
Print Assumptions C41_union_bits.
Theorem C41_union_least (l : list N) (s : N) :
  scope_contains s (scope_union l) = true <-> forall t, In t l -> scope_contains s t = true.
Proof. exact (union_lub l s). Qed.
Print Assumptions C41_union_least.
(** ScopeAll is exactly the nine defined scopes; ScopeNone contains only itself. *)
Theorem C41_all (i : N) : N.testbit ScopeAll i = (i <? 9).
Proof. exact (all_bits i). Qed.
Print Assumptions C41_all.
Theorem C41_all_is_the_union : ScopeAll = scope_union [ScopeEncrypt; ScopeDecrypt; ScopeUpdate; ScopeDelete;
  ScopeCreateToken; ScopeGetTokenContents; ScopeGetAccessGroups; ScopeModifyAccessGroups; ScopeIndex].
Proof. reflexivity. Qed.
Print Assumptions C41_all_is_the_union.
Theorem C41_none (t : N) : scope_contains ScopeNone t = true <-> t = ScopeNone.
Proof. exact (none_contains t). Qed.
Print Assumptions C41_none.
Example C41_case : scope_contains (scope_union [ScopeEncrypt; ScopeIndex]) ScopeIndex = true /\
  scope_contains (scope_union [ScopeEncrypt; ScopeIndex]) ScopeDecrypt = false /\
  scope_union [ScopeUpdate; ScopeUpdate] = ScopeUpdate.
Proof. vm_compute. auto. Qed.

(** C50.  Different counters are encoded differently, and the strings absorbed by the MAC when labels are
    computed for two counters differ: equal labels are a collision of the MAC. *)
Theorem C50_counter_encoding_injective (a b : N) : a < 2 ^ 64 -> b < 2 ^ 64 -> uvarint a = uvarint b -> a = b.
Proof. exact (uvarint_inj a b). Qed.
Print Assumptions C50_counter_encoding_injective.
Theorem C50_label_collision_is_mac_collision (key key' id id' : bytes) (a b : N) :
  length key = 32%nat -> length key' = 32%nat -> a < 2 ^ 64 -> b < 2 ^ 64 -> a <> b ->
  exists x y, next_label key (mkNode id a) = Ok (sponge 136 x04 x 32) /\
              next_label key' (mkNode id' b) = Ok (sponge 136 x04 y 32) /\ x <> y.
Proof. exact (label_collision key key' id id' a b). Qed.
Print Assumptions C50_label_collision_is_mac_collision.
Example C50_case : uvarint 300 = [xac; x02] /\ uvarint 18446744073709551615 = repeat xff 9 ++ [x01].
Proof. vm_compute. auto. Qed.
