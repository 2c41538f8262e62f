(** Properties of what is encrypted together.  [sealed_as e kek it x]: the library's function for
    sealing [it] under the key [kek] makes the encryption [x] with plaintext [e_pt x] and AEAD
    associated data [e_aad x]. *)
From stdpp Require Import gmap.
From Verif Require Import Bytes Go Json Uuid Time Types World Cryptor D1 Standalone Kinds KindsProofs Demo StandaloneDemo.
Local Open Scope N_scope.

(** C27.  Objects: the same AEAD associated data exactly when id and associated data are the same
    byte strings. *)
Theorem C27_object_associated_data {S I} (e : env) (k1 k2 : bytes) (o1 o2 : object) (oid1 oid2 : uuid) (x1 x2 : entry) :
  uuid_wf oid1 -> uuid_wf oid2 -> sealed_as (S := S) (I := I) e k1 (TObject o1 oid1) x1 -> sealed_as (S := S) (I := I) e k2 (TObject o2 oid2) x2 ->
  (e_aad x1 = e_aad x2 <-> oid1 = oid2 /\ slice_bytes (o_ad o1) = slice_bytes (o_ad o2)).
Proof. exact (object_names e k1 k2 o1 o2 oid1 oid2 x1 x2). Qed.
Print Assumptions C27_object_associated_data.

(** Encryptions of different kinds differ in plaintext or associated data, even under one key. *)
Theorem C27_kinds_apart {S I} (e : env) (k1 k2 : bytes) (a b : item) (x1 x2 : entry) :
  item_wf a -> item_wf b -> sealed_as (S := S) (I := I) e k1 a x1 -> sealed_as (S := S) (I := I) e k2 b x2 ->
  e_pt x1 = e_pt x2 -> e_aad x1 = e_aad x2 -> same_kind (name_of a) (name_of b).
Proof. exact (entries_kinds e k1 k2 a b x1 x2). Qed.
Print Assumptions C27_kinds_apart.

(** Within a kind, the associated data determine the name and the plaintext determines the contents. *)
Theorem C27_names_bound {S I} (e : env) (k1 k2 : bytes) (a b : item) (x1 x2 : entry) :
  item_wf a -> item_wf b -> item_text a -> item_text b -> sealed_as (S := S) (I := I) e k1 a x1 -> sealed_as (S := S) (I := I) e k2 b x2 ->
  same_kind (name_of a) (name_of b) -> e_aad x1 = e_aad x2 -> name_of a = name_of b.
Proof. exact (entries_names e k1 k2 a b x1 x2). Qed.
Print Assumptions C27_names_bound.
Theorem C27_contents_bound {S I} (e : env) (k1 k2 : bytes) (a b : item) (x1 x2 : entry) :
  item_wf a -> item_wf b -> item_text a -> item_text b -> sealed_as (S := S) (I := I) e k1 a x1 -> sealed_as (S := S) (I := I) e k2 b x2 ->
  same_kind (name_of a) (name_of b) -> e_pt x1 = e_pt x2 -> same_content a b.
Proof. exact (entries_contents e k1 k2 a b x1 x2). Qed.
Print Assumptions C27_contents_bound.

(** Items of every kind that meet these hypotheses. *)
Example C27_case : Forall (fun it => item_wf it /\ item_text it /\ exists x, sealed_as (S := gmap bytes bytes) (I := unit) sa_env [] it x)
  [TObject demo_obj2 (repeat x05 16); TObject demo_obj (repeat x05 16); TAccess (mkAccess (Some {[staff]}) (Some [])) (repeat x05 16);
   TToken (mkToken (Some []) (mkT 0 0 0)); TNode (mkNode staff 1) (repeat x05 32); TUser (mkUser (Some []) 1 (Some {[staff]})) staff; TGroup (mkGroup 1) staff].
Proof.
  assert (U : valid_utf8 staff = true) by reflexivity. assert (L : uuid_wf (repeat x05 16)) by reflexivity.
  assert (G : forall x, x ∈ ({[staff]} : gset bytes) -> valid_utf8 x = true) by (intros x Hx; apply elem_of_singleton in Hx as ->; exact U).
  repeat constructor; cbn [item_wf item_text a_groups u_groups n_id n_next u_scopes g_scopes t_exp];
    try exact L; try exact U; try exact G; try reflexivity;
    apply (seal_works sa_env sa_draw); try exact demo_w; intros t E; try discriminate E; injection E as <-; vm_compute; discriminate.
Qed.
