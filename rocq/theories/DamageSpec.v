(** Damage to what is stored of an object. *)
From Verif Require Import Bytes Go Json Uuid Types World Kwp Gcm GcmSpec Cryptor IoSpec Id Data D1.
Local Open Scope N_scope.

Section Damage.
  Context {S I : Type} (v : view S).
  Notation W := (world S I).
  Implicit Types (w : W).
  (** The stored object [oid] is a record with this ciphertext, whose parts are data, tag and nonce, and this associated data. *)
  Definition object_record w (oid : uuid) (body tag nonce ad : bytes) : Prop := exists b so,
    v_map v (w_io w) oid DataTypeSealedObject = Some b /\ unmarshal dec_sealed_object b = Some so /\
    slice_bytes (so_ct so) = framed body tag nonce /\ slice_bytes (so_ad so) = ad.
  (** The stored access list of [oid] is a record with this ciphertext and this wrapped key. *)
  Definition list_record w (oid : uuid) (body tag nonce wk : bytes) : Prop := exists b sa,
    v_map v (w_io w) oid DataTypeSealedAccess = Some b /\ unmarshal dec_sealed_access b = Some sa /\
    slice_bytes (sa_ct sa) = framed body tag nonce /\ slice_bytes (sa_wk sa) = wk.
  (** The two worlds have the same stored access list of [oid]. *)
  Definition same_list w w' (oid : uuid) : Prop :=
    v_map v (w_io w') oid DataTypeSealedAccess = v_map v (w_io w) oid DataTypeSealedAccess.
  (** The key of the stored object: the one whose wrapping the access list holds. *)
  Definition object_key (d : d1) w (oid : uuid) (key : bytes) : Prop := exists b sa pt a,
    v_map v (w_io w) oid DataTypeSealedAccess = Some b /\ unmarshal dec_sealed_access b = Some sa /\
    aes_open (d_aek d) (print (access_aad oid)) (slice_bytes (sa_wk sa)) (slice_bytes (sa_ct sa)) = Ok pt /\
    unmarshal dec_access pt = Some a /\ aes_kwp_unwrap (d_kek d) (slice_bytes (a_dek a)) = Ok key.
  (** Decrypt returns the object to whoever shows the token. *)
  Definition decrypts (e : env) (io : provider S) (idp : bytes -> prog W (res identity)) (d : d1) w (oid : uuid) : Prop :=
    exists tok o, fst (run (d1_aes e io idp d (CDecrypt tok oid)) w) = Ok (RObject o).
  (** Nobody gets anything out of the call. *)
  Definition fails (e : env) (io : provider S) (idp : bytes -> prog W (res identity)) (d : d1) w (c : d1_call) : Prop :=
    forall r, fst (run (d1_aes e io idp d c) w) <> Ok r.
End Damage.
(** The calls about an object that exists. *)
Definition concerns (oid : uuid) (c : d1_call) : Prop :=
  match c with
  | CUpdate _ o _ | CDecrypt _ o | CDelete _ o | CGetAccessGroups _ o | CAddGroups _ o _ | CRemoveGroups _ o _ | CAuthorize _ o => o = oid
  | CEncrypt _ _ _ | CCreateToken _ | CGetTokenContents _ => False
  end.
