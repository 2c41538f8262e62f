(** Sealing and unsealing: data/object.go, data/access.go, data/token.go, data/node.go. *)
From stdpp Require Import gmap.
From Verif Require Import Bytes Base64 Go Json Uuid Time Types World Cryptor.
Local Open Scope bool_scope.
Local Open Scope N_scope.
Local Open Scope go_scope.

(** binary.PutUvarint, data/node.go:33-34: at most 10 bytes. *)
Fixpoint uvarint_loop (fuel : nat) (n : N) : bytes :=
  match fuel with
  | O => []
  | S f => if n <? 128 then [Nb n] else Nb (N.lor (n mod 256) 128) :: uvarint_loop f (n / 128)
  end.
Definition uvarint (n : N) : bytes := uvarint_loop 10 n.
(** Node.NextLabel, data/node.go:31-37. *)
Definition next_label (tagkey : bytes) (n : node) : res bytes := tag tagkey (Some (uvarint (n_next n))).

Section Data.
  Context {S I : Type} (e : env).
  Notation W := (world S I).
  Context (c : cryptor W).

  (** data/object.go:48-50,68-70: id followed by the caller's associated data. *)
  Definition object_aad (oid : uuid) (ad : gslice) : json := jbytes (Some (oid ++ slice_bytes ad)).
  (** Object.Seal, data/object.go:47-64: (wrapped key, sealed object). *)
  Definition object_seal (o : object) (oid : uuid) : prog W (res (bytes * sealed_object)) :=
    let! wc := encrypt_json c (jbytes (o_pt o)) (object_aad oid (o_ad o)) in
    let '(wk, ct) := wc in
    Ret (Ok (wk, mkSealedObject (Some ct) (o_ad o) oid)).
  (** SealedObject.Unseal, data/object.go:67-82. *)
  Definition object_unseal (so : sealed_object) (wk : gslice) : prog W (res object) :=
    let! pt := decrypt_json c dec_bytes (object_aad (so_oid so) (so_ad so)) wk (so_ct so) in
    Ret (Ok (mkObject pt (so_ad so))).

  (** NewAccess, data/access.go:45-50. *)
  Definition new_access (dek : bytes) : access := mkAccess (Some ∅) (Some dek).
  (** AddGroups, data/access.go:69-73, and addGroups, id/standalone_user.go:101-105: assignment to a nil map panics. *)
  Definition add_groups (g : option (gset bytes)) (ids : list bytes) : res (option (gset bytes)) :=
    match g, ids with
    | _, [] => Ok g
    | None, _ => Panic
    | Some s, _ => Ok (Some (list_to_set ids ∪ s))
    end.
  (** RemoveGroups, data/access.go:76-80, and removeGroups, id/standalone_user.go:108-112: delete from a nil map is a no-op. *)
  Definition remove_groups (g : option (gset bytes)) (ids : list bytes) : option (gset bytes) :=
    match g with None => None | Some s => Some (s ∖ list_to_set ids) end.
  (** ContainsGroups, data/access.go:84-91, and containsGroups, id/standalone_user.go:116-123.  GetGroups,
      data/access.go:94-96, and getGroups, id/standalone_user.go:126-128, return the field, which the model reads. *)
  Definition contains_groups (g : option (gset bytes)) (ids : list bytes) : bool :=
    match g with
    | None => match ids with [] => true | _ => false end
    | Some s => forallb (fun i => bool_decide (i ∈ s)) ids
    end.
  (** Access.Seal, data/access.go:53-66. *)
  Definition access_aad (oid : uuid) : json := jbytes (Some oid).
  Definition access_seal (a : access) (oid : uuid) : prog W (res sealed_access) :=
    let! wc := encrypt_json c (enc_access a) (access_aad oid) in
    let '(wk, ct) := wc in
    Ret (Ok (mkSealedAccess oid (Some ct) (Some wk))).
  (** SealedAccess.Unseal, data/access.go:99-105. *)
  Definition access_unseal (sa : sealed_access) : prog W (res access) :=
    decrypt_json c dec_access (access_aad (sa_oid sa)) (sa_wk sa) (sa_ct sa).

  (** data/token.go:28 *)
  Definition TokenValidity : Z := 3600.
  (** NewToken, data/token.go:51-54. *)
  Definition new_token (pt : gslice) : prog W token :=
    let* now := time_now e in
    Ret (mkToken pt (time_add now TokenValidity)).
  (** Token.Seal, data/token.go:57-70.  json.Marshal of the expiry fails outside years 0..9999. *)
  Definition token_seal (t : token) : prog W (res sealed_token) :=
    match enc_time (t_exp t) with
    | None => Ret (Err EJson)
    | Some aad =>
        let! wc := encrypt_json c (jbytes (t_pt t)) aad in
        let '(wk, ct) := wc in
        Ret (Ok (mkSealedToken (t_exp t) (Some ct) (Some wk)))
    end.
  (** SealedToken.Unseal, data/token.go:73-88.  Simplification: when the expiry cannot be
      marshalled the code unwraps the key first, so it may report the unwrapping error instead. *)
  Definition token_unseal (t : sealed_token) : prog W (res token) :=
    let* now := time_now e in
    if time_before (st_exp t) now then Ret (Err ETokenExpired)
    else
      match enc_time (st_exp t) with
      | None => Ret (Err EJson)
      | Some aad =>
          let! pt := decrypt_json c dec_bytes aad (st_wk t) (st_ct t) in
          Ret (Ok (mkToken pt (st_exp t)))
      end.
  (** SealedToken.String, data/token.go:91-98. *)
  Definition token_string (t : sealed_token) : res bytes :=
    match enc_sealed_token t with
    | None => Err EJson
    | Some j => Ok (b64url_encode (print j))
    end.
  (** TokenFromString, data/token.go:101-111. *)
  Definition token_from_string (s : bytes) : res sealed_token :=
    match b64url_decode s with
    | None => Err EBase64
    | Some b => match unmarshal dec_sealed_token b with Some t => Ok t | None => Err EJson end
    end.

  (** Node.Seal, data/node.go:46-56. *)
  Definition node_seal (n : node) (label : bytes) : prog W (res sealed_node) :=
    let! wc := encrypt_json c (enc_node n) (jbytes (Some label)) in
    let '(wk, ct) := wc in
    Ret (Ok (mkSealedNode (Some ct) (Some wk))).
  (** SealedNode.Unseal, data/node.go:59-65. *)
  Definition node_unseal (sn : sealed_node) (label : bytes) : prog W (res node) :=
    decrypt_json c dec_node (jbytes (Some label)) (sn_wk sn) (sn_ct sn).
End Data.
