(** Vocabulary of the property theorems about objects. *)
From stdpp Require Import gmap.
From Verif Require Import Bytes Go Json Uuid Types World IoSpec Id D1 D1Proofs Spec History Gcm Data Cryptor.
Local Open Scope N_scope.

(** The scope a call requires (d1.go: the documentation of each method). *)
Definition call_scope (c : d1_call) : option N :=
  match c with
  | CEncrypt _ _ _ => Some ScopeEncrypt
  | CUpdate _ _ _ => Some ScopeUpdate
  | CDecrypt _ _ => Some ScopeDecrypt
  | CDelete _ _ => Some ScopeDelete
  | CGetAccessGroups _ _ | CAuthorize _ _ => Some ScopeGetAccessGroups
  | CAddGroups _ _ _ | CRemoveGroups _ _ _ => Some ScopeModifyAccessGroups
  | CCreateToken _ | CGetTokenContents _ => None
  end.
(** The ids a caller has. *)
Definition has_id (i : identity) (x : bytes) : Prop := x = i_id i \/ i_groups i !! x <> None.
(** The caller's token resolves, the caller may make this kind of call at all, and may make it on
    an object with this access list. *)
Definition allowed (who : res identity) (need : N) (acl : gset bytes) : Prop :=
  exists i, who = Ok i /\ scope_has (i_scopes i) need /\ on_list i need acl.
(** The call did what it is for, or failed only for lack of randomness. *)
Definition served (r : res d1_reply) : Prop := (exists x, r = Ok x) \/ r = Err ERandom.
(** The call was refused: the token does not resolve, or the caller may not do this.  If a
    third-party identity provider panics, so does the call. *)
Definition refused (who : res identity) (r : res d1_reply) : Prop :=
  match who with
  | Ok _ => r = Err ED1NotAuthorized
  | Err _ => r = Err ED1NotAuthenticated
  | Panic => r = Panic
  end.
(** Events that change who may touch [oid]. *)
Definition adds_to (oid : uuid) (X : bytes -> Prop) (ev : event) : Prop :=
  exists tok gs x, ev_call ev = CAddGroups tok oid gs /\ ev_reply ev = Ok RUnit /\ In x gs /\ X (as_text x).
Definition creates (oid : uuid) (ev : event) : Prop := ev_reply ev = Ok (ROid oid).
Definition deletes (oid : uuid) (ev : event) : Prop := exists tok, ev_call ev = CDelete tok oid /\ ev_reply ev = Ok RUnit.
Definition about (oid : uuid) (ev : event) : Prop := call_oid (ev_call ev) = Some oid.
(** The objects some attempted Updates were given. *)
Definition updates (cs : list d1_call) : list object :=
  flat_map (fun c => match c with CUpdate _ _ o => [o] | _ => [] end) cs.
(** These stored bytes hold a sealed object whose ciphertext AES-GCM accepts, with the data [oid] is
    bound to, under two different keys. *)
Definition two_keys (oid : uuid) (stored : option bytes) : Prop :=
  exists b so key key' pt pt', stored = Some b /\ unmarshal dec_sealed_object b = Some so /\ key <> key' /\
    aes_gcm_decrypt (slice_bytes (so_ct so)) (print (object_aad oid (so_ad so))) key = Ok pt /\
    aes_gcm_decrypt (slice_bytes (so_ct so)) (print (object_aad oid (so_ad so))) key' = Ok pt'.
