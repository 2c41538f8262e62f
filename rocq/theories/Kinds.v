(** What the library seals, as one type. *)
From stdpp Require Import gmap.
From Verif Require Import Bytes Go Json Uuid Time Types World Cryptor Data D1 Standalone.
Local Open Scope N_scope.

(** Everything the library encrypts, with the name it is encrypted for. *)
Inductive item :=
| TObject (o : object) (oid : uuid)
| TAccess (a : access) (oid : uuid)
| TToken (t : token)
| TNode (n : node) (label : bytes)
| TUser (u : user) (uid : bytes)
| TGroup (g : group) (gid : bytes).

(** What an item is and what it is called: an object by its id and its associated data, an access
    list by the id of its object, a token by its expiry time, an index node by its label. *)
Inductive name :=
| NObject (oid : uuid) (ad : bytes)
| NAccess (oid : uuid)
| NToken (expiry : gtime)
| NNode (label : bytes)
| NUser (uid : bytes)
| NGroup (gid : bytes).
Definition name_of (it : item) : name :=
  match it with
  | TObject o oid => NObject oid (slice_bytes (o_ad o))
  | TAccess _ oid => NAccess oid
  | TToken t => NToken (t_exp t)
  | TNode _ label => NNode label
  | TUser _ uid => NUser uid
  | TGroup _ gid => NGroup gid
  end.
Definition same_kind (a b : name) : Prop :=
  match a, b with
  | NObject _ _, NObject _ _ | NAccess _, NAccess _ | NToken _, NToken _ | NNode _, NNode _ | NUser _, NUser _ | NGroup _, NGroup _ => True
  | _, _ => False
  end.
(** The same contents. *)
Definition same_content (a b : item) : Prop :=
  match a, b with
  | TObject o _, TObject o' _ => o_pt o = o_pt o'
  | TAccess x _, TAccess y _ => x = y
  | TToken t, TToken t' => t_pt t = t_pt t'
  | TNode n _, TNode n' _ => n = n'
  | TUser u _, TUser u' _ => u = u'
  | TGroup g _, TGroup g' _ => g = g'
  | _, _ => False
  end.
(** Ids have 16 bytes, numbers 64 bits, times are times. *)
Definition item_wf (it : item) : Prop :=
  match it with
  | TObject _ oid | TAccess _ oid => uuid_wf oid
  | TToken t => time_wf (t_exp t)
  | TNode n _ => n_next n < 2 ^ 64
  | TUser u _ => u_scopes u < 2 ^ 64
  | TGroup g _ => g_scopes g < 2 ^ 64
  end.
(** Its strings are valid UTF-8. *)
Definition item_text (it : item) : Prop :=
  match it with
  | TObject _ _ | TToken _ => True
  | TAccess a _ => match a_groups a with Some g => forall x, x ∈ g -> valid_utf8 x = true | None => True end
  | TNode n _ => valid_utf8 (n_id n) = true
  | TUser u uid => valid_utf8 uid = true /\ match u_groups u with Some g => forall x, x ∈ g -> valid_utf8 x = true | None => True end
  | TGroup _ gid => valid_utf8 gid = true
  end.

Section Seal.
  Context {S I : Type} (e : env).
  Notation W := (world S I).
  (** The sealing functions of data/ and id/. *)
  Definition seal_item (c : cryptor W) (it : item) : prog W (res unit) :=
    match it with
    | TObject o oid => ret_map (fun _ => tt) (object_seal c o oid)
    | TAccess a oid => ret_map (fun _ => tt) (access_seal c a oid)
    | TToken t => ret_map (fun _ => tt) (token_seal c t)
    | TNode n label => ret_map (fun _ => tt) (node_seal c n label)
    | TUser u uid => ret_map (fun _ => tt) (user_seal c u uid)
    | TGroup g gid => ret_map (fun _ => tt) (group_seal c g gid)
    end.
  (** Sealing [it] makes exactly the encryption [x]. *)
  Definition sealed_as (kek : bytes) (it : item) (x : entry) : Prop :=
    exists w w' : W, run (seal_item (aes_cryptor e kek) it) w = (Ok tt, w') /\ w_log w' = x :: w_log w.
End Seal.
