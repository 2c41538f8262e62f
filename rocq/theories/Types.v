(** The data structures of packages data and id, and their JSON forms.

    json.Marshal of a struct prints its exported fields in declaration order under their
    Go names; json.Unmarshal leaves absent fields at their zero value and treats null as the zero
    value.  Map iteration order is unspecified in Go (and json-iterator's ConfigDefault
    does not sort keys); the model prints a set in the fixed order of [elements], and
    [dec_set_perm] in TypesProofs.v shows that decoding does not depend on the order. *)
From stdpp Require Import gmap.
From Verif Require Import Bytes Json Uuid Time.
Local Open Scope bool_scope.
Local Open Scope N_scope.

(** data/object.go:24-44 *)
Record object := mkObject { o_pt : gslice; o_ad : gslice }.
Record sealed_object := mkSealedObject { so_ct : gslice; so_ad : gslice; so_oid : uuid }.
(** data/access.go:25-42.  [None] is a nil map. *)
Record access := mkAccess { a_groups : option (gset bytes); a_dek : gslice }.
Record sealed_access := mkSealedAccess { sa_oid : uuid; sa_ct : gslice; sa_wk : gslice }.
(** data/token.go:32-47 *)
Record token := mkToken { t_pt : gslice; t_exp : gtime }.
Record sealed_token := mkSealedToken { st_exp : gtime; st_ct : gslice; st_wk : gslice }.
(** data/node.go:25-43 *)
Record node := mkNode { n_id : bytes; n_next : N }.
Record sealed_node := mkSealedNode { sn_ct : gslice; sn_wk : gslice }.
(** id/standalone_user.go:29-46, id/standalone_group.go:23-35 *)
Record user := mkUser { u_hash : gslice; u_scopes : N; u_groups : option (gset bytes) }.
Record sealed_user := mkSealedUser { su_uid : bytes; su_ct : gslice; su_wk : gslice }.
Record group := mkGroup { g_scopes : N }.
Record sealed_group := mkSealedGroup { sg_gid : bytes; sg_ct : gslice; sg_wk : gslice }.

(** ** Encoding *)
(** map[string]struct{} *)
Definition enc_set (s : option (gset bytes)) : json :=
  match s with
  | None => JNull
  | Some g => JObj (map (fun k => (k, JObj [])) (elements g))
  end.
Definition enc_uuid (u : uuid) : json := JStr (uuid_text u).
Definition enc_sealed_object (x : sealed_object) : json :=
  JObj [(str "Ciphertext", jbytes (so_ct x)); (str "AssociatedData", jbytes (so_ad x)); (str "OID", enc_uuid (so_oid x))].
Definition enc_access (x : access) : json :=
  JObj [(str "Groups", enc_set (a_groups x)); (str "WrappedDEK", jbytes (a_dek x))].
Definition enc_sealed_access (x : sealed_access) : json :=
  JObj [(str "OID", enc_uuid (sa_oid x)); (str "Ciphertext", jbytes (sa_ct x)); (str "WrappedKey", jbytes (sa_wk x))].
(** Marshalling a time fails outside years 0..9999. *)
Definition enc_time (t : gtime) : option json :=
  match time_text t with Some s => Some (JStr s) | None => None end.
Definition enc_sealed_token (x : sealed_token) : option json :=
  match enc_time (st_exp x) with
  | Some e => Some (JObj [(str "ExpiryTime", e); (str "Ciphertext", jbytes (st_ct x)); (str "WrappedKey", jbytes (st_wk x))])
  | None => None
  end.
Definition enc_node (x : node) : json :=
  JObj [(str "Identifier", JStr (n_id x)); (str "NextCounter", JNum (dec_print (n_next x)))].
Definition enc_sealed_node (x : sealed_node) : json :=
  JObj [(str "Ciphertext", jbytes (sn_ct x)); (str "WrappedKey", jbytes (sn_wk x))].
Definition enc_user (x : user) : json :=
  JObj [(str "SaltAndHash", jbytes (u_hash x)); (str "Scopes", JNum (dec_print (u_scopes x))); (str "Groups", enc_set (u_groups x))].
Definition enc_sealed_user (x : sealed_user) : json :=
  JObj [(str "UID", JStr (su_uid x)); (str "Ciphertext", jbytes (su_ct x)); (str "WrappedKey", jbytes (su_wk x))].
Definition enc_group (x : group) : json := JObj [(str "Scopes", JNum (dec_print (g_scopes x)))].
Definition enc_sealed_group (x : sealed_group) : json :=
  JObj [(str "GID", JStr (sg_gid x)); (str "Ciphertext", jbytes (sg_ct x)); (str "WrappedKey", jbytes (sg_wk x))].

(** ** Decoding *)
(** struct{}: any object or null. *)
Definition is_unit (j : json) : bool := match j with JObj _ | JNull => true | _ => false end.
Definition dec_set (j : json) : option (option (gset bytes)) :=
  match j with
  | JNull => Some None
  | JObj l => if forallb (fun kv => is_unit (snd kv)) l then Some (Some (list_to_set (map fst l))) else None
  | _ => None
  end.
Definition dec_uuid (j : json) : option uuid :=
  match dec_string j with Some s => uuid_parse s | None => None end.
Definition dec_time (j : json) : option gtime :=
  match j with JNull => Some time_zero | JStr s => time_parse s | _ => None end.

Definition obind {A B} (o : option A) (k : A -> option B) : option B :=
  match o with Some a => k a | None => None end.
(** The members of a struct; null is an empty struct. *)
Definition members (j : json) : option (list (bytes * json)) :=
  match j with JNull => Some [] | JObj l => Some l | _ => None end.
Definition uuid_nil : uuid := zeros 16.

Definition dec_sealed_object (j : json) : option sealed_object :=
  obind (members j) (fun l =>
  obind (field_or dec_bytes None (str "Ciphertext") l) (fun ct =>
  obind (field_or dec_bytes None (str "AssociatedData") l) (fun ad =>
  obind (field_or dec_uuid uuid_nil (str "OID") l) (fun oid => Some (mkSealedObject ct ad oid))))).
Definition dec_access (j : json) : option access :=
  obind (members j) (fun l =>
  obind (field_or dec_set None (str "Groups") l) (fun g =>
  obind (field_or dec_bytes None (str "WrappedDEK") l) (fun dek => Some (mkAccess g dek)))).
Definition dec_sealed_access (j : json) : option sealed_access :=
  obind (members j) (fun l =>
  obind (field_or dec_uuid uuid_nil (str "OID") l) (fun oid =>
  obind (field_or dec_bytes None (str "Ciphertext") l) (fun ct =>
  obind (field_or dec_bytes None (str "WrappedKey") l) (fun wk => Some (mkSealedAccess oid ct wk))))).
Definition dec_sealed_token (j : json) : option sealed_token :=
  obind (members j) (fun l =>
  obind (field_or dec_time time_zero (str "ExpiryTime") l) (fun e =>
  obind (field_or dec_bytes None (str "Ciphertext") l) (fun ct =>
  obind (field_or dec_bytes None (str "WrappedKey") l) (fun wk => Some (mkSealedToken e ct wk))))).
Definition dec_node (j : json) : option node :=
  obind (members j) (fun l =>
  obind (field_or dec_string [] (str "Identifier") l) (fun i =>
  obind (field_or dec_uint64 0 (str "NextCounter") l) (fun n => Some (mkNode i n)))).
Definition dec_sealed_node (j : json) : option sealed_node :=
  obind (members j) (fun l =>
  obind (field_or dec_bytes None (str "Ciphertext") l) (fun ct =>
  obind (field_or dec_bytes None (str "WrappedKey") l) (fun wk => Some (mkSealedNode ct wk)))).
Definition dec_user (j : json) : option user :=
  obind (members j) (fun l =>
  obind (field_or dec_bytes None (str "SaltAndHash") l) (fun h =>
  obind (field_or dec_uint64 0 (str "Scopes") l) (fun s =>
  obind (field_or dec_set None (str "Groups") l) (fun g => Some (mkUser h s g))))).
Definition dec_sealed_user (j : json) : option sealed_user :=
  obind (members j) (fun l =>
  obind (field_or dec_string [] (str "UID") l) (fun u =>
  obind (field_or dec_bytes None (str "Ciphertext") l) (fun ct =>
  obind (field_or dec_bytes None (str "WrappedKey") l) (fun wk => Some (mkSealedUser u ct wk))))).
Definition dec_group (j : json) : option group :=
  obind (members j) (fun l =>
  obind (field_or dec_uint64 0 (str "Scopes") l) (fun s => Some (mkGroup s))).
Definition dec_sealed_group (j : json) : option sealed_group :=
  obind (members j) (fun l =>
  obind (field_or dec_string [] (str "GID") l) (fun u =>
  obind (field_or dec_bytes None (str "Ciphertext") l) (fun ct =>
  obind (field_or dec_bytes None (str "WrappedKey") l) (fun wk => Some (mkSealedGroup u ct wk))))).

(** json.Unmarshal for a decoder. *)
Definition unmarshal {A} (dec : json -> option A) (b : bytes) : option A := obind (json_parse b) dec.
