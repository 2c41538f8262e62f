(** Specification of the object interface, independent of how d1.go computes it.

    Objects live in a map from object id to (object, access list).  A call carries the identity
    the caller's token resolves to; the specification says which replies and which next map are
    allowed.  Nothing here mentions keys, ciphertexts, encodings or storage. *)
From stdpp Require Import gmap.
From Verif Require Import Bytes Go Json Uuid Types Id D1.
Local Open Scope N_scope.

(** ** Text.  A string is well-formed UTF-8 if it is the encoding of a list of Unicode scalar values. *)
Definition scalar (c : N) : Prop := c < 1114112 /\ ~ (55296 <= c /\ c <= 57343).
Definition utf8_char (c : N) : bytes :=
  if c <? 128 then [Nb c]
  else if c <? 2048 then [Nb (192 + c / 64); Nb (128 + c mod 64)]
  else if c <? 65536 then [Nb (224 + c / 4096); Nb (128 + (c / 64) mod 64); Nb (128 + c mod 64)]
  else [Nb (240 + c / 262144); Nb (128 + (c / 4096) mod 64); Nb (128 + (c / 64) mod 64); Nb (128 + c mod 64)].
Definition Utf8 (s : bytes) : Prop := exists l, Forall scalar l /\ s = concat (map utf8_char l).
(** What a string turns into when it is stored as JSON text and read back: from left to right, encoded
    scalar values are kept and every byte that starts none is replaced by the encoding of U+FFFD. *)
Inductive reads_back : bytes -> bytes -> Prop :=
| rb_nil : reads_back [] []
| rb_char c s t : scalar c -> reads_back s t -> reads_back (utf8_char c ++ s) (utf8_char c ++ t)
| rb_bad b s t : (forall c u, scalar c -> utf8_char c ++ u <> b :: s) -> reads_back s t ->
    reads_back (b :: s) (utf8_char 65533 ++ t).
(** The function that computes it; C47 proves that [reads_back s t] holds for [t = as_text s] only, and
    that [as_text s = s] for UTF-8 text. *)
Definition as_text (s : bytes) : bytes := sanitize s.

(** ** Authorization. *)
(** Every bit of [need] is set in [have]. *)
Definition scope_has (have need : N) : Prop := forall b, N.testbit need b = true -> N.testbit have b = true.
(** The identity is on the access list with sufficient scopes: by its own id, or by a group. *)
Definition on_list (i : identity) (need : N) (acl : gset bytes) : Prop :=
  (i_id i ∈ acl /\ scope_has (i_scopes i) need) \/
  (exists g s, i_groups i !! g = Some s /\ g ∈ acl /\ scope_has s need).

(** ** The object map. *)
Notation objects := (@gmap uuid list.list_eq_dec list_countable (object * @gset bytes list.list_eq_dec list_countable)).

Definition refuse {A : Type} (x : err) (m : objects) (r : res A) (m' : objects) : Prop := r = Err x /\ m' = m.

(** Who may call at all. *)
Definition with_scope (need : N) (who : res identity) (m : objects) (r : res d1_reply) (m' : objects)
  (body : identity -> Prop) : Prop :=
  match who with
  | Ok i => (~ scope_has (i_scopes i) need /\ refuse ED1NotAuthorized m r m') \/ (scope_has (i_scopes i) need /\ body i)
  | Err _ => refuse ED1NotAuthenticated m r m'
  | Panic => r = Panic /\ m' = m
  end.
(** Who may touch an object. *)
Definition with_access (need : N) (who : res identity) (oid : uuid) (m : objects) (r : res d1_reply) (m' : objects)
  (body : object -> gset bytes -> Prop) : Prop :=
  with_scope need who m r m' (fun i =>
    match m !! oid with
    | None => refuse ED1AccessNotFound m r m'
    | Some (o, acl) =>
        (~ on_list i need acl /\ refuse ED1NotAuthorized m r m') \/ (on_list i need acl /\ body o acl)
    end).

(** If the random source failed, nothing happens. *)
Definition or_random (rng_fails : Prop) (m : objects) (r : res d1_reply) (m' : objects) (body : Prop) : Prop :=
  (rng_fails /\ refuse ERandom m r m') \/ body.

(** What the environment contributes to a call: the identity the token resolves to, whether the
    random source failed during the call, and the object id it yields. *)
Record outside := mkOutside { o_who : res identity; o_rng_fails : Prop; o_id : res uuid }.

(** One call. *)
Definition spec_step (x : outside) (c : d1_call) (m : objects) (r : res d1_reply) (m' : objects) : Prop :=
  let who := o_who x in
  let rng_fails := o_rng_fails x in
  match c with
  | CEncrypt _ obj groups =>
      with_scope ScopeEncrypt who m r m' (fun i =>
        or_random rng_fails m r m'
          (exists oid, o_id x = Ok oid /\
            match m !! oid with
            | None => r = Ok (ROid oid) /\ m' = <[oid := (obj, list_to_set (map as_text (i_id i :: groups)))]> m
            | Some _ => refuse ED1ObjectAlreadyExists m r m'
            end))
  | CUpdate _ oid obj =>
      with_access ScopeUpdate who oid m r m' (fun _ acl =>
        or_random rng_fails m r m' (r = Ok RUnit /\ m' = <[oid := (obj, acl)]> m))
  | CDecrypt _ oid =>
      with_access ScopeDecrypt who oid m r m' (fun o _ => r = Ok (RObject o) /\ m' = m)
  | CDelete _ oid =>
      with_scope ScopeDelete who m r m' (fun i =>
        match m !! oid with
        | None => r = Ok RUnit /\ m' = m
        | Some (_, acl) =>
            (~ on_list i ScopeDelete acl /\ refuse ED1NotAuthorized m r m') \/
            (on_list i ScopeDelete acl /\ r = Ok RUnit /\ m' = delete oid m)
        end)
  | CGetAccessGroups _ oid =>
      with_access ScopeGetAccessGroups who oid m r m' (fun _ acl => r = Ok (RGroups (Some acl)) /\ m' = m)
  | CAddGroups _ oid groups =>
      with_access ScopeModifyAccessGroups who oid m r m' (fun o acl =>
        or_random rng_fails m r m' (r = Ok RUnit /\ m' = <[oid := (o, acl ∪ list_to_set (map as_text groups))]> m))
  | CRemoveGroups _ oid groups =>
      with_access ScopeModifyAccessGroups who oid m r m' (fun o acl =>
        or_random rng_fails m r m' (r = Ok RUnit /\ m' = <[oid := (o, acl ∖ list_to_set groups)]> m))
  | CAuthorize _ oid =>
      with_access ScopeGetAccessGroups who oid m r m' (fun _ _ => r = Ok RUnit /\ m' = m)
  (* tokens do not concern objects; what they contain is specified separately *)
  | CCreateToken _ => m' = m /\ (forall y, r = Ok y -> exists t, y = RToken t)
  | CGetTokenContents _ => m' = m /\ (forall y, r = Ok y -> exists b, y = RBytes b)
  end.

(** A history: what was called, in which circumstances, and what was returned. *)
Record event := mkEvent { ev_outside : outside; ev_call : d1_call; ev_reply : res d1_reply }.
Inductive spec_history : objects -> list event -> objects -> Prop :=
| sh_nil m : spec_history m [] m
| sh_cons m ev m1 evs m2 :
    spec_step (ev_outside ev) (ev_call ev) m (ev_reply ev) m1 ->
    spec_history m1 evs m2 -> spec_history m (ev :: evs) m2.

(** The token, object id and group ids of a call. *)
Definition call_token (c : d1_call) : option bytes :=
  match c with
  | CEncrypt t _ _ | CUpdate t _ _ | CDecrypt t _ | CDelete t _ | CGetAccessGroups t _
  | CAddGroups t _ _ | CRemoveGroups t _ _ | CAuthorize t _ => Some t
  | CCreateToken _ | CGetTokenContents _ => None
  end.
Definition call_oid (c : d1_call) : option uuid :=
  match c with
  | CUpdate _ o _ | CDecrypt _ o | CDelete _ o | CGetAccessGroups _ o | CAddGroups _ o _
  | CRemoveGroups _ o _ | CAuthorize _ o => Some o
  | CEncrypt _ _ _ | CCreateToken _ | CGetTokenContents _ => None
  end.
Definition call_groups (c : d1_call) : list bytes :=
  match c with CEncrypt _ _ g | CAddGroups _ _ g | CRemoveGroups _ _ g => g | _ => [] end.
(** What Go's types give: ids are 16 bytes. *)
Definition event_ok (ev : event) : Prop := forall o, call_oid (ev_call ev) = Some o -> uuid_wf o.
