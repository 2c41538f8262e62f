(** Specification of the object interface when calls may die at any point and storage may fail.

    Under an id there may be an object and there may be an access list; [sh_torn] holds the ids whose
    object and access list may not belong together, so that reading the object may fail.  A completed
    call does what [x_step] says, a call that died or was told of a storage failure has one of the
    effects in [x_cut].  Nothing here mentions keys, ciphertexts, encodings or storage. *)
From stdpp Require Import gmap.
From Verif Require Import Bytes Go Uuid Types World IoSpec Id D1 D1Proofs Spec History Claims.
Local Open Scope N_scope.

Notation acl_t := (@gset bytes list.list_eq_dec list_countable).
Record shelf := mkShelf {
  sh_obj : @gmap uuid list.list_eq_dec list_countable object;
  sh_acl : @gmap uuid list.list_eq_dec list_countable acl_t;
  sh_torn : @gset uuid list.list_eq_dec list_countable }.
Definition shelf_empty : shelf := mkShelf ∅ ∅ ∅.

(** Object and access list are both written; only the object; only the list; ... *)
Definition put_both (oid : uuid) (o : object) (acl : acl_t) (s : shelf) : shelf :=
  mkShelf (<[oid := o]> (sh_obj s)) (<[oid := acl]> (sh_acl s)) (sh_torn s ∖ {[oid]}).
Definition put_object (oid : uuid) (o : object) (s : shelf) : shelf :=
  mkShelf (<[oid := o]> (sh_obj s)) (sh_acl s) (sh_torn s ∪ {[oid]}).
Definition put_list (oid : uuid) (acl : acl_t) (s : shelf) : shelf :=
  mkShelf (sh_obj s) (<[oid := acl]> (sh_acl s)) (sh_torn s).
Definition drop_object (oid : uuid) (s : shelf) : shelf :=
  mkShelf (delete oid (sh_obj s)) (sh_acl s) (sh_torn s).
Definition drop_both (oid : uuid) (s : shelf) : shelf :=
  mkShelf (delete oid (sh_obj s)) (delete oid (sh_acl s)) (sh_torn s).

Definition deny (x : err) (s : shelf) (r : res d1_reply) (s' : shelf) : Prop := r = Err x /\ s' = s.
(** Who may call at all. *)
Definition by_scope (need : N) (who : res identity) (s : shelf) (r : res d1_reply) (s' : shelf) (body : identity -> Prop) : Prop :=
  match who with
  | Ok i => (~ scope_has (i_scopes i) need /\ deny ED1NotAuthorized s r s') \/ (scope_has (i_scopes i) need /\ body i)
  | Err _ => deny ED1NotAuthenticated s r s'
  | Panic => r = Panic /\ s' = s
  end.
(** Who may touch an object: the access list decides. *)
Definition by_access (need : N) (who : res identity) (oid : uuid) (s : shelf) (r : res d1_reply) (s' : shelf) (body : acl_t -> Prop) : Prop :=
  by_scope need who s r s' (fun i =>
    match sh_acl s !! oid with
    | None => deny ED1AccessNotFound s r s'
    | Some acl => (~ on_list i need acl /\ deny ED1NotAuthorized s r s') \/ (on_list i need acl /\ body acl)
    end).
Definition or_rng (fails : Prop) (s : shelf) (r : res d1_reply) (s' : shelf) (body : Prop) : Prop :=
  (fails /\ deny ERandom s r s') \/ body.

(** A call that was answered.  [odd]: what is stored as the object the call names can be read under two
    different keys, to which no answer of Decrypt for a torn object can be held. *)
Definition x_step (odd : Prop) (x : outside) (c : d1_call) (s : shelf) (r : res d1_reply) (s' : shelf) : Prop :=
  let who := o_who x in
  let fails := o_rng_fails x in
  match c with
  | CEncrypt _ obj groups =>
      by_scope ScopeEncrypt who s r s' (fun i => or_rng fails s r s'
        (exists oid, o_id x = Ok oid /\
          match sh_obj s !! oid, sh_acl s !! oid with
          | Some _, _ => deny ED1ObjectAlreadyExists s r s'
          | None, None => r = Ok (ROid oid) /\ s' = put_both oid obj (list_to_set (map as_text (i_id i :: groups))) s
          | None, Some _ => r = Err ED1AccessAlreadyExists /\ s' = put_object oid obj s
          end))
  | CUpdate _ oid obj =>
      by_access ScopeUpdate who oid s r s' (fun acl => or_rng fails s r s'
        match sh_obj s !! oid with
        | None => deny ED1ObjectNotFound s r s'
        | Some _ => r = Ok RUnit /\ s' = put_both oid obj acl s
        end)
  | CDecrypt _ oid =>
      by_access ScopeDecrypt who oid s r s' (fun _ =>
        match sh_obj s !! oid with
        | None => deny ED1ObjectNotFound s r s'
        | Some o => s' = s /\ (r = Ok (RObject o) \/ (oid ∈ sh_torn s /\ ((exists y, r = Err y) \/ odd)))
        end)
  | CDelete _ oid =>
      by_scope ScopeDelete who s r s' (fun i =>
        match sh_acl s !! oid with
        | None => r = Ok RUnit /\ s' = s
        | Some acl => (~ on_list i ScopeDelete acl /\ deny ED1NotAuthorized s r s') \/
                      (on_list i ScopeDelete acl /\ r = Ok RUnit /\ s' = drop_both oid s)
        end)
  | CGetAccessGroups _ oid =>
      by_access ScopeGetAccessGroups who oid s r s' (fun acl => r = Ok (RGroups (Some acl)) /\ s' = s)
  | CAddGroups _ oid groups =>
      by_access ScopeModifyAccessGroups who oid s r s' (fun acl => or_rng fails s r s'
        (r = Ok RUnit /\ s' = put_list oid (acl ∪ list_to_set (map as_text groups)) s))
  | CRemoveGroups _ oid groups =>
      by_access ScopeModifyAccessGroups who oid s r s' (fun acl => or_rng fails s r s'
        (r = Ok RUnit /\ s' = put_list oid (acl ∖ list_to_set groups) s))
  | CAuthorize _ oid =>
      by_access ScopeGetAccessGroups who oid s r s' (fun _ => r = Ok RUnit /\ s' = s)
  | CCreateToken _ => s' = s /\ (forall y, r = Ok y -> exists t, y = RToken t)
  | CGetTokenContents _ => s' = s /\ (forall y, r = Ok y -> exists b, y = RBytes b)
  end.

(** The caller is entitled to the call on [oid], whose access list is [acl]. *)
Definition entitled (x : outside) (need : N) (oid : uuid) (s : shelf) (acl : acl_t) : Prop :=
  exists i, o_who x = Ok i /\ scope_has (i_scopes i) need /\ sh_acl s !! oid = Some acl /\ on_list i need acl.
(** A call that was not answered, or answered with a storage failure: nothing happened, or, if the caller
    is entitled, part of the effect, or all of it. *)
Definition x_cut (x : outside) (c : d1_call) (s s' : shelf) : Prop :=
  s' = s \/
  match c with
  | CEncrypt _ obj groups => exists i oid, o_who x = Ok i /\ scope_has (i_scopes i) ScopeEncrypt /\ o_id x = Ok oid /\
      sh_obj s !! oid = None /\
      (s' = put_object oid obj s \/
       (sh_acl s !! oid = None /\ s' = put_both oid obj (list_to_set (map as_text (i_id i :: groups))) s))
  | CUpdate _ oid obj => exists acl, entitled x ScopeUpdate oid s acl /\ sh_obj s !! oid <> None /\
      (s' = put_object oid obj s \/ s' = put_both oid obj acl s)
  | CDelete _ oid => exists acl, entitled x ScopeDelete oid s acl /\ (s' = drop_object oid s \/ s' = drop_both oid s)
  | CAddGroups _ oid groups => exists acl, entitled x ScopeModifyAccessGroups oid s acl /\
      s' = put_list oid (acl ∪ list_to_set (map as_text groups)) s
  | CRemoveGroups _ oid groups => exists acl, entitled x ScopeModifyAccessGroups oid s acl /\
      s' = put_list oid (acl ∖ list_to_set groups) s
  | _ => False
  end.

(** A history: calls answered and calls that died. *)
Inductive happening := Answered (odd : Prop) (ev : event) | Died (x : outside) (c : d1_call).
Definition hap_call (h : happening) : d1_call := match h with Answered _ ev => ev_call ev | Died _ c => c end.
Definition hap_outside (h : happening) : outside := match h with Answered _ ev => ev_outside ev | Died x _ => x end.
Definition hap_step (h : happening) (s s' : shelf) : Prop :=
  match h with
  | Answered odd ev => x_step odd (ev_outside ev) (ev_call ev) s (ev_reply ev) s' \/
                   (exists y, ev_reply ev = Err y /\ fault y /\ x_cut (ev_outside ev) (ev_call ev) s s')
  | Died x c => x_cut x c s s'
  end.
Inductive x_history : shelf -> list happening -> shelf -> Prop :=
| xh_nil s : x_history s [] s
| xh_cons s h s1 hs s2 : hap_step h s s1 -> x_history s1 hs s2 -> x_history s (h :: hs) s2.
(** What Go's types give: ids are 16 bytes. *)
Definition hap_ok (h : happening) : Prop := forall o, call_oid (hap_call h) = Some o -> uuid_wf o.

(** Runs of the model: every call through a storage provider of its own, which may fail at any
    operation; answered, or cut after any number of steps.  In between anything may happen except to stored
    objects and access lists. *)
Section Runs.
  Context {S I : Type} (e : env) (v : view S).
  Notation W := (world S I).
  Context (idp : bytes -> prog W (res identity)) (d : d1).
  Definition odd_object (w : W) (c : d1_call) : Prop :=
    exists oid, call_oid c = Some oid /\ two_keys oid (v_map v (w_io w) oid DataTypeSealedObject).
  Inductive x_run : W -> list happening -> W -> Prop :=
  | xr_nil w : x_run w [] w
  | xr_env w w1 hs w2 : elsewhere v all_ids w w1 -> x_run w1 hs w2 -> x_run w hs w2
  | xr_answered w (iof : provider S) c r w1 hs w2 : io_spec True v iof ->
      run (d1_aes e iof idp d c) w = (r, w1) -> x_run w1 hs w2 ->
      x_run w (Answered (odd_object w c) (mkEvent (outside_of e idp w c w1) c r) :: hs) w2
  | xr_died w (iof : provider S) c n hs w2 : io_spec True v iof ->
      x_run (snd (run_n n (d1_aes e iof idp d c) w)) hs w2 ->
      x_run w (Died (outside_of e idp w c w) c :: hs) w2.
End Runs.
