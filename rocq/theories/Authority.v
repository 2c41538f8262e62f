(** Who may read and write what, in terms of the calls that were made: the vocabulary of the
    theorems about concurrent calls over untrusted storage. *)
From stdpp Require Import gmap.
From Verif Require Import Bytes Go Uuid Time Types World Id D1 Spec Sched.
Local Open Scope N_scope.

(** What identifies the thing a call made: the id of a new object, the expiry of a new token. *)
Inductive stamp := SOid (oid : uuid) | SExp (t : gtime).
(** The answer does not contradict the stamp. *)
Definition stamped (s : stamp) (r : res d1_reply) : Prop :=
  match r with
  | Ok (ROid oid) => s = SOid oid
  | Ok (RToken t) => s = SExp (st_exp t)
  | Ok _ => False
  | Err _ | Panic => True
  end.

Section Authority.
  Context (calls : list d1_call).
  (** The identities a token may resolve to. *)
  Context (who : bytes -> identity -> Prop).
  (** [made t s]: call number [t] made the thing with stamp [s]. *)
  Context (made : nat -> stamp -> Prop).

  (** The identity may make calls requiring [need] on an object whose access list is [P]. *)
  Definition may (i : identity) (need : N) (P : bytes -> Prop) : Prop :=
    scope_has (i_scopes i) need /\
    (P (i_id i) \/ exists g s, i_groups i !! g = Some s /\ P g /\ scope_has s need).

  (** An id was granted access to [oid]: by the Encrypt that made the object, or by
      AddGroupsToAccess called by someone who themselves had been granted enough.  What is granted is the
      text the named id is stored as. *)
  Inductive granted (oid : uuid) : bytes -> Prop :=
  | gr_encrypt t tok o gs i g :
      calls !! t = Some (CEncrypt tok o gs) -> made t (SOid oid) ->
      who tok i -> scope_has (i_scopes i) ScopeEncrypt -> In g (i_id i :: gs) -> granted oid (as_text g)
  | gr_add tok gs i g :
      In (CAddGroups tok oid gs) calls ->
      who tok i -> may i ScopeModifyAccessGroups (granted oid) -> In g gs -> granted oid (as_text g).

  (** An object was written under [oid]: by the Encrypt that made it, or by an Update by someone
      who had been granted enough. *)
  Definition written (oid : uuid) (o : object) : Prop :=
    (exists t tok gs i, calls !! t = Some (CEncrypt tok o gs) /\ made t (SOid oid) /\
       who tok i /\ scope_has (i_scopes i) ScopeEncrypt) \/
    (exists tok i, In (CUpdate tok oid o) calls /\ who tok i /\ may i ScopeUpdate (granted oid)).

  (** Plaintext and associated data are the same bytes; a nil and an empty associated data
      are not told apart. *)
  Definition same_object (o o' : object) : Prop :=
    o_pt o = o_pt o' /\ slice_bytes (o_ad o) = slice_bytes (o_ad o').

  (** What a successful answer to a call implies. *)
  Definition entitled (tok : bytes) (oid : uuid) (need : N) : Prop :=
    exists i, who tok i /\ may i need (granted oid).
  Definition justified (c : d1_call) (r : d1_reply) : Prop :=
    match c, r with
    | CEncrypt tok _ _, ROid _ => exists i, who tok i /\ scope_has (i_scopes i) ScopeEncrypt
    | CUpdate tok oid _, RUnit => entitled tok oid ScopeUpdate
    | CDecrypt tok oid, RObject o => entitled tok oid ScopeDecrypt /\ exists o', written oid o' /\ same_object o o'
    | CDelete tok oid, RUnit => exists i, who tok i /\ scope_has (i_scopes i) ScopeDelete
    | CGetAccessGroups tok oid, RGroups gs =>
        entitled tok oid ScopeGetAccessGroups /\ exists acl, gs = Some acl /\ forall g, g ∈ acl -> granted oid g
    | CAddGroups tok oid _, RUnit | CRemoveGroups tok oid _, RUnit => entitled tok oid ScopeModifyAccessGroups
    | CAuthorize tok oid, RUnit => entitled tok oid ScopeGetAccessGroups
    | CCreateToken _, RToken _ => True
    | CGetTokenContents t, RBytes p => exists u, calls !! u = Some (CCreateToken p) /\ made u (SExp (st_exp t))
    | _, _ => False
    end.
End Authority.

(** In a pool of calls as it stands, call [t] has not answered anything but [s]. *)
Definition answered_only {S I} (pool : list (prog (world S I) (res d1_reply))) (t : nat) (s : stamp) : Prop :=
  forall r, pool !! t = Some (Ret r) -> stamped s r.

(** The keys of a D1. *)
Definition d1_key (d : d1) (k : bytes) : Prop := k = d_kek d \/ k = d_aek d \/ k = d_tek d.

(** Calls that can be made in Go: 16-byte ids, expiry times as package time represents them. *)
Definition call_wf (c : d1_call) : Prop :=
  (forall oid, call_oid c = Some oid -> uuid_wf oid) /\
  match c with CGetTokenContents t => time_wf (st_exp t) | _ => True end.
