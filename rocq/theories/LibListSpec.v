(** Who is on an access list when calls overlap, going by what was observed. *)
From stdpp Require Import gmap.
From Verif Require Import Bytes Go Uuid Types Id Data D1 Spec Standalone StandaloneSpec Index IndexSpec Lib LibSpec LibConcSpec LibConcUseSpec LibReadSpec.

(** Each call in [all] that is of a certain kind, other than the [n]th, was answered by the end of [tr], or was answered, at some time, in a way that says that it did nothing of the kind. *)
Definition over (n : nat) (all tr : list lib_obs) (kind : lib_call -> Prop) (harmless : lib_reply -> Prop) : Prop :=
  forall m c, nth_error (lib_calls all) m = Some c -> m <> n -> kind c -> exists r, In (LReply m r) tr \/ In (LReply m r) all /\ harmless r.

(** A call answered like this has put [g] on the list of [oid], or seen it there. *)
Definition shows_on (oid : uuid) (g : bytes) (c : lib_call) (r : lib_reply) : Prop :=
  match c, r with
  | OnObject (CEncrypt _ _ gs), LObject (Ok (ROid oid')) => oid' = oid /\ In g (map as_text gs)
  | OnObject (CAddGroups _ oid' gs), LObject (Ok RUnit) => oid' = oid /\ In g (map as_text gs)
  | OnObject (CGetAccessGroups _ oid'), LObject (Ok (RGroups (Some acl))) => oid' = oid /\ g ∈ acl
  | _, _ => False
  end.
(** Calls that may take it off the list. *)
Definition may_take (oid : uuid) (g : bytes) (c : lib_call) : Prop :=
  match c with
  | OnObject (CRemoveGroups _ oid' gs) => oid' = oid /\ In g gs
  | OnObject (CDelete _ oid') => oid' = oid
  | _ => False
  end.
(** [g] was on the list, and all calls that may take it off were over by then, or failed. *)
Definition group_on (oid : uuid) (g : bytes) (n : nat) (all tr : list lib_obs) : Prop :=
  exists tr1 c r, answered_call c r tr1 tr /\ shows_on oid g c r /\ over n all tr1 (may_take oid g) failed.

(** A call answered like this has taken [g] off the list of [oid], or not seen it there. *)
Definition shows_off (oid : uuid) (g : bytes) (c : lib_call) (r : lib_reply) : Prop :=
  match c, r with
  | OnObject (CRemoveGroups _ oid' gs), LObject (Ok RUnit) => oid' = oid /\ In g gs
  | OnObject (CGetAccessGroups _ oid'), LObject (Ok (RGroups (Some acl))) => oid' = oid /\ g ∉ acl
  | OnObject (CDelete _ oid'), LObject (Ok RUnit) => oid' = oid
  | _, _ => False
  end.
(** Calls that may put it there, and answers that say that the call has not. *)
Definition may_put (oid : uuid) (g : bytes) (c : lib_call) : Prop :=
  match c with
  | OnObject (CEncrypt _ _ _) => True
  | OnObject (CAddGroups _ oid' gs) => oid' = oid /\ In g (map as_text gs)
  | _ => False
  end.
Definition not_put (oid : uuid) (r : lib_reply) : Prop :=
  match r with LObject (Ok (ROid oid')) => oid' <> oid | LObject (Ok _) => False | _ => True end.
(** [g] was off the list, and all calls that may put it there were over by then, or did not. *)
Definition group_off (oid : uuid) (g : bytes) (n : nat) (all tr : list lib_obs) : Prop :=
  exists tr1 c r, answered_call c r tr1 tr /\ shows_off oid g c r /\ over n all tr1 (may_put oid g) (not_put oid).
