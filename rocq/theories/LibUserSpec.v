(** Passwords, memberships and what they allow when calls overlap, going by what was observed. *)
From stdpp Require Import gmap.
From Verif Require Import Bytes Go Uuid Types Id Data D1 Spec Standalone StandaloneSpec Index IndexSpec Lib LibSpec LibConcSpec LibConcUseSpec.

(** Each call in [all] that is of a certain kind, other than the [n]th and the one made after [tr], was answered by the end of [tr], or was answered, at some time, with an error. *)
Definition id_failed (r : lib_reply) : Prop := match r with LIdentity (Ok _) => False | _ => True end.
Definition no_more (n : nat) (all tr : list lib_obs) (kind : lib_call -> Prop) : Prop :=
  forall m c, nth_error (lib_calls all) m = Some c -> m <> n -> m <> length (lib_calls tr) -> kind c ->
  exists r, In (LReply m r) tr \/ In (LReply m r) all /\ id_failed r.

(** A call answered like this shows that the password of [uid] is [pw]. *)
Definition shows_password (uid pw : bytes) (c : lib_call) (r : lib_reply) : Prop :=
  match c, r with
  | OnIdentity (SNewUser _), LIdentity (Ok (SRUser uid' pw')) => uid' = uid /\ pw' = pw
  | OnIdentity (SChangePassword uid' _), LIdentity (Ok (SRPassword pw')) => uid' = uid /\ pw' = pw
  | OnIdentity (SLogin uid' pw'), LIdentity (Ok (SRToken _ _)) => uid' = uid /\ pw' = pw
  | _, _ => False
  end.
Definition may_change (uid : bytes) (c : lib_call) : Prop :=
  match c with OnIdentity (SChangePassword uid' _) | OnIdentity (SDeleteUser _ uid') => uid' = uid | _ => False end.
(** The password of [uid] was [pw], and all other calls that may change it or delete the user were over by then, or failed. *)
Definition password_is (uid pw : bytes) (n : nat) (all tr : list lib_obs) : Prop :=
  exists tr1 c r, answered_call c r tr1 tr /\ shows_password uid pw c r /\ no_more n all tr1 (may_change uid).

(** A call answered like this shows that [uid] is in [g]. *)
Definition shows_member (uid g : bytes) (c : lib_call) (r : lib_reply) : Prop :=
  match c, r with
  | OnIdentity (SAddUser _ uid' gids), LIdentity (Ok SRUnit) => uid' = uid /\ In g gids
  | OnIdentity (SGetIdentity _), LIdentity (Ok (SRIdentity i)) => i_id i = uid /\ is_Some (i_groups i !! g)
  | _, _ => False
  end.
Definition may_leave (uid g : bytes) (c : lib_call) : Prop :=
  match c with
  | OnIdentity (SRemoveUser _ uid' gids) => uid' = uid /\ In g gids
  | OnIdentity (SDeleteUser _ uid') => uid' = uid
  | _ => False
  end.
(** [uid] was in [g], and all calls that may take them out or delete them were over by then, or failed. *)
Definition member_of (uid g : bytes) (n : nat) (all tr : list lib_obs) : Prop :=
  exists tr1 c r, answered_call c r tr1 tr /\ shows_member uid g c r /\ no_more n all tr1 (may_leave uid g).
(** GetIdentity has shown that [uid] has the scopes [need] and is in [g], which has them too, and nothing may have changed that since. *)
Definition entitled (uid g : bytes) (need : N) (n : nat) (all tr : list lib_obs) : Prop :=
  exists tr1 tok i s, answered_call (OnIdentity (SGetIdentity tok)) (LIdentity (Ok (SRIdentity i))) tr1 tr /\ i_id i = uid /\ scope_has (i_scopes i) need /\
    i_groups i !! g = Some s /\ scope_has s need /\ no_more n all tr1 (may_leave uid g).
