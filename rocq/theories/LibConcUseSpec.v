(** What somebody who sees calls being made and answered can go by, when calls overlap. *)
From stdpp Require Import gmap.
From Verif Require Import Bytes Go Uuid Id D1 Spec Standalone StandaloneSpec Index IndexSpec Lib LibSpec LibConcSpec.

(** [uid] has got [tok] from a LoginUser. *)
Definition logged_in (uid tok : bytes) (tr : list lib_obs) : Prop :=
  exists n pw s x, nth_error (lib_calls tr) n = Some (OnIdentity (SLogin uid pw)) /\ In (LReply n (LIdentity (Ok (SRToken s x)))) tr /\ same_token s tok.
(** In [tr], the call [c] was made and then answered with [r]; [tr1] is what happened before it was made. *)
Definition answered_call (c : lib_call) (r : lib_reply) (tr1 tr : list lib_obs) : Prop :=
  exists tr2, tr = tr1 ++ LCall c :: tr2 /\ In (LReply (length (lib_calls tr1)) r) tr2.
(** Each call in [all] that is of a certain kind was answered by the end of [tr], or was answered, at some time, in a way that says that it did nothing of the kind. *)
Definition settled (all tr : list lib_obs) (kind : lib_call -> Prop) (harmless : lib_reply -> Prop) : Prop :=
  forall n c, nth_error (lib_calls all) n = Some c -> kind c -> exists r, In (LReply n r) tr \/ In (LReply n r) all /\ harmless r.

(** [uid] was deleted, and nobody else gets this id. *)
Definition is_new_user (c : lib_call) : Prop := match c with OnIdentity (SNewUser _) => True | _ => False end.
Definition not_user (uid : bytes) (r : lib_reply) : Prop := forall pw, r <> LIdentity (Ok (SRUser uid pw)).
Definition user_deleted (uid : bytes) (all tr : list lib_obs) : Prop :=
  exists tr1 tok, answered_call (OnIdentity (SDeleteUser tok uid)) (LIdentity (Ok SRUnit)) tr1 tr /\ settled all tr1 is_new_user (not_user uid).
(** [uid] was taken out of [g], and is not put back. *)
Definition may_join (uid g : bytes) (c : lib_call) : Prop :=
  match c with OnIdentity (SAddUser _ uid' gids) => uid' = uid /\ In g gids | OnIdentity (SNewGroup _ _) => True | _ => False end.
Definition not_joined (g : bytes) (r : lib_reply) : Prop :=
  match r with LIdentity (Ok (SRGroup gid)) => gid <> g | LIdentity (Ok _) => False | _ => True end.
Definition user_removed (uid g : bytes) (all tr : list lib_obs) : Prop :=
  exists tr1 tok gids, answered_call (OnIdentity (SRemoveUser tok uid gids)) (LIdentity (Ok SRUnit)) tr1 tr /\ In g gids /\ settled all tr1 (may_join uid g) (not_joined g).
(** The list of [oid] was [acl], and no other call than the [n]th changes it or the object. *)
Definition list_seen (oid : uuid) (acl : gset bytes) (n : nat) (all tr : list lib_obs) : Prop :=
  exists tr1 tok, answered_call (OnObject (CGetAccessGroups tok oid)) (LObject (Ok (RGroups (Some acl)))) tr1 tr /\
  forall m c, nth_error (lib_calls all) m = Some (OnObject c) -> m <> n -> call_oid c = Some oid -> ~ only_reads c -> exists r, In (LReply m r) tr1.
(** [uid] was taken out of [g] or has never been put in. *)
Definition user_not_in (uid g : bytes) (all tr : list lib_obs) : Prop :=
  user_removed uid g all tr \/ settled all [] (may_join uid g) (not_joined g).

(** The calls observed act like [ds], each at one single moment between being made and being answered, as a
    sequence of calls does (LibSpec.v): in particular, who the token stands for is settled at that moment. *)
Record lib_did := mkLibDid { ld_call : nat; ld_event : lib_event }.
Definition lib_one_moment (tr : list lib_obs) (ds : list lib_did) (s' : lib_state) : Prop :=
  lib_history lib_empty (map ld_event ds) s' /\ NoDup (map ld_call ds) /\
  (forall d, In d ds -> nth_error (lib_calls tr) (ld_call d) = Some (lv_call (ld_event d))) /\
  (forall t r, In (LReply t r) tr -> exists d, In d ds /\ ld_call d = t /\ lv_reply (ld_event d) = r) /\
  (forall tr1 tr2, tr = tr1 ++ tr2 -> exists ds1 ds2, ds = ds1 ++ ds2 /\
     (forall t r, In (LReply t r) tr1 -> exists d, In d ds1 /\ ld_call d = t /\ lv_reply (ld_event d) = r) /\
     (forall d, In d ds1 -> (ld_call d < length (lib_calls tr1))%nat)).
