(** Specification of the assembled library when calls of any kind may die at any point and storage may fail
    at any operation: the directory of StandaloneSpec.v, the shelf of CrashSpec.v and the index of IndexSpec.v
    side by side, each with the effects listed there for calls that were answered, failed or died.  A token in an object
    or index call is worth what the directory says at that moment, or nothing if storage fails while it is
    looked up. *)
From stdpp Require Import gmap.
From Verif Require Import Bytes Go Uuid Time Types World IoSpec Id D1 Spec Standalone StandaloneSpec Index IndexSpec CrashSpec Lib LibSpec.
Local Open Scope N_scope.

(** [lx_past]: the index calls so far, answered or not (see [ix_xadd] in IndexSpec.v for why they matter). *)
Record lib_x := mkLibX { lx_dir : directory; lx_shelf : shelf; lx_index : index; lx_past : list ix_happening }.
Definition lib_x_empty : lib_x := mkLibX dir_empty shelf_empty index_empty [].

(** A call that was answered ([odd]: see CrashSpec.v), and one that died. *)
Inductive lib_happening := LDone (odd : Prop) (ev : lib_event) | LDied (x : surroundings) (c : lib_call).
Definition lh_call (h : lib_happening) : lib_call := match h with LDone _ ev => lv_call ev | LDied _ c => c end.
Definition lh_x (h : lib_happening) : surroundings := match h with LDone _ ev => lv_x ev | LDied x _ => x end.

(** The identity in an object or index call. *)
Definition claimed (x : surroundings) (d : directory) (tok : option bytes) (who : res identity) : Prop :=
  caller x d tok who \/ exists y, who = Err y.
Definition object_outside (x : surroundings) (who : res identity) : outside :=
  mkOutside who (x_rng_fails x) (res_map uuid_v4 (x_draw x 0 16)).
Definition may_index (who : res identity) : Prop := exists i, who = Ok i /\ scope_has (i_scopes i) ScopeIndex.
(** An index call.  One whose caller may not make it does nothing. *)
Definition index_step (who : res identity) (h : ix_happening) (s s' : lib_x) : Prop :=
  ix_xstep (lx_past s) h (lx_index s) (lx_index s') /\ lx_past s' = lx_past s ++ [h] /\
  (~ may_index who -> same (lx_index s) (lx_index s') /\
    match h with
    | XDone ev => iv_reply ev = match who with Ok _ => Err EIxNotAuthorized | Err _ => Err EIxNotAuthenticated | Panic => Panic end
    | XCut _ => True
    end).

Definition lib_x_step (h : lib_happening) (s s' : lib_x) : Prop :=
  match h with
  | LDone odd ev =>
      match lv_call ev, lv_reply ev with
      | OnObject c, LObject r =>
          exists who, claimed (lv_x ev) (lx_dir s) (call_token c) who /\
            hap_step (Answered odd (mkEvent (object_outside (lv_x ev) who) c r)) (lx_shelf s) (lx_shelf s') /\
            lx_dir s' = lx_dir s /\ lx_index s' = lx_index s /\ lx_past s' = lx_past s
      | OnIndex c, LIndex r =>
          exists who, claimed (lv_x ev) (lx_dir s) (Some (ix_token c)) who /\
            index_step who (XDone (mkIxEvent (mkIxOutside who (x_rng_fails (lv_x ev))) c r)) s s' /\
            lx_dir s' = lx_dir s /\ lx_shelf s' = lx_shelf s
      | OnIdentity c, LIdentity r =>
          sa_happens True (SDone (mkSaEvent (lv_x ev) c r)) (lx_dir s) (lx_dir s') /\
            lx_shelf s' = lx_shelf s /\ lx_index s' = lx_index s /\ lx_past s' = lx_past s
      | _, _ => False
      end
  | LDied x c =>
      match c with
      | OnObject c =>
          exists who, claimed x (lx_dir s) (call_token c) who /\
            hap_step (Died (object_outside x who) c) (lx_shelf s) (lx_shelf s') /\
            lx_dir s' = lx_dir s /\ lx_index s' = lx_index s /\ lx_past s' = lx_past s
      | OnIndex c =>
          exists who, claimed x (lx_dir s) (Some (ix_token c)) who /\ index_step who (XCut c) s s' /\
            lx_dir s' = lx_dir s /\ lx_shelf s' = lx_shelf s
      | OnIdentity c =>
          sa_happens True (SCut x c) (lx_dir s) (lx_dir s') /\
            lx_shelf s' = lx_shelf s /\ lx_index s' = lx_index s /\ lx_past s' = lx_past s
      end
  end.
Inductive lib_xhistory : lib_x -> list lib_happening -> lib_x -> Prop :=
| lxh_nil s : lib_xhistory s [] s
| lxh_cons s h s1 hs s2 : lib_x_step h s s1 -> lib_xhistory s1 hs s2 -> lib_xhistory s (h :: hs) s2.

(** The index calls among them. *)
Definition lh_index (hs : list lib_happening) : list ix_call :=
  flat_map (fun h => match lh_call h with OnIndex c => [c] | _ => [] end) hs.

(** ** Words for what was asked and answered *)
(** [tok] was handed to [uid] by a login that was answered. *)
Definition x_token_of (uid tok : bytes) (hs : list lib_happening) : Prop :=
  exists odd ev pw s n, In (LDone odd ev) hs /\ lv_call ev = OnIdentity (SLogin uid pw) /\ lv_reply ev = LIdentity (Ok (SRToken s n)) /\ same_token s tok.
(** A call that, answered or not, may have made [uid] a member of [g]: one that asks for it, or a NewGroup
    that draws the name [g]. *)
Definition may_join (uid g : bytes) (h : lib_happening) : Prop :=
  match lh_call h with
  | OnIdentity (SAddUser _ uid' gids) => uid' = uid /\ In g gids
  | OnIdentity (SNewGroup _ _) => exists b, x_draw (lh_x h) 0 16 = Ok b /\ uuid_text (uuid_v4 b) = g
  | _ => False
  end.
(** Never put into [g], or taken out by a call that was answered and not put back. *)
Definition x_not_in (uid g : bytes) (hs : list lib_happening) : Prop :=
  (forall h, In h hs -> ~ may_join uid g h) \/
  exists pre odd ev mid tok gids, hs = pre ++ LDone odd ev :: mid /\
    lv_call ev = OnIdentity (SRemoveUser tok uid gids) /\ lv_reply ev = LIdentity (Ok SRUnit) /\ In g gids /\
    forall h, In h mid -> ~ may_join uid g h.
(** [uid] was deleted by a call that was answered, and no NewUser since drew this id. *)
Definition x_deleted (uid : bytes) (hs : list lib_happening) : Prop :=
  exists pre odd ev mid tok, hs = pre ++ LDone odd ev :: mid /\
    lv_call ev = OnIdentity (SDeleteUser tok uid) /\ lv_reply ev = LIdentity (Ok SRUnit) /\
    forall h scopes b, In h mid -> lh_call h = OnIdentity (SNewUser scopes) -> x_draw (lh_x h) 0 16 = Ok b -> uuid_text (uuid_v4 b) <> uid.
(** GetAccessGroups answered [acl] for [oid], and since then no call about [oid], answered or not, but ones
    that only look. *)
Definition x_listed (oid : uuid) (acl : acl_t) (hs : list lib_happening) : Prop :=
  exists pre odd ev mid tok, hs = pre ++ LDone odd ev :: mid /\
    lv_call ev = OnObject (CGetAccessGroups tok oid) /\ lv_reply ev = LObject (Ok (RGroups (Some acl))) /\
    forall h c, In h mid -> lh_call h = OnObject c -> call_oid c = Some oid -> only_reads c.
(** Nothing changed. *)
Definition no_effect (s s' : lib_x) : Prop :=
  lx_dir s' = lx_dir s /\ lx_shelf s' = lx_shelf s /\ same (lx_index s) (lx_index s').
(** The answers to a call whose caller is nobody; an object call may also be told of a storage failure,
    an identity call may fail with any error. *)
Definition x_turned_away (r : lib_reply) : Prop :=
  match r with
  | LObject r => r = Err ED1NotAuthenticated \/ exists y, r = Err y /\ fault y
  | LIndex r => r = Err EIxNotAuthenticated
  | LIdentity r => exists y, r = Err y
  end.
