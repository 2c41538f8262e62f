(** id/id.go and id/scope.go. *)
From stdpp Require Import gmap.
From Verif Require Import Bytes.
Local Open Scope bool_scope.
Local Open Scope N_scope.

(** id/scope.go:18-37: a uint64 bit set. *)
Definition ScopeNone : N := 0.
Definition ScopeEncrypt : N := 1.
Definition ScopeDecrypt : N := 2.
Definition ScopeUpdate : N := 4.
Definition ScopeDelete : N := 8.
Definition ScopeCreateToken : N := 16.
Definition ScopeGetTokenContents : N := 32.
Definition ScopeGetAccessGroups : N := 64.
Definition ScopeModifyAccessGroups : N := 128.
Definition ScopeIndex : N := 256.
Definition ScopeEnd : N := 512.
Definition ScopeAll : N := ScopeEnd - 1.

(** ScopeUnion, id/scope.go:40-46. *)
Definition scope_union (l : list N) : N := fold_left N.lor l ScopeNone.
(** Scope.Contains, id/scope.go:49-51. *)
Definition scope_contains (s scope : N) : bool := N.land s scope =? scope.

(** Identity, id/id.go:31-35.  Groups maps a group id to an AccessGroup; the AccessGroup's own
    ID field is never read, so only its scopes are kept. *)
Record identity := mkIdentity { i_id : bytes; i_scopes : N; i_groups : gmap bytes N }.

(** GetIDs, id/id.go:38-45. *)
Definition get_ids (i : identity) : gset bytes := {[ i_id i ]} ∪ dom (i_groups i).
(** GetIDScope, id/id.go:48-56. *)
Definition get_id_scope (i : identity) (gid : bytes) : N :=
  if bytes_eqb gid (i_id i) then i_scopes i
  else match i_groups i !! gid with Some s => s | None => ScopeNone end.
