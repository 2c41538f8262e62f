(** Properties C60 and C61: identity-provider calls that overlap.  [sa_conc] interleaves the steps of calls that are
    made at any time, in any order; [tr] is what an observer sees of it: calls, numbered in the order
    they are made, and replies. *)
From stdpp Require Import gmap.
From Verif Require D1Conc.
From Verif Require Import Bytes Go Uuid Time Types World Io IoSpec IoProofs Id Data Standalone StandaloneSpec Demo StandaloneDemo D1ConcSpec SaConcSpec SaConcAll SaConcDemo.
Local Open Scope N_scope.

(** C60.  Calls of the identity provider that overlap act as if one after the other, each once, with the
    effects and replies of the user directory, in an order that respects which call was answered before
    another was made.  This holds for any number of calls of any kind if calls at odds do not overlap
    ([orderly]), random ids do not repeat, nobody names a user before NewUser has returned the id, and tokens are not forged. *)
Theorem C60_overlapping_calls {S I} (e : env) (v : view S) (io : provider S) (k : sa_keys) (w w' : world S I) (tr : list sa_obs) (pool' : list (prog (world S I) (res sa_reply))) :
  forall (storage : cell_storage v io) (clock_ok : forall n, time_wf (clock e n)) (empty : no_accounts v w) (run : sa_conc e v io k [] w tr pool' w')
    (wf : scopes_wf tr) (no_odds : orderly tr) (fresh_ids : ids_differ e (w_draws w) (w_draws w')) (unguessed : no_guess e (w_draws w) (w_draws w') tr)
    (tokens : unforged k tr),
  exists ds d', sa_linearizes e dir_empty tr ds d'.
Proof. exact (identities_linearize e v io k w tr pool' w'). Qed.
Print Assumptions C60_overlapping_calls.

(** Both storage providers are of that kind. *)
Theorem C60_storage : cell_storage mem_view Mem /\ cell_storage bolt_view Bolt.
Proof. exact (conj D1Conc.mem_cells D1Conc.bolt_cells). Qed.
Print Assumptions C60_storage.

(** Such a run: while the first user makes a second group, the second user changes their password. *)
Example C60_case (k : sa_keys) : exists u p tok g x px tokx g2 px2 pool' (w' : world (gmap bytes bytes) unit),
  let tr :=
    [ICall (SNewUser [ScopeAll]); IReply 0 (Ok (SRUser u p)); ICall (SLogin u p); IReply 1 (Ok (SRToken tok (time_unix T1)));
     ICall (SNewGroup tok [ScopeAll]); IReply 2 (Ok (SRGroup g));
     ICall (SNewUser [ScopeAll]); IReply 3 (Ok (SRUser x px)); ICall (SLogin x px); IReply 4 (Ok (SRToken tokx (time_unix T1)));
     ICall (SNewGroup tok [ScopeAll]); ICall (SChangePassword x px); IReply 6 (Ok (SRPassword px2)); IReply 5 (Ok (SRGroup g2))] in
  cell_storage mem_view Mem /\ (forall n, time_wf (clock ov_env n)) /\ no_accounts mem_view sa_w /\ sa_conc ov_env mem_view Mem k [] sa_w tr pool' w' /\
  scopes_wf tr /\ orderly tr /\ ids_differ ov_env (w_draws sa_w) (w_draws w') /\ no_guess ov_env (w_draws sa_w) (w_draws w') tr /\ unforged k tr.
Proof. exact (calm_run k). Qed.

(** C61, without the restriction, is false.  When a ChangeUserPassword overlaps a NewGroup of the same
    user both may succeed and leave the old password working and the new one not; *)
Theorem C61_password_change_lost_refuted (k : sa_keys) : exists u p p2 tok tok2 gid,
  let tr :=
    [ICall (SNewUser [ScopeAll]); IReply 0 (Ok (SRUser u p)); ICall (SLogin u p); IReply 1 (Ok (SRToken tok (time_unix T1)));
     ICall (SNewGroup tok [ScopeAll]); ICall (SChangePassword u p); IReply 3 (Ok (SRPassword p2)); IReply 2 (Ok (SRGroup gid));
     ICall (SLogin u p); IReply 4 (Ok (SRToken tok2 (time_unix T1))); ICall (SLogin u p2); IReply 5 (Err EIdNotAuthenticated)] in
  (exists pool' (w' : world (gmap bytes bytes) unit), sa_conc ov_env mem_view Mem k [] sa_w tr pool' w') /\ forall ds d', ~ sa_linearizes ov_env dir_empty tr ds d'.
Proof. exact (lost_password k). Qed.
Print Assumptions C61_password_change_lost_refuted.

(** when a RemoveUserFromGroups overlaps a NewGroup of that user both may succeed and leave the user in the group; *)
Theorem C61_removal_lost_refuted (k : sa_keys) : exists u p tok g1 g2 i,
  let tr :=
    [ICall (SNewUser [ScopeAll]); IReply 0 (Ok (SRUser u p)); ICall (SLogin u p); IReply 1 (Ok (SRToken tok (time_unix T1)));
     ICall (SNewGroup tok [ScopeAll]); IReply 2 (Ok (SRGroup g1));
     ICall (SNewGroup tok [ScopeAll]); ICall (SRemoveUser tok u [g1]); IReply 4 (Ok SRUnit); IReply 3 (Ok (SRGroup g2));
     ICall (SGetIdentity tok); IReply 5 (Ok (SRIdentity i))] in
  (exists pool' (w' : world (gmap bytes bytes) unit), sa_conc ov_env mem_view Mem k [] sa_w tr pool' w') /\ is_Some (i_groups i !! g1) /\
  forall ds d', ~ sa_linearizes ov_env dir_empty tr ds d'.
Proof. exact (lost_removal k). Qed.
Print Assumptions C61_removal_lost_refuted.

(** and somebody who is removed from a group may still let others in with a call that was under way: the
    removal has been answered and [x] is not a member, and then the call goes through. *)
Theorem C61_late_add_refuted (k : sa_keys) : exists u p tok g x px tokx i,
  let tr :=
    [ICall (SNewUser [ScopeAll]); IReply 0 (Ok (SRUser u p)); ICall (SLogin u p); IReply 1 (Ok (SRToken tok (time_unix T1)));
     ICall (SNewGroup tok [ScopeAll]); IReply 2 (Ok (SRGroup g));
     ICall (SNewUser [ScopeAll]); IReply 3 (Ok (SRUser x px)); ICall (SLogin x px); IReply 4 (Ok (SRToken tokx (time_unix T1)));
     ICall (SAddUser tok x [g]); ICall (SRemoveUser tok u [g]); IReply 6 (Ok SRUnit);
     ICall (SGetIdentity tokx); IReply 7 (Ok (SRIdentity i)); IReply 5 (Ok SRUnit)] in
  (exists pool' (w' : world (gmap bytes bytes) unit), sa_conc ov_env mem_view Mem k [] sa_w tr pool' w') /\ i_groups i !! g = None /\
  forall ds d', ~ sa_linearizes ov_env dir_empty tr ds d'.
Proof. exact (late_add k). Qed.
Print Assumptions C61_late_add_refuted.
