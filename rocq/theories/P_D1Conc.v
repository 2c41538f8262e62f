(** Properties C55 and C56: object calls that overlap.  [d1_conc] interleaves the steps of calls that are made at
    any time, in any order; [tr] is what an observer sees of it: calls, numbered in the order they are
    made, and replies. *)
From stdpp Require Import gmap.
From Verif Require Import Bytes Go Uuid Types World Io IoSpec IoProofs Id Data D1 D1Proofs Spec SpecProofs History Demo
  D1ConcSpec D1Conc D1ConcDemo.
Local Open Scope N_scope.

(** C55.  Calls that overlap act as if one after the other, each once, with the effects and replies of
    the specification, in an order that respects which call was answered before another was made.  This
    holds for any number of calls of any kind if calls at odds do not overlap ([orderly]), random ids
    do not repeat, and nobody names an id before Encrypt has returned it. *)
Theorem C55_overlapping_calls {S I} (e : env) (v : view S) (io : provider S) (idp : bytes -> prog (world S I) (res identity))
    (who : bytes -> res identity -> Prop) (d : d1) (w w' : world S I) (tr : list d1_obs) (pool' : list (prog (world S I) (res d1_reply))) :
  forall (storage : cell_storage v io) (identities : forall tok, answers v (idp tok) (who tok)) (draws : forall tok, forward (idp tok))
    (empty : fresh v all_ids w) (run : d1_conc e v io idp d [] w tr pool' w')
    (wf : ids_wf tr) (no_odds : orderly tr) (fresh_ids : ids_differ e (w_draws w) (w_draws w')) (unguessed : no_guess e (w_draws w) (w_draws w') tr),
  exists ds m', d1_linearizes e who ∅ tr ds m'.
Proof. exact (objects_linearize e v io idp who d w tr pool' w'). Qed.
Print Assumptions C55_overlapping_calls.

(** Both storage providers are of that kind. *)
Theorem C55_storage : cell_storage mem_view Mem /\ cell_storage bolt_view Bolt.
Proof. exact (conj mem_cells bolt_cells). Qed.
Print Assumptions C55_storage.

(** Such a run: while carol decrypts the object, alice adds bob to the access list and looks at it. *)
Example C55_case : exists pool' w',
  cell_storage mem_view Mem /\ (forall tok, answers mem_view (demo_idp tok : prog DW _) (fun r => r = demo_who tok)) /\ (forall tok, forward (demo_idp tok : prog DW _)) /\
  fresh mem_view all_ids demo_w /\
  d1_conc demo_env mem_view Mem demo_idp demo_d1 [] demo_w
    [DCall (CEncrypt tok_alice demo_obj [staff]); DReply 0 (Ok (ROid demo_oid));
     DCall (CDecrypt tok_carol demo_oid); DCall (CAddGroups tok_alice demo_oid [str "bob"]); DCall (CGetAccessGroups tok_alice demo_oid);
     DReply 2 (Ok RUnit); DReply 3 (Ok (RGroups (Some (list_to_set [str "alice"; staff; str "bob"])))); DReply 1 (Ok (RObject demo_obj))] pool' w' /\
  ids_wf calm_tr /\ orderly calm_tr /\ ids_differ demo_env (w_draws demo_w) (w_draws w') /\ no_guess demo_env (w_draws demo_w) (w_draws w') calm_tr.
Proof. exact demo_calm. Qed.

(** C56, without the restriction, is false.  A Decrypt that overlaps an Update fails to authenticate the object; *)
Theorem C56_update_decrypt_refuted :
  (exists pool' w', d1_conc demo_env mem_view Mem demo_idp demo_d1 [] demo_w
    [DCall (CEncrypt tok_alice demo_obj [staff]); DReply 0 (Ok (ROid demo_oid));
     DCall (CUpdate tok_alice demo_oid demo_obj2); DCall (CDecrypt tok_carol demo_oid); DReply 1 (Ok RUnit); DReply 2 (Err EAesAuth)] pool' w') /\
  forall who ds m', ~ d1_linearizes demo_env who ∅
    [DCall (CEncrypt tok_alice demo_obj [staff]); DReply 0 (Ok (ROid demo_oid));
     DCall (CUpdate tok_alice demo_oid demo_obj2); DCall (CDecrypt tok_carol demo_oid); DReply 1 (Ok RUnit); DReply 2 (Err EAesAuth)] ds m'.
Proof. exact torn_race. Qed.
Print Assumptions C56_update_decrypt_refuted.

(** one that overlaps a Delete finds the access list but no object; *)
Theorem C56_delete_decrypt_refuted :
  (exists pool' w', d1_conc demo_env mem_view Mem demo_idp demo_d1 [] demo_w
    [DCall (CEncrypt tok_alice demo_obj [staff]); DReply 0 (Ok (ROid demo_oid));
     DCall (CDelete tok_alice demo_oid); DCall (CDecrypt tok_carol demo_oid); DReply 1 (Ok RUnit); DReply 2 (Err ED1ObjectNotFound)] pool' w') /\
  forall who ds m', ~ d1_linearizes demo_env who ∅
    [DCall (CEncrypt tok_alice demo_obj [staff]); DReply 0 (Ok (ROid demo_oid));
     DCall (CDelete tok_alice demo_oid); DCall (CDecrypt tok_carol demo_oid); DReply 1 (Ok RUnit); DReply 2 (Err ED1ObjectNotFound)] ds m'.
Proof. exact gone_race. Qed.
Print Assumptions C56_delete_decrypt_refuted.

(** and when AddGroupsToAccess overlaps an Update both may succeed and leave an object nobody can decrypt any more. *)
Theorem C56_update_add_refuted :
  (exists pool' w', d1_conc demo_env mem_view Mem demo_idp demo_d1 [] demo_w
    [DCall (CEncrypt tok_alice demo_obj [staff]); DReply 0 (Ok (ROid demo_oid));
     DCall (CAddGroups tok_alice demo_oid [str "bob"]); DCall (CUpdate tok_alice demo_oid demo_obj2); DReply 2 (Ok RUnit); DReply 1 (Ok RUnit);
     DCall (CDecrypt tok_carol demo_oid); DReply 3 (Err EAesAuth)] pool' w') /\
  forall who ds m', ~ d1_linearizes demo_env who ∅
    [DCall (CEncrypt tok_alice demo_obj [staff]); DReply 0 (Ok (ROid demo_oid));
     DCall (CAddGroups tok_alice demo_oid [str "bob"]); DCall (CUpdate tok_alice demo_oid demo_obj2); DReply 2 (Ok RUnit); DReply 1 (Ok RUnit);
     DCall (CDecrypt tok_carol demo_oid); DReply 3 (Err EAesAuth)] ds m'.
Proof. exact lost_key_race. Qed.
Print Assumptions C56_update_add_refuted.
