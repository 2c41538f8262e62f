(** C15 and C16 are false of the code: Update, AddGroupsToAccess and RemoveGroupsFromAccess read,
    modify and write back without protection against each other. *)
From stdpp Require Import gmap.
From Verif Require Import Bytes Go Uuid Types World Io IoSpec IoProofs Id D1 D1Proofs Spec Claims Sched D1Sched Demo.
Local Open Scope bool_scope.
Local Open Scope N_scope.

Notation demo_pool cs := (map (d1_aes demo_env Mem demo_idp demo_d1) cs).
Notation no_keys := (fun _ : bytes => False).

(** C15: two Updates by alice overlap, both succeed, and alice, who may decrypt, gets an error. *)
Theorem C15_concurrent_updates_refuted : exists oid w1 w2 x,
  demo_run (CEncrypt tok_alice demo_obj [staff]) demo_w = (Ok (ROid oid), w1) /\
  exec no_keys (demo_pool [CUpdate tok_alice oid demo_obj; CUpdate tok_alice oid demo_obj2]) w1
               [Ret (Ok RUnit); Ret (Ok RUnit)] w2 /\
  allowed (whois demo_idp w2 tok_alice) ScopeDecrypt demo_acl /\
  fst (demo_run (CDecrypt tok_alice oid) w2) = Err x.
Proof.
  pose (oid := match draw demo_env 0 16 with Ok b => uuid_v4 b | _ => [] end).
  pose (sched := repeat 0%nat 10 ++ repeat 1%nat 12 ++ repeat 0%nat 2).
  assert (H : match demo_run (CEncrypt tok_alice demo_obj [staff]) demo_w with
              | (Ok (ROid o), w1) => bytes_eqb o oid &&
                  match play sched (demo_pool [CUpdate tok_alice oid demo_obj; CUpdate tok_alice oid demo_obj2]) w1 with
                  | ([Ret (Ok RUnit); Ret (Ok RUnit)], w2) =>
                      match fst (demo_run (CDecrypt tok_alice oid) w2) with Err _ => true | _ => false end
                  | _ => false end
              | _ => false end = true) by (vm_cast_no_check (eq_refl true)).
  clearbody oid sched. exists oid.
  destruct (demo_run (CEncrypt tok_alice demo_obj [staff]) demo_w) as [[[o| | | | |]| |] w1]; try discriminate.
  apply Bool.andb_true_iff in H as [E H]. apply bytes_eqb_eq in E. subst o.
  pose proof (exec_play no_keys sched (demo_pool [CUpdate tok_alice oid demo_obj; CUpdate tok_alice oid demo_obj2]) w1) as Hx.
  destruct (play sched _ w1) as [pool' w2]. cbn [fst snd] in Hx. exists w1, w2.
  destruct pool' as [|[[[]| |]|] [|[[[]| |]|] [|]]]; try discriminate.
  destruct (fst (demo_run (CDecrypt tok_alice oid) w2)) as [y|x|]; try discriminate.
  exists x. split; [reflexivity|]. split; [exact Hx|]. split; [|reflexivity]. apply demo_alice_allowed. reflexivity.
Qed.
Print Assumptions C15_concurrent_updates_refuted.

(** C16: RemoveGroupsFromAccess(staff) succeeds, the only other call adds only bob, and staff is on the list afterwards. *)
Theorem C16_revocation_race_refuted : exists oid w1 w2 acl,
  demo_run (CEncrypt tok_alice demo_obj [staff]) demo_w = (Ok (ROid oid), w1) /\
  exec no_keys (demo_pool [CAddGroups tok_alice oid [str "bob"]; CRemoveGroups tok_alice oid [staff]]) w1
               [Ret (Ok RUnit); Ret (Ok RUnit)] w2 /\
  fst (demo_run (CGetAccessGroups tok_alice oid) w2) = Ok (RGroups (Some acl)) /\ staff ∈ acl.
Proof.
  pose (oid := match draw demo_env 0 16 with Ok b => uuid_v4 b | _ => [] end).
  pose (sched := repeat 0%nat 5 ++ repeat 1%nat 7 ++ repeat 0%nat 2).
  assert (H : match demo_run (CEncrypt tok_alice demo_obj [staff]) demo_w with
              | (Ok (ROid o), w1) => bytes_eqb o oid &&
                  match play sched (demo_pool [CAddGroups tok_alice oid [str "bob"]; CRemoveGroups tok_alice oid [staff]]) w1 with
                  | ([Ret (Ok RUnit); Ret (Ok RUnit)], w2) =>
                      match fst (demo_run (CGetAccessGroups tok_alice oid) w2) with Ok (RGroups (Some acl)) => bool_decide (staff ∈ acl) | _ => false end
                  | _ => false end
              | _ => false end = true) by (vm_cast_no_check (eq_refl true)).
  clearbody oid sched. exists oid.
  destruct (demo_run (CEncrypt tok_alice demo_obj [staff]) demo_w) as [[[o| | | | |]| |] w1]; try discriminate.
  apply Bool.andb_true_iff in H as [E H]. apply bytes_eqb_eq in E. subst o.
  pose proof (exec_play no_keys sched (demo_pool [CAddGroups tok_alice oid [str "bob"]; CRemoveGroups tok_alice oid [staff]]) w1) as Hx.
  destruct (play sched _ w1) as [pool' w2]. cbn [fst snd] in Hx. exists w1, w2.
  destruct pool' as [|[[[]| |]|] [|[[[]| |]|] [|]]]; try discriminate.
  destruct (fst (demo_run (CGetAccessGroups tok_alice oid) w2)) as [[| | |[acl|] | |]|x|]; try discriminate.
  exists acl. split; [reflexivity|]. split; [exact Hx|]. split; [reflexivity|]. now apply bool_decide_eq_true in H.
Qed.
Print Assumptions C16_revocation_race_refuted.
