(** C11.  Update writes the object and the access list separately, so a crash between the two leaves an
    object nobody can decrypt: as stated the property is false of the code.  What holds of every
    interrupted Update comes first. *)
From stdpp Require Import gmap.
From Verif Require Import Bytes Go Uuid Types World Io IoSpec IoProofs Id D1 D1Proofs Spec SpecProofs History D1Refine Claims
  D1Crash UpdateCut Demo.
Local Open Scope N_scope.

Section Partial.
  Context {S I : Type} (e : env) (v : view S) (io : provider S) (Hio : io_spec False v io).
  Notation W := (world S I).
  Context (idp : bytes -> prog W (res identity)) (Hidp : idp_reads v idp) (d : d1).
  Notation stored w oid dt := (v_map v (w_io w) oid dt).
  (** An Update, cut after any number of steps on storage that may fail at any operation, leaves the
      object [o] as it was for everyone who may decrypt it, or, and only if the caller was allowed to
      update, the new object [o2] for everyone; or else it was cut between its two writes: the object slot
      is new, the access slot is untouched, and everyone gets the same error.  (Or the
      ciphertext it stored is accepted under two different keys.)  Missing from the property: this third case should not exist. *)
  Theorem C11_interrupted_update_partial : forall D w0 evs w m oid o acl (iof : provider S) tok o2 n,
    fresh v D w0 -> history e v io idp d D w0 evs w -> Forall event_ok evs ->
    spec_history ∅ (List.filter (ev_in D) evs) m -> m !! oid = Some (o, acl) -> io_spec True v iof ->
    let w1 := snd (run_n n (d1_aes e iof idp d (CUpdate tok oid o2)) w) in
    let reads tok' := fst (run (d1_aes e io idp d (CDecrypt tok' oid)) w1) in
    (forall tok', allowed (whois idp w1 tok') ScopeDecrypt acl -> reads tok' = Ok (RObject o)) \/
    (allowed (whois idp w tok) ScopeUpdate acl /\
      ((forall tok', allowed (whois idp w1 tok') ScopeDecrypt acl -> reads tok' = Ok (RObject o2)) \/
       (stored w1 oid DataTypeSealedAccess = stored w oid DataTypeSealedAccess /\
        stored w1 oid DataTypeSealedObject <> stored w oid DataTypeSealedObject /\
        exists x, forall tok', allowed (whois idp w1 tok') ScopeDecrypt acl -> reads tok' = Err x) \/
       two_keys oid (stored w1 oid DataTypeSealedObject))).
  Proof. exact (update_cut_cases e v io Hio idp Hidp d). Qed.
End Partial.
Print Assumptions C11_interrupted_update_partial.
(** alice's Update of the object alice has encrypted, cut anywhere. *)
Example C11_case : exists oid w1, fresh mem_view all_ids demo_w /\
  demo_history all_ids demo_w [demo_ev demo_w (CEncrypt tok_alice demo_obj [staff]) (Ok (ROid oid)) w1] w1 /\
  spec_history ∅ [demo_ev demo_w (CEncrypt tok_alice demo_obj [staff]) (Ok (ROid oid)) w1] {[oid := (demo_obj, demo_acl)]} /\
  io_spec True mem_view Mem /\ allowed (demo_who tok_alice) ScopeUpdate demo_acl.
Proof.
  destruct demo_encrypt as (oid & w1 & E1 & Hoid & R1 & S1). exists oid, w1. split; [apply demo_fresh|].
  split; [eapply demo_history_call; [exact E1|apply h_nil]|]. split; [econstructor; [exact S1|constructor]|]. split; [exact (mem_spec True)|now apply demo_alice_allowed].
Qed.

(** alice encrypts; alice's Update dies after some steps; alice, who may decrypt, gets an error and
    hence neither the old nor the new object. *)
Theorem C11_update_atomic_refuted : exists oid w1 n x,
  demo_run (CEncrypt tok_alice demo_obj [staff]) demo_w = (Ok (ROid oid), w1) /\
  allowed (whois demo_idp w1 tok_alice) ScopeDecrypt demo_acl /\
  let w2 := snd (run_n n (d1_aes demo_env Mem demo_idp demo_d1 (CUpdate tok_alice oid demo_obj2)) w1) in
  fst (demo_run (CDecrypt tok_alice oid) w2) = Err x.
Proof.
  pose (oid := match draw demo_env 0 16 with Ok b => uuid_v4 b | _ => [] end).
  assert (H : match demo_run (CEncrypt tok_alice demo_obj [staff]) demo_w with
              | (Ok (ROid o), w1) => bytes_eqb o oid &&
                  match fst (demo_run (CDecrypt tok_alice oid)
                    (snd (run_n 10 (d1_aes demo_env Mem demo_idp demo_d1 (CUpdate tok_alice oid demo_obj2)) w1))) with
                  | Err _ => true | _ => false end
              | _ => false end = true) by (vm_cast_no_check (eq_refl true)).
  clearbody oid. exists oid.
  destruct (demo_run (CEncrypt tok_alice demo_obj [staff]) demo_w) as [[[o| | | | |]| |] w1]; try discriminate.
  apply Bool.andb_true_iff in H as [E H]. apply bytes_eqb_eq in E. subst o. exists w1, 10%nat. cbn zeta.
  destruct (fst (demo_run (CDecrypt tok_alice oid) _)) as [y|x|]; try discriminate.
  exists x. split; [reflexivity|]. split; [|reflexivity]. apply demo_alice_allowed. reflexivity.
Qed.
Print Assumptions C11_update_atomic_refuted.
