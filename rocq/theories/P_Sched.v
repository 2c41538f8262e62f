(** Property theorems C13, C14, C20: calls running concurrently, over storage and surroundings
    controlled by an adversary.

    The setting: any list of calls, all on one D1 with keys [d]; [exec] interleaves their steps
    (one storage access, random draw, clock reading or encryption each) with each other and with
    steps of an adversary who rewrites storage, clock and random source at will and encrypts under any keys
    but those of [d].  The storage provider [io] is arbitrary: nothing is assumed about it.  The identity
    provider resolves tokens to identities allowed by [who] and does not encrypt under D1's keys.
    [pool'] is the pool at the moment of observation: [Ret r] is a call that has answered [r].
    [w_forged w' = false]: no decryption so far accepted a (key, associated data, wrapped key,
    ciphertext) combination that the library did not itself produce. *)
From stdpp Require Import gmap.
From Verif Require Import Bytes Go Uuid Time Types World Io IoSpec IoProofs Cryptor Id D1 D1Proofs Spec SpecProofs Claims Sched Authority D1Sched Demo.
Local Open Scope N_scope.

Section Sched.
  Context {S I : Type} (e : env) (io : provider S).
  Notation W := (world S I).
  Context (idp : bytes -> prog W (res identity)) (d : d1).
  Context (clock_wf : forall n, time_wf (clock e n)).
  Context (calls : list d1_call) (calls_wf : Forall call_wf calls).
  Context (who : bytes -> identity -> Prop).
  Context (idp_who : forall tok, outsider (d1_key d) (idp tok) (fun r => forall i, r = Ok i -> who tok i)).
  Context (w w' : W) (pool' : list (prog W (res d1_reply))).
  (** No data under these keys exists before the calls. *)
  Context (log_new : Forall (fun x => ~ d1_key d (e_kek x)) (w_log w)).
  Context (run : exec (d1_key d) (map (d1_aes e io idp d) calls) w pool' w').
  Context (no_forgery : w_forged w' = false).
  Notation granted := (granted calls who (answered_only pool')).
  Notation written := (written calls who (answered_only pool')).
  Notation entitled := (entitled calls who (answered_only pool')).

  (** C13.  What Decrypt returns was written under that id: by the Encrypt that made the id, or by an
      Update by someone entitled to it. *)
  Theorem C13_decrypt_authentic : forall t tok oid o,
    calls !! t = Some (CDecrypt tok oid) -> pool' !! t = Some (Ret (Ok (RObject o))) ->
    exists o', written oid o' /\ same_object o o'.
  Proof.
    intros t tok oid o Hc Hr. exact (proj2 (sched_sound e io idp d calls who w w' pool' clock_wf calls_wf idp_who log_new run no_forgery t _ _ Hc Hr)).
  Qed.
  (** C14.  A call on an object succeeds only for a caller who was granted access to it by a chain of
      Encrypt and AddGroupsToAccess calls.  (Delete also succeeds, without effect, if there is no such
      object.) *)
  Theorem C14_no_widening : forall t c tok oid need r,
    calls !! t = Some c -> call_token c = Some tok -> call_oid c = Some oid -> call_scope c = Some need ->
    c <> CDelete tok oid -> pool' !! t = Some (Ret (Ok r)) -> entitled tok oid need.
  Proof.
    intros t c tok oid need r Hc Ht Ho Hn Hd Hr.
    pose proof (sched_sound e io idp d calls who w w' pool' clock_wf calls_wf idp_who log_new run no_forgery t _ _ Hc Hr) as J.
    destruct c; try discriminate; injection Ht as ->; injection Ho as ->; injection Hn as <-; destruct r; cbn [justified] in J; try contradiction; try tauto.
  Qed.
  Theorem C14_groups_granted : forall t tok oid gs,
    calls !! t = Some (CGetAccessGroups tok oid) -> pool' !! t = Some (Ret (Ok (RGroups gs))) ->
    exists acl, gs = Some acl /\ forall g, g ∈ acl -> granted oid g.
  Proof.
    intros t tok oid gs Hc Hr. exact (proj2 (sched_sound e io idp d calls who w w' pool' clock_wf calls_wf idp_who log_new run no_forgery t _ _ Hc Hr)).
  Qed.
  (** C20.  What GetTokenContents returns was passed to a CreateToken that made a token with this very expiry. *)
  Theorem C20_token_authentic : forall t tk p,
    calls !! t = Some (CGetTokenContents tk) -> pool' !! t = Some (Ret (Ok (RBytes p))) ->
    exists u, calls !! u = Some (CCreateToken p) /\ answered_only pool' u (SExp (st_exp tk)).
  Proof.
    intros t tk p Hc Hr. exact (sched_sound e io idp d calls who w w' pool' clock_wf calls_wf idp_who log_new run no_forgery t _ _ Hc Hr).
  Qed.
End Sched.
Print Assumptions C13_decrypt_authentic.
Print Assumptions C14_no_widening.
Print Assumptions C14_groups_granted.
Print Assumptions C20_token_authentic.

(** A run meeting all hypotheses: alice encrypts for staff; carol, of staff, decrypts; someone
    creates a token, someone reads it. *)
Definition ex_oid : uuid := match draw demo_env 0 16 with Ok b => uuid_v4 b | _ => [] end.
Definition ex_token : sealed_token :=
  match fst (demo_run (CCreateToken (Some (str "payload"))) (mkWorld ∅ tt 5 0 [] false)) with Ok (RToken t) => t | _ => mkSealedToken time_zero None None end.
Definition ex_calls : list d1_call :=
  [CEncrypt tok_alice demo_obj [staff]; CDecrypt tok_carol ex_oid; CCreateToken (Some (str "payload")); CGetTokenContents ex_token].
Definition ex_who (tok : bytes) (i : identity) : Prop := demo_who tok = Ok i.
Example C13_case :
  (forall n, time_wf (clock demo_env n)) /\ Forall call_wf ex_calls /\
  (forall tok, outsider (d1_key demo_d1) (demo_idp tok : prog DW _) (fun r => forall i, r = Ok i -> ex_who tok i)) /\
  Forall (fun x => ~ d1_key demo_d1 (e_kek x)) (w_log demo_w) /\
  exists pool' w', exec (d1_key demo_d1) (map (d1_aes demo_env Mem demo_idp demo_d1) ex_calls) demo_w pool' w' /\
  w_forged w' = false /\
  pool' !! 1%nat = Some (Ret (Ok (RObject demo_obj))) /\
  pool' !! 3%nat = Some (Ret (Ok (RBytes (Some (str "payload"))))).
Proof.
  split; [intros n; split; cbn; lia|]. split.
  { repeat apply List.Forall_cons; try apply List.Forall_nil; split; cbn [call_oid]; try exact Logic.I; try discriminate.
    - intros oid H. injection H as <-. vm_compute. reflexivity.
    - unfold time_wf. vm_compute. repeat split; discriminate. }
  split; [intros tok; cbn; auto|]. split; [apply List.Forall_nil|].
  assert (H : match seq_run (map (d1_aes demo_env Mem demo_idp demo_d1) ex_calls) demo_w with
              | ([r0; Ok (RObject (mkObject (Some pt) None)); r2; Ok (RBytes (Some p))], w') =>
                  bytes_eqb pt (str "secret") && bytes_eqb p (str "payload") && negb (w_forged w')
              | _ => false end = true) by (vm_cast_no_check (eq_refl true)).
  destruct (seq_run _ demo_w) as [rs w'] eqn:Es. exists (map Ret rs), w'. apply exec_seq with (K := d1_key demo_d1) in Es.
  destruct rs as [|r0 [|r1 [|r2 [|r3 [|]]]]]; try discriminate; destruct r1 as [[| [[pt|] [|]] | | | | ]| |]; try discriminate; destruct r3 as [[| | | | |[p|]]| |]; try discriminate.
  apply Bool.andb_true_iff in H as [H H3]. apply Bool.andb_true_iff in H as [H1 H2]. apply bytes_eqb_eq in H1, H2. subst pt p.
  split; [exact Es|]. split; [now apply Bool.negb_true_iff|]. split; reflexivity.
Qed.
