(** Property C46: index calls running concurrently, over storage and surroundings controlled by an
    adversary.  As in P_Sched.v, [exec] interleaves the steps of the calls with each other and with an
    adversary who rewrites storage, clock and random source at will and encrypts under any keys but
    those of the keywords of these calls.  [w_forged] is raised when a ciphertext is accepted that was
    never made under its key: the one thing assumed not to happen. *)
From stdpp Require Import gmap.
From Verif Require Import Bytes Go Types World Io Id Data D1 Spec SpecProofs Demo Sched D1Sched Index IndexSpec IndexConcSpec IndexSched IndexDemo IndexSchedDemo.
Local Open Scope N_scope.

(** C46.  Every identifier a Search returns was passed, by someone with the Index scope, to an Add for
    the keyword that was searched, and the searcher has that scope too. *)
Theorem C46_search_authentic {S I} (e : env) (io : provider S) (idp : bytes -> prog (world S I) (res identity)) (ks : res keys) (iek : bytes) (fuel : nat)
    (calls : list ix_call) (who : bytes -> identity -> Prop) (w w' : world S I) (pool' : list (prog (world S I) (res ix_reply))) :
  forall (new : ix_new ks = Ok iek)
    (keys_differ : ix_keys_differ iek (map ix_keyword calls))
    (idp_who : forall tok, outsider (ix_key_of iek calls) (idp tok) (fun r => forall i, r = Ok i -> who tok i))
    (log_new : Forall (fun x => ~ ix_key_of iek calls (e_kek x)) (w_log w))
    (run : exec (ix_key_of iek calls) (map (ix_do e io idp iek fuel) calls) w pool' w')
    (no_forgery : w_forged w' = false)
    (t : nat) (tok kw : bytes) (l : list bytes),
  calls !! t = Some (ISearch tok kw) -> pool' !! t = Some (Ret (Ok (IRIds l))) ->
  (exists i, who tok i /\ scope_has (i_scopes i) ScopeIndex) /\ forall x, In x l -> ix_added calls who kw x.
Proof. exact (search_authentic e io idp ks iek fuel calls who w w' pool'). Qed.
Print Assumptions C46_search_authentic.
(** So does the caller of every call that succeeds. *)
Theorem C46_callers_authorized {S I} (e : env) (io : provider S) (idp : bytes -> prog (world S I) (res identity)) (ks : res keys) (iek : bytes) (fuel : nat)
    (calls : list ix_call) (who : bytes -> identity -> Prop) (w w' : world S I) (pool' : list (prog (world S I) (res ix_reply))) :
  forall (new : ix_new ks = Ok iek)
    (keys_differ : ix_keys_differ iek (map ix_keyword calls))
    (idp_who : forall tok, outsider (ix_key_of iek calls) (idp tok) (fun r => forall i, r = Ok i -> who tok i))
    (log_new : Forall (fun x => ~ ix_key_of iek calls (e_kek x)) (w_log w))
    (run : exec (ix_key_of iek calls) (map (ix_do e io idp iek fuel) calls) w pool' w')
    (no_forgery : w_forged w' = false)
    (t : nat) (c : ix_call) (rep : ix_reply),
  calls !! t = Some c -> pool' !! t = Some (Ret (Ok rep)) ->
  exists i, who (ix_token c) i /\ scope_has (i_scopes i) ScopeIndex.
Proof. exact (callers_authorized e io idp ks iek fuel calls who w w' pool'). Qed.
Print Assumptions C46_callers_authorized.
(** An Add, a Search that finds it, and an Add for another keyword that has not begun. *)
Example C46_case :
  let calls := [IAdd tok_alice dog id1; ISearch tok_alice dog; IAdd tok_alice cat id2] in
  let who := fun tok i => demo_who tok = Ok i in
  ix_new (Ok demo_ix_keys) = Ok demo_iek /\ ix_keys_differ demo_iek (map ix_keyword calls) /\
  (forall tok, outsider (ix_key_of demo_iek calls) (demo_idp tok : prog DW _) (fun r => forall i, r = Ok i -> who tok i)) /\
  Forall (fun x => ~ ix_key_of demo_iek calls (e_kek x)) (w_log demo_w) /\
  exists pool' w', exec (ix_key_of demo_iek calls) (map (ix_do demo_env Mem demo_idp demo_iek 9) calls) demo_w pool' w' /\
    w_forged w' = false /\ pool' !! 1%nat = Some (Ret (Ok (IRIds [id1]))).
Proof. exact demo_authentic. Qed.
