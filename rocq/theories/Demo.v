(** A concrete setting, used to show that the hypotheses of the property theorems are met: two
    users, the in-memory provider, a random source that always answers. *)
From Coq Require Import ZifyN ZifyNat.
From stdpp Require Import gmap.
From Verif Require Import Bytes Go Json JsonProofs Uuid UuidProofs Types TypesProofs Time World Logic
  Cryptor CryptorProofs Io IoSpec IoProofs Id Data D1 D1Proofs D1Calls Spec SpecProofs History D1Refine D1Local
  Claims SpecTheory D1Props D1Crash.
Local Open Scope bool_scope.
Local Open Scope N_scope.

(** The n-th draw is the byte n, repeated. *)
Definition demo_env : env :=
  mkEnv (fun i n => Some (repeat (Nb (N.of_nat i)) (N.to_nat n)))
        (fun i => mkT (Z.of_nat i) 0 0)
        (fun pw salt => pw ++ salt).
Definition demo_d1 : d1 := mkD1 (repeat x01 32) (repeat x02 32) (repeat x03 32).
Definition alice : identity := mkIdentity (str "alice") ScopeAll {[ str "staff" := ScopeAll ]}.
Definition bob : identity := mkIdentity (str "bob") ScopeAll ∅.
Definition carol : identity := mkIdentity (str "carol") ScopeAll {[ str "staff" := ScopeDecrypt ]}.
Definition tok_alice : bytes := str "token-alice".
Definition tok_bob : bytes := str "token-bob".
Definition tok_carol : bytes := str "token-carol".
Definition demo_who (tok : bytes) : res identity :=
  if bytes_eqb tok tok_alice then Ok alice
  else if bytes_eqb tok tok_bob then Ok bob
  else if bytes_eqb tok tok_carol then Ok carol
  else Err EIdNotAuthenticated.
Definition demo_idp {S : Type} (tok : bytes) : prog (world S unit) (res identity) := Ret (demo_who tok).
Definition demo_w : world (gmap bytes bytes) unit := mkWorld ∅ tt 0 0 [] false.
Definition demo_obj : object := mkObject (Some (str "secret")) None.
Definition demo_obj2 : object := mkObject (Some (str "new secret")) (Some (str "tag")).
Definition staff : bytes := str "staff".

Notation demo_run c := (run (d1_aes demo_env Mem demo_idp demo_d1 c)).
Notation DW := (world (gmap bytes bytes) unit).

Lemma demo_idp_reads {S} (v : view S) : idp_reads v (@demo_idp S).
Proof. intros tok w m H. apply wpc_ret; auto. Qed.
Lemma demo_draw i n : exists b, draw demo_env i n = Ok b.
Proof.
  unfold draw. cbn [tape demo_env]. unfold blen. rewrite repeat_length, N2Nat.id, N.eqb_refl. eauto.
Qed.
Lemma demo_rng {S} (w : world S unit) : ~ rng_failed demo_env w.
Proof. intros [n H]. destruct (demo_draw (pred (w_draws w)) n) as [b E]. congruence. Qed.
Lemma demo_whois {S} (w : world S unit) tok : whois demo_idp w tok = demo_who tok.
Proof. reflexivity. Qed.

Lemma drawn_of {S I} e (idp : bytes -> prog (world S I) (res identity)) w tok oid :
  res_map uuid_v4 (draw e (w_draws (snd (run (idp tok) w))) 16) = Ok oid -> drawn e idp w tok oid.
Proof.
  unfold drawn. intros H. destruct (draw e _ 16) as [b| |]; try discriminate. exists b. cbn [res_map] in H. split; congruence.
Qed.

(** One call. *)
Definition demo_state (m : objects) (w : DW) : Prop := rep demo_d1 all_ids (v_map mem_view (w_io w)) m.
Lemma demo_fresh D : fresh mem_view D demo_w.
Proof. split; [exact Logic.I|]. intros oid dt _ [->| ->]; apply lookup_empty. Qed.
Lemma demo_start : demo_state ∅ demo_w.
Proof. apply (fresh_rep mem_view demo_d1 all_ids demo_w). apply demo_fresh. Qed.
Lemma demo_step m w c : demo_state m w -> (forall oid, call_oid c = Some oid -> uuid_wf oid) ->
  exists r w' m', demo_run c w = (r, w') /\
    spec_step (outside_of demo_env demo_idp w c w') c m r m' /\ demo_state m' w'.
Proof.
  intros Hm Hwf. destruct (demo_run c w) as [r w'] eqn:E. exists r, w'.
  destruct (spec_sim demo_env mem_view Mem (mem_spec False) demo_idp (demo_idp_reads mem_view) demo_d1 all_ids w c r w' m E Logic.I Hm) as (m' & Hs & R & _).
  - exact Hwf.
  - unfold ev_in. destruct (ev_oid _); reflexivity.
  - exists m'. auto.
Qed.

Definition demo_acl : gset bytes := list_to_set [str "alice"; staff].
(** alice encrypts, sharing with staff. *)
Lemma demo_encrypt : exists oid w1, demo_run (CEncrypt tok_alice demo_obj [staff]) demo_w = (Ok (ROid oid), w1) /\
  uuid_wf oid /\ demo_state {[oid := (demo_obj, demo_acl)]} w1 /\
  spec_step (outside_of demo_env demo_idp demo_w (CEncrypt tok_alice demo_obj [staff]) w1) (CEncrypt tok_alice demo_obj [staff]) ∅
    (Ok (ROid oid)) {[oid := (demo_obj, demo_acl)]}.
Proof.
  destruct (demo_step ∅ demo_w (CEncrypt tok_alice demo_obj [staff]) demo_start) as (r & w' & m' & Hr & Hs & R).
  - discriminate.
  - pose proof Hs as Hs0. cbn [spec_step outside_of call_token o_who o_id o_rng_fails] in Hs. unfold with_scope, or_random in Hs.
    change (whois demo_idp demo_w tok_alice) with (Ok alice) in Hs. cbn iota beta in Hs.
    destruct Hs as [[N _]|[_ [[N _]|(oid & Ho & Hs)]]].
    + exfalso. apply N. intros b Hb. cbn in Hb |- *. destruct b; [reflexivity|discriminate].
    + exfalso. exact (demo_rng _ N).
    + rewrite lookup_empty in Hs. destruct Hs as [-> ->]. exists oid, w'. split; [exact Hr|]. split; [|split; [exact R|exact Hs0]].
      exact (drawn_wf _ _ _ _ _ (drawn_of _ _ _ _ _ Ho)).
Qed.

Lemma demo_has_all need : scope_contains ScopeAll need = true -> scope_has ScopeAll need.
Proof. apply scope_contains_has. Qed.
Lemma demo_alice_allowed need : scope_contains ScopeAll need = true -> allowed (demo_who tok_alice) need demo_acl.
Proof.
  intros H. exists alice. split; [reflexivity|]. split; [now apply demo_has_all|]. left. split; [|now apply demo_has_all].
  apply elem_of_list_to_set. left.
Qed.
Lemma demo_carol_decrypt : allowed (demo_who tok_carol) ScopeDecrypt demo_acl.
Proof.
  exists carol. split; [reflexivity|]. split; [now apply demo_has_all|]. right. exists staff, ScopeDecrypt.
  split; [apply lookup_singleton|]. split; [|now apply scope_contains_has]. apply elem_of_list_to_set. right. left.
Qed.
Lemma demo_carol_update : ~ allowed (demo_who tok_carol) ScopeUpdate demo_acl.
Proof.
  intros (i & [= <-] & _ & [[H _]|(g & s & Hg & _ & Hs)]).
  - apply elem_of_list_to_set in H. apply elem_of_cons in H as [H|H]; [discriminate|]. apply elem_of_list_singleton in H. discriminate.
  - cbn [i_groups carol] in Hg. apply lookup_singleton_Some in Hg as [_ <-]. apply scope_contains_has in Hs. discriminate.
Qed.
Lemma demo_bob_not need : ~ allowed (demo_who tok_bob) need demo_acl.
Proof.
  intros (i & [= <-] & _ & [[H _]|(g & s & Hg & _)]).
  - apply elem_of_list_to_set in H. apply elem_of_cons in H as [H|H]; [discriminate|]. apply elem_of_list_singleton in H. discriminate.
  - cbn [i_groups bob] in Hg. now rewrite lookup_empty in Hg.
Qed.

Definition demo_ev (w : DW) (c : d1_call) (r : res d1_reply) (w' : DW) : event := mkEvent (outside_of demo_env demo_idp w c w') c r.
Notation demo_history D := (history demo_env mem_view Mem demo_idp demo_d1 D).
Lemma demo_ev_ok w c r w' : (forall oid, call_oid c = Some oid -> uuid_wf oid) -> event_ok (demo_ev w c r w').
Proof.
  intros Hwf. exact Hwf.
Qed.
(** Calls that are allowed do what the specification says. *)
Lemma demo_allowed m w c oid o acl tok need : demo_state m w -> uuid_wf oid -> m !! oid = Some (o, acl) ->
  call_oid c = Some oid -> call_token c = Some tok -> call_scope c = Some need -> Forall Utf8 (call_groups c) ->
  allowed (demo_who tok) need acl ->
  exists w' m', demo_run c w = (Ok match c with CDecrypt _ _ => RObject o | CGetAccessGroups _ _ => RGroups (Some acl) | _ => RUnit end, w') /\
    demo_state m' w' /\
    m' = match c with
         | CUpdate _ _ o' => <[oid := (o', acl)]> m
         | CDelete _ _ => delete oid m
         | CAddGroups _ _ gs => <[oid := (o, acl ∪ list_to_set gs)]> m
         | CRemoveGroups _ _ gs => <[oid := (o, acl ∖ list_to_set gs)]> m
         | _ => m
         end.
Proof.
  intros Hm Hoid Ho Hc Ht Hn Hu (i & Hi & Hs & Hl).
  destruct (demo_step m w c Hm) as (r & w' & m' & Hr & Hst & R); [intros x Hx; congruence|].
  exists w', m'. rewrite Hr.
  assert (NR : forall P, or_random (rng_failed demo_env w') m r m' P -> P) by (intros P [[N _]|N]; [exfalso; exact (demo_rng _ N)|exact N]).
  destruct c; try discriminate; injection Hc as ->; injection Ht as ->; injection Hn as <-;
    cbn [spec_step outside_of call_token o_who o_id o_rng_fails] in Hst; unfold with_access, with_scope in Hst;
    rewrite demo_whois, Hi, Ho in Hst;
    (destruct Hst as [[C _]|[_ [[C _]|[_ Hst]]]]; [contradiction..|]);
    try apply NR in Hst; cbn [call_groups] in Hu; rewrite ?as_text_map in Hst by exact Hu; destruct Hst as [-> ->]; auto.
Qed.
Lemma demo_refused m w c oid o acl tok need : demo_state m w -> uuid_wf oid -> m !! oid = Some (o, acl) ->
  call_oid c = Some oid -> call_token c = Some tok -> call_scope c = Some need -> Forall Utf8 (call_groups c) ->
  ~ allowed (demo_who tok) need acl ->
  exists r w', demo_run c w = (r, w') /\ refused (demo_who tok) r /\ demo_state m w'.
Proof.
  intros Hm Hoid Ho Hc Ht Hn Hu Hno.
  destruct (demo_step m w c Hm) as (r & w' & m' & Hr & Hst & R); [intros x Hx; congruence|].
  exists r, w'. rewrite Hr. split; [reflexivity|]. unfold allowed in Hno.
  destruct c; try discriminate; injection Hc as ->; injection Ht as ->; injection Hn as <-;
    cbn [spec_step outside_of call_token o_who o_id o_rng_fails] in Hst; unfold with_access, with_scope, refuse in Hst;
    rewrite demo_whois in Hst; unfold refused; destruct (demo_who tok) as [i| |]; try (destruct Hst as [-> ->]; auto);
    try rewrite Ho in Hst;
    (destruct Hst as [[_ [-> ->]]|[Hs [[_ [-> ->]]|[Hl _]]]]; auto; exfalso; apply Hno; eauto).
Qed.

(** A story: alice encrypts and shares with staff, carol (staff, may only decrypt) reads and fails
    to update, alice updates, alice removes staff, carol is refused, alice removes herself. *)
Definition demo_acl2 : gset bytes := demo_acl ∖ list_to_set [staff].
Lemma demo_acl2_eq : demo_acl2 = {[ str "alice" ]}.
Proof.
  unfold demo_acl2, demo_acl. assert (H : str "alice" <> staff) by discriminate. revert H.
  generalize (str "alice") as a. generalize staff as b. intros. set_solver.
Qed.
Lemma diff_self (a : bytes) : ({[a]} : gset bytes) ∖ list_to_set [a] = ∅.
Proof. set_solver. Qed.
Lemma demo_story : exists oid w1 w2 w3 w4 w5 w6 w7, uuid_wf oid /\
  demo_run (CEncrypt tok_alice demo_obj [staff]) demo_w = (Ok (ROid oid), w1) /\
  demo_run (CDecrypt tok_carol oid) w1 = (Ok (RObject demo_obj), w2) /\
  demo_run (CUpdate tok_carol oid demo_obj2) w2 = (Err ED1NotAuthorized, w3) /\
  demo_run (CUpdate tok_alice oid demo_obj2) w3 = (Ok RUnit, w4) /\
  demo_run (CRemoveGroups tok_alice oid [staff]) w4 = (Ok RUnit, w5) /\
  demo_run (CDecrypt tok_carol oid) w5 = (Err ED1NotAuthorized, w6) /\
  demo_run (CRemoveGroups tok_alice oid [str "alice"]) w6 = (Ok RUnit, w7) /\
  spec_history ∅ [demo_ev demo_w (CEncrypt tok_alice demo_obj [staff]) (Ok (ROid oid)) w1] {[oid := (demo_obj, demo_acl)]} /\
  demo_state {[oid := (demo_obj, demo_acl)]} w1 /\ demo_state {[oid := (demo_obj2, demo_acl)]} w4 /\
  demo_state {[oid := (demo_obj2, ∅)]} w7.
Proof.
  destruct demo_encrypt as (oid & w1 & E1 & Hoid & R1 & S1). exists oid, w1.
  assert (L : forall o acl, ({[oid := (o, acl)]} : objects) !! oid = Some (o, acl)) by (intros; apply lookup_singleton).
  assert (I0 : forall o acl o' acl', <[oid := (o', acl')]> ({[oid := (o, acl)]} : objects) = {[oid := (o', acl')]}) by (intros; apply insert_singleton).
  destruct (demo_allowed _ w1 (CDecrypt tok_carol oid) oid demo_obj demo_acl tok_carol ScopeDecrypt R1 Hoid (L _ _)) as (w2 & m2 & E2 & R2 & ->); auto using demo_carol_decrypt; [constructor|].
  exists w2.
  destruct (demo_refused _ w2 (CUpdate tok_carol oid demo_obj2) oid demo_obj demo_acl tok_carol ScopeUpdate R2 Hoid (L _ _)) as (r3 & w3 & E3 & Hr3 & R3); auto using demo_carol_update; [constructor|].
  change (r3 = Err ED1NotAuthorized) in Hr3. subst r3. exists w3.
  destruct (demo_allowed _ w3 (CUpdate tok_alice oid demo_obj2) oid demo_obj demo_acl tok_alice ScopeUpdate R3 Hoid (L _ _)) as (w4 & m4 & E4 & R4 & ->); auto using demo_alice_allowed; [constructor|].
  exists w4. rewrite I0 in R4.
  destruct (demo_allowed _ w4 (CRemoveGroups tok_alice oid [staff]) oid demo_obj2 demo_acl tok_alice ScopeModifyAccessGroups R4 Hoid (L _ _)) as (w5 & m5 & E5 & R5 & ->); auto using demo_alice_allowed.
  { constructor; [apply Utf8_iff; reflexivity|constructor]. }
  exists w5. rewrite I0 in R5. fold demo_acl2 in R5.
  destruct (demo_refused _ w5 (CDecrypt tok_carol oid) oid demo_obj2 demo_acl2 tok_carol ScopeDecrypt R5 Hoid (L _ _)) as (r6 & w6 & E6 & Hr6 & R6); auto; [constructor| |].
  { rewrite demo_acl2_eq. intros (i & [= <-] & _ & [[H _]|(g & s & Hg & H & _)]); apply elem_of_singleton in H; [discriminate|subst g; discriminate]. }
  change (r6 = Err ED1NotAuthorized) in Hr6. subst r6. exists w6.
  destruct (demo_allowed _ w6 (CRemoveGroups tok_alice oid [str "alice"]) oid demo_obj2 demo_acl2 tok_alice ScopeModifyAccessGroups R6 Hoid (L _ _)) as (w7 & m7 & E7 & R7 & ->); auto.
  { constructor; [apply Utf8_iff; reflexivity|constructor]. }
  { rewrite demo_acl2_eq. exists alice. split; [reflexivity|]. split; [now apply demo_has_all|]. left. split; [now apply elem_of_singleton|now apply demo_has_all]. }
  exists w7. rewrite I0 in R7.
  replace (demo_acl2 ∖ list_to_set [str "alice"]) with (∅ : gset bytes) in R7 by (rewrite demo_acl2_eq; symmetry; apply diff_self).
  splits; auto. econstructor; [exact S1|constructor].
Qed.
(** Nothing was deleted, encrypted or added behind the specification's back: histories of calls. *)
Lemma demo_history_call D w c r w1 evs w2 : demo_run c w = (r, w1) -> demo_history D w1 evs w2 -> demo_history D w (demo_ev w c r w1 :: evs) w2.
Proof. intros H1 H2. eapply h_call; eauto. Qed.
