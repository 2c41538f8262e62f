(** A concrete case of C46. *)
From stdpp Require Import gmap.
From Verif Require Import Bytes Go Types World Io Id Data D1 Spec SpecProofs Demo Sched D1Sched Index IndexSpec IndexConcSpec IndexSched IndexDemo.
Local Open Scope bool_scope.
Local Open Scope N_scope.

(** A call that has not begun. *)
Lemma exec_more {S I A} (K : bytes -> Prop) (pool pool' : list (prog (world S I) A)) w w' q :
  exec K pool w pool' w' -> exec K (pool ++ [q]) w (pool' ++ [q]) w'.
Proof.
  intros H. induction H as [pool w|t X f k pool w pool' w' Ht H IH|pool w w1 pool' w' Ha H IH].
  - constructor.
  - eapply x_step; [apply lookup_app_l_Some; exact Ht|]. rewrite insert_app_l in * by (eapply lookup_lt_Some; eauto). exact IH.
  - eapply x_adv; eauto.
Qed.
Definition two_calls : list ix_call := [IAdd tok_alice dog id1; ISearch tok_alice dog].
Definition keys_test (iek kw kw' : bytes) : bool :=
  match ix_key iek kw, ix_key iek kw' with Ok a, Ok b => negb (bytes_eqb a b) | _, _ => false end.
Lemma keys_test_sound iek kw kw' : keys_test iek kw kw' = true -> ix_keys_differ iek [kw; kw; kw'].
Proof.
  unfold keys_test. intros H. assert (N : ix_key iek kw <> ix_key iek kw').
  { intros E. rewrite E in H. destruct (ix_key iek kw') as [k|x|]; try discriminate.
    rewrite (proj2 (bytes_eqb_eq k k) eq_refl) in H. discriminate. }
  intros a b Ha Hb E. cbn [In] in Ha, Hb.
  destruct Ha as [Ha|[Ha|[Ha|[]]]], Hb as [Hb|[Hb|[Hb|[]]]]; subst a b; try reflexivity; destruct (N E) || destruct (N (eq_sym E)).
Qed.
Lemma demo_keys_test : keys_test demo_iek dog cat = true.
Proof. vm_cast_no_check (eq_refl true). Qed.
Lemma demo_keys_differ : ix_keys_differ demo_iek [dog; dog; cat].
Proof. exact (keys_test_sound demo_iek dog cat demo_keys_test). Qed.
Lemma demo_authentic :
  let calls := [IAdd tok_alice dog id1; ISearch tok_alice dog; IAdd tok_alice cat id2] in
  let who := fun tok i => demo_who tok = Ok i in
  ix_new (Ok demo_ix_keys) = Ok demo_iek /\ ix_keys_differ demo_iek (map ix_keyword calls) /\
  (forall tok, outsider (ix_key_of demo_iek calls) (demo_idp tok : prog DW _) (fun r => forall i, r = Ok i -> who tok i)) /\
  Forall (fun x => ~ ix_key_of demo_iek calls (e_kek x)) (w_log demo_w) /\
  exists pool' w', exec (ix_key_of demo_iek calls) (map (ix_do demo_env Mem demo_idp demo_iek 9) calls) demo_w pool' w' /\
    w_forged w' = false /\ pool' !! 1%nat = Some (Ret (Ok (IRIds [id1]))).
Proof.
  cbv zeta. split; [reflexivity|].
  split; [exact demo_keys_differ|]. split; [intros tok; cbn; auto|]. split; [apply List.Forall_nil|].
  assert (H : match seq_run (map (ix_do demo_env Mem demo_idp demo_iek 9) two_calls) demo_w with
              | ([r0; Ok (IRIds [x])], w') => bytes_eqb x id1 && negb (w_forged w')
              | _ => false end = true) by (vm_cast_no_check (eq_refl true)).
  destruct (seq_run _ demo_w) as [rs w'] eqn:Es.
  apply exec_seq with (K := ix_key_of demo_iek [IAdd tok_alice dog id1; ISearch tok_alice dog; IAdd tok_alice cat id2]) in Es.
  apply exec_more with (q := ix_do demo_env Mem demo_idp demo_iek 9 (IAdd tok_alice cat id2)) in Es.
  eexists. exists w'. split; [exact Es|].
  destruct rs as [|r0 [|[[|[|x [|]]]| |] [|]]]; try discriminate.
  apply Bool.andb_true_iff in H as [H H3]. apply bytes_eqb_eq in H. subst x.
  split; [now apply Bool.negb_true_iff|reflexivity].
Qed.
