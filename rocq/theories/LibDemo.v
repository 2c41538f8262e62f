(** Concrete cases of C57, C58 and C59. *)
From stdpp Require Import gmap.
From Verif Require Import Bytes Base64 Go Uuid Time Types World Io IoSpec IoProofs Id Data D1 D1Proofs D1Local WpcFacts Spec SpecProofs Demo Sched Authority D1Sched Standalone StandaloneSpec StandaloneRefine StandaloneHist StandaloneDemo
  IdAuthority Index IndexSpec IndexConcSpec IndexDemo Lib.
Local Open Scope bool_scope.
Local Open Scope N_scope.

(** The calls with these numbers, one after the other in this order. *)
Fixpoint in_order {S I A} (ts : list nat) (pool : list (prog (world S I) A)) (w : world S I) : list (prog (world S I) A) * world S I :=
  match ts with
  | [] => (pool, w)
  | t :: ts => match pool !! t with
      | Some p => let '(r, w1) := run p w in in_order ts (<[t := Ret r]> pool) w1
      | None => in_order ts pool w
      end
  end.
Lemma exec_order {S I A} (K : bytes -> Prop) ts : forall (pool : list (prog (world S I) A)) w, exec K pool w (fst (in_order ts pool w)) (snd (in_order ts pool w)).
Proof.
  induction ts as [|t ts IH]; intros pool w; cbn [in_order]; [constructor|].
  destruct (pool !! t) as [p|] eqn:Et; [|apply IH]. destruct (run p w) as [r w1] eqn:Er.
  eapply exec_run; [exact Et|]. rewrite Er. cbn [fst snd]. apply IH.
Qed.

(** The first draw names the user; their password is the second. *)
Definition lib_user : bytes := uuid_text (uuid_v4 (repeat x00 16)).
Definition lib_pw : bytes := b64url_encode (repeat x01 32).
Definition lib_oid : uuid := uuid_v4 (repeat x01 16).
Definition lib_sa : sa_keys := mkSaKeys (repeat x0a 32) (repeat x0b 32) (repeat x0c 32).
Definition lib_demo : lib := mkLib demo_d1 demo_iek lib_sa.
Definition lib_w : DW := mkWorld ∅ tt 0 0 [] false.
Definition tok_of (r : list (res sa_reply)) : bytes := match r with [_; Ok (SRToken tok _)] => tok | _ => [] end.
Definition lib_tok : bytes := tok_of (fst (seq_run (map (sa_aes sa_env Mem lib_sa) [SNewUser [ScopeAll]; SLogin lib_user lib_pw]) lib_w)).
(** Someone gets an account, logs in, encrypts and decrypts an object; calls of the index wait. *)
Definition lib_ds : list d1_call := [CEncrypt lib_tok demo_obj []; CDecrypt lib_tok lib_oid].
Definition lib_is : list ix_call := [IAdd lib_tok dog id1; ISearch lib_tok dog].
Definition lib_ss : list sa_call := [SNewUser [ScopeAll]; SLogin lib_user lib_pw].
Definition object_is (r : prog DW lib_reply) : bool :=
  match r with Ret (LObject (Ok (RObject o))) => match o_pt o, o_ad o with Some pt, None => bytes_eqb pt (str "secret") | _, _ => false end | _ => false end.
Definition at_is (t : nat) (test : prog DW lib_reply -> bool) (pool : list (prog DW lib_reply)) : bool := match pool !! t with Some p => test p | None => false end.
Definition lib_end : list (prog DW lib_reply) * DW := in_order [4; 5; 0; 1]%nat (lib_pool sa_env Mem lib_demo 9 lib_ds lib_is lib_ss) lib_w.
Definition lib_test (x : list (prog DW lib_reply) * DW) : bool := negb (w_forged (snd x)) && at_is 1 object_is (fst x).
Lemma lib_test_ok : lib_test lib_end = true.
Proof. vm_cast_no_check (eq_refl true). Qed.
Lemma lib_test_sound x : lib_test x = true -> w_forged (snd x) = false /\ fst x !! 1%nat = Some (Ret (LObject (Ok (RObject demo_obj)))).
Proof.
  destruct x as [pool w]. unfold lib_test, at_is. cbn [fst snd]. intros H. apply Bool.andb_true_iff in H as [H1 H2]. split; [now apply Bool.negb_true_iff|].
  destruct (pool !! 1%nat) as [p|]; [|discriminate H2]. destruct p as [[r|r|r]|X f c]; try discriminate H2. destruct r as [r|y|]; try discriminate H2. destruct r as [|o| | | |]; try discriminate H2. cbn [object_is] in H2.
  destruct o as [[pt|] [ad|]]; try discriminate H2. cbn [o_pt o_ad] in H2. apply bytes_eqb_eq in H2 as ->. reflexivity.
Qed.
Definition key_test (iek kw : bytes) (l : list bytes) : bool :=
  match ix_key iek kw with Ok a => forallb (fun x => negb (bytes_eqb x a)) l | _ => true end.
Lemma key_test_sound iek kw l x : key_test iek kw l = true -> In x l -> ix_key iek kw = Ok x -> False.
Proof.
  unfold key_test. intros H Hx E. rewrite E in H. rewrite forallb_forall in H. specialize (H x Hx).
  rewrite (proj2 (bytes_eqb_eq x x) eq_refl) in H. discriminate H.
Qed.
Definition fixed_keys : list bytes := [repeat x01 32; repeat x02 32; repeat x03 32; repeat x0a 32; repeat x0b 32; repeat x0c 32].
Lemma lib_key_test : key_test demo_iek dog fixed_keys = true.
Proof. vm_cast_no_check (eq_refl true). Qed.
Lemma d1_fixed x : d1_key demo_d1 x -> In x fixed_keys.
Proof. intros [ -> | [ -> | -> ] ]; cbn [demo_d1 d_kek d_aek d_tek fixed_keys In]; auto. Qed.
Lemma sa_fixed x : sa_key lib_sa x -> In x fixed_keys.
Proof. intros [ -> | [ -> | -> ] ]; cbn [lib_sa s_uek s_gek s_tek fixed_keys In]; auto 10. Qed.
Lemma ix_dog x : ix_key_of demo_iek lib_is x -> ix_key demo_iek dog = Ok x.
Proof. intros (c & [<-|[<-|[]]] & H); exact H. Qed.
Lemma lib_apart : keys_apart lib_demo lib_is.
Proof.
  split; cbn [lib_demo l_d1 l_iek l_sa].
  - intros x H1 H2. destruct H1 as [ -> | [ -> | -> ] ], H2 as [H2|[H2|H2]]; vm_compute in H2; discriminate H2.
  - intros x H1 H2. exact (key_test_sound demo_iek dog fixed_keys x lib_key_test (d1_fixed x H1) (ix_dog x H2)).
  - intros x H1 H2. exact (key_test_sound demo_iek dog fixed_keys x lib_key_test (sa_fixed x H2) (ix_dog x H1)).
  - intros H. vm_compute in H. discriminate H.
Qed.
Lemma lib_differ : ix_keys_differ demo_iek (map ix_keyword lib_is).
Proof. intros a b [<-|[<-|[]]] [<-|[<-|[]]] _; reflexivity. Qed.
Lemma lib_ds_length : (1 < length lib_ds)%nat.
Proof. unfold lib_ds. cbn [length]. lia. Qed.
Lemma lib_end_some (K : bytes -> Prop) (pool : list (prog DW lib_reply)) (x : list (prog DW lib_reply) * DW) : exec K pool lib_w (fst x) (snd x) -> lib_test x = true ->
  exists pool' w', exec K pool lib_w pool' w' /\ w_forged w' = false /\ said_object lib_ds pool' 1 (Ok (RObject demo_obj)).
Proof.
  intros X T. destruct (lib_test_sound x T) as [A B]. exists (fst x), (snd x). split; [exact X|]. split; [exact A|]. split; [exact lib_ds_length|exact B].
Qed.
Definition lib_end_ok := lib_end_some (lib_key lib_demo lib_is) _ lib_end (exec_order (lib_key lib_demo lib_is) [4; 5; 0; 1]%nat (lib_pool sa_env Mem lib_demo 9 lib_ds lib_is lib_ss) lib_w) lib_test_ok.
Lemma demo_lib :
  (forall n, time_wf (clock sa_env n)) /\ blen (l_iek lib_demo) = 32 /\ keys_apart lib_demo lib_is /\ ix_keys_differ (l_iek lib_demo) (map ix_keyword lib_is) /\
  Forall call_wf lib_ds /\ Forall sa_call_wf lib_ss /\ Forall (fun x => ~ lib_key lib_demo lib_is (e_kek x)) (w_log lib_w) /\
  exists pool' w', exec (lib_key lib_demo lib_is) (lib_pool sa_env Mem lib_demo 9 lib_ds lib_is lib_ss) lib_w pool' w' /\
    w_forged w' = false /\ said_object lib_ds pool' 1 (Ok (RObject demo_obj)).
Proof.
  split; [exact sa_clock|]. split; [reflexivity|]. split; [exact lib_apart|]. split; [exact lib_differ|]. split; [|split; [|split; [apply List.Forall_nil|]]].
  - repeat apply List.Forall_cons; try apply List.Forall_nil; split; cbn [call_oid]; try exact Logic.I; try (intros o H; discriminate H).
    intros o [= <-]. reflexivity.
  - apply List.Forall_cons; [apply all_lt|]. apply List.Forall_cons; [exact Logic.I|apply List.Forall_nil].
  - exact lib_end_ok.
Qed.

(** The calls of a history. *)
Lemma exec_history {S I} e (io : provider S) k (K : bytes -> Prop) (w w' : world S I) evs : sa_run e io k (fun _ _ => False) w evs w' ->
  forall dn, exec K (map Ret dn ++ map (fun ev => sa_aes e io k (sv_call ev)) evs) w (map Ret (dn ++ map sv_reply evs)) w'.
Proof.
  intros H. induction H as [w|w w1 evs w2 []|w c r w1 evs w2 Hwf Hr HR IH]; intros dn; cbn [map sv_call sv_reply].
  - rewrite !app_nil_r. constructor.
  - set (p := sa_aes e io k c) in *. set (ps := map _ evs) in *.
    assert (Lt : (map Ret dn ++ p :: ps) !! length (map (@Ret (world S I) (res sa_reply)) dn) = Some p) by now apply list_lookup_middle.
    eapply exec_run; [exact Lt|]. rewrite Hr. cbn [fst snd].
    rewrite <- (Nat.add_0_r (length (map (@Ret (world S I) (res sa_reply)) dn))), insert_app_r. cbn [insert list_insert].
    specialize (IH (dn ++ [r])). rewrite map_app, <- !app_assoc in IH. exact IH.
Qed.
(** Two users; the first makes a group and takes the second into it, who is then seen to be in it, and changes their password. *)
Lemma demo_identities : exists p1 p2 p3 t1 t2 gid i pool' w',
  let calls := [SNewUser [ScopeAll]; SNewUser [ScopeAll]; SLogin u1 p1; SLogin u2 p2; SNewGroup t1 [ScopeAll]; SAddUser t1 u2 [gid];
                SGetIdentity t2; SChangePassword u2 p2; SLogin u2 p3] in
  s_uek lib_sa <> s_gek lib_sa /\ (forall n, time_wf (clock sa_env n)) /\ Forall sa_call_wf calls /\
  Forall (fun x => ~ sa_key lib_sa (e_kek x)) (w_log lib_w) /\
  exec (sa_key lib_sa) (map (sa_aes sa_env Mem lib_sa) calls) lib_w pool' w' /\ w_forged w' = false /\
  pool' !! 6%nat = Some (Ret (Ok (SRIdentity i))) /\ i_id i = u2 /\ is_Some (i_groups i !! gid).
Proof.
  destruct (demo_life_reach lib_sa) as (x1 & x2 & x3 & x4 & x5 & x6 & x7 & x8 & x9 & p1 & p2 & p3 & t1 & t2 & t3 & gid & i & d & w & (R & _ & (F & _)) & E & G & _).
  exists p1, p2, p3, t1, t2, gid, i. cbn [app] in R. pose proof (exec_history _ _ _ (sa_key lib_sa) _ _ _ R []) as X. cbn [map app sv_call sv_reply] in X.
  eexists. exists w. cbn zeta. split; [intros H; vm_compute in H; discriminate H|]. split; [exact sa_clock|].
  split. { repeat (apply List.Forall_cons; [first [exact Logic.I|exact all_lt]|]); apply List.Forall_nil. }
  split; [apply List.Forall_nil|]. split; [exact X|]. split; [exact F|]. split; [reflexivity|]. auto.
Qed.
(** CreateToken for a user who never logged in. *)
Lemma demo_shared : exists k dd w0 w w1 evs d a r1,
  d_tek dd = s_tek k /\ s_uek k <> s_gek k /\ sa_fresh mem_view k w0 /\ sa_run sa_env Mem k (sa_elsewhere mem_view k) w0 evs w /\ w_forged w = false /\ sa_history dir_empty evs d /\
  d_users d !! u1 = Some a /\ (forall g, g ∈ ac_groups a -> is_Some (d_groups d !! g)) /\
  run (d1_aes sa_env Mem (sa_idp sa_env Mem k) dd (CCreateToken (Some u1)) : prog DW _) w = (r1, w1) /\ ~ rng_failed sa_env w1 /\
  time_text (time_add (clock sa_env (w_ticks w)) 3600) <> None /\
  (nanos (clock sa_env (w_ticks w1)) <= nanos (time_add (clock sa_env (w_ticks w)) 3600))%Z.
Proof.
  destruct (demo_users lib_sa) as (x1 & x2 & x3 & x4 & p1 & p2 & t1 & t2 & d & w & a1 & a2 & (R & Hd & (F & _)) & _ & _ & _ & _ & A1 & _ & G1 & _).
  set (dd := mkD1 (repeat x01 32) (repeat x02 32) (s_tek lib_sa)).
  destruct (run (d1_aes sa_env Mem (sa_idp sa_env Mem lib_sa) dd (CCreateToken (Some u1)) : prog DW _) w) as [r1 w1] eqn:Er.
  exists lib_sa, dd, (sa_w : DW), w, w1. eexists. exists d, a1, r1. split; [reflexivity|]. split; [intros H; vm_compute in H; discriminate H|]. split; [apply sa_w_fresh|].
  split; [eapply run_between; [|exact R]; intros ? ? []|]. split; [exact F|]. split; [exact Hd|]. split; [exact A1|].
  split; [intros g Hg; rewrite G1 in Hg; now apply elem_of_empty in Hg|]. split; [exact Er|]. split; [apply sa_rng|]. split; [apply T1_text|]. apply T0_T1.
Qed.
