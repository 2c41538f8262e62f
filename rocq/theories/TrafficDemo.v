(** Recording changes nothing about what storage does; and a concrete recorded run. *)
From Coq Require Import ZifyN ZifyNat.
From stdpp Require Import gmap.
From Verif Require Import Bytes Go Uuid Base64 Json Time Types World Logic Io IoSpec IoProofs Sched Cryptor CryptorProofs Id Data D1 Spec Demo Password Standalone SaConcDemo Index Lib LibDemo LibHist TrafficSpec.
Local Open Scope N_scope.

Section Transparent.
  Context {S : Type}.
  Notation R := (S * list request)%type.
  (** The requests aside, the map is the map of the storage. *)
  Definition under (v : view S) : view R := mkView (fun s => v_inv v (fst s)) (fun s => v_map v (fst s)).
  Lemma wpc_inside {A} (p : prog S A) C Q : forall s, wpc p C Q (fst s) -> wpc (inside p) (fun s => C (fst s)) (fun r s => Q r (fst s)) s.
  Proof.
    induction p as [a|X f k IH]; intros s H; cbn in *; [exact H|]. destruct H as [H1 H2]. split; [exact H1|]. destruct (f (fst s)) as [x s'] eqn:E. cbn [fst snd] in *.
    apply (IH x (s', snd s)). exact H2.
  Qed.
  Lemma implements_noted {A} F v q (p : prog S (res A)) pure : implements F v p pure -> implements F (under v) (bind (note q) (fun _ => inside p)) pure.
  Proof.
    intros H s Hi. cbn [bind note act wpc]. split; [split; [exact Hi|left; intros ? ?; reflexivity]|]. exact (wpc_inside p _ _ (fst s, snd s ++ [q]) (H (fst s) Hi)).
  Qed.
  Lemma recording_spec F v io : io_spec F v io -> io_spec F (under v) (recording io).
  Proof. intros [H1 H2 H3 H4]. split; intros; apply implements_noted; auto. Qed.
End Transparent.

Notation RW := (world (gmap bytes bytes * list request) unit).
Definition rec_w : RW := mkWorld (∅, []) tt 0 0 [] false.
Lemma run_recorded {I A} {S : Type} (K : bytes -> Prop) (p : prog (world (S * list request) I) A) w r w' : run p w = (r, w') -> forall t pool, pool !! t = Some p ->
  recorded K pool w (<[t := Ret r]> pool) w'.
Proof.
  revert w. induction p as [a|X f q IH]; intros w E t pool Ht; cbn [run] in E.
  - injection E as -> <-. rewrite list_insert_id by exact Ht. constructor.
  - eapply rd_step; [exact Ht|]. destruct (f w) as [x w1]. cbn [fst snd]. rewrite <- (list_insert_insert pool t (Ret r) (q x)). eapply (IH x w1 E t). apply list_lookup_insert. eapply lookup_lt_Some; exact Ht.
Qed.
Lemma run_bind {W A B} (p : prog W A) (k : A -> prog W B) w : run (bind p k) w = run (k (fst (run p w))) (snd (run p w)).
Proof. revert w. induction p as [a|X f q IH]; intros w; cbn [bind run]; [reflexivity|]. destruct (f w). apply IH. Qed.
Lemma run_ok {W A B} (p : prog W (res A)) (k : A -> prog W (res B)) w a w1 : run p w = (Ok a, w1) -> run (bindR p k) w = run (k a) w1.
Proof. intros H. unfold bindR. rewrite run_bind, H. reflexivity. Qed.
(** A new user. *)
Lemma rec_new_user : exists uid pw w' data x, run (sa_aes ov_env (recording Mem) lib_sa (SNewUser [ScopeAll])) rec_w = (Ok (SRUser uid pw), w') /\
  snd (w_io w') = [QPut uid DataTypeSealedUser data] /\ w_log w' = [x].
Proof.
  assert (G : forall n (w : RW), exists b, run (get_bytes ov_env n) w = (Ok b, set_draws w (w_draws w + 1))) by (intros n w; exists (repeat (Nb (N.of_nat (Nat.min (w_draws w) 255))) (N.to_nat n)); rewrite <- ov_draw; reflexivity).
  unfold sa_aes. cbn [sa_do]. unfold ret_map. rewrite run_bind. unfold sa_new_user.
  destruct (G 16 rec_w) as (b1 & E1). erewrite (run_ok _ _ rec_w) by (unfold new_v4; erewrite run_ok by exact E1; reflexivity).
  match goal with |- context [set_draws ?w ?n] => destruct (G passwordLength (set_draws w n)) as (b2 & E2) end.
  match type of E2 with _ = (_, ?w) => destruct (G (N.of_nat saltLength) w) as (b3 & E3) end.
  match type of E3 with _ = (_, ?w) => set (w0 := w) in * end. set (pw := b64url_encode b2) in *.
  assert (PW : run (generate_password ov_env) (set_draws rec_w (w_draws rec_w + 1)) = (Ok (pw, b3 ++ pwhash ov_env pw b3), w0)).
  { unfold generate_password. rewrite (run_ok _ _ _ _ _ E2). cbv zeta. rewrite (run_ok _ _ _ _ _ E3). reflexivity. }
  erewrite (run_ok _ _ (set_draws rec_w _)) by (unfold new_user; rewrite (run_ok _ _ _ _ _ PW); reflexivity).
  cbv beta iota. match goal with |- context [run (bindR (put_user _ _ ?a ?b ?c) _) ?w] => set (uid := a); set (u := b); set (w1 := w) end.
  destruct (aes_enc_run ov_env (s_uek lib_sa) (print (enc_user u)) (print (JStr uid)) w1) as (w2 & (F1 & _) & H).
  unfold draws2 in H. rewrite !ov_draw in H. cbn [is_ok andb] in H. destruct H as (wk & ct & H1 & _ & _ & _ & _ & H2 & _).
  set (data := print (enc_sealed_user (mkSealedUser uid (Some ct) (Some wk)))).
  assert (P : run (put_user (recording Mem) (aes_cryptor ov_env (s_uek lib_sa)) uid u false) w1 = (Ok tt, set_io w2 (<[mem_key uid DataTypeSealedUser := data]> ∅, [QPut uid DataTypeSealedUser data]))).
  { unfold put_user, user_seal. erewrite run_ok by (unfold encrypt_json; cbn [c_enc aes_cryptor]; erewrite run_ok by exact H1; reflexivity). cbn [su_uid]. fold data.
    destruct w2 as [io2 id2 d2 t2 l2 f2]. cbn [w_io] in F1. subst io2. unfold map_err. rewrite run_bind. cbn -[lookup insert mem_key]. rewrite lookup_empty. reflexivity. }
  erewrite run_ok by exact P. cbn [run fst snd res_map]. eexists _, _, _, data, _. split; [reflexivity|]. split; [reflexivity|]. cbn [set_io w_log]. rewrite H2. reflexivity.
Qed.
Lemma traffic_demo : exists uid pw w' data x,
  recorded (lib_key lib_demo []) (lib_pool ov_env (recording Mem) lib_demo 9 [] [] [SNewUser [ScopeAll]]) rec_w [Ret (LIdentity (Ok (SRUser uid pw)))] w' /\
  snd (w_io w') = snd (w_io rec_w) ++ [QPut uid DataTypeSealedUser data] /\ w_log w' = [x] ++ w_log rec_w.
Proof.
  destruct rec_new_user as (uid & pw & w' & data & x & H1 & H2 & H3). exists uid, pw, w', data, x. split; [|split; [exact H2|exact H3]].
  assert (E : run (bind (sa_aes ov_env (recording Mem) lib_sa (SNewUser [ScopeAll])) (fun r => Ret (LIdentity r))) rec_w = (LIdentity (Ok (SRUser uid pw)), w')) by (rewrite run_bind, H1; reflexivity).
  exact (run_recorded _ _ _ _ _ E 0 (lib_pool ov_env (recording Mem) lib_demo 9 [] [] [SNewUser [ScopeAll]]) eq_refl).
Qed.
