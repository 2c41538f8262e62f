(** Concrete cases of C81. *)
From stdpp Require Import gmap.
From Verif Require Import Bytes Go Json Uuid Time Types World Cryptor Io Id Data D1 Spec Demo D1Sched Standalone StandaloneDemo Lib LibDemo ProgressSpec Progress.
Local Open Scope bool_scope.
Local Open Scope nat_scope.

(** The steps of a call that nobody runs beside, if they are all taken in worlds that pass the test. *)
Fixpoint steps_in {W A} (test : W -> bool) (p : prog W A) (w : W) : option nat :=
  match p with
  | Ret _ => Some 0
  | Step f q => if test w then let '(x, w1) := f w in option_map Datatypes.S (steps_in test (q x) w1) else None
  end.
Lemma steps_in_beside {W A} (test : W -> bool) (P : W -> Prop) (T : forall w, test w = true -> P w) (p : prog W A) : forall w n r w',
  steps_in test p w = Some n -> run p w = (r, w') -> beside P n p w (Ret r) w'.
Proof.
  induction p as [a|X f q IH]; intros w n r w' H R; cbn [steps_in run] in H, R.
  - injection H as <-. injection R as <- <-. constructor.
  - destruct (test w) eqn:E; [|discriminate]. destruct (f w) as [x w1] eqn:F.
    destruct (steps_in test (q x) w1) as [m|] eqn:Q; [|discriminate]. injection H as <-.
    constructor; [auto|]. rewrite F. cbn [fst snd]. eauto.
Qed.

(** Someone gets an account, logs in and makes a group, in which they then are. *)
Definition pg_w : DW := snd (seq_run (map (sa_aes sa_env Bolt lib_sa) [SNewUser [ScopeAll]; SLogin lib_user lib_pw; SNewGroup lib_tok [ScopeAll]]) lib_w).
Definition user_test (b : bytes) : bool :=
  match unmarshal dec_sealed_user b with
  | None => true
  | Some su =>
      match aes_open (s_uek lib_sa) (print (JStr (su_uid su))) (slice_bytes (su_wk su)) (slice_bytes (su_ct su)) with
      | Ok pt => match unmarshal dec_user pt with
          | Some u => Nat.leb (match u_groups u with Some s => size s | None => 0 end) 1
          | None => true
          end
      | _ => true
      end
  end.
Definition users_test (s : gmap bytes bytes) : bool := forallb (fun x => user_test (snd x)) (map_to_list s).
Lemma user_test_ok s k b : users_test s = true -> s !! k = Some b -> user_test b = true.
Proof.
  intros T H. apply elem_of_map_to_list in H. unfold users_test in T. rewrite forallb_forall in T.
  apply (T (k, b)). apply elem_of_list_In. exact H.
Qed.
Lemma few_groups s : users_test s = true -> groups_at_most sa_env Bolt lib_sa (fun w : DW => w_io w = s) 1.
Proof.
  intros T uid m w u w' H. unfold get_user, bindR, map_err in H. cbn [bind on_io io_get Bolt bolt_get act] in H.
  apply beside_inv in H. destruct H as [[_ H]|(n1 & w1 & _ & HP & H)]; [discriminate|].
  rewrite HP in H. cbn [fst snd] in H.
  destruct (s !! bolt_key uid DataTypeSealedUser) as [[|b0 b]|] eqn:E; cbn [bind] in H;
    try (apply beside_inv in H; destruct H as [_ H]; discriminate).
  apply (user_test_ok s _ _ T) in E. unfold user_test in E. destruct (unmarshal dec_sealed_user (b0 :: b)) as [su|];
    [|apply beside_inv in H; destruct H as [_ H]; discriminate].
  unfold user_unseal, decrypt_json, bindR in H. cbn [c_dec aes_cryptor aes_dec bind act] in H.
  apply beside_inv in H. destruct H as [[_ H]|(n2 & w2 & _ & _ & H)]; [discriminate|]. cbn [fst snd] in H.
  destruct (aes_open _ _ _ _) as [pt|x|]; try (apply beside_inv in H; destruct H as [_ H]; discriminate).
  destruct (unmarshal dec_user pt) as [u0|]; apply beside_inv in H; destruct H as [_ H]; [|discriminate].
  injection H as <-. apply Nat.leb_le, E.
Qed.
Definition one_group (r : res sa_reply) : bool := match r with Ok (SRIdentity i) => Nat.eqb (size (i_groups i)) 1 | _ => false end.
Lemma counted_identity (p : prog DW (res sa_reply)) w n s : steps_in (fun w => bool_decide (w_io w = s)) p w = Some n -> one_group (fst (run p w)) = true ->
  exists i w', size (i_groups i) = 1 /\ beside (fun w : DW => w_io w = s) n p w (Ret (Ok (SRIdentity i))) w'.
Proof.
  intros H R. destruct (run p w) as [r w'] eqn:E. cbn [fst] in R. unfold one_group in R. destruct r as [[]|x|]; try discriminate.
  exists i, w'. split; [apply Nat.eqb_eq; exact R|].
  apply (steps_in_beside (fun w => bool_decide (w_io w = s))); [intros w0; apply bool_decide_eq_true|exact H|exact E].
Qed.
Definition pg_test (p : prog DW (res sa_reply)) (w : DW) : bool :=
  users_test (w_io w) && match steps_in (fun w0 => bool_decide (w_io w0 = w_io w)) p w with Some n => Nat.eqb n 6 | None => false end && one_group (fst (run p w)).
Lemma pg_case (p : prog DW (res sa_reply)) w : pg_test p w = true -> groups_at_most sa_env Bolt lib_sa (fun w0 : DW => w_io w0 = w_io w) 1 /\
  exists i w', size (i_groups i) = 1 /\ beside (fun w0 : DW => w_io w0 = w_io w) 6 p w (Ret (Ok (SRIdentity i))) w'.
Proof.
  unfold pg_test. intros T. apply andb_prop in T. destruct T as [T R]. apply andb_prop in T. destruct T as [T N].
  split; [apply few_groups; exact T|]. apply counted_identity; [|exact R].
  destruct (steps_in _ p w) as [n|]; [|discriminate]. apply Nat.eqb_eq in N. now rewrite N.
Qed.
Lemma pg_ok : pg_test (sa_aes sa_env Bolt lib_sa (SGetIdentity lib_tok)) pg_w = true.
Proof. vm_cast_no_check (eq_refl true). Qed.
Definition pg_identity := pg_case _ _ pg_ok.
(** An Encrypt takes all the steps that it may take. *)
Definition enc_test (p : prog DW (res d1_reply)) (w : DW) : bool :=
  match steps_in (fun _ => true) p w with Some n => Nat.eqb n 9 | None => false end && match fst (run p w) with Ok (ROid _) => true | _ => false end.
Lemma enc_case (p : prog DW (res d1_reply)) w : enc_test p w = true -> exists oid w', beside (fun _ => True) 9 p w (Ret (Ok (ROid oid))) w'.
Proof.
  unfold enc_test. intros T. apply andb_prop in T. destruct T as [N R]. destruct (run p w) as [r w'] eqn:E. cbn [fst] in R.
  destruct r as [[]|x|]; try discriminate. exists oid, w'. apply (steps_in_beside (fun _ => true)); [auto| |exact E].
  destruct (steps_in _ p w) as [n|]; [|discriminate]. apply Nat.eqb_eq in N. now rewrite N.
Qed.
Lemma enc_ok : enc_test (d1_aes demo_env Bolt demo_idp demo_d1 (CEncrypt tok_alice demo_obj [])) demo_w = true.
Proof. vm_cast_no_check (eq_refl true). Qed.
Definition pg_encrypt := enc_case _ _ enc_ok.
