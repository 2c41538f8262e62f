(** Concrete cases of C83. *)
From stdpp Require Import gmap.
From Verif Require Import Bytes Go Json Uuid Time Types World Kwp Gcm GcmSpec Cryptor Io IoProofs Id Data D1 Demo D1Sched Standalone StandaloneDemo Lib LibDemo DamageDemo DamageTokenSpec.
Local Open Scope bool_scope.
Local Open Scope N_scope.

Definition tp_test (t : sealed_token) (expiry body tag nonce wk : bytes) : bool :=
  match enc_time (st_exp t) with Some j => bytes_eqb (print j) expiry | None => false end &&
  (bytes_eqb (slice_bytes (st_ct t)) (framed body tag nonce) && bytes_eqb (slice_bytes (st_wk t)) wk).
Lemma tp_ok t expiry body tag nonce wk : tp_test t expiry body tag nonce wk = true -> token_parts t expiry body tag nonce wk.
Proof.
  unfold tp_test, token_parts. intros H. destruct (enc_time (st_exp t)) as [j|]; [|discriminate].
  apply andb_prop in H. destruct H as [H1 H]. apply andb_prop in H. destruct H as [H2 H3]. apply bytes_eqb_eq in H1, H2, H3. eauto.
Qed.
(** Only the first sixteen bytes are different. *)
Definition first_test (a b : bytes) : bool :=
  negb (bytes_eqb (firstn 16 a) (firstn 16 b)) && (Nat.eqb (length (firstn 16 a)) (length (firstn 16 b)) && bytes_eqb (skipn 16 a) (skipn 16 b)).
Lemma first_ok a b : first_test a b = true -> differ_in_one_block a b.
Proof.
  unfold first_test. intros H. apply andb_prop in H. destruct H as [H1 H]. apply andb_prop in H. destruct H as [H2 H3].
  apply Nat.eqb_eq in H2. apply bytes_eqb_eq in H3. exists [], (firstn 16 a), (firstn 16 b), (skipn 16 a).
  split; [symmetry; apply List.firstn_skipn|]. split; [rewrite H3; symmetry; apply List.firstn_skipn|].
  split. { intros E. rewrite E, (proj2 (bytes_eqb_eq _ _) eq_refl) in H1. discriminate. }
  split; [exact H2|]. split; [rewrite List.firstn_length; lia|reflexivity].
Qed.
(** A token with another tag, other data, and an expiry an hour later. *)
Definition with_ct (t : sealed_token) (ct : bytes) : sealed_token := mkSealedToken (st_exp t) (Some ct) (st_wk t).
Definition bad_tag (t : sealed_token) : sealed_token := let c := slice_bytes (st_ct t) in with_ct t (framed (cut_body c) (flip (cut_tag c)) (cut_nonce c)).
Definition bad_data (t : sealed_token) : sealed_token := let c := slice_bytes (st_ct t) in with_ct t (framed (flip (cut_body c)) (cut_tag c) (cut_nonce c)).
Definition later (t : sealed_token) : sealed_token := mkSealedToken (time_add (st_exp t) 3600) (st_ct t) (st_wk t).
Definition expiry_of (t : sealed_token) : bytes := match enc_time (st_exp t) with Some j => print j | None => [] end.
Definition alt_test (t t1 t2 t3 : sealed_token) (x x' b g n wk : bytes) : bool :=
  tp_test t x b g n wk && (tp_test t1 x b (flip g) n wk && (tp_test t2 x (flip b) g n wk && (tp_test t3 x' b g n wk && (parts_test b g n && first_test x x')))).
Lemma alt_ok t t1 t2 t3 x x' b g n wk : alt_test t t1 t2 t3 x x' b g n wk = true -> altered t t1 /\ altered t t2 /\ altered t t3.
Proof.
  unfold alt_test. rewrite !andb_true_iff. intros (H & H1 & H2 & H3 & H4 & H5). apply tp_ok in H, H1, H2, H3.
  apply parts_ok in H4. destruct H4 as (P1 & P2 & P3). apply first_ok in H5. split; [|split].
  - eapply alt_tag; eauto; [now rewrite flip_length|now apply flip_differs, len_nonempty].
  - eapply alt_data; eauto. now apply flip_block.
  - eapply alt_expiry; eauto.
Qed.
Definition all_test (kek : bytes) (t t1 t2 t3 : sealed_token) : bool :=
  let c := slice_bytes (st_ct t) in
  nonzero (aes_kwp_unwrap kek (slice_bytes (st_wk t))) && alt_test t t1 t2 t3 (expiry_of t) (expiry_of t3) (cut_body c) (cut_tag c) (cut_nonce c) (slice_bytes (st_wk t)).
Lemma all_ok kek t t1 t2 t3 : all_test kek t t1 t2 t3 = true ->
  (forall key, aes_kwp_unwrap kek (slice_bytes (st_wk t)) = Ok key -> subkey key <> zeros 16) /\ altered t t1 /\ altered t t2 /\ altered t t3.
Proof. unfold all_test. intros H. apply andb_prop in H. destruct H as [H1 H2]. split; [intros key; now apply nonzero_ok|]. eapply alt_ok; eauto. Qed.

(** A token that CreateToken has made. *)
Definition ct_test (r : res d1_reply * DW) : bool :=
  match r with
  | (Ok (RToken t), w) => all_test (d_tek demo_d1) t (bad_tag t) (bad_data t) (later t) &&
      match fst (run (d1_aes demo_env Mem demo_idp demo_d1 (CGetTokenContents t)) w) with Ok _ => true | _ => false end
  | _ => false
  end.
Lemma ct_sound r : ct_test r = true -> exists t w q t1 t2 t3, fst (run (d1_aes demo_env Mem demo_idp demo_d1 (CGetTokenContents t)) w) = Ok q /\
  (forall key, aes_kwp_unwrap (d_tek demo_d1) (slice_bytes (st_wk t)) = Ok key -> subkey key <> zeros 16) /\
  altered t t1 /\ altered t t2 /\ altered t t3 /\ st_exp t3 = time_add (st_exp t) 3600.
Proof.
  destruct r as [[[]|x|] w]; try discriminate. unfold ct_test. intros H. apply andb_prop in H. destruct H as [H1 H2].
  apply all_ok in H1. destruct H1 as (Z & A1 & A2 & A3).
  destruct (fst (run (d1_aes demo_env Mem demo_idp demo_d1 (CGetTokenContents t)) w)) as [q|x|] eqn:E; try discriminate.
  exists t, w, q, (bad_tag t), (bad_data t), (later t). auto 10.
Qed.
Lemma ct_ok : ct_test (run (d1_aes demo_env Mem demo_idp demo_d1 (CCreateToken (Some (str "contents")))) demo_w) = true.
Proof. vm_cast_no_check (eq_refl true). Qed.
Definition demo_token := ct_sound _ ct_ok.

(** A token that LoginUser has made. *)
Definition lt_w : DW := snd (seq_run (map (sa_aes sa_env Mem lib_sa) [SNewUser [ScopeAll]; SLogin lib_user lib_pw]) lib_w).
Definition text (t : sealed_token) : bytes := match token_string t with Ok s => s | _ => [] end.
Definition lt_test (tok : bytes) (w : DW) : bool :=
  match token_from_string tok with
  | Ok t => match token_from_string (text (bad_tag t)), token_from_string (text (bad_data t)), token_from_string (text (later t)) with
      | Ok t1, Ok t2, Ok t3 => all_test (s_tek lib_sa) t t1 t2 t3 && match fst (run (sa_idp sa_env Mem lib_sa tok) w) with Ok _ => true | _ => false end
      | _, _, _ => false
      end
  | _ => false
  end.
Lemma lt_sound tok w : lt_test tok w = true -> exists t i tok1 t1 tok2 t2 tok3 t3, fst (run (sa_idp sa_env Mem lib_sa tok) w) = Ok i /\
  token_from_string tok = Ok t /\ token_from_string tok1 = Ok t1 /\ token_from_string tok2 = Ok t2 /\ token_from_string tok3 = Ok t3 /\
  (forall key, aes_kwp_unwrap (s_tek lib_sa) (slice_bytes (st_wk t)) = Ok key -> subkey key <> zeros 16) /\
  altered t t1 /\ altered t t2 /\ altered t t3.
Proof.
  unfold lt_test. intros H. destruct (token_from_string tok) as [t|x|] eqn:E; try discriminate.
  destruct (token_from_string (text (bad_tag t))) as [t1|x|] eqn:E1; try discriminate.
  destruct (token_from_string (text (bad_data t))) as [t2|x|] eqn:E2; try discriminate.
  destruct (token_from_string (text (later t))) as [t3|x|] eqn:E3; try discriminate.
  apply andb_prop in H. destruct H as [H1 H2]. apply all_ok in H1. destruct H1 as (Z & A1 & A2 & A3).
  destruct (fst (run (sa_idp sa_env Mem lib_sa tok) w)) as [i|x|] eqn:R; try discriminate.
  exists t, i, (text (bad_tag t)), t1, (text (bad_data t)), t2, (text (later t)), t3. auto 12.
Qed.
Lemma lt_ok : lt_test lib_tok lt_w = true.
Proof. vm_cast_no_check (eq_refl true). Qed.
Definition demo_login_token := lt_sound _ _ lt_ok.
