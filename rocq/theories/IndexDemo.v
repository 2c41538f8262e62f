(** Concrete index histories: the hypotheses of P_Index.v are met, and what goes wrong after an
    interrupted Delete. *)
From Coq Require Import ZifyN ZifyNat.
From stdpp Require Import gmap.
From Verif Require Import Bytes Go Json Types World Logic Cryptor Io IoSpec IoProofs Id Data D1 D1Proofs Spec SpecProofs Demo
  Index IndexSpec IndexProofs IndexRefine IndexHist IndexCost IndexFacts.
Local Open Scope bool_scope.
Local Open Scope N_scope.

Definition dog : bytes := str "dog".
Definition cat : bytes := str "cat".
Definition id1 : bytes := str "id1".
Definition id2 : bytes := str "id2".
Definition demo_ix_keys : keys := mkKeys [] [] [] (repeat x07 32).
Definition demo_iek : bytes := repeat x07 32.

(** ** Different labels *)
Definition labels_upto (iek kw : bytes) (n : nat) : list (res bytes) :=
  match ix_keys iek kw with
  | Ok ks => map (fun c => next_label (fst ks) (mkNode [] (N.of_nat c))) (List.seq 0 n)
  | _ => []
  end.
Definition res_eqb (a b : res bytes) : bool := match a, b with Ok x, Ok y => bytes_eqb x y | _, _ => false end.
Fixpoint distinct (l : list (res bytes)) : bool :=
  match l with [] => true | x :: t => negb (existsb (res_eqb x) t) && distinct t end.
Definition labels_test (iek : bytes) (kws : list bytes) (n : nat) : bool := distinct (flat_map (fun kw => labels_upto iek kw n) kws).
Lemma demo_labels : labels_test demo_iek [dog; cat] 3 = true.
Proof. vm_cast_no_check (eq_refl true). Qed.
Lemma distinct_nth l : distinct l = true -> forall i j, (i < length l)%nat -> (j < length l)%nat ->
  (forall x, In x l -> exists b, x = Ok b) -> nth i l Panic = nth j l Panic -> i = j.
Proof.
  induction l as [|x l IH]; cbn [distinct length]; intros H i j Hi Hj HO E; [lia|].
  apply Bool.andb_true_iff in H as [H1 H2]. apply Bool.negb_true_iff in H1.
  assert (HN : forall k, (k < length l)%nat -> nth k l Panic = x -> False).
  { intros k Hk Ek. rewrite <- Bool.not_true_iff_false in H1. apply H1. apply existsb_exists. exists (nth k l Panic). split; [now apply nth_In|].
    rewrite Ek. destruct (HO x (or_introl eq_refl)) as [b ->]. cbn [res_eqb]. now apply bytes_eqb_eq. }
  destruct i as [|i], j as [|j]; cbn [nth] in E; [reflexivity|exfalso; apply (HN j); [lia|congruence]|exfalso; apply (HN i); [lia|congruence]|].
  f_equal. apply IH; [exact H2|lia|lia| |exact E]. intros y Hy. apply HO. now right.
Qed.
Lemma labels_upto_ok iek kw n : blen iek = 32 -> labels_upto iek kw n = map (fun c => Ok (lab iek kw (N.of_nat c))) (List.seq 0 n).
Proof.
  intros H. unfold labels_upto. rewrite (ix_keys_ok iek H). cbn [fst]. apply map_ext. intros c. now rewrite (next_label_ok iek H).
Qed.
Lemma labels_upto_nth iek kw n c : blen iek = 32 -> (c < n)%nat -> nth c (labels_upto iek kw n) Panic = Ok (lab iek kw (N.of_nat c)).
Proof.
  intros H Hc. rewrite labels_upto_ok by exact H. rewrite (nth_indep _ Panic (Ok (lab iek kw (N.of_nat 0)))) by (rewrite map_length, seq_length; exact Hc).
  rewrite (map_nth (fun c => Ok (lab iek kw (N.of_nat c)))). now rewrite seq_nth by exact Hc.
Qed.
Lemma labels_upto_length iek kw n : blen iek = 32 -> length (labels_upto iek kw n) = n.
Proof. intros H. rewrite labels_upto_ok by exact H. now rewrite map_length, seq_length. Qed.
Lemma labels_concat_nth iek n kws i kw c : blen iek = 32 -> nth_error kws i = Some kw -> (c < n)%nat ->
  nth (i * n + c) (flat_map (fun kw => labels_upto iek kw n) kws) Panic = Ok (lab iek kw (N.of_nat c)) /\
  (i * n + c < length (flat_map (fun kw => labels_upto iek kw n) kws))%nat.
Proof.
  intros H. revert i. induction kws as [|k kws IH]; intros [|i] Hi Hc; try discriminate.
  - injection Hi as ->. cbn [flat_map Nat.mul Nat.add]. rewrite app_length, labels_upto_length by exact H. split; [|lia].
    rewrite app_nth1 by (rewrite labels_upto_length by exact H; exact Hc). now apply labels_upto_nth.
  - cbn [nth_error] in Hi. destruct (IH i Hi Hc) as [E L]. cbn [flat_map]. rewrite app_length, labels_upto_length by exact H. split; [|lia].
    rewrite app_nth2 by (rewrite labels_upto_length by exact H; lia). rewrite labels_upto_length by exact H.
    replace (Datatypes.S i * n + c - n)%nat with (i * n + c)%nat by lia. exact E.
Qed.
Lemma labels_test_sound iek kws n : blen iek = 32 -> labels_test iek kws (Datatypes.S n) = true -> labels_differ iek kws (N.of_nat n).
Proof.
  intros H HT kw kw' c c' Hk Hk' Hc Hc' E. rewrite !ix_label_ok in E by exact H.
  apply In_nth_error in Hk as [i Hi], Hk' as [j Hj].
  assert (L1 : (N.to_nat c < Datatypes.S n)%nat) by lia. assert (L2 : (N.to_nat c' < Datatypes.S n)%nat) by lia.
  destruct (labels_concat_nth iek (Datatypes.S n) kws i kw (N.to_nat c) H Hi L1) as [E1 B1].
  destruct (labels_concat_nth iek (Datatypes.S n) kws j kw' (N.to_nat c') H Hj L2) as [E2 B2].
  rewrite N2Nat.id in E1, E2.
  pose proof (distinct_nth _ HT _ _ B1 B2) as D. rewrite E1, E2 in D. specialize (fun X => D X E).
  assert (HO : forall x, In x (flat_map (fun kw => labels_upto iek kw (Datatypes.S n)) kws) -> exists b, x = Ok b).
  { intros x Hx. apply in_flat_map in Hx as (k & _ & Hx). rewrite labels_upto_ok in Hx by exact H. apply in_map_iff in Hx as (q & <- & _). eauto. }
  specialize (D HO).
  assert (A : (i = j /\ N.to_nat c = N.to_nat c')%nat).
  { clear - D L1 L2. revert L1 L2 D. generalize (N.to_nat c) (N.to_nat c'). intros a b Ha Hb D.
    apply (Nat.div_mod_unique (Datatypes.S n) i j a b Ha Hb). lia. }
  destruct A as [-> A]. split; [congruence|lia].
Qed.
Lemma demo_differ : labels_differ demo_iek [dog; cat] 2.
Proof.
  apply (labels_test_sound demo_iek [dog; cat] 2); [reflexivity|exact demo_labels].
Qed.
Lemma differ_incl iek kws kws' n n' : labels_differ iek kws n -> (forall kw, In kw kws' -> In kw kws) -> n' <= n -> labels_differ iek kws' n'.
Proof. intros H Hi Hn kw kw' c c' H1 H2 H3 H4. apply H; auto; lia. Qed.

(** ** A history *)
Lemma demo_alice_index : scope_has (i_scopes alice) ScopeIndex.
Proof. apply scope_contains_has. reflexivity. Qed.
Lemma demo_ix_fresh : ix_fresh mem_view demo_w.
Proof. split; [exact Logic.I|]. intros id. apply lookup_empty. Qed.
Notation ixdo c := (run (ix_do demo_env Mem demo_idp demo_iek 9 c)).
Notation demo_ev w c r w' := (mkIxEvent (ix_outside_of demo_env demo_idp w c w') c r).
(** Calls by alice succeed. *)
Lemma demo_ok (w w' : DW) c r m m' : ix_token c = tok_alice -> ix_step (ix_outside_of demo_env demo_idp w c w') c m r m' ->
  match c with
  | IAdd _ kw y => r = Ok IRUnit /\ becomes kw (m kw ++ [as_text y]) m m'
  | ISearch _ kw => r = Ok (IRIds (m kw)) /\ same m m'
  | IDelete _ kw y => r = Ok IRUnit /\ becomes kw (without y (m kw)) m m'
  end.
Proof.
  intros Ht H. unfold ix_step, ix_allowed, ix_outside_of in H. cbn [ix_who ix_rng_fails] in H. rewrite demo_whois, Ht in H.
  change (demo_who tok_alice) with (Ok alice) in H. cbn iota beta in H. destruct H as [[H _]|[_ H]]; [destruct (H demo_alice_index)|].
  destruct c; [destruct H as [[H _]|H]; [destruct (demo_rng _ H)|exact H]|exact H|destruct H as [[H _]|H]; [destruct (demo_rng _ H)|exact H]].
Qed.
Lemma demo_ix_history : exists evs w', ix_run demo_env mem_view demo_idp demo_iek 9 Mem demo_w evs w' /\
  map iv_call evs = [IAdd tok_alice dog id1; IAdd tok_alice cat id2; ISearch tok_alice dog; IDelete tok_alice dog id1; ISearch tok_alice dog; ISearch tok_alice cat] /\
  map iv_reply evs = [Ok IRUnit; Ok IRUnit; Ok (IRIds [id1]); Ok IRUnit; Ok (IRIds []); Ok (IRIds [id2])].
Proof.
  destruct (ixdo (IAdd tok_alice dog id1) demo_w) as [r1 w1] eqn:E1.
  destruct (ixdo (IAdd tok_alice cat id2) w1) as [r2 w2] eqn:E2.
  destruct (ixdo (ISearch tok_alice dog) w2) as [r3 w3] eqn:E3.
  destruct (ixdo (IDelete tok_alice dog id1) w3) as [r4 w4] eqn:E4.
  destruct (ixdo (ISearch tok_alice dog) w4) as [r5 w5] eqn:E5.
  destruct (ixdo (ISearch tok_alice cat) w5) as [r6 w6] eqn:E6.
  assert (U1 : Utf8 id1) by (apply Utf8_iff; reflexivity). assert (U2 : Utf8 id2) by (apply Utf8_iff; reflexivity).
  pose proof (ir_call demo_env mem_view demo_idp demo_iek 9 Mem _ (IAdd tok_alice dog id1) _ _ _ _ E1
    (ir_call demo_env mem_view demo_idp demo_iek 9 Mem _ (IAdd tok_alice cat id2) _ _ _ _ E2
    (ir_call demo_env mem_view demo_idp demo_iek 9 Mem _ (ISearch tok_alice dog) _ _ _ _ E3
    (ir_call demo_env mem_view demo_idp demo_iek 9 Mem _ (IDelete tok_alice dog id1) _ _ _ _ E4
    (ir_call demo_env mem_view demo_idp demo_iek 9 Mem _ (ISearch tok_alice dog) _ _ _ _ E5
    (ir_call demo_env mem_view demo_idp demo_iek 9 Mem _ (ISearch tok_alice cat) _ _ _ _ E6
    (ir_nil demo_env mem_view demo_idp demo_iek 9 Mem w6))))))) as HR.
  eexists. exists w6. split; [exact HR|]. split; [reflexivity|].
  destruct (index_refines demo_env mem_view demo_idp Mem (Ok demo_ix_keys) demo_iek 9 demo_w _ w6 (mem_spec False) (demo_idp_reads mem_view) eq_refl demo_ix_fresh HR) as [m Hm].
  { apply (differ_incl _ _ _ _ _ demo_differ); [cbn [map iv_call ix_keyword In]; tauto|cbn; lia]. }
  { cbn. lia. }
  { cbn. lia. }
  clear HR E1 E2 E3 E4 E5 E6. cbn [map iv_reply].
  inversion Hm as [|? ? m1 ? ? S1 H1]; subst; clear Hm. inversion H1 as [|? ? m2 ? ? S2 H2]; subst; clear H1.
  inversion H2 as [|? ? m3 ? ? S3 H3]; subst; clear H2. inversion H3 as [|? ? m4 ? ? S4 H4]; subst; clear H3.
  inversion H4 as [|? ? m5 ? ? S5 H5]; subst; clear H4. inversion H5 as [|? ? m6 ? ? S6 H6]; subst; clear H5.
  cbn [iv_x iv_call iv_reply] in *.
  apply demo_ok in S1 as [-> [B1 O1]]; [|reflexivity]. apply demo_ok in S2 as [-> [B2 O2]]; [|reflexivity]. apply demo_ok in S3 as [-> B3]; [|reflexivity].
  apply demo_ok in S4 as [-> [B4 O4]]; [|reflexivity]. apply demo_ok in S5 as [-> B5]; [|reflexivity]. apply demo_ok in S6 as [-> B6]; [|reflexivity].
  assert (NE : cat <> dog) by discriminate.
  assert (D2 : m2 dog = [id1]) by (rewrite (O2 dog) by auto; rewrite B1; reflexivity).
  assert (C2 : m2 cat = [id2]) by (rewrite B2, (O1 cat) by auto; reflexivity).
  assert (D4 : m4 dog = []) by (rewrite B4, B3, D2; reflexivity).
  assert (C5 : m5 cat = [id2]) by (rewrite B5, (O4 cat), B3 by auto; exact C2).
  rewrite D2, D4, C5. reflexivity.
Qed.

(** ** An interrupted Delete *)
(** Where a program gets to. *)
Definition reach {W A} (p : prog W A) (w : W) (q : prog W A) (w' : W) : Prop := exists n, run_n n p w = (q, w').
Lemma reach_refl {W A} (p : prog W A) w : reach p w p w.
Proof. now exists 0%nat. Qed.
Lemma reach_trans {W A} (p q r : prog W A) w w1 w2 : reach p w q w1 -> reach q w1 r w2 -> reach p w r w2.
Proof.
  intros [n Hn] [m Hm]. revert p w Hn. induction n as [|n IH]; intros p w Hn.
  - cbn in Hn. injection Hn as -> ->. now exists m.
  - destruct p as [a|X f k].
    + cbn in Hn. injection Hn as <- <-. now exists m.
    + cbn [run_n] in Hn. destruct (f w) as [x w'] eqn:E. destruct (IH _ _ Hn) as [j Hj]. exists (Datatypes.S j). cbn [run_n]. rewrite E. exact Hj.
Qed.
Lemma reach_in {W A B} (p q : prog W A) (k : A -> prog W B) w w' : reach p w q w' -> reach (bind p k) w (bind q k) w'.
Proof.
  intros [n Hn]. revert p w Hn. induction n as [|n IH]; intros p w Hn.
  - cbn in Hn. injection Hn as -> ->. apply reach_refl.
  - destruct p as [a|X f c].
    + cbn in Hn. injection Hn as <- <-. apply reach_refl.
    + cbn [run_n] in Hn. cbn [bind]. destruct (f w) as [x w1] eqn:E. destruct (IH _ _ Hn) as [j Hj]. exists (Datatypes.S j). cbn [run_n]. rewrite E. exact Hj.
Qed.
Lemma reach_run {W A} (p : prog W A) w r w' : run p w = (r, w') -> reach p w (Ret r) w'.
Proof.
  revert w. induction p as [a|X f k IH]; intros w H; cbn [run] in H.
  - injection H as -> ->. apply reach_refl.
  - destruct (f w) as [x w1] eqn:E. destruct (IH _ _ H) as [j Hj]. exists (Datatypes.S j). cbn [run_n]. rewrite E. exact Hj.
Qed.
Lemma reach_bind {W A B} (p : prog W A) (k : A -> prog W B) w r w' : run p w = (r, w') -> reach (bind p k) w (k r) w'.
Proof. intros H. apply (reach_in p (Ret r) k), reach_run, H. Qed.
Lemma reach_bindR {W A B} (p : prog W (res A)) (k : A -> prog W (res B)) w r w' : run p w = (Ok r, w') -> reach (bindR p k) w (k r) w'.
Proof.
  intros H. exact (reach_bind p (fun r0 => match r0 with Ok a => k a | Err e => Ret (Err e) | Panic => Ret Panic end) w (Ok r) w' H).
Qed.
Lemma reach_end {W A} (p : prog W A) w r w' : reach p w (Ret r) w' -> run p w = (r, w').
Proof.
  intros [n Hn]. revert p w Hn. induction n as [|n IH]; intros p w Hn; destruct p as [a|X f k]; cbn [run_n] in Hn; try discriminate; [now injection Hn as -> ->..|].
  cbn [run]. destruct (f w) as [x w1]. now apply IH.
Qed.
(** From what holds at the end. *)
Lemma wpc_gets {W A} (p : prog W A) (w : W) (r : A) (P : W -> Prop) :
  wpc p (fun _ => True) (fun r' w' => r' = r /\ P w') w -> exists w', run p w = (r, w') /\ P w'.
Proof. intros H. apply wpc_end in H. destruct (run p w) as [r' w']. cbn [fst snd] in H. destruct H as [-> H]. eauto. Qed.

Section Exact.
  Context (iek : bytes) (Hiek : blen iek = 32) (kw : bytes) (M : N) (HM : M < 2 ^ 64) (Hdiff : labels_differ iek [kw] M).
  Implicit Types (f : slots) (n cur : node) (y label : bytes) (c z : N) (sn : sealed_node) (ps : list (N * bytes)) (fuel : nat).
  Notation R := (@R _ unit mem_view iek [kw] M).
  Notation tk := (tkey iek kw).
  Notation kek := (ckey iek kw).
  Lemma kw_in : In kw [kw]. Proof. now left. Qed.
  Notation anything := (fun _ : DW => True).

  Lemma gets_next f cur (w : DW) : R f w -> n_next cur <= M ->
    exists w', run (get_next_node demo_env Mem tk kek cur) w = (match f kw (n_next cur) with Some n => Ok n | None => Err EIxNodeNotFound end, w') /\ R f w'.
  Proof.
    intros HR Hc. apply wpc_gets. eapply (wpc_get_next demo_env False mem_view Mem (mem_spec False) iek Hiek [kw] M kw kw_in);
      [exact HR|exact Hc|auto|auto|contradiction].
  Qed.
  Lemma gets_seal n label f (w : DW) : R f w -> n_next n < 2 ^ 64 -> valid_utf8 (n_id n) = true ->
    exists sn w', run (node_seal (aes_cryptor demo_env kek) n label) w = (Ok sn, w') /\ R f w' /\ node_open kek label (print (enc_sealed_node sn)) = Ok n.
  Proof.
    intros HR Hn Hv.
    assert (H : wpc (bindR (node_seal (aes_cryptor demo_env kek) n label) (fun sn => Ret (Ok sn))) anything
      (fun r w' => exists sn, r = Ok sn /\ R f w' /\ node_open kek label (print (enc_sealed_node sn)) = Ok n) w).
    { eapply (wpc_node_seal demo_env mem_view iek [kw] M kw n n label); [exact HR|exact Hn|now apply text_node|auto| |].
      - intros sn w' H1 H2. apply wpc_ret; [exact Logic.I|]. eauto.
      - intros w' _ RF. destruct (demo_rng _ RF). }
    apply wpc_end in H. destruct H as (sn & E & H1 & H2). unfold bindR in E, H1. rewrite run_bind in E, H1.
    destruct (run (node_seal _ n label) w) as [[sn'|x|] w']; cbn [run fst snd] in *; try discriminate. injection E as ->. eauto.
  Qed.
  Lemma gets_update c n sn f (w : DW) : R f w -> c <= M -> f kw c <> None -> node_open kek (lab iek kw c) (print (enc_sealed_node sn)) = Ok n ->
    exists w', run (put_sealed_node Mem (lab iek kw c) sn true) w = (Ok tt, w') /\ R (set_slot f kw c (Some n)) w'.
  Proof.
    intros HR Hc Hne Ho. apply wpc_gets. eapply (wpc_update_node False mem_view Mem (mem_spec False) iek Hiek [kw] M Hdiff kw kw_in f c n);
      [exact HR|exact Hc|exact Hne|exact Ho|auto|auto|auto|contradiction].
  Qed.
  Lemma gets_put c n sn f (w : DW) : R f w -> c <= M -> f kw c = None -> node_open kek (lab iek kw c) (print (enc_sealed_node sn)) = Ok n ->
    exists w', run (put_sealed_node Mem (lab iek kw c) sn false) w = (Ok tt, w') /\ R (set_slot f kw c (Some n)) w'.
  Proof.
    intros HR Hc Hn Ho. apply wpc_gets. eapply (wpc_put_node False mem_view Mem (mem_spec False) iek Hiek [kw] M Hdiff kw kw_in f c n);
      [exact HR|exact Hc|exact Ho|auto|auto|auto|contradiction|contradiction].
  Qed.
  Lemma gets_delete c f (w : DW) : R f w -> c <= M ->
    exists w', run (delete_sealed_node Mem (lab iek kw c)) w = (Ok tt, w') /\ R (set_slot f kw c None) w'.
  Proof.
    intros HR Hc. apply wpc_gets. eapply (wpc_delete_node False mem_view Mem (mem_spec False) iek Hiek [kw] M Hdiff kw kw_in f c);
      [exact HR|exact Hc|auto|auto|auto|contradiction].
  Qed.

  Notation wf := (wf [kw] M (fun _ _ => True) M).
  Lemma verified (tok : bytes) (w : DW) : tok = tok_alice -> run (ix_verify demo_idp tok) w = (Ok tt, w).
  Proof. now intros ->. Qed.
  Lemma gets_add fuel f y ps z (w : DW) : R f w -> wf f -> path (f kw) 0 ps z -> (length ps < fuel)%nat -> z < M -> Utf8 y ->
    exists w', run (ix_do demo_env Mem demo_idp iek fuel (IAdd tok_alice kw y)) w = (Ok IRUnit, w') /\ R (set_slot f kw z (Some (mkNode y (z + 1)))) w'.
  Proof.
    intros HR Hwf Hp Hl Hz Hy.
    assert (HG : wpc (get_last_node demo_env Mem tk kek fuel node_zero) anything (fun r w' => exists last, r = Ok last /\ n_next last = z /\ R f w') w).
    { eapply (wpc_get_last demo_env False mem_view Mem (mem_spec False) iek Hiek [kw] M HM kw kw_in (fun _ _ => True) M ltac:(lia) fuel f node_zero ps z);
        [exact HR|exact Hwf|cbn; lia|exact Hp|exact Hl|auto| |contradiction]. intros last w' H1 H2. eauto. }
    apply wpc_end in HG. destruct HG as (last & E1 & Hlast & HR1).
    destruct (run (get_last_node demo_env Mem tk kek fuel node_zero) w) as [r1 w1] eqn:G1. cbn [fst snd] in *. subst r1.
    assert (Hu : u64_succ z = z + 1) by (unfold u64_succ; apply N.mod_small; lia).
    destruct (gets_seal (mkNode y (z + 1)) (lab iek kw z) f w1 HR1 ltac:(cbn; lia) (Utf8_valid _ Hy)) as (sn & w2 & G2 & HR2 & Ho).
    assert (Hfree : f kw z = None) by (clear - Hp; induction Hp; auto).
    destruct (gets_put z (mkNode y (z + 1)) sn f w2 HR2 ltac:(lia) Hfree Ho) as (w3 & G3 & HR3).
    exists w3. split; [|exact HR3]. apply reach_end. cbn [ix_do]. unfold ret_map.
    apply (reach_bind _ (fun r => Ret (res_map (fun _ => IRUnit) r)) w (Ok tt) w3).
    apply reach_end. unfold ix_add.
    eapply reach_trans; [exact (reach_bindR _ _ w tt w (verified tok_alice w eq_refl))|].
    eapply reach_trans; [apply (reach_bindR _ _ w (tk, kek) w); unfold lift; cbn [run]; now rewrite (ix_keys_ok iek Hiek)|].
    cbn beta iota. eapply reach_trans; [exact (reach_bindR _ _ w last w1 G1)|].
    eapply reach_trans; [apply (reach_bindR _ _ w1 (lab iek kw z) w1); unfold lift; cbn [run]; rewrite (next_label_ok iek Hiek); now rewrite Hlast|].
    rewrite Hlast, Hu. eapply reach_trans; [exact (reach_bindR _ _ w1 sn w2 G2)|]. apply reach_run. exact G3.
  Qed.
  Lemma gets_search fuel f ps z (w : DW) : R f w -> wf f -> path (f kw) 0 ps z -> (length ps < fuel)%nat ->
    exists w', run (ix_do demo_env Mem demo_idp iek fuel (ISearch tok_alice kw)) w = (Ok (IRIds (map snd ps)), w') /\ R f w'.
  Proof.
    intros HR Hwf Hp Hl.
    assert (HG : exists w', run (search_loop demo_env Mem tk kek fuel node_zero []) w = (Ok (map snd ps), w') /\ R f w').
    { apply wpc_gets. eapply (wpc_search demo_env False mem_view Mem (mem_spec False) iek Hiek [kw] M HM kw kw_in (fun _ _ => True) M ltac:(lia) fuel f node_zero ps z []);
        [exact HR|exact Hwf|cbn; lia|exact Hp|exact Hl|auto|auto|contradiction]. }
    destruct HG as (w1 & G1 & HR1). exists w1. split; [|exact HR1]. apply reach_end. cbn [ix_do]. unfold ret_map.
    apply (reach_bind _ (fun r => Ret (res_map IRIds r)) w (Ok (map snd ps)) w1).
    apply reach_end. unfold ix_search.
    eapply reach_trans; [exact (reach_bindR _ _ w tt w (verified tok_alice w eq_refl))|].
    eapply reach_trans; [apply (reach_bindR _ _ w (tk, kek) w); unfold lift; cbn [run]; now rewrite (ix_keys_ok iek Hiek)|].
    cbn beta iota. apply reach_run. exact G1.
  Qed.
  (** The first node goes, the second takes its place, and then the process dies. *)
  Lemma reach_cut fuel f n n2 (w : DW) : (0 < fuel)%nat -> R f w -> wf f -> f kw 0 = Some n -> f kw (n_next n) = Some n2 ->
    exists q w', reach (ix_do demo_env Mem demo_idp iek fuel (IDelete tok_alice kw (n_id n))) w q w' /\ R (set_slot f kw 0 (Some n2)) w'.
  Proof.
    intros Hf HR Hwf H0 H1. destruct fuel as [|fuel]; [lia|].
    destruct (Hwf kw 0 n kw_in ltac:(lia) H0) as (_ & B1 & _ & _). destruct (Hwf kw (n_next n) n2 kw_in B1 H1) as (_ & B2 & V2 & _).
    destruct (gets_next f node_zero w HR ltac:(cbn; lia)) as (w1 & G1 & HR1). change (n_next node_zero) with 0 in G1. rewrite H0 in G1.
    destruct (gets_next f n w1 HR1 B1) as (w2 & G2 & HR2). rewrite H1 in G2.
    destruct (gets_seal n2 (lab iek kw 0) f w2 HR2 ltac:(lia) V2) as (sn & w3 & G3 & HR3 & Ho).
    destruct (gets_update 0 n2 sn f w3 HR3 ltac:(lia) ltac:(congruence) Ho) as (w4 & G4 & HR4).
    eexists. exists w4. split; [|exact HR4]. cbn [ix_do]. unfold ret_map. apply reach_in. unfold ix_delete.
    eapply reach_trans; [exact (reach_bindR _ _ w tt w (verified tok_alice w eq_refl))|].
    eapply reach_trans; [apply (reach_bindR _ _ w (tk, kek) w); unfold lift; cbn [run]; now rewrite (ix_keys_ok iek Hiek)|].
    cbn beta iota. cbn [delete_loop]. eapply reach_trans; [exact (reach_bind _ _ w (Ok n) w1 G1)|].
    cbn beta iota. rewrite (proj2 (bytes_eqb_eq (n_id n) (n_id n)) eq_refl).
    eapply reach_trans; [apply (reach_bindR _ _ w1 (lab iek kw 0) w1); unfold lift; cbn [run]; now rewrite (next_label_ok iek Hiek)|].
    unfold bindR at 1. apply reach_in. unfold delete_node.
    eapply reach_trans; [exact (reach_bind _ _ w1 (Ok n2) w2 G2)|]. cbn beta iota.
    eapply reach_trans; [exact (reach_bindR _ _ w2 sn w3 G3)|].
    exact (reach_bindR _ _ w3 tt w4 G4).
  Qed.
  (** Delete of a keyword's only entry. *)
  Lemma gets_delete_last fuel f n (w : DW) : (1 < fuel)%nat -> R f w -> wf f -> f kw 0 = Some n -> f kw (n_next n) = None ->
    exists w', run (ix_do demo_env Mem demo_idp iek fuel (IDelete tok_alice kw (n_id n))) w = (Ok IRUnit, w') /\ R (set_slot f kw 0 None) w'.
  Proof.
    intros Hf HR Hwf H0 H1. destruct fuel as [|[|fuel]]; [lia..|].
    destruct (Hwf kw 0 n kw_in ltac:(lia) H0) as (_ & B1 & _ & _).
    destruct (gets_next f node_zero w HR ltac:(cbn; lia)) as (w1 & G1 & HR1). change (n_next node_zero) with 0 in G1. rewrite H0 in G1.
    destruct (gets_next f n w1 HR1 B1) as (w2 & G2 & HR2). rewrite H1 in G2.
    destruct (gets_delete 0 f w2 HR2 ltac:(lia)) as (w3 & G3 & HR3).
    destruct (gets_next _ node_zero w3 HR3 ltac:(cbn; lia)) as (w4 & G4 & HR4). change (n_next node_zero) with 0 in G4. rewrite set_same in G4.
    exists w4. split; [|exact HR4]. apply reach_end. cbn [ix_do]. unfold ret_map.
    apply (reach_bind _ (fun r => Ret (res_map (fun _ => IRUnit) r)) w (Ok tt) w4).
    apply reach_end. unfold ix_delete.
    eapply reach_trans; [exact (reach_bindR _ _ w tt w (verified tok_alice w eq_refl))|].
    eapply reach_trans; [apply (reach_bindR _ _ w (tk, kek) w); unfold lift; cbn [run]; now rewrite (ix_keys_ok iek Hiek)|].
    cbn beta iota. cbn [delete_loop]. eapply reach_trans; [exact (reach_bind _ _ w (Ok n) w1 G1)|].
    cbn beta iota. rewrite (proj2 (bytes_eqb_eq (n_id n) (n_id n)) eq_refl).
    eapply reach_trans; [apply (reach_bindR _ _ w1 (lab iek kw 0) w1); unfold lift; cbn [run]; now rewrite (next_label_ok iek Hiek)|].
    eapply reach_trans; [apply (reach_bindR _ _ w1 tt w3)|].
    { apply reach_end. unfold delete_node. eapply reach_trans; [exact (reach_bind _ _ w1 (Err EIxNodeNotFound) w2 G2)|]. cbn beta iota.
      apply reach_run. exact G3. }
    cbn beta iota. eapply reach_trans; [exact (reach_bind _ _ w3 (Err EIxNodeNotFound) w4 G4)|]. apply reach_refl.
  Qed.
End Exact.

Section Back.
  Context (iek : bytes) (Hiek : blen iek = 32) (kw : bytes) (Hdiff : labels_differ iek [kw] 2) (a x : bytes) (Ha : Utf8 a) (Hx : Utf8 x).
  Notation R := (@R _ unit mem_view iek [kw] 2).
  Notation wf := (wf [kw] 2 (fun _ _ => True) 2).
  Notation f0 := (fun _ _ => None : option node).
  Notation f1 := (set_slot f0 kw 0 (Some (mkNode a 1))).
  Notation f2 := (set_slot f1 kw 1 (Some (mkNode a 2))).
  Notation f3 := (set_slot f2 kw 0 (Some (mkNode a 2))).
  Notation f4 := (set_slot f3 kw 0 None).
  Notation f5 := (set_slot f4 kw 0 (Some (mkNode x 1))).
  Lemma wf_set2 (f : slots) (c : N) (o : option node) : wf f -> (forall nd, o = Some nd -> c < n_next nd /\ n_next nd <= 2 /\ valid_utf8 (n_id nd) = true) -> wf (set_slot f kw c o).
  Proof.
    intros H Ho kw' c' n Hk Hc E. unfold set_slot in E. destruct (bytes_eqb kw' kw && (c' =? c)) eqn:B; [|eauto].
    apply Bool.andb_true_iff in B as [_ B]. apply N.eqb_eq in B. subst c'. destruct (Ho n E) as (? & ? & ?). auto.
  Qed.
  Lemma comes_back (w0 : DW) : R f0 w0 -> exists w1 w2 n q w3 w4 w5 w6,
    run (ix_do demo_env Mem demo_idp iek 9 (IAdd tok_alice kw a)) w0 = (Ok IRUnit, w1) /\
    run (ix_do demo_env Mem demo_idp iek 9 (IAdd tok_alice kw a)) w1 = (Ok IRUnit, w2) /\
    run_n n (ix_do demo_env Mem demo_idp iek 9 (IDelete tok_alice kw a)) w2 = (q, w3) /\
    run (ix_do demo_env Mem demo_idp iek 9 (IDelete tok_alice kw a)) w3 = (Ok IRUnit, w4) /\
    run (ix_do demo_env Mem demo_idp iek 9 (IAdd tok_alice kw x)) w4 = (Ok IRUnit, w5) /\
    run (ix_do demo_env Mem demo_idp iek 9 (ISearch tok_alice kw)) w5 = (Ok (IRIds [x; a]), w6).
  Proof.
    intros HR0. assert (HM : 2 < 2 ^ 64) by lia.
    assert (Va : valid_utf8 a = true) by now apply Utf8_valid. assert (Vx : valid_utf8 x = true) by now apply Utf8_valid.
    assert (W0 : wf f0) by (intros kw' c n _ _ [=]).
    assert (W1 : wf f1) by (apply wf_set2; [exact W0|intros nd [= <-]; cbn [n_next n_id]; split; [lia|split; [lia|exact Va]]]).
    assert (W2 : wf f2) by (apply wf_set2; [exact W1|intros nd [= <-]; cbn [n_next n_id]; split; [lia|split; [lia|exact Va]]]).
    assert (W3 : wf f3) by (apply wf_set2; [exact W2|intros nd [= <-]; cbn [n_next n_id]; split; [lia|split; [lia|exact Va]]]).
    assert (W4 : wf f4) by (apply wf_set2; [exact W3|discriminate]).
    assert (W5 : wf f5) by (apply wf_set2; [exact W4|intros nd [= <-]; cbn [n_next n_id]; split; [lia|split; [lia|exact Vx]]]).
    assert (V : forall (f : slots) c o c', set_slot f kw c o kw c' = if c' =? c then o else f kw c').
    { intros f c o c'. unfold set_slot. now rewrite (proj2 (bytes_eqb_eq kw kw) eq_refl). }
    destruct (gets_add iek Hiek kw 2 HM Hdiff 9 f0 a [] 0 w0 HR0 W0 ltac:(now constructor) ltac:(cbn; lia) ltac:(lia) Ha) as (w1 & G1 & HR1).
    destruct (gets_add iek Hiek kw 2 HM Hdiff 9 f1 a [(0, a)] 1 w1 HR1 W1) as (w2 & G2 & HR2); [|cbn; lia|lia|exact Ha|].
    { apply (path_step (f1 kw) 0 (mkNode a 1) [] 1); [now rewrite V|]. apply path_end. now rewrite V. }
    destruct (reach_cut iek Hiek kw 2 HM Hdiff 9 f2 (mkNode a 1) (mkNode a 2) w2 ltac:(lia) HR2 W2) as (q & w3 & [n G3] & HR3);
      [now rewrite !V|now rewrite !V|].
    destruct (gets_delete_last iek Hiek kw 2 HM Hdiff 9 f3 (mkNode a 2) w3 ltac:(lia) HR3 W3) as (w4 & G4 & HR4); [now rewrite !V|now rewrite !V|].
    destruct (gets_add iek Hiek kw 2 HM Hdiff 9 f4 x [] 0 w4 HR4 W4) as (w5 & G5 & HR5); [|cbn; lia|lia|exact Hx|].
    { apply path_end. now rewrite V. }
    destruct (gets_search iek Hiek kw 2 HM 9 f5 [(0, x); (1, a)] 2 w5 HR5 W5) as (w6 & G6 & _); [|cbn; lia|].
    { apply (path_step (f5 kw) 0 (mkNode x 1) [(1, a)] 2); [now rewrite !V|].
      apply (path_step (f5 kw) 1 (mkNode a 2) [] 2); [now rewrite !V|]. apply path_end. now rewrite !V. }
    exists w1, w2, n, q, w3, w4, w5, w6. auto 10.
  Qed.
  Lemma half_gone (w0 : DW) : R f0 w0 -> exists w1 w2 w3 n q w4 w5,
    run (ix_do demo_env Mem demo_idp iek 9 (IAdd tok_alice kw a)) w0 = (Ok IRUnit, w1) /\
    run (ix_do demo_env Mem demo_idp iek 9 (IAdd tok_alice kw a)) w1 = (Ok IRUnit, w2) /\
    run (ix_do demo_env Mem demo_idp iek 9 (ISearch tok_alice kw)) w2 = (Ok (IRIds [a; a]), w3) /\
    run_n n (ix_do demo_env Mem demo_idp iek 9 (IDelete tok_alice kw a)) w3 = (q, w4) /\
    run (ix_do demo_env Mem demo_idp iek 9 (ISearch tok_alice kw)) w4 = (Ok (IRIds [a]), w5).
  Proof.
    intros HR0. assert (HM : 2 < 2 ^ 64) by lia.
    assert (Va : valid_utf8 a = true) by now apply Utf8_valid.
    assert (W0 : wf f0) by (intros kw' c n _ _ [=]).
    assert (W1 : wf f1) by (apply wf_set2; [exact W0|intros nd [= <-]; cbn [n_next n_id]; split; [lia|split; [lia|exact Va]]]).
    assert (W2 : wf f2) by (apply wf_set2; [exact W1|intros nd [= <-]; cbn [n_next n_id]; split; [lia|split; [lia|exact Va]]]).
    assert (W3 : wf f3) by (apply wf_set2; [exact W2|intros nd [= <-]; cbn [n_next n_id]; split; [lia|split; [lia|exact Va]]]).
    assert (V : forall (f : slots) c o c', set_slot f kw c o kw c' = if c' =? c then o else f kw c').
    { intros f c o c'. unfold set_slot. now rewrite (proj2 (bytes_eqb_eq kw kw) eq_refl). }
    destruct (gets_add iek Hiek kw 2 HM Hdiff 9 f0 a [] 0 w0 HR0 W0 ltac:(now constructor) ltac:(cbn; lia) ltac:(lia) Ha) as (w1 & G1 & HR1).
    destruct (gets_add iek Hiek kw 2 HM Hdiff 9 f1 a [(0, a)] 1 w1 HR1 W1) as (w2 & G2 & HR2); [|cbn; lia|lia|exact Ha|].
    { apply (path_step (f1 kw) 0 (mkNode a 1) [] 1); [now rewrite V|]. apply path_end. now rewrite V. }
    destruct (gets_search iek Hiek kw 2 HM 9 f2 [(0, a); (1, a)] 2 w2 HR2 W2) as (w3 & G3 & HR3); [|cbn; lia|].
    { apply (path_step (f2 kw) 0 (mkNode a 1) [(1, a)] 2); [now rewrite !V|].
      apply (path_step (f2 kw) 1 (mkNode a 2) [] 2); [now rewrite !V|]. apply path_end. now rewrite !V. }
    destruct (reach_cut iek Hiek kw 2 HM Hdiff 9 f2 (mkNode a 1) (mkNode a 2) w3 ltac:(lia) HR3 W2) as (q & w4 & [n G4] & HR4);
      [now rewrite !V|now rewrite !V|].
    destruct (gets_search iek Hiek kw 2 HM 9 f3 [(0, a)] 2 w4 HR4 W3) as (w5 & G5 & _); [|cbn; lia|].
    { apply (path_step (f3 kw) 0 (mkNode a 2) [] 2); [now rewrite !V|]. apply path_end. now rewrite !V. }
    exists w1, w2, w3, n, q, w4, w5. auto 10.
  Qed.
End Back.

(** The same as a history: Delete dies, is retried and succeeds, and the identifier comes back with
    the next Add of another one. *)
Lemma demo_comes_back : exists x1 x2 x4 x5 x6 w',
  ix_xrun demo_env mem_view demo_idp demo_iek 9 demo_w
    [XDone (mkIxEvent x1 (IAdd tok_alice dog id1) (Ok IRUnit)); XDone (mkIxEvent x2 (IAdd tok_alice dog id1) (Ok IRUnit));
     XCut (IDelete tok_alice dog id1); XDone (mkIxEvent x4 (IDelete tok_alice dog id1) (Ok IRUnit));
     XDone (mkIxEvent x5 (IAdd tok_alice dog id2) (Ok IRUnit)); XDone (mkIxEvent x6 (ISearch tok_alice dog) (Ok (IRIds [id2; id1])))] w'.
Proof.
  assert (U1 : Utf8 id1) by (apply Utf8_iff; reflexivity). assert (U2 : Utf8 id2) by (apply Utf8_iff; reflexivity).
  assert (HD : labels_differ demo_iek [dog] 2) by (apply (differ_incl _ _ _ _ _ demo_differ); [intros kw [<-|[]]; now left|lia]).
  destruct (comes_back demo_iek eq_refl dog HD id1 id2 U1 U2 demo_w) as (w1 & w2 & n & q & w3 & w4 & w5 & w6 & G1 & G2 & G3 & G4 & G5 & G6).
  { exact (proj1 (proj1 (fresh_state mem_view demo_iek [dog] 2 demo_w demo_ix_fresh))). }
  do 5 eexists. exists w6.
  refine (ix_done demo_env mem_view demo_idp demo_iek 9 _ Mem (IAdd tok_alice dog id1) _ _ _ _ (mem_spec True) G1 _).
  refine (ix_done demo_env mem_view demo_idp demo_iek 9 _ Mem (IAdd tok_alice dog id1) _ _ _ _ (mem_spec True) G2 _).
  refine (ix_cut demo_env mem_view demo_idp demo_iek 9 _ Mem (IDelete tok_alice dog id1) _ _ _ _ _ (mem_spec True) G3 _).
  refine (ix_done demo_env mem_view demo_idp demo_iek 9 _ Mem (IDelete tok_alice dog id1) _ _ _ _ (mem_spec True) G4 _).
  refine (ix_done demo_env mem_view demo_idp demo_iek 9 _ Mem (IAdd tok_alice dog id2) _ _ _ _ (mem_spec True) G5 _).
  refine (ix_done demo_env mem_view demo_idp demo_iek 9 _ Mem (ISearch tok_alice dog) _ _ _ _ (mem_spec True) G6 _).
  apply ix_nil.
Qed.

Lemma demo_half_gone : exists x1 x2 x3 x5 w',
  ix_xrun demo_env mem_view demo_idp demo_iek 9 demo_w
    [XDone (mkIxEvent x1 (IAdd tok_alice dog id1) (Ok IRUnit)); XDone (mkIxEvent x2 (IAdd tok_alice dog id1) (Ok IRUnit));
     XDone (mkIxEvent x3 (ISearch tok_alice dog) (Ok (IRIds [id1; id1]))); XCut (IDelete tok_alice dog id1);
     XDone (mkIxEvent x5 (ISearch tok_alice dog) (Ok (IRIds [id1])))] w' /\
  labels_differ demo_iek [dog; dog; dog; dog; dog] 2.
Proof.
  assert (U1 : Utf8 id1) by (apply Utf8_iff; reflexivity).
  assert (HD : labels_differ demo_iek [dog] 2) by (apply (differ_incl _ _ _ _ _ demo_differ); [intros kw [<-|[]]; now left|lia]).
  destruct (half_gone demo_iek eq_refl dog HD id1 U1 demo_w) as (w1 & w2 & w3 & n & q & w4 & w5 & G1 & G2 & G3 & G4 & G5).
  { exact (proj1 (proj1 (fresh_state mem_view demo_iek [dog] 2 demo_w demo_ix_fresh))). }
  do 4 eexists. exists w5. split; [|apply (differ_incl _ _ _ _ _ HD); [cbn [In]; tauto|lia]].
  refine (ix_done demo_env mem_view demo_idp demo_iek 9 _ Mem (IAdd tok_alice dog id1) _ _ _ _ (mem_spec True) G1 _).
  refine (ix_done demo_env mem_view demo_idp demo_iek 9 _ Mem (IAdd tok_alice dog id1) _ _ _ _ (mem_spec True) G2 _).
  refine (ix_done demo_env mem_view demo_idp demo_iek 9 _ Mem (ISearch tok_alice dog) _ _ _ _ (mem_spec True) G3 _).
  refine (ix_cut demo_env mem_view demo_idp demo_iek 9 _ Mem (IDelete tok_alice dog id1) _ _ _ _ _ (mem_spec True) G4 _).
  refine (ix_done demo_env mem_view demo_idp demo_iek 9 _ Mem (ISearch tok_alice dog) _ _ _ _ (mem_spec True) G5 _).
  apply ix_nil.
Qed.

Lemma demo_case : exists evs w', ix_run demo_env mem_view demo_idp demo_iek 9 Mem demo_w evs w' /\
  io_spec False mem_view Mem /\ idp_reads mem_view (@demo_idp (gmap bytes bytes)) /\ ix_new (Ok demo_ix_keys) = Ok demo_iek /\ ix_fresh mem_view demo_w /\
  labels_differ demo_iek (ev_keywords evs) (adds (map iv_call evs)) /\ adds (map iv_call evs) < 2 ^ 64 /\ (count_adds (map iv_call evs) < 9)%nat /\
  map iv_call evs = [IAdd tok_alice dog id1; IAdd tok_alice cat id2; ISearch tok_alice dog; IDelete tok_alice dog id1; ISearch tok_alice dog; ISearch tok_alice cat] /\
  map iv_reply evs = [Ok IRUnit; Ok IRUnit; Ok (IRIds [id1]); Ok IRUnit; Ok (IRIds []); Ok (IRIds [id2])].
Proof.
  destruct demo_ix_history as (evs & w' & HR & Hc & Hr). exists evs, w'.
  assert (HK : ev_keywords evs = map ix_keyword (map iv_call evs)) by (rewrite map_map; reflexivity).
  split; [exact HR|]. split; [exact (mem_spec False)|]. split; [exact (demo_idp_reads mem_view)|]. split; [reflexivity|]. split; [exact demo_ix_fresh|].
  rewrite HK, Hc. split; [|split; [cbn; lia|split; [cbn; lia|split; [reflexivity|exact Hr]]]].
  apply (differ_incl _ _ _ _ _ demo_differ); [cbn [map ix_keyword In]; tauto|cbn; lia].
Qed.

Definition demo_counted : world (gmap bytes bytes * N) unit := mkWorld (∅, 0) tt 0 0 [] false.
Lemma demo_cost_case : exists w hs w', ix_xrun demo_env (counted_view mem_view) demo_idp demo_iek 9 w hs w' /\ length hs = 2%nat /\
  ix_fresh (counted_view mem_view) w /\ idp_reads (counted_view mem_view) (@demo_idp (gmap bytes bytes * N)) /\
  (forall tok (w0 : world (gmap bytes bytes * N) unit), ops (snd (run (demo_idp tok) w0)) <= ops w0 + 0) /\
  let c := IDelete tok_alice dog id1 in
  labels_differ demo_iek (ix_keyword c :: hap_keywords hs) (adds (c :: map hap_call hs)) /\ adds (c :: map hap_call hs) < N.of_nat 9.
Proof.
  assert (U1 : Utf8 id1) by (apply Utf8_iff; reflexivity).
  destruct (run (ix_do demo_env (counted Mem) demo_idp demo_iek 9 (IAdd tok_alice dog id1)) demo_counted) as [r1 w1] eqn:G1.
  destruct (run_n 5 (ix_do demo_env (counted Mem) demo_idp demo_iek 9 (IDelete tok_alice dog id1)) w1) as [q w2] eqn:G2.
  exists demo_counted. eexists. exists w2. split.
  { refine (ix_done demo_env (counted_view mem_view) demo_idp demo_iek 9 _ (counted Mem) (IAdd tok_alice dog id1) _ _ _ _ (counted_spec _ _ _ (mem_spec True)) G1 _).
    refine (ix_cut demo_env (counted_view mem_view) demo_idp demo_iek 9 _ (counted Mem) (IDelete tok_alice dog id1) _ _ _ _ _ (counted_spec _ _ _ (mem_spec True)) G2 _).
    apply ix_nil. }
  split; [reflexivity|]. split; [split; [exact Logic.I|intros id; apply lookup_empty]|]. split; [exact (demo_idp_reads _)|].
  split; [intros tok w0; cbn; lia|]. split; [apply (differ_incl _ _ _ _ _ demo_differ); [cbn [In hap_call iv_call map ix_keyword]; tauto|cbn; lia]|].
  cbn; lia.
Qed.
