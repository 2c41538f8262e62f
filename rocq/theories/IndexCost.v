(** How many storage operations an index call makes. *)
From Coq Require Import ZifyN ZifyNat.
From stdpp Require Import gmap.
From Verif Require Import Bytes Go Types World Logic Cryptor IoSpec IoProofs Id Data D1 D1Proofs Spec
  Index IndexSpec IndexProofs IndexRefine IndexHist.
Local Open Scope bool_scope.
Local Open Scope go_scope.
Local Open Scope N_scope.

(** A provider that also counts the operations started on it. *)
Section Counted.
  Context {S : Type}.
  Fixpoint on_fst {A} (p : prog S A) : prog (S * N) A :=
    match p with
    | Ret a => Ret a
    | Step f k => Step (fun s => let '(x, s') := f (fst s) in (x, (s', snd s))) (fun x => on_fst (k x))
    end.
  Definition counting {A} (p : prog S A) : prog (S * N) A := let* _ := act (fun s => (tt, (fst s, snd s + 1))) in on_fst p.
  Definition counted (io : provider S) : provider (S * N) :=
    mkProvider (fun id dt d => counting (io_put io id dt d)) (fun id dt => counting (io_get io id dt))
               (fun id dt d => counting (io_update io id dt d)) (fun id dt => counting (io_delete io id dt)).
  Definition counted_view (v : view S) : view (S * N) := mkView (fun s => v_inv v (fst s)) (fun s => v_map v (fst s)).

  Lemma wpc_on_fst {A} (p : prog S A) (Inv : S -> Prop) (Q : A -> S -> Prop) s : wpc p Inv Q (fst s) ->
    wpc (on_fst p) (fun s' => Inv (fst s')) (fun a s' => Q a (fst s')) s.
  Proof.
    revert s. induction p as [a|X f k IH]; intros s H; cbn [wpc on_fst] in *; [exact H|]. destruct H as [H1 H2]. split; [exact H1|].
    destruct (f (fst s)) as [x s']. cbn [fst snd] in *. apply IH. exact H2.
  Qed.
  Lemma counted_implements {A} (F : Prop) v (p : prog S (res A)) pure : implements F v p pure -> implements F (counted_view v) (counting p) pure.
  Proof.
    intros H s Hs. unfold counting. cbn [act bind wpc]. split; [split; [exact Hs|left; intros ? ?; reflexivity]|].
    cbn [fst snd]. exact (wpc_on_fst p _ _ (fst s, snd s + 1) (H (fst s) Hs)).
  Qed.
  Lemma counted_spec F v io : io_spec F v io -> io_spec F (counted_view v) (counted io).
  Proof. intros [H1 H2 H3 H4]. split; intros; cbn; apply counted_implements; auto. Qed.
  Lemma run_on_fst {A} (p : prog S A) s : snd (snd (run (on_fst p) s)) = snd s.
  Proof. revert s. induction p as [a|X f k IH]; intros s; [reflexivity|]. cbn. destruct (f (fst s)) as [x s']. rewrite IH. reflexivity. Qed.
End Counted.

Section Cost.
  Context {S I : Type} (e : env) (io : provider S).
  Notation W := (world (S * N) I).
  Definition ops (w : W) : N := snd (w_io w).
  Definition costs {A} (p : prog W A) (k : N) : Prop := forall w, ops (snd (run p w)) <= ops w + k.

  Lemma costs_ret {A} (a : A) : costs (Ret a) 0.
  Proof. intros w. cbn. lia. Qed.
  Lemma costs_mono {A} (p : prog W A) a b : costs p a -> a <= b -> costs p b.
  Proof. intros H Hab w. specialize (H w). lia. Qed.
  Lemma costs_bind {A B} (p : prog W A) (k : A -> prog W B) a b : costs p a -> (forall x, costs (k x) b) -> costs (bind p k) (a + b).
  Proof. intros H1 H2 w. rewrite run_bind. specialize (H1 w). destruct (run p w) as [x w1]. specialize (H2 x w1). cbn [snd] in *. lia. Qed.
  Lemma costs_bindR {A B} (p : prog W (res A)) (k : A -> prog W (res B)) a b : costs p a -> (forall x, costs (k x) b) -> costs (bindR p k) (a + b).
  Proof. intros H1 H2. unfold bindR. apply costs_bind; [exact H1|]. intros [x|x|]; [apply H2|eapply costs_mono; [apply costs_ret|lia]..]. Qed.
  Lemma costs_map_err {A} f (p : prog W (res A)) a : costs p a -> costs (map_err f p) a.
  Proof. intros H. unfold map_err. eapply costs_mono; [apply costs_bind; [exact H|intros; apply costs_ret]|lia]. Qed.
  Lemma run_on_io {A} (p : prog (S * N) A) (w : W) : w_io (snd (run (on_io p) w)) = snd (run p (w_io w)).
  Proof. revert w. induction p as [a|X f k IH]; intros w; [reflexivity|]. cbn. destruct (f (w_io w)) as [x s]. apply IH. Qed.
  Lemma costs_io {A} (p : prog S A) : costs (on_io (counting p)) 1.
  Proof. intros w. unfold ops. rewrite run_on_io. unfold counting. rewrite run_bind, run_act. cbn. rewrite run_on_fst. cbn. lia. Qed.
  Lemma costs_act0 {X} (f : W -> X * W) : (forall w, w_io (snd (f w)) = w_io w) -> costs (act f) 0.
  Proof. intros H w. rewrite run_act. unfold ops. rewrite H. lia. Qed.
  Lemma costs_enc kek pt aad : costs (aes_enc e kek pt aad : prog W _) 0.
  Proof.
    unfold aes_enc. change 0 with (0 + (0 + (0 + (0 + (0 + 0))))).
    apply costs_bindR; [apply costs_act0; reflexivity|]. intros. apply costs_bindR; [apply costs_act0; reflexivity|]. intros.
    apply costs_bindR; [apply costs_ret|]. intros. apply costs_bindR; [apply costs_ret|]. intros.
    apply costs_bind; [apply costs_act0; reflexivity|]. intros. apply costs_ret.
  Qed.
  Lemma costs_seal kek n l : costs (node_seal (aes_cryptor e kek) n l : prog W _) 0.
  Proof.
    unfold node_seal, encrypt_json. cbn [c_enc aes_cryptor]. change 0 with (0 + 0). apply costs_bindR; [apply costs_enc|]. intros [? ?]. apply costs_ret.
  Qed.
  Lemma costs_unseal kek sn l : costs (node_unseal (aes_cryptor e kek) sn l : prog W _) 0.
  Proof.
    unfold node_unseal, decrypt_json. cbn [c_dec aes_cryptor]. change 0 with (0 + 0).
    apply costs_bindR; [|intros; destruct (unmarshal _ _); apply costs_ret]. apply costs_act0. intros w. cbn [snd].
    destruct (is_ok _ && _); reflexivity.
  Qed.

  Context (tk kek : bytes).
  Lemma costs_next cur : costs (get_next_node e (counted io) tk kek cur) 1.
  Proof.
    unfold get_next_node, get_sealed_node. change 1 with (0 + (1 + 0)). apply costs_bindR; [apply costs_ret|]. intros label.
    apply costs_bindR; [|intros; apply costs_unseal]. change 1 with (1 + 0).
    apply costs_bindR; [apply costs_map_err, costs_io|]. intros b. destruct (unmarshal _ _); apply costs_ret.
  Qed.
  Lemma costs_put l sn u : costs (put_sealed_node (counted io) l sn u : prog W _) 1.
  Proof. unfold put_sealed_node. destruct u; apply costs_map_err, costs_io. Qed.
  Lemma costs_del l : costs (delete_sealed_node (counted io) l : prog W _) 1.
  Proof. apply costs_io. Qed.
  Lemma costs_last n : forall cur, costs (get_last_node e (counted io) tk kek n cur) (N.of_nat n).
  Proof.
    induction n as [|n IH]; intros cur; cbn [get_last_node]; [apply costs_ret|].
    apply costs_mono with (1 + N.of_nat n); [|lia]. apply costs_bind; [apply costs_next|].
    intros [nx|[]|]; try (eapply costs_mono; [apply costs_ret|lia]). apply IH.
  Qed.
  Lemma costs_search n : forall cur found, costs (search_loop e (counted io) tk kek n cur found) (N.of_nat n).
  Proof.
    induction n as [|n IH]; intros cur found; cbn [search_loop]; [apply costs_ret|].
    apply costs_mono with (1 + N.of_nat n); [|lia]. apply costs_bind; [apply costs_next|].
    intros [nx|[]|]; try (eapply costs_mono; [apply costs_ret|lia]). apply IH.
  Qed.
  Lemma costs_delete_node l n : costs (delete_node e (counted io) tk kek l n) 3.
  Proof.
    unfold delete_node. change 3 with (1 + 2). apply costs_bind; [apply costs_next|].
    intros [nx|[]|]; try (eapply costs_mono; [apply costs_ret|lia]); try (eapply costs_mono; [apply costs_del|lia]).
    change 2 with (0 + (1 + (0 + 1))). apply costs_bindR; [apply costs_seal|]. intros sn. apply costs_bindR; [apply costs_put|]. intros _.
    apply costs_bindR; [apply costs_ret|]. intros. apply costs_del.
  Qed.
  Lemma costs_delete n : forall cur x, costs (delete_loop e (counted io) tk kek n cur x) (4 * N.of_nat n).
  Proof.
    induction n as [|n IH]; intros cur x; cbn [delete_loop]; [apply costs_ret|].
    apply costs_mono with (1 + (3 + 4 * N.of_nat n)); [|lia]. apply costs_bind; [apply costs_next|].
    intros [nx|[]|]; try (eapply costs_mono; [apply costs_ret|lia]).
    destruct (bytes_eqb _ _); [|eapply costs_mono; [apply IH|lia]].
    change (3 + 4 * N.of_nat n) with (0 + (3 + 4 * N.of_nat n)). apply costs_bindR; [apply costs_ret|]. intros l.
    apply costs_bindR; [apply costs_delete_node|]. intros _. apply IH.
  Qed.
End Cost.

Section CallCost.
  Context {S I : Type} (e : env) (io : provider S).
  Notation W := (world (S * N) I).
  Context (idp : bytes -> prog W (res identity)) (iek : bytes) (a : N).
  Context (Ha : forall tok, costs (idp tok) a).
  Lemma costs_verify tok : costs (ix_verify idp tok) a.
  Proof.
    unfold ix_verify. rewrite <- (N.add_0_r a). apply costs_bind; [apply Ha|].
    intros [i|x|]; [destruct (scope_contains _ _)|..]; apply costs_ret.
  Qed.
  Lemma costs_call fuel c : costs (ix_do e (counted io) idp iek fuel c) (a + (4 * N.of_nat fuel + 1)).
  Proof.
    assert (RM : forall A (g : A -> ix_reply) (p : prog W (res A)) k, costs p k -> costs (ret_map g p) k).
    { intros A g p k H. unfold ret_map. eapply costs_mono; [apply costs_bind; [exact H|intros; apply costs_ret]|lia]. }
    destruct c as [tok kw y|tok kw|tok kw y]; cbn [ix_do]; apply RM; (apply costs_bindR; [apply costs_verify|]); intros _;
      change (4 * N.of_nat fuel + 1) with (0 + (4 * N.of_nat fuel + 1)); (apply costs_bindR; [apply costs_ret|]); intros [tk kek].
    - apply costs_mono with (N.of_nat fuel + (0 + (0 + 1))); [|lia]. apply costs_bindR; [apply costs_last|]. intros last.
      apply costs_bindR; [apply costs_ret|]. intros l. apply costs_bindR; [apply costs_seal|]. intros sn. apply costs_put.
    - eapply costs_mono; [apply costs_search|lia].
    - eapply costs_mono; [apply costs_delete|lia].
  Qed.
End CallCost.

(** More fuel makes no difference once it sufficed. *)
Section Fuel.
  Context {S I : Type} (e : env) (io : provider S).
  Notation W := (world S I).
  Context (idp : bytes -> prog W (res identity)) (iek : bytes).
  Section Loops.
    Context (tk kek : bytes).
    Lemma last_more n : forall n' cur (w : W), (n <= n')%nat -> fst (run (get_last_node e io tk kek n cur) w) <> Err EFuel ->
      run (get_last_node e io tk kek n' cur) w = run (get_last_node e io tk kek n cur) w.
    Proof.
      induction n as [|n IH]; intros n' cur w Hn H; [now cbn in H|]. destruct n' as [|n']; [lia|]. cbn [get_last_node] in *.
      rewrite run_bind in *. rewrite (run_bind _ _ w). destruct (run (get_next_node e io tk kek cur) w) as [[nx|[]|] w1]; try reflexivity.
      apply IH; [lia|exact H].
    Qed.
    Lemma search_more n : forall n' cur found (w : W), (n <= n')%nat -> fst (run (search_loop e io tk kek n cur found) w) <> Err EFuel ->
      run (search_loop e io tk kek n' cur found) w = run (search_loop e io tk kek n cur found) w.
    Proof.
      induction n as [|n IH]; intros n' cur found w Hn H; [now cbn in H|]. destruct n' as [|n']; [lia|]. cbn [search_loop] in *.
      rewrite run_bind in *. rewrite (run_bind _ _ w). destruct (run (get_next_node e io tk kek cur) w) as [[nx|[]|] w1]; try reflexivity.
      apply IH; [lia|exact H].
    Qed.
    Lemma delete_more n : forall n' cur x (w : W), (n <= n')%nat -> fst (run (delete_loop e io tk kek n cur x) w) <> Err EFuel ->
      run (delete_loop e io tk kek n' cur x) w = run (delete_loop e io tk kek n cur x) w.
    Proof.
      induction n as [|n IH]; intros n' cur x w Hn H; [now cbn in H|]. destruct n' as [|n']; [lia|]. cbn [delete_loop] in *.
      rewrite run_bind in *. rewrite (run_bind _ _ w). destruct (run (get_next_node e io tk kek cur) w) as [[nx|[]|] w1]; try reflexivity.
      destruct (bytes_eqb (n_id nx) x); [|apply IH; [lia|exact H]].
      rewrite run_bindR in *. rewrite (run_bindR (lift _)). rewrite run_lift in *. destruct (next_label tk cur) as [l|y|]; try reflexivity.
      rewrite run_bindR in *. rewrite (run_bindR (delete_node _ _ _ _ _ _)). destruct (run (delete_node e io tk kek l nx) w1) as [[u|y|] w2]; try reflexivity.
      apply IH; [lia|exact H].
    Qed.
  End Loops.
  Lemma call_more n n' c (w : W) : (n <= n')%nat -> fst (run (ix_do e io idp iek n c) w) <> Err EFuel ->
    run (ix_do e io idp iek n' c) w = run (ix_do e io idp iek n c) w.
  Proof.
    intros Hn.
    assert (RM : forall A (g : A -> ix_reply) (p p' : prog W (res A)), (fst (run p w) <> Err EFuel -> run p' w = run p w) ->
      fst (run (ret_map g p) w) <> Err EFuel -> run (ret_map g p') w = run (ret_map g p) w).
    { intros A g p p' H H'. unfold ret_map in *. rewrite !run_bind in *. rewrite H; [reflexivity|].
      intros E. apply H'. destruct (run p w) as [r w1]. cbn in E. subst r. reflexivity. }
    destruct c as [tok kw y|tok kw|tok kw y]; cbn [ix_do]; apply RM; unfold ix_add, ix_search, ix_delete; rewrite !run_bindR;
      destruct (run (ix_verify idp tok) w) as [[u|y'|] w1]; try reflexivity;
      rewrite !run_bindR, !run_lift; destruct (ix_keys iek kw) as [[tk kek]|y'|]; try reflexivity.
    - rewrite !run_bindR. intros H.
      assert (HL : fst (run (get_last_node e io tk kek n node_zero) w1) <> Err EFuel).
      { intros E. apply H. destruct (run (get_last_node e io tk kek n node_zero) w1) as [r w2]. cbn in E. subst r. reflexivity. }
      now rewrite (last_more tk kek n n' node_zero w1 Hn HL).
    - now apply search_more.
    - now apply delete_more.
  Qed.
End Fuel.
