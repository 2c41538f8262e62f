(** Proofs about slices: memory, and the calls of d1.go and io/ that use them. *)
From Coq Require Import ZifyN ZifyNat.
From stdpp Require Import gmap list.
From Verif Require Import Bytes Go Json Uuid World Types Logic Cryptor Id Data D1 Io IoHist Sched Slices SlicesSpec.
Local Open Scope bool_scope.
Local Open Scope nat_scope.
Local Ltac splits := repeat match goal with |- _ /\ _ => split end.

(** ** Memory *)
Section Mem.
  Context {A : Type}.
  Implicit Types (h : list (list A)) (s : slice) (xs l : list A).

  Lemma lookup_skip l i n : skipn i l !! n = l !! (i + n).
  Proof. change (drop i l !! n = l !! (i + n)). apply lookup_drop. Qed.
  Lemma firstn_len n l xs : length l = n -> firstn n (l ++ xs) = l.
  Proof. intros <-. rewrite firstn_app, Nat.sub_diag, firstn_all. apply app_nil_r. Qed.
  Lemma write_at_length l i xs : i + length xs <= length l -> length (write_at l i xs) = length l.
  Proof. intros H. unfold write_at. rewrite !app_length, firstn_length, skipn_length. lia. Qed.
  Lemma write_at_out l i xs j : i + length xs <= length l -> ~ (i <= j < i + length xs) -> write_at l i xs !! j = l !! j.
  Proof.
    intros H Hj. unfold write_at. destruct (decide (j < i)) as [L|L].
    - rewrite lookup_app_l by (rewrite firstn_length; lia). apply lookup_take. lia.
    - rewrite lookup_app_r by (rewrite firstn_length; lia). rewrite firstn_length_le by lia.
      rewrite lookup_app_r by lia. rewrite lookup_skip. f_equal. lia.
  Qed.
  Lemma write_at_take l i xs : i + length xs <= length l -> firstn (i + length xs) (write_at l i xs) = firstn i l ++ xs.
  Proof.
    intros H. unfold write_at. rewrite app_assoc. apply firstn_len. rewrite app_length, firstn_length. lia.
  Qed.

  Lemma cells_lookup h a l : h !! a = Some l -> cells h a = l.
  Proof. intros H. unfold cells. now rewrite H. Qed.
  Lemma cells_app h x a : a < length h -> cells (h ++ x) a = cells h a.
  Proof. intros H. unfold cells. now rewrite lookup_app_l. Qed.
  Lemma cells_new h l : cells (h ++ [l]) (length h) = l.
  Proof. unfold cells. now rewrite list_lookup_middle. Qed.
  Lemma cells_write h s i xs : sl_arr s < length h -> cells (sl_write h s i xs) (sl_arr s) = write_at (cells h (sl_arr s)) (sl_off s + i) xs.
  Proof.
    intros H. unfold cells, sl_write. rewrite list_lookup_alter. apply lookup_lt_is_Some in H as [l ->]. reflexivity.
  Qed.
  Lemma cells_write_ne h s i xs a : a <> sl_arr s -> cells (sl_write h s i xs) a = cells h a.
  Proof. intros H. unfold cells, sl_write. now rewrite list_lookup_alter_ne by auto. Qed.
  Lemma sl_write_length h s i xs : length (sl_write h s i xs) = length h.
  Proof. apply alter_length. Qed.
  Lemma ok_arr h s : sl_ok h s -> 0 < sl_cap s -> sl_arr s < length h.
  Proof.
    intros [_ H] Hc. unfold cells in H. destruct (h !! sl_arr s) eqn:E; [eapply lookup_lt_Some; eauto|]. cbn in H. lia.
  Qed.
  Lemma contents_length h s : sl_ok h s -> length (contents h s) = sl_len s.
  Proof. intros [H1 H2]. unfold contents. rewrite firstn_length, skipn_length. lia. Qed.
  Lemma contents_lookup h s i : i < sl_len s -> contents h s !! i = cells h (sl_arr s) !! (sl_off s + i).
  Proof. intros H. unfold contents. change (take (sl_len s) (drop (sl_off s) (cells h (sl_arr s))) !! i = cells h (sl_arr s) !! (sl_off s + i)). now rewrite lookup_take, lookup_drop by lia. Qed.
  Lemma contents_ext h h' s : sl_ok h s -> sl_ok h' s -> (forall i, i < sl_len s -> cells h' (sl_arr s) !! (sl_off s + i) = cells h (sl_arr s) !! (sl_off s + i)) ->
    contents h' s = contents h s.
  Proof.
    intros H H' E. apply list_eq. intros i. destruct (decide (i < sl_len s)).
    - rewrite !contents_lookup by auto. auto.
    - rewrite !lookup_ge_None_2; [reflexivity|rewrite contents_length; auto; lia..].
  Qed.
  Lemma contents_cells h h' s : cells h' (sl_arr s) = cells h (sl_arr s) -> contents h' s = contents h s.
  Proof. intros H. unfold contents. now rewrite H. Qed.

  Lemma make_contents h xs spare s h' : sl_make h xs spare = (s, h') -> contents h' s = xs /\ sl_ok h' s /\ sl_arr s = length h.
  Proof.
    unfold sl_make. intros [= <- <-]. unfold contents, sl_ok. cbn [sl_arr sl_off sl_len sl_cap]. rewrite cells_new, app_length. cbn [skipn].
    split; [|lia]. now apply firstn_len.
  Qed.
  Lemma append_contents spare h s xs s' h' : sl_ok h s -> sl_append spare h s xs = (s', h') ->
    contents h' s' = contents h s ++ xs /\ sl_ok h' s'.
  Proof.
    intros Hs. unfold sl_append. destruct (Nat.leb_spec (sl_len s + length xs) (sl_cap s)) as [L|L].
    - intros [= <- <-]. pose proof Hs as [H1 H2]. destruct xs as [|x xs].
      + assert (E : sl_write h s (sl_len s) [] = h).
        { unfold sl_write. apply list_eq. intros a. destruct (decide (a = sl_arr s)) as [->|N]; [|now rewrite list_lookup_alter_ne by auto].
          rewrite list_lookup_alter. destruct (h !! sl_arr s); [|reflexivity]. cbn. f_equal. unfold write_at. cbn [length app].
          rewrite Nat.add_0_r. apply firstn_skipn. }
        rewrite E. unfold contents, sl_ok. cbn [sl_arr sl_off sl_len sl_cap length]. rewrite Nat.add_0_r, app_nil_r. auto.
      + assert (La : sl_arr s < length h) by (apply ok_arr; [exact Hs|cbn in L; lia]).
        unfold contents, sl_ok. cbn [sl_arr sl_off sl_len sl_cap]. rewrite cells_write by exact La.
        rewrite write_at_length by lia. split; [|lia].
        unfold write_at. remember (x :: xs) as ys. remember (cells h (sl_arr s)) as l.
        rewrite skipn_app, firstn_length_le by lia.
        replace (sl_off s - (sl_off s + sl_len s)) with 0 by lia. rewrite drop_0, app_assoc.
        rewrite skipn_firstn_comm. replace (sl_off s + sl_len s - sl_off s) with (sl_len s) by lia.
        apply firstn_len. rewrite app_length, firstn_length, skipn_length. lia.
    - intros E. apply make_contents in E as (E1 & E2 & _). auto.
  Qed.
End Mem.

Section Changes.
  Context {A : Type}.
  Implicit Types (h : list (list A)) (s : slice) (xs l : list A) (P Q : nat -> nat -> Prop).

  Lemma oc_refl P h : only_changed P h h.
  Proof. split; auto. Qed.
  Lemma oc_trans P h1 h2 h3 : only_changed P h1 h2 -> only_changed P h2 h3 -> only_changed P h1 h3.
  Proof.
    intros [L1 H1] [L2 H2]. split; [lia|]. intros a Ha. destruct (H1 a Ha) as [E1 F1]. destruct (H2 a ltac:(lia)) as [E2 F2].
    split; [congruence|]. intros i Hi. rewrite F2, F1 by auto. reflexivity.
  Qed.
  Lemma oc_weaken P Q h h' : only_changed P h h' -> (forall a i, a < length h -> P a i -> Q a i) -> only_changed Q h h'.
  Proof. intros [L H] W. split; [exact L|]. intros a Ha. destruct (H a Ha) as [E F]. split; [exact E|]. intros i Hi. apply F. eauto. Qed.
  Lemma oc_then P Q h1 h2 h3 : only_changed P h1 h2 -> only_changed Q h2 h3 -> (forall a i, a < length h1 -> Q a i -> P a i) -> only_changed P h1 h3.
  Proof.
    intros [L1 H1] [L2 H2] HQ. split; [lia|]. intros a Ha. destruct (H1 a Ha) as [E1 F1]. destruct (H2 a ltac:(lia)) as [E2 F2].
    split; [congruence|]. intros i Hi. rewrite F2, F1; eauto.
  Qed.
  Lemma oc_ext P h x : only_changed P h (h ++ x).
  Proof. split; [rewrite app_length; lia|]. intros a Ha. rewrite cells_app by exact Ha. auto. Qed.
  Lemma oc_make P h xs spare s h' : sl_make h xs spare = (s, h') -> only_changed P h h'.
  Proof. unfold sl_make. intros [= <- <-]. apply oc_ext. Qed.
  Lemma oc_write h s i xs : sl_off s + i + length xs <= length (cells h (sl_arr s)) ->
    only_changed (fun a j => a = sl_arr s /\ sl_off s + i <= j < sl_off s + i + length xs) h (sl_write h s i xs).
  Proof.
    intros H. split; [rewrite sl_write_length; lia|]. intros a Ha. destruct (decide (a = sl_arr s)) as [->|N].
    - rewrite cells_write, write_at_length by auto. split; [reflexivity|]. intros j Hj. apply write_at_out; [exact H|]. intros C. apply Hj. auto.
    - rewrite cells_write_ne by exact N. auto.
  Qed.
  Lemma oc_append spare h s xs s' h' : sl_ok h s -> sl_append spare h s xs = (s', h') ->
    only_changed (fun a i => a = sl_arr s /\ sl_off s + sl_len s <= i < sl_off s + sl_len s + length xs /\ sl_len s + length xs <= sl_cap s) h h'.
  Proof.
    intros [H1 H2]. unfold sl_append. destruct (Nat.leb_spec (sl_len s + length xs) (sl_cap s)) as [L|L].
    - intros [= <- <-]. eapply oc_weaken; [apply oc_write; lia|]. cbn beta. tauto.
    - apply oc_make.
  Qed.
  Lemma oc_ok P h h' s : only_changed P h h' -> sl_ok h s -> sl_ok h' s.
  Proof.
    intros [L H] [H1 H2]. split; [exact H1|]. destruct (decide (sl_arr s < length h)) as [La|La].
    - destruct (H _ La) as [-> _]. exact H2.
    - unfold cells in H2 at 1. rewrite lookup_ge_None_2 in H2 by lia. cbn in H2. lia.
  Qed.
  Lemma oc_contents P h h' s : only_changed P h h' -> sl_ok h s -> (forall i, i < sl_len s -> ~ P (sl_arr s) (sl_off s + i)) ->
    contents h' s = contents h s.
  Proof.
    intros H Hs HP. apply contents_ext; [exact Hs|eapply oc_ok; eauto|]. intros i Hi. destruct H as [L H].
    apply H; [|auto]. apply ok_arr; [exact Hs|]. destruct Hs. lia.
  Qed.
End Changes.

(** ** Runs *)
Section Runs.
  Context {H W : Type}.
  Lemma run_on_fst {A} (p : prog H A) h (w : W) : run (on_fst p) (h, w) = (fst (run p h), (snd (run p h), w)).
  Proof. revert h. induction p as [a|X f k IH]; intros h; cbn [on_fst run fst snd]; [reflexivity|]. destruct (f h) as [x h1]. apply IH. Qed.
  Lemma run_on_snd {A} (p : prog W A) (h : H) w : run (on_snd p) (h, w) = (fst (run p w), (h, snd (run p w))).
  Proof. revert w. induction p as [a|X f k IH]; intros w; cbn [on_snd run fst snd]; [reflexivity|]. destruct (f w) as [x w1]. apply IH. Qed.
End Runs.
Lemma run_read_from {A} (s : slice) (h : list (list A)) n : forall i acc,
  sl_off s + i + n <= length (cells h (sl_arr s)) ->
  run (read_from s i n acc) h = (Ok (acc ++ firstn n (skipn (sl_off s + i) (cells h (sl_arr s)))), h).
Proof.
  induction n as [|n IH]; intros i acc Hl; cbn [read_from run]; [now rewrite app_nil_r|].
  destruct (cells h (sl_arr s) !! (sl_off s + i)) as [x|] eqn:E.
  - rewrite IH by lia. f_equal. f_equal. rewrite <- app_assoc. f_equal.
    replace (sl_off s + S i) with (S (sl_off s + i)) by lia. rewrite (drop_S _ x (sl_off s + i)) by exact E. reflexivity.
  - apply lookup_ge_None_1 in E. lia.
Qed.
Lemma run_read_all {A} (s : slice) (h : list (list A)) : sl_ok h s -> run (read_all s) h = (Ok (contents h s), h).
Proof. intros [H1 H2]. unfold read_all. rewrite run_read_from by lia. unfold contents. now rewrite Nat.add_0_r. Qed.

Section D1.
  Context {S I : Type} (e : env) (io : provider S) (idp : bytes -> prog (world S I) (res identity)).
  Context (oc ac tc : cryptor (world S I)) (room : nat -> list bytes).
  Notation W := (world S I).
  Notation do_s := (d1_do_s e io idp oc ac tc room).
  Notation do := (d1_do e io idp oc ac tc).

  (** One call, alone. *)
  Lemma encrypt_alone tok obj s h (w : W) r h' w' : sl_ok h s -> run (d1_encrypt_s e io idp oc ac room tok obj s) (h, w) = (r, (h', w')) ->
    run (d1_encrypt e io idp oc ac tok obj (contents h s)) w = (r, w') /\
    only_changed (fun a i => a = sl_arr s /\ i = sl_off s + sl_len s /\ sl_len s < sl_cap s) h h'.
  Proof.
    intros Hs. unfold d1_encrypt_s, d1_encrypt, bindR. rewrite !run_bind, run_on_snd.
    destruct (run (verify_access idp tok ScopeEncrypt) w) as [[i|x|] w1]; cbn [fst snd run];
      [|intros [= <- <- <-]; split; [reflexivity|apply oc_refl]..].
    rewrite !run_bind, run_on_snd. destruct (run (new_v4 e) w1) as [[oid|x|] w2]; cbn [fst snd run];
      [|intros [= <- <- <-]; split; [reflexivity|apply oc_refl]..].
    rewrite !run_bind, run_on_snd. destruct (run (object_seal oc obj oid) w2) as [[[dek so]|x|] w3]; cbn [fst snd run];
      [|intros [= <- <- <-]; split; [reflexivity|apply oc_refl]..].
    rewrite !run_bind, run_on_fst. unfold act. cbn [run].
    destruct (sl_append (room (sl_len s + 1)) h s [i_id i]) as [ids h1] eqn:Ea. cbn [fst snd].
    destruct (append_contents _ _ _ _ _ _ Hs Ea) as [Ec Hi]. pose proof (oc_append _ _ _ _ _ _ Hs Ea) as Ho.
    rewrite !run_bind, run_on_fst, run_read_all by exact Hi. cbn [fst snd]. rewrite Ec. unfold lift. rewrite !run_bind. cbn [run].
    assert (Ho' : only_changed (fun a j => a = sl_arr s /\ j = sl_off s + sl_len s /\ sl_len s < sl_cap s) h h1).
    { eapply oc_weaken; [exact Ho|]. cbn. intros a j _ H. lia. }
    destruct (add_groups _ _) as [gs|x|]; cbn [run]; [|intros [= <- <- <-]; auto..].
    rewrite run_on_snd. intros [= <- <- <-]. split; [|exact Ho']. now rewrite <- surjective_pairing.
  Qed.
  Lemma add_groups_alone tok oid s h (w : W) : sl_ok h s ->
    run (d1_add_groups_s io idp ac tok oid s) (h, w) =
      (fst (run (d1_add_groups io idp ac tok oid (contents h s)) w), (h, snd (run (d1_add_groups io idp ac tok oid (contents h s)) w))).
  Proof.
    intros Hs. unfold d1_add_groups_s, d1_add_groups, bindR. rewrite !run_bind, run_on_snd.
    destruct (run (verify_access idp tok _) w) as [[i|x|] w1]; cbn [fst snd run]; [|reflexivity..].
    rewrite !run_bind, run_on_snd. destruct (run (get_sealed_access io oid) w1) as [[sa|x|] w2]; cbn [fst snd run]; [|reflexivity..].
    rewrite !run_bind, run_on_snd. destruct (run (authorize_access ac i _ sa) w2) as [[a|x|] w3]; cbn [fst snd run]; [|reflexivity..].
    rewrite !run_bind, run_on_fst, run_read_all by exact Hs. cbn [fst snd]. unfold lift. rewrite !run_bind. cbn [run].
    destruct (add_groups _ _) as [gs|x|]; cbn [run fst snd]; [|reflexivity..]. apply run_on_snd.
  Qed.
  Lemma remove_groups_alone tok oid s h (w : W) : sl_ok h s ->
    run (d1_remove_groups_s io idp ac tok oid s) (h, w) =
      (fst (run (d1_remove_groups io idp ac tok oid (contents h s)) w), (h, snd (run (d1_remove_groups io idp ac tok oid (contents h s)) w))).
  Proof.
    intros Hs. unfold d1_remove_groups_s, d1_remove_groups, bindR. rewrite !run_bind, run_on_snd.
    destruct (run (verify_access idp tok _) w) as [[i|x|] w1]; cbn [fst snd run]; [|reflexivity..].
    rewrite !run_bind, run_on_snd. destruct (run (get_sealed_access io oid) w1) as [[sa|x|] w2]; cbn [fst snd run]; [|reflexivity..].
    rewrite !run_bind, run_on_snd. destruct (run (authorize_access ac i _ sa) w2) as [[a|x|] w3]; cbn [fst snd run]; [|reflexivity..].
    rewrite !run_bind, run_on_fst, run_read_all by exact Hs. cbn [fst snd]. rewrite run_on_snd, run_bind. reflexivity.
  Qed.
  Lemma call_alone c h (w : W) r h' w' : (forall s, call_slice c = Some s -> sl_ok h s) -> run (do_s c) (h, w) = (r, (h', w')) ->
    run (do (call_on h c)) w = (r, w') /\
    only_changed (fun a i => match c with
                             | SEncrypt _ _ s => a = sl_arr s /\ i = sl_off s + sl_len s /\ sl_len s < sl_cap s
                             | _ => False end) h h'.
  Proof.
    intros Hs. destruct c as [tok obj s|tok oid s|tok oid s|c]; cbn [d1_do_s call_on d1_do call_slice] in *; unfold ret_map; rewrite ?run_bind.
    - specialize (Hs s eq_refl). destruct (run (d1_encrypt_s _ _ _ _ _ _ _ _ _) (h, w)) as [r0 [h0 w0]] eqn:E. cbn [run]. intros [= <- <- <-].
      destruct (encrypt_alone _ _ _ _ _ _ _ _ Hs E) as [-> Ho]. auto.
    - rewrite (add_groups_alone _ _ _ _ _ (Hs s eq_refl)). cbn [run fst snd]. intros [= <- <- <-]. destruct (run (d1_add_groups _ _ _ _ _ _) w).
      split; [reflexivity|apply oc_refl].
    - rewrite (remove_groups_alone _ _ _ _ _ (Hs s eq_refl)). cbn [run fst snd]. intros [= <- <- <-]. destruct (run (d1_remove_groups _ _ _ _ _ _) w).
      split; [reflexivity|apply oc_refl].
    - rewrite run_on_snd. intros [= <- <- <-]. split; [now rewrite <- surjective_pairing|apply oc_refl].
  Qed.
End D1.

(** ** Many calls at once.  A program [p] on shared memory does the same to the world as [q], as long as
    nobody else writes to the arrays [O] it may write to and the arrays [F] it reads. *)
Section Conc.
  Context {S I T : Type}.
  Notation W := (world S I).
  Notation H := (list (list T)).

  Definition rely (O F : nat -> Prop) (h h' : H) : Prop :=
    length h <= length h' /\ forall a, a < length h -> O a \/ F a -> cells h' a = cells h a.
  Definition grant (O : nat -> Prop) (h h' : H) : Prop :=
    length h <= length h' /\ forall a, a < length h -> ~ O a -> cells h' a = cells h a.
  Definition more (O : nat -> Prop) (h h' : H) : nat -> Prop := fun a => O a \/ length h <= a < length h'.
  Definition fstep {X} (g : H -> X * H) : H * W -> X * (H * W) := fun hw => let '(x, h) := g (fst hw) in (x, (h, snd hw)).
  Definition wstep {X} (f : W -> X * W) : H * W -> X * (H * W) := fun hw => let '(x, w) := f (snd hw) in (x, (fst hw, w)).

  Fixpoint sim {A} (F O : nat -> Prop) (h : H) (p : prog (H * W) A) : prog W A -> Prop :=
    match p with
    | Ret a => fun q => q = Ret a
    | Step f k => fun q =>
        (exists f0 k', q = Step f0 k' /\ (forall hw, f hw = wstep f0 hw) /\ forall x h', rely O F h h' -> sim F O h' (k x) (k' x)) \/
        (exists g, (forall hw, f hw = fstep g hw) /\ (forall h', rely O F h h' -> grant O h' (snd (g h'))) /\
                   forall h', rely O F h h' -> sim F (more O h' (snd (g h'))) (snd (g h')) (k (fst (g h'))) q)
    end.
  Lemma sim_ret {A} F O h (a : A) : sim F O h (Ret a) (Ret a).
  Proof. reflexivity. Qed.
  Lemma sim_w {A} F O h X (f : W -> X * W) (k : X -> prog (H * W) A) k' :
    (forall x h', rely O F h h' -> sim F O h' (k x) (k' x)) -> sim F O h (Step (wstep f) k) (Step f k').
  Proof. intros Hk. left. exists f, k'. auto. Qed.
  Lemma sim_h {A} F O h X (g : H -> X * H) (k : X -> prog (H * W) A) q :
    (forall h', rely O F h h' -> grant O h' (snd (g h'))) ->
    (forall h', rely O F h h' -> sim F (more O h' (snd (g h'))) (snd (g h')) (k (fst (g h'))) q) ->
    sim F O h (Step (fstep g) k) q.
  Proof. intros Hg Hk. right. exists g. auto. Qed.

  Lemma rely_refl O F h : rely O F h h.
  Proof. split; auto. Qed.
  Lemma rely_trans O F h1 h2 h3 : rely O F h1 h2 -> rely O F h2 h3 -> rely O F h1 h3.
  Proof. intros [L1 H1] [L2 H2]. split; [lia|]. intros a Ha Ho. rewrite H2, H1 by (auto; lia). reflexivity. Qed.
  Lemma sim_rely {A} F O h (p : prog (H * W) A) q h' : sim F O h p q -> rely O F h h' -> sim F O h' p q.
  Proof.
    destruct p as [a|X f k]; [auto|]. intros [(f0 & k' & -> & Ef & Hk)|(g & Ef & Hg & Hk)] R; [left; exists f0, k'|right; exists g]; splits; auto.
    - intros x h2 R2. apply Hk. eapply rely_trans; eauto.
    - intros h2 R2. apply Hg. eapply rely_trans; eauto.
    - intros h2 R2. apply Hk. eapply rely_trans; eauto.
  Qed.
  Lemma sim_grow {A} F (p : prog (H * W) A) : forall q O h (O' : nat -> Prop), sim F O h p q -> (forall a, O a -> O' a) -> sim F O' h p q.
  Proof.
    induction p as [a|X f k IH]; intros q O h O' Hs HO; [exact Hs|].
    assert (E : forall h', rely O' F h h' -> rely O F h h').
    { intros h' [L R]. split; [exact L|]. intros a Ha [C|C]; apply R; auto. }
    destruct Hs as [(f0 & k' & -> & Ef & Hk)|(g & Ef & Hg & Hk)]; [left; exists f0, k'|right; exists g]; splits; auto.
    - intros x h2 R2. eapply IH; eauto.
    - intros h' R. destruct (Hg h' (E h' R)) as [L G]. split; [exact L|]. intros a Ha N. apply G; auto.
    - intros h' R. eapply IH; [apply Hk, E, R|]. intros a [C|C]; [left; auto|right; exact C].
  Qed.
  Lemma sim_ret_map {A B} F (p : prog (H * W) A) (f : A -> B) : forall q O h, sim F O h p q ->
    sim F O h (bind p (fun a => Ret (f a))) (bind q (fun a => Ret (f a))).
  Proof.
    induction p as [a|X g k IH]; intros q O h; cbn [sim bind]; [intros ->; reflexivity|].
    intros [(f0 & k' & -> & Ef & Hk)|(g0 & Ef & Hg & Hk)]; [left; eexists f0, _|right; exists g0]; splits; try reflexivity; auto.
    intros x h' R. apply IH. auto.
  Qed.
  Lemma sim_on_snd {A} F O (p : prog W A) : forall h, sim F O h (on_snd p) p.
  Proof. induction p as [a|X f k IH]; intros h; cbn [on_snd]; [constructor|]. apply sim_w. intros x h' _. apply IH. Qed.
  Lemma sim_bind_snd {A B} F O (p : prog W A) (k : A -> prog (H * W) B) k' : forall h,
    (forall a h', rely O F h h' -> sim F O h' (k a) (k' a)) -> sim F O h (bind (on_snd p) k) (bind p k').
  Proof.
    induction p as [a|X f c IH]; intros h Hk; cbn [on_snd bind]; [apply Hk, rely_refl|].
    apply sim_w. intros x h' R. apply IH. intros a h2 R2. apply Hk. eapply rely_trans; eauto.
  Qed.
  Lemma sim_bindR_snd {A B} F O (p : prog W (res A)) (k : A -> prog (H * W) (res B)) k' : forall h,
    (forall a h', rely O F h h' -> sim F O h' (k a) (k' a)) -> sim F O h (bindR (on_snd p) k) (bindR p k').
  Proof. intros h Hk. unfold bindR. apply sim_bind_snd. intros [a|x|] h' R; [now apply Hk|constructor..]. Qed.
  Lemma grant_refl O h : grant O h h.
  Proof. split; auto. Qed.
  Lemma sim_read_from {B} F (s : slice) (k : res (list T) -> prog (H * W) B) q n : forall i acc O h,
    sl_arr s < length h -> O (sl_arr s) \/ F (sl_arr s) -> sl_off s + i + n <= length (cells h (sl_arr s)) ->
    (forall h' (O' : nat -> Prop), (forall a, O a -> O' a) -> rely O F h h' -> sim F O' h' (k (Ok (acc ++ firstn n (skipn (sl_off s + i) (cells h (sl_arr s)))))) q) ->
    sim F O h (bind (on_fst (read_from s i n acc)) k) q.
  Proof.
    induction n as [|n IH]; intros i acc O h La HO Hl Hk; cbn [read_from on_fst bind].
    - rewrite firstn_O, app_nil_r in Hk. apply Hk; [auto|apply rely_refl].
    - apply (sim_h F O h _ (fun h : H => (cells h (sl_arr s) !! (sl_off s + i), h))); intros h' R; cbn [fst snd]; [apply grant_refl|].
      destruct R as [L R]. assert (Ec : cells h' (sl_arr s) = cells h (sl_arr s)) by (apply R; auto). rewrite Ec.
      destruct (cells h (sl_arr s) !! (sl_off s + i)) as [x|] eqn:E; [|apply lookup_ge_None_1 in E; lia].
      apply IH; [lia|destruct HO; [left; left; assumption|right; assumption]|rewrite Ec; lia|]. intros h2 O2 HO2 [L2 R2].
      rewrite Ec. replace (sl_off s + Datatypes.S i) with (Datatypes.S (sl_off s + i)) by lia. rewrite <- app_assoc. cbn [app].
      rewrite (drop_S _ x (sl_off s + i)) in Hk by exact E. apply Hk; [intros a Ha; apply HO2; left; exact Ha|].
      split; [lia|]. intros a Ha Hf. rewrite R2, R; auto; [lia|]. destruct Hf; [left; left; assumption|right; assumption].
  Qed.
  Lemma sim_read {B} F O h (s : slice) (k : list T -> prog (H * W) (res B)) q : sl_ok h s ->
    (0 < sl_len s -> O (sl_arr s) \/ F (sl_arr s)) ->
    (forall h' (O' : nat -> Prop), (forall a, O a -> O' a) -> rely O F h h' -> sim F O' h' (k (contents h s)) q) ->
    sim F O h (bindR (on_fst (read_all s)) k) q.
  Proof.
    intros Hs HO Hk. unfold bindR, read_all. destruct (sl_len s) as [|n] eqn:El.
    - cbn [read_from on_fst bind]. replace [] with (contents h s) by (unfold contents; now rewrite El). apply Hk; [auto|apply rely_refl].
    - assert (La : sl_arr s < length h) by (apply ok_arr; [exact Hs|destruct Hs; lia]). rewrite <- El. pose proof Hs as [H1 H2].
      apply sim_read_from; [exact La|apply HO; lia|lia|]. intros h' O' HO' R. cbn [app]. rewrite Nat.add_0_r. now apply Hk.
  Qed.

  Lemma rely_slice O F (h h' : H) s : rely O F h h' -> sl_ok h s -> (sl_arr s < length h -> O (sl_arr s) \/ F (sl_arr s)) ->
    contents h' s = contents h s /\ sl_ok h' s.
  Proof.
    intros [L R] [H1 H2] HO. destruct (decide (sl_arr s < length h)) as [La|La].
    - pose proof (R _ La (HO La)) as E. split; [now apply contents_cells|]. split; [exact H1|]. rewrite E. exact H2.
    - assert (E : cells h (sl_arr s) = []) by (unfold cells; now rewrite lookup_ge_None_2 by lia). rewrite E in H2. cbn in H2.
      assert (Z : sl_len s = 0) by lia. split; [unfold contents; now rewrite Z|]. split; lia.
  Qed.
  Lemma sim_act {B X} F O h (g : H -> X * H) (k : X -> prog (H * W) B) q :
    (forall h', rely O F h h' -> grant O h' (snd (g h')) /\ sim F (more O h' (snd (g h'))) (snd (g h')) (k (fst (g h'))) q) ->
    sim F O h (bind (on_fst (act g)) k) q.
  Proof. intros Hk. apply (sim_h F O h _ g k); intros h' R; apply (Hk h' R). Qed.
  Lemma sim_act2 {B C X} F O h (g : H -> X * H) (k1 : X -> prog (H * W) C) (k2 : C -> prog (H * W) B) q :
    (forall h', rely O F h h' -> grant O h' (snd (g h')) /\ sim F (more O h' (snd (g h'))) (snd (g h')) (bind (k1 (fst (g h'))) k2) q) ->
    sim F O h (bind (bind (on_fst (act g)) k1) k2) q.
  Proof. intros Hk. apply (sim_h F O h _ g (fun x => bind (k1 x) k2)); intros h' R; apply (Hk h' R). Qed.
  Lemma grant_ext O h x : grant O h (h ++ x).
  Proof. split; [rewrite app_length; lia|]. intros a La _. now apply cells_app. Qed.

  (** Pools. *)
  Context {A : Type}.
  (** [Q] are arrays of the memory [h0] at the beginning that nobody owns. *)
  Definition pool_inv (h0 : H) (Q : nat -> Prop) (h : H) (pool : list (prog (H * W) A)) (pool2 : list (prog W A)) : Prop :=
    length pool = length pool2 /\ length h0 <= length h /\ exists (O F : nat -> nat -> Prop),
      (forall a, a < length h0 -> Q a -> cells h a = cells h0 a /\ forall t, t < length pool -> ~ O t a) /\
      (forall t p q, pool !! t = Some p -> pool2 !! t = Some q -> sim (F t) (O t) h p q) /\
      (forall t u a, t <> u -> t < length pool -> u < length pool -> O t a -> O u a \/ F u a -> False) /\
      (forall t a, t < length pool -> O t a \/ F t a -> a < length h).
  Lemma exec_sim K pool hw pool' hw' : exec_s K pool hw pool' hw' -> forall h0 Q pool2, pool_inv h0 Q (fst hw) pool pool2 ->
    exists pool2', exec K pool2 (snd hw) pool2' (snd hw') /\ pool_inv h0 Q (fst hw') pool' pool2'.
  Proof.
    intros Hx. induction Hx as [pool hw|t X f k pool hw pool' hw' Ht Hx IH|pool h new w w1 pool' hw' Ha Hx IH]; intros h0 Q pool2 HI.
    - exists pool2. split; [constructor|exact HI].
    - destruct HI as (Hl & L0 & O & F & HQ & Hs & Hd & Hb). assert (Lt : t < length pool) by (eapply lookup_lt_Some; eauto).
      destruct (lookup_lt_is_Some_2 pool2 t ltac:(lia)) as [q Hq]. pose proof (Hs _ _ _ Ht Hq) as Hst. destruct hw as [h w]. cbn [fst snd] in Hs, Hb, Hst, L0, HQ.
      cbn [sim] in Hst. destruct Hst as [(f0 & k' & -> & Ef & Hk)|(g & Ef & Hg & Hk)].
      + (* a step on the world *)
        rewrite Ef in IH, Hx. unfold wstep in IH, Hx. cbn [fst snd] in IH, Hx. destruct (f0 w) as [x w1] eqn:E0. cbn [fst snd] in IH, Hx |- *.
        destruct (IH h0 Q (<[t := k' x]> pool2)) as (pool2' & E & HI').
        * split; [now rewrite !insert_length|]. split; [exact L0|]. exists O, F. rewrite insert_length. splits; auto. intros u p q Hp Hq'.
          destruct (decide (t = u)) as [<-|N].
          -- rewrite list_lookup_insert in Hp by lia. rewrite list_lookup_insert in Hq' by lia. injection Hp as <-. injection Hq' as <-. apply Hk, rely_refl.
          -- rewrite list_lookup_insert_ne in Hp by auto. rewrite list_lookup_insert_ne in Hq' by auto. eauto.
        * exists pool2'. split; [|exact HI']. eapply x_step; [exact Hq|]. rewrite E0. exact E.
      + (* a step on memory *)
        rewrite Ef in IH, Hx. unfold fstep in IH, Hx. cbn [fst snd] in IH, Hx.
        specialize (Hg h (rely_refl _ _ _)). specialize (Hk h (rely_refl _ _ _)).
        destruct (g h) as [x h1] eqn:E0. cbn [fst snd] in IH, Hx, Hg, Hk |- *. destruct Hg as [Lh Hg].
        apply IH. split; [now rewrite insert_length|]. split; [lia|].
        exists (fun u => if decide (u = t) then more (O t) h h1 else O u), F. rewrite insert_length. splits.
        * intros a La Ha. destruct (HQ a La Ha) as [Hc Hn]. split; [rewrite <- Hc; apply Hg; [lia|auto]|].
          intros u Hu. destruct (decide (u = t)) as [->|N]; [|auto]. intros [C|C]; [exact (Hn t Hu C)|lia].
        * intros u p q' Hp Hq'. destruct (decide (u = t)) as [->|N].
          -- rewrite list_lookup_insert in Hp by lia. injection Hp as <-. rewrite Hq in Hq'. injection Hq' as <-. exact Hk.
          -- rewrite list_lookup_insert_ne in Hp by auto. eapply sim_rely; [eauto|]. split; [exact Lh|]. intros a Ha Hf. apply Hg; [exact Ha|].
             intros C. eapply (Hd t u a); eauto. apply lookup_lt_Some in Hp. exact Hp.
        * intros u v a N Hu Hv. destruct (decide (u = t)) as [->|Nu], (decide (v = t)) as [->|Nv]; [congruence|..|exact (Hd u v a N Hu Hv)].
          -- intros [C|C] D; [eapply (Hd t v a); eauto|]. pose proof (Hb v a Hv D). lia.
          -- intros C [[D|D]|D]; [eapply (Hd u t a); eauto| |eapply (Hd u t a); eauto]. pose proof (Hb u a Hu (or_introl C)). lia.
        * intros u a Hu. destruct (decide (u = t)) as [->|Nu]; intros Hf.
          -- destruct Hf as [[C|C]|C]; [pose proof (Hb t a Hu (or_introl C)); lia|lia|pose proof (Hb t a Hu (or_intror C)); lia].
          -- pose proof (Hb u a Hu Hf). lia.
    - destruct HI as (Hl & L0 & O & F & HQ & Hs & Hd & Hb). cbn [fst snd] in *.
      destruct (IH h0 Q pool2) as (pool2' & E & HI').
      + split; [exact Hl|]. split; [rewrite app_length; lia|]. exists O, F. splits; auto.
        * intros a La Ha'. destruct (HQ a La Ha') as [Hc Hn]. split; [|exact Hn]. rewrite <- Hc. apply cells_app. lia.
        * intros t p q Hp Hq. eapply sim_rely; [eauto|]. split; [rewrite app_length; lia|]. intros a La _. now apply cells_app.
        * intros t a Ht Hf. rewrite app_length. pose proof (Hb t a Ht Hf). lia.
      + exists pool2'. split; [|exact HI']. eapply x_adv; eauto.
  Qed.
End Conc.

Section ConcD1.
  Context {S I : Type} (e : env) (io : provider S) (idp : bytes -> prog (world S I) (res identity)).
  Context (oc ac tc : cryptor (world S I)) (room : nat -> list bytes).
  Notation W := (world S I).
  Notation H := (list (list bytes)).
  Notation do_s := (d1_do_s e io idp oc ac tc room).
  Notation do := (d1_do e io idp oc ac tc).

  Definition owns (h : H) (c : slice_call) (a : nat) : Prop := roomy c /\ a < length h /\ exists s, call_slice c = Some s /\ a = sl_arr s.
  Definition uses (h : H) (c : slice_call) (a : nat) : Prop := a < length h /\ exists s, call_slice c = Some s /\ a = sl_arr s.

  Lemma encrypt_sim tok obj s h : sl_ok h s -> let c := SEncrypt tok obj s in
    sim (uses h c) (owns h c) h (d1_encrypt_s e io idp oc ac room tok obj s) (d1_encrypt e io idp oc ac tok obj (contents h s)).
  Proof.
    intros Hs c. assert (HO : forall a, a = sl_arr s -> a < length h -> owns h c a \/ uses h c a) by (intros a -> La; right; split; eauto; exists s; auto).
    unfold d1_encrypt_s, d1_encrypt. apply sim_bindR_snd. intros i h1 R1. apply sim_bindR_snd. intros oid h2 R2.
    apply sim_bindR_snd. intros [dek so] h3 R3. pose proof (rely_trans _ _ _ _ _ R1 (rely_trans _ _ _ _ _ R2 R3)) as R. clear R1 R2 R3 h1 h2.
    unfold act. cbn [on_fst bind].
    apply (sim_h (uses h c) (owns h c) h3 _ (fun h => sl_append (room (sl_len s + 1)) h s [i_id i])); intros h4 R4;
      pose proof (rely_trans _ _ _ _ _ R R4) as R5; destruct (rely_slice _ _ _ _ s R5 Hs (HO _ eq_refl)) as [Ec Hs4];
      destruct (sl_append (room (sl_len s + 1)) h4 s [i_id i]) as [ids h5] eqn:Ea; cbn [fst snd].
    - destruct (oc_append _ _ _ _ _ _ Hs4 Ea) as [L HC]. split; [exact L|]. intros a La No. destruct (HC a La) as [El Hi]. apply list_eq. intros j.
      apply Hi. intros (Ha & Hj & Hr). cbn [length] in Hj, Hr. apply No. split; [cbn [c roomy]; lia|]. split; [|exists s; auto].
      subst a. apply ok_arr; [exact Hs|lia].
    - destruct (append_contents _ _ _ _ _ _ Hs4 Ea) as [Ec5 Hs5]. rewrite Ec in Ec5.
      apply sim_read; [exact Hs5| |].
      + intros La. left. unfold sl_append in Ea. destruct (Nat.leb_spec (sl_len s + length [i_id i]) (sl_cap s)) as [Lc|Lc].
        * injection Ea as <- <-. cbn [sl_arr length] in *. left. split; [cbn [c roomy]; lia|]. split; [apply ok_arr; [exact Hs|lia]|exists s; auto].
        * unfold sl_make in Ea. injection Ea as <- <-. cbn [sl_arr] in *. right. rewrite app_length. cbn. lia.
      + intros h6 O' HO' R6. rewrite Ec5. unfold lift, bindR at 1. cbn [bind]. unfold bindR at 3. cbn [bind].
        destruct (add_groups _ _) as [gs|x|]; [|apply sim_ret..]. apply sim_on_snd.
  Qed.
  Lemma add_groups_sim tok oid s h : sl_ok h s -> let c := SAddGroups tok oid s in
    sim (uses h c) (owns h c) h (d1_add_groups_s io idp ac tok oid s) (d1_add_groups io idp ac tok oid (contents h s)).
  Proof.
    intros Hs c. assert (HO : forall a, a = sl_arr s -> a < length h -> owns h c a \/ uses h c a) by (intros a -> La; right; split; eauto; exists s; auto).
    unfold d1_add_groups_s, d1_add_groups. apply sim_bindR_snd. intros i h1 R1. apply sim_bindR_snd. intros sa h2 R2.
    apply sim_bindR_snd. intros a h3 R3. pose proof (rely_trans _ _ _ _ _ R1 (rely_trans _ _ _ _ _ R2 R3)) as R. clear R1 R2 R3 h1 h2.
    destruct (rely_slice _ _ _ _ s R Hs (HO _ eq_refl)) as [Ec Hs3]. apply sim_read; [exact Hs3| |].
    - intros L0. apply (HO _ eq_refl). apply ok_arr; [exact Hs|]. destruct Hs. lia.
    - intros h6 O' HO' R6. rewrite Ec. unfold lift, bindR at 1. cbn [bind]. unfold bindR at 3. cbn [bind].
      destruct (add_groups _ _) as [gs|x|]; [|apply sim_ret..]. apply sim_on_snd.
  Qed.
  Lemma remove_groups_sim tok oid s h : sl_ok h s -> let c := SRemoveGroups tok oid s in
    sim (uses h c) (owns h c) h (d1_remove_groups_s io idp ac tok oid s) (d1_remove_groups io idp ac tok oid (contents h s)).
  Proof.
    intros Hs c. assert (HO : forall a, a = sl_arr s -> a < length h -> owns h c a \/ uses h c a) by (intros a -> La; right; split; eauto; exists s; auto).
    unfold d1_remove_groups_s, d1_remove_groups. apply sim_bindR_snd. intros i h1 R1. apply sim_bindR_snd. intros sa h2 R2.
    apply sim_bindR_snd. intros a h3 R3. pose proof (rely_trans _ _ _ _ _ R1 (rely_trans _ _ _ _ _ R2 R3)) as R. clear R1 R2 R3 h1 h2.
    destruct (rely_slice _ _ _ _ s R Hs (HO _ eq_refl)) as [Ec Hs3]. apply sim_read; [exact Hs3| |].
    - intros L0. apply (HO _ eq_refl). apply ok_arr; [exact Hs|]. destruct Hs. lia.
    - intros h6 O' HO' R6. rewrite Ec. apply sim_on_snd.
  Qed.
  Lemma call_sim c h : (forall s, call_slice c = Some s -> sl_ok h s) -> sim (uses h c) (owns h c) h (do_s c) (do (call_on h c)).
  Proof.
    intros Hs. destruct c as [tok obj s|tok oid s|tok oid s|c]; cbn [d1_do_s call_on d1_do call_slice] in *; unfold ret_map.
    - apply sim_ret_map. now apply encrypt_sim, Hs.
    - apply sim_ret_map. now apply add_groups_sim, Hs.
    - apply sim_ret_map. now apply remove_groups_sim, Hs.
    - apply sim_on_snd.
  Qed.

  (** No two calls are given slices of one array, unless none of the two writes to it. *)
  Lemma calls_concurrent K cs (h : H) (w : W) pool' h' w' :
    Forall (fun c => forall s, call_slice c = Some s -> sl_ok h s) cs ->
    (forall t u c d s s', t <> u -> cs !! t = Some c -> cs !! u = Some d -> call_slice c = Some s -> call_slice d = Some s' ->
       sl_arr s = sl_arr s' -> ~ roomy c) ->
    exec_s K (map do_s cs) (h, w) pool' (h', w') ->
    exists pool2', exec K (map (fun c => do (call_on h c)) cs) w pool2' w' /\ length pool2' = length pool' /\
      (forall t r, pool' !! t = Some (Ret r) -> pool2' !! t = Some (Ret r)) /\
      forall a, a < length h -> (forall c s, In c cs -> call_slice c = Some s -> sl_arr s = a -> ~ roomy c) -> cells h' a = cells h a.
  Proof.
    intros Hok Hsep Hx.
    destruct (exec_sim K _ _ _ _ Hx h (fun a => forall c s, In c cs -> call_slice c = Some s -> sl_arr s = a -> ~ roomy c) (map (fun c => do (call_on h c)) cs)) as (pool2' & E & HI).
    - cbn [fst]. split; [now rewrite !map_length|]. split; [lia|].
      exists (fun t => match cs !! t with Some c => owns h c | None => fun _ => False end).
      exists (fun t => match cs !! t with Some c => uses h c | None => fun _ => False end). splits.
      + intros a La Ha. split; [reflexivity|]. intros t _ C. destruct (cs !! t) as [c|] eqn:Ec; [|exact C].
        destruct C as (Hr & _ & s & Hs & ->). refine (Ha c s _ Hs eq_refl Hr). apply elem_of_list_In. eapply elem_of_list_lookup_2; exact Ec.
      + intros t p q Hp Hq. change (map do_s cs) with (do_s <$> cs) in Hp. change (map (fun c => do (call_on h c)) cs) with ((fun c => do (call_on h c)) <$> cs) in Hq.
        rewrite list_lookup_fmap in Hp. rewrite list_lookup_fmap in Hq.
        destruct (cs !! t) as [c|] eqn:Ec; [|discriminate]. injection Hp as <-. injection Hq as <-. apply call_sim.
        eapply Forall_lookup_1 in Hok; eauto.
      + intros t u a N Ht Hu. destruct (cs !! t) as [c|] eqn:Ec; [|tauto]. destruct (cs !! u) as [d|] eqn:Ed; [|tauto].
        intros (Hr & La & s & Hs & ->). intros [(_ & _ & s' & Hs' & E)|(_ & s' & Hs' & E)]; exact (Hsep t u c d s s' N Ec Ed Hs Hs' E Hr).
      + intros t a Ht. destruct (cs !! t) as [c|]; [|tauto]. intros [(_ & L & _)|(L & _)]; exact L.
    - cbn [fst snd] in *. exists pool2'. split; [exact E|]. destruct HI as (Hl & _ & O & F & HQ & Hs & _). split; [auto|].
      split; [|intros a La Ha; now apply HQ].
      intros t r Ht. destruct (lookup_lt_is_Some_2 pool2' t) as [q Hq]; [rewrite <- Hl; eapply lookup_lt_Some; eauto|].
      pose proof (Hs _ _ _ Ht Hq) as Q. cbn [sim] in Q. now subst q.
  Qed.
End ConcD1.

(** ** Storage providers *)
Section Io.
  Notation H := (list (list byte)).
  Notation behind id := (fun a i => a = sl_arr id /\ sl_off id + sl_len id <= i < sl_off id + sl_len id + 3 /\ sl_len id + 3 <= sl_cap id).

  (** Mem touches no memory. *)
  Lemma mem_memory o h m r h' m' : run (mem_do_s o) (h, m) = (r, (h', m')) -> h' = h.
  Proof.
    destruct o as [id dt d|id dt|id dt d|id dt]; cbn; try (destruct (m !! _); cbn); intros [= <- <- <-]; reflexivity.
  Qed.
  Definition mem_sees (h : H) (m : gmap bytes slice) : gmap bytes bytes := contents h <$> m.
  Lemma mem_run o h m r h' m' : run (mem_do_s o) (h, m) = (r, (h', m')) ->
    run (io_do Mem (op_on h o)) (mem_sees h m) = (reply_on h r, mem_sees h m') /\
    (forall k s, m' !! k = Some s -> In s (op_data o) \/ m !! k = Some s).
  Proof.
    unfold mem_sees. destruct o as [id dt d|id dt|id dt d|id dt]; cbn; rewrite ?lookup_fmap;
      try (destruct (m !! mem_key (contents h id) dt) as [x|] eqn:E; cbn); intros [= <- <- <-]; cbn; split; auto.
    all: try (rewrite ?fmap_insert, ?fmap_delete; reflexivity).
    all: intros k s Hk; first [apply lookup_insert_Some in Hk as [[_ <-]|[_ Hk]] | apply lookup_delete_Some in Hk as [_ Hk]]; auto.
  Qed.
  Lemma mem_client ok kept h m tr x : client mem_do_s ok not_into_kept kept (h, m) tr x ->
    (forall k s, m !! k = Some s -> In s kept) -> map snd tr = io_history Mem (map fst tr) (mem_sees h m).
  Proof.
    intros Hc. remember (h, m) as hm eqn:E. revert h m E.
    induction Hc as [kept x|kept o h0 p r h1 p1 tr x Ho Hr Hc IH|kept h0 p h1 tr x Hm Hc IH]; intros h m E Hk; [reflexivity| |]; injection E as -> ->.
    - pose proof (mem_memory _ _ _ _ _ _ Hr) as ->. destruct (mem_run _ _ _ _ _ _ Hr) as [Er Hp]. cbn [map fst snd io_history]. rewrite Er.
      f_equal. apply IH; [reflexivity|]. intros k s Hs. apply in_or_app. destruct (Hp k s Hs); eauto.
    - replace (mem_sees h m) with (mem_sees h1 m); [now apply IH|].
      unfold mem_sees. apply map_eq. intros k. rewrite !lookup_fmap. destruct (m !! k) as [s|] eqn:Es; [|reflexivity]. cbn. f_equal.
      unfold not_into_kept in Hm. rewrite List.Forall_forall in Hm. eauto.
  Qed.
  Lemma mem_client_empty ok h tr x : client mem_do_s ok not_into_kept [] (h, ∅) tr x -> map snd tr = io_history Mem (map fst tr) ∅.
  Proof.
    intros Hc. rewrite (mem_client _ _ _ _ _ _ Hc); [|intros k s Hk; rewrite lookup_empty in Hk; discriminate Hk].
    f_equal. apply fmap_empty.
  Qed.

  Context (room : nat -> list byte).
  Lemma bolt_key_run id dt h b key h1 : sl_ok h id -> sl_append (room (sl_len id + 3)) h id (dt_bytes dt) = (key, h1) ->
    run (bolt_key_s room id dt) (h, b) = (key, (h1, b)) /\ contents h1 key = bolt_key (contents h id) dt /\ only_changed (behind id) h h1.
  Proof.
    intros Hi E. unfold bolt_key_s. rewrite run_on_fst. unfold act. cbn [run]. rewrite E. cbn [fst snd].
    split; [reflexivity|]. split; [apply (append_contents _ _ _ _ _ _ Hi E)|]. exact (oc_append _ _ _ _ _ _ Hi E).
  Qed.
  Lemma bolt_memory o h b r h' b' : sl_ok h (op_id o) -> run (bolt_do_s room o) (h, b) = (r, (h', b')) -> only_changed (behind (op_id o)) h h'.
  Proof.
    intros Hi. destruct (sl_append (room (sl_len (op_id o) + 3)) h (op_id o) (dt_bytes match o with SPut _ dt _ | SGet _ dt | SUpdate _ dt _ | SDelete _ dt => dt end)) as [key h1] eqn:E.
    destruct o as [id dt d|id dt|id dt d|id dt]; cbn [op_id bolt_do_s] in *; unfold bolt_put_s, bolt_get_s, bolt_update_s, bolt_delete_s;
      destruct (bolt_key_run id dt h b key h1 Hi E) as (Ek & _ & Ho); rewrite !run_bind, Ek; unfold act; cbn [run fst snd].
    - destruct (b !! _); cbn [run]; intros [= <- <- <-]; exact Ho.
    - destruct (b !! _) as [[|x d]|]; cbn [run]; try (intros [= <- <- <-]; exact Ho).
      intros [= <- <- <-]. eapply oc_trans; [exact Ho|]. apply oc_ext.
    - destruct (b !! _); cbn [run]; intros [= <- <- <-]; exact Ho.
    - intros [= <- <- <-]; exact Ho.
  Qed.
  Lemma bolt_run o h b r h' b' : op_ok h o /\ op_apart o -> run (bolt_do_s room o) (h, b) = (r, (h', b')) ->
    run (io_do Bolt (op_on h o)) b = (reply_on h' r, b').
  Proof.
    intros [[Hi Hd] Ha]. destruct (sl_append (room (sl_len (op_id o) + 3)) h (op_id o) (dt_bytes match o with SPut _ dt _ | SGet _ dt | SUpdate _ dt _ | SDelete _ dt => dt end)) as [key h1] eqn:E.
    assert (HD : forall d, In d (op_data o) -> contents h1 d = contents h d).
    { intros d Hin. rewrite List.Forall_forall in Hd. eapply oc_contents; [eapply oc_append; eauto|auto|]. cbn beta.
      intros i Hl (C1 & C2 & C3). unfold op_apart in Ha. change (length (dt_bytes _)) with 3 in C2, C3.
      specialize (Ha C3). rewrite List.Forall_forall in Ha. specialize (Ha d Hin C1). lia. }
    destruct o as [id dt d|id dt|id dt d|id dt]; cbn [op_id op_data bolt_do_s op_on io_do Bolt io_put io_get io_update io_delete] in *;
      unfold bolt_put_s, bolt_get_s, bolt_update_s, bolt_delete_s, bolt_put, bolt_get, bolt_update, bolt_delete;
      destruct (bolt_key_run id dt h b key h1 Hi E) as (Ek & Ec & Ho); rewrite !run_bind, Ek; unfold act; cbn [run fst snd]; rewrite Ec, ?HD by (left; reflexivity).
    - destruct (b !! _); cbn [run]; intros [= <- <- <-]; reflexivity.
    - destruct (b !! _) as [[|x d]|]; cbn [run]; try (intros [= <- <- <-]; reflexivity).
      destruct (sl_append (room (length (x :: d))) h1 nil_slice (x :: d)) as [out h2] eqn:E2. cbn [run]. intros [= <- <- <-].
      unfold sl_append, nil_slice in E2. cbn [sl_len sl_cap length] in E2. cbn [Nat.leb Nat.add] in E2.
      apply make_contents in E2 as (E2 & _). cbn [reply_on res_map]. rewrite E2. reflexivity.
    - destruct (b !! _); cbn [run]; intros [= <- <- <-]; reflexivity.
    - intros [= <- <- <-]; reflexivity.
  Qed.
  Lemma bolt_client kept h b tr x : client (bolt_do_s room) (fun h o => op_ok h o /\ op_apart o) anywhere kept (h, b) tr x ->
    map snd tr = io_history Bolt (map fst tr) b.
  Proof.
    intros Hc. remember (h, b) as hb eqn:E. revert h b E.
    induction Hc as [kept x|kept o h0 p r h1 p1 tr x Ho Hr Hc IH|kept h0 p h1 tr x Hm Hc IH]; intros h b E; [reflexivity| |]; injection E as -> ->.
    - cbn [map fst snd io_history]. rewrite (bolt_run _ _ _ _ _ _ Ho Hr). f_equal. eapply IH; reflexivity.
    - eapply IH; reflexivity.
  Qed.
End Io.
