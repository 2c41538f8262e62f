(** The three runs that a run of the library consists of. *)
From Coq Require Import ZifyN ZifyNat.
From stdpp Require Import gmap.
From Verif Require Import Bytes Go Uuid Time Types World IoSpec Id Data D1 Spec D1ConcSpec Standalone StandaloneSpec SaConcSpec
  Index IndexSpec IndexConcSpec IndexOwnSpec Foot Lib LibSpec LibHist LibConcSpec LibTouch LibConc.
Local Open Scope bool_scope.
Local Open Scope N_scope.

(** In the runs of D1 and the index, the token of call [t] is [t] zeros, and stands for what its own token was found to stand for. *)
Definition zeros (t : nat) : bytes := repeat x00 t.
Definition retok (t : nat) (c : d1_call) : d1_call :=
  match c with
  | CEncrypt _ obj gs => CEncrypt (zeros t) obj gs
  | CUpdate _ oid obj => CUpdate (zeros t) oid obj
  | CDecrypt _ oid => CDecrypt (zeros t) oid
  | CDelete _ oid => CDelete (zeros t) oid
  | CGetAccessGroups _ oid => CGetAccessGroups (zeros t) oid
  | CAddGroups _ oid gs => CAddGroups (zeros t) oid gs
  | CRemoveGroups _ oid gs => CRemoveGroups (zeros t) oid gs
  | CAuthorize _ oid => CAuthorize (zeros t) oid
  | CCreateToken pt => CCreateToken pt
  | CGetTokenContents t => CGetTokenContents t
  end.
Definition ix_retok (t : nat) (c : ix_call) : ix_call :=
  match c with
  | IAdd _ kw y => IAdd (zeros t) kw y
  | ISearch _ kw => ISearch (zeros t) kw
  | IDelete _ kw y => IDelete (zeros t) kw y
  end.
Fixpoint idx (t : nat) (own : list nat) : option nat :=
  match own with [] => None | x :: own => if Nat.eqb x t then Some 0%nat else option_map S (idx t own) end.
Lemma idx_at own j t : NoDup own -> own !! j = Some t -> idx t own = Some j.
Proof.
  revert j. induction own as [|x own IH]; intros [|j] Hn Hj; cbn in *; try discriminate.
  - injection Hj as ->. now rewrite Nat.eqb_refl.
  - inversion Hn as [|? ? Hx Hn']; subst. destruct (Nat.eqb_spec x t) as [->|].
    + exfalso. apply Hx. apply elem_of_list_In, elem_of_list_lookup. eauto.
    + now rewrite (IH j Hn' Hj).
Qed.
Lemma nodup_at own (i j t : nat) : NoDup own -> own !! i = Some t -> own !! j = Some t -> i = j.
Proof. intros H Hi Hj. pose proof (idx_at own i t H Hi). pose proof (idx_at own j t H Hj). congruence. Qed.
Lemma idx_some own t j : idx t own = Some j -> own !! j = Some t.
Proof.
  revert j. induction own as [|x own IH]; intros j H; cbn in *; [discriminate|]. destruct (Nat.eqb_spec x t) as [->|].
  - injection H as <-. reflexivity.
  - destruct (idx t own) as [i|]; [|discriminate]. injection H as <-. cbn. auto.
Qed.

Section Proj.
  Context (cs : list lib_call).
  Definition partA (x : list xobs) : list sa_obs :=
    flat_map (fun o => match o with
      | XCall c => [ICall (id_call c)]
      | XKnown t r => match cs !! t with Some c => match looks_up c with Some _ => [IReply t (res_map SRIdentity r)] | None => [] end | None => [] end
      | XReply t (LIdentity r) => [IReply t r]
      | XReply _ _ => []
      end) x.
  Definition ownB (x : list xobs) : list nat :=
    flat_map (fun o => match o with XKnown t _ => match cs !! t with Some (OnObject _) => [t] | _ => [] end | _ => [] end) x.
  Definition ownC (x : list xobs) : list nat :=
    flat_map (fun o => match o with XKnown t _ => match cs !! t with Some (OnIndex _) => [t] | _ => [] end | _ => [] end) x.
  Definition partB (own : list nat) (x : list xobs) : list d1_obs :=
    flat_map (fun o => match o with
      | XKnown t _ => match cs !! t with Some (OnObject c) => [DCall (retok t c)] | _ => [] end
      | XReply t (LObject r) => match idx t own with Some j => [DReply j r] | None => [] end
      | _ => []
      end) x.
  Definition partC (own : list nat) (x : list xobs) : list ix_obs :=
    flat_map (fun o => match o with
      | XKnown t _ => match cs !! t with Some (OnIndex c) => [OCall (ix_retok t c)] | _ => [] end
      | XReply t (LIndex r) => match idx t own with Some j => [OReply j r] | None => [] end
      | _ => []
      end) x.
End Proj.

Section Parts.
  Context {S I : Type} (e : env) (v : view S) (io : provider S) (Hio : cell_storage v io) (Hew : entrywise v io) (L : lib) (fuel : nat).
  Notation W := (world S I).
  Notation srun := (@srun S I e v io L fuel).
  Notation thr := (@thr S I).
  Notation start := (@start S I e io L).
  Notation begun := (@begun S I e io L fuel).
  Context (cs : list lib_call).

  Lemma start_call c : tcall (start c) = c.
  Proof. destruct c; reflexivity. Qed.
  Lemma begun_call r c : tcall (begun r c) = c.
  Proof. destruct c; reflexivity. Qed.
  Lemma calls_insert (P : list thr) t th0 th : P !! t = Some th0 -> tcall th = tcall th0 -> map tcall (<[t := th]> P) = map tcall P.
  Proof.
    intros H E. change (tcall <$> <[t := th]> P = tcall <$> P). rewrite list_fmap_insert, E. apply list_insert_id. now rewrite list_lookup_fmap, H.
  Qed.
  Lemma calls_at (P : list thr) t th (x : list xobs) : cs = map tcall P ++ xcalls x -> P !! t = Some th -> cs !! t = Some (tcall th).
  Proof. intros -> H. apply lookup_app_l_Some. change (map tcall P) with (tcall <$> P). now rewrite list_lookup_fmap, H. Qed.
  Lemma step_ok {A} (T : N -> Prop) (X : Type) (f : W -> X * W) (q : X -> prog W A) w : v_inv v (w_io w) -> tch v T (Step f q) -> shift v T w (snd (f w)) /\ tch v T (q (fst (f w))).
  Proof. intros Hi H. exact (H w Hi). Qed.

  Lemma shift_spares (T : N -> Prop) (w w' : W) : (forall dt, T dt -> ~ sa_writes dt) -> shift v T w w' -> spares (I := I) v w w'.
  Proof. intros H (H1 & H2 & H3). split; [exact H1|]. split; [exact H2|]. intros id dt Hdt. apply H3. intros HT. now apply (H dt HT). Qed.
  Lemma shift_keeps (T : N -> Prop) (w w' : W) : (forall dt, T dt -> ~ d1_writes dt) -> shift v T w w' -> keeps (I := I) v w w'.
  Proof. intros H (H1 & H2 & H3). split; [exact H1|]. split; [exact H2|]. intros id dt Hdt. apply H3. intros HT. now apply (H dt HT). Qed.
  Lemma shift_around (T : N -> Prop) (w w' : W) : (forall dt, T dt -> ~ ix_writes dt) -> shift v T w w' -> ix_around (I := I) v w w'.
  Proof. intros H (H1 & _ & H3). split; [exact H1|]. intros id. apply H3. intros HT. apply (H _ HT). reflexivity. Qed.
  Lemma spared_shift (w w' : W) : lib_spared v w w' -> shift (I := I) v (fun dt => ~ lib_data dt) w w'.
  Proof. intros (H1 & H2 & H3). split; [exact H1|]. split; [exact H2|]. intros id dt Hdt. apply H3. unfold lib_data, d1_writes, ix_writes, sa_writes in *.
    destruct (decide (dt = DataTypeSealedObject \/ dt = DataTypeSealedAccess \/ dt = DataTypeSealedNode \/ dt = DataTypeSealedUser \/ dt = DataTypeSealedGroup)); [tauto|].
    exfalso. apply Hdt. tauto. Qed.

  (** *** The identity provider *)
  Definition RA (P : list thr) (Q : list (prog W (res sa_reply))) : Prop :=
    Forall2 (fun th q => match th with TId _ p => q = p | TLook c p => looks_up c <> None -> q = ret_map SRIdentity p | _ => True end) P Q.
  Lemma run_A P w x P' w' : srun P w x P' w' -> v_inv v (w_io w) -> all_ok v P -> cs = map tcall P ++ xcalls x ->
    forall Q, RA P Q -> exists Q', sa_conc e v io (l_sa L) Q w (partA cs x) Q' w'.
  Proof.
    induction 1 as [P w|P w w1 x P' w' Hs _ IH|c P w x P' w' _ IH|t c X f q P w x P' w' Hp _ IH|t c X f q P w x P' w' Hp _ IH|t c X f q P w x P' w' Hp _ IH|t c X f q P w x P' w' Hp _ IH|
      t c r P w x P' w' Hp _ IH|t c r P w x P' w' Hp _ IH|t c r P w x P' w' Hp _ IH|t c r P w x P' w' Hp _ IH]; intros Hi Hok Hcs Q HR.
    - exists Q. constructor.
    - apply spared_shift in Hs. destruct (IH (proj1 Hs) Hok Hcs Q HR) as (Q' & H). exists Q'. eapply SaConcSpec.ic_env; [|exact H].
      eapply shift_spares; [|exact Hs]. unfold lib_data. tauto.
    - destruct (IH Hi (ok_call e v io Hio Hew L P c Hok)) with (Q := Q ++ [sa_aes e io (l_sa L) (id_call c)]) as (Q' & H).
      + rewrite map_app. cbn [map]. rewrite start_call, <- app_assoc. exact Hcs.
      + apply Forall2_app; [exact HR|]. constructor; [|constructor]. destruct c as [c|c|c]; cbn [start id_call]; [| |reflexivity].
        * cbn [looks_up]. unfold look. cbn [looks_up]. intros Ht. destruct (call_token c); [reflexivity|congruence].
        * intros _. reflexivity.
      + exists Q'. exact (SaConcSpec.ic_call e v io (l_sa L) (id_call c) Q w (partA cs x) Q' w' H).
    - destruct (step_ok _ _ _ _ w Hi (ok_at v _ _ _ Hok Hp)) as [Hs Ht]. destruct (Forall2_lookup_l _ _ _ _ _ HR Hp) as (q0 & Hq & E). cbn in E. subst q0.
      destruct (IH (proj1 Hs)) with (Q := <[t := q (fst (f w))]> Q) as (Q' & H).
      + now apply ok_insert.
      + now rewrite (calls_insert _ _ _ (TId c (q (fst (f w)))) Hp eq_refl).
      + apply Forall2_insert; [exact HR|reflexivity].
      + exists Q'. eapply SaConcSpec.ic_step; eauto.
    - destruct (ok_at v _ _ _ Hok Hp) as [Hth Hni]. destruct (step_ok _ _ _ _ w Hi Hth) as [Hs Ht]. destruct (Forall2_lookup_l _ _ _ _ _ HR Hp) as (q0 & Hq & E). cbn in E.
      assert (HO : all_ok v (<[t := TLook c (q (fst (f w)))]> P)) by (apply ok_insert; [exact Hok|split; assumption]).
      assert (HC : cs = map tcall (<[t := TLook c (q (fst (f w)))]> P) ++ xcalls x) by now rewrite (calls_insert _ _ _ (TLook c (q (fst (f w)))) Hp eq_refl).
      destruct (looks_up c) as [tok|] eqn:El.
      + specialize (E ltac:(discriminate)). subst q0. destruct (IH (proj1 Hs) HO HC (<[t := ret_map SRIdentity (q (fst (f w)))]> Q)) as (Q' & H).
        * apply Forall2_insert; [exact HR|]. reflexivity.
        * exists Q'. eapply SaConcSpec.ic_step; [exact Hq|]. exact H.
      + destruct (IH (proj1 Hs) HO HC Q) as (Q' & H).
        * rewrite <- (list_insert_id Q t q0 Hq). apply Forall2_insert; [exact HR|]. rewrite El. congruence.
        * exists Q'. eapply SaConcSpec.ic_env; [|exact H]. eapply shift_spares; [|exact Hs]. intros dt [].
    - destruct (step_ok _ _ _ _ w Hi (ok_at v _ _ _ Hok Hp)) as [Hs Ht]. destruct (Forall2_lookup_l _ _ _ _ _ HR Hp) as (q0 & Hq & _).
      destruct (IH (proj1 Hs)) with (Q := Q) as (Q' & H).
      + now apply ok_insert.
      + now rewrite (calls_insert _ _ _ (TObj c (q (fst (f w)))) Hp eq_refl).
      + rewrite <- (list_insert_id Q t q0 Hq). apply Forall2_insert; [exact HR|exact Logic.I].
      + exists Q'. eapply SaConcSpec.ic_env; [|exact H]. eapply shift_spares; [|exact Hs]. intros dt [->| ->] [E|E]; discriminate E.
    - destruct (step_ok _ _ _ _ w Hi (ok_at v _ _ _ Hok Hp)) as [Hs Ht]. destruct (Forall2_lookup_l _ _ _ _ _ HR Hp) as (q0 & Hq & _).
      destruct (IH (proj1 Hs)) with (Q := Q) as (Q' & H).
      + now apply ok_insert.
      + now rewrite (calls_insert _ _ _ (TIx c (q (fst (f w)))) Hp eq_refl).
      + rewrite <- (list_insert_id Q t q0 Hq). apply Forall2_insert; [exact HR|exact Logic.I].
      + exists Q'. eapply SaConcSpec.ic_env; [|exact H]. eapply shift_spares; [|exact Hs]. intros dt -> [E|E]; discriminate E.
    - destruct (ok_at v _ _ _ Hok Hp) as [Hth Hni]. destruct (Forall2_lookup_l _ _ _ _ _ HR Hp) as (q0 & Hq & E). cbn in E.
      destruct (IH Hi) with (Q := Q) as (Q' & H).
      + apply ok_insert; [exact Hok|]. now apply begun_ok.
      + change (cs = map tcall P ++ xcalls x) in Hcs. rewrite (calls_insert _ _ _ (begun r c) Hp); [exact Hcs|apply begun_call].
      + rewrite <- (list_insert_id Q t q0 Hq). apply Forall2_insert; [exact HR|]. destruct c; cbn [LibConc.begun]; try exact Logic.I. exfalso. now apply (Hni c).
      + exists Q'. pose proof (calls_at P t _ (XKnown t r :: x) Hcs Hp) as Hc. cbn [tcall] in Hc. change (partA cs (XKnown t r :: x)) with
          ((match cs !! t with Some c => match looks_up c with Some _ => [IReply t (res_map SRIdentity r)] | None => [] end | None => [] end) ++ partA cs x).
        rewrite Hc. destruct (looks_up c); [|exact H]. specialize (E ltac:(discriminate)). subst q0. apply SaConcSpec.ic_reply; [exact Hq|exact H].
    - destruct (Forall2_lookup_l _ _ _ _ _ HR Hp) as (q0 & Hq & E). cbn in E. subst q0. destruct (IH Hi Hok Hcs Q HR) as (Q' & H). exists Q'.
      exact (SaConcSpec.ic_reply e v io (l_sa L) t r Q w (partA cs x) Q' w' Hq H).
    - exact (IH Hi Hok Hcs Q HR).
    - exact (IH Hi Hok Hcs Q HR).
  Qed.

  (** *** D1 *)
  Context (tb : nat -> res identity).
  Definition idp' (tok : bytes) : prog W (res identity) := Ret (tb (length tok)).
  Lemma retok_aes t c : d1_aes e io idp' (l_d1 L) (retok t c) = d1_aes e io (fun _ => Ret (tb t)) (l_d1 L) c.
  Proof.
    assert (E : idp' (zeros t) = Ret (tb t)) by (unfold idp', zeros; now rewrite repeat_length).
    unfold d1_aes. destruct c; cbn [retok d1_do]; unfold d1_encrypt, d1_update, d1_decrypt, d1_delete, d1_get_access_groups, d1_add_groups, d1_remove_groups, d1_authorize, verify_access;
      rewrite ?E; reflexivity.
  Qed.
  Lemma ix_retok_do t c : ix_do e io idp' (l_iek L) fuel (ix_retok t c) = ix_do e io (fun _ => Ret (tb t)) (l_iek L) fuel c.
  Proof.
    assert (E : idp' (zeros t) = Ret (tb t)) by (unfold idp', zeros; now rewrite repeat_length).
    destruct c; cbn [ix_retok ix_do]; unfold ix_add, ix_search, ix_delete, ix_verify; rewrite ?E; reflexivity.
  Qed.
  Record RB (own : list nat) (P : list thr) (Q : list (prog W (res d1_reply))) : Prop := mkRB {
    rb_len : length own = length Q;
    rb_at : forall j t, own !! j = Some t -> exists c p, P !! t = Some (TObj c p) /\ Q !! j = Some p;
    rb_all : forall t c p, P !! t = Some (TObj c p) -> t ∈ own }.
  Lemma rb_other own P Q t th0 th : RB own P Q -> P !! t = Some th0 -> (forall c p, th0 <> TObj c p) -> (forall c p, th <> TObj c p) -> RB own (<[t := th]> P) Q.
  Proof.
    intros [R1 R2 R3] Ht H0 H1. constructor; [exact R1|..].
    - intros j t' Hj. destruct (R2 j t' Hj) as (c & p & A & B). destruct (decide (t' = t)) as [->|Hne]; [rewrite Ht in A; injection A as ->; exfalso; eapply H0; reflexivity|].
      exists c, p. rewrite list_lookup_insert_ne by congruence. auto.
    - intros t' c p Hp. destruct (decide (t' = t)) as [->|Hne]; [rewrite list_lookup_insert in Hp by (eapply lookup_lt_Some; eauto); injection Hp as ->; exfalso; eapply H1; reflexivity|].
      rewrite list_lookup_insert_ne in Hp by congruence. eauto.
  Qed.
  Lemma rb_more own P Q th : RB own P Q -> (forall c p, th <> TObj c p) -> RB own (P ++ [th]) Q.
  Proof.
    intros [R1 R2 R3] H1. constructor; [exact R1|..].
    - intros j t' Hj. destruct (R2 j t' Hj) as (c & p & A & B). exists c, p. split; [now apply lookup_app_l_Some|exact B].
    - intros t' c p Hp. apply lookup_app_Some in Hp as [Hp|[_ Hp]]; [eauto|]. destruct (t' - length P)%nat; [|discriminate]. injection Hp as ->. exfalso. eapply H1; reflexivity.
  Qed.
  Lemma run_B P w x P' w' : srun P w x P' w' -> v_inv v (w_io w) -> all_ok v P -> cs = map tcall P ++ xcalls x -> (forall t r, In (XKnown t r) x -> tb t = r) ->
    forall own0 own Q, own = own0 ++ ownB cs x -> NoDup own -> RB own0 P Q -> exists Q', d1_conc e v io idp' (l_d1 L) Q w (partB cs own x) Q' w'.
  Proof.
    induction 1 as [P w|P w w1 x P' w' Hs _ IH|c P w x P' w' _ IH|t c X f q P w x P' w' Hp _ IH|t c X f q P w x P' w' Hp _ IH|t c X f q P w x P' w' Hp _ IH|t c X f q P w x P' w' Hp _ IH|
      t c r P w x P' w' Hp _ IH|t c r P w x P' w' Hp _ IH|t c r P w x P' w' Hp _ IH|t c r P w x P' w' Hp _ IH]; intros Hi Hok Hcs Htb own0 own Q Hown Hnd HR.
    - exists Q. constructor.
    - apply spared_shift in Hs. destruct (IH (proj1 Hs) Hok Hcs Htb own0 own Q Hown Hnd HR) as (Q' & H). exists Q'. eapply dc_env; [|exact H].
      eapply shift_keeps; [|exact Hs]. unfold lib_data. tauto.
    - eapply (IH Hi (ok_call e v io Hio Hew L P c Hok)); [|intros; apply Htb; now right|exact Hown|exact Hnd|].
      + rewrite map_app. cbn [map]. rewrite start_call, <- app_assoc. exact Hcs.
      + apply rb_more; [exact HR|]. destruct c; discriminate.
    - destruct (step_ok _ _ _ _ w Hi (ok_at v _ _ _ Hok Hp)) as [Hs Ht]. destruct (IH (proj1 Hs)) with (own0 := own0) (own := own) (Q := Q) as (Q' & H); try assumption.
      + now apply ok_insert.
      + now rewrite (calls_insert _ _ _ (TId c (q (fst (f w)))) Hp eq_refl).
      + eapply rb_other; [exact HR|exact Hp|discriminate|discriminate].
      + exists Q'. eapply dc_env; [|exact H]. eapply shift_keeps; [|exact Hs]. intros dt [->| ->] [E|E]; discriminate E.
    - destruct (ok_at v _ _ _ Hok Hp) as [Hth Hni]. destruct (step_ok _ _ _ _ w Hi Hth) as [Hs Ht]. destruct (IH (proj1 Hs)) with (own0 := own0) (own := own) (Q := Q) as (Q' & H); try assumption.
      + apply ok_insert; [exact Hok|split; assumption].
      + now rewrite (calls_insert _ _ _ (TLook c (q (fst (f w)))) Hp eq_refl).
      + eapply rb_other; [exact HR|exact Hp|discriminate|discriminate].
      + exists Q'. eapply dc_env; [|exact H]. eapply shift_keeps; [|exact Hs]. intros dt [].
    - destruct (step_ok _ _ _ _ w Hi (ok_at v _ _ _ Hok Hp)) as [Hs Ht]. pose proof HR as [R1 R2 R3].
      pose proof (R3 t c _ Hp) as Hin. apply elem_of_list_lookup in Hin as (j & Hj). destruct (R2 j t Hj) as (c1 & p1 & A & B). rewrite Hp in A. injection A as <- <-.
      destruct (IH (proj1 Hs)) with (own0 := own0) (own := own) (Q := <[j := q (fst (f w))]> Q) as (Q' & H); try assumption.
      + now apply ok_insert.
      + now rewrite (calls_insert _ _ _ (TObj c (q (fst (f w)))) Hp eq_refl).
      + constructor; [now rewrite insert_length|..].
        * intros j' t' Hj'. destruct (R2 j' t' Hj') as (c1 & p1 & A & B1). destruct (decide (t' = t)) as [->|Hne].
          -- assert (j' = j) as ->.
             { eapply nodup_at; [exact Hnd|subst own; apply lookup_app_l_Some; exact Hj'|subst own; apply lookup_app_l_Some; exact Hj]. }
             exists c, (q (fst (f w))). split; apply list_lookup_insert; eapply lookup_lt_Some; eauto.
          -- exists c1, p1. rewrite list_lookup_insert_ne by congruence. rewrite list_lookup_insert_ne by (intros ->; congruence). auto.
        * intros t' c1 p1 Hp1. destruct (decide (t' = t)) as [->|Hne]; [apply elem_of_list_lookup; eauto|]. rewrite list_lookup_insert_ne in Hp1 by congruence. eauto.
      + exists Q'. eapply dc_step; [exact B|exact H].
    - destruct (step_ok _ _ _ _ w Hi (ok_at v _ _ _ Hok Hp)) as [Hs Ht]. destruct (IH (proj1 Hs)) with (own0 := own0) (own := own) (Q := Q) as (Q' & H); try assumption.
      + now apply ok_insert.
      + now rewrite (calls_insert _ _ _ (TIx c (q (fst (f w)))) Hp eq_refl).
      + eapply rb_other; [exact HR|exact Hp|discriminate|discriminate].
      + exists Q'. eapply dc_env; [|exact H]. eapply shift_keeps; [|exact Hs]. intros dt -> [E|E]; discriminate E.
    - destruct (ok_at v _ _ _ Hok Hp) as [Hth Hni]. pose proof (calls_at P t _ (XKnown t r :: x) Hcs Hp) as Hc. cbn [tcall] in Hc.
      assert (HO : all_ok v (<[t := begun r c]> P)) by (apply ok_insert; [exact Hok|]; now apply begun_ok).
      assert (HC : cs = map tcall (<[t := begun r c]> P) ++ xcalls x).
      { change (cs = map tcall P ++ xcalls x) in Hcs. rewrite (calls_insert _ _ _ (begun r c) Hp); [exact Hcs|apply begun_call]. }
      assert (HT : forall t0 r0, In (XKnown t0 r0) x -> tb t0 = r0) by (intros; apply Htb; now right).
      change (ownB cs (XKnown t r :: x)) with ((match cs !! t with Some (OnObject _) => [t] | _ => [] end) ++ ownB cs x) in Hown.
      change (partB cs own (XKnown t r :: x)) with ((match cs !! t with Some (OnObject c) => [DCall (retok t c)] | _ => [] end) ++ partB cs own x).
      rewrite Hc in *. destruct c as [c|c|c].
      + rewrite app_assoc in Hown. pose proof HR as [R1 R2 R3].
        assert (Hfr : t ∉ own0). { intros Hin. apply elem_of_list_lookup in Hin as (j & Hj). destruct (R2 j t Hj) as (c1 & p1 & A & _). congruence. }
        destruct (IH Hi HO HC HT (own0 ++ [t]) own (Q ++ [d1_aes e io idp' (l_d1 L) (retok t c)]) Hown Hnd) as (Q' & H).
        * constructor; [rewrite !app_length; cbn; lia|..].
          -- intros j t' Hj. apply lookup_app_Some in Hj as [Hj|[Hle Hj]].
             ++ destruct (R2 j t' Hj) as (c1 & p1 & A & B). exists c1, p1. assert (t' <> t) by (intros ->; congruence). rewrite list_lookup_insert_ne by congruence.
                split; [exact A|now apply lookup_app_l_Some].
             ++ destruct (j - length own0)%nat eqn:Ej; [|discriminate]. injection Hj as <-. eexists c, _. split; [apply list_lookup_insert; eapply lookup_lt_Some; eauto|].
                rewrite lookup_app_r by lia. replace (j - length Q)%nat with 0%nat by lia. cbn. f_equal. rewrite retok_aes. now rewrite (Htb t r ltac:(now left)).
          -- intros t' c1 p1 Hp1. apply elem_of_app. destruct (decide (t' = t)) as [->|Hne]; [right; now left|left]. rewrite list_lookup_insert_ne in Hp1 by congruence. eauto.
        * exists Q'. apply dc_call. exact H.
      + destruct (IH Hi HO HC HT own0 own Q Hown Hnd) as (Q' & H); [|exists Q'; exact H]. eapply rb_other; [exact HR|exact Hp|discriminate|cbn; discriminate].
      + exfalso. now apply (Hni c).
    - exact (IH Hi Hok Hcs (fun t0 r0 Hin => Htb t0 r0 (or_intror Hin)) own0 own Q Hown Hnd HR).
    - destruct (IH Hi Hok Hcs (fun t0 r0 Hin => Htb t0 r0 (or_intror Hin)) own0 own Q Hown Hnd HR) as (Q' & H). exists Q'. pose proof HR as [R1 R2 R3].
      pose proof (R3 t c _ Hp) as Hin. apply elem_of_list_lookup in Hin as (j & Hj). destruct (R2 j t Hj) as (c1 & p1 & A & B). rewrite Hp in A. injection A as <- <-.
      change (partB cs own (XReply t (LObject r) :: x)) with ((match idx t own with Some j => [DReply j r] | None => [] end) ++ partB cs own x).
      rewrite (idx_at own j t Hnd) by (subst own; now apply lookup_app_l_Some). apply dc_reply; [exact B|exact H].
    - exact (IH Hi Hok Hcs (fun t0 r0 Hin => Htb t0 r0 (or_intror Hin)) own0 own Q Hown Hnd HR).
  Qed.
  (** *** The index *)
  Record RC (own : list nat) (P : list thr) (Q : list (prog W (res ix_reply))) : Prop := mkRC {
    rc_len : length own = length Q;
    rc_at : forall j t, own !! j = Some t -> exists c p, P !! t = Some (TIx c p) /\ Q !! j = Some p;
    rc_all : forall t c p, P !! t = Some (TIx c p) -> t ∈ own }.
  Lemma rc_other own P Q t th0 th : RC own P Q -> P !! t = Some th0 -> (forall c p, th0 <> TIx c p) -> (forall c p, th <> TIx c p) -> RC own (<[t := th]> P) Q.
  Proof.
    intros [R1 R2 R3] Ht H0 H1. constructor; [exact R1|..].
    - intros j t' Hj. destruct (R2 j t' Hj) as (c & p & A & B). destruct (decide (t' = t)) as [->|Hne]; [rewrite Ht in A; injection A as ->; exfalso; eapply H0; reflexivity|].
      exists c, p. rewrite list_lookup_insert_ne by congruence. auto.
    - intros t' c p Hp. destruct (decide (t' = t)) as [->|Hne]; [rewrite list_lookup_insert in Hp by (eapply lookup_lt_Some; eauto); injection Hp as ->; exfalso; eapply H1; reflexivity|].
      rewrite list_lookup_insert_ne in Hp by congruence. eauto.
  Qed.
  Lemma rc_more own P Q th : RC own P Q -> (forall c p, th <> TIx c p) -> RC own (P ++ [th]) Q.
  Proof.
    intros [R1 R2 R3] H1. constructor; [exact R1|..].
    - intros j t' Hj. destruct (R2 j t' Hj) as (c & p & A & B). exists c, p. split; [now apply lookup_app_l_Some|exact B].
    - intros t' c p Hp. apply lookup_app_Some in Hp as [Hp|[_ Hp]]; [eauto|]. destruct (t' - length P)%nat; [|discriminate]. injection Hp as ->. exfalso. eapply H1; reflexivity.
  Qed.
  Lemma run_C P w x P' w' : srun P w x P' w' -> v_inv v (w_io w) -> all_ok v P -> cs = map tcall P ++ xcalls x -> (forall t r, In (XKnown t r) x -> tb t = r) ->
    forall own0 own Q, own = own0 ++ ownC cs x -> NoDup own -> RC own0 P Q -> exists Q', ix_conc e v idp' (l_iek L) fuel io Q w (partC cs own x) Q' w'.
  Proof.
    induction 1 as [P w|P w w1 x P' w' Hs _ IH|c P w x P' w' _ IH|t c X f q P w x P' w' Hp _ IH|t c X f q P w x P' w' Hp _ IH|t c X f q P w x P' w' Hp _ IH|t c X f q P w x P' w' Hp _ IH|
      t c r P w x P' w' Hp _ IH|t c r P w x P' w' Hp _ IH|t c r P w x P' w' Hp _ IH|t c r P w x P' w' Hp _ IH]; intros Hi Hok Hcs Htb own0 own Q Hown Hnd HR.
    - exists Q. constructor.
    - apply spared_shift in Hs. destruct (IH (proj1 Hs) Hok Hcs Htb own0 own Q Hown Hnd HR) as (Q' & H). exists Q'. eapply IndexConcSpec.ic_env; [|exact H].
      eapply shift_around; [|exact Hs]. unfold lib_data. tauto.
    - eapply (IH Hi (ok_call e v io Hio Hew L P c Hok)); [|intros; apply Htb; now right|exact Hown|exact Hnd|].
      + rewrite map_app. cbn [map]. rewrite start_call, <- app_assoc. exact Hcs.
      + apply rc_more; [exact HR|]. destruct c; discriminate.
    - destruct (step_ok _ _ _ _ w Hi (ok_at v _ _ _ Hok Hp)) as [Hs Ht]. destruct (IH (proj1 Hs)) with (own0 := own0) (own := own) (Q := Q) as (Q' & H); try assumption.
      + now apply ok_insert.
      + now rewrite (calls_insert _ _ _ (TId c (q (fst (f w)))) Hp eq_refl).
      + eapply rc_other; [exact HR|exact Hp|discriminate|discriminate].
      + exists Q'. eapply IndexConcSpec.ic_env; [|exact H]. eapply shift_around; [|exact Hs]. intros dt [->| ->] E; discriminate E.
    - destruct (ok_at v _ _ _ Hok Hp) as [Hth Hni]. destruct (step_ok _ _ _ _ w Hi Hth) as [Hs Ht]. destruct (IH (proj1 Hs)) with (own0 := own0) (own := own) (Q := Q) as (Q' & H); try assumption.
      + apply ok_insert; [exact Hok|split; assumption].
      + now rewrite (calls_insert _ _ _ (TLook c (q (fst (f w)))) Hp eq_refl).
      + eapply rc_other; [exact HR|exact Hp|discriminate|discriminate].
      + exists Q'. eapply IndexConcSpec.ic_env; [|exact H]. eapply shift_around; [|exact Hs]. intros dt [].
    - destruct (step_ok _ _ _ _ w Hi (ok_at v _ _ _ Hok Hp)) as [Hs Ht]. destruct (IH (proj1 Hs)) with (own0 := own0) (own := own) (Q := Q) as (Q' & H); try assumption.
      + now apply ok_insert.
      + now rewrite (calls_insert _ _ _ (TObj c (q (fst (f w)))) Hp eq_refl).
      + eapply rc_other; [exact HR|exact Hp|discriminate|discriminate].
      + exists Q'. eapply IndexConcSpec.ic_env; [|exact H]. eapply shift_around; [|exact Hs]. intros dt [->| ->] E; discriminate E.
    - destruct (step_ok _ _ _ _ w Hi (ok_at v _ _ _ Hok Hp)) as [Hs Ht]. pose proof HR as [R1 R2 R3].
      pose proof (R3 t c _ Hp) as Hin. apply elem_of_list_lookup in Hin as (j & Hj). destruct (R2 j t Hj) as (c1 & p1 & A & B). rewrite Hp in A. injection A as <- <-.
      destruct (IH (proj1 Hs)) with (own0 := own0) (own := own) (Q := <[j := q (fst (f w))]> Q) as (Q' & H); try assumption.
      + now apply ok_insert.
      + now rewrite (calls_insert _ _ _ (TIx c (q (fst (f w)))) Hp eq_refl).
      + constructor; [now rewrite insert_length|..].
        * intros j' t' Hj'. destruct (R2 j' t' Hj') as (c1 & p1 & A & B1). destruct (decide (t' = t)) as [->|Hne].
          -- assert (j' = j) as ->.
             { eapply nodup_at; [exact Hnd|subst own; apply lookup_app_l_Some; exact Hj'|subst own; apply lookup_app_l_Some; exact Hj]. }
             exists c, (q (fst (f w))). split; apply list_lookup_insert; eapply lookup_lt_Some; eauto.
          -- exists c1, p1. rewrite list_lookup_insert_ne by congruence. rewrite list_lookup_insert_ne by (intros ->; congruence). auto.
        * intros t' c1 p1 Hp1. destruct (decide (t' = t)) as [->|Hne]; [apply elem_of_list_lookup; eauto|]. rewrite list_lookup_insert_ne in Hp1 by congruence. eauto.
      + exists Q'. eapply IndexConcSpec.ic_step; [exact B|exact H].
    - destruct (ok_at v _ _ _ Hok Hp) as [Hth Hni]. pose proof (calls_at P t _ (XKnown t r :: x) Hcs Hp) as Hc. cbn [tcall] in Hc.
      assert (HO : all_ok v (<[t := begun r c]> P)) by (apply ok_insert; [exact Hok|]; now apply begun_ok).
      assert (HC : cs = map tcall (<[t := begun r c]> P) ++ xcalls x).
      { change (cs = map tcall P ++ xcalls x) in Hcs. rewrite (calls_insert _ _ _ (begun r c) Hp); [exact Hcs|apply begun_call]. }
      assert (HT : forall t0 r0, In (XKnown t0 r0) x -> tb t0 = r0) by (intros; apply Htb; now right).
      change (ownC cs (XKnown t r :: x)) with ((match cs !! t with Some (OnIndex _) => [t] | _ => [] end) ++ ownC cs x) in Hown.
      change (partC cs own (XKnown t r :: x)) with ((match cs !! t with Some (OnIndex c) => [OCall (ix_retok t c)] | _ => [] end) ++ partC cs own x).
      rewrite Hc in *. destruct c as [c|c|c].
      + destruct (IH Hi HO HC HT own0 own Q Hown Hnd) as (Q' & H); [|exists Q'; exact H]. eapply rc_other; [exact HR|exact Hp|discriminate|cbn; discriminate].
      + rewrite app_assoc in Hown. pose proof HR as [R1 R2 R3].
        assert (Hfr : t ∉ own0). { intros Hin. apply elem_of_list_lookup in Hin as (j & Hj). destruct (R2 j t Hj) as (c1 & p1 & A & _). congruence. }
        destruct (IH Hi HO HC HT (own0 ++ [t]) own (Q ++ [ix_do e io idp' (l_iek L) fuel (ix_retok t c)]) Hown Hnd) as (Q' & H).
        * constructor; [rewrite !app_length; cbn; lia|..].
          -- intros j t' Hj. apply lookup_app_Some in Hj as [Hj|[Hle Hj]].
             ++ destruct (R2 j t' Hj) as (c1 & p1 & A & B). exists c1, p1. assert (t' <> t) by (intros ->; congruence). rewrite list_lookup_insert_ne by congruence.
                split; [exact A|now apply lookup_app_l_Some].
             ++ destruct (j - length own0)%nat eqn:Ej; [|discriminate]. injection Hj as <-. eexists c, _. split; [apply list_lookup_insert; eapply lookup_lt_Some; eauto|].
                rewrite lookup_app_r by lia. replace (j - length Q)%nat with 0%nat by lia. cbn. f_equal. rewrite ix_retok_do. now rewrite (Htb t r ltac:(now left)).
          -- intros t' c1 p1 Hp1. apply elem_of_app. destruct (decide (t' = t)) as [->|Hne]; [right; now left|left]. rewrite list_lookup_insert_ne in Hp1 by congruence. eauto.
        * exists Q'. apply IndexConcSpec.ic_call. exact H.
      + exfalso. now apply (Hni c).
    - exact (IH Hi Hok Hcs (fun t0 r0 Hin => Htb t0 r0 (or_intror Hin)) own0 own Q Hown Hnd HR).
    - exact (IH Hi Hok Hcs (fun t0 r0 Hin => Htb t0 r0 (or_intror Hin)) own0 own Q Hown Hnd HR).

    - destruct (IH Hi Hok Hcs (fun t0 r0 Hin => Htb t0 r0 (or_intror Hin)) own0 own Q Hown Hnd HR) as (Q' & H). exists Q'. pose proof HR as [R1 R2 R3].
      pose proof (R3 t c _ Hp) as Hin. apply elem_of_list_lookup in Hin as (j & Hj). destruct (R2 j t Hj) as (c1 & p1 & A & B). rewrite Hp in A. injection A as <- <-.
      change (partC cs own (XReply t (LIndex r) :: x)) with ((match idx t own with Some j => [OReply j r] | None => [] end) ++ partC cs own x).
      rewrite (idx_at own j t Hnd) by (subst own; now apply lookup_app_l_Some). apply IndexConcSpec.ic_reply; [exact B|exact H].
  Qed.
End Parts.
