(** Every call of the library, with its lines, does what it does without them. *)
From stdpp Require Import gmap.
From Verif Require Import Bytes Go Json Uuid Time World Types Cryptor Id Data D1 Spec Index IndexSpec Password Standalone Slices Lib LibSpec LibHist Log LogSpec LogProofs.
Local Open Scope bool_scope.
Local Open Scope N_scope.
Local Open Scope go_scope.

Section Calls.
  Context {S I : Type} (txt : bytes -> bytes) (room : nat -> list byte) (who : nat).
  Context (e : env) (io : provider S) (L : lib) (fuel : nat) (c : lib_call).
  Notation W := (world S I).
  Notation LW := (logs * world S I)%type.
  Notation ent := (option logger * list (bytes * bytes))%type.
  Notation okf := (own_field (I:=I) e io L c).
  Notation okd := (own_detail (I:=I) e io L c).
  Definition okl (fs : list (bytes * bytes)) : Prop := exists fs', fs = (str "method", method_of c) :: fs' /\ Forall okf fs'.
  Notation tr := (traced (S:=S) (I:=I) txt room who okl okd).
  Notation idp := (sa_idp e io (l_sa L) : bytes -> prog W (res identity)).
  Notation idp_l := (lib_idp_l (I:=I) txt room who e io L).

  Lemma okl_next fs f : okl fs -> okf f -> okl (fs ++ [f]).
  Proof. intros (fs' & -> & H) Hf. exists (fs' ++ [f]). split; [reflexivity|]. apply List.Forall_app. auto. Qed.
  Lemma okl_first : okl ([] ++ [(str "method", method_of c)]).
  Proof. exists []. split; [reflexivity|constructor]. Qed.
  Lemma keeps_trans {A} (G0 G1 G2 : list ent) (a b : A) G : G1 = G2 ++ G0 -> keeps G1 a b G -> keeps G0 a b G.
  Proof. intros -> (-> & G3 & ->). split; [reflexivity|]. exists (G3 ++ G2). now rewrite app_assoc. Qed.
  Lemma traced_tail {A} (G0 G1 G2 : list ent) (p : prog LW A) q : G1 = G2 ++ G0 -> tr (keeps G1) G1 p q -> tr (keeps G0) G1 p q.
  Proof. intros E. apply traced_mono. intros a b G. now apply keeps_trans with G2. Qed.

  Local Hint Constructors own_detail : core.
  Ltac det := solve [apply od_none | eauto | apply od_count; eauto].
  Ltac prefix := first [ exists []; reflexivity | eexists [_]; reflexivity | eexists [_;_]; reflexivity | eexists [_;_;_]; reflexivity | eexists [_;_;_;_]; reflexivity ].
  Ltac fin := split; [reflexivity|prefix].
  Ltac tail T := first
    [ apply (traced_tail _ _ []); [reflexivity|T] | eapply (traced_tail _ _ [_]); [reflexivity|T]
    | eapply (traced_tail _ _ [_;_]); [reflexivity|T] | eapply (traced_tail _ _ [_;_;_]); [reflexivity|T] | eapply (traced_tail _ _ [_;_;_;_]); [reflexivity|T] ].
  (* [T] deals with a call of another instrumented function. *)
  Ltac one T := cbv zeta; lazymatch goal with
    | |- traced _ _ _ _ _ _ _ (bind (say _ _ _ _) _) _ => apply traced_say; [assumption|det|]
    | |- traced _ _ _ _ _ _ _ (bind (on_snd _) _) _ => eapply traced_seq; [apply traced_snd|intros ? ?]
    | |- traced _ _ _ _ _ _ _ (bindR (on_snd _) _) _ => eapply traced_seqR; [apply traced_snd|intros ? ?|intros; fin|fin]
    | |- traced _ _ _ _ _ _ _ (bindR (lift _) _) _ => eapply traced_seqR; [apply traced_ret|intros ? ?|intros; fin|fin]
    | |- traced _ _ _ _ _ _ _ (bindR (map_err _ (lift _)) _) _ => eapply traced_seqR; [apply traced_map_err, traced_ret|intros ? ?|intros; fin|fin]
    | |- traced _ _ _ _ _ _ _ (bindR (map_err _ (on_snd _)) _) _ => eapply traced_seqR; [apply traced_map_err, traced_snd|intros ? ?|intros; fin|fin]
    | |- traced _ _ _ _ _ _ _ (Ret _) _ => apply tr_ret; fin
    | |- traced _ _ _ _ _ _ _ (on_snd _) _ => tail ltac:(apply traced_snd)
    | |- traced _ _ _ _ _ _ _ (match ?x with _ => _ end) _ => destruct x
    | |- traced _ _ _ _ _ _ _ (bindR (map_err _ _) _) _ => eapply traced_seqR; [apply traced_map_err; T|intros ? ?|intros; fin|fin]
    | |- traced _ _ _ _ _ _ _ (bindR _ _) _ => eapply traced_seqR; [T|intros ? ?|intros; fin|fin]
    | |- traced _ _ _ _ _ _ _ (bind _ _) _ => eapply traced_seq; [T|intros ? ?]
    | |- traced _ _ _ _ _ _ _ _ _ => tail T
    end.
  Tactic Notation "go" tactic3(T) := repeat one T.

  (** ** The identity provider *)
  Section Identities.
    Context (uc gc tc : cryptor W).
    Lemma tr_put_user ctx fs G uid u upd : okl fs ->
      tr (keeps ((ctx, fs) :: G)) ((ctx, fs) :: G) (put_user_l who io uc ctx uid u upd) (put_user io uc uid u upd).
    Proof. intros O. unfold put_user_l, put_user. go idtac. Qed.
    Lemma tr_get_user ctx fs G uid : okl fs ->
      tr (keeps ((ctx, fs) :: G)) ((ctx, fs) :: G) (get_user_l who io uc ctx uid) (get_user io uc uid).
    Proof. intros O. unfold get_user_l, get_user. go idtac. Qed.
    Lemma tr_put_group ctx fs G gid g : okl fs ->
      tr (keeps ((ctx, fs) :: G)) ((ctx, fs) :: G) (put_group_l who io gc ctx gid g) (put_group io gc gid g).
    Proof. intros O. unfold put_group_l, put_group. go idtac. Qed.
    Lemma tr_get_group ctx fs G gid : okl fs ->
      tr (keeps ((ctx, fs) :: G)) ((ctx, fs) :: G) (get_group_l who io gc ctx gid) (get_group io gc gid).
    Proof. intros O. unfold get_group_l, get_group. go idtac. Qed.
    Lemma tr_get_groups ctx fs G gids acc : okl fs ->
      tr (keeps ((ctx, fs) :: G)) ((ctx, fs) :: G) (get_groups_l who io gc ctx gids acc) (get_groups io gc gids acc).
    Proof.
      intros O. revert acc. induction gids as [|gid gids IH]; intros acc; cbn [get_groups_l get_groups]; [go idtac|].
      one ltac:(now apply tr_get_group). apply IH.
    Qed.
    Lemma tr_get_identity ctx fs G tok : lib_token c = Some tok -> okl (fs ++ [(str "method", str "get identity")]) ->
      tr (keeps ((ctx, fs) :: G)) ((ctx, fs) :: G) (sa_get_identity_l txt room who e io uc gc tc ctx tok) (sa_get_identity e io uc gc tc tok).
    Proof.
      intros Ht O. unfold sa_get_identity_l, sa_get_identity, any_err, with_method, copy_ctx_logger. apply traced_field. intros ctx'.
      assert (N : lib_token c <> None) by congruence.
      go (first [now apply tr_get_user|now apply tr_get_groups]).
    Qed.
    (* a call within an operation *)
    Ltac sub := idtac; lazymatch goal with
      | |- traced _ _ _ _ _ _ _ (get_user_l _ _ _ _ _) _ => apply tr_get_user; assumption
      | |- traced _ _ _ _ _ _ _ (put_user_l _ _ _ _ _ _ _) _ => apply tr_put_user; assumption
      | |- traced _ _ _ _ _ _ _ (put_group_l _ _ _ _ _ _) _ => apply tr_put_group; assumption
      | |- traced _ _ _ _ _ _ _ (sa_get_identity_l _ _ _ _ _ _ _ _ _ _) _ =>
          apply tr_get_identity; [assumption|apply okl_next; [assumption|eapply of_lookup; eassumption]] end.
    Lemma tr_sa_do ctx G s : c = OnIdentity s ->
      tr (keeps ((ctx, []) :: G)) ((ctx, []) :: G) (sa_do_l txt room who e io uc gc tc ctx s) (sa_do e io uc gc tc s).
    Proof.
      intros Hc. assert (X : exists s0, c = OnIdentity s0) by eauto.
      assert (O : okl ([] ++ [(str "method", method_of (OnIdentity s))])) by (rewrite <- Hc; apply okl_first).
      assert (T : forall tok, lib_token (OnIdentity s) = Some tok -> lib_token c = Some tok) by now rewrite Hc.
      destruct s; cbn [method_of] in O; cbn [lib_token] in T; unfold sa_do_l, sa_do, map_l, ret_map;
        try specialize (T _ eq_refl); (eapply traced_seq; [|intros; apply tr_ret; fin]).
      - unfold sa_new_user_l, sa_new_user, with_method, copy_ctx_logger. apply traced_field. intros ctx1. set (fs1 := [] ++ _) in *. clearbody fs1. go sub.
      - unfold sa_login_l, sa_login, with_method, copy_ctx_logger, any_err. apply traced_field. intros ctx1. set (fs1 := [] ++ _) in *. clearbody fs1.
        tail ltac:(apply traced_map_err). go sub.
      - unfold sa_change_password_l, sa_change_password, with_method, copy_ctx_logger, any_err. apply traced_field. intros ctx1. set (fs1 := [] ++ _) in *. clearbody fs1. go sub.
      - unfold sa_add_user_l, sa_add_user, with_method, copy_ctx_logger. apply traced_field. intros ctx1. set (fs1 := [] ++ _) in *. clearbody fs1. go sub.
      - unfold sa_remove_user_l, sa_remove_user, with_method, copy_ctx_logger. apply traced_field. intros ctx1. set (fs1 := [] ++ _) in *. clearbody fs1. go sub.
      - unfold sa_delete_user_l, sa_delete_user, with_method, copy_ctx_logger. apply traced_field. intros ctx1. set (fs1 := [] ++ _) in *. clearbody fs1. go sub.
      - unfold sa_new_group_l, sa_new_group, with_method, copy_ctx_logger. apply traced_field. intros ctx1. set (fs1 := [] ++ _) in *. clearbody fs1. go sub.
      - now apply tr_get_identity.
    Qed.
  End Identities.

  (** ** Objects *)
  Lemma tr_idp ctx fs G tok : lib_token c = Some tok -> okl fs -> tr (keeps ((ctx, fs) :: G)) ((ctx, fs) :: G) (idp_l ctx tok) (idp tok).
  Proof. intros Ht O. apply tr_get_identity; [exact Ht|]. apply okl_next; [exact O|]. eapply of_lookup; eassumption. Qed.
  Lemma tr_verify {A B} (P : res A -> res B -> list ent -> Prop) ctx fs G tok scope k k' :
    lib_token c = Some tok -> scope_needed c = Some scope -> okl fs ->
    (forall i ctx' fs', okl fs' -> tr P ((ctx', fs') :: (ctx, fs) :: G) (k (i, ctx')) (k' i)) ->
    (forall x, P (Err x) (Err x) ((ctx, fs) :: G)) -> P Panic Panic ((ctx, fs) :: G) ->
    tr P ((ctx, fs) :: G) (bindR (verify_access_l txt room who idp_l ctx tok scope) k) (bindR (verify_access idp tok scope) k').
  Proof.
    intros Ht Hs O Hk He Hp. unfold bindR. eapply traced_bind with
      (P1 := fun a b G1 => match a, b with
        | Ok (i, ctx'), Ok i' => i' = i /\ okl (fs ++ [(str "uid", i_id i)]) /\ G1 = (ctx', fs ++ [(str "uid", i_id i)]) :: (ctx, fs) :: G
        | Err x, Err y => y = x /\ exists G2, G1 = G2 ++ (ctx, fs) :: G
        | Panic, Panic => G1 = (ctx, fs) :: G
        | _, _ => False end).
    - unfold verify_access_l, verify_access. apply traced_say; [exact O|constructor|]. eapply traced_seq; [now apply tr_idp|].
      intros [i|x|] M.
      + unfold with_user_id. apply traced_field. intros ctx'.
        assert (O' : okl (fs ++ [(str "uid", i_id i)])) by (apply okl_next; [exact O|]; eapply of_caller; eassumption).
        apply traced_say; [exact O'|constructor|]. destruct (scope_contains _ _); [apply tr_ret; auto|].
        apply traced_say; [exact O'|now apply od_scope|]. apply tr_ret. split; [reflexivity|]. now eexists [_].
      + apply traced_say; [exact O|eapply od_error; eassumption|]. apply tr_ret. split; [reflexivity|]. now exists [].
      + apply tr_ret. reflexivity.
    - intros [[i ctx']|x|] [i'|y|] G1 _ K; try contradiction.
      + destruct K as (-> & O' & ->). apply Hk. exact O'.
      + destruct K as (-> & G2 & ->). apply tr_drop. apply tr_ret. apply He.
      + subst G1. apply tr_ret. exact Hp.
  Qed.
  Lemma tr_ix_verify {A B} (P : res A -> res B -> list ent -> Prop) ctx fs G tok k k' :
    lib_token c = Some tok -> scope_needed c = Some ScopeIndex -> okl fs ->
    (forall ctx' fs', okl fs' -> tr P ((ctx', fs') :: (ctx, fs) :: G) (k ctx') (k' tt)) ->
    (forall x, P (Err x) (Err x) ((ctx, fs) :: G)) -> P Panic Panic ((ctx, fs) :: G) ->
    tr P ((ctx, fs) :: G) (bindR (ix_verify_l txt room who idp_l ctx tok) k) (bindR (ix_verify idp tok) k').
  Proof.
    intros Ht Hs O Hk He Hp. unfold bindR. eapply traced_bind with
      (P1 := fun a (b : res unit) G1 => match a, b with
        | Ok ctx', Ok _ => exists uid, okl (fs ++ [(str "uid", uid)]) /\ G1 = (ctx', fs ++ [(str "uid", uid)]) :: (ctx, fs) :: G
        | Err x, Err y => y = x /\ exists G2, G1 = G2 ++ (ctx, fs) :: G
        | Panic, Panic => G1 = (ctx, fs) :: G
        | _, _ => False end).
    - unfold ix_verify_l, ix_verify. apply traced_say; [exact O|constructor|]. eapply traced_seq; [now apply tr_idp|].
      intros [i|x|] M.
      + unfold with_user_id. apply traced_field. intros ctx'.
        assert (O' : okl (fs ++ [(str "uid", i_id i)])) by (apply okl_next; [exact O|]; eapply of_caller; eassumption).
        apply traced_say; [exact O'|constructor|]. destruct (scope_contains _ _); [apply tr_ret; eauto|].
        apply traced_say; [exact O'|now apply od_scope|]. apply tr_ret. split; [reflexivity|]. now eexists [_].
      + apply traced_say; [exact O|eapply od_error; eassumption|]. apply tr_ret. split; [reflexivity|]. now exists [].
      + apply tr_ret. reflexivity.
    - intros [ctx'|x|] [[]|y|] G1 _ K; try contradiction.
      + destruct K as (uid & O' & ->). apply Hk. exact O'.
      + destruct K as (-> & G2 & ->). apply tr_drop. apply tr_ret. apply He.
      + subst G1. apply tr_ret. exact Hp.
  Qed.

  Section Objects.
    Context (oc ac tc : cryptor W).
    Ltac leaf := intros; unfold authorize_access_l, put_sealed_object_l, get_sealed_object_l, delete_sealed_object_l, put_sealed_access_l,
      get_sealed_access_l, delete_sealed_access_l; go idtac.
    Lemma tr_authorize ctx fs G i sc sa : okl fs -> tr (keeps ((ctx, fs) :: G)) ((ctx, fs) :: G) (authorize_access_l who ac ctx i sc sa) (authorize_access ac i sc sa).
    Proof. leaf. Qed.
    Lemma tr_put_object ctx fs G so u : okl fs -> tr (keeps ((ctx, fs) :: G)) ((ctx, fs) :: G) (put_sealed_object_l who io ctx so u) (put_sealed_object io so u).
    Proof. leaf. Qed.
    Lemma tr_get_object ctx fs G oid : okl fs -> tr (keeps ((ctx, fs) :: G)) ((ctx, fs) :: G) (get_sealed_object_l who io ctx oid) (get_sealed_object io oid).
    Proof. leaf. Qed.
    Lemma tr_del_object ctx fs G oid : okl fs -> tr (keeps ((ctx, fs) :: G)) ((ctx, fs) :: G) (delete_sealed_object_l who io ctx oid) (delete_sealed_object io oid).
    Proof. leaf. Qed.
    Lemma tr_put_access ctx fs G so u : okl fs -> tr (keeps ((ctx, fs) :: G)) ((ctx, fs) :: G) (put_sealed_access_l who io ctx so u) (put_sealed_access io so u).
    Proof. leaf. Qed.
    Lemma tr_get_access ctx fs G oid : okl fs -> tr (keeps ((ctx, fs) :: G)) ((ctx, fs) :: G) (get_sealed_access_l who io ctx oid) (get_sealed_access io oid).
    Proof. leaf. Qed.
    Lemma tr_del_access ctx fs G oid : okl fs -> tr (keeps ((ctx, fs) :: G)) ((ctx, fs) :: G) (delete_sealed_access_l who io ctx oid) (delete_sealed_access io oid).
    Proof. leaf. Qed.
    Ltac sub := idtac; lazymatch goal with
      | |- traced _ _ _ _ _ _ _ (authorize_access_l _ _ _ _ _ _) _ => apply tr_authorize; assumption
      | |- traced _ _ _ _ _ _ _ (put_sealed_object_l _ _ _ _ _) _ => apply tr_put_object; assumption
      | |- traced _ _ _ _ _ _ _ (get_sealed_object_l _ _ _ _) _ => apply tr_get_object; assumption
      | |- traced _ _ _ _ _ _ _ (delete_sealed_object_l _ _ _ _) _ => apply tr_del_object; assumption
      | |- traced _ _ _ _ _ _ _ (put_sealed_access_l _ _ _ _ _) _ => apply tr_put_access; assumption
      | |- traced _ _ _ _ _ _ _ (get_sealed_access_l _ _ _ _) _ => apply tr_get_access; assumption
      | |- traced _ _ _ _ _ _ _ (delete_sealed_access_l _ _ _ _) _ => apply tr_del_access; assumption end.
    Lemma tr_d1_do ctx G d : c = OnObject d ->
      tr (keeps ((ctx, []) :: G)) ((ctx, []) :: G) (d1_do_l txt room who e io idp_l oc ac tc ctx d) (d1_do e io idp oc ac tc d).
    Proof.
      intros Hc. assert (O : okl ([] ++ [(str "method", method_of (OnObject d))])) by (rewrite <- Hc; apply okl_first).
      assert (T : forall tok, call_token d = Some tok -> lib_token c = Some tok) by now rewrite Hc.
      assert (Sc : forall s, scope_needed (OnObject d) = Some s -> scope_needed c = Some s) by now rewrite Hc.
      assert (Gn : forall gs, groups_named (OnObject d) = Some gs -> groups_named c = Some gs) by now rewrite Hc.
      assert (Od : forall fs o, call_oid d = Some o -> okl fs -> okl (fs ++ [(str "oid", uuid_text o)])).
      { intros fs o Ho Hf. apply okl_next; [exact Hf|]. eapply of_object; eassumption. }
      destruct d; cbn [method_of] in O; cbn [call_token scope_needed groups_named call_oid] in T, Sc, Gn, Od; unfold d1_do_l, d1_do, map_l, ret_map;
        try specialize (T _ eq_refl); try specialize (Sc _ eq_refl); try specialize (Gn _ eq_refl); (eapply traced_seq; [|intros; apply tr_ret; fin]).
      - unfold d1_encrypt_l, d1_encrypt, with_method, copy_ctx_logger, with_object_id. apply traced_field. intros ctx1. set (fs1 := [] ++ _) in *. clearbody fs1.
        apply tr_verify; [exact T|exact Sc|exact O| |intros; fin|fin]. intros i ctx2 fs2 O2.
        one idtac. match goal with H : may _ (Ok ?o) |- _ => rename o into oid, H into Hoid end. apply traced_field. intros ctx3.
        assert (O3 := okl_next _ _ O2 (of_new_object _ _ _ _ _ _ _ _ Hc Hoid)). set (fs3 := fs2 ++ _) in *. clearbody fs3. go sub.
      - unfold d1_update_l, d1_update, with_method, copy_ctx_logger, with_object_id. apply traced_field; intros ctx0. set (fs0 := [] ++ _) in *. clearbody fs0. apply traced_field; intros ctx1. specialize (Od _ _ eq_refl O). set (fs1 := fs0 ++ _) in *. clearbody fs1.
        apply tr_verify; [exact T|exact Sc|exact Od| |intros; fin|fin]. intros i ctx2 fs2 O2. go sub.
      - unfold d1_decrypt_l, d1_decrypt, with_method, copy_ctx_logger, with_object_id. apply traced_field; intros ctx0. set (fs0 := [] ++ _) in *. clearbody fs0. apply traced_field; intros ctx1. specialize (Od _ _ eq_refl O). set (fs1 := fs0 ++ _) in *. clearbody fs1.
        apply tr_verify; [exact T|exact Sc|exact Od| |intros; fin|fin]. intros i ctx2 fs2 O2. go sub.
      - unfold d1_delete_l, d1_delete, with_method, copy_ctx_logger, with_object_id. apply traced_field; intros ctx0. set (fs0 := [] ++ _) in *. clearbody fs0. apply traced_field; intros ctx1. specialize (Od _ _ eq_refl O). set (fs1 := fs0 ++ _) in *. clearbody fs1.
        apply tr_verify; [exact T|exact Sc|exact Od| |intros; fin|fin]. intros i ctx2 fs2 O2. go sub.
      - unfold d1_get_access_groups_l, d1_get_access_groups, with_method, copy_ctx_logger, with_object_id. apply traced_field; intros ctx0. set (fs0 := [] ++ _) in *. clearbody fs0. apply traced_field; intros ctx1. specialize (Od _ _ eq_refl O). set (fs1 := fs0 ++ _) in *. clearbody fs1.
        apply tr_verify; [exact T|exact Sc|exact Od| |intros; fin|fin]. intros i ctx2 fs2 O2. go sub.
      - unfold d1_add_groups_l, d1_add_groups, with_method, copy_ctx_logger, with_object_id. apply traced_field; intros ctx0. set (fs0 := [] ++ _) in *. clearbody fs0. apply traced_field; intros ctx1. specialize (Od _ _ eq_refl O). set (fs1 := fs0 ++ _) in *. clearbody fs1.
        apply tr_verify; [exact T|exact Sc|exact Od| |intros; fin|fin]. intros i ctx2 fs2 O2. go sub.
      - unfold d1_remove_groups_l, d1_remove_groups, with_method, copy_ctx_logger, with_object_id. apply traced_field; intros ctx0. set (fs0 := [] ++ _) in *. clearbody fs0. apply traced_field; intros ctx1. specialize (Od _ _ eq_refl O). set (fs1 := fs0 ++ _) in *. clearbody fs1.
        apply tr_verify; [exact T|exact Sc|exact Od| |intros; fin|fin]. intros i ctx2 fs2 O2. go sub.
      - unfold d1_authorize_l, d1_authorize, with_method, copy_ctx_logger, with_object_id. apply traced_field; intros ctx0. set (fs0 := [] ++ _) in *. clearbody fs0. apply traced_field; intros ctx1. specialize (Od _ _ eq_refl O). set (fs1 := fs0 ++ _) in *. clearbody fs1.
        apply tr_verify; [exact T|exact Sc|exact Od| |intros; fin|fin]. intros i ctx2 fs2 O2. go sub.
      - unfold d1_create_token_l, d1_create_token, with_method, copy_ctx_logger. apply traced_field. intros ctx1. set (fs1 := [] ++ _) in *. clearbody fs1. go sub.
      - unfold d1_get_token_contents_l, d1_get_token_contents, with_method, copy_ctx_logger. apply traced_field. intros ctx1. set (fs1 := [] ++ _) in *. clearbody fs1. go sub.
    Qed.
  End Objects.

  (** ** Indexes *)
  Section Indexes.
    Context (tk kek : bytes) (ctx : option logger) (fs : list (bytes * bytes)) (G : list ent) (O : okl fs).
    Notation like p q := (tr (keeps ((ctx, fs) :: G)) ((ctx, fs) :: G) p q).
    Lemma tr_put_node l sn u : like (put_sealed_node_l who io ctx l sn u) (put_sealed_node io l sn u).
    Proof. unfold put_sealed_node_l. go idtac. Qed.
    Lemma tr_get_node l : like (get_sealed_node_l who io ctx l) (get_sealed_node io l).
    Proof. unfold get_sealed_node_l. go idtac. Qed.
    Lemma tr_del_node l : like (delete_sealed_node_l who io ctx l) (delete_sealed_node io l).
    Proof. unfold delete_sealed_node_l. go idtac. Qed.
    Lemma tr_next_node n : like (get_next_node_l who e io tk kek ctx n) (get_next_node e io tk kek n).
    Proof. unfold get_next_node_l, get_next_node. go (apply tr_get_node). Qed.
    Lemma tr_last_node f n : like (get_last_node_l who e io tk kek ctx f n) (get_last_node e io tk kek f n).
    Proof. revert n. induction f as [|f IH]; intros n; cbn [get_last_node_l get_last_node]; go (first [apply tr_next_node|apply IH]). Qed.
    Lemma tr_search_loop f n l : like (search_loop_l who e io tk kek ctx f n l) (search_loop e io tk kek f n l).
    Proof. revert n l. induction f as [|f IH]; intros n l; cbn [search_loop_l search_loop]; go (first [apply tr_next_node|apply IH]). Qed.
    Lemma tr_delete_node l n : like (delete_node_l who e io tk kek ctx l n) (delete_node e io tk kek l n).
    Proof. unfold delete_node_l, delete_node. go (first [apply tr_next_node|apply tr_put_node|apply tr_del_node]). Qed.
    Lemma tr_delete_loop f n x : like (delete_loop_l who e io tk kek ctx f n x) (delete_loop e io tk kek f n x).
    Proof. revert n. induction f as [|f IH]; intros n; cbn [delete_loop_l delete_loop]; go (first [apply tr_next_node|apply tr_delete_node|apply IH]). Qed.
  End Indexes.
  Lemma tr_ix_do iek f ctx G i : c = OnIndex i ->
    tr (keeps ((ctx, []) :: G)) ((ctx, []) :: G) (ix_do_l txt room who e io idp_l iek f ctx i) (ix_do e io idp iek f i).
  Proof.
    intros Hc. assert (O : okl ([] ++ [(str "method", method_of (OnIndex i))])) by (rewrite <- Hc; apply okl_first).
    assert (T : lib_token c = Some (ix_token i)) by now rewrite Hc.
    assert (Sc : scope_needed c = Some ScopeIndex) by now rewrite Hc.
    destruct i; cbn [method_of] in O; cbn [ix_token] in T; unfold ix_do_l, ix_do, map_l, ret_map; (eapply traced_seq; [|intros; apply tr_ret; fin]).
    - unfold ix_add_l, ix_add, with_method, copy_ctx_logger. apply traced_field. intros ctx1. set (fs1 := [] ++ _) in *. clearbody fs1.
      apply tr_ix_verify; [exact T|exact Sc|exact O| |intros; fin|fin]. intros ctx2 fs2 O2. go (first [now apply tr_last_node|now apply tr_put_node]).
    - unfold ix_search_l, ix_search, with_method, copy_ctx_logger. apply traced_field. intros ctx1. set (fs1 := [] ++ _) in *. clearbody fs1.
      apply tr_ix_verify; [exact T|exact Sc|exact O| |intros; fin|fin]. intros ctx2 fs2 O2. go (now apply tr_search_loop).
    - unfold ix_delete_l, ix_delete, with_method, copy_ctx_logger. apply traced_field. intros ctx1. set (fs1 := [] ++ _) in *. clearbody fs1.
      apply tr_ix_verify; [exact T|exact Sc|exact O| |intros; fin|fin]. intros ctx2 fs2 O2. go (now apply tr_delete_loop).
  Qed.

  Lemma tr_lib_do ctx : tr (fun a b _ => a = b) [(ctx, [])] (lib_do_l txt room who e io L fuel ctx c) (lib_do e io L fuel c).
  Proof.
    eapply traced_mono with (P1 := keeps [(ctx, [])]); [intros a b G1 [H _]; exact H|].
    destruct c as [d|i|s] eqn:Hc; cbn [lib_do_l lib_do]; (eapply traced_seq; [|intros; apply tr_ret; fin]); rewrite <- Hc.
    - now apply tr_d1_do.
    - now apply tr_ix_do.
    - now apply tr_sa_do.
  Qed.
End Calls.
