(** Concurrent index calls over untrusted storage. *)
From Coq Require Import ZifyN ZifyNat.
From stdpp Require Import gmap.
From Verif Require Import Bytes Go Json JsonProofs Types TypesProofs World Cryptor CryptorProofs Id Data D1 Spec SpecProofs Sched D1Sched
  Index IndexSpec IndexConcSpec IndexProofs.
Local Open Scope bool_scope.
Local Open Scope N_scope.

Section Sched.
  Context {S I : Type} (e : env) (io : provider S).
  Notation W := (world S I).
  Context (idp : bytes -> prog W (res identity)) (iek : bytes) (Hiek : blen iek = 32) (fuel : nat).
  Context (calls : list ix_call).
  Context (who : bytes -> identity -> Prop).
  Notation K := (ix_key_of iek calls).
  (** What others log. *)
  Context (Ex : entry -> Prop) (HEx : forall x, K (e_kek x) -> Ex x).
  Context (differ : ix_keys_differ iek (map ix_keyword calls)).
  Notation added := (ix_added calls who).

  Definition Eix (x : entry) : Prop :=
    ~ K (e_kek x) \/
    (aes_open (e_kek x) (e_aad x) (e_wk x) (e_ct x) = Ok (e_pt x) /\
     exists kw n, In kw (map ix_keyword calls) /\ ix_key iek kw = Ok (e_kek x) /\ e_pt x = print (enc_node n) /\ n_next n < 2 ^ 64 /\ added kw (as_text (n_id n))).
  Definition E (x : entry) : Prop := Ex x /\ Eix x.
  Lemma E_true x : E x -> K (e_kek x) -> aes_open (e_kek x) (e_aad x) (e_wk x) (e_ct x) = Ok (e_pt x).
  Proof. intros [_ [H|[H _]]] Hk; [contradiction|exact H]. Qed.
  Lemma E_other x : ~ K (e_kek x) -> Ex x -> E x.
  Proof. intros H1 H2. split; [exact H2|now left]. Qed.
  Context (idp_rg : forall tok, rg E (idp tok) (fun r => forall i, r = Ok i -> who tok i)) (idp_fmono : forall tok, fmono (idp tok)).
  Notation rgE := (@rg S I _ E).

  Lemma added_valid kw x : added kw x -> valid_utf8 x = true.
  Proof.
    intros (tok & i & y & _ & -> & _). apply as_text_valid.
  Qed.
  Lemma key_ok kw : ix_key iek kw = Ok (ckey iek kw).
  Proof. unfold ix_key. now rewrite (ix_keys_ok iek Hiek). Qed.
  Lemma key_in kw : In kw (map ix_keyword calls) -> K (ckey iek kw).
  Proof. intros H. apply in_map_iff in H as (c & <- & H). exists c. split; [exact H|apply key_ok]. Qed.

  Lemma rg_verify tok : rgE (ix_verify idp tok) (fun r => r = Ok tt -> exists i, who tok i /\ scope_has (i_scopes i) ScopeIndex).
  Proof.
    unfold ix_verify. apply rg_bind. eapply rg_mono; [|apply idp_rg].
    intros [i|x|] H; try (apply rg_ret; discriminate).
    destruct (scope_contains _ _) eqn:Es; apply rg_ret; [|discriminate]. intros _. exists i. split; [now apply H|]. now apply scope_contains_has.
  Qed.

  Section Keyword.
    Context (kw : bytes) (Hkw : In kw (map ix_keyword calls)).
    Notation tk := (tkey iek kw).
    Notation kek := (ckey iek kw).
    Definition good (n : node) : Prop := added kw (n_id n) /\ n_next n < 2 ^ 64.

    Lemma good_text n : good n -> added kw (as_text (n_id n)) /\ n_next n < 2 ^ 64.
    Proof. intros [H1 H2]. split; [|exact H2]. rewrite as_text_id; [exact H1|]. eapply added_valid, H1. Qed.

    Lemma rg_unseal sn label : rgE (node_unseal (aes_cryptor e kek) sn label) (fun r => forall n, r = Ok n -> good n).
    Proof.
      unfold node_unseal. eapply rg_mono; [|apply (rg_decrypt_json e E K E_true); apply key_in, Hkw].
      intros r H n Hr. destruct (H n Hr) as (x & HE & Hk & _ & Hu). destruct HE as [_ [HE|[_ (kw' & n' & Hi & Hk' & Hp & Hn & Ha)]]].
      - exfalso. apply HE. rewrite Hk. apply key_in, Hkw.
      - assert (kw' = kw). { apply differ; [exact Hi|exact Hkw|]. rewrite Hk', Hk. symmetry. apply key_ok. }
        subst kw'. rewrite Hp, node_roundtrip in Hu by exact Hn. injection Hu as <-. cbn [n_id n_next].
        split; assumption.
    Qed.
    Lemma rg_seal n label : added kw (as_text (n_id n)) /\ n_next n < 2 ^ 64 -> rgE (node_seal (aes_cryptor e kek) n label) (fun _ => True).
    Proof.
      intros [Ha Hn]. unfold node_seal. apply rg_bindR. eapply rg_mono; [|apply rg_aes_enc].
      - intros [[wk ct]|x|] _; exact Logic.I.
      - intros wk ct Hopen. split; [apply HEx, key_in, Hkw|]. right. split; [exact Hopen|]. exists kw, n. cbn. split; [exact Hkw|]. split; [apply key_ok|]. auto.
    Qed.
    Lemma rg_get_next cur : rgE (get_next_node e io tk kek cur) (fun r => forall n, r = Ok n -> good n).
    Proof.
      unfold get_next_node. apply rg_bindR, rg_ret. destruct (next_label _ _) as [l|x|]; try discriminate.
      apply rg_bindR. unfold get_sealed_node. apply rg_bindR. eapply rg_mono; [|apply rg_map_err, rg_onio]. intros [b|x|] _; try discriminate.
      destruct (unmarshal dec_sealed_node b) as [sn|]; apply rg_ret; [|discriminate]. apply rg_unseal.
    Qed.
    Lemma rg_put l sn u : rgE (put_sealed_node io l sn u) (fun _ => True).
    Proof. unfold put_sealed_node. destruct u; apply rg_map_err, rg_onio. Qed.
    Lemma rg_del l : rgE (delete_sealed_node io l) (fun _ => True).
    Proof. unfold delete_sealed_node. apply rg_onio. Qed.
    Lemma rg_get_last n : forall cur, rgE (get_last_node e io tk kek n cur) (fun _ => True).
    Proof.
      induction n as [|n IH]; intros cur; cbn [get_last_node]; [apply rg_ret; exact Logic.I|].
      apply rg_bind. eapply rg_mono; [|apply rg_get_next]. intros [nx|x|] _; [apply IH|destruct x; apply rg_ret; exact Logic.I|apply rg_ret; exact Logic.I].
    Qed.
    Lemma rg_search n : forall cur found, (forall x, In x found -> added kw x) ->
      rgE (search_loop e io tk kek n cur found) (fun r => forall l, r = Ok l -> forall x, In x l -> added kw x).
    Proof.
      induction n as [|n IH]; intros cur found Hf; cbn [search_loop]; [apply rg_ret; discriminate|].
      apply rg_bind. eapply rg_mono; [|apply rg_get_next]. intros [nx|x|] H.
      - apply IH. intros x Hx. apply in_app_or in Hx as [Hx|[<-|[]]]; [auto|]. apply (H _ eq_refl).
      - destruct x; apply rg_ret; try discriminate. intros l [= <-]. exact Hf.
      - apply rg_ret. discriminate.
    Qed.
    Lemma rg_delete_node l n : rgE (delete_node e io tk kek l n) (fun _ => True).
    Proof.
      unfold delete_node. apply rg_bind. eapply rg_mono; [|apply rg_get_next].
      intros [nx|x|] H; [|destruct x; try (apply rg_ret; exact Logic.I); apply rg_del|apply rg_ret; exact Logic.I].
      apply rg_bindR. eapply rg_mono; [|apply rg_seal, good_text, H; reflexivity]. intros [sn|x|] _; [|exact Logic.I..].
      apply rg_bindR. eapply rg_mono; [|apply rg_put]. intros [[]|x|] _; [|exact Logic.I..].
      apply rg_bindR, rg_ret. destruct (next_label _ _); [|exact Logic.I..]. apply rg_del.
    Qed.
    Lemma rg_delete_loop n y : forall cur, rgE (delete_loop e io tk kek n cur y) (fun _ => True).
    Proof.
      induction n as [|n IH]; intros cur; cbn [delete_loop]; [apply rg_ret; exact Logic.I|].
      apply rg_bind. eapply rg_mono; [|apply rg_get_next].
      intros [nx|x|] _; [|destruct x; apply rg_ret; exact Logic.I|apply rg_ret; exact Logic.I].
      destruct (bytes_eqb _ _); [|apply IH]. apply rg_bindR, rg_ret. destruct (next_label _ _) as [l|x|]; [|exact Logic.I..].
      apply rg_bindR. eapply rg_mono; [|apply rg_delete_node]. intros [[]|x|] _; [|exact Logic.I..]. apply IH.
    Qed.
  End Keyword.

  (** What an answer implies. *)
  Definition sound (c : ix_call) (r : res ix_reply) : Prop :=
    forall rep, r = Ok rep ->
    (exists i, who (ix_token c) i /\ scope_has (i_scopes i) ScopeIndex) /\
    match c, rep with
    | ISearch _ kw, IRIds l => forall x, In x l -> added kw x
    | _, _ => True
    end.
  Lemma u64_bound n : u64_succ n < 2 ^ 64.
  Proof. unfold u64_succ. apply N.mod_lt. lia. Qed.
  Lemma rg_call c : In c calls -> rgE (ix_do e io idp iek fuel c) (sound c).
  Proof.
    intros Hc. assert (Hkw : In (ix_keyword c) (map ix_keyword calls)) by now apply in_map.
    destruct c as [tok kw y|tok kw|tok kw y]; cbn [ix_do ix_keyword] in *; unfold ret_map; apply rg_bind.
    - unfold ix_add. apply rg_bindR. eapply rg_mono; [|apply rg_verify].
      intros [[]|x|] Hv; [|apply rg_ret; discriminate..]. destruct (Hv eq_refl) as (i & Hw & Hs).
      unfold lift. rewrite (ix_keys_ok iek Hiek). apply rg_bindR, rg_ret. apply rg_bindR. eapply rg_mono; [|apply rg_get_last; exact Hkw].
      intros [last|x|] _; [|apply rg_ret; discriminate..]. apply rg_bindR, rg_ret. destruct (next_label _ _) as [l|x|]; [|apply rg_ret; discriminate..].
      apply rg_bindR. eapply rg_mono; [|apply rg_seal; [exact Hkw|]].
      2:{ split; [exists tok, i, y; auto|]. cbn [n_next]. apply u64_bound. }
      intros [sn|x|] _; [|apply rg_ret; discriminate..]. eapply rg_mono; [|apply rg_put]. intros r _. apply rg_ret. intros rep _.
      split; [now exists i|exact Logic.I].
    - unfold ix_search. apply rg_bindR. eapply rg_mono; [|apply rg_verify]. intros [[]|x|] Hv; [|apply rg_ret; discriminate..].
      unfold lift. rewrite (ix_keys_ok iek Hiek). apply rg_bindR, rg_ret. eapply rg_mono; [|apply (rg_search kw Hkw); intros x []].
      intros [l|x|] H; apply rg_ret; [|discriminate..]. intros rep [= <-]. split; [exact (Hv eq_refl)|]. apply H. reflexivity.
    - unfold ix_delete. apply rg_bindR. eapply rg_mono; [|apply rg_verify]. intros [[]|x|] Hv; [|apply rg_ret; discriminate..].
      unfold lift. rewrite (ix_keys_ok iek Hiek). apply rg_bindR, rg_ret. eapply rg_mono; [|apply (rg_delete_loop kw Hkw)].
      intros r _. apply rg_ret. intros rep _. split; [exact (Hv eq_refl)|exact Logic.I].
  Qed.

  (** The ghost flag. *)
  Lemma fmono_get_next tk kek cur : fmono (get_next_node e io tk kek cur : prog W _).
  Proof.
    unfold get_next_node. apply fmono_bindR; [apply fmono_lift|intros l]. apply fmono_bindR; [|intros sn; apply fmono_decrypt_json].
    unfold get_sealed_node. apply fmono_bindR; [apply fmono_map_err, fmono_onio|intros b]. destruct (unmarshal _ b); exact Logic.I.
  Qed.
  Lemma fmono_get_last tk kek n : forall cur, fmono (get_last_node e io tk kek n cur : prog W _).
  Proof.
    induction n as [|n IH]; intros cur; [exact Logic.I|]. cbn [get_last_node]. apply fmono_bind; [apply fmono_get_next|].
    intros [nx|x|]; [apply IH|destruct x; exact Logic.I|exact Logic.I].
  Qed.
  Lemma fmono_search tk kek n : forall cur found, fmono (search_loop e io tk kek n cur found : prog W _).
  Proof.
    induction n as [|n IH]; intros cur found; [exact Logic.I|]. cbn [search_loop]. apply fmono_bind; [apply fmono_get_next|].
    intros [nx|x|]; [apply IH|destruct x; exact Logic.I|exact Logic.I].
  Qed.
  Lemma fmono_seal kek n l : fmono (node_seal (aes_cryptor e kek) n l : prog W _).
  Proof. unfold node_seal. apply fmono_bindR; [apply fmono_encrypt_json|]. intros [wk ct]. exact Logic.I. Qed.
  Lemma fmono_put l sn u : fmono (put_sealed_node io l sn u : prog W _).
  Proof. unfold put_sealed_node. destruct u; apply fmono_map_err, fmono_onio. Qed.
  Lemma fmono_delete_node tk kek l n : fmono (delete_node e io tk kek l n : prog W _).
  Proof.
    unfold delete_node. apply fmono_bind; [apply fmono_get_next|].
    intros [nx|x|]; [|destruct x; first [apply fmono_onio|exact Logic.I]|exact Logic.I].
    apply fmono_bindR; [apply fmono_seal|intros sn]. apply fmono_bindR; [apply fmono_put|intros _].
    apply fmono_bindR; [apply fmono_lift|intros l']. apply fmono_onio.
  Qed.
  Lemma fmono_delete_loop tk kek n y : forall cur, fmono (delete_loop e io tk kek n cur y : prog W _).
  Proof.
    induction n as [|n IH]; intros cur; [exact Logic.I|]. cbn [delete_loop]. apply fmono_bind; [apply fmono_get_next|].
    intros [nx|x|]; [|destruct x; exact Logic.I|exact Logic.I].
    destruct (bytes_eqb _ _); [|apply IH]. apply fmono_bindR; [apply fmono_lift|intros l].
    apply fmono_bindR; [apply fmono_delete_node|intros _; apply IH].
  Qed.
  Lemma fmono_verify tok : fmono (ix_verify idp tok).
  Proof.
    unfold ix_verify. apply fmono_bind; [apply idp_fmono|]. intros [i|x|]; [|exact Logic.I..]. destruct (scope_contains _ _); exact Logic.I.
  Qed.
  Lemma fmono_call c : fmono (ix_do e io idp iek fuel c).
  Proof.
    destruct c as [tok kw y|tok kw|tok kw y]; cbn [ix_do]; unfold ret_map; (apply fmono_bind; [|intros r; exact Logic.I]).
    - unfold ix_add. apply fmono_bindR; [apply fmono_verify|intros _]. apply fmono_bindR; [apply fmono_lift|intros [tk kek]].
      apply fmono_bindR; [apply fmono_get_last|intros last]. apply fmono_bindR; [apply fmono_lift|intros l].
      apply fmono_bindR; [apply fmono_seal|intros sn]. apply fmono_put.
    - unfold ix_search. apply fmono_bindR; [apply fmono_verify|intros _]. apply fmono_bindR; [apply fmono_lift|intros [tk kek]]. apply fmono_search.
    - unfold ix_delete. apply fmono_bindR; [apply fmono_verify|intros _]. apply fmono_bindR; [apply fmono_lift|intros [tk kek]]. apply fmono_delete_loop.
  Qed.

End Sched.

Section Alone.
  Context {S I : Type} (e : env) (io : provider S).
  Notation W := (world S I).
  Context (idp : bytes -> prog W (res identity)) (iek : bytes) (Hiek : blen iek = 32) (fuel : nat).
  Context (calls : list ix_call) (who : bytes -> identity -> Prop).
  Notation K := (ix_key_of iek calls).
  Context (idp_who : forall tok, outsider K (idp tok) (fun r => forall i, r = Ok i -> who tok i)).
  Context (differ : ix_keys_differ iek (map ix_keyword calls)).
  Lemma index_sched (w w' : W) pool' :
    Forall (fun x => ~ K (e_kek x)) (w_log w) ->
    exec K (map (ix_do e io idp iek fuel) calls) w pool' w' -> w_forged w' = false ->
    forall t c r, calls !! t = Some c -> pool' !! t = Some (Ret r) -> sound calls who c r.
  Proof.
    intros Hlog Hx Hf t c r Hc Hr. set (EE := E iek calls who (fun _ => True)).
    assert (EO : forall x, ~ K (e_kek x) -> EE x) by (intros x Hn; now apply E_other).
    destruct (exec_sound K EE (fun t p => exists c, calls !! t = Some c /\ rg EE p (sound calls who c)) _ _ _ _ Hx EO) as [C|[_ HT]].
    - intros t' p Hp. apply map_lookup_Some in Hp as (c' & -> & _). apply fmono_call. intros tok. eapply outsider_fmono, idp_who.
    - intros _. split; [eapply List.Forall_impl; [|exact Hlog]; exact EO|].
      intros t' p Hp. apply map_lookup_Some in Hp as (c' & -> & Hc'). exists c'. split; [exact Hc'|]. apply rg_call; auto.
      + intros tok. eapply outsider_rg, idp_who. exact EO.
      + intros tok. eapply outsider_fmono, idp_who.
      + apply elem_of_list_In. eapply elem_of_list_lookup_2; eauto.
    - intros t' X f k (c' & Hc' & H) _ w0 HE Hw0. destruct (H w0 HE Hw0) as [D|[D1 D2]]; [now left|right]. split; [exact D1|]. exists c'. auto.
    - congruence.
    - destruct (HT t _ Hr) as (c' & Hc' & H). rewrite Hc in Hc'. injection Hc' as <-. exact H.
  Qed.
End Alone.

Section Result.
  Context {S I : Type} (e : env) (io : provider S) (idp : bytes -> prog (world S I) (res identity)) (ks : res keys) (iek : bytes) (fuel : nat)
    (calls : list ix_call) (who : bytes -> identity -> Prop) (w w' : world S I) (pool' : list (prog (world S I) (res ix_reply))).
  Context (new : ix_new ks = Ok iek) (keys_differ : ix_keys_differ iek (map ix_keyword calls))
    (idp_who : forall tok, outsider (ix_key_of iek calls) (idp tok) (fun r => forall i, r = Ok i -> who tok i))
    (log_new : Forall (fun x => ~ ix_key_of iek calls (e_kek x)) (w_log w))
    (run : exec (ix_key_of iek calls) (map (ix_do e io idp iek fuel) calls) w pool' w')
    (no_forgery : w_forged w' = false).
  Lemma new_length : blen iek = 32.
  Proof.
    unfold ix_new in new. destruct ks as [k|x|]; cbn [res_bind] in new; try discriminate.
    destruct (N.eqb_spec (blen (k_iek k)) MasterKeyLength) as [E|E]; cbn [negb] in new; [|discriminate]. injection new as <-. exact E.
  Qed.
  Lemma search_authentic t tok kw l : calls !! t = Some (ISearch tok kw) -> pool' !! t = Some (Ret (Ok (IRIds l))) ->
    (exists i, who tok i /\ scope_has (i_scopes i) ScopeIndex) /\ forall x, In x l -> ix_added calls who kw x.
  Proof.
    intros Hc Hr. exact (index_sched e io idp iek new_length fuel calls who idp_who keys_differ w w' pool' log_new run no_forgery t _ _ Hc Hr _ eq_refl).
  Qed.
  Lemma callers_authorized t c rep : calls !! t = Some c -> pool' !! t = Some (Ret (Ok rep)) ->
    exists i, who (ix_token c) i /\ scope_has (i_scopes i) ScopeIndex.
  Proof.
    intros Hc Hr. exact (proj1 (index_sched e io idp iek new_length fuel calls who idp_who keys_differ w w' pool' log_new run no_forgery t _ _ Hc Hr _ eq_refl)).
  Qed.
End Result.
