(** The Standalone provider refines the directory of StandaloneSpec.v: read side. *)
From Coq Require Import ZifyN ZifyNat.
From stdpp Require Import gmap.
From Verif Require Import Bytes Base64 Base64Proofs Go Json JsonProofs Uuid UuidProofs Time TimeProofs Types TypesProofs World Logic
  Cryptor CryptorProofs IoSpec IoProofs Id Data D1 D1Proofs Sched D1Sched Password Standalone Spec StandaloneSpec WpcFacts TokenFacts.
Local Open Scope bool_scope.
Local Open Scope N_scope.

(** What stored records decrypt to. *)
Definition user_open (uek b : bytes) : res user :=
  match unmarshal dec_sealed_user b with
  | None => Err EJson
  | Some su => open_json uek dec_user (JStr (su_uid su)) (su_wk su) (su_ct su)
  end.
Definition group_open (gek b : bytes) : res group :=
  match unmarshal dec_sealed_group b with
  | None => Err EJson
  | Some sg => open_json gek dec_group (JStr (sg_gid sg)) (sg_wk sg) (sg_ct sg)
  end.
(** A group record as the provider writes it. *)
Definition group_rec (gek b : bytes) (s : N) : Prop :=
  exists gid wk ct, unmarshal dec_sealed_group b = Some (mkSealedGroup gid (Some ct) (Some wk)) /\ valid_utf8 gid = true /\ s < 2 ^ 64 /\
    aes_open gek (print (JStr gid)) wk ct = Ok (print (enc_group (mkGroup s))).
Lemma group_rec_open gek b s : group_rec gek b s -> group_open gek b = Ok (mkGroup s).
Proof.
  intros (gid & wk & ct & E & _ & Hs & Ho). unfold group_open. rewrite E. cbn [sg_gid sg_wk sg_ct]. unfold open_json. cbn [slice_bytes]. rewrite Ho. cbn [res_bind].
  now rewrite group_roundtrip by exact Hs.
Qed.

Definition account_user (a : account) : user := mkUser (Some (ac_salt a ++ ac_hash a)) (ac_scopes a) (Some (ac_groups a)).
Definition account_ok (uid : bytes) (a : account) : Prop :=
  valid_utf8 uid = true /\ ac_scopes a < 2 ^ 64 /\ length (ac_salt a) = 8%nat /\ forall g, g ∈ ac_groups a -> valid_utf8 g = true.

Section Rep.
  Context (k : sa_keys).
  Notation SU := DataTypeSealedUser.
  Notation SG := DataTypeSealedGroup.
  (** The record was sealed by the library. *)
  Definition user_logged (l : list entry) (b : bytes) : Prop :=
    forall su, unmarshal dec_sealed_user b = Some su -> logged l (s_uek k) (print (JStr (su_uid su))) (slice_bytes (su_wk su)) (slice_bytes (su_ct su)).
  Definition group_logged (l : list entry) (b : bytes) : Prop :=
    forall sg, unmarshal dec_sealed_group b = Some sg -> logged l (s_gek k) (print (JStr (sg_gid sg))) (slice_bytes (sg_wk sg)) (slice_bytes (sg_ct sg)).
  (** The store represents users and groups. *)
  Definition srep (l : list entry) (st : store) (d : directory) : Prop :=
    (forall uid, match d_users d !! uid with
       | None => st uid SU = None
       | Some a => exists b, st uid SU = Some b /\ user_open (s_uek k) b = Ok (account_user a) /\ account_ok uid a /\ user_logged l b
       end) /\
    (forall gid, match d_groups d !! gid with
       | None => st gid SG = None
       | Some s => exists b, st gid SG = Some b /\ group_rec (s_gek k) b s /\ group_logged l b
       end).
  (** A session's token is a sealed token with the user id inside. *)
  Definition session_ok (l : list entry) (s : session) : Prop :=
    exists wk ct aad, token_from_string (se_token s) = Ok (mkSealedToken (se_exp s) (Some ct) (Some wk)) /\
      time_wf (se_exp s) /\ enc_time (se_exp s) = Some aad /\
      aes_open (s_tek k) (print aad) wk ct = Ok (print (jbytes (Some (se_uid s)))) /\ logged l (s_tek k) (print aad) wk ct.
  (** Every token-like encryption under the token key is a session. *)
  Definition entry_ok (ss : list session) (x : entry) : Prop :=
    e_kek x = s_tek k -> (aes_open (s_tek k) (e_aad x) (e_wk x) (e_ct x) = Ok (e_pt x) /\ unmarshal dec_bytes (e_pt x) = None) \/
      exists s aad, In s ss /\ enc_time (se_exp s) = Some aad /\ e_aad x = print aad /\
        token_from_string (se_token s) = Ok (mkSealedToken (se_exp s) (Some (e_ct x)) (Some (e_wk x))).
  Definition sess (l : list entry) (ss : list session) : Prop :=
    (forall s, In s ss -> session_ok l s) /\ (forall x, In x l -> entry_ok ss x).

  Lemma logged_mono l l' a b c f : incl l l' -> logged l a b c f -> logged l' a b c f.
  Proof. intros H (x & Hx & E). exists x. auto. Qed.
  Lemma srep_log l l' st d : incl l l' -> srep l st d -> srep l' st d.
  Proof.
    intros H [R1 R2]. split; intros x; [specialize (R1 x)|specialize (R2 x)].
    - destruct (d_users d !! x); [|exact R1]. destruct R1 as (b & A & B & C & D). exists b. split; [exact A|]. split; [exact B|]. split; [exact C|].
      intros su Hu. eapply logged_mono; eauto.
    - destruct (d_groups d !! x); [|exact R2]. destruct R2 as (b & A & B & D). exists b. split; [exact A|]. split; [exact B|].
      intros su Hu. eapply logged_mono; eauto.
  Qed.
  Lemma srep_ext l st st' d : (forall id dt, dt = SU \/ dt = SG -> st' id dt = st id dt) -> srep l st d -> srep l st' d.
  Proof.
    intros H [R1 R2]. split; intros x; [specialize (R1 x)|specialize (R2 x)]; rewrite H by auto; assumption.
  Qed.
  Lemma srep_user l st d uid a b : srep l st d -> user_open (s_uek k) b = Ok (account_user a) -> account_ok uid a -> user_logged l b ->
    srep l (upd st uid SU (Some b)) (set_users d (<[uid := a]> (d_users d))).
  Proof.
    intros [R1 R2] Ho Ha Hl. split; cbn [d_users d_groups set_users].
    - intros u. destruct (decide (u = uid)) as [->|Hn].
      + rewrite lookup_insert, upd_same. eauto.
      + rewrite lookup_insert_ne by auto. rewrite upd_other by congruence. apply R1.
    - intros g. rewrite upd_other by discriminate. apply R2.
  Qed.
  Lemma srep_deluser l st d uid : srep l st d -> srep l (upd st uid SU None) (set_users d (delete uid (d_users d))).
  Proof.
    intros [R1 R2]. split; cbn [d_users d_groups set_users].
    - intros u. destruct (decide (u = uid)) as [->|Hn].
      + rewrite lookup_delete, upd_same. reflexivity.
      + rewrite lookup_delete_ne by auto. rewrite upd_other by congruence. apply R1.
    - intros g. rewrite upd_other by discriminate. apply R2.
  Qed.
  Lemma srep_group l st d gid s b : srep l st d -> group_rec (s_gek k) b s -> group_logged l b ->
    srep l (upd st gid SG (Some b)) (set_groups d (<[gid := s]> (d_groups d))).
  Proof.
    intros [R1 R2] Ho Hl. split; cbn [d_users d_groups set_groups].
    - intros u. rewrite upd_other by discriminate. apply R1.
    - intros g. destruct (decide (g = gid)) as [->|Hn].
      + rewrite lookup_insert, upd_same. eauto.
      + rewrite lookup_insert_ne by auto. rewrite upd_other by congruence. apply R2.
  Qed.

  Lemma session_log l l' s : incl l l' -> session_ok l s -> session_ok l' s.
  Proof.
    intros H (wk & ct & aad & A & B & C & D & E). exists wk, ct, aad. split; [exact A|]. split; [exact B|]. split; [exact C|]. split; [exact D|].
    eapply logged_mono; eauto.
  Qed.
  Lemma sess_entry l ss x : sess l ss -> entry_ok ss x -> sess (x :: l) ss.
  Proof.
    intros [H1 H2] Hx. split; [intros s Hs; eapply session_log; [|eauto]; intros y Hy; now right|]. intros y [<-|Hy]; auto.
  Qed.
  Lemma sess_add l ss x s : sess l ss -> session_ok (x :: l) s -> entry_ok (s :: ss) x -> sess (x :: l) (s :: ss).
  Proof.
    intros [H1 H2] Hs Hx. split.
    - intros y [<-|Hy]; [exact Hs|]. eapply session_log; [|eauto]. intros z Hz; now right.
    - intros y [<-|Hy]; [exact Hx|].
      intros Hk. destruct (H2 y Hy Hk) as [C|(s' & aad & Hi & C)]; [now left|]. right. exists s', aad. split; [now right|exact C].
  Qed.
  (** Others add encryptions under other keys. *)
  Lemma sess_others l l' new ss : l' = new ++ l -> Forall (fun x => e_kek x <> s_tek k) new -> sess l ss -> sess l' ss.
  Proof.
    intros -> Hn [H1 H2]. split.
    - intros s Hs. eapply session_log; [|eauto]. intros x Hx. apply in_or_app. now right.
    - intros x Hx. apply in_app_or in Hx as [Hx|Hx]; [|auto]. rewrite List.Forall_forall in Hn. intros E. destruct (Hn x Hx E).
  Qed.
End Rep.

Lemma enc_user_wf u : u_scopes u < 2 ^ 64 -> jwf (enc_user u).
Proof. intros H. pose proof (jnum_wf _ H). cbn in *. repeat split; try tauto; auto using jbytes_wf, enc_set_wf. Qed.
Lemma enc_group_wf g : g_scopes g < 2 ^ 64 -> jwf (enc_group g).
Proof. intros H. pose proof (jnum_wf _ H). cbn in *. tauto. Qed.
Lemma user_not_bytes u : u_scopes u < 2 ^ 64 -> unmarshal dec_bytes (print (enc_user u)) = None.
Proof. intros H. rewrite unmarshal_print by now apply enc_user_wf. reflexivity. Qed.
Lemma group_not_bytes g : g_scopes g < 2 ^ 64 -> unmarshal dec_bytes (print (enc_group g)) = None.
Proof. intros H. rewrite unmarshal_print by now apply enc_group_wf. reflexivity. Qed.

Lemma open_json_ok {A} kek (dec : json -> option A) aad wk ct pt a :
  aes_open kek (print aad) wk ct = Ok pt -> unmarshal dec pt = Some a -> open_json kek dec aad (Some wk) (Some ct) = Ok a.
Proof. intros H1 H2. unfold open_json. cbn [slice_bytes]. rewrite H1. cbn [res_bind]. now rewrite H2. Qed.

Lemma open_some {A} kek (dec : json -> option A) aad wk ct a : open_json kek dec aad wk ct = Ok a ->
  wk = Some (slice_bytes wk) /\ ct = Some (slice_bytes ct).
Proof.
  unfold open_json, aes_open. intros H. split.
  - destruct wk; [reflexivity|]. exfalso. cbn in H. discriminate.
  - destruct ct; [reflexivity|]. exfalso. cbn [slice_bytes] in H.
    destruct (Kwp.aes_kwp_unwrap kek (slice_bytes wk)); cbn [res_bind] in H; try discriminate.
    rewrite GcmProofs.aes_gcm_decrypt_eq in H. destruct (negb _); cbn in H; discriminate.
Qed.

(** A token string that decodes carries a proper time. *)
Lemma from_string_wf s t : token_from_string s = Ok t -> time_wf (st_exp t).
Proof.
  unfold token_from_string. destruct (b64url_decode s) as [b|]; [|discriminate]. unfold unmarshal.
  destruct (json_parse b) as [j|]; cbn [obind]; [|discriminate].
  destruct (dec_sealed_token j) as [t'|] eqn:E; [|discriminate]. intros H. injection H as <-.
  unfold dec_sealed_token in E. destruct (members j) as [l|]; cbn [obind] in E; [|discriminate].
  destruct (field_or dec_time time_zero (str "ExpiryTime") l) as [x|] eqn:Ex; cbn [obind] in E; [|discriminate].
  destruct (field_or dec_bytes None (str "Ciphertext") l); cbn [obind] in E; [|discriminate].
  destruct (field_or dec_bytes None (str "WrappedKey") l); cbn [obind] in E; [|discriminate]. injection E as <-. cbn [st_exp].
  unfold field_or in Ex. destruct (field _ _) as [j'|]; [|injection Ex as <-; split; cbn; lia].
  unfold dec_time in Ex. destruct j'; try discriminate; [injection Ex as <-; split; cbn; lia|]. eapply time_parse_wf, Ex.
Qed.

Section Read.
  Context {S I : Type} (e : env) (F : Prop) (v : view S) (io : provider S) (Hio : io_spec F v io) (k : sa_keys).
  Notation W := (world S I).
  Notation uc := (aes_cryptor e (s_uek k)).
  Notation gc := (aes_cryptor e (s_gek k)).
  Notation tc := (aes_cryptor e (s_tek k)).
  Notation SU := DataTypeSealedUser.
  Notation SG := DataTypeSealedGroup.
  Notation holds := (@holds S I v).
  Implicit Types (m : store) (w : W).

  Lemma get_user_post uid w m : holds m w -> (forall b, m uid SU = Some b -> user_logged k (w_log w) b) ->
    wpc (get_user io uc uid) (fun w' => holds m w' /\ keep w w')
      (fun r w' => holds m w' /\ keep w w' /\
         (r = match m uid SU with Some b => user_open (s_uek k) b | None => Err EIdUserNotFound end \/ failed F r)) w.
  Proof.
    intros H HL. unfold get_user. apply wpc_bindR, wpc_map_err.
    eapply wpc_mono; [| |apply (io_get_post F v io Hio uid SU w m ltac:(reflexivity) H)]; [auto|].
    intros r w1 _ ((H1 & C) & K1). destruct C as [->|(HF & x & -> & Hx)].
    - destruct (m uid SU) as [b|] eqn:Em.
      + unfold user_open. destruct (unmarshal dec_sealed_user b) as [su|] eqn:Es; [|apply wpc_ret; auto].
        pose proof (HL b eq_refl su Es) as Lg. rewrite <- (proj1 K1) in Lg.
        unfold user_unseal. eapply wpc_mono; [| |apply (dec_post e v (s_uek k) dec_user (JStr (su_uid su)) (su_wk su) (su_ct su) w1 m H1)].
        * intros w' (A & _ & _ & [B|[_ N]]); [|contradiction]. split; [exact A|]. eapply keep_trans; eauto.
        * intros r w' _ (A & _ & _ & C & [[B _]|[_ N]]); [|contradiction]. split; [exact A|]. split; [eapply keep_trans; eauto|auto].
      + split; [exact H1|]. split; [exact K1|]. left. reflexivity.
    - split; [exact H1|]. split; [exact K1|]. right. split; [exact HF|]. exists x. split; [|exact Hx].
      f_equal. apply fault_replace; [exact Hx|discriminate].
  Qed.
  Lemma get_group_post gid w m : holds m w -> (forall b, m gid SG = Some b -> group_logged k (w_log w) b) ->
    wpc (get_group io gc gid) (fun w' => holds m w' /\ keep w w')
      (fun r w' => holds m w' /\ keep w w' /\
         (r = match m gid SG with Some b => group_open (s_gek k) b | None => Err EIdGroupNotFound end \/ failed F r)) w.
  Proof.
    intros H HL. unfold get_group. apply wpc_bindR, wpc_map_err.
    eapply wpc_mono; [| |apply (io_get_post F v io Hio gid SG w m ltac:(reflexivity) H)]; [auto|].
    intros r w1 _ ((H1 & C) & K1). destruct C as [->|(HF & x & -> & Hx)].
    - destruct (m gid SG) as [b|] eqn:Em.
      + unfold group_open. destruct (unmarshal dec_sealed_group b) as [su|] eqn:Es; [|apply wpc_ret; auto].
        pose proof (HL b eq_refl su Es) as Lg. rewrite <- (proj1 K1) in Lg.
        unfold group_unseal. eapply wpc_mono; [| |apply (dec_post e v (s_gek k) dec_group (JStr (sg_gid su)) (sg_wk su) (sg_ct su) w1 m H1)].
        * intros w' (A & _ & _ & [B|[_ N]]); [|contradiction]. split; [exact A|]. eapply keep_trans; eauto.
        * intros r w' _ (A & _ & _ & C & [[B _]|[_ N]]); [|contradiction]. split; [exact A|]. split; [eapply keep_trans; eauto|auto].
      + split; [exact H1|]. split; [exact K1|]. left. reflexivity.
    - split; [exact H1|]. split; [exact K1|]. right. split; [exact HF|]. exists x. split; [|exact Hx].
      f_equal. apply fault_replace; [exact Hx|discriminate].
  Qed.
  Lemma srep_user_logged l m d uid b : srep k l m d -> m uid SU = Some b -> user_logged k l b.
  Proof. intros [R _] E. specialize (R uid). destruct (d_users d !! uid); [|congruence]. destruct R as (b' & E' & _ & _ & L). rewrite E in E'. injection E' as <-. exact L. Qed.
  Lemma srep_group_logged l m d gid b : srep k l m d -> m gid SG = Some b -> group_logged k l b.
  Proof. intros [_ R] E. specialize (R gid). destruct (d_groups d !! gid); [|congruence]. destruct R as (b' & E' & _ & L). rewrite E in E'. injection E' as <-. exact L. Qed.

  Lemma get_groups_post (d : directory) m : forall gids acc w, holds m w -> srep k (w_log w) m d ->
    wpc (get_groups io gc gids acc) (fun w' => holds m w' /\ keep w w')
      (fun r w' => holds m w' /\ keep w w' /\
         ((exists gm, r = Ok gm /\ (forall g, In g gids -> exists s, d_groups d !! g = Some s) /\
            forall g s, gm !! g = Some s <-> (In g gids /\ d_groups d !! g = Some s) \/ (~ In g gids /\ acc !! g = Some s)) \/
          (exists g, In g gids /\ d_groups d !! g = None /\ r = Err EIdGroupNotFound) \/ failed F r)) w.
  Proof.
    induction gids as [|gid rest IH]; intros acc w H R; cbn [get_groups].
    - apply wpc_ret; [split; [exact H|apply keep_refl]|]. split; [exact H|]. split; [apply keep_refl|]. left. exists acc.
      split; [reflexivity|]. split; [intros g []|]. intros g s. split; [auto|]. intros [[[] _]|[_ E]]. exact E.
    - apply wpc_bindR. eapply wpc_mono; [| |apply (get_group_post gid w m H (fun b => srep_group_logged _ m d gid b R))]; [auto|].
      intros r w1 _ (H1 & K1 & C). destruct C as [->|(HF & x & -> & Hx)].
      2:{ split; [exact H1|]. split; [exact K1|]. right. right. split; eauto. }
      assert (R1 : srep k (w_log w1) m d) by (rewrite (proj1 K1); exact R).
      pose proof (proj2 R gid) as Rg. destruct (d_groups d !! gid) as [s|] eqn:Eg.
      + destruct Rg as (b & Hb & Ho & _). rewrite Hb, (group_rec_open _ _ _ Ho). cbn [g_scopes].
        eapply wpc_mono; [| |apply (IH (<[gid := s]> acc) w1 H1 R1)].
        * intros w' [A B]. split; [exact A|]. eapply keep_trans; eauto.
        * intros r w' _ (A & B & C). split; [exact A|]. split; [eapply keep_trans; eauto|].
          destruct C as [(gm & -> & G1 & G2)|[(g & G1 & G2 & ->)|C]].
          -- left. exists gm. split; [reflexivity|]. split; [intros g [<-|Hg]; eauto|]. intros g s'. rewrite G2.
             destruct (decide (g = gid)) as [->|Hn].
             ++ rewrite lookup_insert. split.
                ** intros [[Hi E]|[_ E]]; left; (split; [now left|congruence]).
                ** intros [[_ E]|[N _]]; [|destruct N; now left]. rewrite Eg in E. injection E as <-.
                   destruct (in_dec (list_eq_dec byte_eq_dec) gid rest); [left|right]; auto.
             ++ rewrite lookup_insert_ne by auto. cbn [In]. split.
                ** intros [[Hi E]|[Hi E]]; [left; auto|right]. split; [|exact E]. intros [C|C]; [now apply Hn|auto].
                ** intros [[[Hi|Hi] E]|[Hi E]]; [congruence|left; auto|right; auto].
          -- right. left. exists g. split; [now right|auto].
          -- right. right. exact C.
      + rewrite Rg. split; [exact H1|]. split; [exact K1|]. right. left. exists gid. split; [now left|]. split; [exact Eg|reflexivity].
  Qed.

  (** ** Tokens *)
  Lemma fmono_get_user uid : fmono (get_user io uc uid : prog W _).
  Proof.
    unfold get_user. apply fmono_bindR; [apply fmono_map_err, fmono_onio|intros b]. destruct (unmarshal dec_sealed_user b); [|exact Logic.I].
    apply fmono_decrypt_json.
  Qed.
  Lemma fmono_get_groups gids : forall acc, fmono (get_groups io gc gids acc : prog W _).
  Proof.
    induction gids as [|g rest IH]; intros acc; cbn [get_groups]; [exact Logic.I|].
    apply fmono_bindR; [|intros; apply IH]. unfold get_group. apply fmono_bindR; [apply fmono_map_err, fmono_onio|intros b].
    destruct (unmarshal dec_sealed_group b); [|exact Logic.I]. apply fmono_decrypt_json.
  Qed.

  Lemma before_nanos a b : time_wf a -> time_wf b -> time_before a b = true <-> (nanos a < nanos b)%Z.
  Proof. apply time_before_instant. Qed.

  (** What says a token, says the session list. *)
  Lemma session_says (d : directory) l st s : sess k l (d_sessions d) -> In s (d_sessions d) ->
    token_from_string (se_token s) = Ok st ->
    st_exp st = se_exp s /\ exists aad, enc_time (st_exp st) = Some aad /\
      open_json (s_tek k) dec_bytes aad (st_wk st) (st_ct st) = Ok (Some (se_uid s)) /\
      logged l (s_tek k) (print aad) (slice_bytes (st_wk st)) (slice_bytes (st_ct st)).
  Proof.
    intros [H _] Hs E. destruct (H s Hs) as (wk & ct & aad & E' & Hw & Ha & Ho & Hl). rewrite E in E'. injection E' as ->. cbn [st_exp st_wk st_ct].
    split; [reflexivity|]. exists aad. split; [exact Ha|]. split; [|exact Hl]. eapply open_json_ok; [exact Ho|].
    rewrite unmarshal_print by apply jbytes_wf. apply dec_bytes_jbytes.
  Qed.
  (** No session goes by this token. *)
  Definition stranger (d : directory) (tok : bytes) : Prop := forall uid exp, ~ says d tok uid exp.

  (** Unsealing a token: for a session token the user id, otherwise an error, or a forgery. *)
  Lemma token_post (d : directory) st tok w m : (forall n, time_wf (clock e n)) -> holds m w -> sess k (w_log w) (d_sessions d) ->
    token_from_string tok = Ok st ->
    let raised w' := w_forged w' = true /\ stranger d tok in
    let same w' := w_log w' = w_log w /\ w_draws w' = w_draws w /\ w_forged w' = w_forged w in
    wpc (token_unseal e tc st) (fun w' => holds m w' /\ (raised w' \/ same w'))
      (fun r w' => holds m w' /\
         (raised w' \/ (same w' /\
          ((exists uid, says d tok uid (st_exp st) /\ (nanos (clock e (w_ticks w)) <= nanos (st_exp st))%Z /\ r = Ok (mkToken (Some uid) (st_exp st))) \/
           ((forall uid exp, says d tok uid exp -> (nanos exp < nanos (clock e (w_ticks w)))%Z) /\ exists x, r = Err x))))) w.
  Proof.
    intros Hc H Hs Ht raised same. pose proof (from_string_wf _ _ Ht) as Hwf.
    unfold token_unseal, time_now. apply wpc_bind, wpc_act; cbn [fst snd]; [unfold same; auto|unfold same; auto|].
    set (w1 := set_ticks w (w_ticks w + 1)). assert (H1 : holds m w1) by exact H.
    assert (S1 : same w1) by (unfold same; auto).
    pose proof (before_nanos _ _ Hwf (Hc (w_ticks w))) as T.
    destruct (time_before (st_exp st) (clock e (w_ticks w))) eqn:Eb.
    { apply wpc_ret; [auto|]. split; [exact H1|]. right. split; [exact S1|]. right. split; [|eauto].
      intros uid exp (s & Hi & (t' & T1 & T2) & Hu & Hx). rewrite Ht in T2. injection T2 as <-.
      destruct (session_says d _ st s Hs Hi T1) as [E _]. rewrite <- Hx, <- E. now apply T. }
    assert (NB : (nanos (clock e (w_ticks w)) <= nanos (st_exp st))%Z).
    { destruct (Z.le_gt_cases (nanos (clock e (w_ticks w))) (nanos (st_exp st))) as [L|L]; [exact L|]. apply T in L. discriminate. }
    assert (NS : forall uid exp, says d tok uid exp -> exists s, In s (d_sessions d) /\ token_from_string (se_token s) = Ok st /\ se_uid s = uid /\ se_exp s = exp).
    { intros uid exp (s & Hi & (t' & T1 & T2) & Hu & Hx). rewrite Ht in T2. injection T2 as <-. eauto. }
    destruct (enc_time (st_exp st)) as [aad|] eqn:Ea.
    2:{ apply wpc_ret; [auto|]. split; [exact H1|]. right. split; [exact S1|]. right. split; [|eauto].
        intros uid exp Hsay. destruct (NS _ _ Hsay) as (s & Hi & T1 & _). destruct (session_says d _ st s Hs Hi T1) as [_ (aad & E & _)]. congruence. }
    set (lg := logged (w_log w1) (s_tek k) (print aad) (slice_bytes (st_wk st)) (slice_bytes (st_ct st))).
    assert (STR : ~ lg -> stranger d tok).
    { intros N uid exp Hsay. apply N. destruct (NS _ _ Hsay) as (s & Hi & T1 & _).
      destruct (session_says d _ st s Hs Hi T1) as [_ (aad' & E & _ & L)]. rewrite Ea in E. injection E as <-. exact L. }
    apply wpc_bindR. eapply wpc_mono; [| |apply (dec_post e v (s_tek k) dec_bytes aad (st_wk st) (st_ct st) w1 m H1)].
    { intros w' (A & L & D & [(K1 & K2 & K3 & K4)|[B N]]); (split; [exact A|]); [right; unfold same; auto|left; unfold raised; auto]. }
    intros r w2 _ (H2 & K1 & K2 & Hr & C).
    destruct C as [[(_ & _ & _ & K4) Hlog]|[Hf N]].
    2:{ assert (RZ : raised w2) by (unfold raised; auto). destruct r; [apply wpc_ret|..]; split; auto. }
    assert (S2 : same w2) by (unfold same; auto). subst r.
    destruct (open_json (s_tek k) dec_bytes aad (st_wk st) (st_ct st)) as [pt|x|] eqn:Eo.
    - apply wpc_ret; [split; [exact H2|auto]|]. split; [exact H2|]. right. split; [exact S2|]. left.
      destruct (Hlog (ex_intro _ _ eq_refl)) as (x & Hx & X1 & X2 & X3 & X4).
      pose proof Hs as [Hs1 Hs2]. destruct (Hs2 x Hx X1) as [Np|(s & aad' & Hi & Ha' & Haad & Htok)].
      { exfalso. destruct Np as [Op Np]. unfold open_json in Eo. rewrite <- X2, <- X3, <- X4, Op in Eo. cbn [res_bind] in Eo. rewrite Np in Eo. discriminate. }
      (* the session whose token this is *)
      assert (Hst : st = mkSealedToken (se_exp s) (Some (e_ct x)) (Some (e_wk x))).
      { destruct (Hs1 s Hi) as (wk & ct & aad0 & E0 & Hw0 & Ha0 & Ho0 & _). rewrite Ha0 in Ha'. injection Ha' as <-.
        assert (st_exp st = se_exp s) as <- by (eapply time_aad_inj; [exact Hwf|exact Hw0|exact Ea|exact Ha0|congruence]).
        destruct (open_some _ _ _ _ _ _ Eo) as [S3 S4]. rewrite X3, X4, <- S3, <- S4. now destruct st. }
      exists (se_uid s). assert (Tok : token_from_string (se_token s) = Ok st) by congruence.
      split; [exists s; split; [exact Hi|]; split; [exists st; auto|]; split; [reflexivity|now rewrite Hst]|]. split; [exact NB|].
      destruct (session_says d _ st s Hs Hi Tok) as [_ (aad2 & E2 & O2 & _)].
      rewrite Ea in E2. injection E2 as <-. rewrite Eo in O2. injection O2 as ->. reflexivity.
    - split; [exact H2|]. right. split; [exact S2|]. right. split; [|eauto].
      intros uid exp Hsay. destruct (NS _ _ Hsay) as (s & Hi & T1 & _). destruct (session_says d _ st s Hs Hi T1) as [_ (aad' & E & Eo' & _)]. congruence.
    - destruct (open_json_total (s_tek k) dec_bytes aad (st_wk st) (st_ct st)) as [[? C]|(? & C & _)]; congruence.
  Qed.

  (** Resolving a token. *)
  Lemma identity_post (d : directory) tok w m : (forall n, time_wf (clock e n)) -> holds m w -> srep k (w_log w) m d -> sess k (w_log w) (d_sessions d) ->
    let raised w' := w_forged w' = true /\ stranger d tok in
    let same w' := holds m w' /\ w_log w' = w_log w /\ w_draws w' = w_draws w /\ w_forged w' = w_forged w in
    wpc (sa_get_identity e io uc gc tc tok) (fun w' => raised w' \/ same w')
      (fun r w' => raised w' \/ (same w' /\ (resolves d (clock e (w_ticks w)) tok r \/ failed F r))) w.
  Proof.
    intros Hc H R Hs raised same. assert (S0 : same w) by (unfold same; auto). unfold sa_get_identity. apply wpc_bindR. unfold any_err. apply wpc_map_err. unfold lift.
    apply wpc_ret; [auto|].
    destruct (token_from_string tok) as [st|x|] eqn:Et.
    2:{ right. split; [exact S0|]. left. right. split; [|reflexivity].
        intros uid exp (s & _ & (t & _ & C) & _). congruence. }
    2:{ unfold token_from_string in Et. destruct (b64url_decode tok); [|discriminate]. destruct (unmarshal _ _); discriminate. }
    apply wpc_bindR, wpc_map_err. eapply wpc_mono; [| |apply (token_post d st tok w m Hc H Hs Et)].
    { intros w' (A & [B|B]); [auto|]. right. unfold same. auto. }
    intros r w1 _ (H1 & [[Hf Hstr]|[(L1 & D1 & G1) C]]).
    { destruct r as [t|x|]; [|left; split; assumption..]. eapply wpc_mono; [| |apply wpc_forged; [|exact Hf]]; [unfold raised; cbn; auto|unfold raised; cbn; auto|].
      apply fmono_bindR; [apply fmono_get_user|intros u]. apply fmono_bindR; [apply fmono_get_groups|intros; exact Logic.I]. }
    assert (S1 : same w1) by (unfold same; auto).
    destruct C as [(uid & Hsay & Hn & ->)|(Hno & x & ->)].
    2:{ right. split; [exact S1|]. left. right. split; [exact Hno|reflexivity]. }
    assert (R1 : srep k (w_log w1) m d) by (rewrite L1; exact R).
    cbn [t_pt slice_bytes]. apply wpc_bindR. eapply wpc_mono; [| |apply (get_user_post uid w1 m H1 (fun b => srep_user_logged _ m d uid b R1))].
    { intros w' (A & B1 & B2 & _ & B4). right. unfold same. split; [exact A|]. split; [congruence|]. split; congruence. }
    intros r w2 _ (H2 & (K1 & K2 & _ & K4) & C).
    assert (S2 : same w2) by (unfold same; split; [exact H2|]; split; [congruence|]; split; congruence).
    destruct C as [->|(HF & x & -> & Hx)].
    2:{ right. split; [exact S2|]. right. split; eauto. }
    pose proof (proj1 R uid) as Ru. destruct (d_users d !! uid) as [a|] eqn:Eu.
    2:{ rewrite Ru. right. split; [exact S2|]. left. left. exists uid, (st_exp st).
        split; [exact Hsay|]. split; [exact Hn|]. now rewrite Eu. }
    destruct Ru as (b & Hb & Ho & _). rewrite Hb, Ho. cbn [u_groups u_scopes account_user].
    assert (R2 : srep k (w_log w2) m d) by (rewrite K1; exact R1).
    apply wpc_bindR. eapply wpc_mono; [| |apply (get_groups_post d m (elements (ac_groups a)) ∅ w2 H2 R2)].
    { intros w' (A & B1 & B2 & _ & B4). right. destruct S2 as (_ & ? & ? & ?). unfold same. split; [exact A|]. split; [congruence|]. split; congruence. }
    intros r w3 _ (H3 & (K1' & K2' & _ & K4') & C).
    assert (S3 : same w3). { destruct S2 as (_ & ? & ? & ?). unfold same. split; [exact H3|]. split; [congruence|]. split; congruence. }
    destruct C as [(gm & -> & G2 & G3)|[(g & G2 & G3 & ->)|(HF & x & -> & Hx)]].
    - apply wpc_ret; right; [exact S3|]. split; [exact S3|]. left. left. exists uid, (st_exp st).
      split; [exact Hsay|]. split; [exact Hn|]. rewrite Eu. left. eexists. split; [|reflexivity].
      split; [reflexivity|]. split; [reflexivity|]. split; [intros g Hg; apply G2, elem_of_list_In, elem_of_elements, Hg|].
      intros g s. cbn [i_groups]. rewrite G3, <- elem_of_list_In, elem_of_elements, lookup_empty. split; [intros [?|[_ ?]]; [assumption|discriminate]|auto].
    - right. split; [exact S3|]. left. left. exists uid, (st_exp st).
      split; [exact Hsay|]. split; [exact Hn|]. rewrite Eu. right. exists g. split; [apply elem_of_elements, elem_of_list_In, G2|]. auto.
    - right. split; [exact S3|]. right. split; eauto.
  Qed.
End Read.
