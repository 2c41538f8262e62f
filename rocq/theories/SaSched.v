(** Concurrent calls of the Standalone identity provider over untrusted storage: the encryption log
    explains everything. *)
From stdpp Require Import gmap.
From Coq Require Import ZifyN ZifyNat.
From Verif Require Import Bytes Base64 Base64Proofs Go Json JsonProofs Uuid UuidProofs Time TimeProofs Types TypesProofs World
  Cryptor CryptorProofs CryptoFacts Id Data D1 Spec SpecProofs Sched D1Sched Password Standalone StandaloneSpec StandaloneProofs StandaloneRefine
  TokenFacts IdAuthority.
Local Open Scope bool_scope.
Local Open Scope N_scope.

(** ** General *)
Definition okP {A} (P : A -> Prop) (r : res A) : Prop := forall a, r = Ok a -> P a.
Lemma okP_err {A} (P : A -> Prop) x : okP P (Err x).
Proof. discriminate. Qed.
Lemma okP_panic {A} (P : A -> Prop) : okP P Panic.
Proof. discriminate. Qed.
Lemma okP_ok {A} (P : A -> Prop) a : P a -> okP P (Ok a).
Proof. intros H b [= <-]. exact H. Qed.

Section Gen.
  Context {S I : Type} (E : entry -> Prop).
  Notation W := (world S I).
  Lemma rg_then {A B} (P : A -> Prop) (Q : B -> Prop) (p : prog W (res A)) (k : A -> prog W (res B)) :
    rg E p (okP P) -> (forall a, P a -> rg E (k a) (okP Q)) -> rg E (bindR p k) (okP Q).
  Proof. intros H Hk. apply rg_bindR. eapply rg_mono; [|exact H]. intros [a|x|] Ha; [apply Hk, Ha; reflexivity|apply okP_err|apply okP_panic]. Qed.
  Lemma rg_thenT {A B} (Q : B -> Prop) (p : prog W (res A)) (k : A -> prog W (res B)) :
    rg E p (fun _ => True) -> (forall a, rg E (k a) (okP Q)) -> rg E (bindR p k) (okP Q).
  Proof. intros H Hk. apply (rg_then (fun _ => True)); [|auto]. eapply rg_mono; [|exact H]. intros r _ a _. exact Logic.I. Qed.
  Lemma rg_mapE {A} (P : A -> Prop) f (p : prog W (res A)) : rg E p (okP P) -> rg E (map_err f p) (okP P).
  Proof. intros H. unfold map_err. apply rg_bind. eapply rg_mono; [|exact H]. intros [a|x|] Ha; [exact Ha|apply okP_err|apply okP_panic]. Qed.
  Lemma rg_mapR {A B} (P : B -> Prop) (f : A -> B) (p : prog W (res A)) : rg E p (okP (fun a => P (f a))) -> rg E (ret_map f p) (okP P).
  Proof. intros H. unfold ret_map. apply rg_bind. eapply rg_mono; [|exact H]. intros [a|x|] Ha; [apply okP_ok, Ha; reflexivity|apply okP_err|apply okP_panic]. Qed.
  Lemma rg_liftE {A} (P : A -> Prop) (r : res A) : okP P r -> rg E (lift r : prog W _) (okP P).
  Proof. auto. Qed.
  Lemma rg_okT {A} (p : prog W (res A)) : rg E p (fun _ => True) -> rg E p (okP (fun _ => True)).
  Proof. intros H. eapply rg_mono; [|exact H]. intros r _ a _. exact Logic.I. Qed.
  Lemma rg_draw e n : rg E (get_bytes e n : prog W _) (okP (fun b => exists i, draw e i n = Ok b)).
  Proof. unfold get_bytes, act. cbn [rg]. intros w HE Hf. right. split; [exact HE|]. intros b Hb. cbn [fst] in Hb. eauto. Qed.
  Lemma rg_v4 e : rg E (new_v4 e : prog W _) (okP (fun u => exists i b, draw e i 16 = Ok b /\ u = uuid_v4 b)).
  Proof. unfold new_v4. eapply rg_then; [apply rg_draw|]. intros b [i Hi]. apply okP_ok. eauto. Qed.
  Lemma rg_clock e : rg E (time_now e : prog W _) (fun t => exists n, t = clock e n).
  Proof. unfold time_now, act. cbn [rg]. eauto. Qed.
  Lemma leaves_mapR {A B} (P : res B -> Prop) (f : A -> B) (p : prog W (res A)) : leaves (fun r => P (res_map f r)) p -> leaves P (ret_map f p).
  Proof. intros H. unfold ret_map. induction p as [a|X g k IH]; cbn [leaves bind] in *; auto. Qed.
  Lemma leaves_then {A B} (P : A -> Prop) (Q : res B -> Prop) (p : prog W (res A)) (k : A -> prog W (res B)) :
    (forall x, Q (Err x)) -> Q Panic -> leaves (okP P) p -> (forall a, P a -> leaves Q (k a)) -> leaves Q (bindR p k).
  Proof.
    intros H1 H2 Hp Hk. unfold bindR. induction p as [a|X g c IH]; cbn [leaves bind] in *; [|auto].
    destruct a as [a|x|]; cbn [leaves]; auto.
  Qed.
  Lemma rg2_bb {A B C} (p : prog W A) (k : A -> prog W B) (g : B -> prog W C) P2 :
    rg E p (fun a => rg2 E (bind (k a) g) P2) -> rg2 E (bind (bind p k) g) P2.
  Proof. induction p as [a|X f c IH]; cbn [rg bind]; [auto|]. intros H. right. intros w HE Hf. destruct (H w HE Hf) as [D|[D1 D2]]; auto. Qed.
End Gen.

Section Calls.
  Context {S I : Type} (e : env).
  Notation W := (world S I).
  Context (io : provider S) (k : sa_keys) (calls : list sa_call) (made : nat -> sa_stamp -> Prop).
  Notation K := (sa_key k).
  (** What others log. *)
  Context (Ex : entry -> Prop) (HEx : forall x, K (e_kek x) -> Ex x).
  Notation uc := (aes_cryptor e (s_uek k) : cryptor W).
  Notation gc := (aes_cryptor e (s_gek k) : cryptor W).
  Notation tc := (aes_cryptor e (s_tek k) : cryptor W).
  Notation issued := (issued e calls made).
  Notation known := (known e calls made).
  Notation logged_in := (logged_in e calls made).
  Notation group_id := (group_id e calls made).
  Notation group_scopes := (group_scopes e calls made).
  Notation resolves := (resolves e calls made).
  Notation justified := (sa_justified e calls made).
  Context (Hug : s_gek k <> s_uek k) (clock_wf : forall n, time_wf (clock e n)) (calls_wf : List.Forall sa_call_wf calls).

  Lemma in_wf c : In c calls -> sa_call_wf c.
  Proof. pose proof calls_wf as H. rewrite List.Forall_forall in H. apply H. Qed.
  Lemma lookup_in t c : calls !! t = Some c -> In c calls.
  Proof. intros H. apply elem_of_list_In. eapply elem_of_list_lookup_2; eauto. Qed.

  (** A user record the provider seals; [f] is what storage does to group ids. *)
  Definition user_ok (f : bytes -> bytes) (u : user) : Prop :=
    exists t scopes pw salt gs, calls !! t = Some (SNewUser scopes) /\ u_scopes u = scope_union scopes /\ issued t pw /\
      length salt = 8%nat /\ u_hash u = Some (salt ++ pwhash e pw salt) /\ u_groups u = Some gs /\ forall g, g ∈ gs -> group_id (f g).
  Definition for_user (x : entry) : Prop := e_kek x = s_uek k /\ exists u, user_ok as_text u /\ e_pt x = print (enc_user u).
  Definition for_group (x : entry) : Prop :=
    e_kek x = s_gek k /\ exists tok scopes uid, In (SNewGroup tok scopes) calls /\ logged_in tok uid /\ e_pt x = print (enc_group (mkGroup (scope_union scopes))).
  Definition for_login (x : entry) : Prop :=
    exists t uid pw exp aad, e_pt x = print (jbytes (Some uid)) /\ time_wf exp /\ enc_time exp = Some aad /\ e_aad x = print aad /\
      calls !! t = Some (SLogin uid pw) /\ made t (MExpiry exp) /\ known pw.
  Definition Esa (x : entry) : Prop :=
    ~ K (e_kek x) \/ (aes_open (e_kek x) (e_aad x) (e_wk x) (e_ct x) = Ok (e_pt x) /\ (for_user x \/ for_group x \/ for_login x)).
  Definition E (x : entry) : Prop := Ex x /\ Esa x.
  Lemma E_true x : E x -> K (e_kek x) -> aes_open (e_kek x) (e_aad x) (e_wk x) (e_ct x) = Ok (e_pt x).
  Proof. intros [_ [H|[H _]]] Hk; [contradiction|exact H]. Qed.
  Lemma E_intro kek aad wk ct pt : K kek -> aes_open kek aad wk ct = Ok pt ->
    (for_user (mkEntry kek aad wk ct pt) \/ for_group (mkEntry kek aad wk ct pt) \/ for_login (mkEntry kek aad wk ct pt)) -> E (mkEntry kek aad wk ct pt).
  Proof. intros Hk Ho H. split; [now apply HEx|]. right. auto. Qed.
  Notation rgE := (@rg S I _ E).
  Lemma Ku : K (s_uek k). Proof. now left. Qed.
  Lemma Kg : K (s_gek k). Proof. right; now left. Qed.
  Lemma Kt : K (s_tek k). Proof. right; now right. Qed.

  Lemma user_ok_small f u : user_ok f u -> u_scopes u < 2 ^ 64.
  Proof. intros (t & scopes & pw & salt & gs & Hc & -> & _). apply union_lt, (in_wf _ (lookup_in _ _ Hc)). Qed.
  Lemma group_id_text g : group_id g -> group_id (as_text g).
  Proof.
    intros H. rewrite as_text_id; [exact H|]. destruct H as [(t & tok & scopes & uid & _ & _ & (i & raw & _ & ->) & _)|(tok & uid & gids & x & _ & _ & _ & ->)].
    - apply uuid_text_valid.
    - apply as_text_valid.
  Qed.
  Lemma user_seal_ok u : user_ok (fun g => g) u -> user_ok as_text u.
  Proof.
    intros (t & scopes & pw & salt & gs & A & B & C & D & F & G & H). exists t, scopes, pw, salt, gs. repeat (split; [assumption|]).
    intros g Hg. now apply group_id_text, H.
  Qed.

  (** What decryption gives. *)
  Lemma rg_unseal_user su : rgE (user_unseal uc su) (okP (user_ok (fun g => g))).
  Proof.
    unfold user_unseal. eapply rg_mono; [|apply (rg_decrypt_json e E K E_true), Ku]. intros r Hr u Hu. destruct (Hr u Hu) as (x & [_ HE] & Hk & _ & Hd).
    destruct HE as [HE|[_ [(_ & v & Hv & Hp)|[(Hg & _)|(t & uid & pw & exp & aad & Hp & _)]]]].
    - exfalso. apply HE. rewrite Hk. apply Ku.
    - rewrite Hp, user_roundtrip in Hd by (eapply user_ok_small, Hv). injection Hd as <-.
      destruct Hv as (t & scopes & pw & salt & gs & A & B & C & D & F & G & H). exists t, scopes, pw, salt. cbn [u_scopes u_hash u_groups].
      rewrite G. cbn [norm_set]. eexists. repeat (split; [eassumption|]). split; [reflexivity|].
      intros g Hg. apply elem_of_map in Hg as (y & -> & Hy). exact (H y Hy).
    - congruence.
    - exfalso. rewrite Hp, unmarshal_print in Hd by apply jbytes_wf. discriminate.
  Qed.
  Lemma rg_get_user uid : rgE (get_user io uc uid) (okP (user_ok (fun g => g))).
  Proof.
    unfold get_user. apply rg_thenT; [apply rg_map_err, rg_onio|]. intros b. destruct (unmarshal _ _) as [su|]; [apply rg_unseal_user|apply okP_err].
  Qed.
  Lemma rg_get_group gid : rgE (get_group io gc gid) (okP (fun g => group_scopes (g_scopes g))).
  Proof.
    unfold get_group. apply rg_thenT; [apply rg_map_err, rg_onio|]. intros b. destruct (unmarshal _ _) as [sg|]; [|apply okP_err].
    unfold group_unseal. eapply rg_mono; [|apply (rg_decrypt_json e E K E_true), Kg]. intros r Hr g Hg. destruct (Hr g Hg) as (x & [_ HE] & Hk & _ & Hd).
    destruct HE as [HE|[_ [(Hu & _)|[(_ & tok & scopes & uid & Hc & Hl & Hp)|(t & uid & pw & exp & aad & Hp & _)]]]].
    - exfalso. apply HE. rewrite Hk. apply Kg.
    - congruence.
    - rewrite Hp, group_roundtrip in Hd by (apply union_lt, (in_wf _ Hc)). injection Hd as <-. exists tok, scopes, uid. split; [exact Hc|]. split; [exact Hl|]. apply union_all_of.
    - exfalso. rewrite Hp, unmarshal_print in Hd by apply jbytes_wf. discriminate.
  Qed.
  Lemma rg_get_groups gids : forall acc, (forall g, In g gids -> group_id g) ->
    (forall g s, acc !! g = Some s -> group_id g /\ group_scopes s) ->
    rgE (get_groups io gc gids acc) (okP (fun m => forall g s, m !! g = Some s -> group_id g /\ group_scopes s)).
  Proof.
    induction gids as [|g gids IH]; intros acc Hg Ha; cbn [get_groups]; [now apply okP_ok|].
    eapply rg_then; [apply rg_get_group|]. intros gr Hgr. apply IH; [intros; apply Hg; now right|].
    intros g' s Hs. destruct (decide (g = g')) as [<-|Hn].
    - rewrite lookup_insert in Hs. injection Hs as <-. split; [apply Hg; now left|exact Hgr].
    - rewrite lookup_insert_ne in Hs by exact Hn. now apply Ha.
  Qed.
  Lemma rg_token (tok : bytes) (st : sealed_token) : token_from_string tok = Ok st -> rgE (token_unseal e tc st) (okP (fun t => logged_in tok (slice_bytes (t_pt t)))).
  Proof.
    intros Ht. pose proof (from_string_wf _ _ Ht) as Hwf. unfold token_unseal. apply rg_bind. eapply rg_mono; [|apply rg_time]. intros now _.
    destruct (time_before _ _); [apply okP_err|]. destruct (enc_time (st_exp st)) as [aad|] eqn:Ea; [|apply okP_err].
    eapply rg_then; [apply (rg_decrypt_json e E K E_true), Kt|]. intros pt (x & [_ HE] & Hk & Hx & Hd). apply okP_ok. cbn [t_pt].
    destruct HE as [HE|[_ [(_ & v & Hv & Hp)|[(_ & tok' & scopes & uid & Hc & Hl & Hp)|(t & uid & pw & exp & aad' & Hp & Hw & Hexp & Ha & Hc & Hm & Hkn)]]]].
    - exfalso. apply HE. rewrite Hk. apply Kt.
    - exfalso. rewrite Hp, user_not_bytes in Hd by (eapply user_ok_small, Hv). discriminate.
    - exfalso. rewrite Hp, group_not_bytes in Hd by (apply union_lt, (in_wf _ Hc)). discriminate.
    - rewrite Hx in Ha. pose proof (time_aad_inj _ _ _ _ Hwf Hw Ea Hexp Ha) as <-. rewrite Hp in Hd. apply bytes_of_bytes in Hd as ->. cbn [slice_bytes].
      exists st, t, pw. auto.
  Qed.
  Lemma rg_identity tok : rgE (sa_get_identity e io uc gc tc tok) (okP (resolves tok)).
  Proof.
    unfold sa_get_identity, any_err. apply (rg_then E (fun st : sealed_token => token_from_string tok = Ok st)); [apply rg_mapE, rg_liftE; intros st H; exact H|]. intros st Hst.
    eapply rg_then; [apply rg_mapE, rg_token, Hst|]. intros t Ht. cbn beta in Ht.
    eapply rg_then; [apply rg_get_user|]. intros u (t0 & scopes & pw & salt & gs & A & B & C & D & F & G & H).
    rewrite G. eapply rg_then; [apply (rg_get_groups (elements gs) ∅)|].
    - intros g Hg. apply H. apply elem_of_elements, elem_of_list_In, Hg.
    - intros g s Hs. rewrite lookup_empty in Hs. discriminate.
    - intros m Hm. apply okP_ok. split; [exact Ht|]. cbn [i_scopes i_groups]. split; [|exact Hm].
      exists scopes. split; [eapply lookup_in, A|]. rewrite B. apply union_all_of.
  Qed.

  (** Writing records. *)
  Lemma rg_put_user uid u b : user_ok as_text u -> rgE (put_user io uc uid u b) (fun _ => True).
  Proof.
    intros Hu. unfold put_user, user_seal. apply rg_bindR, rg_bindR. eapply rg_mono; [|apply rg_aes_enc].
    - intros [[wk ct]|x|] _; try exact Logic.I. cbn [rg]. destruct b; apply rg_map_err, rg_onio.
    - intros wk ct Ho. apply E_intro; [apply Ku|exact Ho|]. left. split; [reflexivity|]. eauto.
  Qed.
  Lemma rg_put_group gid tok scopes uid : In (SNewGroup tok scopes) calls -> logged_in tok uid ->
    rgE (put_group io gc gid (new_group scopes)) (fun _ => True).
  Proof.
    intros Hc Hl. unfold put_group, group_seal. apply rg_bindR, rg_bindR. eapply rg_mono; [|apply rg_aes_enc].
    - intros [[wk ct]|x|] _; try exact Logic.I. cbn [rg]. apply rg_map_err, rg_onio.
    - intros wk ct Ho. apply E_intro; [apply Kg|exact Ho|]. right; left. split; [reflexivity|]. exists tok, scopes, uid. auto.
  Qed.
  Lemma authenticate_known f u pw : user_ok f u -> authenticate e u pw = Ok tt ->
    exists t pw0, issued t pw0 /\ pw_match e pw pw0 /\ exists scopes, calls !! t = Some (SNewUser scopes) /\ u_scopes u = scope_union scopes.
  Proof.
    intros (t & scopes & pw0 & salt & gs & A & B & C & D & F & G & H) Ha. exists t, pw0. split; [exact C|]. split; [|eauto].
    exists salt. split; [exact D|]. unfold authenticate, compare_password in Ha. rewrite F in Ha. cbn [slice_bytes] in Ha.
    rewrite go_to_ok, go_from_ok in Ha by (rewrite app_length; unfold saltLength; lia). cbn [res_bind] in Ha.
    change saltLength with 8%nat in Ha. rewrite <- D, take_app, drop_app in Ha.
    destruct (bytes_eqb _ _) eqn:Eb; [|discriminate]. now apply bytes_eqb_eq in Eb.
  Qed.

  (** ** The calls *)
  Notation Jc c := (okP (justified c)).
  Notation two t c p := (rg2 E p (stamped_prog E sa_stamped (made t) (Jc c))).
  Lemma stop t c r : (forall x, r <> Ok x) -> stamped_prog (S := S) (I := I) E sa_stamped (made t) (Jc c) (Ret r).
  Proof. intros H. exists (MGroup []). split; [destruct r as [a|x|]; [exfalso; exact (H a eq_refl)|exact Logic.I..]|]. intros _. apply rg_ret. intros x Hx. exfalso. exact (H x Hx). Qed.
  Lemma two_bindR {A B} t c (f : B -> sa_reply) (p : prog W (res A)) (kk : A -> prog W (res B)) P :
    rgE p (okP P) -> (forall a, P a -> two t c (ret_map f (kk a))) -> two t c (ret_map f (bindR p kk)).
  Proof.
    intros H Hk. unfold ret_map, bindR. apply rg2_bb. eapply rg_mono; [|exact H].
    intros [a|x|] Ha; [apply Hk, Ha; reflexivity|apply rg2_now, stop; discriminate|apply rg2_now, stop; discriminate].
  Qed.
  Lemma two_now t c s p : leaves (sa_stamped s) p -> (made t s -> rgE p (Jc c)) -> two t c p.
  Proof. intros H1 H2. apply rg2_now. exists s. auto. Qed.

  Lemma rg_password : rgE (generate_password e : prog W _) (okP (fun p => random_password e (fst p) /\ exists salt, length salt = 8%nat /\ snd p = salt ++ pwhash e (fst p) salt)).
  Proof.
    unfold generate_password. eapply rg_then; [apply rg_draw|]. intros raw [i Hi].
    eapply rg_then; [apply rg_draw|]. intros salt [j Hj]. apply okP_ok. cbn [fst snd]. split; [exists i, raw; auto|]. exists salt. split; [|reflexivity].
    unfold draw in Hj. destruct (tape e j _) as [b|]; [|discriminate]. destruct (N.eqb_spec (blen b) (N.of_nat saltLength)) as [Hl|]; [|discriminate].
    injection Hj as <-. unfold blen, saltLength in Hl. lia.
  Qed.

  Lemma two_new_user t scopes : calls !! t = Some (SNewUser scopes) -> two t (SNewUser scopes) (sa_aes e io k (SNewUser scopes) : prog W _).
  Proof.
    intros Hc. unfold sa_aes. cbn [sa_do]. unfold sa_new_user.
    eapply two_bindR; [apply rg_v4|]. intros uid _.
    eapply (two_bindR t _ _ _ _ (fun up => random_password e (snd up) /\ exists salt, length salt = 8%nat /\
       fst up = mkUser (Some (salt ++ pwhash e (snd up) salt)) (scope_union scopes) (Some ∅))).
    - unfold new_user. eapply rg_then; [apply rg_password|]. intros [pw rec] (Hr & salt & Hs & Hh). cbn [fst snd] in *. apply okP_ok. cbn [fst snd].
      split; [exact Hr|]. exists salt. split; [exact Hs|]. now rewrite Hh.
    - intros [u pwd] (Hr & salt & Hs & Hu). cbn [fst snd] in *. apply (two_now t _ (MPassword pwd)).
      + apply leaves_mapR. apply leaves_bindR; [intros; exact Logic.I|exact Logic.I|]. intros _. reflexivity.
      + intros Hm. apply rg_mapR. apply rg_thenT.
        * apply rg_put_user. exists t, scopes, pwd, salt, ∅. rewrite Hu. cbn [u_scopes u_hash u_groups]. split; [exact Hc|]. split; [reflexivity|].
          split; [eapply is_new; eauto|]. repeat (split; [auto; fail|]). intros g Hg. now apply elem_of_empty in Hg.
        * intros _. apply okP_ok. exact Logic.I.
  Qed.
  Lemma two_bindRE {A B} t c (f : B -> sa_reply) g (p : prog W (res A)) (kk : A -> prog W (res B)) P :
    rgE p (okP P) -> (forall a, P a -> two t c (ret_map f (map_err g (kk a)))) -> two t c (ret_map f (map_err g (bindR p kk))).
  Proof.
    intros H Hk. unfold ret_map, map_err, bindR in *. induction p as [a|X h cc IH]; cbn [bind rg] in *.
    - destruct a as [a|x|]; [apply Hk, H; reflexivity|apply rg2_now, stop; discriminate|apply rg2_now, stop; discriminate].
    - right. intros w HE Hf. destruct (H w HE Hf) as [D|[D1 D2]]; auto.
  Qed.
  Lemma two_bindE {A B} t c (f : B -> sa_reply) g (p : prog W A) (kk : A -> prog W (res B)) P :
    rgE p P -> (forall a, P a -> two t c (ret_map f (map_err g (kk a)))) -> two t c (ret_map f (map_err g (bind p kk))).
  Proof.
    intros H Hk. unfold ret_map, map_err in *. induction p as [a|X h cc IH]; cbn [bind rg] in *; [now apply Hk|].
    right. intros w HE Hf. destruct (H w HE Hf) as [D|[D1 D2]]; auto.
  Qed.
  Lemma leaves_mapE {A} (P : res A -> Prop) g (p : prog W (res A)) : leaves (fun r => P (match r with Err x => Err (g x) | r => r end)) p -> leaves P (map_err g p).
  Proof. intros H. unfold map_err. induction p as [a|X h kk IH]; cbn [leaves bind] in *; [destruct a; exact H|auto]. Qed.
  Lemma two_login t uid pw : calls !! t = Some (SLogin uid pw) -> two t (SLogin uid pw) (sa_aes e io k (SLogin uid pw) : prog W _).
  Proof.
    intros Hc. unfold sa_aes. cbn [sa_do]. unfold sa_login, any_err.
    eapply two_bindRE; [apply rg_get_user|]. intros u Hu.
    apply (two_bindRE t _ _ _ _ _ (fun _ : unit => authenticate e u pw = Ok tt)); [apply rg_liftE; now intros []|].
    intros _ Ha. destruct (authenticate_known _ _ _ Hu Ha) as (t0 & pw0 & Hi & Hm & _).
    apply (two_bindE t _ _ _ _ _ (fun tk => exists exp, time_wf exp /\ tk = mkToken (Some uid) exp)).
    { unfold new_token. apply rg_bind. eapply rg_mono; [|apply rg_clock]. intros now [n ->]. cbn [rg]. exists (time_add (clock e n) TokenValidity).
      split; [apply time_add_wf, clock_wf|reflexivity]. }
    intros tk (exp & Hexp & ->). apply (two_now t _ (MExpiry exp)).
    - apply leaves_mapR, leaves_mapE. unfold token_seal. cbn [t_exp]. destruct (enc_time exp) as [aad|] eqn:Et; [|exact Logic.I].
      eapply leaves_then; [intros; exact Logic.I|exact Logic.I| |].
      { apply (leaves_bindR (okP (fun st => exists ct wk, st = mkSealedToken exp ct wk))); [intros; apply okP_err|apply okP_panic|].
        intros [wk ct]. cbn [leaves]. apply okP_ok. eauto. }
      intros st (ct & wk & ->). cbn [lift bindR bind]. destruct (token_string _) as [s|x|] eqn:Es; cbn [leaves]; [|exact Logic.I..].
      cbn [res_map sa_stamped fst snd]. eexists. split; [eapply token_string_lossless, Es; exact Hexp|]. split; reflexivity.
    - intros Hmade. assert (Hkn : known pw) by (exists t0, pw0; auto). apply rg_mapR, rg_mapE. unfold token_seal. cbn [t_exp t_pt].
      destruct (enc_time exp) as [aad|] eqn:Et; [|apply okP_err]. apply rg_thenT.
      + apply rg_bindR. eapply rg_mono; [|apply rg_aes_enc]; [intros [[wk ct]|x|] _; exact Logic.I|].
        intros wk ct Ho. apply E_intro; [apply Kt|exact Ho|]. right; right. exists t, uid, pw, exp, aad. cbn [e_pt e_aad]. auto 10.
      + intros st. apply rg_thenT; [exact Logic.I|]. intros s. apply okP_ok. exact Hkn.
  Qed.
  Lemma two_change t uid old : calls !! t = Some (SChangePassword uid old) -> two t (SChangePassword uid old) (sa_aes e io k (SChangePassword uid old) : prog W _).
  Proof.
    intros Hc. unfold sa_aes. cbn [sa_do]. unfold sa_change_password, any_err.
    eapply two_bindR; [apply rg_mapE, rg_get_user|]. intros u Hu.
    eapply (two_bindR t _ _ _ _ (fun up => known old /\ random_password e (snd up) /\ (made t (MPassword (snd up)) -> user_ok as_text (fst up)))).
    - apply rg_mapE. unfold change_password. apply (rg_then E (fun _ : unit => authenticate e u old = Ok tt)); [apply rg_liftE; now intros []|].
      intros _ Ha. destruct (authenticate_known _ _ _ Hu Ha) as (t0 & pw0 & Hi & Hm & _).
      eapply rg_then; [apply rg_password|]. intros [pw rec] (Hr & salt & Hs & Hh). cbn [fst snd] in *. apply okP_ok. cbn [fst snd].
      split; [exists t0, pw0; auto|]. split; [exact Hr|]. intros Hmade.
      destruct (user_seal_ok _ Hu) as (t1 & scopes & pw1 & salt1 & gs & A & B & C & D & F & G & H).
      assert (M : pw_match e old pw1).
      { exists salt1. split; [exact D|]. unfold authenticate, compare_password in Ha. rewrite F in Ha. cbn [slice_bytes] in Ha.
        rewrite go_to_ok, go_from_ok in Ha by (rewrite app_length; unfold saltLength; lia). cbn [res_bind] in Ha.
        change saltLength with 8%nat in Ha. rewrite <- D, take_app, drop_app in Ha.
        destruct (bytes_eqb _ _) eqn:Eb; [|discriminate]. now apply bytes_eqb_eq in Eb. }
      exists t1, scopes, pw, salt, gs. cbn [u_scopes u_hash u_groups]. split; [exact A|]. split; [exact B|].
      split; [exact (is_change e calls made t1 t uid old pw1 pw C M Hc Hmade Hr)|]. split; [exact Hs|]. split; [now rewrite Hh|]. split; [exact G|exact H].
    - intros [u' pwd] (Hk & Hr & Hu'). cbn [fst snd] in *. apply (two_now t _ (MPassword pwd)).
      + apply leaves_mapR. apply leaves_bindR; [intros; exact Logic.I|exact Logic.I|]. intros _. reflexivity.
      + intros Hm. apply rg_mapR. apply rg_thenT; [apply rg_put_user, Hu', Hm|]. intros _. apply okP_ok. exact Hk.
  Qed.
  Lemma get_ids_spec i g : g ∈ get_ids i <-> g = i_id i \/ exists s, i_groups i !! g = Some s.
  Proof. unfold get_ids. rewrite elem_of_union, elem_of_singleton, elem_of_dom. reflexivity. Qed.
  Lemma members i gids : member_of_all i gids = true -> forall g, In g gids -> g = i_id i \/ exists s, i_groups i !! g = Some s.
  Proof. unfold member_of_all. rewrite forallb_forall. intros H g Hg. apply get_ids_spec. specialize (H g Hg). now apply bool_decide_eq_true in H. Qed.
  Lemma rg_add_user tok uid gids : In (SAddUser tok uid gids) calls -> rgE (sa_aes e io k (SAddUser tok uid gids)) (Jc (SAddUser tok uid gids)).
  Proof.
    intros Hc. unfold sa_aes. cbn [sa_do]. apply rg_mapR. unfold sa_add_user. eapply rg_then; [apply rg_identity|]. intros i Hi.
    destruct (member_of_all i gids) eqn:Em; cbn [negb]; [|apply okP_err]. pose proof (members i gids Em) as Hm.
    eapply rg_then; [apply rg_get_user|]. intros u (t0 & scopes & pw & salt & gs & A & B & C & D & F & G & H). rewrite G.
    apply (rg_then E (fun gs' => exists s, gs' = Some s /\ forall g, g ∈ s -> group_id (as_text g))).
    - apply rg_liftE. intros gs' E'. destruct gids as [|g0 l]; cbn [add_groups] in E'; injection E' as <-.
      + exists gs. split; [reflexivity|]. intros g Hg. now apply group_id_text, H.
      + eexists. split; [reflexivity|]. intros g Hg. apply elem_of_union in Hg as [Hg|Hg]; [|now apply group_id_text, H].
        change (g ∈ (list_to_set (g0 :: l) : gset bytes)) in Hg. apply elem_of_list_to_set, elem_of_list_In in Hg.
        destruct Hi as (Hl & _ & Hg'). destruct (Hm g Hg) as [->|[s Hs]].
        * right. exists tok, uid, (g0 :: l), (i_id i). auto.
        * apply group_id_text. eapply Hg', Hs.
    - intros gs' (s & -> & Hs). eapply rg_mono; [|apply rg_put_user].
      + intros r _ x _. exists i. auto.
      + exists t0, scopes, pw, salt, s. cbn [u_scopes u_hash u_groups]. auto 10.
  Qed.
  Lemma rg_remove_user tok uid gids : rgE (sa_aes e io k (SRemoveUser tok uid gids)) (Jc (SRemoveUser tok uid gids)).
  Proof.
    unfold sa_aes. cbn [sa_do]. apply rg_mapR. unfold sa_remove_user. eapply rg_then; [apply rg_identity|]. intros i Hi.
    destruct (member_of_all i gids) eqn:Em; cbn [negb]; [|apply okP_err]. pose proof (members i gids Em) as Hm.
    eapply rg_then; [apply rg_get_user|]. intros u (t0 & scopes & pw & salt & gs & A & B & C & D & F & G & H). rewrite G.
    eapply rg_mono; [|apply rg_put_user].
    - intros r _ x _. exists i. auto.
    - exists t0, scopes, pw, salt, (gs ∖ list_to_set gids). cbn [u_scopes u_hash u_groups remove_groups]. repeat (split; [auto; fail|]).
      intros g Hg. apply elem_of_difference in Hg as [Hg _]. now apply group_id_text, H.
  Qed.
  Lemma rg_delete_user tok uid : rgE (sa_aes e io k (SDeleteUser tok uid)) (Jc (SDeleteUser tok uid)).
  Proof.
    unfold sa_aes. cbn [sa_do]. apply rg_mapR. unfold sa_delete_user. eapply rg_then; [apply rg_identity|]. intros i Hi.
    eapply rg_mono; [|apply rg_onio]. intros r _ x _. exists i. exact Hi.
  Qed.
  Lemma rg_get_identity tok : rgE (sa_aes e io k (SGetIdentity tok)) (Jc (SGetIdentity tok)).
  Proof. unfold sa_aes. cbn [sa_do]. apply rg_mapR. exact (rg_identity tok). Qed.
  Lemma two_new_group t tok scopes : calls !! t = Some (SNewGroup tok scopes) -> two t (SNewGroup tok scopes) (sa_aes e io k (SNewGroup tok scopes) : prog W _).
  Proof.
    intros Hc. unfold sa_aes. cbn [sa_do]. unfold sa_new_group.
    eapply two_bindR; [apply rg_identity|]. intros i Hi. eapply two_bindR; [apply rg_v4|]. intros gid (j & b & Hd & Hb).
    assert (Hrand : random_id e (uuid_text gid)) by (exists j, b; subst gid; auto).
    pose proof Hi as (Hl & _ & _). apply (two_now t _ (MGroup (uuid_text gid))).
    - apply leaves_mapR. apply leaves_bindR; [intros; exact Logic.I|exact Logic.I|]. intros _.
      apply leaves_bindR; [intros; exact Logic.I|exact Logic.I|]. intros u. apply leaves_bindR; [intros; exact Logic.I|exact Logic.I|]. intros gs.
      apply leaves_bindR; [intros; exact Logic.I|exact Logic.I|]. intros _. reflexivity.
    - intros Hm. apply rg_mapR. apply rg_thenT; [eapply rg_put_group; [eapply lookup_in, Hc|exact Hl]|]. intros _.
      eapply rg_then; [apply rg_get_user|]. intros u (t0 & scopes' & pw & salt & gs & A & B & C & D & F & G & H). rewrite G.
      apply (rg_then E (fun gs' => gs' = Some ({[uuid_text gid]} ∪ gs))).
      + apply rg_liftE. intros gs' E'. cbn [add_groups list_to_set foldr] in E'. injection E' as <-. f_equal. set_solver.
      + intros gs' ->. apply rg_thenT; [|intros _; apply okP_ok; exists i; exact Hi]. apply rg_put_user.
        exists t0, scopes', pw, salt. eexists. cbn [u_scopes u_hash u_groups]. repeat (split; [eauto; fail|]). intros g Hg.
        apply elem_of_union in Hg as [Hg|Hg]; [|now apply group_id_text, H]. apply elem_of_singleton in Hg as ->.
        apply group_id_text. left. exists t, tok, scopes, (i_id i). auto.
  Qed.

  (** All of them. *)
  Definition TI (t : nat) (p : prog W (res sa_reply)) : Prop := exists c, calls !! t = Some c /\ (rgE p (Jc c) \/ two t c p).
  Lemma TI_call t c : calls !! t = Some c -> TI t (sa_aes e io k c).
  Proof.
    intros Hc. exists c. split; [exact Hc|].
    destruct c as [scopes|uid pw|uid old|tok uid gids|tok uid gids|tok uid|tok scopes|tok].
    - right. now apply two_new_user.
    - right. now apply two_login.
    - right. now apply two_change.
    - left. apply rg_add_user. eapply lookup_in, Hc.
    - left. apply rg_remove_user.
    - left. apply rg_delete_user.
    - right. now apply two_new_group.
    - left. apply rg_get_identity.
  Qed.
  Lemma fmono_identity tok : fmono (sa_get_identity e io uc gc tc tok : prog W _).
  Proof.
    unfold sa_get_identity, any_err. apply fmono_bindR; [apply fmono_map_err, fmono_lift|intros st].
    apply fmono_bindR; [apply fmono_map_err; unfold token_unseal|intros t].
    - apply fmono_bind; [apply fmono_time|intros now]. destruct (time_before _ _); [exact Logic.I|]. destruct (enc_time _); [|exact Logic.I].
      apply fmono_bindR; [apply fmono_decrypt_json|intros; exact Logic.I].
    - apply fmono_bindR; [apply fmono_get_user|intros u]. apply fmono_bindR; [apply fmono_get_groups|intros; exact Logic.I].
  Qed.
End Calls.

Section Alone.
  Context {S I : Type} (e : env) (io : provider S) (k : sa_keys) (calls : list sa_call).
  Notation W := (world S I).
  Lemma sa_sched (w w' : W) pool' :
    s_uek k <> s_gek k -> (forall n, time_wf (clock e n)) -> Forall sa_call_wf calls ->
    Forall (fun x => ~ sa_key k (e_kek x)) (w_log w) ->
    exec (sa_key k) (map (sa_aes e io k) calls) w pool' w' -> w_forged w' = false ->
    forall t c r, calls !! t = Some c -> pool' !! t = Some (Ret (Ok r)) -> sa_justified e calls (sa_answered_only pool') c r.
  Proof.
    intros Hug Hcl Hca Hlog Hex Hforged t c r Hc Hr. apply not_eq_sym in Hug.
    set (made := sa_answered_only pool'). set (EE := E e k calls made (fun _ => True)).
    assert (EO : forall x, ~ sa_key k (e_kek x) -> EE x) by (intros x Hx; split; [exact Logic.I|now left]).
    destruct (exec_sound (sa_key k) EE (TI e k calls made (fun _ => True)) _ _ _ _ Hex) as [C|[_ HT]].
    - exact EO.
    - intros t0 p Hp. apply map_lookup_Some in Hp as (c0 & -> & _). apply fmono_sa.
    - intros _. split; [eapply List.Forall_impl; [|exact Hlog]; exact EO|].
      intros t0 p Hp. apply map_lookup_Some in Hp as (c0 & -> & Hc0). now apply TI_call.
    - intros t0 X f kk (c0 & Hc0 & [HT|HT]) HL w0 HE Hf0.
      + destruct (HT w0 HE Hf0) as [C|[C1 C2]]; [now left|right]. split; [exact C1|]. exists c0. auto.
      + destruct (rg2_kept EE pool' t0 sa_stamped (made t0) (okP (sa_justified e calls made c0))) with (X := X) (f := f) (k := kk) (w := w0) as [C|[C1 C2]]; auto.
        * intros s p' Hp' HL' r0 Hr0. rewrite Hp' in Hr0. injection Hr0 as ->. exact HL'.
        * right. split; [exact C1|]. exists c0. auto.
    - congruence.
    - destruct (HT t _ Hr) as (c0 & Hc0 & HC). rewrite Hc in Hc0. injection Hc0 as <-. destruct HC as [HC|[(s & Hs & HC)|[]]].
      + now apply HC.
      + apply HC; [|reflexivity]. intros r0 Hr0. rewrite Hr in Hr0. injection Hr0 as <-. exact Hs.
  Qed.
End Alone.
