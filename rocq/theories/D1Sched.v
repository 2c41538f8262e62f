(** Concurrent D1 calls over untrusted storage: the encryption log explains everything. *)
From stdpp Require Import gmap.
From Coq Require Import ZifyN ZifyNat.
From Verif Require Import Bytes Base64 Base64Proofs Go Json JsonProofs Uuid UuidProofs Time TimeProofs Types TypesProofs World
  Gcm Kwp Cryptor CryptorProofs Id Data D1 Spec SpecProofs Sched Authority.
Local Open Scope bool_scope.
Local Open Scope N_scope.
Ltac splits := repeat match goal with |- _ /\ _ => split end.

(** ** Encodings that cannot be confused *)
(** Standard base64 text contains no dash. *)
Lemma b64std_no_dash l : forallb (fun b => negb (byte_eqb b x2d)) (b64std_encode l) = true.
Proof.
  assert (Hs : forall n, n < 64 -> negb (byte_eqb (sextet_std n) x2d) = true) by (apply (sx_forall (fun n => negb (byte_eqb (sextet_std n) x2d))); vm_compute; reflexivity).
  unfold b64std_encode. induction l as [|a|a b|a b c t IH] using triple_ind; [reflexivity| | |];
    cbn [b64_encode forallb]; pose proof (bN_lt a); try pose proof (bN_lt b); try pose proof (bN_lt c);
    rewrite !Hs by lia; [reflexivity|reflexivity|exact IH].
Qed.
Lemma print_inj j j' : jwf j -> jwf j' -> print j = print j' -> canon j = canon j'.
Proof. intros A B H. pose proof (json_roundtrip j A) as P. rewrite H, (json_roundtrip j' B) in P. congruence. Qed.
Lemma time_not_bytes t j b : enc_time t = Some j -> print j <> print (jbytes (Some b)).
Proof.
  intros E H. apply print_inj in H; [|eapply enc_time_wf; eauto|apply jbytes_wf].
  unfold enc_time in E. destruct (time_text t) as [s|] eqn:Et; [|discriminate]. injection E as <-.
  change (canon (JStr s)) with (JStr (sanitize s)) in H. change (canon (jbytes (Some b))) with (JStr (sanitize (b64std_encode b))) in H.
  rewrite sanitize_b64, sanitize_valid in H by (eapply time_text_valid; eauto). injection H as ->.
  pose proof (time_text_dash _ _ Et) as D. pose proof (b64std_no_dash b) as Hd. rewrite forallb_forall in Hd.
  destruct (Nat.lt_ge_cases 4 (length (b64std_encode b))) as [L|L].
  - specialize (Hd _ (nth_In _ x00 L)). rewrite D in Hd. discriminate.
  - rewrite nth_overflow in D by assumption. discriminate.
Qed.
Lemma time_aad_inj t t' j j' : time_wf t -> time_wf t' -> enc_time t = Some j -> enc_time t' = Some j' ->
  print j = print j' -> t = t'.
Proof.
  intros W W' E E' H. apply print_inj in H; [|eapply enc_time_wf; eauto..].
  pose proof (dec_time_canon _ _ W E) as A. pose proof (dec_time_canon _ _ W' E') as B. rewrite H in A. congruence.
Qed.
Lemma object_aad_inj oid ad oid' ad' : uuid_wf oid -> uuid_wf oid' ->
  print (object_aad oid ad) = print (object_aad oid' ad') -> oid = oid' /\ slice_bytes ad = slice_bytes ad'.
Proof.
  unfold object_aad, uuid_wf. intros A B H. apply print_jbytes_inj in H. injection H as H.
  apply app_inj_1 in H; [exact H|]. congruence.
Qed.
Lemma access_aad_inj oid oid' : print (access_aad oid) = print (access_aad oid') -> oid = oid'.
Proof. unfold access_aad. intros H. apply print_jbytes_inj in H. congruence. Qed.

Lemma access_of_bytes s a : unmarshal dec_access (print (jbytes s)) = Some a -> a_groups a = None.
Proof.
  rewrite unmarshal_print by apply jbytes_wf. destruct s as [b|]; [discriminate|]. intros H. now injection H as <-.
Qed.
Lemma bytes_of_access a s : unmarshal dec_bytes (print (enc_access a)) = Some s -> False.
Proof.
  rewrite unmarshal_print by (cbn; repeat split; auto using jbytes_wf, enc_set_wf). discriminate.
Qed.
Lemma bytes_of_bytes s s' : unmarshal dec_bytes (print (jbytes s)) = Some s' -> s' = s.
Proof. rewrite unmarshal_print by apply jbytes_wf. rewrite dec_bytes_jbytes. congruence. Qed.

(** ** The cryptor among others *)
Section Crypt.
  Context {S I : Type} (e : env).
  Notation W := (world S I).

  Lemma fmono_aes_enc kek pt aad : fmono (aes_enc e kek pt aad : prog W _).
  Proof.
    unfold aes_enc. apply fmono_bindR; [apply fmono_get_bytes|intros key]. apply fmono_bindR; [apply fmono_get_bytes|intros nonce].
    apply fmono_bindR; [apply fmono_lift|intros ct]. apply fmono_bindR; [apply fmono_lift|intros wk].
    apply fmono_bind; [|cbn; auto]. cbn. auto.
  Qed.
  Lemma fmono_aes_dec kek aad wk ct : fmono (aes_dec kek aad wk ct : prog W _).
  Proof. unfold aes_dec, act. cbn [fmono]. intros w. cbn [fst snd]. split; [|exact Logic.I]. intros H. destruct (_ && _); [reflexivity|exact H]. Qed.
  Lemma fmono_encrypt_json kek a b : fmono (encrypt_json (aes_cryptor e kek) a b : prog W _).
  Proof. apply fmono_aes_enc. Qed.
  Lemma fmono_decrypt_json {A} kek (dec : json -> option A) a wk ct : fmono (decrypt_json (aes_cryptor e kek) dec a wk ct : prog W _).
  Proof. unfold decrypt_json. apply fmono_bindR; [apply fmono_aes_dec|intros pt]. destruct (unmarshal dec pt); cbn; auto. Qed.

  Context (E : entry -> Prop).
  Lemma rg_aes_enc kek pt aad :
    (forall wk ct, aes_open kek aad wk ct = Ok pt -> E (mkEntry kek aad wk ct pt)) ->
    rg E (aes_enc e kek pt aad : prog W _) (fun r => forall wk ct, r = Ok (wk, ct) -> E (mkEntry kek aad wk ct pt)).
  Proof.
    intros HE. unfold aes_enc.
    apply rg_bindR. eapply rg_mono; [|apply rg_get_bytes]. intros [key|x|] Hk; try discriminate. specialize (Hk _ eq_refl).
    apply rg_bindR. eapply rg_mono; [|apply rg_get_bytes]. intros [nonce|x|] Hn; try discriminate. specialize (Hn _ eq_refl).
    assert (Lk : length key = 32%nat) by (unfold blen, EncryptionKeyLength in Hk; lia).
    assert (Ln : length nonce = 12%nat) by (unfold blen in Hn; change nonceLength with 12%nat in Hn; lia).
    destruct (aes_seal_open kek pt aad key nonce Lk Ln) as (wk & ct & Hs & Ho & _).
    unfold aes_seal in Hs. unfold lift.
    destruct (aes_gcm_encrypt pt aad key nonce) as [ct'| |] eqn:Ec; cbn [res_bind] in Hs; try discriminate.
    destruct (aes_kwp_wrap kek key) as [wk'| |] eqn:Ew; cbn [res_bind] in Hs; try discriminate.
    injection Hs as -> ->. apply rg_bindR, rg_ret. apply rg_bindR, rg_ret. apply rg_bind.
    unfold act. cbn [rg]. intros w Hw Hf. right. cbn [fst snd w_log set_log]. split.
    - constructor; [|exact Hw]. now apply HE.
    - intros wk' ct' [= <- <-]. now apply HE.
  Qed.

  Lemma rg_aes_dec kek aad wk ct :
    rg E (aes_dec kek aad wk ct : prog W _) (fun r => forall pt, r = Ok pt ->
      aes_open kek aad wk ct = Ok pt /\ exists x, E x /\ e_kek x = kek /\ e_aad x = aad /\ e_wk x = wk /\ e_ct x = ct).
  Proof.
    unfold aes_dec, act. cbn [rg]. intros w HE Hf. cbn [fst snd].
    destruct (aes_open kek aad wk ct) as [pt| |] eqn:Eo; cbn [is_ok andb].
    - destruct (existsb _ _) eqn:Ex; cbn [negb]; [right|now left]. split; [exact HE|]. intros pt' [= <-]. split; [reflexivity|].
      apply existsb_exists in Ex as (x & Hin & Hx). apply entry_eqb_true in Hx. exists x. rewrite List.Forall_forall in HE.
      specialize (HE _ Hin). tauto.
    - right. split; [exact HE|discriminate].
    - right. split; [exact HE|discriminate].
  Qed.
  (** Log entries under these keys are true encryptions. *)
  Context (K : bytes -> Prop) (HK : forall x, E x -> K (e_kek x) -> aes_open (e_kek x) (e_aad x) (e_wk x) (e_ct x) = Ok (e_pt x)).
  Lemma rg_decrypt_json {A} kek (dec : json -> option A) aad wk ct : K kek ->
    rg E (decrypt_json (aes_cryptor e kek) dec aad wk ct : prog W _) (fun r => forall a, r = Ok a ->
      exists x, E x /\ e_kek x = kek /\ e_aad x = print aad /\ unmarshal dec (e_pt x) = Some a).
  Proof.
    intros Hk. unfold decrypt_json. apply rg_bindR. eapply rg_mono; [|apply rg_aes_dec]. cbn beta.
    intros [pt|x|] H; try discriminate. destruct (H _ eq_refl) as (Ho & x & HE & H1 & H2 & H3 & H4).
    destruct (unmarshal dec pt) as [a|] eqn:Eu; apply rg_ret; [|discriminate]. intros a' [= <-].
    exists x. splits; auto. assert (Hx := HK x HE). rewrite H1, H2, H3, H4, Ho in Hx. specialize (Hx Hk). congruence.
  Qed.
End Crypt.

(** ** The calls *)
Section Calls.
  Context {S I : Type} (e : env).
  Notation W := (world S I).
  Context (io : provider S) (idp : bytes -> prog W (res identity)) (d : d1).
  Context (calls : list d1_call) (who : bytes -> identity -> Prop) (made : nat -> stamp -> Prop).
  Notation K := (d1_key d).
  Notation oc := (aes_cryptor e (d_kek d) : cryptor W).
  Notation ac := (aes_cryptor e (d_aek d) : cryptor W).
  Notation tc := (aes_cryptor e (d_tek d) : cryptor W).
  Notation granted := (granted calls who made).
  Notation written := (written calls who made).
  Notation entitled := (entitled calls who made).
  Notation justified := (justified calls who made).

  Hypothesis clock_wf : forall n, time_wf (clock e n).
  Hypothesis calls_wf : Forall call_wf calls.
  (** What others log. *)
  Context (Ex : entry -> Prop) (HEx : forall x, K (e_kek x) -> Ex x).

  (** What each encryption under a D1 key is for. *)
  Definition for_object (x : entry) : Prop :=
    exists oid o, uuid_wf oid /\ e_aad x = print (object_aad oid (o_ad o)) /\ e_pt x = print (jbytes (o_pt o)) /\ written oid o.
  Definition for_access (x : entry) : Prop :=
    exists oid a, e_aad x = print (access_aad oid) /\ e_pt x = print (enc_access a) /\
      forall acl g, a_groups a = Some acl -> g ∈ acl -> granted oid (as_text g).
  Definition for_token (x : entry) : Prop :=
    exists t pt exp aad, e_pt x = print (jbytes pt) /\ time_wf exp /\ enc_time exp = Some aad /\ e_aad x = print aad /\
      calls !! t = Some (CCreateToken pt) /\ made t (SExp exp).
  Definition Ed1 (x : entry) : Prop :=
    ~ K (e_kek x) \/
    (aes_open (e_kek x) (e_aad x) (e_wk x) (e_ct x) = Ok (e_pt x) /\ (for_object x \/ for_access x \/ for_token x)).
  Definition E (x : entry) : Prop := Ex x /\ Ed1 x.
  Lemma E_true x : E x -> K (e_kek x) -> aes_open (e_kek x) (e_aad x) (e_wk x) (e_ct x) = Ok (e_pt x).
  Proof. intros [_ [H|[H _]]] Hk; [contradiction|exact H]. Qed.
  Lemma E_other x : ~ K (e_kek x) -> Ex x -> E x.
  Proof. intros H1 H2. split; [exact H2|now left]. Qed.
  Lemma E_own x : K (e_kek x) -> aes_open (e_kek x) (e_aad x) (e_wk x) (e_ct x) = Ok (e_pt x) -> for_object x \/ for_access x \/ for_token x -> E x.
  Proof. intros Hk Ho H. split; [now apply HEx|]. right. auto. Qed.

  Lemma In_wf c : In c calls -> call_wf c.
  Proof. pose proof calls_wf as H. rewrite List.Forall_forall in H. apply H. Qed.
  Lemma lookup_wf t c : calls !! t = Some c -> call_wf c.
  Proof. intros H. apply In_wf. apply elem_of_list_In. eapply elem_of_list_lookup_2; eauto. Qed.
  Lemma granted_valid oid g : granted oid g -> valid_utf8 g = true.
  Proof.
    intros H. destruct H; apply as_text_valid.
  Qed.

  (** What decryption under each key gives. *)
  Lemma E_access oid x a : E x -> e_kek x = d_aek d -> e_aad x = print (access_aad oid) -> unmarshal dec_access (e_pt x) = Some a ->
    forall acl g, a_groups a = Some acl -> g ∈ acl -> granted oid g.
  Proof.
    intros [_ [HE|[_ HE]]] Hk Ha Hu acl g Hg Hin; [exfalso; apply HE; rewrite Hk; unfold d1_key; auto|].
    destruct HE as [(oid' & o & _ & Ha' & Hp & _)|[(oid' & a' & Ha' & Hp & HG)|(t & pt & exp & aad & Hp & _ & Ht & Ha' & _)]].
    - rewrite Hp in Hu. apply access_of_bytes in Hu. congruence.
    - rewrite Ha in Ha'. apply access_aad_inj in Ha' as <-. rewrite Hp, access_roundtrip in Hu. injection Hu as <-. cbn [a_groups] in Hg.
      destruct (a_groups a') as [acl'|]; [|discriminate]. cbn [norm_set] in Hg. injection Hg as <-.
      apply elem_of_map in Hin as (y & -> & Hy). exact (HG _ _ eq_refl Hy).
    - rewrite Ha in Ha'. symmetry in Ha'. now apply (time_not_bytes _ _ _ Ht) in Ha'.
  Qed.
  Lemma E_object oid ad x pt : uuid_wf oid -> E x -> e_kek x = d_kek d -> e_aad x = print (object_aad oid ad) -> unmarshal dec_bytes (e_pt x) = Some pt ->
    exists o', written oid o' /\ same_object (mkObject pt ad) o'.
  Proof.
    intros Ho [_ [HE|[_ HE]]] Hk Ha Hu; [exfalso; apply HE; rewrite Hk; unfold d1_key; auto|].
    destruct HE as [(oid' & o & Ho' & Ha' & Hp & Hw)|[(oid' & a' & Ha' & Hp & HG)|(t & pt' & exp & aad & Hp & _ & Ht & Ha' & _)]].
    - rewrite Ha in Ha'. apply object_aad_inj in Ha' as [<- Had]; auto. rewrite Hp in Hu. apply bytes_of_bytes in Hu as ->.
      exists o. split; [exact Hw|]. split; [reflexivity|exact Had].
    - rewrite Hp in Hu. now apply bytes_of_access in Hu.
    - rewrite Ha in Ha'. symmetry in Ha'. now apply (time_not_bytes _ _ _ Ht) in Ha'.
  Qed.
  Lemma E_token exp aad x pt : time_wf exp -> enc_time exp = Some aad -> E x -> e_kek x = d_tek d -> e_aad x = print aad -> unmarshal dec_bytes (e_pt x) = Some pt ->
    exists t, calls !! t = Some (CCreateToken pt) /\ made t (SExp exp).
  Proof.
    intros Hwf Hexp [_ [HE|[_ HE]]] Hk Ha Hu; [exfalso; apply HE; rewrite Hk; unfold d1_key; auto|].
    destruct HE as [(oid' & o & Ho' & Ha' & Hp & Hw)|[(oid' & a' & Ha' & Hp & HG)|(t & pt' & exp' & aad' & Hp & Hwf' & Ht & Ha' & Hc & Hm)]].
    - rewrite Ha in Ha'. now apply (time_not_bytes _ _ _ Hexp) in Ha'.
    - rewrite Ha in Ha'. now apply (time_not_bytes _ _ _ Hexp) in Ha'.
    - rewrite Ha in Ha'. pose proof (time_aad_inj _ _ _ _ Hwf Hwf' Hexp Ht Ha') as <-. rewrite Hp in Hu. apply bytes_of_bytes in Hu as ->. eauto.
  Qed.

  Lemma may_intro i need oid a : scope_has (i_scopes i) need -> authorized i need a = true ->
    (forall acl g, a_groups a = Some acl -> g ∈ acl -> granted oid g) -> may i need (granted oid) /\ exists acl, a_groups a = Some acl.
  Proof.
    intros Hs Ha HG. destruct a as [[acl|] dek].
    - apply (authorized_on_list i need acl dek Hs) in Ha. split; [|eauto]. split; [exact Hs|].
      destruct Ha as [[H _]|(g & s & H1 & H2 & H3)]; [left; eapply HG; eauto; reflexivity|right; exists g, s; splits; auto; eapply HG; eauto; reflexivity].
    - exfalso. unfold authorized in Ha. apply existsb_exists in Ha as (g & _ & Hg). discriminate.
  Qed.

  (** ** Rely/guarantee for the pieces *)
  Hypothesis idp_rg : forall tok, rg E (idp tok) (fun r => forall i, r = Ok i -> who tok i).
  Notation rgE := (@rg S I _ E).

  Lemma rg_verify tok need : rgE (verify_access idp tok need) (fun r => forall i, r = Ok i -> who tok i /\ scope_has (i_scopes i) need).
  Proof.
    unfold verify_access. apply rg_bind. eapply rg_mono; [|apply idp_rg]. intros [i|x|] H; try (apply rg_ret; discriminate).
    destruct (scope_contains _ _) eqn:Es; apply rg_ret; [|discriminate]. intros i' [= <-]. split; [now apply H|]. now apply scope_contains_has.
  Qed.
  Lemma rg_io_any {A} (p : prog W (res A)) f : rgE p (fun _ => True) -> rgE (map_err f p) (fun _ => True).
  Proof. apply rg_map_err. Qed.
  Lemma rg_get_access oid : rgE (get_sealed_access io oid) (fun r => forall sa, r = Ok sa -> sa_oid sa = oid).
  Proof.
    unfold get_sealed_access. apply rg_bindR. eapply rg_mono; [|apply rg_map_err, rg_onio]. intros [b|x|] _; try discriminate.
    destruct (unmarshal _ b); apply rg_ret; [|discriminate]. now intros sa [= <-].
  Qed.
  Lemma rg_get_object oid : rgE (get_sealed_object io oid) (fun r => forall so, r = Ok so -> so_oid so = oid).
  Proof.
    unfold get_sealed_object. apply rg_bindR. eapply rg_mono; [|apply rg_map_err, rg_onio]. intros [b|x|] _; try discriminate.
    destruct (unmarshal _ b); apply rg_ret; [|discriminate]. now intros so [= <-].
  Qed.
  Definition checked tok oid need (a : access) : Prop :=
    entitled tok oid need /\ (forall acl g, a_groups a = Some acl -> g ∈ acl -> granted oid g) /\ exists acl, a_groups a = Some acl.
  Lemma rg_authorize tok i need oid sa : who tok i -> scope_has (i_scopes i) need -> sa_oid sa = oid ->
    rgE (authorize_access ac i need sa) (fun r => forall a, r = Ok a -> checked tok oid need a).
  Proof.
    intros Hw Hs Ho. unfold authorize_access. apply rg_bindR. unfold access_unseal.
    eapply rg_mono; [|apply (rg_decrypt_json e E K E_true); unfold d1_key; auto]. intros [a|x|] H; try discriminate.
    destruct (H _ eq_refl) as (x & HE & Hk & Ha & Hu). rewrite Ho in Ha.
    pose proof (E_access oid x a HE Hk Ha Hu) as HG.
    destruct (authorized i need a) eqn:Eu; apply rg_ret; [|discriminate]. intros a' [= <-].
    destruct (may_intro i need oid a Hs Eu HG) as [Hm Hne]. split; [|split]; [exists i; auto|exact HG|exact Hne].
  Qed.
  (** The common prefix of the calls on an existing object. *)
  Lemma rg_load {A} tok oid need (k : access -> prog W (res A)) (Q : res A -> Prop) :
    (forall x, Q (Err x)) -> Q Panic -> (forall a, checked tok oid need a -> rgE (k a) Q) ->
    rgE (bindR (verify_access idp tok need) (fun i => bindR (get_sealed_access io oid) (fun sa => bindR (authorize_access ac i need sa) k))) Q.
  Proof.
    intros QE QP Hk. apply rg_bindR. eapply rg_mono; [|apply rg_verify]. intros [i|x|] Hi; auto. destruct (Hi _ eq_refl) as [Hw Hs].
    apply rg_bindR. eapply rg_mono; [|apply rg_get_access]. intros [sa|x|] Hsa; auto. specialize (Hsa _ eq_refl).
    apply rg_bindR. eapply rg_mono; [|apply (rg_authorize tok); eauto]. intros [a|x|] Ha; auto.
  Qed.
  Lemma rg_object_seal oid o : uuid_wf oid -> written oid o ->
    rgE (object_seal oc o oid) (fun _ => True).
  Proof.
    intros Ho Hw. unfold object_seal. apply rg_bindR. eapply rg_mono; [|apply rg_aes_enc].
    - intros [[wk ct]|x|] _; exact Logic.I.
    - intros wk ct Hopen. apply E_own; [unfold d1_key; auto|exact Hopen|]. left. exists oid, o. cbn. auto.
  Qed.
  Lemma granted_text oid g : granted oid g -> granted oid (as_text g).
  Proof. intros H. rewrite as_text_id; [exact H|]. eapply granted_valid; eauto. Qed.
  Lemma rg_access_seal oid a : (forall acl g, a_groups a = Some acl -> g ∈ acl -> granted oid (as_text g)) ->
    rgE (access_seal ac a oid) (fun _ => True).
  Proof.
    intros HG. unfold access_seal. apply rg_bindR. eapply rg_mono; [|apply rg_aes_enc].
    - intros [[wk ct]|x|] _; exact Logic.I.
    - intros wk ct Hopen. apply E_own; [unfold d1_key; auto|exact Hopen|]. right; left. exists oid, a. cbn. auto.
  Qed.
  Lemma rg_put_object so u : rgE (put_sealed_object io so u) (fun _ => True).
  Proof. unfold put_sealed_object. destruct u; apply rg_map_err, rg_onio. Qed.
  Lemma rg_put_access sa u : rgE (put_sealed_access io sa u) (fun _ => True).
  Proof. unfold put_sealed_access. destruct u; apply rg_map_err, rg_onio. Qed.

  (** ** The calls *)
  Definition granting (oid : uuid) (r : res d1_reply) (c : d1_call) : Prop := forall x, r = Ok x -> justified c x.
  Notation Jc c := (fun r : res d1_reply => forall x, r = Ok x -> justified c x).
  Lemma rg_ret_map {A} (f : A -> d1_reply) (p : prog W (res A)) c :
    rgE p (fun r => forall x, r = Ok x -> justified c (f x)) -> rgE (ret_map f p) (Jc c).
  Proof.
    intros H. unfold ret_map. apply rg_bind. eapply rg_mono; [|exact H]. intros [a|x|] Ha; apply rg_ret; try discriminate.
    intros x [= <-]. auto.
  Qed.
  Ltac load := match goal with H : call_wf ?c |- _ => idtac end; eapply rg_load; [discriminate|discriminate|]; intros a (Hent & HG & Hne).

  Lemma rg_update tok oid o : In (CUpdate tok oid o) calls ->
    rgE (d1_do e io idp oc ac tc (CUpdate tok oid o)) (Jc (CUpdate tok oid o)).
  Proof.
    intros Hin. pose proof (In_wf _ Hin) as (Hw & _). specialize (Hw _ eq_refl). cbn [d1_do]. apply rg_ret_map. unfold d1_update.
    apply (rg_load tok oid ScopeUpdate); [discriminate|discriminate|]. intros a (Hent & HG & Hne).
    apply rg_bindR. eapply rg_mono; [|apply rg_object_seal; [exact Hw|]].
    2:{ right. destruct Hent as (i & Hwho & Hm). eauto. }
    intros [[dek so]|x|] _; try discriminate.
    apply rg_bindR. eapply rg_mono; [|apply rg_access_seal; eauto using granted_text]. intros [sa'|x|] _; try discriminate.
    apply rg_bindR. eapply rg_mono; [|apply rg_put_object]. intros [[]|x|] _; try discriminate.
    apply rg_bindR. eapply rg_mono; [|apply rg_put_access]. intros [[]|x|] _; try discriminate.
    apply rg_ret. intros _ _. exact Hent.
  Qed.
  Lemma rg_decrypt tok oid : uuid_wf oid ->
    rgE (d1_do e io idp oc ac tc (CDecrypt tok oid)) (Jc (CDecrypt tok oid)).
  Proof.
    intros Hw. cbn [d1_do]. apply rg_ret_map. unfold d1_decrypt.
    apply (rg_load tok oid ScopeDecrypt); [discriminate|discriminate|]. intros a (Hent & HG & Hne).
    apply rg_bindR. eapply rg_mono; [|apply rg_get_object]. intros [so|x|] Hso; try discriminate. specialize (Hso _ eq_refl).
    unfold object_unseal. apply rg_bindR. eapply rg_mono; [|apply (rg_decrypt_json e E K E_true); unfold d1_key; auto].
    intros [pt|x|] H; try discriminate. destruct (H _ eq_refl) as (x & HE & Hk & Ha & Hu). rewrite Hso in Ha.
    apply rg_ret. intros o [= <-]. split; [exact Hent|]. eapply E_object; eauto.
  Qed.
  Lemma rg_delete tok oid : rgE (d1_do e io idp oc ac tc (CDelete tok oid)) (Jc (CDelete tok oid)).
  Proof.
    cbn [d1_do]. apply rg_ret_map. unfold d1_delete.
    apply rg_bindR. eapply rg_mono; [|apply rg_verify]. intros [i|x|] Hi; try discriminate. destruct (Hi _ eq_refl) as [Hw Hs].
    assert (Hok : forall x : unit, justified (CDelete tok oid) RUnit) by (intros; exists i; auto).
    apply rg_bind. eapply rg_mono; [|apply rg_get_access]. intros [sa|x|] Hsa; [|destruct x; apply rg_ret; (discriminate || auto)|apply rg_ret; discriminate].
    specialize (Hsa _ eq_refl). apply rg_bindR. eapply rg_mono; [|apply (rg_authorize tok); eauto]. intros [a|x|] _; try discriminate.
    apply rg_bindR. eapply rg_mono; [|apply rg_onio]. intros [[]|x|] _; try discriminate.
    apply rg_bindR. eapply rg_mono; [|apply rg_onio]. intros [[]|x|] _; try discriminate.
    apply rg_ret. auto.
  Qed.
  Lemma rg_get_groups tok oid : rgE (d1_do e io idp oc ac tc (CGetAccessGroups tok oid)) (Jc (CGetAccessGroups tok oid)).
  Proof.
    cbn [d1_do]. apply rg_ret_map. unfold d1_get_access_groups.
    apply (rg_load tok oid ScopeGetAccessGroups); [discriminate|discriminate|]. intros a (Hent & HG & acl & Hacl).
    apply rg_ret. intros x [= <-]. split; [exact Hent|]. exists acl. split; [exact Hacl|]. intros g. now apply HG.
  Qed.
  Lemma rg_auth tok oid : rgE (d1_do e io idp oc ac tc (CAuthorize tok oid)) (Jc (CAuthorize tok oid)).
  Proof.
    cbn [d1_do]. apply rg_ret_map. unfold d1_authorize.
    apply (rg_load tok oid ScopeGetAccessGroups); [discriminate|discriminate|]. intros a (Hent & HG & acl & Hacl).
    apply rg_ret. intros x [= <-]. exact Hent.
  Qed.
  Lemma rg_add tok oid gs : In (CAddGroups tok oid gs) calls ->
    rgE (d1_do e io idp oc ac tc (CAddGroups tok oid gs)) (Jc (CAddGroups tok oid gs)).
  Proof.
    intros Hin. cbn [d1_do]. apply rg_ret_map. unfold d1_add_groups.
    apply (rg_load tok oid ScopeModifyAccessGroups); [discriminate|discriminate|]. intros a (Hent & HG & acl & Hacl).
    apply rg_bindR. unfold lift. apply rg_ret. rewrite Hacl. destruct (add_groups (Some acl) gs) as [gs'|x|] eqn:Eg; try discriminate.
    apply rg_bindR. eapply rg_mono; [|apply (rg_access_seal oid)].
    - intros [sa'|x|] _; try discriminate. eapply rg_mono; [|apply rg_put_access]. intros _ _ x _. exact Hent.
    - cbn [a_groups]. intros acl' g -> Hg. destruct gs as [|g0 gs0]; cbn [add_groups] in Eg; injection Eg as <-; [eauto using granted_text|].
      apply elem_of_union in Hg as [Hg|Hg]; [|eauto using granted_text]. change (g ∈ (list_to_set (g0 :: gs0) : gset bytes)) in Hg.
      apply elem_of_list_to_set, elem_of_list_In in Hg.
      destruct Hent as (i & Hw & Hm). eapply gr_add; eauto.
  Qed.
  Lemma rg_remove tok oid gs :
    rgE (d1_do e io idp oc ac tc (CRemoveGroups tok oid gs)) (Jc (CRemoveGroups tok oid gs)).
  Proof.
    cbn [d1_do]. apply rg_ret_map. unfold d1_remove_groups.
    apply (rg_load tok oid ScopeModifyAccessGroups); [discriminate|discriminate|]. intros a (Hent & HG & acl & Hacl).
    apply rg_bindR. eapply rg_mono; [|apply (rg_access_seal oid)].
    - intros [sa'|x|] _; try discriminate. eapply rg_mono; [|apply rg_put_access]. intros _ _ x _. exact Hent.
    - cbn [a_groups]. rewrite Hacl. cbn [remove_groups]. intros acl' g [= <-] Hg. apply elem_of_difference in Hg as [Hg _]. eauto using granted_text.
  Qed.
  Lemma rg_contents t : time_wf (st_exp t) ->
    rgE (d1_do e io idp oc ac tc (CGetTokenContents t)) (Jc (CGetTokenContents t)).
  Proof.
    intros Hw. cbn [d1_do]. apply rg_ret_map. unfold d1_get_token_contents, token_unseal.
    apply rg_bindR, rg_bind. eapply rg_mono; [|apply rg_time]. intros now _. destruct (time_before _ _); [apply rg_ret; discriminate|].
    destruct (enc_time (st_exp t)) as [aad|] eqn:Et; [|apply rg_ret; discriminate].
    apply rg_bindR. eapply rg_mono; [|apply (rg_decrypt_json e E K E_true); unfold d1_key; auto].
    intros [pt|x|] H; [|cbn; discriminate..]. destruct (H _ eq_refl) as (x & HE & Hk & Ha & Hu).
    apply rg_ret, rg_ret. intros p [= <-]. cbn [t_pt justified]. eapply E_token; eauto.
  Qed.

  (** Encrypt and CreateToken: what they make is known part-way. *)
  Notation two t c p := (rg2 E p (stamped_prog E stamped (made t) (Jc c))).
  Lemma stop_err t c x : stamped_prog (S := S) (I := I) E stamped (made t) (Jc c) (Ret (Err x)).
  Proof. exists (SOid []). split; [exact Logic.I|]. intros _. apply rg_ret. discriminate. Qed.
  Lemma stop_panic t c : stamped_prog (S := S) (I := I) E stamped (made t) (Jc c) (Ret Panic).
  Proof. exists (SOid []). split; [exact Logic.I|]. intros _. apply rg_ret. discriminate. Qed.
  Lemma rg2_bind_bind {A B C} (p : prog W A) (k : A -> prog W B) (g : B -> prog W C) P2 :
    rgE p (fun a => rg2 E (bind (k a) g) P2) -> rg2 E (bind (bind p k) g) P2.
  Proof.
    induction p as [a|X f c IH]; cbn [rg bind]; [auto|]. intros H. right. intros w HE Hf. destruct (H w HE Hf) as [D|[D1 D2]]; auto.
  Qed.
  Lemma two_bindR {A B} t c (f : B -> d1_reply) (p : prog W (res A)) (k : A -> prog W (res B)) :
    rgE p (fun r => forall a, r = Ok a -> two t c (ret_map f (k a))) -> two t c (ret_map f (bindR p k)).
  Proof.
    intros H. unfold ret_map, bindR. apply rg2_bind_bind. eapply rg_mono; [|exact H].
    intros [a|x|] Ha; [now apply Ha|apply rg2_now, stop_err|apply rg2_now, stop_panic].
  Qed.
  Lemma leaves_ret_map {A} (P : res d1_reply -> Prop) (f : A -> d1_reply) (p : prog W (res A)) :
    leaves (fun r => P (res_map f r)) p -> leaves P (ret_map f p).
  Proof. intros H. unfold ret_map. induction p as [a|X g k IH]; cbn [leaves bind] in *; auto. Qed.

  Lemma two_encrypt t tok o gs : calls !! t = Some (CEncrypt tok o gs) ->
    two t (CEncrypt tok o gs) (d1_do e io idp oc ac tc (CEncrypt tok o gs)).
  Proof.
    intros Hc. cbn [d1_do]. unfold d1_encrypt.
    apply two_bindR. eapply rg_mono; [|apply rg_verify]. intros r Hi i Hr. destruct (Hi _ Hr) as [Hw Hs].
    apply two_bindR. unfold new_v4. apply rg_bindR. eapply rg_mono; [|apply rg_get_bytes]. intros [b|x|] Hb; [apply rg_ret|discriminate..].
    intros oid [= <-]. specialize (Hb _ eq_refl). set (oid := uuid_v4 b). assert (Ho : uuid_wf oid) by (apply uuid_v4_wf; unfold blen in Hb; lia).
    apply rg2_now. exists (SOid oid). split.
    - apply leaves_ret_map. cbn [res_map stamped].
      repeat (apply leaves_bindR; [intros; exact Logic.I|exact Logic.I|]; intros). destruct a as [dek so].
      repeat (apply leaves_bindR; [intros; exact Logic.I|exact Logic.I|]; intros). reflexivity.
    - intros Hm. apply rg_ret_map. apply rg_bindR. eapply rg_mono; [|apply (rg_object_seal oid); [exact Ho|]].
      2:{ left. eauto 10. }
      intros [[dek so]|x|] _; try discriminate. apply rg_bindR. apply rg_ret.
      destruct (add_groups (a_groups (new_access dek)) (gs ++ [i_id i])) as [g'|x|] eqn:Eg; try discriminate.
      apply rg_bindR. eapply rg_mono; [|apply (rg_access_seal oid)].
      2:{ cbn [a_groups]. intros acl g -> Hg. cbn [new_access a_groups] in Eg.
          assert (g ∈ (list_to_set (gs ++ [i_id i]) : gset bytes)) as Hg'.
          { destruct (gs ++ [i_id i]) as [|g0 l]; cbn [add_groups] in Eg; injection Eg as <-; [exact Hg|].
            apply elem_of_union in Hg as [Hg|Hg]; [exact Hg|now apply elem_of_empty in Hg]. }
          apply elem_of_list_to_set, elem_of_list_In, in_app_or in Hg'. eapply gr_encrypt; eauto.
          destruct Hg' as [Hg'|[Hg'|[]]]; cbn [In]; auto. }
      intros [sa'|x|] _; try discriminate.
      apply rg_bindR. eapply rg_mono; [|apply rg_put_object]. intros [[]|x|] _; try discriminate.
      apply rg_bindR. eapply rg_mono; [|apply rg_put_access]. intros [[]|x|] _; try discriminate.
      apply rg_ret. intros x _. exists i. auto.
  Qed.
  Lemma two_token t pt : calls !! t = Some (CCreateToken pt) ->
    two t (CCreateToken pt) (d1_do e io idp oc ac tc (CCreateToken pt)).
  Proof.
    intros Hc. cbn [d1_do]. unfold d1_create_token, ret_map. apply rg2_bind_bind. unfold new_token. apply rg_bind.
    unfold time_now, act. cbn [rg]. intros w HE Hf. right. split; [exact HE|]. cbn [fst].
    set (exp := time_add (clock e (w_ticks w)) TokenValidity).
    assert (Hexp : time_wf exp) by apply clock_wf.
    apply rg2_now. exists (SExp exp). unfold token_seal. cbn [t_exp].
    destruct (enc_time exp) as [aad|] eqn:Et.
    - split.
      + apply leaves_ret_map. apply leaves_bindR; [intros; exact Logic.I|exact Logic.I|]. intros [wk ct]. reflexivity.
      + intros Hm. apply rg_ret_map. apply rg_bindR. eapply rg_mono; [|apply rg_aes_enc].
        * intros [[wk ct]|x|] _; try discriminate. apply rg_ret. intros x _. exact Logic.I.
        * intros wk ct Hopen. apply E_own; [unfold d1_key; auto|exact Hopen|]. right; right. exists t, pt, exp, aad. cbn [e_pt e_aad t_pt]. splits; auto.
    - split; [exact Logic.I|]. intros _. apply rg_ret. discriminate.
  Qed.

  (** All calls. *)
  Definition TI (t : nat) (p : prog W (res d1_reply)) : Prop :=
    exists c, calls !! t = Some c /\ (rgE p (Jc c) \/ two t c p).
  Lemma TI_call t c : calls !! t = Some c -> TI t (d1_aes e io idp d c).
  Proof.
    intros Hc. pose proof (lookup_wf _ _ Hc) as (Hwf & Ht).
    assert (Hin : In c calls) by (apply elem_of_list_In; eapply elem_of_list_lookup_2; eauto).
    exists c. split; [exact Hc|]. unfold d1_aes.
    destruct c.
    - right. now apply two_encrypt.
    - left. now apply rg_update.
    - left. apply rg_decrypt. now apply Hwf.
    - left. apply rg_delete.
    - left. apply rg_get_groups.
    - left. now apply rg_add.
    - left. apply rg_remove.
    - left. apply rg_auth.
    - right. now apply two_token.
    - left. now apply rg_contents.
  Qed.
End Calls.

(** ** No call lowers the flag *)
Section Fmono.
  Context {S I : Type} (e : env).
  Notation W := (world S I).
  Context (io : provider S) (idp : bytes -> prog W (res identity)) (d : d1).
  Hypothesis idp_fmono : forall tok, fmono (idp tok).
  Lemma fmono_call c : fmono (d1_aes e io idp d c).
  Proof.
    assert (HV : forall tok need, fmono (verify_access idp tok need)).
    { intros. unfold verify_access. apply fmono_bind; [apply idp_fmono|]. intros [i|x|]; try exact Logic.I. destruct (scope_contains _ _); exact Logic.I. }
    assert (HGA : forall oid, fmono (get_sealed_access io oid : prog W _)).
    { intros. unfold get_sealed_access. apply fmono_bindR; [apply fmono_map_err, fmono_onio|]. intros b. destruct (unmarshal _ _); exact Logic.I. }
    assert (HGO : forall oid, fmono (get_sealed_object io oid : prog W _)).
    { intros. unfold get_sealed_object. apply fmono_bindR; [apply fmono_map_err, fmono_onio|]. intros b. destruct (unmarshal _ _); exact Logic.I. }
    assert (HAZ : forall i need sa, fmono (authorize_access (aes_cryptor e (d_aek d)) i need sa : prog W _)).
    { intros. unfold authorize_access, access_unseal. apply fmono_bindR; [apply fmono_decrypt_json|]. intros a. destruct (authorized _ _ _); exact Logic.I. }
    assert (HOS : forall o oid, fmono (object_seal (aes_cryptor e (d_kek d)) o oid : prog W _)).
    { intros. unfold object_seal. apply fmono_bindR; [apply fmono_encrypt_json|]. intros [wk ct]. exact Logic.I. }
    assert (HAS : forall a oid, fmono (access_seal (aes_cryptor e (d_aek d)) a oid : prog W _)).
    { intros. unfold access_seal. apply fmono_bindR; [apply fmono_encrypt_json|]. intros [wk ct]. exact Logic.I. }
    assert (HPO : forall so u, fmono (put_sealed_object io so u : prog W _)) by (intros; unfold put_sealed_object; destruct u; apply fmono_map_err, fmono_onio).
    assert (HPA : forall so u, fmono (put_sealed_access io so u : prog W _)) by (intros; unfold put_sealed_access; destruct u; apply fmono_map_err, fmono_onio).
    assert (HM : forall A (f : A -> d1_reply) (p : prog W (res A)), fmono p -> fmono (ret_map f p)).
    { intros. unfold ret_map. apply fmono_bind; [assumption|]. intros; exact Logic.I. }
    unfold d1_aes. destruct c; cbn [d1_do]; apply HM.
    - unfold d1_encrypt, new_v4. apply fmono_bindR; [apply HV|intros i]. apply fmono_bindR; [apply fmono_bindR; [apply fmono_get_bytes|intros; exact Logic.I]|intros oid].
      apply fmono_bindR; [apply HOS|intros [dek so]]. apply fmono_bindR; [apply fmono_lift|intros gs]. apply fmono_bindR; [apply HAS|intros sa].
      apply fmono_bindR; [apply HPO|intros _]. apply fmono_bindR; [apply HPA|intros _]. exact Logic.I.
    - unfold d1_update. apply fmono_bindR; [apply HV|intros i]. apply fmono_bindR; [apply HGA|intros sa]. apply fmono_bindR; [apply HAZ|intros a].
      apply fmono_bindR; [apply HOS|intros [dek so]]. apply fmono_bindR; [apply HAS|intros sa'].
      apply fmono_bindR; [apply HPO|intros _]. apply fmono_bindR; [apply HPA|intros _]. exact Logic.I.
    - unfold d1_decrypt. apply fmono_bindR; [apply HV|intros i]. apply fmono_bindR; [apply HGA|intros sa]. apply fmono_bindR; [apply HAZ|intros a].
      apply fmono_bindR; [apply HGO|intros so]. unfold object_unseal. apply fmono_bindR; [apply fmono_decrypt_json|intros; exact Logic.I].
    - unfold d1_delete. apply fmono_bindR; [apply HV|intros i]. apply fmono_bind; [apply HGA|intros [sa|x|]]; [|destruct x; exact Logic.I|exact Logic.I].
      apply fmono_bindR; [apply HAZ|intros a]. apply fmono_bindR; [apply fmono_onio|intros _]. apply fmono_bindR; [apply fmono_onio|intros _]. exact Logic.I.
    - unfold d1_get_access_groups. apply fmono_bindR; [apply HV|intros i]. apply fmono_bindR; [apply HGA|intros sa]. apply fmono_bindR; [apply HAZ|intros a]. exact Logic.I.
    - unfold d1_add_groups. apply fmono_bindR; [apply HV|intros i]. apply fmono_bindR; [apply HGA|intros sa]. apply fmono_bindR; [apply HAZ|intros a].
      apply fmono_bindR; [apply fmono_lift|intros gs]. apply fmono_bindR; [apply HAS|intros sa']. apply HPA.
    - unfold d1_remove_groups. apply fmono_bindR; [apply HV|intros i]. apply fmono_bindR; [apply HGA|intros sa]. apply fmono_bindR; [apply HAZ|intros a].
      apply fmono_bindR; [apply HAS|intros sa']. apply HPA.
    - unfold d1_authorize. apply fmono_bindR; [apply HV|intros i]. apply fmono_bindR; [apply HGA|intros sa]. apply fmono_bindR; [apply HAZ|intros a]. exact Logic.I.
    - unfold d1_create_token, new_token, token_seal. apply fmono_bind; [apply fmono_bind; [apply fmono_time|intros; exact Logic.I]|intros t].
      destruct (enc_time _); [|exact Logic.I]. apply fmono_bindR; [apply fmono_encrypt_json|intros [wk ct]; exact Logic.I].
    - unfold d1_get_token_contents, token_unseal. apply fmono_bindR; [|intros; exact Logic.I]. apply fmono_bind; [apply fmono_time|intros now].
      destruct (time_before _ _); [exact Logic.I|]. destruct (enc_time _); [|exact Logic.I]. apply fmono_bindR; [apply fmono_decrypt_json|intros; exact Logic.I].
  Qed.
End Fmono.

Lemma map_lookup_Some {A B} (f : A -> B) (l : list A) t y : map f l !! t = Some y -> exists x, y = f x /\ l !! t = Some x.
Proof.
  revert t. induction l as [|a l IH]; intros [|t] H; cbn in *; try discriminate; [injection H as <-; eauto|auto].
Qed.

(** ** The result *)
Section Result.
  Context {S I : Type} (e : env).
  Notation W := (world S I).
  Lemma sched_sound (io : provider S) (idp : bytes -> prog W (res identity)) (d : d1) calls (who : bytes -> identity -> Prop) (w w' : W) pool' :
    (forall n, time_wf (clock e n)) -> Forall call_wf calls ->
    (forall tok, outsider (d1_key d) (idp tok) (fun r => forall i, r = Ok i -> who tok i)) ->
    Forall (fun x => ~ d1_key d (e_kek x)) (w_log w) ->
    exec (d1_key d) (map (d1_aes e io idp d) calls) w pool' w' ->
    w_forged w' = false ->
    forall t c r, calls !! t = Some c -> pool' !! t = Some (Ret (Ok r)) -> justified calls who (answered_only pool') c r.
  Proof.
    intros Hcl Hca Hidp Hlog Hex Hforged t c r Hc Hr.
    set (made := answered_only pool'). set (EE := E d calls who made (fun _ => True)).
    assert (EO : forall x, ~ d1_key d (e_kek x) -> EE x) by (intros x Hx; now apply E_other).
    assert (Hrg : forall tok, rg EE (idp tok) (fun r => forall i, r = Ok i -> who tok i)).
    { intros tok. eapply outsider_rg; [|apply Hidp]. exact EO. }
    destruct (exec_sound (d1_key d) EE (TI d calls who made (fun _ => True)) _ _ _ _ Hex) as [C|[_ HT]].
    - exact EO.
    - intros t0 p Hp. apply map_lookup_Some in Hp as (c0 & -> & _). apply fmono_call. intros tok. eapply outsider_fmono, Hidp.
    - intros _. split; [eapply List.Forall_impl; [|exact Hlog]; exact EO|].
      intros t0 p Hp. apply map_lookup_Some in Hp as (c0 & -> & Hc0). now apply TI_call.
    - intros t0 X f k (c0 & Hc0 & [HT|HT]) HL w0 HE Hf0.
      + destruct (HT w0 HE Hf0) as [C|[C1 C2]]; [now left|right]. split; [exact C1|]. exists c0. auto.
      + destruct (rg2_kept EE pool' t0 stamped (made t0) (fun r => forall x, r = Ok x -> justified calls who made c0 x)) with (X := X) (f := f) (k := k) (w := w0) as [C|[C1 C2]]; auto.
        * intros s p' Hp' HL' r0 Hr0. rewrite Hp' in Hr0. injection Hr0 as ->. exact HL'.
        * right. split; [exact C1|]. exists c0. auto.
    - congruence.
    - destruct (HT t _ Hr) as (c0 & Hc0 & HC). rewrite Hc in Hc0. injection Hc0 as <-. destruct HC as [HC|[(s & Hs & HC)|[]]].
      + now apply HC.
      + apply HC; [|reflexivity]. intros r0 Hr0. rewrite Hr in Hr0. injection Hr0 as <-. exact Hs.
  Qed.
End Result.

(** ** Building executions *)
Section Build.
  Context {S I A : Type}.
  Notation W := (world S I).
  Lemma exec_run (K : bytes -> Prop) (pool : list (prog W A)) (w : W) t p pool' (w' : W) :
    pool !! t = Some p -> exec K (<[t := Ret (fst (run p w))]> pool) (snd (run p w)) pool' w' -> exec K pool w pool' w'.
  Proof.
    revert pool w. induction p as [a|X f k IH]; intros pool w Ht H; cbn [run fst snd] in *.
    - now rewrite list_insert_id in H.
    - destruct (f w) as [x w1] eqn:Ef. eapply x_step; [exact Ht|]. rewrite Ef. cbn [fst snd]. eapply IH.
      + apply list_lookup_insert. eapply lookup_lt_Some; eauto.
      + rewrite list_insert_insert. exact H.
  Qed.

  (** One call after the other. *)
  Fixpoint seq_run (ps : list (prog W A)) (w : W) : list A * W :=
    match ps with
    | [] => ([], w)
    | p :: ps => let '(r, w1) := run p w in let '(rs, w2) := seq_run ps w1 in (r :: rs, w2)
    end.
  Lemma exec_seq (K : bytes -> Prop) (ps : list (prog W A)) (w : W) rs (w' : W) : seq_run ps w = (rs, w') ->
    exec K ps w (map Ret rs) w'.
  Proof.
    assert (G : forall dn : list A, seq_run ps w = (rs, w') -> exec K (map Ret dn ++ ps) w (map Ret (dn ++ rs)) w').
    { revert w rs. induction ps as [|p ps IH]; intros w rs dn H; cbn [seq_run] in H.
      - injection H as <- <-. rewrite !app_nil_r. constructor.
      - destruct (run p w) as [r w1] eqn:Er. destruct (seq_run ps w1) as [rs1 w2] eqn:Es. injection H as <- <-.
        assert (Lt : (map Ret dn ++ p :: ps) !! length (map (@Ret W A) dn) = Some p) by now apply list_lookup_middle.
        eapply exec_run; [exact Lt|]. rewrite Er. cbn [fst snd].
        rewrite <- (Nat.add_0_r (length (map (@Ret W A) dn))), insert_app_r. cbn [insert list_insert].
        specialize (IH w1 rs1 (dn ++ [r]) Es). rewrite map_app, <- !app_assoc in IH. exact IH. }
    exact (G []).
  Qed.

  (** A given schedule. *)
  Fixpoint play (sched : list nat) (pool : list (prog W A)) (w : W) : list (prog W A) * W :=
    match sched with
    | [] => (pool, w)
    | t :: sched =>
        match pool !! t with
        | Some (Step f k) => let '(x, w1) := f w in play sched (<[t := k x]> pool) w1
        | _ => play sched pool w
        end
    end.
  Lemma exec_play (K : bytes -> Prop) sched : forall pool (w : W),
    exec K pool w (fst (play sched pool w)) (snd (play sched pool w)).
  Proof.
    induction sched as [|t sched IH]; intros pool w; cbn [play]; [constructor|].
    destruct (pool !! t) as [[a|X f k]|] eqn:Et; try apply IH.
    destruct (f w) as [x w1] eqn:Ef. eapply x_step; [exact Et|]. rewrite Ef. cbn [fst snd]. apply IH.
  Qed.
End Build.
